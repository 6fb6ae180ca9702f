(** C77: lpv.fir (and lti.fir) bit for bit. *)
From Coq Require Import List Arith Lia ZArith Bool QArith Qcanon.
From Verif Require Import Scalar Ordered FloatQ Spec SpecRound SpecFilter SpecLpv Tensor TensorLemmas TensorOps TensorAlg TensorTac TensorList Shapes SpecBits SpecScale
  Algebra M_Mat M_Kernels M_LtiSsm P_Kernels P_LtiSsm M_LtiFilter M_Ext M_LpvSsm P_LpvSsm M_LpvFilter P_Filter P_Round P_Round6 P_Round10 P_Bits P_Bits2 P_Scale
  Properties_Round Properties_Bits Properties_Bits2 Properties_Bits3 Properties_Bits4 Properties_Bits5 Properties_Scale.
Import ListNotations.
Close Scope Qc_scope. Close Scope Q_scope. Open Scope nat_scope.

Section S.
Variable F : ofield.
Variables (fadd fmul fsub : F -> F -> F).
Notation Fl := (flops F fadd fmul fsub).
Notation ten := (tensor (car Fl)).

(** ** The operations *)
(** The M + 1 samples that end at time n, from the oldest on; [z] holds the samples before
    time 0, the newest first. *)
Definition window (M : nat) (x z : nat -> F) (n k : nat) : F := if n + k <? M then z (M - 1 - (n + k)) else x (n + k - M).
(** The products are summed from the oldest on. *)
Definition fir_y (M : nat) (b : nat -> nat -> F) (x z : nat -> F) (n : nat) : F :=
  bsum (R := Fl) (S M) (fun k => fmul (window M x z n k) (b n (M - k))).
(** The last M samples, the newest first. *)
Definition fir_z (x z : nat -> F) (N k : nat) : F := if k <? N then x (N - 1 - k) else z (k - N).

Theorem C77_fir B N M (b x : ten) zi (bf : nat -> nat -> nat -> F) (xf zf : nat -> nat -> F) :
  1 <= N -> is3 b B N (S M) bf -> is2 x B N xf -> init2 Fl B M zi zf ->
  exists y zo, lpv_fir b x zi false = Ok (y, zo) /\ is2 y B N (fun i => fir_y M (bf i) (xf i) (zf i)) /\
    match zi with None => zo = None | Some _ => exists z, zo = Some z /\ is2 z B M (fun i => fir_z (xf i) (zf i) N) end.
Proof.
  intros HN Hb Hx Hz. destruct zi as [z|]; cbn [init2] in Hz.
  - unfold lpv_fir. rkt. cbn [Nat.eqb]. unfold size. rewrite (proj1 Hb), (proj1 Hx), (proj1 Hz). cbn [nth]. rewrite Nat.add_1_r, !Nat.eqb_refl. cbn [andb bind].
    destruct (f_fir_core F fadd fmul fsub B N M b x z bf xf zf Hb Hx Hz HN) as (c & t & y & -> & Et & Ey & Hy & l & El & Hl). cbn [bind].
    rewrite Et. cbn [bind]. rewrite Ey. cbn [bind]. rewrite El. cbn [bind]. eexists y, _. split; [reflexivity|]. split; [exact Hy|].
    eexists. split; [reflexivity|]. exact Hl.
  - unfold lpv_fir. rkt. cbn [Nat.eqb]. unfold size. rewrite (proj1 Hb), (proj1 Hx). cbn [nth]. rewrite !Nat.eqb_refl. cbn [andb bind].
    btrue (1 <=? S M). cbn [bind]. replace (S M - 1) with M by lia.
    destruct (f_fir_core F fadd fmul fsub B N M b x _ bf xf _ Hb Hx (f_zeros_2 F fadd fmul fsub B M) HN) as (c & t & y & -> & Et & Ey & Hy & _). cbn [bind].
    rewrite Et. cbn [bind]. rewrite Ey. cbn [bind]. eexists y, _. split; [reflexivity|]. split; [|reflexivity].
    eapply is2_ext; [exact Hy|]. intros i n Hi Hn. apply (bsum_ext (R := Fl)). intros k Hk. apply (f_equal2 fmul); [|reflexivity].
    unfold vcatv, window. destruct (n + k <? M) eqn:E; [|reflexivity]. b2p. symmetry. apply Hz; lia.
Qed.

(** ** Consequences *)
Lemma fir_y_ext M (b b' : nat -> nat -> F) (x x' z z' : nat -> F) n :
  (forall k, k <= M -> b n k = b' n k) -> (forall m, m <= n -> x m = x' m) -> (forall k, k < M -> z k = z' k) -> fir_y M b x z n = fir_y M b' x' z' n.
Proof.
  intros Hb Hx Hz. apply (bsum_ext (R := Fl)). intros k Hk. apply (f_equal2 fmul); [|apply Hb; lia].
  unfold window. destruct (n + k <? M) eqn:E; b2p; [apply Hz; lia|apply Hx; lia].
Qed.
(** Two chunks of any lengths, the second started in the final state of the first, are the whole. *)
Theorem C77_stream B N1 N2 M (b1 x1 b2 x2 b x zi : ten) (bf : nat -> nat -> nat -> F) (xf zf : nat -> nat -> F) :
  1 <= N1 -> 1 <= N2 -> is3 b B (N1 + N2) (S M) bf -> is2 x B (N1 + N2) xf ->
  is3 b1 B N1 (S M) bf -> is2 x1 B N1 xf -> is3 b2 B N2 (S M) (fun i n => bf i (N1 + n)) -> is2 x2 B N2 (fun i n => xf i (N1 + n)) -> is2 zi B M zf ->
  exists y1 z1 y2 z2 y z yf zo, lpv_fir b1 x1 (Some zi) false = Ok (y1, Some z1) /\ lpv_fir b2 x2 (Some z1) false = Ok (y2, Some z2) /\
    lpv_fir b x (Some zi) false = Ok (y, Some z) /\
    is2 y1 B N1 yf /\ is2 y2 B N2 (fun i n => yf i (N1 + n)) /\ is2 y B (N1 + N2) yf /\ is2 z2 B M zo /\ is2 z B M zo.
Proof.
  intros H1 H2 Hb Hx Hb1 Hx1 Hb2 Hx2 Hz.
  destruct (C77_fir B N1 M b1 x1 (Some zi) bf xf zf H1 Hb1 Hx1 Hz) as (y1 & o1 & E1 & Hy1 & z1 & -> & Hz1).
  destruct (C77_fir B N2 M b2 x2 (Some z1) _ _ _ H2 Hb2 Hx2 Hz1) as (y2 & o2 & E2 & Hy2 & z2 & -> & Hz2).
  destruct (C77_fir B (N1 + N2) M b x (Some zi) bf xf zf ltac:(lia) Hb Hx Hz) as (y & o & E & Hy & z & -> & Hzo).
  exists y1, z1, y2, z2, y, z. do 2 eexists. split; [exact E1|]. split; [exact E2|]. split; [exact E|].
  split; [exact Hy1|]. split; [|split; [exact Hy|split; [|exact Hzo]]].
  - eapply is2_ext; [exact Hy2|]. intros i n Hi Hn. apply (bsum_ext (R := Fl)). intros k Hk. apply (f_equal2 fmul); [|reflexivity].
    unfold window, fir_z. destruct (n + k <? M) eqn:E3; b2p.
    + destruct (M - 1 - (n + k) <? N1) eqn:E4; b2p.
      * bfalse (N1 + n + k <? M). f_equal. lia.
      * btrue (N1 + n + k <? M). f_equal. lia.
    + bfalse (N1 + n + k <? M). f_equal. lia.
  - eapply is2_ext; [exact Hz2|]. intros i k Hi Hk. unfold fir_z. destruct (k <? N2) eqn:E3; b2p.
    + btrue (k <? N1 + N2). f_equal. lia.
    + destruct (k - N2 <? N1) eqn:E4; b2p.
      * btrue (k <? N1 + N2). f_equal. lia.
      * bfalse (k <? N1 + N2). f_equal. lia.
Qed.
(** Sample n of a row: that row's taps at time n, its last samples and state only. *)
Theorem C77_causal B N B' N' M (b x b' x' : ten) zi zi' (bf bf' : nat -> nat -> nat -> F) (xf zf xf' zf' : nat -> nat -> F) i i' n :
  is3 b B N (S M) bf -> is2 x B N xf -> init2 Fl B M zi zf -> is3 b' B' N' (S M) bf' -> is2 x' B' N' xf' -> init2 Fl B' M zi' zf' ->
  i < B -> i' < B' -> n < N -> n < N' ->
  (forall k, k <= M -> bf i n k = bf' i' n k) -> (forall m, m <= n -> xf i m = xf' i' m) -> (forall k, k < M -> zf i k = zf' i' k) ->
  exists y zo y' zo', lpv_fir b x zi false = Ok (y, zo) /\ lpv_fir b' x' zi' false = Ok (y', zo') /\ at_ y [i; n] = at_ y' [i'; n].
Proof.
  intros Hb Hx Hz Hb' Hx' Hz' Hi Hi' Hn Hn' Eb Ex Ez.
  destruct (C77_fir B N M b x zi bf xf zf ltac:(lia) Hb Hx Hz) as (y & zo & E & Hy & _).
  destruct (C77_fir B' N' M b' x' zi' bf' xf' zf' ltac:(lia) Hb' Hx' Hz') as (y' & zo' & E' & Hy' & _).
  exists y, zo, y', zo'. split; [exact E|]. split; [exact E'|]. rewrite (proj2 Hy), (proj2 Hy') by assumption. now apply fir_y_ext.
Qed.
(** The transposed form without state: causal, too. *)
Theorem C77_transposed_causal B N B' N' M (b x b' x' : ten) (bf bf' : nat -> nat -> nat -> F) (xf xf' : nat -> nat -> F) i i' n :
  1 <= M -> is3 b B N (S M) bf -> is2 x B N xf -> is3 b' B' N' (S M) bf' -> is2 x' B' N' xf' -> i < B -> i' < B' -> n < N -> n < N' ->
  (forall m k, m <= n -> k <= M -> bf i m k = bf' i' m k) -> (forall m, m <= n -> xf i m = xf' i' m) ->
  exists y y', lpv_fir b x None true = Ok (y, None) /\ lpv_fir b' x' None true = Ok (y', None) /\ at_ y [i; n] = at_ y' [i'; n].
Proof.
  intros HM Hb Hx Hb' Hx' Hi Hi' Hn Hn' Eb Ex.
  assert (T : forall B N (b x : ten) (bf : nat -> nat -> nat -> F) (xf : nat -> nat -> F), 1 <= N -> is3 b B N (S M) bf -> is2 x B N xf ->
    exists y, lpv_fir b x None true = Ok (y, None) /\ is2 y B N (fun i n => bsum (R := Fl) (S M) (fun k => vtterm F fmul N (bf i) (xf i) n (M - k)))).
  { clear -HM. intros B N b x bf xf HN Hb Hx. destruct (f_firt_core F fadd fmul fsub B N M b x bf xf false Hb Hx (fun _ => HM) HN) as (sb & t & y & Es & Ez & Et & Ey & Hy).
    exists y. split; [|exact Hy]. unfold lpv_fir. rkt. cbn [Nat.eqb negb] in Es |- *.
    destruct (f_sz2 F fadd fmul fsub _ _ _ _ Hx) as [-> ->], (f_sz3 F fadd fmul fsub _ _ _ _ _ Hb) as (-> & -> & ->). rewrite Es, !Nat.eqb_refl. cbn [andb].
    btrue (1 <=? S M). cbn [bind]. rewrite Ez. replace (S M - 1) with M by lia. rewrite Et. cbn [bind]. rewrite Ey. reflexivity. }
  destruct (T B N b x bf xf ltac:(lia) Hb Hx) as (y & E & Hy). destruct (T B' N' b' x' bf' xf' ltac:(lia) Hb' Hx') as (y' & E' & Hy').
  exists y, y'. split; [exact E|]. split; [exact E'|]. rewrite (proj2 Hy), (proj2 Hy') by assumption.
  apply (bsum_ext (R := Fl)). intros k Hk. unfold vtterm. destruct (M - k <=? n) eqn:E1; cbn [andb]; [|reflexivity]. b2p.
  btrue (n - (M - k) <? N). btrue (n - (M - k) <? N'). cbn [andb]. apply (f_equal2 fmul); [apply Eb; lia|apply Ex; lia].
Qed.

Section Comm.
Hypothesis mulC : forall u v : F, fmul u v = fmul v u.
(** Constant taps: lti.fir returns the same bits. *)
Theorem C77_agree B N M (b b' x : ten) zi (bf xf zf : nat -> nat -> F) :
  1 <= N -> 1 <= M -> is2 b B (S M) bf -> is3 b' B N (S M) (fun i _ => bf i) -> is2 x B N xf -> init2 Fl B M zi zf ->
  same_result (R := Fl) B M None N (fir b x zi false) (lpv_fir b' x zi false).
Proof.
  intros HN HM Hb Hb' Hx Hz.
  destruct (C77_fir B N M b' x zi _ xf zf HN Hb' Hx Hz) as (y' & zo' & E' & Hy' & Hf').
  assert (X : exists y zo, fir b x zi false = Ok (y, zo) /\ is2 y B N (fun i => fir_y M (fun _ => bf i) (xf i) (zf i)) /\
    match zi with None => zo = None | Some _ => exists z, zo = Some z /\ is2 z B M (fun i => fir_z (xf i) (zf i) N) end).
  { destruct zi as [z|]; cbn [init2] in Hz.
    - destruct (r_fir_direct_some Fl B N M b x z bf xf zf Hb Hx Hz HN HM) as (y & zo & E & Hy & Hf). exists y, (Some zo). split; [exact E|]. split.
      + eapply is2_ext; [exact Hy|]. intros i n Hi Hn. apply (bsum_ext (R := Fl)). intros k Hk. apply mulC.
      + exists zo. split; [reflexivity|]. eapply is2_ext; [exact Hf|]. intros i k Hi Hk. cbn beta. unfold fir_z. destruct (k <? N) eqn:E1; b2p.
        * bfalse (N + (M - 1 - k) <? M). f_equal. lia.
        * btrue (N + (M - 1 - k) <? M). f_equal. lia.
    - destruct (r_fir_direct_none Fl B N M b x bf xf Hb Hx HN) as (y & E & Hy). exists y, None. split; [exact E|]. split; [|reflexivity].
      eapply is2_ext; [exact Hy|]. intros i n Hi Hn. apply (bsum_ext (R := Fl)). intros k Hk. cbn beta. etransitivity; [apply mulC|]. apply (f_equal2 fmul); [|reflexivity].
      unfold window. destruct (M <=? n + k) eqn:E1; b2p; [now bfalse (n + k <? M)|]. btrue (n + k <? M). symmetry. apply Hz; lia. }
  destruct X as (y & zo & E & Hy & Hf).
  exists y, zo, y', zo', (fun i n _ => fir_y M (fun _ => bf i) (xf i) (zf i) n). split; [exact E|]. split; [exact E'|]. split; [exact Hy|]. split; [exact Hy'|].
  destruct zi; [right|left; now split]. destruct Hf as (z & -> & Hf), Hf' as (z' & -> & Hf').
  exists z, z'. eexists. split; [reflexivity|]. split; [reflexivity|]. split; [exact Hf|exact Hf'].
Qed.
End Comm.
(** Scaling maps (C76) pass through. *)
Theorem C77_scale (s : F -> F) B N M (b x x' : ten) zi zi' (bf : nat -> nat -> nat -> F) (xf zf : nat -> nat -> F) :
  scales Fl s -> 1 <= N -> is3 b B N (S M) bf -> is2 x B N xf -> is2 x' B N (fun i n => s (xf i n)) ->
  init2 Fl B M zi zf -> init2 Fl B M zi' (fun i k => s (zf i k)) -> (zi = None <-> zi' = None) ->
  exists y zo y' zo' yf, lpv_fir b x zi false = Ok (y, zo) /\ lpv_fir b x' zi' false = Ok (y', zo') /\
    is2 y B N yf /\ is2 y' B N (fun i n => s (yf i n)) /\
    (zi = None /\ zo = None /\ zo' = None \/ exists z z' v, zo = Some z /\ zo' = Some z' /\ is2 z B M v /\ is2 z' B M (fun i k => s (v i k))).
Proof.
  intros Hs HN Hb Hx Hx' Hz Hz' Hnn.
  destruct (C77_fir B N M b x zi bf xf zf HN Hb Hx Hz) as (y & zo & E & Hy & Hf).
  destruct (C77_fir B N M b x' zi' bf _ _ HN Hb Hx' Hz') as (y' & zo' & E' & Hy' & Hf').
  exists y, zo, y', zo'. eexists. split; [exact E|]. split; [exact E'|]. split; [exact Hy|]. split; [|].
  2:{ destruct zi as [zi|]; [right|left; rewrite (proj1 Hnn eq_refl) in Hf'; now repeat split].
      destruct zi' as [zi'|]; [|discriminate (proj2 Hnn eq_refl)]. destruct Hf as (z & -> & Hf), Hf' as (z' & -> & Hf').
      exists z, z'. eexists. split; [reflexivity|]. split; [reflexivity|]. split; [exact Hf|]. eapply is2_ext; [exact Hf'|].
      intros i k Hi Hk. unfold fir_z. now destruct (k <? N). }
  eapply is2_ext; [exact Hy'|].
  intros i n Hi Hn. apply (bsum_scale Fl s Hs). intros k Hk. destruct Hs as (_ & _ & _ & Smul).
  etransitivity; [|symmetry; apply Smul]. apply (f_equal2 fmul); [|reflexivity]. unfold window. now destruct (n + k <? M).
Qed.
End S.
Print Assumptions C77_fir.
Print Assumptions C77_stream.
Print Assumptions C77_causal.
Print Assumptions C77_transposed_causal.
Print Assumptions C77_agree.
Print Assumptions C77_scale.

(** ** Examples and a counterexample, 3-bit numbers *)
Definition u_B3 (k N : nat) : ten3 := mkT [1; N; 3] (fun i => u_b (k + nth 1 i 0) (nth 2 i 0)).
Lemma u_B3_is k N : is3 (u_B3 k N) 1 N 3 (fun _ n => u_b (k + n)).
Proof. split; [reflexivity|]. intros [|i] j l Hi; [reflexivity|lia]. Qed.
Definition z_f (k : nat) : Qc := nth k [q 5 8; q (-3) 2] (q 0 1).
Definition z_t : ten3 := row [q 5 8; q (-3) 2].
Lemma z_t_is : is2 z_t 1 2 (fun _ => z_f).
Proof. apply row_is; reflexivity. Qed.
(** Chunks of one and five samples, shorter than the order and longer. *)
Example C77_stream_ex : exists y1 z1 y2 z2 y z yf zo,
    lpv_fir (R := F3) (u_B3 0 1) (row (firstn 1 c_x)) (Some z_t) false = Ok (y1, Some z1) /\
    lpv_fir (R := F3) (u_B3 1 5) (row (skipn 1 c_x)) (Some z1) false = Ok (y2, Some z2) /\
    lpv_fir (R := F3) (u_B3 0 6) (row c_x) (Some z_t) false = Ok (y, Some z) /\
    is2 y1 1 1 yf /\ is2 y2 1 5 (fun i n => yf i (1 + n)) /\ is2 y 1 6 yf /\ is2 z2 1 2 zo /\ is2 z 1 2 zo.
Proof.
  apply (C77_stream Qofield _ _ _ 1 1 5 2 _ _ _ _ _ _ z_t (fun _ => u_b) (fun _ n => nth n c_x (q 0 1)) (fun _ => z_f)); try lia.
  - apply (u_B3_is 0 6).
  - apply row_is; reflexivity.
  - apply (u_B3_is 0 1).
  - apply row_is; [reflexivity|]. intros k Hk. destruct k as [|k]; [reflexivity|lia].
  - apply (u_B3_is 1 5).
  - apply row_is; [reflexivity|]. intros k Hk. do 5 (destruct k as [|k]; [reflexivity|]). lia.
  - exact z_t_is.
Qed.
Definition t_f (k : nat) : Qc := nth k [q 3 2; q (-7) 8; q 5 4] (q 0 1).
Definition t_B (N : nat) : ten3 := mkT [1; N; 3] (fun i => t_f (nth 2 i 0)).
Lemma t_B_is N : is3 (t_B N) 1 N 3 (fun _ _ => t_f).
Proof. split; [reflexivity|]. intros [|i] j l Hi; [reflexivity|lia]. Qed.
Lemma c_b2_is : is2 c_b2 1 3 (fun _ => t_f).
Proof. apply row_is; reflexivity. Qed.
(** Constant taps, with a state. *)
Example C77_agree_ex : same_result (R := F3) 1 2 None 6 (fir c_b2 (row c_x) (Some z_t) false) (lpv_fir (t_B 6) (row c_x) (Some z_t) false).
Proof.
  apply (C77_agree Qofield _ _ _ mul3_comm 1 6 2 _ _ _ _ (fun _ => t_f) (fun _ n => nth n c_x (q 0 1)) (fun _ => z_f)); try lia.
  - exact c_b2_is.
  - apply t_B_is.
  - apply row_is; reflexivity.
  - exact z_t_is.
Qed.
(** ... but not in the transposed form: the two functions add the products in opposite orders. *)
Theorem C77_agree_refuted : ~ same_result (R := F3) 1 2 None 4 (fir c_b2 (row c_w) (Some c_z) true) (lpv_fir (t_B 4) (row c_w) (Some c_z) true).
Proof.
  intros (y & zo & y' & zo' & yf & E & E' & Hy & Hy' & _).
  assert (X : num (fir (R := F3) c_b2 (row c_w) (Some c_z) true) 2 = num (lpv_fir (R := F3) (t_B 4) (row c_w) (Some c_z) true) 2).
  { rewrite E, E'. cbn [num]. do 2 f_equal. transitivity (yf 0 2 0); [|symmetry]; [apply (proj2 Hy)|apply (proj2 Hy')]; lia. }
  clear -X. vm_compute in X. discriminate X.
Qed.
(** The transposed form in chunks of two samples, its order: the last sample differs. *)
Definition c_v : list Qc := [q 7 8; q (-1) 8; q 5 8; q 1 8].
Theorem C77_transposed_refuted : ~ (forall y1 z1 y2 z2 y z,
    lpv_fir (R := F3) (t_B 2) (row (firstn 2 c_v)) (Some c_z) true = Ok (y1, Some z1) ->
    lpv_fir (R := F3) (t_B 2) (row (skipn 2 c_v)) (Some z1) true = Ok (y2, Some z2) ->
    lpv_fir (R := F3) (t_B 4) (row c_v) (Some c_z) true = Ok (y, Some z) -> at_ y2 [0; 1] = at_ y [0; 3]).
Proof.
  intro H.
  assert (X : chunked (fun x z => lpv_fir (R := F3) (t_B 2) x z true) (row (firstn 2 c_v)) (row (skipn 2 c_v)) c_z 1 = num (lpv_fir (R := F3) (t_B 4) (row c_v) (Some c_z) true) 3).
  { assert (A : chunked (fun x z => lpv_fir (R := F3) (t_B 2) x z true) (row (firstn 2 c_v)) (row (skipn 2 c_v)) c_z 1 <> None) by (vm_compute; discriminate).
    assert (A' : match lpv_fir (R := F3) (t_B 4) (row c_v) (Some c_z) true with Ok (_, Some _) => true | _ => false end = true) by (vm_compute; reflexivity).
    assert (A2 : match lpv_fir (R := F3) (t_B 2) (row (firstn 2 c_v)) (Some c_z) true with Ok (_, Some z1) =>
        match lpv_fir (R := F3) (t_B 2) (row (skipn 2 c_v)) (Some z1) true with Ok (_, Some _) => true | _ => false end | _ => false end = true) by (vm_compute; reflexivity).
    unfold chunked in *.
    destruct (lpv_fir (R := F3) (t_B 2) (row (firstn 2 c_v)) (Some c_z) true) as [[y1 [z1|]]|]; try discriminate A2. specialize (H y1 z1).
    destruct (lpv_fir (R := F3) (t_B 2) (row (skipn 2 c_v)) (Some z1) true) as [[y2 [z2|]]|]; try discriminate A2.
    destruct (lpv_fir (R := F3) (t_B 4) (row c_v) (Some c_z) true) as [[y [z|]]|]; try discriminate A'.
    cbn [num]. do 2 f_equal. now apply (H y2 z2 y z). }
  clear -X. vm_compute in X. discriminate X.
Qed.
Print Assumptions C77_agree_refuted.
Print Assumptions C77_transposed_refuted.
(** Any sign and power of two, with a state. *)
Definition tmap (s : Qc -> Qc) (t : ten3) : ten3 := mkT (shape t) (fun i => s (at_ t i)).
Lemma tmap_is s (t : ten3) B N f : is2 t B N f -> is2 (tmap s t) B N (fun i n => s (f i n)).
Proof. intros [H1 H2]. split; [exact H1|]. intros i j Hi Hj. cbn. now rewrite H2. Qed.
Example C77_scale_ex neg k : let s := scale2 neg k in exists y zo y' zo' yf,
    lpv_fir (R := F3) (u_B3 0 6) (row c_x) (Some z_t) false = Ok (y, zo) /\
    lpv_fir (R := F3) (u_B3 0 6) (tmap s (row c_x)) (Some (tmap s z_t)) false = Ok (y', zo') /\
    is2 y 1 6 yf /\ is2 y' 1 6 (fun i n => s (yf i n)) /\
    (Some z_t = None /\ zo = None /\ zo' = None \/ exists z z' v, zo = Some z /\ zo' = Some z' /\ is2 z 1 2 v /\ is2 z' 1 2 (fun i k => s (v i k))).
Proof.
  intro s.
  apply (C77_scale Qofield _ _ _ s 1 6 2 _ _ _ _ _ (fun _ => u_b) (fun _ n => nth n c_x (q 0 1)) (fun _ => z_f)); try lia.
  - apply float_scales.
  - apply (u_B3_is 0 6).
  - apply row_is; reflexivity.
  - apply (tmap_is s (row c_x)). apply row_is; reflexivity.
  - exact z_t_is.
  - apply (tmap_is s z_t). exact z_t_is.
  - split; discriminate.
Qed.
