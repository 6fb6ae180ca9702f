(** C75: lpv.lfilter and lti.lfilter in the second direct forms without unrolling, bit for bit. *)
From Coq Require Import List Arith Lia ZArith Bool QArith Qcanon.
From Verif Require Import Scalar Ordered FloatQ Spec SpecRound SpecFilter SpecLpv Tensor TensorLemmas TensorOps TensorAlg TensorTac TensorList Shapes SpecBits SpecBits2 SpecBits3
  Algebra M_Mat M_Kernels M_LtiSsm P_Kernels P_LtiSsm M_LtiFilter M_Ext M_LpvSsm P_LpvSsm M_LpvFilter P_Filter P_Round P_Bits P_Bits2 P_Bits3 P_Bits4 P_Bits5 P_Bits6 P_Bits7
  Properties_Round Properties_Bits Properties_Bits2 Properties_Bits3.
Import ListNotations.
Open Scope nat_scope.

Section S.
Variable F : ofield.
Variables (fadd fmul fsub : F -> F -> F).
Hypothesis mulC : forall u v : F, fmul u v = fmul v u.
Notation Fl := (flops F fadd fmul fsub).
Notation ten := (tensor (car Fl)).
Notation fh := (form_h F fadd fmul fsub).
Notation fy := (form_y F fadd fmul fsub).

(** ** The operations *)
Theorem C75_lpv e pr B N nb na M (b a x : ten) (bf af : nat -> nat -> nat -> F) (xf z0 : nat -> nat -> F) zi fm :
  1 <= B -> 1 <= N -> 1 <= nb -> M = Nat.max na (nb - 1) -> 1 <= M -> is2 x B N xf -> sequentialv e pr M ->
  vcoef (R := F) B N nb b bf -> vcoef (R := F) B N na a af -> init (R := Fl) B M zi z0 -> second_form fm -> shapes_ok fm B N (rk b) (rk a) ->
  exists y zf, lpv_lfilter e pr b a x zi fm Ssm (Some 1) = Ok (y, zf) /\
    is2 y B N (fun i => fy fm M (fun n => padz nb (bf i n)) (fun n => padz na (af i n)) (z0 i) (xf i)) /\
    match zi with
    | None => zf = None
    | Some _ => exists z, zf = Some z /\ is2 z B M (fun i => fh fm M (fun n => padz nb (bf i n)) (fun n => padz na (af i n)) (z0 i) (xf i) N)
    end.
Proof. intros. now apply (vform_exact F fadd fmul fsub mulC B N nb na M x xf). Qed.
Theorem C75_lti e B N nb na M (b a x : ten) (bf af xf z0 : nat -> nat -> F) zi fm :
  1 <= B -> 1 <= N -> 1 <= nb -> M = Nat.max na (nb - 1) -> 1 <= M -> is2 x B N xf -> sequential e M ->
  fcoef (R := F) B nb b bf -> fcoef (R := F) B na a af -> init (R := Fl) B M zi z0 -> second_form fm ->
  exists y zf, lfilter_ssm e b a x zi fm (Some 1) = Ok (y, zf) /\
    is2 y B N (fun i => fy fm M (fun _ => padz nb (bf i)) (fun _ => padz na (af i)) (z0 i) (xf i)) /\
    match zi with
    | None => zf = None
    | Some _ => exists z, zf = Some z /\ is2 z B M (fun i => fh fm M (fun _ => padz nb (bf i)) (fun _ => padz na (af i)) (z0 i) (xf i) N)
    end.
Proof. intros. now apply (form_exact F fadd fmul fsub mulC B N nb na M x xf). Qed.

Lemma padz_ext n (f g : nat -> F) k : (forall j, j < n -> f j = g j) -> padz n f k = padz n g k.
Proof. intro H. unfold padz. destruct (Nat.ltb_spec k n); auto. Qed.

(** ** Consequences *)
(** Constant coefficients: lti and lpv return the same bits, whatever the two back-ends. *)
Theorem C75_agree e e' pr B N nb na M (b a b' a' x : ten) (bf af xf z0 : nat -> nat -> F) zi fm :
  1 <= B -> 1 <= N -> 1 <= nb -> M = Nat.max na (nb - 1) -> 1 <= M -> is2 x B N xf -> sequential e M -> sequentialv e' pr M ->
  fcoef (R := F) B nb b bf -> fcoef (R := F) B na a af -> vcoef (R := F) B N nb b' (fun i _ => bf i) -> vcoef (R := F) B N na a' (fun i _ => af i) ->
  init (R := Fl) B M zi z0 -> second_form fm -> shapes_ok fm B N (rk b') (rk a') ->
  same_result (R := Fl) B M None N (lfilter_ssm e b a x zi fm (Some 1)) (lpv_lfilter e' pr b' a' x zi fm Ssm (Some 1)).
Proof.
  intros HB HN Hnb EM HM Hx He He' Hb Ha Hb' Ha' Hz Hfm HS.
  destruct (C75_lti e B N nb na M b a x bf af xf z0 zi fm HB HN Hnb EM HM Hx He Hb Ha Hz Hfm) as (y & zf & E & Hy & Hf).
  destruct (C75_lpv e' pr B N nb na M b' a' x _ _ xf z0 zi fm HB HN Hnb EM HM Hx He' Hb' Ha' Hz Hfm HS) as (y' & zf' & E' & Hy' & Hf').
  exists y, zf, y', zf'. eexists (fun i n _ => fy fm M (fun _ => padz nb (bf i)) (fun _ => padz na (af i)) (z0 i) (xf i) n).
  split; [exact E|]. split; [exact E'|]. split; [exact Hy|]. split; [exact Hy'|].
  destruct zi; [right|left; now split]. destruct Hf as (z & -> & Hf). destruct Hf' as (z' & -> & Hf').
  exists z, z'. eexists. split; [reflexivity|]. split; [reflexivity|]. split; [exact Hf|exact Hf'].
Qed.
(** Sequential back-ends of lpv.lfilter agree, in whatever shapes the coefficients are passed. *)
Theorem C75_backends e pr e' pr' B N nb na M (b a b' a' x : ten) (bf af : nat -> nat -> nat -> F) (xf z0 : nat -> nat -> F) zi fm :
  1 <= B -> 1 <= N -> 1 <= nb -> M = Nat.max na (nb - 1) -> 1 <= M -> is2 x B N xf -> sequentialv e pr M -> sequentialv e' pr' M ->
  vcoef (R := F) B N nb b bf -> vcoef (R := F) B N na a af -> vcoef (R := F) B N nb b' bf -> vcoef (R := F) B N na a' af ->
  init (R := Fl) B M zi z0 -> second_form fm -> shapes_ok fm B N (rk b) (rk a) -> shapes_ok fm B N (rk b') (rk a') ->
  same_result (R := Fl) B M None N (lpv_lfilter e pr b a x zi fm Ssm (Some 1)) (lpv_lfilter e' pr' b' a' x zi fm Ssm (Some 1)).
Proof.
  intros HB HN Hnb EM HM Hx He He' Hb Ha Hb' Ha' Hz Hfm HS HS'.
  destruct (C75_lpv e pr B N nb na M b a x bf af xf z0 zi fm HB HN Hnb EM HM Hx He Hb Ha Hz Hfm HS) as (y & zf & E & Hy & Hf).
  destruct (C75_lpv e' pr' B N nb na M b' a' x bf af xf z0 zi fm HB HN Hnb EM HM Hx He' Hb' Ha' Hz Hfm HS') as (y' & zf' & E' & Hy' & Hf').
  exists y, zf, y', zf'. eexists (fun i n _ => fy fm M (fun n => padz nb (bf i n)) (fun n => padz na (af i n)) (z0 i) (xf i) n).
  split; [exact E|]. split; [exact E'|]. split; [exact Hy|]. split; [exact Hy'|].
  destruct zi; [right|left; now split]. destruct Hf as (z & -> & Hf). destruct Hf' as (z' & -> & Hf').
  exists z, z'. eexists. split; [reflexivity|]. split; [reflexivity|]. split; [exact Hf|exact Hf'].
Qed.
(** Two chunks, the second started in the final state of the first, are the whole. *)
Theorem C75_stream e pr B N1 N2 nb na M (b1 a1 x1 b2 a2 x2 b a x zi : ten) (bf af : nat -> nat -> nat -> F) (xf z0 : nat -> nat -> F) fm :
  1 <= B -> 1 <= N1 -> 1 <= N2 -> 1 <= nb -> M = Nat.max na (nb - 1) -> 1 <= M -> sequentialv e pr M -> second_form fm ->
  vcoef (R := F) B (N1 + N2) nb b bf -> vcoef (R := F) B (N1 + N2) na a af -> is2 x B (N1 + N2) xf ->
  vcoef (R := F) B N1 nb b1 bf -> vcoef (R := F) B N1 na a1 af -> is2 x1 B N1 xf ->
  vcoef (R := F) B N2 nb b2 (fun i n => bf i (N1 + n)) -> vcoef (R := F) B N2 na a2 (fun i n => af i (N1 + n)) -> is2 x2 B N2 (fun i n => xf i (N1 + n)) ->
  shapes_ok fm B (N1 + N2) (rk b) (rk a) -> shapes_ok fm B N1 (rk b1) (rk a1) -> shapes_ok fm B N2 (rk b2) (rk a2) ->
  init (R := Fl) B M (Some zi) z0 ->
  exists y1 z1 y2 z2 y z yf zf,
    lpv_lfilter e pr b1 a1 x1 (Some zi) fm Ssm (Some 1) = Ok (y1, Some z1) /\
    lpv_lfilter e pr b2 a2 x2 (Some z1) fm Ssm (Some 1) = Ok (y2, Some z2) /\
    lpv_lfilter e pr b a x (Some zi) fm Ssm (Some 1) = Ok (y, Some z) /\
    is2 y1 B N1 yf /\ is2 y2 B N2 (fun i n => yf i (N1 + n)) /\ is2 y B (N1 + N2) yf /\ is2 z2 B M zf /\ is2 z B M zf.
Proof.
  intros HB H1 H2 Hnb EM HM He Hfm Hb Ha Hx Hb1 Ha1 Hx1 Hb2 Ha2 Hx2 HS HS1 HS2 Hz.
  destruct (C75_lpv e pr B N1 nb na M b1 a1 x1 bf af xf z0 (Some zi) fm) as (y1 & zf1 & E1 & Hy1 & z1 & -> & Hz1); auto.
  destruct (C75_lpv e pr B N2 nb na M b2 a2 x2 _ _ _ _ (Some z1) fm HB H2 Hnb EM HM Hx2 He Hb2 Ha2 (init_is2 Fl B M z1 _ Hz1) Hfm HS2) as (y2 & zf2 & E2 & Hy2 & z2 & -> & Hz2).
  destruct (C75_lpv e pr B (N1 + N2) nb na M b a x bf af xf z0 (Some zi) fm) as (y & zf & E & Hy & z & -> & Hzf); auto; [lia|].
  exists y1, z1, y2, z2, y, z. do 2 eexists. split; [exact E1|]. split; [exact E2|]. split; [exact E|].
  split; [exact Hy1|]. split; [|split; [exact Hy|split; [|exact Hzf]]].
  - eapply is2_ext; [exact Hy2|]. intros i n Hi Hn. cbn beta. symmetry. apply fy_add.
  - eapply is2_ext; [exact Hz2|]. intros i n Hi Hn. cbn beta. now rewrite fh_add.
Qed.
(** Sample n of a row depends on that row's state and on its signal and coefficients up to n:
    not on the other rows, on the length or on how the coefficients are batched. *)
Theorem C75_causal e pr e' pr' B N B' N' nb na M (b a x b' a' x' : ten) zi zi' (bf af bf' af' : nat -> nat -> nat -> F) (xf z0 xf' z0' : nat -> nat -> F) fm i i' n :
  1 <= nb -> M = Nat.max na (nb - 1) -> 1 <= M -> sequentialv e pr M -> sequentialv e' pr' M -> second_form fm ->
  vcoef (R := F) B N nb b bf -> vcoef (R := F) B N na a af -> is2 x B N xf -> init (R := Fl) B M zi z0 -> shapes_ok fm B N (rk b) (rk a) ->
  vcoef (R := F) B' N' nb b' bf' -> vcoef (R := F) B' N' na a' af' -> is2 x' B' N' xf' -> init (R := Fl) B' M zi' z0' -> shapes_ok fm B' N' (rk b') (rk a') ->
  i < B -> i' < B' -> n < N -> n < N' ->
  (forall m k, m <= n -> k < nb -> bf i m k = bf' i' m k) -> (forall m k, m <= n -> k < na -> af i m k = af' i' m k) ->
  (forall m, m <= n -> xf i m = xf' i' m) -> (forall k, k < M -> z0 i k = z0' i' k) ->
  exists y zf y' zf', lpv_lfilter e pr b a x zi fm Ssm (Some 1) = Ok (y, zf) /\ lpv_lfilter e' pr' b' a' x' zi' fm Ssm (Some 1) = Ok (y', zf') /\
    at_ y [i; n] = at_ y' [i'; n].
Proof.
  intros Hnb EM HM He He' Hfm Hb Ha Hx Hz HS Hb' Ha' Hx' Hz' HS' Hi Hi' Hn Hn' Eb Ea Ex Ez.
  destruct (C75_lpv e pr B N nb na M b a x bf af xf z0 zi fm) as (y & zf & E & Hy & _); auto; try lia.
  destruct (C75_lpv e' pr' B' N' nb na M b' a' x' bf' af' xf' z0' zi' fm) as (y' & zf' & E' & Hy' & _); auto; try lia.
  exists y, zf, y', zf'. split; [exact E|]. split; [exact E'|]. rewrite (proj2 Hy), (proj2 Hy') by assumption.
  apply fy_ext; auto; intros m k Hm; apply padz_ext; auto.
Qed.
End S.
Print Assumptions C75_lpv.
Print Assumptions C75_lti.
Print Assumptions C75_agree.
Print Assumptions C75_backends.
Print Assumptions C75_stream.
Print Assumptions C75_causal.

(** ** Examples and a counterexample, 3-bit numbers *)
Definition u_b (n k : nat) : Qc := nth (n + 2 * k) [q 3 2; q (-7) 8; q 5 8; q 1 1; q (-5) 4; q 3 4; q 7 8; q 1 2; q (-3) 2; q 5 4] (q 0 1).
Definition u_a (n k : nat) : Qc := nth (n + 3 * k) [q (-5) 4; q 3 4; q 3 8; q 7 8; q (-1) 2; q 5 8; q (-3) 4; q 1 1] (q 0 1).
Definition u_B (k N : nat) : ten3 := mkT [N; 3] (fun i => u_b (k + nth 0 i 0) (nth 1 i 0)).
Definition u_A (k N : nat) : ten3 := mkT [N; 2] (fun i => u_a (k + nth 0 i 0) (nth 1 i 0)).
Definition u_A1 (k N : nat) : ten3 := mkT [1; N; 2] (fun i => u_a (k + nth 1 i 0) (nth 2 i 0)).
Lemma u_B_is k N : vcoef (R := Qofield) 1 N 3 (u_B k N) (fun _ n => u_b (k + n)).
Proof. apply (vc_s (fun n => u_b (k + n) : nat -> Qofield)); [split; reflexivity|reflexivity]. Qed.
Lemma u_A_is k N : vcoef (R := Qofield) 1 N 2 (u_A k N) (fun _ n => u_a (k + n)).
Proof. apply (vc_s (fun n => u_a (k + n) : nat -> Qofield)); [split; reflexivity|reflexivity]. Qed.
Lemma u_A1_is k N : vcoef (R := Qofield) 1 N 2 (u_A1 k N) (fun _ n => u_a (k + n)).
Proof. apply vc_b. split; [reflexivity|]. intros [|i] j l Hi; [reflexivity|lia]. Qed.
(** The kernel on the CPU; the second chunk passes a with a batch dimension. *)
Example C75_stream_ex fm : second_form fm -> exists y1 z1 y2 z2 y z yf zf,
    lpv_lfilter ext_env false (u_B 0 3) (u_A 0 3) (row (firstn 3 c_x)) (Some c_z) fm Ssm (Some 1) = Ok (y1, Some z1) /\
    lpv_lfilter ext_env false (u_B 3 3) (u_A1 3 3) (row (skipn 3 c_x)) (Some z1) fm Ssm (Some 1) = Ok (y2, Some z2) /\
    lpv_lfilter ext_env false (u_B 0 6) (u_A 0 6) (row c_x) (Some c_z) fm Ssm (Some 1) = Ok (y, Some z) /\
    is2 y1 1 3 yf /\ is2 y2 1 3 (fun i n => yf i (3 + n)) /\ is2 y 1 6 yf /\ is2 z2 1 2 zf /\ is2 z 1 2 zf.
Proof.
  intro Hfm. eapply (C75_stream Qofield _ _ _ mul3_comm ext_env false 1 3 3 3 2 2 _ _ _ _ _ _ _ _ _ _
    (fun _ => u_b) (fun _ => u_a) (fun _ n => nth n c_x (q 0 1)) (fun _ _ => q 0 1) fm); try lia; try exact Hfm.
  - exact seqv_ext.
  - apply (u_B_is 0 6).
  - apply (u_A_is 0 6).
  - apply row_is; reflexivity.
  - apply (u_B_is 0 3).
  - apply (u_A_is 0 3).
  - apply row_is; [reflexivity|]. intros k Hk. destruct k as [|[|[|k]]]; [reflexivity..|lia].
  - apply (u_B_is 3 3).
  - apply (u_A1_is 3 3).
  - apply row_is; [reflexivity|]. intros k Hk. destruct k as [|[|[|k]]]; [reflexivity..|lia].
  - destruct Hfm as [-> | ->]; right; lia.
  - destruct Hfm as [-> | ->]; right; lia.
  - destruct Hfm as [-> | ->]; right; lia.
  - apply (init_is2 F3), c_z_is.
Qed.
(** Constant coefficients. *)
Definition u_Bc : ten3 := mkT [6; 3] (fun i => nth (nth 1 i 0) [q 3 2; q (-7) 8; q 5 8] (q 0 1)).
Definition u_Ac : ten3 := mkT [6; 2] (fun i => nth (nth 1 i 0) [q (-5) 4; q 3 4] (q 0 1)).
Example C75_agree_ex fm : second_form fm ->
  same_result (R := F3) 1 2 None 6 (lfilter_ssm env0 c_b c_a (row c_x) (Some c_z) fm (Some 1)) (lpv_lfilter ext_env false u_Bc u_Ac (row c_x) (Some c_z) fm Ssm (Some 1)).
Proof.
  intro Hfm. eapply (C75_agree Qofield _ _ _ mul3_comm env0 ext_env false 1 6 3 2 2 _ _ _ _ _
    (fun _ k => nth k [q 3 2; q (-7) 8; q 5 8] (q 0 1)) (fun _ k => nth k [q (-5) 4; q 3 4] (q 0 1)) (fun _ n => nth n c_x (q 0 1)) (fun _ _ => q 0 1)); try lia; try exact Hfm.
  - apply row_is; reflexivity.
  - apply seq_env0.
  - exact seqv_ext.
  - exact c_b_is.
  - apply (fc_s (fun k => nth k [q (-5) 4; q 3 4] (q 0 1) : Qofield)); [split; reflexivity|reflexivity].
  - apply (vc_s (fun _ k => nth k [q 3 2; q (-7) 8; q 5 8] (q 0 1) : Qofield)); [split; reflexivity|reflexivity].
  - apply (vc_s (fun _ k => nth k [q (-5) 4; q 3 4] (q 0 1) : Qofield)); [split; reflexivity|reflexivity].
  - apply (init_is2 F3), c_z_is.
  - destruct Hfm as [-> | ->]; right; lia.
Qed.
(** Unrolled by two, the transposed form returns another sample 4. *)
Theorem C75_unroll_refuted :
  ~ same_result (R := F3) 1 2 None 6 (lpv_lfilter env0 false (u_B 0 6) (u_A 0 6) (row c_x) (Some c_z) Tdf2 Ssm (Some 1))
                                     (lpv_lfilter env0 false (u_B 0 6) (u_A 0 6) (row c_x) (Some c_z) Tdf2 Ssm (Some 2)).
Proof.
  intros (y & zf & y' & zf' & yf & E & E' & Hy & Hy' & _).
  assert (X : num (lpv_lfilter env0 false (u_B 0 6) (u_A 0 6) (row c_x) (Some c_z) Tdf2 Ssm (Some 1)) 4 = num (lpv_lfilter env0 false (u_B 0 6) (u_A 0 6) (row c_x) (Some c_z) Tdf2 Ssm (Some 2)) 4).
  { rewrite E, E'. cbn [num]. do 2 f_equal. transitivity (yf 0 4 0); [|symmetry]; [apply (proj2 Hy)|apply (proj2 Hy')]; lia. }
  clear -X. vm_compute in X. discriminate.
Qed.
Print Assumptions C75_unroll_refuted.
