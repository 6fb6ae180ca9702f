(** C78: lpv.lfilter with the torchlpc back-end, bit for bit. *)
From Coq Require Import List Arith Lia ZArith Bool QArith Qcanon.
From Verif Require Import Scalar Ordered FloatQ Spec SpecRound SpecFilter SpecLpv Tensor TensorLemmas TensorOps TensorAlg TensorTac TensorList Shapes SpecBits SpecScale
  Algebra M_Mat M_Kernels M_LtiSsm P_Kernels P_LtiSsm M_LtiFilter M_Ext M_LpvSsm P_LpvSsm M_LpvFilter P_LpvFilter P_Filter P_Round P_Round6 P_Round10 P_Bits P_Bits2 P_Scale
  Properties_Round Properties_Bits Properties_Bits2 Properties_Bits3 Properties_Bits4 Properties_Bits5 Properties_Scale Properties_Bits6.
Import ListNotations.
Close Scope Qc_scope. Close Scope Q_scope. Open Scope nat_scope.

Section S.
Variable F : ofield.
Variables (fadd fmul fsub : F -> F -> F).
Notation Fl := (flops F fadd fmul fsub).
Notation ten := (tensor (car Fl)).

(** ** The operations *)
(** The inner signal of the second direct form: [inner n i] is its value at time n - 1 - i;
    [z i] at time - 1 - i.  P products are summed and taken from the sample. *)
Fixpoint inner (P : nat) (a : nat -> nat -> F) (z x : nat -> F) (n : nat) : nat -> F :=
  match n with
  | O => z
  | S k => fun i => match i with
                    | O => fsub (x k) (bsum (R := Fl) P (fun j => fmul (a k j) (inner P a z x k j)))
                    | S i' => inner P a z x k i'
                    end
  end.
Notation firy := (fir_y F fadd fmul fsub).
Definition lpc_df2 (nb na : nat) (b a : nat -> nat -> F) (z x : nat -> F) : nat -> F :=
  firy (nb - 1) b (fun k => inner na a z x (S k) 0) z.
Definition lpc_df1 (nb na : nat) (b a : nat -> nat -> F) (x : nat -> F) (n : nat) : F :=
  inner na a (fun _ => r0) (firy (nb - 1) b x (fun _ => r0)) (S n) 0.

Lemma inner_hist P a z x n i : inner P a z x n i = if i <? n then inner P a z x (S (n - 1 - i)) 0 else z (i - n).
Proof.
  revert i. induction n as [|n IH]; intro i; [now rewrite Nat.sub_0_r|]. cbn [inner]. destruct i as [|i]; [now replace (S n - 1 - 0) with n by lia|].
  rewrite IH. replace (S n - 1 - S i) with (n - 1 - i) by lia. reflexivity.
Qed.
Lemma inner_ext P a a' z z' x x' n : (forall m j, m < n -> j < P -> a m j = a' m j) -> (forall m, m < n -> x m = x' m) ->
  forall K, P <= K -> (forall j, j < K -> z j = z' j) -> forall i, i < n + K -> inner P a z x n i = inner P a' z' x' n i.
Proof.
  intros Ha Hx K HK Hz. induction n as [|n IH]; intros i Hi; [now apply Hz|]. cbn [inner]. destruct i as [|i].
  - apply (f_equal2 fsub); [apply Hx; lia|]. apply (bsum_ext (R := Fl)). intros j Hj. apply (f_equal2 fmul); [apply Ha; lia|].
    apply IH; [intros; apply Ha; lia|intros; apply Hx; lia|lia].
  - apply IH; [intros; apply Ha; lia|intros; apply Hx; lia|lia].
Qed.
Lemma inner_add P a z x m n i : inner P a z x (m + n) i = inner P (fun k => a (m + k)) (inner P a z x m) (fun k => x (m + k)) n i.
Proof.
  revert i. induction n as [|n IH]; intro i; [now rewrite Nat.add_0_r|]. rewrite Nat.add_succ_r. cbn [inner]. destruct i as [|i]; [|apply IH].
  apply (f_equal2 fsub); [reflexivity|]. apply (bsum_ext (R := Fl)). intros j Hj. now rewrite IH.
Qed.
Lemma f_lpc B N P (x a z : ten) (xf : nat -> nat -> F) (af : nat -> nat -> nat -> F) (zf : nat -> nat -> F) :
  is2 x B N xf -> is3 a B N P af -> is2 z B P zf ->
  exists y, sample_wise_lpc x a z = Ok y /\ is2 y B N (fun i n => inner P (af i) (zf i) (xf i) (S n) 0).
Proof.
  intros Hx Ha Hz. unfold sample_wise_lpc, rk, size. rewrite (proj1 Hx), (proj1 Ha), (proj1 Hz).
  cbn [length nth Nat.eqb andb]. rewrite !Nat.eqb_refl. cbn [andb]. eexists; split; [reflexivity|].
  split; [reflexivity|]. intros b t Hb Ht. cbn [at_ nth].
  assert (E : forall n i, lpc_hist (R := Fl) P (fun n i => at_ a [b; n; i]) (fun i => at_ z [b; i]) (fun n => at_ x [b; n]) n i
    = inner P (fun n i => at_ a [b; n; i]) (fun i => at_ z [b; i]) (fun n => at_ x [b; n]) n i).
  { induction n as [|n IH]; intro i; [reflexivity|]. cbn [lpc_hist inner]. destruct i as [|i]; [|apply IH].
    apply (f_equal2 fsub); [reflexivity|]. apply (bsum_ext (R := Fl)). intros j Hj. apply (f_equal2 fmul); [reflexivity|apply IH]. }
  etransitivity; [apply E|]. apply (inner_ext P) with (K := P); try lia.
  - intros. apply (proj2 Ha); lia.
  - intros. apply (proj2 Hx); lia.
  - intros. apply (proj2 Hz); lia.
Qed.
Lemma f_allpole_some B N P (a x z : ten) (af : nat -> nat -> nat -> F) (xf zf : nat -> nat -> F) :
  is3 a B N P af -> is2 x B N xf -> is2 z B P zf ->
  exists y zo, lpv_allpole a x (Some z) false = Ok (y, Some zo) /\
    is2 y B N (fun i n => inner P (af i) (zf i) (xf i) (S n) 0) /\
    (1 <= P <= N -> is2 zo B P (fun i => inner P (af i) (zf i) (xf i) N)).
Proof.
  intros Ha Hx Hz. destruct (f_lpc B N P x a z xf af zf Hx Ha Hz) as (y & E & Hy). exists y. eexists. split; [|split; [exact Hy|]].
  - unfold lpv_allpole. rkt. cbn [Nat.eqb].
    destruct (f_sz2 F fadd fmul fsub x _ _ _ Hx) as [-> ->], (f_sz2 F fadd fmul fsub z _ _ _ Hz) as [-> ->], (f_sz3 F fadd fmul fsub a _ _ _ _ Ha) as (-> & -> & ->). rewrite !Nat.eqb_refl. cbn [andb bind].
    rewrite E. reflexivity.
  - intro HP. apply is2_P1 in Hy. nm (slice 1 (Some (- Z.of_nat P)%Z) None y). nm (flip 1 v).
    apply is2_P1. fin H0; [lia|]. intros q k Hq Hk. rewrite (inner_hist P _ _ _ N k). btrue (k <? N).
    match goal with |- inner _ _ _ _ (S ?i) _ = inner _ _ _ _ (S ?j) _ => replace i with j by lia end. reflexivity.
Qed.
Lemma f_allpole_none B N P (a x : ten) (af : nat -> nat -> nat -> F) (xf : nat -> nat -> F) :
  is3 a B N P af -> is2 x B N xf ->
  exists y, lpv_allpole a x None false = Ok (y, None) /\ is2 y B N (fun i n => inner P (af i) (fun _ => r0) (xf i) (S n) 0).
Proof.
  intros Ha Hx. destruct (f_lpc B N P x a _ xf af _ Hx Ha (f_zeros_2 F fadd fmul fsub B P)) as (y & E & Hy). exists y. split; [|exact Hy].
  unfold lpv_allpole. rkt. cbn [Nat.eqb].
  destruct (f_sz2 F fadd fmul fsub x _ _ _ Hx) as [-> ->], (f_sz3 F fadd fmul fsub a _ _ _ _ Ha) as (-> & -> & ->). rewrite !Nat.eqb_refl. cbn [andb bind].
  rewrite E. reflexivity.
Qed.
Lemma f_lead B N n (t : ten) (f : nat -> nat -> nat -> F) : vcoef (R := F) B N n t f -> 1 <= B ->
  exists (t1 : ten) B1, (if rk t =? 2 then Ok (unsqueeze 0 t) else guard rk t =? 3 else ValueError in Ok t)%res = Ok t1 /\
    size t1 0 = B1 /\ (1 <= B1 <= B) /\ (rk t = 3 -> B1 = B) /\ size t1 1 = N /\ size t1 2 = n /\
    exists y : ten, expand [B; N; n] t1 = Ok y /\ is3 y B N n f.
Proof. exact (vcoef_lead F B N n t f). Qed.
Section Call.
Variables (e : env) (pr : bool) (uf : option nat) (B N nb na M : nat) (b a x : ten) (bf af : nat -> nat -> nat -> F) (xf : nat -> nat -> F).
Hypotheses (HB : 1 <= B) (HN : 1 <= N) (Hnb : 1 <= nb) (Hna : 1 <= na) (EM : M = Nat.max na (nb - 1))
  (Hb : vcoef (R := F) B N nb b bf) (Ha : vcoef (R := F) B N na a af) (Hx : is2 x B N xf).
Lemma f_unfold zi z0 fm : init (R := Fl) B M zi z0 ->
  exists bb ba bx z, is3 bb B N nb bf /\ is3 ba B N na af /\ is2 bx B N xf /\ is2 z B M z0 /\
     lpv_lfilter e pr b a x zi fm TorchLpc uf =
     match fm with
     | Df2 =>
      let* ' (w, a_zf) := lpv_allpole (R := Fl) ba bx (Some (slice 1 None (Some (Z.of_nat na)) z)) false in
      let* ' (y, b_zf) := lpv_fir (R := Fl) bb w (Some (slice 1 None (Some (Z.of_nat nb - 1)%Z) z)) false in
      match b_zf, a_zf with
      | Some b_zf, Some a_zf =>
          if match zi with Some _ => true | None => false end then Ok (y, Some (if size a_zf 1 <? size b_zf 1 then b_zf else a_zf))
          else Ok (y, None)
      | _, _ => Err TypeError
      end
     | Tdf2 => Err NotImplementedError
     | Df1 => let* ' (u, _) := lpv_fir (R := Fl) bb bx None false in lpv_allpole (R := Fl) ba u None false
     | Tdf1 => let* ' (u, _) := lpv_allpole (R := Fl) ba bx None true in lpv_fir (R := Fl) bb u None true
     | OtherForm => Err ValueError
     end%res.
Proof.
  intro Hz.
  assert (W : lpv_lfilter e pr b a x zi fm TorchLpc uf = torchlpc_lfilter (R := Fl) fm b a x zi).
  { unfold lpv_lfilter, lpv_lfilter_wrap. rkt. cbn [Nat.eqb Nat.ltb Nat.leb andb bind].
    assert ((rk b =? 2) || (rk b =? 3) = true)%nat as -> by exact (proj1 (proj2 (vcoef_size F _ _ _ _ _ Hb))).
    assert ((rk a =? 2) || (rk a =? 3) = true)%nat as -> by exact (proj1 (proj2 (vcoef_size F _ _ _ _ _ Ha))).
    destruct (torchlpc_lfilter (R := Fl) fm b a x zi) as [(y & zf)|]; reflexivity. }
  rewrite W. clear W.
  destruct (f_lead B N nb b bf Hb HB) as (b1 & Bb & Eb & Sb0 & Sb & Sb3 & Sb1 & Sb2 & bb & Ebb & Hbb).
  destruct (f_lead B N na a af Ha HB) as (a1 & Ba & Ea & Sa0 & Sa & Sa3 & Sa1 & Sa2 & ba & Eba & Hba).
  destruct (expand_self2 Fl x B N xf Hx) as (bx & Ebx & Hbx). destruct (f_sz2 F fadd fmul fsub x _ _ _ Hx) as [Sx0 Sx1].
  assert (EB : Nat.max (Nat.max Bb Ba) B = B) by lia.
  assert (exists z, (match zi with
    | None => Ok (zeros (R:=Fl) [B; M], B)
    | Some z =>
        if rk z =? 1 then
          guard size z 0 =? M else AssertionError in
          let* z := expand [B; size z 0] (unsqueeze 0 z) in Ok (z, B)
        else if rk z =? 2 then
          guard size z 1 =? M else AssertionError in
          let B := Nat.max B (size z 0) in
          let* z := expand [B; size z 1] z in Ok (z, B)
        else Err ValueError
    end)%res = Ok (z, B) /\ is2 z B M z0) as (z & Ez & Hzz).
  { destruct Hz as [f Hf|t g f Ht Hf|t g f Ht Hf].
    - eexists; split; [reflexivity|]. eapply is2_ext; [apply f_zeros_2|]. intros. symmetry. now apply Hf.
    - rkt. cbn [Nat.eqb]. assert (size t 0 = M) as -> by (unfold size; now rewrite (proj1 Ht)). rewrite Nat.eqb_refl.
      apply is1_P in Ht. nm (unsqueeze 0 t). apply P2_nil in H || apply is2_P in H.
      destruct (expand_2 v 1 M B M _ H (or_intror eq_refl) (or_introl eq_refl)) as (y & -> & Hy). cbn [bind].
      exists y. split; [reflexivity|]. eapply is2_ext; [exact Hy|]. intros i k Hi Hk. cbn beta. rewrite (bi_lt M) by exact Hk. symmetry. now apply Hf.
    - rkt. cbn [Nat.eqb]. destruct (f_sz2 F fadd fmul fsub t _ _ _ Ht) as [-> ->]. rewrite Nat.eqb_refl, Nat.max_id.
      destruct (expand_self2 Fl t B M g Ht) as (y & -> & Hy). cbn [bind]. exists y. split; [reflexivity|].
      eapply is2_ext; [exact Hy|]. intros. symmetry. now apply Hf. }
  exists bb, ba, bx, z. do 4 (split; [assumption|]).
  unfold torchlpc_lfilter. rewrite Eb. cbn [bind]. rewrite Ea. cbn [bind]. cbv zeta in Ez |- *. rewrite Sb0, Sb1, Sb2, Sa0, Sa1, Sa2.
  rewrite Sx0, Sx1, !Nat.eqb_refl. cbn [andb]. rewrite <- EM. rewrite EB, Ez. cbn [bind]. rewrite Ebb. cbn [bind]. rewrite Eba. cbn [bind]. rewrite Ebx. cbn [bind].
  destruct fm, zi; reflexivity.
Qed.
Theorem C78_df2 zi z0 : init (R := Fl) B M zi z0 ->
  exists y zo, lpv_lfilter e pr b a x zi Df2 TorchLpc uf = Ok (y, zo) /\
    is2 y B N (fun i => lpc_df2 nb na (bf i) (af i) (z0 i) (xf i)) /\
    match zi with
    | None => zo = None
    | Some _ => na <= N -> exists z, zo = Some z /\ is2 z B M (fun i => inner na (af i) (z0 i) (xf i) N)
    end.
Proof.
  intro Hz. destruct (f_unfold zi z0 Df2 Hz) as (bb & ba & bx & z & Hbb & Hba & Hbx & Hzz & ->).
  apply is2_P1 in Hzz. nm (slice 1 None (Some (Z.of_nat na)) z). replace (Z.of_nat nb - 1)%Z with (Z.of_nat (nb - 1)) by lia.
  nm (slice 1 None (Some (Z.of_nat (nb - 1))) z).
  assert (Hv : is2 v B na z0) by (apply is2_P1; fin H; [lia|auto]).
  assert (Hv0 : is2 v0 B (nb - 1) z0) by (apply is2_P1; fin H0; [lia|auto]).
  destruct (f_allpole_some B N na ba bx v af xf z0 Hba Hbx Hv) as (w & za & -> & Hw & Hza). cbn [bind].
  destruct (C77_fir F fadd fmul fsub B N (nb - 1) bb w (Some v0) bf (fun i n => inner na (af i) (z0 i) (xf i) (S n) 0) z0 HN) as (y & zo & -> & Hy & zb & -> & Hzb); [|exact Hw|exact Hv0|].
  { now replace (S (nb - 1)) with nb by lia. }
  cbn [bind]. rewrite (proj2 (f_sz2 F fadd fmul fsub zb _ _ _ Hzb)).
  destruct zi as [zi|]; do 2 eexists; (split; [reflexivity|]); (split; [exact Hy|]); [|reflexivity].
  intro Hn. specialize (Hza ltac:(lia)). rewrite (proj2 (f_sz2 F fadd fmul fsub za _ _ _ Hza)). eexists; split; [reflexivity|].
  destruct (na <? nb - 1) eqn:E; b2p.
  - replace M with (nb - 1) by lia. eapply is2_ext; [exact Hzb|]. intros i k Hi Hk. cbn beta.
    rewrite (inner_hist na _ _ _ N k). unfold fir_z. replace (N - 1 - k) with (N - 1 - k) by lia. reflexivity.
  - replace M with na by lia. exact Hza.
Qed.
Theorem C78_df1 zi z0 : init (R := Fl) B M zi z0 ->
  exists y, lpv_lfilter e pr b a x zi Df1 TorchLpc uf = Ok (y, None) /\ is2 y B N (fun i => lpc_df1 nb na (bf i) (af i) (xf i)).
Proof.
  intro Hz. destruct (f_unfold zi z0 Df1 Hz) as (bb & ba & bx & z & Hbb & Hba & Hbx & Hzz & ->).
  destruct (C77_fir F fadd fmul fsub B N (nb - 1) bb bx None bf xf (fun _ _ => r0) HN) as (u & zo & -> & Hu & ->); [now replace (S (nb - 1)) with nb by lia|exact Hbx|repeat intro; reflexivity|].
  cbn [bind]. destruct (f_allpole_none B N na ba u af _ Hba Hu) as (y & E & Hy). exists y. split; [exact E|]. exact Hy.
Qed.
End Call.

(** ** Streaming: the first chunk at least as long as the denominator *)
Lemma df2_add nb na M (b a : nat -> nat -> F) (z x : nat -> F) m n : M = Nat.max na (nb - 1) ->
  lpc_df2 nb na b a z x (m + n) = lpc_df2 nb na (fun k => b (m + k)) (fun k => a (m + k)) (inner na a z x m) (fun k => x (m + k)) n.
Proof.
  intro EM. unfold lpc_df2, fir_y. apply (bsum_ext (R := Fl)). intros k Hk. apply (f_equal2 fmul); [|reflexivity].
  unfold window. destruct (n + k <? nb - 1) eqn:E; b2p.
  - rewrite (inner_hist na a z x m). destruct (m + n + k <? nb - 1) eqn:E1; b2p.
    + bfalse (nb - 1 - 1 - (n + k) <? m). f_equal. lia.
    + btrue (nb - 1 - 1 - (n + k) <? m). do 2 f_equal. lia.
  - bfalse (m + n + k <? nb - 1). rewrite <- inner_add. f_equal. lia.
Qed.
Lemma df2_ext nb na M (b b' a a' : nat -> nat -> F) (z z' x x' : nat -> F) n : 1 <= nb -> M = Nat.max na (nb - 1) ->
  (forall k, k < nb -> b n k = b' n k) -> (forall m j, m <= n -> j < na -> a m j = a' m j) -> (forall m, m <= n -> x m = x' m) ->
  (forall j, j < M -> z j = z' j) -> lpc_df2 nb na b a z x n = lpc_df2 nb na b' a' z' x' n.
Proof.
  intros Hnb EM Hb Ha Hx Hz. unfold lpc_df2, fir_y. apply (bsum_ext (R := Fl)). intros k Hk. apply (f_equal2 fmul); [|apply Hb; lia].
  unfold window. destruct (n + k <? nb - 1) eqn:E; b2p; [apply Hz; lia|].
  apply (inner_ext na) with (K := M); try lia; auto; intros; [apply Ha|apply Hx]; lia.
Qed.
Theorem C78_stream e pr uf B N1 N2 nb na M (b b1 b2 a a1 a2 x x1 x2 zi : ten) (bf af : nat -> nat -> nat -> F) (xf z0 : nat -> nat -> F) :
  1 <= B -> 1 <= nb -> 1 <= na -> M = Nat.max na (nb - 1) -> na <= N1 -> na <= N2 ->
  vcoef (R := F) B (N1 + N2) nb b bf -> vcoef (R := F) B N1 nb b1 bf -> vcoef (R := F) B N2 nb b2 (fun i n => bf i (N1 + n)) ->
  vcoef (R := F) B (N1 + N2) na a af -> vcoef (R := F) B N1 na a1 af -> vcoef (R := F) B N2 na a2 (fun i n => af i (N1 + n)) ->
  is2 x B (N1 + N2) xf -> is2 x1 B N1 xf -> is2 x2 B N2 (fun i n => xf i (N1 + n)) -> init (R := Fl) B M (Some zi) z0 ->
  exists y1 z1 y2 z2 y z yf zo,
    lpv_lfilter e pr b1 a1 x1 (Some zi) Df2 TorchLpc uf = Ok (y1, Some z1) /\
    lpv_lfilter e pr b2 a2 x2 (Some z1) Df2 TorchLpc uf = Ok (y2, Some z2) /\
    lpv_lfilter e pr b a x (Some zi) Df2 TorchLpc uf = Ok (y, Some z) /\
    is2 y1 B N1 yf /\ is2 y2 B N2 (fun i n => yf i (N1 + n)) /\ is2 y B (N1 + N2) yf /\ is2 z2 B M zo /\ is2 z B M zo.
Proof.
  intros HB Hnb Hna EM HN1 HN2 Hb Hb1 Hb2 Ha Ha1 Ha2 Hx Hx1 Hx2 Hz.
  destruct (C78_df2 e pr uf B (N1 + N2) nb na M b a x bf af xf HB ltac:(lia) Hnb Hna EM Hb Ha Hx _ _ Hz) as (y & zo & E & Hy & Hf).
  destruct (Hf ltac:(lia)) as (z & -> & Hz'). clear Hf.
  destruct (C78_df2 e pr uf B N1 nb na M b1 a1 x1 bf af xf HB ltac:(lia) Hnb Hna EM Hb1 Ha1 Hx1 _ _ Hz) as (y1 & zo1 & E1 & Hy1 & Hf).
  destruct (Hf HN1) as (z1 & -> & Hz1). clear Hf.
  destruct (C78_df2 e pr uf B N2 nb na M b2 a2 x2 _ _ _ HB ltac:(lia) Hnb Hna EM Hb2 Ha2 Hx2 (Some z1) _ (init_is2 Fl B M z1 _ Hz1)) as (y2 & zo2 & E2 & Hy2 & Hf).
  destruct (Hf HN2) as (z2 & -> & Hz2). clear Hf.
  exists y1, z1, y2, z2, y, z. do 2 eexists. split; [exact E1|]. split; [exact E2|]. split; [exact E|]. split; [exact Hy1|].
  split; [|split; [exact Hy|split; [|exact Hz']]].
  - eapply is2_ext; [exact Hy2|]. intros i n Hi Hn. symmetry. now apply (df2_add nb na M).
  - eapply is2_ext; [exact Hz2|]. intros i k Hi Hk. symmetry. apply inner_add.
Qed.
(** ** Causality: no later sample or coefficient, no other row, no length enters *)
Theorem C78_causal e e' pr pr' uf uf' B N B' N' nb na M (b a x b' a' x' : ten) zi zi' (bf af bf' af' : nat -> nat -> nat -> F) (xf z0 xf' z0' : nat -> nat -> F) i i' n :
  1 <= nb -> 1 <= na -> M = Nat.max na (nb - 1) ->
  vcoef (R := F) B N nb b bf -> vcoef (R := F) B N na a af -> is2 x B N xf -> init (R := Fl) B M zi z0 ->
  vcoef (R := F) B' N' nb b' bf' -> vcoef (R := F) B' N' na a' af' -> is2 x' B' N' xf' -> init (R := Fl) B' M zi' z0' ->
  i < B -> i' < B' -> n < N -> n < N' ->
  (forall m k, m <= n -> k < nb -> bf i m k = bf' i' m k) -> (forall m j, m <= n -> j < na -> af i m j = af' i' m j) ->
  (forall m, m <= n -> xf i m = xf' i' m) -> (forall j, j < M -> z0 i j = z0' i' j) ->
  forall fm, fm = Df1 \/ fm = Df2 -> exists y zo y' zo',
    lpv_lfilter e pr b a x zi fm TorchLpc uf = Ok (y, zo) /\ lpv_lfilter e' pr' b' a' x' zi' fm TorchLpc uf' = Ok (y', zo') /\ at_ y [i; n] = at_ y' [i'; n].
Proof.
  intros Hnb Hna EM Hb Ha Hx Hz Hb' Ha' Hx' Hz' Hi Hi' Hn Hn' Eb Ea Ex Ez fm [-> | ->].
  - destruct (C78_df1 e pr uf B N nb na M b a x bf af xf ltac:(lia) ltac:(lia) Hnb Hna EM Hb Ha Hx _ _ Hz) as (y & E & Hy).
    destruct (C78_df1 e' pr' uf' B' N' nb na M b' a' x' bf' af' xf' ltac:(lia) ltac:(lia) Hnb Hna EM Hb' Ha' Hx' _ _ Hz') as (y' & E' & Hy').
    exists y, None, y', None. split; [exact E|]. split; [exact E'|]. rewrite (proj2 Hy), (proj2 Hy') by assumption.
    unfold lpc_df1. apply (inner_ext na) with (K := na); try lia; auto; [intros; apply Ea; lia|]. intros m Hm.
    apply (bsum_ext (R := Fl)). intros k Hk. apply (f_equal2 fmul); [|apply Eb; lia]. unfold window. destruct (m + k <? nb - 1); [reflexivity|]. apply Ex. lia.
  - destruct (C78_df2 e pr uf B N nb na M b a x bf af xf ltac:(lia) ltac:(lia) Hnb Hna EM Hb Ha Hx _ _ Hz) as (y & zo & E & Hy & _).
    destruct (C78_df2 e' pr' uf' B' N' nb na M b' a' x' bf' af' xf' ltac:(lia) ltac:(lia) Hnb Hna EM Hb' Ha' Hx' _ _ Hz') as (y' & zo' & E' & Hy' & _).
    exists y, zo, y', zo'. split; [exact E|]. split; [exact E'|]. rewrite (proj2 Hy), (proj2 Hy') by assumption.
    apply (df2_ext nb na M); auto.
Qed.
(** ** Scaling maps (C76) that also commute with differences pass through *)
Section Scale.
Variable s : F -> F.
Hypotheses (Hs : scales Fl s) (Hd : forall u v, s (fsub u v) = fsub (s u) (s v)).
Lemma inner_scale P a z x n i : inner P a (fun k => s (z k)) (fun k => s (x k)) n i = s (inner P a z x n i).
Proof.
  revert i. induction n as [|n IH]; intro i; [reflexivity|]. cbn [inner]. destruct i as [|i]; [|apply IH]. rewrite Hd. apply (f_equal2 fsub); [reflexivity|].
  apply (bsum_scale Fl s Hs). intros k Hk. rewrite IH. destruct Hs as (_ & _ & Smul & _). symmetry. apply Smul.
Qed.
Lemma fir_scale M b (x z : nat -> F) n : firy M b (fun k => s (x k)) (fun k => s (z k)) n = s (firy M b x z n).
Proof.
  apply (bsum_scale Fl s Hs). intros k Hk. destruct Hs as (_ & _ & _ & Smul).
  etransitivity; [|symmetry; apply Smul]. apply (f_equal2 fmul); [|reflexivity]. unfold window. now destruct (n + k <? M).
Qed.
Lemma df2_scale nb na b a (z x : nat -> F) n : lpc_df2 nb na b a (fun k => s (z k)) (fun k => s (x k)) n = s (lpc_df2 nb na b a z x n).
Proof.
  unfold lpc_df2. etransitivity; [|apply fir_scale]. apply (bsum_ext (R := Fl)). intros k Hk. apply (f_equal2 fmul); [|reflexivity].
  unfold window. destruct (n + k <? nb - 1); [reflexivity|]. apply inner_scale.
Qed.
Theorem C78_scale e pr uf B N nb na M (b a : ten) (bf af : nat -> nat -> nat -> F) :
  1 <= B -> 1 <= N -> 1 <= nb -> 1 <= na -> M = Nat.max na (nb - 1) -> na <= N ->
  vcoef (R := F) B N nb b bf -> vcoef (R := F) B N na a af ->
  homogeneous (R := Fl) s B N M None None (fun x zi => lpv_lfilter e pr b a x zi Df2 TorchLpc uf).
Proof.
  intros HB HN Hnb Hna EM HnN Hb Ha x x' zi zi' xf z0 Hx Hx' Hz Hz' Hn.
  destruct (C78_df2 e pr uf B N nb na M b a x bf af _ HB HN Hnb Hna EM Hb Ha Hx _ _ Hz) as (y & zo & E & Hy & Hf).
  destruct (C78_df2 e pr uf B N nb na M b a x' bf af _ HB HN Hnb Hna EM Hb Ha Hx' _ _ Hz') as (y' & zo' & E' & Hy' & Hf').
  exists y, zo, y', zo', (fun i n _ => lpc_df2 nb na (bf i) (af i) (z0 i) (fun n => xf i n 0) n). split; [exact E|]. split; [exact E'|]. split; [exact Hy|]. split.
  - eapply is2_ext; [exact Hy'|]. intros i n Hi Hm. apply (df2_scale nb na (bf i) (af i) (z0 i) (fun n => xf i n 0)).
  - destruct zi as [zi|]; [right|left; rewrite (proj1 Hn eq_refl) in Hf'; now repeat split].
    destruct zi' as [zi'|]; [|discriminate (proj2 Hn eq_refl)]. destruct (Hf HnN) as (z & -> & Hf1), (Hf' HnN) as (z' & -> & Hf1').
    exists z, z'. eexists. split; [reflexivity|]. split; [reflexivity|]. split; [exact Hf1|]. eapply is2_ext; [exact Hf1'|].
    intros i k Hi Hk. apply (inner_scale na (af i) (z0 i) (fun n => xf i n 0)).
Qed.
End Scale.
End S.
Print Assumptions C78_df2.
Print Assumptions C78_df1.
Print Assumptions C78_stream.
Print Assumptions C78_causal.
Print Assumptions C78_scale.
(** Plus or minus a power of two also commutes with rounded differences. *)
Lemma sub_scale p s k (x y : Qc) : f2 p Qcminus (scale2 s k x) (scale2 s k y) = scale2 s k (f2 p Qcminus x y).
Proof.
  apply (f2_scale p s k Qcminus); [now rewrite !rep_scale|]. unfold Qcminus, Qcplus, Qcopp. cbn [this Q2Qc]. rewrite !Qred_correct, !this_scale. ring.
Qed.
Theorem C78_float p neg k (x y : Qofield) : scale2 neg k (fl_sub p x y) = fl_sub p (scale2 neg k x) (scale2 neg k y).
Proof. exact (eq_sym (sub_scale p neg k x y)). Qed.
Print Assumptions C78_float.

(** ** Example and counterexamples, 3-bit numbers *)
(** Chunks of two samples, the order, and four; the second passes a with a batch dimension. *)
Example C78_stream_ex : exists y1 z1 y2 z2 y z yf zo,
    lpv_lfilter (R := F3) env0 false (u_B 0 2) (u_A 0 2) (row (firstn 2 c_x)) (Some z_t) Df2 TorchLpc None = Ok (y1, Some z1) /\
    lpv_lfilter (R := F3) env0 false (u_B 2 4) (u_A1 2 4) (row (skipn 2 c_x)) (Some z1) Df2 TorchLpc None = Ok (y2, Some z2) /\
    lpv_lfilter (R := F3) env0 false (u_B 0 6) (u_A 0 6) (row c_x) (Some z_t) Df2 TorchLpc None = Ok (y, Some z) /\
    is2 y1 1 2 yf /\ is2 y2 1 4 (fun i n => yf i (2 + n)) /\ is2 y 1 6 yf /\ is2 z2 1 2 zo /\ is2 z 1 2 zo.
Proof.
  apply (C78_stream Qofield _ _ _ env0 false None 1 2 4 3 2 2 _ _ _ _ _ _ _ _ _ z_t (fun _ => u_b) (fun _ => u_a) (fun _ n => nth n c_x (q 0 1)) (fun _ => z_f)); try lia.
  - apply (u_B_is 0 6).
  - apply (u_B_is 0 2).
  - apply (u_B_is 2 4).
  - apply (u_A_is 0 6).
  - apply (u_A_is 0 2).
  - apply (u_A1_is 2 4).
  - apply row_is; reflexivity.
  - apply row_is; [reflexivity|]. intros k Hk. destruct k as [|[|k]]; [reflexivity..|lia].
  - apply row_is; [reflexivity|]. intros k Hk. do 4 (destruct k as [|k]; [reflexivity|]). lia.
  - apply (init_is2 F3), z_t_is.
Qed.
(** The outputs of the whole call and of the first direct form. *)
Example C78_values : map (num (lpv_lfilter (R := F3) env0 false (u_B 0 6) (u_A 0 6) (row c_x) (Some z_t) Df2 TorchLpc None)) (seq 0 6)
    = map (fun x => Some x) [8; 5; 7 # 2; -1; 0; 2]%Q /\
  map (num (lpv_lfilter (R := F3) env0 false (u_B 0 6) (u_A 0 6) (row c_x) None Df1 TorchLpc None)) (seq 0 6)
    = map (fun x => Some x) [2; -1 # 2; -1; 5 # 4; 2; 1 # 4]%Q.
Proof. split; vm_compute; reflexivity. Qed.
Example C78_scale_ex neg k : homogeneous (R := F3) (scale2 neg k) 1 6 2 None None (fun x zi => lpv_lfilter (R := F3) env0 false (u_B 0 6) (u_A 0 6) x zi Df2 TorchLpc None).
Proof.
  apply (C78_scale Qofield _ _ _ (scale2 neg k) (float_scales 3 neg k) (C78_float 3 neg k) env0 false None 1 6 3 2 2 _ _ (fun _ => u_b) (fun _ => u_a)); try lia.
  - apply (u_B_is 0 6).
  - apply (u_A_is 0 6).
Qed.
(** A sample appended to the signal leaves the outputs alone, in both forms. *)
Example C78_causal_ex fm : fm = Df1 \/ fm = Df2 -> exists y zo y' zo',
    lpv_lfilter (R := F3) env0 false (u_B 0 6) (u_A 0 6) (row c_x) (Some z_t) fm TorchLpc None = Ok (y, zo) /\
    lpv_lfilter (R := F3) ext_env false (u_B 0 7) (u_A1 0 7) (row (c_x ++ [q 1 1])) (Some z_t) fm TorchLpc (Some 4) = Ok (y', zo') /\ at_ y [0; 5] = at_ y' [0; 5].
Proof.
  intro Hfm.
  apply (C78_causal Qofield _ _ _ env0 ext_env false false None (Some 4) 1 6 1 7 3 2 2 _ _ _ _ _ _ (Some z_t) (Some z_t) (fun _ => u_b) (fun _ => u_a) (fun _ => u_b) (fun _ => u_a)
    (fun _ n => nth n c_x (q 0 1)) (fun _ => z_f) (fun _ n => nth n (c_x ++ [q 1 1]) (q 0 1)) (fun _ => z_f)); try lia; try exact Hfm.
  - apply (u_B_is 0 6).
  - apply (u_A_is 0 6).
  - apply row_is; reflexivity.
  - apply (init_is2 F3), z_t_is.
  - apply (u_B_is 0 7).
  - apply (u_A1_is 0 7).
  - apply row_is; reflexivity.
  - apply (init_is2 F3), z_t_is.
  - reflexivity.
  - reflexivity.
  - intros m Hm. symmetry. apply app_nth1. cbn [length c_x]. lia.
  - reflexivity.
Qed.
(** The two back-ends of lpv.lfilter differ in the last bit. *)
Theorem C78_backends_refuted : ~ same_result (R := F3) 1 2 None 6
  (lpv_lfilter env0 false (u_B 0 6) (u_A 0 6) (row c_x) (Some z_t) Df2 TorchLpc None) (lpv_lfilter env0 false (u_B 0 6) (u_A 0 6) (row c_x) (Some z_t) Df2 Ssm (Some 1)).
Proof.
  intros (y & zo & y' & zo' & yf & E & E' & Hy & Hy' & _).
  assert (X : num (lpv_lfilter (R := F3) env0 false (u_B 0 6) (u_A 0 6) (row c_x) (Some z_t) Df2 TorchLpc None) 1
    = num (lpv_lfilter (R := F3) env0 false (u_B 0 6) (u_A 0 6) (row c_x) (Some z_t) Df2 Ssm (Some 1)) 1).
  { rewrite E, E'. cbn [num]. do 2 f_equal. transitivity (yf 0 1 0); [|symmetry]; [apply (proj2 Hy)|apply (proj2 Hy')]; lia. }
  clear -X. vm_compute in X. discriminate X.
Qed.
Print Assumptions C78_backends_refuted.
