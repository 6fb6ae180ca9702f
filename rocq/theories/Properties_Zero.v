(** C79: zero coefficients at the end change no bit. *)
From Coq Require Import List Arith Lia ZArith Bool QArith Qcanon.
From Verif Require Import Scalar Ordered FloatQ Spec SpecRound SpecZero SpecFilter SpecLpv Tensor TensorLemmas TensorOps TensorAlg TensorTac TensorList Shapes SpecBits SpecBits2 SpecBits3
  Algebra M_Mat M_Kernels M_LtiSsm P_Kernels P_LtiSsm M_LtiFilter P_LtiFilter M_Ext M_LpvSsm P_LpvSsm M_LpvFilter P_LpvFilter P_Filter P_Round P_Round6 P_Round10 P_Bits P_Bits2 P_Bits3 P_Bits4 P_Bits5 P_Bits6 P_Bits7 P_Zero
  Properties_Round Properties_Bits Properties_Bits2 Properties_Bits3 Properties_Bits4 Properties_Bits5 Properties_Bits6 Properties_Bits7.
Import ListNotations.
Close Scope Qc_scope. Close Scope Q_scope. Open Scope nat_scope.

Section S.
Variable F : ofield.
Add Ring Rpz : (r_th F).
Variables (fadd fmul fsub : F -> F -> F).
Notation Fl := (flops F fadd fmul fsub).
Notation ten := (tensor (car Fl)).
(** Every arithmetic with relative rounding errors has exact zeros. *)
Theorem C79_rounds (u : F) : rounds u fadd fmul fsub -> zero_laws fadd fmul fsub.
Proof.
  intro HR. split; [exact (rd_0r _ _ _ _ HR)|]. split; [apply (fmul_0_l F u fadd fmul fsub HR)|]. split; [apply (fmul_0_r F u fadd fmul fsub HR)|].
  pose proof (rd_sub _ _ _ _ HR r0 r0) as H. unfold near in H. replace (rsub r0 r0) with (r0 : F) in H by ring.
  rewrite (abs_0 F) in H. replace (rmul u r0) with (r0 : F) in H by ring. apply (abs_0_eq F) in H.
  transitivity (rsub (fsub r0 r0) r0); [ring|exact H].
Qed.
Hypothesis HZ : zero_laws fadd fmul fsub.
Lemma padz_more n n' (f f' : nat -> F) k : n <= n' -> (forall j, j < n' -> f' j = padz n f j) -> padz n' f' k = padz n f k.
Proof. intros Hn H. unfold padz at 1. destruct (Nat.ltb_spec k n'); [now apply H|]. unfold padz. bfalse (k <? n). reflexivity. Qed.
Lemma padz_0 n (f : nat -> F) k : n <= k -> padz n f k = r0.
Proof. intro H. unfold padz. now bfalse (k <? n). Qed.

Section Ssm.
Hypothesis mulC : forall u v : F, fmul u v = fmul v u.
Theorem C79_lpv_lfilter e e' pr pr' B N nb na M nb' na' M' (b a b' a' x : ten) zi zi' (bf af bf' af' : nat -> nat -> nat -> F) (xf z0 z0' : nat -> nat -> F) fm :
  1 <= B -> 1 <= N -> 1 <= nb -> nb <= nb' -> na <= na' -> M = Nat.max na (nb - 1) -> M' = Nat.max na' (nb' - 1) -> 1 <= M ->
  sequentialv e pr M -> sequentialv e' pr' M' -> second_form fm -> shapes_ok fm B N (rk b) (rk a) -> shapes_ok fm B N (rk b') (rk a') ->
  vcoef (R := F) B N nb b bf -> vcoef (R := F) B N na a af -> vcoef (R := F) B N nb' b' bf' -> vcoef (R := F) B N na' a' af' ->
  (forall i n k, i < B -> n < N -> k < nb' -> bf' i n k = padz nb (bf i n) k) -> (forall i n k, i < B -> n < N -> k < na' -> af' i n k = padz na (af i n) k) ->
  is2 x B N xf -> init (R := Fl) B M zi z0 -> init (R := Fl) B M' zi' z0' -> given zi = given zi' ->
  (forall i k, i < B -> k < M -> z0' i k = z0 i k) -> (fm = Tdf2 -> forall i k, i < B -> M <= k -> k < M' -> z0' i k = r0) ->
  same_with_more B N M M' (lpv_lfilter e pr b a x zi fm Ssm (Some 1)) (lpv_lfilter e' pr' b' a' x zi' fm Ssm (Some 1)) (given zi).
Proof.
  intros HB HN Hnb Hbb Haa EM EM' HM He He' Hfm Hs Hs' Hb Ha Hb' Ha' Eb Ea Hx Hz Hz' Hg Ez Ez0.
  destruct (C75_lpv F fadd fmul fsub mulC e pr B N nb na M b a x bf af xf z0 zi fm HB HN Hnb EM HM Hx He Hb Ha Hz Hfm Hs) as (y & zo & E & Hy & Hf).
  destruct (C75_lpv F fadd fmul fsub mulC e' pr' B N nb' na' M' b' a' x bf' af' xf z0' zi' fm HB HN ltac:(lia) EM' ltac:(lia) Hx He' Hb' Ha' Hz' Hfm Hs') as (y' & zo' & E' & Hy' & Hf').
  exists y, zo, y', zo'. eexists. split; [exact E|]. split; [exact E'|]. split; [exact Hy|]. split.
  - eapply is2_ext; [exact Hy'|]. intros i n Hi Hn. cbn beta.
    etransitivity; [|apply (fy_grow F fadd fmul fsub HZ M M' (fun n => padz nb (bf i n)) (fun n => padz na (af i n)) (xf i) HM ltac:(lia)
      ltac:(intros; apply padz_0; lia) ltac:(intros; apply padz_0; lia) fm (z0 i) (z0' i) n Hfm (fun k => Ez i k Hi) (fun Ht k => Ez0 Ht i k Hi))].
    apply fy_ext; [lia| | |reflexivity|reflexivity]; intros m k Hm; (apply padz_more; [assumption|]); intros j Hj; first [apply Eb|apply Ea]; auto; lia.
  - destruct zi as [zi|], zi' as [zi'|]; try discriminate Hg; [|now split]. destruct Hf as (z & -> & Hf), Hf' as (z' & -> & Hf').
    exists z, z'. do 2 eexists. split; [reflexivity|]. split; [reflexivity|]. split; [exact Hf|]. split; [exact Hf'|]. intros i k Hi Hk. cbn beta.
    destruct (fh_grow F fadd fmul fsub HZ M M' (fun n => padz nb (bf i n)) (fun n => padz na (af i n)) (xf i) HM ltac:(lia)
      ltac:(intros; apply padz_0; lia) ltac:(intros; apply padz_0; lia) fm (z0 i) (z0' i) N Hfm (fun k => Ez i k Hi) (fun Ht k => Ez0 Ht i k Hi)) as [G _].
    rewrite <- G by exact Hk. apply fh_ext; [| |reflexivity|reflexivity|lia]; intros m j Hm; (apply padz_more; [assumption|]); intros l Hl; first [apply Eb|apply Ea]; auto; lia.
Qed.
Theorem C79_lfilter e e' B N nb na M nb' na' M' (b a b' a' x : ten) zi zi' (bf af bf' af' xf z0 z0' : nat -> nat -> F) fm :
  1 <= B -> 1 <= N -> 1 <= nb -> nb <= nb' -> na <= na' -> M = Nat.max na (nb - 1) -> M' = Nat.max na' (nb' - 1) -> 1 <= M ->
  sequential e M -> sequential e' M' -> second_form fm ->
  fcoef (R := F) B nb b bf -> fcoef (R := F) B na a af -> fcoef (R := F) B nb' b' bf' -> fcoef (R := F) B na' a' af' ->
  (forall i k, i < B -> k < nb' -> bf' i k = padz nb (bf i) k) -> (forall i k, i < B -> k < na' -> af' i k = padz na (af i) k) ->
  is2 x B N xf -> init (R := Fl) B M zi z0 -> init (R := Fl) B M' zi' z0' -> given zi = given zi' ->
  (forall i k, i < B -> k < M -> z0' i k = z0 i k) -> (fm = Tdf2 -> forall i k, i < B -> M <= k -> k < M' -> z0' i k = r0) ->
  same_with_more B N M M' (lfilter_ssm e b a x zi fm (Some 1)) (lfilter_ssm e' b' a' x zi' fm (Some 1)) (given zi).
Proof.
  intros HB HN Hnb Hbb Haa EM EM' HM He He' Hfm Hb Ha Hb' Ha' Eb Ea Hx Hz Hz' Hg Ez Ez0.
  destruct (C75_lti F fadd fmul fsub mulC e B N nb na M b a x bf af xf z0 zi fm HB HN Hnb EM HM Hx He Hb Ha Hz Hfm) as (y & zo & E & Hy & Hf).
  destruct (C75_lti F fadd fmul fsub mulC e' B N nb' na' M' b' a' x bf' af' xf z0' zi' fm HB HN ltac:(lia) EM' ltac:(lia) Hx He' Hb' Ha' Hz' Hfm) as (y' & zo' & E' & Hy' & Hf').
  exists y, zo, y', zo'. eexists. split; [exact E|]. split; [exact E'|]. split; [exact Hy|]. split.
  - eapply is2_ext; [exact Hy'|]. intros i n Hi Hn. cbn beta.
    etransitivity; [|apply (fy_grow F fadd fmul fsub HZ M M' (fun n => padz nb (bf i)) (fun n => padz na (af i)) (xf i) HM ltac:(lia)
      ltac:(intros; apply padz_0; lia) ltac:(intros; apply padz_0; lia) fm (z0 i) (z0' i) n Hfm (fun k => Ez i k Hi) (fun Ht k => Ez0 Ht i k Hi))].
    apply fy_ext; [lia| | |reflexivity|reflexivity]; intros m k Hm; (apply padz_more; [assumption|]); intros j Hj; first [apply Eb|apply Ea]; auto.
  - destruct zi as [zi|], zi' as [zi'|]; try discriminate Hg; [|now split]. destruct Hf as (z & -> & Hf), Hf' as (z' & -> & Hf').
    exists z, z'. do 2 eexists. split; [reflexivity|]. split; [reflexivity|]. split; [exact Hf|]. split; [exact Hf'|]. intros i k Hi Hk. cbn beta.
    destruct (fh_grow F fadd fmul fsub HZ M M' (fun n => padz nb (bf i)) (fun n => padz na (af i)) (xf i) HM ltac:(lia)
      ltac:(intros; apply padz_0; lia) ltac:(intros; apply padz_0; lia) fm (z0 i) (z0' i) N Hfm (fun k => Ez i k Hi) (fun Ht k => Ez0 Ht i k Hi)) as [G _].
    rewrite <- G by exact Hk. apply fh_ext; [| |reflexivity|reflexivity|lia]; intros m j Hm; (apply padz_more; [assumption|]); intros l Hl; first [apply Eb|apply Ea]; auto.
Qed.
End Ssm.

(** lpv.fir and the torchlpc back-end; here the further states may be anything. *)
Theorem C79_lpv_fir B N M M' (b b' x : ten) zi zi' (bf bf' : nat -> nat -> nat -> F) (xf zf zf' : nat -> nat -> F) :
  1 <= N -> M <= M' -> is3 b B N (S M) bf -> is3 b' B N (S M') bf' -> (forall i n k, i < B -> n < N -> k <= M' -> bf' i n k = padz (S M) (bf i n) k) ->
  is2 x B N xf -> init2 Fl B M zi zf -> init2 Fl B M' zi' zf' -> given zi = given zi' -> (forall i k, i < B -> k < M -> zf' i k = zf i k) ->
  same_with_more B N M M' (lpv_fir b x zi false) (lpv_fir b' x zi' false) (given zi).
Proof.
  intros HN HM Hb Hb' Eb Hx Hz Hz' Hg Ez.
  destruct (C77_fir F fadd fmul fsub B N M b x zi bf xf zf HN Hb Hx Hz) as (y & zo & E & Hy & Hf).
  destruct (C77_fir F fadd fmul fsub B N M' b' x zi' bf' xf zf' HN Hb' Hx Hz') as (y' & zo' & E' & Hy' & Hf').
  exists y, zo, y', zo'. eexists. split; [exact E|]. split; [exact E'|]. split; [exact Hy|]. split.
  - eapply is2_ext; [exact Hy'|]. intros i n Hi Hn. apply (fir_grow F fadd fmul fsub HZ M M'); auto.
    + intros k Hk. rewrite Eb by lia. unfold padz. now btrue (k <? S M).
    + intros k Hk Hk'. rewrite Eb by lia. apply padz_0. lia.
  - destruct zi as [zi|], zi' as [zi'|]; try discriminate Hg; [|now split]. destruct Hf as (z & -> & Hf), Hf' as (z' & -> & Hf').
    exists z, z'. do 2 eexists. split; [reflexivity|]. split; [reflexivity|]. split; [exact Hf|]. split; [exact Hf'|]. intros i k Hi Hk.
    unfold fir_z. destruct (k <? N) eqn:Ek; b2p; [reflexivity|]. apply Ez; lia.
Qed.
Theorem C79_torchlpc e e' pr pr' uf uf' B N nb na M nb' na' M' (b a b' a' x : ten) zi zi' (bf af bf' af' : nat -> nat -> nat -> F) (xf z0 z0' : nat -> nat -> F) :
  1 <= B -> 1 <= nb -> nb <= nb' -> 1 <= na -> na <= na' -> M = Nat.max na (nb - 1) -> M' = Nat.max na' (nb' - 1) -> na' <= N ->
  vcoef (R := F) B N nb b bf -> vcoef (R := F) B N na a af -> vcoef (R := F) B N nb' b' bf' -> vcoef (R := F) B N na' a' af' ->
  (forall i n k, i < B -> n < N -> k < nb' -> bf' i n k = padz nb (bf i n) k) -> (forall i n k, i < B -> n < N -> k < na' -> af' i n k = padz na (af i n) k) ->
  is2 x B N xf -> init (R := Fl) B M zi z0 -> init (R := Fl) B M' zi' z0' -> given zi = given zi' -> (forall i k, i < B -> k < M -> z0' i k = z0 i k) ->
  same_with_more B N M M' (lpv_lfilter e pr b a x zi Df2 TorchLpc uf) (lpv_lfilter e' pr' b' a' x zi' Df2 TorchLpc uf') (given zi).
Proof.
  intros HB Hnb Hbb Hna Haa EM EM' HN Hb Ha Hb' Ha' Eb Ea Hx Hz Hz' Hg Ez.
  destruct (C78_df2 F fadd fmul fsub e pr uf B N nb na M b a x bf af xf HB ltac:(lia) Hnb Hna EM Hb Ha Hx zi z0 Hz) as (y & zo & E & Hy & Hf).
  destruct (C78_df2 F fadd fmul fsub e' pr' uf' B N nb' na' M' b' a' x bf' af' xf HB ltac:(lia) ltac:(lia) ltac:(lia) EM' Hb' Ha' Hx zi' z0' Hz') as (y' & zo' & E' & Hy' & Hf').
  assert (G : forall i n, i < B -> n <= N -> forall k, k < n + M -> inner F fadd fmul fsub na' (af' i) (z0' i) (xf i) n k = inner F fadd fmul fsub na (af i) (z0 i) (xf i) n k).
  { intros i n Hi Hn. apply (inner_grow F fadd fmul fsub HZ na na') with (K := M); auto; try lia.
    - intros m j Hm Hj. rewrite Ea by lia. unfold padz. now btrue (j <? na).
    - intros m j Hm Hj Hj'. rewrite Ea by lia. now apply padz_0. }
  exists y, zo, y', zo'. eexists. split; [exact E|]. split; [exact E'|]. split; [exact Hy|]. split.
  - eapply is2_ext; [exact Hy'|]. intros i n Hi Hn. unfold lpc_df2.
    etransitivity; [apply (fir_grow F fadd fmul fsub HZ (nb - 1) (nb' - 1) (bf i) (bf' i) _ (z0 i) (z0' i)); try lia|].
    + intros k Hk. rewrite Eb by lia. unfold padz. now btrue (k <? nb).
    + intros k Hk Hk'. rewrite Eb by lia. apply padz_0. lia.
    + intros k Hk. apply Ez; lia.
    + apply (bsum_ext (R := Fl)). intros k Hk. apply (f_equal2 fmul); [|reflexivity]. unfold window. destruct (n + k <? nb - 1) eqn:E1; b2p; [reflexivity|]. apply G; lia.
  - destruct zi as [zi|], zi' as [zi'|]; try discriminate Hg; [|now split]. destruct (Hf ltac:(lia)) as (z & -> & Hf1), (Hf' ltac:(lia)) as (z' & -> & Hf1').
    exists z, z'. do 2 eexists. split; [reflexivity|]. split; [reflexivity|]. split; [exact Hf1|]. split; [exact Hf1'|]. intros i k Hi Hk. apply G; lia.
Qed.
End S.
Print Assumptions C79_rounds.
Print Assumptions C79_lpv_lfilter.
Print Assumptions C79_lfilter.
Print Assumptions C79_lpv_fir.
Print Assumptions C79_torchlpc.

(** ** Examples and a counterexample, 3-bit numbers *)
Lemma z3 : zero_laws (F := Qofield) (fl_add 3) (fl_mul 3) (fl_sub 3).
Proof. exact (C79_rounds Qofield _ _ _ _ (float_rounds 3)). Qed.
Definition u_Bz (N : nat) : ten3 := mkT [N; 4] (fun i => padz (R := Qofield) 3 (u_b (nth 0 i 0)) (nth 1 i 0)).
Definition u_Az (N : nat) : ten3 := mkT [N; 3] (fun i => padz (R := Qofield) 2 (u_a (nth 0 i 0)) (nth 1 i 0)).
Lemma u_Bz_is N : vcoef (R := Qofield) 1 N 4 (u_Bz N) (fun _ n => padz (R := Qofield) 3 (u_b n)).
Proof. apply (vc_s (fun n => padz (R := Qofield) 3 (u_b n) : nat -> Qofield)); [split; reflexivity|reflexivity]. Qed.
Lemma u_Az_is N : vcoef (R := Qofield) 1 N 3 (u_Az N) (fun _ n => padz (R := Qofield) 2 (u_a n)).
Proof. apply (vc_s (fun n => padz (R := Qofield) 2 (u_a n) : nat -> Qofield)); [split; reflexivity|reflexivity]. Qed.
Definition z_t0 : ten3 := row [q 5 8; q (-3) 2; q 0 1].
Lemma z_t0_is : is2 z_t0 1 3 (fun _ => z_f).
Proof. apply row_is; [reflexivity|]. intros k Hk. destruct k as [|[|[|k]]]; [reflexivity..|lia]. Qed.
(** One zero more in both polynomials, both second direct forms and both back-ends. *)
Example C79_ex fm bk uf : second_form fm -> bk = Ssm /\ uf = Some 1 \/ bk = TorchLpc /\ fm = Df2 ->
  same_with_more (A := car F3) 1 6 2 3 (lpv_lfilter (R := F3) env0 false (u_B 0 6) (u_A 0 6) (row c_x) (Some z_t) fm bk uf)
    (lpv_lfilter (R := F3) env0 false (u_Bz 6) (u_Az 6) (row c_x) (Some z_t0) fm bk uf) true.
Proof.
  intros Hfm [[-> ->]|[-> ->]].
  - apply (C79_lpv_lfilter Qofield _ _ _ z3 mul3_comm env0 env0 false false 1 6 3 2 2 4 3 3 _ _ _ _ _ (Some z_t) (Some z_t0)
      (fun _ => u_b) (fun _ => u_a) (fun _ n => padz (R := Qofield) 3 (u_b n)) (fun _ n => padz (R := Qofield) 2 (u_a n)) (fun _ n => nth n c_x (q 0 1)) (fun _ => z_f) (fun _ => z_f)); try lia; try reflexivity.
    + apply seqv_env0.
    + apply seqv_env0.
    + exact Hfm.
    + destruct Hfm as [-> | ->]; [left|left]; try split; reflexivity.
    + destruct Hfm as [-> | ->]; [left|left]; try split; reflexivity.
    + apply (u_B_is 0 6).
    + apply (u_A_is 0 6).
    + apply u_Bz_is.
    + apply u_Az_is.
    + apply row_is; reflexivity.
    + apply (init_is2 F3), z_t_is.
    + apply (init_is2 F3), z_t0_is.
    + intros _ i k Hi Hk Hk'. now replace k with 2 by lia.
  - apply (C79_torchlpc Qofield _ _ _ z3 env0 env0 false false uf uf 1 6 3 2 2 4 3 3 _ _ _ _ _ (Some z_t) (Some z_t0)
      (fun _ => u_b) (fun _ => u_a) (fun _ n => padz (R := Qofield) 3 (u_b n)) (fun _ n => padz (R := Qofield) 2 (u_a n)) (fun _ n => nth n c_x (q 0 1)) (fun _ => z_f) (fun _ => z_f)); try lia; try reflexivity.
    + apply (u_B_is 0 6).
    + apply (u_A_is 0 6).
    + apply u_Bz_is.
    + apply u_Az_is.
    + apply row_is; reflexivity.
    + apply (init_is2 F3), z_t_is.
    + apply (init_is2 F3), z_t0_is.
Qed.
Definition c_bz : ten3 := lst1 (q 0 1) [q 3 2; q (-7) 8; q 5 8; q 0 1; q 0 1].
Definition d_az : ten3 := lst1 (q 0 1) [q (-5) 4; q 3 4; q 3 8; q 0 1].
Definition z_3 : ten3 := row [q 5 8; q (-3) 2; q 7 8].
Definition z_4 : ten3 := row [q 5 8; q (-3) 2; q 7 8; q 0 1].
Definition z_g (k : nat) : Qc := nth k [q 5 8; q (-3) 2; q 7 8; q 0 1] (q 0 1).
Example C79_lfilter_ex fm : second_form fm ->
  same_with_more (A := car F3) 1 6 3 4 (lfilter_ssm (R := F3) env0 c_b d_a (row c_x) (Some z_3) fm (Some 1)) (lfilter_ssm (R := F3) env0 c_bz d_az (row c_x) (Some z_4) fm (Some 1)) true.
Proof.
  intro Hfm.
  apply (C79_lfilter Qofield _ _ _ z3 mul3_comm env0 env0 1 6 3 3 3 5 4 4 _ _ _ _ _ (Some z_3) (Some z_4)
    (fun _ k => nth k [q 3 2; q (-7) 8; q 5 8] (q 0 1)) (fun _ k => nth k [q (-5) 4; q 3 4; q 3 8] (q 0 1))
    (fun _ k => nth k [q 3 2; q (-7) 8; q 5 8; q 0 1; q 0 1] (q 0 1)) (fun _ k => nth k [q (-5) 4; q 3 4; q 3 8; q 0 1] (q 0 1))
    (fun _ n => nth n c_x (q 0 1)) (fun _ => z_g) (fun _ => z_g)); try lia; try reflexivity.
  - apply seq_env0.
  - apply seq_env0.
  - exact Hfm.
  - exact c_b_is.
  - exact d_a_is.
  - apply (fc_s (fun k => nth k [q 3 2; q (-7) 8; q 5 8; q 0 1; q 0 1] (q 0 1) : Qofield)); [split; reflexivity|reflexivity].
  - apply (fc_s (fun k => nth k [q (-5) 4; q 3 4; q 3 8; q 0 1] (q 0 1) : Qofield)); [split; reflexivity|reflexivity].
  - intros i k _ Hk. do 5 (destruct k as [|k]; [reflexivity|]). lia.
  - intros i k _ Hk. do 4 (destruct k as [|k]; [reflexivity|]). lia.
  - apply row_is; reflexivity.
  - apply (init_is2 F3). apply row_is; [reflexivity|]. intros k Hk. do 3 (destruct k as [|k]; [reflexivity|]). lia.
  - apply (init_is2 F3). apply row_is; reflexivity.
  - intros _ i k Hi Hk Hk'. now replace k with 3 by lia.
Qed.
(** In the transposed form a further state that is not zero does reach the output. *)
Definition z_6 : ten3 := row [q 5 8; q (-3) 2; q 6 1].
Theorem C79_state_refuted : ~ same_with_more (A := car F3) 1 6 2 3 (lpv_lfilter (R := F3) env0 false (u_B 0 6) (u_A 0 6) (row c_x) (Some z_t) Tdf2 Ssm (Some 1))
    (lpv_lfilter (R := F3) env0 false (u_Bz 6) (u_Az 6) (row c_x) (Some z_6) Tdf2 Ssm (Some 1)) true.
Proof.
  intros (y & zo & y' & zo' & yf & E & E' & Hy & Hy' & _).
  assert (X : num (lpv_lfilter (R := F3) env0 false (u_B 0 6) (u_A 0 6) (row c_x) (Some z_t) Tdf2 Ssm (Some 1)) 2
    = num (lpv_lfilter (R := F3) env0 false (u_Bz 6) (u_Az 6) (row c_x) (Some z_6) Tdf2 Ssm (Some 1)) 2).
  { rewrite E, E'. cbn [num]. do 2 f_equal. transitivity (yf 0 2); [|symmetry]; [apply (proj2 Hy)|apply (proj2 Hy')]; lia. }
  clear -X. vm_compute in X. discriminate X.
Qed.
Print Assumptions C79_state_refuted.
