(** lpv.lfilter (state-space back-end) for every unroll factor: what it computes, right or
    wrong, in terms of the blocked recursion [lpv_h] of P_LpvSs2. *)
From Coq Require Import List Arith Lia ZArith Bool Ring.
From Verif Require Import Scalar Tensor TensorLemmas TensorOps TensorAlg TensorTac TensorList Spec Shapes SpecFilter SpecLpv Algebra M_Mat M_Kernels
  M_LtiSsm M_LpvSsm M_LtiFilter M_LpvFilter P_LtiSsm P_LpvSsm P_LpvBlk P_LpvSs P_LpvSs2 P_Filter P_LtiFilter P_LpvAlg P_LpvFilter P_LpvFilter2.
Import ListNotations.

Section S.
Variable R : cring.
Notation ten := (tensor (car R)).
Add Ring Rr : (r_th R).
Open Scope cr_scope.

(** The factor in force: df2 and tdf2 go through state_space, df1 and tdf1 call the
    recursion directly (filtering.py:337-345, 353-361), the extension ignoring the factor. *)
Definition form_uf (e : env) (pr : bool) (M N : nat) (fm : form) (uf : option nat) : nat :=
  match fm with
  | Df2 | Tdf2 => lpv_uf N uf
  | _ => if lpv_extension_backend_indicator e pr M then 1 else match uf with Some u => u | None => 1 end
  end.
Definition comb_in (M : nat) (b a : nat -> nat -> R) (n m : nat) : R := b n (S m) - b n 0%nat * a n m.
Definition first (x : nat -> R) (n m : nat) : R := if (m =? 0)%nat then x n else 0.
(** Inner state, input of the recursion, matrices, output for each form. *)
Definition form_A (fm : form) (a : nat -> nat -> R) (n : nat) : nat -> nat -> R :=
  match fm with Df1 | Df2 => compm R (a n) | _ => comph R (fun k => conj (a n k)) end.
Definition form_in (fm : form) (M : nat) (b a : nat -> nat -> R) (x : nat -> R) (n m : nat) : R :=
  match fm with
  | Df1 => first (vconv M b x) n m
  | Tdf2 => comb_in M (fun n k => conj (b n k)) (fun n k => conj (a n k)) n m * x n
  | _ => first x n m
  end.
Definition form_z (fm : form) (z : nat -> R) : nat -> R := match fm with Df2 | Tdf2 => z | _ => fun _ => 0 end.
Definition form_h (fm : form) (M u N : nat) (b a : nat -> nat -> R) (z x : nat -> R) : nat -> nat -> R :=
  lpv_h R M u N (form_A fm a) (form_z fm z) (form_in fm M b a x).
Definition form_y (fm : form) (M u N : nat) (b a : nat -> nat -> R) (z x : nat -> R) (n : nat) : R :=
  let h := form_h fm M u N b a z x in
  match fm with
  | Df2 => bsum M (fun m => comb_in M b a n m * h n m) + b n 0%nat * x n
  | Tdf2 => h n 0%nat + conj (b n 0%nat) * x n
  | Df1 => h (S n) 0%nat
  | Tdf1 => vconvt M b (fun n => h (S n) 0%nat) n
  | OtherForm => 0
  end.

Lemma form_h_ext fm M u N b b' a a' z z' x x' n m : (1 <= u)%nat -> (m < M)%nat ->
  (forall m k, (m < n)%nat -> (k <= M)%nat -> b m k = b' m k) -> (forall m k, (m < n)%nat -> (k < M)%nat -> a m k = a' m k) ->
  (forall k, (k < M)%nat -> z k = z' k) -> (forall m, (m < n)%nat -> x m = x' m) ->
  form_h fm M u N b a z x n m = form_h fm M u N b' a' z' x' n m.
Proof.
  intros Hu Hm Hb Ha Hz Hx. apply lpv_h_causal; auto.
  - intros k i j Hk Hi Hj. unfold form_A. destruct fm; unfold compm, comph; now rewrite Ha by assumption.
  - intros i Hi. destruct fm; cbn; auto.
  - intros k i Hk Hi. unfold form_in. destruct fm; unfold first, comb_in.
    + now rewrite Hx.
    + now rewrite (Hb k (S i)), (Hb k 0%nat), Ha, Hx by lia.
    + destruct (i =? 0)%nat; [|reflexivity]. apply vconv_ext; intros; [apply Hb|apply Hx]; lia.
    + now rewrite Hx.
    + now rewrite Hx.
Qed.
Lemma form_y_ext fm M u N b b' a a' z z' x x' n : (1 <= u)%nat -> (1 <= M)%nat ->
  (forall m k, (m <= n)%nat -> (k <= M)%nat -> b m k = b' m k) -> (forall m k, (m <= n)%nat -> (k < M)%nat -> a m k = a' m k) ->
  (forall k, (k < M)%nat -> z k = z' k) -> (forall m, (m <= n)%nat -> x m = x' m) ->
  form_y fm M u N b a z x n = form_y fm M u N b' a' z' x' n.
Proof.
  intros Hu HM Hb Ha Hz Hx. unfold form_y.
  assert (K : forall fm t m, (t <= S n)%nat -> (m < M)%nat -> form_h fm M u N b a z x t m = form_h fm M u N b' a' z' x' t m).
  { intros. apply form_h_ext; auto; intros; [apply Hb|apply Ha|apply Hx]; auto; lia. }
  destruct fm.
  - rewrite (Hb n 0%nat), Hx by lia. f_equal. apply bsum_ext. intros m Hm. unfold comb_in. rewrite (Hb n (S m)), (Hb n 0%nat), Ha, K by lia. reflexivity.
  - rewrite (Hb n 0%nat), Hx, K by lia. reflexivity.
  - apply K; lia.
  - apply vconvt_ext; auto. intros m Hm. apply K; lia.
  - reflexivity.
Qed.
Lemma form_h_lin fm M u N b a c1 c2 (z1 z2 x1 x2 : nat -> R) n m :
  form_h fm M u N b a (fun k => c1 * z1 k + c2 * z2 k) (fun k => c1 * x1 k + c2 * x2 k) n m
  = c1 * form_h fm M u N b a z1 x1 n m + c2 * form_h fm M u N b a z2 x2 n m.
Proof.
  apply lpv_h_lin.
  - intro i. destruct fm; cbn; ring.
  - intros k i. unfold form_in. destruct fm; unfold first; try (destruct (i =? 0)%nat; ring).
    destruct (i =? 0)%nat; [|ring]. unfold vconv. rewrite <- !bsum_mul_l, <- bsum_add. apply bsum_ext. intros j Hj. unfold dly.
    destruct (j <=? k)%nat; ring.
Qed.
Lemma form_y_lin fm M u N b a c1 c2 (z1 z2 x1 x2 : nat -> R) n :
  form_y fm M u N b a (fun k => c1 * z1 k + c2 * z2 k) (fun k => c1 * x1 k + c2 * x2 k) n
  = c1 * form_y fm M u N b a z1 x1 n + c2 * form_y fm M u N b a z2 x2 n.
Proof.
  unfold form_y. destruct fm.
  - rewrite (bsum_ext M _ (fun m => c1 * (comb_in M b a n m * form_h Df2 M u N b a z1 x1 n m) + c2 * (comb_in M b a n m * form_h Df2 M u N b a z2 x2 n m)))
      by (intros; rewrite form_h_lin; ring).
    rewrite bsum_add, !bsum_mul_l. ring.
  - rewrite form_h_lin. ring.
  - apply form_h_lin.
  - unfold vconvt. rewrite <- !bsum_mul_l, <- bsum_add. apply bsum_ext. intros k Hk. unfold dly.
    destruct (k <=? n)%nat; [|ring]. rewrite form_h_lin. ring.
  - ring.
Qed.

Section Forms.
Variables (e : env) (pr : bool) (B N nb na M : nat) (b a x : ten) (bf af : nat -> nat -> nat -> R) (xf : nat -> nat -> R) (uf : option nat).
Hypotheses (HB : (1 <= B)%nat) (HN : (1 <= N)%nat) (Hnb : (1 <= nb)%nat) (EM : M = Nat.max na (nb - 1)) (HM : (1 <= M)%nat)
  (He : lpv_backend_ok e pr M) (Hu : forall u, uf = Some u -> (1 <= u)%nat)
  (Hb : vcoef B N nb b bf) (Ha : vcoef B N na a af) (Hx : is2 x B N xf).
Let bp i n := padz nb (bf i n).
Let ap i n := padz na (af i n).

Lemma form_uf_pos fm : (1 <= form_uf e pr M N fm uf)%nat.
Proof.
  unfold form_uf, lpv_uf. destruct fm; try (destruct uf as [u|]; [auto|now apply round_sqrt_pos]);
    (destruct (lpv_extension_backend_indicator e pr M); [lia|]; destruct uf; auto).
Qed.
Lemma lpv_recur_any (A u : ten) Af uu : matv B N M A Af -> drive B N M u uu ->
  exists y, (if lpv_extension_backend_indicator e pr M
             then lpv_ext_ss_recur e pr A (zeros [B; M]) u (Some 0%Z)
             else lpv_state_space_recursion e pr A (zeros [B; M]) u (match uf with Some k => k | None => 1%nat end) (Some 0%Z)) = Ok y /\
    is2 y B N (fun i n => lpv_h R M (form_uf e pr M N Df1 uf) N (Af i) (fun _ => 0) (uu i) (S n) 0%nat).
Proof.
  intros HA Hd.
  assert (Hi : idx_ok M (Some 0%Z)) by (exists 0%nat; now apply (pyidx_nat M 0)).
  assert (Hp := pyidx_nat M 0 ltac:(lia)). unfold form_uf.
  destruct (lpv_extension_backend_indicator e pr M) eqn:Ei.
  - destruct (lpv_ext_spec R e pr B N M A (zeros [B; M]) u Af (fun _ _ => 0) uu (Some 0%Z)) as (y & E & Hy); auto.
    { now apply lpv_backend_ext. }
    { apply zeros_2. }
    exists y. split; [exact E|]. exact (Hy 0%nat Hp).
  - destruct (lpv_any_spec R e pr B N M A (zeros [B; M]) u Af (fun _ _ => 0) uu (match uf with Some k => k | None => 1%nat end) (Some 0%Z)) as (y & E & Hy); auto.
    { destruct uf; auto. }
    { apply zeros_2. }
    exists y. split; [exact E|]. exact (Hy 0%nat Hp).
Qed.

Lemma lpv_lfilter_any fm zi z0 : init B M zi z0 -> fm <> OtherForm -> (has_state fm = true -> rk b = 2 /\ rk a = 2 \/ B <> N)%nat ->
  exists y zf, lpv_lfilter e pr b a x zi fm Ssm uf = Ok (y, zf) /\
    is2 y B N (fun i => form_y fm M (form_uf e pr M N fm uf) N (bp i) (ap i) (z0 i) (xf i)) /\
    match zi with
    | Some _ => if has_state fm then exists z, zf = Some z /\ is2 z B M (fun i => form_h fm M (form_uf e pr M N fm uf) N (bp i) (ap i) (z0 i) (xf i) N)
                else zf = None
    | None => zf = None
    end.
Proof.
  intros Hz Hfm HBN. unfold lpv_lfilter. rewrite (lpv_wrap R B N nb na b a x _ bf af xf zi Hb Ha Hx).
  unfold lpv_ssm_lfilter.
  rewrite (proj1 (vcoef_size _ _ _ _ _ _ Hb)), (proj1 (vcoef_size _ _ _ _ _ _ Ha)).
  destruct (vpad_b R B N nb na M b bf HB HN Hnb EM HM Hb) as (b' & -> & Hb' & Rb). destruct (vpad_a R B N nb na M a af HB HN Hnb EM HM Ha) as (a' & -> & Ha' & Ra).
  fold (bp) in Hb'. fold (ap) in Ha'.
  destruct (companion_matv R B N M a' ap Ha') as (A & -> & ES & HA & HA'). cbn [bind].
  assert (ES' : sizen (tconj (mT A)) 1 = M) by (destruct HA' as [g HA' _|HA']; unfold sizen, size, rk; rewrite (proj1 HA'); reflexivity).
  pose proof (form_uf_pos fm) as Hpos.
  destruct fm; [..|congruence].
  - destruct (vcoef_diff R B N M b' a' bp ap Hb' Ha') as (C & EC & HC & RC).
    unfold bind in EC |- *. destruct (tmul _ a') as [t|]; [|discriminate]. rewrite EC.
    destruct (vcoef_head R B N M b' bp Hb') as (D & -> & HD & _); [destruct (HBN eq_refl) as [[? ?]|?]; [left; congruence|auto]|].
    destruct (lpv_state_space_any R e pr B N M None None A x None (Some C) (Some D) zi uf None (fun i n => compm R (ap i n))
      (fun i n _ => xf i n) (fun _ _ i _ => if (i =? 0)%nat then 1 else 0) (fun i n _ m => bp i n (S m) - bp i n 0%nat * ap i n m)
      (fun i n _ _ => bp i n 0%nat) z0) as (y & zf & E & Hy & Hzf); auto.
    { apply inv_none2. intros i n m k Hi Hn Hm Hk. unfold unit3. now replace k with 0%nat by lia. }
    { apply (vcoef_out R B N M C (fun i n m => bp i n (S m) - bp i n 0%nat * ap i n m) HC). intro H3. destruct (HBN eq_refl) as [[? ?]|?]; auto. lia. }
    assert (K : forall i n m, (m < M)%nat -> lpv_h R M (lpv_uf N uf) N (fun n => compm R (ap i n)) (z0 i)
      (lpv_in R (width None) (fun _ i _ => if (i =? 0)%nat then 1 else 0) (fun n _ => xf i n)) n m
      = form_h Df2 M (lpv_uf N uf) N (bp i) (ap i) (z0 i) (xf i) n m).
    { intros i n m Hm. apply lpv_h_causal; auto. intros k j Hk Hj. unfold lpv_in, form_in, first. cbn [width bsum]. destruct (j =? 0)%nat; ring. }
    exists y, zf. split; [exact E|]. split.
    + cbn [sigv] in Hy. eapply is2_ext; [exact Hy|]. intros i n Hi Hn. cbn beta. unfold form_y, form_uf. cbn [width bsum].
      rewrite (bsum_ext M _ (fun m => comb_in M (bp i) (ap i) n m * form_h Df2 M (lpv_uf N uf) N (bp i) (ap i) (z0 i) (xf i) n m))
        by (intros m Hm; rewrite <- K by exact Hm; reflexivity). ring.
    + destruct zi; [|exact Hzf]. cbn [has_state]. destruct Hzf as (z & -> & Hzf). exists z. split; [reflexivity|].
      eapply is2_ext; [exact Hzf|]. intros i k Hi Hk. now apply K.
  - destruct (vcoef_diff R B N M b' a' bp ap Hb' Ha') as (C & EC & HC & RC).
    unfold bind in EC |- *. destruct (tmul _ a') as [t|]; [|discriminate]. rewrite EC.
    destruct (vcoef_head R B N M b' bp Hb') as (D & -> & _ & HD); [destruct (HBN eq_refl) as [[? ?]|?]; [left; congruence|auto]|].
    destruct (lpv_state_space_any R e pr B N M None None (tconj (mT A)) x (Some (tconj C)) None (Some (tconj D)) zi uf (Some 0%Z)
      (fun i n => comph R (fun k => conj (ap i n k))) (fun i n _ => xf i n) (fun i n m _ => comb_in M (fun n k => conj (bp i n k)) (fun n k => conj (ap i n k)) n m)
      (fun i _ _ m => unit3 0 0 m) (fun i n _ _ => conj (bp i n 0%nat)) z0) as (y & zf & E & Hy & Hzf); auto.
    { apply (vcoef_in R B N M (tconj C) (fun i n m => comb_in M (fun n k => conj (bp i n k)) (fun n k => conj (ap i n k)) n m)).
      eapply vcoef_ext; [apply vcoef_conj; exact HC|]. intros i n k Hi Hn Hk. unfold comb_in. cbn beta.
      now rewrite conj_sub, conj_mul. }
    { apply (outv_idx R B N M 0%Z 0%nat); [now apply (pyidx_nat M 0)|]. intros i n p m Hi Hn Hp Hm. reflexivity. }
    assert (K : forall i n m, (m < M)%nat -> lpv_h R M (lpv_uf N uf) N (fun n => comph R (fun k => conj (ap i n k))) (z0 i)
      (lpv_in R (width None) (fun n m _ => comb_in M (fun n k => conj (bp i n k)) (fun n k => conj (ap i n k)) n m) (fun n _ => xf i n)) n m
      = form_h Tdf2 M (lpv_uf N uf) N (bp i) (ap i) (z0 i) (xf i) n m).
    { intros i n m Hm. apply lpv_h_causal; auto. intros k j Hk Hj. unfold lpv_in, form_in. cbn [width bsum]. ring. }
    exists y, zf. split; [exact E|]. split.
    + cbn [sigv] in Hy. eapply is2_ext; [exact Hy|]. intros i n Hi Hn. cbn beta. unfold form_y, form_uf. cbn [width bsum].
      rewrite (bsum_ext M _ (fun m => (if (0 =? m)%nat then 1 else 0) * form_h Tdf2 M (lpv_uf N uf) N (bp i) (ap i) (z0 i) (xf i) n m))
        by (intros m Hm; rewrite <- K by exact Hm; destruct m; reflexivity).
      rewrite bsum_diag by lia. ring.
    + destruct zi; [|exact Hzf]. cbn [has_state]. destruct Hzf as (z & -> & Hzf). exists z. split; [reflexivity|].
      eapply is2_ext; [exact Hzf|]. intros i k Hi Hk. now apply K.
  - rewrite ES, (proj1 (sz2 _ _ _ _ _ Hx)).
    destruct (vcoef_expand R _ _ _ _ _ Hb') as (bb & -> & Hbb). cbn [bind].
    destruct (lpv_fir_none R B N M bb x bp xf Hbb Hx HN) as (u & -> & Hux). cbn [bind].
    destruct (lpv_recur_any A u (fun i n => compm R (ap i n)) (fun i => first (vconv M (bp i) (xf i)))) as (y & E & Hy); auto.
    { eapply drive_2; [exact Hux|]. intros. reflexivity. }
    rewrite E. cbn [bind]. exists y, None. split; [reflexivity|]. split; [exact Hy|]. now destruct zi.
  - rewrite (proj1 (sz2 _ _ _ _ _ Hx)).
    destruct (vcoef_expand R _ _ _ _ _ (vcoef_conj R _ _ _ _ _ Hb')) as (bb & -> & Hbb). cbn [bind].
    rewrite ES, ES'.
    destruct (lpv_recur_any (tconj (mT A)) x (fun i n => comph R (fun k => conj (ap i n k))) (fun i => first (xf i))) as (u & E & Hux); auto.
    { eapply drive_2; [exact Hx|]. intros. reflexivity. }
    rewrite E. cbn [bind].
    destruct (lpv_firt_none R B N M bb u _ _ Hbb Hux HN HM) as (y & -> & Hy). exists y, None. split; [reflexivity|]. split; [|now destruct zi].
    eapply is2_ext; [exact Hy|]. intros i n Hi Hn. cbv beta. unfold form_y. apply vconvt_ext; [|reflexivity]. intros. apply conj_conj.
Qed.
End Forms.
End S.
