(** Scaling by plus or minus a power of two commutes with rounding (C76). *)
From Coq Require Import List Arith Lia ZArith Bool QArith Qcanon Qpower Qround Lqa.
From Verif Require Import Scalar Ordered SpecRound FloatQ SpecScale.
Open Scope Q_scope.

Lemma expo_scale k x : 0 < x -> expo (pow2 k * x) = (k + expo x)%Z.
Proof.
  intro Hx. pose proof (pow2_pos k) as Hk. destruct (expo_spec x Hx) as [H1 H2].
  apply expo_unique.
  - rewrite pow2_add. now apply Qmult_le_l.
  - rewrite <- Z.add_assoc, pow2_add. now apply Qmult_lt_l.
  - setoid_replace 0 with (pow2 k * 0) by ring. now apply Qmult_lt_l.
Qed.
Lemma rnd_pos_scale p k x : 0 < x -> rnd_pos p (pow2 k * x) == pow2 k * rnd_pos p x.
Proof.
  intro Hx. unfold rnd_pos. rewrite (expo_scale k x Hx).
  assert (E : nearest (pow2 k * x * pow2 (p - 1 - (k + expo x))) = nearest (x * pow2 (p - 1 - expo x))).
  { apply nearest_comp. replace (p - 1 - expo x)%Z with (k + (p - 1 - (k + expo x)))%Z by lia. rewrite pow2_add. ring. }
  rewrite E. replace (- (p - 1 - (k + expo x)))%Z with (k + - (p - 1 - expo x))%Z by lia. rewrite pow2_add. ring.
Qed.
Lemma rnd_cases p x : (x == 0 /\ rnd p x == 0) \/ (0 < x /\ rnd p x == rnd_pos p x) \/ (x < 0 /\ rnd p x == - rnd_pos p (- x)).
Proof.
  unfold rnd. destruct (Qeq_bool x 0) eqn:E0.
  - left. split; [now apply Qeq_bool_eq|reflexivity].
  - assert (Hn : ~ x == 0) by (intro H; apply Qeq_eq_bool in H; congruence).
    right. destruct (Qle_bool 0 x) eqn:E1.
    + left. split; [|reflexivity]. apply Qle_bool_iff in E1. apply Qle_lteq in E1 as [H|H]; [exact H|symmetry in H; contradiction].
    + right. split; [|reflexivity]. apply Qnot_le_lt. intro H. apply Qle_bool_iff in H. congruence.
Qed.
Lemma rnd_opp p x : rnd p (- x) == - rnd p x.
Proof.
  destruct (rnd_cases p x) as [[A ->]|[[A ->]|[A ->]]], (rnd_cases p (- x)) as [[B ->]|[[B ->]|[B ->]]]; try lra.
  - apply Qopp_comp. symmetry. apply rnd_pos_comp; lra.
Qed.
Lemma rnd_pow p k x : rnd p (pow2 k * x) == pow2 k * rnd p x.
Proof.
  pose proof (pow2_pos k) as Hk.
  assert (P : forall z, 0 < z -> 0 < pow2 k * z) by (intros z Hz; setoid_replace 0 with (pow2 k * 0) by ring; now apply Qmult_lt_l).
  destruct (rnd_cases p x) as [[A ->]|[[A ->]|[A ->]]].
  - rewrite (rnd_comp p _ 0) by (rewrite A; ring). setoid_replace (pow2 k * 0) with 0 by ring.
    destruct (rnd_cases p 0) as [[B ->]|[[B _]|[B _]]]; lra.
  - specialize (P x A). destruct (rnd_cases p (pow2 k * x)) as [[B _]|[[B ->]|[B _]]]; try lra. now apply rnd_pos_scale.
  - assert (P' := P (- x) ltac:(lra)). assert (T : - (pow2 k * x) == pow2 k * - x) by ring.
    destruct (rnd_cases p (pow2 k * x)) as [[B _]|[[B _]|[B ->]]]; try lra.
    rewrite (rnd_pos_comp p (- (pow2 k * x)) (pow2 k * - x)) by lra. rewrite rnd_pos_scale by lra. ring.
Qed.
Definition fac (s : bool) (k : Z) : Q := if s then - pow2 k else pow2 k.
Lemma rnd_fac p s k x : rnd p (fac s k * x) == fac s k * rnd p x.
Proof.
  destruct s; cbn [fac]; [|apply rnd_pow]. rewrite (rnd_comp p _ (- (pow2 k * x))) by ring. rewrite rnd_opp, rnd_pow. ring.
Qed.
Lemma fac_neq s k : ~ fac s k == 0.
Proof. pose proof (pow2_pos k). destruct s; cbn [fac]; lra. Qed.
Lemma this_scale s k (x : Qc) : scale2 s k x == fac s k * x.
Proof. unfold scale2. cbn [this Q2Qc]. rewrite Qred_correct. destruct s; cbn [fac]; ring. Qed.
Lemma rep_scale p s k x : rep p (scale2 s k x) = rep p x.
Proof.
  unfold rep. apply eq_true_iff_eq. rewrite !Qeq_bool_iff. rewrite (rnd_comp p _ _ (this_scale s k x)), this_scale, rnd_fac.
  split; [|intros ->; reflexivity]. intro H. apply (Qmult_inj_l _ _ (fac s k)); [apply fac_neq|exact H].
Qed.
Lemma f2_scale p s k (op : Qc -> Qc -> Qc) (x y x' y' : Qc) : rep p x' && rep p y' = rep p x && rep p y ->
  op x' y' == fac s k * op x y -> f2 p op x' y' = scale2 s k (f2 p op x y).
Proof.
  intros Hr Ho. unfold f2. rewrite Hr. apply Qc_is_canon. rewrite this_scale. destruct (rep p x && rep p y); [|exact Ho].
  cbn [this Q2Qc]. rewrite !Qred_correct, (rnd_comp p _ _ Ho). apply rnd_fac.
Qed.
Lemma add_scale p s k (x y : Qc) : f2 p Qcplus (scale2 s k x) (scale2 s k y) = scale2 s k (f2 p Qcplus x y).
Proof. apply (f2_scale p s k Qcplus); [now rewrite !rep_scale|]. unfold Qcplus. cbn [this Q2Qc]. rewrite !Qred_correct, !this_scale. ring. Qed.
Lemma mul_scale_r p s k (x y : Qc) : f2 p Qcmult x (scale2 s k y) = scale2 s k (f2 p Qcmult x y).
Proof. apply (f2_scale p s k Qcmult); [now rewrite !rep_scale|]. unfold Qcmult. cbn [this Q2Qc]. rewrite !Qred_correct, !this_scale. ring. Qed.
Lemma mul_scale_l p s k (x y : Qc) : f2 p Qcmult (scale2 s k x) y = scale2 s k (f2 p Qcmult x y).
Proof. apply (f2_scale p s k Qcmult); [now rewrite !rep_scale|]. unfold Qcmult. cbn [this Q2Qc]. rewrite !Qred_correct, !this_scale. ring. Qed.
Lemma scale_0 s k : scale2 s k (Q2Qc 0) = Q2Qc 0.
Proof. apply Qc_is_canon. rewrite this_scale. cbn [this Q2Qc]. rewrite !Qred_correct. ring. Qed.
(** At every precision. *)
Theorem float_scales p s k : scales (flops Qofield (fl_add p) (fl_mul p) (fl_sub p)) (scale2 s k).
Proof.
  split; [exact (scale_0 s k)|]. split; [|split].
  - exact (fun x y => eq_sym (add_scale p s k x y)).
  - exact (fun x y => eq_sym (mul_scale_r p s k x y)).
  - exact (fun x y => eq_sym (mul_scale_l p s k x y)).
Qed.
