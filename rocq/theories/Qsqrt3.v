(** The ordered field Q(sqrt 3), the smallest one containing the pole sqrt 3 - 2:
    the concrete scalars of the examples in Properties_Interp. *)
From Coq Require Import List Arith Lia ZArith Bool QArith Qcanon Lqa.
From Verif Require Import Scalar Ordered.
Import ListNotations.

Local Open Scope Q_scope.
(** ** sqrt 3 is irrational *)
Lemma nat_sq3 n : forall m, (n * n = 3 * (m * m))%nat -> n = 0%nat.
Proof.
  induction n as [n IH] using lt_wf_ind. intros m H. destruct n as [|n']; [reflexivity|exfalso]. set (n := S n') in *.
  assert (exists k, n = (3 * k)%nat) as [k Hk].
  { pose proof (Nat.div_mod n 3 ltac:(lia)) as E. pose proof (Nat.mod_upper_bound n 3 ltac:(lia)) as U.
    exists (n / 3)%nat. set (k := (n / 3)%nat) in *. destruct (n mod 3)%nat as [|[|[|r]]]; nia. }
  assert (m * m = 3 * (k * k))%nat as Hm by nia.
  assert (m = 0%nat) as Em.
  { apply (IH m) with (m := k); [|exact Hm]. nia. }
  nia.
Qed.
Lemma Q_sq3 (a b : Q) : a * a == 3 * (b * b) -> a == 0.
Proof.
  destruct a as [p q], b as [r s]. unfold Qeq, Qmult. cbn [Qnum Qden]. rewrite !Pos2Z.inj_mul. intro H. rewrite Z.mul_0_l, Z.mul_1_r.
  assert (Z.abs_nat (p * Zpos s) = 0%nat) as E.
  { apply nat_sq3 with (m := Z.abs_nat (r * Zpos q)). rewrite <- !Zabs2Nat.inj_mul. change 3%nat with (Z.abs_nat 3) at 1.
    rewrite <- Zabs2Nat.inj_mul. f_equal. clear -H. lia. }
  assert (p * Zpos s = 0)%Z by lia. clear -H0. nia.
Qed.

(** ** The sign of a + b sqrt 3 *)
Definition nnP (a b : Q) : Prop := (0 <= a /\ 3 * (b * b) <= a * a) \/ (0 <= b /\ a * a <= 3 * (b * b)).
Definition nn (a b : Q) : bool :=
  Qle_bool 0 a && Qle_bool (3 * (b * b)) (a * a) || Qle_bool 0 b && Qle_bool (a * a) (3 * (b * b)).
Lemma nn_P a b : nn a b = true <-> nnP a b.
Proof. unfold nn, nnP. rewrite orb_true_iff, !andb_true_iff, !Qle_bool_iff. tauto. Qed.
Lemma nnP_eq a b c d : a == c -> b == d -> nnP a b -> nnP c d.
Proof. unfold nnP. intros E1 E2. rewrite E1, E2. auto. Qed.

Lemma sq_ge (x y : Q) : 0 <= y -> x * x <= y * y -> 0 <= x + y.
Proof. intros Hy H. destruct (Qlt_le_dec (x + y) 0) as [L|L]; [|exact L]. exfalso. nra. Qed.
Lemma prod_le (a b c d : Q) : 0 <= a -> 0 <= c -> a <= b -> c <= d -> a * c <= b * d.
Proof. intros. nra. Qed.
Lemma sq_nn (a : Q) : 0 <= a * a.
Proof. nra. Qed.

Lemma sq3_nn (a : Q) : 0 <= 3 * (a * a).
Proof. nra. Qed.

Lemma nnP_total a b : nnP a b \/ nnP (- a) (- b).
Proof.
  unfold nnP. destruct (Qlt_le_dec (a * a) (3 * (b * b))) as [H|H].
  - destruct (Qlt_le_dec b 0); [right|left]; right; split; lra || nra.
  - destruct (Qlt_le_dec a 0); [right|left]; left; split; lra || nra.
Qed.
Lemma nnP_anti a b : nnP a b -> nnP (- a) (- b) -> a == 0 /\ b == 0.
Proof.
  intros H1 H2.
  assert (a * a == 3 * (b * b)) as E.
  { destruct H1 as [[P1 N1]|[P1 N1]], H2 as [[P2 N2]|[P2 N2]]; first [lra | nra | assert (a == 0) as Z by lra; rewrite Z in *; nra | assert (b == 0) as Z by lra; rewrite Z in *; nra]. }
  pose proof (Q_sq3 _ _ E) as Ea. split; [exact Ea|]. rewrite Ea in E.
  destruct (Qeq_dec b 0) as [Hb|Hb]; [exact Hb|]. exfalso. apply Hb.
  assert (b * b == 0) by lra. apply Qmult_integral in H. tauto.
Qed.
Lemma add_same1 a b c d : 0 <= a -> 3 * (b * b) <= a * a -> 0 <= c -> 3 * (d * d) <= c * c -> nnP (a + c) (b + d).
Proof.
  intros Ha Hb Hc Hd. left. split; [lra|].
  assert (0 <= - (3 * (b * d)) + a * c).
  { apply sq_ge; [nra|]. pose proof (prod_le _ _ _ _ (sq3_nn b) (sq3_nn d) Hb Hd). lra. }
  lra.
Qed.
Lemma add_same2 a b c d : 0 <= b -> a * a <= 3 * (b * b) -> 0 <= d -> c * c <= 3 * (d * d) -> nnP (a + c) (b + d).
Proof.
  intros Ha Hb Hc Hd. right. split; [lra|].
  assert (0 <= - (a * c) + 3 * (b * d)).
  { apply sq_ge; [nra|]. pose proof (prod_le _ _ _ _ (sq_nn a) (sq_nn c) Hb Hd). lra. }
  lra.
Qed.
Lemma add_mixed a b c d : 0 <= a -> 3 * (b * b) <= a * a -> 0 <= d -> c * c <= 3 * (d * d) -> nnP (a + c) (b + d).
Proof.
  intros Ha Hb Hd Hc. destruct (nnP_total (a + c) (b + d)) as [H|H]; [exact H|]. destruct H as [[P N]|[P N]].
  - (* - (x + y) and x add up to - y *)
    pose proof (add_same1 _ _ _ _ P N Ha Hb) as H.
    destruct (nnP_anti c d) as [E1 E2]; [right; auto|eapply nnP_eq; [..|exact H]; lra|].
    left. rewrite E1, E2. split; [lra|]. nra.
  - pose proof (add_same2 _ _ _ _ P N Hd Hc) as H.
    destruct (nnP_anti a b) as [E1 E2]; [left; auto|eapply nnP_eq; [..|exact H]; lra|].
    right. rewrite E1, E2. split; [lra|]. nra.
Qed.
Lemma nnP_add a b c d : nnP a b -> nnP c d -> nnP (a + c) (b + d).
Proof.
  intros [[P1 N1]|[P1 N1]] [[P2 N2]|[P2 N2]].
  - now apply add_same1.
  - now apply add_mixed.
  - eapply nnP_eq; [apply Qplus_comm|apply Qplus_comm|]. now apply add_mixed.
  - now apply add_same2.
Qed.
Lemma mul_mixed a b c d : 0 <= a -> 3 * (b * b) <= a * a -> 0 <= d -> c * c <= 3 * (d * d) ->
  nnP (a * c + 3 * (b * d)) (a * d + b * c).
Proof.
  intros Ha Hb Hd Hc. right. split.
  - assert (0 <= b * c + a * d); [|lra]. apply sq_ge; [nra|].
    pose proof (prod_le _ _ _ _ (sq3_nn b) (sq_nn c) Hb Hc). lra.
  - assert (0 <= (a * a - 3 * (b * b)) * (3 * (d * d) - c * c)) by (apply Qmult_le_0_compat; lra). lra.
Qed.
Lemma nnP_mul a b c d : nnP a b -> nnP c d -> nnP (a * c + 3 * (b * d)) (a * d + b * c).
Proof.
  intros [[P1 N1]|[P1 N1]] [[P2 N2]|[P2 N2]].
  - left. split.
    + assert (0 <= 3 * (b * d) + a * c); [|lra]. apply sq_ge; [nra|].
      pose proof (prod_le _ _ _ _ (sq3_nn b) (sq3_nn d) N1 N2). lra.
    + assert (0 <= (a * a - 3 * (b * b)) * (c * c - 3 * (d * d))) by (apply Qmult_le_0_compat; lra). lra.
  - now apply mul_mixed.
  - eapply nnP_eq; [| |apply (mul_mixed c d a b); assumption]; ring.
  - left. split.
    + assert (0 <= a * c + 3 * (b * d)); [|lra]. apply sq_ge; [nra|].
      pose proof (prod_le _ _ _ _ (sq_nn a) (sq_nn c) N1 N2). lra.
    + assert (0 <= (3 * (b * b) - a * a) * (3 * (d * d) - c * c)) by (apply Qmult_le_0_compat; lra). lra.
Qed.

(** ** The field *)
Local Open Scope Qc_scope.
Definition qs3 : Type := (Qc * Qc)%type.
Definition three : Qc := Q2Qc 3.
Add Ring Qcr : Qcrt.
Definition qs3_mul (x y : qs3) : qs3 := (fst x * fst y + three * (snd x * snd y), fst x * snd y + snd x * fst y).
Definition qs3_ring : cring.
Proof.
  refine (@mkCring (@mkCops qs3 (Q2Qc 0, Q2Qc 0) (Q2Qc 1, Q2Qc 0)
    (fun x y => (fst x + fst y, snd x + snd y)) qs3_mul (fun x y => (fst x - fst y, snd x - snd y))
    (fun x => (- fst x, - snd x)) (fun x => x)) _ _ _ _); [|reflexivity..].
  unfold qs3_mul. constructor; cbn [car r0 r1 radd rmul rsub ropp conj]; intros; repeat match goal with x : qs3 |- _ => destruct x end; cbn [fst snd]; f_equal; ring.
Defined.
Definition qs3_norm (x : qs3) : Qc := fst x * fst x - three * (snd x * snd x).
Definition qs3_inv (x : qs3) : qs3 := (fst x * / qs3_norm x, - (snd x * / qs3_norm x)).
Lemma this_mul (x y : Qc) : (this (x * y) == this x * this y)%Q.
Proof. apply Qred_correct. Qed.
Lemma this_add (x y : Qc) : (this (x + y) == this x + this y)%Q.
Proof. apply Qred_correct. Qed.
Lemma this_opp (x : Qc) : (this (- x) == - this x)%Q.
Proof. apply Qred_correct. Qed.
Lemma this_sub (x y : Qc) : (this (x - y) == this x - this y)%Q.
Proof. unfold Qcminus. rewrite this_add, this_opp. reflexivity. Qed.
Lemma this_three : (this three == 3)%Q.
Proof. reflexivity. Qed.
Lemma qs3_norm_0 x : qs3_norm x = Q2Qc 0 -> x = (Q2Qc 0, Q2Qc 0).
Proof.
  destruct x as [a b]. unfold qs3_norm. cbn [fst snd]. intro H.
  assert (this (a * a - three * (b * b)) == 0)%Q as E by (rewrite H; reflexivity).
  rewrite this_sub, !this_mul, this_three in E.
  assert (this a == 0)%Q as Ea by (apply (Q_sq3 _ (this b)); lra).
  assert (this b == 0)%Q as Eb.
  { rewrite Ea in E. assert (this b * this b == 0)%Q as E' by lra. apply Qmult_integral in E'. tauto. }
  f_equal; apply Qc_is_canon; assumption.
Qed.
Definition qs3_field : cfield.
Proof.
  refine (@mkCfield qs3_ring qs3_inv _ _).
  - intros x Hx. cbn in x, Hx |- *. assert (qs3_norm x <> Q2Qc 0) as Hn by (intro E; apply Hx, qs3_norm_0, E).
    pose proof (Qcmult_inv_l _ Hn) as Hi. unfold qs3_inv, qs3_mul. cbn [fst snd].
    set (n := / qs3_norm x) in *. unfold qs3_norm in Hi. f_equal; [|ring].
    etransitivity; [|exact Hi]. ring.
  - cbn. intro H. apply (f_equal fst) in H. discriminate.
Defined.

Lemma qs3_eq (x y : qs3) : (this (fst x) == this (fst y))%Q -> (this (snd x) == this (snd y))%Q -> x = y.
Proof. destruct x, y. cbn [fst snd]. intros. f_equal; now apply Qc_is_canon. Qed.
Definition qs3_le (x y : qs3) : bool := nn (this (fst y) - this (fst x)) (this (snd y) - this (snd x)).
Definition Qsqrt3 : ofield.
Proof.
  refine (@mkOfield qs3_field qs3_le _ _ _ _ _); unfold qs3_le; cbn [qs3_field qs3_ring car fring r_ops]; intros x y.
  - rewrite !nn_P. intros H1 H2. destruct (nnP_anti _ _ H1) as [E1 E2].
    + eapply nnP_eq; [..|exact H2]; lra.
    + apply qs3_eq; lra.
  - intro z. rewrite !nn_P. intros H1 H2. pose proof (nnP_add _ _ _ _ H1 H2) as H. eapply nnP_eq; [..|exact H]; lra.
  - rewrite !nn_P. destruct (nnP_total (this (fst y) - this (fst x)) (this (snd y) - this (snd x))) as [H|H]; [now left|right].
    eapply nnP_eq; [..|exact H]; lra.
  - intro z. rewrite !nn_P. intro H. eapply nnP_eq; [..|exact H]; cbn [fst snd radd qs3_ring qs3_field fring r_ops]; rewrite !this_add; lra.
  - rewrite !nn_P. cbn [fst snd r0 rmul qs3_ring qs3_mul qs3_field fring r_ops]. intros H1 H2.
    assert (forall q : Q, q - this (Q2Qc 0) == q)%Q as Z by (intro q; change (this (Q2Qc 0)) with 0%Q; lra).
    pose proof (nnP_mul _ _ _ _ (nnP_eq _ _ _ _ (Z _) (Z _) H1) (nnP_eq _ _ _ _ (Z _) (Z _) H2)) as H.
    eapply nnP_eq; [..|exact H]; rewrite Z; rewrite !this_add, !this_mul, ?this_three; reflexivity.
Defined.

(** sqrt 3 - 2, interp.py:15 *)
Definition pole3 : Qsqrt3 := (Q2Qc (-2), Q2Qc 1).
