(** Matrix algebra over functions and closed forms of the recurrences of [Spec]. *)
From Coq Require Import List Arith Lia ZArith Ring.
From Verif Require Import Scalar Spec.
Import ListNotations.

Section Alg.
Variable R : cring.
Add Ring Rring : (r_th R).
Open Scope cr_scope.
Implicit Types A B C : nat -> nat -> R.

Lemma mmul_ext M A A' B B' i j :
  (forall k, (k < M)%nat -> A i k = A' i k) -> (forall k, (k < M)%nat -> B k j = B' k j) ->
  mmul M A B i j = mmul M A' B' i j.
Proof. intros H1 H2. apply bsum_ext. intros k Hk. now rewrite H1, H2. Qed.

Lemma mvec_ext M A A' v v' i :
  (forall k, (k < M)%nat -> A i k = A' i k) -> (forall k, (k < M)%nat -> v k = v' k) ->
  mvec M A v i = mvec M A' v' i.
Proof. intros H1 H2. apply bsum_ext. intros k Hk. now rewrite H1, H2. Qed.

Lemma mmul_assoc M A B C i j : mmul M (mmul M A B) C i j = mmul M A (mmul M B C) i j.
Proof.
  unfold mmul.
  transitivity (bsum M (fun k => bsum M (fun l => A i l * B l k * C k j))).
  - apply bsum_ext. intros k Hk. now rewrite <- bsum_mul_r.
  - rewrite bsum_swap. apply bsum_ext. intros l Hl.
    rewrite <- bsum_mul_l. apply bsum_ext. intros k Hk. ring.
Qed.

Lemma mvec_mmul M A B v i : mvec M (mmul M A B) v i = mvec M A (mvec M B v) i.
Proof.
  unfold mvec, mmul.
  transitivity (bsum M (fun k => bsum M (fun l => A i l * B l k * v k))).
  - apply bsum_ext. intros k Hk. now rewrite <- bsum_mul_r.
  - rewrite bsum_swap. apply bsum_ext. intros l Hl.
    rewrite <- bsum_mul_l. apply bsum_ext. intros k Hk. ring.
Qed.

Lemma mid_refl i : @mid R i i = 1.
Proof. unfold mid. now rewrite Nat.eqb_refl. Qed.
Lemma mid_neq i j : i <> j -> @mid R i j = 0.
Proof. intro H. unfold mid. apply Nat.eqb_neq in H. now rewrite H. Qed.

Lemma mmul_id_l M A i j : (i < M)%nat -> mmul M mid A i j = A i j.
Proof.
  intro Hi. unfold mmul. rewrite (bsum_one M _ i Hi).
  - rewrite mid_refl. ring.
  - intros k Hk Hn. rewrite mid_neq by auto. ring.
Qed.
Lemma mmul_id_r M A i j : (j < M)%nat -> mmul M A mid i j = A i j.
Proof.
  intro Hi. unfold mmul. rewrite (bsum_one M _ j Hi).
  - rewrite mid_refl. ring.
  - intros k Hk Hn. rewrite mid_neq by auto. ring.
Qed.
Lemma mvec_id M (v : nat -> R) i : (i < M)%nat -> mvec M mid v i = v i.
Proof.
  intro Hi. unfold mvec. rewrite (bsum_one M _ i Hi).
  - rewrite mid_refl. ring.
  - intros k Hk Hn. rewrite mid_neq by auto. ring.
Qed.

Lemma mpow_ext M A B n i j :
  (forall i j, (i < M)%nat -> (j < M)%nat -> A i j = B i j) ->
  (i < M)%nat -> (j < M)%nat -> mpow M A n i j = mpow M B n i j.
Proof.
  intros H. revert i j. induction n as [|n IH]; intros i j Hi Hj; [reflexivity|].
  cbn [mpow]. apply mmul_ext; intros; auto.
Qed.

Lemma mpow_1 M A i j : (j < M)%nat -> mpow M A 1 i j = A i j.
Proof. intro H. cbn [mpow]. now apply mmul_id_r. Qed.

Lemma mpow_add M A n m i j : (i < M)%nat ->
  mpow M A (n + m) i j = mmul M (mpow M A n) (mpow M A m) i j.
Proof.
  revert i. induction n as [|n IH]; intros i Hi.
  - cbn [Nat.add mpow]. now rewrite mmul_id_l.
  - cbn [Nat.add mpow]. rewrite mmul_assoc. apply mmul_ext; intros; auto.
Qed.

Lemma mpow_S_r M A n i j : (i < M)%nat -> (j < M)%nat ->
  mpow M A (S n) i j = mmul M (mpow M A n) A i j.
Proof.
  intros Hi Hj. rewrite <- Nat.add_1_r, mpow_add by auto.
  apply mmul_ext; intros; auto using mpow_1.
Qed.

Lemma mpow_mul M A n m i j : (i < M)%nat -> (j < M)%nat ->
  mpow M (mpow M A n) m i j = mpow M A (n * m) i j.
Proof.
  revert i. induction m as [|m IH]; intros i Hi Hj.
  - now rewrite Nat.mul_0_r.
  - rewrite Nat.mul_succ_r, Nat.add_comm, mpow_add by auto. cbn [mpow].
    apply mmul_ext; intros; auto.
Qed.

Lemma mvec_add M A v w i : mvec M A (fun k => v k + w k) i = mvec M A v i + mvec M A w i.
Proof. unfold mvec. rewrite <- bsum_add. apply bsum_ext. intros. ring. Qed.

Lemma mvec_bsum M A n (v : nat -> nat -> R) i :
  mvec M A (fun k => bsum n (fun j => v j k)) i = bsum n (fun j => mvec M A (v j) i).
Proof.
  unfold mvec. rewrite bsum_swap. apply bsum_ext. intros k Hk. now rewrite <- bsum_mul_l.
Qed.

Lemma mvec_scale M A c v i : mvec M A (fun k => c * v k) i = c * mvec M A v i.
Proof. unfold mvec. rewrite <- bsum_mul_l. apply bsum_ext. intros. ring. Qed.

Lemma mvec_0 M A i : mvec M A (fun _ => 0) i = 0.
Proof. unfold mvec. apply bsum_0. intros. ring. Qed.

(** Powers of a constant matrix propagate the state. *)
Lemma state_lti_closed M A h0 u n k i : (i < M)%nat ->
  state M (fun _ => A) h0 u (n + k) i
  = mvec M (mpow M A k) (state M (fun _ => A) h0 u n) i
    + bsum k (fun j => mvec M (mpow M A (k - 1 - j)) (u (n + j)%nat) i).
Proof.
  revert i. induction k as [|k IH]; intros i Hi.
  - rewrite Nat.add_0_r. cbn [mpow bsum]. rewrite mvec_id by auto. ring.
  - rewrite Nat.add_succ_r. cbn [state].
    rewrite (mvec_ext M A A _ _ i (fun k _ => eq_refl) IH).
    rewrite mvec_add, mvec_bsum. cbn [bsum].
    replace (S k - 1 - k)%nat with 0%nat by lia.
    replace (mvec M (mpow M A 0) (u (n + k)%nat) i) with (u (n + k)%nat i)
      by (cbn [mpow]; now rewrite mvec_id).
    cbn [mpow]. rewrite mvec_mmul.
    rewrite (bsum_ext k (fun j => mvec M (mpow M A (S k - 1 - j)) (u (n + j)%nat) i)
                        (fun j => mvec M A (mvec M (mpow M A (k - 1 - j)) (u (n + j)%nat)) i)).
    + match goal with |- ?a + ?b + ?c = ?a + (?b' + ?c) => change b' with b end. ring.
    + intros j Hj. replace (S k - 1 - j)%nat with (S (k - 1 - j)) by lia.
      cbn [mpow]. apply mvec_mmul.
Qed.

Lemma state_ext M (A A' : nat -> nat -> nat -> R) h h' u u' n i :
  (forall k i j, (k < n)%nat -> (i < M)%nat -> (j < M)%nat -> A k i j = A' k i j) ->
  (forall i, (i < M)%nat -> h i = h' i) ->
  (forall k i, (k < n)%nat -> (i < M)%nat -> u k i = u' k i) ->
  (i < M)%nat -> state M A h u n i = state M A' h' u' n i.
Proof.
  revert i. induction n as [|n IH]; intros i HA Hh Hu Hi; cbn [state]; auto.
  rewrite (Hu n i) by lia. f_equal. apply mvec_ext; intros; auto.
Qed.

(** ** Scalar recurrence *)
Lemma lin_rec_closed (a : R) h0 x n k :
  lin_rec (fun _ => a) h0 x (n + k)
  = rpow a k * lin_rec (fun _ => a) h0 x n + bsum k (fun j => rpow a (k - 1 - j) * x (n + j)%nat).
Proof.
  induction k as [|k IH].
  - rewrite Nat.add_0_r. cbn. ring.
  - rewrite Nat.add_succ_r. cbn [lin_rec]. rewrite IH. cbn [bsum].
    replace (S k - 1 - k)%nat with 0%nat by lia. cbn [rpow].
    rewrite (bsum_ext k (fun j => rpow a (S k - 1 - j) * x (n + j)%nat)
                        (fun j => a * (rpow a (k - 1 - j) * x (n + j)%nat))).
    + rewrite bsum_mul_l. ring.
    + intros j Hj. replace (S k - 1 - j)%nat with (S (k - 1 - j)) by lia. cbn [rpow]. ring.
Qed.

Lemma lin_rec_ext (a a' : nat -> R) h h' x x' n :
  (forall k, (k < n)%nat -> a k = a' k) -> h = h' ->
  (forall k, (k < n)%nat -> x k = x' k) -> lin_rec a h x n = lin_rec a' h' x' n.
Proof.
  induction n as [|n IH]; intros Ha Hh Hx; cbn [lin_rec]; auto.
  rewrite IH, Ha, Hx by auto. reflexivity.
Qed.

End Alg.
Arguments mmul_ext {R}. Arguments mvec_ext {R}. Arguments mmul_assoc {R}. Arguments mvec_mmul {R}.
Arguments mmul_id_l {R}. Arguments mmul_id_r {R}. Arguments mvec_id {R}. Arguments mpow_ext {R}.
Arguments mpow_1 {R}. Arguments mpow_add {R}. Arguments mpow_S_r {R}. Arguments mpow_mul {R}.
Arguments mvec_add {R}. Arguments mvec_bsum {R}. Arguments mvec_scale {R}. Arguments mvec_0 {R}.
Arguments state_lti_closed {R}. Arguments state_ext {R}. Arguments lin_rec_closed {R}.
Arguments lin_rec_ext {R}. Arguments mid_refl {R}. Arguments mid_neq {R}.
