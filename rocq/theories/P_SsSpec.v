(** Facts about the state-space specification itself. *)
From Coq Require Import List Arith Lia ZArith Bool Ring.
From Verif Require Import Scalar Spec Algebra.
Import ListNotations.

Section S.
Variable R : cring.
Add Ring Rr : (r_th R).
Open Scope cr_scope.

Lemma state_shift M (A : nat -> nat -> nat -> R) h0 u n1 n i :
  state M A h0 u (n1 + n) i = state M (fun k => A (n1 + k)%nat) (state M A h0 u n1) (fun k => u (n1 + k)%nat) n i.
Proof.
  revert i. induction n as [|n IH]; intro i; [now rewrite Nat.add_0_r|].
  rewrite Nat.add_succ_r. cbn [state]. f_equal. apply mvec_ext; auto.
Qed.

Lemma state_lin M (A : nat -> nat -> nat -> R) c1 c2 h1 h2 u1 u2 n i :
  state M A (fun m => c1 * h1 m + c2 * h2 m) (fun k m => c1 * u1 k m + c2 * u2 k m) n i
  = c1 * state M A h1 u1 n i + c2 * state M A h2 u2 n i.
Proof.
  revert i. induction n as [|n IH]; intro i; [reflexivity|]. cbn [state].
  rewrite (mvec_ext M (A n) (A n) _ (fun k => c1 * state M A h1 u1 n k + c2 * state M A h2 u2 n k)) by auto.
  rewrite mvec_add, !mvec_scale. ring.
Qed.

Lemma ss_h_ext M K A A' B B' h h' x x' n (i : nat) :
  (forall k i j, (k < n)%nat -> (i < M)%nat -> (j < M)%nat -> A k i j = A' k i j :> R) ->
  (forall k i j, (k < n)%nat -> (i < M)%nat -> (j < K)%nat -> B k i j = B' k i j) ->
  (forall i, (i < M)%nat -> h i = h' i) ->
  (forall k j, (k < n)%nat -> (j < K)%nat -> x k j = x' k j) ->
  (i < M)%nat -> ss_h M K A B h x n i = ss_h M K A' B' h' x' n i.
Proof.
  intros HA HB Hh Hx Hi. unfold ss_h. apply state_ext; auto.
  intros k m Hk Hm. apply bsum_ext. intros j Hj. now rewrite HB, Hx.
Qed.

Lemma ss_y_ext M K A A' B B' C C' D D' h h' x x' n (p : nat) :
  (forall k i j, (k < n)%nat -> (i < M)%nat -> (j < M)%nat -> A k i j = A' k i j :> R) ->
  (forall k i j, (k < n)%nat -> (i < M)%nat -> (j < K)%nat -> B k i j = B' k i j) ->
  (forall j, (j < M)%nat -> C n p j = C' n p j) -> (forall j, (j < K)%nat -> D n p j = D' n p j) ->
  (forall i, (i < M)%nat -> h i = h' i) ->
  (forall k j, (k <= n)%nat -> (j < K)%nat -> x k j = x' k j) ->
  ss_y M K A B C D h x n p = ss_y M K A' B' C' D' h' x' n p.
Proof.
  intros HA HB HC HD Hh Hx. unfold ss_y. f_equal; apply bsum_ext; intros j Hj.
  - rewrite HC by assumption. f_equal. apply ss_h_ext; auto. intros. apply Hx; [lia|assumption].
  - rewrite HD, Hx by auto. reflexivity.
Qed.

Lemma ss_h_shift M K A B (h : nat -> R) x n1 n i :
  ss_h M K A B h x (n1 + n) i
  = ss_h M K (fun k => A (n1 + k)%nat) (fun k => B (n1 + k)%nat) (ss_h M K A B h x n1) (fun k => x (n1 + k)%nat) n i.
Proof. unfold ss_h. now rewrite state_shift. Qed.

Lemma ss_y_shift M K A B C D (h : nat -> R) x n1 n p :
  ss_y M K A B C D h x (n1 + n) p
  = ss_y M K (fun k => A (n1 + k)%nat) (fun k => B (n1 + k)%nat) (fun k => C (n1 + k)%nat) (fun k => D (n1 + k)%nat)
      (ss_h M K A B h x n1) (fun k => x (n1 + k)%nat) n p.
Proof. unfold ss_y. f_equal. apply bsum_ext. intros. now rewrite ss_h_shift. Qed.

Lemma ss_h_lin M K A B c1 c2 (h1 h2 : nat -> R) x1 x2 n i :
  ss_h M K A B (fun m => c1 * h1 m + c2 * h2 m) (fun k j => c1 * x1 k j + c2 * x2 k j) n i
  = c1 * ss_h M K A B h1 x1 n i + c2 * ss_h M K A B h2 x2 n i.
Proof.
  unfold ss_h. rewrite <- state_lin. revert i. induction n as [|n IH]; intro i; [reflexivity|].
  cbn [state]. f_equal; [apply mvec_ext; auto|].
  rewrite <- !bsum_mul_l, <- bsum_add. apply bsum_ext. intros. ring.
Qed.
Lemma ss_y_lin M K A B C D c1 c2 (h1 h2 : nat -> R) x1 x2 n p :
  ss_y M K A B C D (fun m => c1 * h1 m + c2 * h2 m) (fun k j => c1 * x1 k j + c2 * x2 k j) n p
  = c1 * ss_y M K A B C D h1 x1 n p + c2 * ss_y M K A B C D h2 x2 n p.
Proof.
  unfold ss_y.
  rewrite (bsum_ext M _ (fun m => c1 * (C n p m * ss_h M K A B h1 x1 n m) + c2 * (C n p m * ss_h M K A B h2 x2 n m)))
    by (intros; rewrite ss_h_lin; ring).
  rewrite (bsum_ext K _ (fun k => c1 * (D n p k * x1 n k) + c2 * (D n p k * x2 n k))) by (intros; ring).
  rewrite !bsum_add, !bsum_mul_l. ring.
Qed.
End S.
