(** Derivatives of state-space models. *)
From Coq Require Import List Arith Lia ZArith Ring.
From Verif Require Import Scalar Tensor TensorLemmas TensorTac Spec Shapes SpecAutograd SpecSystem SpecDeriv Algebra P_Autograd P_Deriv.
Import ListNotations.

Section Deriv2.
Variable R : cring.
Add Ring Rr : (r_th R).
Notation D := (dual R).
Open Scope cr_scope.
Notation mats := (nat -> nat -> nat -> R).

Lemma mvec_dual n (A dA : nat -> nat -> R) (v dv : nat -> R) i :
  mvec (R := D) n (fun i j => (A i j, dA i j)) (fun j => (v j, dv j)) i = (mvec n A v i, mvec n A dv i + mvec n dA v i).
Proof. unfold mvec. apply (bsum_mul_dual R n (A i) (dA i) v dv). Qed.
Lemma mvec_ext {S : cring} n (A A' : nat -> nat -> S) v v' i :
  (forall j, (j < n)%nat -> A i j = A' i j) -> (forall j, (j < n)%nat -> v j = v' j) -> mvec n A v i = mvec n A' v' i.
Proof. intros HA Hv. unfold mvec. apply bsum_ext. intros j Hj. now rewrite HA, Hv. Qed.

Section One.
Variables (M K : nat) (A dA B dB C dC Dm dD : mats) (h0 dh0 : nat -> R) (x dx : nat -> nat -> R).
Notation wt f df := (fun n i j => (f n i j, df n i j)).
Notation h := (ss_h M K A B h0 x).
Notation dh := (tan_h M K A dA B dB h0 dh0 x dx).

Lemma ss_h_dual n m : (m < M)%nat ->
  ss_h (R := D) M K (wt A dA) (wt B dB) (fun i => (h0 i, dh0 i)) (fun n k => (x n k, dx n k)) n m = (h n m, dh n m).
Proof.
  revert m. induction n as [|n IH]; intros m Hm; [reflexivity|].
  unfold ss_h at 1. cbn [state]. fold (ss_h (R := D) M K (wt A dA) (wt B dB) (fun i => (h0 i, dh0 i)) (fun n k => (x n k, dx n k)) n).
  rewrite (mvec_ext M _ (fun i j => (A n i j, dA n i j) : D) _ (fun j => (h n j, dh n j) : D)) by (intros; auto).
  rewrite mvec_dual. rewrite (bsum_mul_dual R K (B n m) (dB n m) (x n) (dx n)). cbn [radd dual fst snd r_ops].
  unfold ss_h at 3. unfold tan_h at 2. cbn [state].
  fold (ss_h M K A B h0 x n). fold (tan_h M K A dA B dB h0 dh0 x dx n). unfold mvec. f_equal. ring.
Qed.
Lemma ss_y_dual n p :
  ss_y (R := D) M K (wt A dA) (wt B dB) (wt C dC) (wt Dm dD) (fun i => (h0 i, dh0 i)) (fun n k => (x n k, dx n k)) n p
  = (ss_y M K A B C Dm h0 x n p, tan_y M K A dA B dB C dC Dm dD h0 dh0 x dx n p).
Proof.
  unfold ss_y at 1.
  rewrite (bsum_ext (R := D) M _ (fun m => rmul (c := D) (C n p m, dC n p m) (h n m, dh n m))).
  2:{ intros m Hm. now rewrite ss_h_dual. }
  rewrite (bsum_mul_dual R M (C n p) (dC n p) (h n) (dh n)), (bsum_mul_dual R K (Dm n p) (dD n p) (x n) (dx n)). cbn [radd dual fst snd r_ops].
  unfold ss_y, tan_y, mvec. f_equal. ring.
Qed.

(** ** Duality *)
Lemma dot_add n (f g k : nat -> R) : dot n f (fun i => g i + k i) = dot n f g + dot n f k.
Proof. unfold dot. rewrite <- bsum_add. apply bsum_ext. intros. ring. Qed.
Lemma dot_add_l n (f g k : nat -> R) : dot n (fun i => f i + g i) k = dot n f k + dot n g k.
Proof. unfold dot. rewrite <- bsum_add. apply bsum_ext. intros. rewrite conj_add. ring. Qed.
Lemma dot_ext n (f f' g g' : nat -> R) : (forall i, (i < n)%nat -> f i = f' i) -> (forall i, (i < n)%nat -> g i = g' i) -> dot n f g = dot n f' g'.
Proof. intros Hf Hg. unfold dot. apply bsum_ext. intros. now rewrite Hf, Hg. Qed.
(** <u, X v> = <X^H u, v> = <u v^H, X>. *)
Lemma dot_mvec n m (u : nat -> R) (X : nat -> nat -> R) v :
  dot n u (mvec m X v) = dot m (fun j => bsum n (fun i => conj (X i j) * u i)) v.
Proof.
  unfold dot, mvec. rewrite (bsum_ext n _ (fun i => bsum m (fun j => conj (u i) * X i j * v j))).
  2:{ intros i Hi. rewrite <- bsum_mul_l. apply bsum_ext. intros. ring. }
  rewrite bsum_swap. apply bsum_ext. intros j Hj. rewrite bsum_conj. rewrite <- bsum_mul_r. apply bsum_ext. intros. rewrite conj_mul, conj_conj. ring.
Qed.
Lemma dot_outer n m (u : nat -> R) (X : nat -> nat -> R) v : dot n u (mvec m X v) = dotc n m (outer u v) X.
Proof.
  unfold dotc, dot, mvec, outer. apply bsum_ext. intros i Hi. rewrite <- bsum_mul_l. apply bsum_ext. intros j Hj. rewrite conj_mul, conj_conj. ring.
Qed.

Variables (Q N : nat) (g : nat -> nat -> R) (gh : nat -> R).
Notation l := (back_h M Q N A C g gh).
Lemma back_step n : (n < N)%nat -> forall i, l n i = bsum M (fun m => conj (A n m i) * l (S n) m) + bsum Q (fun p => conj (C n p i) * g n p).
Proof.
  intros Hn i. unfold back_h. replace (N - n)%nat with (S (N - S n)) by lia. cbn [costate].
  replace (N - S (N - S n))%nat with n by lia. reflexivity.
Qed.

Lemma duality k : (k <= N)%nat ->
  bsum k (fun n => dot Q (g n) (tan_y M K A dA B dB C dC Dm dD h0 dh0 x dx n)) + dot M (l k) (dh k)
  = dot M (l 0%nat) dh0
    + bsum k (fun n => dotc M M (outer (l (S n)) (h n)) (dA n) + dotc M K (outer (l (S n)) (x n)) (dB n)
        + dotc Q M (outer (g n) (h n)) (dC n) + dotc Q K (outer (g n) (x n)) (dD n)
        + dot K (fun j => bsum M (fun m => conj (B n m j) * l (S n) m) + bsum Q (fun p => conj (Dm n p j) * g n p)) (dx n)).
Proof.
  induction k as [|n IH]; intro Hk; [cbn [bsum]; unfold tan_h; cbn [state]; ring|].
  cbn [bsum]. specialize (IH ltac:(lia)).
  assert (E1 : dot M (l n) (dh n) = dot M (l (S n)) (mvec M (A n) (dh n)) + dot Q (g n) (mvec M (C n) (dh n))).
  { rewrite !dot_mvec, <- dot_add_l. apply dot_ext; [|reflexivity]. intros i Hi. apply back_step. lia. }
  assert (E2 : dot M (l (S n)) (dh (S n)) = dot M (l (S n)) (mvec M (A n) (dh n)) + (dotc M M (outer (l (S n)) (h n)) (dA n)
    + dot K (fun j => bsum M (fun m => conj (B n m j) * l (S n) m)) (dx n) + dotc M K (outer (l (S n)) (x n)) (dB n))).
  { rewrite <- !dot_outer, <- !dot_mvec, <- !dot_add. reflexivity. }
  assert (E3 : dot Q (g n) (tan_y M K A dA B dB C dC Dm dD h0 dh0 x dx n) = dot Q (g n) (mvec M (C n) (dh n)) + dotc Q M (outer (g n) (h n)) (dC n)
    + dot K (fun j => bsum Q (fun p => conj (Dm n p j) * g n p)) (dx n) + dotc Q K (outer (g n) (x n)) (dD n)).
  { rewrite <- !dot_outer, <- !dot_mvec, <- !dot_add. reflexivity. }
  rewrite dot_add_l, E3, E2.
  rewrite E1 in IH.
  match type of IH with ?a + (?b + ?c) = ?d => assert (IH' : d = a + (b + c)) by (now rewrite IH) end.
  match goal with |- _ = ?a + (?b + ?c) => replace (a + (b + c)) with ((a + b) + c) by ring end.
  rewrite IH'. ring.
Qed.
End One.
End Deriv2.
