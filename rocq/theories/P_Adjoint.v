(** The adjoint of a time-varying state-space model is the conjugate transposed model run
    backwards in time, states included. *)
From Coq Require Import List Arith Lia ZArith Bool Ring.
From Verif Require Import Scalar Tensor TensorLemmas TensorTac Spec Shapes SpecFilter SpecLpv Algebra P_SsSpec P_Filter P_LpvAlg.
Import ListNotations.

Section Adjoint.
Variable R : cring.
Add Ring Rr : (r_th R).
Open Scope cr_scope.

(** Conjugate transposed matrices in reversed time. *)
Definition revH (N : nat) (A : nat -> nat -> nat -> R) (n i j : nat) : R := conj (A (N - 1 - n)%nat j i).
Definition revt {T} (N : nat) (x : nat -> T) (n : nat) : T := x (N - 1 - n)%nat.

Lemma dot_mat n m (l : nat -> R) (A : nat -> nat -> R) (h : nat -> R) :
  bsum n (fun i => conj (l i) * bsum m (fun j => A i j * h j)) = bsum m (fun j => conj (bsum n (fun i => conj (A i j) * l i)) * h j).
Proof.
  rewrite (bsum_ext n _ (fun i => bsum m (fun j => conj (l i) * (A i j * h j)))) by (intros; now rewrite bsum_mul_l).
  rewrite bsum_swap. apply bsum_ext. intros j Hj. rewrite bsum_conj, <- bsum_mul_r. apply bsum_ext. intros i Hi.
  rewrite conj_mul, conj_conj. ring.
Qed.
Lemma dot_add n (l u v : nat -> R) : bsum n (fun i => conj (l i) * (u i + v i)) = bsum n (fun i => conj (l i) * u i) + bsum n (fun i => conj (l i) * v i).
Proof. rewrite <- bsum_add. apply bsum_ext. intros. ring. Qed.
Lemma dot_add_l n (u v h : nat -> R) : bsum n (fun i => conj (u i + v i) * h i) = bsum n (fun i => conj (u i) * h i) + bsum n (fun i => conj (v i) * h i).
Proof. rewrite <- bsum_add. apply bsum_ext. intros. rewrite conj_add. ring. Qed.

(** One step. *)
Lemma adjoint_step M K P (A B C D : nat -> nat -> R) (l h x g : nat -> R) :
  bsum P (fun p => conj (g p) * (bsum M (fun m => C p m * h m) + bsum K (fun k => D p k * x k)))
  + bsum M (fun m => conj (l m) * (bsum M (fun j => A m j * h j) + bsum K (fun k => B m k * x k)))
  = bsum K (fun k => conj (bsum M (fun m => conj (B m k) * l m) + bsum P (fun p => conj (D p k) * g p)) * x k)
  + bsum M (fun j => conj (bsum M (fun m => conj (A m j) * l m) + bsum P (fun p => conj (C p j) * g p)) * h j).
Proof.
  rewrite !dot_add, !dot_add_l, !dot_mat. ring.
Qed.

Lemma ss_adjoint M K P A B C D (h0 gz : nat -> R) (x g : nat -> nat -> R) N :
  bsum N (fun n => bsum P (fun p => conj (g n p) * ss_y M K A B C D h0 x n p))
  + bsum M (fun m => conj (gz m) * ss_h M K A B h0 x N m)
  = bsum N (fun n => bsum K (fun k => conj (ss_y M P (revH N A) (revH N C) (revH N B) (revH N D) gz (revt N g) (N - 1 - n)%nat k) * x n k))
  + bsum M (fun m => conj (ss_h M P (revH N A) (revH N C) gz (revt N g) N m) * h0 m).
Proof.
  set (h := ss_h M K A B h0 x). set (l := ss_h M P (revH N A) (revH N C) gz (revt N g)).
  assert (H : forall m, (m <= N)%nat ->
    bsum m (fun n => bsum P (fun p => conj (g n p) * ss_y M K A B C D h0 x n p)) + bsum M (fun i => conj (l (N - m)%nat i) * h m i)
    = bsum m (fun n => bsum K (fun k => conj (ss_y M P (revH N A) (revH N C) (revH N B) (revH N D) gz (revt N g) (N - 1 - n)%nat k) * x n k))
      + bsum M (fun i => conj (l N i) * h0 i)).
  { induction m as [|m IH]; intro Hm.
    - cbn [bsum]. rewrite Nat.sub_0_r. reflexivity.
    - cbn [bsum]. specialize (IH ltac:(lia)).
      assert (E : bsum P (fun p => conj (g m p) * ss_y M K A B C D h0 x m p) + bsum M (fun i => conj (l (N - S m)%nat i) * h (S m) i)
        = bsum K (fun k => conj (ss_y M P (revH N A) (revH N C) (revH N B) (revH N D) gz (revt N g) (N - 1 - m)%nat k) * x m k)
          + bsum M (fun i => conj (l (N - m)%nat i) * h m i)).
      { pose proof (adjoint_step M K P (A m) (B m) (C m) (D m) (l (N - S m)%nat) (h m) (x m) (g m)) as S0.
        etransitivity; [|etransitivity; [exact S0|]].
        - reflexivity.
        - f_equal.
          + apply bsum_ext. intros k Hk. do 2 f_equal. unfold ss_y. fold l. replace (N - 1 - m)%nat with (N - S m)%nat by lia.
            unfold revH, revt. replace (N - 1 - (N - S m))%nat with m by lia. reflexivity.
          + apply bsum_ext. intros j Hj. do 2 f_equal. replace (N - m)%nat with (S (N - S m)) by lia.
            unfold l at 2, ss_h. cbn [state]. fold (ss_h M P (revH N A) (revH N C) gz (revt N g) (N - S m)). fold l.
            unfold mvec, revH, revt. replace (N - 1 - (N - S m))%nat with m by lia. reflexivity. }
      transitivity ((bsum m (fun n => bsum P (fun p => conj (g n p) * ss_y M K A B C D h0 x n p)) + bsum M (fun i => conj (l (N - m)%nat i) * h m i))
        + (bsum P (fun p => conj (g m p) * ss_y M K A B C D h0 x m p) + bsum M (fun i => conj (l (N - S m)%nat i) * h (S m) i))
        - bsum M (fun i => conj (l (N - m)%nat i) * h m i)); [ring|].
      rewrite IH, E. ring. }
  specialize (H N ltac:(lia)). rewrite Nat.sub_diag in H. exact H.
Qed.

Lemma compH N (a : nat -> nat -> R) n i j :
  revH N (fun k => compm R (a k)) n i j = comph R (fun k => conj (a (N - 1 - n)%nat k)) i j.
Proof.
  unfold revH, compm, comph. destruct (j =? S i)%nat; [apply conj_1|]. destruct (j =? 0)%nat; [apply conj_opp|apply conj_0].
Qed.
(** ** Direct form II and transposed direct form II are adjoint to each other *)
Lemma vdf2_adjoint M (b a : nat -> nat -> R) (z gz x g : nat -> R) N : (1 <= M)%nat ->
  let bH := fun n k => conj (b (N - 1 - n)%nat k) in let aH := fun n k => conj (a (N - 1 - n)%nat k) in
  bsum N (fun n => conj (g n) * vdf2_y M b a z x n) + bsum M (fun i => conj (gz i) * vdf2_z M a z x N i)
  = bsum N (fun n => conj (vtdf2_y M bH aH gz (revt N g) (N - 1 - n)%nat) * x n)
  + bsum M (fun i => conj (vtdf2_z M bH aH gz (revt N g) N i) * z i).
Proof.
  intros HM bH aH.
  pose proof (ss_adjoint M 1 1 (fun k => compm R (a k)) (fun _ i _ => if (i =? 0)%nat then 1 else 0)
    (fun n _ m => b n (S m) - b n 0%nat * a n m) (fun n _ _ => b n 0%nat) z gz (fun n _ => x n) (fun n _ => g n) N) as H.
  cbn [bsum] in H.
  etransitivity; [|etransitivity; [exact H|]]; f_equal.
  - apply bsum_ext. intros n Hn. rewrite ss_vdf2_y by exact HM. ring.
  - apply bsum_ext. intros i Hi. now rewrite ss_vdf2_h.
  - apply bsum_ext. intros n Hn. 
    transitivity (conj (ss_y M 1 (revH N (fun k => compm R (a k))) (revH N (fun n0 _ m => b n0 (S m) - b n0 0%nat * a n0 m))
      (revH N (fun _ i _ => if (i =? 0)%nat then 1 else 0)) (revH N (fun n0 _ _ => b n0 0%nat)) gz (revt N (fun n0 _ => g n0)) (N - 1 - n)%nat 0%nat) * x n); [ring|].
    do 2 f_equal. rewrite <- (ss_vtdf2_y R M bH aH gz (revt N g) _ 0%nat HM).
    apply ss_y_ext; auto.
    + intros k i j _ _ _. apply compH.
    + intros k i j _ _ _. unfold revH, bH, aH. now rewrite conj_sub, conj_mul.
    + intros j Hj. unfold revH, unit3. rewrite (Nat.eqb_sym j 0). destruct (0 =? j)%nat; [apply conj_1|apply conj_0].
  - apply bsum_ext. intros i Hi. do 2 f_equal. rewrite <- (ss_vtdf2_h R M bH aH gz (revt N g) N i Hi).
    apply ss_h_ext; auto.
    + intros k p j _ _ _. apply compH.
    + intros k p j _ _ _. unfold revH, bH, aH. now rewrite conj_sub, conj_mul.
Qed.
End Adjoint.
