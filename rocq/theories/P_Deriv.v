(** Derivatives of rational filters: the difference equation over dual numbers. *)
From Coq Require Import List Arith Lia ZArith Ring.
From Verif Require Import Scalar Tensor TensorLemmas TensorTac Spec Shapes SpecFilter SpecAutograd SpecSystem Algebra P_Filter P_Autograd P_System.
Import ListNotations.

Section Deriv.
Variable R : cring.
Add Ring Rr : (r_th R).
Notation D := (dual R).
Open Scope cr_scope.

Lemma dly_dual (x dx : nat -> R) k n : dly (R := D) (fun m => (x m, dx m)) k n = (dly x k n, dly dx k n).
Proof. unfold dly. destruct (k <=? n)%nat; reflexivity. Qed.
Lemma bsum_mul_dual n (f df g dg : nat -> R) :
  bsum (R := D) n (fun i => rmul (c := D) (f i, df i) (g i, dg i)) = (bsum n (fun i => f i * g i), bsum n (fun i => f i * dg i) + bsum n (fun i => df i * g i)).
Proof. cbn [rmul dual fst snd r_ops]. rewrite (bsum_dual R n). now rewrite bsum_add. Qed.

(** A solution over dual numbers is a solution together with a tangent. *)
Lemma solves_dual P Q (b db a da x dx y dy : nat -> R) n :
  solves_filter (R := D) P Q (fun k => (b k, db k)) (fun k => (a k, da k)) (fun m => (x m, dx m)) (fun m => (y m, dy m)) n <->
  solves_filter P Q b a x y n /\
  dy n + bsum Q (fun k => a k * dly dy (S k) n) + bsum Q (fun k => da k * dly y (S k) n) = conv P b dx n + conv P db x n.
Proof.
  unfold solves_filter, conv.
  rewrite (bsum_ext (R := D) Q _ (fun k => rmul (c := D) (a k, da k) (dly y (S k) n, dly dy (S k) n))) by (intros; now rewrite dly_dual).
  rewrite (bsum_ext (R := D) (S P) _ (fun k => rmul (c := D) (b k, db k) (dly x k n, dly dx k n))) by (intros; now rewrite dly_dual).
  rewrite !bsum_mul_dual. cbn [radd dual fst snd r_ops]. split.
  - intro H. pose proof (f_equal fst H) as H1. pose proof (f_equal snd H) as H2. unfold fst, snd in H1, H2. split; [exact H1|]. rewrite <- H2. ring.
  - intros [H1 H2]. rewrite H1, <- H2. f_equal. ring.
Qed.

Lemma opp_mul (p q : R) : - (p * q) = - p * q.
Proof. ring. Qed.
(** An all-pole filter driven by [v]. *)
Definition one (k : nat) : R := 1.
Lemma pole_eq Q (a v y : nat -> R) n : solves_filter 0 Q one a v y n <-> y n + bsum Q (fun k => a k * dly y (S k) n) = v n.
Proof.
  unfold solves_filter, one. cbn [bsum]. rewrite dly_0. replace (0 + 1 * v n) with (v n) by ring. reflexivity.
Qed.
Lemma filter_pole P Q (b a x y : nat -> R) n : solves_filter P Q b a x y n <-> solves_filter 0 Q one a (conv P b x) y n.
Proof. rewrite pole_eq. reflexivity. Qed.

(** Numerator of the derivative with respect to the denominator. *)
Definition shift1 (da : nat -> R) (k : nat) : R := match k with O => 0 | S j => da j end.
Lemma conv_shift1 Q (da y : nat -> R) n : conv Q (shift1 da) y n = bsum Q (fun k => da k * dly y (S k) n).
Proof. unfold conv. rewrite bsum_S_l. cbn [shift1]. ring. Qed.

Lemma dly_lin (f g h : nat -> R) k n : dly (fun m => f m + g m - h m) k n = dly f k n + dly g k n - dly h k n.
Proof. unfold dly. destruct (k <=? n)%nat; ring. Qed.

Lemma tangent_filter P Q (b db a da x dx y dy t1 t2 t3 : nat -> R) N :
  (forall n, (n < N)%nat -> solves_filter (R := D) P Q (fun k => (b k, db k)) (fun k => (a k, da k)) (fun m => (x m, dx m)) (fun m => (y m, dy m)) n) ->
  (forall n, (n < N)%nat -> solves_filter P Q b a dx t1 n) -> (forall n, (n < N)%nat -> solves_filter P Q db a x t2 n) ->
  (forall n, (n < N)%nat -> solves_filter Q Q (shift1 da) a y t3 n) ->
  forall n, (n < N)%nat -> dy n = t1 n + t2 n - t3 n.
Proof.
  intros H H1 H2 H3.
  set (v := fun n => conv P b dx n + conv P db x n - bsum Q (fun k => da k * dly y (S k) n)).
  apply (solves_filter_unique R 0 Q one a v dy (fun n => t1 n + t2 n - t3 n) N).
  - intros n Hn. apply pole_eq. destruct (proj1 (solves_dual P Q b db a da x dx y dy n) (H n Hn)) as (_ & E). unfold v. rewrite <- E. ring.
  - intros n Hn. apply pole_eq. specialize (H1 n Hn). specialize (H2 n Hn). specialize (H3 n Hn).
    apply filter_pole, pole_eq in H1, H2, H3. rewrite conv_shift1 in H3. unfold v. rewrite <- H1, <- H2, <- H3.
    rewrite (bsum_ext Q (fun k => a k * dly (fun n0 => t1 n0 + t2 n0 - t3 n0) (S k) n) (fun k => a k * dly t1 (S k) n + a k * dly t2 (S k) n - a k * dly t3 (S k) n))
      by (intros; rewrite dly_lin; ring).
    rewrite bsum_sub, bsum_add. ring.
Qed.

(** Pairing the tangent with [g]: the gradients come from two filters run backwards. *)
Lemma gradient_filter P Q (b db a da x dx y dy g w u : nat -> R) N :
  (forall n, (n < N)%nat -> solves_filter (R := D) P Q (fun k => (b k, db k)) (fun k => (a k, da k)) (fun m => (x m, dx m)) (fun m => (y m, dy m)) n) ->
  (forall n, (n < N)%nat -> solves_filter P Q (fun k => conj (b k)) (fun k => conj (a k)) (fun n => g (N - 1 - n)%nat) w n) ->
  (forall n, (n < N)%nat -> solves_filter 0 Q one (fun k => conj (a k)) (fun n => g (N - 1 - n)%nat) u n) ->
  bsum N (fun n => conj (g n) * dy n) =
    bsum N (fun n => conj (w (N - 1 - n)%nat) * dx n)
    + bsum (S P) (fun k => bsum N (fun n => conj (u (N - 1 - n)%nat) * dly x k n) * db k)
    - bsum Q (fun k => bsum N (fun n => conj (u (N - 1 - n)%nat) * dly y (S k) n) * da k).
Proof.
  intros H Hw Hu.
  set (v := fun n => conv P b dx n + conv P db x n - bsum Q (fun k => da k * dly y (S k) n)).
  assert (Hv : forall n, (n < N)%nat -> solves_filter 0 Q one a v dy n).
  { intros n Hn. apply pole_eq. destruct (proj1 (solves_dual P Q b db a da x dx y dy n) (H n Hn)) as (_ & E). unfold v. rewrite <- E. ring. }
  assert (Hu' : forall n, (n < N)%nat -> solves_filter 0 Q (fun k => conj (one k)) (fun k => conj (a k)) (fun n => g (N - 1 - n)%nat) u n).
  { intros n Hn. eapply (solves_filter_ext R) with (5 := Hu n Hn); auto. intros. unfold one. now rewrite conj_1. }
  rewrite (adjoint_filter R 0 Q one a v dy g u N Hv Hu'). unfold v.
  rewrite (bsum_ext N _ (fun n => conj (u (N - 1 - n)%nat) * conv P b dx n + conj (u (N - 1 - n)%nat) * conv P db x n
     - conj (u (N - 1 - n)%nat) * bsum Q (fun k => da k * dly y (S k) n))) by (intros; ring).
  rewrite bsum_sub, bsum_add. f_equal; [f_equal|].
  - transitivity (bsum N (fun n => conj (conv P (fun k => conj (b k)) u (N - 1 - n)%nat) * dx n)).
    + apply (adjoint_filter R P 0 b (fun _ => 0) dx (conv P b dx) (fun n => u (N - 1 - n)%nat) (conv P (fun k => conj (b k)) u) N); intros n Hn; unfold solves_filter; cbn [bsum].
      * fold (bsum (S P) (fun k => b k * dly dx k n)). change (conv P b dx n + 0 = conv P b dx n). ring.
      * transitivity (conv P (fun k => conj (b k)) u n); [ring|]. apply conv_ext_at; [reflexivity|]. intros j Hj. f_equal. lia.
    + apply bsum_ext. intros n Hn. f_equal. f_equal.
      apply (solves_filter_unique R P Q (fun k => conj (b k)) (fun k => conj (a k)) (fun n => g (N - 1 - n)%nat) _ _ N); [|exact Hw|lia].
      apply (fir_of_allpole R P Q _ _ _ u); [|reflexivity]. intros m Hm. exact (proj1 (pole_eq _ _ _ _ _) (Hu m Hm)).
  - unfold conv. rewrite (bsum_ext N _ (fun n => bsum (S P) (fun k => conj (u (N - 1 - n)%nat) * (db k * dly x k n)))) by (intros; now rewrite bsum_mul_l).
    rewrite bsum_swap. apply bsum_ext. intros k Hk. rewrite <- bsum_mul_r. apply bsum_ext. intros; ring.
  - rewrite (bsum_ext N _ (fun n => bsum Q (fun k => conj (u (N - 1 - n)%nat) * (da k * dly y (S k) n)))) by (intros; now rewrite bsum_mul_l).
    rewrite bsum_swap. apply bsum_ext. intros k Hk. rewrite <- bsum_mul_r. apply bsum_ext. intros; ring.
Qed.
End Deriv.
