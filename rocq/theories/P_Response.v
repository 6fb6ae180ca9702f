(** Lemmas about pulse responses, Markov parameters, changes of coordinates and rational
    functions. *)
From Coq Require Import List Arith Lia ZArith Bool Ring.
From Verif Require Import Scalar Tensor TensorLemmas TensorTac Spec Shapes SpecFilter SpecPoly SpecSystem SpecResponse Algebra
  P_SsSpec P_Filter P_LtiFilter P_Diag4 P_System.
Import ListNotations.
Open Scope nat_scope.

Section Resp.
Variable R : cring.
Add Ring Rr : (r_th R).

Lemma star_pulse (f : nat -> R) n : star R f pulse n = f n.
Proof.
  unfold star. rewrite (bsum_one (S n) _ n); [|lia|].
  - rewrite Nat.sub_diag. cbn. ring.
  - intros i Hi Hne. unfold pulse. bfalse (n - i =? 0). ring.
Qed.
Lemma solves_convolve P Q (b a h x y : nat -> R) N :
  (forall n, n < N -> solves_filter P Q b a pulse h n) -> (forall n, n < N -> solves_filter P Q b a x y n) ->
  forall n, n < N -> y n = convolve h x n.
Proof.
  intros H1 H2 n Hn. pose proof (star_solves R P Q b a pulse h x y N H1 H2 n Hn) as H.
  rewrite star_pulse in H. rewrite H. apply star_comm.
Qed.
Lemma conv_pulse P (b : nat -> R) n : conv P b pulse n = if n <=? P then b n else r0.
Proof.
  unfold conv. destruct (n <=? P) eqn:E; b2p.
  - rewrite (bsum_one (S P) _ n); [|lia|].
    + unfold dly. btrue (n <=? n). rewrite Nat.sub_diag. cbn. ring.
    + intros i Hi Hne. unfold dly, pulse. destruct (i <=? n) eqn:E1; b2p; [bfalse (n - i =? 0)|]; ring.
  - apply bsum_0. intros i Hi. unfold dly, pulse. btrue (i <=? n). bfalse (n - i =? 0). ring.
Qed.

(** ** State space *)
Lemma ss_y_response M K A B C D (h0 : nat -> R) x n p :
  ss_y M K (fun _ => A) (fun _ => B) (fun _ => C) (fun _ => D) h0 x n p
  = (bsum M (fun i => C p i * mvec M (mpow M A n) h0 i) + bsum (S n) (fun j => bsum K (fun k => markov M A B C D j p k * x (n - j)%nat k)))%cr.
Proof.
  unfold ss_y, ss_h.
  rewrite (bsum_ext M _ (fun m => C p m * mvec M (mpow M A n) h0 m +
     bsum n (fun j => C p m * mvec M (mpow M A (n - 1 - j)) (fun i => bsum K (fun k => B i k * x j k)) m))%cr).
  2: { intros m Hm. pose proof (state_lti_closed M A h0 (fun n m => bsum K (fun k => B m k * x n k)%cr) 0 n m Hm) as H. cbn [Nat.add] in H.
       rewrite H. cbn [state]. rewrite bsum_mul_l. ring. }
  rewrite bsum_add. rewrite (bsum_S_l n). replace (n - 0) with n by lia. cbn [markov].
  match goal with |- (?a + ?b + ?c = ?a + (?c' + ?d))%cr => change c' with c; assert (G : b = d) end; [|rewrite G; ring].
  rewrite bsum_swap. symmetry. rewrite bsum_rev. apply bsum_ext. intros j Hj. cbn [markov].
  replace (n - S (n - 1 - j)) with j by lia.
  rewrite (bsum_ext K _ (fun k => bsum M (fun i => C p i * bsum M (fun l => mpow M A (n - 1 - j) i l * B l k) * x j k))%cr)
    by (intros; now rewrite bsum_mul_r).
  rewrite bsum_swap. apply bsum_ext. intros i Hi.
  rewrite (bsum_ext K _ (fun k => C p i * (bsum M (fun l => mpow M A (n - 1 - j) i l * B l k * x j k)))%cr)
    by (intros; rewrite bsum_mul_r; ring).
  rewrite bsum_mul_l. f_equal. rewrite bsum_swap. unfold mvec. apply bsum_ext. intros l Hl. rewrite <- bsum_mul_l. apply bsum_ext. intros. ring.
Qed.
Lemma ss_y_response_rest M K A B C D (x : nat -> nat -> R) n p :
  ss_y M K (fun _ => A) (fun _ => B) (fun _ => C) (fun _ => D) (fun _ => r0) x n p
  = bsum (S n) (fun j => bsum K (fun k => markov M A B C D j p k * x (n - j)%nat k))%cr.
Proof.
  rewrite ss_y_response, bsum_0; [ring|]. intros i Hi. rewrite mvec_0. ring.
Qed.
Lemma ss_y_pulse M K A B C D (x : nat -> nat -> R) n p q : q < K -> (forall j k, k < K -> x j k = if (j =? 0) && (k =? q) then r1 else r0) ->
  ss_y M K (fun _ => A) (fun _ => B) (fun _ => C) (fun _ => D) (fun _ => r0) x n p = markov M A B C D n p q.
Proof.
  intros Hq Hx. rewrite ss_y_response_rest. rewrite (bsum_one (S n) _ n); [|lia|].
  - rewrite Nat.sub_diag. rewrite (bsum_one K _ q); [|lia|].
    + rewrite Hx by lia. cbn [Nat.eqb andb]. btrue (q =? q). ring.
    + intros k Hk Hne. rewrite Hx by lia. bfalse (k =? q). cbn. ring.
  - intros j Hj Hne. apply bsum_0. intros k Hk. rewrite Hx by lia. bfalse (n - j =? 0). cbn [andb]. ring.
Qed.

(** ** Change of coordinates *)
Lemma mvec_mm M M' (X Y : nat -> nat -> R) v i : bsum M (fun k => X i k * bsum M' (fun j => Y k j * v j))%cr = bsum M' (fun j => mm M X Y i j * v j)%cr.
Proof.
  rewrite (bsum_ext M _ (fun k => bsum M' (fun j => X i k * Y k j * v j)%cr)) by (intros; rewrite <- bsum_mul_l; apply bsum_ext; intros; ring).
  rewrite bsum_swap. apply bsum_ext. intros j Hj. unfold mm. now rewrite bsum_mul_r.
Qed.
Lemma carries_h M M' K W (T A A' B B' C C' : nat -> nat -> nat -> R) (h0 h0' : nat -> R) x N :
  (forall n, n < N -> carries M M' K W (T n) (T (S n)) (A n) (A' n) (B n) (B' n) (C n) (C' n)) ->
  (forall i, i < M' -> h0' i = mvec M (T 0) h0 i) -> forall n i, n <= N -> i < M' ->
  ss_h M' K A' B' h0' x n i = mvec M (T n) (ss_h M K A B h0 x n) i.
Proof.
  intros HT H0. induction n as [|n IH]; intros i Hn Hi; [now apply H0|].
  destruct (HT n ltac:(lia)) as (HA & HB & _).
  unfold ss_h in *. cbn [state]. set (u := fun n m => bsum K (fun k => B n m k * x n k)%cr) in *. set (s := state M A h0 u n) in *.
  rewrite (mvec_ext M' (A' n) (A' n) _ (mvec M (T n) s) i (fun _ _ => eq_refl)) by (intros; apply IH; lia).
  rewrite mvec_add. unfold mvec at 1 2. rewrite mvec_mm.
  rewrite (bsum_ext M _ (fun j => mm M (T (S n)) (A n) i j * s j)%cr) by (intros; now rewrite HA).
  unfold mvec at 1. unfold mvec at 1. rewrite (mvec_mm M M). f_equal.
  unfold mvec, u. rewrite mvec_mm. apply bsum_ext. intros k Hk. now rewrite HB.
Qed.
Lemma carries_y M M' K W (T A A' B B' C C' D D' : nat -> nat -> nat -> R) (h0 h0' : nat -> R) x N :
  (forall n, n < N -> carries M M' K W (T n) (T (S n)) (A n) (A' n) (B n) (B' n) (C n) (C' n)) ->
  (forall n p k, n < N -> p < W -> k < K -> D' n p k = D n p k) ->
  (forall i, i < M' -> h0' i = mvec M (T 0) h0 i) -> forall n p, n < N -> p < W ->
  ss_y M' K A' B' C' D' h0' x n p = ss_y M K A B C D h0 x n p.
Proof.
  intros H HD H0 n p Hn Hp. unfold ss_y. f_equal.
  - rewrite (bsum_ext M' _ (fun m => C' n p m * mvec M (T n) (ss_h M K A B h0 x n) m)%cr)
      by (intros; now rewrite (carries_h M M' K W T A A' B B' C C' h0 h0' x N H H0) by lia).
    unfold mvec. rewrite mvec_mm. destruct (H n Hn) as (_ & _ & HC). apply bsum_ext. intros j Hj. now rewrite HC.
  - apply bsum_ext. intros k Hk. now rewrite HD.
Qed.

(** ** Exponentials *)
Lemma exp_h M K A B (h0 v : nat -> R) c x N : (forall i, i < M -> (c * h0 i = mvec M A h0 i + bsum K (fun k => B i k * v k))%cr) ->
  (forall n k, n < N -> k < K -> x n k = (spow c n * v k)%cr) -> forall n i, n <= N -> i < M -> ss_h M K (fun _ => A) (fun _ => B) h0 x n i = (spow c n * h0 i)%cr.
Proof.
  intros H Hx. induction n as [|n IH]; intros i Hn Hi; unfold ss_h in *; cbn [state spow]; [ring|].
  rewrite (mvec_ext M A A _ (fun k => spow c n * h0 k)%cr i (fun _ _ => eq_refl)) by (intros; apply IH; lia).
  rewrite mvec_scale. rewrite (bsum_ext K _ (fun k => spow c n * (B i k * v k))%cr) by (intros; rewrite Hx by lia; ring).
  rewrite bsum_mul_l. transitivity (spow c n * (c * h0 i))%cr; [|ring]. rewrite H by lia. ring.
Qed.
Lemma exp_y M K A B C D (h0 v : nat -> R) c x N : (forall i, i < M -> (c * h0 i = mvec M A h0 i + bsum K (fun k => B i k * v k))%cr) ->
  (forall n k, n < N -> k < K -> x n k = (spow c n * v k)%cr) -> forall n p, n < N ->
  ss_y M K (fun _ => A) (fun _ => B) (fun _ => C) (fun _ => D) h0 x n p = (spow c n * (bsum M (fun m => C p m * h0 m) + bsum K (fun k => D p k * v k)))%cr.
Proof.
  intros H Hx n p Hn. unfold ss_y.
  rewrite (bsum_ext M _ (fun m => spow c n * (C p m * h0 m))%cr) by (intros; rewrite (exp_h M K A B h0 v c x N) by (auto; lia); ring).
  rewrite (bsum_ext K _ (fun k => spow c n * (D p k * v k))%cr) by (intros; rewrite Hx by lia; ring).
  rewrite !bsum_mul_l. ring.
Qed.

(** ** Fractions *)
Lemma pmulc_out k l (f g : nat -> R) n : k + l <= S n -> pmulc k l f g n = r0.
Proof. intro H. unfold pmulc. apply bsum_0. intros i Hi. apply bsum_0. intros j Hj. now bfalse (i + j =? n). Qed.
Lemma conv_cross P Q (b a x : nat -> R) n : conv Q (monic1 a) (conv P b x) n = star R (cross (S P) Q b a) x n.
Proof.
  rewrite conv_conv.
  rewrite (conv_ext R (P + Q) _ x (star R pulse x)) by (intros; now rewrite star_comm, star_pulse).
  rewrite conv_star_l. apply star_ext; [|reflexivity]. intros k Hk. rewrite conv_pulse.
  destruct (k <=? P + Q) eqn:E; b2p; [|symmetry; apply pmulc_out; lia].
  unfold cross. apply pmulc_ext; auto.
Qed.
Lemma same_filter P1 Q1 P2 Q2 (b1 a1 b2 a2 x y y' : nat -> R) N :
  (forall n, n < N -> solves_filter P1 Q1 b1 a1 x y n) -> (forall n, n < N -> solves_filter P2 Q2 b2 a2 x y' n) ->
  (forall n, n < N -> cross (S P1) Q2 b1 a2 n = cross (S P2) Q1 b2 a1 n) -> forall n, n < N -> y n = y' n.
Proof.
  intros H1 H2 H. apply (conv_monic_inj R Q2 a2). apply (conv_monic_inj R Q1 a1). intros n Hn.
  rewrite conv_comm.
  rewrite (conv_ext R Q2 _ (conv Q1 (monic1 a1) y) (conv P1 b1 x)) by (intros; apply solves_conv; apply H1; lia).
  rewrite (conv_ext R Q1 _ (conv Q2 (monic1 a2) y') (conv P2 b2 x)) by (intros; apply solves_conv; apply H2; lia).
  rewrite !conv_cross. apply star_ext; [|reflexivity]. intros k Hk. apply H. lia.
Qed.
Lemma cross_of_same P1 Q1 P2 Q2 (b1 a1 b2 a2 y y' : nat -> R) N :
  (forall n, n < N -> solves_filter P1 Q1 b1 a1 pulse y n) -> (forall n, n < N -> solves_filter P2 Q2 b2 a2 pulse y' n) ->
  (forall n, n < N -> y n = y' n) -> forall n, n < N -> cross (S P1) Q2 b1 a2 n = cross (S P2) Q1 b2 a1 n.
Proof.
  intros H1 H2 H n Hn.
  rewrite <- (star_pulse (cross (S P1) Q2 b1 a2)), <- (star_pulse (cross (S P2) Q1 b2 a1)), <- !conv_cross.
  rewrite (conv_ext R Q2 _ (conv P1 b1 pulse) (conv Q1 (monic1 a1) y)) by (intros; symmetry; apply solves_conv; apply H1; lia).
  rewrite (conv_ext R Q1 _ (conv P2 b2 pulse) (conv Q2 (monic1 a2) y')) by (intros; symmetry; apply solves_conv; apply H2; lia).
  rewrite conv_comm. apply conv_ext. intros k Hk. apply conv_ext. intros j Hj. apply H. lia.
Qed.
(** Multiplying numerator and denominator by a monic polynomial changes nothing. *)
Lemma solves_expand P Q Q' (b a c x y : nat -> R) n : (forall m, m <= n -> solves_filter P Q b a x y m) ->
  solves_filter (P + Q') (Q + Q') (cross (S P) Q' b c) (fun k => pmulc (S Q) (S Q') (with_one a) (with_one c) (S k)) x y n.
Proof.
  intro H. assert (H2 : forall m, m <= n -> solves_filter Q' Q' (with_one c) c y y m).
  { intros m Hm. apply solves_conv. apply conv_ext_at; auto. }
  pose proof (solves_cascade R P Q Q' Q' b a (with_one c) c x y y n H H2) as S0.
  eapply (solves_filter_ext R) with (5 := S0); auto.
Qed.
Lemma solves_add P Q (b b' a x y y' : nat -> R) n : solves_filter P Q b a x y n -> solves_filter P Q b' a x y' n ->
  solves_filter P Q (fun k => b k + b' k)%cr a x (fun n => y n + y' n)%cr n.
Proof.
  unfold solves_filter. intros H H'.
  assert (D : forall k, dly (fun n => y n + y' n)%cr k n = (dly y k n + dly y' k n)%cr).
  { intro k. unfold dly. destruct (k <=? n); [reflexivity|ring]. }
  rewrite (bsum_ext Q _ (fun k => a k * dly y (S k) n + a k * dly y' (S k) n)%cr) by (intros; rewrite D; ring).
  rewrite (bsum_ext (S P) _ (fun k => b k * dly x k n + b' k * dly x k n)%cr) by (intros; ring).
  rewrite !bsum_add, <- H, <- H'. ring.
Qed.
Lemma solves_widen P P' Q (b a x y : nat -> R) n : P <= P' -> solves_filter P Q b a x y n -> (forall k, P < k <= P' -> b k = r0) -> solves_filter P' Q b a x y n.
Proof.
  unfold solves_filter. intros HP H Hb. rewrite H. symmetry. apply bsum_trunc; [lia|]. intros k Hk1 Hk2. rewrite Hb by lia. ring.
Qed.
(** Parallel: b1/a1 + b2/a2 = (b1 a2 + b2 a1)/(a1 a2). *)
Lemma solves_parallel P1 Q1 P2 Q2 (b1 a1 b2 a2 x y y' : nat -> R) P n : P1 + Q2 <= P -> P2 + Q1 <= P ->
  (forall m, m <= n -> solves_filter P1 Q1 b1 a1 x y m) -> (forall m, m <= n -> solves_filter P2 Q2 b2 a2 x y' m) ->
  solves_filter P (Q1 + Q2) (fun k => cross (S P1) Q2 b1 a2 k + cross (S P2) Q1 b2 a1 k)%cr
    (fun k => pmulc (S Q1) (S Q2) (with_one a1) (with_one a2) (S k)) x (fun n => y n + y' n)%cr n.
Proof.
  intros HP1 HP2 H1 H2. apply solves_add.
  - apply (solves_widen (P1 + Q2)); auto; [now apply solves_expand|]. intros k Hk. apply pmulc_out. lia.
  - apply (solves_widen (P2 + Q1)); auto; [|intros k Hk; apply pmulc_out; lia].
    pose proof (solves_expand P2 Q2 Q1 b2 a2 a1 x y' n H2) as S0. rewrite (Nat.add_comm Q1 Q2).
    eapply (solves_filter_ext R) with (5 := S0); auto. intros k Hk. unfold pmulc. rewrite bsum_swap. apply bsum_ext. intros i Hi. apply bsum_ext. intros j Hj.
    rewrite (Nat.add_comm j i). destruct (i + j =? S k); [ring|reflexivity].
Qed.
(** The reciprocal filter undoes the filter. *)
Lemma solves_inverse P Q (b a x y w : nat -> R) N : b 0 = r1 -> (forall n, n < N -> solves_filter P Q b a x y n) ->
  (forall n, n < N -> solves_filter Q P (with_one a) (fun k => b (S k)) y w n) -> forall n, n < N -> w n = x n.
Proof.
  intros Hb H1 H2.
  assert (Hm : forall k, monic1 (fun k => b (S k)) k = b k) by (intros [|k]; cbn [monic1]; congruence).
  apply (conv_monic_inj R P (fun k => b (S k))). intros n Hn.
  transitivity (conv Q (with_one a) y n); [apply solves_conv; auto|].
  transitivity (conv P b x n); [|apply conv_ext_at; auto]. pose proof (proj1 (solves_conv R P Q b a x y n) (H1 n Hn)) as G. rewrite <- G.
  apply conv_ext_at; auto.
Qed.
End Resp.
