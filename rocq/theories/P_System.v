(** Algebra of causal filters: composition, commutation, time shifts and the adjoint. *)
From Coq Require Import List Arith Lia ZArith Bool Ring.
From Verif Require Import Scalar Tensor TensorLemmas TensorTac Spec Shapes SpecFilter SpecPoly Algebra P_Filter P_LtiFilter P_Diag4.
Import ListNotations.

Section Series.
Variable R : cring.
Add Ring Rr : (r_th R).
Open Scope cr_scope.

Lemma conv_ext_at P (b b' x y : nat -> R) n : (forall k, (k <= P)%nat -> b k = b' k) ->
  (forall j, (j <= n)%nat -> x j = y j) -> conv P b x n = conv P b' y n.
Proof.
  intros Hb Hx. unfold conv. apply bsum_ext. intros k Hk. rewrite Hb by lia. f_equal. now apply dly_ext.
Qed.

(** ** Two filters commute *)
Lemma conv_comm P Q (b a x : nat -> R) n : conv P b (conv Q a x) n = conv Q a (conv P b x) n.
Proof.
  assert (H : forall P Q (b a : nat -> R), conv P b (conv Q a x) n
            = bsum (S P) (fun k => bsum (S Q) (fun j => b k * a j * dly x (j + k) n))).
  { intros P' Q' b' a'. unfold conv. apply bsum_ext. intros k Hk. rewrite dly_bsum, <- bsum_mul_l. apply bsum_ext. intros j Hj.
    rewrite dly_scale, dly_dly. ring. }
  rewrite !H, bsum_swap. apply bsum_ext. intros j Hj. apply bsum_ext. intros k Hk. rewrite (Nat.add_comm k j). ring.
Qed.

(** A monic filter is injective. *)
Lemma conv_monic_inj Q (a y y' : nat -> R) N :
  (forall n, (n < N)%nat -> conv Q (monic1 a) y n = conv Q (monic1 a) y' n) -> forall n, (n < N)%nat -> y n = y' n.
Proof.
  intro H. set (x := conv Q (monic1 a) y').
  assert (Hx : forall n, conv 0 (fun _ => 1) x n = x n).
  { intro n. unfold conv. cbn [bsum]. rewrite dly_0. ring. }
  apply (solves_filter_unique R 0 Q (fun _ => 1) a x); intros n Hn; apply solves_conv; rewrite Hx; [now apply H|reflexivity].
Qed.

(** ** Time shifts *)
Lemma solves_filter_dly P Q (b a x y : nat -> R) d n :
  (forall m, (m + d <= n)%nat -> solves_filter P Q b a x y m) -> solves_filter P Q b a (dly x d) (dly y d) n.
Proof.
  intro H. apply solves_conv. rewrite !conv_dly. unfold dly. destruct (d <=? n)%nat eqn:E; [|reflexivity]. b2p.
  apply solves_conv, H. lia.
Qed.

(** ** Cascade *)
Definition casc_b (P1 P2 : nat) (b1 b2 : nat -> R) : nat -> R := pmulc (S P1) (S P2) b1 b2.
Definition casc_a (Q1 Q2 : nat) (a1 a2 : nat -> R) (k : nat) : R := pmulc (S Q1) (S Q2) (monic1 a1) (monic1 a2) (S k).
Lemma pmulc_0 k l (f g : nat -> R) : pmulc (S k) (S l) f g 0 = f 0%nat * g 0%nat.
Proof.
  unfold pmulc. rewrite (bsum_one (S k) _ 0%nat) by (try lia; intros i Hi Hne; apply bsum_0; intros j Hj; now bfalse (i + j =? 0)%nat).
  rewrite (bsum_one (S l) _ 0%nat) by (try lia; intros j Hj Hne; now bfalse (0 + j =? 0)%nat). reflexivity.
Qed.
Lemma solves_cascade P1 Q1 P2 Q2 (b1 a1 b2 a2 x y w : nat -> R) n :
  (forall m, (m <= n)%nat -> solves_filter P1 Q1 b1 a1 x y m) -> (forall m, (m <= n)%nat -> solves_filter P2 Q2 b2 a2 y w m) ->
  solves_filter (P1 + P2) (Q1 + Q2) (casc_b P1 P2 b1 b2) (casc_a Q1 Q2 a1 a2) x w n.
Proof.
  intros H1 H2. apply solves_conv.
  transitivity (conv Q2 (monic1 a2) (conv Q1 (monic1 a1) w) n).
  { rewrite conv_conv. apply conv_ext_at; [|reflexivity]. intros [|k] Hk; [|reflexivity].
    rewrite pmulc_0. cbn [monic1]. ring. }
  rewrite conv_comm.
  rewrite (conv_ext R Q1 _ (conv Q2 (monic1 a2) w) (conv P2 b2 y)) by (intros; apply solves_conv; auto).
  rewrite conv_comm.
  rewrite (conv_ext R P2 _ (conv Q1 (monic1 a1) y) (conv P1 b1 x)) by (intros; apply solves_conv; auto).
  apply conv_conv.
Qed.

Lemma commute_filter P1 Q1 P2 Q2 (b1 a1 b2 a2 x u y u' y' : nat -> R) N :
  (forall n, (n < N)%nat -> solves_filter P1 Q1 b1 a1 x u n) -> (forall n, (n < N)%nat -> solves_filter P2 Q2 b2 a2 u y n) ->
  (forall n, (n < N)%nat -> solves_filter P2 Q2 b2 a2 x u' n) -> (forall n, (n < N)%nat -> solves_filter P1 Q1 b1 a1 u' y' n) ->
  forall n, (n < N)%nat -> y n = y' n.
Proof.
  intros H1 H2 H3 H4. apply (conv_monic_inj Q2 a2). apply (conv_monic_inj Q1 a1). intros n Hn.
  rewrite (conv_ext R Q1 _ (conv Q2 (monic1 a2) y) (conv P2 b2 u)) by (intros; apply solves_conv; apply H2; lia).
  rewrite (conv_comm Q1 P2), (conv_comm Q1 Q2).
  rewrite (conv_ext R P2 _ (conv Q1 (monic1 a1) u) (conv P1 b1 x)) by (intros; apply solves_conv; apply H1; lia).
  rewrite (conv_ext R Q2 _ (conv Q1 (monic1 a1) y') (conv P1 b1 u')) by (intros; apply solves_conv; apply H4; lia).
  rewrite (conv_comm Q2 P1).
  rewrite (conv_ext R P1 _ (conv Q2 (monic1 a2) u') (conv P2 b2 x)) by (intros; apply solves_conv; apply H3; lia).
  apply conv_comm.
Qed.

(** ** The convolution of two signals *)
Definition star (f x : nat -> R) (n : nat) : R := bsum (S n) (fun k => f k * x (n - k)%nat).
Lemma star_comm f x n : star f x n = star x f n.
Proof.
  unfold star. rewrite bsum_rev. apply bsum_ext. intros k Hk.
  replace (S n - 1 - k)%nat with (n - k)%nat by lia. replace (n - (n - k))%nat with k by lia. ring.
Qed.
Lemma star_ext f f' x x' n : (forall k, (k <= n)%nat -> f k = f' k) -> (forall k, (k <= n)%nat -> x k = x' k) -> star f x n = star f' x' n.
Proof. intros Hf Hx. unfold star. apply bsum_ext. intros k Hk. rewrite Hf, Hx by lia. reflexivity. Qed.
Lemma star_dly f x j n : dly (star f x) j n = star f (dly x j) n.
Proof.
  unfold dly at 1. destruct (j <=? n)%nat eqn:E; b2p.
  - unfold star. rewrite (bsum_trunc (S (n - j)) (S n)) by (try lia; intros i Hi1 Hi2; unfold dly; bfalse (j <=? n - i)%nat; ring).
    apply bsum_ext. intros k Hk. unfold dly. btrue (j <=? n - k)%nat. f_equal. f_equal. lia.
  - symmetry. apply bsum_0. intros k Hk. unfold dly. bfalse (j <=? n - k)%nat. ring.
Qed.
Lemma conv_star_r P (b f x : nat -> R) n : conv P b (star f x) n = star f (conv P b x) n.
Proof.
  unfold conv at 1. rewrite (bsum_ext (S P) _ (fun k => b k * star f (dly x k) n)) by (intros; now rewrite star_dly).
  unfold star, conv. rewrite (bsum_ext (S P) _ (fun k => bsum (S n) (fun i => b k * (f i * dly x k (n - i))))) by (intros; now rewrite <- bsum_mul_l).
  rewrite bsum_swap. apply bsum_ext. intros i Hi. rewrite <- bsum_mul_l. apply bsum_ext. intros k Hk. ring.
Qed.
Lemma conv_star_l P (b f x : nat -> R) n : conv P b (star f x) n = star (conv P b f) x n.
Proof.
  rewrite (conv_ext R P b (star f x) (star x f)) by (intros; apply star_comm). rewrite conv_star_r. apply star_comm.
Qed.
(** If both signals are filtered by the same filter, filtering commutes with convolution. *)
Lemma star_solves P Q (b a x y g w : nat -> R) N :
  (forall n, (n < N)%nat -> solves_filter P Q b a x y n) -> (forall n, (n < N)%nat -> solves_filter P Q b a g w n) ->
  forall n, (n < N)%nat -> star w x n = star g y n.
Proof.
  intros H1 H2. apply (conv_monic_inj Q a). intros n Hn.
  rewrite conv_star_l, conv_star_r.
  rewrite (star_ext (conv Q (monic1 a) w) (conv P b g) x x) by (try reflexivity; intros; apply solves_conv; apply H2; lia).
  rewrite (star_ext g g (conv Q (monic1 a) y) (conv P b x)) by (try reflexivity; intros; apply solves_conv; apply H1; lia).
  now rewrite <- conv_star_l, conv_star_r.
Qed.
Lemma solves_conj P Q (b a x y : nat -> R) n : solves_filter P Q b a x y n ->
  solves_filter P Q (fun k => conj (b k)) (fun k => conj (a k)) (fun k => conj (x k)) (fun k => conj (y k)) n.
Proof.
  unfold solves_filter. intro H. apply (f_equal conj) in H. rewrite conj_add, !bsum_conj in H.
  assert (D : forall (x : nat -> R) k, conj (dly x k n) = dly (fun m => conj (x m)) k n).
  { intros z k. unfold dly. destruct (k <=? n)%nat; [reflexivity|apply conj_0]. }
  rewrite (bsum_ext Q _ (fun k => conj (a k) * dly (fun m => conj (y m)) (S k) n)) in H by (intros; now rewrite conj_mul, D).
  rewrite H. apply bsum_ext. intros k Hk. now rewrite conj_mul, D.
Qed.
(** The adjoint of a filter is the filter with conjugated coefficients run backwards in time. *)
Lemma adjoint_filter P Q (b a x y g w : nat -> R) N :
  (forall n, (n < N)%nat -> solves_filter P Q b a x y n) ->
  (forall n, (n < N)%nat -> solves_filter P Q (fun k => conj (b k)) (fun k => conj (a k)) (fun n => g (N - 1 - n)%nat) w n) ->
  bsum N (fun n => conj (g n) * y n) = bsum N (fun n => conj (w (N - 1 - n)%nat) * x n).
Proof.
  destruct N as [|T]; [reflexivity|]. intros H1 H2.
  pose proof (star_solves P Q b a x y (fun n => conj (g (T - n)%nat)) (fun n => conj (w n)) (S T) H1) as H.
  rewrite bsum_rev. symmetry. rewrite bsum_rev. symmetry.
  transitivity (star (fun n => conj (g (T - n)%nat)) y T); [|transitivity (star (fun n => conj (w n)) x T)].
  - unfold star. apply bsum_ext. intros k Hk. replace (S T - 1 - k)%nat with (T - k)%nat by lia. reflexivity.
  - symmetry. apply H; [|lia]. intros n Hn. specialize (H2 n Hn). apply solves_conj in H2.
    eapply (solves_filter_ext R) with (5 := H2); intros; rewrite ?conj_conj; auto.
    replace (S T - 1 - k)%nat with (T - k)%nat by lia. reflexivity.
  - unfold star. apply bsum_ext. intros k Hk. replace (S T - 1 - k)%nat with (T - k)%nat by lia.
    replace (S T - 1 - (T - k))%nat with k by lia. reflexivity.
Qed.
Lemma pmulc_conj k l (f g : nat -> R) i : conj (pmulc k l f g i) = pmulc k l (fun n => conj (f n)) (fun n => conj (g n)) i.
Proof.
  unfold pmulc. rewrite bsum_conj. apply bsum_ext. intros j Hj. rewrite bsum_conj. apply bsum_ext. intros t Ht.
  destruct (j + t =? i)%nat; [apply conj_mul|apply conj_0].
Qed.
Lemma pmulc_ext k l (f f' g g' : nat -> R) i : (forall n, (n < k)%nat -> f n = f' n) -> (forall n, (n < l)%nat -> g n = g' n) ->
  pmulc k l f g i = pmulc k l f' g' i.
Proof. intros Hf Hg. unfold pmulc. apply bsum_ext. intros j Hj. apply bsum_ext. intros t Ht. now rewrite Hf, Hg. Qed.
End Series.
