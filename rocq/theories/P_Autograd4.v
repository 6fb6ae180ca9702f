(** The operators with their jvp rules compute the recurrences over dual numbers; inner
    products of dual tensors; exchanging the two infinitesimals of twice dual numbers. *)
From Coq Require Import List Arith Lia ZArith Bool.
From Verif Require Import Scalar Tensor TensorLemmas TensorOps TensorAlg TensorTac TensorList Spec Shapes Algebra
  M_Mat M_Kernels P_KernelOps P_Helion M_LtiSsm P_LtiSsm M_Ext M_LpvSsm P_LpvSsm M_Autograd SpecAutograd P_Autograd P_Autograd2
  M_Autograd2.
Import ListNotations.
Open Scope cr_scope.
Open Scope res_scope.

Section S.
Variable R : cring.
Add Ring Rr : (r_th R).
Notation ten := (tensor (car R)).
Notation D := (dual R).
Notation tenD := (tensor (car D)).

Lemma primal_matc B M (A : tenD) f : matc (R := D) B M A f -> matc B M (primal A) (fun b i j => fst (f b i j)).
Proof.
  intros [g [H1 H2] Hg|[H1 H2]].
  - apply matc_s with (g := fun i j => fst (g i j)); [split; [exact H1|intros; cbn; now rewrite H2]|intros; now rewrite Hg].
  - apply matc_b. split; [exact H1|intros; cbn; now rewrite H2].
Qed.
Lemma tangent_matc B M (A : tenD) f : matc (R := D) B M A f -> matc B M (tangent A) (fun b i j => snd (f b i j)).
Proof.
  intros [g [H1 H2] Hg|[H1 H2]].
  - apply matc_s with (g := fun i j => snd (g i j)); [split; [exact H1|intros; cbn; now rewrite H2]|intros; now rewrite Hg].
  - apply matc_b. split; [exact H1|intros; cbn; now rewrite H2].
Qed.
Lemma primal_matv B N M (A : tenD) f : matv (R := D) B N M A f -> matv B N M (primal A) (fun b n i j => fst (f b n i j)).
Proof.
  intros [g [H1 H2] Hg|[H1 H2]].
  - apply matv_s with (g := fun n i j => fst (g n i j)); [split; [exact H1|intros; cbn; now rewrite H2]|intros; now rewrite Hg].
  - apply matv_b. split; [exact H1|intros; cbn; now rewrite H2].
Qed.
Lemma tangent_matv B N M (A : tenD) f : matv (R := D) B N M A f -> matv B N M (tangent A) (fun b n i j => snd (f b n i j)).
Proof.
  intros [g [H1 H2] Hg|[H1 H2]].
  - apply matv_s with (g := fun n i j => snd (g n i j)); [split; [exact H1|intros; cbn; now rewrite H2]|intros; now rewrite Hg].
  - apply matv_b. split; [exact H1|intros; cbn; now rewrite H2].
Qed.
Lemma primal_coef B (a : tenD) f : coef (R := D) B a f -> coef B (primal a) (fun b => fst (f b)).
Proof.
  intros [v [H1 H2] Hg|g [H1 H2] Hg|[H1 H2]].
  - apply coef_0 with (v := fst v); [split; [exact H1|cbn; rewrite <- H2; reflexivity]|intros; now rewrite Hg].
  - apply coef_1 with (g := fun b => fst (g b)); [split; [exact H1|intros; cbn; now rewrite H2]|intros; now rewrite Hg].
  - apply coef_B. split; [exact H1|intros; cbn; now rewrite H2].
Qed.
Lemma tangent_coef B (a : tenD) f : coef (R := D) B a f -> coef B (tangent a) (fun b => snd (f b)).
Proof.
  intros [v [H1 H2] Hg|g [H1 H2] Hg|[H1 H2]].
  - apply coef_0 with (v := snd v); [split; [exact H1|cbn; rewrite <- H2; reflexivity]|intros; now rewrite Hg].
  - apply coef_1 with (g := fun b => snd (g b)); [split; [exact H1|intros; cbn; now rewrite H2]|intros; now rewrite Hg].
  - apply coef_B. split; [exact H1|intros; cbn; now rewrite H2].
Qed.
Lemma primal_is1 (t : tenD) B f : is1 t B f -> is1 (primal t) B (fun b => fst (f b)).
Proof. intros [H1 H2]. split; [exact H1|intros; cbn; now rewrite H2]. Qed.
Lemma tangent_is1 (t : tenD) B f : is1 t B f -> is1 (tangent t) B (fun b => snd (f b)).
Proof. intros [H1 H2]. split; [exact H1|intros; cbn; now rewrite H2]. Qed.
Lemma primal_is2 (t : tenD) B M f : is2 t B M f -> is2 (primal t) B M (fun b m => fst (f b m)).
Proof. intros [H1 H2]. split; [exact H1|intros; cbn; now rewrite H2]. Qed.
Lemma tangent_is2 (t : tenD) B M f : is2 t B M f -> is2 (tangent t) B M (fun b m => snd (f b m)).
Proof. intros [H1 H2]. split; [exact H1|intros; cbn; now rewrite H2]. Qed.
Lemma primal_is3 (t : tenD) B N M f : is3 t B N M f -> is3 (primal t) B N M (fun b n m => fst (f b n m)).
Proof. intros [H1 H2]. split; [exact H1|intros; cbn; now rewrite H2]. Qed.
Lemma tangent_is3 (t : tenD) B N M f : is3 t B N M f -> is3 (tangent t) B N M (fun b n m => snd (f b n m)).
Proof. intros [H1 H2]. split; [exact H1|intros; cbn; now rewrite H2]. Qed.

Lemma state_ext' (Q : cring) M (A A' : nat -> nat -> nat -> Q) h h' (u u' : nat -> nat -> Q) n m :
  (forall k i j, (k < n)%nat -> A k i j = A' k i j) -> (forall i, h i = h' i) -> (forall k i, (k < n)%nat -> u k i = u' k i) ->
  state M A h u n m = state M A' h' u' n m.
Proof.
  revert m. induction n as [|n IH]; intros m HA Hh Hu; cbn [state]; [apply Hh|].
  rewrite Hu by lia. f_equal. unfold mvec. apply bsum_ext. intros k _. rewrite HA by lia. f_equal.
  apply IH; [intros; apply HA; lia|exact Hh|intros; apply Hu; lia].
Qed.
Lemma dual_eta (p : D) : p = (fst p, snd p).
Proof. now destruct p. Qed.

(** ** The recurrences of the Functions with forward-mode tangents *)
Lemma runs_lti_jvp op B M : runs_lti R op B M -> runs_lti D (with_jvp op (lti_jvp op)) B M.
Proof.
  intros Hop N A zi x Af zf xf HA Hz Hx. unfold with_jvp.
  destruct (Hop N _ _ _ _ _ _ (primal_matc _ _ _ _ HA) (primal_is2 _ _ _ _ Hz) (primal_is3 _ _ _ _ _ Hx)) as (y & E & Hy).
  rewrite E. cbn [bind].
  destruct (lti_jvp_all R op B N M _ _ y (Some (tangent A)) (Some (tangent zi)) (Some (tangent x)) _ _ _ _ _ _ Hop
    (primal_matc _ _ _ _ HA) (primal_is2 _ _ _ _ Hz) Hy (tangent_matc _ _ _ _ HA) (tangent_is2 _ _ _ _ Hz) (tangent_is3 _ _ _ _ _ Hx))
    as (t & Et & Ht).
  rewrite Et. cbn [bind]. eexists. split; [reflexivity|].
  split; [exact (proj1 Hy)|]. intros b n m Hb Hn Hm. cbn [make_dual at_]. rewrite (proj2 Hy), (proj2 Ht) by assumption.
  rewrite <- (state_dual R M (fun _ i j => fst (Af b i j)) (fun _ i j => snd (Af b i j))) by exact Hm.
  apply (state_ext' D); intros; symmetry; apply dual_eta.
Qed.
Lemma runs_lpv_jvp op B M : runs_lpv R op B M -> runs_lpv D (with_jvp op (lpv_jvp op)) B M.
Proof.
  intros Hop N A zi x Af zf xf HA Hz Hx. unfold with_jvp.
  destruct (Hop N _ _ _ _ _ _ (primal_matv _ _ _ _ _ HA) (primal_is2 _ _ _ _ Hz) (primal_is3 _ _ _ _ _ Hx)) as (y & E & Hy).
  rewrite E. cbn [bind].
  destruct (lpv_jvp_all R op B N M _ _ y (Some (tangent A)) (Some (tangent zi)) (Some (tangent x)) _ _ _ _ _ _ Hop
    (primal_matv _ _ _ _ _ HA) (primal_is2 _ _ _ _ Hz) Hy (tangent_matv _ _ _ _ _ HA) (tangent_is2 _ _ _ _ Hz) (tangent_is3 _ _ _ _ _ Hx))
    as (t & Et & Ht).
  rewrite Et. cbn [bind]. eexists. split; [reflexivity|].
  split; [exact (proj1 Hy)|]. intros b n m Hb Hn Hm. cbn [make_dual at_]. rewrite (proj2 Hy), (proj2 Ht) by assumption.
  rewrite <- (state_dual R M (fun n i j => fst (Af b n i j)) (fun n i j => snd (Af b n i j))) by exact Hm.
  apply (state_ext' D); intros; symmetry; apply dual_eta.
Qed.
Lemma lin_ext' (Q : cring) (a a' : nat -> Q) h h' (u u' : nat -> Q) n :
  (forall k, a k = a' k) -> h = h' -> (forall k, u k = u' k) -> lin_rec a h u n = lin_rec a' h' u' n.
Proof. intros Ha Hh Hu. induction n as [|n IH]; cbn [lin_rec]; [exact Hh|]. now rewrite Ha, Hu, IH. Qed.
Lemma runs_sc_jvp op B : runs_sc R op B -> runs_sc D (with_jvp op (scalar_jvp op)) B.
Proof.
  intros Hop N a zi x af zf xf Ha Hz Hx. unfold with_jvp.
  destruct (Hop N _ _ _ _ _ _ (primal_coef _ _ _ Ha) (primal_is1 _ _ _ Hz) (primal_is2 _ _ _ _ Hx)) as (y & E & Hy).
  rewrite E. cbn [bind].
  destruct (scalar_jvp_all R op B N _ _ y (Some (tangent a)) (Some (tangent zi)) (Some (tangent x)) _ _ _ _ _ _ Hop
    (primal_coef _ _ _ Ha) (primal_is1 _ _ _ Hz) Hy (tangent_coef _ _ _ Ha) (tangent_is1 _ _ _ Hz) (tangent_is2 _ _ _ _ Hx))
    as (t & Et & Ht).
  rewrite Et. cbn [bind]. eexists. split; [reflexivity|].
  split; [exact (proj1 Hy)|]. intros b n Hb Hn. cbn [make_dual at_]. rewrite (proj2 Hy), (proj2 Ht) by assumption.
  rewrite <- (lin_dual R (fst (af b)) (snd (af b))).
  apply (lin_ext' D); intros; symmetry; apply dual_eta.
Qed.

(** ** Inner products of dual tensors *)
Lemma sumT_dual s (f g : list nat -> R) : sumT (R := D) s (fun i => (f i, g i)) = (sumT s f, sumT s g).
Proof.
  revert f g. induction s as [|n s IH]; intros f g; [reflexivity|]. cbn [sumT].
  rewrite (bsum_ext n _ (fun i => (sumT s (fun l => f (i :: l)), sumT s (fun l => g (i :: l))) : D)) by (intros; apply IH).
  apply bsum_dual.
Qed.
Lemma sumT_ext' (Q : cring) s (f g : list nat -> Q) : (forall i, f i = g i) -> sumT s f = sumT s g.
Proof. revert f g. induction s as [|n s IH]; intros f g H; cbn [sumT]; [apply H|]. apply bsum_ext. intros. apply IH. intros. apply H. Qed.
Lemma sumT_add s (f g : list nat -> R) : sumT s (fun i => f i + g i) = sumT s f + sumT s g.
Proof.
  revert f g. induction s as [|n s IH]; intros f g; cbn [sumT]; [reflexivity|]. rewrite <- bsum_add.
  apply bsum_ext. intros. apply IH.
Qed.
(** <g + eps dg, T> = <g, re T> + eps (<g, im T> + <dg, re T>). *)
Lemma tdot_dual (G T : tenD) : tdot (R := D) G T
  = (tdot (primal G) (primal T), tdot (primal G) (tangent T) + tdot (tangent G) (primal T)).
Proof.
  unfold tdot. cbn [primal tangent shape at_]. rewrite <- sumT_add, <- sumT_dual. reflexivity.
Qed.
Lemma odot_dual (G : tenD) (u : option ten) : odot (R := D) (Some G) (option_map (fun d => lift d None) u)
  = (odot (Some (primal G)) u, odot (Some (tangent G)) u).
Proof.
  destruct u as [u|]; [|reflexivity]. cbn [odot option_map]. rewrite tdot_dual. f_equal.
  assert (Z : tdot (primal G) (tangent (lift u None)) = 0).
  { unfold tdot. cbn [primal tangent lift shape at_ snd]. generalize (shape G). intro s. rewrite (sumT_ext' R s _ (fun _ => 0)) by (intros; ring).
    induction s as [|n s IH]; [reflexivity|]. cbn [sumT]. apply bsum_0. intros; exact IH. }
  rewrite Z. change (0 + tdot (tangent G) u = tdot (tangent G) u). ring.
Qed.

(** ** Exchanging the two infinitesimals *)
Notation DD := (dual D).
Definition swap (p : DD) : DD := ((fst (fst p), fst (snd p)), (snd (fst p), snd (snd p))).
Lemma swap_add (p q : DD) : swap (radd p q) = radd (swap p) (swap q).
Proof. destruct p as [[? ?] [? ?]], q as [[? ?] [? ?]]. reflexivity. Qed.
Lemma swap_mul (p q : DD) : swap (rmul p q) = rmul (swap p) (swap q).
Proof. destruct p as [[? ?] [? ?]], q as [[? ?] [? ?]]. unfold swap. cbn. f_equal; f_equal; ring. Qed.
Lemma swap_bsum n (f : nat -> DD) : swap (bsum n f) = bsum n (fun i => swap (f i)).
Proof. induction n as [|n IH]; [reflexivity|]. cbn [bsum]. now rewrite swap_add, IH. Qed.
Lemma swap_state M (A : nat -> nat -> nat -> DD) h u n m :
  swap (state M A h u n m) = state M (fun n i j => swap (A n i j)) (fun i => swap (h i)) (fun n i => swap (u n i)) n m.
Proof.
  revert m. induction n as [|n IH]; intro m; [reflexivity|]. cbn [state]. rewrite swap_add. f_equal.
  unfold mvec. rewrite swap_bsum. apply bsum_ext. intros k _. now rewrite swap_mul, IH.
Qed.
Lemma swap_lin (a : nat -> DD) h u n :
  swap (lin_rec a h u n) = lin_rec (fun n => swap (a n)) (swap h) (fun n => swap (u n)) n.
Proof. induction n as [|n IH]; [reflexivity|]. cbn [lin_rec]. now rewrite swap_add, swap_mul, IH. Qed.
Definition swapT (t : tensor (car DD)) : tensor (car DD) := mkT (shape t) (fun idx => swap (at_ t idx)).
(** t + eps1 v + eps2 u *)
Definition two (t : ten) (v u : option ten) : tensor (car DD) := lift (R := D) (lift t v) (option_map (fun d => lift d None) u).
Lemma two_swap t v u : two t u v = swapT (two t v u).
Proof. now destruct u, v. Qed.
Lemma like_two t v u : like t u -> like (R := D) (lift t v) (option_map (fun d => lift d None) u).
Proof. now destruct u. Qed.
Lemma swapT_matc B M t f : matc (R := DD) B M t f -> matc (R := DD) B M (swapT t) (fun b i j => swap (f b i j)).
Proof.
  intros [g [H1 H2] Hg|[H1 H2]].
  - apply matc_s with (g := fun i j => swap (g i j)); [split; [exact H1|intros; cbn; now rewrite H2]|intros; now rewrite Hg].
  - apply matc_b. split; [exact H1|intros; cbn; now rewrite H2].
Qed.
Lemma swapT_matv B N M t f : matv (R := DD) B N M t f -> matv (R := DD) B N M (swapT t) (fun b n i j => swap (f b n i j)).
Proof.
  intros [g [H1 H2] Hg|[H1 H2]].
  - apply matv_s with (g := fun n i j => swap (g n i j)); [split; [exact H1|intros; cbn; now rewrite H2]|intros; now rewrite Hg].
  - apply matv_b. split; [exact H1|intros; cbn; now rewrite H2].
Qed.
Lemma swapT_coef B t f : coef (R := DD) B t f -> coef (R := DD) B (swapT t) (fun b => swap (f b)).
Proof.
  intros [v [H1 H2] Hg|g [H1 H2] Hg|[H1 H2]].
  - apply coef_0 with (v := swap v); [split; [exact H1|cbn; rewrite <- H2; reflexivity]|intros; now rewrite Hg].
  - apply coef_1 with (g := fun b => swap (g b)); [split; [exact H1|intros; cbn; now rewrite H2]|intros; now rewrite Hg].
  - apply coef_B. split; [exact H1|intros; cbn; now rewrite H2].
Qed.
Lemma swapT_is1 t B f : is1 t B f -> is1 (swapT t) B (fun b => swap (f b)).
Proof. intros [H1 H2]. split; [exact H1|intros; cbn; now rewrite H2]. Qed.
Lemma swapT_is2 t B M f : is2 t B M f -> is2 (swapT t) B M (fun b m => swap (f b m)).
Proof. intros [H1 H2]. split; [exact H1|intros; cbn; now rewrite H2]. Qed.
Lemma swapT_is3 t B N M f : is3 t B N M f -> is3 (swapT t) B N M (fun b n m => swap (f b n m)).
Proof. intros [H1 H2]. split; [exact H1|intros; cbn; now rewrite H2]. Qed.

Lemma tangent_lift (g : ten) vg (T : ten) : like g vg -> tdot (tangent (lift g vg)) T = odot vg (Some T).
Proof.
  destruct vg as [v|]; cbn [like odot]; intro H; unfold tdot; cbn [tangent lift shape at_ snd].
  - now rewrite H.
  - generalize (shape g). intro s. rewrite (sumT_ext' R s _ (fun _ => 0)) by (intros; rewrite conj_0; ring).
    induction s as [|n s IH]; [reflexivity|]. cbn [sumT]. apply bsum_0. intros; exact IH.
Qed.
Lemma primal_lift (g : ten) vg (T : ten) : tdot (primal (lift g vg)) T = tdot g T.
Proof. reflexivity. Qed.
End S.
