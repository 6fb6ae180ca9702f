(** Shape-and-entries lemmas for the operations of [Tensor.v].

    [isPk t pre ... f] says: the shape of [t] is [pre] followed by k trailing
    dimensions, and its entries are given by [f].  With [pre = []] these are the
    views [isk] used in statements; with a general [pre] they express torch's
    [...] batch dimensions. *)
From Coq Require Import List Arith Lia ZArith Bool.
From Verif Require Import Scalar Tensor.
Import ListNotations.

(** * Lists *)
Definition vld (pre q : list nat) : Prop := Forall2 lt q pre.

Lemma vld_len pre q : vld pre q -> length q = length pre.
Proof. induction 1; cbn; congruence. Qed.

Lemma vld_nil : vld [] [].
Proof. constructor. Qed.
Lemma vld_1 n i : i < n -> vld [n] [i].
Proof. repeat constructor; auto. Qed.
Lemma vld_2 n m i j : i < n -> j < m -> vld [n; m] [i; j].
Proof. repeat constructor; auto. Qed.
Lemma vld_nil_inv q : vld [] q -> q = [].
Proof. intro H; inversion H; reflexivity. Qed.
Lemma vld_1_inv n q : vld [n] q -> exists i, q = [i] /\ i < n.
Proof. intro H; inversion H; subst. inversion H4; subst. eauto. Qed.
Lemma vld_2_inv n m q : vld [n; m] q -> exists i j, q = [i; j] /\ i < n /\ j < m.
Proof.
  intro H; inversion H; subst. inversion H4; subst. inversion H6; subst. eauto 6.
Qed.

Lemma upd_app q l d f : upd (length q + d) f (q ++ l) = q ++ upd d f l.
Proof. induction q as [|x q IH]; cbn; [reflexivity|]. now rewrite IH. Qed.
Lemma ins_app q l d v : ins (length q + d) v (q ++ l) = q ++ ins d v l.
Proof. induction q as [|x q IH]; cbn; [reflexivity|]. now rewrite IH. Qed.
Lemma del_app q l d : del (length q + d) (q ++ l) = q ++ del d l.
Proof. induction q as [|x q IH]; cbn; [reflexivity|]. now rewrite IH. Qed.
Lemma nth_app q l d (x : nat) : nth (length q + d) (q ++ l) x = nth d l x.
Proof. induction q as [|y q IH]; cbn; auto. Qed.
Lemma firstn_app' {A} (q l : list A) d : firstn (length q + d) (q ++ l) = q ++ firstn d l.
Proof. apply firstn_app_2. Qed.
Lemma skipn_app' {A} (q l : list A) d : skipn (length q + d) (q ++ l) = skipn d l.
Proof. induction q as [|y q IH]; cbn; auto. Qed.

Lemma list_eqb_refl l : list_eqb l l = true.
Proof. induction l as [|x l IH]; cbn; [reflexivity|]. now rewrite Nat.eqb_refl, IH. Qed.
Lemma list_eqb_eq a b : list_eqb a b = true <-> a = b.
Proof.
  revert b; induction a as [|x a IH]; intros [|y b]; cbn; split; intro H; try easy.
  - apply andb_prop in H. destruct H as [H1 H2]. apply Nat.eqb_eq in H1. apply IH in H2. congruence.
  - injection H as -> ->. rewrite Nat.eqb_refl. now apply IH.
Qed.

(** * Broadcasting *)
Lemma bdim_refl n : bdim n n = Some n.
Proof. unfold bdim. now rewrite Nat.eqb_refl. Qed.
Lemma bdim_1_l n : bdim 1 n = Some n.
Proof. unfold bdim. destruct (1 =? n) eqn:E; [apply Nat.eqb_eq in E; now subst|reflexivity]. Qed.
Lemma bdim_1_r n : bdim n 1 = Some n.
Proof. unfold bdim. destruct (n =? 1) eqn:E; reflexivity. Qed.
Lemma bi_lt d i : i < d -> bi d i = i.
Proof. unfold bi. destruct (d =? 1) eqn:E; [apply Nat.eqb_eq in E; lia|reflexivity]. Qed.
Lemma bi_1 i : bi 1 i = 0.
Proof. reflexivity. Qed.
Lemma bdim_lt_l a b c i : bdim a b = Some c -> i < c -> bi a i < a.
Proof.
  unfold bdim, bi. destruct (a =? b) eqn:E1; destruct (a =? 1) eqn:E2; destruct (b =? 1) eqn:E3;
    intros H Hi; rewrite ?Nat.eqb_eq, ?Nat.eqb_neq in *; try injection H as ->; try discriminate; lia.
Qed.
Lemma bdim_lt_r a b c i : bdim a b = Some c -> i < c -> bi b i < b.
Proof.
  unfold bdim, bi. destruct (a =? b) eqn:E1; destruct (a =? 1) eqn:E2; destruct (b =? 1) eqn:E3;
    intros H Hi; rewrite ?Nat.eqb_eq, ?Nat.eqb_neq in *; try injection H as ->; try discriminate; lia.
Qed.

Lemma bshape_rev_refl l : bshape_rev l l = Some l.
Proof. induction l as [|x l IH]; cbn; [reflexivity|]. now rewrite bdim_refl, IH. Qed.

Lemma bshape_rev_app a b c l :
  length a = length b -> bshape_rev a b = Some c -> bshape_rev (a ++ l) (b ++ l) = Some (c ++ l).
Proof.
  revert b c; induction a as [|x a IH]; intros [|y b] c Hl H; cbn in *; try discriminate.
  - injection H as <-. apply bshape_rev_refl.
  - destruct (bdim x y); [|discriminate].
    destruct (bshape_rev a b) eqn:E; [|discriminate]. injection H as <-.
    rewrite (IH b l0); auto.
Qed.

Lemma bshape_app pre a b c :
  length a = length b -> bshape a b = Some c -> bshape (pre ++ a) (pre ++ b) = Some (pre ++ c).
Proof.
  unfold bshape. intros Hl H. rewrite !rev_app_distr.
  destruct (bshape_rev (rev a) (rev b)) eqn:E; [|discriminate]. injection H as <-.
  erewrite bshape_rev_app; eauto; [|now rewrite !rev_length].
  rewrite rev_app_distr, rev_involutive. reflexivity.
Qed.

Lemma bshape_pre pre : bshape pre pre = Some pre.
Proof. unfold bshape. rewrite bshape_rev_refl, rev_involutive. reflexivity. Qed.

Lemma bixz_app a b i j : length a = length i -> bixz (a ++ b) (i ++ j) = bixz a i ++ bixz b j.
Proof.
  revert i; induction a as [|x a IH]; intros [|y i] H; cbn in *; try discriminate; [reflexivity|].
  now rewrite IH by lia.
Qed.
Lemma bixz_vld pre q : vld pre q -> bixz pre q = q.
Proof. induction 1; cbn; [reflexivity|]. rewrite IHForall2, bi_lt; auto. Qed.
Lemma bix_app pre q s i :
  vld pre q -> length s = length i -> bix (pre ++ s) (q ++ i) = q ++ bixz s i.
Proof.
  intros Hv Hl. unfold bix. rewrite !app_length, (vld_len _ _ Hv), Hl, Nat.sub_diag. cbn [skipn].
  rewrite bixz_app by (symmetry; now apply vld_len). now rewrite bixz_vld.
Qed.
Lemma bix_pre pre q : vld pre q -> bix pre q = q.
Proof.
  intro H. rewrite <- (app_nil_r pre), <- (app_nil_r q) at 1.
  rewrite bix_app by auto. cbn. apply app_nil_r.
Qed.

(** * Views with batch dimensions *)
Section Views.
Context {A : Type}.
Implicit Type t : tensor A.

Definition isP0 t pre (f : list nat -> A) : Prop :=
  shape t = pre /\ forall q, vld pre q -> at_ t q = f q.
Definition isP1 t pre n (f : list nat -> nat -> A) : Prop :=
  shape t = pre ++ [n] /\ forall q i, vld pre q -> i < n -> at_ t (q ++ [i]) = f q i.
Definition isP2 t pre n m (f : list nat -> nat -> nat -> A) : Prop :=
  shape t = pre ++ [n; m] /\
  forall q i j, vld pre q -> i < n -> j < m -> at_ t (q ++ [i; j]) = f q i j.
Definition isP3 t pre n m p (f : list nat -> nat -> nat -> nat -> A) : Prop :=
  shape t = pre ++ [n; m; p] /\
  forall q i j k, vld pre q -> i < n -> j < m -> k < p -> at_ t (q ++ [i; j; k]) = f q i j k.
Definition isP4 t pre n m p r (f : list nat -> nat -> nat -> nat -> nat -> A) : Prop :=
  shape t = pre ++ [n; m; p; r] /\
  forall q i j k l, vld pre q -> i < n -> j < m -> k < p -> l < r ->
    at_ t (q ++ [i; j; k; l]) = f q i j k l.

Definition isP5 t pre n m p r s (f : list nat -> nat -> nat -> nat -> nat -> nat -> A) : Prop :=
  shape t = pre ++ [n; m; p; r; s] /\
  forall q i j k l o, vld pre q -> i < n -> j < m -> k < p -> l < r -> o < s ->
    at_ t (q ++ [i; j; k; l; o]) = f q i j k l o.

Lemma isP0_ext t pre f g :
  isP0 t pre f -> (forall q, vld pre q -> f q = g q) -> isP0 t pre g.
Proof. intros [H1 H2] E. split; [exact H1|]. intros. rewrite H2 by auto. auto. Qed.
Lemma isP1_ext t pre n f g :
  isP1 t pre n f -> (forall q i, vld pre q -> i < n -> f q i = g q i) -> isP1 t pre n g.
Proof. intros [H1 H2] E. split; [exact H1|]. intros. rewrite H2 by auto. auto. Qed.
Lemma isP2_ext t pre n m f g :
  isP2 t pre n m f -> (forall q i j, vld pre q -> i < n -> j < m -> f q i j = g q i j) ->
  isP2 t pre n m g.
Proof. intros [H1 H2] E. split; [exact H1|]. intros. rewrite H2 by auto. auto. Qed.
Lemma isP3_ext t pre n m p f g :
  isP3 t pre n m p f ->
  (forall q i j k, vld pre q -> i < n -> j < m -> k < p -> f q i j k = g q i j k) ->
  isP3 t pre n m p g.
Proof. intros [H1 H2] E. split; [exact H1|]. intros. rewrite H2 by auto. auto. Qed.
Lemma isP4_ext t pre n m p r f g :
  isP4 t pre n m p r f ->
  (forall q i j k l, vld pre q -> i < n -> j < m -> k < p -> l < r -> f q i j k l = g q i j k l) ->
  isP4 t pre n m p r g.
Proof. intros [H1 H2] E. split; [exact H1|]. intros. rewrite H2 by auto. auto. Qed.

Lemma isP5_ext t pre n m p r s f g :
  isP5 t pre n m p r s f ->
  (forall q i j k l o, vld pre q -> i < n -> j < m -> k < p -> l < r -> o < s ->
     f q i j k l o = g q i j k l o) ->
  isP5 t pre n m p r s g.
Proof. intros [H1 H2] E. split; [exact H1|]. intros. rewrite H2 by auto. auto. Qed.

Lemma is1_ext t n f g : is1 t n f -> (forall i, i < n -> f i = g i) -> is1 t n g.
Proof. intros [H1 H2] E. split; [exact H1|]. intros. rewrite H2 by auto. auto. Qed.
Lemma is2_ext t n m f g : is2 t n m f -> (forall i j, i < n -> j < m -> f i j = g i j) -> is2 t n m g.
Proof. intros [H1 H2] E. split; [exact H1|]. intros. rewrite H2 by auto. auto. Qed.
Lemma is3_ext t n m p f g :
  is3 t n m p f -> (forall i j k, i < n -> j < m -> k < p -> f i j k = g i j k) -> is3 t n m p g.
Proof. intros [H1 H2] E. split; [exact H1|]. intros. rewrite H2 by auto. auto. Qed.
Lemma is4_ext t n m p r f g :
  is4 t n m p r f ->
  (forall i j k l, i < n -> j < m -> k < p -> l < r -> f i j k l = g i j k l) -> is4 t n m p r g.
Proof. intros [H1 H2] E. split; [exact H1|]. intros. rewrite H2 by auto. auto. Qed.

(** ** Conversions between prefixed and plain views. *)
Lemma is1_P t n f : is1 t n f <-> isP1 t [] n (fun _ => f).
Proof.
  split; intros [H1 H2]; split; auto.
  - intros q i Hq Hi. apply vld_nil_inv in Hq as ->. cbn. auto.
  - intros i Hi. apply (H2 []); auto using vld_nil.
Qed.
Lemma is2_P t n m f : is2 t n m f <-> isP2 t [] n m (fun _ => f).
Proof.
  split; intros [H1 H2]; split; auto.
  - intros q i j Hq Hi Hj. apply vld_nil_inv in Hq as ->. cbn. auto.
  - intros i j Hi Hj. apply (H2 []); auto using vld_nil.
Qed.
Lemma is3_P t n m p f : is3 t n m p f <-> isP3 t [] n m p (fun _ => f).
Proof.
  split; intros [H1 H2]; split; auto.
  - intros q i j k Hq Hi Hj Hk. apply vld_nil_inv in Hq as ->. cbn. auto.
  - intros i j k Hi Hj Hk. apply (H2 []); auto using vld_nil.
Qed.
Lemma is4_P t n m p r f : is4 t n m p r f <-> isP4 t [] n m p r (fun _ => f).
Proof.
  split; intros [H1 H2]; split; auto.
  - intros q i j k l Hq Hi Hj Hk Hl. apply vld_nil_inv in Hq as ->. cbn. auto.
  - intros i j k l Hi Hj Hk Hl. apply (H2 []); auto using vld_nil.
Qed.
Lemma is2_P1 t b n f : is2 t b n f <-> isP1 t [b] n (fun q i => f (nth 0 q 0) i).
Proof.
  split; intros [H1 H2]; split; auto.
  - intros q i Hq Hi. apply vld_1_inv in Hq as (x & -> & Hx). cbn. auto.
  - intros i j Hi Hj. apply (H2 [i]); auto using vld_1.
Qed.
Lemma is3_P2 t b n m f : is3 t b n m f <-> isP2 t [b] n m (fun q i j => f (nth 0 q 0) i j).
Proof.
  split; intros [H1 H2]; split; auto.
  - intros q i j Hq Hi Hj. apply vld_1_inv in Hq as (x & -> & Hx). cbn. auto.
  - intros i j k Hi Hj Hk. apply (H2 [i]); auto using vld_1.
Qed.
Lemma is4_P3 t b n m p f : is4 t b n m p f <-> isP3 t [b] n m p (fun q i j k => f (nth 0 q 0) i j k).
Proof.
  split; intros [H1 H2]; split; auto.
  - intros q i j k Hq Hi Hj Hk. apply vld_1_inv in Hq as (x & -> & Hx). cbn. auto.
  - intros i j k l Hi Hj Hk Hl. apply (H2 [i]); auto using vld_1.
Qed.
Lemma is5_P4 t b n m p r f :
  is5 t b n m p r f <-> isP4 t [b] n m p r (fun q i j k l => f (nth 0 q 0) i j k l).
Proof.
  split; intros [H1 H2]; split; auto.
  - intros q i j k l Hq Hi Hj Hk Hl. apply vld_1_inv in Hq as (x & -> & Hx). cbn. auto.
  - intros i j k l o Hi Hj Hk Hl Ho. apply (H2 [i]); auto using vld_1.
Qed.
End Views.

(** Boolean tests in hypotheses to arithmetic. *)
Ltac b2p :=
  repeat match goal with
  | H : (_ && _)%bool = true |- _ => apply andb_prop in H; destruct H
  | H : (_ && _)%bool = false |- _ => apply andb_false_iff in H
  | H : (_ || _)%bool = true |- _ => apply orb_true_iff in H
  | H : (_ || _)%bool = false |- _ => apply orb_false_iff in H; destruct H
  | H : (_ <=? _) = true |- _ => apply Nat.leb_le in H
  | H : (_ <=? _) = false |- _ => apply Nat.leb_gt in H
  | H : (_ <? _) = true |- _ => apply Nat.ltb_lt in H
  | H : (_ <? _) = false |- _ => apply Nat.ltb_ge in H
  | H : (_ =? _) = true |- _ => apply Nat.eqb_eq in H
  | H : (_ =? _) = false |- _ => apply Nat.eqb_neq in H
  | H : negb _ = true |- _ => apply negb_true_iff in H
  | H : negb _ = false |- _ => apply negb_false_iff in H
  end.
Ltac blia := b2p; lia.

(** Decide the tests that arithmetic settles. *)
Ltac btrue e := let H := fresh "Hb" in
  assert (H : e = true) by
    (first [apply Nat.eqb_eq | apply Nat.ltb_lt | apply Nat.leb_le]; lia);
  rewrite H; clear H.
Ltac bfalse e := let H := fresh "Hb" in
  assert (H : e = false) by
    (first [apply Nat.eqb_neq | apply Nat.ltb_ge | apply Nat.leb_gt]; lia);
  rewrite H; clear H.
Ltac bdec :=
  repeat match goal with
  | |- context [?a =? ?b] => first [btrue (a =? b) | bfalse (a =? b)]
  | |- context [?a <? ?b] => first [btrue (a <? b) | bfalse (a <? b)]
  | |- context [?a <=? ?b] => first [btrue (a <=? b) | bfalse (a <=? b)]
  end; cbn [andb orb negb].

Ltac unview :=
  repeat match goal with
  | H : isP0 _ _ _ |- _ => destruct H as [? ?]
  | H : isP1 _ _ _ _ |- _ => destruct H as [? ?]
  | H : isP2 _ _ _ _ _ |- _ => destruct H as [? ?]
  | H : isP3 _ _ _ _ _ _ |- _ => destruct H as [? ?]
  | H : isP4 _ _ _ _ _ _ _ |- _ => destruct H as [? ?]
  | H : isP5 _ _ _ _ _ _ _ _ |- _ => destruct H as [? ?]
  end.

Ltac tred := cbn [shape at_ rk size sizen upd ins del swapl nth firstn skipn length app prod ravel
  unravel list_eqb forallb bix bixz fst snd map cat_at cat_size bind].

(** Rewrite with the list lemmas, at prefix length [length pre] for shapes and
    [length q] for indices. *)
Ltac applen :=
  repeat first
  [ rewrite upd_app | rewrite ins_app | rewrite del_app | rewrite nth_app
  | rewrite firstn_app' | rewrite skipn_app' ].

Ltac rwshape := repeat match goal with H : shape _ = _ |- _ => rewrite !H; revert H end; intros.
