(** Rank/size facts of views, slice bounds, and the tactics used to run the model
    symbolically. *)
From Coq Require Import List Arith Lia ZArith Bool.
From Verif Require Import Scalar Tensor TensorLemmas TensorOps TensorAlg.
Import ListNotations.

Section Rk.
Context {A : Type}.
Implicit Type t : tensor A.
Lemma P0_rk t pre f : isP0 t pre f -> rk t = length pre.
Proof. intros [H _]. unfold rk. now rewrite H. Qed.
Lemma P1_rk t pre n f : isP1 t pre n f -> rk t = length pre + 1.
Proof. intros [H _]. unfold rk. now rewrite H, app_length. Qed.
Lemma P2_rk t pre n m f : isP2 t pre n m f -> rk t = length pre + 2.
Proof. intros [H _]. unfold rk. now rewrite H, app_length. Qed.
Lemma P3_rk t pre n m p f : isP3 t pre n m p f -> rk t = length pre + 3.
Proof. intros [H _]. unfold rk. now rewrite H, app_length. Qed.
Lemma P4_rk t pre n m p r f : isP4 t pre n m p r f -> rk t = length pre + 4.
Proof. intros [H _]. unfold rk. now rewrite H, app_length. Qed.
Lemma P5_rk t pre n m p r s f : isP5 t pre n m p r s f -> rk t = length pre + 5.
Proof. intros [H _]. unfold rk. now rewrite H, app_length. Qed.
Lemma i0_rk t v : is0 t v -> rk t = 0.
Proof. intros [H _]. unfold rk. now rewrite H. Qed.
Lemma i1_rk t n f : is1 t n f -> rk t = 1.
Proof. intros [H _]. unfold rk. now rewrite H. Qed.
Lemma i2_rk t n m f : is2 t n m f -> rk t = 2.
Proof. intros [H _]. unfold rk. now rewrite H. Qed.
Lemma i3_rk t n m p f : is3 t n m p f -> rk t = 3.
Proof. intros [H _]. unfold rk. now rewrite H. Qed.
Lemma i4_rk t n m p r f : is4 t n m p r f -> rk t = 4.
Proof. intros [H _]. unfold rk. now rewrite H. Qed.
End Rk.

(** Replace [rk t] using a view in the context. *)
Ltac rkt := repeat match goal with
  | H : isP0 ?t _ _ |- context [rk ?t] => rewrite (P0_rk _ _ _ H)
  | H : isP1 ?t _ _ _ |- context [rk ?t] => rewrite (P1_rk _ _ _ _ H)
  | H : isP2 ?t _ _ _ _ |- context [rk ?t] => rewrite (P2_rk _ _ _ _ _ H)
  | H : isP3 ?t _ _ _ _ _ |- context [rk ?t] => rewrite (P3_rk _ _ _ _ _ _ H)
  | H : isP4 ?t _ _ _ _ _ _ |- context [rk ?t] => rewrite (P4_rk _ _ _ _ _ _ _ H)
  | H : isP5 ?t _ _ _ _ _ _ _ |- context [rk ?t] => rewrite (P5_rk _ _ _ _ _ _ _ _ H)
  | H : is0 ?t _ |- context [rk ?t] => rewrite (i0_rk _ _ H)
  | H : is1 ?t _ _ |- context [rk ?t] => rewrite (i1_rk _ _ _ H)
  | H : is2 ?t _ _ _ |- context [rk ?t] => rewrite (i2_rk _ _ _ _ H)
  | H : is3 ?t _ _ _ _ |- context [rk ?t] => rewrite (i3_rk _ _ _ _ _ H)
  | H : is4 ?t _ _ _ _ _ |- context [rk ?t] => rewrite (i4_rk _ _ _ _ _ _ H)
  end.
(** Solve [d = length pre + k]. *)
Ltac dimt := rkt; cbn [length]; lia.

(** Sizes from views. *)
Ltac szt := repeat match goal with
  | H : isP0 ?t _ _ |- context [shape ?t] => rewrite (proj1 H)
  | H : isP1 ?t _ _ _ |- context [shape ?t] => rewrite (proj1 H)
  | H : isP2 ?t _ _ _ _ |- context [shape ?t] => rewrite (proj1 H)
  | H : isP3 ?t _ _ _ _ _ |- context [shape ?t] => rewrite (proj1 H)
  | H : isP4 ?t _ _ _ _ _ _ |- context [shape ?t] => rewrite (proj1 H)
  | H : is0 ?t _ |- context [shape ?t] => rewrite (proj1 H)
  | H : is1 ?t _ _ |- context [shape ?t] => rewrite (proj1 H)
  | H : is2 ?t _ _ _ |- context [shape ?t] => rewrite (proj1 H)
  | H : is3 ?t _ _ _ _ |- context [shape ?t] => rewrite (proj1 H)
  | H : is4 ?t _ _ _ _ _ |- context [shape ?t] => rewrite (proj1 H)
  end.

(** [nth] at a position expressed with the prefix length. *)
Lemma nth_pre (pre l : list nat) (d k : nat) x : d = length pre + k -> nth d (pre ++ l) x = nth k l x.
Proof. intros ->. apply nth_app. Qed.

(** ** Slice bounds *)
Lemma pyb_none n d : pybound n d None = d.
Proof. reflexivity. Qed.
Lemma pyb_neg n d k : 0 < k -> pybound n d (Some (- Z.of_nat k)%Z) = n - k.
Proof.
  intro H. unfold pybound. destruct (- Z.of_nat k <? 0)%Z eqn:E.
  - lia.
  - apply Z.ltb_ge in E. lia.
Qed.
Lemma pyb_pos n d k : pybound n d (Some (Z.of_nat k)) = Nat.min k n.
Proof.
  unfold pybound. destruct (Z.of_nat k <? 0)%Z eqn:E.
  - apply Z.ltb_lt in E. lia.
  - now rewrite Nat2Z.id.
Qed.
Ltac pyb := unfold pybound; repeat match goal with
  | |- context [(?a <? ?b)%Z] => let E := fresh in destruct (a <? b)%Z eqn:E;
      [apply Z.ltb_lt in E | apply Z.ltb_ge in E]
  end; lia.

Lemma pyidx_m1 n : 0 < n -> pyidx n (-1) = Some (n - 1).
Proof.
  intro H. unfold pyidx. cbn [Z.leb Z.compare].
  destruct (- Z.of_nat n <=? -1)%Z eqn:E; [f_equal; lia|]. apply Z.leb_gt in E. lia.
Qed.
Lemma pyidx_nat n k : k < n -> pyidx n (Z.of_nat k) = Some k.
Proof.
  intro H. unfold pyidx. destruct (0 <=? Z.of_nat k)%Z eqn:E1; [|apply Z.leb_gt in E1; lia].
  destruct (Z.of_nat k <? Z.of_nat n)%Z eqn:E2; [|apply Z.ltb_ge in E2; lia].
  now rewrite Nat2Z.id.
Qed.
Lemma pyidx_lt n i k : pyidx n i = Some k -> k < n.
Proof.
  unfold pyidx. destruct (0 <=? i)%Z eqn:E1.
  - destruct (i <? Z.of_nat n)%Z eqn:E2; [|discriminate]. intro H. injection H as <-.
    apply Z.leb_le in E1. apply Z.ltb_lt in E2. lia.
  - destruct (- Z.of_nat n <=? i)%Z eqn:E2; [|discriminate]. intro H. injection H as <-.
    apply Z.leb_gt in E1. apply Z.leb_le in E2. lia.
Qed.

(** Run one monadic step with an "exists y, op = Ok y /\ view" fact. *)
Tactic Notation "run" constr(L) "as" ident(y) ident(Hy) :=
  let E := fresh "E" in
  destruct L as (y & E & Hy); rewrite E; cbn [bind]; clear E.
Tactic Notation "erun" uconstr(L) "as" ident(y) ident(Hy) :=
  let E := fresh "E" in
  edestruct L as (y & E & Hy); [..| rewrite E; cbn [bind]; clear E].

(** ** Views with resized dimensions *)
Section Ext'.
Context {A : Type}.
Implicit Type t : tensor A.
Lemma isP0_ext' t pre   f g : isP0 t pre  f -> 
  (forall q , vld pre q -> f q  = g q ) -> isP0 t pre  g.
Proof. intros; subst; eapply isP0_ext; eauto. Qed.
Lemma isP1_ext' t pre n n' f g : isP1 t pre n f -> n = n' -> 
  (forall q i, vld pre q -> i < n' -> f q i = g q i) -> isP1 t pre n' g.
Proof. intros; subst; eapply isP1_ext; eauto. Qed.
Lemma isP2_ext' t pre n m n' m' f g : isP2 t pre n m f -> n = n' -> m = m' -> 
  (forall q i j, vld pre q -> i < n' -> j < m' -> f q i j = g q i j) -> isP2 t pre n' m' g.
Proof. intros; subst; eapply isP2_ext; eauto. Qed.
Lemma isP3_ext' t pre n m p n' m' p' f g : isP3 t pre n m p f -> n = n' -> m = m' -> p = p' -> 
  (forall q i j k, vld pre q -> i < n' -> j < m' -> k < p' -> f q i j k = g q i j k) -> isP3 t pre n' m' p' g.
Proof. intros; subst; eapply isP3_ext; eauto. Qed.
Lemma isP4_ext' t pre n m p r n' m' p' r' f g : isP4 t pre n m p r f -> n = n' -> m = m' -> p = p' -> r = r' -> 
  (forall q i j k l, vld pre q -> i < n' -> j < m' -> k < p' -> l < r' -> f q i j k l = g q i j k l) -> isP4 t pre n' m' p' r' g.
Proof. intros; subst; eapply isP4_ext; eauto. Qed.
End Ext'.

Ltac fin H := cbv beta in H;
  match goal with
  | |- isP0 _ _ _ => eapply isP0_ext'; [exact H | ..]
  | |- isP1 _ _ _ _ => eapply isP1_ext'; [exact H | ..]
  | |- isP2 _ _ _ _ _ => eapply isP2_ext'; [exact H | ..]
  | |- isP3 _ _ _ _ _ _ => eapply isP3_ext'; [exact H | ..]
  | |- isP4 _ _ _ _ _ _ _ => eapply isP4_ext'; [exact H | ..]
  end; cbv beta.


Lemma pyb_m1 n d : pybound n d (Some (-1)%Z) = n - 1.
Proof. unfold pybound. cbn. lia. Qed.
Lemma pyb_0 n d : pybound n d (Some 0%Z) = 0.
Proof. reflexivity. Qed.
Lemma pyb_1 n d : 1 <= n -> pybound n d (Some 1%Z) = 1.
Proof. unfold pybound. cbn. lia. Qed.
Lemma pyb_le n d k : k <= n -> pybound n d (Some (Z.of_nat k)) = k.
Proof. intro. rewrite pyb_pos. lia. Qed.
(** Solve [pybound .. = ?a] and [pybound .. - a = ?len]. *)
Ltac slt :=
  repeat first [ rewrite pyb_none | rewrite pyb_m1 | rewrite pyb_0 | rewrite pyb_1 by lia
               | rewrite pyb_neg by lia | rewrite pyb_le by lia | rewrite pyb_pos ];
  rewrite ?Nat.sub_succ, ?Nat.add_sub, ?Nat.sub_0_r; reflexivity.
Ltac bdt := first [ apply bdim_refl | apply bdim_1_l | apply bdim_1_r ].

Ltac vsolve := match goal with
  | |- isP1 (flip _ _) _ _ _ => first [eapply P1_flip0; [eassumption|dimt]]
  | |- isP1 (slice _ _ _ _) _ _ _ => first [eapply P1_slice0; [eassumption|dimt|slt|slt]]
  | |- isP1 (pad _ _ _ _ _) _ _ _ => first [eapply P1_pad0; [eassumption|dimt]]
  | |- isP1 (tmap _ _) _ _ _ => eapply P1_map; eassumption
  | |- isP1 (tneg _) _ _ _ => eapply P1_map; eassumption
  | |- isP1 (tconj _) _ _ _ => eapply P1_map; eassumption
  | |- isP1 (sel _ _ _) _ _ _ => first [eapply P2_sel0; [eassumption|dimt|lia] | eapply P2_sel1; [eassumption|dimt|lia]]
  | |- isP1 (flatten _ _ _) _ _ _ => first [eapply P2_flat0; [eassumption|dimt|dimt]]
  | |- isP1 (cumprod _ _) _ _ _ => eapply P1_cumprod; [eassumption|dimt]
  | |- isP2 (cumprod _ _) _ _ _ _ => eapply P2_cumprod1; [eassumption|dimt]
  | |- isP2 (flip _ _) _ _ _ _ => first [eapply P2_flip0; [eassumption|dimt] | eapply P2_flip1; [eassumption|dimt]]
  | |- isP2 (slice _ _ _ _) _ _ _ _ => first [eapply P2_slice0; [eassumption|dimt|slt|slt] | eapply P2_slice1; [eassumption|dimt|slt|slt]]
  | |- isP2 (pad _ _ _ _ _) _ _ _ _ => first [eapply P2_pad0; [eassumption|dimt] | eapply P2_pad1; [eassumption|dimt]]
  | |- isP2 (tmap _ _) _ _ _ _ => eapply P2_map; eassumption
  | |- isP2 (tneg _) _ _ _ _ => eapply P2_map; eassumption
  | |- isP2 (tconj _) _ _ _ _ => eapply P2_map; eassumption
  | |- isP2 (transpose _ _ _) _ _ _ _ => first [eapply P2_tr01; [eassumption|dimt|dimt]]
  | |- isP2 (mT _) _ _ _ _ => eapply P2_mT; eassumption
  | |- isP2 (unsqueeze _ _) _ _ _ _ => first [eapply P1_unsq0; [eassumption|dimt] | eapply P1_unsq1; [eassumption|dimt]]
  | |- isP2 (sel _ _ _) _ _ _ _ => first [eapply P3_sel0; [eassumption|dimt|lia] | eapply P3_sel1; [eassumption|dimt|lia] | eapply P3_sel2; [eassumption|dimt|lia]]
  | |- isP2 (flatten _ _ _) _ _ _ _ => first [eapply P3_flat0; [eassumption|dimt|dimt] | eapply P3_flat1; [eassumption|dimt|dimt]]
  | |- isP3 (flip _ _) _ _ _ _ _ => first [eapply P3_flip0; [eassumption|dimt] | eapply P3_flip1; [eassumption|dimt] | eapply P3_flip2; [eassumption|dimt]]
  | |- isP3 (slice _ _ _ _) _ _ _ _ _ => first [eapply P3_slice0; [eassumption|dimt|slt|slt] | eapply P3_slice1; [eassumption|dimt|slt|slt] | eapply P3_slice2; [eassumption|dimt|slt|slt]]
  | |- isP3 (pad _ _ _ _ _) _ _ _ _ _ => first [eapply P3_pad0; [eassumption|dimt] | eapply P3_pad1; [eassumption|dimt] | eapply P3_pad2; [eassumption|dimt]]
  | |- isP3 (tmap _ _) _ _ _ _ _ => eapply P3_map; eassumption
  | |- isP3 (tneg _) _ _ _ _ _ => eapply P3_map; eassumption
  | |- isP3 (tconj _) _ _ _ _ _ => eapply P3_map; eassumption
  | |- isP3 (transpose _ _ _) _ _ _ _ _ => first [eapply P3_tr01; [eassumption|dimt|dimt] | eapply P3_tr02; [eassumption|dimt|dimt] | eapply P3_tr12; [eassumption|dimt|dimt]]
  | |- isP3 (mT _) _ _ _ _ _ => eapply P3_mT; eassumption
  | |- isP3 (unsqueeze _ _) _ _ _ _ _ => first [eapply P2_unsq0; [eassumption|dimt] | eapply P2_unsq1; [eassumption|dimt] | eapply P2_unsq2; [eassumption|dimt]]
  | |- isP3 (sel _ _ _) _ _ _ _ _ => first [eapply P4_sel0; [eassumption|dimt|lia] | eapply P4_sel1; [eassumption|dimt|lia] | eapply P4_sel2; [eassumption|dimt|lia] | eapply P4_sel3; [eassumption|dimt|lia]]
  | |- isP3 (flatten _ _ _) _ _ _ _ _ => first [eapply P4_flat0; [eassumption|dimt|dimt] | eapply P4_flat1; [eassumption|dimt|dimt] | eapply P4_flat2; [eassumption|dimt|dimt]]
  | |- isP4 (flip _ _) _ _ _ _ _ _ => first [eapply P4_flip0; [eassumption|dimt] | eapply P4_flip1; [eassumption|dimt] | eapply P4_flip2; [eassumption|dimt] | eapply P4_flip3; [eassumption|dimt]]
  | |- isP4 (slice _ _ _ _) _ _ _ _ _ _ => first [eapply P4_slice0; [eassumption|dimt|slt|slt] | eapply P4_slice1; [eassumption|dimt|slt|slt] | eapply P4_slice2; [eassumption|dimt|slt|slt] | eapply P4_slice3; [eassumption|dimt|slt|slt]]
  | |- isP4 (pad _ _ _ _ _) _ _ _ _ _ _ => first [eapply P4_pad0; [eassumption|dimt] | eapply P4_pad1; [eassumption|dimt] | eapply P4_pad2; [eassumption|dimt] | eapply P4_pad3; [eassumption|dimt]]
  | |- isP4 (tmap _ _) _ _ _ _ _ _ => eapply P4_map; eassumption
  | |- isP4 (tneg _) _ _ _ _ _ _ => eapply P4_map; eassumption
  | |- isP4 (tconj _) _ _ _ _ _ _ => eapply P4_map; eassumption
  | |- isP4 (transpose _ _ _) _ _ _ _ _ _ => first [eapply P4_tr01; [eassumption|dimt|dimt] | eapply P4_tr02; [eassumption|dimt|dimt] | eapply P4_tr03; [eassumption|dimt|dimt] | eapply P4_tr12; [eassumption|dimt|dimt] | eapply P4_tr13; [eassumption|dimt|dimt] | eapply P4_tr23; [eassumption|dimt|dimt]]
  | |- isP4 (mT _) _ _ _ _ _ _ => eapply P4_mT; eassumption
  | |- isP4 (unsqueeze _ _) _ _ _ _ _ _ => first [eapply P3_unsq0; [eassumption|dimt] | eapply P3_unsq1; [eassumption|dimt] | eapply P3_unsq2; [eassumption|dimt] | eapply P3_unsq3; [eassumption|dimt]]
  | |- isP4 (sel _ _ _) _ _ _ _ _ _ => first [eapply P5_sel0; [eassumption|dimt|lia] | eapply P5_sel1; [eassumption|dimt|lia] | eapply P5_sel2; [eassumption|dimt|lia] | eapply P5_sel3; [eassumption|dimt|lia] | eapply P5_sel4; [eassumption|dimt|lia]]
  | |- isP4 (flatten _ _ _) _ _ _ _ _ _ => first [eapply P5_flat0; [eassumption|dimt|dimt] | eapply P5_flat1; [eassumption|dimt|dimt] | eapply P5_flat2; [eassumption|dimt|dimt] | eapply P5_flat3; [eassumption|dimt|dimt]]
  | |- isP5 (flip _ _) _ _ _ _ _ _ _ => first [eapply P5_flip0; [eassumption|dimt] | eapply P5_flip1; [eassumption|dimt] | eapply P5_flip2; [eassumption|dimt] | eapply P5_flip3; [eassumption|dimt] | eapply P5_flip4; [eassumption|dimt]]
  | |- isP5 (slice _ _ _ _) _ _ _ _ _ _ _ => first [eapply P5_slice0; [eassumption|dimt|slt|slt] | eapply P5_slice1; [eassumption|dimt|slt|slt] | eapply P5_slice2; [eassumption|dimt|slt|slt] | eapply P5_slice3; [eassumption|dimt|slt|slt] | eapply P5_slice4; [eassumption|dimt|slt|slt]]
  | |- isP5 (pad _ _ _ _ _) _ _ _ _ _ _ _ => first [eapply P5_pad0; [eassumption|dimt] | eapply P5_pad1; [eassumption|dimt] | eapply P5_pad2; [eassumption|dimt] | eapply P5_pad3; [eassumption|dimt] | eapply P5_pad4; [eassumption|dimt]]
  | |- isP5 (tmap _ _) _ _ _ _ _ _ _ => eapply P5_map; eassumption
  | |- isP5 (tneg _) _ _ _ _ _ _ _ => eapply P5_map; eassumption
  | |- isP5 (tconj _) _ _ _ _ _ _ _ => eapply P5_map; eassumption
  | |- isP5 (transpose _ _ _) _ _ _ _ _ _ _ => first [eapply P5_tr01; [eassumption|dimt|dimt] | eapply P5_tr02; [eassumption|dimt|dimt] | eapply P5_tr03; [eassumption|dimt|dimt] | eapply P5_tr04; [eassumption|dimt|dimt] | eapply P5_tr12; [eassumption|dimt|dimt] | eapply P5_tr13; [eassumption|dimt|dimt] | eapply P5_tr14; [eassumption|dimt|dimt] | eapply P5_tr23; [eassumption|dimt|dimt] | eapply P5_tr24; [eassumption|dimt|dimt] | eapply P5_tr34; [eassumption|dimt|dimt]]
  | |- isP5 (mT _) _ _ _ _ _ _ _ => eapply P5_mT; eassumption
  | |- isP5 (unsqueeze _ _) _ _ _ _ _ _ _ => first [eapply P4_unsq0; [eassumption|dimt] | eapply P4_unsq1; [eassumption|dimt] | eapply P4_unsq2; [eassumption|dimt] | eapply P4_unsq3; [eassumption|dimt] | eapply P4_unsq4; [eassumption|dimt]]
  end.

Ltac newview t := first
  [ eassert (isP2 t _ _ _ _) by vsolve | eassert (isP3 t _ _ _ _ _) by vsolve
  | eassert (isP1 t _ _ _) by vsolve
  | eassert (isP4 t _ _ _ _ _ _) by vsolve | eassert (isP5 t _ _ _ _ _ _ _) by vsolve ].
(** Name a pure operation on variables. *)
Ltac nm t := newview t;
  match goal with H : context [t] |- _ => cbv beta in H end;
  let y := fresh "v" in set (y := t) in *; clearbody y.
Ltac pstep := match goal with
  | |- context [flip ?d ?t] => is_var t; nm (flip d t)
  | |- context [slice ?d ?a ?b ?t] => is_var t; nm (slice d a b t)
  | |- context [pad ?d ?a ?b ?v ?t] => is_var t; nm (pad d a b v t)
  | |- context [tneg ?t] => is_var t; nm (tneg t)
  | |- context [tconj ?t] => is_var t; nm (tconj t)
  | |- context [transpose ?d ?e ?t] => is_var t; nm (transpose d e t)
  | |- context [mT ?t] => is_var t; nm (mT t)
  | |- context [unsqueeze ?d ?t] => is_var t; nm (unsqueeze d t)
  | |- context [sel ?d ?i ?t] => is_var t; nm (sel d i t)
  | |- context [flatten ?d ?e ?t] => is_var t; nm (flatten d e t)
  | |- context [cumprod ?d ?t] => is_var t; nm (cumprod d t)
  end.
(** Run a monadic operation on variables. *)
Ltac eat L := let y := fresh "w" in let E := fresh "E" in let H := fresh "H" in
  edestruct L as (y & E & H); [..| rewrite E; cbn [bind]; clear E; cbv beta in H].

Ltac cat2 := first [
eat P1_cat0; [eassumption|eassumption|dimt|] | eat P2_cat0; [eassumption|eassumption|dimt|] | eat P2_cat1; [eassumption|eassumption|dimt|] | eat P3_cat0; [eassumption|eassumption|dimt|] | eat P3_cat1; [eassumption|eassumption|dimt|] | eat P3_cat2; [eassumption|eassumption|dimt|] | eat P4_cat0; [eassumption|eassumption|dimt|] | eat P4_cat1; [eassumption|eassumption|dimt|] | eat P4_cat2; [eassumption|eassumption|dimt|] | eat P4_cat3; [eassumption|eassumption|dimt|]
 ].
Ltac unfold1 := first [
eat P1_unfold0; [eassumption|dimt|lia|] | eat P2_unfold0; [eassumption|dimt|lia|] | eat P2_unfold1; [eassumption|dimt|lia|] | eat P3_unfold0; [eassumption|dimt|lia|] | eat P3_unfold1; [eassumption|dimt|lia|] | eat P3_unfold2; [eassumption|dimt|lia|] | eat P4_unfold0; [eassumption|dimt|lia|] | eat P4_unfold1; [eassumption|dimt|lia|] | eat P4_unfold2; [eassumption|dimt|lia|] | eat P4_unfold3; [eassumption|dimt|lia|]
 ].
Ltac unflat2 := first [
eat P1_unflat0; [eassumption|dimt|nia|] | eat P2_unflat0; [eassumption|dimt|nia|] | eat P2_unflat1; [eassumption|dimt|nia|] | eat P3_unflat0; [eassumption|dimt|nia|] | eat P3_unflat1; [eassumption|dimt|nia|] | eat P3_unflat2; [eassumption|dimt|nia|] | eat P4_unflat0; [eassumption|dimt|nia|] | eat P4_unflat1; [eassumption|dimt|nia|] | eat P4_unflat2; [eassumption|dimt|nia|] | eat P4_unflat3; [eassumption|dimt|nia|]
 ].
Ltac ew2 := unfold tadd, tsub, tmul; first [
eat @P1_ew_same; [eassumption|eassumption|]
 | eat @P1_ewl_same; [eassumption|eassumption|]
 | eat @P1_ewr_same; [eassumption|eassumption|]
 | eat @P1_ews; [eassumption|eassumption|]
 | eat @P1_sew; [eassumption|eassumption|]
 | eat @P2_ew_same; [eassumption|eassumption|]
 | eat @P2_ewl_same; [eassumption|eassumption|]
 | eat @P2_ewr_same; [eassumption|eassumption|]
 | eat @P2_ews; [eassumption|eassumption|]
 | eat @P2_sew; [eassumption|eassumption|]
 | eat @P3_ew_same; [eassumption|eassumption|]
 | eat @P3_ewl_same; [eassumption|eassumption|]
 | eat @P3_ewr_same; [eassumption|eassumption|]
 | eat @P3_ews; [eassumption|eassumption|]
 | eat @P3_sew; [eassumption|eassumption|]
 | eat @P4_ew_same; [eassumption|eassumption|]
 | eat @P4_ewl_same; [eassumption|eassumption|]
 | eat @P4_ewr_same; [eassumption|eassumption|]
 | eat @P4_ews; [eassumption|eassumption|]
 | eat @P4_sew; [eassumption|eassumption|]
 | eat @P1_ew; [eassumption|eassumption|bdt|]
 | eat @P1_ewl; [eassumption|eassumption|bdt|]
 | eat @P1_ewr; [eassumption|eassumption|bdt|]
 | eat @P2_ew; [eassumption|eassumption|bdt|bdt|]
 | eat @P2_ewl; [eassumption|eassumption|bdt|bdt|]
 | eat @P2_ewr; [eassumption|eassumption|bdt|bdt|]
 | eat @P3_ew; [eassumption|eassumption|bdt|bdt|bdt|]
 | eat @P3_ewl; [eassumption|eassumption|bdt|bdt|bdt|]
 | eat @P3_ewr; [eassumption|eassumption|bdt|bdt|bdt|]
 | eat @P4_ew; [eassumption|eassumption|bdt|bdt|bdt|bdt|]
 | eat @P4_ewl; [eassumption|eassumption|bdt|bdt|bdt|bdt|]
 | eat @P4_ewr; [eassumption|eassumption|bdt|bdt|bdt|bdt|]
 ].
Ltac mm := first [
eat @mmv; [eassumption|eassumption|]
 | eat @mm2; [eassumption|eassumption|]
 | eat @mm2l; [eassumption|eassumption|]
 | eat @mm2r; [eassumption|eassumption|]
 | eat @mm3; [eassumption|eassumption|bdt|]
 | eat @mm3l; [eassumption|eassumption|bdt|]
 | eat @mm3r; [eassumption|eassumption|bdt|]
 | eat @mm4; [eassumption|eassumption|bdt|bdt|]
 | eat @mm4l; [eassumption|eassumption|bdt|bdt|]
 | eat @mm4r; [eassumption|eassumption|bdt|bdt|]
 ].
Ltac vdot := first [
eat @P2_vecdot; [eassumption|eassumption|bdt|]
 | eat @P2_vecdotl; [eassumption|eassumption|bdt|]
 | eat @P2_vecdotr; [eassumption|eassumption|bdt|]
 | eat @P3_vecdot; [eassumption|eassumption|bdt|bdt|]
 | eat @P3_vecdotl; [eassumption|eassumption|bdt|bdt|]
 | eat @P3_vecdotr; [eassumption|eassumption|bdt|bdt|]
 | eat @P4_vecdot; [eassumption|eassumption|bdt|bdt|bdt|]
 ].

Ltac mstep := match goal with
  | |- context [cat ?d [?t; ?u]] => is_var t; is_var u; cat2
  | |- context [unfold ?d ?s ?t] => is_var t; unfold1
  | |- context [unflatten ?d [?a; ?c] ?t] => is_var t; unflat2
  | |- context [matmul ?t ?u] => is_var t; is_var u; mm
  | |- context [vecdot ?t ?u] => is_var t; is_var u; vdot
  | |- context [tadd ?t ?u] => is_var t; is_var u; ew2
  | |- context [tsub ?t ?u] => is_var t; is_var u; ew2
  | |- context [tmul ?t ?u] => is_var t; is_var u; ew2
  end.
Ltac sx := repeat first [pstep | mstep].
