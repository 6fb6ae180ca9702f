(** Zero coefficients in the operation sequences of C75, C77 and C78. *)
From Coq Require Import List Arith Lia ZArith Bool.
From Verif Require Import Scalar Ordered Spec SpecRound SpecZero SpecFilter SpecBits3 Algebra Tensor TensorLemmas Shapes TensorOps TensorAlg TensorTac TensorList M_LtiFilter P_Filter P_Bits7
  Properties_Bits6 Properties_Bits7.
Import ListNotations.
Open Scope cr_scope.
Open Scope nat_scope.

Section S.
Variable F : ofield.
Add Ring Rz : (r_th F).
Variables (fadd fmul fsub : F -> F -> F).
Notation Fl := (flops F fadd fmul fsub).
Notation fh := (form_h F fadd fmul fsub).
Notation fy := (form_y F fadd fmul fsub).
Hypothesis HZ : zero_laws fadd fmul fsub.
Lemma z_add u : fadd u r0 = u. Proof. apply HZ. Qed.
Lemma z_l u : fmul r0 u = r0. Proof. apply HZ. Qed.
Lemma z_r u : fmul u r0 = r0. Proof. apply HZ. Qed.
Lemma z_sub : fsub r0 r0 = r0. Proof. apply HZ. Qed.
Lemma z_opp : ropp r0 = (r0 : F). Proof. ring. Qed.

Lemma sum_tail M M' (f g : nat -> F) : M <= M' -> (forall j, j < M -> f j = g j) -> (forall j, M <= j -> j < M' -> f j = r0) -> bsum (R := Fl) M' f = bsum (R := Fl) M g.
Proof.
  intros H Hf H0. induction H as [|M' H IH].
  - apply (bsum_ext (R := Fl)). exact Hf.
  - cbn [bsum]. change (radd ?u ?v) with (fadd u v). rewrite (H0 M' H (Nat.lt_succ_diag_r _)). etransitivity; [apply z_add|]. apply IH. intros. apply H0; lia.
Qed.
Lemma sum_zero M (f : nat -> F) : (forall j, j < M -> f j = r0) -> bsum (R := Fl) M f = r0.
Proof. intro H. exact (sum_tail 0 M f f (Nat.le_0_l _) (fun _ _ => eq_refl) (fun j _ Hj => H j Hj)). Qed.
Lemma sum_head d m (f g : nat -> F) : (forall j, j < d -> f j = r0) -> (forall j, j < m -> f (d + j) = g j) -> bsum (R := Fl) (d + m) f = bsum (R := Fl) m g.
Proof.
  intros H0 Hg. induction m as [|m IH]; [rewrite Nat.add_0_r; now apply sum_zero|].
  rewrite Nat.add_succ_r. cbn [bsum]. change (@radd Fl ?u ?v) with (fadd u v). rewrite Hg by lia. apply (f_equal2 fadd); [|reflexivity]. apply IH. intros. apply Hg. lia.
Qed.

(** ** The second direct forms *)
Section Forms.
Variables (M M' : nat) (b a : nat -> nat -> F) (x : nat -> F).
Hypotheses (HM : 1 <= M) (HMM : M <= M') (Hb : forall n k, M < k -> b n k = r0) (Ha : forall n k, M <= k -> a n k = r0).
Lemma diff_0 n m : M <= m -> fsub (b n (S m)) (fmul (b n 0) (a n m)) = r0.
Proof. intro H. rewrite Hb, Ha by lia. rewrite z_r. apply z_sub. Qed.
Lemma fh_grow fm (z z' : nat -> F) n : second_form fm -> (forall i, i < M -> z' i = z i) -> (fm = Tdf2 -> forall i, M <= i -> i < M' -> z' i = r0) ->
  (forall i, i < M -> fh fm M' b a z' x n i = fh fm M b a z x n i) /\ (fm = Tdf2 -> forall i, M <= i -> i < M' -> fh fm M' b a z' x n i = r0).
Proof.
  intros Hfm Hz Hz0. induction n as [|n [IH IH0]]; [now split|]. split.
  - intros i Hi. cbn [form_h]. apply (f_equal2 fadd); [reflexivity|]. apply sum_tail; [exact HMM| |].
    + intros j Hj. now rewrite IH.
    + intros j Hj Hj'. destruct Hfm as [-> | ->]; cbn [form_a].
      * bfalse (i =? S j). destruct (i =? 0); rewrite ?Ha, ?z_opp by lia; apply z_l.
      * destruct (j =? S i) eqn:E; b2p; [rewrite (IH0 eq_refl) by lia; apply z_r|]. bfalse (j =? 0). apply z_l.
  - intros -> i Hi Hi'. cbn [form_h form_u]. rewrite diff_0 by exact Hi. rewrite z_l.
    match goal with |- fadd _ ?s = _ => replace s with (r0 : F); [apply z_add|] end. symmetry. apply sum_zero. intros j Hj. cbn [form_a].
    destruct (j =? S i) eqn:E; b2p; [rewrite (IH0 eq_refl) by lia; apply z_r|]. destruct (j =? 0); rewrite ?Ha, ?z_opp by lia; apply z_l.
Qed.
Lemma fy_grow fm (z z' : nat -> F) n : second_form fm -> (forall i, i < M -> z' i = z i) -> (fm = Tdf2 -> forall i, M <= i -> i < M' -> z' i = r0) ->
  fy fm M' b a z' x n = fy fm M b a z x n.
Proof.
  intros Hfm Hz Hz0. destruct (fh_grow fm z z' n Hfm Hz Hz0) as [H _]. unfold form_y. apply (f_equal2 fadd); [|reflexivity].
  assert (D : bsum (R := Fl) M' (fun m => fmul (fsub (b n (S m)) (fmul (b n 0) (a n m))) (fh fm M' b a z' x n m))
    = bsum (R := Fl) M (fun m => fmul (fsub (b n (S m)) (fmul (b n 0) (a n m))) (fh fm M b a z x n m))).
  { apply sum_tail; [exact HMM| |].
    - intros j Hj. now rewrite H.
    - intros j Hj Hj'. rewrite diff_0 by exact Hj. apply z_l. }
  destruct Hfm as [-> | ->]; [exact D|]. apply H. lia.
Qed.
End Forms.

(** ** lpv.fir *)
Lemma fir_grow M M' (b b' : nat -> nat -> F) (x z z' : nat -> F) n : M <= M' -> (forall k, k <= M -> b' n k = b n k) -> (forall k, M < k -> k <= M' -> b' n k = r0) ->
  (forall i, i < M -> z' i = z i) -> fir_y F fadd fmul fsub M' b' x z' n = fir_y F fadd fmul fsub M b x z n.
Proof.
  intros HM Hb Hb0 Hz. unfold fir_y. replace (S M') with ((M' - M) + S M) by lia. apply sum_head.
  - intros j Hj. rewrite (Hb0 (M' - j)) by lia. apply z_r.
  - intros j Hj. replace (M' - (M' - M + j)) with (M - j) by lia. apply (f_equal2 fmul); [|apply Hb; lia].
    unfold window. destruct (n + j <? M) eqn:E; b2p.
    + btrue (n + (M' - M + j) <? M'). rewrite <- Hz by lia. f_equal. lia.
    + bfalse (n + (M' - M + j) <? M'). f_equal. lia.
Qed.

(** ** The torchlpc back-end *)
Lemma inner_grow P P' (a a' : nat -> nat -> F) (z z' x : nat -> F) K n : P <= P' -> P <= K -> (forall m j, m < n -> j < P -> a' m j = a m j) -> (forall m j, m < n -> P <= j -> j < P' -> a' m j = r0) ->
  (forall i, i < K -> z' i = z i) -> forall i, i < n + K -> inner F fadd fmul fsub P' a' z' x n i = inner F fadd fmul fsub P a z x n i.
Proof.
  intros HP HK Ha Ha0 Hz. induction n as [|n IH]; intros i Hi; [now apply Hz|]. cbn [inner]. destruct i as [|i].
  - apply (f_equal2 fsub); [reflexivity|]. apply sum_tail; [exact HP| |].
    + intros j Hj. rewrite Ha by lia. apply (f_equal2 fmul); [reflexivity|]. apply IH; [intros; apply Ha; lia|intros; apply Ha0; lia|lia].
    + intros j Hj Hj'. rewrite Ha0 by lia. apply z_l.
  - apply IH; [intros; apply Ha; lia|intros; apply Ha0; lia|lia].
Qed.
End S.
