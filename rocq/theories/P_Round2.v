(** Rounding errors of the compiled kernels. *)
From Coq Require Import List Arith Lia ZArith Bool Ring.
From Verif Require Import Scalar Ordered SpecRound Spec Tensor TensorLemmas Shapes Algebra M_Kernels P_Kernels P_KernelOps P_Scan P_Helion P_Round.
Import ListNotations.

Section S.
Variable F : ofield.
Add Ring Rr : (r_th F).
Variables (u : F) (fadd fmul fsub : F -> F -> F).
Hypothesis HR : rounds u fadd fmul fsub.
Notation Fl := (flops F fadd fmul fsub).
Notation bnd := (bnd F u).
Let Hu : ole 0%cr u = true := rd_u _ _ _ _ HR.
Let badd := bnd_add F u Hu fadd fmul fsub HR.
Let bmul := bnd_mul F u Hu fadd fmul fsub HR.
Let bmono := bnd_mono F u Hu.
Let bsums := bnd_sum F u Hu fadd fmul fsub HR.
Open Scope cr_scope.

(** Magnitudes: the exact recursion on absolute values. *)
Notation abs1 x := (fun k => oabs (x k)).
Notation abs2 x := (fun i k => oabs (x i k)).
Notation abs3 x := (fun n i k => oabs (x n i k)).

Lemma bnd_fma ka kh kx k a ea ma h eh mh x ex mx :
  bnd ka a ea ma -> bnd kh h eh mh -> bnd kx x ex mx -> (S (ka + kh) <= k)%nat -> (kx <= k)%nat ->
  bnd (S k) (fadd (fmul a h) x) (ea * eh + ex) (ma * mh + mx).
Proof. intros Ha Hh Hx H1 H2. apply badd; [apply (bmono (S (ka + kh))%nat)|apply (bmono kx)]; auto. Qed.
Lemma bnd_fma' ka kh kx k a ea ma h eh mh x ex mx :
  bnd ka a ea ma -> bnd kh h eh mh -> bnd kx x ex mx -> (S (ka + kh) <= k)%nat -> (kx <= k)%nat ->
  bnd (S k) (fadd x (fmul a h)) (ea * eh + ex) (ma * mh + mx).
Proof.
  intros Ha Hh Hx H1 H2. replace (ea * eh + ex) with (ex + ea * eh) by ring. replace (ma * mh + mx) with (mx + ma * mh) by ring.
  apply badd; [apply (bmono kx)|apply (bmono (S (ka + kh))%nat)]; auto.
Qed.

(** ** Scalar recursions *)
Lemma lin_rec_bnd w c (av ae am : nat -> F) hv he hm (xv xe xm : nat -> F) n : (1 <= w)%nat ->
  (forall k, (k < n)%nat -> bnd (w - 1) (av k) (ae k) (am k)) -> bnd c hv he hm ->
  (forall k, (k < n)%nat -> bnd (c + 2 * w - 2) (xv k) (xe k) (xm k)) ->
  bnd (c + 2 * w * n) (lin_rec (R := Fl) av hv xv n) (lin_rec ae he xe n) (lin_rec am hm xm n).
Proof.
  intros Hw Ha Hh Hx. induction n as [|n IH].
  - cbn [lin_rec]. now replace (c + 2 * w * 0)%nat with c by lia.
  - cbn [lin_rec]. replace (c + 2 * w * S n)%nat with (S (c + 2 * w * S n - 1)) by lia.
    eapply bnd_fma; [apply Ha; lia|apply IH; intros; [apply Ha|apply Hx]; lia|apply Hx; lia|lia|lia].
Qed.
Lemma klin_bnd (a h : F) (x : nat -> F) n :
  bnd (2 * n) (klin (R := Fl) a h x n) (lin_rec (fun _ => a) h x n) (lin_rec (fun _ => oabs a) (oabs h) (abs1 x) n).
Proof.
  induction n as [|n IH].
  - apply bnd_leaf.
  - cbn [klin lin_rec]. replace (2 * S n)%nat with (S (S (0 + 2 * n))) by lia.
    eapply bnd_fma'; [apply bnd_leaf|exact IH|apply bnd_leaf|lia|lia].
Qed.

(** Any parenthesisation of the first-order scan. *)
Definition bnd1 (l : nat) (p q r : F * F) : Prop :=
  bnd (l - 1) (fst p) (fst q) (fst r) /\ bnd (2 * (l - 1)) (snd p) (snd q) (snd r).
Lemma leaves_pos t : (1 <= leaves t)%nat.
Proof. induction t; cbn [leaves]; lia. Qed.
Lemma tev1_bnd t : forall f g m : nat -> F * F, (forall k, (k < leaves t)%nat -> bnd1 1 (f k) (g k) (m k)) ->
  bnd1 (leaves t) (tev (recur_binary_op (R := Fl)) t f) (tev (recur_binary_op (R := F)) t g) (tev (recur_binary_op (R := F)) t m).
Proof.
  induction t as [|l IHl r IHr]; intros f g m H; cbn [tev leaves] in *.
  - apply H. lia.
  - specialize (IHl f g m (fun k Hk => H k ltac:(lia))).
    specialize (IHr (fun k => f (leaves l + k)%nat) (fun k => g (leaves l + k)%nat) (fun k => m (leaves l + k)%nat)
                  (fun k Hk => H (leaves l + k)%nat ltac:(lia))).
    pose proof (leaves_pos l) as Pl. pose proof (leaves_pos r) as Pr. revert IHl IHr.
    generalize (tev (recur_binary_op (R := Fl)) l f) (tev (recur_binary_op (R := F)) l g) (tev (recur_binary_op (R := F)) l m)
      (tev (recur_binary_op (R := Fl)) r (fun k => f (leaves l + k)%nat))
      (tev (recur_binary_op (R := F)) r (fun k => g (leaves l + k)%nat))
      (tev (recur_binary_op (R := F)) r (fun k => m (leaves l + k)%nat)).
    intros [a1 a2] [b1 b2] [c1 c2] [a1' a2'] [b1' b2'] [c1' c2']. unfold bnd1. cbn [fst snd recur_binary_op].
    intros [H1 H2] [H1' H2']. split.
    + apply (bmono (S ((leaves l - 1) + (leaves r - 1)))%nat); [lia|]. now apply bmul.
    + replace (2 * (leaves l + leaves r - 1))%nat with (S (2 * (leaves l + leaves r - 1) - 1)) by lia.
      apply (bnd_fma (2 * (leaves l - 1)) (leaves r - 1) (2 * (leaves r - 1))); auto; lia.
Qed.
Lemma tev_lin (a z : F) (x : nat -> F) t n : leaves t = S n ->
  snd (tev (recur_binary_op (R := F)) t (fun k : nat => match k with O => (r0, z) | S k => (a, x k) end)) = lin_rec (fun _ => a) z x n.
Proof.
  intro Hl. change (snd ?p) with (v1 (R := F) p 0).
  rewrite (tev_state F (F * F) recur_binary_op 1 (@m1 F) (@v1 F) (op1_m F) (op1_v F) _ _ 0 n 0).
  - rewrite lin_rec_state. apply state_ext; auto.
  - exact Hl.
  - lia.
  - reflexivity.
Qed.
Lemma scan1_bnd (a z : F) (x : nat -> F) t n : leaves t = S n ->
  bnd (2 * n) (snd (tev (recur_binary_op (R := Fl)) t (fun k : nat => match k with O => (r0, z) | S k => (a, x k) end)))
    (lin_rec (fun _ => a) z x n) (lin_rec (fun _ => oabs a) (oabs z) (abs1 x) n).
Proof.
  intro Hl. rewrite <- (tev_lin a z x t n Hl), <- (tev_lin (oabs a) (oabs z) (abs1 x) t n Hl).
  replace (2 * n)%nat with (2 * (leaves t - 1))%nat by lia.
  apply (tev1_bnd t). intros k _. destruct k as [|k]; split; cbn [fst snd]; try apply bnd_leaf. apply bnd_0.
Qed.

(** ** Matrix recursions *)
Lemma kstate_bnd N (A : nat -> nat -> nat -> F) (h : nat -> F) (x : nat -> nat -> F) n : forall i, (i < N)%nat ->
  bnd ((N + 1) * n) (kstate (R := Fl) N A h x n i) (state N A h x n i) (state N (abs3 A) (abs1 h) (abs2 x) n i).
Proof.
  induction n as [|n IH]; intros i Hi.
  - rewrite Nat.mul_0_r. apply bnd_leaf.
  - cbn [kstate state]. unfold mvec.
    replace (bsum N (fun k => A n i k * state N A h x n k) + x n i) with (x n i + bsum N (fun k => A n i k * state N A h x n k)) by ring.
    match goal with |- bnd _ _ _ (?a + ?b) => replace (a + b) with (b + a) by ring end.
    replace ((N + 1) * S n)%nat with (S ((N + 1) * n + N)) by lia.
    apply badd; [apply (bmono 0%nat); [lia|apply bnd_leaf]|].
    apply (bmono (S (0 + (N + 1) * n) + (N - 1))%nat); [lia|]. apply bsums. intros j Hj.
    apply bmul; [apply bnd_leaf|]. now apply IH.
Qed.

(** Any parenthesisation of the second-order scan. *)
Definition bnd2 (l : nat) (p : sqm2 Fl) (q r : sqm2 F) : Prop :=
  (forall i j, (i < 2)%nat -> (j < 2)%nat -> bnd (2 * (l - 1)) (m2 (R := Fl) p i j) (m2 q i j) (m2 r i j)) /\
  (forall i, (i < 2)%nat -> bnd (3 * (l - 1)) (v2 (R := Fl) p i) (v2 q i) (v2 r i)).
Lemma op2_bnd l l' p q r p' q' r' : (1 <= l)%nat -> (1 <= l')%nat -> bnd2 l p q r -> bnd2 l' p' q' r' ->
  bnd2 (l + l') (recur2_binary_op (R := Fl) p p') (recur2_binary_op q q') (recur2_binary_op r r').
Proof.
  intros Hl Hl' [Hm Hv] [Hm' Hv'].
  assert (G : forall i j, (i < 2)%nat -> (j < 2)%nat ->
    bnd (2 * (l + l' - 1)) (fadd (fmul (m2 (R := Fl) p' i 0) (m2 (R := Fl) p 0 j)) (fmul (m2 (R := Fl) p' i 1) (m2 (R := Fl) p 1 j)))
      (m2 q' i 0 * m2 q 0 j + m2 q' i 1 * m2 q 1 j) (m2 r' i 0 * m2 r 0 j + m2 r' i 1 * m2 r 1 j)).
  { intros i j Hi Hj. apply (bmono (S (S (2 * (l' - 1) + 2 * (l - 1))))%nat); [lia|].
    apply badd; apply bmul; auto. }
  assert (Gv : forall i, (i < 2)%nat ->
    bnd (3 * (l + l' - 1)) (fadd (fadd (fmul (m2 (R := Fl) p' i 0) (v2 (R := Fl) p 0)) (fmul (m2 (R := Fl) p' i 1) (v2 (R := Fl) p 1))) (v2 (R := Fl) p' i))
      (m2 q' i 0 * v2 q 0 + m2 q' i 1 * v2 q 1 + v2 q' i) (m2 r' i 0 * v2 r 0 + m2 r' i 1 * v2 r 1 + v2 r' i)).
  { intros i Hi. replace (3 * (l + l' - 1))%nat with (S (S (3 * (l + l' - 1) - 2))) by lia.
    apply badd; [|apply (bmono (3 * (l' - 1))%nat); [lia|auto]].
    apply (bmono (S (S (2 * (l' - 1) + 3 * (l - 1))))%nat); [lia|]. apply badd; apply bmul; auto. }
  split.
  - intros i j Hi Hj. specialize (G i j Hi Hj). destruct p, q, r, p', q', r'.
    destruct i as [|[|i]]; try lia; destruct j as [|[|j]]; try lia; exact G.
  - intros i Hi. specialize (Gv i Hi). destruct p, q, r, p', q', r'.
    destruct i as [|[|i]]; try lia; exact Gv.
Qed.
Lemma tev2_bnd t : forall (f : nat -> sqm2 Fl) (g m : nat -> sqm2 F), (forall k, (k < leaves t)%nat -> bnd2 1 (f k) (g k) (m k)) ->
  bnd2 (leaves t) (tev recur2_binary_op t f) (tev recur2_binary_op t g) (tev recur2_binary_op t m).
Proof.
  induction t as [|l IHl r IHr]; intros f g m H; cbn [tev leaves] in *.
  - apply H. lia.
  - apply op2_bnd; [apply leaves_pos|apply leaves_pos| |].
    + apply IHl. intros k Hk. apply H. lia.
    + apply IHr. intros k Hk. apply H. lia.
Qed.
Lemma scan2_bnd t (A : nat -> nat -> nat -> F) (z : nat -> F) (x : nat -> nat -> F) n i : leaves t = S n -> (i < 2)%nat ->
  bnd (3 * n) (v2 (R := Fl) (tev (recur2_binary_op (R := Fl)) t (fun k => leaf2 (R := Fl) (match k with 0%nat => fun _ _ => r0 | S k => A k end)
                (match k with 0%nat => z | S k => x k end))) i)
    (state 2 A z x n i) (state 2 (abs3 A) (abs1 z) (abs2 x) n i).
Proof.
  intros Hl Hi.
  assert (E : forall (A : nat -> nat -> nat -> F) z x, v2 (R := F) (tev (recur2_binary_op (R := F)) t (fun k => leaf2 (R := F) (match k with 0%nat => fun _ _ => r0 | S k => A k end)
                (match k with 0%nat => z | S k => x k end))) i = state 2 A z x n i).
  { intros A' z' x'. rewrite (tev_state F (sqm2 F) recur2_binary_op 2 (@m2 F) (@v2 F) (op2_m F) (op2_v F) _ _ 0 n i).
    - apply state_ext; auto; intros; rewrite ?m2_leaf2, ?v2_leaf2; auto.
    - exact Hl.
    - exact Hi.
    - intros i' j' Hi' Hj'. rewrite m2_leaf2 by assumption. reflexivity. }
  rewrite <- (E A z x), <- (E (abs3 A) (abs1 z) (abs2 x)). replace (3 * n)%nat with (3 * (leaves t - 1))%nat by lia.
  apply tev2_bnd; [|exact Hi]. intros k _. split.
  - intros i' j' Hi' Hj'. rewrite !m2_leaf2 by assumption. destruct k; [apply bnd_0|apply bnd_leaf].
  - intros i' Hi'. rewrite !v2_leaf2 by assumption. destruct k; apply bnd_leaf.
Qed.

Lemma hstate_bnd N (A : nat -> nat -> nat -> F) (h : nat -> F) (x : nat -> nat -> F) n : forall i, (i < N)%nat ->
  bnd ((N + 1) * n) (hstate (R := Fl) N A h x n i) (state N A h x n i) (state N (abs3 A) (abs1 h) (abs2 x) n i).
Proof.
  induction n as [|n IH]; intros i Hi.
  - rewrite Nat.mul_0_r. apply bnd_leaf.
  - cbn [hstate state]. unfold mvec.
    assert (G : forall (p q : nat -> F) (r : F), bsum N (fun k => p k * q k) + r = r + bsum N (fun k => q k * p k)).
    { intros p q r. rewrite (bsum_ext N (fun k => q k * p k) (fun k => p k * q k)); [ring|]. intros k Hk. ring. }
    rewrite !G. replace ((N + 1) * S n)%nat with (S ((N + 1) * n + N)) by lia.
    apply badd; [apply (bmono 0%nat); [lia|apply bnd_leaf]|].
    apply (bmono (S ((N + 1) * n + 0) + (N - 1))%nat); [lia|]. apply bsums. intros j Hj.
    apply bmul; [now apply IH|apply bnd_leaf].
Qed.

(** ** A stable recursion: the error does not grow with time *)
Lemma stable_step (a v e xn M X D : F) :
  ole (oabs xn) X = true -> ole (oabs e) M = true -> ole (oabs (v - e)) D = true ->
  ole ((1 + u) * (1 + u) * oabs a * D + (((1 + u) * (1 + u) - 1) * (oabs a * M) + u * X)) D = true ->
  ole (oabs (fadd xn (fmul a v) - (a * e + xn))) D = true.
Proof.
  intros HX HM IH HK. pose proof (abs_0_le F a) as Ha.
  assert (Hv : ole (oabs v) (M + D) = true).
  { replace v with (e + (v - e)) by ring. eapply ole_trans; [apply abs_tri|]. now apply le_add. }
  assert (Hav : ole (oabs a * oabs v) (oabs a * (M + D)) = true) by now apply le_mul_l.
  assert (B : ole (oabs (fmul a v - a * v)) (u * (oabs a * (M + D))) = true).
  { eapply ole_trans; [apply (rd_mul _ _ _ _ HR)|]. apply le_mul_l; [exact Hu|]. now rewrite abs_mul. }
  assert (P : ole (oabs (fmul a v)) ((1 + u) * (oabs a * (M + D))) = true).
  { replace (fmul a v) with ((fmul a v - a * v) + a * v) by ring. eapply ole_trans; [apply abs_tri|].
    replace ((1 + u) * (oabs a * (M + D))) with (u * (oabs a * (M + D)) + oabs a * (M + D)) by ring.
    apply le_add; [exact B|now rewrite abs_mul]. }
  assert (A : ole (oabs (fadd (xn) (fmul a v) - (xn + fmul a v))) (u * (X + (1 + u) * (oabs a * (M + D)))) = true).
  { eapply ole_trans; [apply (rd_add _ _ _ _ HR)|]. apply le_mul_l; [exact Hu|]. eapply ole_trans; [apply abs_tri|]. now apply le_add. }
  assert (C : ole (oabs (a * (v - e))) (oabs a * D) = true) by (rewrite abs_mul; now apply le_mul_l).
  eapply ole_trans; [|exact HK].
  replace (fadd (xn) (fmul a v) - (a * e + xn))
    with ((fadd (xn) (fmul a v) - (xn + fmul a v)) + ((fmul a v - a * v) + a * (v - e))) by ring.
  eapply ole_trans; [apply abs_tri|]. 
  replace ((1 + u) * (1 + u) * oabs a * D + (((1 + u) * (1 + u) - 1) * (oabs a * M) + u * X))
    with (u * (X + (1 + u) * (oabs a * (M + D))) + (u * (oabs a * (M + D)) + oabs a * D)) by ring.
  apply le_add; [exact A|]. eapply ole_trans; [apply abs_tri|]. now apply le_add.
Qed.
Lemma klin_stable (a h : F) (x : nat -> F) (M X D : F) :
  ole 0 D = true -> (forall n, ole (oabs (x n)) X = true) -> (forall n, ole (oabs (lin_rec (fun _ => a) h x n)) M = true) ->
  ole ((1 + u) * (1 + u) * oabs a * D + (((1 + u) * (1 + u) - 1) * (oabs a * M) + u * X)) D = true ->
  forall n, ole (oabs ((klin (R := Fl) a h x n : F) - lin_rec (fun _ => a) h x n)) D = true.
Proof.
  intros HD HX HM HK. induction n as [|n IH].
  - cbn [klin lin_rec]. replace (h - h) with (0 : F) by ring. now rewrite abs_0.
  - cbn [klin lin_rec]. exact (stable_step a _ _ (x n) M X D (HX n) (HM n) IH HK).
Qed.
End S.
