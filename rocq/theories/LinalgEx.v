(** Concrete scalars and a concrete [linalg] for the examples: the complex numbers over an
    ordered field, and a routine set that solves 1 x 1 systems and inverts 2 x 2 matrices. *)
From Coq Require Import List Arith Lia ZArith Bool Ring.
From Verif Require Import Scalar Ordered Tensor TensorLemmas TensorTac Spec M_Mat SpecDiag.
Import ListNotations.

Lemma firstn_pre {A} (a b : list A) : firstn (length a) (a ++ b) = a.
Proof. rewrite firstn_app, firstn_all, Nat.sub_diag. apply app_nil_r. Qed.

Section Ord.
Variable F : ofield.
Add Ring Rr : (r_th F).
Open Scope cr_scope.
Lemma sq_nonneg (x : F) : ole 0 (x * x) = true.
Proof.
  destruct (ole_total F 0 x) as [H|H]; [now apply ole_mul|].
  apply ole_sub in H. replace (x * x) with ((0 - x) * (0 - x)) by ring. now apply ole_mul.
Qed.
Lemma nonneg_sum0 (x y : F) : ole 0 x = true -> ole 0 y = true -> x + y = 0 -> x = 0 /\ y = 0.
Proof.
  intros Hx Hy H.
  assert (y = 0).
  { apply (ole_anti F); [|exact Hy]. apply ole_sub. now replace (0 - y) with x by (transitivity (x + y - y); [ring|rewrite H; ring]). }
  subst y. split; [|reflexivity]. rewrite <- H. ring.
Qed.
Lemma sq_0 (x : F) : x * x = 0 -> x = 0.
Proof.
  intro H. destruct (ole_total F 0 x) as [Hx|Hx].
  - destruct (ole x 0) eqn:E; [now apply (ole_anti F)|]. exfalso.
    assert (x <> 0) as Hn by (intros ->; now rewrite ole_refl in E). apply Hn.
    transitivity (rinv x * (x * x)); [|rewrite H; ring]. transitivity (rinv x * x * x); [|ring]. rewrite rinv_l by exact Hn. ring.
  - destruct (ole 0 x) eqn:E; [now apply (ole_anti F)|]. exfalso.
    assert (x <> 0) as Hn by (intros ->; now rewrite ole_refl in E). apply Hn.
    transitivity (rinv x * (x * x)); [|rewrite H; ring]. transitivity (rinv x * x * x); [|ring]. rewrite rinv_l by exact Hn. ring.
Qed.
Lemma bsum_nonneg n (f : nat -> F) : (forall k, (k < n)%nat -> ole 0 (f k) = true) -> ole 0 (bsum n f) = true.
Proof.
  induction n as [|n IH]; intro H; [apply ole_refl|]. rewrite bsum_S. apply ole_0_add; [apply IH|]; auto.
Qed.
Lemma bsum_nonneg0 n (f : nat -> F) : (forall k, (k < n)%nat -> ole 0 (f k) = true) -> bsum n f = 0 -> forall k, (k < n)%nat -> f k = 0.
Proof.
  induction n as [|n IH]; intros Hf H k Hk; [lia|]. rewrite bsum_S in H.
  apply nonneg_sum0 in H as [H1 H2]; [|apply bsum_nonneg; auto|auto].
  destruct (Nat.eq_dec k n) as [->|]; [exact H2|]. apply IH; auto. lia.
Qed.
Lemma real_definite : is_real F -> definite F.
Proof.
  intros Hr n v H k Hk. apply sq_0.
  apply (bsum_nonneg0 n (fun k => v k * v k)); auto using sq_nonneg.
  rewrite <- H. apply bsum_ext. intros j Hj. now rewrite Hr.
Qed.

Definition cinv (x : cplx F) : cplx F :=
  let d := fst x * fst x + snd x * snd x in (fst x * rinv d, - (snd x * rinv d)).
Definition cplxf : cfield.
Proof.
  refine (@mkCfield (cplx F) cinv _ _).
  - intros [x y] Hx. assert (Hd : x * x + y * y <> 0).
    { intro H. apply Hx. apply nonneg_sum0 in H as [H1 H2]; auto using sq_nonneg. now rewrite (sq_0 x), (sq_0 y). }
    pose proof (rinv_l _ Hd) as E. unfold cinv. cbn in *. f_equal.
    + transitivity (rinv (x * x + y * y) * (x * x + y * y)); [ring|exact E].
    + ring.
  - intro H. apply (r1_neq_r0 F). exact (f_equal fst H).
Defined.
Lemma fst_bsum n (f : nat -> cplx F) : fst (bsum n f) = bsum n (fun k => fst (f k)).
Proof. induction n as [|n IH]; [reflexivity|]. rewrite !bsum_S, <- IH. reflexivity. Qed.
Lemma cplx_definite : is_real F -> definite (cplx F).
Proof.
  intros Hr n v H k Hk. apply (f_equal fst) in H. rewrite fst_bsum in H.
  pose proof (fun Hnn => bsum_nonneg0 n (fun k => fst (conj (v k) * v k)) Hnn H k Hk) as E.
  assert (Ev : forall k, fst (conj (v k) * v k) = fst (v k) * fst (v k) + snd (v k) * snd (v k)).
  { intro j. destruct (v j) as [p q]. cbn. rewrite !Hr. ring. }
  cbv beta in E. rewrite Ev in E. destruct (v k) as [p q] eqn:Ek. cbn [fst snd] in E.
  destruct (nonneg_sum0 (p * p) (q * q)) as [H1 H2]; auto using sq_nonneg.
  - apply E. intros j Hj. rewrite Ev. apply ole_0_add; apply sq_nonneg.
  - now rewrite (sq_0 p), (sq_0 q).
Qed.
End Ord.

(** ** The routines *)
Fixpoint idxs (s : list nat) : list (list nat) :=
  match s with [] => [[]] | n :: s => flat_map (fun i => map (cons i) (idxs s)) (seq 0 n) end.
Lemma idxs_vld s q : In q (idxs s) <-> vld s q.
Proof.
  revert q. induction s as [|n s IH]; intro q; cbn [idxs].
  - split; [intros [<-|[]]; apply vld_nil|intro H; apply vld_nil_inv in H; now left].
  - rewrite in_flat_map. split.
    + intros (i & Hi & H). apply in_seq in Hi. apply in_map_iff in H as (t & <- & Ht). apply IH in Ht.
      constructor; [lia|exact Ht].
    + intro H. inversion H as [|i n' t s' Hi Ht]; subst. exists i. split; [apply in_seq; lia|].
      apply in_map. now apply IH.
Qed.

Section Routines.
Variable F : cfield.
Add Ring Rf : (r_th F).
Notation ten := (tensor (car F)).
Open Scope cr_scope.
Variable isz : F -> bool.
Hypothesis isz_spec : forall x, isz x = true <-> x = 0.
Variable eigs : ten -> res ten.

Definition pref (A : ten) : list nat := firstn (rk A - 2) (shape A).
Definition det2 (A : ten) (q : list nat) : F :=
  at_ A (q ++ [0; 0]%nat) * at_ A (q ++ [1; 1]%nat) - at_ A (q ++ [0; 1]%nat) * at_ A (q ++ [1; 0]%nat).
Definition solve1 (A B : ten) : res ten :=
  if (sizen A 1 =? 1)%nat && forallb (fun q => negb (isz (at_ A (q ++ [0; 0]%nat)))) (idxs (pref A))
  then Ok (mkT (shape B) (fun idx => rinv (at_ A (firstn (rk A - 2) idx ++ [0; 0]%nat)) * at_ B idx))
  else Err RuntimeError.
Definition inv2 (A : ten) : res ten :=
  if (sizen A 1 =? 2)%nat && forallb (fun q => negb (isz (det2 A q))) (idxs (pref A))
  then Ok (mkT (shape A) (fun idx =>
         let q := firstn (rk A - 2) idx in let i := nth (rk A - 2) idx 0%nat in let j := nth (rk A - 1) idx 0%nat in
         rinv (det2 A q) * (if (i =? j)%nat then at_ A (q ++ [1 - i; 1 - j]%nat) else - at_ A (q ++ [i; j]))))
  else Err RuntimeError.
(** The norm is replaced by an expression with the same zeros where it is used. *)
Definition la2 : linalg F :=
  mkLinalg F inv2 solve1 eigs (fun v n => if isz (bsum n (fun k => conj (v k) * v k)) then 1 else bsum n (fun k => conj (v k) * v k)).

Lemma isP2_pref (A : ten) pa n m f : isP2 A pa n m f -> pref A = pa /\ rk A = (length pa + 2)%nat /\ sizen A 1 = m.
Proof.
  intros [Hs _]. unfold pref, sizen, size, rk. rewrite Hs, app_length. cbn [length]. rewrite Nat.add_sub.
  split; [apply firstn_pre|]. split; [reflexivity|].
  replace (length pa + 2 - 1)%nat with (length pa + 1)%nat by lia. now rewrite app_nth2_plus.
Qed.
Lemma isz_false x : negb (isz x) = true -> x <> 0.
Proof. intros H E. apply isz_spec in E. now rewrite E in H. Qed.
Lemma isz_true x : x <> 0 -> negb (isz x) = true.
Proof. intro H. destruct (isz x) eqn:E; [|reflexivity]. now apply isz_spec in E. Qed.

Lemma la2_ok : definite F -> linalg_ok la2 2.
Proof.
  intro HD. split; [exact HD|]. split; [|split; [|split; [|split; [|split]]]].
  - intros pa n p A B X f g HA HB H. cbn in H. unfold solve1 in H.
    destruct (isP2_pref _ _ _ _ _ HA) as (E1 & E2 & E3). rewrite E1, E2, E3 in H.
    destruct (n =? 1)%nat eqn:En; [|discriminate]. cbn [andb] in H. apply Nat.eqb_eq in En. subst n.
    destruct (forallb _ _) eqn:Ef; [|discriminate]. injection H as <-. rewrite forallb_forall in Ef.
    exists (fun q i j => rinv (f q 0%nat 0%nat) * g q i j). split.
    + split; [exact (proj1 HB)|]. intros q i j Hq Hi Hj. cbn [at_]. rewrite (proj2 HB) by auto.
      replace (length pa + 2 - 2)%nat with (length pa) by lia. rewrite <- (vld_len _ _ Hq), firstn_pre.
      now rewrite (proj2 HA) by auto.
    + intros q i j Hq Hi Hj. unfold mmul. cbn [bsum]. replace i with 0%nat by lia.
      assert (Hn : f q 0%nat 0%nat <> 0).
      { rewrite <- (proj2 HA q 0%nat 0%nat) by auto. apply isz_false. apply Ef. now apply idxs_vld. }
      transitivity (rinv (f q 0%nat 0%nat) * f q 0%nat 0%nat * g q 0%nat j); [ring|]. rewrite rinv_l by exact Hn. ring.
  - intros pa p A B f g HA HB Hi. cbn [la2 l_solve]. unfold solve1. cbn [Nat.sub] in *.
    destruct (isP2_pref _ _ _ _ _ HA) as (-> & _ & ->). cbn [Nat.eqb andb].
    rewrite (proj2 (forallb_forall _ _)); [eexists; reflexivity|]. intros q Hq. apply idxs_vld in Hq. apply isz_true.
    rewrite (proj2 HA) by auto. intro E. apply (r1_neq_r0 F). apply (Hi q Hq (fun _ => 1)) with (k := 0%nat); [|lia].
    intros i Hi0. replace i with 0%nat by lia. unfold mvec. cbn [bsum]. rewrite E. ring.
  - intros pa n A X f HA H. cbn [la2 l_inv] in H. unfold inv2 in H.
    destruct (isP2_pref _ _ _ _ _ HA) as (E1 & E2 & E3). rewrite E1, E3 in H.
    destruct (n =? 2)%nat eqn:En; [|discriminate]. cbn [andb] in H. apply Nat.eqb_eq in En. subst n.
    destruct (forallb _ _) eqn:Ef; [|discriminate]. injection H as <-. rewrite forallb_forall in Ef.
    assert (Hdet : forall q, vld pa q -> det2 A q = f q 0%nat 0%nat * f q 1%nat 1%nat - f q 0%nat 1%nat * f q 1%nat 0%nat).
    { intros q Hq. unfold det2. now rewrite !(proj2 HA) by auto. }
    assert (Hd : forall q, vld pa q -> det2 A q <> 0).
    { intros q Hq. apply isz_false. apply Ef. now apply idxs_vld. }
    exists (fun q i j => rinv (det2 A q) * (if (i =? j)%nat then f q (1 - i)%nat (1 - j)%nat else - f q i j)). split.
    + split; [exact (proj1 HA)|]. intros q i j Hq Hi Hj. cbn [at_]. pose proof (vld_len _ _ Hq) as Hl.
      rewrite E2. replace (length pa + 2 - 2)%nat with (length q) by lia. replace (length pa + 2 - 1)%nat with (length q + 1)%nat by lia.
      assert (En0 : nth (length q) (q ++ [i; j]) 0%nat = i) by (rewrite <- (Nat.add_0_r (length q)) at 1; now rewrite app_nth2_plus).
      cbv zeta. rewrite firstn_pre, En0, !app_nth2_plus. cbn [nth].
      destruct (i =? j)%nat; rewrite (proj2 HA) by (assumption || (destruct i, j; lia)); reflexivity.
    + intros q i j Hq Hi Hj. specialize (Hd q Hq). pose proof (rinv_l _ Hd) as E. rewrite (Hdet q Hq) in E at 2.
      set (d := rinv (det2 A q)) in *. unfold mmul, mid. cbn [bsum].
      destruct i as [|[|]]; [| |lia]; (destruct j as [|[|]]; [| |lia]); cbn [Nat.eqb Nat.sub]; split;
        try (rewrite <- E); ring.
  - intros pa A f HA Hi. cbn [la2 l_inv]. unfold inv2.
    destruct (isP2_pref _ _ _ _ _ HA) as (-> & _ & ->). cbn [Nat.eqb andb].
    rewrite (proj2 (forallb_forall _ _)); [eexists; reflexivity|]. intros q Hq. apply idxs_vld in Hq. apply isz_true.
    unfold det2. rewrite !(proj2 HA) by auto. intro E.
    pose proof (Hi q Hq (fun k => match k with O => - f q 0%nat 1%nat | _ => f q 0%nat 0%nat end)) as H1.
    pose proof (Hi q Hq (fun k => match k with O => f q 1%nat 1%nat | _ => - f q 1%nat 0%nat end)) as H2.
    assert (Hz : forall k j, (k < 2)%nat -> (j < 2)%nat -> f q k j = 0).
    { assert (Ho : forall x : F, - x = 0 -> x = 0) by (intros x Hx; transitivity (- - x); [ring|rewrite Hx; ring]).
      assert (A1 : f q 0%nat 1%nat = 0 /\ f q 0%nat 0%nat = 0).
      { split; [apply Ho; apply (H1) with (k := 0%nat)|apply (H1) with (k := 1%nat)]; try lia;
          intros i Hi0; unfold mvec; cbn [bsum]; destruct i as [|[|]]; try lia; first [ring | etransitivity; [|exact E]; ring]. }
      assert (A2 : f q 1%nat 1%nat = 0 /\ f q 1%nat 0%nat = 0).
      { split; [apply (H2) with (k := 0%nat)|apply Ho; apply (H2) with (k := 1%nat)]; try lia;
          intros i Hi0; unfold mvec; cbn [bsum]; destruct i as [|[|]]; try lia; first [ring | etransitivity; [|exact E]; ring]. }
      intros k j Hk Hj. destruct k as [|[|]]; [| |lia]; (destruct j as [|[|]]; [| |lia]); tauto. }
    apply (r1_neq_r0 F). apply (Hi q Hq (fun _ => 1)) with (k := 0%nat); [|lia].
    intros i Hi0. unfold mvec. cbn [bsum]. rewrite !Hz by lia. ring.
  - intros n v w H. cbn [la2 l_norm].
    now rewrite (bsum_ext n (fun k => conj (v k) * v k) (fun k => conj (w k) * w k)) by (intros; now rewrite H).
  - intros n v Hn H0. cbn [la2 l_norm]. destruct (isz (bsum n _)) eqn:E; [exact (r1_neq_r0 F)|].
    intro E2. apply isz_spec in E2. congruence.
Qed.
End Routines.
Arguments la2 {F}. Arguments cplxf F : clear implicits.
