(** Ordered fields: the scalars of philtorch/lti/interp.py, where values are compared. *)
From Coq Require Import List Arith Lia ZArith Bool QArith Qcanon.
From Verif Require Import Scalar.
Import ListNotations.
Open Scope cr_scope.

Record ofield : Type := mkOfield {
  ofld :> cfield;
  ole : ofld -> ofld -> bool;
  ole_anti : forall x y : ofld, ole x y = true -> ole y x = true -> x = y;
  ole_trans : forall x y z : ofld, ole x y = true -> ole y z = true -> ole x z = true;
  ole_total : forall x y : ofld, ole x y = true \/ ole y x = true;
  ole_add : forall x y z : ofld, ole x y = true -> ole (x + z) (y + z) = true;
  ole_mul : forall x y : ofld, ole 0 x = true -> ole 0 y = true -> ole 0 (x * y) = true
}.
Arguments ole {o}.
(** x < y *)
Definition olt {F : ofield} (x y : F) : bool := negb (ole y x).
(** torch.abs *)
Definition oabs {F : ofield} (x : F) : F := if ole 0 x then x else - x.

Section Facts.
Variable F : ofield.
Add Ring Rr : (r_th F).
Lemma ole_refl (x : F) : ole x x = true.
Proof. destruct (ole_total F x x); assumption. Qed.
Lemma ole_sub (x y : F) : ole x y = true <-> ole 0 (y - x) = true.
Proof.
  split; intro H.
  - apply (ole_add F _ _ (- x)) in H. replace (x + - x) with (0 : F) in H by ring. now replace (y - x) with (y + - x) by ring.
  - apply (ole_add F _ _ x) in H. replace (0 + x) with x in H by ring. now replace (y - x + x) with y in H by ring.
Qed.
Lemma ole_0_1 : ole (0 : F) 1 = true.
Proof.
  destruct (ole_total F 0 1) as [H|H]; [exact H|].
  apply ole_sub in H. pose proof (ole_mul F _ _ H H) as H2. now replace ((0 - 1) * (0 - 1)) with (1 : F) in H2 by ring.
Qed.
Lemma ole_0_add (x y : F) : ole 0 x = true -> ole 0 y = true -> ole 0 (x + y) = true.
Proof.
  intros Hx Hy. apply (ole_trans F _ y); [exact Hy|]. apply (ole_add F _ _ y) in Hx. now replace (0 + y) with y in Hx by ring.
Qed.
Lemma ole_0_nat n : ole (0 : F) (rnat n) = true.
Proof. induction n as [|n IH]; cbn [rnat]; [apply ole_refl|apply ole_0_add; [exact IH|apply ole_0_1]]. Qed.
Lemma rnat_add n m : rnat (n + m) = (rnat n + rnat m : F).
Proof. induction n as [|n IH]; cbn [rnat Nat.add]; [ring|rewrite IH; ring]. Qed.
Lemma rnat_mul n m : rnat (n * m) = (rnat n * rnat m : F).
Proof. induction n as [|n IH]; cbn [rnat Nat.mul]; [ring|rewrite rnat_add, IH; ring]. Qed.
Lemma rnat_neq0 n : (1 <= n)%nat -> (rnat n : F) <> 0.
Proof.
  intros Hn H. destruct n as [|n]; [lia|]. cbn [rnat] in H.
  apply (r1_neq_r0 F). apply (ole_anti F); [|apply ole_0_1].
  apply ole_sub. replace (0 - 1) with (rnat n : F); [apply ole_0_nat|].
  transitivity (rnat n + 1 - 1 : F); [ring|rewrite H; ring].
Qed.
Lemma rnat_le n m : (n <= m)%nat -> ole (rnat n : F) (rnat m) = true.
Proof.
  intro H. apply ole_sub. replace (rnat m - rnat n) with (rnat (m - n) : F); [apply ole_0_nat|].
  replace m with ((m - n) + n)%nat at 2 by lia. rewrite rnat_add. ring.
Qed.
Lemma rnat_le_iff n m : ole (rnat n : F) (rnat m) = (n <=? m)%nat.
Proof.
  destruct (Nat.leb_spec n m) as [H|H]; [now apply rnat_le|].
  destruct (ole (rnat n : F) (rnat m)) eqn:E; [|reflexivity]. exfalso.
  assert (Hz : (rnat n : F) = rnat m) by (apply (ole_anti F); [exact E|apply rnat_le; lia]).
  apply (rnat_neq0 (n - m)); [lia|]. transitivity (rnat n - rnat m : F); [|rewrite Hz; ring].
  replace n with ((n - m) + m)%nat at 2 by lia. rewrite rnat_add. ring.
Qed.
Lemma inv_pos (x : F) : ole 0 x = true -> x <> 0 -> ole 0 (rinv x) = true.
Proof.
  intros Hx Hn. destruct (ole_total F 0 (rinv x)) as [H|H]; [exact H|]. exfalso.
  apply ole_sub in H. pose proof (ole_mul F _ _ H Hx) as H2.
  replace ((0 - rinv x) * x) with (0 - rinv x * x) in H2 by ring. rewrite rinv_l in H2 by exact Hn.
  apply (r1_neq_r0 F). apply (ole_anti F); [apply ole_sub; exact H2|apply ole_0_1].
Qed.
(** Comparison of fractions with a common positive denominator. *)
Lemma frac_le (m : nat) (x y : F) : (1 <= m)%nat -> ole (x * rinv (rnat m)) (y * rinv (rnat m)) = ole x y.
Proof.
  intro Hm. pose proof (rnat_neq0 m Hm) as Hn. destruct (ole x y) eqn:E.
  - apply ole_sub. apply ole_sub in E. replace (y * rinv (rnat m) - x * rinv (rnat m)) with ((y - x) * rinv (rnat m)) by ring.
    apply ole_mul; [exact E|]. apply inv_pos; [apply ole_0_nat|exact Hn].
  - destruct (ole (x * rinv (rnat m)) (y * rinv (rnat m))) eqn:E'; [|reflexivity].
    apply ole_sub in E'. pose proof (ole_mul F _ _ E' (ole_0_nat m)) as H.
    replace ((y * rinv (rnat m) - x * rinv (rnat m)) * rnat m) with ((y - x) * (rinv (rnat m) * rnat m)) in H by ring.
    rewrite rinv_l in H by exact Hn. replace ((y - x) * 1) with (y - x) in H by ring. apply ole_sub in H. congruence.
Qed.
End Facts.

(** The rationals. *)
Definition Qofield : ofield.
Proof.
  refine (@mkOfield Qfield (fun x y : Qc => Qle_bool x y) _ _ _ _ _); intros x y.
  - intros H1 H2. apply Qle_bool_iff in H1, H2. apply Qcle_antisym; assumption.
  - intros z H1 H2. apply Qle_bool_iff in H1, H2. apply Qle_bool_iff. exact (Qcle_trans _ _ _ H1 H2).
  - destruct (Qclt_le_dec x y) as [H|H]; [left|right]; apply Qle_bool_iff; [now apply Qclt_le_weak|exact H].
  - intros z H. apply Qle_bool_iff in H. apply Qle_bool_iff. refine (Qcplus_le_compat x y z z H (Qcle_refl z)).
  - intros H1 H2. apply Qle_bool_iff in H1, H2. apply Qle_bool_iff.
    pose proof (Qcmult_le_compat_r 0 x y H1 H2) as H. change (r0 : Qfield) with (Q2Qc 0). change (x * y) with (Qcmult x y).
    rewrite Qcmult_0_l in H. exact H.
Defined.
