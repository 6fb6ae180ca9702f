(** Scalars: commutative rings with an involutive automorphism [conj].

    philtorch works on float32/float64/complex/int64 tensors.  The model replaces
    the element type by an arbitrary [cring]; every theorem quantifies over all of
    them.  Instances: [Zring] (exact integers, trivial conj), [cplx R] (complex
    numbers over R), [dual R] (dual numbers, used for derivatives), [Qfield]
    (rationals, a field), [W64] (64-bit wraparound integers). *)
From Coq Require Import List Arith Lia ZArith Ring Ring_theory Bool.
From Coq Require Import QArith.Qcanon.
Import ListNotations.

Declare Scope cr_scope.
Delimit Scope cr_scope with cr.

(** The operations alone.  The model (Tensor.v, M_*.v) is defined over these, so it can
    also be run with operations that obey no laws (floating point, [SpecRound.v]). *)
Record cops : Type := mkCops {
  car :> Type;
  r0 : car; r1 : car;
  radd : car -> car -> car;
  rmul : car -> car -> car;
  rsub : car -> car -> car;
  ropp : car -> car;
  conj : car -> car
}.
Arguments r0 {c}. Arguments r1 {c}.
Arguments radd {c}. Arguments rmul {c}. Arguments rsub {c}. Arguments ropp {c}.
Arguments conj {c}.

Record cring : Type := mkCring {
  r_ops :> cops;
  r_th : ring_theory r0 r1 radd rmul rsub ropp (@eq r_ops);
  conj_add : forall x y : r_ops, conj (radd x y) = radd (conj x) (conj y);
  conj_mul : forall x y : r_ops, conj (rmul x y) = rmul (conj x) (conj y);
  conj_conj : forall x : r_ops, conj (conj x) = x
}.
Arguments conj_add {c}. Arguments conj_mul {c}.
Arguments conj_conj {c}.

Notation "x + y" := (radd x y) : cr_scope.
Notation "x * y" := (rmul x y) : cr_scope.
Notation "x - y" := (rsub x y) : cr_scope.
Notation "- x" := (ropp x) : cr_scope.
Notation "0" := r0 : cr_scope.
Notation "1" := r1 : cr_scope.

(** A commutative ring in which [conj] is the identity: a "real" scalar type. *)
Definition is_real (R : cring) : Prop := forall x : R, conj x = x.

(** Fields.  [rinv] is only specified on non-zero arguments. *)
Record cfield : Type := mkCfield {
  fring :> cring;
  rinv : fring -> fring;
  rinv_l : forall x : fring, x <> r0 -> rmul (rinv x) x = r1;
  r1_neq_r0 : r1 <> (r0 : fring)
}.
Arguments rinv {c}. Arguments rinv_l {c}.

(** Finite sums [f 0 + ... + f (n-1)]. *)
Fixpoint bsum {R : cops} (n : nat) (f : nat -> R) : R :=
  match n with
  | O => r0
  | S k => radd (bsum k f) (f k)
  end.

(** Powers. *)
Fixpoint rpow {R : cops} (x : R) (n : nat) : R :=
  match n with O => r1 | S k => rmul x (rpow x k) end.

(** Image of a natural number. *)
Fixpoint rnat {R : cops} (n : nat) : R :=
  match n with O => r0 | S k => radd (rnat k) r1 end.

Lemma bsum_ext {R : cops} n (f g : nat -> R) :
  (forall i, (i < n)%nat -> f i = g i) -> bsum n f = bsum n g.
Proof.
  induction n as [|n IH]; intros H; cbn; [reflexivity|].
  rewrite IH by (intros; apply H; lia). now rewrite H by lia.
Qed.

Section SumLemmas.
Variable R : cring.
Add Ring Rring : (r_th R).
Open Scope cr_scope.

Lemma conj_0 : conj (0 : R) = 0.
Proof.
  pose proof (conj_add (0 : R) 0) as H.
  replace ((0:R) + 0) with (0:R) in H by ring.
  transitivity ((conj (0:R) + conj 0) - conj 0); [ring|].
  rewrite <- H. ring.
Qed.

Lemma conj_1 : conj (1 : R) = 1.
Proof.
  transitivity (conj (1:R) * conj (conj 1)).
  - rewrite conj_conj. ring.
  - rewrite <- conj_mul. replace ((1:R) * conj 1) with (conj (1:R)) by ring.
    apply conj_conj.
Qed.

Lemma conj_opp (x : R) : conj (- x) = - conj x.
Proof.
  transitivity ((conj x + conj (- x)) - conj x); [ring|].
  rewrite <- conj_add. replace (x + - x) with (0:R) by ring.
  rewrite conj_0. ring.
Qed.

Lemma conj_sub (x y : R) : conj (x - y) = conj x - conj y.
Proof.
  replace (x - y) with (x + - y) by ring.
  rewrite conj_add, conj_opp. ring.
Qed.

Lemma bsum_0 n (f : nat -> R) :
  (forall i, (i < n)%nat -> f i = 0) -> bsum n f = 0.
Proof.
  induction n as [|n IH]; intros H; cbn; [reflexivity|].
  rewrite IH by (intros; apply H; lia). rewrite H by lia. ring.
Qed.

Lemma bsum_add n (f g : nat -> R) :
  bsum n (fun i => f i + g i) = bsum n f + bsum n g.
Proof. induction n as [|n IH]; cbn; [ring|]. rewrite IH. ring. Qed.

Lemma bsum_sub n (f g : nat -> R) :
  bsum n (fun i => f i - g i) = bsum n f - bsum n g.
Proof. induction n as [|n IH]; cbn; [ring|]. rewrite IH. ring. Qed.

Lemma bsum_opp n (f : nat -> R) :
  bsum n (fun i => - f i) = - bsum n f.
Proof. induction n as [|n IH]; cbn; [ring|]. rewrite IH. ring. Qed.

Lemma bsum_mul_l n (c : R) (f : nat -> R) :
  bsum n (fun i => c * f i) = c * bsum n f.
Proof. induction n as [|n IH]; cbn; [ring|]. rewrite IH. ring. Qed.

Lemma bsum_mul_r n (c : R) (f : nat -> R) :
  bsum n (fun i => f i * c) = bsum n f * c.
Proof. induction n as [|n IH]; cbn; [ring|]. rewrite IH. ring. Qed.

Lemma bsum_conj n (f : nat -> R) :
  conj (bsum n f) = bsum n (fun i => conj (f i)).
Proof.
  induction n as [|n IH]; cbn; [apply conj_0|]. now rewrite conj_add, IH.
Qed.

Lemma bsum_S_l n (f : nat -> R) :
  bsum (S n) f = f 0%nat + bsum n (fun i => f (S i)).
Proof.
  induction n as [|n IH]; [cbn; ring|].
  change (bsum (S (S n)) f) with (bsum (S n) f + f (S n)).
  rewrite IH. cbn. ring.
Qed.

Lemma bsum_S n (f : nat -> R) : bsum (S n) f = bsum n f + f n.
Proof. reflexivity. Qed.

Lemma bsum_split n m (f : nat -> R) :
  bsum (n + m) f = bsum n f + bsum m (fun i => f (n + i)%nat).
Proof.
  induction m as [|m IH].
  - rewrite Nat.add_0_r. cbn. ring.
  - rewrite Nat.add_succ_r. cbn. rewrite IH. ring.
Qed.

Lemma bsum_swap n m (f : nat -> nat -> R) :
  bsum n (fun i => bsum m (fun j => f i j)) = bsum m (fun j => bsum n (fun i => f i j)).
Proof.
  induction n as [|n IH]; cbn.
  - symmetry. apply bsum_0. reflexivity.
  - rewrite IH. rewrite <- bsum_add. reflexivity.
Qed.

Lemma bsum_one n (f : nat -> R) k :
  (k < n)%nat -> (forall i, (i < n)%nat -> i <> k -> f i = 0) -> bsum n f = f k.
Proof.
  induction n as [|n IH]; intros Hk H; [lia|]. cbn.
  destruct (Nat.eq_dec k n) as [->|Hn].
  - rewrite bsum_0; [ring|]. intros i Hi. apply H; lia.
  - rewrite IH by (try lia; intros; apply H; lia).
    rewrite (H n) by lia. ring.
Qed.

Lemma bsum_rev n (f : nat -> R) :
  bsum n f = bsum n (fun i => f (n - 1 - i)%nat).
Proof.
  induction n as [|n IH]; [reflexivity|].
  rewrite bsum_S_l with (f := fun i => f (S n - 1 - i)%nat).
  cbn [bsum]. replace (S n - 1 - 0)%nat with n by lia.
  rewrite IH.
  rewrite (bsum_ext n (fun i => f (S n - 1 - S i)%nat) (fun i => f (n - 1 - i)%nat)).
  - ring.
  - intros i Hi. f_equal. lia.
Qed.

(** Sum over a flattened (row-major) pair of indices. *)
Lemma bsum_flat n m (f : nat -> R) :
  bsum (n * m) f = bsum n (fun i => bsum m (fun j => f (i * m + j)%nat)).
Proof.
  induction n as [|n IH]; [reflexivity|].
  cbn [bsum]. rewrite <- IH.
  replace (S n * m)%nat with (n * m + m)%nat by lia.
  apply bsum_split.
Qed.

Lemma bsum_flat_dm n m (f : nat -> nat -> R) :
  bsum (n * m) (fun k => f (k / m)%nat (k mod m)) = bsum n (fun i => bsum m (fun j => f i j)).
Proof.
  rewrite bsum_flat. apply bsum_ext. intros i Hi. apply bsum_ext. intros j Hj.
  f_equal.
  - rewrite Nat.add_comm, Nat.div_add by lia. rewrite Nat.div_small by lia. lia.
  - rewrite Nat.add_comm, Nat.mod_add by lia. apply Nat.mod_small. lia.
Qed.

(** Truncation: a sum whose tail vanishes. *)
Lemma bsum_trunc n m (f : nat -> R) :
  (n <= m)%nat -> (forall i, (n <= i)%nat -> (i < m)%nat -> f i = 0) -> bsum m f = bsum n f.
Proof.
  intros Hnm H. replace m with (n + (m - n))%nat by lia.
  rewrite bsum_split. rewrite (bsum_0 (m - n)); [ring|].
  intros i Hi. apply H; lia.
Qed.

Lemma rpow_add (x : R) n m : rpow x (n + m) = rpow x n * rpow x m.
Proof. induction n as [|n IH]; cbn; [ring|]. rewrite IH. ring. Qed.

Lemma rpow_S_r (x : R) n : rpow x (S n) = rpow x n * x.
Proof. cbn; ring. Qed.

Lemma rpow_mul (x : R) n m : rpow x (n * m) = rpow (rpow x n) m.
Proof.
  induction m as [|m IH]; [now rewrite Nat.mul_0_r|].
  rewrite Nat.mul_succ_r, rpow_add, IH. cbn. ring.
Qed.

Lemma rpow_conj (x : R) n : conj (rpow x n) = rpow (conj x) n.
Proof. induction n as [|n IH]; cbn; [apply conj_1|]. now rewrite conj_mul, IH. Qed.

End SumLemmas.

Arguments bsum_ext {R}. Arguments bsum_0 {R}. Arguments bsum_add {R}. Arguments bsum_sub {R}.
Arguments bsum_opp {R}. Arguments bsum_mul_l {R}. Arguments bsum_mul_r {R}.
Arguments bsum_conj {R}. Arguments bsum_S_l {R}. Arguments bsum_split {R}. Arguments bsum_S {R}.
Arguments bsum_swap {R}. Arguments bsum_one {R}. Arguments bsum_rev {R}.
Arguments bsum_flat {R}. Arguments bsum_flat_dm {R}. Arguments bsum_trunc {R}.
Arguments rpow_add {R}. Arguments rpow_mul {R}. Arguments rpow_S_r {R}.
Arguments conj_opp {R}. Arguments conj_sub {R}.
Arguments rpow_conj {R}.

(** * Instances *)

(** Exact integers. *)
Definition Zring : cring.
Proof.
  refine (@mkCring (@mkCops Z 0%Z 1%Z Z.add Z.mul Z.sub Z.opp (fun x => x)) _ _ _ _).
  - split; cbn [car r0 r1 radd rmul rsub ropp conj]; intros; ring.
  - reflexivity.
  - reflexivity.
  - reflexivity.
Defined.

Lemma Zring_real : is_real Zring.
Proof. intro; reflexivity. Qed.

Section Extensions.
Variable R : cring.
Add Ring Rr1 : (r_th R).

(** Complex numbers over R: pairs (re, im). *)
Definition cplx : cring.
Proof.
  refine (@mkCring (@mkCops (R * R)%type (r0, r0) (r1, r0)
    (fun x y => (radd (fst x) (fst y), radd (snd x) (snd y)))
    (fun x y => (rsub (rmul (fst x) (fst y)) (rmul (snd x) (snd y)),
                 radd (rmul (fst x) (snd y)) (rmul (snd x) (fst y))))
    (fun x y => (rsub (fst x) (fst y), rsub (snd x) (snd y)))
    (fun x => (ropp (fst x), ropp (snd x)))
    (fun x => (conj (fst x), ropp (conj (snd x))))) _ _ _ _).
  - split; cbn [car r0 r1 radd rmul rsub ropp conj]; intros; repeat match goal with x : (_ * _)%type |- _ => destruct x end;
      cbn; f_equal; ring.
  - intros [] []; cbn; rewrite ?conj_add; f_equal; ring.
  - intros [] []; cbn; rewrite ?conj_add, ?conj_sub, ?conj_mul; f_equal; ring.
  - intros []; cbn. rewrite conj_opp, !conj_conj. f_equal; ring.
Defined.


(** Dual numbers a + b eps with eps^2 = 0: the eps part of an evaluation is the
    directional derivative. *)
Definition dual : cring.
Proof.
  refine (@mkCring (@mkCops (R * R)%type (r0, r0) (r1, r0)
    (fun x y => (radd (fst x) (fst y), radd (snd x) (snd y)))
    (fun x y => (rmul (fst x) (fst y),
                 radd (rmul (fst x) (snd y)) (rmul (snd x) (fst y))))
    (fun x y => (rsub (fst x) (fst y), rsub (snd x) (snd y)))
    (fun x => (ropp (fst x), ropp (snd x)))
    (fun x => (conj (fst x), conj (snd x)))) _ _ _ _).
  - split; cbn [car r0 r1 radd rmul rsub ropp conj]; intros; repeat match goal with x : (_ * _)%type |- _ => destruct x end;
      cbn; f_equal; ring.
  - intros [] []; cbn; now rewrite !conj_add.
  - intros [] []; cbn; now rewrite ?conj_add, ?conj_mul.
  - intros []; cbn. now rewrite !conj_conj.
Defined.

End Extensions.

(** Gaussian integers: the exact complex scalars used in counterexamples. *)
Definition Gauss : cring := cplx Zring.

(** Rationals (canonical, Leibniz equality): a field. *)
Definition Qring : cring.
Proof.
  refine (@mkCring (@mkCops Qc (Q2Qc 0) (Q2Qc 1) Qcplus Qcmult Qcminus Qcopp (fun x => x)) _ _ _ _).
  - exact Qcrt.
  - reflexivity.
  - reflexivity.
  - reflexivity.
Defined.

Definition Qfield : cfield.
Proof.
  refine (@mkCfield Qring Qcinv _ _).
  - intros x Hx. cbn in *. apply Qcmult_inv_l. exact Hx.
  - cbn. discriminate.
Defined.

(** 64-bit wraparound integers (torch.int64 arithmetic), as residues in [0, 2^64). *)
Definition w64_ok (z : Z) : bool := (Z.leb 0 z && Z.ltb z (2 ^ 64))%bool.
Definition w64 : Type := { z : Z | w64_ok z = true }.
Lemma w64_eq (x y : w64) : proj1_sig x = proj1_sig y -> x = y.
Proof.
  destruct x as [x Hx], y as [y Hy]; cbn. intros ->.
  f_equal. apply Eqdep_dec.UIP_dec. apply bool_dec.
Qed.
Lemma w64_wrap_ok (z : Z) : w64_ok (z mod 2 ^ 64) = true.
Proof.
  unfold w64_ok. pose proof (Z.mod_pos_bound z (2 ^ 64) ltac:(lia)).
  apply andb_true_intro. split; [apply Z.leb_le | apply Z.ltb_lt]; lia.
Qed.
Definition wrap (z : Z) : w64 := exist _ (z mod 2 ^ 64)%Z (w64_wrap_ok z).
Lemma w64_small (x : w64) : (proj1_sig x mod 2 ^ 64 = proj1_sig x)%Z.
Proof.
  destruct x as [x Hx]; cbn -[Z.pow]. unfold w64_ok in Hx.
  apply andb_prop in Hx. destruct Hx as [H1 H2].
  apply Z.leb_le in H1. apply Z.ltb_lt in H2. apply Z.mod_small. lia.
Qed.

Definition W64 : cring.
Proof.
  refine (@mkCring (@mkCops w64 (wrap 0) (wrap 1)
    (fun x y => wrap (proj1_sig x + proj1_sig y))
    (fun x y => wrap (proj1_sig x * proj1_sig y))
    (fun x y => wrap (proj1_sig x - proj1_sig y))
    (fun x => wrap (- proj1_sig x))
    (fun x => x)) _ _ _ _); try reflexivity.
  split; cbn [car r0 r1 radd rmul rsub ropp conj]; intros; apply w64_eq; unfold wrap; cbn -[Z.pow Z.modulo].
  - rewrite Zplus_mod_idemp_l. apply w64_small.
  - f_equal; ring.
  - rewrite Zplus_mod_idemp_l, Zplus_mod_idemp_r. f_equal; ring.
  - rewrite Zmult_mod_idemp_l, Z.mul_1_l. apply w64_small.
  - f_equal; ring.
  - rewrite Zmult_mod_idemp_l, Zmult_mod_idemp_r. f_equal; ring.
  - rewrite <- Zplus_mod. rewrite Zmult_mod_idemp_l. f_equal; ring.
  - rewrite Zplus_mod_idemp_r. f_equal.
  - rewrite Zplus_mod_idemp_r. f_equal; ring.
Defined.

Lemma W64_real : is_real W64.
Proof. intro; reflexivity. Qed.
