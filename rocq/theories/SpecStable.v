(** Absolute values on the scalars, with values in an ordered field: |0| = 0, the
    triangle inequality, |x y| <= |x| |y|.  Instances: |x| on an ordered field, and
    |re| + |im| on complex numbers. *)
From Coq Require Import Arith.
From Verif Require Import Scalar Ordered.
Open Scope cr_scope.

Record absval (R : cring) (K : ofield) : Type := mkAbsval {
  av :> R -> K;
  av_0 : av 0 = 0;
  av_pos : forall x, ole 0 (av x) = true;
  av_opp : forall x, av (- x) = av x;
  av_add : forall x y, ole (av (x + y)) (av x + av y) = true;
  av_mul : forall x y, ole (av (x * y)) (av x * av y) = true
}.
Arguments av {R K}.
(** Conjugation keeps absolute values. *)
Definition conj_abs {R K} (v : absval R K) : Prop := forall x, v (conj x) = v x.

(** The sum of n absolute values is at most [r]. *)
Definition weight {R K} (v : absval R K) (n : nat) (c : nat -> R) (r : K) : Prop := ole (bsum n (fun k => v (c k))) r = true.
(** Every absolute value is at most [s]. *)
Definition upto {R K} (v : absval R K) (s : K) (x : R) : Prop := ole (v x) s = true.
