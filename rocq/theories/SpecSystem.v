(** Specification of relations between filters: delay, cascade, adjoint.  Plain sums over
    functions; nothing here refers to the model of the code. *)
From Coq Require Import List Arith Lia ZArith.
From Verif Require Import Scalar Spec SpecFilter SpecPoly.
Import ListNotations.

Section SpecSystem.
Variable R : cring.
Open Scope cr_scope.

(** Numerator of the cascade of two filters with n1 and n2 numerator coefficients. *)
Definition cascade_num (n1 n2 : nat) (b1 b2 : nat -> R) (k : nat) : R := pmulc n1 n2 b1 b2 k.
(** Denominator (the leading 1 left out): (1, a1) times (1, a2). *)
Definition with_one (a : nat -> R) (k : nat) : R := match k with O => 1 | S j => a j end.
Definition cascade_den (n1 n2 : nat) (a1 a2 : nat -> R) (k : nat) : R :=
  pmulc (S n1) (S n2) (with_one a1) (with_one a2) (S k).

(** Inner product of the first n values, antilinear on the left. *)
Definition dot (n : nat) (f g : nat -> R) : R := bsum n (fun i => conj (f i) * g i).
(** The same for signals with several channels. *)
Definition dotc (n c : nat) (f g : nat -> nat -> R) : R := bsum n (fun i => dot c (f i) (g i)).
(** A signal of length [n] backwards in time. *)
Definition backwards {T} (n : nat) (f : nat -> T) (i : nat) : T := f (n - 1 - i)%nat.
End SpecSystem.
Arguments cascade_num {R}. Arguments with_one {R}. Arguments cascade_den {R}. Arguments dot {R}. Arguments dotc {R}.
