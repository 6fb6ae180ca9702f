(** Specification of responses: the unit pulse, convolution of two signals, the Markov
    parameters of a state-space model.  Nothing here refers to the model of the code. *)
From Coq Require Import List Arith Lia ZArith.
From Verif Require Import Scalar Spec SpecFilter SpecPoly SpecSystem.
Import ListNotations.

Section SpecResponse.
Variable R : cring.
Open Scope cr_scope.

Definition pulse (n : nat) : R := if Nat.eqb n 0 then 1 else 0.
Definition convolve (h x : nat -> R) (n : nat) : R := bsum (S n) (fun k => h k * x (n - k)%nat).
Fixpoint spow (c : R) (n : nat) : R := match n with O => 1 | S k => c * spow c k end.

(** D, C B, C A B, C A^2 B, ... *)
Definition markov (M : nat) (A B C D : nat -> nat -> R) (n p k : nat) : R :=
  match n with
  | O => D p k
  | S m => bsum M (fun i => C p i * bsum M (fun j => mpow M A m i j * B j k))
  end.

(** Matrix with row length [M] times a matrix. *)
Definition mm (M : nat) (X Y : nat -> nat -> R) (i j : nat) : R := bsum M (fun k => X i k * Y k j).

(** [T] (of size M' x M) carries the system (A, B, C) with M states to (A', B', C') with M'
    states at one time step, [T1] being the matrix of the next step:
    A' T = T1 A, B' = T1 B, C = C' T. *)
Definition carries (M M' K W : nat) (T T1 A A' B B' C C' : nat -> nat -> R) : Prop :=
  (forall i j, (i < M')%nat -> (j < M)%nat -> mm M' A' T i j = mm M T1 A i j) /\
  (forall i k, (i < M')%nat -> (k < K)%nat -> B' i k = mm M T1 B i k) /\
  (forall p j, (p < W)%nat -> (j < M)%nat -> C p j = mm M' C' T p j).

(** Coefficient [n] of b1 * (1, a2), the numerator of one fraction times the denominator of
    another. *)
Definition cross (nb na : nat) (b a : nat -> R) (n : nat) : R := pmulc nb (S na) b (with_one a) n.
End SpecResponse.
Arguments pulse {R}. Arguments convolve {R}. Arguments spow {R}. Arguments markov {R}. Arguments mm {R}. Arguments carries {R}. Arguments cross {R}.
