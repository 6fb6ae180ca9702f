(** Specification of polynomials given by coefficient vectors, highest degree first. *)
From Coq Require Import List Arith Lia ZArith.
From Verif Require Import Scalar.
Import ListNotations.

Section SpecPoly.
Variable R : cring.
Open Scope cr_scope.

(** Value at [z] of the polynomial with the [n] coefficients p 0, ..., p (n-1). *)
Definition peval (n : nat) (p : nat -> R) (z : R) : R :=
  bsum n (fun i => p i * rpow z (n - 1 - i)).

(** Coefficient [i] of the product of q (with [k] coefficients) and v (with [l]
    coefficients), both highest degree first. *)
Definition pmulc (k l : nat) (q v : nat -> R) (i : nat) : R :=
  bsum k (fun j => bsum l (fun t => if Nat.eqb (j + t) i then q j * v t else 0)).

(** Lists of coefficients, highest degree first. *)
Definition leval (p : list R) (z : R) : R := peval (length p) (fun i => nth i p 0) z.

(** Coefficient of z^k. *)
Definition lcoef (p : list R) (k : nat) : R :=
  if Nat.ltb k (length p) then nth (length p - 1 - k) p 0 else 0.
End SpecPoly.
Arguments peval {R}. Arguments pmulc {R}. Arguments leval {R}. Arguments lcoef {R}.
