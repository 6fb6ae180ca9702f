(** Specifications.  Plain recursions and sums over functions; nothing here refers
    to the model of the code. *)
From Coq Require Import List Arith Lia ZArith.
From Verif Require Import Scalar.
Import ListNotations.

Section Spec.
Variable R : cops.
Open Scope cr_scope.

(** ** Scalar recurrence  h_{n+1} = a_n h_n + x_n,  h_0 given. *)
Fixpoint lin_rec (a : nat -> R) (h0 : R) (x : nat -> R) (n : nat) : R :=
  match n with
  | O => h0
  | S k => a k * lin_rec a h0 x k + x k
  end.

(** ** Matrices as functions; [M] is the inner dimension. *)
Definition mmul (M : nat) (A B : nat -> nat -> R) (i j : nat) : R :=
  bsum M (fun k => A i k * B k j).
Definition mid (i j : nat) : R := if Nat.eqb i j then 1 else 0.
Fixpoint mpow (M : nat) (A : nat -> nat -> R) (n : nat) : nat -> nat -> R :=
  match n with
  | O => mid
  | S k => mmul M A (mpow M A k)
  end.
Definition mvec (M : nat) (A : nat -> nat -> R) (v : nat -> R) (i : nat) : R :=
  bsum M (fun k => A i k * v k).
(** Ordered product A_0 A_1 ... A_{n-1}. *)
Fixpoint mprod (M : nat) (A : nat -> nat -> nat -> R) (n : nat) : nat -> nat -> R :=
  match n with
  | O => mid
  | S k => mmul M (mprod M A k) (A k)
  end.

(** ** State recurrence  h_{n+1} = A_n h_n + u_n,  h_0 given (time-varying A). *)
Fixpoint state (M : nat) (A : nat -> nat -> nat -> R) (h0 : nat -> R) (u : nat -> nat -> R)
  (n : nat) : nat -> R :=
  match n with
  | O => h0
  | S k => fun i => mvec M (A k) (state M A h0 u k) i + u k i
  end.

(** ** State-space model with K inputs, M states (all matrices may vary in time):
    h_{n+1} = A_n h_n + B_n x_n,  y_n = C_n h_n + D_n x_n,  h_0 given. *)
Definition ss_h (M K : nat) (A B : nat -> nat -> nat -> R) (h0 : nat -> R) (x : nat -> nat -> R)
  (n : nat) : nat -> R :=
  state M A h0 (fun n m => bsum K (fun k => B n m k * x n k)) n.
Definition ss_y (M K : nat) (A B C D : nat -> nat -> nat -> R) (h0 : nat -> R) (x : nat -> nat -> R)
  (n p : nat) : R :=
  bsum M (fun m => C n p m * ss_h M K A B h0 x n m) + bsum K (fun k => D n p k * x n k).

(** A signal delayed by [k], zero before time 0. *)
Definition dly (x : nat -> R) (k n : nat) : R := if Nat.leb k n then x (n - k)%nat else 0.

(** ** Difference equation of a rational filter with numerator b_0..b_P and
    denominator 1, a_1..a_Q (a is indexed from 0 as in the code: [a k] multiplies
    y[n-k-1]), zero history. *)
Definition solves_filter (P Q : nat) (b a : nat -> R) (x y : nat -> R) (n : nat) : Prop :=
  y n + bsum Q (fun k => a k * dly y (S k) n) = bsum (S P) (fun k => b k * dly x k n).

(** Convolution (FIR filter) with zero history. *)
Definition conv (P : nat) (b : nat -> R) (x : nat -> R) (n : nat) : R :=
  bsum (S P) (fun k => b k * dly x k n).

End Spec.

Arguments lin_rec {R}. Arguments mmul {R}. Arguments mid {R}. Arguments mpow {R}.
Arguments mvec {R}. Arguments mprod {R}. Arguments state {R}. Arguments dly {R}.
Arguments ss_h {R}. Arguments ss_y {R}. Arguments solves_filter {R}. Arguments conv {R}.

(** Primality, by trial. *)
Definition is_prime (n : nat) : Prop := 2 <= n /\ forall d, 2 <= d < n -> n mod d <> 0.

(** Fibonacci numbers 1, 1, 2, 3, 5, ... *)
Fixpoint fib (n : nat) : nat :=
  match n with
  | 0 => 1
  | S k => match k with 0 => 1 | S j => fib k + fib j end
  end.
