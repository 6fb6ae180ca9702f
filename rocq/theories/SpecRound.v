(** Rounded arithmetic.  The model of the code is defined over bare operations ([cops]);
    running it with the operations [flops] below is running the code in floating point.

    The contract [rounds u] is the standard model: every addition, multiplication and
    subtraction returns the exact result up to a relative error of at most [u] (the unit
    roundoff), negation is exact, and so are adding zero and multiplying by one.  Round-to-nearest IEEE
    arithmetic satisfies it as long as nothing overflows, underflows or is NaN; on
    numbers that are not representable the operations may be extended in any way that
    keeps the contract (for example by the exact result). *)
From Coq Require Import Arith.
From Verif Require Import Scalar Ordered Spec.
Open Scope cr_scope.

Definition flops (F : ofield) (fadd fmul fsub : F -> F -> F) : cops :=
  @mkCops (car F) r0 r1 fadd fmul fsub ropp (fun x => x).

Definition near {F : ofield} (u x y : F) : Prop := ole (oabs (x - y)) (u * oabs y) = true.

Record rounds {F : ofield} (u : F) (fadd fmul fsub : F -> F -> F) : Prop := mkRounds {
  rd_u : ole 0 u = true;
  rd_add : forall x y, near u (fadd x y) (x + y);
  rd_mul : forall x y, near u (fmul x y) (x * y);
  rd_sub : forall x y, near u (fsub x y) (x - y);
  rd_0l : forall x, fadd 0 x = x;
  rd_0r : forall x, fadd x 0 = x;
  rd_1l : forall x, fmul 1 x = x;
  rd_1r : forall x, fmul x 1 = x
}.

(** [v] differs from [e] by at most what [k] roundings of relative size [u] can make of
    a quantity of magnitude [m]. *)
Definition within {F : ofield} (u : F) (k : nat) (v e m : F) : Prop :=
  ole (oabs (v - e)) ((rpow (1 + u) k - 1) * m) = true.

(** Magnitudes: the exact recursions run on absolute values. *)
Definition lin_abs {F : ofield} (a : nat -> F) (h : F) (x : nat -> F) : nat -> F :=
  lin_rec (fun k => oabs (a k)) (oabs h) (fun k => oabs (x k)).
Definition state_abs {F : ofield} (N : nat) (A : nat -> nat -> nat -> F) (h : nat -> F) (x : nat -> nat -> F) : nat -> nat -> F :=
  state N (fun n i k => oabs (A n i k)) (fun i => oabs (h i)) (fun n i => oabs (x n i)).
