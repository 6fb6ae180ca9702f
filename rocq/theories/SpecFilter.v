(** Specifications of digital filters.  Plain recursions and sums over functions;
    nothing here refers to the model of the code.

    Convention of the code: the numerator is b_0, b_1, ..., b_P; the denominator is
    1, a_0, a_1, ..., a_{Q-1}, so [a k] multiplies y[n-1-k]. *)
From Coq Require Import List Arith Lia ZArith.
From Verif Require Import Scalar Tensor Spec.
Import ListNotations.

Section SpecFilter.
Variable R : cring.
Open Scope cr_scope.

(** The first [n] values of [f], then zeros. *)
Definition padz (n : nat) (f : nat -> R) (k : nat) : R := if Nat.ltb k n then f k else 0.

(** The value [i + 1] samples before time [n] of a signal [x] with past [p]
    ([p 0] is the most recent past sample, at time -1). *)
Definition hist (x p : nat -> R) (n i : nat) : R :=
  if Nat.ltb i n then x (n - 1 - i)%nat else p (i - n)%nat.

(** Difference equation at time [n] with pasts [xp] of the input and [yp] of the output. *)
Definition solves_with (P Q : nat) (b a x xp y yp : nat -> R) (n : nat) : Prop :=
  y n + bsum Q (fun k => a k * hist y yp n k)
  = b 0%nat * x n + bsum P (fun k => b (S k) * hist x xp n k).

(** ** Direct form II: the delay line z holds the last M values of the inner signal w,
    w[n] = x[n] - sum a_k w[n-1-k],  y[n] = sum b_k w[n-k]. *)
Fixpoint df2_z (M : nat) (a z x : nat -> R) (n i : nat) : R :=
  match n with
  | O => z i
  | S k => match i with
           | O => x k - bsum M (fun j => a j * df2_z M a z x k j)
           | S i' => df2_z M a z x k i'
           end
  end.
Definition df2_y (M : nat) (b a z x : nat -> R) (n : nat) : R :=
  b 0%nat * df2_z M a z x (S n) 0 + bsum M (fun k => b (S k) * df2_z M a z x n k).

(** ** Transposed direct form II:
    y[n] = z_0[n] + b_0 x[n],   z_i[n+1] = z_{i+1}[n] + b_{i+1} x[n] - a_i y[n]. *)
Fixpoint tdf2_z (M : nat) (b a z x : nat -> R) (n i : nat) : R :=
  match n with
  | O => z i
  | S k => (if Nat.ltb (S i) M then tdf2_z M b a z x k (S i) else 0)
           + b (S i) * x k - a i * (tdf2_z M b a z x k 0 + b 0%nat * x k)
  end.
Definition tdf2_y (M : nat) (b a z x : nat -> R) (n : nat) : R :=
  tdf2_z M b a z x n 0 + b 0%nat * x n.

(** ** Comb filter with past outputs [z] ([z 0] the most recent):
    y[n] = x[n] - a y[n-d]. *)
Definition solves_comb (d : nat) (a : R) (x y z : nat -> R) (n : nat) : Prop :=
  y n = x n - a * hist y z n (d - 1).

(** ** Extending a signal of length [N] by [e] samples on each side (index 0 is the
    first added sample). *)
Definition extend (left right : nat -> R) (N e : nat) (x : nat -> R) (n : nat) : R :=
  if Nat.ltb n e then left (e - 1 - n)%nat else if Nat.ltb (n - e) N then x (n - e)%nat else right (n - e - N)%nat.
(** [left i], [right i]: the value [i + 1] samples outside the signal. *)
Definition ext_replicate (N e : nat) (x : nat -> R) := extend (fun _ => x 0%nat) (fun _ => x (N - 1)%nat) N e x.
Definition ext_reflect (N e : nat) (x : nat -> R) := extend (fun i => x (S i)) (fun i => x (N - 2 - i)%nat) N e x.
Definition ext_circular (N e : nat) (x : nat -> R) := extend (fun i => x (N - 1 - i)%nat) x N e x.
Definition ext_zero (N e : nat) (x : nat -> R) := extend (fun _ => 0) (fun _ => 0) N e x.

(** ** Argument shapes: filter coefficients, shared (n) or one row per batch (B, n). *)
Inductive fcoef (B n : nat) (t : tensor (car R)) (f : nat -> nat -> R) : Prop :=
| fc_s g : is1 t n g -> (forall b k, (b < B)%nat -> (k < n)%nat -> f b k = g k) -> fcoef B n t f
| fc_b : is2 t B n f -> fcoef B n t f.

(** Real coefficients. *)
Definition realc (n : nat) (f : nat -> nat -> R) : Prop := forall i k, (k < n)%nat -> conj (f i k) = f i k.

(** Comb coefficient: a scalar or one per batch. *)
Inductive ccoef (B : nat) (a : tensor (car R)) (f : nat -> R) : Prop :=
| cc_0 v : is0 a v -> (forall i, (i < B)%nat -> f i = v) -> ccoef B a f
| cc_B : is1 a B f -> ccoef B a f.
(** Past outputs: none (zeros), shared (d), or (B, d); index 0 is the most recent. *)
Inductive cpast (B d : nat) : option (tensor (car R)) -> (nat -> nat -> R) -> Prop :=
| cp_none f : (forall i k, (i < B)%nat -> (k < d)%nat -> f i k = 0) -> cpast B d None f
| cp_d t g f : is1 t d g -> (forall i k, (i < B)%nat -> (k < d)%nat -> f i k = g k) -> cpast B d (Some t) f
| cp_Bd t f : is2 t B d f -> cpast B d (Some t) f.

End SpecFilter.
Arguments fcoef {R}. Arguments fc_s {R B n t f}. Arguments fc_b {R B n t f}.
Arguments padz {R}. Arguments hist {R}. Arguments solves_with {R}. Arguments df2_z {R}.
Arguments df2_y {R}. Arguments tdf2_z {R}. Arguments tdf2_y {R}. Arguments solves_comb {R}.
Arguments extend {R}. Arguments ext_replicate {R}. Arguments ext_reflect {R}. Arguments ext_circular {R}. Arguments ext_zero {R}.
Arguments realc {R}. Arguments ccoef {R}. Arguments cpast {R}.
Arguments cc_0 {R B a f}. Arguments cc_B {R B a f}. Arguments cp_none {R B d}. Arguments cp_d {R B d}. Arguments cp_Bd {R B d}.
