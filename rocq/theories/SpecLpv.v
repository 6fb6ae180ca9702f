(** Specifications of time-varying digital filters.  [b n k], [a n k]: coefficient k at
    time n; nothing here refers to the model of the code. *)
From Coq Require Import List Arith Lia ZArith.
From Verif Require Import Scalar Tensor Spec SpecFilter.
Import ListNotations.

Section SpecLpv.
Variable R : cring.
Open Scope cr_scope.

(** ** Convolution: y[n] = sum_k b[n,k] x[n-k]; transposed: y[n] = sum_k b[n-k,k] x[n-k]. *)
Definition vconv (P : nat) (b : nat -> nat -> R) (x : nat -> R) (n : nat) : R :=
  bsum (S P) (fun k => b n k * dly x k n).
Definition vconvt (P : nat) (b : nat -> nat -> R) (x : nat -> R) (n : nat) : R :=
  bsum (S P) (fun k => dly (fun m => b m k * x m) k n).
(** The same with past inputs [xp]. *)
Definition vconv_with (P : nat) (b : nat -> nat -> R) (x xp : nat -> R) (n : nat) : R :=
  b n 0%nat * x n + bsum P (fun k => b n (S k) * hist x xp n k).

(** ** All-pole equation with past outputs [yp]:  y[n] + sum_k a[n,k] y[n-1-k] = x[n];
    transposed:  y[n] + sum_k a[n-1-k,k] y[n-1-k] = x[n]. *)
Definition vpole (M : nat) (a : nat -> nat -> R) (x y yp : nat -> R) (n : nat) : Prop :=
  y n + bsum M (fun k => a n k * hist y yp n k) = x n.
Definition vpolet (M : nat) (a : nat -> nat -> R) (x y : nat -> R) (n : nat) : Prop :=
  y n + bsum M (fun k => dly (fun m => a m k * y m) (S k) n) = x n.

(** ** Direct form II: w[n] = x[n] - sum a[n,k] w[n-1-k],  y[n] = sum b[n,k] w[n-k];
    z holds the last M values of w. *)
Fixpoint vdf2_z (M : nat) (a : nat -> nat -> R) (z x : nat -> R) (n i : nat) : R :=
  match n with
  | O => z i
  | S k => match i with
           | O => x k - bsum M (fun j => a k j * vdf2_z M a z x k j)
           | S i' => vdf2_z M a z x k i'
           end
  end.
Definition vdf2_y (M : nat) (b a : nat -> nat -> R) (z x : nat -> R) (n : nat) : R :=
  b n 0%nat * vdf2_z M a z x (S n) 0 + bsum M (fun k => b n (S k) * vdf2_z M a z x n k).

(** ** Transposed direct form II:
    y[n] = z_0[n] + b[n,0] x[n],   z_i[n+1] = z_{i+1}[n] + b[n,i+1] x[n] - a[n,i] y[n]. *)
Fixpoint vtdf2_z (M : nat) (b a : nat -> nat -> R) (z x : nat -> R) (n i : nat) : R :=
  match n with
  | O => z i
  | S k => (if Nat.ltb (S i) M then vtdf2_z M b a z x k (S i) else 0)
           + b k (S i) * x k - a k i * (vtdf2_z M b a z x k 0 + b k 0%nat * x k)
  end.
Definition vtdf2_y (M : nat) (b a : nat -> nat -> R) (z x : nat -> R) (n : nat) : R :=
  vtdf2_z M b a z x n 0 + b n 0%nat * x n.

(** ** Argument shapes: coefficient trajectories, shared (N, n) or one per batch (B, N, n). *)
Inductive vcoef (B N n : nat) (t : tensor (car R)) (f : nat -> nat -> nat -> R) : Prop :=
| vc_s g : is2 t N n g -> (forall b m k, (b < B)%nat -> (m < N)%nat -> (k < n)%nat -> f b m k = g m k) -> vcoef B N n t f
| vc_b : is3 t B N n f -> vcoef B N n t f.

(** Taps 1, a_0, a_1, ... *)
Definition monic (a : nat -> nat -> R) (n k : nat) : R := match k with O => 1 | S j => a n j end.
End SpecLpv.
Arguments vconv {R}. Arguments vconvt {R}. Arguments vconv_with {R}. Arguments vpole {R}. Arguments vpolet {R}.
Arguments vdf2_z {R}. Arguments vdf2_y {R}. Arguments vtdf2_z {R}. Arguments vtdf2_y {R}.
Arguments vcoef {R}. Arguments vc_s {R B N n t f}. Arguments vc_b {R B N n t f}. Arguments monic {R}.
