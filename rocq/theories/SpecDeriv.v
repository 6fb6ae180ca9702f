(** Independent vocabulary for derivatives of state-space models
      h_{n+1} = A_n h_n + B_n x_n,  y_n = C_n h_n + D_n x_n,  h_0 given
    (M states, K inputs, Q outputs).  Nothing here refers to the model of the code. *)
From Coq Require Import List Arith ZArith.
From Verif Require Import Scalar Spec SpecSystem.

Section SpecDeriv.
Variable R : cring.
Open Scope cr_scope.
Notation mats := (nat -> nat -> nat -> R).

(** ** Tangents: the linearised system, driven by dA_n h_n + B_n dx_n + dB_n x_n. *)
Definition tan_h (M K : nat) (A dA B dB : mats) (h0 dh0 : nat -> R) (x dx : nat -> nat -> R) (n : nat) : nat -> R :=
  let h := ss_h M K A B h0 x in
  state M A dh0 (fun n m => mvec M (dA n) (h n) m + mvec K (B n) (dx n) m + mvec K (dB n) (x n) m) n.
Definition tan_y (M K : nat) (A dA B dB C dC D dD : mats) (h0 dh0 : nat -> R) (x dx : nat -> nat -> R) (n p : nat) : R :=
  let h := ss_h M K A B h0 x in let dh := tan_h M K A dA B dB h0 dh0 x dx in
  mvec M (C n) (dh n) p + mvec M (dC n) (h n) p + mvec K (D n) (dx n) p + mvec K (dD n) (x n) p.

(** ** Gradients.  [costate k] is l_{N-k}:  l_N = gh,  l_n = A_n^H l_{n+1} + C_n^H g_n. *)
Fixpoint costate (M Q N : nat) (A C : mats) (g : nat -> nat -> R) (gh : nat -> R) (k : nat) : nat -> R :=
  match k with
  | O => gh
  | S j => let n := (N - S j)%nat in
      fun i => bsum M (fun m => conj (A n m i) * costate M Q N A C g gh j m) + bsum Q (fun p => conj (C n p i) * g n p)
  end.
Definition back_h (M Q N : nat) (A C : mats) (g : nat -> nat -> R) (gh : nat -> R) (n : nat) : nat -> R :=
  costate M Q N A C g gh (N - n).
(** Outer product u v^H. *)
Definition outer (u v : nat -> R) (i j : nat) : R := u i * conj (v j).
(** M x K, ... matrices with tangents. *)
Definition with_tan (f df : mats) : nat -> nat -> nat -> dual R := fun b i j => (f b i j, df b i j).
Definition with_tan4 (f df : nat -> mats) : nat -> nat -> nat -> nat -> dual R := fun b n i j => (f b n i j, df b n i j).
End SpecDeriv.
Arguments tan_h {R}. Arguments tan_y {R}. Arguments costate {R}. Arguments back_h {R}. Arguments outer {R}.
Arguments with_tan {R}. Arguments with_tan4 {R}.
