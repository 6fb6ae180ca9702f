(** Which element types include which: [sub a b] when every component kind, significand and
    exponent range of [a] is available in [b] (integers count as included in every
    floating-point type, as in torch). *)
From Coq Require Import Arith Bool.
From Verif Require Import M_Dtype.

(** 0 integer, 1 real floating point, 2 complex. *)
Definition category (d : dtype) : nat := match d with I64 => 0 | F16 | BF16 | F32 | F64 => 1 | C32 | C64 | C128 => 2 end.
(** Bits of significand and of exponent of the components. *)
Definition sig_bits (d : dtype) : nat := match d with I64 => 0 | F16 | C32 => 11 | BF16 => 8 | F32 | C64 => 24 | F64 | C128 => 53 end.
Definition exp_bits (d : dtype) : nat := match d with I64 => 0 | F16 | C32 => 5 | BF16 | F32 | C64 => 8 | F64 | C128 => 11 end.
Definition sub (a b : dtype) : Prop :=
  category a <= category b /\ sig_bits a <= sig_bits b /\ exp_bits a <= exp_bits b.
Definition supported (d : dtype) : Prop := d <> C32.
