(** What the second direct forms compute, operation by operation (C75).  [b n k], [a n k]:
    the coefficients at time n, filled up with zeros to the order M. *)
From Coq Require Import List Arith ZArith Bool.
From Verif Require Import Scalar Ordered SpecRound SpecFilter Algebra M_LtiFilter.
Section Spec.
Variable F : ofield.
Variables (fadd fmul fsub : F -> F -> F).
Notation Fl := (flops F fadd fmul fsub).
(** The transition matrix: -a in the first row (column) and ones below (above) the diagonal. *)
Definition form_a (fm : form) (a : nat -> F) (i j : nat) : F :=
  match fm with
  | Tdf2 => if (j =? S i)%nat then r1 else if (j =? 0)%nat then ropp (a i) else r0
  | _ => if (i =? S j)%nat then r1 else if (i =? 0)%nat then ropp (a j) else r0
  end.
(** The input enters the first state, or all states weighted by b_{m+1} - b_0 a_m. *)
Definition form_u (fm : form) (b a : nat -> F) (x : F) (m : nat) : F :=
  match fm with
  | Tdf2 => fmul (fsub (b (S m)) (fmul (b 0%nat) (a m))) x
  | _ => if (m =? 0)%nat then x else r0
  end.
(** [bsum] over the rounded operations sums left to right. *)
Fixpoint form_h (fm : form) (M : nat) (b a : nat -> nat -> F) (z x : nat -> F) (n : nat) : nat -> F :=
  match n with
  | O => z
  | S k => fun i => fadd (form_u fm (b k) (a k) (x k) i)
                         (bsum (R := Fl) M (fun j => fmul (form_a fm (a k) i j) (form_h fm M b a z x k j)))
  end.
Definition form_y (fm : form) (M : nat) (b a : nat -> nat -> F) (z x : nat -> F) (n : nat) : F :=
  fadd (match fm with
        | Tdf2 => form_h fm M b a z x n 0%nat
        | _ => bsum (R := Fl) M (fun m => fmul (fsub (b n (S m)) (fmul (b n 0%nat) (a n m))) (form_h fm M b a z x n m))
        end) (fmul (b n 0%nat) (x n)).
End Spec.
Definition second_form (fm : form) : Prop := fm = Df2 \/ fm = Tdf2.
(** The shapes which lpv.state_space reads as meant (C14, C22). *)
Definition shapes_ok (fm : form) (B N rb ra : nat) : Prop :=
  match fm with Tdf2 => rb = 2 \/ B <> N | _ => rb = 2 /\ ra = 2 \/ B <> N end.
