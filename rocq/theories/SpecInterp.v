(** Specification of cubic B-spline interpolation (independent of the code).

    A coefficient sequence c_0 .. c_{L-1} is continued beyond its ends by mirroring:
    scipy's rule repeats the end sample, torch's reflect rule does not. *)
From Coq Require Import List Arith Lia ZArith Bool.
From Verif Require Import Scalar.
Open Scope cr_scope.

Section Spec.
Context {F : cfield}.
Definition mirror (scipy : bool) (L : nat) (c : nat -> F) (k : Z) : F :=
  if (k <? 0)%Z then c (Z.to_nat (if scipy then - k - 1 else - k)%Z)
  else if (k <? Z.of_nat L)%Z then c (Z.to_nat k)
  else c (Z.to_nat (if scipy then 2 * Z.of_nat L - 1 - k else 2 * Z.of_nat L - 2 - k)%Z).

(** The cubic B-spline curve at k + u, 0 <= u < 1:
    ((1-u)^3 c_{k-1} + (3u^3-6u^2+4) c_k + (-3u^3+3u^2+3u+1) c_{k+1} + u^3 c_{k+2}) / 6. *)
Definition bspline (c : Z -> F) (k : Z) (u : F) : F :=
  ((1 - u) * (1 - u) * (1 - u) * c (k - 1)%Z
   + (rnat 3 * u * u * u - rnat 6 * u * u + rnat 4) * c k
   + (- (rnat 3 * u * u * u) + rnat 3 * u * u + rnat 3 * u + 1) * c (k + 1)%Z
   + u * u * u * c (k + 2)%Z) * rinv (rnat 6).

(** The pole sqrt 3 - 2 (or its conjugate - sqrt 3 - 2). *)
Definition pole (r : F) : Prop := r * r + rnat 4 * r + 1 = 0.
End Spec.
