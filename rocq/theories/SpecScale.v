(** Maps of the numbers that commute with the operations on signals (C76). *)
From Coq Require Import ZArith Bool QArith Qcanon Qpower.
From Verif Require Import Scalar Tensor Shapes.
Section Spec.
Variable R : cops.
Notation ten := (tensor (car R)).
(** Scaling a sum scales its terms, scaling a product scales either factor. *)
Definition scales (s : R -> R) : Prop :=
  s r0 = r0 /\ (forall a b, s (radd a b) = radd (s a) (s b)) /\
  (forall a b, s (rmul a b) = rmul a (s b)) /\ (forall a b, s (rmul a b) = rmul (s a) b).
(** A filter on signals of B rows and N samples with G features in, P out, M states per row:
    from the scaled signal and state it returns the scaled output and final state. *)
Definition homogeneous (s : R -> R) (B N M : nat) (G P : option nat) (run : ten -> option ten -> res (ten * option ten)) : Prop :=
  forall x x' zi zi' xf z0, sigv B N G x xf -> sigv B N G x' (fun b n k => s (xf b n k)) ->
    init B M zi z0 -> init B M zi' (fun b m => s (z0 b m)) -> (zi = None <-> zi' = None) ->
  exists y zf y' zf' yf, run x zi = Ok (y, zf) /\ run x' zi' = Ok (y', zf') /\
    sigv B N P y yf /\ sigv B N P y' (fun b n p => s (yf b n p)) /\
    (zi = None /\ zf = None /\ zf' = None \/
     exists z z' v, zf = Some z /\ zf' = Some z' /\ is2 z B M v /\ is2 z' B M (fun b m => s (v b m))).
End Spec.
Arguments homogeneous {R}.
(** Plus or minus 2^k times x. *)
Definition scale2 (neg : bool) (k : Z) (x : Qc) : Qc := Q2Qc (if neg then - (Qpower 2 k * x) else Qpower 2 k * x).
