(** Zeros are exact (C79). *)
From Coq Require Import Arith.
From Verif Require Import Scalar Ordered SpecRound Tensor Shapes.
(** Nothing is assumed of the other operations. *)
Definition zero_laws {F : ofield} (fadd fmul fsub : F -> F -> F) : Prop :=
  (forall u, fadd u r0 = u) /\ (forall u, fmul r0 u = r0) /\ (forall u, fmul u r0 = r0) /\ fsub r0 r0 = r0.
(** Two calls on the same signal, the first with M states per row, the second with M': the same
    outputs; the states of the first are the first M states of the second. *)
Definition same_with_more {A : Type} (B N M M' : nat) (r r' : res (tensor A * option (tensor A))) (st : bool) : Prop :=
  exists y zo y' zo' yf, r = Ok (y, zo) /\ r' = Ok (y', zo') /\ is2 y B N yf /\ is2 y' B N yf /\
    if st then exists z z' v v', zo = Some z /\ zo' = Some z' /\ is2 z B M v /\ is2 z' B M' v' /\ forall i k, i < B -> k < M -> v' i k = v i k
    else zo = None /\ zo' = None.
Definition given {A : Type} (o : option A) : bool := match o with Some _ => true | None => false end.
