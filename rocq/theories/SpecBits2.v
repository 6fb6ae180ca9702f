(** What a time-varying state-space model computes, operation by operation (C73). *)
From Coq Require Import List Arith ZArith Bool.
From Verif Require Import Scalar Algebra Tensor.
Import ListNotations.
Section Spec.
Variable R : cops.
Notation ten := (tensor (car R)).
(** h_{n+1} = u_n + A_n h_n, the products of a row summed left to right, then added to u_n *)
Fixpoint vstate (M : nat) (A : nat -> nat -> nat -> R) (h : nat -> R) (u : nat -> nat -> R) (n : nat) : nat -> R :=
  match n with
  | O => h
  | S k => fun i => radd (u k i) (bsum M (fun j => rmul (A k i j) (vstate M A h u k j)))
  end.
(** The input reaches the states through B, or without B directly (a scalar input: the first). *)
Definition in_at (G : option nat) (has : bool) (Bm : nat -> nat -> R) (v : nat -> R) (m : nat) : R :=
  match G with
  | None => if has then rmul (Bm m 0%nat) (v 0%nat) else if (m =? 0)%nat then v 0%nat else r0
  | Some K => if has then bsum K (fun k => rmul (Bm m k) (v k)) else v m
  end.
(** The output is read through C, or is one state, or all of them. *)
Definition out_at (M : nat) (oi : option Z) (has : bool) (Cm : nat -> nat -> R) (h : nat -> R) (p : nat) : R :=
  if has then bsum M (fun m => rmul (Cm p m) (h m))
  else match oi with None => h p | Some i => match pyidx M i with Some k => h k | None => r0 end end.
(** A single number D scales every feature; otherwise D is a matrix. *)
Definition single (G : option nat) (D : ten) : bool :=
  match shape D with [] => true | [d] => (d =? 1)%nat && match G with Some K => negb (K =? 1)%nat | None => false end | _ => false end.
Definition feed_at (G : option nat) (one : bool) (Dm : nat -> nat -> R) (v : nat -> R) (p : nat) : R :=
  match G with
  | None => rmul (Dm p 0%nat) (v 0%nat)
  | Some K => if one then rmul (Dm p p) (v p) else bsum K (fun k => rmul (Dm p k) (v k))
  end.
Definition hasb (t : option ten) : bool := match t with Some _ => true | None => false end.
Definition h_at (M : nat) (G : option nat) (Bt : option ten) (A Bm : nat -> nat -> nat -> R) (z : nat -> R) (x : nat -> nat -> R) : nat -> nat -> R :=
  vstate M A z (fun n => in_at G (hasb Bt) (Bm n) (x n)).
Definition y_at (M : nat) (G : option nat) (Bt C D : option ten) (oi : option Z) (A Bm Cm Dm : nat -> nat -> nat -> R)
  (z : nat -> R) (x : nat -> nat -> R) (n p : nat) : R :=
  let c := out_at M oi (hasb C) (Cm n) (h_at M G Bt A Bm z x n) p in
  match D with Some D => radd c (feed_at G (single G D) (Dm n) (x n) p) | None => c end.
(** Two calls pass the same of the optional arguments (and D a number in both or in neither). *)
Definition alike (G : option nat) (Bt C D Bt' C' D' : option ten) : Prop :=
  hasb Bt = hasb Bt' /\ hasb C = hasb C' /\
  match D, D' with Some D, Some D' => single G D = single G D' | None, None => True | _, _ => False end.
End Spec.
Arguments vstate {R}. Arguments in_at {R}. Arguments out_at {R}. Arguments single {R}. Arguments feed_at {R}. Arguments hasb {R}.
Arguments h_at {R}. Arguments y_at {R}. Arguments alike {R}.
