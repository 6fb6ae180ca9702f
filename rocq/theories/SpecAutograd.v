(** Independent vocabulary for derivatives.

    - A tensor with a tangent is a tensor of dual numbers a + eps b (eps^2 = 0); the
      derivative of a program in a direction is the eps part of the program run on dual
      numbers.  A missing tangent is zero.
    - The inner product of two tensors of the same shape is conjugate-linear in its first
      argument; the adjoint of a derivative is taken with respect to it. *)
From Coq Require Import List Arith Lia ZArith Bool.
From Verif Require Import Scalar Tensor.
Import ListNotations.

Section SpecAutograd.
Variable R : cring.
Notation ten := (tensor (car R)).
Notation D := (dual R).

Definition lift (t : ten) (dt : option ten) : tensor (car D) :=
  mkT (shape t) (fun idx => (at_ t idx, match dt with None => r0 | Some d => at_ d idx end)).
(** A tangent has the shape of its primal. *)
Definition like (t : ten) (dt : option ten) : Prop :=
  match dt with None => True | Some d => shape d = shape t end.
(** [Y] has the value [y] and the derivative [t]. *)
Definition dual_of (Y : tensor (car D)) (y t : ten) : Prop :=
  shape Y = shape y /\ shape t = shape y /\
  forall idx, Forall2 lt idx (shape y) -> at_ Y idx = (at_ y idx, at_ t idx).

(** The derivative part of a tensor of dual numbers. *)
Definition eps (Y : tensor (car D)) : ten := mkT (shape Y) (fun idx => snd (at_ Y idx)).

(** Sum over all index tuples of a shape, and the inner product. *)
Fixpoint sumT (s : list nat) (f : list nat -> R) : R :=
  match s with
  | [] => f []
  | n :: s' => bsum n (fun i => sumT s' (fun idx => f (i :: idx)))
  end.
Definition tdot (a b : ten) : R := sumT (shape a) (fun idx => rmul (conj (at_ a idx)) (at_ b idx)).
Definition odot (a b : option ten) : R :=
  match a, b with Some a, Some b => tdot a b | _, _ => r0 end.

(** What the autograd engine does with a gradient whose shape is not the input's but a
    shape to which the input broadcasts: it is summed over the broadcast dimensions.
    Only the case input shape [1] occurs here. *)
Definition engine_reduce (a g : ten) : ten :=
  if list_eqb (shape g) (shape a) then g
  else mkT (shape a) (fun _ => sumT (shape g) (fun idx => at_ g idx)).
End SpecAutograd.
Arguments lift {R}. Arguments like {R}. Arguments dual_of {R}. Arguments eps {R}. Arguments sumT {R}.
Arguments tdot {R}. Arguments odot {R}. Arguments engine_reduce {R}.
