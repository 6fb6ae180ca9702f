(** Forward-mode differentiation of the backward functions (what
    torch.autograd.gradcheck.gradgradcheck(check_fwd_over_rev=True) exercises,
    tests/test_grad.py:112, 186, 258).

    A dual tensor is a tensor of dual numbers.  Torch differentiates an ordinary
    operation by its own rule, which is the operation on dual numbers; for a custom
    Function F it runs F.forward on the primal parts and F.jvp on the tangents
    ([with_jvp]).  So the backward body of F, which calls F.apply once, is the
    body of M_Autograd over dual numbers with [with_jvp] for the inner call.
    Simplified: torch passes None for a tangent known to be zero, here a zero tensor. *)
From Coq Require Import List Arith Bool.
From Verif Require Import Scalar Tensor M_Kernels M_LtiSsm M_LpvSsm M_Autograd.
Open Scope res_scope.

Section Autograd2.
Variable R : cring.
Notation ten := (tensor (car R)).
Notation tenD := (tensor (car (dual R))).
(** torch.autograd.forward_ad.unpack_dual and make_dual. *)
Definition primal (t : tenD) : ten := mkT (shape t) (fun idx => fst (at_ t idx)).
Definition tangent (t : tenD) : ten := mkT (shape t) (fun idx => snd (at_ t idx)).
Definition make_dual (t dt : ten) : tenD := mkT (shape t) (fun idx => (at_ t idx, at_ dt idx)).

Definition with_jvp (forward : ten -> ten -> ten -> res ten)
  (jvp : ten -> ten -> ten -> option ten -> option ten -> option ten -> res ten) (a zi x : tenD) : res tenD :=
  let* y := forward (primal a) (primal zi) (primal x) in
  let* t := jvp (primal a) (primal zi) y (Some (tangent a)) (Some (tangent zi)) (Some (tangent x)) in
  Ok (make_dual y t).

Variable e : env.
Variable pararnn : bool.
(** lti/recur.py:8-78 LTIRecurrence *)
Definition LTIRecurrence_fwdad := with_jvp (LTIRecurrence_forward e) (LTIRecurrence_jvp R e).
Definition LTIRecurrence_backward_fwdad := scalar_backward (R := dual R) LTIRecurrence_fwdad.
(** lti/ssm.py:43-115 LTIMatrixRecurrence *)
Definition LTIMatrixRecurrence_fwdad := with_jvp (LTIMatrixRecurrence_forward e) (LTIMatrixRecurrence_jvp R e).
Definition LTIMatrixRecurrence_backward_fwdad := lti_backward (R := dual R) LTIMatrixRecurrence_fwdad.
(** lpv/ssm.py:34-115 MatrixRecurrence *)
Definition MatrixRecurrence_fwdad := with_jvp (MatrixRecurrence_forward e pararnn) (MatrixRecurrence_jvp R e pararnn).
Definition MatrixRecurrence_backward_fwdad := lpv_backward (R := dual R) MatrixRecurrence_fwdad.
End Autograd2.
Arguments primal {R}. Arguments tangent {R}. Arguments make_dual {R}. Arguments with_jvp {R}.
Arguments LTIRecurrence_fwdad {R}. Arguments LTIRecurrence_backward_fwdad {R}.
Arguments LTIMatrixRecurrence_fwdad {R}. Arguments LTIMatrixRecurrence_backward_fwdad {R}.
Arguments MatrixRecurrence_fwdad {R}. Arguments MatrixRecurrence_backward_fwdad {R}.
