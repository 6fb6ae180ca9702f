(** Model of the derivative rules: LTIRecurrence.backward/jvp (philtorch/lti/recur.py),
    LTIMatrixRecurrence.backward/jvp (philtorch/lti/ssm.py), MatrixRecurrence.backward/jvp
    (philtorch/lpv/ssm.py), the backward functions registered for the operators and the
    fake (shape-only) kernels (philtorch/__init__.py).

    The tensors saved by setup_context (coefficients, initial state, output) are
    arguments.  [needs] is ctx.needs_input_grad; a missing tangent ([None] in jvp) is
    an [option].  The three backward bodies and the registered ones differ only in the
    operator they run on the reversed sequence, which is the argument [op].  What the
    autograd engine does between these functions (saving tensors, accumulating, checking
    shapes) is not modelled, nor are the gradients of the backward functions themselves. *)
From Coq Require Import List Arith Lia ZArith Bool.
From Verif Require Import Scalar Tensor M_Mat M_Kernels M_LtiSsm M_Ext M_LpvSsm.
Import ListNotations.
Open Scope res_scope.

Section Autograd.
Variable R : cops.
Notation ten := (tensor (car R)).
Notation oper := (ten -> ten -> ten -> res ten).
Notation grads := (option ten * option ten * option ten)%type.
Definition when (b : bool) (r : res ten) : res (option ten) :=
  if b then (let* t := r in Ok (Some t)) else Ok None.

(** [torch.roll(t, shifts=-1, dims=d)]. *)
Definition roll_m1 (d : nat) (t : ten) : ten :=
  mkT (shape t) (fun idx => at_ t (upd d (fun i => (i + 1) mod size t d) idx)).
(** [t.permute(1, 2, 0)] of a 3-D tensor. *)
Definition permute120 (t : ten) : ten := transpose 1 2 (transpose 0 1 t).
(** [t.view(-1, 1)]. *)
Definition view_col (t : ten) : ten := mkT [numel t; 1] (fun idx => at_ t (unravel (shape t) (nth 0 idx 0))).
(** [t.flatten()]. *)
Definition flatten_all (t : ten) : ten := mkT [numel t] (fun idx => at_ t (unravel (shape t) (nth 0 idx 0))).
(** [torch.cat([zi.unsqueeze(1), y[:, :-1]], dim=1)]. *)
Definition delayed (zi y : ten) : res ten := cat 1 [unsqueeze 1 zi; slice 1 None (Some (-1)%Z) y].
Definition or_zeros (g : option ten) (t : ten) : ten := match g with Some v => v | None => zeros_like t end.

(** ** Scalar recursion: recur.py:25-59, __init__.py:115-148 *)
Definition scalar_backward (op : oper) (needs : bool * bool * bool) (a init out grad_out : ten)
  : res grads :=
  let '(needs_a, needs_init, needs_x) := needs in
  let* bp_init := select 1 (-1) grad_out in
  let* tail := op (tconj a) bp_init (flip 1 (slice 1 None (Some (-1)%Z) grad_out)) in
  let* flipped_grad_x := cat 1 [unsqueeze 1 bp_init; tail] in
  let* grad_init := when needs_init
    (let* l := select 1 (-1) flipped_grad_x in tmul l (tconj a)) in
  let* grad_x := when needs_x (Ok (flip 1 flipped_grad_x)) in
  let* grad_a := when needs_a
    (let* padded_out := delayed init out in
     if rk a =? 1 then vecdot padded_out (flip 1 flipped_grad_x)
     else matmul (tconj (flatten_all padded_out)) (flatten_all (flip 1 flipped_grad_x))) in
  Ok (grad_a, grad_init, grad_x).

(** recur.py:61-78 *)
Definition scalar_jvp (op : oper) (a init out : ten) (grad_a grad_init grad_x : option ten) : res ten :=
  let fwd_init := or_zeros grad_init init in
  let fwd_x := or_zeros grad_x out in
  let* fwd_x := match grad_a with
    | None => Ok fwd_x
    | Some da => let* concat_out := delayed init out in
                 let* fwd_a := tmul concat_out (view_col da) in
                 tadd fwd_x fwd_a
    end in
  op a fwd_init fwd_x.

(** ** Constant matrices: ssm.py:67-98, __init__.py:76-112 *)
Definition lti_backward (op : oper) (needs : bool * bool * bool) (A zi y grad_y : ten) : res grads :=
  let '(needs_A, needs_zi, needs_x) := needs in
  let AmT := tconj (mT A) in
  let* flipped_grad_x := op AmT (zeros_like zi) (flip 1 grad_y) in
  let* grad_zi := when needs_zi
    (let* l := select 1 (-1) flipped_grad_x in
     let* p := matmul AmT (unsqueeze 2 l) in
     Ok (squeeze (rk p - 1) p)) in
  let* grad_x := when needs_x (Ok (flip 1 flipped_grad_x)) in
  let* grad_A := when needs_A
    (let* padded_y := delayed zi y in
     if rk A =? 2
     then matmul (mT (flatten 0 1 (flip 1 flipped_grad_x))) (flatten 0 1 (tconj padded_y))
     else matmul (mT (flip 1 flipped_grad_x)) (tconj padded_y)) in
  Ok (grad_A, grad_zi, grad_x).

(** ssm.py:100-118 *)
Definition lti_jvp (op : oper) (A zi y : ten) (grad_A grad_zi grad_x : option ten) : res ten :=
  let fwd_zi := or_zeros grad_zi zi in
  let fwd_x := or_zeros grad_x y in
  let* fwd_x := match grad_A with
    | None => Ok fwd_x
    | Some dA => let* padded_y := delayed zi y in
                 let dA := if rk dA =? 2 then dA else unsqueeze (rk dA - 2) dA in
                 let* p := matmul dA (unsqueeze (rk padded_y) padded_y) in
                 tadd fwd_x (squeeze (rk p - 1) p)
    end in
  op A fwd_zi fwd_x.

(** ** Time-varying matrices: lpv/ssm.py:64-98, __init__.py:34-73 *)
Definition lpv_backward (op : oper) (needs : bool * bool * bool) (A zi y grad_y : ten) : res grads :=
  let '(needs_A, needs_zi, needs_x) := needs in
  let AmT := tconj (mT A) in
  let AmT_rolled := roll_m1 (rk AmT - 3) AmT in
  let* flipped_grad_x := op (flip (rk AmT - 3) AmT_rolled) (zeros_like zi) (flip 1 grad_y) in
  let* grad_zi := when needs_zi
    (let* l := select 1 (-1) flipped_grad_x in
     let* A0 := select (rk AmT - 3) 0 AmT in
     let* p := matmul A0 (unsqueeze 2 l) in
     Ok (squeeze (rk p - 1) p)) in
  let* grad_x := when needs_x (Ok (flip 1 flipped_grad_x)) in
  let* grad_A := when needs_A
    (let* padded_y := delayed zi y in
     if rk A =? 3
     then matmul (permute120 (flip 1 flipped_grad_x)) (transpose 0 1 (tconj padded_y))
     else let c := tconj padded_y in let f := flip 1 flipped_grad_x in
          tmul (unsqueeze (rk c - 1) c) (unsqueeze (rk f) f)) in
  Ok (grad_A, grad_zi, grad_x).

(** lpv/ssm.py:100-115 *)
Definition lpv_jvp (op : oper) (A zi y : ten) (grad_A grad_zi grad_x : option ten) : res ten :=
  let fwd_zi := or_zeros grad_zi zi in
  let fwd_x := or_zeros grad_x y in
  let* fwd_x := match grad_A with
    | None => Ok fwd_x
    | Some dA => let* padded_y := delayed zi y in
                 let* p := matmul dA (unsqueeze (rk padded_y) padded_y) in
                 tadd fwd_x (squeeze (rk p - 1) p)
    end in
  op A fwd_zi fwd_x.

(** ** The autograd Functions ([F.apply] inside a rule runs F.forward) *)
Variable e : env.
Variable pararnn : bool.
Definition LTIRecurrence_backward := scalar_backward (LTIRecurrence_forward e).
Definition LTIRecurrence_jvp := scalar_jvp (LTIRecurrence_forward e).
Definition LTIMatrixRecurrence_backward := lti_backward (LTIMatrixRecurrence_forward e).
Definition LTIMatrixRecurrence_jvp := lti_jvp (LTIMatrixRecurrence_forward e).
Definition MatrixRecurrence_backward := lpv_backward (MatrixRecurrence_forward e pararnn).
Definition MatrixRecurrence_jvp := lpv_jvp (MatrixRecurrence_forward e pararnn).

(** ** The registered backward functions: runner = f if A.shape[-1] != 2 else recur2. *)
(** __init__.py:34-73 _recurN_backward *)
Definition recurN_backward (f : oper) (needs : bool * bool * bool) (A zi y grad_y : ten) : res grads :=
  lpv_backward (if negb (sizen A 1 =? 2) then f else op_recur2 e) needs A zi y grad_y.
(** __init__.py:76-112 _lti_recurN_backward *)
Definition lti_recurN_backward (f : oper) (needs : bool * bool * bool) (A zi y grad_y : ten) : res grads :=
  lti_backward (if negb (sizen A 1 =? 2) then f else op_lti_recur2 e) needs A zi y grad_y.
(** __init__.py:115-148 _lti_recur_backward *)
Definition lti_recur_backward := scalar_backward (op_lti_recur e).

(** ** Fake kernels: the result is the predicted shape.

    [t.shape[k]] of a missing dimension raises IndexError; torch._check raises
    RuntimeError. *)
Definition dim_at (t : ten) (k : nat) : res nat :=
  guard k <? rk t else IndexError in Ok (size t k).
Definition dim_neg (t : ten) (k : nat) : res nat :=
  guard k <=? rk t else IndexError in Ok (sizen t k).

(** The checks shared by the six matrix operators; [lo] is 2 (constant) or 3
    (time-varying), [two] tells the second-order operators apart (__init__.py:159-231,
    286-323).  The comparison chain stops at its first false link, so the second size
    is only read when the first two agree. *)
Definition fake_matrix (lo : nat) (two : bool) (A zi x : ten) : res unit :=
  let* a1 := dim_neg A 1 in
  let* a2 := dim_neg A 2 in
  guard a1 =? a2 else RuntimeError in
  let* m := if two then Ok 2 else dim_at x 2 in
  guard a2 =? m else RuntimeError in
  guard (rk A =? lo) || (rk A =? lo + 1) else RuntimeError in
  let* z1 := dim_at zi 1 in
  guard z1 =? m else RuntimeError in
  let* x2 := dim_at x 2 in
  guard (if two then x2 =? 2 else true) else RuntimeError in
  let* x1 := dim_at x 1 in
  guard (if lo =? 3 then x1 =? sizen A 3 else true) else RuntimeError in
  guard size x 0 =? size zi 0 else RuntimeError in
  guard (if rk A =? lo + 1 then size A 0 =? size x 0 else true) else RuntimeError in
  Ok tt.
(** __init__.py:159-231: recur2, recurN, lti_recur2, lti_recurN return empty_like(x). *)
Definition fake_recur2 (A zi x : ten) : res (list nat) := let* _ := fake_matrix 3 true A zi x in Ok (shape x).
Definition fake_recurN (A zi x : ten) : res (list nat) := let* _ := fake_matrix 3 false A zi x in Ok (shape x).
Definition fake_lti_recur2 (A zi x : ten) : res (list nat) := let* _ := fake_matrix 2 true A zi x in Ok (shape x).
Definition fake_lti_recurN (A zi x : ten) : res (list nat) := let* _ := fake_matrix 2 false A zi x in Ok (shape x).
(** __init__.py:233-244 *)
Definition fake_lti_recur (a zi x : ten) : res (list nat) :=
  guard rk a <=? 1 else RuntimeError in
  let* z0 := dim_at zi 0 in
  let* x0 := dim_at x 0 in
  guard z0 =? x0 else RuntimeError in
  guard (if (rk a =? 1) && negb (size a 0 =? 1) then size a 0 =? x0 else true) else RuntimeError in
  Ok (shape x).
(** __init__.py:286-323: x.new_empty(B, T + 1, M)[:, 1:]. *)
Definition fake_hl_lti_recurN (A zi x : ten) : res (list nat) :=
  let* _ := fake_matrix 2 false A zi x in Ok [size x 0; size x 1 + 1 - 1; size x 2].
Definition fake_hl_recurN (A zi x : ten) : res (list nat) :=
  let* _ := fake_matrix 3 false A zi x in Ok [size x 0; size x 1 + 1 - 1; size x 2].
End Autograd.
Arguments when {R}. Arguments roll_m1 {R}. Arguments permute120 {R}. Arguments view_col {R}.
Arguments flatten_all {R}. Arguments delayed {R}. Arguments or_zeros {R}.
Arguments scalar_backward {R}. Arguments scalar_jvp {R}. Arguments lti_backward {R}.
Arguments lti_jvp {R}. Arguments lpv_backward {R}. Arguments lpv_jvp {R}.
Arguments recurN_backward {R}. Arguments lti_recurN_backward {R}.
Arguments fake_matrix {R}. Arguments dim_at {R}. Arguments dim_neg {R}.
Arguments fake_recur2 {R}. Arguments fake_recurN {R}. Arguments fake_lti_recur2 {R}.
Arguments fake_lti_recurN {R}. Arguments fake_lti_recur {R}. Arguments fake_hl_lti_recurN {R}.
Arguments fake_hl_recurN {R}.
