(** Element types.  The other model files compute over one ring; here only the dtypes of
    the tensors are followed, through the same lines of code: which calls are rejected
    because of their dtypes and the dtype of the result.  Helion and ParaRNN kernels are not
    covered, signals have at least one sample, and whether torch implements an operation
    for a dtype at all (e.g. products of half precision numbers on a CPU) is not modelled. *)
From Coq Require Import List Arith Lia Bool.
From Verif Require Import Tensor M_LtiSsm M_LtiFilter.
Import ListNotations.
Open Scope res_scope.

Inductive dtype := I64 | F16 | BF16 | F32 | F64 | C32 | C64 | C128.
Definition dtype_eqb (a b : dtype) : bool :=
  match a, b with
  | I64, I64 | F16, F16 | BF16, BF16 | F32, F32 | F64, F64 | C32, C32 | C64, C64 | C128, C128 => true
  | _, _ => false
  end.
Definition is_cplx (a : dtype) : bool := match a with C32 | C64 | C128 => true | _ => false end.
Definition is_float (a : dtype) : bool := match a with F16 | BF16 | F32 | F64 => true | _ => false end.

(** torch.promote_types. *)
Definition promote (a b : dtype) : dtype :=
  if dtype_eqb a b then a else
  match a, b with
  | I64, d | d, I64 => d
  | C128, _ | _, C128 => C128
  | F64, (C32 | C64) | (C32 | C64), F64 => C128
  | C64, _ | _, C64 => C64
  | C32, F16 | F16, C32 => C32
  | C32, _ | _, C32 => C64
  | F64, _ | _, F64 => F64
  | _, _ => F32
  end.
(** Arithmetic between a tensor with dimensions ([a]) and a 0-d tensor ([b]): the 0-d tensor
    only raises the category (integer, floating, complex). *)
Definition to_complex (a : dtype) : dtype :=
  match a with F16 => C32 | BF16 | F32 => C64 | F64 => C128 | d => d end.
Definition promote0 (a b : dtype) : dtype :=
  if is_cplx a then a
  else if is_float a then if is_cplx b then to_complex a else a
  else promote a b.

(** Products of matrices ([@], mm, mv, bmm, addmm, baddbmm) do not promote. *)
Definition mm_d (a b : dtype) : res dtype := guard dtype_eqb a b else RuntimeError in Ok a.
(** torch.linalg.vecdot: floating point or complex, equal dtypes. *)
Definition vecdot_d (a b : dtype) : res dtype :=
  guard is_float a || is_cplx a else RuntimeError in mm_d a b.

(** ** The registered operators (csrc/*.cpp, csrc/*.cu). *)
Inductive op := Recur2 | RecurN | LtiRecur2 | LtiRecurN | LtiRecur.
(** AT_DISPATCH_FLOATING_AND_COMPLEX_TYPES_AND3 (kLong, kHalf, kBFloat16), for lti_recur
    .._AND2 (kHalf, kBFloat16) (host_lti_recur.cpp:61-75, lti_recur.cu:135-152). *)
Definition dispatches (o : op) (d : dtype) : bool :=
  match d, o with
  | C32, _ => false
  | I64, LtiRecur => false
  | _, _ => true
  end.
(** recurN and lti_recurN have no CUDA kernel. *)
Definition has_kernel (cuda : bool) (o : op) : bool :=
  match o with RecurN | LtiRecurN => negb cuda | _ => true end.
(** host_recurN.cpp:240-243, host_lti_recurN.cpp:67-70, host_lti_recur.cpp:45-48,
    lti_recur2.cu:70-73, lti_recur.cu:116-119; recur2.cu:73-76 compares zi with zi and A
    with A. *)
Definition checks (cuda : bool) (o : op) (A zi x : dtype) : bool :=
  match cuda, o with
  | true, Recur2 => dtype_eqb zi zi && dtype_eqb A A
  | _, _ => dtype_eqb zi x && dtype_eqb A x
  end.
(** The checks, the promotion by [at::cat], the dispatch on the dtype of x, and the checks in
    [const_data_ptr<scalar_t>()] of A and of the concatenation. *)
Definition op_d (cuda : bool) (o : op) (A zi x : dtype) : res dtype :=
  guard has_kernel cuda o else NotImplementedError in
  guard checks cuda o A zi x else RuntimeError in
  let xc := promote zi x in
  guard dispatches o x else NotImplementedError in
  guard dtype_eqb A x else RuntimeError in
  guard dtype_eqb xc x else RuntimeError in
  Ok xc.
(** __init__.py:153-247: every fake kernel returns [torch.empty_like(x)]. *)
Definition fake_d (A zi x : dtype) : dtype := x.

(** ** lti/recur.py:94-192 linear_recurrence.  [many]: a has more than one element. *)
(** recur.py:81-91 _scalar_recursion_loop: [h = a * h + xn], results stacked. *)
Definition scalar_loop_d (a init x : dtype) : dtype := promote (promote a init) x.
Fixpoint linear_recurrence_d (fuel : nat) (many : bool) (a init x : dtype) (N unroll_factor : nat) : res dtype :=
  match fuel with
  | O => Err OutOfFuel
  | S fuel' =>
    guard negb (unroll_factor <? 1) else ValueError in
    if (unroll_factor =? 1) || (N <=? unroll_factor) then Ok (scalar_loop_d a init x)
    else
    let a_powers := a in                                                       (* cumprod, pad: floats and ints alike *)
    let* z := if many then vecdot_d x a_powers else mm_d x a_powers in
    let blocks := (N + unroll_factor - 1) / unroll_factor in
    let* rest := linear_recurrence_d fuel' many a init z blocks unroll_factor in
    let initials := promote init rest in
    let aug_x := promote initials x in
    let* output := mm_d aug_x a_powers in
    Ok (promote output initials)
  end.

(** ** lti/ssm.py:198-383 and lpv/ssm.py:208-334 state_space_recursion. *)
Definition loop_d (A zi x : dtype) : res dtype :=                              (* addmm, baddbmm *)
  let* h := mm_d zi A in mm_d x h.
Fixpoint state_space_recursion_d (fuel : nat) (A zi x : dtype) (N unroll_factor : nat) : res dtype :=
  match fuel with
  | O => Err OutOfFuel
  | S fuel' =>
    guard negb (unroll_factor <? 1) else ValueError in
    if (unroll_factor =? 1) || (N <=? unroll_factor) then loop_d A zi x
    else
    let blocks := (N + unroll_factor - 1) / unroll_factor in
    let* z := mm_d x A in
    let* rest := state_space_recursion_d fuel' A zi z blocks unroll_factor in
    let initials := promote zi rest in
    let aug_x := promote initials x in
    let* output := mm_d aug_x A in
    Ok (promote output initials)
  end.
(** The second half of the lpv version runs the loop on the blocks (lpv/ssm.py:313-330). *)
Fixpoint lpv_state_space_recursion_d (fuel : nat) (A zi x : dtype) (N unroll_factor : nat) : res dtype :=
  match fuel with
  | O => Err OutOfFuel
  | S fuel' =>
    guard negb (unroll_factor <? 1) else ValueError in
    if (unroll_factor =? 1) || (N <=? unroll_factor) then loop_d A zi x
    else
    let blocks := (N + unroll_factor - 1) / unroll_factor in
    let* z := mm_d x A in
    let* rest := lpv_state_space_recursion_d fuel' A zi z blocks unroll_factor in
    let initials := promote zi rest in
    let* output := loop_d A initials x in
    Ok (promote output initials)
  end.

(** ** lti/ssm.py:386-589 state_space. *)
(** How B and x, D and x, C and h are multiplied, from the shapes ([f] is the size of the
    feature dimension of x, if any); the shape errors are those of M_LtiSsm. *)
Inductive how := Elem | Elem0 | Mat | Vec.
Definition mult_d (k : how) (x m : dtype) : res dtype :=
  match k with
  | Elem => Ok (promote x m)
  | Elem0 => Ok (promote0 x m)
  | Mat => mm_d x m
  | Vec => vecdot_d m x
  end.
(** ssm.py:460-485 *)
Definition how_B (s : list nat) (batch_size M : nat) (f : option nat) : res how :=
  match s with
  | [BM] => if BM =? M then guard negb (if f then true else false) else AssertionError in Ok Elem else Err ValueError
  | [B0; B1] =>
      if (B0 =? batch_size) && (B1 =? M) then guard negb (if f then true else false) else AssertionError in Ok Elem
      else if (B0 =? M) && feq B1 f then Ok Mat
      else Err ValueError
  | [B0; B1; B2] => if (B0 =? batch_size) && (B1 =? M) && feq B2 f then Ok Vec else Err ValueError
  | _ => Err ValueError
  end.
(** ssm.py:534-566 *)
Definition how_D (s : list nat) (batch_size : nat) (f : option nat) : res how :=
  match s with
  | [] => Ok Elem0
  | [D0] =>
      if feq D0 f then Ok Mat
      else if D0 =? batch_size then guard negb (if f then true else false) else AssertionError in Ok Elem
      else if D0 =? 1 then Ok Elem
      else guard negb (if f then true else false) else AssertionError in Ok Elem
  | [D0; D1] =>
      if (D0 =? batch_size) && feq D1 f then Ok Vec
      else if D0 =? batch_size then guard negb (if f then true else false) else AssertionError in Ok Elem
      else if feq D1 f then Ok Mat
      else Err ValueError
  | [D0; D1; D2] => if (D0 =? batch_size) && feq D2 f then Ok Vec else Err ValueError
  | _ => Err ValueError
  end.
(** ssm.py:568-584 *)
Definition how_C (s : list nat) (batch_size M : nat) : res how :=
  match s with
  | [C0] => if C0 =? M then Ok Mat else Err ValueError
  | [C0; C1] =>
      if (C0 =? batch_size) && (C1 =? M) then Ok Vec else if C1 =? M then Ok Mat else Err ValueError
  | [C0; C1; C2] => if (C0 =? batch_size) && (C2 =? M) then Ok Mat else Err ValueError
  | _ => Err ValueError
  end.
(** An optional tensor: its shape and dtype. *)
Notation arg := (option (list nat * dtype)).
Definition state_space_d (ext cuda : bool) (batch_size N M : nat) (f : option nat) (A x : dtype)
  (B C D : arg) (zi : option dtype) (unroll_factor : option nat) : res (dtype * option dtype) :=
  let return_zf := if zi then true else false in
  let z := match zi with None => x | Some z => z end in                         (* 445-450: x.new_zeros *)
  let unroll_factor := match unroll_factor with Some u => u | None => round_sqrt N end in
  let* Bx := match B with
             | None => Ok x
             | Some (s, d) => let* k := how_B s batch_size M f in mult_d k x d
             end in                                                             (* 460-485 *)
  let* h :=                                                                     (* 487-504 *)
    if ext && ((M =? 2) || (negb cuda && (2 <=? M))) && (unroll_factor =? 1)
    then op_d cuda (if M =? 2 then LtiRecur2 else LtiRecurN) A z Bx
    else state_space_recursion_d (S N) A z Bx N unroll_factor in
  let h' := promote z h in                                                      (* cat with zi *)
  let* Dx := match D with
             | None => Ok None
             | Some (s, d) => let* k := how_D s batch_size f in let* r := mult_d k x d in Ok (Some r)
             end in
  let* Ch := match C with
             | None => Ok h'
             | Some (s, d) => let* k := how_C s batch_size M in mult_d k h' d
             end in
  let y := match Dx with None => Ch | Some r => promote Ch r end in
  Ok (y, if return_zf then Some h else None).

(** ** lti/filtering.py:273-333 _ssm_lfilter from rest.  [ba], [bb]: a, b have a batch
    dimension; M is the order after padding; x is (batch, time).  fir (145-208) uses
    conv1d / conv_transpose1d, which require equal types. *)
Definition lfilter_d (ext cuda : bool) (fm : form) (batch_size N M : nat) (ba bb : bool) (b a x : dtype)
  (unroll_factor : option nat) : res dtype :=
  let bc := promote b a in                                                      (* b[..., 1:] - b0 * a *)
  let sc := if ba || bb then [batch_size; M] else [M] in
  let sd := if bb then [batch_size] else [] in
  let u := match unroll_factor with Some u => u | None => 1 end in             (* state_space_recursion's default *)
  match fm with
  | Df2 =>
      let* r := state_space_d ext cuda batch_size N M None a x None (Some (sc, bc)) (Some (sd, b)) None unroll_factor in
      Ok (fst r)
  | Tdf2 =>
      let* r := state_space_d ext cuda batch_size N M None a x (Some (sc, bc)) None (Some (sd, b)) None unroll_factor in
      Ok (fst r)
  | Df1 =>
      let* v := mm_d x b in state_space_recursion_d (S N) a x v N u
  | Tdf1 =>
      let* v := state_space_recursion_d (S N) a x x N u in mm_d v b
  | OtherForm => Err ValueError
  end.
