(** Element types, continued: lpv.state_space, diag_state_space and the diag_ssm back-end of
    lfilter (same conventions and restrictions as in M_Dtype). *)
From Coq Require Import List Arith Lia Bool.
From Verif Require Import Tensor M_LtiSsm M_LtiFilter M_Dtype.
Import ListNotations.
Open Scope res_scope.

Notation no_features f := (negb (match f with Some _ => true | None => false end)).
Notation with_features f := (match f with Some _ => true | None => false end).

(** ** lpv/ssm.py:337-581 state_space *)
(** ssm.py:413-452 *)
Definition lpv_how_B (s : list nat) (batch_size N M : nat) (f : option nat) : res how :=
  match s with
  | [B0] => if B0 =? M then guard no_features f else AssertionError in Ok Elem else Err ValueError
  | [B0; B1] =>
      if (B0 =? M) && feq B1 f then Ok Mat
      else if (B0 =? N) && (B1 =? M) then guard no_features f else AssertionError in Ok Elem
      else if (B0 =? batch_size) && (B1 =? M) then guard no_features f else AssertionError in Ok Elem
      else Err ValueError
  | [B0; B1; B2] =>
      if (B0 =? N) && (B1 =? M) && feq B2 f then Ok Vec
      else if (B0 =? batch_size) && (B2 =? M) && (B1 =? N) then guard no_features f else AssertionError in Ok Elem
      else if (B0 =? batch_size) && (B1 =? M) && feq B2 f then Ok Vec
      else Err ValueError
  | [B0; B1; B2; B3] =>
      if (B0 =? batch_size) && (B2 =? M) && (B1 =? N) && feq B3 f then Ok Vec else Err ValueError
  | _ => Err ValueError
  end.
(** ssm.py:480-545 *)
Definition lpv_how_D (s : list nat) (batch_size N : nat) (f : option nat) : res how :=
  match s with
  | [] => Ok Elem0
  | [D0] =>
      if feq D0 f then Ok Mat
      else if D0 =? N then guard no_features f else AssertionError in Ok Elem
      else if D0 =? batch_size then guard no_features f else AssertionError in Ok Elem
      else if D0 =? 1 then Ok Elem
      else guard no_features f else AssertionError in Ok Elem
  | [D0; D1] =>
      if (D0 =? N) && feq D1 f then Ok Vec
      else if (D0 =? batch_size) && feq D1 f then Ok Vec
      else if D0 =? N then guard no_features f else AssertionError in Ok Elem
      else if (D0 =? batch_size) && (D1 =? N) then guard no_features f else AssertionError in Ok Elem
      else if D0 =? batch_size then guard no_features f else AssertionError in Ok Elem
      else if feq D1 f then guard with_features f else AssertionError in Ok Mat
      else Err ValueError
  | [D0; D1; D2] =>
      if (D0 =? batch_size) && (D1 =? N) && feq D2 f then Ok Vec
      else if (D0 =? batch_size) && (D1 =? N) then guard no_features f else AssertionError in Ok Elem
      else if (D0 =? N) && feq D2 f then Ok Vec
      else if (D0 =? batch_size) && feq D2 f then Ok Mat
      else Err ValueError
  | [D0; D1; D2; D3] =>
      if (D0 =? batch_size) && (D1 =? N) && feq D3 f then Ok Vec else Err ValueError
  | _ => Err ValueError
  end.
(** ssm.py:549-570 *)
Definition lpv_how_C (s : list nat) (batch_size N M : nat) : res how :=
  match s with
  | [C0] => if C0 =? M then Ok Mat else Err ValueError
  | [C0; C1] =>
      if (C0 =? N) && (C1 =? M) then Ok Vec
      else if (C0 =? batch_size) && (C1 =? M) then Ok Vec
      else if C1 =? M then Ok Mat
      else Err ValueError
  | [C0; C1; C2] =>
      if (C0 =? N) && (C2 =? M) then Ok Vec
      else if (C0 =? batch_size) && (C2 =? M) && (C1 =? N) then Ok Vec
      else if (C0 =? batch_size) && (C2 =? M) then Ok Mat
      else Err ValueError
  | [C0; C1; C2; C3] =>
      if (C0 =? batch_size) && (C3 =? M) && (C1 =? N) then Ok Vec else Err ValueError
  | _ => Err ValueError
  end.
(** For M = 1 the extension path calls torchlpc (ssm.py:188-195), whose element types are the
    parameter [lpc_d] (x, a, zi). *)
Definition lpv_state_space_d (lpc_d : dtype -> dtype -> dtype -> res dtype) (ext cuda : bool)
  (batch_size N M : nat) (f : option nat) (A x : dtype)
  (B C D : arg) (zi : option dtype) (unroll_factor : option nat) : res (dtype * option dtype) :=
  let return_zf := if zi then true else false in
  let z := match zi with None => x | Some z => z end in                         (* 398-403: x.new_zeros *)
  let unroll_factor := match unroll_factor with Some u => u | None => round_sqrt N end in
  let* Bx := match B with
             | None => Ok x
             | Some (s, d) => let* k := lpv_how_B s batch_size N M f in mult_d k x d
             end in
  let* h :=                                                                     (* 456-473 *)
    if ext && (negb cuda || (M <=? 2)) && (unroll_factor =? 1)
    then if M =? 1 then lpc_d Bx A z else op_d cuda (if M =? 2 then Recur2 else RecurN) A z Bx
    else lpv_state_space_recursion_d (S N) A z Bx N unroll_factor in
  let h' := promote z h in                                                      (* cat with zi *)
  let* Dx := match D with
             | None => Ok None
             | Some (s, d) => let* k := lpv_how_D s batch_size N f in let* r := mult_d k x d in Ok (Some r)
             end in
  let* Ch := match C with
             | None => Ok h'
             | Some (s, d) => let* k := lpv_how_C s batch_size N M in mult_d k h' d
             end in
  let y := match Dx with None => Ch | Some r => promote Ch r end in
  Ok (y, if return_zf then Some h else None).

(** ** lti/ssm.py:592-833 diag_state_space *)
(** torch.linalg.eigvals, inv, solve: no integers, no half precision. *)
Definition linalg_d (d : dtype) : res dtype :=
  guard match d with F32 | F64 | C64 | C128 => true | _ => false end else RuntimeError in Ok d.
(** eigvals of a real matrix are complex numbers too. *)
Definition eigvals_d (A : dtype) : res dtype := let* d := linalg_d A in Ok (to_complex d).
(** mat.py:24-39 find_eigenvectors: [W = A - L * I], a least squares solution, its norm. *)
Definition find_eigenvectors_d (A L : dtype) : res dtype :=
  let W := promote A (promote L A) in
  let* WtW := mm_d W W in
  let* X := linalg_d WtW in
  Ok X.
(** [t + 0j] (the default dtype of torch is float32). *)
Definition plus_0j (d : dtype) : dtype := match d with I64 => C64 | d => to_complex d end.
Definition real_part (d : dtype) : dtype := match d with C32 => F16 | C64 => F32 | C128 => F64 | d => d end.
(** ssm.py:647-722: the types of L, V, Vinv. *)
Definition diag_resolve_d (x : dtype) (L V Vinv A : option dtype) : res (dtype * dtype * dtype) :=
  let* ' (L, V, Vinv) :=
    match L with
    | None => match A with
              | None => Err AssertionError
              | Some A => let* L := eigvals_d A in Ok (L, None, None)
              end
    | Some L => Ok (L, V, Vinv)
    end in
  match V, Vinv, A with
  | None, None, None => Ok (L, x, x)                                            (* 709: torch.eye(dtype=x.dtype) *)
  | None, None, Some A =>
      let* V := find_eigenvectors_d A L in
      let* Vinv := linalg_d V in
      Ok (L, V, Vinv)
  | None, Some Vinv, _ => let* V := linalg_d Vinv in Ok (L, V, Vinv)
  | Some V, None, _ => let* Vinv := linalg_d V in Ok (L, V, Vinv)
  | Some V, Some Vinv, _ => Ok (L, V, Vinv)
  end.
(** [bv]: Vinv is three-dimensional. *)
Definition diag_state_space_d (ext cuda : bool) (batch_size N M : nat) (f : option nat) (bv : bool) (x : dtype)
  (L V Vinv A : option dtype) (B C D : arg) (zi : option dtype) (unroll_factor : option nat)
  : res (dtype * option dtype) :=
  let unroll_factor := match unroll_factor with Some u => u | None => round_sqrt N end in
  let* ' (L, V, Vinv) := diag_resolve_d x L V Vinv A in
  let return_zf := if zi then true else false in
  let zi := match zi with None => x | Some z => z end in                        (* 724-729 *)
  let x_orig := x in                                                            (* 731-738 *)
  let cx d := if is_cplx Vinv then plus_0j d else d in
  let zi := cx zi in
  let x := cx x in
  let* Vinvzi := if bv then vecdot_d Vinv zi else mm_d zi Vinv in               (* 740-746 *)
  let* VinvBx :=                                                                (* 748-792 *)
    match B with
    | Some (s, b) =>
        let b := cx b in
        let* k := how_B s batch_size M f in
        let* VinvB := if bv && (length s =? 2) && no_features f then vecdot_d Vinv b else mm_d Vinv b in
        mult_d k x VinvB
    | None => if f then mm_d x Vinv else Ok (promote x Vinv)
    end in
  let* Vinvh :=                                                                 (* 794-804 *)
    if ext && (unroll_factor =? 1) then op_d cuda LtiRecur L Vinvzi VinvBx
    else linear_recurrence_d (S N) (1 <? batch_size * M) L Vinvzi VinvBx N unroll_factor in
  let* h := mm_d V Vinvh in                                                     (* 805-824 *)
  let zf := h in
  let h := promote zi h in
  let real_out := match C with Some (_, c) => negb (is_cplx c) | None => false end in  (* 826-828 *)
  let h := if real_out then real_part h else h in
  let zf := if real_out then real_part zf else zf in
  let* Dx := match D with                                                       (* 830: _ssm_C_D with x_orig *)
             | None => Ok None
             | Some (s, d) => let* k := how_D s batch_size f in let* r := mult_d k x_orig d in Ok (Some r)
             end in
  let* Ch := match C with
             | None => Ok h
             | Some (s, d) => let* k := how_C s batch_size M in mult_d k h d
             end in
  let y := match Dx with None => Ch | Some r => promote Ch r end in
  Ok (y, if return_zf then Some zf else None).

(** ** lti/filtering.py:336-416 _diag_ssm_lfilter, b not longer than a (with its implicit
    one).  [ba], [bb]: a, b have a batch dimension. *)
Definition diag_lfilter_d (ext cuda : bool) (fm : form) (batch_size N M : nat) (ba bb : bool) (b a x : dtype)
  (zi : option dtype) (unroll_factor : option nat) : res (dtype * option dtype) :=
  let bc := promote b a in                                                      (* b[..., 1:] - b0 * a *)
  let sc := if ba || bb then [batch_size; M] else [M] in
  let sd := if bb then [batch_size] else [] in
  match fm with
  | Df2 => diag_state_space_d ext cuda batch_size N M None ba x None None None (Some a)
             None (Some (sc, bc)) (Some (sd, b)) zi unroll_factor
  | Tdf2 => diag_state_space_d ext cuda batch_size N M None ba x None None None (Some a)
              (Some (sc, bc)) None (Some (sd, b)) zi unroll_factor
  | _ => Err ValueError
  end.
