(** Element types, continued: the filters with states, the functions that compute states, and
    the parameter-varying filters (same conventions and restrictions as in M_Dtype). *)
From Coq Require Import List Arith Lia Bool.
From Verif Require Import Tensor M_LtiSsm M_LtiFilter M_Dtype M_Dtype2.
Import ListNotations.
Open Scope res_scope.

(** ** lti/filtering.py:145-208 fir.  conv1d and conv_transpose1d require equal types. *)
Definition fir_d (transpose : bool) (b x : dtype) (zi : option dtype) : res (dtype * option dtype) :=
  if transpose then
    let* y := mm_d x b in                                                       (* 181-186 *)
    match zi with
    | Some z => Ok (promote z y, Some y)                                        (* 187-191: cat of zi + y[:, :M] and y[:, M:] *)
    | None => Ok (y, None)
    end
  else
    let padded_x := match zi with None => x | Some z => promote z x end in      (* 194-199 *)
    let* y := mm_d padded_x b in                                                (* 201-205 *)
    Ok (y, match zi with None => None | Some _ => Some padded_x end).

(** ** lti/filtering.py:273-333 _ssm_lfilter with an optional zi (ignored by df1 and tdf1). *)
Definition lfilter_state_d (ext cuda : bool) (fm : form) (batch_size N M : nat) (ba bb : bool) (b a x : dtype)
  (zi : option dtype) (unroll_factor : option nat) : res (dtype * option dtype) :=
  let bc := promote b a in
  let sc := if ba || bb then [batch_size; M] else [M] in
  let sd := if bb then [batch_size] else [] in
  match fm with
  | Df2 => state_space_d ext cuda batch_size N M None a x None (Some (sc, bc)) (Some (sd, b)) zi unroll_factor
  | Tdf2 => state_space_d ext cuda batch_size N M None a x (Some (sc, bc)) None (Some (sd, b)) zi unroll_factor
  | _ => let* y := lfilter_d ext cuda fm batch_size N M ba bb b a x unroll_factor in Ok (y, None)
  end.

(** ** lti/filtering.py:74-104 lfiltic *)
Definition lfiltic_d (b a y : dtype) (x : option dtype) : res dtype :=
  let x := match x with None => b | Some x => x end in                          (* 93-94: b.new_zeros *)
  let* zi_b := mm_d b x in                                                      (* 98 *)
  let* zi_a := mm_d a y in                                                      (* 99 *)
  Ok (promote zi_b zi_a).                                                       (* 104 *)
(** ** lti/filtering.py:107-142 lfilter_zi *)
Definition lfilter_zi_d (a : dtype) (b : option dtype) (transpose : bool) : res dtype :=
  let* B :=
    if negb transpose then Ok a                                                 (* 118-122: a.new_zeros *)
    else match b with
         | Some b => Ok (promote b a)                                           (* 131 *)
         | None => Err ValueError                                               (* 133-135 *)
         end in
  let* s := mm_d a B in                                                         (* 141: torch.linalg.solve *)
  linalg_d s.
(** ** lti/filtering.py:413-484 filtfilt with method="pad", for the forms with states. *)
Definition filtfilt_d (ext cuda : bool) (fm : form) (batch_size N M : nat) (ba bb : bool) (b a x : dtype)
  (unroll_factor : option nat) : res dtype :=
  match fm with
  | Df2 | Tdf2 =>
      let* zi := lfilter_zi_d a (Some b) (match fm with Tdf2 => true | _ => false end) in
      let* r := lfilter_state_d ext cuda fm batch_size N M ba bb b a x (Some (promote zi x)) unroll_factor in
      let y := fst r in
      let* r := lfilter_state_d ext cuda fm batch_size N M ba bb b a y (Some (promote zi y)) unroll_factor in
      Ok (fst r)
  | _ => Err ValueError
  end.
(** ** lti/filtering.py:15-71 comb_filter, one coefficient per signal; [N] is the number of
    samples after padding.  Without the extension the operator does not exist. *)
Definition comb_filter_d (ext : bool) (batch_size delay N : nat) (a x : dtype) (zi : option dtype) (unroll_factor : option nat)
  : res (dtype * option dtype) :=
  let init := match zi with None => a | Some z => z end in                      (* 36, 54: torch.zeros_like(a) *)
  let u := match unroll_factor with Some u => u | None => 1 end in
  if delay =? 1 then
    let* y := linear_recurrence_d (S N) (1 <? batch_size) a init x N u in Ok (y, None)
  else
    guard negb (delay =? 0) else ZeroDivisionError in                           (* 41 *)
    let* y := if ext then linear_recurrence_d (S (N / delay)) (1 <? batch_size * delay) a init x (N / delay) u
              else Err AttributeError in
    Ok (y, match zi with None => None | Some _ => Some y end).

(** ** The parameter-varying filters.  [lpc_d]: the element types of torchlpc's
    sample_wise_lpc (x, a, zi), of the signal and of the final state. *)
Section Lpv.
Variable lpc_d : dtype -> dtype -> option dtype -> res (dtype * dtype).
Definition lpc_y (x a z : dtype) : res dtype := let* r := lpc_d x a (Some z) in Ok (fst r).

(** lpv/filtering.py:19-85 fir *)
Definition lpv_fir_d (transpose : bool) (b x : dtype) (zi : option dtype) : res (dtype * option dtype) :=
  if transpose then
    let* y := vecdot_d b x in                                                   (* 58-65 *)
    match zi with
    | Some z => Ok (promote (promote y z) y, Some y)                            (* 66-77 *)
    | None => Ok (y, None)
    end
  else
    let unfolded_x := promote (match zi with None => x | Some z => z end) x in  (* 80 *)
    let* y := vecdot_d unfolded_x b in                                          (* 81 *)
    Ok (y, match zi with None => None | Some _ => Some unfolded_x end).
(** lpv/filtering.py:88-135 allpole *)
Definition lpv_allpole_d (transpose : bool) (a x : dtype) (zi : option dtype) : res (dtype * option dtype) :=
  let z := match zi with None => x | Some z => z end in
  if transpose then
    let x := promote (promote z x) (promote x z) in                             (* 125-129 *)
    let* r := lpc_d x a None in                                                 (* 130 *)
    Ok (fst r, match zi with None => None | Some _ => Some (fst r) end)
  else
    let* r := lpc_d x a (Some z) in                                             (* 135 *)
    Ok (fst r, match zi with None => None | Some _ => Some (snd r) end).

(** lpv/filtering.py:288-370 _ssm_lfilter.  [ba], [bb]: a, b have a batch dimension. *)
Definition lpv_recur_d (ext cuda : bool) (N M : nat) (A z x : dtype) (unroll_factor : option nat) : res dtype :=
  if ext && (negb cuda || (M <=? 2))                                            (* 338-342, 354-358 *)
  then if M =? 1 then lpc_y x A z else op_d cuda (if M =? 2 then Recur2 else RecurN) A z x
  else lpv_state_space_recursion_d (S N) A z x N (match unroll_factor with Some u => u | None => 1 end).
Definition lpv_lfilter_d (ext cuda : bool) (fm : form) (batch_size N M : nat) (ba bb : bool) (b a x : dtype)
  (zi : option dtype) (unroll_factor : option nat) : res (dtype * option dtype) :=
  let bc := promote b a in                                                      (* 307, 321 *)
  let sc := if ba || bb then [batch_size; N; M] else [N; M] in
  let sd := if bb then [batch_size; N] else [N] in
  match fm with
  | Df2 => lpv_state_space_d lpc_y ext cuda batch_size N M None a x None (Some (sc, bc)) (Some (sd, b)) zi unroll_factor
  | Tdf2 => lpv_state_space_d lpc_y ext cuda batch_size N M None a x (Some (sc, bc)) None (Some (sd, b)) zi unroll_factor
  | Df1 =>
      let* v := lpv_fir_d false b x None in
      let* y := lpv_recur_d ext cuda N M a x (fst v) unroll_factor in Ok (y, None)
  | Tdf1 =>
      let* v := lpv_recur_d ext cuda N M a x x unroll_factor in
      lpv_fir_d true b v None
  | OtherForm => Err ValueError
  end.
(** lpv/filtering.py:197-285 _torchlpc_lfilter.  [b_longer]: b has more than M + 1
    coefficients. *)
Definition torchlpc_lfilter_d (fm : form) (b_longer : bool) (b a x : dtype) (zi : option dtype) : res (dtype * option dtype) :=
  let z := match zi with None => x | Some z => z end in                         (* 229-230 *)
  match fm with
  | Df2 =>
      let* r := lpv_allpole_d false a x (Some z) in                             (* 248 *)
      let* s := lpv_fir_d false b (fst r) (Some z) in                           (* 249-250 *)
      Ok (fst s, match zi with None => None | Some _ => if b_longer then snd s else snd r end)
  | Tdf2 => Err NotImplementedError
  | Df1 =>
      let* r := lpv_fir_d false b x None in
      lpv_allpole_d false a (fst r) None
  | Tdf1 =>
      let* r := lpv_allpole_d true a x None in
      lpv_fir_d true b (fst r) None
  | OtherForm => Err ValueError
  end.
End Lpv.
