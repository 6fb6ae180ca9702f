(** Model of philtorch/lti/filtering.py (the diagonal back-end is in M_Diag) and of the
    torch convolutions it uses.

    [e : env] is the back-end configuration, [la] supplies torch.linalg.solve.
    [unroll_factor] is the only keyword argument of the callees that is modelled;
    [None] means it is not passed.  A result [(y, zf)] stands for the Python value [y]
    when [zf] is [None] and for the tuple otherwise. *)
From Coq Require Import List Arith Lia ZArith Bool.
From Verif Require Import Scalar Tensor M_Mat M_Kernels M_LtiRecur M_LtiSsm.
Import ListNotations.
Open Scope res_scope.

(** The [form] argument. *)
Inductive form := Df2 | Tdf2 | Df1 | Tdf1 | OtherForm.

Section LtiFilter.
Variable R : cops.
Notation ten := (tensor (car R)).
Variable e : env.

(** F.conv1d(x, w, groups=B) for x of shape (1, B, L) and w of shape (B, 1, K). *)
Definition conv1d_groups (x w : ten) (groups : nat) : res ten :=
  guard (rk x =? 3) && (rk w =? 3) && (size x 1 =? groups) && (size w 0 =? groups) && (size w 1 =? 1) && (1 <=? size w 2)
    && (size w 2 <=? size x 2) else RuntimeError in
  Ok (mkT [size x 0; groups; size x 2 - size w 2 + 1] (fun idx =>
        bsum (size w 2) (fun k => rmul (at_ w [nth 1 idx 0; 0; k])
                                       (at_ x [nth 0 idx 0; nth 1 idx 0; nth 2 idx 0 + k])))).
(** F.conv_transpose1d(x, w, stride=1, groups=B), same shapes. *)
Definition conv_transpose1d_groups (x w : ten) (groups : nat) : res ten :=
  guard (rk x =? 3) && (rk w =? 3) && (size x 1 =? groups) && (size w 0 =? groups) && (size w 1 =? 1) && (1 <=? size w 2)
    else RuntimeError in
  Ok (mkT [size x 0; groups; size x 2 + size w 2 - 1] (fun idx =>
        bsum (size w 2) (fun k =>
          if (k <=? nth 2 idx 0) && (nth 2 idx 0 - k <? size x 2)
          then rmul (at_ w [nth 1 idx 0; 0; k]) (at_ x [nth 0 idx 0; nth 1 idx 0; nth 2 idx 0 - k])
          else r0))).

(** filtering.py:145-208 fir *)
Definition fir (b x : ten) (zi : option ten) (transpose : bool) : res (ten * option ten) :=
  guard rk b =? 2 else AssertionError in                                        (* 167 *)
  guard rk x =? 2 else AssertionError in                                        (* 168 *)
  let B := size x 0 in
  guard size b 0 =? B else AssertionError in                                    (* 170 *)
  let M := (Z.of_nat (size b 1) - 1)%Z in (* 171; -1 only for an empty b *)
  guard match zi with
        | None => true
        | Some z => (rk z =? 2) && (size z 0 =? B) && (Z.of_nat (size z 1) =? M)%Z
        end else AssertionError in                                              (* 173-178 *)
  if transpose then
    let* y3 := conv_transpose1d_groups (unsqueeze 0 x) (tconj (unsqueeze 1 b)) B in
    let y := squeeze 0 y3 in                                                    (* 181-186 *)
    match zi with
    | Some zi =>
        let zf := slice 1 (Some (- M)%Z) None y in                              (* 188 *)
        let y := slice 1 None (Some (- M)%Z) y in                               (* 189 *)
        let* h := tadd zi (slice 1 None (Some M) y) in
        let* y := cat 1 [h; slice 1 (Some M) None y] in                         (* 190 *)
        Ok (y, Some zf)
    | None => Ok (slice 1 None (Some (- M)%Z) y, None)                          (* 192 *)
    end
  else
    let* ' (padded_x, zf) :=
      match zi with
      | None => let* p := padZ 1 M 0 r0 x in Ok (p, None)                       (* 195-196 *)
      | Some zi =>
          let* p := cat 1 [flip 1 zi; x] in                                     (* 198 *)
          Ok (p, Some (flip 1 (slice 1 (Some (- M)%Z) None p)))                 (* 199 *)
      end in
    let* y3 := conv1d_groups (unsqueeze 0 padded_x) (unsqueeze 1 (flip 1 b)) B in
    Ok (squeeze 0 y3, zf).                                                      (* 201-208 *)

(** filtering.py:273-333 _ssm_lfilter *)
Definition ssm_lfilter (fm : form) (unroll_factor : option nat) (b a x : ten) (zi : option ten)
  : res (ten * option ten) :=
  let nb := sizen b 1 in let na := sizen a 1 in
  let b := if nb <? na + 1 then pad (rk b - 1) 0 (na + 1 - nb) r0 b else b in   (* 282-283 *)
  let a := if na + 1 <? nb then pad (rk a - 1) 0 (nb - na - 1) r0 a else a in   (* 284-285 *)
  let* A := companion a in                                                      (* 287 *)
  let uf1 := match unroll_factor with Some u => u | None => 1 end in
  match fm with
  | Df2 =>                                                                      (* 290-303 *)
      let* b0a := tmul (slice (rk b - 1) None (Some 1%Z) b) a in
      let* C := tsub (slice (rk b - 1) (Some 1%Z) None b) b0a in
      let* D := select (rk b - 1) 0 b in
      state_space e A x None (Some C) (Some D) zi unroll_factor None
  | Tdf2 =>                                                                     (* 304-317 *)
      let* b0a := tmul (slice (rk b - 1) None (Some 1%Z) b) a in
      let* B := tsub (slice (rk b - 1) (Some 1%Z) None b) b0a in
      let* D := select (rk b - 1) 0 b in
      state_space e (tconj (mT A)) x (Some (tconj B)) None (Some (tconj D)) zi unroll_factor (Some 0%Z)
  | Df1 =>                                                                      (* 318-323 *)
      let zi := zeros [size x 0; sizen A 1] in
      let* bb := expand [size x 0; sizen b 1] b in
      let* ' (u, _) := fir bb x None true in
      let* y := state_space_recursion e A zi u uf1 (Some 0%Z) in
      Ok (y, None)
  | Tdf1 =>                                                                     (* 324-329 *)
      let zi := zeros [size x 0; sizen A 1] in
      let* bb := expand [size x 0; sizen b 1] (tconj b) in
      let* u := state_space_recursion e (tconj (mT A)) zi x uf1 (Some 0%Z) in
      fir bb u None true
  | OtherForm => Err ValueError                                                 (* 330-331 *)
  end.

(** filtering.py:211-270 lfilter, for a back-end function [core]. *)
Definition lfilter_wrap (core : ten -> ten -> ten -> option ten -> res (ten * option ten))
  (b a x : ten) (zi : option ten) : res (ten * option ten) :=
  let squeeze_first := (rk x =? 1) && (rk b =? 1) && (rk a =? 1)
                       && match zi with None => true | Some z => rk z =? 1 end in  (* 242-247 *)
  let* x := if rk x =? 1 then Ok (unsqueeze 0 x)
            else if 2 <? rk x then Err ValueError else Ok x in                  (* 248-251 *)
  guard (rk b =? 1) || (rk b =? 2) else AssertionError in                       (* 253 *)
  guard (rk a =? 1) || (rk a =? 2) else AssertionError in                       (* 254 *)
  let* ' (y, zf) := core b a x zi in                                            (* 256-262 *)
  if squeeze_first
  then Ok (squeeze 0 y, match zf with Some z => Some (squeeze 0 z) | None => None end)
  else Ok (y, zf).                                                              (* 264-270 *)
Definition lfilter_ssm (b a x : ten) (zi : option ten) (fm : form) (unroll_factor : option nat)
  : res (ten * option ten) :=
  lfilter_wrap (ssm_lfilter fm unroll_factor) b a x zi.

(** [t.repeat_interleave(n)] of a 1-D tensor. *)
Definition repeat_interleave (n : nat) (t : ten) : ten :=
  mkT [size t 0 * n] (fun idx => at_ t [nth 0 idx 0 / n]).
(** [t.repeat(n)] of a 1-D tensor. *)
Definition repeat1 (n : nat) (t : ten) : ten :=
  mkT [n * size t 0] (fun idx => at_ t [nth 0 idx 0 mod size t 0]).

(** filtering.py:15-71 comb_filter.  [delay] is a natural number (line 30 rejects the
    others). *)
Definition comb_filter (a : ten) (delay : nat) (x : ten) (zi : option ten) (unroll_factor : option nat)
  : res (ten * option ten) :=
  guard rk a <=? 1 else AssertionError in                                       (* 28 *)
  guard rk x =? 2 else AssertionError in                                        (* 29 *)
  guard negb (rk a =? 1) || (size a 0 =? size x 0) else AssertionError in       (* 31-34 *)
  let uf := match unroll_factor with Some u => u | None => 1 end in
  if delay =? 1 then                                                            (* 36-39 *)
    let* y := linear_recurrence (tneg a)
                (match zi with None => zeros_like a | Some z => squeeze (rk z - 1) z end) x uf in
    Ok (y, None)
  else
  guard negb (delay =? 0) else ZeroDivisionError in                             (* 41 *)
  let remainder := size x 1 mod delay in
  let x := if negb (remainder =? 0) then pad 1 0 (delay - remainder) r0 x else x in  (* 42-43 *)
  let* x3 := unflatten_m1 1 delay x in
  let folded_x := mT x3 in                                                      (* 45 *)
  let a := if rk a =? 1 then repeat_interleave delay a else a in                (* 46-47 *)
  let return_zf := match zi with Some _ => true | None => false end in
  let zi := match zi with
            | Some z => if rk z =? 1 then repeat1 (size x 0) (flip 0 z)
                        else flatten 0 (rk z - 1) (flip 1 z)                    (* 48-53 *)
            | None => zeros_like a                                              (* 54-56 *)
            end in
  let* y2 := if ext e then linear_recurrence (tneg a) zi (flatten 0 1 folded_x) uf
             else LTIRecurrence_forward e (tneg a) zi (flatten 0 1 folded_x) in (* 58-63 *)
  let* y3 := unflatten_m1 0 delay y2 in
  let y := flatten 1 2 (mT y3) in                                               (* 64-66 *)
  let y := if negb (remainder =? 0)
           then slice 1 None (Some (- Z.of_nat (delay - remainder))%Z) y else y in  (* 67-68 *)
  Ok (y, if return_zf then Some (flip 1 (slice 1 (Some (- Z.of_nat delay)%Z) None y)) else None).

(** filtering.py:74-104 lfiltic *)
Definition lfiltic (b a y : ten) (x : option ten) : res ten :=
  guard 1 <=? rk b else AssertionError in                                       (* 85 *)
  guard 1 <=? rk a else AssertionError in                                       (* 86 *)
  let n := sizen a 1 in let m := sizen b 1 - 1 in                               (* 88-89 *)
  let k := Nat.max n m in                                                       (* 90 *)
  let x := match x with Some x => x | None => zeros [m] end in                  (* 92-93 *)
  let* bp := padZ (rk b - 1) 0 (Z.of_nat m - 1) r0 (slice (rk b - 1) (Some 1%Z) None b) in
  let* b_mat := unfold (rk bp - 1) m bp in                                      (* 95 *)
  let* ap := padZ (rk a - 1) 0 (Z.of_nat n - 1) r0 a in
  let* a_mat := unfold (rk ap - 1) n ap in                                      (* 96 *)
  let* zb := matmul b_mat (unsqueeze (rk x) x) in
  let zi_b := squeeze (rk zb - 1) zb in                                         (* 97 *)
  let* za := matmul a_mat (unsqueeze (rk y) y) in
  let zi_a := squeeze (rk za - 1) za in                                         (* 98 *)
  let zi_b := if sizen zi_b 1 <? k then pad (rk zi_b - 1) 0 (k - sizen zi_b 1) r0 zi_b else zi_b in
  let zi_a := if sizen zi_a 1 <? k then pad (rk zi_a - 1) 0 (k - sizen zi_a 1) r0 zi_a else zi_a in
  tsub zi_b zi_a.                                                               (* 99-104 *)

(** filtering.py:107-142 lfilter_zi *)
Definition lfilter_zi (la : linalg R) (a : ten) (b : option ten) (transpose : bool) : res ten :=
  guard 1 <=? rk a else AssertionError in                                       (* 116 *)
  let* ' (n, A, B) :=
    if negb transpose then                                                      (* 118-122 *)
      let n := sizen a 1 + 1 in
      let* A := companion a in
      guard 1 <=? n - 1 else IndexError in
      Ok (n, A, mkT [n - 1] (fun idx => if nth 0 idx 0 =? 0 then r1 else r0))
    else match b with
    | Some b =>                                                                 (* 123-131 *)
        guard 1 <=? rk b else AssertionError in
        let n := Nat.max (sizen b 1) (sizen a 1 + 1) in
        let b := if sizen b 1 <? n then pad (rk b - 1) 0 (n - sizen b 1) r0 b else b in
        let a := if sizen a 1 <? n - 1 then pad (rk a - 1) 0 (n - 1 - sizen a 1) r0 a else a in
        let* A := companion a in
        let* b0a := tmul (slice (rk b - 1) None (Some 1%Z) b) a in
        let* B := tsub (slice (rk b - 1) (Some 1%Z) None b) b0a in
        Ok (n, tconj (mT A), B)
    | None => Err ValueError                                                    (* 132-135 *)
    end in
  let* IminusA := tsub (eye (n - 1)) A in                                       (* 137 *)
  let* IminusA :=
    if (rk IminusA =? 2) && (1 <? rk B)
    then expand (firstn (rk B - 1) (shape B) ++ [n - 1; n - 1]) IminusA else Ok IminusA in  (* 139-140 *)
  l_solve la IminusA B.                                                         (* 141 *)

(** The [padmode] argument of filtfilt and F.pad on the last dimension, both sides. *)
Inductive padmode := Replicate | Reflect | Circular | Constant.
Definition pad_index (pm : padmode) (N edge i : nat) : option nat :=
  match pm with
  | Replicate => Some (if i <? edge then 0 else if i - edge <? N then i - edge else N - 1)
  | Reflect => Some (if i <? edge then edge - i else if i - edge <? N then i - edge else 2 * (N - 1) - (i - edge))
  | Circular => Some (if i <? edge then N - (edge - i) else if i - edge <? N then i - edge else i - edge - N)
  | Constant => if (i <? edge) || (N <=? i - edge) then None else Some (i - edge)
  end.
Definition pad_mode (pm : padmode) (edge : nat) (t : ten) : ten :=
  let d := rk t - 1 in
  mkT (upd d (fun n => edge + n + edge) (shape t)) (fun idx =>
    match pad_index pm (size t d) edge (nth d idx 0) with
    | Some j => at_ t (upd d (fun _ => j) idx)
    | None => r0
    end).

(** [y, _ = value]: a tuple gives its first component; a tensor is iterated, which
    succeeds exactly when its first dimension has size 2. *)
Definition unpack2 (r : ten * option ten) : res ten :=
  match r with
  | (y, Some _) => Ok y
  | (y, None) => if size y 0 =? 2 then Ok (sel 0 0 y) else Err ValueError
  end.

(** filtering.py:413-484 filtfilt with method="pad" ([gust] is the other choice).
    [lf] is [lfilter] with the back-end and keyword arguments fixed. *)
Definition filtfilt_wrap (la : linalg R)
  (lf : ten -> ten -> ten -> option ten -> form -> res (ten * option ten))
  (b a x : ten) (pm : option padmode) (padlen : option nat) (gust : bool) (fm : form) : res ten :=
  guard negb gust else NotImplementedError in                                   (* 446-447 *)
  let padlen := match pm with None => Some 0 | Some _ => padlen end in          (* 449-450 *)
  let ntaps := Nat.max (sizen b 1) (sizen a 1 + 1) in                           (* 452 *)
  let edge := match padlen with None => 3 * ntaps | Some l => l end in          (* 453-456 *)
  guard edge <? sizen x 1 else AssertionError in                                (* 458-460 *)
  let ext :=
    match pm with
    | Some pm =>
        if 0 <? edge then                                                       (* 462-469 *)
          let v := if rk x =? 1 then unsqueeze 0 x else flatten 0 (rk x - 2) x in
          let p := pad_mode pm edge v in
          if rk x =? 1 then squeeze 0 p else p
        else x
    | None => x                                                                 (* 470-471 *)
    end in
  let* zi := lfilter_zi la a (Some b) (match fm with Tdf2 => true | _ => false end) in  (* 473 *)
  let x0 := slice (rk ext - 1) None (Some 1%Z) ext in                           (* 474 *)
  let* zx := tmul zi x0 in
  let* r := lf b a ext (Some zx) fm in
  let* y := unpack2 r in                                                        (* 476 *)
  let y0 := slice (rk y - 1) (Some (-1)%Z) None y in                            (* 477 *)
  let* zy := tmul zi y0 in
  let* r := lf b a (flip (rk y - 1) y) (Some zy) fm in
  let* y := unpack2 r in                                                        (* 479 *)
  let y := if 0 <? edge
           then slice (rk y - 1) (Some (Z.of_nat edge)) (Some (- Z.of_nat edge)%Z) y else y in  (* 481-482 *)
  Ok (flip (rk y - 1) y).                                                       (* 484 *)
Definition filtfilt_ssm (la : linalg R) (b a x : ten) (pm : option padmode) (padlen : option nat)
  (gust : bool) (fm : form) (unroll_factor : option nat) : res ten :=
  filtfilt_wrap la (fun b a x zi fm => lfilter_ssm b a x zi fm unroll_factor) b a x pm padlen gust fm.

End LtiFilter.
Arguments conv1d_groups {R}. Arguments conv_transpose1d_groups {R}. Arguments fir {R}.
Arguments ssm_lfilter {R}. Arguments lfilter_wrap {R}. Arguments lfilter_ssm {R}.
Arguments repeat_interleave {R}. Arguments repeat1 {R}. Arguments comb_filter {R}.
Arguments lfiltic {R}. Arguments lfilter_zi {R}. Arguments pad_mode {R}. Arguments unpack2 {R}.
Arguments filtfilt_wrap {R}. Arguments filtfilt_ssm {R}.
