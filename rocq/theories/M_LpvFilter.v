(** Model of philtorch/lpv/utils.py and philtorch/lpv/filtering.py.

    As in M_LtiFilter a result [(y, zf)] stands for the Python value [y] when [zf] is
    [None] and for the tuple otherwise; [unroll_factor = None] means not passed;
    [e], [pararnn] are the back-end configuration.  torchlpc.sample_wise_lpc is the
    contract of M_Ext; its [return_zf=True] result is the last [order] outputs, newest
    first.  The chains of functions are written out (chain_functions is modelled in
    M_Utils). *)
From Coq Require Import List Arith Lia ZArith Bool.
From Verif Require Import Scalar Tensor M_Mat M_Kernels M_LtiSsm M_Ext M_LpvSsm M_LtiFilter.
Import ListNotations.
Open Scope res_scope.

Section LpvFilter.
Variable R : cops.
Notation ten := (tensor (car R)).
Variable e : env.
Variable pararnn : bool.

(** lpv/utils.py:6-33 diag_shift; [offset] is a natural number. *)
Definition diag_shift (coef : ten) (offset : nat) (discard_end : bool) : res ten :=
  guard 2 <=? rk coef else AssertionError in                                    (* 21 *)
  let T := sizen coef 2 in let M := sizen coef 1 in                             (* 22 *)
  let p := pad (rk coef - 1) offset M r0 (mT coef) in                           (* 24 *)
  let f1 := flatten (rk coef - 2) (rk coef - 1) p in
  let* u1 := unflatten (rk coef - 2) [T + M + offset; M] f1 in
  let s1 := slice (rk coef - 2) None (Some (-1)%Z) u1 in
  let f2 := flatten (rk coef - 2) (rk coef - 1) s1 in
  let* y := unflatten (rk coef - 2) [M; T + M + offset - 1] f2 in               (* 25-30 *)
  let y := if discard_end
           then slice (rk coef - 1) None (Some (- (Z.of_nat M - 1 + Z.of_nat offset))%Z) y
           else y in                                                            (* 31-32 *)
  Ok (mT y).                                                                    (* 33 *)

(** torch.split_with_sizes(t, [n, m], d) *)
Definition split2 (d n m : nat) (t : ten) : res (ten * ten) :=
  guard size t d =? n + m else RuntimeError in
  Ok (slice d None (Some (Z.of_nat n)) t, slice d (Some (Z.of_nat n)) None t).

(** filtering.py:19-86 fir *)
Definition lpv_fir (b x : ten) (zi : option ten) (transpose : bool) : res (ten * option ten) :=
  guard rk b =? 3 else AssertionError in                                        (* 37 *)
  guard rk x =? 2 else AssertionError in                                        (* 38 *)
  let B := size x 0 in let T := size x 1 in                                     (* 40 *)
  guard (size b 0 =? B) && (size b 1 =? T) else AssertionError in               (* 41-43 *)
  let K := size b 2 in
  let return_zf := match zi with Some _ => true | None => false end in
  let* zi := match zi with
             | None => guard 1 <=? K else RuntimeError in Ok (zeros [B; K - 1]) (* 45-47 *)
             | Some z =>
                 guard (rk z =? 2) && (size z 0 =? B) && (size z 1 + 1 =? K)
                   else AssertionError in Ok z                                  (* 48-55 *)
             end in
  if transpose then
    let* sb := diag_shift b 0 (negb return_zf) in                               (* 58 *)
    let* u := unfold 1 (size sb 2)
                (pad 1 (size sb 2 - 1) (if return_zf then size sb 2 - 1 else 0) r0 x) in
    let* y := vecdot (flip 2 sb) u in                                           (* 59-65 *)
    if return_zf then
      let* ' (y, zf) := split2 1 T (K - 1) y in                                 (* 67 *)
      let* h := tadd (slice 1 None (Some (Z.of_nat K - 1)%Z) y) zi in
      let* y := cat 1 [h; slice 1 (Some (Z.of_nat K - 1)%Z) None y] in          (* 68-77 *)
      Ok (y, Some zf)
    else Ok (y, None)
  else
    let* c := cat 1 [flip 1 zi; x] in
    let* unfolded_x := unfold 1 K c in                                          (* 80 *)
    let* y := vecdot (tconj unfolded_x) (flip 2 b) in                           (* 81 *)
    if return_zf then
      let* l := select 1 (-1) unfolded_x in
      Ok (y, Some (flip 1 (slice 1 (Some 1%Z) None l)))                         (* 83-84 *)
    else Ok (y, None).

(** filtering.py:88-135 allpole *)
Definition lpv_allpole (a x : ten) (zi : option ten) (transpose : bool) : res (ten * option ten) :=
  guard rk a =? 3 else AssertionError in                                        (* 102 *)
  guard rk x =? 2 else AssertionError in                                        (* 103 *)
  let B := size x 0 in let T := size x 1 in                                     (* 104 *)
  guard (size a 0 =? B) && (size a 1 =? T) else AssertionError in               (* 105-107 *)
  let M := size a 2 in
  let return_zf := match zi with Some _ => true | None => false end in
  let* zi := match zi with
             | None => Ok (zeros [B; M])                                        (* 109-111 *)
             | Some z =>
                 guard (rk z =? 2) && (size z 0 =? B) && (size z 1 =? M)
                   else AssertionError in Ok z                                  (* 112-121 *)
             end in
  if transpose then
    let* a := diag_shift (tconj a) 1 (negb return_zf) in                        (* 124 *)
    let* h := tadd zi (slice 1 None (Some (Z.of_nat (size a 2))) x) in
    let* x := cat 1 ([h; slice 1 (Some (Z.of_nat (size a 2))) None x]
                     ++ (if return_zf then [zeros_like zi] else [])) in         (* 125-129 *)
    let* y := sample_wise_lpc x a (zeros [size a 0; size a 2]) in               (* 130 *)
    if return_zf then
      let* ' (y, zf) := split2 1 T (size a 2) y in Ok (y, Some zf)              (* 131-132 *)
    else Ok (y, None)
  else
    let* y := sample_wise_lpc x a zi in                                         (* 135 *)
    Ok (y, if return_zf then Some (flip 1 (slice 1 (Some (- Z.of_nat M)%Z) None y)) else None).

(** filtering.py:197-285 _torchlpc_lfilter *)
Definition torchlpc_lfilter (fm : form) (b a x : ten) (zi : option ten) : res (ten * option ten) :=
  let T := size x 1 in                                                          (* 205 *)
  let* b := if rk b =? 2 then Ok (unsqueeze 0 b)
            else guard rk b =? 3 else ValueError in Ok b in                     (* 207-212 *)
  let* a := if rk a =? 2 then Ok (unsqueeze 0 a)
            else guard rk a =? 3 else ValueError in Ok a in                     (* 213-218 *)
  guard (size b 1 =? size a 1) && (size a 1 =? T) else AssertionError in        (* 220-222 *)
  let order := Nat.max (size a 2) (size b 2 - 1) in                             (* 224 *)
  let B := Nat.max (Nat.max (size b 0) (size a 0)) (size x 0) in                (* 226 *)
  let return_zf := match zi, fm with Some _, (Df2 | Tdf2) => true | _, _ => false end in  (* 228 *)
  let* ' (zi, B) :=
    match zi with
    | None => Ok (zeros [B; order], B)                                          (* 229-230 *)
    | Some z =>
        if rk z =? 1 then
          guard size z 0 =? order else AssertionError in
          let* z := expand [B; size z 0] (unsqueeze 0 z) in Ok (z, B)           (* 231-233 *)
        else if rk z =? 2 then
          guard size z 1 =? order else AssertionError in
          let B := Nat.max B (size z 0) in
          let* z := expand [B; size z 1] z in Ok (z, B)                         (* 234-237 *)
        else Err ValueError                                                     (* 238-239 *)
    end in
  let* bb := expand [B; size b 1; size b 2] b in                                (* 241 *)
  let* ba := expand [B; size a 1; size a 2] a in
  let* bx := expand [B; size x 1] x in
  match fm with
  | Df2 =>                                                                      (* 246-259 *)
      let* ' (w, a_zf) := lpv_allpole ba bx (Some (slice 1 None (Some (Z.of_nat (size a 2))) zi)) false in
      let* ' (y, b_zf) := lpv_fir bb w (Some (slice 1 None (Some (Z.of_nat (size b 2) - 1)%Z) zi)) false in
      match b_zf, a_zf with
      | Some b_zf, Some a_zf =>
          if return_zf then Ok (y, Some (if size a_zf 1 <? size b_zf 1 then b_zf else a_zf))
          else Ok (y, None)
      | _, _ => Err TypeError
      end
  | Tdf2 => Err NotImplementedError                                             (* 260-263 *)
  | Df1 =>                                                                      (* 264-269 *)
      let* ' (u, _) := lpv_fir bb bx None false in
      lpv_allpole ba u None false
  | Tdf1 =>                                                                     (* 270-279 *)
      let* ' (u, _) := lpv_allpole ba bx None true in
      lpv_fir bb u None true
  | OtherForm => Err ValueError                                                 (* 280-283 *)
  end.

(** filtering.py:288-370 _ssm_lfilter *)
Definition lpv_ssm_lfilter (fm : form) (unroll_factor : option nat) (b a x : ten) (zi : option ten)
  : res (ten * option ten) :=
  let nb := sizen b 1 in let na := sizen a 1 in
  let b := if nb <? na + 1 then pad (rk b - 1) 0 (na + 1 - nb) r0 b else b in   (* 297-298 *)
  let a := if na + 1 <? nb then pad (rk a - 1) 0 (nb - na - 1) r0 a else a in   (* 299-300 *)
  let* A := companion a in                                                      (* 302 *)
  let uf1 := match unroll_factor with Some u => u | None => 1 end in
  let recur A zi x :=
    if lpv_extension_backend_indicator e pararnn (sizen A 1)
    then lpv_ext_ss_recur e pararnn A zi x (Some 0%Z)
    else lpv_state_space_recursion e pararnn A zi x uf1 (Some 0%Z) in
  let bcast b := expand (if rk b =? 2 then [size x 0; size b 0; size b 1]
                         else [size x 0; size b 1; size b 2]) b in
  match fm with
  | Df2 =>                                                                      (* 305-318 *)
      let* b0a := tmul (slice (rk b - 1) None (Some 1%Z) b) a in
      let* C := tsub (slice (rk b - 1) (Some 1%Z) None b) b0a in
      let* D := select (rk b - 1) 0 b in
      lpv_state_space e pararnn A x None (Some C) (Some D) zi unroll_factor None
  | Tdf2 =>                                                                     (* 319-332 *)
      let* b0a := tmul (slice (rk b - 1) None (Some 1%Z) b) a in
      let* B := tsub (slice (rk b - 1) (Some 1%Z) None b) b0a in
      let* D := select (rk b - 1) 0 b in
      lpv_state_space e pararnn (tconj (mT A)) x (Some (tconj B)) None (Some (tconj D)) zi unroll_factor (Some 0%Z)
  | Df1 =>                                                                      (* 333-348 *)
      let zi := zeros [size x 0; sizen A 1] in
      let* bb := bcast b in
      let* ' (u, _) := lpv_fir bb x None false in
      let* y := recur A zi u in
      Ok (y, None)
  | Tdf1 =>                                                                     (* 349-366 *)
      let zi := zeros [size x 0; sizen A 1] in
      let* bb := bcast (tconj b) in
      let* u := recur (tconj (mT A)) zi x in
      lpv_fir bb u None true
  | OtherForm => Err ValueError                                                 (* 367-368 *)
  end.

(** filtering.py:138-194 lfilter; [core] is the selected back-end. *)
Definition lpv_lfilter_wrap (core : ten -> ten -> ten -> option ten -> res (ten * option ten))
  (b a x : ten) (zi : option ten) : res (ten * option ten) :=
  let squeeze_first := (rk x =? 1) && (rk b =? 2) && (rk a =? 2)
                       && match zi with None => true | Some z => rk z =? 1 end in  (* 160-165 *)
  let* x := if rk x =? 1 then Ok (unsqueeze 0 x)
            else if 2 <? rk x then Err ValueError else Ok x in                  (* 167-170 *)
  guard (rk b =? 2) || (rk b =? 3) else AssertionError in                       (* 172 *)
  guard (rk a =? 2) || (rk a =? 3) else AssertionError in                       (* 173 *)
  let* ' (y, zf) := core b a x zi in                                            (* 175-183 *)
  if squeeze_first
  then Ok (squeeze 0 y, match zf with Some z => Some (squeeze 0 z) | None => None end)
  else Ok (y, zf).                                                              (* 185-194 *)
Inductive lpv_backend := Ssm | TorchLpc | OtherBackend.
Definition lpv_lfilter (b a x : ten) (zi : option ten) (fm : form) (bk : lpv_backend) (unroll_factor : option nat)
  : res (ten * option ten) :=
  lpv_lfilter_wrap (match bk with
                    | Ssm => lpv_ssm_lfilter fm unroll_factor
                    | TorchLpc => torchlpc_lfilter fm
                    | OtherBackend => fun _ _ _ _ => Err ValueError
                    end) b a x zi.

End LpvFilter.
Arguments diag_shift {R}. Arguments split2 {R}. Arguments lpv_fir {R}. Arguments lpv_allpole {R}.
Arguments torchlpc_lfilter {R}. Arguments lpv_ssm_lfilter {R}. Arguments lpv_lfilter_wrap {R}. Arguments lpv_lfilter {R}.
