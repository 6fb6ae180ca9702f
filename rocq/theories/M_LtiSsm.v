(** Model of philtorch/lti/ssm.py: state_space_recursion and state_space.
    (diag_state_space is in M_Diag, the derivative rules in M_Autograd.)

    [e : env] is the back-end configuration of M_Kernels.  [unroll_factor] is a
    natural number: the code only compares it, and every integer below 1 is treated
    alike.  [out_idx] is a Python index. *)
From Coq Require Import List Arith Lia ZArith Bool.
From Verif Require Import Scalar Tensor M_Mat M_Kernels.
Import ListNotations.
Open Scope res_scope.

Section LtiSsm.
Variable R : cops.
Notation ten := (tensor (car R)).
Variable e : env.

(** ssm.py:13-25 extension_backend_indicator *)
Definition extension_backend_indicator (M : nat) : bool :=
  ext e && ((M =? 2) || (negb (cuda e) && (2 <=? M))).
(** ssm.py:28-40 helion_backend_indicator *)
Definition helion_backend_indicator : bool := helion e && cuda e && negb (cplx e).

(** lti/recur.py:15-17 LTIRecurrence.forward *)
Definition LTIRecurrence_forward (a init x : ten) : res ten := op_lti_recur e a init x.
(** ssm.py:50-58 LTIMatrixRecurrence.forward *)
Definition LTIMatrixRecurrence_forward (A zi x : ten) : res ten :=
  if sizen x 1 =? 2 then op_lti_recur2 e A zi x
  else if helion_backend_indicator then hl_lti_recurN e A zi x
  else op_lti_recurN e A zi x.

(** [torch.cat([x.unsqueeze(-1), x.new_zeros( *x.shape, M - 1)], dim=-1)] on 2-D x
    (ssm.py:141-145, 187-191); a negative size raises. *)
Definition pad_features (x : ten) (M : nat) : res ten :=
  guard 1 <=? M else RuntimeError in
  cat 2 [unsqueeze 2 x; zeros (shape x ++ [M - 1])].

(** ssm.py:118-159 _recursion_loop *)
Definition recursion_loop (A zi x : ten) (out_idx : option Z) : res ten :=
  let AT := mT A in
  let* x := if rk x =? 2 then pad_features x (sizen A 1) else Ok x in
  if rk A =? 2 then
    let* results :=
      loopM (fun h xn => addmm xn h AT)
            (fun h => match out_idx with None => Ok h | Some i => select 1 i h end)
            zi (unbind 1 x) in
    stack 1 results
  else
    let* results :=
      loopM (fun h xn => baddbmm (unsqueeze 1 xn) h AT)
            (fun h => match out_idx with None => Ok h | Some i => select 2 i h end)
            (unsqueeze 1 zi) (unbind 1 x) in
    cat 1 results.

(** ssm.py:162-195 _ext_ss_recur *)
Definition ext_ss_recur (A zi x : ten) (out_idx : option Z) : res ten :=
  guard ext e || helion e else AssertionError in
  let* y :=
    if (rk x =? 2) && (sizen A 1 =? 1) then
      let* a0 := select (rk A - 1) 0 A in
      let* a := select (rk a0 - 1) 0 a0 in
      let* y := LTIRecurrence_forward a (squeeze (rk zi - 1) zi) x in
      Ok (unsqueeze (rk y) y)
    else if sizen A 1 =? 1 then
      let* a0 := select (rk A - 1) 0 A in
      let* a := select (rk a0 - 1) 0 a0 in
      let* y := LTIRecurrence_forward a (squeeze (rk zi - 1) zi) (squeeze (rk x - 1) x) in
      Ok (unsqueeze (rk y) y)
    else
      let* x := if rk x =? 2 then pad_features x (sizen A 1) else Ok x in
      LTIMatrixRecurrence_forward A zi x in
  match out_idx with
  | Some i => if rk y =? 3 then select 2 i y else Ok y
  | None => Ok y
  end.

(** ssm.py:299-364: [mat2] and [mat3], whose transposes map (initial state, block
    input) to the first block_size - 1 states (or one state component) of a block.
    [x3] says whether the input has a feature dimension. *)
Definition aug_mats (x3 : bool) (A_powers A_powers_plus_I : ten) (block_size M : nat)
  (out_idx : option Z) : res (ten * ten) :=
  let nb := rk A_powers - 3 in
  let batch := firstn nb (shape A_powers_plus_I) in
  let Ap := slice nb None (Some (-1)%Z) A_powers in
  let AI := slice nb (Some 1%Z) None A_powers_plus_I in
  match out_idx with
  | None =>
      let mat2 := flatten nb (nb + 1) Ap in                                     (* 300 *)
      if x3 then                                                                (* 301-316 *)
        let* c := cat nb [AI; zeros (batch ++ [block_size - 2; M; M])] in
        let* u := unfold (rk c - 3) (block_size - 1) c in
        let t := transpose (rk u - 2) (rk u - 1) u in
        let f := flip (rk t - 4) t in
        let g := flatten (rk f - 4) (rk f - 3) f in
        let mat3 := flatten (rk g - 2) (rk g - 1) g in
        Ok (mat2, mat3)
      else                                                                      (* 317-332 *)
        let* AI0 := select (rk AI - 1) 0 AI in
        let* c := cat nb [AI0; zeros (batch ++ [block_size - 2; M])] in
        let* u := unfold (rk c - 2) (block_size - 1) c in
        let f := flip (rk u - 3) u in
        let mat3 := flatten (rk f - 3) (rk f - 2) f in
        Ok (mat2, mat3)
  | Some i =>
      let* mat2 := select (nb + 1) i Ap in                                      (* 334 *)
      let* AIi := select (nb + 1) i AI in
      if x3 then                                                                (* 335-350 *)
        let* c := cat nb [AIi; zeros (batch ++ [block_size - 2; M])] in
        let* u := unfold (rk c - 2) (block_size - 1) c in
        let t := transpose (rk u - 2) (rk u - 1) u in
        let f := flip (rk t - 3) t in
        let mat3 := flatten (rk f - 2) (rk f - 1) f in
        Ok (mat2, mat3)
      else                                                                      (* 351-364 *)
        let* AI0 := select (rk AIi - 1) 0 AIi in
        let* c := cat nb [AI0; zeros (batch ++ [block_size - 2])] in
        let* u := unfold (rk c - 1) (block_size - 1) c in
        let mat3 := flip (rk u - 2) u in
        Ok (mat2, mat3)
  end.

(** ssm.py:198-383 state_space_recursion.  The recursive call is on a signal of
    ceil(N / block_size) samples; [fuel] bounds the depth. *)
Fixpoint state_space_recursion_fuel (fuel : nat) (A zi x : ten) (unroll_factor : nat)
  (out_idx : option Z) : res ten :=
  match fuel with
  | O => Err OutOfFuel
  | S fuel' =>
    guard (rk x =? 2) || (rk x =? 3) else AssertionError in                     (* 222 *)
    guard (rk A =? 2) || (rk A =? 3) else AssertionError in                     (* 226 *)
    guard sizen A 2 =? sizen A 1 else AssertionError in                         (* 227 *)
    guard negb (rk A =? 3) || (size x 0 =? size A 0) else AssertionError in     (* 228-231 *)
    guard negb (rk x =? 3) || (sizen A 1 =? sizen x 1) else AssertionError in   (* 233-236 *)
    let batch_size := size x 0 in let N := size x 1 in                          (* 238 *)
    let M := sizen A 1 in
    guard rk zi =? 2 else AssertionError in                                     (* 241 *)
    guard size zi 0 =? batch_size else AssertionError in                        (* 242 *)
    guard size zi 1 =? M else AssertionError in                                 (* 245 *)
    guard negb (unroll_factor <? 1) else ValueError in                          (* 249-250 *)
    let block_size := unroll_factor in
    if (block_size =? 1) || (N <=? block_size) then                             (* 255-258 *)
      if helion_backend_indicator then ext_ss_recur A zi x out_idx
      else recursion_loop A zi x out_idx
    else
    let remainder := N mod block_size in                                        (* 260 *)
    let x := if negb (remainder =? 0)
             then pad 1 0 (block_size - remainder) r0 x else x in               (* 261-263 *)
    let* unrolled_x := (let* ux0 := unflatten_m1 1 block_size x in
                        Ok (flatten 2 (rk ux0 - 1) ux0)) in                             (* 265 *)
    let* A_powers := matrix_power_accumulate_nat A block_size in                (* 267 *)
    let* A_powered := select (rk A_powers - 3) (-1) A_powers in                 (* 268 *)
    let* I := expand (shape A) (eye M) in
    let Apf := slice (rk A_powers - 3) None (Some (-1)%Z) A_powers in
    let* A_powers_plus_I := cat (rk A_powers - 3)
      [flip (rk Apf - 3) Apf; unsqueeze (rk I - 2) I] in                        (* 269-277 *)
    let* mat1 :=
      if rk x =? 3 then
        let t := transpose (rk A_powers_plus_I - 2) (rk A_powers_plus_I - 1) A_powers_plus_I in
        Ok (flatten (rk t - 3) (rk t - 2) t)
      else select (rk A_powers_plus_I - 1) 0 A_powers_plus_I in                 (* 279-283 *)
    let* z := matmul unrolled_x mat1 in                                         (* 284 *)
    let* rest := state_space_recursion_fuel fuel' A_powered zi z unroll_factor None in
    let* initials := cat 1 [unsqueeze 1 zi; rest] in                            (* 286-292 *)
    let* aug_x := cat 2
      [slice 1 None (Some (-1)%Z) initials;
       slice 2 None (Some (- Z.of_nat (if (rk x =? 2)%nat then 1%nat else M))%Z) unrolled_x] in  (* 295-297 *)
    let* ' (mat2, mat3) :=
      aug_mats (rk x =? 3) A_powers A_powers_plus_I block_size M out_idx in     (* 299-364 *)
    let* aug_A := cat (rk mat2 - 2) [mT mat2; mT mat3] in                       (* 366 *)
    let* output := matmul aug_x aug_A in                                        (* 367 *)
    let ini1 := slice 1 (Some 1%Z) None initials in
    let* output :=
      match out_idx with
      | None =>
          let* c := cat 2 [output; ini1] in
          let* u := unflatten_m1 2 M c in Ok (flatten 1 2 u)                    (* 370-375 *)
      | Some i =>
          let* s := select 2 i ini1 in
          let* c := cat 2 [output; unsqueeze 2 s] in Ok (flatten 1 2 c)         (* 376-379 *)
      end in
    if negb (remainder =? 0)
    then Ok (slice 1 None (Some (- Z.of_nat (block_size - remainder))%Z) output) (* 380-382 *)
    else Ok output
  end.
Definition state_space_recursion (A zi x : ten) (unroll_factor : nat) (out_idx : option Z) : res ten :=
  state_space_recursion_fuel (S (size x 1)) A zi x unroll_factor out_idx.

(** Python's round(N ** 0.5): the nearest integer (a square root of an integer is
    never halfway between two integers). *)
Definition round_sqrt (N : nat) : nat :=
  let k := Nat.sqrt N in if N <=? k * k + k then k else S k.

(** [features = -1 if x.dim() == 2 else x.size(-1)]; sizes never equal -1. *)
Definition features (x : ten) : option nat := if rk x =? 2 then None else Some (sizen x 1).
Definition feq (n : nat) (f : option nat) : bool := match f with Some k => n =? k | None => false end.

(** ssm.py:460-485: the [match B.shape] of state_space. *)
Definition ss_input (x : ten) (B : option ten) (batch_size M : nat) : res ten :=
  match B with
  | None => Ok x
  | Some B =>
      match shape B with
      | [BM] =>
          if BM =? M then
            guard rk x =? 2 else AssertionError in tmul (unsqueeze (rk x) x) B
          else Err ValueError
      | [B0; B1] =>
          if (B0 =? batch_size) && (B1 =? M) then
            guard rk x =? 2 else AssertionError in tmul (unsqueeze (rk x) x) (unsqueeze 1 B)
          else if (B0 =? M) && feq B1 (features x) then matmul x (mT B)
          else Err ValueError
      | [B0; B1; B2] =>
          if (B0 =? batch_size) && (B1 =? M) && feq B2 (features x) then
            vecdot (tconj (unsqueeze 1 B)) (unsqueeze (rk x - 1) x)
          else Err ValueError
      | _ => Err ValueError
      end
  end.

(** ssm.py:534-566: [Dx]. *)
Definition ssm_Dx (x D : ten) (batch_size : nat) : res ten :=
  let f := features x in
  match shape D with
  | [] => tmul x D
  | [D0] =>
      if feq D0 f then matmul x D
      else if D0 =? batch_size then
        guard rk x =? 2 else AssertionError in tmul (unsqueeze 1 D) x
      else if D0 =? 1 then tmul x D
      else guard rk x =? 2 else AssertionError in tmul D (unsqueeze (rk x) x)
  | [D0; D1] =>
      if (D0 =? batch_size) && feq D1 f then vecdot (tconj (unsqueeze 1 D)) x
      else if D0 =? batch_size then
        guard rk x =? 2 else AssertionError in tmul (unsqueeze 1 D) (unsqueeze (rk x) x)
      else if feq D1 f then matmul x (mT D)
      else Err ValueError
  | [D0; D1; D2] =>
      if (D0 =? batch_size) && feq D2 f
      then vecdot (tconj (unsqueeze 1 D)) (unsqueeze (rk x - 1) x)
      else Err ValueError
  | _ => Err ValueError
  end.
(** ssm.py:568-584: [Ch]. *)
Definition ssm_Ch (h C : ten) (batch_size M : nat) : res ten :=
  match shape C with
  | [C0] => if C0 =? M then matmul h C else Err ValueError
  | [C0; C1] =>
      if (C0 =? batch_size) && (C1 =? M) then vecdot (tconj (unsqueeze 1 C)) h
      else if C1 =? M then matmul h (mT C)
      else Err ValueError
  | [C0; C1; C2] =>
      if (C0 =? batch_size) && (C2 =? M) then matmul h (mT C) else Err ValueError
  | _ => Err ValueError
  end.
(** ssm.py:513-589 _ssm_C_D *)
Definition ssm_C_D (h x : ten) (C D : option ten) (batch_size M : nat) : res ten :=
  let* Dx := match D with
             | Some D => let* d := ssm_Dx x D batch_size in Ok (Some d)
             | None => Ok None
             end in
  let* Ch := match C with Some C => ssm_Ch h C batch_size M | None => Ok h end in
  match Dx with Some d => tadd Ch d | None => Ok Ch end.

(** [zi.unsqueeze(0).expand(batch_size, -1)] for a 1-D zi (ssm.py:445-450). *)
Definition ss_zi (x : ten) (zi : option ten) (batch_size M : nat) : res ten :=
  match zi with
  | None => Ok (zeros [batch_size; M])
  | Some z => if rk z =? 1 then expand [batch_size; size z 0] (unsqueeze 0 z) else Ok z
  end.

(** ssm.py:386-510 state_space.  The second component of the result is the final
    state, present exactly when zi is. *)
Definition state_space (A x : ten) (B C D zi : option ten) (unroll_factor : option nat)
  (out_idx : option Z) : res (ten * option ten) :=
  guard (rk x =? 2) || (rk x =? 3) else AssertionError in                       (* 425 *)
  guard (rk A =? 2) || (rk A =? 3) else AssertionError in                       (* 430 *)
  guard sizen A 2 =? sizen A 1 else AssertionError in                           (* 431 *)
  guard negb (rk A =? 3) || (size x 0 =? size A 0) else AssertionError in       (* 432-435 *)
  guard match C, out_idx with Some _, Some _ => false | _, _ => true end
    else ValueError in                                                          (* 437-440 *)
  let batch_size := size x 0 in let N := size x 1 in                            (* 442 *)
  let M := sizen A 1 in
  let return_zf := match zi with Some _ => true | None => false end in
  let* zi := ss_zi x zi batch_size M in                                         (* 445-450 *)
  let unroll_factor := match unroll_factor with Some u => u | None => round_sqrt N end in
  let* Bx := ss_input x B batch_size M in                                       (* 460-485 *)
  let recur_runner A zi x out_idx :=                                            (* 487-491 *)
    if extension_backend_indicator M && (unroll_factor =? 1)
    then ext_ss_recur A zi x out_idx
    else state_space_recursion A zi x unroll_factor out_idx in
  let* ' (h, zf) :=
    match out_idx with
    | None =>                                                                   (* 493-500 *)
        let* h := recur_runner A zi Bx None in
        let* zf := if return_zf then let* z := select 1 (-1) h in Ok (Some z) else Ok None in
        let* h := cat 1 [unsqueeze 1 zi; slice 1 None (Some (-1)%Z) h] in
        Ok (h, zf)
    | Some i =>
        if return_zf then
          let* h := recur_runner A zi Bx None in
          let* zf := select 1 (-1) h in
          let* z0 := select 1 i zi in
          let* h1 := select 2 i (slice 1 None (Some (-1)%Z) h) in
          let* h := cat 1 [unsqueeze 1 z0; h1] in
          Ok (h, Some zf)
        else                                                                    (* 501-504 *)
          let* h := recur_runner A zi Bx (Some i) in
          let* z0 := select 1 i zi in
          let* h := cat 1 [unsqueeze 1 z0; slice 1 None (Some (-1)%Z) h] in
          Ok (h, None)
    end in
  let* y := ssm_C_D h x C D batch_size M in                                     (* 506 *)
  Ok (y, zf).

End LtiSsm.
Arguments LTIRecurrence_forward {R}. Arguments LTIMatrixRecurrence_forward {R}.
Arguments pad_features {R}. Arguments recursion_loop {R}. Arguments ext_ss_recur {R}.
Arguments aug_mats {R}. Arguments state_space_recursion_fuel {R}.
Arguments state_space_recursion {R}. Arguments features {R}. Arguments ss_input {R}.
Arguments ssm_Dx {R}. Arguments ssm_Ch {R}. Arguments ssm_C_D {R}. Arguments ss_zi {R}.
Arguments state_space {R}.
