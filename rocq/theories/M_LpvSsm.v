(** Model of philtorch/lpv/ssm.py: state_space_recursion and state_space.
    (The derivative rules are in M_Autograd.)  [e : env] is the back-end configuration
    of M_Kernels, [pararnn] is PARARNN_AVAILABLE. *)
From Coq Require Import List Arith Lia ZArith Bool.
From Verif Require Import Scalar Tensor M_Mat M_Kernels M_LtiSsm M_Ext.
Import ListNotations.
Open Scope res_scope.

Section LpvSsm.
Variable R : cops.
Notation ten := (tensor (car R)).
Variable e : env.
Variable pararnn : bool.

(** ssm.py:29-31 _pararnn_applicable *)
Definition pararnn_applicable (M : nat) : bool :=
  pararnn && cuda e && negb (cplx e) && ((M =? 2) || (M =? 3)).
(** ssm.py:20-26 extension_backend_indicator *)
Definition lpv_extension_backend_indicator (M : nat) : bool :=
  (ext e && (negb (cuda e) || (M <=? 2))) || pararnn_applicable M.

(** [t.repeat(n, 1, ...)]: tiling of the first dimension. *)
Definition repeat0 (n : nat) (t : ten) : ten :=
  mkT (match shape t with [] => [] | d :: s => n * d :: s end)
      (fun idx => at_ t (upd 0 (fun i => i mod size t 0) idx)).

(** ssm.py:38-55 MatrixRecurrence.forward *)
Definition MatrixRecurrence_forward (A zi x : ten) : res ten :=
  if pararnn_applicable (sizen x 1) then
    let A := if rk A =? 3 then repeat0 (size x 0) (unsqueeze 0 A) else A in     (* 40-41 *)
    let jac := pad (rk A - 3) 1 0 r0 (tneg A) in                                (* 42 *)
    let* rhs := cat 1 [unsqueeze 1 zi; x] in                                    (* 43 *)
    let* h := parallel_reduce jac rhs in
    Ok (slice 1 (Some 1%Z) None h)                                              (* 44-48 *)
  else if sizen x 1 =? 2 then op_recur2 e A zi x
  else if helion_backend_indicator e then hl_recurN e A zi x
  else op_recurN e A zi x.

(** ssm.py:118-164 _recursion_loop *)
Definition lpv_recursion_loop (A zi x : ten) (out_idx : option Z) : res ten :=
  guard size x 1 =? sizen A 3 else AssertionError in                            (* 141-143 *)
  let AT := mT A in
  let* x := if rk x =? 2 then pad_features x (sizen A 1) else Ok x in           (* 146-150 *)
  if rk A =? 3 then                                                             (* 151-156 *)
    let* results :=
      loopM (fun h xa => addmm (fst xa) h (snd xa))
            (fun h => match out_idx with None => Ok h | Some i => select 1 i h end)
            zi (combine (unbind 1 x) (unbind 0 AT)) in
    stack 1 results
  else                                                                          (* 157-162 *)
    let* results :=
      loopM (fun h xa => baddbmm (unsqueeze 1 (fst xa)) h (snd xa))
            (fun h => match out_idx with None => Ok h | Some i => select 2 i h end)
            (unsqueeze 1 zi) (combine (unbind 1 x) (unbind 1 AT)) in
    cat 1 results.

(** ssm.py:167-205 _ext_ss_recur *)
Definition lpv_ext_ss_recur (A zi x : ten) (out_idx : option Z) : res ten :=
  guard ext e || helion e else AssertionError in                                (* 185-187 *)
  let* y :=
    if (rk x =? 2) && (sizen A 1 =? 1) then                                     (* 188-191 *)
      let* a0 := select (rk A - 1) 0 A in
      let* a := expand (shape x ++ [1]) a0 in
      let* y := sample_wise_lpc x (tneg a) zi in
      Ok (unsqueeze (rk y) y)
    else if sizen A 1 =? 1 then                                                 (* 192-195 *)
      let* a0 := select (rk A - 1) 0 A in
      let* a := expand (shape x) a0 in
      let* y := sample_wise_lpc (squeeze (rk x - 1) x) (tneg a) zi in
      Ok (unsqueeze (rk y) y)
    else
      let* x := if rk x =? 2 then pad_features x (sizen A 1) else Ok x in       (* 197-201 *)
      MatrixRecurrence_forward A zi x in
  match out_idx with
  | Some i => if rk y =? 3 then select 2 i y else Ok y                          (* 203-204 *)
  | None => Ok y
  end.

(** ssm.py:208-334 state_space_recursion.  The recursive call is on a signal of
    ceil(N / block_size) samples; [fuel] bounds the depth. *)
Fixpoint lpv_state_space_recursion_fuel (fuel : nat) (A zi x : ten) (unroll_factor : nat)
  (out_idx : option Z) : res ten :=
  match fuel with
  | O => Err OutOfFuel
  | S fuel' =>
    guard (rk x =? 2) || (rk x =? 3) else AssertionError in                     (* 235 *)
    guard (rk A =? 3) || (rk A =? 4) else AssertionError in                     (* 239 *)
    guard sizen A 2 =? sizen A 1 else AssertionError in                         (* 240 *)
    guard sizen A 3 =? size x 1 else AssertionError in                          (* 241-243 *)
    guard negb (rk A =? 4) || (size x 0 =? size A 0) else AssertionError in     (* 245-248 *)
    guard negb (rk x =? 3) || (sizen A 1 =? sizen x 1) else AssertionError in   (* 250-253 *)
    let batch_size := size x 0 in let N := size x 1 in                          (* 255 *)
    let M := sizen A 1 in
    guard rk zi =? 2 else AssertionError in                                     (* 258 *)
    guard size zi 0 =? batch_size else AssertionError in                        (* 259 *)
    guard size zi 1 =? M else AssertionError in                                 (* 262 *)
    guard negb (unroll_factor <? 1) else ValueError in                          (* 266-267 *)
    let block_size := unroll_factor in
    let looper := fun A zi x out_idx =>                                         (* 271 *)
      if helion_backend_indicator e then lpv_ext_ss_recur A zi x out_idx
      else lpv_recursion_loop A zi x out_idx in
    if (block_size =? 1) || (N <=? block_size) then looper A zi x out_idx       (* 274-275 *)
    else
    let remainder := N mod block_size in                                        (* 277 *)
    let p := block_size - remainder in
    let x := if negb (remainder =? 0) then pad 1 0 p r0 x else x in             (* 278-279 *)
    let A := if negb (remainder =? 0) then pad (rk A - 3) 0 p r0 A else A in    (* 280 *)
    let* unrolled_x := unflatten_m1 1 block_size x in                           (* 283 *)
    let unrolled_x_flatten := flatten 2 (rk unrolled_x - 1) unrolled_x in       (* 284 *)
    let* unrolled_A := unflatten_m1 (rk A - 3) block_size A in                  (* 285 *)
    let uA1 := slice (rk unrolled_A - 3) (Some 1%Z) None unrolled_A in
    let* cums := matrices_cumdot (flip (rk uA1 - 3) uA1) in
    let A_cums := flip (rk cums - 3) cums in                                    (* 287 *)
    let* c0 := select (rk A_cums - 3) 0 A_cums in
    let* u0 := select (rk unrolled_A - 3) 0 unrolled_A in
    let* A_last_cum := matmul c0 u0 in                                          (* 288 *)
    let* I := expand (firstn (rk A_cums - 3) (shape A_cums) ++ [1; M; M]) (eye M) in
    let* A_cums_plus_I := cat (rk A_cums - 3) [A_cums; I] in                    (* 289-297 *)
    let* mat1 :=
      if rk x =? 3 then
        let t := mT A_cums_plus_I in Ok (flatten (rk t - 3) (rk t - 2) t)
      else select (rk A_cums_plus_I - 1) 0 A_cums_plus_I in                     (* 298-302 *)
    let* z4 := matmul (unsqueeze (rk unrolled_x_flatten - 1) unrolled_x_flatten) mat1 in
    let z := squeeze (rk z4 - 2) z4 in                                          (* 303 *)
    let* rest := lpv_state_space_recursion_fuel fuel' A_last_cum zi z unroll_factor None in
    let* initials := cat 1 [unsqueeze 1 zi; rest] in                            (* 305-311 *)
    let* out0 := looper
      (if rk unrolled_A =? 5
       then flatten 0 1 (slice 2 None (Some (-1)%Z) unrolled_A)
       else repeat0 batch_size (slice 1 None (Some (-1)%Z) unrolled_A))
      (flatten 0 1 (slice 1 None (Some (-1)%Z) initials))
      (flatten 0 1 (slice 2 None (Some (-1)%Z) unrolled_x)) out_idx in
    let* output := unflatten_1m 0 batch_size out0 in                            (* 313-322 *)
    let ini1 := slice 1 (Some 1%Z) None initials in
    let* output :=
      match out_idx with
      | None =>
          let* c := cat 2 [output; unsqueeze 2 ini1] in Ok (flatten 1 2 c)      (* 325-326 *)
      | Some i =>
          let* s := select 2 i ini1 in
          let* c := cat 2 [output; unsqueeze 2 s] in Ok (flatten 1 2 c)         (* 327-330 *)
      end in
    if negb (remainder =? 0)
    then Ok (slice 1 None (Some (- Z.of_nat (block_size - remainder))%Z) output) (* 331-333 *)
    else Ok output
  end.
Definition lpv_state_space_recursion (A zi x : ten) (unroll_factor : nat) (out_idx : option Z) : res ten :=
  lpv_state_space_recursion_fuel (S (size x 1)) A zi x unroll_factor out_idx.

(** ssm.py:413-454: the [match B.shape] of state_space. *)
Definition lpv_input (x : ten) (B : option ten) (batch_size N M : nat) : res ten :=
  let f := features x in
  let x1 := unsqueeze (rk x) x in                 (* x.unsqueeze(-1) *)
  let x2 := unsqueeze (rk x - 1) x in             (* x.unsqueeze(-2) *)
  match B with
  | None => Ok x
  | Some B =>
      match shape B with
      | [B0] =>
          if B0 =? M then guard rk x =? 2 else AssertionError in tmul x1 B
          else Err ValueError
      | [B0; B1] =>
          if (B0 =? M) && feq B1 f then matmul x (mT B)
          else if (B0 =? N) && (B1 =? M) then guard rk x =? 2 else AssertionError in tmul x1 B
          else if (B0 =? batch_size) && (B1 =? M) then
            guard rk x =? 2 else AssertionError in tmul x1 (unsqueeze 1 B)
          else Err ValueError
      | [B0; B1; B2] =>
          if (B0 =? N) && (B1 =? M) && feq B2 f then vecdot (tconj B) x2
          else if (B0 =? batch_size) && (B2 =? M) && (B1 =? N) then
            guard rk x =? 2 else AssertionError in tmul x1 B
          else if (B0 =? batch_size) && (B1 =? M) && feq B2 f then
            vecdot (tconj (unsqueeze 1 B)) x2
          else Err ValueError
      | [B0; B1; B2; B3] =>
          if (B0 =? batch_size) && (B2 =? M) && (B1 =? N) && feq B3 f then vecdot (tconj B) x2
          else Err ValueError
      | _ => Err ValueError
      end
  end.

(** ssm.py:480-545: the [match D.shape] of state_space. *)
Definition lpv_Dx (x D : ten) (batch_size N : nat) : res ten :=
  let f := features x in
  let x1 := unsqueeze (rk x) x in
  let x2 := unsqueeze (rk x - 1) x in
  match shape D with
  | [] => tmul x D
  | [D0] =>
      if feq D0 f then matmul x D
      else if D0 =? N then guard rk x =? 2 else AssertionError in tmul D x
      else if D0 =? batch_size then guard rk x =? 2 else AssertionError in tmul (unsqueeze 1 D) x
      else if D0 =? 1 then tmul x D
      else guard rk x =? 2 else AssertionError in tmul x1 D
  | [D0; D1] =>
      if (D0 =? N) && feq D1 f then vecdot (tconj D) x
      else if (D0 =? batch_size) && feq D1 f then vecdot (unsqueeze 1 (tconj D)) x
      else if D0 =? N then guard rk x =? 2 else AssertionError in tmul D x1
      else if (D0 =? batch_size) && (D1 =? N) then guard rk x =? 2 else AssertionError in tmul D x
      else if D0 =? batch_size then
        guard rk x =? 2 else AssertionError in tmul (unsqueeze 1 D) x1
      else if feq D1 f then guard rk x =? 3 else AssertionError in matmul x (mT D)
      else Err ValueError
  | [D0; D1; D2] =>
      if (D0 =? batch_size) && (D1 =? N) && feq D2 f then vecdot (tconj D) x
      else if (D0 =? batch_size) && (D1 =? N) then
        guard rk x =? 2 else AssertionError in tmul D x1
      else if (D0 =? N) && feq D2 f then vecdot (tconj D) x2
      else if (D0 =? batch_size) && feq D2 f then matmul x (mT D)
      else Err ValueError
  | [D0; D1; D2; D3] =>
      if (D0 =? batch_size) && (D1 =? N) && feq D3 f then vecdot (tconj D) x2
      else Err ValueError
  | _ => Err ValueError
  end.

(** ssm.py:549-570: the [match C.shape] of state_space. *)
Definition lpv_Ch (h C : ten) (batch_size N M : nat) : res ten :=
  let h2 := unsqueeze (rk h - 1) h in
  match shape C with
  | [C0] => if C0 =? M then matmul h C else Err ValueError
  | [C0; C1] =>
      if (C0 =? N) && (C1 =? M) then vecdot (tconj C) h
      else if (C0 =? batch_size) && (C1 =? M) then vecdot (tconj (unsqueeze 1 C)) h
      else if C1 =? M then matmul h (mT C)
      else Err ValueError
  | [C0; C1; C2] =>
      if (C0 =? N) && (C2 =? M) then vecdot (tconj C) h2
      else if (C0 =? batch_size) && (C2 =? M) && (C1 =? N) then vecdot (tconj C) h
      else if (C0 =? batch_size) && (C2 =? M) then matmul h (mT C)
      else Err ValueError
  | [C0; C1; C2; C3] =>
      if (C0 =? batch_size) && (C3 =? M) && (C1 =? N) then vecdot (tconj C) h2
      else Err ValueError
  | _ => Err ValueError
  end.

(** ssm.py:337-581 state_space.  The second component of the result is the final
    state, present exactly when zi is. *)
Definition lpv_state_space (A x : ten) (B C D zi : option ten) (unroll_factor : option nat)
  (out_idx : option Z) : res (ten * option ten) :=
  guard (rk x =? 2) || (rk x =? 3) else AssertionError in                       (* 379 *)
  guard (rk A =? 3) || (rk A =? 4) else AssertionError in                       (* 384 *)
  guard sizen A 2 =? sizen A 1 else AssertionError in                           (* 385 *)
  guard sizen A 3 =? size x 1 else AssertionError in                            (* 386-388 *)
  guard match C, out_idx with Some _, Some _ => false | _, _ => true end
    else ValueError in                                                          (* 390-393 *)
  let batch_size := size x 0 in let N := size x 1 in                            (* 395 *)
  let M := sizen A 1 in
  let return_zf := match zi with Some _ => true | None => false end in
  let* zi := ss_zi x zi batch_size M in                                         (* 398-403 *)
  let unroll_factor := match unroll_factor with Some u => u | None => round_sqrt N end in
  let* Bx := lpv_input x B batch_size N M in                                    (* 413-454 *)
  let recur_runner A zi x out_idx :=                                            (* 456-460 *)
    if lpv_extension_backend_indicator M && (unroll_factor =? 1)
    then lpv_ext_ss_recur A zi x out_idx
    else lpv_state_space_recursion A zi x unroll_factor out_idx in
  let* ' (h, zf) :=
    match out_idx with
    | None =>                                                                   (* 462-469 *)
        let* h := recur_runner A zi Bx None in
        let* zf := if return_zf then let* z := select 1 (-1) h in Ok (Some z) else Ok None in
        let* h := cat 1 [unsqueeze 1 zi; slice 1 None (Some (-1)%Z) h] in
        Ok (h, zf)
    | Some i =>
        if return_zf then
          let* h := recur_runner A zi Bx None in
          let* zf := select 1 (-1) h in
          let* z0 := select 1 i zi in
          let* h1 := select 2 i (slice 1 None (Some (-1)%Z) h) in
          let* h := cat 1 [unsqueeze 1 z0; h1] in
          Ok (h, Some zf)
        else                                                                    (* 470-473 *)
          let* h := recur_runner A zi Bx (Some i) in
          let* z0 := select 1 i zi in
          let* h := cat 1 [unsqueeze 1 z0; slice 1 None (Some (-1)%Z) h] in
          Ok (h, None)
    end in
  let* Dx := match D with                                                       (* 480-547 *)
             | Some D => let* d := lpv_Dx x D batch_size N in Ok (Some d)
             | None => Ok None
             end in
  let* Ch := match C with Some C => lpv_Ch h C batch_size N M | None => Ok h end in  (* 549-572 *)
  let* y := match Dx with Some d => tadd Ch d | None => Ok Ch end in            (* 574-577 *)
  Ok (y, zf).

End LpvSsm.
Arguments repeat0 {R}. Arguments MatrixRecurrence_forward {R}. Arguments lpv_recursion_loop {R}.
Arguments lpv_ext_ss_recur {R}. Arguments lpv_state_space_recursion_fuel {R}.
Arguments lpv_state_space_recursion {R}. Arguments lpv_input {R}. Arguments lpv_Dx {R}.
Arguments lpv_Ch {R}. Arguments lpv_state_space {R}.
