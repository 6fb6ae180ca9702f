(** Model of philtorch/prototype/nl.py (newton_solve).
    [func] and [fprime] are the callables; the autograd Jacobian of lines 56-61 is [fprime]
    too (for a function acting sample by sample, summing over batch and time before
    differentiating and permuting gives the matrix of every sample).  [allclose] is
    torch.allclose with the given tolerances. *)
From Coq Require Import List Arith Lia ZArith Bool.
From Verif Require Import Scalar Tensor M_Mat M_Kernels M_LtiSsm M_Ext M_LpvSsm.
Import ListNotations.
Open Scope res_scope.

Section Newton.
Variable R : cops.
Notation ten := (tensor (car R)).
Variable e : env.
Variable pararnn : bool.
Variables (func fprime : ten -> ten -> res ten).
Variable allclose : ten -> ten -> bool.

(** nl.py:36-41 recur_runner *)
Definition recur_runner (M unroll_factor : nat) (A zi x : ten) : res ten :=
  if lpv_extension_backend_indicator e pararnn M && (unroll_factor =? 1)
  then lpv_ext_ss_recur e pararnn A zi x None
  else lpv_state_space_recursion e pararnn A zi x unroll_factor None.

(** nl.py:45-76, the loop; [cnt] iterations are left, [i] is the loop variable.  Returns
    (computed, new_y, i + 1, intermediate) on leaving the loop. *)
Fixpoint newton_loop (M uf : nat) (x : ten) (cnt i : nat) (y : ten) (computed : list ten)
  (inter : list (ten * ten)) (last : res (ten * nat)) : res (list ten * ten * nat * list (ten * ten)) :=
  match cnt with
  | O => let* ' (new_y, n) := last in Ok (computed, new_y, n, inter)
  | S cnt' =>
      let* next_y := func (slice 1 None (Some (-1)%Z) y) (slice 1 (Some (Z.of_nat i)) None x) in   (* 46 *)
      let* res := tsub next_y (slice 1 (Some 1%Z) None y) in                                        (* 47 *)
      let* Jac := fprime (slice 1 (Some 1%Z) (Some (-1)%Z) y)
                         (slice 1 (Some (Z.of_nat i + 1)%Z) None x) in                              (* 49-61 *)
      let* r0_ := select 1 0 res in
      let* delta := recur_runner M uf Jac r0_ (slice 1 (Some 1%Z) None res) in                      (* 63 *)
      let* yd := tadd (slice 1 (Some 2%Z) None y) delta in
      let n1 := slice 1 None (Some 1%Z) next_y in
      let* new_y := cat 1 [n1; yd] in                                                               (* 64 *)
      let computed := computed ++ [n1] in                                                           (* 65 *)
      if allclose new_y (slice 1 (Some 1%Z) None y)                                                 (* 66-67 *)
      then Ok (computed, new_y, S i, inter)
      else
        let* c := cat 1 (computed ++ [slice 1 None (Some 1%Z) new_y]) in
        let* sq := tmul res res in
        newton_loop M uf x cnt' (S i) new_y computed
                    (inter ++ [(c, tsum 1 (tsum 2 sq))]) (Ok (new_y, S i))                          (* 69-76 *)
  end.

(** nl.py:10-80 newton_solve (the list of intermediates is returned in any case). *)
Definition newton_solve (x y0 init : ten) (max_iter : nat) (unroll_factor : nat)
  : res (ten * nat * list (ten * ten)) :=
  guard max_iter <? size x 1 else AssertionError in                                                 (* 34 *)
  let M := sizen init 1 in
  let* y := cat 1 [unsqueeze 1 init; y0] in                                                         (* 42 *)
  let* ' (computed, new_y, n, inter) :=
    newton_loop M unroll_factor x max_iter 0 y [] [] (Err UnboundLocalError) in
  let* result := cat 1 (computed ++ [slice 1 (Some 1%Z) None new_y]) in                             (* 77 *)
  Ok (result, n, inter).
End Newton.
Arguments recur_runner {R}. Arguments newton_loop {R}. Arguments newton_solve {R}.
