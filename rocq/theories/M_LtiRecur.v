(** Model of philtorch/lti/recur.py (the autograd Function is in M_Autograd). *)
From Coq Require Import List Arith Lia ZArith Bool.
From Verif Require Import Scalar Tensor.
Import ListNotations.
Open Scope res_scope.

Section LtiRecur.
Variable R : cops.
Notation ten := (tensor (car R)).

(** recur.py:81-91 _scalar_recursion_loop *)
Definition scalar_recursion_loop (a init x : ten) : res ten :=
  let* results := loopM (fun h xn => let* p := tmul a h in tadd p xn) (fun h => Ok h)
                        init (unbind 1 x) in
  stack 1 results.

(** recur.py:94-192 linear_recurrence.  The recursive call is on a signal of
    ceil(N / block_size) samples; [fuel] bounds the depth. *)
Fixpoint linear_recurrence_fuel (fuel : nat) (a init x : ten) (unroll_factor : nat) : res ten :=
  match fuel with
  | O => Err OutOfFuel
  | S fuel' =>
    guard (rk x =? 2) else AssertionError in                                   (* 112 *)
    guard (rk a =? 0) || (rk a =? 1) else AssertionError in                    (* 113 *)
    guard negb ((rk a =? 1) && (1 <? size a 0) && negb (size a 0 =? size x 0))
      else ValueError in                                                       (* 114-117 *)
    let* a := if rk a =? 0 then expand [1] a else Ok a in                      (* 119-120 *)
    let batch_size := size x 0 in let N := size x 1 in                         (* 122 *)
    guard (rk init =? 0) || (rk init =? 1) else AssertionError in              (* 124-127 *)
    guard negb ((rk init =? 1) && (1 <? size init 0) && negb (size init 0 =? batch_size))
      else ValueError in                                                       (* 128-131 *)
    let* init := if rk init =? 0 then expand [1] init else Ok init in          (* 133-134 *)
    guard negb (unroll_factor <? 1) else ValueError in                         (* 136-137 *)
    let block_size := unroll_factor in
    if (block_size =? 1) || (N <=? block_size)                                 (* 142-143 *)
    then scalar_recursion_loop a init x
    else
    let remainder := N mod block_size in                                       (* 145 *)
    let x := if negb (remainder =? 0)
             then pad 1 0 (block_size - remainder) r0 x else x in              (* 146-148 *)
    let* unrolled_x := unflatten_m1 1 block_size x in                          (* 150 *)
    let* ae := if numel a =? 1 then expand [block_size] a
               else expand [size a 0; block_size] (unsqueeze 1 a) in           (* 153-157 *)
    let a_powers := cumprod (rk ae - 1) ae in                                  (* 152-159 *)
    let* a_powered := select (rk a_powers - 1) (-1) a_powers in                (* 160 *)
    let ap1 := slice (rk a_powers - 1) None (Some (-1)%Z) a_powers in
    let ap2 := flip (rk ap1 - 1) ap1 in
    let a_pI := pad (rk ap2 - 1) 0 1 r1 ap2 in                                 (* 161 *)
    let* z := if rk a_pI =? 1 then matmul unrolled_x a_pI
              else vecdot (tconj unrolled_x) (unsqueeze 1 a_pI) in             (* 163-167 *)
    let* i0 := expand [batch_size; 1] (unsqueeze 1 init) in
    let* rest := linear_recurrence_fuel fuel' a_powered init z unroll_factor in
    let* initials := cat 1 [i0; rest] in                                       (* 169-175 *)
    let ini1 := slice 1 None (Some (-1)%Z) initials in
    let ux1 := slice 2 None (Some (-1)%Z) unrolled_x in
    let* aug_x := cat 2 [unsqueeze 2 ini1; ux1] in                             (* 178 *)
    let aP := pad (rk a_pI - 1) 0 (block_size - 2) r0 a_pI in
    let* aU := unfold (rk aP - 1) block_size aP in
    let aug_A := flip (rk aU - 2) aU in                                        (* 179-183 *)
    let* output := matmul aug_x (mT aug_A) in                                  (* 185 *)
    let ini2 := slice 1 (Some 1%Z) None initials in
    let* oc := cat 2 [output; unsqueeze 2 ini2] in
    let output := flatten 1 2 oc in                                            (* 188 *)
    if negb (remainder =? 0)
    then Ok (slice 1 None (Some (- Z.of_nat (block_size - remainder))%Z) output) (* 189-191 *)
    else Ok output
  end.
Definition linear_recurrence (a init x : ten) (unroll_factor : nat) : res ten :=
  linear_recurrence_fuel (S (size x 1)) a init x unroll_factor.

End LtiRecur.
Arguments scalar_recursion_loop {R}. Arguments linear_recurrence_fuel {R}.
Arguments linear_recurrence {R}.
