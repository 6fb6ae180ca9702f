(** Model of philtorch/lpv/recur.py. *)
From Coq Require Import List Arith Lia ZArith Bool.
From Verif Require Import Scalar Tensor.
Import ListNotations.
Open Scope res_scope.

Section LpvRecur.
Variable R : cops.
Notation ten := (tensor (car R)).

(** torch.addcmul(c, p, q) = c + p * q, all three broadcast together. *)
Definition addcmul (c p q : ten) : res ten := let* m := tmul p q in tadd c m.

(** recur.py:7-17 _scalar_recursion_loop.  [zip] stops at the shorter sequence;
    [stack(dim=-1)] appends a dimension to the results. *)
Definition lpv_scalar_loop (a init x : ten) : res ten :=
  let* results := loopM (fun h ax => addcmul (snd ax) h (fst ax)) (fun h => Ok h) init
                        (combine (unbind (rk a - 1) a) (unbind (rk x - 1) x)) in
  stack (match results with r :: _ => rk r | [] => 0 end) results.

(** recur.py:20-99 linear_recurrence.  The recursive call is on a signal of
    ceil(N / block_size) samples; [fuel] bounds the depth. *)
Fixpoint lpv_linear_recurrence_fuel (fuel : nat) (a init x : ten) (unroll_factor : nat) : res ten :=
  match fuel with
  | O => Err OutOfFuel
  | S fuel' =>
    guard rk x =? 2 else AssertionError in                                      (* 39 *)
    guard (rk a =? 1) || (rk a =? 2) else AssertionError in                     (* 40 *)
    guard negb ((rk a =? 1) && negb (size a 0 =? size x 1)) else ValueError in  (* 41-44 *)
    let batch_size := size x 0 in let N := size x 1 in                          (* 46 *)
    guard (rk init =? 0) || (rk init =? 1) else AssertionError in               (* 48-51 *)
    guard negb ((rk init =? 1) && (1 <? size init 0) && negb (size init 0 =? batch_size))
      else ValueError in                                                        (* 52-55 *)
    let* init := if rk init =? 0 then expand [1] init else Ok init in           (* 57-58 *)
    guard negb (unroll_factor <? 1) else ValueError in                          (* 60-61 *)
    let block_size := unroll_factor in
    if (block_size =? 1) || (N <=? block_size) then lpv_scalar_loop a init x    (* 66-67 *)
    else
    let remainder := N mod block_size in                                        (* 69 *)
    let p := block_size - remainder in
    let x := if negb (remainder =? 0) then pad 1 0 p r0 x else x in             (* 70-71 *)
    let a := if negb (remainder =? 0) then pad (rk a - 1) 0 p r0 a else a in    (* 72 *)
    let* unrolled_x := unflatten_m1 1 block_size x in                           (* 75 *)
    let* unrolled_a := unflatten_m1 (rk a - 1) block_size a in                  (* 76 *)
    let ua1 := slice (rk unrolled_a - 1) (Some 1%Z) None unrolled_a in
    let fl := flip (rk ua1 - 1) ua1 in
    let cp := cumprod (rk fl - 1) fl in
    let a_powers := flip (rk cp - 1) cp in                                      (* 78 *)
    let* p0 := select (rk a_powers - 1) 0 a_powers in
    let* a0 := select (rk unrolled_a - 1) 0 unrolled_a in
    let* a_powered := tmul p0 a0 in                                             (* 79 *)
    let a_powers_plus_I := pad (rk a_powers - 1) 0 1 r1 a_powers in             (* 80 *)
    let* z := vecdot (tconj unrolled_x) a_powers_plus_I in                      (* 82 *)
    let* i0 := expand [batch_size; 1] (unsqueeze 1 init) in
    let* rest := lpv_linear_recurrence_fuel fuel' a_powered init z unroll_factor in
    let* initials := cat 1 [i0; rest] in                                        (* 84-90 *)
    let* output := lpv_scalar_loop
      (slice (rk unrolled_a - 1) None (Some (-1)%Z) unrolled_a)
      (slice 1 None (Some (-1)%Z) initials)
      (slice 2 None (Some (-1)%Z) unrolled_x) in                                (* 92-94 *)
    let ini1 := slice 1 (Some 1%Z) None initials in
    let* oc := cat 2 [output; unsqueeze 2 ini1] in
    let output := flatten 1 2 oc in                                             (* 97 *)
    if negb (remainder =? 0)
    then Ok (slice 1 None (Some (- Z.of_nat (block_size - remainder))%Z) output) (* 98-100 *)
    else Ok output
  end.
Definition lpv_linear_recurrence (a init x : ten) (unroll_factor : nat) : res ten :=
  lpv_linear_recurrence_fuel (S (size x 1)) a init x unroll_factor.

End LpvRecur.
Arguments addcmul {R}. Arguments lpv_scalar_loop {R}. Arguments lpv_linear_recurrence_fuel {R}.
Arguments lpv_linear_recurrence {R}.
