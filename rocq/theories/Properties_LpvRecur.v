(** Theorems about lpv/recur.py (C02). *)
From Coq Require Import List Arith Lia ZArith Bool.
From Verif Require Import Scalar Tensor Spec Shapes M_LpvRecur P_LpvRecur.
Import ListNotations.

(** C02.  Every ring, batch size, length, unroll factor and coefficient shape. *)
Theorem lpv_linear_recurrence_correct :
  forall (R : cring) B N (a init x : tensor R) af hf xf u,
  1 <= B -> 1 <= N -> 1 <= u -> coefv B N a af -> coef B init hf -> is2 x B N xf ->
  exists y, lpv_linear_recurrence a init x u = Ok y /\
    is2 y B N (fun b n => lin_rec (af b) (hf b) (xf b) (S n)).
Proof. exact lpv_linear_recurrence_spec. Qed.
Print Assumptions lpv_linear_recurrence_correct.

(** Two batches, 7 samples, blocks of 3, a = 1, 2, ... and a = -1, 1, .... *)
Example lpv_linear_recurrence_ex :
  let a := lst2 0%Z [[1;2;3;4;5;6;7]; [-1;1;-1;1;-1;1;-1]]%Z : tensor Zring in
  let init := mk0 1%Z : tensor Zring in
  let x := lst2 0%Z [[1;0;0;1;0;0;5]; [1;2;3;4;5;6;7]]%Z : tensor Zring in
  coefv 2 7 a (fun b n => nth n (nth b [[1;2;3;4;5;6;7]; [-1;1;-1;1;-1;1;-1]] [])%Z 0%Z) /\
  coef 2 init (fun _ => 1%Z) /\
  show (lpv_linear_recurrence a init x 3)
  = Some ([2;7], [2;4;12;49;245;1470;10295; 0;2;1;5;0;6;1]%Z).
Proof.
  cbv zeta. split; [|split].
  - apply coefv_b. split; reflexivity.
  - apply (coef_0 (R := Zring) 1%Z); [split; reflexivity|reflexivity].
  - vm_compute. reflexivity.
Qed.

(** A shared trajectory. *)
Example lpv_linear_recurrence_shared_ex :
  let a := lst1 0%Z [1;2;3;4;5]%Z : tensor Zring in
  let init := lst1 0%Z [1; 10]%Z : tensor Zring in
  let x := lst2 0%Z [[1;0;0;1;0]; [0;0;0;0;1]]%Z : tensor Zring in
  show (lpv_linear_recurrence a init x 2) = Some ([2;5], [2;4;12;49;245; 10;20;60;240;1201]%Z).
Proof. vm_compute. reflexivity. Qed.

(** An unroll factor below one and a shared trajectory of the wrong length are ValueErrors. *)
Theorem lpv_linear_recurrence_unroll_error :
  forall (R : cring) B N (a init x : tensor R) af hf xf,
  coefv B N a af -> coef B init hf -> is2 x B N xf ->
  lpv_linear_recurrence a init x 0 = Err ValueError.
Proof.
  intros R B N a init x af hf xf Ha Hi Hx. unfold lpv_linear_recurrence. cbn [lpv_linear_recurrence_fuel].
  assert (size x 0 = B) as -> by (unfold size; now rewrite (proj1 Hx)).
  assert (size x 1 = N) as -> by (unfold size; now rewrite (proj1 Hx)).
  unfold rk. rewrite (proj1 Hx). cbn [length Nat.eqb].
  assert (((length (shape a) =? 1) || (length (shape a) =? 2)) = true /\
          negb ((length (shape a) =? 1) && negb (size a 0 =? N)) = true) as (-> & ->).
  { destruct Ha as [g Ha _|Ha]; unfold size; rewrite (proj1 Ha); cbn; rewrite ?Nat.eqb_refl; auto. }
  destruct Hi as [v [Hs _] _|g [Hs _] _|[Hs _]].
  - unfold expand. rewrite Hs. reflexivity.
  - unfold size. rewrite Hs. reflexivity.
  - unfold size. rewrite Hs. cbn. rewrite Nat.eqb_refl, andb_false_r. reflexivity.
Qed.
Print Assumptions lpv_linear_recurrence_unroll_error.

Theorem lpv_linear_recurrence_length_error :
  forall (R : cring) B N L (a init x : tensor R) u,
  shape a = [L] -> shape x = [B; N] -> L <> N -> lpv_linear_recurrence a init x u = Err ValueError.
Proof.
  intros R B N L a init x u Ha Hx Hn. unfold lpv_linear_recurrence. cbn [lpv_linear_recurrence_fuel].
  unfold rk, size. rewrite Hx, Ha. cbn [length Nat.eqb nth].
  apply Nat.eqb_neq in Hn. rewrite Hn. reflexivity.
Qed.
Print Assumptions lpv_linear_recurrence_length_error.
