(** Theorems about lti/recur.py (C01). *)
From Coq Require Import List Arith Lia ZArith Bool.
From Verif Require Import Scalar Tensor Spec Shapes M_LtiRecur P_LtiRecur.
Import ListNotations.

(** C01.  Every ring, batch size, length, unroll factor and coefficient shape. *)
Theorem linear_recurrence_correct :
  forall (R : cring) B N (a init x : tensor R) af hf xf u,
  1 <= B -> 1 <= N -> 1 <= u -> coef B a af -> coef B init hf -> is2 x B N xf ->
  exists y, linear_recurrence a init x u = Ok y /\
    is2 y B N (fun b n => lin_rec (fun _ => af b) (hf b) (xf b) (S n)).
Proof. exact linear_recurrence_spec. Qed.
Print Assumptions linear_recurrence_correct.

(** Two batches, 7 samples, blocks of 3: h = 2h + x and h = -h + x. *)
Example linear_recurrence_ex :
  let a := lst1 0%Z [2; -1]%Z : tensor Zring in
  let init := mk0 1%Z : tensor Zring in
  let x := lst2 0%Z [[1;0;0;1;0;0;5]; [1;2;3;4;5;6;7]]%Z : tensor Zring in
  coef 2 a (fun b => nth b [2; -1]%Z 0%Z) /\ coef 2 init (fun _ => 1%Z) /\
  show (linear_recurrence a init x 3)
  = Some ([2;7], [3;6;12;25;50;100;205; 0;2;1;3;2;4;3]%Z).
Proof.
  cbv zeta. split; [|split].
  - apply coef_B. split; reflexivity.
  - apply (coef_0 (R := Zring) 1%Z); [split; reflexivity|reflexivity].
  - vm_compute. reflexivity.
Qed.

(** The empty signal raises: torch.stack of an empty list. *)
Theorem linear_recurrence_empty :
  forall (R : cring) B (a init x : tensor R) u,
  shape a = [] -> shape init = [] -> shape x = [B; 0] -> 1 <= u ->
  linear_recurrence a init x u = Err RuntimeError.
Proof.
  intros R B a init x u Ha Hi Hx Hu. unfold linear_recurrence, size. rewrite Hx.
  cbn [nth linear_recurrence_fuel]. unfold rk. rewrite Hx, Ha, Hi. cbn [length Nat.eqb orb andb negb].
  unfold expand. rewrite Ha, Hi. cbn [rev app expandable_rev bind].
  destruct (u <? 1) eqn:E; [apply Nat.ltb_lt in E; lia|]. cbn [negb].
  unfold size. rewrite Hx. cbn [nth Nat.leb]. rewrite orb_true_r.
  unfold scalar_recursion_loop, unbind, size. rewrite Hx. reflexivity.
Qed.
Print Assumptions linear_recurrence_empty.

(** An unroll factor below one is a ValueError whatever the coefficients are. *)
Theorem linear_recurrence_unroll_error :
  forall (R : cring) B N (a init x : tensor R) af hf xf,
  coef B a af -> coef B init hf -> is2 x B N xf ->
  linear_recurrence a init x 0 = Err ValueError.
Proof.
  intros R B N a init x af hf xf Ha Hi Hx. unfold linear_recurrence. cbn [linear_recurrence_fuel].
  unfold rk. rewrite (proj1 Hx). cbn [length Nat.eqb].
  assert (forall (t : tensor R) f, coef B t f -> exists t', (length (shape t) =? 0) || (length (shape t) =? 1) = true /\
    negb ((length (shape t) =? 1) && (1 <? size t 0) && negb (size t 0 =? B)) = true /\
    (if length (shape t) =? 0 then expand [1] t else Ok t) = Ok t') as Hc.
  { intros t f [v [Hs _] _|g [Hs _] _|[Hs _]].
    - unfold expand. rewrite Hs. cbn. eauto.
    - unfold size. rewrite Hs. cbn. eauto.
    - unfold size. rewrite Hs. cbn. rewrite Nat.eqb_refl, andb_false_r. eauto. }
  assert (size x 0 = B) as -> by (unfold size; now rewrite (proj1 Hx)).
  destruct (Hc a af Ha) as (a' & -> & -> & ->). destruct (Hc init hf Hi) as (i' & -> & -> & ->).
  reflexivity.
Qed.
Print Assumptions linear_recurrence_unroll_error.
