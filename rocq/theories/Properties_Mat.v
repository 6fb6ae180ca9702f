(** Theorems about mat.py (C05, C06, C31). *)
From Coq Require Import List Arith Lia ZArith Bool.
From Verif Require Import Scalar Tensor TensorLemmas Spec M_Mat P_Mat.
Import ListNotations.

(** C06.  For every batch shape [pre], size M and n >= 1. *)
Theorem matrix_power_accumulate_correct :
  forall (R : cring) (la : linalg R) (A : tensor R) pre M f n,
  isP2 A pre M M f -> 1 <= n ->
  exists y, matrix_power_accumulate la A (Z.of_nat n) = Ok y /\
    isP3 y pre n M M (fun q k => mpow M (f q) (S k)).
Proof.
  intros R la A pre M f n HA Hn. unfold matrix_power_accumulate.
  destruct (Z.of_nat n <? 0)%Z eqn:E; [apply Z.ltb_lt in E; lia|]. rewrite Nat2Z.id.
  now apply mpa_nat_spec.
Qed.
Print Assumptions matrix_power_accumulate_correct.

Example matrix_power_accumulate_ex :
  show (matrix_power_accumulate_nat (ofl 0%Z [2;2] [1;1;1;0]%Z : tensor Zring) 6)
  = Some ([6;2;2], [1;1;1;0; 2;1;1;1; 3;2;2;1; 5;3;3;2; 8;5;5;3; 13;8;8;5]%Z).
Proof. vm_compute. reflexivity. Qed.

(** C06, n = 0: one identity matrix per batch. *)
Theorem matrix_power_accumulate_zero :
  forall (R : cring) (la : linalg R) (A : tensor R) pre M f,
  isP2 A pre M M f ->
  exists y, matrix_power_accumulate la A 0 = Ok y /\ isP3 y pre 1 M M (fun q _ => mid).
Proof. intros. now apply mpa_zero_spec with (f := f). Qed.
Print Assumptions matrix_power_accumulate_zero.

(** C06, negative exponents: the powers of what torch.linalg.inv returned. *)
Theorem matrix_power_accumulate_neg :
  forall (R : cring) (la : linalg R) (A Ai : tensor R) pre M f g n,
  isP2 A pre M M f -> l_inv la A = Ok Ai -> isP2 Ai pre M M g -> 1 <= n ->
  exists y, matrix_power_accumulate la A (- Z.of_nat n) = Ok y /\
    isP3 y pre n M M (fun q k => mpow M (g q) (S k)).
Proof. exact mpa_neg_spec. Qed.
Print Assumptions matrix_power_accumulate_neg.

(** C05 fails: four 2x2 integer matrices, third product. *)
Definition cumdot_witness : tensor Zring := mk3 4 2 2 (fun k i j => Z.of_nat (1 + j + 2 * i + 4 * k)).
Theorem matrices_cumdot_refuted :
  exists (A : tensor Zring) y,
    shape A = [4; 2; 2] /\ matrices_cumdot A = Ok y /\ shape y = [4; 2; 2] /\
    at_ y [2; 0; 0] <> mprod 2 (fun k i j => at_ A [k; i; j]) 3 0 0.
Proof.
  exists cumdot_witness.
  destruct (okb_ex (matrices_cumdot cumdot_witness) (fun y => list_eqb (shape y) [4; 2; 2] &&
    negb (Z.eqb (at_ y [2; 0; 0])
      (mprod (R := Zring) 2 (fun k i j => at_ cumdot_witness [k; i; j]) 3 0 0))))
    as (y & E & H); [vm_compute; reflexivity|].
  exists y. apply andb_prop in H as [H1 H2]. apply list_eqb_eq in H1.
  apply negb_true_iff, Z.eqb_neq in H2. auto.
Qed.
Print Assumptions matrices_cumdot_refuted.

(** Even for 1x1 matrices (which commute), at length 8. *)
Theorem matrices_cumdot_scalar_refuted :
  exists (A : tensor Zring) y,
    shape A = [8; 1; 1] /\ matrices_cumdot A = Ok y /\ shape y = [8; 1; 1] /\
    at_ y [4; 0; 0] <> mprod 1 (fun k i j => at_ A [k; i; j]) 5 0 0.
Proof.
  set (W := mk3 8 1 1 (fun k _ _ => Z.of_nat (k + 2)) : tensor Zring). exists W.
  destruct (okb_ex (matrices_cumdot W) (fun y => list_eqb (shape y) [8; 1; 1] &&
    negb (Z.eqb (at_ y [4; 0; 0]) (mprod (R := Zring) 1 (fun k i j => at_ W [k; i; j]) 5 0 0))))
    as (y & E & H); [vm_compute; reflexivity|].
  exists y. apply andb_prop in H as [H1 H2]. apply list_eqb_eq in H1.
  apply negb_true_iff, Z.eqb_neq in H2. auto.
Qed.
Print Assumptions matrices_cumdot_scalar_refuted.

(** C05, what holds: lengths 1 and prime, for every batch shape and matrix size.
    Missing: composite lengths, where the claim is false in general. *)
Theorem matrices_cumdot_partial :
  forall (R : cring) (A : tensor R) pre n M f,
  isP3 A pre n M M f -> n = 1 \/ is_prime n ->
  exists y, matrices_cumdot A = Ok y /\ isP3 y pre n M M (fun q k => mprod M (f q) (S k)).
Proof. intros. now apply cumdot_prime_spec. Qed.
Print Assumptions matrices_cumdot_partial.

Example matrices_cumdot_ex :
  is_prime 3 /\
  show (matrices_cumdot (mk3 3 2 2 (fun k i j => Z.of_nat (1 + j + 2 * i + 4 * k)) : tensor Zring))
  = Some ([3;2;2], [1;2;3;4; 19;22;43;50; 413;454;937;1030]%Z).
Proof.
  split; [|vm_compute; reflexivity]. split; [lia|]. intros d Hd.
  replace d with 2 by lia. cbn. lia.
Qed.

(** C31.  [p] holds roots of z^M + a_1 z^(M-1) + ... + a_M. *)
Theorem companion_vandermonde :
  forall (R : cring) (a p : tensor R) M f g,
  is1 a M f -> is1 p M g -> (forall j, j < M -> char_root R M f (g j)) ->
  exists C V CV, companion a = Ok C /\ vandermonde p = Ok V /\ matmul C V = Ok CV /\
    is2 V M M (fun i j => rpow (g j) (M - 1 - i)) /\
    is2 CV M M (fun i j => rmul (rpow (g j) (M - 1 - i)) (g j)).
Proof. exact companion_vander_spec. Qed.
Print Assumptions companion_vandermonde.

(** z^3 - 6 z^2 + 11 z - 6 has roots 1, 2, 3. *)
Example companion_vandermonde_ex :
  (forall j, j < 3 -> char_root Zring 3 (fun k => nth k [-6; 11; -6]%Z 0%Z) (Z.of_nat (S j))) /\
  show (companion (lst1 0%Z [-6; 11; -6]%Z : tensor Zring)) = Some ([3;3], [6;-11;6; 1;0;0; 0;1;0]%Z) /\
  show (vandermonde (lst1 0%Z [1; 2; 3]%Z : tensor Zring)) = Some ([3;3], [1;4;9; 1;2;3; 1;1;1]%Z).
Proof.
  repeat split; try (vm_compute; reflexivity).
  intros j Hj. destruct j as [|[|[|j]]]; try lia; vm_compute; reflexivity.
Qed.

(** C31, batched poles: torch.vander accepts 1-D input only, so the documented
    (..., M) shape fails for every batch shape once M > 1. *)
Theorem vandermonde_batched_refuted :
  forall (R : cring) (p : tensor R) b M, shape p = [b; M] -> M <> 1 -> vandermonde p = Err RuntimeError.
Proof.
  intros R p b M Hs HM. unfold vandermonde, sizen, rk. rewrite Hs. cbn [length Nat.sub nth].
  apply Nat.eqb_neq in HM. rewrite HM. unfold torch_vander, rk. now rewrite Hs.
Qed.
Print Assumptions vandermonde_batched_refuted.
