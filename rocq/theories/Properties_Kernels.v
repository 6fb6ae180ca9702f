(** Theorems about the compiled kernels (C07, C08, C44). *)
From Coq Require Import List Arith Lia ZArith Bool.
From Verif Require Import Scalar Tensor TensorLemmas Spec Shapes M_Kernels M_Int32
  P_Kernels P_KernelOps P_Scan P_Helion.
Import ListNotations.

(** C07, lti_recurN / lti_recur2 on the CPU: for all batch sizes, lengths, orders and
    data, the state recurrence. *)
Theorem cpu_lti_recurN_correct :
  forall (R : cring) B N M (A zi x : tensor R) Af zf xf,
  matc B M A Af -> is2 zi B M zf -> is3 x B N M xf ->
  exists y, lti_mat_recur_N_order_cpu A zi x = Ok y /\
    is3 y B N M (fun b n m => state M (fun _ => Af b) (zf b) (xf b) (S n) m).
Proof. exact lti_cpu_spec. Qed.
Print Assumptions cpu_lti_recurN_correct.

(** C07, recurN / recur2 on the CPU. *)
Theorem cpu_recurN_correct :
  forall (R : cring) B N M (A zi x : tensor R) Af zf xf,
  matv B N M A Af -> is2 zi B M zf -> is3 x B N M xf ->
  exists y, mat_recur_N_order_cpu_omp A zi x = Ok y /\
    is3 y B N M (fun b n m => state M (Af b) (zf b) (xf b) (S n) m).
Proof. exact lpv_cpu_spec. Qed.
Print Assumptions cpu_recurN_correct.

(** C07, lti_recur on the CPU. *)
Theorem cpu_lti_recur_correct :
  forall (R : cring) B N (a zi x : tensor R) af zf xf,
  1 <= B -> coef B a af -> is1 zi B zf -> is2 x B N xf ->
  exists y, lti_recur_cpu a zi x = Ok y /\
    is2 y B N (fun b n => lin_rec (fun _ => af b) (zf b) (xf b) (S n)).
Proof. exact lti_recur_cpu_spec. Qed.
Print Assumptions cpu_lti_recur_correct.

(** Fibonacci numbers from the compiled kernel, per-batch matrices. *)
Example cpu_kernels_ex :
  show (lti_mat_recur_N_order_cpu (ofl 0%Z [2;2;2] [1;1;1;0; 2;0;0;1]%Z : tensor Zring)
          (lst2 0%Z [[1;0];[1;1]]%Z) (mk3 2 4 2 (fun b n m => Z.of_nat (b * n))))
  = Some ([2;4;2], [1;1; 2;1; 3;2; 5;3;  2;1; 5;2; 12;4; 27;7]%Z) /\
  show (mat_recur_N_order_cpu_omp (mk3 3 1 1 (fun n _ _ => Z.of_nat (n + 2)) : tensor Zring)
          (mk2 1 1 (fun _ _ => 1%Z)) (mk3 1 3 1 (fun _ _ _ => 1%Z)))
  = Some ([1;3;1], [3; 10; 41]%Z) /\
  show (lti_recur_cpu (lst1 0%Z [2;3]%Z : tensor Zring) (lst1 0%Z [1;1]%Z) (mk2 2 3 (fun _ _ => 1%Z)))
  = Some ([2;3], [3;7;15; 4;13;40]%Z).
Proof. repeat split; vm_compute; reflexivity. Qed.

(** C07, schedules.  Workers b < B run the loop bodies with their memory accesses
    interleaved by [sched]; once all are finished the buffer holds the recurrence,
    whatever the schedule ([c b t i j] is the coefficient the worker reads). *)
Theorem kernel_schedule_correct :
  forall (R : cring) B T N (c : nat -> nat -> nat -> nat -> R) (H0 : nat -> R) (sched : list nat),
  let r := trun T N c sched (fun _ => tinit) H0 in
  (forall b, b < B -> fst r b = LDone) ->
  forall b t i, b < B -> t < T -> i < N ->
  snd r (b * T * N + t * N + i) =
    state N (fun n => c b (n + 1)) (fun i => H0 (b * T * N + 0 * N + i))
      (fun n i => H0 (b * T * N + (n + 1) * N + i)) t i.
Proof. intros R B T N c H0 sched r Hd b t i Hb Ht Hi. apply trun_spec; auto. Qed.
Print Assumptions kernel_schedule_correct.

(** Hence every schedule agrees with the sequential loop nest of each kernel. *)
Theorem kernel_schedule_sequential :
  forall (R : cring) B T N (A H0 : nat -> R) (sched : list nat), 1 <= T ->
  let done r := forall b, b < B -> fst r b = @LDone R in
  let same (r : _ * (nat -> R)) (m : nat -> R) := forall b t i, b < B -> t < T -> i < N ->
    snd r (b * T * N + t * N + i) = m (b * T * N + t * N + i) in
  (let r := trun T N (fun b t i j => A (b * N * N + i * N + j)) sched (fun _ => tinit) H0 in
   done r -> same r (host_lti_batch_mat_recur_N_order B T N A H0)) /\
  (let r := trun T N (fun b t i j => A (i * N + j)) sched (fun _ => tinit) H0 in
   done r -> same r (host_lti_share_mat_recur_N_order B T N A H0)) /\
  (let r := trun T N (fun b t i j => A (b * T * N * N + t * N * N + i * N + j)) sched (fun _ => tinit) H0 in
   done r -> same r (host_batch_mat_recur_N_order_omp B T N A H0)) /\
  (let r := trun T N (fun b t i j => A (t * N * N + i * N + j)) sched (fun _ => tinit) H0 in
   done r -> same r (host_share_mat_recur_N_order_omp B T N A H0)).
Proof.
  intros R B T N A H0 sched HT done same.
  rewrite gk_lti_batch, gk_lti_share, gk_batch, gk_share.
  repeat split; intros r Hd b t i Hb Ht Hi;
    change (b * T * N + t * N + i) with (off T N b t i);
    rewrite gk_spec by assumption; apply trun_spec; auto.
Qed.
Print Assumptions kernel_schedule_sequential.

(** The scalar kernels, whose worker touches one cell per time step. *)
Theorem kernel_schedule_scalar :
  forall (R : cring) B T (a : nat -> R) (H0 : nat -> R) (sched : list nat), 1 <= T ->
  let r := trun T 1 (fun b _ _ _ => a b) sched (fun _ => tinit) H0 in
  (forall b, b < B -> fst r b = LDone) ->
  forall b t, b < B -> t < T ->
  snd r (b * T + t) = host_lti_batch_linear_recurrence B T a H0 (b * T + t).
Proof.
  intros R B T a H0 sched HT r Hd b t Hb Ht.
  change (host_lti_batch_linear_recurrence B T a H0) with (gk1 R B T a H0).
  rewrite gk1_spec by assumption. unfold ref1.
  replace (b * T + t) with (off T 1 b t 0) by (unfold off; lia).
  rewrite lin_rec_state.
  unfold r. rewrite trun_spec by auto. unfold ref. apply Algebra.state_ext; auto; intros; unfold off;
    f_equal; lia.
Qed.
Print Assumptions kernel_schedule_scalar.

(** No schedule can block: [budget] steps of a worker finish it. *)
Theorem kernel_schedule_progress :
  forall (R : cring) T N (c : nat -> nat -> nat -> nat -> R) (H0 : nat -> R) sched b,
  1 <= T -> budget T N <= count_occ Nat.eq_dec sched b ->
  fst (trun T N c sched (fun _ => tinit) H0) b = LDone.
Proof.
  intros R T N c H0 sched b HT Hc. destruct (budget_init R T N HT) as [H1 H2].
  apply trun_progress; auto. lia.
Qed.
Print Assumptions kernel_schedule_progress.

(** Two workers, order 2, stepped alternately. *)
Example kernel_schedule_ex :
  let H0 := (fun k => Z.of_nat (k + 1)) : nat -> Zring in
  let c := (fun b t i j => Z.of_nat (b + i + 2 * j)) : nat -> nat -> nat -> nat -> Zring in
  let r := trun 3 2 c (flat_map (fun _ => [0; 1]) (seq 0 30)) (fun _ => tinit) H0 in
  (fst r 0 = LDone /\ fst r 1 = LDone) /\ 30 >= budget 3 2 /\
  map (snd r) (seq 0 12) = map (gk Zring 2 3 2 c H0) (seq 0 12).
Proof. vm_compute. repeat split; repeat constructor. Qed.

(** C08: the combine operators are associative. *)
Theorem scan_operators_associative :
  forall R : cring,
  (forall a b c : R * R,
     recur_binary_op (recur_binary_op a b) c = recur_binary_op a (recur_binary_op b c)) /\
  (forall a b c : sqm2 R,
     recur2_binary_op (recur2_binary_op a b) c = recur2_binary_op a (recur2_binary_op b c)) /\
  (forall n (a b c : nat -> R) k, k < n * n + n ->
     recurN_binary_op n (recurN_binary_op n a b) c k = recurN_binary_op n a (recurN_binary_op n b c) k).
Proof. intro R. repeat split; intros; [apply op1_assoc|apply op2_assoc|now apply opN_assoc]. Qed.
Print Assumptions scan_operators_associative.

(** C08, CUDA lti_recur: whatever tree each output uses. *)
Theorem cuda_lti_recur_correct :
  forall (R : cring) e B N (a zi x : tensor R) af zf xf,
  env_ok e -> 1 <= B -> coef B a af -> is1 zi B zf -> is2 x B N xf ->
  exists y, lti_recur_cuda e a zi x = Ok y /\
    is2 y B N (fun b n => lin_rec (fun _ => af b) (zf b) (xf b) (S n)).
Proof. exact lti_recur_cuda_spec. Qed.
Print Assumptions cuda_lti_recur_correct.

(** C08, CUDA lti_recur2. *)
Theorem cuda_lti_recur2_correct :
  forall (R : cring) e B N (A zi x : tensor R) Af zf xf,
  env_ok e -> matc B 2 A Af -> is2 zi B 2 zf -> is3 x B N 2 xf ->
  exists y, lti_mat_recur_second_order_cuda e A zi x = Ok y /\
    is3 y B N 2 (fun b n m => state 2 (fun _ => Af b) (zf b) (xf b) (S n) m).
Proof. exact lti2_cuda_spec. Qed.
Print Assumptions cuda_lti_recur2_correct.

(** C08, CUDA recur2. *)
Theorem cuda_recur2_correct :
  forall (R : cring) e B N (A zi x : tensor R) Af zf xf,
  env_ok e -> matv B N 2 A Af -> is2 zi B 2 zf -> is3 x B N 2 xf ->
  exists y, mat_recur_second_order_cuda e A zi x = Ok y /\
    is3 y B N 2 (fun b n m => state 2 (Af b) (zf b) (xf b) (S n) m).
Proof. exact lpv2_cuda_spec. Qed.
Print Assumptions cuda_recur2_correct.

(** C08, the host scans of host_recur2.cpp and host_recurN.cpp, one scan across
    all batches. *)
Theorem host_recur2_scan_correct :
  forall (R : cring) e B N (A zi x : tensor R) Af zf xf,
  env_ok e -> matv B N 2 A Af -> is2 zi B 2 zf -> is3 x B N 2 xf ->
  exists y, mat_recur_second_order_cpu e A zi x = Ok y /\
    is3 y B N 2 (fun b n m => state 2 (Af b) (zf b) (xf b) (S n) m).
Proof. exact host2_spec. Qed.
Print Assumptions host_recur2_scan_correct.

Theorem host_recurN_scan_correct :
  forall (R : cring) e B N M (A zi x : tensor R) Af zf xf,
  env_ok e -> matv B N M A Af -> is2 zi B M zf -> is3 x B N M xf ->
  exists y, mat_recur_N_order_cpu e A zi x = Ok y /\
    is3 y B N M (fun b n m => state M (Af b) (zf b) (xf b) (S n) m).
Proof. exact hostN_spec. Qed.
Print Assumptions host_recurN_scan_correct.

(** A right-leaning scan tree. *)
Fixpoint rtree (n : nat) : tree := match n with O => Leaf | S k => Node Leaf (rtree k) end.
Lemma rtree_leaves k : leaves (rtree k) = S k.
Proof. induction k; cbn; auto. Qed.
Definition env_r : env := mkEnv true true false true false rtree 2 1.
Example env_r_ok : env_ok env_r.
Proof. split; [exact rtree_leaves|]. cbn. auto. Qed.
Example cuda_kernels_ex :
  show (lti_mat_recur_second_order_cuda env_r (ofl 0%Z [2;2] [1;1;1;0]%Z : tensor Zring)
          (lst2 0%Z [[1;0];[2;0]]%Z) (mk3 2 4 2 (fun b n m => 0%Z)))
  = Some ([2;4;2], [1;1; 2;1; 3;2; 5;3;  2;2; 4;2; 6;4; 10;6]%Z) /\
  show (mat_recur_second_order_cuda env_r (mk4 2 2 2 2 (fun b n i j => Z.of_nat (b + n + i * j)) : tensor Zring)
          (lst2 0%Z [[1;0];[2;1]]%Z) (mk3 2 2 2 (fun b n m => Z.of_nat m)))
  = show (mat_recur_N_order_cpu env_r (mk4 2 2 2 2 (fun b n i j => Z.of_nat (b + n + i * j)) : tensor Zring)
          (lst2 0%Z [[1;0];[2;1]]%Z) (mk3 2 2 2 (fun b n m => Z.of_nat m))).
Proof. split; vm_compute; reflexivity. Qed.

(** Helion kernels: any tile sizes. *)
Theorem helion_kernels_correct :
  forall (R : cring) e B N M (A zi x : tensor R) zf xf,
  env_ok e -> is2 zi B M zf -> is3 x B N M xf ->
  (forall Af, matc B M A Af -> exists y, hl_lti_recurN e A zi x = Ok y /\
    is3 y B N M (fun b n m => state M (fun _ => Af b) (zf b) (xf b) (S n) m)) /\
  (forall Af, matv B N M A Af -> exists y, hl_recurN e A zi x = Ok y /\
    is3 y B N M (fun b n m => state M (Af b) (zf b) (xf b) (S n) m)).
Proof. intros. split; intros; [now apply hl_lti_spec|now apply hl_lpv_spec]. Qed.
Print Assumptions helion_kernels_correct.
Example helion_ex :
  show (hl_lti_recurN env_r (ofl 0%Z [2;2] [1;1;1;0]%Z : tensor Zring)
          (lst2 0%Z [[1;0];[2;0];[3;0]]%Z) (mk3 3 3 2 (fun b n m => 0%Z)))
  = Some ([3;3;2], [1;1; 2;1; 3;2;  2;2; 4;2; 6;4;  3;3; 6;3; 9;6]%Z).
Proof. vm_compute. reflexivity. Qed.

(** C44.  Offsets are right as long as the buffers have at most 2^31 elements (and
    for the transposed CUDA buffers, counting all four planes). *)
Open Scope Z_scope.
Lemma i32_id z : 0 <= z < 2 ^ 31 -> i32 z = z.
Proof. intro H. unfold i32. rewrite Z.mod_small; lia. Qed.
Lemma mul_rng b B K : 0 <= b < B -> 0 < K -> 0 <= b * K < B * K.
Proof. intros H HK. split; [apply Z.mul_nonneg_nonneg; lia|apply Zmult_lt_compat_r; lia]. Qed.
Lemma mul_grow x K : 0 <= x -> 0 < K -> x <= x * K.
Proof. intros. nia. Qed.
Lemma mul_grow_l x K : 0 <= x -> 0 < K -> x <= K * x.
Proof. intros. nia. Qed.
Lemma rng_grow x X K : 0 <= x < X -> 0 < K -> 0 <= x < X * K.
Proof. intros. nia. Qed.
Lemma rng_grow_l x X K : 0 <= x < X -> 0 < K -> 0 <= x < K * X.
Proof. intros. nia. Qed.
Ltac apply_rng := match goal with H : 0 <= ?x < ?X |- 0 <= ?x => exact (proj1 H) | H : 0 <= ?x < ?X |- ?x < ?X => exact (proj2 H) end.
Theorem offsets_in_range :
  forall B T N b t i j, 0 <= b < B -> 0 <= t < T -> 0 <= i < N -> 0 <= j < N ->
  (B * T * N <= 2 ^ 31 -> off_H T N b t i = b * T * N + t * N + i) /\
  (B * T <= 2 ^ 31 -> off_out T b t = b * T + t) /\
  (B * N * N <= 2 ^ 31 -> off_A_lti N b i j = b * N * N + i * N + j) /\
  (B * T * N * N <= 2 ^ 31 -> off_A T N b t i j = b * T * N * N + t * N * N + i * N + j) /\
  (T * N * N <= 2 ^ 31 -> off_A_share N t i j = t * N * N + i * N + j) /\
  (forall total k p, 0 <= k < 4 -> 0 <= p < total -> total * 4 <= 2 ^ 31 ->
     off_plane total k p = total * k + p).
Proof.
  intros B T N b t i j Hb Ht Hi Hj. unfold off_H, off_out, off_A_lti, off_A, off_A_share, off_plane, imul.
  assert (0 < T) as HT by (clear - Ht; lia). assert (0 < N) as HN by (clear - Hi; lia).
  assert (0 < B) as HB by (clear - Hb; lia).
  pose proof (mul_rng b B T Hb HT) as bT. pose proof (mul_rng b B N Hb HN) as bN.
  pose proof (mul_rng t T N Ht HN) as tN. pose proof (mul_rng i N N Hi HN) as iN.
  pose proof (mul_rng _ _ N bT HN) as bTN. pose proof (mul_rng _ _ N bN HN) as bNN.
  pose proof (mul_rng _ _ N tN HN) as tNN. pose proof (mul_rng _ _ N bTN HN) as bTNN.
  pose proof (rng_grow _ _ N bT HN) as g1. pose proof (rng_grow _ _ N bN HN) as g2.
  pose proof (rng_grow _ _ N tN HN) as g3. pose proof (rng_grow _ _ N bTN HN) as g4.
  pose proof (rng_grow_l _ _ B tN HB) as g5. pose proof (rng_grow_l _ _ B iN HB) as g6.
  pose proof (rng_grow_l _ _ T iN HT) as g7. pose proof (rng_grow_l _ _ B tNN HB) as g8.
  pose proof (rng_grow_l _ _ B g7 HB) as g9. pose proof (rng_grow_l _ _ B g3 HB) as g10.
  pose proof (rng_grow _ _ N g1 HN) as g11.
  rewrite ?Z.mul_assoc in *.
  repeat split; intros;
    repeat match goal with |- context [i32 ?z] => rewrite (i32_id z) by (split; [|eapply Z.lt_le_trans; [|eassumption]]; apply_rng) end;
    try reflexivity.
  clear - H H0 H1. rewrite i32_id; [reflexivity|]. pose proof (mul_rng k 4 total ltac:(lia) ltac:(lia)).
  rewrite (Z.mul_comm total). rewrite (Z.mul_comm total) in H1. split; [apply_rng|].
  eapply Z.lt_le_trans; [|eassumption]. apply_rng.
Qed.
Print Assumptions offsets_in_range.
Example offsets_in_range_ex :
  64 * 1000000 * 33 <= 2 ^ 31 /\ off_H 1000000 33 63 999999 32 = 64 * 1000000 * 33 - 1.
Proof. split; vm_compute; [discriminate|reflexivity]. Qed.

(** C44 fails beyond that: with 3 batches of 2^30 scalar steps (each size is a legal
    [int]) the third batch's offset is negative, and with 2^30 steps of the
    second-order CUDA scan the third coefficient plane is. *)
Theorem offsets_refuted :
  exists B T N b t i,
    0 <= b < B /\ 0 <= t < T /\ 0 <= i < N /\ B < 2 ^ 31 /\ T < 2 ^ 31 /\ N < 2 ^ 31 /\
    off_H T N b t i < 0 /\ off_out T b t < 0 /\ off_A_lti 46341 1 0 0 < 0 /\ off_plane (2 ^ 30) 2 0 < 0.
Proof. exists 3, (2 ^ 30), 1, 2, 0, 0. vm_compute. repeat split; congruence. Qed.
Print Assumptions offsets_refuted.

(** In general: each product of the offset is reduced to the 32-bit value congruent to it. *)
Definition wraps (z w : Z) : Prop := - 2 ^ 31 <= w < 2 ^ 31 /\ exists k, z = w + k * 2 ^ 32.
Lemma wraps_i32 z : wraps z (i32 z).
Proof.
  unfold wraps, i32. pose proof (Z.mod_pos_bound (z + 2 ^ 31) (2 ^ 32) eq_refl). split; [lia|].
  exists ((z + 2 ^ 31) / 2 ^ 32). pose proof (Z.div_mod (z + 2 ^ 31) (2 ^ 32)). lia.
Qed.
Lemma wraps_mul z w b : wraps z w -> wraps (z * b) (imul w b).
Proof.
  intros (H & k & ->). destruct (wraps_i32 (w * b)) as (H' & k' & E). split; [exact H'|].
  exists (k' + k * b). unfold imul. rewrite Z.mul_add_distr_r. rewrite E at 1. ring.
Qed.
Theorem offsets_wrap :
  forall T N b t i j,
  (exists p q, off_H T N b t i = p + q + i /\ wraps (b * T * N) p /\ wraps (t * N) q) /\
  (exists p, off_out T b t = p + t /\ wraps (b * T) p) /\
  (exists p q, off_A_lti N b i j = p + q + j /\ wraps (b * N * N) p /\ wraps (i * N) q) /\
  (exists p q r, off_A T N b t i j = p + q + r + j /\ wraps (b * T * N * N) p /\ wraps (t * N * N) q /\ wraps (i * N) r) /\
  (exists p q, off_A_share N t i j = p + q + j /\ wraps (t * N * N) p /\ wraps (i * N) q) /\
  (exists p, off_plane T t i = p + i /\ wraps (T * t) p).
Proof.
  intros T N b t i j. unfold off_H, off_out, off_A_lti, off_A, off_A_share, off_plane.
  split; [|split; [|split; [|split; [|split]]]].
  all: repeat (match goal with |- exists p, @?P p => eexists end); split; [reflexivity|]; repeat match goal with |- _ /\ _ => split end; repeat first [apply wraps_i32 | apply wraps_mul].
Qed.
Print Assumptions offsets_wrap.
Example offsets_wrap_ex :
  wraps (2 * 2 ^ 30) (- 2 ^ 31) /\ off_out (2 ^ 30) 2 5 = - 2 ^ 31 + 5 /\ off_A 4 (2 ^ 15) 1 0 0 7 = 7.
Proof. split; [split; [lia|exists 1; reflexivity]|]. split; vm_compute; reflexivity. Qed.
