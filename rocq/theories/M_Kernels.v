(** Model of the compiled kernels (files in philtorch/csrc), of the Helion kernels
    (philtorch/_helion.py) and of the torch.ops.philtorch.* operators.

    A device buffer is a total function from flat offsets to scalars.  Offsets are
    unbounded naturals here; the 32-bit arithmetic of the C++ code is treated in
    [M_Int32.v].  [contiguous()] is the row-major flattening [flat].  Scalar-type
    checks (TORCH_CHECK on scalar_type) are not modelled: there is one scalar type. *)
From Coq Require Import List Arith Lia ZArith Bool.
From Verif Require Import Scalar Tensor.
Import ListNotations.
Open Scope res_scope.

(** C [for (int k = 0; k < n; ++k) s = f k s]. *)
Fixpoint loop {S : Type} (n : nat) (f : nat -> S -> S) (s : S) : S :=
  match n with O => s | S k => f k (loop k f s) end.

(** How a parallel scan may parenthesise the combination of n+1 elements. *)
Inductive tree := Leaf | Node (l r : tree).
Fixpoint leaves (t : tree) : nat :=
  match t with Leaf => 1 | Node l r => leaves l + leaves r end.
Fixpoint tev {X} (op : X -> X -> X) (t : tree) (f : nat -> X) : X :=
  match t with
  | Leaf => f 0
  | Node l r => op (tev op l f) (tev op r (fun k => f (leaves l + k)))
  end.
(** The sequential (left-to-right) parenthesisation. *)
Fixpoint seqtree (n : nat) : tree := match n with O => Leaf | S k => Node (seqtree k) Leaf end.

(** Back-end configuration.  [ext]: the compiled module [_C] was imported;
    [ext_cuda]: it was built with the .cu files; [helion]: Helion imported;
    [cuda]: the tensors live on a CUDA device (else on the CPU); [cplx]: their
    dtype is complex; [par k]: the parenthesisation a device scan uses for its
    k-th output; [tile_b], [tile_m]: Helion's tile sizes (autotuned). *)
Record env := mkEnv {
  ext : bool; ext_cuda : bool; helion : bool; cuda : bool; cplx : bool;
  par : nat -> tree; tile_b : nat; tile_m : nat
}.
Definition env_ok (e : env) : Prop :=
  (forall k, leaves (par e k) = S k) /\ 1 <= tile_b e /\ 1 <= tile_m e.
(** No compiled code at all, CPU. *)
Definition env0 : env := mkEnv false false false false false seqtree 1 1.

Section Kernels.
Variable R : cops.
Notation ten := (tensor (car R)).
Notation mem := (nat -> R).
Local Infix "+r" := radd (at level 50, left associativity).
Local Infix "*r" := rmul (at level 40, left associativity).

Definition st (m : mem) (k : nat) (v : R) : mem := fun i => if i =? k then v else m i.
(** data_ptr of a contiguous tensor, and a tensor over a buffer. *)
Definition flat (t : ten) : mem := fun k => at_ t (unravel (shape t) k).
Definition of_mem (s : list nat) (m : mem) : ten := mkT s (fun idx => m (ravel s idx)).

(** ** CPU kernels *)

(** host_lti_recurN.cpp:5-33 host_lti_batch_mat_recur_N_order. *)
Definition host_lti_batch_mat_recur_N_order (B T N : nat) (A : mem) (H_out : mem) : mem :=
  loop B (fun b H =>
    let A_b := b * N * N in
    let H_b := b * T * N in
    loop (T - 1) (fun t0 H =>
      let t := t0 + 1 in
      let H_prev := H_b + (t - 1) * N in
      let H_curr := H_b + t * N in
      loop N (fun i H =>
        let Arow := A_b + i * N in
        let sum := loop N (fun j sum => sum +r A (Arow + j) *r H (H_prev + j)) r0 in
        st H (H_curr + i) (H (H_curr + i) +r sum)) H) H) H_out.

(** host_lti_recurN.cpp:36-61 host_lti_share_mat_recur_N_order. *)
Definition host_lti_share_mat_recur_N_order (B T N : nat) (A : mem) (H_out : mem) : mem :=
  loop B (fun b H =>
    let H_b := b * T * N in
    loop (T - 1) (fun t0 H =>
      let t := t0 + 1 in
      let H_prev := H_b + (t - 1) * N in
      let H_curr := H_b + t * N in
      loop N (fun i H =>
        let Arow := i * N in
        let sum := loop N (fun j sum => sum +r A (Arow + j) *r H (H_prev + j)) r0 in
        st H (H_curr + i) (H (H_curr + i) +r sum)) H) H) H_out.

(** host_recurN.cpp:82-111 host_batch_mat_recur_N_order_omp. *)
Definition host_batch_mat_recur_N_order_omp (B T N : nat) (A : mem) (H_out : mem) : mem :=
  loop B (fun b H =>
    let A_b := b * T * N * N in
    let H_b := b * T * N in
    loop (T - 1) (fun t0 H =>
      let t := t0 + 1 in
      let A_bt := A_b + t * N * N in
      let H_prev := H_b + (t - 1) * N in
      let H_curr := H_b + t * N in
      loop N (fun i H =>
        let Arow := A_bt + i * N in
        let sum := loop N (fun j sum => sum +r A (Arow + j) *r H (H_prev + j)) r0 in
        st H (H_curr + i) (H (H_curr + i) +r sum)) H) H) H_out.

(** host_recurN.cpp:114-140 host_share_mat_recur_N_order_omp. *)
Definition host_share_mat_recur_N_order_omp (B T N : nat) (A : mem) (H_out : mem) : mem :=
  loop B (fun b H =>
    let H_b := b * T * N in
    loop (T - 1) (fun t0 H =>
      let t := t0 + 1 in
      let A_bt := t * N * N in
      let H_prev := H_b + (t - 1) * N in
      let H_curr := H_b + t * N in
      loop N (fun i H =>
        let Arow := A_bt + i * N in
        let sum := loop N (fun j sum => sum +r A (Arow + j) *r H (H_prev + j)) r0 in
        st H (H_curr + i) (H (H_curr + i) +r sum)) H) H) H_out.

(** host_lti_recur.cpp:5-22 host_lti_batch_linear_recurrence. *)
Definition host_lti_batch_linear_recurrence (B T : nat) (a : mem) (out : mem) : mem :=
  loop B (fun b out =>
    let a_b := a b in
    let out_b := b * T in
    loop (T - 1) (fun t0 out =>
      let t := t0 + 1 in
      st out (out_b + t) (out (out_b + t) +r a_b *r out (out_b + (t - 1)))) out) out.

(** host_lti_recur.cpp:25-40 host_lti_shared_linear_recurrence. *)
Definition host_lti_shared_linear_recurrence (B T : nat) (a : R) (out : mem) : mem :=
  loop B (fun b out =>
    let out_b := b * T in
    loop (T - 1) (fun t0 out =>
      let t := t0 + 1 in
      st out (out_b + t) (out (out_b + t) +r a *r out (out_b + (t - 1)))) out) out.

(** host_lti_recurN.cpp:63-108 lti_mat_recur_N_order_cpu_impl (lti_recurN and
    lti_recur2 on the CPU). *)
Definition lti_mat_recur_N_order_cpu (A zi x : ten) : res ten :=
  guard (rk A =? 2) || (rk A =? 3) else RuntimeError in                       
  guard 3 <=? rk x else IndexError in                                         (* x.size(2) *)
  guard size x 2 =? sizen A 1 else RuntimeError in                            
  guard sizen A 1 =? sizen A 2 else RuntimeError in                           
  let n_steps := size x 1 + 1 in
  let n_batches := size x 0 in
  let order := sizen A 1 in
  let* out := cat 1 [unsqueeze 1 zi; x] in                                    
  let m := if rk A =? 3
           then host_lti_batch_mat_recur_N_order n_batches n_steps order (flat A) (flat out)
           else host_lti_share_mat_recur_N_order n_batches n_steps order (flat A) (flat out) in
  Ok (slice 1 (Some 1%Z) (Some (Z.of_nat n_steps)) (of_mem (shape out) m)).   

(** host_recurN.cpp:236-281 mat_recur_N_order_cpu_omp_impl (recurN and recur2 on
    the CPU). *)
Definition mat_recur_N_order_cpu_omp (A zi x : ten) : res ten :=
  guard (rk A =? 3) || (rk A =? 4) else RuntimeError in
  guard 3 <=? rk x else IndexError in
  guard size x 2 =? sizen A 1 else RuntimeError in
  guard sizen A 1 =? sizen A 2 else RuntimeError in
  let n_steps := size x 1 + 1 in
  let n_batches := size x 0 in
  let order := sizen A 1 in
  let A_contiguous := pad (rk A - 3) 1 0 r0 A in                              
  let* out := cat 1 [unsqueeze 1 zi; x] in
  let m := if rk A =? 4
           then host_batch_mat_recur_N_order_omp n_batches n_steps order (flat A_contiguous) (flat out)
           else host_share_mat_recur_N_order_omp n_batches n_steps order (flat A_contiguous) (flat out) in
  Ok (slice 1 (Some 1%Z) (Some (Z.of_nat n_steps)) (of_mem (shape out) m)).

(** host_lti_recur.cpp:42-80 lti_recur_cpu_impl. *)
Definition lti_recur_cpu (a zi x : ten) : res ten :=
  guard rk a <=? 1 else RuntimeError in
  guard rk zi =? 1 else RuntimeError in
  guard 2 <=? rk x else IndexError in
  let n_steps := size x 1 + 1 in
  let n_batches := size x 0 in
  let* out := cat 1 [unsqueeze 1 zi; x] in
  let* m := if (rk a =? 1) && (numel a =? n_batches)
            then Ok (host_lti_batch_linear_recurrence n_batches n_steps (flat a) (flat out))
            else guard numel a =? 1 else RuntimeError in                      (* item() *)
                 Ok (host_lti_shared_linear_recurrence n_batches n_steps (flat a 0) (flat out)) in
  Ok (slice 1 (Some 1%Z) (Some (Z.of_nat (size out 1))) (of_mem (shape out) m)).

(** ** Scans *)

(** lti_recur.cu:20-31 recur_binary_op. *)
Definition recur_binary_op (a b : R * R) : R * R :=
  let '(a_first, a_second) := a in let '(b_first, b_second) := b in
  (a_first *r b_first, a_second *r b_first +r b_second).

(** recur2.cuh:8-22 / host_recur2.cpp:31-41 recur2_binary_op. *)
Record sqm2 := mkS { q_a : R; q_b : R; q_c : R; q_d : R; q_e : R; q_f : R }.
Definition recur2_binary_op (a b : sqm2) : sqm2 :=
  mkS (q_a b *r q_a a +r q_b b *r q_c a) (q_a b *r q_b a +r q_b b *r q_d a)
      (q_c b *r q_a a +r q_d b *r q_c a) (q_c b *r q_b a +r q_d b *r q_d a)
      (q_a b *r q_e a +r q_b b *r q_f a +r q_e b) (q_c b *r q_e a +r q_d b *r q_f a +r q_f b).

(** host_recurN.cpp:12-42 recurN_binary_op; a valarray of n*n+n entries. *)
Definition recurN_binary_op (n : nat) (a b : nat -> R) : nat -> R := fun i =>
  let row := i / n in let col := i mod n in
  if row =? n then b i +r bsum n (fun k => b (col * n + k) *r a (n * n + k))
  else bsum n (fun k => a (col + k * n) *r b (row * n + k)).

(** thrust::inclusive_scan_by_key with keys i / n_steps (recur2.cuh:78-82): output i
    combines the elements of i's segment up to i. *)
Definition scan_by_key {X} (e : env) (op : X -> X -> X) (n_steps : nat) (f : nat -> X) (i : nat) : X :=
  tev op (par e (i mod n_steps)) (fun k => f (i / n_steps * n_steps + k)).
(** std::inclusive_scan over the whole sequence. *)
Definition scan_all {X} (e : env) (op : X -> X -> X) (f : nat -> X) (i : nat) : X :=
  tev op (par e i) f.

(** lti_recur.cu:42-158 lti_recur_cuda_impl and its input operators. *)
Definition lti_batch_recur_input_op (decays : mem) (n_steps i : nat) (x : R) : R * R :=
  if 0 <? i mod n_steps then (decays (i / n_steps), x) else (r0, x).
Definition lti_shared_recur_input_op (decay : R) (n_steps i : nat) (x : R) : R * R :=
  if 0 <? i mod n_steps then (decay, x) else (r0, x).
Definition lti_recur_cuda (e : env) (a zi x : ten) : res ten :=
  guard rk a <=? 1 else RuntimeError in
  guard rk zi =? 1 else RuntimeError in
  guard 2 <=? rk x else IndexError in
  let n_steps := size x 1 + 1 in
  let n_batches := size x 0 in
  let* xc := cat 1 [unsqueeze 1 zi; x] in
  let* m := if (rk a =? 1) && (numel a =? n_batches)
            then Ok (fun i => snd (scan_by_key e recur_binary_op n_steps
                        (fun i => lti_batch_recur_input_op (flat a) n_steps i (flat xc i)) i))
            else guard numel a =? 1 else RuntimeError in
                 Ok (fun i => snd (scan_by_key e recur_binary_op n_steps
                        (fun i => lti_shared_recur_input_op (flat a 0) n_steps i (flat xc i)) i)) in
  Ok (slice 1 (Some 1%Z) (Some (Z.of_nat (size xc 1))) (of_mem (shape xc) m)).

(** recur2.cuh:47-76 the input operators of the second-order LTI scans.  [x] is the
    transposed buffer [2][total]. *)
Definition lti_batch_A_input_op (A : mem) (n_steps i : nat) (x_0 x_1 : R) : sqm2 :=
  let idx := i / n_steps * 4 in
  if 0 <? i mod n_steps then mkS (A idx) (A (idx + 1)) (A (idx + 2)) (A (idx + 3)) x_0 x_1
  else mkS r0 r0 r0 r0 x_0 x_1.
Definition lti_share_A_input_op (A : mem) (n_steps i : nat) (x_0 x_1 : R) : sqm2 :=
  if 0 <? i mod n_steps then mkS (A 0) (A 1) (A 2) (A 3) x_0 x_1
  else mkS r0 r0 r0 r0 x_0 x_1.
Definition share_A_input_op (A : mem) (n_steps i : nat) (x_0 x_1 : R) : sqm2 :=
  let idx := i mod n_steps in
  mkS (A idx) (A (idx + n_steps)) (A (idx + n_steps * 2)) (A (idx + n_steps * 3)) x_0 x_1.

(** [t.view({-1, k}).t().contiguous()] of a contiguous tensor with [k * total]
    entries: entry c*total + i of the new buffer is entry i*k + c of the old. *)
Definition transposed (k total : nat) (m : mem) : mem := fun p => m (p mod total * k + p / total).
(** [out.t().reshape(B, n_steps, 2)] of a buffer [2][total]. *)
Definition untransposed (k total : nat) (m : mem) : mem := fun p => m (p mod k * total + p / k).

(** lti_recur2.cu:19-113. *)
Definition lti_mat_recur_second_order_cuda (e : env) (A zi x : ten) : res ten :=
  guard (rk A =? 2) || (rk A =? 3) else RuntimeError in
  guard 3 <=? rk x else IndexError in
  guard size x 2 =? 2 else RuntimeError in
  guard (sizen A 1 =? 2) && (sizen A 2 =? 2) else RuntimeError in
  let n_steps := size x 1 + 1 in
  let n_batches := size x 0 in
  let total := n_batches * n_steps in
  let* xc := cat 1 [unsqueeze 1 zi; x] in
  let xt := transposed 2 total (flat xc) in
  let input i := if rk A =? 3
                 then lti_batch_A_input_op (flat A) n_steps i (xt i) (xt (total + i))
                 else lti_share_A_input_op (flat A) n_steps i (xt i) (xt (total + i)) in
  let out p := if p <? total then q_e (scan_by_key e recur2_binary_op n_steps input p)
               else q_f (scan_by_key e recur2_binary_op n_steps input (p - total)) in
  Ok (slice 1 (Some 1%Z) (Some (Z.of_nat n_steps))
        (of_mem [n_batches; n_steps; 2] (untransposed 2 total out))).

(** recur2.cu:19-117 mat_recur_second_order_cuda_impl. *)
Definition mat_recur_second_order_cuda (e : env) (A zi x : ten) : res ten :=
  guard (rk A =? 3) || (rk A =? 4) else RuntimeError in
  guard 3 <=? rk x else IndexError in
  guard size x 2 =? 2 else RuntimeError in
  guard (sizen A 1 =? 2) && (sizen A 2 =? 2) else RuntimeError in
  let n_steps := size x 1 + 1 in
  let n_batches := size x 0 in
  let total := n_batches * n_steps in
  let Ap := pad (rk A - 3) 1 0 r0 A in
  let At := transposed 4 (numel Ap / 4) (flat Ap) in
  let* xc := cat 1 [unsqueeze 1 zi; x] in
  let xt := transposed 2 total (flat xc) in
  let input i := if rk A =? 4
                 then mkS (At i) (At (total + i)) (At (total * 2 + i)) (At (total * 3 + i))
                          (xt i) (xt (total + i))
                 else share_A_input_op At n_steps i (xt i) (xt (total + i)) in
  let out p := if p <? total then q_e (scan_by_key e recur2_binary_op n_steps input p)
               else q_f (scan_by_key e recur2_binary_op n_steps input (p - total)) in
  Ok (slice 1 (Some 1%Z) (Some (Z.of_nat n_steps))
        (of_mem [n_batches; n_steps; 2] (untransposed 2 total out))).

(** host_recur2.cpp:44-74 host_batch_mat_recur_second_order (compiled, not
    registered as an operator): one scan over all batches. *)
Definition host_batch_mat_recur_second_order (e : env) (A x : mem) : mem := fun p =>
  let input i := mkS (A (i * 4)) (A (i * 4 + 1)) (A (i * 4 + 2)) (A (i * 4 + 3)) (x (i * 2)) (x (i * 2 + 1)) in
  let r := scan_all e recur2_binary_op input (p / 2) in
  if p mod 2 =? 0 then q_e r else q_f r.
(** host_recur2.cpp:77-109 host_share_mat_recur_second_order. *)
Definition host_share_mat_recur_second_order (e : env) (A x : mem) (n_steps : nat) : mem := fun p =>
  let input i := let o := i mod n_steps * 4 in
                 mkS (A o) (A (o + 1)) (A (o + 2)) (A (o + 3)) (x (i * 2)) (x (i * 2 + 1)) in
  let r := scan_all e recur2_binary_op input (p / 2) in
  if p mod 2 =? 0 then q_e r else q_f r.
(** host_recur2.cpp:111-160 mat_recur_second_order_cpu_impl. *)
Definition mat_recur_second_order_cpu (e : env) (A zi x : ten) : res ten :=
  guard (rk A =? 3) || (rk A =? 4) else RuntimeError in
  guard 3 <=? rk x else IndexError in
  guard size x 2 =? 2 else RuntimeError in
  guard (sizen A 1 =? 2) && (sizen A 2 =? 2) else RuntimeError in
  let n_steps := size x 1 + 1 in
  let n_batches := size x 0 in
  let Ap := pad (rk A - 3) 1 0 r0 A in
  let* xc := cat 1 [unsqueeze 1 zi; x] in
  let m := if rk A =? 4 then host_batch_mat_recur_second_order e (flat Ap) (flat xc)
           else host_share_mat_recur_second_order e (flat Ap) (flat xc) n_steps in
  Ok (slice 1 (Some 1%Z) (Some (Z.of_nat n_steps)) (of_mem [n_batches; n_steps; 2] m)).

(** host_recurN.cpp:45-79 host_batch_mat_recur_N_order: [Ax] interleaves the matrix
    and the input vector of each step. *)
Definition host_batch_mat_recur_N_order (e : env) (Ax : mem) (order : nat) : mem := fun p =>
  let vec_size := order * order + order in
  let input i := fun k => Ax (i * vec_size + k) in
  scan_all e (recurN_binary_op order) input (p / order) (order * order + p mod order).
(** host_recurN.cpp:143-186 host_share_mat_recur_N_order. *)
Definition host_share_mat_recur_N_order (e : env) (A x : mem) (n_steps order : nat) : mem := fun p =>
  let input i := fun k => if k <? order * order then A (i mod n_steps * (order * order) + k)
                          else x (i * order + (k - order * order)) in
  scan_all e (recurN_binary_op order) input (p / order) (order * order + p mod order).
(** host_recurN.cpp:188-234 mat_recur_N_order_cpu_impl (compiled, not registered). *)
Definition mat_recur_N_order_cpu (e : env) (A zi x : ten) : res ten :=
  guard (rk A =? 3) || (rk A =? 4) else RuntimeError in
  guard 3 <=? rk x else IndexError in
  guard size x 2 =? sizen A 1 else RuntimeError in
  guard sizen A 1 =? sizen A 2 else RuntimeError in
  let n_steps := size x 1 + 1 in
  let order := sizen A 1 in
  let Ap := pad (rk A - 3) 1 0 r0 A in
  let* xc := cat 1 [unsqueeze 1 zi; x] in
  let* m := if rk A =? 4
            then let* Ax := cat 2 [Ap; unsqueeze 2 xc] in
                 Ok (host_batch_mat_recur_N_order e (flat Ax) order)
            else Ok (host_share_mat_recur_N_order e (flat Ap) (flat xc) n_steps order) in
  Ok (slice 1 (Some 1%Z) (Some (Z.of_nat n_steps)) (of_mem (shape xc) m)).

(** ** Helion kernels (_helion.py).  [hl.tile n] splits 0..n-1 into tiles. *)
Definition hl_tile {S : Type} (n ts : nat) (f : nat -> nat -> S -> S) (s : S) : S :=
  loop ((n + ts - 1) / ts) (fun k s => f (k * ts) (Nat.min n (k * ts + ts)) s) s.
Definition inb (lo hi k : nat) : bool := (lo <=? k) && (k <? hi).

(** _helion.py:13-41 (shared A), 50-78 (batched A), 87-115 (shared, time-varying),
    124-152 (batched, time-varying): the four kernels differ in how the matrix entry
    (row m, column j) of batch b at step t is addressed, given by [Aent]. *)
Definition hl_body (e : env) (Aent : nat -> nat -> nat -> nat -> R) (batch T M : nat)
  (output : nat -> nat -> nat -> R) : nat -> nat -> nat -> R :=
  hl_tile batch (tile_b e) (fun b0 b1 o =>
    loop T (fun t0 o => let t := t0 + 1 in
      hl_tile M (tile_m e) (fun m0 m1 o => fun b t' m =>
        if inb b0 b1 b && (t' =? t) && inb m0 m1 m
        then o b t' m +r bsum M (fun j => o b (t - 1) j *r Aent b t m j)
        else o b t' m) o) o) output.
Definition hl_wrap (e : env) (Aent : nat -> nat -> nat -> nat -> R) (A zi x : ten) : res ten :=
  let* out := cat 1 [unsqueeze 1 zi; x] in
  let m := hl_body e Aent (size zi 0) (size x 1) (sizen A 1) (fun b t i => at_ out [b; t; i]) in
  Ok (slice 1 (Some 1%Z) None (mkT (shape out) (fun idx => m (nth 0 idx 0) (nth 1 idx 0) (nth 2 idx 0)))).
(** __init__.py:269-277 hl_lti_recurN. *)
Definition hl_lti_recurN (e : env) (A zi x : ten) : res ten :=
  if rk A =? 2 then hl_wrap e (fun b t m j => at_ A [m; j]) A zi x
  else hl_wrap e (fun b t m j => at_ A [b; m; j]) A zi x.
(** __init__.py:279-283 hl_recurN. *)
Definition hl_recurN (e : env) (A zi x : ten) : res ten :=
  if rk A =? 3 then hl_wrap e (fun b t m j => at_ A [t - 1; m; j]) A zi x
  else hl_wrap e (fun b t m j => at_ A [b; t - 1; m; j]) A zi x.

(** ** Operator dispatch: torch.ops.philtorch.<op>.  Without the extension the
    attribute does not exist; on a CUDA tensor without a CUDA kernel the dispatcher
    raises NotImplementedError.  lti_recurN and recurN have CPU kernels only. *)
Definition op_lti_recur (e : env) (a zi x : ten) : res ten :=
  guard ext e else AttributeError in
  if cuda e then guard ext_cuda e else NotImplementedError in lti_recur_cuda e a zi x
  else lti_recur_cpu a zi x.
Definition op_lti_recur2 (e : env) (A zi x : ten) : res ten :=
  guard ext e else AttributeError in
  if cuda e then guard ext_cuda e else NotImplementedError in lti_mat_recur_second_order_cuda e A zi x
  else lti_mat_recur_N_order_cpu A zi x.
Definition op_lti_recurN (e : env) (A zi x : ten) : res ten :=
  guard ext e else AttributeError in
  guard negb (cuda e) else NotImplementedError in lti_mat_recur_N_order_cpu A zi x.
Definition op_recur2 (e : env) (A zi x : ten) : res ten :=
  guard ext e else AttributeError in
  if cuda e then guard ext_cuda e else NotImplementedError in mat_recur_second_order_cuda e A zi x
  else mat_recur_N_order_cpu_omp A zi x.
Definition op_recurN (e : env) (A zi x : ten) : res ten :=
  guard ext e else AttributeError in
  guard negb (cuda e) else NotImplementedError in mat_recur_N_order_cpu_omp A zi x.

(** ** The OpenMP loops as concurrent workers.

    Each batch index is one worker; the runtime may interleave the workers' memory
    accesses arbitrarily (any assignment of batches to threads is a special case).
    One step is one access to the shared buffer [H_out]. *)
Inductive local :=
| LAcc (t i j : nat) (sum : R)   (* about to read H_prev[j], or leave the j loop *)
| LSt (t i : nat) (sum reg : R)  (* H_curr[i] loaded, about to store it *)
| LDone.
(** [c b t i j]: the coefficient Arow[j] read from the constant buffer. *)
Definition tstep (T N : nat) (c : nat -> nat -> nat -> nat -> R) (b : nat) (l : local) (H : mem)
  : local * mem :=
  match l with
  | LAcc t i j sum =>
      if T <=? t then (LDone, H)
      else if N <=? i then (LAcc (S t) 0 0 r0, H)
      else if j <? N then (LAcc t i (S j) (sum +r c b t i j *r H (b * T * N + (t - 1) * N + j)), H)
      else (LSt t i sum (H (b * T * N + t * N + i)), H)
  | LSt t i sum reg => (LAcc t (S i) 0 r0, st H (b * T * N + t * N + i) (reg +r sum))
  | LDone => (LDone, H)
  end.
Definition tinit : local := LAcc 1 0 0 r0.
Fixpoint trun (T N : nat) (c : nat -> nat -> nat -> nat -> R) (sched : list nat)
  (ls : nat -> local) (H : mem) : (nat -> local) * mem :=
  match sched with
  | [] => (ls, H)
  | b :: sched' =>
      let '(l', H') := tstep T N c b (ls b) H in
      trun T N c sched' (fun b' => if b' =? b then l' else ls b') H'
  end.

End Kernels.
Arguments st {R}. Arguments flat {R}. Arguments of_mem {R}.
Arguments host_lti_batch_mat_recur_N_order {R}. Arguments host_lti_share_mat_recur_N_order {R}.
Arguments host_batch_mat_recur_N_order_omp {R}. Arguments host_share_mat_recur_N_order_omp {R}.
Arguments host_lti_batch_linear_recurrence {R}. Arguments host_lti_shared_linear_recurrence {R}.
Arguments lti_mat_recur_N_order_cpu {R}. Arguments mat_recur_N_order_cpu_omp {R}. Arguments lti_recur_cpu {R}.
Arguments recur_binary_op {R}. Arguments recur2_binary_op {R}. Arguments recurN_binary_op {R}.
Arguments lti_recur_cuda {R}. Arguments lti_mat_recur_second_order_cuda {R}.
Arguments mat_recur_second_order_cuda {R}. Arguments mat_recur_second_order_cpu {R}.
Arguments mat_recur_N_order_cpu {R}. Arguments hl_lti_recurN {R}. Arguments hl_recurN {R}.
Arguments hl_body {R}. Arguments hl_wrap {R}. Arguments transposed {R}. Arguments untransposed {R}.
Arguments lti_batch_recur_input_op {R}. Arguments lti_shared_recur_input_op {R}.
Arguments lti_batch_A_input_op {R}. Arguments lti_share_A_input_op {R}. Arguments share_A_input_op {R}.
Arguments host_batch_mat_recur_second_order {R}. Arguments host_share_mat_recur_second_order {R}.
Arguments host_batch_mat_recur_N_order {R}. Arguments host_share_mat_recur_N_order {R}.
Arguments mkS {R}. Arguments q_a {R}. Arguments q_b {R}. Arguments q_c {R}. Arguments q_d {R}.
Arguments q_e {R}. Arguments q_f {R}.
Arguments op_lti_recur {R}. Arguments op_lti_recur2 {R}. Arguments op_lti_recurN {R}.
Arguments op_recur2 {R}. Arguments op_recurN {R}.
Arguments LAcc {R}. Arguments LSt {R}. Arguments LDone {R}. Arguments tstep {R}. Arguments tinit {R}.
Arguments trun {R}.
