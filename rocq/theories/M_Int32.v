(** The kernels' offset arithmetic with C++ [int] (32 bits, two's complement).
    Products of [int] operands are 32-bit; adding the result to a pointer is 64-bit
    and not modelled as wrapping.  (Signed overflow is undefined behaviour in C++;
    wrapping is what the usual compilers produce.) *)
From Coq Require Import ZArith Lia.
Local Open Scope Z_scope.

Definition i32 (z : Z) : Z := (z + 2 ^ 31) mod 2 ^ 32 - 2 ^ 31.
Definition imul (a b : Z) : Z := i32 (a * b).
Definition iadd (a b : Z) : Z := i32 (a + b).

(** [H_out + b * T * N], [H_b + t * N], [H_curr[i]] (host_lti_recurN.cpp:15-28 and
    host_recurN.cpp:92-107). *)
Definition off_H (T N b t i : Z) : Z := imul (imul b T) N + imul t N + i.
(** [out + b * T], [out_b[t]] (host_lti_recur.cpp:14-19). *)
Definition off_out (T b t : Z) : Z := imul b T + t.
(** [A + b * N * N], [A_b + i * N], [Arow[j]] (host_lti_recurN.cpp:14-26). *)
Definition off_A_lti (N b i j : Z) : Z := imul (imul b N) N + imul i N + j.
(** [A + b * T * N * N], [A_b + t * N * N], [A_bt + i * N], [Arow[j]]
    (host_recurN.cpp:91-105). *)
Definition off_A (T N b t i j : Z) : Z :=
  imul (imul (imul b T) N) N + imul (imul t N) N + imul i N + j.
(** The same for the shared matrix sequence (host_recurN.cpp:122-136). *)
Definition off_A_share (N t i j : Z) : Z := imul (imul t N) N + imul i N + j.
(** Planes of the transposed CUDA buffers, [A + total_steps * k] (recur2.cu:34) and
    element [i] of it. *)
Definition off_plane (total_steps k i : Z) : Z := imul total_steps k + i.
