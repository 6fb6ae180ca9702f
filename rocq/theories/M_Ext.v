(** External routines the library calls, modelled by their contracts (trusted).

    torchlpc.sample_wise_lpc(x, a, zi): time-varying all-pole filter
      y[b,t] = x[b,t] - sum_i a[b,t,i] y[b,t-1-i],   y[b,-1-i] = zi[b,i].
    pararnn parallel_reduce_block_diag_{2x2,3x3}_cuda(jac, rhs): block bidiagonal solve
      h[b,t] = rhs[b,t] - jac[b,t] h[b,t-1],   h[b,-1] = 0. *)
From Coq Require Import List Arith Lia ZArith Bool.
From Verif Require Import Scalar Tensor Spec.
Import ListNotations.
Open Scope res_scope.

Section Ext.
Variable R : cops.
Notation ten := (tensor (car R)).

(** [lpc_hist n i] is y[n - 1 - i]. *)
Fixpoint lpc_hist (order : nat) (a : nat -> nat -> R) (z x : nat -> R) (n i : nat) : R :=
  match n with
  | O => z i
  | S n' => match i with
            | O => rsub (x n') (bsum order (fun j => rmul (a n' j) (lpc_hist order a z x n' j)))
            | S i' => lpc_hist order a z x n' i'
            end
  end.

Definition sample_wise_lpc (x a zi : ten) : res ten :=
  guard (rk x =? 2) && (rk a =? 3) && (size a 0 =? size x 0) && (size a 1 =? size x 1)
    else AssertionError in
  guard (rk zi =? 2) && (size zi 0 =? size x 0) && (size zi 1 =? size a 2) else AssertionError in
  Ok (mkT (shape x) (fun idx =>
    let b := nth 0 idx 0 in let t := nth 1 idx 0 in
    lpc_hist (size a 2) (fun n i => at_ a [b; n; i]) (fun i => at_ zi [b; i]) (fun n => at_ x [b; n]) (S t) 0)).

Definition parallel_reduce (jac rhs : ten) : res ten :=
  guard (rk jac =? 4) && (rk rhs =? 3) && (size jac 0 =? size rhs 0) && (size jac 1 =? size rhs 1)
    && (size jac 2 =? size rhs 2) && (size jac 3 =? size rhs 2) else RuntimeError in
  Ok (mkT (shape rhs) (fun idx =>
    let b := nth 0 idx 0 in let t := nth 1 idx 0 in let m := nth 2 idx 0 in
    state (size rhs 2) (fun n i j => ropp (at_ jac [b; n; i; j])) (fun _ => r0)
          (fun n i => at_ rhs [b; n; i]) (S t) m)).
End Ext.
Arguments lpc_hist {R}. Arguments sample_wise_lpc {R}. Arguments parallel_reduce {R}.
