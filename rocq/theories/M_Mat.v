(** Model of philtorch/mat.py and of sympy's [factorint]. *)
From Coq Require Import List Arith Lia ZArith Bool.
From Verif Require Import Scalar Tensor.
Import ListNotations.
Open Scope res_scope.

(** sympy.ntheory.factorint(n, multiple=True): the prime factors of n, with
    multiplicity, in increasing order (trial division stands in for sympy). *)
Fixpoint fact_aux (fuel d n : nat) : list nat :=
  match fuel with
  | O => [n]
  | S f =>
      if n <? 2 then []
      else if n <? d * d then [n]
      else if n mod d =? 0 then d :: fact_aux f d (n / d)
      else fact_aux f (S d) n
  end.
Definition factorint (n : nat) : list nat := fact_aux n 2 n.

(** torch.linalg routines, left abstract: theorems that need them state what they
    assume of the result at the call in question. *)
Record linalg (R : cops) := mkLinalg {
  l_inv : tensor R -> res (tensor R);
  l_solve : tensor R -> tensor R -> res (tensor R);
  l_eigvals : tensor R -> res (tensor R);
  l_norm : (nat -> R) -> nat -> R   (* Euclidean norm of the first n entries *)
}.
Arguments l_inv {R}. Arguments l_solve {R}. Arguments l_eigvals {R}. Arguments l_norm {R}.

Section Mat.
Variable R : cops.
Notation ten := (tensor (car R)).

(** mat.py:42-62 companion.  [c[..., range(1,M), range(M-1)] = 1] is the index_put
    at the end. *)
Definition companion (a : ten) : res ten :=
  guard (1 <=? rk a) else AssertionError in
  let M := sizen a 1 in
  let* c0 := cat (rk a - 1) [tneg a; zeros (firstn (rk a - 1) (shape a) ++ [M * (M - 1)])] in
  let* c := unflatten (rk c0 - 1) [M; M] c0 in
  Ok (mkT (shape c) (fun idx =>
        if nth (rk c - 2) idx 0 =? S (nth (rk c - 1) idx 0) then r1 else at_ c idx)).

(** torch.vander(x): 1-D only, decreasing powers. *)
Definition torch_vander (x : ten) : res ten :=
  guard (rk x =? 1) else RuntimeError in
  let n := size x 0 in
  Ok (mkT [n; n] (fun idx => rpow (at_ x [nth 0 idx 0]) (n - 1 - nth 1 idx 0))).

(** mat.py:65-79 vandermonde. *)
Definition vandermonde (poles : ten) : res ten :=
  if sizen poles 1 =? 1 then Ok (unsqueeze (rk poles) (ones (shape poles)))
  else let* v := torch_vander poles in Ok (mT v).

(** mat.py:114-129 _mat_pwr_accum_runner. *)
Fixpoint mat_pwr_accum_runner (A : ten) (factors : list nat) : res ten :=
  match factors with
  | [] => Err ValueError
  | fac :: factors' =>
      let* ps := accumulate matmul (repeat A fac) in
      let* accums := stack (rk A - 2) ps in
      match factors' with
      | [] => Ok accums
      | _ =>
          let* last := select (rk accums - 3) (-1) accums in
          let* higher := mat_pwr_accum_runner last factors' in
          let acc1 := slice (rk accums - 3) None (Some (-1)%Z) accums in
          let hi1 := slice (rk higher - 3) None (Some (-1)%Z) higher in
          let* tmp := matmul (unsqueeze (rk acc1 - 3) acc1) (unsqueeze (rk hi1 - 2) hi1) in
          let hi2 := slice (rk higher - 3) (Some 1%Z) None higher in
          let* c := cat (rk tmp - 3) [tmp; unsqueeze (rk hi2 - 2) hi2] in
          cat (rk accums - 3) [accums; flatten (rk c - 4) (rk c - 3) c]
      end
  end.

(** mat.py:82-111 matrix_power_accumulate, non-negative exponents. *)
Definition matrix_power_accumulate_nat (A : ten) (n : nat) : res ten :=
  guard (2 <=? rk A) else AssertionError in
  guard (sizen A 2 =? sizen A 1) else AssertionError in
  if n =? 0 then
    let* e := expand (shape A) (eye (sizen A 1)) in Ok (unsqueeze (rk e - 2) e)
  else if n =? 1 then Ok (unsqueeze (rk A - 2) A)
  else mat_pwr_accum_runner A (factorint n).
(** mat.py:82-111 matrix_power_accumulate, all exponents. *)
Definition matrix_power_accumulate (la : linalg R) (A : ten) (n : Z) : res ten :=
  if (n <? 0)%Z then
    guard (2 <=? rk A) else AssertionError in
    guard (sizen A 2 =? sizen A 1) else AssertionError in
    let* Ainv := l_inv la A in matrix_power_accumulate_nat Ainv (Z.to_nat (- n))
  else matrix_power_accumulate_nat A (Z.to_nat n).

(** mat.py:153-166 _mat_cumdot_runner.  The recursion drops one dimension per
    call; [fuel] bounds it. *)
Fixpoint mat_cumdot_runner (fuel : nat) (A : ten) (leading : nat) : res ten :=
  match fuel with
  | O => Err OutOfFuel
  | S fuel' =>
      let* ps := accumulate matmul (unbind (rk A - 3) A) in
      let* accums := stack (rk A - 3) ps in
      if rk A =? leading + 3 then Ok accums
      else
        let* last := select (rk accums - 3) (-1) accums in
        let* higher := mat_cumdot_runner fuel' last leading in
        let acc1 := slice (rk accums - 3) None (Some (-1)%Z)
                          (slice (rk accums - 4) (Some 1%Z) None accums) in
        let hi1 := slice (rk higher - 3) None (Some (-1)%Z) higher in
        let* tmp := matmul acc1 (unsqueeze (rk hi1 - 2) hi1) in
        let hi2 := slice (rk higher - 3) (Some 1%Z) None higher in
        let* c := cat (rk tmp - 3) [tmp; unsqueeze (rk hi2 - 2) hi2] in
        cat (rk accums - 4) [slice (rk accums - 4) None (Some 1%Z) accums; c]
  end.

(** mat.py:132-150 matrices_cumdot. *)
Definition matrices_cumdot (A : ten) : res ten :=
  guard (3 <=? rk A) else AssertionError in
  guard (sizen A 2 =? sizen A 1) else AssertionError in
  let M := sizen A 3 in
  if M =? 1 then Ok A
  else
    let leading := rk A - 3 in
    let factors := rev (factorint M) in
    let* unfolded := unflatten (rk A - 3) factors A in
    let* y := mat_cumdot_runner (rk unfolded) unfolded leading in
    Ok (flatten leading (rk y - 3) y).

End Mat.
Arguments companion {R}. Arguments torch_vander {R}. Arguments vandermonde {R}.
Arguments mat_pwr_accum_runner {R}. Arguments matrix_power_accumulate_nat {R}.
Arguments matrix_power_accumulate {R}. Arguments mat_cumdot_runner {R}. Arguments matrices_cumdot {R}.

(** mat.py:7-39 find_eigenvectors, over a field (the final division by the norm).
    [la] supplies torch.linalg.solve and vector_norm. *)
Section Eig.
Variable R : cfield.
Notation ten := (tensor (car (fring R))).
Definition find_eigenvectors (la : linalg R) (A eigenvalues : ten) : res ten :=
  guard (2 <=? rk A) else AssertionError in
  guard (1 <=? rk eigenvalues) else AssertionError in
  guard (sizen A 2 =? sizen A 1) else AssertionError in
  guard (sizen A 1 =? sizen eigenvalues 1) else AssertionError in
  let n := sizen A 1 in
  let ev := unsqueeze (S (rk eigenvalues)) (unsqueeze (rk eigenvalues) eigenvalues) in
  let* evI := tmul ev (eye n) in
  let* W0 := tsub (unsqueeze (rk A - 2) A) evI in
  (* torch.split(W, [1, n-1], dim=-1) raises when n = 0 *)
  guard (1 <=? n) else RuntimeError in
  let B := slice (rk W0 - 1) None (Some 1%Z) W0 in
  let W := slice (rk W0 - 1) (Some 1%Z) None W0 in
  let* WtW := matmul (tconj (mT W)) W in
  let* WtB := matmul (tconj (mT W)) (tneg B) in
  let* X := l_solve la WtW WtB in
  (* X.reshape(A.shape[:-2] + (n, n-1)): X has shape (..., n, n-1, 1) *)
  guard (prod (shape X) =? prod (firstn (rk A - 2) (shape A) ++ [n; n - 1])) else RuntimeError in
  let Xr := mkT (firstn (rk A - 2) (shape A) ++ [n; n - 1])
                (fun idx => at_ X (unravel (shape X)
                   (ravel (firstn (rk A - 2) (shape A) ++ [n; n - 1]) idx))) in
  let* X1 := cat (rk Xr - 1) [ones (firstn (rk Xr - 1) (shape Xr) ++ [1]); Xr] in
  let X2 := mkT (shape X1) (fun idx =>
              rmul (at_ X1 idx)
                   (rinv (l_norm la (fun j => at_ X1 (upd (rk X1 - 1) (fun _ => j) idx)) n))) in
  Ok (mT X2).
End Eig.
Arguments find_eigenvectors {R}.
