(** Model of philtorch/poly.py (polydiv) and philtorch/utils.py (chain_functions). *)
From Coq Require Import List Arith Lia ZArith Bool.
From Verif Require Import Scalar Tensor.
Import ListNotations.
Open Scope res_scope.

(** [t[..., lo:hi, ...] -= e] along dimension [d], for 0 <= lo: the entries of the slice
    are replaced by slice - e.  [e] must broadcast to the shape of the slice; an in-place
    operation cannot enlarge its target. *)
Definition isub_slice {R : cops} (d : nat) (lo hi : Z) (t e : tensor R) : res (tensor R) :=
  let s := slice d (Some lo) (Some hi) t in
  let* w := tsub s e in
  guard list_eqb (shape w) (shape s) else RuntimeError in
  let l := Nat.min (Z.to_nat lo) (size t d) in
  Ok (mkT (shape t) (fun idx =>
    let i := nth d idx 0 in
    if (l <=? i) && (i <? l + size w d) then at_ w (upd d (fun i => i - l) idx) else at_ t idx)).

Section Poly.
Variable F : cfield.
Notation ten := (tensor (car F)).

(** poly.py:29-32, the loop over k; [cnt] iterations are left.  Returns the list q and r. *)
Fixpoint polydiv_loop (v scale : ten) (n : Z) (cnt k : nat) (q : list ten) (r : ten)
  : res (list ten * ten) :=
  match cnt with
  | O => Ok (q, r)
  | S cnt' =>
      let* rk_ := select (rk r - 1) (Z.of_nat k) r in
      let* d := tmul scale rk_ in                                               (* 30 *)
      let* dv := tmul (unsqueeze (rk d) d) v in
      let* r := isub_slice (rk r - 1) (Z.of_nat k) (Z.of_nat k + n + 1) r dv in (* 32 *)
      polydiv_loop v scale n cnt' (S k) (q ++ [d]) r
  end.

(** poly.py:5-35 polydiv.  Division is exact field arithmetic; [rinv] of 0 (inf in the
    code) is whatever the field record returns, and no theorem relies on it. *)
Definition polydiv (u v : ten) : res (ten * ten) :=
  guard (1 <=? rk u) && (1 <=? rk v) else AssertionError in                     (* 21 *)
  let m := (Z.of_nat (sizen u 1) - 1)%Z in                                      (* 24 *)
  let n := (Z.of_nat (sizen v 1) - 1)%Z in                                      (* 25 *)
  let* v0 := select (rk v - 1) 0 v in
  let scale := tmap rinv v0 in                                                  (* 26 *)
  let* ' (q, r) := polydiv_loop v scale n (Z.to_nat (m - n + 1)) 0 [] u in      (* 27-32 *)
  let r := slice (rk r - 1) (Some (m - n + 1)%Z) None r in                      (* 34 *)
  let* q := stack (match q with [] => 0 | d :: _ => rk d end) q in
  Ok (q, r).                                                                    (* 35 *)
End Poly.
Arguments polydiv_loop {F}. Arguments polydiv {F}.

(** ** utils.py *)
Section Chain.
Variable A : Type.
(** A Python value is either a tuple or something else; a callable takes a list of
    positional arguments and may raise. *)
Inductive pyval := Single (a : A) | Tuple (l : list A).
Definition pyfun := list A -> res pyval.

(** utils.py:20-25: the reduce of [closure]; the initial accumulator is the tuple of
    arguments. *)
Definition chain_step (acc : res pyval) (func : pyfun) : res pyval :=
  let* a := acc in
  match a with Tuple l => func l | Single a => func [a] end.
Definition chain_functions (functions : list pyfun) (args : list A) : res pyval :=
  fold_left chain_step functions (Ok (Tuple args)).
End Chain.
Arguments Single {A}. Arguments Tuple {A}. Arguments chain_step {A}.
Arguments chain_functions {A}.
