(** Model of philtorch/prototype/poly.py.  The functions work on 1-D tensors, modelled as
    lists of coefficients (highest degree first).  [z0 x] is the test [x == 0] behind
    torch.nonzero.  Dtype conversions (.float(), new_zeros) are not modelled. *)
From Coq Require Import List Arith Lia ZArith Bool.
From Verif Require Import Scalar Tensor.
Import ListNotations.
Open Scope res_scope.

Definition tab {A} (n : nat) (f : nat -> A) : list A := map f (seq 0 n).

Section ProtoPoly.
Variable R : cops.
Variable z0 : R -> bool.
Notation gt i p := (nth i p r0).

(** torch.nonzero(p) flattened: positions of the non-zero entries. *)
Definition nonzero (p : list R) : list nat :=
  filter (fun i => negb (z0 (gt i p))) (seq 0 (length p)).

(** poly.py:7-20 trim_zeros *)
Definition trim_zeros (p : list R) : list R :=
  if length p =? 1 then p                                                       (* 12-13 *)
  else match nonzero p with
       | [] => [r0]                                                             (* 17-18 *)
       | i :: _ => skipn i p                                                    (* 20 *)
       end.

(** F.conv1d(inp, weight, padding=pd) on one channel: cross-correlation of the padded
    input with the weight. *)
Definition conv1d (inp w : list R) (pd : nat) : list R :=
  let padded := repeat r0 pd ++ inp ++ repeat r0 pd in
  tab (length padded - length w + 1)
      (fun i => bsum (length w) (fun k => rmul (gt k w) (gt (i + k) padded))).

(** poly.py:100-116 polymul *)
Definition polymul (a1 a2 : list R) : list R :=
  let a1 := trim_zeros a1 in
  let a2 := trim_zeros a2 in
  let '(a1, a2) := if length a2 <? length a1 then (a2, a1) else (a1, a2) in     (* 103-104 *)
  let weight := rev a1 in                                                       (* 105 *)
  conv1d a2 weight (length weight - 1).                                         (* 106-115 *)

(** poly.py:90-97 polysmul; an empty argument list recurses for ever (RecursionError,
    a RuntimeError). *)
Fixpoint polysmul_fuel (fuel : nat) (ps : list (list R)) : res (list R) :=
  match fuel with
  | O => Err RuntimeError
  | S fuel' =>
      match ps with
      | [p] => Ok p
      | _ =>
          let n := length ps in
          let* a1 := polysmul_fuel fuel' (firstn (n / 2) ps) in
          let* a2 := polysmul_fuel fuel' (skipn (n / 2) ps) in
          Ok (polymul a1 a2)
      end
  end.
Definition polysmul (ps : list (list R)) : res (list R) := polysmul_fuel (S (length ps)) ps.

(** poly.py:119-126 polyval; x is a tensor of any shape. *)
Definition polyval (p : list R) (x : tensor R) : res (tensor R) :=
  let p := trim_zeros p in
  if length p =? 1 then Ok (lst1 r0 p)                                          (* 124-125 *)
  else match p with
       | [] => Err TypeError
       | c :: cs =>
           fold_left (fun acc pv => let* y := acc in
                                    let* yx := tmul y x in tadd yx (mk0 pv))
                     cs (Ok (mk0 c))                                            (* 126 *)
       end.

(** poly.py:129-143 polysub, 166-180 polyadd *)
Definition zipw (f : R -> R -> R) (a b : list R) : list R :=
  tab (length a) (fun i => f (gt i a) (gt i b)).
Definition poly_pw (f : R -> R -> R) (a1 a2 : list R) : list R :=
  let diff := (Z.of_nat (length a2) - Z.of_nat (length a1))%Z in
  if (diff =? 0)%Z then zipw f a1 a2
  else if (0 <? diff)%Z then zipw f (repeat r0 (Z.to_nat diff) ++ a1) a2
  else zipw f a1 (repeat r0 (Z.to_nat (- diff)) ++ a2).
Definition polysub := poly_pw rsub.
Definition polyadd := poly_pw radd.

(** poly.py:146-163 polyder *)
Fixpoint polyder_nat (p : list R) (m : nat) : list R :=
  match m with
  | O => p                                                                      (* 153-154 *)
  | S m' =>
      let p := trim_zeros p in
      if length p =? 1 then [r0]                                                (* 158-159 *)
      else
        let n := length p - 1 in
        let y := tab n (fun i => rmul (gt i p) (rnat (n - i))) in               (* 161-162 *)
        polyder_nat y m'
  end.
Definition polyder (p : list R) (m : Z) : res (list R) :=
  guard (0 <=? m)%Z else ValueError in                                          (* 150-151 *)
  Ok (polyder_nat p (Z.to_nat m)).
End ProtoPoly.
Arguments nonzero {R}. Arguments trim_zeros {R}. Arguments conv1d {R}. Arguments polymul {R}.
Arguments polysmul_fuel {R}. Arguments polysmul {R}. Arguments polyval {R}. Arguments zipw {R}.
Arguments poly_pw {R}. Arguments polysub {R}. Arguments polyadd {R}. Arguments polyder_nat {R}.
Arguments polyder {R}.

Section ProtoField.
Variable F : cfield.
Variable z0 : F -> bool.
(** [small x] is |x| < 1e-8. *)
Variable small : F -> bool.
(** torch.linalg.eigvals of an n x n matrix. *)
Variable eigvals : nat -> (nat -> nat -> F) -> list F.
Notation gt i p := (nth i p r0).

(** poly.py:80-83, [cnt] iterations left *)
Fixpoint pdiv_loop (v : list F) (scale : F) (cnt k : nat) (q r : list F) : list F * list F :=
  match cnt with
  | O => (q, r)
  | S cnt' =>
      let d := rmul scale (gt k r) in
      let q := tab (length q) (fun i => if i =? k then d else gt i q) in
      let r := tab (length r) (fun i => if (k <=? i) && (i <? k + length v)
                                        then rsub (gt i r) (rmul d (gt (i - k) v)) else gt i r) in
      pdiv_loop v scale cnt' (S k) q r
  end.
(** poly.py:84-85 *)
Fixpoint strip (r : list F) : list F :=
  match r with
  | c :: ((_ :: _) as r') => if small c then strip r' else r
  | _ => r
  end.
(** poly.py:62-86 polydiv *)
Definition proto_polydiv (u v : list F) : list F * list F :=
  let u := trim_zeros z0 u in
  let v := trim_zeros z0 v in
  let m := length u - 1 in
  let n := length v - 1 in
  let scale := rinv (gt 0 v) in
  let q := repeat r0 (Nat.max (m + 1 - n) 1) in
  let '(q, r) := pdiv_loop v scale (m + 1 - n) 0 q u in
  (q, strip r).

(** poly.py:23-59 roots.  [non_zero] is squeezed, so it is 0-dimensional when there is
    exactly one non-zero coefficient, and indexing it raises IndexError. *)
Definition companion_of (p : list F) (i j : nat) : F :=
  if i =? 0 then rmul (ropp (gt (S j) p)) (rinv (gt 0 p))                       (* 50 *)
  else if i =? S j then r1 else r0.                                             (* 49 *)
Definition roots (p : list F) : res (list F) :=
  match nonzero z0 p with
  | [] => Ok []                                                                 (* 37-38 *)
  | [_] => Err IndexError                                                       (* 41 *)
  | i :: rest =>
      let last_ := last rest 0 in
      let trailing_zeros := length p - last_ - 1 in                             (* 41 *)
      let p := skipn i (firstn (last_ + 1) p) in                                (* 44 *)
      let N := length p in
      let rts := if 1 <? N then eigvals (N - 1) (companion_of p) else [] in     (* 46-53 *)
      Ok (if 0 <? trailing_zeros then rts ++ repeat r0 trailing_zeros else rts) (* 56-58 *)
  end.
End ProtoField.
Arguments pdiv_loop {F}. Arguments strip {F}. Arguments proto_polydiv {F}.
Arguments companion_of {F}. Arguments roots {F}.
