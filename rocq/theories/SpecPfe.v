(** Partial-fraction expansions, for the properties of prototype/signal.py. *)
From Coq Require Import List Arith.
From Verif Require Import Scalar.
Import ListNotations.
Section SpecPfe.
Context {F : cfield}.
(** An expansion is a list of blocks: a pole and its residues, power 1 first.
    [pfe_val E z] is the sum of r_j / (z - p)^j. *)
Definition pfe_val (E : list (F * list F)) (z : F) : F :=
  fold_right (fun b acc =>
    radd (bsum (length (snd b)) (fun j => rmul (nth j (snd b) r0) (rinv (rpow (rsub z (fst b)) (S j))))) acc) r0 E.
(** The same in w = 1/z: the sum of r_j / (1 - p w)^j. *)
Definition pfez_val (E : list (F * list F)) (w : F) : F :=
  fold_right (fun b acc =>
    radd (bsum (length (snd b)) (fun j => rmul (nth j (snd b) r0) (rinv (rpow (rsub r1 (rmul (fst b) w)) (S j))))) acc) r0 E.
(** Poles with multiplicity and residues, in the order of the blocks. *)
Definition pfe_poles (E : list (F * list F)) : list F := concat (map (fun b => repeat (fst b) (length (snd b))) E).
Definition pfe_res (E : list (F * list F)) : list F := concat (map snd E).
(** A polynomial in w = 1/z, coefficient of w^0 first. *)
Definition zval (b : list F) (w : F) : F := bsum (length b) (fun i => rmul (nth i b r0) (rpow w i)).
(** The product of the z - p. *)
Definition rootprod (L : list F) (z : F) : F := fold_right (fun p acc => rmul (rsub z p) acc) r1 L.
(** Second-order sections ((b0, b1, b2), (a0, a1, a2)): the product of the
    (b0 z^2 + b1 z + b2) / (a0 z^2 + a1 z + a2), and its poles. *)
Definition quad (c : F * F * F) (z : F) : F :=
  let '(c0, c1, c2) := c in radd (radd (rmul c0 (rmul z z)) (rmul c1 z)) c2.
Definition sos_val (sos : list (F * F * F * (F * F * F))) (z : F) : F :=
  fold_right (fun s acc => rmul (rmul (quad (fst s) z) (rinv (quad (snd s) z))) acc) r1 sos.
Definition sos_pole (sos : list (F * F * F * (F * F * F))) (z : F) : Prop :=
  exists s, In s sos /\ quad (snd s) z = r0.
(** The sum of the r_i / (z - p_i)^(w_i). *)
Fixpoint terms_val (rs ps : list F) (ws : list nat) (z : F) : F :=
  match rs, ps, ws with
  | r :: rs, p :: ps, w :: ws => radd (rmul r (rinv (rpow (rsub z p) w))) (terms_val rs ps ws z)
  | _, _, _ => r0
  end.
(** The sum of the r_i / (z - p_i) + conj r_i / (z - conj p_i). *)
Fixpoint pairs_val (cj : F -> F) (rs ps : list F) (z : F) : F :=
  match rs, ps with
  | r :: rs, p :: ps =>
      radd (radd (rmul r (rinv (rsub z p))) (rmul (cj r) (rinv (rsub z (cj p))))) (pairs_val cj rs ps z)
  | _, _ => r0
  end.
End SpecPfe.
