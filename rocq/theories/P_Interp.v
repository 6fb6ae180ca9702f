(** Cubic spline coefficients: algebra of the two inverse filters, and the model's result. *)
From Coq Require Import List Arith Lia ZArith Bool.
From Verif Require Import Scalar Tensor TensorLemmas TensorOps TensorAlg TensorTac TensorList
  Spec Shapes Algebra Ordered M_LtiRecur P_LtiRecur M_Kernels P_Helion M_LtiSsm M_Interp SpecInterp.
Import ListNotations.
Open Scope cr_scope.

Section Alg.
Variable F : cfield.
Add Ring Rr : (r_th F).
Variable r : F.
Hypothesis Hr : pole r.
Hypothesis H6 : (rnat 6 : F) <> 0.

Lemma rr : r * r = - (rnat 4 * r) - 1.
Proof. unfold pole in Hr. transitivity (r * r + rnat 4 * r + 1 - rnat 4 * r - 1); [ring|rewrite Hr; ring]. Qed.
(** Equality modulo the polynomial of r: [q] is the quotient. *)
Lemma modr (a b q : F) : a - b = q * (r * r + rnat 4 * r + 1) -> a = b.
Proof. intro H. transitivity (a - b + b); [ring|]. rewrite H, Hr. ring. Qed.
Lemma r_cancel x y : r * x = r * y -> x = y.
Proof.
  intro H. transitivity (- (r + rnat 4) * (r * x)).
  - apply (modr _ _ x). ring.
  - rewrite H. symmetry. apply (modr _ _ y). ring.
Qed.
Lemma D_neq0 : 1 - r * r <> 0.
Proof.
  intro H. apply H6. transitivity ((1 - r * r) * (rnat 2 * r + rnat 7)); [|rewrite H; ring].
  symmetry. apply (modr _ _ (1 - rnat 2 * r)). cbn [rnat]. ring.
Qed.
Lemma r1_neq0 : r - 1 <> 0.
Proof.
  intro H. apply H6. transitivity (- ((r - 1) * (r + rnat 5))); [|rewrite H; ring].
  symmetry. apply (modr _ _ (- (1))). cbn [rnat]. ring.
Qed.
Definition K : F := - rnat 6 * r * rinv (1 - r * r).
Lemma K_D : K * (1 - r * r) = - (rnat 6 * r).
Proof. unfold K. transitivity (- rnat 6 * r * (rinv (1 - r * r) * (1 - r * r))); [ring|]. rewrite rinv_l by apply D_neq0. ring. Qed.

(** The backward filter determines the interpolation equations. *)
Lemma interp3 c0 c1 c2 h0 h1 x1 :
  c0 - r * c1 = - (rnat 6 * r * h0) -> c1 - r * c2 = - (rnat 6 * r * h1) -> h1 = r * h0 + x1 ->
  c0 + rnat 4 * c1 + c2 = rnat 6 * x1.
Proof.
  intros H1 H2 H3. apply r_cancel.
  transitivity (- ((c1 - r * c2) - r * (c0 - r * c1))).
  - apply (modr _ _ c1). ring.
  - rewrite H1, H2, H3. ring.
Qed.
(** The partial-fraction form satisfies the backward filter equation. *)
Lemma par_back h0 h1 g0 g1 x0 x1 :
  h1 = r * h0 + x1 -> g0 = r * g1 + x0 ->
  K * (h0 + g0 - x0) - r * (K * (h1 + g1 - x1)) = - (rnat 6 * r * h0).
Proof.
  intros -> ->. transitivity (K * (1 - r * r) * h0); [ring|]. rewrite K_D. ring.
Qed.

Section Seq.
Variables (sc : bool) (L : nat) (x : nat -> F).
Hypothesis HL : (1 <= L)%nat.
(** Causal initial value, causal filter output, last coefficient / 6, coefficients. *)
Definition czi : F := if sc then bsum L (fun k => x k * rpow r k) else bsum (L - 1) (fun k => x (1 + k)%nat * rpow r k).
Definition hs (n : nat) : F := lin_rec (fun _ => r) czi x (S n).
Definition lastc : F :=
  if sc then r * rinv (r - 1) * hs (L - 1)
  else - r * rinv (1 - r * r) * ((1 + 1) * hs (L - 1) - x (L - 1)%nat).
Definition cs (k : nat) : F := lin_rec (fun _ => r) lastc (fun j => hs (L - 2 - j) * - r) (L - 1 - k) * rnat 6.

Lemma hs_S n : hs (S n) = r * hs n + x (S n).
Proof. reflexivity. Qed.
Lemma hs_0 : hs 0 = r * czi + x 0%nat.
Proof. reflexivity. Qed.
Lemma cs_back k : (S k < L)%nat -> cs k - r * cs (S k) = - (rnat 6 * r * hs k).
Proof.
  intro Hk. unfold cs. replace (L - 1 - k)%nat with (S (L - 1 - S k)) by lia. cbn [lin_rec].
  replace (L - 2 - (L - 1 - S k))%nat with k by lia. ring.
Qed.
Lemma cs_last : cs (L - 1) = lastc * rnat 6.
Proof. unfold cs. rewrite Nat.sub_diag. reflexivity. Qed.
(** The same at the right end, with the mirrored neighbour. *)
Lemma cs_back_right : (sc = true \/ 2 <= L)%nat ->
  cs (L - 1) - r * mirror sc L cs (Z.of_nat L) = - (rnat 6 * r * hs (L - 1)).
Proof.
  intro H2. unfold mirror. destruct (Z.ltb_spec (Z.of_nat L) 0); [lia|]. destruct (Z.ltb_spec (Z.of_nat L) (Z.of_nat L)); [lia|].
  destruct sc eqn:E.
  - replace (Z.to_nat (2 * Z.of_nat L - 1 - Z.of_nat L)) with (L - 1)%nat by lia.
    rewrite cs_last. unfold lastc. rewrite E. transitivity (- (rnat 6 * r * hs (L - 1) * (rinv (r - 1) * (r - 1)))); [ring|].
    rewrite rinv_l by apply r1_neq0. ring.
  - destruct H2 as [H2|H2]; [discriminate|].
    replace (Z.to_nat (2 * Z.of_nat L - 2 - Z.of_nat L)) with (L - 2)%nat by lia.
    pose proof (cs_back (L - 2) ltac:(lia)) as Hb. replace (S (L - 2)) with (L - 1)%nat in Hb by lia.
    pose proof (hs_S (L - 2)) as Hh. replace (S (L - 2)) with (L - 1)%nat in Hh by lia.
    transitivity (cs (L - 1) * (1 - r * r) - r * (cs (L - 2) - r * cs (L - 1))); [ring|].
    rewrite Hb, cs_last. unfold lastc. rewrite E.
    transitivity (- r * (rinv (1 - r * r) * (1 - r * r)) * ((1 + 1) * hs (L - 1) - x (L - 1)%nat) * rnat 6 - r * - (rnat 6 * r * hs (L - 2))); [ring|].
    rewrite rinv_l by apply D_neq0. rewrite Hh. ring.
Qed.
Lemma mirror_in k : (k < L)%nat -> mirror sc L cs (Z.of_nat k) = cs k.
Proof.
  intro Hk. unfold mirror. destruct (Z.ltb_spec (Z.of_nat k) 0); [lia|]. destruct (Z.ltb_spec (Z.of_nat k) (Z.of_nat L)); [|lia].
  now rewrite Nat2Z.id.
Qed.
Theorem cs_interp k : (1 <= k < L)%nat ->
  mirror sc L cs (Z.of_nat k - 1) + rnat 4 * mirror sc L cs (Z.of_nat k) + mirror sc L cs (Z.of_nat k + 1) = rnat 6 * x k.
Proof.
  intro Hk. destruct k as [|k]; [lia|]. replace (Z.of_nat (S k) - 1)%Z with (Z.of_nat k) by lia.
  rewrite (mirror_in k), (mirror_in (S k)) by lia.
  apply (interp3 _ _ _ (hs k) (hs (S k))); [apply cs_back; lia| |apply hs_S].
  replace (Z.of_nat (S k) + 1)%Z with (Z.of_nat (S (S k))) by lia.
  destruct (Nat.eq_dec (S (S k)) L) as [E|E].
  - rewrite E. replace (S k) with (L - 1)%nat by lia. apply cs_back_right. lia.
  - rewrite mirror_in by lia. apply cs_back. lia.
Qed.

(** A solution of the backward equations with the right last value is [cs]. *)
Lemma cs_unique (c : nat -> F) :
  c (L - 1)%nat = cs (L - 1) -> (forall k, (S k < L)%nat -> c k - r * c (S k) = - (rnat 6 * r * hs k)) ->
  forall k, (k < L)%nat -> c k = cs k.
Proof.
  intros Hl Hb k Hk. remember (L - 1 - k)%nat as j eqn:Ej. revert k Hk Ej.
  induction j as [|j IH]; intros k Hk Ej.
  - assert (k = (L - 1)%nat) as -> by lia. exact Hl.
  - pose proof (Hb k ltac:(lia)) as H1. pose proof (cs_back k ltac:(lia)) as H2.
    rewrite (IH (S k)) in H1 by lia.
    transitivity (c k - r * cs (S k) + r * cs (S k)); [ring|]. rewrite H1, <- H2. ring.
Qed.

(** The mirrored signal of the partial-fraction form. *)
Definition mlen : nat := if sc then (L + L)%nat else (L + (L - 1))%nat.
Definition mx (j : nat) : F := if (j <? L)%nat then x j else x (mlen - 1 - j)%nat.
Definition hm (n : nat) : F := lin_rec (fun _ => r) czi mx (S n).
Lemma hm_hs n : (n < L)%nat -> hm n = hs n.
Proof.
  intro Hn. unfold hm, hs. apply lin_rec_ext; [reflexivity|reflexivity|]. intros k Hk. unfold mx.
  now rewrite (proj2 (Nat.ltb_lt k L)) by lia.
Qed.
Lemma hm_S n : hm (S n) = r * hm n + mx (S n).
Proof. reflexivity. Qed.
Definition cp (k : nat) : F := K * (hm k + hm (mlen - 1 - k) - x k).
Lemma mlen_ge : (L <= mlen /\ (sc = true -> mlen = L + L) /\ (sc = false -> mlen = L + (L - 1)))%nat.
Proof. unfold mlen. destruct sc; repeat split; try lia; discriminate. Qed.
Lemma mx_hi k : (k < L)%nat -> (L <= mlen - 1 - k)%nat -> mx (mlen - 1 - k)%nat = x k.
Proof.
  intros Hk Hm. unfold mx. rewrite (proj2 (Nat.ltb_ge _ _)) by lia. f_equal. lia.
Qed.
Theorem cp_cs k : (k < L)%nat -> cp k = cs k.
Proof.
  revert k. apply cs_unique.
  - rewrite cs_last. unfold cp. rewrite (hm_hs (L - 1)) by lia. unfold lastc, mlen. destruct sc eqn:E.
    + replace (L + L - 1 - (L - 1))%nat with (S (L - 1)) by lia. rewrite hm_S, (hm_hs (L - 1)) by lia.
      assert (mx (S (L - 1)) = x (L - 1)%nat) as ->.
      { replace (S (L - 1)) with (mlen - 1 - (L - 1))%nat; [|unfold mlen; rewrite E; lia]. apply mx_hi; [lia|unfold mlen; rewrite E; lia]. }
      transitivity (K * (1 - r * r) * (rinv (r - 1) * (r - 1)) * hs (L - 1) * - rinv (r - 1)).
      * rewrite rinv_l by apply r1_neq0.
        transitivity (K * (1 + r) * hs (L - 1) * (rinv (r - 1) * (r - 1))); [rewrite rinv_l by apply r1_neq0; ring|ring].
      * rewrite rinv_l by apply r1_neq0. rewrite K_D. ring.
    + replace (L + (L - 1) - 1 - (L - 1))%nat with (L - 1)%nat by lia. rewrite (hm_hs (L - 1)) by lia. unfold K. ring.
  - intros k Hk. unfold cp. rewrite <- (hm_hs k) by lia. apply par_back.
    + rewrite hm_S. f_equal. unfold mx. now rewrite (proj2 (Nat.ltb_lt _ _)) by lia.
    + pose proof mlen_ge as (H1 & H2 & H3).
      assert (mlen - 1 - k = S (mlen - 1 - S k))%nat as Em by (destruct sc; [specialize (H2 eq_refl)|specialize (H3 eq_refl)]; lia).
      rewrite Em at 1. rewrite hm_S. f_equal. rewrite <- Em. apply mx_hi; [lia|].
      destruct sc; [specialize (H2 eq_refl)|specialize (H3 eq_refl)]; lia.
Qed.
End Seq.
End Alg.
