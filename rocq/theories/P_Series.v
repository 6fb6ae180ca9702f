(** Formal power series as coefficient functions, with pointwise equality: a commutative ring
    with a derivation.  Used for the repeated poles of sos2pfe. *)
From Coq Require Import List Arith Lia Bool Permutation Setoid Morphisms Ring.
From Verif Require Import Scalar P_Formal.
Import ListNotations.

Section Series.
Variable F : cfield.
Add Ring Rr : (r_th F).
Local Open Scope cr_scope.
Notation P := (nat -> F).
Notation mlin := (mlin F). Notation mlins := (mlins F). Notation one := (one F). Notation deg := (deg F).

Definition eqf (a b : P) : Prop := forall k, a k = b k.
Definition sadd (a b : P) : P := fun k => a k + b k.
Definition sopp (a : P) : P := fun k => - a k.
Definition ssub (a b : P) : P := fun k => a k - b k.
Definition szero : P := fun _ => 0.
Definition smul (a b : P) : P := fun k => bsum (S k) (fun i => a i * b (k - i)%nat).
Definition tl (a : P) : P := fun k => a (S k).

Global Instance eqf_equiv : Equivalence eqf.
Proof. split; [intros a k; reflexivity|intros a b H k; now symmetry|intros a b c H1 H2 k; now rewrite H1]. Qed.
Global Instance sadd_m : Proper (eqf ==> eqf ==> eqf) sadd.
Proof. intros a a' H b b' H' k. unfold sadd. now rewrite H, H'. Qed.
Global Instance ssub_m : Proper (eqf ==> eqf ==> eqf) ssub.
Proof. intros a a' H b b' H' k. unfold ssub. now rewrite H, H'. Qed.
Global Instance sopp_m : Proper (eqf ==> eqf) sopp.
Proof. intros a a' H k. unfold sopp. now rewrite H. Qed.
Global Instance smul_m : Proper (eqf ==> eqf ==> eqf) smul.
Proof. intros a a' H b b' H' k. unfold smul. apply bsum_ext. intros. now rewrite H, H'. Qed.

Lemma smul_S a b k : smul a b (S k) = a 0%nat * b (S k) + smul (tl a) b k.
Proof. unfold smul at 1. rewrite bsum_S_l. reflexivity. Qed.
Lemma smul_comm a b : eqf (smul a b) (smul b a).
Proof.
  intro k. unfold smul. rewrite bsum_rev. apply bsum_ext. intros i Hi.
  replace (S k - 1 - i)%nat with (k - i)%nat by lia. replace (k - (k - i))%nat with i by lia. ring.
Qed.
Lemma smul_add_l a b c : eqf (smul (sadd a b) c) (sadd (smul a c) (smul b c)).
Proof. intro k. unfold smul, sadd. rewrite <- bsum_add. apply bsum_ext. intros. ring. Qed.
Lemma smul_scale_l x a b k : smul (fun k => x * a k) b k = x * smul a b k.
Proof. unfold smul. rewrite <- bsum_mul_l. apply bsum_ext. intros. ring. Qed.
Lemma smul_assoc a b c : eqf (smul a (smul b c)) (smul (smul a b) c).
Proof.
  intro k. revert a b c. induction k as [|k IH]; intros a b c.
  - unfold smul. cbn. ring.
  - rewrite !smul_S. assert (E : eqf (tl (smul a b)) (sadd (fun k => a 0%nat * tl b k) (smul (tl a) b))).
    { intro j. unfold tl at 1. rewrite smul_S. reflexivity. }
    rewrite (smul_m _ _ E _ _ (reflexivity c)), smul_add_l. unfold sadd. rewrite smul_scale_l, IH.
    assert (smul a b 0%nat = a 0%nat * b 0%nat) as -> by (unfold smul; cbn; ring). ring.
Qed.
Lemma smul_1_l a : eqf (smul one a) a.
Proof. intro k. unfold smul. rewrite bsum_S_l, bsum_0 by (intros; unfold P_Formal.one; ring). rewrite Nat.sub_0_r. unfold P_Formal.one. ring. Qed.
Lemma series_ring : ring_theory szero one sadd smul ssub sopp eqf.
Proof.
  constructor.
  - intros a k. unfold sadd, szero. ring.
  - intros a b k. unfold sadd. ring.
  - intros a b c k. unfold sadd. ring.
  - exact smul_1_l.
  - exact smul_comm.
  - exact smul_assoc.
  - intros a b c. apply smul_add_l.
  - intros a b k. unfold sadd, ssub, sopp. ring.
  - intros a k. unfold sadd, sopp, szero. ring.
Qed.
Lemma series_ext : ring_eq_ext sadd smul sopp eqf.
Proof. constructor; [exact sadd_m|exact smul_m|exact sopp_m]. Qed.
Add Ring Sr : series_ring (setoid eqf_equiv series_ext).

(** The derivative. *)
Definition sder (a : P) : P := fun k => a (S k) * rnat (S k).
Global Instance sder_m : Proper (eqf ==> eqf) sder.
Proof. intros a b H k. unfold sder. now rewrite H. Qed.
Lemma sder_add a b : eqf (sder (sadd a b)) (sadd (sder a) (sder b)).
Proof. intro k. unfold sder, sadd. ring. Qed.
Lemma rnat_add m n : rnat (m + n) = rnat m + rnat n :> F.
Proof. induction m as [|m IH]; cbn; [ring|]. rewrite IH. ring. Qed.
Lemma sder_mul a b : eqf (sder (smul a b)) (sadd (smul (sder a) b) (smul a (sder b))).
Proof.
  intro k. unfold sder at 1, sadd, smul. rewrite <- bsum_mul_r.
  transitivity (bsum (S (S k)) (fun i => rnat i * a i * b (S k - i)%nat) + bsum (S (S k)) (fun i => a i * (b (S k - i)%nat * rnat (S k - i)))).
  { rewrite <- bsum_add. apply bsum_ext. intros i Hi.
    replace (rnat (S k)) with (rnat i + rnat (S k - i) : F) by (rewrite <- rnat_add; f_equal; lia). ring. }
  f_equal.
  - rewrite bsum_S_l. change (rnat 0) with (r0 : F). transitivity (bsum (S k) (fun i => rnat (S i) * a (S i) * b (S k - S i)%nat)); [ring|].
    apply bsum_ext. intros i Hi. unfold sder. replace (S k - S i)%nat with (k - i)%nat by lia. ring.
  - rewrite bsum_S. rewrite Nat.sub_diag. change (rnat 0) with (r0 : F). transitivity (bsum (S k) (fun i => a i * (b (S k - i)%nat * rnat (S k - i)))); [ring|].
    apply bsum_ext. intros i Hi. unfold sder. replace (S k - i)%nat with (S (k - i)) by lia. reflexivity.
Qed.

(** Linear factors. *)
Lemma mlin_smul p c d : eqf (smul (mlin p c) d) (mlin p (smul c d)).
Proof.
  intros k. assert (E : eqf (mlin p c) (sadd (fun k => match k with O => 0 | S k => c k end) (fun k => - p * c k))).
  { intros [|j]; unfold P_Formal.mlin, sadd; ring. }
  rewrite (smul_m _ _ E _ _ (reflexivity d)), smul_add_l. unfold sadd. rewrite smul_scale_l.
  destruct k as [|k]; [unfold P_Formal.mlin, smul; cbn; ring|]. rewrite smul_S. unfold P_Formal.mlin, tl.
  change (smul (fun k0 => c k0) d k) with (smul c d k). ring.
Qed.
Global Instance mlin_m p : Proper (eqf ==> eqf) (mlin p).
Proof. intros a b H. exact (mlin_ext F p a b H). Qed.
Global Instance mlins_m L : Proper (eqf ==> eqf) (mlins L).
Proof. intros a b H. exact (mlins_ext F L a b H). Qed.
Lemma mlins_smul L c d : eqf (smul (mlins L c) d) (mlins L (smul c d)).
Proof. induction L as [|p L IH]; [reflexivity|]. cbn [P_Formal.mlins]. now rewrite mlin_smul, IH. Qed.
Lemma mlins_one L c : eqf (mlins L c) (smul (mlins L one) c).
Proof. rewrite mlins_smul. now rewrite smul_1_l. Qed.
Lemma sder_mlin p c : eqf (sder (mlin p c)) (sadd c (mlin p (sder c))).
Proof. intros [|k]; unfold sder, sadd, P_Formal.mlin; cbn [rnat]; ring. Qed.
Lemma deg_smul m n a b : deg m a -> deg n b -> deg (m + n) (smul a b).
Proof.
  intros Ha Hb k Hk. apply bsum_0. intros i Hi. destruct (Nat.le_gt_cases m i); [rewrite Ha by assumption; ring|].
  rewrite (Hb (k - i)%nat) by lia. ring.
Qed.
Lemma deg_sder n a : deg n a -> deg n (sder a).
Proof. intros H k Hk. unfold sder. rewrite H by lia. ring. Qed.
Lemma deg_ssub m n a b : deg m a -> deg n b -> deg (m + n) (ssub a b).
Proof. intros Ha Hb k Hk. unfold ssub. rewrite Ha, Hb by lia. ring. Qed.
Lemma deg_sadd m n a b : deg m a -> deg n b -> deg (m + n) (sadd a b).
Proof. intros Ha Hb k Hk. unfold sadd. rewrite Ha, Hb by lia. ring. Qed.
End Series.
