(** The loop of derivatives of sos2pfe computes the coefficients of the expansion of the
    quotient numerator / (remaining denominator) in powers of (z - pole). *)
From Coq Require Import List Arith Lia ZArith Bool Permutation Setoid Morphisms Ring.
From Verif Require Import Scalar Tensor TensorLemmas TensorOps TensorAlg TensorTac TensorList
  SpecPoly SpecPfe M_Poly P_Poly M_ProtoPoly P_ProtoPoly P_ProtoPoly2 P_Formal P_Series M_Signal P_Signal.
Import ListNotations.

Section Taylor.
Variable F : cfield.
Add Ring Rr : (r_th F).
Local Open Scope cr_scope.
Notation P := (nat -> F).
Notation mlin := (mlin F). Notation mlins := (mlins F). Notation one := (one F). Notation deg := (deg F). Notation ev := (ev F).
Notation eqf := (eqf F). Notation sadd := (sadd F). Notation smul := (smul F). Notation ssub := (ssub F). Notation sder := (sder F).
Notation szero := (szero F). Notation sopp := (sopp F).
Add Ring Sr : (series_ring F) (setoid (eqf_equiv F) (series_ext F)).
Hypothesis Hchar : forall m, (1 <= m)%nat -> rnat m <> r0 :> F.

Section AtP.
Variable p : F.
Notation pw j := (mlins (repeat p j) one).
Definition TT (m : nat) (t : P) : P := fun k => bsum m (fun j => t j * pw j k).
Lemma TT_ext m t t' : (forall j, (j < m)%nat -> t j = t' j) -> eqf (TT m t) (TT m t').
Proof. intros H k. apply bsum_ext. intros j Hj. now rewrite H. Qed.
Lemma TT_S m t : eqf (TT (S m) t) (sadd (fun k => t 0%nat * one k) (mlin p (TT m (fun j => t (S j))))).
Proof.
  intro k. unfold TT, P_Series.sadd. rewrite bsum_S_l. f_equal. rewrite mlin_bsum. apply bsum_ext. intros j Hj.
  cbn [repeat P_Formal.mlins]. now rewrite mlin_scale.
Qed.
Lemma deg_TT m t : deg m (TT m t).
Proof.
  intros k Hk. apply bsum_0. intros j Hj. rewrite (deg_mlins F 1 (repeat p j) one (deg_one F)); [ring|]. rewrite repeat_length. lia.
Qed.
Lemma sder_pw j : eqf (sder (pw (S j))) (fun k => rnat (S j) * pw j k).
Proof.
  induction j as [|j IH].
  - intro k. change (pw 1) with (mlin p one). rewrite sder_mlin. unfold P_Series.sadd. cbn [repeat P_Formal.mlins rnat].
    assert (E : eqf (sder one) szero) by (intro i; unfold P_Series.sder, P_Series.szero, P_Formal.one; ring).
    rewrite (mlin_m F p _ _ E k). destruct k; unfold P_Formal.mlin, P_Series.szero; ring.
  - intro k. change (pw (S (S j))) with (mlin p (pw (S j))). rewrite sder_mlin. unfold P_Series.sadd.
    rewrite (mlin_m F p _ _ IH k), mlin_scale. change (mlin p (pw j) k) with (pw (S j) k).
    change (rnat (S (S j))) with (rnat (S j) + 1 : F). ring.
Qed.
Lemma sder_TT m t : eqf (sder (TT (S m) t)) (TT m (fun j => t (S j) * rnat (S j))).
Proof.
  induction m as [|m IH].
  - intro k. unfold TT, P_Series.sder, P_Formal.one. cbn. ring.
  - intro k. transitivity (sder (TT (S m) t) k + t (S m) * sder (pw (S m)) k).
    { unfold P_Series.sder, TT. rewrite (bsum_S (S m)). ring. }
    rewrite IH, sder_pw. unfold TT. rewrite (bsum_S m). ring.
Qed.
Lemma sder_pw_mul m W : eqf (sder (mlins (repeat p (S m)) W)) (mlins (repeat p m) (sadd (fun k => rnat (S m) * W k) (mlin p (sder W)))).
Proof.
  rewrite (mlins_one F (repeat p (S m)) W), sder_mul, sder_pw.
  match goal with |- P_Series.eqf _ _ (P_Formal.mlins _ _ ?c) => rewrite (mlins_one F (repeat p m) c) end.
  assert (E1 : eqf (smul (fun k => rnat (S m) * pw m k) W) (smul (pw m) (fun k => rnat (S m) * W k))).
  { intro k. rewrite smul_scale_l, (smul_comm F (pw m) (fun k => _ * _)), smul_scale_l. now rewrite smul_comm. }
  rewrite E1. assert (E2 : eqf (smul (pw (S m)) (sder W)) (smul (pw m) (mlin p (sder W)))).
  { change (pw (S m)) with (mlin p (pw m)). rewrite mlin_smul, (smul_comm F (pw m) (mlin p _)), mlin_smul. now rewrite smul_comm. }
  rewrite E2. ring.
Qed.

(** n is d times the polynomial with the coefficients t, up to (z - p)^m. *)
Definition approx (m : nat) (n d t : P) : Prop :=
  exists M W, deg M W /\ eqf n (sadd (smul d (TT m t)) (mlins (repeat p m) W)).
Lemma approx_ext m n n' d d' t t' : eqf n n' -> eqf d d' -> (forall j, (j < m)%nat -> t j = t' j) -> approx m n d t -> approx m n' d' t'.
Proof. intros Hn Hd Ht (M & W & H1 & H2). exists M, W. split; [exact H1|]. now rewrite <- Hn, H2, Hd, (TT_ext m t t'). Qed.

Lemma ev_root N Q : (exists M, deg M Q /\ (M < N)%nat) -> ev N (mlin p Q) p = 0.
Proof.
  intros (M & HQ & HM). rewrite (ev_trunc F (S M)) by (try apply deg_mlin; auto). rewrite ev_mlin by exact HQ. ring.
Qed.
Lemma deg_smulT M d m t W : deg M d -> forall MW, deg MW W -> deg (M + m + (m + MW)) (sadd (smul d (TT m t)) (mlins (repeat p m) W)).
Proof.
  intros Hd MW HW. apply deg_sadd; [apply deg_smul; [exact Hd|apply deg_TT]|].
  rewrite <- (repeat_length p m) at 1. now apply deg_mlins.
Qed.
Lemma approx_head m n d t M : approx (S m) n d t -> deg M d -> exists N0 Q, deg N0 Q /\ forall k, n k = t 0%nat * d k + mlin p Q k.
Proof.
  intros (MW & W & HW & H) Hd. exists (M + m + (m + MW))%nat, (sadd (smul d (TT m (fun j => t (S j)))) (mlins (repeat p m) W)).
  split; [now apply deg_smulT|]. intro k. rewrite H.
  change (mlins (repeat p (S m)) W) with (mlin p (mlins (repeat p m) W)).
  assert (E : eqf (smul d (TT (S m) t)) (sadd (fun k => t 0%nat * d k) (mlin p (smul d (TT m (fun j => t (S j))))))).
  { rewrite TT_S. rewrite (smul_comm F d). rewrite smul_add_l, mlin_smul.
    intro j. unfold P_Series.sadd. rewrite smul_scale_l, smul_1_l. f_equal. apply mlin_ext. apply smul_comm. }
  unfold P_Series.sadd at 1. rewrite E. unfold P_Series.sadd. rewrite mlin_add. ring.
Qed.
Lemma approx_val m n d t M M' N : approx (S m) n d t -> deg M d -> deg M' n -> (M <= N)%nat -> (M' <= N)%nat -> ev N n p = t 0%nat * ev N d p.
Proof.
  intros H Hd Hn HM HM'. destruct (approx_head m n d t M H Hd) as (N0 & Q & HQ & E).
  transitivity (ev (N + S N0) n p); [symmetry; apply ev_trunc; [eapply deg_le; [exact Hn|exact HM']|lia]|].
  rewrite (ev_ext F _ _ _ p E).
  transitivity (t 0%nat * ev (N + S N0) d p + ev (N + S N0) (mlin p Q) p).
  { unfold P_Formal.ev. rewrite <- bsum_mul_l, <- bsum_add. apply bsum_ext. intros. ring. }
  rewrite ev_root by (exists N0; split; [exact HQ|lia]). rewrite (ev_trunc F M (N + S N0) d p Hd), (ev_trunc F M N d p Hd) by lia. ring.
Qed.
Lemma approx_ex m n d M M' : deg M d -> deg M' n -> ev M d p <> 0 -> exists t, approx m n d t.
Proof.
  intros Hd Hn H0. induction m as [|m IH].
  - exists (fun _ => 0), M', n. split; [exact Hn|]. intro k. cbn [repeat P_Formal.mlins].
    unfold P_Series.sadd, P_Series.smul, TT. cbn [bsum]. rewrite bsum_0; [ring|]. intros; cbn; ring.
  - destruct IH as (t & MW & W & HW & E). set (c := ev MW W p * rinv (ev M d p)).
    destruct (factor_root F (MW + M) (fun k => W k - c * d k) p) as (q & Hq & Eq).
    { intros k Hk. rewrite HW, Hd by lia. ring. }
    { transitivity (ev (MW + M) W p - c * ev (MW + M) d p).
      - unfold P_Formal.ev. rewrite <- bsum_mul_l, <- bsum_sub. apply bsum_ext. intros. ring.
      - rewrite (ev_trunc F MW (MW + M) W), (ev_trunc F M (MW + M) d) by (auto; lia). unfold c.
        transitivity (ev MW W p - ev MW W p * (rinv (ev M d p) * ev M d p)); [ring|]. rewrite rinv_l by exact H0. ring. }
    exists (fun j => if (j =? m)%nat then c else t j), (MW + M - 1)%nat, q. split; [exact Hq|].
    rewrite E. intro k. unfold P_Series.sadd.
    assert (E1 : eqf (TT (S m) (fun j => if (j =? m)%nat then c else t j)) (sadd (TT m t) (fun k => c * pw m k))).
    { intro j. unfold TT, P_Series.sadd. rewrite bsum_S, Nat.eqb_refl. f_equal. apply bsum_ext. intros i Hi. now rewrite (proj2 (Nat.eqb_neq i m)) by lia. }
    rewrite (smul_m F _ _ (reflexivity d) _ _ E1 k), (smul_comm F d (sadd _ _)), smul_add_l. unfold P_Series.sadd. rewrite smul_scale_l.
    rewrite (smul_comm F d (TT m t) k).
    replace (repeat p (S m)) with (repeat p m ++ [p]) by (rewrite <- repeat_cons; reflexivity). rewrite mlins_app. cbn [P_Formal.mlins].
    rewrite (mlins_ext F (repeat p m) (mlin p q) (fun k => W k + (- c) * d k)) by (intro j; rewrite <- Eq; ring).
    rewrite mlins_add, mlins_scale, (mlins_one F (repeat p m) d k). ring.
Qed.
Lemma approx_scale m n d t c : c <> 0 -> approx m n d t -> approx m n (fun k => d k * c) (fun j => t j * rinv c).
Proof.
  intros Hc (M & W & H1 & H2). exists M, W. split; [exact H1|]. rewrite H2.
  assert (E1 : eqf (fun k => d k * c) (fun k => c * d k)) by (intro k; ring).
  assert (E2 : eqf (TT m (fun j => t j * rinv c)) (fun k => rinv c * TT m t k)).
  { intro k. unfold TT. rewrite <- bsum_mul_l. apply bsum_ext. intros. ring. }
  rewrite E1, E2. intro k. unfold P_Series.sadd. f_equal. rewrite smul_scale_l, (smul_comm F d (fun k => _ * _)), smul_scale_l.
  rewrite (smul_comm F (TT m t)). transitivity ((rinv c * c) * smul d (TT m t) k); [|ring]. rewrite rinv_l by exact Hc. ring.
Qed.
Lemma approx_der m n d t M : approx (S m) n d t -> deg M d ->
  approx m (ssub (smul (sder n) d) (smul n (sder d))) (smul d d) (fun j => t (S j) * rnat (S j)).
Proof.
  intros (MW & W & HW & H) Hd.
  set (V := sadd (fun k => rnat (S m) * W k) (mlin p (sder W))).
  assert (HV : deg (MW + S MW) V).
  { apply deg_sadd; [intros k Hk; rewrite HW by exact Hk; ring|]. apply deg_mlin. now apply deg_sder. }
  exists ((MW + S MW + M) + (S MW + M))%nat, (ssub (smul V d) (smul (mlin p W) (sder d))). split.
  { apply deg_ssub; apply deg_smul; auto; [now apply deg_mlin|now apply deg_sder]. }
  rewrite H. rewrite sder_add, sder_mul, sder_TT, sder_pw_mul. fold V.
  change (mlins (repeat p (S m)) W) with (mlin p (mlins (repeat p m) W)).
  assert (E : eqf (mlin p (mlins (repeat p m) W)) (mlins (repeat p m) (mlin p W))).
  { change (mlin p (mlins (repeat p m) W)) with (mlins (repeat p (S m)) W). replace (repeat p (S m)) with (repeat p m ++ [p]) by (rewrite <- repeat_cons; reflexivity).
    intro k. apply mlins_app. }
  rewrite E. rewrite (mlins_one F _ V), (mlins_one F _ (mlin p W)), (mlins_one F _ (ssub _ _)).
  set (T' := TT m _). set (T := TT (S m) t). ring.
Qed.
End AtP.
End Taylor.
