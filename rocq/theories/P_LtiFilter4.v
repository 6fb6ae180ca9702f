(** Facts about the filter specifications used by the lfiltic, lfilter_zi and filtfilt theorems. *)
From Coq Require Import List Arith Lia ZArith Bool Ring.
From Verif Require Import Scalar Tensor TensorLemmas Spec Shapes SpecFilter Algebra
  M_LtiFilter P_Filter P_LtiFilter P_LtiFilter2 P_LtiFilter3.
Import ListNotations.

Section S.
Variable R : cring.
Add Ring Rr : (r_th R).
Open Scope cr_scope.

(** A sum over the history is the part inside the signal plus the part in the past. *)
Lemma hist_split Q (a y yp : nat -> R) n :
  bsum Q (fun k => a k * hist y yp n k)
  = bsum Q (fun k => a k * dly y (S k) n) + bsum Q (fun j => padz Q a (n + j) * yp j).
Proof.
  assert (H : bsum Q (fun k => if (k <? n)%nat then 0 else a k * yp (k - n)%nat) = bsum Q (fun j => padz Q a (n + j)%nat * yp j)).
  { destruct (Nat.le_gt_cases Q n) as [H|H].
    - rewrite !bsum_0; [reflexivity|..]; intros i Hi.
      + unfold padz. bfalse (n + i <? Q)%nat. ring.
      + now btrue (i <? n)%nat.
    - replace Q with (n + (Q - n))%nat at 1 by lia. rewrite bsum_split.
      rewrite (bsum_0 n) by (intros i Hi; now btrue (i <? n)%nat).
      rewrite (bsum_trunc (Q - n) Q) by (lia || (intros i H1 H2; unfold padz; bfalse (n + i <? Q)%nat; ring)).
      rewrite (bsum_ext (Q - n) _ (fun j => padz Q a (n + j)%nat * yp j)); [ring|].
      intros i Hi. bfalse (n + i <? n)%nat. unfold padz. btrue (n + i <? Q)%nat. do 2 f_equal. lia. }
  rewrite <- H, <- bsum_add. apply bsum_ext. intros k Hk. unfold hist, dly.
  destruct (k <? n)%nat eqn:E; b2p.
  - btrue (S k <=? n)%nat. replace (n - S k)%nat with (n - 1 - k)%nat by lia. ring.
  - bfalse (S k <=? n)%nat. ring.
Qed.

(** The state computed from the past makes the transposed filter continue the equation. *)
Lemma tdf2_continues m n (b a x xp yp z : nat -> R) t : (1 <= m)%nat -> (1 <= n)%nat ->
  (forall r, (r < Nat.max n m)%nat ->
     z r = bsum m (fun k => padz (S m) b (S (r + k)) * xp k) - bsum n (fun k => padz n a (r + k) * yp k)) ->
  solves_with m n b a x xp (tdf2_y (Nat.max n m) (padz (S m) b) (padz n a) z x) yp t.
Proof.
  intros Hm Hn Hz. set (M := Nat.max n m) in *.
  pose proof (tdf2_diff R M (padz (S m) b) (padz n a) z x t ltac:(lia)) as H.
  set (y := tdf2_y M (padz (S m) b) (padz n a) z x) in *. clearbody y.
  rewrite (bsum_padz R n M) in H by lia. rewrite (bsum_padz R (S m) (S M)) in H by lia.
  rewrite bsum_S_l, dly_0 in H. unfold solves_with.
  rewrite (hist_split n a y yp t), (hist_split m (fun k => b (S k)) x xp t).
  assert (Hp : padz M z t = bsum m (fun j => padz m (fun k => b (S k)) (t + j)%nat * xp j) - bsum n (fun j => padz n a (t + j)%nat * yp j)).
  { unfold padz at 1. destruct (t <? M)%nat eqn:E; b2p.
    - rewrite Hz by exact E. f_equal.
    - rewrite !bsum_0; [ring|..]; intros i Hi; unfold padz.
      + bfalse (t + i <? n)%nat. ring.
      + bfalse (t + i <? m)%nat. ring. }
  rewrite Hp in H. 
  transitivity ((y t + bsum n (fun k => a k * dly y (S k) t)) + bsum n (fun j => padz n a (t + j)%nat * yp j)); [ring|].
  rewrite H. ring.
Qed.

(** Steady state and gain at frequency zero. *)
Definition steady (fm : form) (M : nat) (b a s : nat -> R) : Prop :=
  forall r, (r < M)%nat -> match fm with
    | Tdf2 => s r = mvec M (comph R a) s r + (b (S r) - b 0%nat * a r)
    | _ => s r = mvec M (compm R a) s r + (if (r =? 0)%nat then 1 else 0)
    end.
Definition ss_gain (fm : form) (M : nat) (b s : nat -> R) : R :=
  match fm with Tdf2 => s 0%nat + b 0%nat | _ => bsum (S M) b * s 0%nat end.
Lemma ss_gain_dc fm M b a s : (1 <= M)%nat -> steady fm M b a s ->
  ss_gain fm M b s * (1 + bsum M a) = bsum (S M) b.
Proof.
  intros HM Hs. unfold ss_gain, steady in *.
  assert (Hdf : (forall r, (r < M)%nat -> s r = mvec M (compm R a) s r + (if (r =? 0)%nat then 1 else 0)) ->
     bsum (S M) b * s 0%nat * (1 + bsum M a) = bsum (S M) b).
  { clear Hs. intro Hs.
    assert (Hc : forall r, (r < M)%nat -> s r = s 0%nat).
    { induction r as [|r IH]; [reflexivity|]. intro Hr. rewrite Hs, mvec_compm by exact Hr. cbn [Nat.eqb]. rewrite IH by lia. ring. }
    assert (H0 : s 0%nat * (1 + bsum M a) = 1).
    { assert (E : s 0%nat = - (bsum M a * s 0%nat) + 1).
      { rewrite (Hs 0%nat) at 1 by lia. rewrite mvec_compm by lia. cbn [Nat.eqb].
        rewrite (bsum_ext M (fun j => a j * s j) (fun j => a j * s 0%nat)) by (intros; now rewrite Hc by assumption).
        rewrite bsum_mul_r. ring. }
      transitivity (s 0%nat + bsum M a * s 0%nat); [ring|]. rewrite E at 1. ring. }
    transitivity (bsum (S M) b * (s 0%nat * (1 + bsum M a))); [ring|]. rewrite H0. ring. }
  destruct fm; auto. clear Hdf.
  pose proof (comph_sum R M a s _ HM Hs) as H. rewrite bsum_sub in H.
  rewrite (bsum_mul_l M (b 0%nat) a) in H.
  transitivity (s 0%nat + bsum M a * s 0%nat + b 0%nat + b 0%nat * bsum M a); [ring|].
  rewrite bsum_S_l. rewrite H at 1. ring.
Qed.
Lemma lf_const fm M b a s c x n : (1 <= M)%nat -> has_state fm = true -> steady fm M b a s ->
  (forall k, (k <= n)%nat -> x k = c) -> lf_y fm M b a (fun k => s k * c) x n = ss_gain fm M b s * c.
Proof.
  intros HM Hst Hs Hx.
  rewrite (lf_y_ext R fm M b b a a _ (fun k => s k * c) x (fun _ => c) n HM) by auto.
  destruct fm; try discriminate; cbn [lf_y ss_gain].
  - unfold df2_y. rewrite (df2_steady R M a s c (S n) HM Hs) by lia.
    rewrite (bsum_ext M (fun k => b (S k) * df2_z M a (fun k => s k * c) (fun _ => c) n k) (fun k => b (S k) * (s 0%nat * c))).
    2:{ intros k Hk. rewrite (df2_steady R M a s c n HM Hs) by exact Hk. do 2 f_equal.
        clear -Hs Hk. induction k as [|r IH]; [reflexivity|]. rewrite (Hs (S r)), (mvec_compm R) by exact Hk. cbn [Nat.eqb]. rewrite IH by lia. ring. }
    rewrite bsum_mul_r, bsum_S_l. ring.
  - unfold tdf2_y. rewrite (tdf2_steady R M b a s c n HM Hs) by lia. ring.
Qed.
Lemma lf_z_const fm M b a s c x n r : (1 <= M)%nat -> has_state fm = true -> steady fm M b a s -> (r < M)%nat ->
  (forall k, (k < n)%nat -> x k = c) -> lf_z fm M b a (fun k => s k * c) x n r = s r * c.
Proof.
  intros HM Hst Hs Hr Hx.
  rewrite (lf_z_ext R fm M b b a a _ (fun k => s k * c) x (fun _ => c) n r Hr) by auto.
  destruct fm; try discriminate; cbn [lf_z].
  - now apply df2_steady.
  - now apply tdf2_steady.
Qed.
Lemma fbwd_const fm M b a s X c L e n : (1 <= M)%nat -> has_state fm = true -> steady fm M b a s ->
  (1 <= L)%nat -> (forall k, (k < L)%nat -> X k = c) ->
  fbwd fm M b a s X L e n = ss_gain fm M b s * (ss_gain fm M b s * c).
Proof.
  intros HM Hst Hs HL HX. 
  assert (H1 : forall k, (k < L)%nat -> fwd fm M b a s X k = ss_gain fm M b s * c).
  { intros k Hk. unfold fwd. rewrite HX by lia. apply (lf_const fm M b a s c X k HM Hst Hs). intros. apply HX. lia. }
  unfold fbwd. unfold fwd at 1. rewrite H1 by lia. apply (lf_const fm M b a s _ _ _ HM Hst Hs). intros k _. apply H1. lia.
Qed.
Definition is_tdf2 (fm : form) : bool := match fm with Tdf2 => true | _ => false end.
Lemma zi_steady la fm B nb na M (b a s : tensor R) bf af : solve_vec R la -> has_state fm = true ->
  (1 <= nb)%nat -> M = Nat.max na (nb - 1) -> (1 <= M)%nat ->
  (fm = Tdf2 -> realc nb bf /\ realc na af) -> (fm = Df2 -> (nb <= na + 1)%nat) ->
  fcoef B nb b bf -> fcoef B na a af -> lfilter_zi la a (Some b) (is_tdf2 fm) = Ok s ->
  exists sf, fcoef B M s sf /\ forall i, (i < B)%nat ->
    steady fm M (padz nb (lf_num fm (bf i))) (padz na (lf_den fm (af i))) (sf i).
Proof.
  intros Hla Hst Hnb EM HM Hre Hle Hb Ha E. destruct fm; try discriminate; cbn [is_tdf2] in E.
  - specialize (Hle eq_refl). assert (M = na) as -> by lia.
    destruct (lfilter_zi_df2_spec R la B na a (Some b) af s Hla HM Ha E) as (sf & Hs & Hf).
    exists sf. split; [exact Hs|]. intros i Hi r Hr. rewrite (Hf i r Hi Hr). f_equal.
    rewrite !mvec_compm by exact Hr. destruct r; [|reflexivity]. f_equal. apply bsum_ext. intros k Hk.
    unfold padz, lf_den. now btrue (k <? na)%nat.
  - destruct (Hre eq_refl) as [Hrb Hra].
    destruct (lfilter_zi_tdf2_spec R la B nb na M b a bf af s Hla Hnb EM HM Hb Ha E) as (sf & Hs & Hf).
    exists sf. split; [exact Hs|]. intros i Hi r Hr. rewrite (Hf i r Hi Hr).
    assert (Eb : forall k, padz nb (lf_num Tdf2 (bf i)) k = padz nb (bf i) k) by (intro k; apply padz_ext; intros; now apply Hrb).
    assert (Ea : forall k, padz na (lf_den Tdf2 (af i)) k = padz na (af i) k) by (intro k; apply padz_ext; intros; now apply Hra).
    rewrite !Eb, Ea. f_equal. rewrite !mvec_comph by exact Hr. rewrite Ea. do 2 f_equal.
    rewrite padz_conj. rewrite <- (Ea r). reflexivity.
Qed.
End S.
Arguments steady {R}. Arguments ss_gain {R}.
