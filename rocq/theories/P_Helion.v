(** Helion kernels: any tile sizes give the state recurrence.  Operator dispatch. *)
From Coq Require Import List Arith Lia ZArith Bool Ring.
From Verif Require Import Scalar Tensor TensorLemmas TensorOps TensorAlg TensorTac TensorList
  Spec Shapes Algebra M_Kernels P_Kernels P_KernelOps P_Scan.
Import ListNotations.

(** ** Over any operations *)
Section Raw.
Variable R : cops.
Notation ten := (tensor (car R)).
(** The recursion with the operands in the order of the kernel. *)
Fixpoint hstate (M : nat) (A : nat -> nat -> nat -> R) (h : nat -> R) (x : nat -> nat -> R) (n i : nat) : R :=
  match n with O => h i | S n => radd (x n i) (bsum M (fun j => rmul (hstate M A h x n j) (A n i j))) end.
Lemma hstate_ext M A A' h h' x x' n : forall i, i < M ->
  (forall k i j, k < n -> i < M -> j < M -> A k i j = A' k i j) ->
  (forall i, i < M -> h i = h' i) -> (forall k i, k < n -> i < M -> x k i = x' k i) ->
  hstate M A h x n i = hstate M A' h' x' n i.
Proof.
  induction n as [|n IH]; intros i Hi HA Hh Hx; cbn [hstate]; [auto|].
  rewrite Hx by lia. f_equal. apply bsum_ext. intros j Hj. rewrite HA by lia. f_equal. apply IH; auto.
Qed.

Lemma hl_tile_inv {S : Type} (P : nat -> S -> Prop) n ts f s : 1 <= ts ->
  P 0 s ->
  (forall lo hi s, lo < n -> lo < hi -> hi <= n -> P lo s -> P hi (f lo hi s)) ->
  P n (hl_tile n ts f s).
Proof.
  intros Hts H0 Hf. unfold hl_tile.
  set (c := (n + ts - 1) / ts).
  assert (P (Nat.min n (c * ts)) (loop c (fun k s => f (k * ts) (Nat.min n (k * ts + ts)) s) s)) as H.
  { apply (loop_inv (fun k s => P (Nat.min n (k * ts)) s)).
    - now rewrite Nat.mul_0_l, Nat.min_0_r.
    - intros k s' Hk HP.
      assert (k * ts < n).
      { assert (k * ts + ts <= c * ts) by nia.
        assert (c * ts <= n + ts - 1) by (unfold c; rewrite Nat.mul_comm; apply Nat.mul_div_le; lia). lia. }
      rewrite Nat.min_r in HP by lia. replace (Datatypes.S k * ts) with (k * ts + ts) by lia.
      apply Hf; auto; lia. }
  assert (n <= c * ts) as Hc.
  { unfold c. pose proof (Nat.div_mod (n + ts - 1) ts ltac:(lia)).
    pose proof (Nat.mod_upper_bound (n + ts - 1) ts ltac:(lia)). nia. }
  now rewrite Nat.min_l in H.
Qed.

Section Body.
Variables (Aent : nat -> nat -> nat -> nat -> R) (batch T M : nat) (o0 : nat -> nat -> nat -> R).
Definition href (b t m : nat) : R :=
  hstate M (fun n => Aent b (n + 1)) (o0 b 0) (fun n => o0 b (n + 1)) t m.
Definition HInv (blo bhi t mlo : nat) (o : nat -> nat -> nat -> R) : Prop :=
  forall b t' m, b < batch -> t' <= T -> m < M ->
    (b < blo \/ (b < bhi /\ (t' < t \/ (t' = t /\ m < mlo))) \/ t' = 0 -> o b t' m = href b t' m) /\
    (~ (b < blo \/ (b < bhi /\ (t' < t \/ (t' = t /\ m < mlo))) \/ t' = 0) -> o b t' m = o0 b t' m).
Lemma HInv_weak blo bhi t mlo blo' bhi' t' mlo' o :
  (forall b u m, b < batch -> u <= T -> m < M ->
    (b < blo \/ (b < bhi /\ (u < t \/ (u = t /\ m < mlo))) \/ u = 0) <->
    (b < blo' \/ (b < bhi' /\ (u < t' \/ (u = t' /\ m < mlo'))) \/ u = 0)) ->
  HInv blo bhi t mlo o -> HInv blo' bhi' t' mlo' o.
Proof. intros E H b u m Hb Hu Hm. specialize (E b u m Hb Hu Hm). destruct (H b u m Hb Hu Hm) as [H1 H2], E as [E1 E2].
  split; intro Hd; [apply H1; auto|apply H2; intro Hd'; apply Hd; auto]. Qed.

Lemma hl_body_raw e b t m : env_ok e -> b < batch -> t <= T -> m < M ->
  hl_body e Aent batch T M o0 b t m = href b t m.
Proof.
  intros (_ & Htb & Htm) Hb Ht Hm.
  assert (HInv batch batch 0 0 (hl_body e Aent batch T M o0)) as H; [|apply H; auto].
  unfold hl_body. apply (hl_tile_inv (fun lo o => HInv lo lo 0 0 o)); auto.
  { intros b' t' m' Hb' Ht' Hm'. split; [|reflexivity]. intros Hd.
    assert (t' = 0) as -> by lia. reflexivity. }
  intros b0 b1 o1 Hlo Hlt Hle I1.
  apply (HInv_weak b0 b1 (T + 1) 0); [intros; lia|].
  apply (loop_inv (fun t0 o => HInv b0 b1 (t0 + 1) 0 o)).
  { revert I1. apply HInv_weak. intros; lia. }
  intros t0 o2 Ht0 I2.
  apply (HInv_weak b0 b1 (t0 + 1) M); [intros; lia|].
  apply (hl_tile_inv (fun mlo o => HInv b0 b1 (t0 + 1) mlo o)); auto.
  intros m0 m1 o3 Hmlo Hmlt Hmle I3 b' t' m' Hb' Ht' Hm'.
  destruct (inb b0 b1 b' && (t' =? t0 + 1) && inb m0 m1 m') eqn:E; unfold inb in E.
  - b2p. subst t'. split; [|lia]. intros _.
    rewrite (proj2 (I3 b' (t0 + 1) m' Hb' Ht' Hm')) by lia.
    rewrite (bsum_ext M _ (fun j => rmul (href b' t0 j) (Aent b' (t0 + 1) m' j))).
    + replace (href b' (t0 + 1) m') with (href b' (S t0) m') by (f_equal; lia). reflexivity.
    + intros j Hj. replace (t0 + 1 - 1) with t0 by lia.
      now rewrite (proj1 (I3 b' t0 j Hb' ltac:(lia) Hj)) by lia.
  - assert (~ (b0 <= b' < b1 /\ t' = t0 + 1 /\ m0 <= m' < m1)) as N.
    { intros ((? & ?) & ? & ? & ?). subst t'.
      rewrite (proj2 (Nat.leb_le b0 b')), (proj2 (Nat.ltb_lt b' b1)), (proj2 (Nat.leb_le m0 m')),
        (proj2 (Nat.ltb_lt m' m1)), Nat.eqb_refl in E by lia. discriminate. }
    destruct (I3 b' t' m' Hb' Ht' Hm') as [Ia Ib]. split; intro Hd; [apply Ia|apply Ib]; lia.
Qed.
End Body.

Lemma hl_wrap_raw e Aent B N M (A zi x : ten) Af zf xf :
  env_ok e -> sizen A 1 = M -> is2 zi B M zf -> is3 x B N M xf ->
  (forall b n i j, b < B -> n < N -> i < M -> j < M -> Aent b (n + 1) i j = Af b n i j) ->
  exists y, hl_wrap e Aent A zi x = Ok y /\
    is3 y B N M (fun b n m => hstate M (Af b) (zf b) (xf b) (S n) m).
Proof.
  intros He HM Hz Hx HA. unfold hl_wrap.
  destruct (init_cat3 R zi x B N M zf xf Hz Hx) as (o & -> & Ho). cbn [bind].
  assert (size zi 0 = B) as -> by (unfold size; now rewrite (proj1 Hz)).
  assert (size x 1 = N) as -> by (unfold size; now rewrite (proj1 Hx)).
  rewrite HM. eexists; split; [reflexivity|].
  set (m := hl_body _ _ _ _ _ _). rewrite (proj1 Ho).
  assert (Ht : is3 (mkT [B; N + 1; M] (fun idx => m (nth 0 idx 0) (nth 1 idx 0) (nth 2 idx 0)))
                 B (N + 1) M (fun b n i => m b n i)) by (split; [reflexivity|auto]).
  pose proof (slice_tail3 R _ B N M _ Ht) as Hs.
  assert (Es : forall t : ten, shape t = [B; N + 1; M] ->
     slice 1 (Some 1%Z) None t = slice 1 (Some 1%Z) (Some (Z.of_nat (N + 1))) t).
  { intros t Hsh. unfold slice, size. rewrite Hsh. cbn [nth]. now rewrite pyb_le by lia. }
  rewrite Es by reflexivity. eapply is3_ext; [exact Hs|]. intros b n i Hb Hn Hi. cbn beta. unfold m.
  rewrite hl_body_raw by (auto; lia). unfold href. apply hstate_ext; auto.
  - intros k i' j Hk Hi' Hj. apply HA; auto; lia.
  - intros i' Hi'. now rewrite (proj2 Ho) by lia.
  - intros k i' Hk Hi'. rewrite (proj2 Ho) by lia. now rewrite Nat.add_1_r.
Qed.

Lemma hl_lti_raw e B N M (A zi x : ten) Af zf xf :
  env_ok e -> matc B M A Af -> is2 zi B M zf -> is3 x B N M xf ->
  exists y, hl_lti_recurN e A zi x = Ok y /\
    is3 y B N M (fun b n m => hstate M (fun _ => Af b) (zf b) (xf b) (S n) m).
Proof.
  intros He HA Hz Hx. unfold hl_lti_recurN.
  destruct HA as [g HA HAg|HA]; rkt; cbn [Nat.eqb].
  - apply (hl_wrap_raw e _ B N M A zi x (fun b _ => Af b)); auto.
    + unfold sizen, rk. now rewrite (proj1 HA).
    + intros. rewrite (proj2 HA) by assumption. now rewrite HAg.
  - apply (hl_wrap_raw e _ B N M A zi x (fun b _ => Af b)); auto.
    + unfold sizen, rk. now rewrite (proj1 HA).
    + intros. now rewrite (proj2 HA) by assumption.
Qed.
Lemma hl_lpv_raw e B N M (A zi x : ten) Af zf xf :
  env_ok e -> matv B N M A Af -> is2 zi B M zf -> is3 x B N M xf ->
  exists y, hl_recurN e A zi x = Ok y /\
    is3 y B N M (fun b n m => hstate M (Af b) (zf b) (xf b) (S n) m).
Proof.
  intros He HA Hz Hx. unfold hl_recurN.
  destruct HA as [g HA HAg|HA]; rkt; cbn [Nat.eqb].
  - apply (hl_wrap_raw e _ B N M A zi x Af); auto.
    + unfold sizen, rk. now rewrite (proj1 HA).
    + intros. rewrite Nat.add_sub. rewrite (proj2 HA) by assumption. now rewrite HAg.
  - apply (hl_wrap_raw e _ B N M A zi x Af); auto.
    + unfold sizen, rk. now rewrite (proj1 HA).
    + intros. rewrite Nat.add_sub. now rewrite (proj2 HA) by assumption.
Qed.

End Raw.
Arguments hstate {R}.

Section S.
Variable R : cring.
Add Ring Rr : (r_th R).
Notation ten := (tensor (car R)).

Lemma hstate_state M (A : nat -> nat -> nat -> R) h x n : forall i, hstate M A h x n i = state M A h x n i.
Proof.
  induction n as [|n IH]; intro i; [reflexivity|]. cbn [hstate state]. unfold mvec.
  rewrite (bsum_ext M _ (fun j => rmul (A n i j) (state M A h x n j))); [ring|]. intros j _. rewrite IH. ring.
Qed.
Lemma hl_lti_spec e B N M (A zi x : ten) Af zf xf :
  env_ok e -> matc B M A Af -> is2 zi B M zf -> is3 x B N M xf ->
  exists y, hl_lti_recurN e A zi x = Ok y /\
    is3 y B N M (fun b n m => state M (fun _ => Af b) (zf b) (xf b) (S n) m).
Proof.
  intros He HA Hz Hx. destruct (hl_lti_raw R e B N M A zi x Af zf xf He HA Hz Hx) as (y & E & Hy).
  exists y. split; [exact E|]. eapply is3_ext; [exact Hy|]. intros. apply hstate_state.
Qed.
Lemma hl_lpv_spec e B N M (A zi x : ten) Af zf xf :
  env_ok e -> matv B N M A Af -> is2 zi B M zf -> is3 x B N M xf ->
  exists y, hl_recurN e A zi x = Ok y /\
    is3 y B N M (fun b n m => state M (Af b) (zf b) (xf b) (S n) m).
Proof.
  intros He HA Hz Hx. destruct (hl_lpv_raw R e B N M A zi x Af zf xf He HA Hz Hx) as (y & E & Hy).
  exists y. split; [exact E|]. eapply is3_ext; [exact Hy|]. intros. apply hstate_state.
Qed.

(** ** Operators *)
Lemma op_lti_recur_spec e B N (a zi x : ten) af zf xf :
  env_ok e -> ext e = true -> (cuda e = true -> ext_cuda e = true) ->
  1 <= B -> coef B a af -> is1 zi B zf -> is2 x B N xf ->
  exists y, op_lti_recur e a zi x = Ok y /\
    is2 y B N (fun b n => lin_rec (fun _ => af b) (zf b) (xf b) (S n)).
Proof.
  intros He He1 He2 HB Ha Hz Hx. unfold op_lti_recur. rewrite He1. destruct (cuda e).
  - rewrite He2 by reflexivity. now apply lti_recur_cuda_spec.
  - now apply lti_recur_cpu_spec.
Qed.
Lemma op_lti_recur2_spec e B N (A zi x : ten) Af zf xf :
  env_ok e -> ext e = true -> (cuda e = true -> ext_cuda e = true) ->
  matc B 2 A Af -> is2 zi B 2 zf -> is3 x B N 2 xf ->
  exists y, op_lti_recur2 e A zi x = Ok y /\
    is3 y B N 2 (fun b n m => state 2 (fun _ => Af b) (zf b) (xf b) (S n) m).
Proof.
  intros He He1 He2 Ha Hz Hx. unfold op_lti_recur2. rewrite He1. destruct (cuda e).
  - rewrite He2 by reflexivity. now apply lti2_cuda_spec.
  - now apply lti_cpu_spec.
Qed.
Lemma op_lti_recurN_spec e B N M (A zi x : ten) Af zf xf :
  ext e = true -> cuda e = false ->
  matc B M A Af -> is2 zi B M zf -> is3 x B N M xf ->
  exists y, op_lti_recurN e A zi x = Ok y /\
    is3 y B N M (fun b n m => state M (fun _ => Af b) (zf b) (xf b) (S n) m).
Proof. intros He1 He2 Ha Hz Hx. unfold op_lti_recurN. rewrite He1, He2. now apply lti_cpu_spec. Qed.
Lemma op_recur2_spec e B N (A zi x : ten) Af zf xf :
  env_ok e -> ext e = true -> (cuda e = true -> ext_cuda e = true) ->
  matv B N 2 A Af -> is2 zi B 2 zf -> is3 x B N 2 xf ->
  exists y, op_recur2 e A zi x = Ok y /\
    is3 y B N 2 (fun b n m => state 2 (Af b) (zf b) (xf b) (S n) m).
Proof.
  intros He He1 He2 Ha Hz Hx. unfold op_recur2. rewrite He1. destruct (cuda e).
  - rewrite He2 by reflexivity. now apply lpv2_cuda_spec.
  - now apply lpv_cpu_spec.
Qed.
Lemma op_recurN_spec e B N M (A zi x : ten) Af zf xf :
  ext e = true -> cuda e = false ->
  matv B N M A Af -> is2 zi B M zf -> is3 x B N M xf ->
  exists y, op_recurN e A zi x = Ok y /\
    is3 y B N M (fun b n m => state M (Af b) (zf b) (xf b) (S n) m).
Proof. intros He1 He2 Ha Hz Hx. unfold op_recurN. rewrite He1, He2. now apply lpv_cpu_spec. Qed.

End S.
