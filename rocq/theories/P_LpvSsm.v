(** lpv.state_space_recursion computes the time-varying state recurrence. *)
From Coq Require Import List Arith Lia ZArith Bool Ring.
From Verif Require Import Scalar Tensor TensorLemmas TensorOps TensorAlg TensorTac TensorList
  Spec Shapes Algebra M_Mat P_Mat M_Kernels P_KernelOps P_Helion M_LtiSsm P_LtiRecur P_LtiSsm
  M_Ext M_LpvSsm P_LpvRecur.
Import ListNotations.

Section S.
Variable R : cring.
Add Ring Rr : (r_th R).
Notation ten := (tensor (car R)).
Open Scope cr_scope.

(** ** Ordered products and the closed form over k steps *)
Lemma mprod_ext M (f g : nat -> nat -> nat -> R) n i j :
  (forall k i j, (k < n)%nat -> (i < M)%nat -> (j < M)%nat -> f k i j = g k i j) ->
  (i < M)%nat -> (j < M)%nat -> mprod M f n i j = mprod M g n i j.
Proof.
  revert i j. induction n as [|n IH]; intros i j H Hi Hj; [reflexivity|]. cbn [mprod].
  apply mmul_ext; intros; [apply IH; auto|apply H; auto].
Qed.
Lemma mprod_S_l M (f : nat -> nat -> nat -> R) n i j : (i < M)%nat -> (j < M)%nat ->
  mprod M f (S n) i j = mmul M (f 0%nat) (mprod M (fun k => f (S k)) n) i j.
Proof.
  revert i j. induction n as [|n IH]; intros i j Hi Hj.
  - cbn [mprod]. rewrite mmul_id_r by assumption. now apply mmul_id_l.
  - change (mmul M (mprod M f (S n)) (f (S n)) i j
            = mmul M (f 0%nat) (mmul M (mprod M (fun k => f (S k)) n) (f (S n))) i j).
    rewrite <- mmul_assoc. apply mmul_ext; intros; auto.
Qed.

Lemma state_tv M A h (u : nat -> nat -> R) n k i : (i < M)%nat ->
  state M A h u (n + k) i
  = mvec M (mprod M (fun t => A (n + k - 1 - t)%nat) k) (state M A h u n) i
    + bsum k (fun j => mvec M (mprod M (fun t => A (n + k - 1 - t)%nat) (k - 1 - j)) (u (n + j)%nat) i).
Proof.
  revert i. induction k as [|k IH]; intros i Hi.
  - rewrite Nat.add_0_r. cbn [bsum mprod]. rewrite mvec_id by assumption. ring.
  - rewrite Nat.add_succ_r. cbn [state].
    rewrite (mvec_ext M _ (A (n + k)%nat) _ (fun l =>
      mvec M (mprod M (fun t => A (n + k - 1 - t)%nat) k) (state M A h u n) l
      + bsum k (fun j => mvec M (mprod M (fun t => A (n + k - 1 - t)%nat) (k - 1 - j)) (u (n + j)%nat) l)))
      by (auto; intros; now apply IH).
    rewrite mvec_add, <- mvec_mmul. cbn [bsum].
    assert (Hp : forall m j, (m <= k)%nat -> (j < M)%nat ->
      mmul M (A (n + k)%nat) (mprod M (fun t => A (n + k - 1 - t)%nat) m) i j
      = mprod M (fun t => A (S (n + k) - 1 - t)%nat) (S m) i j).
    { intros m j Hm Hj. rewrite mprod_S_l by assumption. apply mmul_ext.
      - intros. f_equal. lia.
      - intros l Hl. apply mprod_ext; auto. intros t a b Ht _ _. f_equal. lia. }
    rewrite (mvec_ext M _ (mprod M (fun t => A (S (n + k) - 1 - t)%nat) (S k)) _ (state M A h u n)) by auto.
    rewrite <- (Radd_assoc (r_th R)). f_equal.
    rewrite mvec_bsum. replace (S k - 1 - k)%nat with 0%nat by lia. cbn [mprod]. rewrite mvec_id by assumption.
    f_equal. apply bsum_ext. intros j Hj. rewrite <- mvec_mmul.
    apply mvec_ext; [|auto]. intros l Hl. rewrite Hp by lia. f_equal. lia.
Qed.

(** ** The Python loop *)
Lemma lpv_loop_spec B N M (A zi x : ten) Af zf u oi :
  (1 <= N)%nat -> (1 <= M)%nat -> matv B N M A Af -> is2 zi B M zf -> drive B N M x u -> idx_ok M oi ->
  exists y, lpv_recursion_loop A zi x oi = Ok y /\
    picks B N M oi y (fun b n m => state M (Af b) (zf b) (u b) (S n) m).
Proof.
  intros HN HM HA Hz Hx Hi. unfold lpv_recursion_loop.
  assert (size x 1 = N) as -> by (destruct Hx as [f Hx _|Hx]; unfold size; now rewrite (proj1 Hx)).
  assert (sizen A 3 = N) as -> by (destruct HA as [g HA _|HA]; unfold sizen, rk; now rewrite (proj1 HA)).
  rewrite Nat.eqb_refl.
  assert (exists x', (if rk x =? 2 then pad_features x (sizen A 1) else Ok x) = Ok x' /\ is3 x' B N M u)
    as (x' & -> & Hx').
  { assert (sizen A 1 = M) as -> by (destruct HA as [g HA _|HA]; unfold sizen, rk; now rewrite (proj1 HA)).
    destruct Hx as [f Hx Hu|Hx]; rkt; cbn [Nat.eqb].
    - destruct (pad_features_spec R x B N M f HM Hx) as (y & -> & Hy). exists y. split; [reflexivity|].
      eapply is3_ext; [exact Hy|]. intros. cbn beta. now rewrite Hu.
    - eauto. }
  cbn [bind]. clear Hx x.
  assert (Hs1 : size x' 1 = N) by (unfold size; now rewrite (proj1 Hx')).
  set (L := fun b n m => state M (Af b) (zf b) (u b) n m).
  destruct HA as [g HA HAg|HA]; rkt; cbn [Nat.eqb].
  - assert (HAT : is3 (mT A) N M M (fun n i j => g n j i)).
    { apply is3_P. apply is3_P in HA. eassert (isP3 (mT A) _ _ _ _ _) as H by vsolve. exact H. }
    set (AT := mT A) in *. clearbody AT.
    assert (Hs2 : size AT 0 = N) by (unfold size; now rewrite (proj1 HAT)).
    assert (HATs : forall k, (k < N)%nat -> is2 (sel 0 k AT) M M (fun i j => g k j i)).
    { intros k Hk. apply is2_P. apply is3_P in HAT. eassert (isP2 (sel 0 k AT) _ _ _ _) as H by vsolve. exact H. }
    destruct (loopM_spec (fun k (h : ten) => is2 h B M (fun b m => L b k m))
      (fun k (t : ten) => match oi with None => isP1 t [B] M (fun q m => L (nth 0 q 0%nat) (S k) m)
         | Some i => forall c, pyidx M i = Some c -> isP0 t [B] (fun q => L (nth 0 q 0%nat) (S k) c) end)
      (fun h xa => addmm (fst xa) h (snd xa))
      (fun h => match oi with None => Ok h | Some i => select 1 i h end) (combine (unbind 1 x') (unbind 0 AT)) 0 zi)
      as (r & -> & Hl & Hr).
    + exact Hz.
    + intros k h [xn an] Hk Hh. apply nth_error_combine in Hk as [Hk1 Hk2]. cbn [fst snd Nat.add] in *.
      apply nth_error_unbind in Hk1 as [Hk ->]. apply nth_error_unbind in Hk2 as [_ ->]. rewrite Hs1 in Hk.
      destruct (addmm_step R (sel 1 k x') h (sel 0 k AT) B M _ _ _ (sel_13 R x' B N M u k Hx' Hk) Hh (HATs k Hk)) as (h' & E & Hh').
      assert (Hh2 : is2 h' B M (fun b m => L b (S k) m)).
      { eapply is2_ext; [exact Hh'|]. intros b i Hb Hi0. cbn beta. unfold L. cbn [state]. unfold mvec.
        rewrite (bsum_ext M _ (fun k0 => Af b k i k0 * state M (Af b) (zf b) (u b) k k0)).
        - ring.
        - intros j Hj. rewrite HAg by assumption. ring. }
      exists h'. split; [exact E|]. split; [exact Hh2|]. destruct oi as [i|].
      * destruct Hi as (c & Hc). pose proof (pyidx_lt _ _ _ Hc).
        rewrite (select_ok h' 1 i c) by (unfold size; rewrite (proj1 Hh2); exact Hc).
        eexists; split; [reflexivity|]. intros c' Hc'. rewrite Hc in Hc'. injection Hc' as <-.
        apply is2_P1 in Hh2. pose proof (P1_sel0 h' [B] M _ 1 c Hh2 eq_refl H) as H'. exact H'.
      * exists h'. split; [reflexivity|]. now apply is2_P1 in Hh2.
    + cbn [bind]. rewrite combine_length, !unbind_length, Hs1, Hs2, Nat.min_id in Hl, Hr. cbn [Nat.add] in Hr.
      assert (Hr0 : r <> []) by (destruct r; cbn in Hl; [lia|congruence]).
      unfold picks. destruct oi as [i|].
      * destruct Hi as (c & Hc).
        destruct (stack_P0 r [B] (fun k q => L (nth 0 q 0%nat) (S k) c) 1 Hr0 eq_refl) as (y & E & Hy).
        { intros d j Hj. apply (Hr j d ltac:(lia) c Hc). }
        exists y. split; [exact E|]. intros c' Hc'. rewrite Hc in Hc'. injection Hc' as <-.
        apply is2_P1. rewrite Hl in Hy. exact Hy.
      * destruct (stack_P1 r [B] M (fun k q m => L (nth 0 q 0%nat) (S k) m) 1 Hr0 eq_refl) as (y & E & Hy).
        { intros d j Hj. apply (Hr j d). lia. }
        exists y. split; [exact E|]. apply is3_P2. rewrite Hl in Hy. exact Hy.
  - assert (HAT : is4 (mT A) B N M M (fun b n i j => Af b n j i)).
    { apply is4_P3. apply is4_P3 in HA. eassert (isP3 (mT A) _ _ _ _ _) as H by vsolve. exact H. }
    set (AT := mT A) in *. clearbody AT.
    assert (Hs2 : size AT 1 = N) by (unfold size; now rewrite (proj1 HAT)).
    assert (HATs : forall k, (k < N)%nat -> is3 (sel 1 k AT) B M M (fun b i j => Af b k j i)).
    { intros k Hk. apply is3_P2. apply is4_P3 in HAT. eassert (isP2 (sel 1 k AT) _ _ _ _) as H by vsolve. exact H. }
    assert (Hz3 : is3 (unsqueeze 1 zi) B 1 M (fun b _ m => zf b m)).
    { apply is3_P2. apply is2_P1 in Hz. eassert (isP2 (unsqueeze 1 zi) _ _ _ _) as Hu by vsolve. exact Hu. }
    destruct (loopM_spec (fun k (h : ten) => is3 h B 1 M (fun b _ m => L b k m))
      (fun k (t : ten) => match oi with None => isP2 t [B] 1 M (fun q _ m => L (nth 0 q 0%nat) (S k) m)
         | Some i => forall c, pyidx M i = Some c -> isP1 t [B] 1 (fun q _ => L (nth 0 q 0%nat) (S k) c) end)
      (fun h xa => baddbmm (unsqueeze 1 (fst xa)) h (snd xa))
      (fun h => match oi with None => Ok h | Some i => select 2 i h end) (combine (unbind 1 x') (unbind 1 AT)) 0 (unsqueeze 1 zi))
      as (r & -> & Hl & Hr).
    + exact Hz3.
    + intros k h [xn an] Hk Hh. apply nth_error_combine in Hk as [Hk1 Hk2]. cbn [fst snd Nat.add] in *.
      apply nth_error_unbind in Hk1 as [Hk ->]. apply nth_error_unbind in Hk2 as [_ ->]. rewrite Hs1 in Hk.
      destruct (baddbmm_step R (sel 1 k x') h (sel 1 k AT) B M _ _ _ (sel_13 R x' B N M u k Hx' Hk) Hh (HATs k Hk)) as (h' & E & Hh').
      assert (Hh2 : is3 h' B 1 M (fun b _ m => L b (S k) m)).
      { eapply is3_ext; [exact Hh'|]. intros b o i Hb Ho Hi0. cbn beta. unfold L. cbn [state]. unfold mvec.
        rewrite (bsum_ext M _ (fun k0 => Af b k i k0 * state M (Af b) (zf b) (u b) k k0)).
        - ring.
        - intros j Hj. ring. }
      exists h'. split; [exact E|]. split; [exact Hh2|]. destruct oi as [i|].
      * destruct Hi as (c & Hc). pose proof (pyidx_lt _ _ _ Hc).
        rewrite (select_ok h' 2 i c) by (unfold size; rewrite (proj1 Hh2); exact Hc).
        eexists; split; [reflexivity|]. intros c' Hc'. rewrite Hc in Hc'. injection Hc' as <-.
        apply is3_P2 in Hh2. pose proof (P2_sel1 h' [B] 1 M _ 2 c Hh2 eq_refl H) as H'. exact H'.
      * exists h'. split; [reflexivity|]. now apply is3_P2 in Hh2.
    + cbn [bind]. rewrite combine_length, !unbind_length, Hs1, Hs2, Nat.min_id in Hl, Hr. cbn [Nat.add] in Hr.
      assert (Hr0 : r <> []) by (destruct r; cbn in Hl; [lia|congruence]).
      unfold picks. destruct oi as [i|].
      * destruct Hi as (c & Hc).
        destruct (cat1_P1 r [B] (fun k q => L (nth 0 q 0%nat) (S k) c) 1 Hr0 eq_refl) as (y & E & Hy).
        { intros d j Hj. eapply isP1_ext; [apply (Hr j d ltac:(lia) c Hc)|]. reflexivity. }
        exists y. split; [exact E|]. intros c' Hc'. rewrite Hc in Hc'. injection Hc' as <-.
        apply is2_P1. rewrite Hl in Hy. exact Hy.
      * destruct (cat1_P2 r [B] M (fun k q m => L (nth 0 q 0%nat) (S k) m) 1 Hr0 eq_refl) as (y & E & Hy).
        { intros d j Hj. apply (Hr j d). lia. }
        exists y. split; [exact E|]. apply is3_P2. rewrite Hl in Hy. exact Hy.
Qed.

(** ** External routines *)
Lemma lpc1 (a : nat -> nat -> R) z x n :
  lpc_hist 1 a z x n 0 = lin_rec (fun k => - a k 0%nat) (z 0%nat) x n.
Proof. induction n as [|n IH]; [reflexivity|]. cbn [lpc_hist lin_rec bsum]. rewrite IH. ring. Qed.

Lemma sample_wise_lpc_spec (x a zi : ten) B T O xf af zf :
  is2 x B T xf -> is3 a B T O af -> is2 zi B O zf ->
  exists y, sample_wise_lpc x a zi = Ok y /\
    is2 y B T (fun b t => lpc_hist O (af b) (zf b) (xf b) (S t) 0).
Proof.
  intros Hx Ha Hz. unfold sample_wise_lpc, rk, size. rewrite (proj1 Hx), (proj1 Ha), (proj1 Hz).
  cbn [length nth Nat.eqb andb]. rewrite !Nat.eqb_refl. cbn [andb]. eexists; split; [reflexivity|].
  split; [reflexivity|]. intros b t Hb Ht. cbn [at_ nth].
  assert (Hext : forall n i, (n <= T)%nat -> (n = 0%nat -> i < O)%nat -> (i <= n + O)%nat ->
    (n <> 0%nat \/ i < O)%nat -> (i < n + O)%nat ->
    lpc_hist O (fun n i => at_ a [b; n; i]) (fun i => at_ zi [b; i]) (fun n => at_ x [b; n]) n i
    = lpc_hist O (af b) (zf b) (xf b) n i).
  { induction n as [|n IH]; intros i Hn H0 H1 H2 H3.
    - cbn [lpc_hist]. destruct Hz as [_ Hz]. apply Hz; auto.
    - cbn [lpc_hist]. destruct i as [|i].
      + destruct Hx as [_ Hx]. rewrite Hx by lia. f_equal. apply bsum_ext. intros j Hj.
        destruct Ha as [_ Ha]. rewrite Ha by lia. f_equal. apply IH; try lia.
      + apply IH; try lia. }
  apply Hext; lia.
Qed.

Lemma P3_repeat0 (t : ten) n k m p r f : is4 t k m p r f ->
  is4 (repeat0 n t) (n * k) m p r (fun i => f (i mod k)%nat).
Proof.
  intros [Hs Hf]. unfold repeat0, size. rewrite Hs. split; [reflexivity|].
  intros i j l q Hi Hj Hl Hq. cbn [at_ upd nth]. apply Hf; auto. apply Nat.mod_upper_bound. nia.
Qed.

Lemma pararnn_spec B N M (A zi x : ten) Af zf u :
  (1 <= B)%nat -> matv B N M A Af -> is2 zi B M zf -> is3 x B N M u ->
  exists y, (let A := if rk A =? 3 then repeat0 (size x 0) (unsqueeze 0 A) else A in
    let jac := pad (rk A - 3) 1 0 r0 (tneg A) in
    let* rhs := cat 1 [unsqueeze 1 zi; x] in
    let* h := parallel_reduce jac rhs in
    Ok (slice 1 (Some 1%Z) None h))%res = Ok y /\
    is3 y B N M (fun b n m => state M (Af b) (zf b) (u b) (S n) m).
Proof.
  intros HB HA Hz Hx. cbv zeta.
  assert (size x 0 = B) as -> by (unfold size; now rewrite (proj1 Hx)).
  set (A' := if rk A =? 3 then repeat0 B (unsqueeze 0 A) else A).
  assert (HA' : is4 A' B N M M Af).
  { unfold A'. destruct HA as [g HA Hg|HA]; rkt; cbn [Nat.eqb]; [|exact HA].
    assert (Hu : is4 (unsqueeze 0 A) 1 N M M (fun _ => g)).
    { apply is4_P. apply is3_P in HA. nm (unsqueeze 0 A). exact H. }
    pose proof (P3_repeat0 _ B _ _ _ _ _ Hu) as H. destruct H as [Hs Hf].
    split; [rewrite Hs; f_equal; lia|]. intros b n i j Hb Hn Hi Hj.
    rewrite Hf by lia. now rewrite Hg. }
  clearbody A'. apply is4_P3 in HA'. replace (rk A' - 3)%nat with 1%nat by dimt.
  nm (tneg A'). nm (pad 1 1 0 r0 v). apply is2_P1 in Hz. apply is3_P2 in Hx. nm (unsqueeze 1 zi). cat2.
  assert (Hj : is4 v0 B (1 + N) M M (fun b n i j => if (1 <=? n)%nat then - Af b (n - 1)%nat i j else 0)).
  { apply is4_P3. fin H0; auto; try lia. intros q n i j Hq Hn Hi Hj. 
    destruct (1 <=? n)%nat eqn:E; b2p; bdec; reflexivity. }
  assert (H2' : is3 w B (1 + N) M (fun b n m => if (n <? 1)%nat then zf b m else u b (n - 1)%nat m))
    by (apply is3_P2; exact H2). clear H2. rename H2' into H2.
  unfold parallel_reduce, rk, size. rewrite (proj1 Hj), (proj1 H2). cbn [length nth Nat.eqb andb].
  rewrite !Nat.eqb_refl. cbn [andb bind].
  set (h := mkT _ _). 
  assert (Hh : is3 h B (1 + N) M (fun b n m => state M (Af b) (zf b) (u b) n m)).
  { split; [reflexivity|]. intros b n m Hb Hn Hm. cbn [h at_ nth].
    revert m Hm. induction n as [|n IH]; intros m Hm.
    - cbn [state]. unfold mvec. rewrite bsum_0 by (intros; ring).
      destruct H2 as [_ H2]. rewrite H2 by lia. cbn [Nat.ltb Nat.leb]. ring.
    - change (mvec M (fun i j => - at_ v0 [b; S n; i; j])
         (state M (fun n i j => - at_ v0 [b; n; i; j]) (fun _ => 0) (fun n i => at_ w [b; n; i]) (S n)) m
         + at_ w [b; S n; m] = state M (Af b) (zf b) (u b) (S n) m).
      cbn [state]. f_equal.
      + apply mvec_ext.
        * intros j Hj0. destruct Hj as [_ Hj]. rewrite Hj by lia. cbn [Nat.leb Nat.sub]. rewrite Nat.sub_0_r. ring.
        * intros j Hj0. apply IH; [lia|exact Hj0].
      + destruct H2 as [_ H2]. rewrite H2 by lia. cbn [Nat.ltb Nat.leb Nat.sub]. now rewrite Nat.sub_0_r. }
  clearbody h. apply is3_P2 in Hh. nm (slice 1 (Some 1%Z) None h). eexists; split; [reflexivity|].
  apply is3_P2. fin H3; [lia|auto|]. intros. f_equal.
Qed.

(** ** The compiled paths *)
Definition lpv_ext_avail (e : env) (pr : bool) (M : nat) : Prop :=
  env_ok e /\ ext e || helion e = true /\
  (pararnn_applicable e pr M = false ->
   (M = 2%nat -> ext e = true /\ (cuda e = true -> ext_cuda e = true)) /\
   ((3 <= M)%nat -> helion_backend_indicator e = true \/ (ext e = true /\ cuda e = false))).

Lemma lin_rec_state1_tv (A : nat -> nat -> nat -> R) z u n :
  state 1 A z u n 0 = lin_rec (fun k => A k 0%nat 0%nat) (z 0%nat) (fun k => u k 0%nat) n.
Proof.
  induction n as [|n IH]; [reflexivity|]. cbn [state lin_rec]. rewrite <- IH. unfold mvec. cbn [bsum]. ring.
Qed.

Lemma lpv_ext_spec e pr B N M (A zi x : ten) Af zf u oi :
  lpv_ext_avail e pr M -> (1 <= B)%nat -> (1 <= M)%nat ->
  matv B N M A Af -> is2 zi B M zf -> drive B N M x u -> idx_ok M oi ->
  exists y, lpv_ext_ss_recur e pr A zi x oi = Ok y /\
    picks B N M oi y (fun b n m => state M (Af b) (zf b) (u b) (S n) m).
Proof.
  intros (He & He1 & He3) HB HM HA Hz Hx Hi. unfold lpv_ext_ss_recur. rewrite He1.
  assert (sizen A 1 = M) as -> by (destruct HA as [g HA _|HA]; unfold sizen, rk; now rewrite (proj1 HA)).
  match goal with |- context [bind ?t _] =>
    assert (exists y, t = Ok y /\ is3 y B N M (fun b n m => state M (Af b) (zf b) (u b) (S n) m))
      as (y & -> & Hy) end.
  { destruct (Nat.eq_dec M 1) as [E1|E1].
    - subst M. cbn [Nat.eqb].
      assert (exists a0 a, select (rk A - 1) 0 A = Ok a0 /\ expand [B; N; 1%nat] a0 = Ok a /\
                is3 a B N 1 (fun b n _ => Af b n 0%nat 0%nat)) as (a0 & a & Es & Ee & Ha).
      { destruct HA as [g HA HAg|HA].
        - rewrite (select_ok A _ 0%Z 0%nat) by (rkt; unfold size; rewrite (proj1 HA); reflexivity). cbn [bind].
          apply is3_P in HA. nm (sel (rk A - 1) 0 A). apply is2_P in H.
          destruct (expand_pre2 v [B] N 1 _ H) as (a & E & Ha). cbn [app] in E. exists v, a. split; [reflexivity|]. split; [exact E|].
          apply is3_P2. fin Ha; auto. intros q n i Hq Hn Hi0. apply vld_1_inv in Hq as (b & -> & Hb). cbn [nth].
          rewrite HAg by lia. now replace i with 0%nat by lia.
        - rewrite (select_ok A _ 0%Z 0%nat) by (rkt; unfold size; rewrite (proj1 HA); reflexivity). cbn [bind].
          apply is4_P3 in HA. nm (sel (rk A - 1) 0 A).
          apply (proj2 (is3_P2 v B N 1 (fun b i j => Af b i j 0%nat))) in H.
          destruct (expand_self3 R v B N 1 _ H) as (a & E & Ha). exists v, a. split; [reflexivity|]. split; [exact E|].
          eapply is3_ext; [exact Ha|]. intros b n i Hb Hn Hi0. now replace i with 0%nat by lia. }
      assert (Hfin : forall x1, is2 x1 B N (fun b n => u b n 0%nat) ->
         exists y, (let* y := sample_wise_lpc x1 (tneg a) zi in Ok (unsqueeze (rk y) y))%res = Ok y /\
            is3 y B N 1 (fun b n m => state 1 (Af b) (zf b) (u b) (S n) m)).
      { intros x1 Hx1. apply is3_P2 in Ha. nm (tneg a).
        apply (proj2 (is3_P2 v B N 1 (fun b i j => - Af b i 0%nat 0%nat))) in H.
        destruct (sample_wise_lpc_spec x1 v zi B N 1 _ _ _ Hx1 H Hz) as (y & -> & Hy). cbn [bind].
        eexists; split; [reflexivity|]. apply is2_P1 in Hy. nm (unsqueeze (rk y) y). apply is3_P2. fin H0; auto.
        intros q n m Hq Hn Hm. replace m with 0%nat by lia. rewrite lin_rec_state1_tv, lpc1.
        apply lin_rec_ext; intros; try reflexivity; ring. }
      destruct Hx as [f Hx Hu|Hx]; rkt; cbn [Nat.eqb andb]; rewrite (proj1 Hx); cbn [app]; rewrite Es; cbn [bind]; rewrite Ee; cbn [bind].
      + apply Hfin. eapply is2_ext; [exact Hx|]. intros b n Hb Hn. now rewrite Hu by lia.
      + apply Hfin. rewrite squeeze_sel by (rkt; unfold size; now rewrite (proj1 Hx)).
        apply is3_P2 in Hx. apply is2_P1. cbn [Nat.sub]. nm (sel 2 0 x). exact H.
    - bfalse (M =? 1)%nat. rewrite andb_false_r.
      assert (exists x', (if rk x =? 2 then pad_features x M else Ok x) = Ok x' /\ is3 x' B N M u)
        as (x' & -> & Hx').
      { destruct Hx as [f Hx Hu|Hx]; rkt; cbn [Nat.eqb].
        - destruct (pad_features_spec R x B N M f HM Hx) as (y & -> & Hy). exists y. split; [reflexivity|].
          eapply is3_ext; [exact Hy|]. intros. cbn beta. now rewrite Hu.
        - eauto. }
      cbn [bind]. unfold MatrixRecurrence_forward.
      assert (sizen x' 1 = M) as -> by (unfold sizen, rk; now rewrite (proj1 Hx')).
      destruct (pararnn_applicable e pr M) eqn:Ep; [now apply pararnn_spec|].
      destruct (He3 eq_refl) as [He2 He4].
      destruct (Nat.eq_dec M 2) as [E2|E2].
      + subst M. destruct (He2 ltac:(lia)) as [X1 X2]. cbn [Nat.eqb].
        now apply op_recur2_spec.
      + bfalse (M =? 2)%nat. destruct (helion_backend_indicator e) eqn:Eh.
        * now apply hl_lpv_spec.
        * destruct (He4 ltac:(lia)) as [?|[X1 X2]]; [discriminate|]. now apply op_recurN_spec. }
  cbn [bind]. destruct oi as [i|]; cbn [picks].
  - rkt. cbn [Nat.eqb]. destruct Hi as (c & Hc). pose proof (pyidx_lt _ _ _ Hc).
    rewrite (select_ok y 2 i c) by (unfold size; rewrite (proj1 Hy); exact Hc).
    eexists; split; [reflexivity|]. intros c' Hc'. rewrite Hc in Hc'. injection Hc' as <-.
    apply is3_P2 in Hy. apply is2_P1. nm (sel 2 c y). exact H0.
  - eauto.
Qed.

(** ** Blocked recursion *)
Definition cumdot_good (n : nat) : Prop := forall (A : ten) pre M f,
  isP3 A pre n M M f ->
  exists y, matrices_cumdot A = Ok y /\ isP3 y pre n M M (fun q k => mprod M (f q) (S k)).

Lemma cumdot_good_prime n : n = 1%nat \/ is_prime n -> cumdot_good n.
Proof. intros H A pre M f HA. now apply cumdot_prime_spec. Qed.

Lemma state_shift_fun M (A A' : nat -> nat -> nat -> R) h u u' n0 n m :
  (forall k i j, (k < n)%nat -> (i < M)%nat -> (j < M)%nat -> A (n0 + k)%nat i j = A' k i j) ->
  (forall k i, (k < n)%nat -> (i < M)%nat -> u (n0 + k)%nat i = u' k i) -> (m < M)%nat ->
  state M A' (state M A h u n0) u' n m = state M A h u (n0 + n) m.
Proof.
  intros HA Hu. revert m. induction n as [|n IH]; intros m Hm.
  - now rewrite Nat.add_0_r.
  - rewrite Nat.add_succ_r. cbn [state]. rewrite <- Hu by lia. f_equal. apply mvec_ext.
    + intros j Hj. symmetry. apply HA; lia.
    + intros j Hj. apply IH; auto.
Qed.

Lemma lpv_ssr_fuel_spec e pr fuel : forall B N M (A zi x : ten) Af zf u bs oi,
  (N < fuel)%nat -> (1 <= B)%nat -> (1 <= N)%nat -> (1 <= M)%nat -> (1 <= bs)%nat ->
  (bs = 1%nat \/ (N <= bs)%nat \/ cumdot_good (bs - 1)) ->
  (helion_backend_indicator e = true -> lpv_ext_avail e pr M) ->
  matv B N M A Af -> is2 zi B M zf -> drive B N M x u -> idx_ok M oi ->
  exists y, lpv_state_space_recursion_fuel e pr fuel A zi x bs oi = Ok y /\
    picks B N M oi y (fun b n m => state M (Af b) (zf b) (u b) (S n) m).
Proof.
  induction fuel as [|fuel IH]; intros B N M A zi x Af zf u bs oi Hf HB HN HM Hbs Hcd He HA Hz Hx Hi; [lia|].
  cbn [lpv_state_space_recursion_fuel].
  assert (size x 0 = B) as -> by (destruct Hx as [f Hx _|Hx]; unfold size; now rewrite (proj1 Hx)).
  assert (size x 1 = N) as -> by (destruct Hx as [f Hx _|Hx]; unfold size; now rewrite (proj1 Hx)).
  assert (((rk x =? 2) || (rk x =? 3))%bool = true) as ->
    by (destruct Hx as [f Hx _|Hx]; rkt; reflexivity).
  assert (((rk A =? 3) || (rk A =? 4))%bool = true) as ->
    by (destruct HA as [g HA _|HA]; rkt; reflexivity).
  assert (sizen A 1 = M) as -> by (destruct HA as [g HA _|HA]; unfold sizen, rk; now rewrite (proj1 HA)).
  assert (sizen A 2 = M) as -> by (destruct HA as [g HA _|HA]; unfold sizen, rk; now rewrite (proj1 HA)).
  assert (sizen A 3 = N) as -> by (destruct HA as [g HA _|HA]; unfold sizen, rk; now rewrite (proj1 HA)).
  assert ((negb (rk A =? 4) || (B =? size A 0))%bool = true) as ->.
  { destruct HA as [g HA _|HA]; rkt; [reflexivity|]. unfold size. rewrite (proj1 HA). cbn [nth]. now rewrite !Nat.eqb_refl. }
  assert ((negb (rk x =? 3) || (M =? sizen x 1))%bool = true) as ->.
  { destruct Hx as [f Hx _|Hx]; rkt; [reflexivity|]. unfold sizen, rk. rewrite (proj1 Hx). cbn [length Nat.sub nth]. now rewrite !Nat.eqb_refl. }
  assert (size zi 0 = B) as -> by (unfold size; now rewrite (proj1 Hz)).
  assert (size zi 1 = M) as -> by (unfold size; now rewrite (proj1 Hz)).
  rewrite (i2_rk _ _ _ _ Hz), !Nat.eqb_refl. cbn [Nat.eqb]. bfalse (bs <? 1)%nat. cbn [negb]. cbv zeta.
  assert (Hloop : forall B N (A zi x : ten) Af zf u, (1 <= B)%nat -> (1 <= N)%nat ->
    matv B N M A Af -> is2 zi B M zf -> drive B N M x u ->
    exists y, (if helion_backend_indicator e then lpv_ext_ss_recur e pr A zi x oi
      else lpv_recursion_loop A zi x oi) = Ok y /\
    picks B N M oi y (fun b n m => state M (Af b) (zf b) (u b) (S n) m)).
  { intros. destruct (helion_backend_indicator e) eqn:Eh.
    - apply lpv_ext_spec; auto.
    - apply lpv_loop_spec; auto. }
  destruct ((bs =? 1) || (N <=? bs))%bool eqn:Eb; [now apply Hloop|].
  b2p. assert (Hcd' : cumdot_good (bs - 1)) by (destruct Hcd as [?|[?|?]]; [lia|lia|assumption]).
  (* padding *)
  destruct (blocks N bs) as (k & Hk1 & Hk2 & Hk0 & HkN); [lia|lia|].
  set (xp := if negb (N mod bs =? 0) then pad 1 0 (bs - N mod bs) r0 x else x).
  set (X := fun b n m => if n <? N then u b n m else 0).
  assert (exists (x3 : bool) (Xf : nat -> nat -> nat -> R) (ux : ten), rk xp = (if x3 then 3 else 2)%nat /\
     unflatten_m1 1 bs xp = Ok ux /\
     isP2 (flatten 2 (rk ux - 1) ux) [B] k (bs * nfeat x3 M) (fun q c j => Xf (nth 0 q 0%nat) (c * bs + j / nfeat x3 M)%nat (j mod nfeat x3 M)) /\
     drive (B * k) (bs - 1) M (flatten 0 1 (slice 2 None (Some (-1)%Z) ux)) (fun r n m => X (r / k)%nat ((r mod k) * bs + n)%nat m) /\
     (forall b n m, (b < B)%nat -> (n < k * bs)%nat -> (m < M)%nat -> X b n m = if m <? nfeat x3 M then Xf b n m else 0))
    as (x3 & Xf & ux & Hrk & Eux & Hux & Hdux & HX).
  { destruct Hx as [f Hx Hu|Hx].
    - exists false, (fun b n _ => if n <? N then f b n else 0).
      apply is2_P1 in Hx.
      assert (Hxp : isP1 xp [B] (k * bs) (fun q n => if n <? N then f (nth 0 q 0%nat) n else 0)).
      { unfold xp. destruct (N mod bs =? 0) eqn:Er; b2p; cbn [negb].
        - fin Hx; [lia|]. intros q n Hq Hn. bdec. reflexivity.
        - eassert (isP1 (pad 1 0 (bs - N mod bs) r0 x) _ _ _) as Hp by vsolve.
          fin Hp; [lia|]. intros q n Hq Hn. cbn [Nat.leb Nat.add andb]. now rewrite Nat.sub_0_r. }
      clearbody xp.
      rewrite (unflatten_m1_ok xp 1 bs k) by (try lia; unfold size; now rewrite (proj1 Hxp)).
      destruct (P1_unflat0 xp [B] (k * bs) _ 1 k bs Hxp ltac:(dimt) ltac:(lia)) as (w & Ew & Hw).
      exists w. split; [dimt|]. split; [exact Ew|]. cbv beta in Hw. clear Ew.
      assert (Hxx : forall b n m, (b < B)%nat -> (n < k * bs)%nat -> (m < M)%nat ->
         X b n m = if m <? 1 then (if n <? N then f b n else 0) else 0).
      { intros b n m Hb Hn Hm. unfold X. destruct (n <? N) eqn:E; b2p.
        * rewrite Hu by lia. destruct m; reflexivity.
        * destruct (m <? 1)%nat; reflexivity. }
      split; [|split].
      + pose proof (flat_same R w [B] k bs _ Hw) as H2. replace (rk w - 1)%nat with 2%nat by dimt.
        unfold nfeat. fin H2; [auto|lia|]. intros q c j Hq Hc Hj. now rewrite Nat.div_1_r.
      + nm (slice 2 None (Some (-1)%Z) w). apply (pop2 v [] B) in H1. nm (flatten 0 1 v).
        apply P2_nil in H2. apply drive_2 with (f := fun r n => if ((r mod k) * bs + n <? N)%nat then f (r / k)%nat ((r mod k) * bs + n)%nat else 0).
        * eapply is2_ext; [exact H2|]. intros r n Hr Hn. reflexivity.
        * intros r n m Hr Hn Hm. 
          assert (r / k < B)%nat by (apply Nat.div_lt_upper_bound; lia).
          pose proof (Nat.mod_upper_bound r k ltac:(lia)).
          rewrite Hxx by (auto; nia). destruct m; reflexivity.
      + exact Hxx.
    - exists true, X. apply is3_P2 in Hx.
      assert (Hxp : isP2 xp [B] (k * bs) M (fun q n => X (nth 0 q 0%nat) n)).
      { unfold xp. destruct (N mod bs =? 0) eqn:Er; b2p; cbn [negb].
        - fin Hx; [lia|auto|]. intros q n m Hq Hn Hm. unfold X. bdec. reflexivity.
        - eassert (isP2 (pad 1 0 (bs - N mod bs) r0 x) _ _ _ _) as Hp by vsolve.
          fin Hp; [lia|auto|]. intros q n m Hq Hn Hm. cbn [Nat.leb Nat.add andb]. now rewrite Nat.sub_0_r. }
      clearbody xp.
      rewrite (unflatten_m1_ok xp 1 bs k) by (try lia; unfold size; now rewrite (proj1 Hxp)).
      destruct (P2_unflat0 xp [B] (k * bs) M _ 1 k bs Hxp ltac:(dimt) ltac:(lia)) as (w & Ew & Hw).
      exists w. split; [dimt|]. split; [exact Ew|]. cbv beta in Hw. clear Ew.
      split; [|split].
      + replace (rk w - 1)%nat with 3%nat by dimt. nm (flatten 2 3 w).
        unfold nfeat. fin H1; auto.
      + nm (slice 2 None (Some (-1)%Z) w). apply (pop3 v [] B) in H1. nm (flatten 0 1 v).
        apply P3_nil in H2. apply drive_3.
        eapply is3_ext; [exact H2|]. intros r n m Hr Hn Hm. reflexivity.
      + intros b n m Hb Hn Hm. unfold nfeat. bdec. reflexivity. }
  rewrite Eux. cbn [bind]. clear Eux. clearbody xp. set (F := nfeat x3 M) in *.
  assert (HF : F = 1%nat \/ F = M) by (unfold F, nfeat; destruct x3; auto).
  (* A: shared or per batch *)
  assert (exists pa al, isP3 A pa N M M al /\ (pa = [] \/ pa = [B]) /\
    (forall b n i j, (b < B)%nat -> (n < N)%nat -> (i < M)%nat -> (j < M)%nat ->
       al (match pa with [] => [] | _ => [b] end) n i j = Af b n i j))
    as (pa & al & HAp & Hpa & Hal).
  { destruct HA as [g HA HAg|HA].
    - exists [], (fun _ => g). apply is3_P in HA. split; [exact HA|]. split; [auto|]. intros. now rewrite HAg.
    - exists [B], (fun q => Af (nth 0 q 0%nat)). apply is4_P3 in HA. split; [exact HA|]. split; [auto|]. reflexivity. }
  set (ap := if negb (N mod bs =? 0) then pad (rk A - 3) 0 (bs - N mod bs) r0 A else A).
  set (AL := fun q n i j => if n <? N then al q n i j else 0).
  assert (Hap : isP3 ap pa (k * bs) M M AL).
  { unfold ap, AL. destruct (N mod bs =? 0) eqn:Er; b2p; cbn [negb].
    - fin HAp; [lia|auto|auto|]. intros q n i j Hq Hn Hi0 Hj. bdec. reflexivity.
    - eassert (isP3 (pad (rk A - 3) 0 (bs - N mod bs) r0 A) _ _ _ _ _) as Hp by vsolve.
      fin Hp; [lia|auto|auto|]. intros q n i j Hq Hn Hi0 Hj. cbn [Nat.leb Nat.add andb]. now rewrite Nat.sub_0_r. }
  clearbody ap. set (AF := fun b n => AL (match pa with [] => [] | _ => [b] end) n).
  rewrite (unflatten_m1_ok ap (rk ap - 3) bs k).
  2: lia. 2: { unfold size, rk. rewrite (proj1 Hap). destruct Hpa as [->| ->]; reflexivity. }
  mstep. rename w into ua. rename H1 into Hua. 
  nm (slice (rk ua - 3) (Some 1%Z) None ua). nm (flip (rk v - 3) v).
  set (P := fun q c => mprod M (fun t => AL q (c * bs + (bs - 1 - t))%nat)).
  assert (exists cu, matrices_cumdot v0 = Ok cu /\ isP4 cu pa k (bs - 1) M M (fun q c i => P q c (S i)))
    as (cu & -> & Hcu).
  { apply push3 in H2. destruct (Hcd' v0 (pa ++ [k]) M _ H2) as (cu & E & Hc). exists cu. split; [exact E|].
    apply pop3 in Hc. fin Hc; auto. intros q c i a b Hq Hc0 Hi0 Ha Hb. unfold P.
    pose proof (vld_len _ _ Hq) as Hlq.
    apply mprod_ext; auto. intros t a' b' Ht _ _.
    rewrite <- Hlq, firstn_app, Nat.sub_diag, firstn_all, firstn_O, app_nil_r, app_nth2, Nat.sub_diag by lia.
    cbn [nth]. do 2 f_equal. lia. }
  cbn [bind]. clear H1 H2 v v0.
  nm (flip (rk cu - 3) cu). rename v into ac.
  assert (Hac : isP4 ac pa k (bs - 1) M M (fun q c i => P q c (bs - 1 - i)%nat)).
  { fin H1; auto. intros q c i a b Hq Hc0 Hi0 Ha Hb. do 1 f_equal. lia. }
  clear H1 Hcu cu.
  rewrite (select_ok ac (rk ac - 3) 0%Z 0) by (unfold size, rk; rewrite (proj1 Hac); destruct Hpa as [->| ->]; cbn [app nth length Nat.add Nat.sub]; apply (pyidx_nat _ 0); lia).
  cbn [bind].
  rewrite (select_ok ua (rk ua - 3) 0%Z 0) by (unfold size, rk; rewrite (proj1 Hua); destruct Hpa as [->| ->]; cbn [app nth length Nat.add Nat.sub]; apply (pyidx_nat _ 0); lia).
  cbn [bind].
  nm (sel (rk ac - 3) 0 ac). nm (sel (rk ua - 3) 0 ua). mm. rename w into apd.
  assert (Hapd : isP3 apd pa k M M (fun q c => P q c bs)).
  { fin H3; auto. intros q c a b Hq Hc0 Ha Hb. unfold P. rewrite !bi_lt by assumption.
    transitivity (mprod M (fun t => AL q (c * bs + (bs - 1 - t))%nat) (S (bs - 1)) a b); [|f_equal; lia].
    cbn [mprod]. unfold mmul. rewrite Nat.sub_0_r, Nat.sub_diag. reflexivity. }
  clear H1 H2 H3 v v0.
  assert (HI : is2 (@eye R M) M M mid) by (apply is2_P; apply P2_eye; reflexivity).
  assert (firstn (rk ac - 3) (shape ac) ++ [1%nat; M; M] = ((pa ++ [k]) ++ [1%nat]) ++ [M; M]) as ->.
  { rewrite (proj1 Hac). replace (rk ac - 3)%nat with (length (pa ++ [k])) by (rewrite app_length; dimt).
    change (pa ++ [k; (bs - 1)%nat; M; M]) with (pa ++ [k] ++ [(bs - 1)%nat; M; M]).
    rewrite (app_assoc pa), firstn_app, Nat.sub_diag, firstn_all, firstn_O, app_nil_r, <- !app_assoc. reflexivity. }
  destruct (expand_pre2 (@eye R M) ((pa ++ [k]) ++ [1%nat]) M M mid HI) as (I & -> & HIe). cbn [bind].
  apply pop2, pop3 in HIe. cat2. rename w into aI.
  assert (HaI : isP4 aI pa k bs M M (fun q c i => P q c (bs - 1 - i)%nat)).
  { fin H1; auto; [lia|]. intros q c i a b Hq Hc Hi0 Ha Hb. 
    destruct (i <? bs - 1)%nat eqn:E; b2p; [reflexivity|].
    replace (bs - 1 - i)%nat with 0%nat by lia. reflexivity. }
  clear H1 HIe I Hac ac.
  (* mat1 *)
  assert (exists m1,
    (if rk xp =? 3 then Ok (flatten (rk (mT aI) - 3) (rk (mT aI) - 2) (mT aI))
      else select (rk aI - 1) 0 aI) = Ok m1 /\
    isP3 m1 pa k (bs * F) M (fun q c r i => P q c (bs - 1 - r / F)%nat i (r mod F))) as (m1 & -> & Hm1).
  { rewrite Hrk. unfold F, nfeat. destruct x3; cbn [Nat.eqb].
    - nm (mT aI). nm (flatten (rk v - 3) (rk v - 2) v).
      eexists; split; [reflexivity|]. fin H2; auto.
    - rewrite (select_ok aI _ 0%Z 0%nat) by (unfold size; rewrite (proj1 HaI), (nth_pre _ _ _ 3) by dimt; cbn [nth]; apply (pyidx_nat M 0); lia).
      eexists; split; [reflexivity|]. nm (sel (rk aI - 1) 0 aI). fin H1; auto; [lia|].
      intros q c r i Hq Hc Hr Hi0. destruct (dm_1 r) as [-> ->]. reflexivity. }
  cbn [bind].
  set (uxf := flatten 2 (rk ux - 1) ux) in *. clearbody uxf.
  nm (unsqueeze (rk uxf - 1) uxf). rename v into ux4.
  set (L := fun b n m => state M (AF b) (zf b) (X b) n m).
  set (PF := fun b c => mprod M (fun t => AF b (c * bs + (bs - 1 - t))%nat)).
  set (Z := fun b c i => bsum bs (fun j => mvec M (PF b c (bs - 1 - j)%nat) (X b (c * bs + j)%nat) i)).
  assert (exists z4, matmul ux4 m1 = Ok z4 /\ is4 z4 B k 1 M (fun b c _ i => Z b c i)) as (z4 & -> & Hz4).
  { assert (Hsum : forall b c i, (b < B)%nat -> (c < k)%nat -> (i < M)%nat ->
      bsum (bs * F) (fun l => Xf b (c * bs + l / F)%nat (l mod F) * PF b c (bs - 1 - l / F)%nat i (l mod F)) = Z b c i).
    { intros b c i Hb Hc Hi0. rewrite (bsum_flat_dm bs F (fun s m => Xf b (c * bs + s)%nat m * PF b c (bs - 1 - s)%nat i m)).
      unfold Z. apply bsum_ext. intros j Hj. unfold mvec.
      rewrite (bsum_feat R M F (Xf b (c * bs + j)%nat) (X b (c * bs + j)%nat) HF HM).
      - apply bsum_ext. intros. ring.
      - intros m Hm. apply HX; auto. nia. }
    destruct Hpa as [->| ->]; mm; (eexists; split; [reflexivity|]); apply is4_P3; 
      match goal with H : isP3 _ [B] k 1 M _ |- _ => fin H end; auto;
      intros q c o i Hq Hc Ho Hi0; apply vld_1_inv in Hq as (b & -> & Hb); cbn [nth] in *;
      rewrite <- Hsum by assumption; apply bsum_ext; intros l Hl; rewrite !bi_lt by assumption; reflexivity. }
  cbn [bind].
  assert (Hzz : is3 (squeeze (rk z4 - 2) z4) B k M Z).
  { rewrite squeeze_sel by (rkt; unfold size; now rewrite (proj1 Hz4)).
    apply is4_P3 in Hz4. nm (sel (rk z4 - 2) 0 z4). apply is3_P2. exact H2. }
  set (z := squeeze (rk z4 - 2) z4) in *. clearbody z. clear Hz4 z4.
  destruct (IH B k M apd zi z (fun b c => PF b c bs) zf Z bs None)
    as (rest & -> & Hrest); try lia; auto.
  { destruct Hpa as [->| ->].
    - apply matv_s with (g := fun c => P [] c bs); [|reflexivity].
      apply is3_P. fin Hapd; auto. intros q c i j Hq Hc Hi0 Hj. now apply vld_nil_inv in Hq as ->.
    - apply matv_b. apply is4_P3. fin Hapd; auto. intros q c i j Hq Hc Hi0 Hj. apply vld_1_inv in Hq as (b & -> & Hb).
      reflexivity. }
  { now apply drive_3. }
  { exact Logic.I. }
  cbn [bind]. cbn [picks] in Hrest. pose proof Hz as Hz1. apply is2_P1 in Hz1. apply is3_P2 in Hrest.
  nm (unsqueeze 1 zi). cat2. rename w into ini.
  assert (Hini : isP2 ini [B] (S k) M (fun q c i => L (nth 0 q 0%nat) (c * bs)%nat i)).
  { match goal with H : isP2 ini _ _ _ _ |- _ => fin H end; auto.
    intros q c i Hq Hc Hi0. apply vld_1_inv in Hq as (b & -> & Hb). cbn [nth].
    destruct (c <? 1)%nat eqn:E; b2p.
    - replace c with 0%nat by lia. reflexivity.
    - replace (S (c - 1))%nat with c by lia. clear E Hc. revert i Hi0. induction c as [|c IHc]; intros i Hi0; [reflexivity|].
      cbn [state]. unfold L. replace (S c * bs)%nat with (c * bs + bs)%nat by lia.
      rewrite state_tv by assumption.
      assert (HPF : forall m a b', (m <= bs)%nat -> (a < M)%nat -> (b' < M)%nat ->
        PF b c m a b' = mprod M (fun t => AF b (c * bs + bs - 1 - t)%nat) m a b').
      { intros m a b' Hm Ha Hb'. unfold PF. apply mprod_ext; auto. intros t a0 b0 Ht _ _. f_equal. lia. }
      f_equal.
      + apply mvec_ext; [intros j Hj; apply HPF; auto|]. intros j Hj. apply IHc. exact Hj.
      + unfold Z. apply bsum_ext. intros j Hj. apply mvec_ext; [|reflexivity]. intros l Hl. apply HPF; auto; lia. }
  match goal with H : isP2 ini _ _ _ (fun q i j => if _ then _ else _) |- _ => clear H end.
  clear Hz1 Hrest Hzz z rest.
  nm (slice 1 None (Some (-1)%Z) ini). rename v0 into in0.
  assert (Hin0 : is2 (flatten 0 1 in0) (B * k) M (fun r i => L (r / k)%nat ((r mod k) * bs)%nat i)).
  { match goal with H : isP2 in0 _ _ _ _ |- _ => apply (pop2 in0 [] B) in H end. nm (flatten 0 1 in0).
    match goal with H : isP2 v0 _ _ _ _ |- _ => apply P2_nil in H; eapply is2_ext; [exact H|] end. intros; reflexivity. }
  set (inf := flatten 0 1 in0) in *. clearbody inf.
  set (uxs := flatten 0 1 (slice 2 None (Some (-1)%Z) ux)) in *. clearbody uxs.
  assert (HuA : matv (B * k) (bs - 1) M
    (if rk ua =? 5 then flatten 0 1 (slice 2 None (Some (-1)%Z) ua)
       else repeat0 B (slice 1 None (Some (-1)%Z) ua)) (fun r n => AF (r / k)%nat ((r mod k) * bs + n)%nat)).
  { apply matv_b. destruct Hpa as [->| ->]; rkt; cbn [length Nat.add Nat.eqb].
    - nm (slice 1 None (Some (-1)%Z) ua). 
      match goal with H : isP4 v0 _ _ _ _ _ _ |- _ => apply P4_nil in H; pose proof (P3_repeat0 _ B _ _ _ _ _ H) as Hq end.
      destruct Hq as [Hs Hq]. split; [exact Hs|]. intros r n i j Hr Hn Hi0 Hj.
      rewrite Hq by assumption. reflexivity.
    - nm (slice 2 None (Some (-1)%Z) ua).
      match goal with H : isP4 v0 _ _ _ _ _ _ |- _ => apply (pop4 v0 [] B) in H end. nm (flatten 0 1 v0).
      match goal with H : isP4 v1 _ _ _ _ _ _ |- _ => apply P4_nil in H; eapply is4_ext; [exact H|] end. intros; reflexivity. }
  match goal with |- context [repeat0 B (slice 1 None (Some (-1)%Z) ua)] =>
    set (uas := if rk ua =? 5 then _ else _) in * end. clearbody uas.
  destruct (Hloop (B * k)%nat (bs - 1)%nat uas inf uxs _ _ _ ltac:(nia) ltac:(lia) HuA Hin0 Hdux) as (o0 & -> & Ho0).
  cbn [bind].
  assert (HL0 : forall b c n m, (b < B)%nat -> (c < k)%nat -> (n < bs - 1)%nat -> (m < M)%nat ->
    state M (fun n => AF ((b * k + c) / k)%nat (((b * k + c) mod k) * bs + n)%nat)
      (fun i => L ((b * k + c) / k)%nat (((b * k + c) mod k) * bs)%nat i)
      (fun n m => X ((b * k + c) / k)%nat (((b * k + c) mod k) * bs + n)%nat m) (S n) m = L b (c * bs + S n)%nat m).
  { intros b c n m Hb Hc Hn Hm.
    assert ((b * k + c) / k = b)%nat as -> by (rewrite Nat.div_add_l by lia; rewrite Nat.div_small by lia; lia).
    assert ((b * k + c) mod k = c)%nat as -> by (rewrite Nat.add_comm, Nat.mod_add by lia; apply Nat.mod_small; lia).
    unfold L. apply state_shift_fun; auto. }
  nm (slice 1 (Some 1%Z) None ini). rename v0 into ini1.
  assert (Hini1 : isP2 ini1 [B] k M (fun q c i => L (nth 0 q 0%nat) (c * bs + bs)%nat i)).
  { match goal with H : isP2 ini1 _ _ _ _ |- _ => fin H end; [lia|auto|]. intros. f_equal. lia. }
  assert (exists out, (let* output := unflatten_1m 0 B o0 in
     match oi with
      | None => let* c := cat 2 [output; unsqueeze 2 ini1] in Ok (flatten 1 2 c)
      | Some i => let* s := select 2 i ini1 in let* c := cat 2 [output; unsqueeze 2 s] in Ok (flatten 1 2 c)
      end)%res = Ok out /\ picks B (k * bs) M oi out (fun b n m => L b (S n) m)) as (out & Eout & Hout).
  { clear - Ho0 HL0 Hini1 Hi Hbs H Hk0 HB.
    unfold picks in *. destruct oi as [i|].
    - destruct Hi as (c & Hc). pose proof (pyidx_lt _ _ _ Hc) as Hcl. specialize (Ho0 c Hc).
      rewrite (unflatten_1m_ok o0 0 B k) by (try lia; unfold size; now rewrite (proj1 Ho0)).
      apply is2_P in Ho0. unflat2.
      assert (Hw : isP2 w [B] k (bs - 1) (fun q c0 n => L (nth 0 q 0%nat) (c0 * bs + S n)%nat c)).
      { match goal with H : isP3 w _ _ _ _ _ |- _ => apply P3_nil in H; apply P2_cons; eapply is3_ext; [exact H|] end.
        intros b c0 n Hb Hc0 Hn. cbv beta. now apply HL0. }
      rewrite (select_ok ini1 2 i c) by (unfold size; rewrite (proj1 Hini1); exact Hc). cbn [bind].
      nm (sel 2 c ini1). nm (unsqueeze 2 v). cat2. nm (flatten 1 2 w0).
      eexists; split; [reflexivity|]. intros c' Hc'. rewrite Hc in Hc'. injection Hc' as <-.
      apply is2_P1. match goal with H : isP1 v1 _ _ _ |- _ => fin H end; [nia|]. intros q n Hq Hn.
      replace (bs - 1 + 1)%nat with bs by lia. 
      pose proof (Nat.div_mod n bs ltac:(lia)) as Edm. pose proof (Nat.mod_upper_bound n bs ltac:(lia)).
      destruct (n mod bs <? bs - 1)%nat eqn:E; b2p; f_equal; nia.
    - rewrite (unflatten_1m_ok o0 0 B k) by (try lia; unfold size; now rewrite (proj1 Ho0)).
      apply is3_P in Ho0. unflat2.
      assert (Hw : isP3 w [B] k (bs - 1) M (fun q c0 n m => L (nth 0 q 0%nat) (c0 * bs + S n)%nat m)).
      { match goal with H : isP4 w _ _ _ _ _ _ |- _ => apply P4_nil in H; apply P3_cons; eapply is4_ext; [exact H|] end.
        intros b c0 n m Hb Hc0 Hn Hm. cbv beta. now apply HL0. }
      nm (unsqueeze 2 ini1). cat2. nm (flatten 1 2 w0).
      eexists; split; [reflexivity|]. 
      apply is3_P2. match goal with H : isP2 v0 _ _ _ _ |- _ => fin H end; auto; [nia|]. intros q n m Hq Hn Hm.
      replace (bs - 1 + 1)%nat with bs by lia. 
      pose proof (Nat.div_mod n bs ltac:(lia)) as Edm. pose proof (Nat.mod_upper_bound n bs ltac:(lia)).
      destruct (n mod bs <? bs - 1)%nat eqn:E; b2p; f_equal; nia. }
  destruct (unflatten_1m 0 B o0) as [o1|er]; cbn [bind] in Eout |- *; [|discriminate].
  rewrite Eout. cbn [bind].
  assert (HL : forall b n m, (b < B)%nat -> (n < N)%nat -> (m < M)%nat ->
     L b (S n) m = state M (Af b) (zf b) (u b) (S n) m).
  { intros b n m Hb Hn Hm. unfold L. change (state M (AF b) (state M (Af b) (zf b) (u b) 0) (X b) (S n) m = state M (Af b) (zf b) (u b) (0 + S n) m).
    apply state_shift_fun; auto.
    - intros j i l Hj Hi0 Hl. unfold AF, AL. cbn [Nat.add]. bdec. symmetry. apply Hal; auto; lia.
    - intros j i Hj Hi0. unfold X. cbn [Nat.add]. bdec. reflexivity. }
  clear - Hout HL Hk1 Hk2 Hk0 HkN Hi Hbs H H0 HN.
  destruct (N mod bs =? 0)%nat eqn:Er; b2p; cbn [negb].
  - rewrite (Hk1 Er) in Hout. eexists; split; [reflexivity|]. unfold picks in *. destruct oi as [i|].
    + intros c Hc. eapply is2_ext; [exact (Hout c Hc)|]. intros b n Hb Hn. apply HL; auto. now apply pyidx_lt in Hc.
    + eapply is3_ext; [exact Hout|]. intros b n m Hb Hn Hm. now apply HL.
  - eexists; split; [reflexivity|]. specialize (Hk2 Er). pose proof (Nat.mod_upper_bound N bs ltac:(lia)).
    unfold picks in *. destruct oi as [i|].
    + intros c Hc. specialize (Hout c Hc). apply is2_P1 in Hout.
      nm (slice 1 None (Some (- Z.of_nat (bs - N mod bs))%Z) out). apply is2_P1.
      match goal with H : isP1 v _ _ _ |- _ => fin H end; [rewrite ?pyb_neg by lia; lia|].
      intros q n Hq Hn. apply vld_1_inv in Hq as (b & -> & Hb). cbn [nth]. apply HL; auto. now apply pyidx_lt in Hc.
    + apply is3_P2 in Hout. nm (slice 1 None (Some (- Z.of_nat (bs - N mod bs))%Z) out).
      apply is3_P2. match goal with H : isP2 v _ _ _ _ |- _ => fin H end; [rewrite ?pyb_neg by lia; lia|auto|].
      intros q n m Hq Hn Hm. apply vld_1_inv in Hq as (b & -> & Hb). cbn [nth]. now apply HL.
Qed.

End S.
