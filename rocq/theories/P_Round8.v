(** Rounding errors of the parameter-varying matrix recursion lpv.state_space_recursion
    (philtorch/lpv/ssm.py:208-334), for any relation that behaves like an error count. *)
From Coq Require Import List Arith Lia ZArith Bool Ring.
From Verif Require Import Scalar Tensor TensorLemmas TensorOps TensorAlg TensorTac TensorList
  Spec Shapes Algebra M_Mat P_Mat M_Kernels P_Helion M_LtiSsm P_LtiRecur P_LtiSsm
  M_Ext M_LpvSsm P_LpvRecur P_LpvSsm P_Round3 P_Round4 P_Round5.
Import ListNotations.

(** ** Over any operations *)
Section Raw.
Variable R : cops.
Notation ten := (tensor (car R)).
Open Scope cr_scope.

Lemma lpv_loop_raw B N M (A zi x : ten) Af zf u oi :
  (1 <= N)%nat -> (1 <= M)%nat -> matv B N M A Af -> is2 zi B M zf -> drive B N M x u -> idx_ok M oi ->
  exists y, lpv_recursion_loop A zi x oi = Ok y /\
    picks B N M oi y (fun b n m => hstate M (Af b) (zf b) (u b) (S n) m).
Proof.
  intros HN HM HA Hz Hx Hi. unfold lpv_recursion_loop.
  assert (size x 1 = N) as -> by (destruct Hx as [f Hx _|Hx]; unfold size; now rewrite (proj1 Hx)).
  assert (sizen A 3 = N) as -> by (destruct HA as [g HA _|HA]; unfold sizen, rk; now rewrite (proj1 HA)).
  rewrite Nat.eqb_refl.
  assert (exists x', (if rk x =? 2 then pad_features x (sizen A 1) else Ok x) = Ok x' /\ is3 x' B N M u)
    as (x' & -> & Hx').
  { assert (sizen A 1 = M) as -> by (destruct HA as [g HA _|HA]; unfold sizen, rk; now rewrite (proj1 HA)).
    destruct Hx as [f Hx Hu|Hx]; rkt; cbn [Nat.eqb].
    - destruct (pad_features_spec R x B N M f HM Hx) as (y & -> & Hy). exists y. split; [reflexivity|].
      eapply is3_ext; [exact Hy|]. intros. cbn beta. now rewrite Hu.
    - eauto. }
  cbn [bind]. clear Hx x.
  assert (Hs1 : size x' 1 = N) by (unfold size; now rewrite (proj1 Hx')).
  set (L := fun b n m => hstate M (Af b) (zf b) (u b) n m).
  destruct HA as [g HA HAg|HA]; rkt; cbn [Nat.eqb].
  - assert (HAT : is3 (mT A) N M M (fun n i j => g n j i)).
    { apply is3_P. apply is3_P in HA. eassert (isP3 (mT A) _ _ _ _ _) as H by vsolve. exact H. }
    set (AT := mT A) in *. clearbody AT.
    assert (Hs2 : size AT 0 = N) by (unfold size; now rewrite (proj1 HAT)).
    assert (HATs : forall k, (k < N)%nat -> is2 (sel 0 k AT) M M (fun i j => g k j i)).
    { intros k Hk. apply is2_P. apply is3_P in HAT. eassert (isP2 (sel 0 k AT) _ _ _ _) as H by vsolve. exact H. }
    destruct (loopM_spec (fun k (h : ten) => is2 h B M (fun b m => L b k m))
      (fun k (t : ten) => match oi with None => isP1 t [B] M (fun q m => L (nth 0 q 0%nat) (S k) m)
         | Some i => forall c, pyidx M i = Some c -> isP0 t [B] (fun q => L (nth 0 q 0%nat) (S k) c) end)
      (fun h xa => addmm (fst xa) h (snd xa))
      (fun h => match oi with None => Ok h | Some i => select 1 i h end) (combine (unbind 1 x') (unbind 0 AT)) 0 zi)
      as (r & -> & Hl & Hr).
    + exact Hz.
    + intros k h [xn an] Hk Hh. apply nth_error_combine in Hk as [Hk1 Hk2]. cbn [fst snd Nat.add] in *.
      apply nth_error_unbind in Hk1 as [Hk ->]. apply nth_error_unbind in Hk2 as [_ ->]. rewrite Hs1 in Hk.
      destruct (addmm_step R (sel 1 k x') h (sel 0 k AT) B M _ _ _ (sel_13 R x' B N M u k Hx' Hk) Hh (HATs k Hk)) as (h' & E & Hh').
      assert (Hh2 : is2 h' B M (fun b m => L b (S k) m)).
      { eapply is2_ext; [exact Hh'|]. intros b i Hb Hi0. cbn beta. unfold L. cbn [hstate]. f_equal. apply bsum_ext.
        intros j Hj. now rewrite HAg by assumption. }
      exists h'. split; [exact E|]. split; [exact Hh2|]. destruct oi as [i|].
      * destruct Hi as (c & Hc). pose proof (pyidx_lt _ _ _ Hc).
        rewrite (select_ok h' 1 i c) by (unfold size; rewrite (proj1 Hh2); exact Hc).
        eexists; split; [reflexivity|]. intros c' Hc'. rewrite Hc in Hc'. injection Hc' as <-.
        apply is2_P1 in Hh2. pose proof (P1_sel0 h' [B] M _ 1 c Hh2 eq_refl H) as H'. exact H'.
      * exists h'. split; [reflexivity|]. now apply is2_P1 in Hh2.
    + cbn [bind]. rewrite combine_length, !unbind_length, Hs1, Hs2, Nat.min_id in Hl, Hr. cbn [Nat.add] in Hr.
      assert (Hr0 : r <> []) by (destruct r; cbn in Hl; [lia|congruence]).
      unfold picks. destruct oi as [i|].
      * destruct Hi as (c & Hc).
        destruct (stack_P0 r [B] (fun k q => L (nth 0 q 0%nat) (S k) c) 1 Hr0 eq_refl) as (y & E & Hy).
        { intros d j Hj. apply (Hr j d ltac:(lia) c Hc). }
        exists y. split; [exact E|]. intros c' Hc'. rewrite Hc in Hc'. injection Hc' as <-.
        apply is2_P1. rewrite Hl in Hy. exact Hy.
      * destruct (stack_P1 r [B] M (fun k q m => L (nth 0 q 0%nat) (S k) m) 1 Hr0 eq_refl) as (y & E & Hy).
        { intros d j Hj. apply (Hr j d). lia. }
        exists y. split; [exact E|]. apply is3_P2. rewrite Hl in Hy. exact Hy.
  - assert (HAT : is4 (mT A) B N M M (fun b n i j => Af b n j i)).
    { apply is4_P3. apply is4_P3 in HA. eassert (isP3 (mT A) _ _ _ _ _) as H by vsolve. exact H. }
    set (AT := mT A) in *. clearbody AT.
    assert (Hs2 : size AT 1 = N) by (unfold size; now rewrite (proj1 HAT)).
    assert (HATs : forall k, (k < N)%nat -> is3 (sel 1 k AT) B M M (fun b i j => Af b k j i)).
    { intros k Hk. apply is3_P2. apply is4_P3 in HAT. eassert (isP2 (sel 1 k AT) _ _ _ _) as H by vsolve. exact H. }
    assert (Hz3 : is3 (unsqueeze 1 zi) B 1 M (fun b _ m => zf b m)).
    { apply is3_P2. apply is2_P1 in Hz. eassert (isP2 (unsqueeze 1 zi) _ _ _ _) as Hu by vsolve. exact Hu. }
    destruct (loopM_spec (fun k (h : ten) => is3 h B 1 M (fun b _ m => L b k m))
      (fun k (t : ten) => match oi with None => isP2 t [B] 1 M (fun q _ m => L (nth 0 q 0%nat) (S k) m)
         | Some i => forall c, pyidx M i = Some c -> isP1 t [B] 1 (fun q _ => L (nth 0 q 0%nat) (S k) c) end)
      (fun h xa => baddbmm (unsqueeze 1 (fst xa)) h (snd xa))
      (fun h => match oi with None => Ok h | Some i => select 2 i h end) (combine (unbind 1 x') (unbind 1 AT)) 0 (unsqueeze 1 zi))
      as (r & -> & Hl & Hr).
    + exact Hz3.
    + intros k h [xn an] Hk Hh. apply nth_error_combine in Hk as [Hk1 Hk2]. cbn [fst snd Nat.add] in *.
      apply nth_error_unbind in Hk1 as [Hk ->]. apply nth_error_unbind in Hk2 as [_ ->]. rewrite Hs1 in Hk.
      destruct (baddbmm_step R (sel 1 k x') h (sel 1 k AT) B M _ _ _ (sel_13 R x' B N M u k Hx' Hk) Hh (HATs k Hk)) as (h' & E & Hh').
      assert (Hh2 : is3 h' B 1 M (fun b _ m => L b (S k) m)).
      { eapply is3_ext; [exact Hh'|]. intros b o i Hb Ho Hi0. cbn beta. unfold L. cbn [hstate]. reflexivity. }
      exists h'. split; [exact E|]. split; [exact Hh2|]. destruct oi as [i|].
      * destruct Hi as (c & Hc). pose proof (pyidx_lt _ _ _ Hc).
        rewrite (select_ok h' 2 i c) by (unfold size; rewrite (proj1 Hh2); exact Hc).
        eexists; split; [reflexivity|]. intros c' Hc'. rewrite Hc in Hc'. injection Hc' as <-.
        apply is3_P2 in Hh2. pose proof (P2_sel1 h' [B] 1 M _ 2 c Hh2 eq_refl H) as H'. exact H'.
      * exists h'. split; [reflexivity|]. now apply is3_P2 in Hh2.
    + cbn [bind]. rewrite combine_length, !unbind_length, Hs1, Hs2, Nat.min_id in Hl, Hr. cbn [Nat.add] in Hr.
      assert (Hr0 : r <> []) by (destruct r; cbn in Hl; [lia|congruence]).
      unfold picks. destruct oi as [i|].
      * destruct Hi as (c & Hc).
        destruct (cat1_P1 r [B] (fun k q => L (nth 0 q 0%nat) (S k) c) 1 Hr0 eq_refl) as (y & E & Hy).
        { intros d j Hj. eapply isP1_ext; [apply (Hr j d ltac:(lia) c Hc)|]. reflexivity. }
        exists y. split; [exact E|]. intros c' Hc'. rewrite Hc in Hc'. injection Hc' as <-.
        apply is2_P1. rewrite Hl in Hy. exact Hy.
      * destruct (cat1_P2 r [B] M (fun k q m => L (nth 0 q 0%nat) (S k) m) 1 Hr0 eq_refl) as (y & E & Hy).
        { intros d j Hj. apply (Hr j d). lia. }
        exists y. split; [exact E|]. apply is3_P2. rewrite Hl in Hy. exact Hy.
Qed.

Lemma P3_repeat0_raw (t : ten) n k m p r f : is4 t k m p r f ->
  is4 (repeat0 n t) (n * k) m p r (fun i => f (i mod k)%nat).
Proof.
  intros [Hs Hf]. unfold repeat0, size. rewrite Hs. split; [reflexivity|].
  intros i j l q Hi Hj Hl Hq. cbn [at_ upd nth]. apply Hf; auto. apply Nat.mod_upper_bound. nia.
Qed.


(** Running products f 0 f 1 ... f n, in this order; [rp f n] is the product of the first n. *)
Section Prod.
Variable M : nat.
Fixpoint rprod (f : nat -> nat -> nat -> R) (n : nat) : nat -> nat -> R :=
  match n with O => f 0%nat | S n => mmul M (rprod f n) (f (S n)) end.
Definition rp (f : nat -> nat -> nat -> R) (n : nat) : nat -> nat -> R :=
  match n with O => mid | S n => rprod f n end.
Lemma rprod_ext (f g : nat -> nat -> nat -> R) n i j :
  (forall k i j, (k <= n)%nat -> (i < M)%nat -> (j < M)%nat -> f k i j = g k i j) ->
  (i < M)%nat -> (j < M)%nat -> rprod f n i j = rprod g n i j.
Proof.
  revert i j. induction n as [|n IH]; intros i j H Hi Hj; cbn [rprod]; [auto|].
  unfold mmul. apply bsum_ext. intros l Hl. f_equal; [apply IH; auto|apply H; auto].
Qed.
Fixpoint itp (g : nat -> nat -> R) (f : nat -> nat -> nat -> R) (n : nat) : nat -> nat -> R :=
  match n with O => g | S n => mmul M (itp g f n) (f n) end.
Lemma itp_S g f n : itp (mmul M g (f 0%nat)) (fun k => f (S k)) n = itp g f (S n).
Proof. induction n as [|n IH]; [reflexivity|]. cbn [itp]. rewrite IH. reflexivity. Qed.
Lemma itp_rprod f n : itp (f 0%nat) (fun k => f (S k)) n = rprod f n.
Proof. induction n as [|n IH]; [reflexivity|]. cbn [itp rprod]. now rewrite IH. Qed.
Lemma accum_list_raw (l : list ten) acc pre (f : nat -> list nat -> nat -> nat -> R) g :
  (forall d j, (j < length l)%nat -> isP2 (nth j l d) pre M M (f j)) -> isP2 acc pre M M g ->
  exists r, accumM matmul acc l = Ok r /\ length r = S (length l) /\
    forall d j, (j < S (length l))%nat -> isP2 (nth j r d) pre M M (fun q => itp (g q) (fun k => f k q) j).
Proof.
  revert acc f g. induction l as [|A l IH]; intros acc f g Hl Hacc; cbn [accumM].
  - exists [acc]. repeat split; auto; intros; destruct j; try (cbn in *; lia); cbn [nth]. apply Hacc.
    destruct Hacc as [_ Ha]. now apply Ha.
  - pose proof (Hl acc 0%nat ltac:(cbn; lia)) as HA. cbn [nth] in HA.
    mstep. destruct (IH w (fun j => f (S j)) _ (fun d j Hj => Hl d (S j) ltac:(cbn; lia)) H)
      as (r & -> & Hr & Hn). cbn [bind].
    exists (acc :: r). split; [reflexivity|]. split; [cbn; lia|].
    intros d [|j] Hj; cbn [nth].
    + exact Hacc.
    + eapply isP2_ext; [apply Hn; cbn in Hj; lia|]. intros q i c Hq Hi Hc. cbn beta.
      change (fun i j => bsum M (fun l => g q i l * f 0%nat q l j)) with (mmul M (g q) (f 0%nat q)).
      now rewrite (itp_S (g q) (fun k => f k q)).
Qed.
Lemma accum_unbind_raw (A : ten) pre n (f : list nat -> nat -> nat -> nat -> R) d :
  isP3 A pre n M M f -> d = (length pre + 0)%nat -> (1 <= n)%nat ->
  exists l, accumulate matmul (unbind d A) = Ok l /\ length l = n /\
    forall dd j, (j < n)%nat -> isP2 (nth j l dd) pre M M (fun q => rprod (f q) j).
Proof.
  intros HA Hd Hn. pose proof HA as [Hs _].
  assert (Hsz : size A d = n) by (unfold size; rewrite Hs; subst d; now rewrite nth_app).
  assert (Hv : forall dd j, (j < n)%nat -> isP2 (nth j (unbind d A) dd) pre M M (fun q => f q j)).
  { intros dd j Hj. rewrite nth_unbind by lia. eapply P3_sel0; eauto. }
  pose proof (unbind_length A d) as Hl. rewrite Hsz in Hl.
  destruct (unbind d A) as [|a l] eqn:El; [cbn in Hl; lia|]. cbn [accumulate].
  destruct (accum_list_raw l a pre (fun j q => f q (S j)) (fun q => f q 0%nat)) as (r & E & Hr & Hn').
  { intros dd j Hj. apply (Hv dd (S j)). cbn in Hl. lia. }
  { apply (Hv a 0%nat). lia. }
  exists r. split; [exact E|]. cbn in Hl. split; [lia|].
  intros dd j Hj. eapply isP2_ext; [apply Hn'; lia|]. intros q i c Hq Hi Hc. cbn beta.
  now rewrite (itp_rprod (f q)).
Qed.
End Prod.
Lemma unflatten1_P3_raw (A : ten) pre n m p f d :
  isP3 A pre n m p f -> d = (length pre + 0)%nat ->
  exists y, unflatten d [n] A = Ok y /\ isP3 y pre n m p f.
Proof.
  intros [Hs Hf] ->. unfold unflatten, size. rewrite Hs.
  replace (S (length pre + 0)) with (length pre + 1)%nat by lia.
  applen. tred. rewrite Nat.eqb_refl. eexists; split; [reflexivity|].
  split; cbn [shape at_].
  - now rewrite <- ?app_assoc.
  - intros. replace (length pre + 0 + 1)%nat with (length pre + 1)%nat by lia. lenfix. applen. tred.
    rewrite <- ?app_assoc. cbn [app]. now apply Hf.
Qed.
Lemma flatten1_P3_raw (A : ten) pre n m p f d :
  isP3 A pre n m p f -> d = (length pre + 0)%nat -> isP3 (flatten d d A) pre n m p f.
Proof.
  intros [Hs Hf] ->. unfold flatten. rewrite Hs.
  replace (S (length pre + 0) - (length pre + 0))%nat with 1%nat by lia.
  replace (S (length pre + 0))%nat with (length pre + 1)%nat by lia.
  applen. tred. split; cbn [shape at_]; [now rewrite <- app_assoc|].
  intros. lenfix. applen. tred. rewrite <- ?app_assoc. cbn [app]. now apply Hf.
Qed.
(** matrices_cumdot on one matrix or a prime number of them. *)
Lemma cumdot_raw (A : ten) pre n M f :
  isP3 A pre n M M f -> n = 1%nat \/ is_prime n ->
  exists y, matrices_cumdot A = Ok y /\ isP3 y pre n M M (fun q k => rprod M (f q) k).
Proof.
  intros HA Hn. unfold matrices_cumdot, sizen.
  assert (Hrk := P3_rk _ _ _ _ _ _ HA). pose proof HA as [Hs _].
  rewrite Hs, Hrk. btrue (3 <=? length pre + 3).
  rewrite !(nth_pre _ _ (length pre + 3 - 2) 1), !(nth_pre _ _ (length pre + 3 - 1) 2),
    !(nth_pre _ _ (length pre + 3 - 3) 0) by lia.
  cbn [nth]. rewrite Nat.eqb_refl.
  destruct (n =? 1) eqn:E; b2p.
  - subst n. eexists; split; [reflexivity|]. fin HA; auto. intros q i j k Hq Hi Hj Hk.
    replace i with 0%nat by lia. reflexivity.
  - destruct Hn as [->|Hp]; [congruence|]. rewrite (factorint_prime n Hp). cbn [rev app].
    destruct (unflatten1_P3_raw A pre n M M f (length pre + 3 - 3) HA ltac:(lia)) as (u & -> & Hu).
    cbn [bind]. rewrite (P3_rk _ _ _ _ _ _ Hu).
    rewrite (Nat.add_comm (length pre) 3). cbn [Nat.add mat_cumdot_runner].
    destruct Hp as [Hp _].
    rewrite (P3_rk _ _ _ _ _ _ Hu).
    destruct (accum_unbind_raw M u pre n f (length pre + 3 - 3) Hu ltac:(lia) ltac:(lia))
      as (l & -> & Hl & Hv). cbn [bind].
    destruct (stack_P2 l pre M M (fun j q => rprod M (f q) j) (length pre + 3 - 3))
      as (acc & -> & Hacc).
    { destruct l; cbn in Hl; [lia|congruence]. }
    { lia. }
    { intros dd j Hj. apply Hv. lia. }
    cbn [bind].
    match goal with |- context [(?a =? ?b)%nat] => btrue (a =? b)%nat end. cbn [bind].
    eexists; split; [reflexivity|]. rewrite (P3_rk _ _ _ _ _ _ Hacc). rewrite Hl in Hacc.
    replace (length pre + 3 - 3)%nat with (S (S (S (length pre))) - 3)%nat by lia.
    eapply flatten1_P3_raw; [exact Hacc|lia].
Qed.
End Raw.

(** ** The exact side *)
Section Exact.
Variable E : cring.
Add Ring Er : (r_th E).
Open Scope cr_scope.
Lemma zv_exact M F bs (X : nat -> nat -> E) (p : nat -> nat -> nat -> E) i : (F = 1%nat \/ F = M) -> (1 <= M)%nat ->
  (forall j m, (j < bs)%nat -> (F <= m)%nat -> (m < M)%nat -> X j m = 0) ->
  bsum (bs * F) (fun l => X (l / F)%nat (l mod F) * p (bs - 1 - l / F)%nat i (l mod F)) =
  bsum bs (fun j => mvec M (p (bs - 1 - j)%nat) (X j) i).
Proof.
  intros HF HM H0. rewrite (bsum_flat_dm bs F (fun s m => X s m * p (bs - 1 - s)%nat i m)).
  apply bsum_ext. intros j Hj. unfold mvec. rewrite (bsum_feat E M F (X j) (X j) HF HM).
  - apply bsum_ext. intros. ring.
  - intros m Hm. destruct (m <? F)%nat eqn:E0; b2p; auto.
Qed.
(** The coarse recursion visits every bs-th state of the fine one. *)
Lemma blocks_state M bs (A : nat -> nat -> nat -> E) h x n i : (i < M)%nat ->
  state M (fun c => mprod M (fun t => A (c * bs + (bs - 1 - t))%nat) bs) h
    (fun c i => bsum bs (fun j => mvec M (mprod M (fun t => A (c * bs + (bs - 1 - t))%nat) (bs - 1 - j)%nat) (x (c * bs + j)%nat) i)) n i
  = state M A h x (n * bs) i.
Proof.
  revert i. induction n as [|n IH]; intros i Hi; [reflexivity|]. cbn [state].
  replace (S n * bs)%nat with (n * bs + bs)%nat by lia. rewrite state_tv by assumption.
  assert (HP : forall m a b, (m <= bs)%nat -> (a < M)%nat -> (b < M)%nat ->
    mprod M (fun t => A (n * bs + (bs - 1 - t))%nat) m a b = mprod M (fun t => A (n * bs + bs - 1 - t)%nat) m a b).
  { intros m a b Hm Ha Hb. apply mprod_ext; auto. intros t a0 b0 Ht _ _. f_equal. lia. }
  f_equal.
  - apply mvec_ext; [intros j Hj; apply HP; auto|]. exact IH.
  - apply bsum_ext. intros j Hj. apply mvec_ext; [|reflexivity]. intros l Hl. apply HP; auto; lia.
Qed.
End Exact.

(** ** The recursion *)
Section Rel.
Variable R : cops.
Variable E : cring.
Add Ring Er : (r_th E).
Variable rel : nat -> R -> E -> E -> Prop.
Open Scope cr_scope.
Hypothesis rmono : forall k l v e m, (k <= l)%nat -> rel k v e m -> rel l v e m.
Hypothesis radd' : forall k v e m v' e' m', rel k v e m -> rel k v' e' m' -> rel (S k) (v + v') (e + e') (m + m').
Hypothesis rmul' : forall k l v e m v' e' m', rel k v e m -> rel l v' e' m' -> rel (S (k + l))%nat (v * v') (e * e') (m * m').
Hypothesis r_0 : forall k, rel k r0 r0 r0.
Hypothesis r_1 : forall k, rel k r1 r1 r1.
Hypothesis add_0l : forall x : R, 0 + x = x.
Notation ten := (tensor (car R)).
Let rsum := rel_sum R E rel rmono radd' r_0 add_0l.

Lemma rel_rp M w (f : nat -> nat -> nat -> R) (fe fm : nat -> nat -> nat -> E) n i j : (1 <= M)%nat ->
  (forall t i j, (i < M)%nat -> (j < M)%nat -> rel w (f t i j) (fe t i j) (fm t i j)) -> (i < M)%nat -> (j < M)%nat ->
  rel (n * (w + M) - M) (rp R M f n i j) (mprod M fe n i j) (mprod M fm n i j).
Proof.
  intros HM Hf. revert i j. destruct n as [|n]; intros i j Hi Hj.
  - cbn [rp mprod]. apply (rel_mid R E rel r_0 r_1).
  - cbn [rp]. revert i j Hi Hj. induction n as [|n IH]; intros i j Hi Hj.
    + cbn [rprod mprod]. rewrite !mmul_id_l by assumption. apply (rmono w); [lia|auto].
    + cbn [rprod]. change (mprod M fe (S (S n))) with (mmul M (mprod M fe (S n)) (fe (S n))).
      change (mprod M fm (S (S n))) with (mmul M (mprod M fm (S n)) (fm (S n))).
      apply (rmono ((S n * (w + M) - M) + w + M)%nat); [nia|].
      apply (rel_mmul R E rel rmono radd' rmul' r_0 add_0l); auto.
Qed.
Lemma rel_zv M F bs w c0 (X : nat -> nat -> R) (Xe Xm : nat -> nat -> E) (p : nat -> nat -> nat -> R) (pe pm : nat -> nat -> nat -> E) i :
  (F = 1%nat \/ F = M) -> (1 <= M)%nat -> (2 <= bs)%nat -> (i < M)%nat ->
  (forall j m, (j < bs)%nat -> (m < F)%nat -> rel (c0 + 2 * (w + M) - M) (X j m) (Xe j m) (Xm j m)) ->
  (forall j m, (j < bs)%nat -> (F <= m)%nat -> (m < M)%nat -> Xe j m = 0 /\ Xm j m = 0) ->
  (forall n j, (n < bs)%nat -> (j < M)%nat -> rel (n * (w + M) - M) (p n i j) (pe n i j) (pm n i j)) ->
  rel (c0 + 2 * (bs * (w + M)) - M)
    (bsum (bs * F) (fun l => X (l / F)%nat (l mod F) * p (bs - 1 - l / F)%nat i (l mod F)))
    (bsum bs (fun j => mvec M (pe (bs - 1 - j)%nat) (Xe j) i))
    (bsum bs (fun j => mvec M (pm (bs - 1 - j)%nat) (Xm j) i)).
Proof.
  intros HF HM Hbs Hi HX H0 Hp.
  rewrite <- (zv_exact E M F bs Xe pe i HF HM) by (intros j m A1 A2 A3; apply (H0 j m A1 A2 A3)).
  rewrite <- (zv_exact E M F bs Xm pm i HF HM) by (intros j m A1 A2 A3; apply (H0 j m A1 A2 A3)).
  assert (HF1 : (1 <= F <= M)%nat) by (destruct HF; lia).
  apply (rmono (S ((c0 + 2 * (w + M) - M) + ((bs - 1) * (w + M) - M)) + (bs * F - 1))%nat); [nia|].
  apply rsum. intros l Hl. pose proof (Nat.mod_upper_bound l F ltac:(lia)).
  assert (l / F < bs)%nat by (apply Nat.div_lt_upper_bound; lia).
  apply rmul'; [apply HX; lia|]. apply (rmono ((bs - 1 - l / F) * (w + M) - M)%nat); [nia|]. apply Hp; lia.
Qed.

(** What the recursion is run with inside a block; the roundings c of the initial states
    may differ from row to row. *)
Definition lpv_leaf_ok (e : env) (pr : bool) (M : nat) : Prop :=
  forall B N (A zi x : ten) Af zf u (ae am : nat -> nat -> nat -> nat -> E) (ze zm : nat -> nat -> E) (ue um : nat -> nat -> nat -> E) oi w0 (c : nat -> nat),
  (1 <= B)%nat -> (1 <= N)%nat -> matv B N M A Af -> is2 zi B M zf -> drive B N M x u -> idx_ok M oi ->
  (forall b n i j, (b < B)%nat -> (n < N)%nat -> (i < M)%nat -> (j < M)%nat -> rel w0 (Af b n i j) (ae b n i j) (am b n i j)) ->
  (forall b i, (b < B)%nat -> (i < M)%nat -> rel (c b) (zf b i) (ze b i) (zm b i)) ->
  (forall b n i, (b < B)%nat -> (n < N)%nat -> (i < M)%nat -> rel (c b + 2 * (w0 + M) - M) (u b n i) (ue b n i) (um b n i)) ->
  exists y yf, (if helion_backend_indicator e then lpv_ext_ss_recur e pr A zi x oi else lpv_recursion_loop A zi x oi) = Ok y /\ picks B N M oi y yf /\
    forall b n i, (b < B)%nat -> (n < N)%nat -> (i < M)%nat -> rel (c b + 2 * (w0 + M) * S n) (yf b n i)
      (state M (ae b) (ze b) (ue b) (S n) i) (state M (am b) (zm b) (um b) (S n) i).
Lemma lpv_leaf_loop e pr M : (1 <= M)%nat -> helion_backend_indicator e = false -> lpv_leaf_ok e pr M.
Proof.
  intros HM Eh B N A zi x Af zf u ae am ze zm ue um oi w0 c HB HN HA Hz Hx Hi RA RZ RU. rewrite Eh.
  destruct (lpv_loop_raw R B N M A zi x Af zf u oi HN HM HA Hz Hx Hi) as (y & E0 & Hy).
  exists y. eexists. split; [exact E0|]. split; [exact Hy|]. intros b n i Hb Hn Hi0. cbn beta.
  apply (rel_hstate R E rel rmono radd' rmul' r_0 add_0l); auto.
  - intros k i' j Hk Hi' Hj. apply RA; lia.
  - intros k j Hk Hj. apply RU; lia.
Qed.

Lemma lpv_ssr_fuel_rel e pr M fuel : lpv_leaf_ok e pr M -> (1 <= M)%nat ->
  forall B N (A zi x : ten) Af zf u (ae am : nat -> nat -> nat -> nat -> E) (ze zm : nat -> nat -> E) (ue um : nat -> nat -> nat -> E) bs oi w0 c0,
  (N < fuel)%nat -> (1 <= B)%nat -> (1 <= N)%nat -> (1 <= bs)%nat ->
  (bs = 1%nat \/ (N <= bs)%nat \/ bs = 2%nat \/ is_prime (bs - 1)) ->
  matv B N M A Af -> is2 zi B M zf -> drive B N M x u -> idx_ok M oi ->
  (forall b n i j, (b < B)%nat -> (n < N)%nat -> (i < M)%nat -> (j < M)%nat -> rel w0 (Af b n i j) (ae b n i j) (am b n i j)) ->
  (forall b i, (b < B)%nat -> (i < M)%nat -> rel c0 (zf b i) (ze b i) (zm b i)) ->
  (forall b n i, (b < B)%nat -> (n < N)%nat -> (i < M)%nat -> rel (c0 + 2 * (w0 + M) - M) (u b n i) (ue b n i) (um b n i)) ->
  (rk x = 2%nat -> forall b n m, (b < B)%nat -> (n < N)%nat -> (1 <= m)%nat -> (m < M)%nat -> ue b n m = 0 /\ um b n m = 0) ->
  exists y yf, lpv_state_space_recursion_fuel e pr fuel A zi x bs oi = Ok y /\ picks B N M oi y yf /\
    forall b n i, (b < B)%nat -> (n < N)%nat -> (i < M)%nat -> rel (c0 + 2 * (w0 + M) * S n) (yf b n i)
      (state M (ae b) (ze b) (ue b) (S n) i) (state M (am b) (zm b) (um b) (S n) i).
Proof.
  intros Hleaf HM. induction fuel as [|fuel IH];
    intros B N A zi x Af zf u ae am ze zm ue um bs oi w0 c0 Hf HB HN Hbs Hcd HA Hz Hx Hi RA RZ RU RU0; [lia|].
  cbn [lpv_state_space_recursion_fuel].
  assert (size x 0 = B) as -> by (destruct Hx as [f Hx _|Hx]; unfold size; now rewrite (proj1 Hx)).
  assert (size x 1 = N) as -> by (destruct Hx as [f Hx _|Hx]; unfold size; now rewrite (proj1 Hx)).
  assert (((rk x =? 2) || (rk x =? 3))%bool = true) as ->
    by (destruct Hx as [f Hx _|Hx]; rkt; reflexivity).
  assert (((rk A =? 3) || (rk A =? 4))%bool = true) as ->
    by (destruct HA as [g HA _|HA]; rkt; reflexivity).
  assert (sizen A 1 = M) as -> by (destruct HA as [g HA _|HA]; unfold sizen, rk; now rewrite (proj1 HA)).
  assert (sizen A 2 = M) as -> by (destruct HA as [g HA _|HA]; unfold sizen, rk; now rewrite (proj1 HA)).
  assert (sizen A 3 = N) as -> by (destruct HA as [g HA _|HA]; unfold sizen, rk; now rewrite (proj1 HA)).
  assert ((negb (rk A =? 4) || (B =? size A 0))%bool = true) as ->.
  { destruct HA as [g HA _|HA]; rkt; [reflexivity|]. unfold size. rewrite (proj1 HA). cbn [nth]. now rewrite !Nat.eqb_refl. }
  assert ((negb (rk x =? 3) || (M =? sizen x 1))%bool = true) as ->.
  { destruct Hx as [f Hx _|Hx]; rkt; [reflexivity|]. unfold sizen, rk. rewrite (proj1 Hx). cbn [length Nat.sub nth]. now rewrite !Nat.eqb_refl. }
  assert (size zi 0 = B) as -> by (unfold size; now rewrite (proj1 Hz)).
  assert (size zi 1 = M) as -> by (unfold size; now rewrite (proj1 Hz)).
  rewrite (i2_rk _ _ _ _ Hz), !Nat.eqb_refl. cbn [Nat.eqb]. bfalse (bs <? 1)%nat. cbn [negb]. cbv zeta.
  destruct ((bs =? 1) || (N <=? bs))%bool eqn:Eb.
  { apply (Hleaf B N A zi x Af zf u ae am ze zm ue um oi w0 (fun _ => c0)); auto. }
  b2p. assert (Hcd' : bs = 2%nat \/ is_prime (bs - 1)) by (destruct Hcd as [?|[?|?]]; [lia|lia|assumption]).
  (* padding *)
  destruct (blocks N bs) as (k & Hk1 & Hk2 & Hk0 & HkN); [lia|lia|].
  set (xp := if negb (N mod bs =? 0) then pad 1 0 (bs - N mod bs) r0 x else x).
  set (X := fun b n m => if n <? N then u b n m else 0).
  set (Xe := fun b n m => if n <? N then ue b n m else 0). set (Xm := fun b n m => if n <? N then um b n m else 0).
  assert (exists (x3 : bool) (Xf : nat -> nat -> nat -> R) (ux : ten), rk xp = (if x3 then 3 else 2)%nat /\
     unflatten_m1 1 bs xp = Ok ux /\
     isP2 (flatten 2 (rk ux - 1) ux) [B] k (bs * nfeat x3 M) (fun q c j => Xf (nth 0 q 0%nat) (c * bs + j / nfeat x3 M)%nat (j mod nfeat x3 M)) /\
     drive (B * k) (bs - 1) M (flatten 0 1 (slice 2 None (Some (-1)%Z) ux)) (fun r n m => X (r / k)%nat ((r mod k) * bs + n)%nat m) /\
     (forall b n m, (b < B)%nat -> (n < k * bs)%nat -> (m < M)%nat -> X b n m = if m <? nfeat x3 M then Xf b n m else 0) /\
     (forall b n m, (b < B)%nat -> (nfeat x3 M <= m)%nat -> (m < M)%nat -> Xe b n m = 0 /\ Xm b n m = 0))
    as (x3 & Xf & ux & Hrk & Eux & Hux & Hdux & HX & HX0).
  { destruct Hx as [f Hx Hu|Hx].
    - exists false, (fun b n _ => if n <? N then f b n else 0).
      assert (Hrx : rk x = 2%nat) by (rkt; reflexivity). specialize (RU0 Hrx).
      apply is2_P1 in Hx.
      assert (Hxp : isP1 xp [B] (k * bs) (fun q n => if n <? N then f (nth 0 q 0%nat) n else 0)).
      { unfold xp. destruct (N mod bs =? 0) eqn:Er; b2p; cbn [negb].
        - fin Hx; [lia|]. intros q n Hq Hn. bdec. reflexivity.
        - eassert (isP1 (pad 1 0 (bs - N mod bs) r0 x) _ _ _) as Hp by vsolve.
          fin Hp; [lia|]. intros q n Hq Hn. cbn [Nat.leb Nat.add andb]. now rewrite Nat.sub_0_r. }
      clearbody xp.
      rewrite (unflatten_m1_ok xp 1 bs k) by (try lia; unfold size; now rewrite (proj1 Hxp)).
      destruct (P1_unflat0 xp [B] (k * bs) _ 1 k bs Hxp ltac:(dimt) ltac:(lia)) as (w & Ew & Hw).
      exists w. split; [dimt|]. split; [exact Ew|]. cbv beta in Hw. clear Ew.
      assert (Hxx : forall b n m, (b < B)%nat -> (n < k * bs)%nat -> (m < M)%nat ->
         X b n m = if m <? 1 then (if n <? N then f b n else 0) else 0).
      { intros b n m Hb Hn Hm. unfold X. destruct (n <? N) eqn:E9; b2p.
        * rewrite Hu by lia. destruct m; reflexivity.
        * destruct (m <? 1)%nat; reflexivity. }
      split; [|split; [|split]].
      + pose proof (flat_same R w [B] k bs _ Hw) as H2. replace (rk w - 1)%nat with 2%nat by dimt.
        unfold nfeat. fin H2; [auto|lia|]. intros q c j Hq Hc Hj. now rewrite Nat.div_1_r.
      + nm (slice 2 None (Some (-1)%Z) w). apply (pop2 v [] B) in H1. nm (flatten 0 1 v).
        apply P2_nil in H2. apply drive_2 with (f := fun r n => if ((r mod k) * bs + n <? N)%nat then f (r / k)%nat ((r mod k) * bs + n)%nat else 0).
        * eapply is2_ext; [exact H2|]. intros r n Hr Hn. reflexivity.
        * intros r n m Hr Hn Hm. 
          assert (r / k < B)%nat by (apply Nat.div_lt_upper_bound; lia).
          pose proof (Nat.mod_upper_bound r k ltac:(lia)).
          rewrite Hxx by (auto; nia). destruct m; reflexivity.
      + exact Hxx.
      + intros b n m Hb Hm1 Hm2. unfold Xe, Xm, nfeat in *. destruct (n <? N) eqn:E0; b2p; [|auto]. now apply RU0.
    - exists true, X. apply is3_P2 in Hx.
      assert (Hxp : isP2 xp [B] (k * bs) M (fun q n => X (nth 0 q 0%nat) n)).
      { unfold xp. destruct (N mod bs =? 0) eqn:Er; b2p; cbn [negb].
        - fin Hx; [lia|auto|]. intros q n m Hq Hn Hm. unfold X. bdec. reflexivity.
        - eassert (isP2 (pad 1 0 (bs - N mod bs) r0 x) _ _ _ _) as Hp by vsolve.
          fin Hp; [lia|auto|]. intros q n m Hq Hn Hm. cbn [Nat.leb Nat.add andb]. now rewrite Nat.sub_0_r. }
      clearbody xp.
      rewrite (unflatten_m1_ok xp 1 bs k) by (try lia; unfold size; now rewrite (proj1 Hxp)).
      destruct (P2_unflat0 xp [B] (k * bs) M _ 1 k bs Hxp ltac:(dimt) ltac:(lia)) as (w & Ew & Hw).
      exists w. split; [dimt|]. split; [exact Ew|]. cbv beta in Hw. clear Ew.
      split; [|split; [|split]].
      + replace (rk w - 1)%nat with 3%nat by dimt. nm (flatten 2 3 w).
        unfold nfeat. fin H1; auto.
      + nm (slice 2 None (Some (-1)%Z) w). apply (pop3 v [] B) in H1. nm (flatten 0 1 v).
        apply P3_nil in H2. apply drive_3.
        eapply is3_ext; [exact H2|]. intros r n m Hr Hn Hm. reflexivity.
      + intros b n m Hb Hn Hm. unfold nfeat. bdec. reflexivity.
      + intros b n m Hb Hm1 Hm2. unfold nfeat in *. lia. }
  rewrite Eux. cbn [bind]. clear Eux. clearbody xp. set (F := nfeat x3 M) in *.
  assert (HF : F = 1%nat \/ F = M) by (unfold F, nfeat; destruct x3; auto).
  assert (HF1 : (1 <= F <= M)%nat) by (destruct HF; lia).
  assert (RX : forall b n m, (b < B)%nat -> (m < M)%nat -> rel (c0 + 2 * (w0 + M) - M) (X b n m) (Xe b n m) (Xm b n m)).
  { intros b n m Hb Hm. unfold X, Xe, Xm. destruct (n <? N)%nat eqn:En; b2p; [apply RU; lia|apply r_0]. }
  (* A: shared or per batch *)
  assert (exists pa al, isP3 A pa N M M al /\ (pa = [] \/ pa = [B]) /\
    (forall b n i j, (b < B)%nat -> (n < N)%nat -> (i < M)%nat -> (j < M)%nat ->
       al (match pa with [] => [] | _ => [b] end) n i j = Af b n i j))
    as (pa & al & HAp & Hpa & Hal).
  { destruct HA as [g HA HAg|HA].
    - exists [], (fun _ => g). apply is3_P in HA. split; [exact HA|]. split; [auto|]. intros. now rewrite HAg.
    - exists [B], (fun q => Af (nth 0 q 0%nat)). apply is4_P3 in HA. split; [exact HA|]. split; [auto|]. reflexivity. }
  set (ap := if negb (N mod bs =? 0) then pad (rk A - 3) 0 (bs - N mod bs) r0 A else A).
  set (AL := fun q n i j => if n <? N then al q n i j else 0).
  assert (Hap : isP3 ap pa (k * bs) M M AL).
  { unfold ap, AL. destruct (N mod bs =? 0) eqn:Er; b2p; cbn [negb].
    - fin HAp; [lia|auto|auto|]. intros q n i j Hq Hn Hi0 Hj. bdec. reflexivity.
    - eassert (isP3 (pad (rk A - 3) 0 (bs - N mod bs) r0 A) _ _ _ _ _) as Hp by vsolve.
      fin Hp; [lia|auto|auto|]. intros q n i j Hq Hn Hi0 Hj. cbn [Nat.leb Nat.add andb]. now rewrite Nat.sub_0_r. }
  clearbody ap. set (AF := fun b n => AL (match pa with [] => [] | _ => [b] end) n).
  set (AE := fun b n i j => if n <? N then ae b n i j else 0). set (AM := fun b n i j => if n <? N then am b n i j else 0).
  assert (RAF : forall b n i j, (b < B)%nat -> (i < M)%nat -> (j < M)%nat -> rel w0 (AF b n i j) (AE b n i j) (AM b n i j)).
  { intros b n i j Hb Hi0 Hj. unfold AF, AL, AE, AM. destruct (n <? N)%nat eqn:En; b2p; [rewrite Hal by assumption; auto|apply r_0]. }
  rewrite (unflatten_m1_ok ap (rk ap - 3) bs k).
  2: lia. 2: { unfold size, rk. rewrite (proj1 Hap). destruct Hpa as [->| ->]; reflexivity. }
  mstep. rename w into ua. rename H1 into Hua. 
  nm (slice (rk ua - 3) (Some 1%Z) None ua). nm (flip (rk v - 3) v).
  set (P := fun q c => rp R M (fun t => AL q (c * bs + (bs - 1 - t))%nat)).
  assert (exists cu, matrices_cumdot v0 = Ok cu /\ isP4 cu pa k (bs - 1) M M (fun q c i => P q c (S i)))
    as (cu & -> & Hcu).
  { apply push3 in H2. destruct (cumdot_raw R v0 (pa ++ [k]) (bs - 1) M _ H2) as (cu & E0 & Hc); [destruct Hcd' as [->|?]; auto|]. exists cu. split; [exact E0|].
    apply pop3 in Hc. fin Hc; auto. intros q c i a b Hq Hc0 Hi0 Ha Hb. unfold P.
    pose proof (vld_len _ _ Hq) as Hlq.
    cbn [rp]. apply rprod_ext; auto. intros t a' b' Ht _ _.
    rewrite <- Hlq, firstn_app, Nat.sub_diag, firstn_all, firstn_O, app_nil_r, app_nth2, Nat.sub_diag by lia.
    cbn [nth]. do 2 f_equal. lia. }
  cbn [bind]. clear H1 H2 v v0.
  nm (flip (rk cu - 3) cu). rename v into ac.
  assert (Hac : isP4 ac pa k (bs - 1) M M (fun q c i => P q c (bs - 1 - i)%nat)).
  { fin H1; auto. intros q c i a b Hq Hc0 Hi0 Ha Hb. do 1 f_equal. lia. }
  clear H1 Hcu cu.
  rewrite (select_ok ac (rk ac - 3) 0%Z 0) by (unfold size, rk; rewrite (proj1 Hac); destruct Hpa as [->| ->]; cbn [app nth length Nat.add Nat.sub]; apply (pyidx_nat _ 0); lia).
  cbn [bind].
  rewrite (select_ok ua (rk ua - 3) 0%Z 0) by (unfold size, rk; rewrite (proj1 Hua); destruct Hpa as [->| ->]; cbn [app nth length Nat.add Nat.sub]; apply (pyidx_nat _ 0); lia).
  cbn [bind].
  nm (sel (rk ac - 3) 0 ac). nm (sel (rk ua - 3) 0 ua). mm. rename w into apd.
  assert (Hapd : isP3 apd pa k M M (fun q c => P q c bs)).
  { fin H3; auto. intros q c a b Hq Hc0 Ha Hb. unfold P. rewrite !bi_lt by assumption.
    transitivity (rp R M (fun t => AL q (c * bs + (bs - 1 - t))%nat) (S (S (bs - 2))) a b); [|f_equal; lia].
    rewrite Nat.sub_0_r. replace (bs - 1)%nat with (S (bs - 2)) by lia. cbn [rp rprod]. unfold mmul. rewrite Nat.sub_diag. reflexivity. }
  clear H1 H2 H3 v v0.
  assert (HI : is2 (@eye R M) M M mid) by (apply is2_P; apply P2_eye; reflexivity).
  assert (firstn (rk ac - 3) (shape ac) ++ [1%nat; M; M] = ((pa ++ [k]) ++ [1%nat]) ++ [M; M]) as ->.
  { rewrite (proj1 Hac). replace (rk ac - 3)%nat with (length (pa ++ [k])) by (rewrite app_length; dimt).
    change (pa ++ [k; (bs - 1)%nat; M; M]) with (pa ++ [k] ++ [(bs - 1)%nat; M; M]).
    rewrite (app_assoc pa), firstn_app, Nat.sub_diag, firstn_all, firstn_O, app_nil_r, <- !app_assoc. reflexivity. }
  destruct (expand_pre2 (@eye R M) ((pa ++ [k]) ++ [1%nat]) M M mid HI) as (I & -> & HIe). cbn [bind].
  apply pop2, pop3 in HIe. cat2. rename w into aI.
  assert (HaI : isP4 aI pa k bs M M (fun q c i => P q c (bs - 1 - i)%nat)).
  { fin H1; auto; [lia|]. intros q c i a b Hq Hc Hi0 Ha Hb. 
    destruct (i <? bs - 1)%nat eqn:E9; b2p; [reflexivity|].
    replace (bs - 1 - i)%nat with 0%nat by lia. reflexivity. }
  clear H1 HIe I Hac ac.
  (* mat1 *)
  assert (exists m1,
    (if rk xp =? 3 then Ok (flatten (rk (mT aI) - 3) (rk (mT aI) - 2) (mT aI))
      else select (rk aI - 1) 0 aI) = Ok m1 /\
    isP3 m1 pa k (bs * F) M (fun q c r i => P q c (bs - 1 - r / F)%nat i (r mod F))) as (m1 & -> & Hm1).
  { rewrite Hrk. unfold F, nfeat. destruct x3; cbn [Nat.eqb].
    - nm (mT aI). nm (flatten (rk v - 3) (rk v - 2) v).
      eexists; split; [reflexivity|]. fin H2; auto.
    - rewrite (select_ok aI _ 0%Z 0%nat) by (unfold size; rewrite (proj1 HaI), (nth_pre _ _ _ 3) by dimt; cbn [nth]; apply (pyidx_nat M 0); lia).
      eexists; split; [reflexivity|]. nm (sel (rk aI - 1) 0 aI). fin H1; auto; [lia|].
      intros q c r i Hq Hc Hr Hi0. destruct (dm_1 r) as [-> ->]. reflexivity. }
  cbn [bind].
  set (uxf := flatten 2 (rk ux - 1) ux) in *. clearbody uxf.
  nm (unsqueeze (rk uxf - 1) uxf). rename v into ux4.
  set (PF := fun b c => rp R M (fun t => AF b (c * bs + (bs - 1 - t))%nat)).
  set (PE := fun b c => mprod M (fun t => AE b (c * bs + (bs - 1 - t))%nat)).
  set (PM := fun b c => mprod M (fun t => AM b (c * bs + (bs - 1 - t))%nat)).
  assert (RP : forall b c n i j, (b < B)%nat -> (i < M)%nat -> (j < M)%nat -> rel (n * (w0 + M) - M) (PF b c n i j) (PE b c n i j) (PM b c n i j)).
  { intros b c n i j Hb Hi0 Hj. apply rel_rp; auto. }
  set (Z := fun b c i => bsum (bs * F) (fun l => Xf b (c * bs + l / F)%nat (l mod F)%nat * PF b c (bs - 1 - l / F)%nat i (l mod F)%nat)).
  set (Ze := fun b c i => bsum bs (fun j => mvec M (PE b c (bs - 1 - j)%nat) (Xe b (c * bs + j)%nat) i)).
  set (Zm := fun b c i => bsum bs (fun j => mvec M (PM b c (bs - 1 - j)%nat) (Xm b (c * bs + j)%nat) i)).
  assert (exists z4, matmul ux4 m1 = Ok z4 /\ is4 z4 B k 1 M (fun b c _ i => Z b c i)) as (z4 & -> & Hz4).
  { destruct Hpa as [->| ->]; mm; (eexists; split; [reflexivity|]); apply is4_P3; 
      match goal with H : isP3 _ [B] k 1 M _ |- _ => fin H end; auto;
      intros q c o i Hq Hc Ho Hi0; apply vld_1_inv in Hq as (b & -> & Hb); cbn [nth] in *;
      unfold Z; apply bsum_ext; intros l Hl; rewrite ?bi_lt by assumption; reflexivity. }
  cbn [bind].
  assert (Hzz : is3 (squeeze (rk z4 - 2) z4) B k M Z).
  { rewrite squeeze_sel_raw by (rkt; unfold size; now rewrite (proj1 Hz4)).
    apply is4_P3 in Hz4. nm (sel (rk z4 - 2) 0 z4). apply is3_P2. exact H2. }
  set (z := squeeze (rk z4 - 2) z4) in *. clearbody z. clear Hz4 z4.
  destruct (IH B k apd zi z (fun b c => PF b c bs) zf Z (fun b c => PE b c bs) (fun b c => PM b c bs) ze zm Ze Zm bs None
     (bs * (w0 + M) - M)%nat c0)
    as (rest & rf & -> & Hrest & Rrest); try lia; auto.
  { destruct Hpa as [->| ->].
    - apply matv_s with (g := fun c => P [] c bs); [|reflexivity].
      apply is3_P. fin Hapd; auto. intros q c i j Hq Hc Hi0 Hj. now apply vld_nil_inv in Hq as ->.
    - apply matv_b. apply is4_P3. fin Hapd; auto. intros q c i j Hq Hc Hi0 Hj. apply vld_1_inv in Hq as (b & -> & Hb).
      reflexivity. }
  { now apply drive_3. }
  { exact Logic.I. }
  { intros b c i Hb Hc Hi0. replace (bs * (w0 + M) - M + M)%nat with (bs * (w0 + M))%nat by nia.
    apply (rel_zv M F bs w0 c0 (fun j => Xf b (c * bs + j)%nat) (fun j => Xe b (c * bs + j)%nat) (fun j => Xm b (c * bs + j)%nat) (PF b c) (PE b c) (PM b c)); auto; try lia.
    intros j m Hj Hm. pose proof (RX b (c * bs + j)%nat m Hb ltac:(lia)) as Hr. rewrite HX in Hr by (auto; nia).
    assert ((m <? F)%nat = true) as Em by (apply Nat.ltb_lt; exact Hm). fold F in Hr. rewrite Em in Hr. exact Hr. }
  { intros Hr2. rewrite (i3_rk _ _ _ _ _ Hzz) in Hr2. lia. }
  replace (bs * (w0 + M) - M + M)%nat with (bs * (w0 + M))%nat in Rrest by nia.
  cbn [bind]. cbn [picks] in Hrest. pose proof Hz as Hz1. apply is2_P1 in Hz1. apply is3_P2 in Hrest.
  nm (unsqueeze 1 zi). cat2. rename w into ini.
  set (L := fun b c i => if (c =? 0)%nat then zf b i else rf b (c - 1)%nat i).
  set (Le := fun b n i => state M (AE b) (ze b) (Xe b) n i).
  set (Lm := fun b n i => state M (AM b) (zm b) (Xm b) n i).
  assert (Hini : isP2 ini [B] (S k) M (fun q c i => L (nth 0 q 0%nat) c i)).
  { match goal with H : isP2 ini _ _ _ _ |- _ => fin H end; auto.
    intros q c i Hq Hc Hi0. apply vld_1_inv in Hq as (b & -> & Hb). cbn [nth]. unfold L.
    destruct (c <? 1)%nat eqn:E0; b2p; bdec; reflexivity. }
  assert (RL : forall b c i, (b < B)%nat -> (c < S k)%nat -> (i < M)%nat ->
     rel (c0 + 2 * (bs * (w0 + M)) * c) (L b c i) (Le b (c * bs)%nat i) (Lm b (c * bs)%nat i)).
  { intros b c i Hb Hc Hi0. unfold L. destruct c as [|c].
    - unfold Le, Lm. rewrite Nat.mul_0_r, Nat.add_0_r. cbn [Nat.eqb Nat.mul state]. auto.
    - cbn [Nat.eqb]. replace (S c - 1)%nat with c by lia. specialize (Rrest b c i Hb ltac:(lia) Hi0).
      unfold Ze, Zm, PE, PM in Rrest.
      rewrite (blocks_state E M bs (AE b) (ze b) (Xe b)), (blocks_state E M bs (AM b) (zm b) (Xm b)) in Rrest by assumption. exact Rrest. }
  match goal with H : isP2 ini _ _ _ (fun q i j => if _ then _ else _) |- _ => clear H end.
  clear Hz1 Hrest Hzz z rest.
  nm (slice 1 None (Some (-1)%Z) ini). rename v0 into in0.
  assert (Hin0 : is2 (flatten 0 1 in0) (B * k) M (fun r i => L (r / k)%nat (r mod k)%nat i)).
  { match goal with H : isP2 in0 _ _ _ _ |- _ => apply (pop2 in0 [] B) in H end. nm (flatten 0 1 in0).
    match goal with H : isP2 v0 _ _ _ _ |- _ => apply P2_nil in H; eapply is2_ext; [exact H|] end. intros; reflexivity. }
  set (inf := flatten 0 1 in0) in *. clearbody inf.
  set (uxs := flatten 0 1 (slice 2 None (Some (-1)%Z) ux)) in *. clearbody uxs.
  assert (HuA : matv (B * k) (bs - 1) M
    (if rk ua =? 5 then flatten 0 1 (slice 2 None (Some (-1)%Z) ua)
       else repeat0 B (slice 1 None (Some (-1)%Z) ua)) (fun r n => AF (r / k)%nat ((r mod k) * bs + n)%nat)).
  { apply matv_b. destruct Hpa as [->| ->]; rkt; cbn [length Nat.add Nat.eqb].
    - nm (slice 1 None (Some (-1)%Z) ua). 
      match goal with H : isP4 v0 _ _ _ _ _ _ |- _ => apply P4_nil in H; pose proof (P3_repeat0_raw R _ B _ _ _ _ _ H) as Hq end.
      destruct Hq as [Hs Hq]. split; [exact Hs|]. intros r n i j Hr Hn Hi0 Hj.
      rewrite Hq by assumption. reflexivity.
    - nm (slice 2 None (Some (-1)%Z) ua).
      match goal with H : isP4 v0 _ _ _ _ _ _ |- _ => apply (pop4 v0 [] B) in H end. nm (flatten 0 1 v0).
      match goal with H : isP4 v1 _ _ _ _ _ _ |- _ => apply P4_nil in H; eapply is4_ext; [exact H|] end. intros; reflexivity. }
  match goal with |- context [repeat0 B (slice 1 None (Some (-1)%Z) ua)] =>
    set (uas := if rk ua =? 5 then _ else _) in * end. clearbody uas.
  assert (Hrow : forall r, (r < B * k)%nat -> (r / k < B)%nat /\ (r mod k < k)%nat).
  { intros r Hr. split; [apply Nat.div_lt_upper_bound; lia|apply Nat.mod_upper_bound; lia]. }
  destruct (Hleaf (B * k)%nat (bs - 1)%nat uas inf uxs _ _ _
    (fun r n => AE (r / k)%nat ((r mod k) * bs + n)%nat) (fun r n => AM (r / k)%nat ((r mod k) * bs + n)%nat)
    (fun r i => Le (r / k)%nat ((r mod k) * bs)%nat i) (fun r i => Lm (r / k)%nat ((r mod k) * bs)%nat i)
    (fun r n m => Xe (r / k)%nat ((r mod k) * bs + n)%nat m) (fun r n m => Xm (r / k)%nat ((r mod k) * bs + n)%nat m)
    oi w0 (fun r => c0 + 2 * (bs * (w0 + M)) * (r mod k))%nat ltac:(nia) ltac:(lia) HuA Hin0 Hdux Hi) as (o0 & lo & -> & Ho0 & Rlo).
  { intros r n i j Hr Hn Hi0 Hj. apply RAF; auto. now apply Hrow. }
  { intros r i Hr Hi0. apply RL; auto; [now apply Hrow|]. pose proof (proj2 (Hrow r Hr)). lia. }
  { intros r n i Hr Hn Hi0. apply (rmono (c0 + 2 * (w0 + M) - M)%nat); [lia|]. apply RX; auto. now apply Hrow. }
  cbn [bind].
  set (yf := fun b n i => if (n mod bs <? bs - 1)%nat then lo (b * k + n / bs)%nat (n mod bs)%nat i else L b (S (n / bs)) i).
  assert (Ry : forall b n i, (b < B)%nat -> (n < N)%nat -> (i < M)%nat -> rel (c0 + 2 * (w0 + M) * S n) (yf b n i)
      (state M (ae b) (ze b) (ue b) (S n) i) (state M (am b) (zm b) (um b) (S n) i)).
  { intros b n i Hb Hn Hi0.
    pose proof (Nat.div_mod n bs ltac:(lia)) as Edm. pose proof (Nat.mod_upper_bound n bs ltac:(lia)).
    replace (state M (ae b) (ze b) (ue b) (S n) i) with (Le b (S n) i).
    2: { symmetry. apply state_ext; auto; intros; unfold AE, Xe; bdec; reflexivity. }
    replace (state M (am b) (zm b) (um b) (S n) i) with (Lm b (S n) i).
    2: { symmetry. apply state_ext; auto; intros; unfold AM, Xm; bdec; reflexivity. }
    assert (n < k * bs)%nat by (destruct (Nat.eq_dec (N mod bs) 0); lia).
    assert (n / bs < k)%nat by (apply Nat.div_lt_upper_bound; lia).
    unfold yf. destruct (n mod bs <? bs - 1)%nat eqn:E0; b2p.
    - specialize (Rlo (b * k + n / bs)%nat (n mod bs)%nat i ltac:(nia) E0 Hi0). cbn beta in Rlo.
      assert ((b * k + n / bs) / k = b)%nat as Ed by (rewrite Nat.div_add_l by lia; rewrite Nat.div_small by lia; lia).
      assert ((b * k + n / bs) mod k = n / bs)%nat as Em by (rewrite Nat.add_comm, Nat.mod_add by lia; apply Nat.mod_small; lia).
      rewrite Ed, Em in Rlo.
      assert (Gx : forall (a' : nat -> nat -> nat -> E) g' x', state M (fun t => a' (n / bs * bs + t)%nat) (fun i => state M a' g' x' (n / bs * bs)%nat i)
         (fun t => x' (n / bs * bs + t)%nat) (S (n mod bs)) i = state M a' g' x' (S n) i).
      { intros a' g' x'. rewrite (state_shift_fun E M a' _ g' x' _ (n / bs * bs)%nat (S (n mod bs)) i) by auto. f_equal. lia. }
      unfold Le, Lm in Rlo |- *.
      pose proof (Gx (AE b) (ze b) (Xe b)) as G1. pose proof (Gx (AM b) (zm b) (Xm b)) as G2.
      cbv beta in Rlo, G1, G2. rewrite <- G1, <- G2.
      apply (rmono _ (c0 + 2 * (w0 + M) * S n)%nat) in Rlo; [exact Rlo|]. nia.
    - replace (S n) with (S (n / bs) * bs)%nat by lia. apply (rmono (c0 + 2 * (bs * (w0 + M)) * S (n / bs))%nat); [nia|].
      apply RL; lia. }
  clear - Ho0 Hini Hi Hbs H Hk0 HB Ry HM Hk1 Hk2 HkN H0 HN.
  nm (slice 1 (Some 1%Z) None ini). rename v into ini1.
  assert (Hini1 : isP2 ini1 [B] k M (fun q c i => L (nth 0 q 0%nat) (S c) i)).
  { match goal with H : isP2 ini1 _ _ _ _ |- _ => fin H end; [lia|auto|]. reflexivity. }
  assert (exists out, (let* output := unflatten_1m 0 B o0 in
     match oi with
      | None => let* c := cat 2 [output; unsqueeze 2 ini1] in Ok (flatten 1 2 c)
      | Some i => let* s := select 2 i ini1 in let* c := cat 2 [output; unsqueeze 2 s] in Ok (flatten 1 2 c)
      end)%res = Ok out /\ picks B (k * bs) M oi out yf) as (out & Eout & Hout).
  { clear - Ho0 Hini1 Hi Hbs H Hk0 HB.
    unfold picks in *. destruct oi as [i|].
    - destruct Hi as (c & Hc). pose proof (pyidx_lt _ _ _ Hc) as Hcl. specialize (Ho0 c Hc).
      rewrite (unflatten_1m_ok o0 0 B k) by (try lia; unfold size; now rewrite (proj1 Ho0)).
      apply is2_P in Ho0. unflat2.
      assert (Hw : isP2 w [B] k (bs - 1) (fun q c0 n => lo (nth 0 q 0%nat * k + c0)%nat n c)).
      { match goal with H : isP3 w _ _ _ _ _ |- _ => apply P3_nil in H; apply P2_cons; eapply is3_ext; [exact H|] end.
        intros b c0 n Hb Hc0 Hn. reflexivity. }
      rewrite (select_ok ini1 2 i c) by (unfold size; rewrite (proj1 Hini1); exact Hc). cbn [bind].
      nm (sel 2 c ini1). nm (unsqueeze 2 v). cat2. nm (flatten 1 2 w0).
      eexists; split; [reflexivity|]. intros c' Hc'. rewrite Hc in Hc'. injection Hc' as <-.
      apply is2_P1. match goal with H : isP1 v1 _ _ _ |- _ => fin H end; [nia|]. intros q n Hq Hn.
      replace (bs - 1 + 1)%nat with bs by lia. unfold yf.
      destruct (n mod bs <? bs - 1)%nat eqn:E0; reflexivity.
    - rewrite (unflatten_1m_ok o0 0 B k) by (try lia; unfold size; now rewrite (proj1 Ho0)).
      apply is3_P in Ho0. unflat2.
      assert (Hw : isP3 w [B] k (bs - 1) M (fun q c0 n m => lo (nth 0 q 0%nat * k + c0)%nat n m)).
      { match goal with H : isP4 w _ _ _ _ _ _ |- _ => apply P4_nil in H; apply P3_cons; eapply is4_ext; [exact H|] end.
        intros b c0 n m Hb Hc0 Hn Hm. reflexivity. }
      nm (unsqueeze 2 ini1). cat2. nm (flatten 1 2 w0).
      eexists; split; [reflexivity|]. 
      apply is3_P2. match goal with H : isP2 v0 _ _ _ _ |- _ => fin H end; auto; [nia|]. intros q n m Hq Hn Hm.
      replace (bs - 1 + 1)%nat with bs by lia. unfold yf.
      destruct (n mod bs <? bs - 1)%nat eqn:E0; reflexivity. }
  destruct (unflatten_1m 0 B o0) as [o1|er]; cbn [bind] in Eout |- *; [|discriminate].
  rewrite Eout. cbn [bind].
  destruct (N mod bs =? 0)%nat eqn:Er; b2p; cbn [negb].
  - rewrite (Hk1 Er) in Hout. exists out, yf. split; [reflexivity|]. split; [exact Hout|exact Ry].
  - eexists; exists yf. split; [reflexivity|]. split; [|exact Ry]. specialize (Hk2 Er). pose proof (Nat.mod_upper_bound N bs ltac:(lia)).
    unfold picks in *. destruct oi as [i|].
    + intros c Hc. specialize (Hout c Hc). apply is2_P1 in Hout.
      nm (slice 1 None (Some (- Z.of_nat (bs - N mod bs))%Z) out). apply is2_P1.
      match goal with H : isP1 v _ _ _ |- _ => fin H end; [rewrite ?pyb_neg by lia; lia|]. reflexivity.
    + apply is3_P2 in Hout. nm (slice 1 None (Some (- Z.of_nat (bs - N mod bs))%Z) out).
      apply is3_P2. match goal with H : isP2 v _ _ _ _ |- _ => fin H end; [rewrite ?pyb_neg by lia; lia|auto|]. reflexivity.
Qed.
End Rel.
