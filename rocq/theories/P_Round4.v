(** Rounding errors of the unrolled matrix recursion lti.state_space_recursion, for any
    relation that behaves like an error count (see P_Round3). *)
From Coq Require Import List Arith Lia ZArith Bool Ring.
From Verif Require Import Scalar Tensor TensorLemmas TensorOps TensorAlg TensorTac TensorList
  Spec Shapes Algebra M_Mat P_Mat M_Kernels P_Helion M_LtiSsm P_LtiRecur P_LtiSsm P_Round3.
Import ListNotations.

(** ** Matrix powers over any operations: every power is a product of smaller ones *)
Section Pow.
Variable R : cops.
Notation ten := (tensor (car R)).
Variable M : nat.
(** [P q n f]: [f] stands for the n-th power of the matrix at batch index [q]. *)
Variable P : list nat -> nat -> (nat -> nat -> R) -> Prop.
Hypothesis Pmul : forall q a b f g, (1 <= a)%nat -> (1 <= b)%nat -> P q a f -> P q b g -> P q (a + b) (mmul M f g).
Open Scope cr_scope.
Fixpoint itm (g f : nat -> nat -> R) (j : nat) : nat -> nat -> R :=
  match j with O => g | S j => mmul M (itm g f j) f end.
Lemma itm_S g f j : itm (mmul M g f) f j = itm g f (S j).
Proof. induction j as [|j IH]; [reflexivity|]. cbn [itm]. rewrite IH. reflexivity. Qed.
Lemma itm_P q a f j : (1 <= a)%nat -> P q a f -> P q (a * S j) (itm f f j).
Proof.
  intros Ha Hf. induction j as [|j IH]; [now rewrite Nat.mul_1_r|]. cbn [itm].
  replace (a * S (S j))%nat with (a * S j + a)%nat by lia. apply Pmul; auto. nia.
Qed.
Lemma accum_raw (A acc : ten) pre (f g : list nat -> nat -> nat -> R) k :
  isP2 A pre M M f -> isP2 acc pre M M g ->
  exists l, accumM matmul acc (repeat A k) = Ok l /\ length l = S k /\
    forall d j, (j < S k)%nat -> isP2 (nth j l d) pre M M (fun q => itm (g q) (f q) j).
Proof.
  revert acc g. induction k as [|k IH]; intros acc g HA Hacc; cbn [repeat accumM].
  - exists [acc]. split; [reflexivity|]. split; [reflexivity|]. intros d j Hj. destruct j; [exact Hacc|lia].
  - mstep. destruct (IH w _ HA H) as (l & -> & Hl & Hn). cbn [bind].
    exists (acc :: l). split; [reflexivity|]. split; [cbn; lia|].
    intros d [|j] Hj; cbn [nth]; [exact Hacc|].
    eapply isP2_ext; [apply Hn; lia|]. intros q i c Hq Hi Hc. cbn beta.
    change (fun i j => bsum M (fun l => g q i l * f q l j)) with (mmul M (g q) (f q)). now rewrite itm_S.
Qed.
Lemma runner_raw factors : forall (A : ten) pre f a,
  factors <> [] -> Forall (fun x => (1 <= x)%nat) factors -> (1 <= a)%nat -> isP2 A pre M M f ->
  (forall q, vld pre q -> P q a (f q)) ->
  exists y pf, mat_pwr_accum_runner A factors = Ok y /\
    isP3 y pre (lprod factors) M M (fun q k => pf q (S k)) /\
    forall q k, vld pre q -> (1 <= k)%nat -> (k <= lprod factors)%nat -> P q (a * k) (pf q k).
Proof.
  induction factors as [|fac factors IH]; intros A pre f a Hne HF Ha HA HP; [congruence|].
  inversion_clear HF as [|? ? Hfac HF']. clear Hne.
  cbn [mat_pwr_accum_runner]. destruct fac as [|fac]; [lia|].
  cbn [repeat accumulate].
  destruct (accum_raw A A pre f f fac HA HA) as (l & -> & Hl & Hn). cbn [bind].
  destruct (stack_P2 l pre M M (fun j q => itm (f q) (f q) j) (rk A - 2)) as (acc & -> & Hacc).
  { now destruct l. }
  { dimt. }
  { intros d j Hj. rewrite Hl in Hj. apply (Hn d j Hj). }
  cbn [bind]. rewrite Hl in Hacc.
  destruct factors as [|fac2 factors].
  { exists acc, (fun q k => itm (f q) (f q) (k - 1)). split; [reflexivity|]. cbn [lprod fold_right]. rewrite Nat.mul_1_r. split.
    - fin Hacc; auto. intros. now replace (S i - 1)%nat with i by lia.
    - intros q k Hq Hk1 Hk2. replace (a * k)%nat with (a * S (k - 1))%nat by nia. apply itm_P; auto. }
  set (fs := fac2 :: factors) in *.
  rewrite (select_ok acc (rk acc - 3) (-1)%Z fac).
  2: { unfold size. rewrite (proj1 Hacc), (nth_pre _ _ _ 0) by dimt. cbn [nth].
       rewrite pyidx_m1 by lia. f_equal. lia. }
  cbn [bind]. nm (sel (rk acc - 3) fac acc).
  destruct (IH v pre (fun q => itm (f q) (f q) fac) (a * S fac)%nat) as (hi & pf & -> & Hhi & Hpf); auto.
  { now subst fs. }
  { nia. }
  { intros q Hq. apply itm_P; auto. }
  cbn [bind].
  assert (Hp : (1 <= lprod fs)%nat).
  { clear -HF'. induction HF' as [|x l Hx _ IHl]; cbn [lprod fold_right]; [lia|].
    fold (lprod l). nia. }
  set (Q := lprod fs) in *.
  change (lprod (S fac :: fs)) with (S fac * Q)%nat.
  sx.
  exists w1, (fun q k => let i := (k - 1)%nat in if i <? S fac then itm (f q) (f q) i else
     let r := (i - S fac)%nat in
     if r mod S fac <? fac then mmul M (itm (f q) (f q) (r mod S fac)) (pf q (S (r / S fac)))
     else pf q (S (S (r / S fac)))).
  split; [reflexivity|]. split.
  - match goal with H : isP3 w1 _ _ _ _ _ |- _ => fin H end; [nia|reflexivity|reflexivity|].
    intros q i j k Hq Hi Hj Hk. cbn [Nat.sub Nat.add]. rewrite ?Nat.sub_0_r. cbv zeta.
    replace (fac + 1)%nat with (S fac) by lia.
    destruct (i <? S fac) eqn:E1; b2p; [reflexivity|].
    set (r := (i - S fac)%nat) in *.
    assert (Hr : (r < (Q - 1) * S fac)%nat) by (subst r; nia).
    assert (Hd : (r / S fac < Q - 1)%nat) by (apply Nat.div_lt_upper_bound; lia).
    assert (Hm : (r mod S fac < S fac)%nat) by (apply Nat.mod_upper_bound; lia).
    destruct (r mod S fac <? fac) eqn:E2; b2p.
    + rewrite !bi_lt by lia. reflexivity.
    + reflexivity.
  - intros q k Hq Hk1 Hk2. cbv zeta.
    destruct (k - 1 <? S fac)%nat eqn:E1; b2p.
    { replace (a * k)%nat with (a * S (k - 1))%nat by nia. apply itm_P; auto. }
    set (r := (k - 1 - S fac)%nat) in *.
    assert (Hr : (r < (Q - 1) * S fac)%nat) by (subst r; nia).
    assert (Hd : (r / S fac < Q - 1)%nat) by (apply Nat.div_lt_upper_bound; lia).
    assert (Hm : (r mod S fac < S fac)%nat) by (apply Nat.mod_upper_bound; lia).
    pose proof (Nat.div_mod r (S fac) ltac:(lia)) as Hdm.
    destruct (r mod S fac <? fac)%nat eqn:E2; b2p.
    + replace (a * k)%nat with (a * S (r mod S fac) + a * S fac * S (r / S fac))%nat by nia.
      apply Pmul; [nia|nia|apply itm_P; auto|]. apply Hpf; auto; lia.
    + replace (a * k)%nat with (a * S fac * S (S (r / S fac)))%nat by nia. apply Hpf; auto; lia.
Qed.
Lemma mpa_raw (A : ten) pre f n : isP2 A pre M M f -> (1 <= n)%nat -> (forall q, vld pre q -> P q 1 (f q)) ->
  exists y pf, matrix_power_accumulate_nat A n = Ok y /\ isP3 y pre n M M (fun q k => pf q (S k)) /\
    forall q k, vld pre q -> (1 <= k)%nat -> (k <= n)%nat -> P q k (pf q k).
Proof.
  intros HA Hn HP. unfold matrix_power_accumulate_nat, sizen.
  assert (Hrk := P2_rk _ _ _ _ _ HA). pose proof HA as [Hs _].
  rewrite Hs, Hrk. btrue (2 <=? length pre + 2).
  rewrite !(nth_pre _ _ (length pre + 2 - 2) 0), !(nth_pre _ _ (length pre + 2 - 1) 1) by lia.
  cbn [nth]. rewrite Nat.eqb_refl. bfalse (n =? 0).
  destruct (n =? 1) eqn:E; b2p.
  - subst n. rewrite <- Hrk. pstep. eexists _, (fun q _ => f q). split; [reflexivity|]. split.
    + fin H; auto.
    + intros q k Hq H1 H2. replace k with 1%nat by lia. auto.
  - destruct (runner_raw (factorint n) A pre f 1) as (y & pf & Ey & Hy & Hp); auto.
    { apply factorint_nonempty. lia. }
    { now apply factorint_ge. }
    rewrite factorint_prod in Hy, Hp by lia. exists y, pf. split; [exact Ey|]. split; [exact Hy|].
    intros q k Hq H1 H2. replace k with (1 * k)%nat at 1 by lia. auto.
Qed.
End Pow.

(** ** The exact side: flattened block sums are the closed forms *)
Section Exact.
Variable E : cring.
Add Ring Er : (r_th E).
Open Scope cr_scope.
Lemma z_exact M F bs (X : nat -> nat -> E) (a : nat -> nat -> E) i : (F = 1%nat \/ F = M) -> (1 <= M)%nat ->
  (forall j m, (j < bs)%nat -> (F <= m)%nat -> (m < M)%nat -> X j m = 0) ->
  bsum (bs * F) (fun l => X (l / F)%nat (l mod F) * mpow M a (bs - 1 - l / F) i (l mod F)) =
  bsum bs (fun j => mvec M (mpow M a (bs - 1 - j)) (X j) i).
Proof.
  intros HF HM H0. rewrite (bsum_flat_dm bs F (fun s m => X s m * mpow M a (bs - 1 - s) i m)).
  apply bsum_ext. intros j Hj. unfold mvec. rewrite (bsum_feat E M F (X j) (X j) HF HM).
  - apply bsum_ext. intros. ring.
  - intros m Hm. destruct (m <? F)%nat eqn:E0; b2p; auto.
Qed.
Lemma of_exact M F bs (h : nat -> E) (X : nat -> nat -> E) (a : nat -> nat -> E) w i : (F = 1%nat \/ F = M) -> (1 <= M)%nat ->
  (w < bs - 1)%nat -> (i < M)%nat ->
  (forall j m, (j < bs)%nat -> (F <= m)%nat -> (m < M)%nat -> X j m = 0) ->
  bsum (M + (bs - 1) * F) (fun l =>
        (if l <? M then h l else X ((l - M) / F)%nat ((l - M) mod F)) *
        (if l <? M then mpow M a (S w) i l
         else if (l - M) / F <=? w then mpow M a (w - (l - M) / F) i ((l - M) mod F) else 0))
  = mvec M (mpow M a (S w)) h i + bsum (S w) (fun j => mvec M (mpow M a (S w - 1 - j)) (X j) i).
Proof.
  intros HF HM Hw Hi H0. rewrite bsum_split. f_equal.
  - unfold mvec. apply bsum_ext. intros l Hl. bdec. ring.
  - rewrite (bsum_ext _ _ (fun l => X (l / F)%nat (l mod F) *
       (if l / F <=? w then mpow M a (w - l / F) i (l mod F) else 0))).
    2: { intros l Hl. bdec. replace (M + l - M)%nat with l by lia. reflexivity. }
    rewrite (bsum_flat_dm (bs - 1) F (fun s m => X s m * (if s <=? w then mpow M a (w - s) i m else 0))).
    rewrite (bsum_trunc (S w) (bs - 1)).
    + apply bsum_ext. intros s Hs. bdec. unfold mvec.
      rewrite (bsum_feat E M F (X s) (X s) HF HM).
      * apply bsum_ext. intros m Hm. replace (S w - 1 - s)%nat with (w - s)%nat by lia. ring.
      * intros m Hm. destruct (m <? F)%nat eqn:E0; b2p; auto. apply H0; lia.
    + lia.
    + intros s Hs1 Hs2. apply bsum_0. intros m Hm. bdec. ring.
Qed.
End Exact.

(** A group of terms of which only one is not zero. *)
Lemma one_raw (G : cops) n m i (f : nat -> G) : (forall x : G, radd x r0 = x) -> i < m ->
  (forall j, j < m -> j <> i -> f (n + j) = r0) -> bsum (n + m) f = radd (bsum n f) (f (n + i)).
Proof.
  intros HG Hi Hf. induction m as [|m IH]; [lia|]. rewrite Nat.add_succ_r. cbn [bsum].
  destruct (Nat.eq_dec i m) as [->|Hne].
  - f_equal. apply trunc_raw; [assumption|lia|]. intros j H1 H2. replace j with (n + (j - n)) by lia. apply Hf; lia.
  - rewrite (Hf m) by lia. rewrite HG. apply IH; [lia|]. intros j Hj Hji. apply Hf; lia.
Qed.

(** ** The recursion *)
Section Rel.
Variable R : cops.
Variable E : cring.
Add Ring Er : (r_th E).
Variable rel : nat -> R -> E -> E -> Prop.
Open Scope cr_scope.
Hypothesis rmono : forall k l v e m, (k <= l)%nat -> rel k v e m -> rel l v e m.
Hypothesis radd' : forall k v e m v' e' m', rel k v e m -> rel k v' e' m' -> rel (S k) (v + v') (e + e') (m + m').
Hypothesis rmul' : forall k l v e m v' e' m', rel k v e m -> rel l v' e' m' -> rel (S (k + l))%nat (v * v') (e * e') (m * m').
Hypothesis r_0 : forall k, rel k r0 r0 r0.
Hypothesis r_1 : forall k, rel k r1 r1 r1.
Hypothesis mul_0r : forall x : R, x * 0 = 0.
Hypothesis add_0l : forall x : R, 0 + x = x.
Hypothesis add_0r : forall x : R, x + 0 = x.
Hypothesis mul_1r : forall x : R, x * 1 = x.
Notation ten := (tensor (car R)).

Let rsum := rel_sum R E rel rmono radd' r_0 add_0l.
Let rtrunc := trunc_raw R add_0r.

Lemma rel_mid k i j : rel k (mid i j) (mid i j) (mid i j).
Proof. unfold mid. destruct (i =? j)%nat; auto. Qed.

(** Products of matrices whose entries carry a and b roundings. *)
Lemma rel_mmul M a b (f g : nat -> nat -> R) (fe fm ge gm : nat -> nat -> E) i j : (1 <= M)%nat ->
  (forall l, (l < M)%nat -> rel a (f i l) (fe i l) (fm i l)) ->
  (forall l, (l < M)%nat -> rel b (g l j) (ge l j) (gm l j)) ->
  rel (a + b + M) (mmul M f g i j) (mmul M fe ge i j) (mmul M fm gm i j).
Proof.
  intros HM Hf Hg. unfold mmul. replace (a + b + M)%nat with (S (a + b) + (M - 1))%nat by lia.
  apply rsum. intros l Hl. apply rmul'; auto.
Qed.

(** The sequential recursion. *)
Lemma rel_hstate M w c (Av : nat -> nat -> nat -> R) (Ae Am : nat -> nat -> nat -> E) hv (he hm : nat -> E)
  (xv : nat -> nat -> R) (xe xm : nat -> nat -> E) n : (1 <= M)%nat ->
  (forall k i j, (k < n)%nat -> (i < M)%nat -> (j < M)%nat -> rel w (Av k i j) (Ae k i j) (Am k i j)) ->
  (forall i, (i < M)%nat -> rel c (hv i) (he i) (hm i)) ->
  (forall k i, (k < n)%nat -> (i < M)%nat -> rel (c + 2 * (w + M) - M) (xv k i) (xe k i) (xm k i)) ->
  forall i, (i < M)%nat ->
  rel (c + 2 * (w + M) * n) (hstate M Av hv xv n i) (state M Ae he xe n i) (state M Am hm xm n i).
Proof.
  intros HM. induction n as [|n IH]; intros HA Hh Hx i Hi.
  - cbn [hstate state]. rewrite Nat.mul_0_r, Nat.add_0_r. auto.
  - cbn [hstate state]. unfold mvec.
    assert (Hc : forall (A h : nat -> E) x, bsum M (fun k => A k * h k) + x = x + bsum M (fun k => h k * A k)).
    { intros A h x. rewrite (bsum_ext M (fun k => A k * h k) (fun k => h k * A k)) by (intros; ring). ring. }
    rewrite (Hc (Ae n i)), (Hc (Am n i)).
    apply (rmono (S (c + 2 * (w + M) * n + (w + M) + (w + M - 1)))); [nia|].
    apply radd'.
    + apply (rmono (c + 2 * (w + M) - M)%nat); [nia|]. apply Hx; lia.
    + apply (rmono (S (c + 2 * (w + M) * n + w) + (M - 1))%nat); [nia|]. apply rsum. intros j Hj. apply rmul'.
      * apply IH; [intros; apply HA; lia|exact Hh|intros; apply Hx; lia|exact Hj].
      * apply HA; lia.
Qed.

(** Powers: n W - M roundings, with W = w + M. *)
Definition Ppow (B M w : nat) (pa : list nat) (ae am : nat -> nat -> nat -> E) (q : list nat) (n : nat) (f : nat -> nat -> R) : Prop :=
  forall b i j, (b < B)%nat -> (match pa with [] => [] | _ => [b] end) = q -> (i < M)%nat -> (j < M)%nat ->
    rel (n * (w + M) - M) (f i j) (mpow M (ae b) n i j) (mpow M (am b) n i j).
Lemma Ppow_mul B M w pa ae am : (1 <= M)%nat -> forall q a b f g, (1 <= a)%nat -> (1 <= b)%nat ->
  Ppow B M w pa ae am q a f -> Ppow B M w pa ae am q b g -> Ppow B M w pa ae am q (a + b) (mmul M f g).
Proof.
  intros HM q a b f g Ha Hb Hf Hg b0 i j Hb0 Hq Hi Hj.
  rewrite !mpow_add by assumption.
  replace ((a + b) * (w + M) - M)%nat with ((a * (w + M) - M) + (b * (w + M) - M) + M)%nat by nia.
  apply rel_mmul; auto.
Qed.

(** The input of the coarse recursion. *)
Lemma rel_z M F bs w c0 (X : nat -> nat -> R) (Xe Xm : nat -> nat -> E) (pf : nat -> nat -> nat -> R) (ae am : nat -> nat -> E) i :
  (F = 1%nat \/ F = M) -> (1 <= M)%nat -> (2 <= bs)%nat -> (i < M)%nat ->
  (forall j m, (j < bs)%nat -> (m < F)%nat -> rel (c0 + 2 * (w + M) - M) (X j m) (Xe j m) (Xm j m)) ->
  (forall j m, (j < bs)%nat -> (F <= m)%nat -> (m < M)%nat -> Xe j m = 0 /\ Xm j m = 0) ->
  (forall n j, (n < bs)%nat -> (j < M)%nat -> rel (n * (w + M) - M) (pf n i j) (mpow M ae n i j) (mpow M am n i j)) ->
  rel (c0 + 2 * (bs * (w + M)) - M)
    (bsum (bs * F) (fun l => X (l / F)%nat (l mod F) * pf (bs - 1 - l / F)%nat i (l mod F)))
    (bsum bs (fun j => mvec M (mpow M ae (bs - 1 - j)) (Xe j) i))
    (bsum bs (fun j => mvec M (mpow M am (bs - 1 - j)) (Xm j) i)).
Proof.
  intros HF HM Hbs Hi HX H0 Hp.
  rewrite <- (z_exact E M F bs Xe ae i HF HM) by (intros j m A1 A2 A3; apply (H0 j m A1 A2 A3)).
  rewrite <- (z_exact E M F bs Xm am i HF HM) by (intros j m A1 A2 A3; apply (H0 j m A1 A2 A3)).
  assert (HF1 : (1 <= F <= M)%nat) by (destruct HF; lia).
  apply (rmono (S ((c0 + 2 * (w + M) - M) + ((bs - 1) * (w + M) - M)) + (bs * F - 1))%nat); [nia|].
  apply rsum. intros l Hl. pose proof (Nat.mod_upper_bound l F ltac:(lia)).
  assert (l / F < bs)%nat by (apply Nat.div_lt_upper_bound; lia).
  apply rmul'; [apply HX; lia|]. apply (rmono ((bs - 1 - l / F) * (w + M) - M)%nat); [nia|]. apply Hp; lia.
Qed.

(** The outputs inside a block. *)
Lemma rel_of M F bs w c0 c t i (hv : nat -> R) (he hm : nat -> E) (X : nat -> nat -> R) (Xe Xm : nat -> nat -> E)
  (pf : nat -> nat -> nat -> R) (ae am : nat -> nat -> E) :
  (F = 1%nat \/ F = M) -> (1 <= M)%nat -> (t < bs - 1)%nat -> (i < M)%nat -> (c0 <= c)%nat ->
  (forall j, (j < M)%nat -> rel c (hv j) (he j) (hm j)) ->
  (forall j m, (j < bs)%nat -> (m < F)%nat -> rel (c0 + 2 * (w + M) - M) (X j m) (Xe j m) (Xm j m)) ->
  (forall j m, (j < bs)%nat -> (F <= m)%nat -> (m < M)%nat -> Xe j m = 0 /\ Xm j m = 0) ->
  (forall j m, pf 0%nat j m = mid j m) ->
  (forall n j, (n < bs)%nat -> (j < M)%nat -> rel (n * (w + M) - M) (pf n i j) (mpow M ae n i j) (mpow M am n i j)) ->
  rel (c + 2 * (w + M) * S t)
    (bsum (M + (bs - 1) * F) (fun l =>
        (if l <? M then hv l else X ((l - M) / F)%nat ((l - M) mod F)) *
        (if l <? M then pf (S t) i l
         else if (l - M) / F <=? t then pf (t - (l - M) / F)%nat i ((l - M) mod F) else 0)))
    (mvec M (mpow M ae (S t)) he i + bsum (S t) (fun j => mvec M (mpow M ae (S t - 1 - j)) (Xe j) i))
    (mvec M (mpow M am (S t)) hm i + bsum (S t) (fun j => mvec M (mpow M am (S t - 1 - j)) (Xm j) i)).
Proof.
  intros HF HM Ht Hi Hc Hh HX H0 Hp0 Hp.
  rewrite <- (of_exact E M F bs he Xe ae t i HF HM Ht Hi) by (intros j m A1 A2 A3; apply (H0 j m A1 A2 A3)).
  rewrite <- (of_exact E M F bs hm Xm am t i HF HM Ht Hi) by (intros j m A1 A2 A3; apply (H0 j m A1 A2 A3)).
  assert (HF1 : (1 <= F <= M)%nat) by (destruct HF; lia).
  match goal with |- rel _ (bsum _ ?a) (bsum _ ?b) (bsum _ ?d) => set (V := a); set (Ve := b); set (Vm := d) end.
  set (Q := (M + t * F)%nat).
  assert (HTd : (M + (bs - 1) * F = Q + F + (bs - 2 - t) * F)%nat) by (unfold Q; nia).
  (* past the current sample: zeros *)
  assert (Hpast : forall l, (Q + F <= l)%nat -> (l < M + (bs - 1) * F)%nat -> V l = 0 /\ Ve l = 0 /\ Vm l = 0).
  { intros l H1 H2. unfold V, Ve, Vm. unfold Q in H1.
    assert (S t <= (l - M) / F)%nat by (apply Nat.div_le_lower_bound; nia).
    assert ((l <? M)%nat = false) as -> by (apply Nat.ltb_ge; nia).
    assert (((l - M) / F <=? t)%nat = false) as -> by (apply Nat.leb_gt; lia).
    split; [apply mul_0r|]. split; ring. }
  (* before it *)
  assert (Hbef : forall l, (l < Q)%nat -> rel (S (c + (t + 2) * (w + M) - 2 * M)) (V l) (Ve l) (Vm l)).
  { intros l Hl. unfold Q in Hl. unfold V, Ve, Vm. destruct (l <? M)%nat eqn:El; b2p.
    - apply (rmono (S (c + (S t * (w + M) - M)))%nat); [nia|]. apply rmul'; [now apply Hh|apply Hp; lia].
    - assert ((l - M) / F < t)%nat by (apply Nat.div_lt_upper_bound; nia).
      pose proof (Nat.mod_upper_bound (l - M) F ltac:(lia)).
      assert (((l - M) / F <=? t)%nat = true) as -> by (apply Nat.leb_le; lia).
      apply (rmono (S ((c0 + 2 * (w + M) - M) + ((t - (l - M) / F) * (w + M) - M)))%nat).
      { set (d := ((l - M) / F)%nat) in *.
        assert ((t - d) * (w + M) <= t * (w + M))%nat by (apply Nat.mul_le_mono_r; lia).
        assert (w + M <= (t - d) * (w + M))%nat by nia. nia. }
      apply rmul'; [apply HX; lia|]. apply Hp; lia. }
  (* the current sample *)
  assert (Hcur : forall j, (j < F)%nat -> V (Q + j)%nat = X t j * mid i j /\ Ve (Q + j)%nat = Xe t j * mid i j /\ Vm (Q + j)%nat = Xm t j * mid i j).
  { intros j Hj. unfold V, Ve, Vm, Q.
    assert ((M + t * F + j <? M)%nat = false) as -> by (apply Nat.ltb_ge; lia).
    replace (M + t * F + j - M)%nat with (j + t * F)%nat by lia.
    rewrite Nat.div_add, Nat.mod_add, Nat.div_small, Nat.mod_small by lia. cbn [Nat.add].
    rewrite Nat.leb_refl, Nat.sub_diag, Hp0. cbn [mpow]. auto. }
  assert (Htr : forall (G : cops) (f : nat -> G), (forall x : G, x + 0 = x) ->
     (forall l, (Q + F <= l)%nat -> (l < M + (bs - 1) * F)%nat -> f l = 0) -> bsum (M + (bs - 1) * F) f = bsum (Q + F) f).
  { intros G f HG Hf. apply trunc_raw; auto. nia. }
  assert (Ead : forall x : E, x + 0 = x) by (intro; ring).
  rewrite (Htr R V add_0r) by (intros l A1 A2; apply (Hpast l A1 A2)).
  rewrite (Htr E Ve Ead) by (intros l A1 A2; apply (Hpast l A1 A2)).
  rewrite (Htr E Vm Ead) by (intros l A1 A2; apply (Hpast l A1 A2)).
  assert (Hsum : rel (S (c + (t + 2) * (w + M) - 2 * M) + (Q - 1)) (bsum Q V) (bsum Q Ve) (bsum Q Vm)) by now apply rsum.
  assert (HK : (S (S (c + (t + 2) * (w + M) - 2 * M) + (Q - 1)) <= c + 2 * (w + M) * S t)%nat).
  { unfold Q. assert (t * F <= t * M)%nat by (apply Nat.mul_le_mono_l; lia). nia. }
  destruct (i <? F)%nat eqn:Ei; b2p.
  - destruct (Hcur i Ei) as (C1 & C2 & C3).
    assert (Hmi : forall G : cops, @mid G i i = 1) by (intro; unfold mid; now rewrite Nat.eqb_refl).
    rewrite Hmi in C1, C2, C3. rewrite mul_1r in C1. 
    assert (Emu : forall x : E, x * 1 = x) by (intro; ring). rewrite Emu in C2, C3.
    assert (Hone : forall (G : cops) (f : nat -> G), (forall x : G, x + 0 = x) ->
      (forall j, (j < F)%nat -> j <> i -> f (Q + j)%nat = 0) -> bsum (Q + F) f = bsum Q f + f (Q + i)%nat).
    { intros G f HG Hf. now apply one_raw. }
    assert (Hmn : forall (G : cops) j, j <> i -> @mid G i j = 0) by (intros G j Hj; unfold mid; bdec; reflexivity).
    assert (Emz : forall x : E, x * 0 = 0) by (intro; ring).
    rewrite (Hone R V add_0r) by (intros j Hj Hji; destruct (Hcur j Hj) as (-> & _); rewrite Hmn by assumption; apply mul_0r).
    rewrite (Hone E Ve Ead) by (intros j Hj Hji; destruct (Hcur j Hj) as (_ & -> & _); rewrite Hmn by assumption; apply Emz).
    rewrite (Hone E Vm Ead) by (intros j Hj Hji; destruct (Hcur j Hj) as (_ & _ & ->); rewrite Hmn by assumption; apply Emz).
    rewrite C1, C2, C3. apply (rmono _ _ _ _ _ HK). apply radd'; [exact Hsum|].
    apply (rmono (c0 + 2 * (w + M) - M)%nat); [unfold Q; nia|]. apply HX; lia.
  - assert (Hz0 : forall (G : cops) j, (j < F)%nat -> @mid G i j = 0) by (intros G j Hj; unfold mid; bdec; reflexivity).
    assert (Emz : forall x : E, x * 0 = 0) by (intro; ring).
    rewrite (trunc_raw R add_0r Q (Q + F) V) by (try lia; intros l A1 A2; replace l with (Q + (l - Q))%nat by lia;
      destruct (Hcur (l - Q)%nat ltac:(lia)) as (-> & _); rewrite Hz0 by lia; apply mul_0r).
    rewrite (trunc_raw E Ead Q (Q + F) Ve) by (try lia; intros l A1 A2; replace l with (Q + (l - Q))%nat by lia;
      destruct (Hcur (l - Q)%nat ltac:(lia)) as (_ & -> & _); rewrite Hz0 by lia; apply Emz).
    rewrite (trunc_raw E Ead Q (Q + F) Vm) by (try lia; intros l A1 A2; replace l with (Q + (l - Q))%nat by lia;
      destruct (Hcur (l - Q)%nat ltac:(lia)) as (_ & _ & ->); rewrite Hz0 by lia; apply Emz).
    apply (rmono (S (c + (t + 2) * (w + M) - 2 * M) + (Q - 1))%nat); [lia|exact Hsum].
Qed.

(** What the recursion is run with when it is not split into blocks. *)
Definition leaf_ok (e : env) (B M : nat) : Prop :=
  forall N (A zi x : ten) Af zf u (ae am : nat -> nat -> nat -> E) (ze zm : nat -> nat -> E) (ue um : nat -> nat -> nat -> E) oi w0 c0,
  (1 <= N)%nat -> matc B M A Af -> is2 zi B M zf -> drive B N M x u -> idx_ok M oi ->
  (forall b i j, (b < B)%nat -> (i < M)%nat -> (j < M)%nat -> rel w0 (Af b i j) (ae b i j) (am b i j)) ->
  (forall b i, (b < B)%nat -> (i < M)%nat -> rel c0 (zf b i) (ze b i) (zm b i)) ->
  (forall b n i, (b < B)%nat -> (n < N)%nat -> (i < M)%nat -> rel (c0 + 2 * (w0 + M) - M) (u b n i) (ue b n i) (um b n i)) ->
  exists y yf, (if helion_backend_indicator e then ext_ss_recur e A zi x oi else recursion_loop A zi x oi) = Ok y /\ picks B N M oi y yf /\
    forall b n i, (b < B)%nat -> (n < N)%nat -> (i < M)%nat -> rel (c0 + 2 * (w0 + M) * S n) (yf b n i)
      (state M (fun _ => ae b) (ze b) (ue b) (S n) i) (state M (fun _ => am b) (zm b) (um b) (S n) i).
Lemma leaf_loop e B M : (1 <= M)%nat -> helion_backend_indicator e = false -> leaf_ok e B M.
Proof.
  intros HM Eh N A zi x Af zf u ae am ze zm ue um oi w0 c0 HN HA Hz Hx Hi RA RZ RU. rewrite Eh.
  destruct (loop_raw R B N M A zi x Af zf u oi HN HM HA Hz Hx Hi) as (y & E0 & Hy).
  exists y. eexists. split; [exact E0|]. split; [exact Hy|]. intros b n i Hb Hn Hi0. cbn beta.
  apply rel_hstate; auto. intros k j Hk Hj. apply RU; lia.
Qed.

Lemma ssr_fuel_rel e B M fuel : leaf_ok e B M -> (1 <= B)%nat -> (1 <= M)%nat ->
  forall N (A zi x : ten) Af zf u (ae am : nat -> nat -> nat -> E) (ze zm : nat -> nat -> E) (ue um : nat -> nat -> nat -> E) bs oi w0 c0,
  (N < fuel)%nat -> (1 <= N)%nat -> (1 <= bs)%nat ->
  matc B M A Af -> is2 zi B M zf -> drive B N M x u -> idx_ok M oi ->
  (forall b i j, (b < B)%nat -> (i < M)%nat -> (j < M)%nat -> rel w0 (Af b i j) (ae b i j) (am b i j)) ->
  (forall b i, (b < B)%nat -> (i < M)%nat -> rel c0 (zf b i) (ze b i) (zm b i)) ->
  (forall b n i, (b < B)%nat -> (n < N)%nat -> (i < M)%nat -> rel (c0 + 2 * (w0 + M) - M) (u b n i) (ue b n i) (um b n i)) ->
  (rk x = 2%nat -> forall b n m, (b < B)%nat -> (n < N)%nat -> (1 <= m)%nat -> (m < M)%nat -> ue b n m = 0 /\ um b n m = 0) ->
  exists y yf, state_space_recursion_fuel e fuel A zi x bs oi = Ok y /\ picks B N M oi y yf /\
    forall b n i, (b < B)%nat -> (n < N)%nat -> (i < M)%nat -> rel (c0 + 2 * (w0 + M) * S n) (yf b n i)
      (state M (fun _ => ae b) (ze b) (ue b) (S n) i) (state M (fun _ => am b) (zm b) (um b) (S n) i).
Proof.
  intros Hleaf HB HM. induction fuel as [|fuel IH];
    intros N A zi x Af zf u ae am ze zm ue um bs oi w0 c0 Hf HN Hbs HA Hz Hx Hi RA RZ RU RU0; [lia|].
  cbn [state_space_recursion_fuel].
  assert (size x 0 = B) as -> by (destruct Hx as [f Hx _|Hx]; unfold size; now rewrite (proj1 Hx)).
  assert (size x 1 = N) as -> by (destruct Hx as [f Hx _|Hx]; unfold size; now rewrite (proj1 Hx)).
  assert (((rk x =? 2) || (rk x =? 3))%bool = true) as ->
    by (destruct Hx as [f Hx _|Hx]; rkt; reflexivity).
  assert (((rk A =? 2) || (rk A =? 3))%bool = true) as ->
    by (destruct HA as [g HA _|HA]; rkt; reflexivity).
  assert (sizen A 1 = M) as -> by (destruct HA as [g HA _|HA]; unfold sizen, rk; now rewrite (proj1 HA)).
  assert (sizen A 2 = M) as -> by (destruct HA as [g HA _|HA]; unfold sizen, rk; now rewrite (proj1 HA)).
  assert ((negb (rk A =? 3) || (B =? size A 0))%bool = true) as ->.
  { destruct HA as [g HA _|HA]; rkt; [reflexivity|]. unfold size. rewrite (proj1 HA). cbn [nth]. now rewrite !Nat.eqb_refl. }
  assert ((negb (rk x =? 3) || (M =? sizen x 1))%bool = true) as ->.
  { destruct Hx as [f Hx _|Hx]; rkt; [reflexivity|]. unfold sizen, rk. rewrite (proj1 Hx). cbn [length Nat.sub nth]. now rewrite !Nat.eqb_refl. }
  assert (size zi 0 = B) as -> by (unfold size; now rewrite (proj1 Hz)).
  assert (size zi 1 = M) as -> by (unfold size; now rewrite (proj1 Hz)).
  rewrite (i2_rk _ _ _ _ Hz), !Nat.eqb_refl. cbn [Nat.eqb]. bfalse (bs <? 1)%nat. cbn [negb].
  destruct ((bs =? 1) || (N <=? bs))%bool eqn:Eb.
  { now apply (Hleaf N A zi x Af zf u). }
  b2p.
  (* padding *)
  destruct (blocks N bs) as (k & Hk1 & Hk2 & Hk0 & HkN); [lia|lia|].
  set (xp := if negb (N mod bs =? 0) then pad 1 0 (bs - N mod bs) r0 x else x).
  set (X := fun b n m => if n <? N then u b n m else 0).
  set (Xe := fun b n m => if n <? N then ue b n m else 0). set (Xm := fun b n m => if n <? N then um b n m else 0).
  assert (exists (x3 : bool) (Xf : nat -> nat -> nat -> R) (ux : ten), rk xp = (if x3 then 3 else 2)%nat /\
     (let* ux0 := unflatten_m1 1 bs xp in Ok (flatten 2 (rk ux0 - 1) ux0))%res = Ok ux /\
     isP2 ux [B] k (bs * nfeat x3 M) (fun q c j => Xf (nth 0 q 0%nat) (c * bs + j / nfeat x3 M)%nat (j mod nfeat x3 M)) /\
     (forall b n m, (b < B)%nat -> (n < k * bs)%nat -> (m < nfeat x3 M)%nat -> Xf b n m = X b n m) /\
     (forall b n m, (b < B)%nat -> (nfeat x3 M <= m)%nat -> (m < M)%nat -> Xe b n m = 0 /\ Xm b n m = 0))
    as (x3 & Xf & ux & Hrk & Eux & Hux & HX & HX0).
  { destruct Hx as [f Hx Hu|Hx].
    - exists false, (fun b n _ => if n <? N then f b n else 0).
      assert (Hrx : rk x = 2%nat) by (rkt; reflexivity). specialize (RU0 Hrx).
      apply is2_P1 in Hx.
      assert (Hxp : isP1 xp [B] (k * bs) (fun q n => if n <? N then f (nth 0 q 0%nat) n else 0)).
      { unfold xp. destruct (N mod bs =? 0) eqn:Er; b2p; cbn [negb].
        - fin Hx; [lia|]. intros q n Hq Hn. bdec. reflexivity.
        - eassert (isP1 (pad 1 0 (bs - N mod bs) r0 x) _ _ _) as Hp by vsolve.
          fin Hp; [lia|]. intros q n Hq Hn. cbn [Nat.leb Nat.add andb]. now rewrite Nat.sub_0_r. }
      clearbody xp.
      rewrite (unflatten_m1_ok xp 1 bs k) by (try lia; unfold size; now rewrite (proj1 Hxp)).
      mstep. pose proof (flat_same R w [B] k bs _ H1) as H2. replace (rk w - 1)%nat with 2%nat by dimt.
      eexists. split; [dimt|]. split; [reflexivity|]. split; [|split].
      + unfold nfeat. fin H2; [auto|lia|]. intros q c j Hq Hc Hj. now rewrite Nat.div_1_r.
      + intros b n m Hb Hn Hm. unfold X, nfeat in *. destruct (n <? N) eqn:E0; b2p; [|reflexivity].
        rewrite Hu by lia. bdec. reflexivity.
      + intros b n m Hb Hm1 Hm2. unfold Xe, Xm, nfeat in *. destruct (n <? N) eqn:E0; b2p; [|auto]. now apply RU0.
    - exists true, X. apply is3_P2 in Hx.
      assert (Hxp : isP2 xp [B] (k * bs) M (fun q n => X (nth 0 q 0%nat) n)).
      { unfold xp. destruct (N mod bs =? 0) eqn:Er; b2p; cbn [negb].
        - fin Hx; [lia|auto|]. intros q n m Hq Hn Hm. unfold X. bdec. reflexivity.
        - eassert (isP2 (pad 1 0 (bs - N mod bs) r0 x) _ _ _ _) as Hp by vsolve.
          fin Hp; [lia|auto|]. intros q n m Hq Hn Hm. cbn [Nat.leb Nat.add andb]. now rewrite Nat.sub_0_r. }
      clearbody xp.
      rewrite (unflatten_m1_ok xp 1 bs k) by (try lia; unfold size; now rewrite (proj1 Hxp)).
      mstep. replace (rk w - 1)%nat with 3%nat by dimt. nm (flatten 2 3 w).
      eexists. split; [dimt|]. split; [reflexivity|]. split; [|split].
      + unfold nfeat. fin H2; auto.
      + reflexivity.
      + intros b n m Hb Hm1 Hm2. unfold nfeat in *. lia. }
  rewrite Eux. cbn [bind]. clear Eux. clearbody xp. set (F := nfeat x3 M) in *.
  assert (HF : F = 1%nat \/ F = M) by (unfold F, nfeat; destruct x3; auto).
  assert (HF1 : (1 <= F <= M)%nat) by (destruct HF; lia).
  assert (RX : forall b n m, (b < B)%nat -> (n < k * bs)%nat -> (m < F)%nat -> rel (c0 + 2 * (w0 + M) - M) (Xf b n m) (Xe b n m) (Xm b n m)).
  { intros b n m Hb Hn Hm. rewrite HX by assumption. unfold X, Xe, Xm. destruct (n <? N)%nat eqn:En; b2p; [apply RU; lia|apply r_0]. }
  (* A: shared or per batch *)
  assert (exists pa al, isP2 A pa M M al /\ (pa = [] \/ pa = [B]) /\ shape A = pa ++ [M; M] /\
    (forall b i j, (b < B)%nat -> (i < M)%nat -> (j < M)%nat ->
       al (match pa with [] => [] | _ => [b] end) i j = Af b i j))
    as (pa & al & HAp & Hpa & HAs & Hal).
  { destruct HA as [g HA HAg|HA].
    - exists [], (fun _ => g). apply is2_P in HA. split; [exact HA|]. split; [auto|]. split; [apply HA|]. intros. now rewrite HAg.
    - exists [B], (fun q => Af (nth 0 q 0%nat)). apply is3_P2 in HA. split; [exact HA|]. split; [auto|]. split; [apply HA|]. reflexivity. }
  destruct (mpa_raw R M (Ppow B M w0 pa ae am) (Ppow_mul B M w0 pa ae am HM) A pa al bs HAp ltac:(lia)) as (ap & pf0 & -> & Hap & Hpf).
  { intros q Hq b i j Hb Hqb Hi0 Hj0. rewrite !mpow_1 by assumption. replace (1 * (w0 + M) - M)%nat with w0 by lia.
    rewrite <- Hqb, Hal by assumption. auto. }
  cbn [bind].
  rewrite (select_ok ap (rk ap - 3) (-1)%Z (bs - 1)).
  2: { unfold size. rewrite (proj1 Hap), (nth_pre _ _ _ 0) by dimt. cbn [nth]. apply pyidx_m1. lia. }
  cbn [bind].
  set (pf := fun q n => if (n =? 0)%nat then @mid R else pf0 q n).
  assert (Hapd : isP2 (sel (rk ap - 3) (bs - 1) ap) pa M M (fun q => pf q bs)).
  { nm (sel (rk ap - 3) (bs - 1) ap). fin H1; auto. intros. unfold pf. bdec. now replace (S (bs - 1)) with bs by lia. }
  set (apd := sel (rk ap - 3) (bs - 1) ap) in *. clearbody apd.
  rewrite HAs.
  assert (HI : is2 (@eye R M) M M mid) by (apply is2_P; apply P2_eye; reflexivity).
  destruct (expand_pre2 (@eye R M) pa M M mid HI) as (I & -> & HIe). cbn [bind].
  nm (slice (rk ap - 3) None (Some (-1)%Z) ap). nm (flip (rk v - 3) v). nm (unsqueeze (rk I - 2) I).
  cat2. rename w into aI.
  assert (HaI : isP3 aI pa bs M M (fun q k0 => pf q (bs - 1 - k0)%nat)).
  { fin H4; [lia|auto|auto|]. intros q c i j Hq Hc Hi0 Hj. unfold pf.
    destruct (c <? bs - 1)%nat eqn:E0; b2p; bdec.
    - replace (S (0 + (bs - 1 - 1 - c))) with (bs - 1 - c)%nat by lia. reflexivity.
    - reflexivity. }
  assert (Hap' : isP3 ap pa bs M M (fun q k0 => pf q (S k0))) by exact Hap.
  clear H1 H2 H3 H4 v v0 v1 HIe I Hap. rename Hap' into Hap.
  (* per-batch powers *)
  set (pb := fun b => pf (match pa with [] => [] | _ => [b] end)).
  assert (Rpb : forall b n i j, (b < B)%nat -> (n <= bs)%nat -> (i < M)%nat -> (j < M)%nat ->
     rel (n * (w0 + M) - M) (pb b n i j) (mpow M (ae b) n i j) (mpow M (am b) n i j)).
  { intros b n i j Hb Hn Hi0 Hj0. unfold pb, pf. destruct n as [|n]; [cbn [Nat.eqb mpow]; apply rel_mid|].
    cbn [Nat.eqb]. apply (Hpf (match pa with [] => [] | _ => [b] end) (S n)); auto; [|lia].
    destruct Hpa as [->| ->]; repeat constructor. exact Hb. }
  assert (Hpb0 : forall b j m, pb b 0%nat j m = mid j m) by reflexivity.
  (* mat1 *)
  assert (exists m1,
    (if rk xp =? 3 then
        Ok (flatten (rk (transpose (rk aI - 2) (rk aI - 1) aI) - 3)
              (rk (transpose (rk aI - 2) (rk aI - 1) aI) - 2) (transpose (rk aI - 2) (rk aI - 1) aI))
      else select (rk aI - 1) 0 aI) = Ok m1 /\
    isP2 m1 pa (bs * F) M (fun q r i => pf q (bs - 1 - r / F)%nat i (r mod F)%nat)) as (m1 & -> & Hm1).
  { rewrite Hrk. unfold F, nfeat. destruct x3; cbn [Nat.eqb].
    - nm (transpose (rk aI - 2) (rk aI - 1) aI). cbv zeta. nm (flatten (rk v - 3) (rk v - 2) v).
      eexists; split; [reflexivity|]. fin H2; auto.
    - rewrite (select_ok aI _ 0%Z 0%nat) by (unfold size; rewrite (proj1 HaI), (nth_pre _ _ _ 2) by dimt; cbn [nth]; apply (pyidx_nat M 0); lia).
      eexists; split; [reflexivity|]. nm (sel (rk aI - 1) 0 aI). fin H1; [lia|auto|].
      intros q r i Hq Hr Hi0. destruct (dm_1 r) as [-> ->]. reflexivity. }
  cbn [bind].
  set (Z := fun b c i => bsum (bs * F) (fun l => Xf b (c * bs + l / F)%nat (l mod F)%nat * pb b (bs - 1 - l / F)%nat i (l mod F)%nat)).
  set (Ze := fun b c i => bsum bs (fun j => mvec M (mpow M (ae b) (bs - 1 - j)) (Xe b (c * bs + j)%nat) i)).
  set (Zm := fun b c i => bsum bs (fun j => mvec M (mpow M (am b) (bs - 1 - j)) (Xm b (c * bs + j)%nat) i)).
  assert (exists z, matmul ux m1 = Ok z /\ is3 z B k M Z) as (z & -> & Hzz).
  { destruct Hpa as [->| ->]; mm; (eexists; split; [reflexivity|]); apply is3_P2; fin H1; auto;
      intros q c i Hq Hc Hi0; apply vld_1_inv in Hq as (b & -> & Hb); cbn [nth] in *; reflexivity. }
  cbn [bind].
  destruct (IH k apd zi z (fun b => pb b bs) zf Z (fun b => mpow M (ae b) bs) (fun b => mpow M (am b) bs) ze zm Ze Zm bs None
     (bs * (w0 + M) - M)%nat c0)
    as (rest & rf & -> & Hrest & Rrest); try lia; auto.
  { destruct Hpa as [->| ->].
    - apply matc_s with (g := pf [] bs).
      + apply is2_P. exact (isP2_ext _ _ _ _ _ _ Hapd (fun q i j Hq _ _ => f_equal (fun q => pf q bs i j) (vld_nil_inv q Hq))).
      + reflexivity.
    - apply matc_b. apply is3_P2. fin Hapd; auto. intros q i j Hq Hi0 Hj. apply vld_1_inv in Hq as (b & -> & Hb). reflexivity. }
  { now apply drive_3. }
  { exact Logic.I. }
  { intros b c i Hb Hc Hi0. replace (bs * (w0 + M) - M + M)%nat with (bs * (w0 + M))%nat by nia.
    apply (rel_z M F bs w0 c0 (fun j => Xf b (c * bs + j)%nat) (fun j => Xe b (c * bs + j)%nat) (fun j => Xm b (c * bs + j)%nat)); auto; try lia.
    - intros j m Hj Hm. apply RX; auto. nia.
    - intros n j Hn Hj. apply Rpb; lia. }
  { intros Hr2. rewrite (i3_rk _ _ _ _ _ Hzz) in Hr2. lia. }
  cbn [bind]. cbn [picks] in Hrest. pose proof Hz as Hz1. apply is2_P1 in Hz1. apply is3_P2 in Hrest.
  replace (bs * (w0 + M) - M + M)%nat with (bs * (w0 + M))%nat in Rrest by nia.
  nm (unsqueeze 1 zi). cat2. rename w into ini.
  set (L := fun b c i => if (c =? 0)%nat then zf b i else rf b (c - 1)%nat i).
  set (Le := fun b n i => state M (fun _ => ae b) (ze b) (Xe b) n i).
  set (Lm := fun b n i => state M (fun _ => am b) (zm b) (Xm b) n i).
  assert (Hini : isP2 ini [B] (S k) M (fun q c i => L (nth 0 q 0%nat) c i)).
  { fin H2; auto. intros q c i Hq Hc Hi0. apply vld_1_inv in Hq as (b & -> & Hb). cbn [nth]. unfold L.
    destruct (c <? 1)%nat eqn:E0; b2p; bdec; reflexivity. }
  assert (RL : forall b c i, (b < B)%nat -> (c < S k)%nat -> (i < M)%nat ->
     rel (c0 + 2 * (bs * (w0 + M)) * c) (L b c i) (Le b (c * bs)%nat i) (Lm b (c * bs)%nat i)).
  { intros b c i Hb Hc Hi0. unfold L. destruct c as [|c].
    - unfold Le, Lm. rewrite Nat.mul_0_r, Nat.add_0_r. cbn [Nat.eqb Nat.mul state]. auto.
    - cbn [Nat.eqb]. replace (S c - 1)%nat with c by lia. specialize (Rrest b c i Hb ltac:(lia) Hi0).
      assert (G : forall (a : nat -> nat -> E) (h : nat -> E) (x : nat -> nat -> E) m i, (i < M)%nat ->
         state M (fun _ => mpow M a bs) h (fun c i => bsum bs (fun j => mvec M (mpow M a (bs - 1 - j)) (x (c * bs + j)%nat) i)) m i
         = state M (fun _ => a) h x (m * bs) i).
      { clear. intros a h x m. induction m as [|m IHm]; intros i Hi; [reflexivity|]. cbn [state].
        replace (S m * bs)%nat with (m * bs + bs)%nat by lia. rewrite state_lti_closed by assumption. f_equal.
        apply mvec_ext; [reflexivity|]. intros j Hj. apply IHm. exact Hj. }
      unfold Ze, Zm in Rrest. rewrite (G (ae b) (ze b) (Xe b)), (G (am b) (zm b) (Xm b)) in Rrest by assumption. exact Rrest. }
  clear H1 H2 Hz1 Hrest v Hzz z rest.
  nm (slice 1 None (Some (-1)%Z) ini).
  assert (Hux2 : isP2 (slice 2 None (Some (- Z.of_nat (if (rk xp =? 2)%nat then 1%nat else M))%Z) ux) [B] k ((bs - 1) * F)
            (fun q c j => Xf (nth 0 q 0%nat) (c * bs + j / F)%nat (j mod F))).
  { assert ((if (rk xp =? 2)%nat then 1%nat else M) = F) as -> by (rewrite Hrk; unfold F, nfeat; now destruct x3).
    assert (0 < F)%nat by (destruct HF; lia).
    nm (slice 2 None (Some (- Z.of_nat F)%Z) ux). fin H3; [auto|rewrite ?pyb_neg by lia; nia|]. intros. reflexivity. }
  set (ux2 := slice 2 _ _ ux) in *. clearbody ux2.
  cat2. rename w into augx.
  assert ((rk xp =? 3)%nat = x3) as -> by (rewrite Hrk; now destruct x3).
  destruct (aug_raw R pa bs M x3 ap aI pf oi ltac:(lia) HM Hi Hap HaI) as (m2 & m3 & -> & Hm2 & Hm3).
  cbn [bind]. fold F in Hm3. set (G := nout oi M) in *.
  nm (mT m2). nm (mT m3). cat2. rename w into augA.
  assert (Hoi : forall r, (r < (bs - 1) * G)%nat -> (orow oi M (r mod G) < M)%nat).
  { intros r Hr. unfold orow, G, nout in *. destruct oi as [c|]; [|apply Nat.mod_upper_bound; lia].
    destruct Hi as (c1 & Ec). rewrite Ec. now apply pyidx_lt in Ec. }
  assert (HG : (1 <= G)%nat) by (unfold G, nout; destruct oi; lia).
  set (of := fun b c t i => bsum (M + (bs - 1) * F) (fun l =>
        (if (l <? M)%nat then L b c l else Xf b (c * bs + (l - M) / F)%nat ((l - M) mod F)%nat) *
        (if (l <? M)%nat then pb b (S t) i l
         else if ((l - M) / F <=? t)%nat then pb b (t - (l - M) / F)%nat i ((l - M) mod F)%nat else 0))).
  assert (exists o, matmul augx augA = Ok o /\
    isP2 o [B] k ((bs - 1) * G) (fun q c r => of (nth 0 q 0%nat) c (r / G)%nat (orow oi M (r mod G))))
    as (o & -> & Ho).
  { destruct Hpa as [->| ->]; mm; (eexists; split; [reflexivity|]);
      match goal with H : isP2 _ [B] k ((bs - 1) * G) _ |- _ => fin H end; auto;
      intros q c r Hq Hc Hr; apply vld_1_inv in Hq as (b & -> & Hb); cbn [nth] in *; unfold of; reflexivity. }
  cbn [bind].
  assert (Rof : forall b c t i, (b < B)%nat -> (c < k)%nat -> (t < bs - 1)%nat -> (i < M)%nat ->
    rel (c0 + 2 * (w0 + M) * S (c * bs + t)) (of b c t i) (Le b (S (c * bs + t)) i) (Lm b (S (c * bs + t)) i)).
  { intros b c t i Hb Hc Ht Hi0.
    assert (Gx : forall (a : nat -> nat -> E) (h : nat -> E) (x : nat -> nat -> E),
      state M (fun _ => a) h x (S (c * bs + t)) i = mvec M (mpow M a (S t)) (state M (fun _ => a) h x (c * bs)) i
        + bsum (S t) (fun j => mvec M (mpow M a (S t - 1 - j)) (x (c * bs + j)%nat) i)).
    { clear - Hi0. intros a h x. rewrite <- state_lti_closed by assumption. f_equal. lia. }
    unfold Le, Lm. rewrite !Gx.
    replace (c0 + 2 * (w0 + M) * S (c * bs + t))%nat with ((c0 + 2 * (bs * (w0 + M)) * c) + 2 * (w0 + M) * S t)%nat by nia.
    apply (rel_of M F bs w0 c0 (c0 + 2 * (bs * (w0 + M)) * c) t i (L b c) (Le b (c * bs)%nat) (Lm b (c * bs)%nat)
      (fun j => Xf b (c * bs + j)%nat) (fun j => Xe b (c * bs + j)%nat) (fun j => Xm b (c * bs + j)%nat) (pb b)); [exact HF|exact HM|exact Ht|exact Hi0|lia| | | | |].
    - intros j Hj. apply RL; lia.
    - intros j m Hj Hm. apply RX; auto. nia.
    - intros j m Hj H1' H2'. now apply HX0.
    - apply Hpb0.
    - intros n j Hn Hj. apply Rpb; lia. }
  set (yf := fun b n i => if (n mod bs <? bs - 1)%nat then of b (n / bs)%nat (n mod bs)%nat i else L b (S (n / bs)) i).
  assert (Ry : forall b n i, (b < B)%nat -> (n < N)%nat -> (i < M)%nat -> rel (c0 + 2 * (w0 + M) * S n) (yf b n i)
      (state M (fun _ => ae b) (ze b) (ue b) (S n) i) (state M (fun _ => am b) (zm b) (um b) (S n) i)).
  { intros b n i Hb Hn Hi0.
    pose proof (Nat.div_mod n bs ltac:(lia)) as Edm. pose proof (Nat.mod_upper_bound n bs ltac:(lia)).
    replace (state M (fun _ => ae b) (ze b) (ue b) (S n) i) with (Le b (S n) i)
      by (apply state_ext; auto; intros j m Hj Hm; unfold Xe; bdec; reflexivity).
    replace (state M (fun _ => am b) (zm b) (um b) (S n) i) with (Lm b (S n) i)
      by (apply state_ext; auto; intros j m Hj Hm; unfold Xm; bdec; reflexivity).
    assert (n < k * bs)%nat by (destruct (Nat.eq_dec (N mod bs) 0); lia).
    assert (n / bs < k)%nat by (apply Nat.div_lt_upper_bound; lia).
    unfold yf. destruct (n mod bs <? bs - 1)%nat eqn:E0; b2p.
    - replace (S n) with (S (n / bs * bs + n mod bs))%nat by lia. apply Rof; auto.
    - replace (S n) with (S (n / bs) * bs)%nat by lia. apply (rmono (c0 + 2 * (bs * (w0 + M)) * S (n / bs))%nat); [nia|].
      apply RL; lia. }
  clear - Ho Hini HM Hk1 Hk2 Hk0 HkN HG Hi Hbs H H0 HN Ry.
  nm (slice 1 (Some 1%Z) None ini).
  assert (exists out, match oi with
      | None => (let* c := cat 2 [o; v] in let* u := unflatten_m1 2 M c in Ok (flatten 1 2 u))%res
      | Some i => (let* s := select 2 i v in let* c := cat 2 [o; unsqueeze 2 s] in Ok (flatten 1 2 c))%res
      end = Ok out /\ picks B (k * bs) M oi out yf) as (out & -> & Hout).
  { unfold picks. destruct oi as [i|]; unfold G, nout, orow in Ho.
    - destruct Hi as (c & Hc). pose proof (pyidx_lt _ _ _ Hc) as Hcl. rewrite Hc in Ho.
      rewrite (select_ok v 2 i c) by (unfold size; rewrite (proj1 H1); exact Hc). cbn [bind].
      nm (sel 2 c v). nm (unsqueeze 2 v0). cat2. nm (flatten 1 2 w).
      eexists; split; [reflexivity|]. intros c' Hc'. rewrite Hc in Hc'. injection Hc' as <-.
      apply is2_P1. fin H5; [nia|]. intros q n Hq Hn. unfold yf.
      replace ((bs - 1) * 1 + 1)%nat with bs by lia. rewrite !Nat.div_1_r, Nat.mul_1_r.
      destruct (n mod bs <? bs - 1)%nat eqn:E0; b2p; reflexivity.
    - cat2. rewrite (unflatten_m1_ok w 2 M bs) by (try lia; unfold size; rewrite (proj1 H2); cbn [nth app]; nia).
      unflat2. nm (flatten 1 2 w1). eexists; split; [reflexivity|]. apply is3_P2. fin H4; auto.
      intros q n m Hq Hn Hm. unfold yf.
      pose proof (Nat.div_mod n bs ltac:(lia)) as Edm. pose proof (Nat.mod_upper_bound n bs ltac:(lia)).
      set (r := (n mod bs)%nat) in *. set (c := (n / bs)%nat) in *.
      destruct (r * M + m <? (bs - 1) * M)%nat eqn:E0; b2p.
      + assert ((r * M + m) / M = r)%nat as -> by (rewrite Nat.div_add_l by lia; rewrite Nat.div_small by lia; lia).
        assert ((r * M + m) mod M = m)%nat as -> by (rewrite Nat.add_comm, Nat.mod_add by lia; apply Nat.mod_small; lia).
        assert ((r <? bs - 1)%nat = true) as -> by (apply Nat.ltb_lt; nia). reflexivity.
      + assert (r = bs - 1)%nat by nia. assert ((r <? bs - 1)%nat = false) as -> by (apply Nat.ltb_ge; lia).
        f_equal. nia. }
  cbn [bind]. cbv zeta.
  destruct (N mod bs =? 0)%nat eqn:Er; b2p; cbn [negb].
  - rewrite (Hk1 Er) in Hout. exists out, yf. split; [reflexivity|]. split; [exact Hout|exact Ry].
  - eexists; exists yf. split; [reflexivity|]. split; [|exact Ry]. specialize (Hk2 Er). pose proof (Nat.mod_upper_bound N bs ltac:(lia)).
    unfold picks in *. destruct oi as [i|].
    + intros c Hc. specialize (Hout c Hc). apply is2_P1 in Hout.
      nm (slice 1 None (Some (- Z.of_nat (bs - N mod bs))%Z) out). apply is2_P1. fin H3; [rewrite ?pyb_neg by lia; lia|].
      reflexivity.
    + apply is3_P2 in Hout. nm (slice 1 None (Some (- Z.of_nat (bs - N mod bs))%Z) out).
      apply is3_P2. fin H3; [rewrite ?pyb_neg by lia; lia|auto|]. reflexivity.
Qed.
End Rel.
