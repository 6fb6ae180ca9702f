(** Which lengths and unroll factors are right: lemmas for Properties_Unroll. *)
From Coq Require Import List Arith Lia ZArith Bool Ring.
From Verif Require Import Scalar Tensor TensorLemmas TensorOps TensorAlg TensorTac TensorList
  Spec Shapes Algebra M_Mat P_Mat P_Cumdot M_Ext M_LpvSsm P_LpvSsm P_LpvBlk P_LpvSs.
Import ListNotations.

(** n is a product of three numbers that are at least 2. *)
Definition three_factors (n : nat) : Prop :=
  exists a b c, (2 <= a)%nat /\ (2 <= b)%nat /\ (2 <= c)%nat /\ n = (a * b * c)%nat.

Lemma prime_not_mul p a b : is_prime p -> (2 <= a)%nat -> (2 <= b)%nat -> p = (a * b)%nat -> False.
Proof.
  intros [H1 H2] Ha Hb ->. apply (H2 a); [nia|]. rewrite Nat.mul_comm. apply Nat.mod_mul. lia.
Qed.

(** The three cases of the factorisation. *)
Lemma factorint_cases n : (2 <= n)%nat ->
  (is_prime n) \/
  (exists p g, factorint n = [p; g] /\ is_prime p /\ is_prime g /\ n = (p * g)%nat) \/
  (exists p g g' ds, factorint n = p :: g :: g' :: ds /\ (2 <= p)%nat /\ (2 <= g)%nat /\ (2 <= g')%nat /\
     Forall (fun x => (1 <= x)%nat) ds /\ n = (p * g * (g' * lprod ds))%nat /\ (1 <= lprod ds)%nat).
Proof.
  intro Hn. pose proof (factorint_primes n Hn) as HP. pose proof (factorint_prod n ltac:(lia)) as HE.
  assert (HF : forall l, Forall is_prime l -> Forall (fun x => (1 <= x)%nat) l /\ (1 <= lprod l)%nat).
  { induction 1 as [|x l Hx Hl [I1 I2]]; [split; [constructor|cbn; lia]|]. destruct Hx.
    split; [constructor; auto; lia|]. cbn [lprod fold_right]. fold (lprod l). nia. }
  destruct (factorint n) as [|p [|g [|g' ds]]]; cbn [lprod fold_right] in HE.
  - lia.
  - left. apply Forall_cons_iff in HP as [HP _]. now replace n with p by lia.
  - right. left. exists p, g. apply Forall_cons_iff in HP as [Hp HP]. apply Forall_cons_iff in HP as [Hg _].
    split; [reflexivity|]. repeat (split; [assumption|]). lia.
  - right. right. exists p, g, g', ds. apply Forall_cons_iff in HP as [Hp HP]. apply Forall_cons_iff in HP as [Hg HP].
    apply Forall_cons_iff in HP as [Hg' HP]. destruct (HF _ HP). destruct Hp, Hg, Hg'.
    fold (lprod ds) in HE. rewrite Nat.mul_assoc in HE.
    split; [reflexivity|]. repeat (split; [assumption|]). split; [now symmetry|assumption].
Qed.

Lemma three_dec n : (1 <= n)%nat ->
  three_factors n \/ (~ three_factors n /\ (n = 1%nat \/ is_prime n \/ exists p g, factorint n = [p; g] /\ is_prime p /\ is_prime g /\ n = (p * g)%nat)).
Proof.
  intro Hn. destruct (Nat.eq_dec n 1) as [->|H1].
  { right. split; [|auto]. intros (a & b & c & Ha & Hb & Hc & E). assert (2 * 2 <= a * b)%nat by now apply Nat.mul_le_mono. nia. }
  destruct (factorint_cases n ltac:(lia)) as [H|[(p & g & H & Hp & Hg & E)|(p & g & g' & ds & H & Hp & Hg & Hg' & Hds & E & Hl)]].
  - right. split; [|auto]. intros (a & b & c & Ha & Hb & Hc & E). apply (prime_not_mul n (a * b) c); auto.
    assert (2 * 2 <= a * b)%nat by now apply Nat.mul_le_mono. lia.
  - right. split; [|right; right; exists p, g; auto]. intros (a & b & c & Ha & Hb & Hc & E').
    apply (two_primes_no_three p g a b c); auto. congruence.
  - left. exists p, g, (g' * lprod ds)%nat. split; [assumption|]. split; [assumption|]. split; [nia|assumption].
Qed.

Section S.
Variable R : cring.
Add Ring Rr : (r_th R).
Notation ten := (tensor (car R)).
Open Scope cr_scope.
Notation mats := (nat -> nat -> nat -> R).

(** Matrix units. *)
Definition munit (a b i j : nat) : R := if ((i =? a) && (j =? b))%nat%bool then 1 else 0.

Lemma mmul_munit M (a b : nat) (X : nat -> nat -> R) i j : (b < M)%nat ->
  mmul M (munit a b) X i j = if (i =? a)%nat then X b j else 0.
Proof.
  intro Hb. unfold mmul, munit. destruct (i =? a)%nat; cbn [andb].
  - rewrite (bsum_one M _ b) by (auto; intros k Hk Hne; bfalse (k =? b)%nat; ring).
    rewrite Nat.eqb_refl. ring.
  - apply bsum_0. intros. ring.
Qed.

(** Non-commuting witness: entry p is A_p (A_0 ... A_(p-1)). *)
Definition wit1 (p : nat) : mats := fun k => if (k =? 0)%nat then munit 1 0 else if (k =? p)%nat then munit 0 0 else mid.
Lemma wit1_prod M p k i j : (k < p)%nat -> (i < M)%nat -> (j < M)%nat -> mprod M (wit1 p) (S k) i j = munit 1 0 i j.
Proof.
  revert i j. induction k as [|k IH]; intros i j Hk Hi Hj; [now rewrite mprod_1|].
  change (mmul M (mprod M (wit1 p) (S k)) (wit1 p (S k)) i j = munit 1 0 i j).
  rewrite (mmul_ext M _ (munit 1 0) _ mid).
  - now apply mmul_id_r.
  - intros. apply IH; auto; lia.
  - intros l Hl. unfold wit1. bfalse (S k =? 0)%nat. bfalse (S k =? p)%nat. reflexivity.
Qed.
Lemma wit1_right M p : (2 <= M)%nat -> (1 <= p)%nat -> mprod M (wit1 p) (S p) 1 0 = 1.
Proof.
  intros HM Hp. destruct p as [|p]; [lia|].
  change (mmul M (mprod M (wit1 (S p)) (S p)) (wit1 (S p) (S p)) 1 0 = 1).
  rewrite (mmul_ext M _ (munit 1 0) _ (munit 0 0)).
  - rewrite mmul_munit by lia. reflexivity.
  - intros. apply wit1_prod; lia.
  - intros. unfold wit1. bfalse (S p =? 0)%nat. now rewrite Nat.eqb_refl.
Qed.
Lemma wit1_wrong M p : (2 <= M)%nat -> (1 <= p)%nat -> mmul M (wit1 p p) (mprod M (wit1 p) p) 1 0 = 0.
Proof.
  intros HM Hp. unfold wit1 at 1. bfalse (p =? 0)%nat. rewrite Nat.eqb_refl, mmul_munit by lia. reflexivity.
Qed.

(** Commuting witness: entry p g is A_(p g) alone. *)
Definition wit2 : mats := fun k => if (k =? 0)%nat then fun _ _ => 0 else mid.
Lemma wit2_right M k i j : (i < M)%nat -> (j < M)%nat -> mprod M wit2 (S k) i j = 0.
Proof.
  intros Hi Hj. rewrite mprod_S_l by assumption. unfold mmul. apply bsum_0. intros. unfold wit2. cbn [Nat.eqb]. ring.
Qed.
Lemma mmul_0_l M (X : nat -> nat -> R) i j : mmul M (fun _ _ => 0) X i j = 0.
Proof. unfold mmul. apply bsum_0. intros. ring. Qed.
Lemma mmul_0_r M (X : nat -> nat -> R) i j : mmul M X (fun _ _ => 0) i j = 0.
Proof. unfold mmul. apply bsum_0. intros. ring. Qed.
Lemma wit2_comm M n : commuting R M n wit2.
Proof.
  intros a b i j Ha Hb Hi Hj. unfold wit2. destruct (a =? 0)%nat, (b =? 0)%nat;
    rewrite ?mmul_0_l, ?mmul_0_r, ?mmul_id_l, ?mmul_id_r by assumption; reflexivity.
Qed.

(** The function matrices_cumdot computes for n terms. *)
Definition cdf (M n : nat) (f : mats) : mats :=
  match factorint n with [] => fun k => mprod M f (S k) | p :: ds => fun k => cumd R M p ds f k end.
Lemma cdf_is M n : (1 <= n)%nat -> cumdot_is R n M (cdf M n).
Proof.
  intros Hn A pre f HA. unfold cdf. destruct (Nat.eq_dec n 1) as [->|H1].
  - change (factorint 1) with (@nil nat). cbn iota. now apply cumdot_good_prime; [left|].
  - pose proof (factorint_prod n ltac:(lia)) as HE.
    destruct (factorint n) as [|p ds] eqn:E; [cbn in HE; lia|].
    apply cumdot_exact; auto. lia.
Qed.
Lemma cdf_prime M n f k i j : n = 1%nat \/ is_prime n -> (k < n)%nat -> (i < M)%nat -> (j < M)%nat -> cdf M n f k i j = mprod M f (S k) i j.
Proof.
  intros H Hk Hi Hj. set (A := mk3 n M M f).
  assert (HA : isP3 A [] n M M (fun _ => f)) by (apply is3_P; split; [reflexivity|intros; reflexivity]).
  assert (1 <= n)%nat by (destruct H as [->|[? _]]; lia).
  destruct (cdf_is M n H0 A [] _ HA) as (y & E & Hy). destruct (cumdot_good_prime R n H A [] M _ HA) as (y' & E' & Hy').
  rewrite E in E'. injection E' as <-. destruct Hy as [_ Hy], Hy' as [_ Hy'].
  rewrite <- (Hy [] k i j) by (auto; constructor). apply Hy'; auto. constructor.
Qed.
Lemma cdf_comm M n f k i j : (1 <= n)%nat -> ~ three_factors n -> commuting R M n f ->
  (k < n)%nat -> (i < M)%nat -> (j < M)%nat -> cdf M n f k i j = mprod M f (S k) i j.
Proof.
  intros Hn H3 HC Hk Hi Hj. destruct (three_dec n Hn) as [?|[_ [H|[H|(p & g & H & Hp & Hg & E)]]]]; [contradiction| | |].
  - apply cdf_prime; auto.
  - apply cdf_prime; auto.
  - unfold cdf. rewrite H. subst n. apply cumd_two; auto. destruct Hp. lia.
Qed.
(** Composite length: some position has the factors on the wrong side. *)
Lemma cdf_composite M n : (2 <= n)%nat -> ~ is_prime n ->
  exists p, (2 <= p < n)%nat /\ (n mod p = 0)%nat /\ forall f i j, (i < M)%nat -> (j < M)%nat ->
    cdf M n f p i j = mmul M (f p) (mprod M f p) i j.
Proof.
  intros Hn H. pose proof (factorint_primes n Hn) as HP. pose proof (factorint_prod n ltac:(lia)) as HE.
  destruct (factorint_composite n Hn H) as (p & g & ds & E). exists p. unfold cdf. rewrite E in *.
  apply Forall_cons_iff in HP as [[Hp _] HP]. apply Forall_cons_iff in HP as [[Hg _] HP].
  assert (HF : Forall (fun x => (1 <= x)%nat) ds /\ (1 <= lprod ds)%nat).
  { clear - HP. induction HP as [|x l Hx Hl [I1 I2]]; [split; [constructor|cbn; lia]|]. destruct Hx.
    split; [constructor; auto; lia|]. cbn [lprod fold_right]. fold (lprod l). nia. }
  destruct HF as [HF HL]. cbn [lprod fold_right] in HE. fold (lprod ds) in HE.
  assert (2 <= g * lprod ds)%nat by nia.
  split; [nia|]. split; [rewrite <- HE, Nat.mul_comm; apply Nat.mod_mul; lia|].
  intros. now apply cumd_at_p.
Qed.
Lemma cdf_three M n : three_factors n ->
  exists k, (2 <= k < n)%nat /\ forall f i j, (i < M)%nat -> (j < M)%nat -> cdf M n f k i j = f k i j.
Proof.
  intros H3. assert (Hn : (2 <= n)%nat).
  { destruct H3 as (a & b & c & Ha & Hb & Hc & ->). assert (2 * 2 <= a * b)%nat by now apply Nat.mul_le_mono. nia. }
  destruct (factorint_cases n Hn) as [H|[(p & g & H & Hp & Hg & E)|(p & g & g' & ds & H & Hp & Hg & Hg' & Hds & E & Hl)]].
  - exfalso. destruct H3 as (a & b & c & Ha & Hb & Hc & E). apply (prime_not_mul n (a * b) c); auto.
    assert (2 * 2 <= a * b)%nat by now apply Nat.mul_le_mono. lia.
  - exfalso. destruct H3 as (a & b & c & Ha & Hb & Hc & E'). apply (two_primes_no_three p g a b c); auto. congruence.
  - exists (p * g)%nat. assert (2 <= g' * lprod ds)%nat by nia. assert (2 * 2 <= p * g)%nat by now apply Nat.mul_le_mono.
    split; [nia|]. intros f i j Hi Hj. unfold cdf. rewrite H. now apply cumd_at_pg.
Qed.

(** ** The blocked recursion *)
Lemma mvec_0 M (X : nat -> nat -> R) i : mvec M X (fun _ => 0) i = 0.
Proof. unfold mvec. apply bsum_0. intros. ring. Qed.

(** Impulse on the first component at sample bs - 2 - k, seen at sample bs - 1. *)
Section Imp.
Variables (M N bs k : nat) (G : mats -> mats) (f : mats).
Hypotheses (HM : (1 <= M)%nat) (Hbs : (2 <= bs)%nat) (HN : (bs < N)%nat) (Hk : (k < bs - 1)%nat) (HG : cumdot_is R (bs - 1) M G).
Definition impA : mats := fun n => if (n <? bs)%nat then f (bs - 1 - n)%nat else mid.
Definition impX (n m : nat) : R := if (m =? 0)%nat then if (n =? bs - 2 - k)%nat then 1 else 0 else 0.
Lemma imp_sum (P : nat -> nat -> nat -> R) i : 
  bsum bs (fun j => mvec M (P j) (impX j) i) = P (bs - 2 - k)%nat i 0%nat.
Proof.
  rewrite (bsum_one bs _ (bs - 2 - k)); [|lia|].
  - unfold mvec. rewrite (bsum_one M _ 0); [|lia|].
    + unfold impX. rewrite !Nat.eqb_refl. ring.
    + intros l Hl Hne. unfold impX. bfalse (l =? 0)%nat. ring.
  - intros j Hj Hne. unfold mvec. apply bsum_0. intros l Hl. unfold impX. bfalse (j =? bs - 2 - k)%nat.
    destruct (l =? 0)%nat; ring.
Qed.
Lemma imp_right m : (m < M)%nat -> state M impA (fun _ => 0) impX (S (bs - 1)) m = mprod M f (S k) m 0.
Proof.
  intro Hm. replace (S (bs - 1))%nat with (0 + bs)%nat by lia. rewrite state_tv by assumption. cbn [state].
  rewrite mvec_0. rewrite (bsum_ext bs _ (fun j => mvec M ((fun j => mprod M (fun t => impA (0 + bs - 1 - t)%nat) (bs - 1 - j)) j) (impX j) m)) by reflexivity.
  rewrite (imp_sum (fun j => mprod M (fun t => impA (0 + bs - 1 - t)%nat) (bs - 1 - j))).
  replace (bs - 1 - (bs - 2 - k))%nat with (S k) by lia.
  rewrite (mprod_ext R M _ f) by (auto; intros t a b Ht _ _; unfold impA; btrue (0 + bs - 1 - t <? bs)%nat; f_equal; lia).
  ring.
Qed.
Lemma imp_blk fuel m : (m < M)%nat -> blk R M bs G (S (S fuel)) N impA (fun _ => 0) impX (bs - 1) m = G f k m 0%nat.
Proof.
  intro Hm. cbn [blk]. bfalse (bs =? 1)%nat. bfalse (N <=? bs)%nat. cbn [orb].
  rewrite (Nat.mod_small (bs - 1) bs), Nat.eqb_refl, (Nat.div_small (bs - 1) bs) by lia.
  set (kk := ((N + bs - 1) / bs)%nat).
  assert (1 <= kk)%nat by (apply Nat.div_le_lower_bound; lia).
  set (A' := uptoA R N impA). set (X' := uptoX R N impX).
  assert (HX : forall i, bin R M bs G A' X' 0 i = bsum bs (fun j => mvec M (bprod R bs G A' 0 (bs - 1 - j)) (impX j) i)).
  { intro i. unfold bin. apply bsum_ext. intros j Hj. apply mvec_ext; [reflexivity|]. intros l Hl.
    unfold X', uptoX. cbn [Nat.mul Nat.add]. btrue (j <? N)%nat. reflexivity. }
  transitivity (bin R M bs G A' X' 0 m).
  - destruct (kk <=? bs)%nat.
    + cbn [state]. rewrite mvec_0. ring.
    + rewrite Nat.mod_0_l, Nat.div_0_l by lia. bfalse (0 =? bs - 1)%nat. cbn [state]. rewrite mvec_0.
      unfold uptoX at 1. cbn [Nat.mul Nat.add]. btrue (0 <? kk)%nat. ring.
  - rewrite HX, (imp_sum (fun j => bprod R bs G A' 0 (bs - 1 - j))).
    replace (bs - 1 - (bs - 2 - k))%nat with (S k) by lia. cbn [bprod Nat.mul Nat.add].
    apply (cumdot_is_ext R (bs - 1) M G); auto. intros t a b Ht Ha Hb.
    unfold A', uptoA, impA. btrue (bs - 1 - t <? N)%nat. btrue (bs - 1 - t <? bs)%nat. do 1 f_equal. lia.
Qed.
Lemma imp_comm n : commuting R M bs f -> commuting R M n impA.
Proof.
  intros H a b i j Ha Hb Hi Hj. unfold impA. destruct (a <? bs)%nat eqn:Ea, (b <? bs)%nat eqn:Eb; b2p;
    rewrite ?mmul_id_l, ?mmul_id_r by assumption; try reflexivity. apply H; auto; lia.
Qed.
End Imp.

(** Commuting matrices: right whenever the cumulative product is right on commuting matrices. *)
Lemma blk_right M bs G fuel : (2 <= bs)%nat ->
  (forall f k i j, commuting R M (bs - 1) f -> (k < bs - 1)%nat -> (i < M)%nat -> (j < M)%nat -> G f k i j = mprod M f (S k) i j) ->
  forall N (A : mats) h u n m, (N < fuel)%nat -> commuting R M N A -> (n < N)%nat -> (m < M)%nat ->
  blk R M bs G fuel N A h u n m = state M A h u (S n) m.
Proof.
  intros Hbs HG. induction fuel as [|fuel IH]; intros N A h u n m Hf HC Hn Hm; [lia|]. cbn [blk].
  destruct ((bs =? 1) || (N <=? bs))%bool%nat eqn:E; [reflexivity|]. b2p.
  set (k := ((N + bs - 1) / bs)%nat).
  pose proof (Nat.div_mod (N + bs - 1) bs ltac:(lia)) as Edm. pose proof (Nat.mod_upper_bound (N + bs - 1) bs ltac:(lia)) as Hmod.
  fold k in Edm. set (ro := ((N + bs - 1) mod bs)%nat) in *.
  assert (Hk : (N <= k * bs)%nat) by nia. assert (HkN : (k < N)%nat) by nia.
  set (B := uptoA R N A). set (X := uptoX R N u).
  assert (HCB : commuting R M (k * bs) B).
  { intros a b i j Ha Hb Hi Hj. unfold mmul, B, uptoA. destruct (a <? N)%nat eqn:Ea, (b <? N)%nat eqn:Eb; b2p.
    - now apply HC.
    - rewrite !bsum_0; auto; intros; ring.
    - rewrite !bsum_0; auto; intros; ring.
    - reflexivity. }
  assert (HP : forall c i a b, (c < k)%nat -> (i <= bs - 1)%nat -> (a < M)%nat -> (b < M)%nat ->
    bprod R bs G B c i a b = mprod M (fun t => B (c * bs + (bs - 1 - t))%nat) i a b).
  { intros c i a b Hc Hi Ha Hb. destruct i as [|i]; [reflexivity|]. cbn [bprod]. apply HG; auto; try lia.
    intros x y i' j' Hx Hy Hi' Hj'. apply HCB; auto; nia. }
  assert (HL : forall c a b, (c < k)%nat -> (a < M)%nat -> (b < M)%nat ->
    blast R M bs G B c a b = mprod M (fun t => B (c * bs + (bs - 1 - t))%nat) bs a b).
  { intros c a b Hc Ha Hb. unfold blast. 
    transitivity (mprod M (fun t => B (c * bs + (bs - 1 - t))%nat) (S (bs - 1)) a b); [|f_equal; lia].
    cbn [mprod]. apply mmul_ext; intros; [apply HP; auto; lia|]. f_equal. lia. }
  assert (HR : forall c m, (c < k)%nat -> (m < M)%nat ->
    blk R M bs G fuel k (blast R M bs G B) h (bin R M bs G B X) c m = state M B h X (S c * bs) m).
  { intros c m' Hc Hm'. rewrite IH; auto; [|lia|].
    - clear Hm Hn m n. revert m' Hm'. induction c as [|c IHc].
      + intros m' Hm'. cbn [state]. replace (1 * bs)%nat with (0 + bs)%nat by lia. rewrite state_tv by assumption. f_equal.
        * apply mvec_ext; [|reflexivity]. intros l Hl. rewrite HL by assumption. apply mprod_ext; auto.
          
        * unfold bin. apply bsum_ext. intros j Hj. apply mvec_ext; [|reflexivity]. intros l Hl. rewrite HP by (auto; lia).
          apply mprod_ext; auto. 
      + intros m' Hm'. change (state M (blast R M bs G B) h (bin R M bs G B X) (S (S c)) m') with
          (mvec M (blast R M bs G B (S c)) (state M (blast R M bs G B) h (bin R M bs G B X) (S c)) m' + bin R M bs G B X (S c) m').
        replace (S (S c) * bs)%nat with (S c * bs + bs)%nat by lia. rewrite state_tv by assumption. f_equal.
        * apply mvec_ext; [|intros; apply IHc; auto; lia]. intros l Hl. rewrite HL by assumption. apply mprod_ext; auto.
          intros t a b Ht _ _. f_equal. lia.
        * unfold bin. apply bsum_ext. intros j Hj. apply mvec_ext; [|reflexivity]. intros l Hl. rewrite HP by (auto; lia).
          apply mprod_ext; auto. intros t a b Ht _ _. f_equal. lia.
    - intros x y i j Hx Hy Hi Hj. rewrite (mmul_ext M _ (mprod M (fun t => B (x * bs + (bs - 1 - t))%nat) bs) _ (mprod M (fun t => B (y * bs + (bs - 1 - t))%nat) bs)) by auto.
      rewrite (mmul_ext M (blast R M bs G B y) (mprod M (fun t => B (y * bs + (bs - 1 - t))%nat) bs) _ (mprod M (fun t => B (x * bs + (bs - 1 - t))%nat) bs)) by auto.
      apply mprod_comm1; auto. intros t i' j' Ht Hi' Hj'. symmetry. apply mprod_comm1; auto.
      intros t' i2 j2 Ht' Hi2 Hj2. apply HCB; auto; nia. }
  assert (HB : state M B h X (S n) m = state M A h u (S n) m).
  { apply state_ext; auto.
    - intros t i j Ht Hi Hj. unfold B, uptoA. btrue (t <? N)%nat. reflexivity.
    - intros t i Ht Hi. unfold X, uptoX. btrue (t <? N)%nat. reflexivity. }
  rewrite <- HB. pose proof (Nat.div_mod n bs ltac:(lia)) as En. pose proof (Nat.mod_upper_bound n bs ltac:(lia)) as Hnm.
  assert (Hc : (n / bs < k)%nat) by (apply Nat.div_lt_upper_bound; lia).
  set (c := (n / bs)%nat) in *. set (r := (n mod bs)%nat) in *.
  destruct (r =? bs - 1)%nat eqn:Er; b2p.
  - rewrite HR by assumption. f_equal. nia.
  - replace (S n) with (c * bs + S r)%nat by lia. rewrite <- (state_shift_fun R M B (fun t => B (c * bs + t)%nat) h X (fun t => X (c * bs + t)%nat)) by auto.
    apply state_ext; auto. intros i Hi. destruct c as [|c]; [reflexivity|]. apply HR; auto. lia.
Qed.
End S.
