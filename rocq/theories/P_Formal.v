(** Formal polynomials as coefficient functions, products of linear factors, and the
    uniqueness argument behind partial fractions. *)
From Coq Require Import List Arith Lia Bool Permutation.
From Verif Require Import Scalar.
Import ListNotations.

Section FP.
Variable F : cfield.
Add Ring Rr : (r_th F).
Local Open Scope cr_scope.
Notation P := (nat -> F).

(** Multiplication by (x - p), and by all (x - p) for p in a list. *)
Definition mlin (p : F) (c : P) : P := fun k => (match k with O => 0 | S k' => c k' end) - p * c k.
Fixpoint mlins (L : list F) (c : P) : P := match L with [] => c | p :: L => mlin p (mlins L c) end.
Definition deg (n : nat) (c : P) : Prop := forall k, (n <= k)%nat -> c k = 0.
Definition one : P := fun k => match k with O => 1 | _ => 0 end.
Definition ev (n : nat) (c : P) (z : F) : F := bsum n (fun k => c k * rpow z k).

Lemma mlin_ext p c d : (forall k, c k = d k) -> forall k, mlin p c k = mlin p d k.
Proof. intros H [|k]; unfold mlin; now rewrite ?H. Qed.
Lemma mlins_ext L c d : (forall k, c k = d k) -> forall k, mlins L c k = mlins L d k.
Proof. intro H. induction L as [|p L IH]; [exact H|]. cbn [mlins]. now apply mlin_ext. Qed.
Lemma mlin_comm p q c k : mlin p (mlin q c) k = mlin q (mlin p c) k.
Proof. destruct k as [|[|k]]; unfold mlin; ring. Qed.
Lemma mlins_app L M c k : mlins (L ++ M) c k = mlins L (mlins M c) k.
Proof. revert k. induction L as [|p L IH]; intro k; [reflexivity|]. cbn [mlins app]. now apply mlin_ext. Qed.
Lemma mlins_perm L M c : Permutation L M -> forall k, mlins L c k = mlins M c k.
Proof.
  induction 1; intro k; cbn [mlins]; [reflexivity| |apply mlin_comm|congruence]. now apply mlin_ext.
Qed.
Lemma mlin_add p c d k : mlin p (fun k => c k + d k) k = mlin p c k + mlin p d k.
Proof. destruct k; unfold mlin; ring. Qed.
Lemma mlin_scale p s c k : mlin p (fun k => s * c k) k = s * mlin p c k.
Proof. destruct k; unfold mlin; ring. Qed.
Lemma mlins_add L c d k : mlins L (fun k => c k + d k) k = mlins L c k + mlins L d k.
Proof.
  revert k. induction L as [|p L IH]; intro k; [reflexivity|]. cbn [mlins].
  rewrite <- mlin_add. now apply mlin_ext.
Qed.
Lemma mlins_scale L s c k : mlins L (fun k => s * c k) k = s * mlins L c k.
Proof.
  revert k. induction L as [|p L IH]; intro k; [reflexivity|]. cbn [mlins].
  rewrite <- mlin_scale. now apply mlin_ext.
Qed.
Lemma mlins_0 L k : mlins L (fun _ => 0) k = 0.
Proof.
  revert k. induction L as [|p L IH]; intro k; [reflexivity|]. cbn [mlins].
  rewrite (mlin_ext p _ (fun _ => 0)) by exact IH. destruct k; unfold mlin; ring.
Qed.
Lemma mlin_bsum p n (f : nat -> P) k : mlin p (fun k => bsum n (fun j => f j k)) k = bsum n (fun j => mlin p (f j) k).
Proof.
  induction n as [|n IH]; cbn [bsum]; [destruct k; unfold mlin; ring|]. rewrite <- IH. apply mlin_add.
Qed.

Lemma deg_le n m c : deg n c -> (n <= m)%nat -> deg m c.
Proof. intros H L k Hk. apply H. lia. Qed.
Lemma deg_mlin n p c : deg n c -> deg (S n) (mlin p c).
Proof. intros H [|k] Hk; [lia|]. unfold mlin. rewrite !H by lia. ring. Qed.
Lemma deg_mlins n L c : deg n c -> deg (length L + n) (mlins L c).
Proof. intro H. induction L as [|p L IH]; [exact H|]. cbn [mlins length Nat.add]. now apply deg_mlin. Qed.
Lemma deg_one : deg 1 one.
Proof. intros [|k] Hk; [lia|reflexivity]. Qed.
Lemma deg_mlin_inv N n p c : deg N c -> deg (S n) (mlin p c) -> deg n c.
Proof.
  intros HN H. assert (forall j k, (n <= k)%nat -> (N <= k + j)%nat -> c k = 0) as G.
  { induction j as [|j IH]; intros k Hk Hj; [apply HN; lia|].
    specialize (H (S k) ltac:(lia)). unfold mlin in H. rewrite (IH (S k)) in H by lia.
    rewrite <- H. ring. }
  intros k Hk. apply (G N); lia.
Qed.
Lemma deg_mlins_inv N L c : deg N c -> deg (length L) (mlins L c) -> deg 0 c.
Proof.
  intro HN. induction L as [|p L IH]; cbn [mlins length]; intro H; [exact H|]. apply IH.
  apply (deg_mlin_inv (length L + N)%nat _ p); [now apply deg_mlins|exact H].
Qed.
Lemma mlin_inj N M p c d : deg N c -> deg M d -> (forall k, mlin p c k = mlin p d k) -> forall k, c k = d k.
Proof.
  intros Hc Hd H k. assert (deg 0 (fun k => c k + (-(1)) * d k)) as G.
  { apply (deg_mlin_inv (N + M)%nat _ p).
    - intros j Hj. rewrite Hc, Hd by lia. ring.
    - intros j Hj. rewrite mlin_add, mlin_scale, H. ring. }
  specialize (G k ltac:(lia)). cbv beta in G.
  replace (c k) with (c k + -(1) * d k + d k) by ring. rewrite G. ring.
Qed.

Lemma ev_ext n c d z : (forall k, c k = d k) -> ev n c z = ev n d z.
Proof. intro H. unfold ev. apply bsum_ext. intros. now rewrite H. Qed.
Lemma ev_trunc n N c z : deg n c -> (n <= N)%nat -> ev N c z = ev n c z.
Proof. intros H L. unfold ev. apply bsum_trunc; [exact L|]. intros k H1 H2. rewrite H by exact H1. ring. Qed.
Lemma ev_mlin n p c z : deg n c -> ev (S n) (mlin p c) z = (z - p) * ev n c z.
Proof.
  intro H. unfold ev. rewrite bsum_S_l.
  transitivity (- p * c 0%nat + bsum n (fun k => (c k - p * c (S k)) * rpow z (S k))).
  { unfold mlin. cbn [rpow]. f_equal. ring. }
  assert (bsum n (fun k => (c k - p * c (S k)) * rpow z (S k))
          = z * bsum n (fun k => c k * rpow z k) - p * bsum n (fun k => c (S k) * rpow z (S k))) as ->.
  { clear H. induction n as [|n IH]; cbn [bsum]; [ring|]. rewrite IH. cbn [rpow]. ring. }
  assert (bsum n (fun k => c (S k) * rpow z (S k)) = bsum n (fun k => c k * rpow z k) - c 0%nat) as ->.
  { destruct n as [|n].
    - cbn [bsum]. rewrite (H 0%nat) by lia. ring.
    - rewrite (bsum_S_l n (fun k => c k * rpow z k)). cbn [bsum rpow].
      rewrite (H (S n)) by lia. ring. }
  ring.
Qed.
Definition evprod (L : list F) (z : F) : F := fold_right (fun p acc => (z - p) * acc) 1 L.
Lemma ev_mlins n L c z : deg n c -> ev (length L + n) (mlins L c) z = evprod L z * ev n c z.
Proof.
  intro H. induction L as [|p L IH]; [cbn [mlins length Nat.add]; change (evprod [] z) with (r1 : F); ring|].
  cbn [mlins length Nat.add]. change (evprod (p :: L) z) with ((z - p) * evprod L z).
  rewrite ev_mlin by now apply deg_mlins. rewrite IH. ring.
Qed.
Lemma evprod_app L M z : evprod (L ++ M) z = evprod L z * evprod M z.
Proof.
  induction L as [|p L IH]; [change (evprod [] z) with (r1 : F); cbn [app]; ring|].
  change (evprod ((p :: L) ++ M) z) with ((z - p) * evprod (L ++ M) z).
  change (evprod (p :: L) z) with ((z - p) * evprod L z). rewrite IH. ring.
Qed.
Lemma evprod_perm L M z : Permutation L M -> evprod L z = evprod M z.
Proof.
  induction 1; [reflexivity| | |congruence].
  - change (evprod (x :: l) z) with ((z - x) * evprod l z). now rewrite IHPermutation.
  - change (evprod (y :: x :: l) z) with ((z - y) * ((z - x) * evprod l z)).
    change (evprod (x :: y :: l) z) with ((z - x) * ((z - y) * evprod l z)). ring.
Qed.
Lemma evprod_repeat p m z : evprod (repeat p m) z = rpow (z - p) m.
Proof. induction m as [|m IH]; [reflexivity|]. change (evprod (repeat p (S m)) z) with ((z - p) * evprod (repeat p m) z). cbn [rpow]. rewrite IH. ring. Qed.
Lemma mul_ne0 (x y : F) : x <> 0 -> y <> 0 -> x * y <> 0.
Proof.
  intros Hx Hy H. apply Hy. replace y with (rinv x * x * y) by (rewrite rinv_l by exact Hx; ring).
  replace (rinv x * x * y) with (rinv x * (x * y)) by ring. rewrite H. ring.
Qed.
Lemma sub_ne0 (x y : F) : x <> y -> x - y <> 0.
Proof. intros H E. apply H. replace x with (x - y + y) by ring. rewrite E. ring. Qed.
Lemma evprod_ne0 L z : (forall p, In p L -> z <> p) -> evprod L z <> 0.
Proof.
  induction L as [|p L IH]; intro H; [apply r1_neq_r0|]. change (evprod (p :: L) z) with ((z - p) * evprod L z).
  apply mul_ne0; [apply sub_ne0; apply H; now left|apply IH; intros q Hq; apply H; now right].
Qed.

(** Division by a root. *)
Lemma factor_root n c p : deg n c -> ev n c p = 0 -> exists q, deg (n - 1) q /\ forall k, c k = mlin p q k.
Proof.
  intros H H0. exists (fun k => bsum (n - 1 - k) (fun i => c (S k + i)%nat * rpow p i)). split.
  - intros k Hk. replace (n - 1 - k)%nat with 0%nat by lia. reflexivity.
  - assert (forall a k, (n <= a + k)%nat -> bsum a (fun i => c (k + i)%nat * rpow p i)
                        = c k + p * bsum (a - 1) (fun i => c (S k + i)%nat * rpow p i)) as G.
    { intros [|a] k Ha; cbn [Nat.sub].
      - cbn [bsum]. rewrite H by lia. ring.
      - rewrite bsum_S_l, Nat.sub_0_r. rewrite Nat.add_0_r. cbn [rpow].
        rewrite <- bsum_mul_l. rewrite (bsum_ext _ (fun i => c (k + S i)%nat * (p * rpow p i)) (fun i => p * (c (S k + i)%nat * rpow p i))).
        + ring.
        + intros i Hi. replace (k + S i)%nat with (S k + i)%nat by lia. ring. }
    intros [|k]; unfold mlin.
    + destruct n as [|n].
      * cbn [Nat.sub bsum]. rewrite (H 0%nat) by lia. ring.
      * pose proof (G (S n) 0%nat ltac:(lia)) as E. unfold ev in H0. cbn [Nat.add] in E, H0 |- *. rewrite H0 in E.
        cbn [Nat.sub] in E |- *. rewrite ?Nat.sub_0_r in *.
        replace (c 0%nat) with (0 - p * bsum n (fun i => c (S i) * rpow p i)) by (rewrite E; ring). reflexivity.
    + destruct (Nat.lt_ge_cases (S k) n) as [Hk|Hk].
      * rewrite (G (n - 1 - k)%nat (S k)) by lia.
        replace (n - 1 - k - 1)%nat with (n - 1 - S k)%nat by lia. ring.
      * replace (n - 1 - k)%nat with 0%nat by lia. replace (n - 1 - S k)%nat with 0%nat by lia.
        cbn [bsum]. rewrite H by lia. ring.
Qed.

(** ** Divisibility by a product of linear factors *)
Definition dvd (L : list F) (c : P) : Prop := exists M Q, deg M Q /\ forall k, c k = mlins L Q k.
Lemma dvd_ext L c d : (forall k, c k = d k) -> dvd L c -> dvd L d.
Proof. intros E (M & Q & H1 & H2). exists M, Q. split; [exact H1|]. intro k. now rewrite <- E. Qed.
Lemma dvd_add L c d : dvd L c -> dvd L d -> dvd L (fun k => c k + d k).
Proof.
  intros (M & Q & H1 & H2) (M' & Q' & H1' & H2'). exists (M + M')%nat, (fun k => Q k + Q' k). split.
  - intros k Hk. rewrite H1, H1' by lia. ring.
  - intro k. rewrite mlins_add, H2, H2'. reflexivity.
Qed.
Lemma dvd_scale L s c : dvd L c -> dvd L (fun k => s * c k).
Proof.
  intros (M & Q & H1 & H2). exists M, (fun k => s * Q k). split; [intros k Hk; rewrite H1 by exact Hk; ring|].
  intro k. now rewrite mlins_scale, H2.
Qed.
Lemma dvd_zero L : dvd L (fun _ => 0).
Proof. exists 0%nat, (fun _ => 0). split; [intros k _; reflexivity|]. intro k. now rewrite mlins_0. Qed.
Lemma dvd_bsum L n (f : nat -> P) : (forall j, (j < n)%nat -> dvd L (f j)) -> dvd L (fun k => bsum n (fun j => f j k)).
Proof.
  induction n as [|n IH]; intro H; cbn [bsum]; [apply dvd_zero|].
  apply (dvd_add L (fun k => bsum n (fun j => f j k)) (f n)); [apply IH; intros; apply H; lia|apply H; lia].
Qed.
Lemma dvd_sub_list L A B c M : deg M c -> dvd L (mlins (A ++ L ++ B) c).
Proof.
  intro H. exists (length (A ++ B) + M)%nat, (mlins (A ++ B) c). split; [now apply deg_mlins|]. intro k.
  rewrite <- mlins_app. apply mlins_perm. rewrite !app_assoc. apply Permutation_app_tail. apply Permutation_app_comm.
Qed.

Lemma div_step m p L : ~ In p L -> forall N M Q Q', deg N Q -> deg M Q' ->
  (forall k, mlins L Q k = mlins (repeat p m) Q' k) -> exists M2 Q2, deg M2 Q2 /\ forall k, Q k = mlins (repeat p m) Q2 k.
Proof.
  intro Hp. induction m as [|m IH]; intros N M Q Q' HN HM H.
  - exists N, Q. split; [exact HN|]. reflexivity.
  - assert (E0 : ev N Q p = 0).
    { assert (evprod L p * ev N Q p = 0) as E.
      { rewrite <- ev_mlins by exact HN. cbn [repeat mlins] in H.
        set (K := (length L + N + S (length (repeat p m) + M))%nat).
        rewrite <- (ev_trunc (length L + N) K) by (unfold K; try lia; now apply deg_mlins).
        rewrite (ev_ext K _ _ p H).
        rewrite (ev_trunc (S (length (repeat p m) + M)) K) by (unfold K; try lia; now apply deg_mlin, deg_mlins).
        rewrite ev_mlin by now apply deg_mlins. ring. }
      assert (evprod L p <> 0) as G. { apply evprod_ne0. intros q Hq ->. now apply Hp. }
      replace (ev N Q p) with (rinv (evprod L p) * evprod L p * ev N Q p) by (rewrite rinv_l by exact G; ring).
      replace (rinv (evprod L p) * evprod L p * ev N Q p) with (rinv (evprod L p) * (evprod L p * ev N Q p)) by ring.
      rewrite E. ring. }
    destruct (factor_root N Q p HN E0) as (Q1 & HQ1 & E1).
    assert (forall k, mlins L Q1 k = mlins (repeat p m) Q' k) as E2.
    { apply (mlin_inj (length L + (N - 1)) (length (repeat p m) + M) p); [now apply deg_mlins|now apply deg_mlins|].
      intro k. change (mlin p (mlins (repeat p m) Q') k) with (mlins (repeat p (S m)) Q' k). rewrite <- H.
      change (mlin p (mlins L Q1) k) with (mlins ([p] ++ L) Q1 k).
      rewrite (mlins_perm _ (L ++ [p])) by apply Permutation_app_comm. rewrite mlins_app.
      apply mlins_ext. intro j. now rewrite E1. }
    destruct (IH _ _ Q1 Q' HQ1 HM E2) as (M2 & Q2 & H3 & H4). exists M2, Q2. split; [exact H3|].
    intro k. rewrite E1. cbn [repeat mlins]. now apply mlin_ext.
Qed.

Definition poles_of (l : list (F * nat)) : list F := concat (map (fun '(p, m) => repeat p m) l).
Lemma poles_of_in l x : In x (poles_of l) -> In x (map fst l).
Proof.
  unfold poles_of. rewrite in_concat. intros (y & Hy & Hx). apply in_map_iff in Hy as ([p m] & <- & H).
  apply repeat_spec in Hx as ->. apply in_map_iff. exists (p, m). auto.
Qed.
Lemma poles_of_app l l' : poles_of (l ++ l') = poles_of l ++ poles_of l'.
Proof. unfold poles_of. now rewrite map_app, concat_app. Qed.
Lemma poles_of_len_mid l p m l' : Permutation (repeat p m ++ poles_of (l ++ l')) (poles_of (l ++ (p, m) :: l')).
Proof.
  rewrite !poles_of_app. change (poles_of ((p, m) :: l')) with (repeat p m ++ poles_of l').
  rewrite !app_assoc. apply Permutation_app_tail. apply Permutation_app_comm.
Qed.

Lemma dvd_all l N c : NoDup (map fst l) -> deg N c -> (forall p m, In (p, m) l -> dvd (repeat p m) c) -> dvd (poles_of l) c.
Proof.
  induction l as [|[p m] l IH]; intros Hd HN H; [exists N, c; split; [exact HN|reflexivity]|].
  cbn [map fst] in Hd. inversion Hd as [|x y Hx Hy]; subst.
  destruct IH as (M & Q & H1 & H2); [exact Hy|exact HN|intros q k Hq; apply H; now right|].
  destruct (H p m (or_introl eq_refl)) as (M' & Q' & H1' & H2').
  destruct (div_step m p (poles_of l)) with (N := M) (M := M') (Q := Q) (Q' := Q') as (M2 & Q2 & H3 & H4).
  - intro Hin. apply Hx. now apply poles_of_in.
  - exact H1.
  - exact H1'.
  - intro k. now rewrite <- H2, <- H2'.
  - exists M2, Q2. split; [exact H3|]. intro k. rewrite H2. rewrite (mlins_ext _ _ _ H4).
    rewrite <- mlins_app. apply mlins_perm. apply Permutation_app_comm.
Qed.
Lemma dvd_deg_zero L c : dvd L c -> deg (length L) c -> forall k, c k = 0.
Proof.
  intros (M & Q & H1 & H2) H k. rewrite H2. rewrite <- (mlins_0 L k). apply mlins_ext. intro j.
  apply (deg_mlins_inv M L); [exact H1| |lia]. intros i Hi. rewrite <- H2. now apply H.
Qed.

(** ** Partial fractions *)
(** Numerator of sum_{j<m} r_j / (x-p)^(m-j) over the common denominator. *)
Definition pterm (p : F) (m : nat) (r : nat -> F) (others : list F) : P :=
  fun k => bsum m (fun j => r j * mlins (repeat p j ++ others) one k).
Fixpoint ptot (pre : list (F * nat)) (l : list (F * nat * (nat -> F))) : P :=
  match l with
  | [] => fun _ => 0
  | (p, m, r) :: l' => fun k => pterm p m r (poles_of (pre ++ map fst l')) k + ptot (pre ++ [(p, m)]) l' k
  end.
Lemma pterm_dvd q m' p m r A B : dvd (repeat q m') (pterm p m r (poles_of (A ++ (q, m') :: B))).
Proof.
  apply dvd_bsum. intros j Hj. apply dvd_scale. rewrite poles_of_app.
  change (poles_of ((q, m') :: B)) with (repeat q m' ++ poles_of B). rewrite app_assoc.
  apply (dvd_sub_list (repeat q m') (repeat p j ++ poles_of A) (poles_of B) one 1). apply deg_one.
Qed.
Lemma ptot_dvd_pre q m A B l : dvd (repeat q m) (ptot (A ++ (q, m) :: B) l).
Proof.
  revert B. induction l as [|[[p m'] r] l IH]; intro B; [apply dvd_zero|]. cbn [ptot].
  apply dvd_add; [rewrite <- app_assoc; apply pterm_dvd|]. rewrite <- app_assoc. cbn [app]. apply IH.
Qed.
Lemma ptot_split l1 p m r l2 : forall pre, exists c, dvd (repeat p m) c /\
  forall k, ptot pre (l1 ++ (p, m, r) :: l2) k = pterm p m r (poles_of (pre ++ map fst (l1 ++ l2))) k + c k.
Proof.
  induction l1 as [|[[q m'] r'] l1 IH]; intro pre; cbn [app ptot].
  - eexists. split; [|reflexivity]. apply (ptot_dvd_pre p m pre []).
  - destruct (IH (pre ++ [(q, m')])) as (c & Hc & E).
    exists (fun k => pterm q m' r' (poles_of (pre ++ map fst (l1 ++ (p, m, r) :: l2))) k + c k). split.
    + apply dvd_add; [|exact Hc]. rewrite map_app. cbn [map fst]. rewrite app_assoc. apply pterm_dvd.
    + intro k. rewrite E. cbn [map fst]. rewrite <- app_assoc. cbn [app]. ring.
Qed.
Lemma deg_pterm p m r o n : (m + length o <= n)%nat -> deg n (pterm p m r o).
Proof.
  intros H k Hk. unfold pterm. apply bsum_0. intros j Hj.
  rewrite (deg_mlins 1 (repeat p j ++ o) one deg_one); [ring|]. rewrite app_length, repeat_length. lia.
Qed.
Definition tmult (l : list (F * nat)) : nat := length (poles_of l).
Lemma tmult_app l l' : tmult (l ++ l') = (tmult l + tmult l')%nat.
Proof. unfold tmult. now rewrite poles_of_app, app_length. Qed.
Lemma tmult_cons p m l : tmult ((p, m) :: l) = (m + tmult l)%nat.
Proof. unfold tmult. change (poles_of ((p, m) :: l)) with (repeat p m ++ poles_of l). now rewrite app_length, repeat_length. Qed.
Lemma deg_ptot l : forall pre, deg (tmult (pre ++ map fst l)) (ptot pre l).
Proof.
  induction l as [|[[p m] r] l IH]; intro pre; cbn [ptot map fst]; [intros k _; reflexivity|].
  intros k Hk. rewrite (deg_pterm p m r _ (tmult (pre ++ (p, m) :: map fst l))).
  - rewrite (IH (pre ++ [(p, m)])); [ring|]. rewrite <- app_assoc. exact Hk.
  - fold (tmult (pre ++ map fst l)). rewrite !tmult_app, tmult_cons. lia.
  - exact Hk.
Qed.

(** If N agrees with each block modulo (x-p)^m and has low enough degree, it is the sum. *)
Theorem partial_fractions (l : list (F * nat * (nat -> F))) (N : P) :
  NoDup (map fst (map fst l)) -> deg (tmult (map fst l)) N ->
  (forall l1 p m r l2, l = l1 ++ (p, m, r) :: l2 ->
     exists W M, deg M W /\ forall k, N k = pterm p m r (poles_of (map fst (l1 ++ l2))) k + mlins (repeat p m) W k) ->
  forall k, N k = ptot [] l k.
Proof.
  intros Hd HN H. set (E := fun k => N k + (-(1)) * ptot [] l k).
  assert (HE : deg (tmult (map fst l)) E).
  { intros k Hk. unfold E. rewrite HN by exact Hk. rewrite (deg_ptot l []) by exact Hk. ring. }
  assert (dvd (poles_of (map fst l)) E) as HD.
  { apply (dvd_all _ _ _ Hd HE). intros p m Hin. apply in_map_iff in Hin as ([[p' m'] r] & Eq & Hin).
    cbn [fst] in Eq. injection Eq as -> ->. apply in_split in Hin as (l1 & l2 & El).
    destruct (H l1 p m r l2 El) as (W & M & HW & EW).
    destruct (ptot_split l1 p m r l2 []) as (c & Hc & Ec).
    assert (dvd (repeat p m) (fun k => mlins (repeat p m) W k + (-(1)) * c k)) as G.
    { apply (dvd_add _ (mlins (repeat p m) W)); [exists M, W; now split|now apply dvd_scale]. }
    revert G. apply dvd_ext. intro k. unfold E. rewrite EW, El, Ec. cbn [app]. ring. }
  intro k. pose proof (dvd_deg_zero _ _ HD HE k) as Z. unfold E in Z.
  replace (N k) with (N k + -(1) * ptot [] l k + ptot [] l k) by ring. rewrite Z. ring.
Qed.

(** Value of the sum away from the poles. *)
Lemma ev_pterm p m r o n z : (m + length o <= n)%nat -> z <> p ->
  ev n (pterm p m r o) z = evprod (repeat p m ++ o) z * bsum m (fun j => r j * rinv (rpow (z - p) (m - j))).
Proof.
  intros Hn Hz. rewrite <- bsum_mul_l. unfold ev, pterm.
  transitivity (bsum n (fun k => bsum m (fun j => r j * (mlins (repeat p j ++ o) one k * rpow z k)))).
  { apply bsum_ext. intros k Hk. rewrite <- bsum_mul_r. apply bsum_ext. intros. ring. }
  rewrite bsum_swap. apply bsum_ext. intros j Hj. rewrite bsum_mul_l.
  fold (ev n (mlins (repeat p j ++ o) one) z).
  rewrite (ev_trunc (length (repeat p j ++ o) + 1) n) by (try (rewrite app_length, repeat_length; lia); apply deg_mlins, deg_one).
  rewrite ev_mlins by apply deg_one. rewrite !evprod_app, !evprod_repeat.
  assert (ev 1 one z = 1) as -> by (unfold ev; cbn [bsum one rpow]; ring).
  assert (rpow (z - p) (m - j) <> 0) as G.
  { generalize (m - j)%nat. intro i. induction i as [|i IH]; [apply r1_neq_r0|]. cbn [rpow]. apply mul_ne0; [now apply sub_ne0|exact IH]. }
  assert (rpow (z - p) m = rpow (z - p) j * rpow (z - p) (m - j)) as ->.
  { replace m with (j + (m - j))%nat at 1 by lia. generalize (m - j)%nat. intro i. clear. induction j as [|j IH]; cbn [rpow Nat.add]; [ring|]. rewrite IH. ring. }
  transitivity (r j * rpow (z - p) j * evprod o z * (rinv (rpow (z - p) (m - j)) * rpow (z - p) (m - j))); [|ring].
  rewrite rinv_l by exact G. ring.
Qed.
Definition pfe_at (z : F) (b : F * nat * (nat -> F)) : F :=
  let '(p, m, r) := b in bsum m (fun j => r j * rinv (rpow (z - p) (m - j))).
Definition pfe_sum (z : F) (l : list (F * nat * (nat -> F))) : F := fold_right (fun b acc => pfe_at z b + acc) 0 l.
Lemma ev_ptot l z : forall pre n, (forall p, In p (map fst (map fst l)) -> z <> p) -> (tmult (pre ++ map fst l) <= n)%nat ->
  ev n (ptot pre l) z = evprod (poles_of (pre ++ map fst l)) z * pfe_sum z l.
Proof.
  induction l as [|[[p m] r] l IH]; intros pre n Hz Hn; cbn [ptot map fst pfe_sum fold_right].
  - unfold ev. rewrite bsum_0 by (intros; ring). ring.
  - cbn [map fst] in *. fold (pfe_sum z l).
    transitivity (ev n (pterm p m r (poles_of (pre ++ map fst l))) z + ev n (ptot (pre ++ [(p, m)]) l) z).
    { unfold ev. rewrite <- bsum_add. apply bsum_ext. intros. ring. }
    rewrite ev_pterm.
    + rewrite IH; [|intros q Hq; apply Hz; now right|rewrite <- app_assoc; exact Hn].
      rewrite <- app_assoc. cbn [app]. rewrite (evprod_perm _ _ z (poles_of_len_mid pre p m (map fst l))).
      unfold pfe_at. ring.
    + fold (tmult (pre ++ map fst l)). rewrite tmult_app, tmult_cons in Hn. rewrite tmult_app. lia.
    + apply Hz. now left.
Qed.
End FP.
