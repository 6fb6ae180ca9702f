(** Error analysis: a calculus of rounded values. *)
From Coq Require Import List Arith Lia ZArith Bool Ring.
From Verif Require Import Scalar Ordered SpecRound Spec Tensor.
Import ListNotations.

Section Ord.
Variable F : ofield.
Add Ring Rr : (r_th F).
Open Scope cr_scope.
Lemma sub_0 (x y : F) : ole x y = true -> ole 0 (y - x) = true.
Proof. apply ole_sub. Qed.
Lemma le_add (x y z w : F) : ole x y = true -> ole z w = true -> ole (x + z) (y + w) = true.
Proof.
  intros H1 H2. apply (ole_trans F _ (y + z)); [now apply ole_add|].
  replace (y + z) with (z + y) by ring. replace (y + w) with (w + y) by ring. now apply ole_add.
Qed.
Lemma le_mul_l (z x y : F) : ole 0 z = true -> ole x y = true -> ole (z * x) (z * y) = true.
Proof.
  intros Hz H. apply ole_sub. replace (z * y - z * x) with (z * (y - x)) by ring.
  apply ole_mul; [exact Hz|]. now apply sub_0.
Qed.
Lemma le_mul (x y z w : F) : ole 0 x = true -> ole 0 w = true -> ole x y = true -> ole z w = true ->
  ole (x * z) (y * w) = true.
Proof.
  intros Hx Hw H1 H2. apply (ole_trans F _ (x * w)); [now apply le_mul_l|].
  replace (x * w) with (w * x) by ring. replace (y * w) with (w * y) by ring. now apply le_mul_l.
Qed.
Lemma le_opp (x y : F) : ole x y = true -> ole (- y) (- x) = true.
Proof. intro H. apply ole_sub. replace (- x - - y) with (y - x) by ring. now apply sub_0. Qed.
Lemma abs_le (x m : F) : ole x m = true -> ole (- x) m = true -> ole (oabs x) m = true.
Proof. unfold oabs. destruct (ole 0 x); auto. Qed.
Lemma le_abs (x : F) : ole x (oabs x) = true.
Proof.
  unfold oabs. destruct (ole 0 x) eqn:E; [apply ole_refl|].
  destruct (ole_total F 0 x) as [H|H]; [congruence|].
  apply (ole_trans F _ 0); [exact H|]. apply le_opp in H. now replace (- (0 : F)) with (0 : F) in H by ring.
Qed.
Lemma le_abs' (x : F) : ole (- x) (oabs x) = true.
Proof.
  unfold oabs. destruct (ole 0 x) eqn:E; [|apply ole_refl].
  apply (ole_trans F _ 0); [|exact E]. apply le_opp in E. now replace (- (0 : F)) with (0 : F) in E by ring.
Qed.
Lemma abs_0_le (x : F) : ole 0 (oabs x) = true.
Proof.
  unfold oabs. destruct (ole 0 x) eqn:E; [exact E|]. destruct (ole_total F 0 x) as [H|H]; [congruence|].
  apply le_opp in H. now replace (- (0 : F)) with (0 : F) in H by ring.
Qed.
Lemma abs_tri (x y : F) : ole (oabs (x + y)) (oabs x + oabs y) = true.
Proof.
  apply abs_le.
  - apply le_add; apply le_abs.
  - replace (- (x + y)) with (- x + - y) by ring. apply le_add; apply le_abs'.
Qed.
Lemma abs_pos (x : F) : ole 0 x = true -> oabs x = x.
Proof. unfold oabs. now intros ->. Qed.
Lemma abs_neg (x : F) : ole x 0 = true -> oabs x = - x.
Proof.
  intro H. unfold oabs. destruct (ole 0 x) eqn:E; [|reflexivity].
  assert (x = 0) by (now apply ole_anti). subst. ring.
Qed.
Lemma abs_mul (x y : F) : oabs (x * y) = oabs x * oabs y.
Proof.
  assert (N : forall z : F, ole z 0 = true -> ole 0 (- z) = true).
  { intros z H. apply le_opp in H. now replace (- (0 : F)) with (0 : F) in H by ring. }
  assert (P : forall z : F, ole 0 (- z) = true -> ole z 0 = true).
  { intros z H. apply le_opp in H. replace (- - z) with z in H by ring. now replace (- (0 : F)) with (0 : F) in H by ring. }
  destruct (ole_total F 0 x) as [Hx|Hx], (ole_total F 0 y) as [Hy|Hy].
  - rewrite !abs_pos; auto. now apply ole_mul.
  - rewrite (abs_pos x), (abs_neg y) by auto. rewrite abs_neg; [ring|]. apply P.
    replace (- (x * y)) with (x * - y) by ring. apply ole_mul; auto.
  - rewrite (abs_neg x), (abs_pos y) by auto. rewrite abs_neg; [ring|]. apply P.
    replace (- (x * y)) with (- x * y) by ring. apply ole_mul; auto.
  - rewrite (abs_neg x), (abs_neg y) by auto. rewrite abs_pos; [ring|].
    replace (x * y) with (- x * - y) by ring. apply ole_mul; auto.
Qed.
Lemma abs_0 : oabs (0 : F) = 0.
Proof. apply abs_pos, ole_refl. Qed.
Lemma abs_opp (x : F) : oabs (- x) = oabs x.
Proof. replace (- x) with ((- (1 : F)) * x) by ring. rewrite abs_mul. rewrite (abs_neg (- (1 : F))).
  - ring.
  - pose proof (le_opp _ _ (ole_0_1 F)) as H. now replace (- (0 : F)) with (0 : F) in H by ring.
Qed.
Lemma abs_0_eq (x : F) : ole (oabs x) 0 = true -> x = 0.
Proof.
  intro H. assert (E : oabs x = 0) by (apply ole_anti; [exact H|apply abs_0_le]).
  unfold oabs in E. destruct (ole 0 x); [exact E|]. transitivity (- - x); [ring|]. rewrite E. ring.
Qed.

Variable u : F.
Hypothesis Hu : ole 0 u = true.
Notation Q := (fun k => rpow (1 + u) k).
Lemma Q_ge1 k : ole 1 (Q k) = true.
Proof.
  induction k as [|k IH]; cbn [rpow]; [apply ole_refl|].
  replace (1 : F) with (1 * 1 : F) at 1 by ring. apply le_mul.
  - apply ole_0_1.
  - apply (ole_trans F _ 1); [apply ole_0_1|exact IH].
  - apply ole_sub. replace (1 + u - 1) with u by ring. exact Hu.
  - exact IH.
Qed.
Lemma Q_pos k : ole 0 (Q k) = true.
Proof. apply (ole_trans F _ 1); [apply ole_0_1|apply Q_ge1]. Qed.
Lemma Q_add k l : Q (k + l)%nat = Q k * Q l.
Proof. induction k as [|k IH]; cbn [rpow Nat.add]; [ring|]. rewrite IH. ring. Qed.
Lemma Q_mono k l : (k <= l)%nat -> ole (Q k) (Q l) = true.
Proof.
  intro H. replace l with (k + (l - k))%nat by lia. cbv beta. rewrite Q_add.
  replace (Q k) with (Q k * 1) at 1 by ring. apply le_mul_l; [apply Q_pos|apply Q_ge1].
Qed.

(** The calculus. *)
Definition bnd (k : nat) (v e m : F) : Prop :=
  ole (oabs (v - e)) ((Q k - 1) * m) = true /\ ole (oabs e) m = true.
Lemma bnd_m k v e m : bnd k v e m -> ole 0 m = true.
Proof. intros [_ H]. apply (ole_trans F _ (oabs e)); [apply abs_0_le|exact H]. Qed.
Lemma bnd_v k v e m : bnd k v e m -> ole (oabs v) (Q k * m) = true.
Proof.
  intros [H1 H2]. replace v with ((v - e) + e) by ring. eapply ole_trans; [apply abs_tri|].
  replace (Q k * m) with ((Q k - 1) * m + m) by ring. now apply le_add.
Qed.
Lemma bnd_leaf x : bnd 0 x x (oabs x).
Proof.
  split; [|apply ole_refl]. replace (x - x) with (0 : F) by ring. rewrite abs_0. cbn [rpow].
  replace ((1 - 1) * oabs x) with (0 : F) by ring. apply ole_refl.
Qed.
Lemma bnd_mono k l v e m : (k <= l)%nat -> bnd k v e m -> bnd l v e m.
Proof.
  intros Hk H. pose proof (bnd_m _ _ _ _ H) as Hm. destruct H as [H1 H2]. split; [|exact H2].
  eapply ole_trans; [exact H1|]. apply ole_sub.
  replace ((Q l - 1) * m - (Q k - 1) * m) with ((Q l - Q k) * m) by ring.
  apply ole_mul; [|exact Hm]. apply sub_0. now apply Q_mono.
Qed.
Lemma bnd_0 k : bnd k 0 0 0.
Proof.
  split; [|rewrite abs_0; apply ole_refl]. replace ((0 : F) - 0) with (0 : F) by ring. rewrite abs_0.
  replace ((Q k - 1) * 0) with (0 : F) by ring. apply ole_refl.
Qed.
Lemma bnd_1 k : bnd k 1 1 1.
Proof.
  apply (bnd_mono 0); [lia|]. pose proof (bnd_leaf 1) as H. rewrite abs_pos in H by apply ole_0_1. exact H.
Qed.
Lemma bnd_opp k v e m : bnd k v e m -> bnd k (- v) (- e) m.
Proof.
  intros [H1 H2]. split; [|now rewrite abs_opp].
  replace (- v - - e) with (- (v - e)) by ring. now rewrite abs_opp.
Qed.
Lemma near_le x y z : near u x y -> ole (oabs y) z = true -> ole (oabs (x - y)) (u * z) = true.
Proof. intros H Hz. eapply ole_trans; [exact H|]. now apply le_mul_l. Qed.

Variables fadd fmul fsub : F -> F -> F.
Hypothesis HR : rounds u fadd fmul fsub.

Lemma bnd_add k v e m v' e' m' : bnd k v e m -> bnd k v' e' m' -> bnd (S k) (fadd v v') (e + e') (m + m').
Proof.
  intros H H'. pose proof (bnd_v _ _ _ _ H) as V. pose proof (bnd_v _ _ _ _ H') as V'.
  destruct H as [H1 H2], H' as [H1' H2']. split.
  - replace (fadd v v' - (e + e')) with ((fadd v v' - (v + v')) + ((v - e) + (v' - e'))) by ring.
    eapply ole_trans; [apply abs_tri|].
    replace ((rpow (1 + u) (S k) - 1) * (m + m'))
      with (u * (Q k * m + Q k * m') + ((Q k - 1) * m + (Q k - 1) * m')) by (cbn [rpow]; ring).
    apply le_add.
    + apply near_le; [apply HR|]. eapply ole_trans; [apply abs_tri|]. now apply le_add.
    + eapply ole_trans; [apply abs_tri|]. now apply le_add.
  - eapply ole_trans; [apply abs_tri|]. now apply le_add.
Qed.
Lemma bnd_sub k v e m v' e' m' : bnd k v e m -> bnd k v' e' m' -> bnd (S k) (fsub v v') (e - e') (m + m').
Proof.
  intros H H'. pose proof (bnd_v _ _ _ _ H) as V. pose proof (bnd_v _ _ _ _ H') as V'.
  destruct H as [H1 H2], H' as [H1' H2'].
  assert (T : forall x y : F, ole (oabs (x - y)) (oabs x + oabs y) = true).
  { intros x y. replace (x - y) with (x + - y) by ring. rewrite <- (abs_opp y). apply abs_tri. }
  split.
  - replace (fsub v v' - (e - e')) with ((fsub v v' - (v - v')) + ((v - e) - (v' - e'))) by ring.
    eapply ole_trans; [apply abs_tri|].
    replace ((rpow (1 + u) (S k) - 1) * (m + m'))
      with (u * (Q k * m + Q k * m') + ((Q k - 1) * m + (Q k - 1) * m')) by (cbn [rpow]; ring).
    apply le_add.
    + apply near_le; [apply HR|]. eapply ole_trans; [apply T|]. now apply le_add.
    + eapply ole_trans; [apply T|]. now apply le_add.
  - eapply ole_trans; [apply T|]. now apply le_add.
Qed.
Lemma bnd_mul k l v e m v' e' m' : bnd k v e m -> bnd l v' e' m' -> bnd (S (k + l))%nat (fmul v v') (e * e') (m * m').
Proof.
  intros H H'. pose proof (bnd_v _ _ _ _ H) as V. pose proof (bnd_v _ _ _ _ H') as V'.
  pose proof (bnd_m _ _ _ _ H) as M. pose proof (bnd_m _ _ _ _ H') as M'.
  destruct H as [H1 H2], H' as [H1' H2']. split.
  - replace (fmul v v' - e * e') with ((fmul v v' - v * v') + ((v - e) * v' + e * (v' - e'))) by ring.
    eapply ole_trans; [apply abs_tri|].
    replace ((rpow (1 + u) (S (k + l))%nat - 1) * (m * m'))
      with (u * ((Q k * m) * (Q l * m')) + ((Q k - 1) * m * (Q l * m') + m * ((Q l - 1) * m')))
      by (cbn [rpow]; rewrite Q_add; ring).
    apply le_add.
    + apply near_le; [apply HR|]. rewrite abs_mul. apply le_mul; auto; [apply abs_0_le|].
      apply ole_mul; [apply Q_pos|exact M'].
    + eapply ole_trans; [apply abs_tri|]. rewrite !abs_mul. apply le_add; apply le_mul; auto; try apply abs_0_le.
      * apply ole_mul; [apply Q_pos|exact M'].
      * apply ole_mul; [|exact M']. apply sub_0, Q_ge1.
  - rewrite abs_mul. apply le_mul; auto. apply abs_0_le.
Qed.
Lemma fmul_0_r x : fmul x 0 = 0.
Proof.
  pose proof (rd_mul _ _ _ _ HR x 0) as H. unfold near in H. replace (x * 0) with (0 : F) in H by ring.
  rewrite abs_0 in H. replace (u * 0) with (0 : F) in H by ring. apply abs_0_eq in H.
  transitivity (fmul x 0 - 0); [ring|exact H].
Qed.
Lemma fmul_0_l x : fmul 0 x = 0.
Proof.
  pose proof (rd_mul _ _ _ _ HR 0 x) as H. unfold near in H. replace (0 * x) with (0 : F) in H by ring.
  rewrite abs_0 in H. replace (u * 0) with (0 : F) in H by ring. apply abs_0_eq in H.
  transitivity (fmul 0 x - 0); [ring|exact H].
Qed.
Notation O := (flops F fadd fmul fsub).

(** A sum of n terms: the first addition, to zero, is exact. *)
Lemma bnd_sum n k (v e m : nat -> F) : (forall i, (i < n)%nat -> bnd k (v i) (e i) (m i)) ->
  bnd (k + (n - 1))%nat (bsum (R := O) n v) (bsum n e) (bsum n m).
Proof.
  induction n as [|n IH]; intro H.
  - apply bnd_0.
  - cbn [bsum]. destruct n as [|n].
    + cbn [bsum]. change (radd (c := O)) with fadd. change (r0 : O) with (0 : F).
      rewrite (rd_0l _ _ _ _ HR). replace (0 + e 0%nat) with (e 0%nat) by ring.
      replace (0 + m 0%nat) with (m 0%nat) by ring. replace (k + (1 - 1))%nat with k by lia. apply H. lia.
    + replace (k + (S (S n) - 1))%nat with (S (k + (S n - 1))) by lia.
      apply bnd_add; [apply IH; intros; apply H; lia|]. apply (bnd_mono k); [lia|]. apply H. lia.
Qed.
(** Zero terms at the end do not count. *)
Lemma bsum_trunc_raw n n' (v : nat -> F) : (n <= n')%nat -> (forall i, (n <= i)%nat -> (i < n')%nat -> v i = 0) ->
  bsum (R := O) n' v = bsum (R := O) n v.
Proof.
  intros Hn Hz. induction n' as [|n' IH]; [now replace n with 0%nat by lia|].
  destruct (Nat.eq_dec n (S n')) as [->|]; [reflexivity|]. cbn [bsum].
  rewrite IH by (try lia; intros; apply Hz; lia). rewrite Hz by lia.
  exact (rd_0r _ _ _ _ HR _).
Qed.
(** Powers by cumprod: 1 * a * a * ...; the first product is with the literal one. *)
Lemma bnd_prod n k (a e m : F) : bnd k a e m ->
  bnd (S n * S k - 1)%nat (bprod (R := O) (S n) (fun _ => a)) (rpow e (S n)) (rpow m (S n)).
Proof.
  intro H. induction n as [|n IH].
  - cbn [bprod rpow]. change (rmul (c := O)) with fmul. change (r1 : O) with (1 : F). rewrite (rd_1l _ _ _ _ HR).
    replace (e * 1) with e by ring. replace (m * 1) with m by ring. apply (bnd_mono k); [lia|exact H].
  - cbn [bprod rpow]. cbn [bprod rpow] in IH. replace (e * (e * rpow e n)) with ((e * rpow e n) * e) by ring.
    replace (m * (m * rpow m n)) with ((m * rpow m n) * m) by ring.
    apply (bnd_mono (S ((S n * S k - 1) + k))%nat); [lia|]. now apply bnd_mul.
Qed.
End Ord.
