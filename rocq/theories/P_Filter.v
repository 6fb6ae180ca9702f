(** Algebra of digital filter structures: each direct form solves the difference
    equation, which has one solution. *)
From Coq Require Import List Arith Lia ZArith Bool Ring.
From Verif Require Import Scalar TensorLemmas Spec Shapes SpecFilter Algebra P_LtiSsm.
Import ListNotations.

Section F.
Variable R : cring.
Add Ring Rr : (r_th R).
Local Open Scope cr_scope.

Lemma dly_hist (x : nat -> R) n k : dly x (S k) n = hist x (fun _ => 0) n k.
Proof.
  unfold dly, hist. destruct (S k <=? n) eqn:E1; destruct (k <? n) eqn:E2; b2p; try lia; [|reflexivity].
  f_equal. lia.
Qed.
Lemma dly_0 (x : nat -> R) n : dly x 0 n = x n.
Proof. unfold dly. cbn. now rewrite Nat.sub_0_r. Qed.
Lemma dly_S (x : nat -> R) k n : dly x (S k) (S n) = dly x k n.
Proof. unfold dly. cbn. reflexivity. Qed.
Lemma dly_S0 (x : nat -> R) k : dly x (S k) 0 = 0.
Proof. reflexivity. Qed.
Lemma dly_ext (x y : nat -> R) k n : (forall j, (j <= n)%nat -> x j = y j) -> dly x k n = dly y k n.
Proof. intro H. unfold dly. destruct (k <=? n); [apply H; lia|reflexivity]. Qed.
Lemma hist_ext (x y p q : nat -> R) n k M :
  (forall j, (j < n)%nat -> x j = y j) -> (k < M)%nat -> (forall j, (j < M)%nat -> p j = q j) -> hist x p n k = hist y q n k.
Proof. intros H Hk Hp. unfold hist. destruct (k <? n) eqn:E; b2p; [apply H; lia|apply Hp; lia]. Qed.

Lemma solves_filter_with P Q (b a x y : nat -> R) n :
  solves_filter P Q b a x y n <-> solves_with P Q b a x (fun _ => 0) y (fun _ => 0) n.
Proof.
  unfold solves_filter, solves_with. rewrite bsum_S_l, dly_0.
  rewrite (bsum_ext P _ (fun k => b (S k) * hist x (fun _ => 0) n k)) by (intros; now rewrite dly_hist).
  rewrite (bsum_ext Q _ (fun k => a k * hist y (fun _ => 0) n k)) by (intros; now rewrite dly_hist). reflexivity.
Qed.

(** The difference equation determines the output. *)
Lemma solves_with_unique P Q (b a x xp y y' yp : nat -> R) N :
  (forall n, (n < N)%nat -> solves_with P Q b a x xp y yp n) ->
  (forall n, (n < N)%nat -> solves_with P Q b a x xp y' yp n) ->
  forall n, (n < N)%nat -> y n = y' n.
Proof.
  intros H H'. induction n as [n IH] using lt_wf_ind. intro Hn.
  pose proof (H n Hn) as E. pose proof (H' n Hn) as E'. unfold solves_with in E, E'.
  assert (X : bsum Q (fun k => a k * hist y yp n k) = bsum Q (fun k => a k * hist y' yp n k)).
  { apply bsum_ext. intros k Hk. f_equal. unfold hist. destruct (k <? n) eqn:Ek; b2p; [apply IH; lia|reflexivity]. }
  rewrite X in E. set (s := bsum Q (fun k => a k * hist y' yp n k)) in *.
  transitivity (y n + s - s); [ring|]. rewrite E, <- E'. ring.
Qed.
Lemma solves_filter_unique P Q (b a x y y' : nat -> R) N :
  (forall n, (n < N)%nat -> solves_filter P Q b a x y n) -> (forall n, (n < N)%nat -> solves_filter P Q b a x y' n) ->
  forall n, (n < N)%nat -> y n = y' n.
Proof.
  intros H H'. apply (solves_with_unique P Q b a x (fun _ => 0) y y' (fun _ => 0) N);
    intros; apply solves_filter_with; auto.
Qed.

(** Zero-padding the coefficients changes nothing. *)
Lemma bsum_padz n M (f : nat -> R) (g : nat -> R) : (n <= M)%nat ->
  bsum M (fun k => padz n f k * g k) = bsum n (fun k => f k * g k).
Proof.
  intro H. rewrite (bsum_trunc n M) by (exact H || (intros i Hi Hi2; unfold padz; destruct (i <? n) eqn:E; b2p; [lia|ring])).
  apply bsum_ext. intros i Hi. unfold padz. now btrue (i <? n).
Qed.
Lemma solves_with_pad P Q M (b a x xp y yp : nat -> R) n : (P <= M)%nat -> (Q <= M)%nat ->
  solves_with M M (padz (S P) b) (padz Q a) x xp y yp n <-> solves_with P Q b a x xp y yp n.
Proof.
  intros HP HQ. unfold solves_with. rewrite bsum_padz by exact HQ.
  rewrite (bsum_ext M _ (fun k => padz P (fun k => b (S k)) k * hist x xp n k)) by reflexivity.
  rewrite bsum_padz by exact HP. reflexivity.
Qed.

(** ** Transposed direct form II *)
Lemma tdf2_state M (b a z x : nat -> R) n : forall i, (i < M)%nat ->
  tdf2_z M b a z x n i
  = padz M z (n + i) + bsum M (fun k => if i <=? k then b (S k) * dly x (k - i + 1) n
                                          - a k * dly (tdf2_y M b a z x) (k - i + 1) n else 0).
Proof.
  induction n as [|n IH]; intros i Hi.
  - cbn [tdf2_z]. rewrite bsum_0.
    + unfold padz. rewrite Nat.add_0_l. btrue (i <? M). ring.
    + intros k Hk. destruct (i <=? k); [|reflexivity]. rewrite !Nat.add_1_r, !dly_S0. ring.
  - cbn [tdf2_z]. fold (tdf2_y M b a z x n).
    set (G := fun (i n k : nat) => if i <=? k then b (S k) * dly x (k - i + 1) n - a k * dly (tdf2_y M b a z x) (k - i + 1) n else 0) in *.
    change (bsum M (fun k => if i <=? k then _ else 0)) with (bsum M (G i (S n))).
    assert (E : bsum M (G i (S n)) = b (S i) * x n - a i * tdf2_y M b a z x n + bsum M (G (S i) n)).
    { rewrite (bsum_ext M _ (fun k => (if i =? k then 1 else 0) * (b (S k) * x n - a k * tdf2_y M b a z x n) + G (S i) n k)).
      - rewrite bsum_add, bsum_diag by exact Hi. ring.
      - intros k Hk. unfold G. destruct (i =? k) eqn:E.
        + apply Nat.eqb_eq in E as <-. rewrite Nat.leb_refl. bfalse (S i <=? i). rewrite Nat.sub_diag, Nat.add_0_l, !dly_S, !dly_0. ring.
        + apply Nat.eqb_neq in E. destruct (i <=? k) eqn:E1; b2p.
          * btrue (S i <=? k). replace (k - i + 1)%nat with (S (k - S i + 1)) by lia. rewrite !dly_S. ring.
          * bfalse (S i <=? k). ring. }
    rewrite E. destruct (S i <? M) eqn:EM; b2p.
    + rewrite IH by exact EM. change (bsum M (fun k => if S i <=? k then _ else 0)) with (bsum M (G (S i) n)).
      replace (S n + i)%nat with (n + S i)%nat by lia. ring.
    + rewrite (bsum_0 M (G (S i) n)) by (intros k Hk; unfold G; bfalse (S i <=? k); reflexivity).
      unfold padz. bfalse (S n + i <? M). ring.
Qed.
Lemma tdf2_diff M (b a z x : nat -> R) n : (1 <= M)%nat ->
  tdf2_y M b a z x n + bsum M (fun k => a k * dly (tdf2_y M b a z x) (S k) n)
  = bsum (S M) (fun k => b k * dly x k n) + padz M z n.
Proof.
  intro HM. rewrite bsum_S_l, dly_0. unfold tdf2_y at 1. rewrite tdf2_state by lia. rewrite Nat.add_0_r.
  rewrite (bsum_ext M (fun k => if 0 <=? k then _ else 0)
            (fun k => b (S k) * dly x (S k) n - a k * dly (tdf2_y M b a z x) (S k) n))
    by (intros k Hk; cbn [Nat.leb]; now rewrite Nat.sub_0_r, Nat.add_1_r).
  rewrite bsum_sub. ring.
Qed.
Lemma tdf2_solves M (b a z x : nat -> R) n : (1 <= M)%nat -> (forall i, (i < M)%nat -> z i = 0) ->
  solves_filter M M b a x (tdf2_y M b a z x) n.
Proof.
  intros HM Hz. unfold solves_filter. rewrite tdf2_diff by exact HM.
  unfold padz. destruct (n <? M) eqn:E; b2p; [rewrite Hz by exact E|]; ring.
Qed.

(** ** Direct form II *)
Lemma df2_hist M (a z x : nat -> R) n i :
  df2_z M a z x n i = hist (fun k => df2_z M a z x (S k) 0) z n i.
Proof.
  revert i. induction n as [|n IH]; intro i.
  - cbn. unfold hist. cbn. now rewrite Nat.sub_0_r.
  - destruct i as [|i].
    + unfold hist. cbn [Nat.ltb Nat.leb]. now rewrite Nat.sub_succ, !Nat.sub_0_r.
    + cbn [df2_z]. rewrite IH. unfold hist. change (S i <? S n) with (i <? n).
      destruct (i <? n) eqn:E; b2p; [|reflexivity]. cbv beta. replace (S n - 1 - S i)%nat with (n - 1 - i)%nat by lia. reflexivity.
Qed.
(** The inner signal is the all-pole filter of the input. *)
Lemma df2_inner M (a z x : nat -> R) n :
  solves_with 0 M (fun _ => 1) a x (fun _ => 0) (fun k => df2_z M a z x (S k) 0) z n.
Proof.
  unfold solves_with. cbn [bsum].
  rewrite (bsum_ext M _ (fun k => a k * df2_z M a z x n k)) by (intros; now rewrite <- df2_hist).
  cbn [df2_z]. ring.
Qed.
Lemma dly_dly (x : nat -> R) j k n : dly (dly x j) k n = dly x (j + k) n.
Proof.
  unfold dly. destruct (k <=? n) eqn:E; b2p.
  - destruct (j <=? n - k) eqn:E1; destruct (j + k <=? n) eqn:E2; b2p; try lia; [|reflexivity]. f_equal. lia.
  - now bfalse (j + k <=? n).
Qed.
Lemma dly_bsum (m : nat) (f : nat -> nat -> R) k n :
  dly (fun n => bsum m (fun j => f j n)) k n = bsum m (fun j => dly (f j) k n).
Proof. unfold dly. destruct (k <=? n); [reflexivity|]. now rewrite bsum_0. Qed.
Lemma dly_scale c (x : nat -> R) k n : dly (fun n => c * x n) k n = c * dly x k n.
Proof. unfold dly. destruct (k <=? n); [reflexivity|ring]. Qed.
(** Feeding an all-pole filtered signal through the numerator. *)
Lemma fir_of_allpole P Q (b a x w y : nat -> R) N :
  (forall n, (n < N)%nat -> w n + bsum Q (fun k => a k * dly w (S k) n) = x n) ->
  (forall n, (n < N)%nat -> y n = conv P b w n) ->
  forall n, (n < N)%nat -> solves_filter P Q b a x y n.
Proof.
  intros Hw Hy n Hn. unfold solves_filter, conv in *. rewrite Hy by exact Hn.
  rewrite (bsum_ext Q _ (fun k => bsum (S P) (fun j => a k * (b j * dly w (j + S k) n)))).
  2:{ intros k Hk. rewrite (dly_ext y (fun n => bsum (S P) (fun j => b j * dly w j n))) by (intros; apply Hy; lia).
      rewrite dly_bsum, <- bsum_mul_l. apply bsum_ext. intros j Hj. now rewrite dly_scale, dly_dly. }
  rewrite bsum_swap, <- bsum_add. apply bsum_ext. intros j Hj.
  transitivity (b j * (dly w j n + bsum Q (fun k => a k * dly w (j + S k) n))).
  { transitivity (b j * dly w j n + b j * bsum Q (fun k => a k * dly w (j + S k) n)); [|ring]. f_equal. rewrite <- bsum_mul_l. apply bsum_ext. intros. ring. }
  f_equal. unfold dly at 1 3. destruct (j <=? n) eqn:E; b2p.
  - rewrite <- (Hw (n - j)%nat) by lia. f_equal. apply bsum_ext. intros k Hk. f_equal.
    unfold dly. destruct (j + S k <=? n) eqn:E1; destruct (S k <=? n - j) eqn:E2; b2p; try lia; [|reflexivity]. f_equal. lia.
  - rewrite bsum_0; [ring|]. intros k Hk. unfold dly. bfalse (j + S k <=? n). ring.
Qed.
Lemma df2_solves M (b a z x : nat -> R) n : (forall i, (i < M)%nat -> z i = 0) ->
  solves_filter M M b a x (df2_y M b a z x) n.
Proof.
  intro Hz. set (w := fun k => df2_z M a z x (S k) 0).
  assert (Hh : forall n k, (k < M)%nat -> df2_z M a z x n k = dly w (S k) n).
  { intros m k Hk. rewrite df2_hist, dly_hist. apply (hist_ext _ _ _ _ _ _ M); auto. }
  apply (fir_of_allpole M M b a x w _ (S n)); [| |lia].
  - intros m Hm. pose proof (df2_inner M a z x m) as H. unfold solves_with in H. cbn [bsum] in H.
    change (fun k => df2_z M a z x (S k) 0) with w in H.
    rewrite (bsum_ext M _ (fun k => a k * hist w z m k)).
    + etransitivity; [exact H|]. ring.
    + intros k Hk. f_equal. rewrite <- Hh by exact Hk. apply df2_hist.
  - intros m Hm. unfold df2_y, conv. rewrite bsum_S_l, dly_0. f_equal. apply bsum_ext. intros k Hk. now rewrite Hh.
Qed.

(** ** The structures as state-space models *)
Definition compm (a : nat -> R) (i j : nat) : R := if i =? S j then 1 else if i =? 0 then - a j else 0.
Definition comph (a : nat -> R) (i j : nat) : R := if j =? S i then 1 else if j =? 0 then - a i else 0.

Lemma mvec_compm M a (h : nat -> R) i : (i < M)%nat ->
  mvec M (compm a) h i = match i with O => - bsum M (fun j => a j * h j) | S i' => h i' end.
Proof.
  intro Hi. unfold mvec, compm. destruct i as [|i].
  - rewrite <- bsum_opp. apply bsum_ext. intros j Hj. cbn [Nat.eqb]. ring.
  - rewrite (bsum_ext M _ (fun j => (if i =? j then 1 else 0) * h j)) by (intros j Hj; cbn [Nat.eqb]; destruct (i =? j); ring).
    rewrite bsum_diag by lia. ring.
Qed.
Lemma mvec_comph M a (h : nat -> R) i : (i < M)%nat ->
  mvec M (comph a) h i = (if S i <? M then h (S i) else 0) - a i * h 0%nat.
Proof.
  intro Hi. unfold mvec, comph.
  rewrite (bsum_ext M _ (fun j => (if S i =? j then 1 else 0) * h j + (if 0 =? j then - a i else 0) * h j)).
  2:{ intros j Hj. rewrite (Nat.eqb_sym j), (Nat.eqb_sym j 0).
      destruct (S i =? j) eqn:E; destruct (0 =? j) eqn:E0; b2p; try lia; ring. }
  rewrite bsum_add, (bsum_diag R M (- a i) h 0) by lia.
  destruct (S i <? M) eqn:E; b2p.
  - rewrite bsum_diag by exact E. ring.
  - rewrite bsum_0; [ring|]. intros j Hj. bfalse (S i =? j). ring.
Qed.

Lemma state_df2 M (a z x : nat -> R) u n : (forall k i, (i < M)%nat -> u k i = if i =? 0 then x k else 0) ->
  forall i, (i < M)%nat -> state M (fun _ => compm a) z u n i = df2_z M a z x n i.
Proof.
  intro Hu. induction n as [|n IH]; intros i Hi; [reflexivity|]. cbn [state].
  rewrite mvec_compm, Hu by exact Hi. destruct i as [|i]; cbn [df2_z Nat.eqb].
  - rewrite (bsum_ext M _ (fun j => a j * df2_z M a z x n j)) by (intros; now rewrite IH). ring.
  - rewrite IH by lia. ring.
Qed.
Lemma ss_df2_h M (a z x : nat -> R) n i : (i < M)%nat ->
  ss_h M 1 (fun _ => compm a) (fun _ i _ => if i =? 0 then 1 else 0) z (fun n _ => x n) n i = df2_z M a z x n i.
Proof.
  intro Hi. unfold ss_h. apply state_df2; [|exact Hi]. intros k j Hj. cbn [bsum]. destruct (j =? 0); ring.
Qed.
Lemma ss_df2_y M (b a z x : nat -> R) n p : (1 <= M)%nat ->
  ss_y M 1 (fun _ => compm a) (fun _ i _ => if i =? 0 then 1 else 0) (fun _ _ m => b (S m) - b 0%nat * a m)
    (fun _ _ _ => b 0%nat) z (fun n _ => x n) n p = df2_y M b a z x n.
Proof.
  intro HM. unfold ss_y, df2_y. cbn [bsum df2_z].
  rewrite (bsum_ext M _ (fun k => b (S k) * df2_z M a z x n k - b 0%nat * (a k * df2_z M a z x n k)))
    by (intros; rewrite ss_df2_h by lia; ring).
  rewrite bsum_sub, bsum_mul_l. ring.
Qed.

Lemma ss_tdf2_h M (b a z x : nat -> R) n : forall i, (i < M)%nat ->
  ss_h M 1 (fun _ => comph a) (fun _ i _ => b (S i) - b 0%nat * a i) z (fun n _ => x n) n i = tdf2_z M b a z x n i.
Proof.
  unfold ss_h. set (u := fun n m => bsum 1 (fun k => (b (S m) - b 0%nat * a m) * x n)).
  assert (Hu : forall n m, u n m = (b (S m) - b 0%nat * a m) * x n) by (intros; unfold u; cbn; ring). clearbody u.
  induction n as [|n IH]; intros i Hi; [reflexivity|]. cbn [state tdf2_z].
  rewrite mvec_comph by exact Hi. rewrite (IH 0%nat), Hu by lia.
  destruct (S i <? M) eqn:E; b2p; [rewrite IH by exact E|]; ring.
Qed.
Lemma ss_tdf2_y M (b a z x : nat -> R) n p : (1 <= M)%nat ->
  ss_y M 1 (fun _ => comph a) (fun _ i _ => b (S i) - b 0%nat * a i) (fun _ _ m => unit3 0 0 m)
    (fun _ _ _ => b 0%nat) z (fun n _ => x n) n p = tdf2_y M b a z x n.
Proof.
  intro HM. unfold ss_y, tdf2_y. cbn [bsum]. unfold unit3. rewrite bsum_diag, ss_tdf2_h by lia. ring.
Qed.

(** Driving component 0 of the transposed companion matrix: the all-pole filter. *)
Lemma state_tdf1 M (a x : nat -> R) z u n : (forall k i, (i < M)%nat -> u k i = if i =? 0 then x k else 0) ->
  (forall i, (i < M)%nat -> z i = 0) ->
  forall i, (i < M)%nat -> state M (fun _ => comph a) z u (S n) i
    = tdf2_z M (fun k => if k =? 0 then 1 else 0) a (fun _ => 0) x n i + (if i =? 0 then x n else 0).
Proof.
  intros Hu Hz. induction n as [|n IH]; intros i Hi.
  - cbn [state tdf2_z]. rewrite mvec_comph, Hu, (Hz 0%nat) by lia.
    destruct (S i <? M) eqn:E; b2p; [rewrite Hz by exact E|]; ring.
  - cbn [state tdf2_z]. fold (state M (fun _ => comph a) z u (S n)).
    change (fun i0 => mvec M (comph a) (state M (fun _ => comph a) z u n) i0 + u n i0) with (state M (fun _ => comph a) z u (S n)).
    rewrite mvec_comph, Hu by exact Hi. rewrite (IH 0%nat) by lia.
    destruct (S i <? M) eqn:E; b2p; [rewrite IH by exact E|]; cbn [Nat.eqb]; ring.
Qed.
Lemma allpole_tdf1 M (a x : nat -> R) z u n : (1 <= M)%nat ->
  (forall k i, (i < M)%nat -> u k i = if i =? 0 then x k else 0) -> (forall i, (i < M)%nat -> z i = 0) ->
  let y := fun n => state M (fun _ => comph a) z u (S n) 0%nat in
  y n + bsum M (fun k => a k * dly y (S k) n) = x n.
Proof.
  intros HM Hu Hz y.
  assert (Hy : forall m, y m = tdf2_y M (fun k => if k =? 0 then 1 else 0) a (fun _ => 0) x m).
  { intro m. unfold y. rewrite (state_tdf1 M a x z u m Hu Hz) by lia. unfold tdf2_y. cbn [Nat.eqb]. ring. }
  rewrite Hy. rewrite (bsum_ext M _ (fun k => a k * dly (tdf2_y M (fun k => if k =? 0 then 1 else 0) a (fun _ => 0) x) (S k) n))
    by (intros; f_equal; apply dly_ext; auto).
  rewrite tdf2_diff, bsum_S_l, dly_0 by exact HM. cbn [Nat.eqb]. rewrite bsum_0 by (intros; ring).
  unfold padz. destruct (n <? M); ring.
Qed.
Lemma allpole_df1 M (a x : nat -> R) z u n : (1 <= M)%nat ->
  (forall k i, (i < M)%nat -> u k i = if i =? 0 then x k else 0) -> (forall i, (i < M)%nat -> z i = 0) ->
  let y := fun n => state M (fun _ => compm a) z u (S n) 0%nat in
  y n + bsum M (fun k => a k * dly y (S k) n) = x n.
Proof.
  intros HM Hu Hz y.
  assert (Hy : forall m, y m = df2_z M a z x (S m) 0) by (intro m; apply state_df2; [exact Hu|lia]).
  pose proof (df2_inner M a z x n) as H. unfold solves_with in H. cbn [bsum] in H.
  rewrite Hy, (bsum_ext M _ (fun k => a k * hist (fun k => df2_z M a z x (S k) 0) z n k)).
  - rewrite H. ring.
  - intros k Hk. f_equal. rewrite dly_hist. apply (hist_ext _ _ _ _ _ _ M); [intros; apply Hy|exact Hk|intros; symmetry; auto].
Qed.

(** ** Streaming *)
Lemma tdf2_shift M (b a z x : nat -> R) n1 n : forall i,
  tdf2_z M b a z x (n1 + n) i = tdf2_z M b a (tdf2_z M b a z x n1) (fun k => x (n1 + k)%nat) n i.
Proof.
  induction n as [|n IH]; intro i; [now rewrite Nat.add_0_r|]. rewrite Nat.add_succ_r. cbn [tdf2_z].
  rewrite !IH. reflexivity.
Qed.
Lemma df2_shift M (a z x : nat -> R) n1 n : forall i,
  df2_z M a z x (n1 + n) i = df2_z M a (df2_z M a z x n1) (fun k => x (n1 + k)%nat) n i.
Proof.
  induction n as [|n IH]; intro i; [now rewrite Nat.add_0_r|]. rewrite Nat.add_succ_r. cbn [df2_z].
  destruct i; [|apply IH]. f_equal. apply bsum_ext. intros. now rewrite IH.
Qed.
Lemma tdf2_z_ext M b b' a a' z z' x x' n : 
  (forall i, (i <= M)%nat -> b i = b' i :> R) -> (forall i, (i < M)%nat -> a i = a' i) ->
  (forall i, (i < M)%nat -> z i = z' i) -> (forall k, (k < n)%nat -> x k = x' k) ->
  forall i, (i < M)%nat -> tdf2_z M b a z x n i = tdf2_z M b' a' z' x' n i.
Proof.
  intros Hb Ha Hz. induction n as [|n IH]; intros Hx i Hi; cbn [tdf2_z]; [auto|].
  assert (IH' := IH (fun k Hk => Hx k (Nat.lt_lt_succ_r _ _ Hk))). clear IH.
  rewrite (IH' 0%nat), (Hb (S i)), (Hb 0%nat), Ha, Hx by lia.
  destruct (S i <? M) eqn:E; b2p; [rewrite IH' by exact E|]; reflexivity.
Qed.
Lemma tdf2_y_ext M b b' a a' z z' x x' n : (1 <= M)%nat ->
  (forall i, (i <= M)%nat -> b i = b' i :> R) -> (forall i, (i < M)%nat -> a i = a' i) ->
  (forall i, (i < M)%nat -> z i = z' i) -> (forall k, (k <= n)%nat -> x k = x' k) ->
  tdf2_y M b a z x n = tdf2_y M b' a' z' x' n.
Proof.
  intros HM Hb Ha Hz Hx. unfold tdf2_y. rewrite (Hb 0%nat), Hx by lia. f_equal.
  apply tdf2_z_ext; auto with arith.
Qed.
Lemma df2_z_ext M a a' z z' x x' n : (forall i, (i < M)%nat -> a i = a' i :> R) ->
  (forall i, (i < M)%nat -> z i = z' i) -> (forall k, (k < n)%nat -> x k = x' k) ->
  forall i, (i < M)%nat -> df2_z M a z x n i = df2_z M a' z' x' n i.
Proof.
  intros Ha Hz. induction n as [|n IH]; intros Hx i Hi; cbn [df2_z]; [auto|].
  assert (IH' := IH (fun k Hk => Hx k (Nat.lt_lt_succ_r _ _ Hk))). clear IH.
  destruct i as [|i]; [|apply IH'; lia]. rewrite Hx by lia. f_equal. apply bsum_ext.
  intros j Hj. now rewrite Ha, IH'.
Qed.
Lemma df2_y_ext M b b' a a' z z' x x' n : (1 <= M)%nat ->
  (forall i, (i <= M)%nat -> b i = b' i :> R) -> (forall i, (i < M)%nat -> a i = a' i) ->
  (forall i, (i < M)%nat -> z i = z' i) -> (forall k, (k <= n)%nat -> x k = x' k) ->
  df2_y M b a z x n = df2_y M b' a' z' x' n.
Proof.
  intros HM Hb Ha Hz Hx. unfold df2_y. rewrite (Hb 0%nat) by lia.
  rewrite (df2_z_ext M a a' z z' x x' (S n)) by (auto with arith || lia). f_equal.
  apply bsum_ext. intros. rewrite (df2_z_ext M a a' z z' x x' n) by (auto with arith || lia). rewrite Hb by lia. reflexivity.
Qed.
Lemma tdf2_y_shift M (b a z x : nat -> R) n1 n :
  tdf2_y M b a z x (n1 + n) = tdf2_y M b a (tdf2_z M b a z x n1) (fun k => x (n1 + k)%nat) n.
Proof. unfold tdf2_y. now rewrite tdf2_shift. Qed.
Lemma df2_y_shift M (b a z x : nat -> R) n1 n :
  df2_y M b a z x (n1 + n) = df2_y M b a (df2_z M a z x n1) (fun k => x (n1 + k)%nat) n.
Proof.
  unfold df2_y. rewrite <- Nat.add_succ_r, df2_shift. f_equal. apply bsum_ext. intros. now rewrite df2_shift.
Qed.

(** ** Linearity *)
Lemma tdf2_z_lin M (b a z1 z2 x1 x2 : nat -> R) c1 c2 n : forall i,
  tdf2_z M b a (fun k => c1 * z1 k + c2 * z2 k) (fun k => c1 * x1 k + c2 * x2 k) n i
  = c1 * tdf2_z M b a z1 x1 n i + c2 * tdf2_z M b a z2 x2 n i.
Proof.
  induction n as [|n IH]; intro i; cbn [tdf2_z]; [reflexivity|]. rewrite !IH. destruct (S i <? M); ring.
Qed.
Lemma tdf2_y_lin M (b a z1 z2 x1 x2 : nat -> R) c1 c2 n :
  tdf2_y M b a (fun k => c1 * z1 k + c2 * z2 k) (fun k => c1 * x1 k + c2 * x2 k) n
  = c1 * tdf2_y M b a z1 x1 n + c2 * tdf2_y M b a z2 x2 n.
Proof. unfold tdf2_y. rewrite tdf2_z_lin. ring. Qed.
Lemma df2_z_lin M (a z1 z2 x1 x2 : nat -> R) c1 c2 n : forall i,
  df2_z M a (fun k => c1 * z1 k + c2 * z2 k) (fun k => c1 * x1 k + c2 * x2 k) n i
  = c1 * df2_z M a z1 x1 n i + c2 * df2_z M a z2 x2 n i.
Proof.
  induction n as [|n IH]; intro i; cbn [df2_z]; [reflexivity|]. destruct i; [|apply IH].
  rewrite (bsum_ext M _ (fun j => c1 * (a j * df2_z M a z1 x1 n j) + c2 * (a j * df2_z M a z2 x2 n j)))
    by (intros; rewrite IH; ring).
  rewrite bsum_add, !bsum_mul_l. ring.
Qed.
Lemma df2_y_lin M (b a z1 z2 x1 x2 : nat -> R) c1 c2 n :
  df2_y M b a (fun k => c1 * z1 k + c2 * z2 k) (fun k => c1 * x1 k + c2 * x2 k) n
  = c1 * df2_y M b a z1 x1 n + c2 * df2_y M b a z2 x2 n.
Proof.
  unfold df2_y. rewrite df2_z_lin.
  rewrite (bsum_ext M _ (fun j => c1 * (b (S j) * df2_z M a z1 x1 n j) + c2 * (b (S j) * df2_z M a z2 x2 n j)))
    by (intros; rewrite df2_z_lin; ring).
  rewrite bsum_add, !bsum_mul_l. ring.
Qed.

(** The zero-state output of every form. *)
Lemma solves_filter_tdf2 M (b a x y : nat -> R) N : (1 <= M)%nat ->
  (forall n, (n < N)%nat -> solves_filter M M b a x y n) ->
  forall n, (n < N)%nat -> y n = tdf2_y M b a (fun _ => 0) x n.
Proof.
  intros HM H. apply (solves_filter_unique M M b a x y _ N H). intros. now apply tdf2_solves.
Qed.
Lemma solves_filter_pad P Q M (b a x y : nat -> R) n : (P <= M)%nat -> (Q <= M)%nat ->
  solves_filter M M (padz (S P) b) (padz Q a) x y n <-> solves_filter P Q b a x y n.
Proof. intros. rewrite !solves_filter_with. now apply solves_with_pad. Qed.
Lemma padz_conj n (f : nat -> R) k : conj (padz n f k) = padz n (fun j => conj (f j)) k.
Proof. unfold padz. destruct (k <? n); [reflexivity|apply conj_0]. Qed.
Lemma padz_ext n (f g : nat -> R) k : (forall j, (j < n)%nat -> f j = g j) -> padz n f k = padz n g k.
Proof. intro H. unfold padz. destruct (k <? n) eqn:E; b2p; auto. Qed.
Lemma solves_filter_ext P Q b b' a a' x x' y y' n : (forall k, (k <= P)%nat -> b k = b' k :> R) ->
  (forall k, (k < Q)%nat -> a k = a' k) -> (forall k, (k <= n)%nat -> x k = x' k) -> (forall k, (k <= n)%nat -> y k = y' k) ->
  solves_filter P Q b a x y n -> solves_filter P Q b' a' x' y' n.
Proof.
  intros Hb Ha Hx Hy H. unfold solves_filter in *. rewrite <- (Hy n) by lia.
  rewrite (bsum_ext Q _ (fun k => a k * dly y (S k) n)).
  - rewrite H. apply bsum_ext. intros k Hk. rewrite Hb by lia. f_equal. apply dly_ext. auto.
  - intros k Hk. rewrite Ha by lia. f_equal. apply dly_ext. intros. symmetry. auto.
Qed.
End F.
