(** Algebra of time-varying filter structures. *)
From Coq Require Import List Arith Lia ZArith Bool Ring.
From Verif Require Import Scalar TensorLemmas Spec Shapes SpecFilter SpecLpv Algebra P_LtiSsm P_Filter.
Import ListNotations.

Section F.
Variable R : cring.
Add Ring Rr : (r_th R).
Local Open Scope cr_scope.

Lemma vconv_hist P b (x : nat -> R) n : vconv P b x n = vconv_with P b x (fun _ => 0) n.
Proof.
  unfold vconv, vconv_with. rewrite bsum_S_l, dly_0. f_equal. apply bsum_ext. intros. now rewrite dly_hist.
Qed.

(** ** The all-pole equations have one solution. *)
Lemma vpole_unique M a (x y y' yp : nat -> R) N :
  (forall n, (n < N)%nat -> vpole M a x y yp n) -> (forall n, (n < N)%nat -> vpole M a x y' yp n) ->
  forall n, (n < N)%nat -> y n = y' n.
Proof.
  intros H H'. induction n as [n IH] using lt_wf_ind. intro Hn.
  pose proof (H n Hn) as E. pose proof (H' n Hn) as E'. unfold vpole in E, E'.
  assert (X : bsum M (fun k => a n k * hist y yp n k) = bsum M (fun k => a n k * hist y' yp n k)).
  { apply bsum_ext. intros k Hk. f_equal. unfold hist. destruct (k <? n) eqn:Ek; b2p; [apply IH; lia|reflexivity]. }
  rewrite X in E. set (s := bsum M (fun k => a n k * hist y' yp n k)) in *.
  transitivity (y n + s - s); [ring|]. rewrite E, <- E'. ring.
Qed.
Lemma vpolet_unique M a (x y y' : nat -> R) N :
  (forall n, (n < N)%nat -> vpolet M a x y n) -> (forall n, (n < N)%nat -> vpolet M a x y' n) ->
  forall n, (n < N)%nat -> y n = y' n.
Proof.
  intros H H'. induction n as [n IH] using lt_wf_ind. intro Hn.
  pose proof (H n Hn) as E. pose proof (H' n Hn) as E'. unfold vpolet in E, E'.
  assert (X : bsum M (fun k => dly (fun m => a m k * y m) (S k) n) = bsum M (fun k => dly (fun m => a m k * y' m) (S k) n)).
  { apply bsum_ext. intros k Hk. unfold dly. destruct (S k <=? n) eqn:Ek; b2p; [rewrite (IH (n - S k)%nat) by lia; reflexivity|reflexivity]. }
  rewrite X in E. set (s := bsum M (fun k => dly (fun m => a m k * y' m) (S k) n)) in *.
  transitivity (y n + s - s); [ring|]. rewrite E, <- E'. ring.
Qed.

(** ** Transposed direct form II *)
Lemma vtdf2_state M b a (z x : nat -> R) n : forall i, (i < M)%nat ->
  vtdf2_z M b a z x n i
  = padz M z (n + i) + bsum M (fun k => if i <=? k then dly (fun m => b m (S k) * x m - a m k * vtdf2_y M b a z x m) (k - i + 1) n else 0).
Proof.
  set (g := fun k m => b m (S k) * x m - a m k * vtdf2_y M b a z x m).
  change (forall i, (i < M)%nat -> vtdf2_z M b a z x n i = padz M z (n + i) + bsum M (fun k => if i <=? k then dly (g k) (k - i + 1) n else 0)).
  induction n as [|n IH]; intros i Hi.
  - cbn [vtdf2_z]. rewrite bsum_0.
    + unfold padz. rewrite Nat.add_0_l. btrue (i <? M). ring.
    + intros k Hk. destruct (i <=? k); [|reflexivity]. now rewrite !Nat.add_1_r, dly_S0.
  - cbn [vtdf2_z]. fold (vtdf2_y M b a z x n).
    set (G := fun (i n k : nat) => if i <=? k then dly (g k) (k - i + 1) n else 0) in *.
    change (bsum M (fun k => if i <=? k then _ else 0)) with (bsum M (G i (S n))).
    assert (E : bsum M (G i (S n)) = b n (S i) * x n - a n i * vtdf2_y M b a z x n + bsum M (G (S i) n)).
    { rewrite (bsum_ext M _ (fun k => (if i =? k then 1 else 0) * g k n + G (S i) n k)).
      - rewrite bsum_add, bsum_diag by exact Hi. unfold g. ring.
      - intros k Hk. unfold G. destruct (i =? k) eqn:E.
        + apply Nat.eqb_eq in E as <-. rewrite Nat.leb_refl. bfalse (S i <=? i). rewrite Nat.sub_diag, Nat.add_0_l, !dly_S, !dly_0. ring.
        + apply Nat.eqb_neq in E. destruct (i <=? k) eqn:E1; b2p.
          * btrue (S i <=? k). replace (k - i + 1)%nat with (S (k - S i + 1)) by lia. rewrite !dly_S. ring.
          * bfalse (S i <=? k). ring. }
    rewrite E. destruct (S i <? M) eqn:EM; b2p.
    + rewrite IH by exact EM. change (bsum M (fun k => if S i <=? k then _ else 0)) with (bsum M (G (S i) n)).
      replace (S n + i)%nat with (n + S i)%nat by lia. ring.
    + rewrite (bsum_0 M (G (S i) n)) by (intros k Hk; unfold G; bfalse (S i <=? k); reflexivity).
      unfold padz. bfalse (S n + i <? M). ring.
Qed.
Lemma vtdf2_out M b a (z x : nat -> R) n : (1 <= M)%nat ->
  vtdf2_y M b a z x n + bsum M (fun k => dly (fun m => a m k * vtdf2_y M b a z x m) (S k) n) = vconvt M b x n + padz M z n.
Proof.
  intro HM. unfold vconvt. rewrite bsum_S_l, dly_0. unfold vtdf2_y at 1. rewrite vtdf2_state by lia. rewrite Nat.add_0_r.
  rewrite (bsum_ext M (fun k => if 0 <=? k then _ else 0)
    (fun k => dly (fun m => b m (S k) * x m) (S k) n - dly (fun m => a m k * vtdf2_y M b a z x m) (S k) n)).
  2:{ intros k Hk. cbn [Nat.leb]. rewrite Nat.sub_0_r, Nat.add_1_r. unfold dly. destruct (S k <=? n); ring. }
  rewrite bsum_sub. ring.
Qed.
Lemma vtdf2_fir M b (z x : nat -> R) n : (1 <= M)%nat -> vtdf2_y M b (fun _ _ => 0) z x n = vconvt M b x n + padz M z n.
Proof.
  intro HM. rewrite <- (vtdf2_out M b (fun _ _ => 0) z x n HM).
  rewrite (bsum_0 M); [ring|]. intros k Hk. unfold dly. destruct (S k <=? n); ring.
Qed.
(** Taps (1, 0, ...): the transposed all-pole filter. *)
Definition one_tap (n k : nat) : R := match k with O => 1 | _ => 0 end.
Lemma vconvt_one M (x : nat -> R) n : vconvt M one_tap x n = x n.
Proof.
  unfold vconvt. rewrite bsum_S_l, dly_0. cbn [one_tap]. rewrite (bsum_0 M); [ring|].
  intros k Hk. unfold dly. cbn [one_tap]. destruct (S k <=? n); ring.
Qed.
Lemma vtdf2_pole M a (z x : nat -> R) n : (1 <= M)%nat ->
  vpolet M a (fun m => x m + padz M z m) (vtdf2_y M one_tap a z x) n.
Proof. intro HM. unfold vpolet. rewrite vtdf2_out, vconvt_one by exact HM. reflexivity. Qed.

(** ** Direct form II *)
Lemma vdf2_hist M a (z x : nat -> R) n i :
  vdf2_z M a z x n i = hist (fun k => vdf2_z M a z x (S k) 0) z n i.
Proof.
  revert i. induction n as [|n IH]; intro i.
  - cbn. unfold hist. cbn. now rewrite Nat.sub_0_r.
  - destruct i as [|i].
    + unfold hist. cbn [Nat.ltb Nat.leb]. now rewrite Nat.sub_succ, !Nat.sub_0_r.
    + cbn [vdf2_z]. rewrite IH. unfold hist. change (S i <? S n) with (i <? n).
      destruct (i <? n) eqn:E; b2p; [|reflexivity]. cbv beta. replace (S n - 1 - S i)%nat with (n - 1 - i)%nat by lia. reflexivity.
Qed.
Lemma vdf2_inner M a (z x : nat -> R) n : vpole M a x (fun k => vdf2_z M a z x (S k) 0) z n.
Proof.
  unfold vpole.
  rewrite (bsum_ext M _ (fun k => a n k * vdf2_z M a z x n k)) by (intros; now rewrite <- vdf2_hist).
  cbn [vdf2_z]. ring.
Qed.
Lemma vdf2_y_with M b a (z x : nat -> R) n :
  vdf2_y M b a z x n = vconv_with M b (fun k => vdf2_z M a z x (S k) 0) z n.
Proof. unfold vdf2_y, vconv_with. f_equal. apply bsum_ext. intros. now rewrite vdf2_hist. Qed.

(** ** As state-space models *)
Lemma state_vdf2 M a (z x : nat -> R) u n : (forall k i, (i < M)%nat -> u k i = if i =? 0 then x k else 0) ->
  forall i, (i < M)%nat -> state M (fun k => compm R (a k)) z u n i = vdf2_z M a z x n i.
Proof.
  intro Hu. induction n as [|n IH]; intros i Hi; [reflexivity|]. cbn [state].
  rewrite mvec_compm, Hu by exact Hi. destruct i as [|i]; cbn [vdf2_z Nat.eqb].
  - rewrite (bsum_ext M _ (fun j => a n j * vdf2_z M a z x n j)) by (intros; now rewrite IH). ring.
  - rewrite IH by lia. ring.
Qed.
Lemma ss_vdf2_h M a (z x : nat -> R) n i : (i < M)%nat ->
  ss_h M 1 (fun k => compm R (a k)) (fun _ i _ => if i =? 0 then 1 else 0) z (fun n _ => x n) n i = vdf2_z M a z x n i.
Proof.
  intro Hi. unfold ss_h. apply state_vdf2; [|exact Hi]. intros k j Hj. cbn [bsum]. destruct (j =? 0); ring.
Qed.
Lemma ss_vdf2_y M b a (z x : nat -> R) n p : (1 <= M)%nat ->
  ss_y M 1 (fun k => compm R (a k)) (fun _ i _ => if i =? 0 then 1 else 0) (fun n _ m => b n (S m) - b n 0%nat * a n m)
    (fun n _ _ => b n 0%nat) z (fun n _ => x n) n p = vdf2_y M b a z x n.
Proof.
  intro HM. unfold ss_y, vdf2_y. cbn [bsum vdf2_z].
  rewrite (bsum_ext M _ (fun k => b n (S k) * vdf2_z M a z x n k - b n 0%nat * (a n k * vdf2_z M a z x n k)))
    by (intros; rewrite ss_vdf2_h by lia; ring).
  rewrite bsum_sub, bsum_mul_l. ring.
Qed.
Lemma ss_vtdf2_h M b a (z x : nat -> R) n : forall i, (i < M)%nat ->
  ss_h M 1 (fun k => comph R (a k)) (fun n i _ => b n (S i) - b n 0%nat * a n i) z (fun n _ => x n) n i = vtdf2_z M b a z x n i.
Proof.
  unfold ss_h. set (u := fun n m => bsum 1 (fun k => (b n (S m) - b n 0%nat * a n m) * x n)).
  assert (Hu : forall n m, u n m = (b n (S m) - b n 0%nat * a n m) * x n) by (intros; unfold u; cbn; ring). clearbody u.
  induction n as [|n IH]; intros i Hi; [reflexivity|]. cbn [state vtdf2_z].
  rewrite mvec_comph by exact Hi. rewrite (IH 0%nat), Hu by lia.
  destruct (S i <? M) eqn:E; b2p; [rewrite IH by exact E|]; ring.
Qed.
Lemma ss_vtdf2_y M b a (z x : nat -> R) n p : (1 <= M)%nat ->
  ss_y M 1 (fun k => comph R (a k)) (fun n i _ => b n (S i) - b n 0%nat * a n i) (fun _ _ m => unit3 0 0 m)
    (fun n _ _ => b n 0%nat) z (fun n _ => x n) n p = vtdf2_y M b a z x n.
Proof.
  intro HM. unfold ss_y, vtdf2_y. cbn [bsum]. unfold unit3. rewrite bsum_diag, ss_vtdf2_h by lia. ring.
Qed.
(** Driving component 0 of the companion matrix: the all-pole filter. *)
Lemma vpole_df1 M a (x : nat -> R) z u n : (1 <= M)%nat ->
  (forall k i, (i < M)%nat -> u k i = if i =? 0 then x k else 0) ->
  vpole M a x (fun n => state M (fun k => compm R (a k)) z u (S n) 0%nat) z n.
Proof.
  intros HM Hu. pose proof (vdf2_inner M a z x n) as H. unfold vpole in *.
  rewrite (state_vdf2 M a z x u (S n) Hu 0%nat) by lia. rewrite <- H. f_equal.
  apply bsum_ext. intros k Hk. f_equal. unfold hist. destruct (k <? n); [|reflexivity]. now apply state_vdf2.
Qed.
(** Driving component 0 of the transposed companion matrix: the coefficient of the term
    y[n-1-k] is a[n-k,k], one sample later than in the transposed all-pole filter. *)
Definition late (a : nat -> nat -> R) (n k : nat) : R := a (S n) k.
Lemma state_comph M a (x : nat -> R) z u n : (forall k i, (i < M)%nat -> u k i = if i =? 0 then x k else 0) ->
  (forall i, (i < M)%nat -> z i = 0) ->
  forall i, (i < M)%nat -> state M (fun k => comph R (a k)) z u (S n) i
    = vtdf2_z M one_tap (late a) (fun _ => 0) x n i + (if i =? 0 then x n else 0).
Proof.
  intros Hu Hz. induction n as [|n IH]; intros i Hi.
  - cbn [state vtdf2_z]. rewrite mvec_comph, Hu, (Hz 0%nat) by lia.
    destruct (S i <? M) eqn:E; b2p; [rewrite Hz by exact E|]; ring.
  - cbn [vtdf2_z]. change (state M (fun k => comph R (a k)) z u (S (S n)) i)
      with (mvec M (comph R (a (S n))) (state M (fun k => comph R (a k)) z u (S n)) i + u (S n) i).
    rewrite mvec_comph, Hu by exact Hi. rewrite (IH 0%nat) by lia. cbn [one_tap]. change (late a n i) with (a (S n) i).
    destruct (S i <? M) eqn:E; b2p; [rewrite IH by exact E|]; cbn [Nat.eqb]; ring.
Qed.
Lemma vpolet_late M a (x : nat -> R) z u n : (1 <= M)%nat ->
  (forall k i, (i < M)%nat -> u k i = if i =? 0 then x k else 0) -> (forall i, (i < M)%nat -> z i = 0) ->
  vpolet M (late a) x (fun n => state M (fun k => comph R (a k)) z u (S n) 0%nat) n.
Proof.
  intros HM Hu Hz.
  assert (Hy : forall m, state M (fun k => comph R (a k)) z u (S m) 0%nat = vtdf2_y M one_tap (late a) (fun _ => 0) x m).
  { intro m. rewrite (state_comph M a x z u m Hu Hz) by lia. unfold vtdf2_y. cbn [Nat.eqb one_tap]. ring. }
  pose proof (vtdf2_pole M (late a) (fun _ => 0) x n HM) as H. unfold vpolet in *. rewrite Hy.
  rewrite (bsum_ext M _ (fun k => dly (fun m => late a m k * vtdf2_y M one_tap (late a) (fun _ => 0) x m) (S k) n)).
  - rewrite H. unfold padz. destruct (n <? M); ring.
  - intros k Hk. apply dly_ext. intros. now rewrite Hy.
Qed.

(** ** fir with taps (1, a) and allpole are inverse. *)
Lemma vconv_monic M a (x xp : nat -> R) n :
  vconv_with M (monic a) x xp n = x n + bsum M (fun k => a n k * hist x xp n k).
Proof. unfold vconv_with. cbn [monic]. ring. Qed.
Lemma vconvt_monic M a (x : nat -> R) n :
  vconvt M (monic a) x n = x n + bsum M (fun k => dly (fun m => a m k * x m) (S k) n).
Proof. unfold vconvt. rewrite bsum_S_l, dly_0. cbn [monic]. ring. Qed.

(** ** Extensionality *)
Lemma vconv_with_ext P b b' (x x' xp xp' : nat -> R) n :
  (forall k, (k <= P)%nat -> b n k = b' n k) -> (forall m, (m <= n)%nat -> x m = x' m) ->
  (forall k, (k < P)%nat -> xp k = xp' k) -> vconv_with P b x xp n = vconv_with P b' x' xp' n.
Proof.
  intros Hb Hx Hp. unfold vconv_with. rewrite (Hb 0%nat), Hx by lia. f_equal. apply bsum_ext. intros k Hk.
  rewrite Hb by lia. f_equal. apply (hist_ext _ _ _ _ _ _ _ P); auto. intros. apply Hx. lia.
Qed.
Lemma vconv_ext P b b' (x x' : nat -> R) n :
  (forall k, (k <= P)%nat -> b n k = b' n k) -> (forall m, (m <= n)%nat -> x m = x' m) -> vconv P b x n = vconv P b' x' n.
Proof. intros. rewrite !vconv_hist. now apply vconv_with_ext. Qed.
Lemma vconvt_ext P b b' (x x' : nat -> R) n :
  (forall m k, (m <= n)%nat -> (k <= P)%nat -> b m k = b' m k) -> (forall m, (m <= n)%nat -> x m = x' m) -> vconvt P b x n = vconvt P b' x' n.
Proof.
  intros Hb Hx. unfold vconvt. apply bsum_ext. intros k Hk. apply dly_ext. intros m Hm. now rewrite Hb, Hx by lia.
Qed.
Lemma vdf2_z_ext M a a' (z z' x x' : nat -> R) n : (forall m i, (m < n)%nat -> (i < M)%nat -> a m i = a' m i) ->
  (forall i, (i < M)%nat -> z i = z' i) -> (forall k, (k < n)%nat -> x k = x' k) ->
  forall i, (i < M)%nat -> vdf2_z M a z x n i = vdf2_z M a' z' x' n i.
Proof.
  intros Ha Hz. induction n as [|n IH]; intros Hx i Hi; cbn [vdf2_z]; [auto|].
  assert (IH' := IH (fun m i Hm => Ha m i (Nat.lt_lt_succ_r _ _ Hm)) (fun k Hk => Hx k (Nat.lt_lt_succ_r _ _ Hk))). clear IH.
  destruct i as [|i]; [|apply IH'; lia]. rewrite Hx by lia. f_equal. apply bsum_ext.
  intros j Hj. now rewrite Ha, IH' by lia.
Qed.
Lemma vdf2_y_ext M b b' a a' (z z' x x' : nat -> R) n : (1 <= M)%nat -> (forall i, (i <= M)%nat -> b n i = b' n i) ->
  (forall m i, (m <= n)%nat -> (i < M)%nat -> a m i = a' m i) ->
  (forall i, (i < M)%nat -> z i = z' i) -> (forall k, (k <= n)%nat -> x k = x' k) ->
  vdf2_y M b a z x n = vdf2_y M b' a' z' x' n.
Proof.
  intros HM Hb Ha Hz Hx. unfold vdf2_y. rewrite (Hb 0%nat) by lia.
  rewrite (vdf2_z_ext M a a' z z' x x' (S n)) by (auto with arith || lia). f_equal.
  apply bsum_ext. intros k Hk. rewrite Hb by lia. f_equal. apply vdf2_z_ext; auto with arith.
Qed.
Lemma vtdf2_z_ext M b b' a a' (z z' x x' : nat -> R) n : (forall m i, (m < n)%nat -> (i <= M)%nat -> b m i = b' m i) ->
  (forall m i, (m < n)%nat -> (i < M)%nat -> a m i = a' m i) ->
  (forall i, (i < M)%nat -> z i = z' i) -> (forall k, (k < n)%nat -> x k = x' k) ->
  forall i, (i < M)%nat -> vtdf2_z M b a z x n i = vtdf2_z M b' a' z' x' n i.
Proof.
  intros Hb Ha Hz. induction n as [|n IH]; intros Hx i Hi; cbn [vtdf2_z]; [auto|].
  assert (IH' := IH (fun m i Hm => Hb m i (Nat.lt_lt_succ_r _ _ Hm)) (fun m i Hm => Ha m i (Nat.lt_lt_succ_r _ _ Hm)) (fun k Hk => Hx k (Nat.lt_lt_succ_r _ _ Hk))). clear IH.
  rewrite (IH' 0%nat), (Hb n (S i)), (Hb n 0%nat), Ha, Hx by lia.
  destruct (S i <? M) eqn:E; b2p; [rewrite IH' by exact E|]; reflexivity.
Qed.
Lemma vtdf2_y_ext M b b' a a' (z z' x x' : nat -> R) n : (1 <= M)%nat ->
  (forall m i, (m <= n)%nat -> (i <= M)%nat -> b m i = b' m i) -> (forall m i, (m <= n)%nat -> (i < M)%nat -> a m i = a' m i) ->
  (forall i, (i < M)%nat -> z i = z' i) -> (forall k, (k <= n)%nat -> x k = x' k) ->
  vtdf2_y M b a z x n = vtdf2_y M b' a' z' x' n.
Proof.
  intros HM Hb Ha Hz Hx. unfold vtdf2_y. rewrite (Hb n 0%nat), Hx by lia. f_equal.
  apply vtdf2_z_ext; auto with arith.
Qed.

(** ** Streaming *)
Lemma vtdf2_shift M b a (z x : nat -> R) n1 n : forall i,
  vtdf2_z M b a z x (n1 + n) i
  = vtdf2_z M (fun m => b (n1 + m)%nat) (fun m => a (n1 + m)%nat) (vtdf2_z M b a z x n1) (fun k => x (n1 + k)%nat) n i.
Proof.
  induction n as [|n IH]; intro i; [now rewrite Nat.add_0_r|]. rewrite Nat.add_succ_r. cbn [vtdf2_z].
  rewrite !IH. reflexivity.
Qed.
Lemma vtdf2_y_shift M b a (z x : nat -> R) n1 n :
  vtdf2_y M b a z x (n1 + n)
  = vtdf2_y M (fun m => b (n1 + m)%nat) (fun m => a (n1 + m)%nat) (vtdf2_z M b a z x n1) (fun k => x (n1 + k)%nat) n.
Proof. unfold vtdf2_y. now rewrite vtdf2_shift. Qed.
Lemma vdf2_shift M a (z x : nat -> R) n1 n : forall i,
  vdf2_z M a z x (n1 + n) i = vdf2_z M (fun m => a (n1 + m)%nat) (vdf2_z M a z x n1) (fun k => x (n1 + k)%nat) n i.
Proof.
  induction n as [|n IH]; intro i; [now rewrite Nat.add_0_r|]. rewrite Nat.add_succ_r. cbn [vdf2_z].
  destruct i; [|apply IH]. f_equal. apply bsum_ext. intros. now rewrite IH.
Qed.
Lemma vdf2_y_shift M b a (z x : nat -> R) n1 n :
  vdf2_y M b a z x (n1 + n)
  = vdf2_y M (fun m => b (n1 + m)%nat) (fun m => a (n1 + m)%nat) (vdf2_z M a z x n1) (fun k => x (n1 + k)%nat) n.
Proof.
  unfold vdf2_y. rewrite <- Nat.add_succ_r, vdf2_shift. f_equal. apply bsum_ext. intros. now rewrite vdf2_shift.
Qed.

(** ** Linearity *)
Lemma vdf2_z_lin M a c1 c2 (z1 z2 x1 x2 : nat -> R) n : forall i,
  vdf2_z M a (fun i => c1 * z1 i + c2 * z2 i) (fun k => c1 * x1 k + c2 * x2 k) n i
  = c1 * vdf2_z M a z1 x1 n i + c2 * vdf2_z M a z2 x2 n i.
Proof.
  induction n as [|n IH]; intro i; [reflexivity|]. cbn [vdf2_z]. destruct i; [|apply IH].
  rewrite (bsum_ext M _ (fun j => c1 * (a n j * vdf2_z M a z1 x1 n j) + c2 * (a n j * vdf2_z M a z2 x2 n j)))
    by (intros; rewrite IH; ring).
  rewrite bsum_add, !bsum_mul_l. ring.
Qed.
Lemma vdf2_y_lin M b a c1 c2 (z1 z2 x1 x2 : nat -> R) n :
  vdf2_y M b a (fun i => c1 * z1 i + c2 * z2 i) (fun k => c1 * x1 k + c2 * x2 k) n
  = c1 * vdf2_y M b a z1 x1 n + c2 * vdf2_y M b a z2 x2 n.
Proof.
  unfold vdf2_y. rewrite vdf2_z_lin.
  rewrite (bsum_ext M _ (fun k => c1 * (b n (S k) * vdf2_z M a z1 x1 n k) + c2 * (b n (S k) * vdf2_z M a z2 x2 n k)))
    by (intros; rewrite vdf2_z_lin; ring).
  rewrite bsum_add, !bsum_mul_l. ring.
Qed.
Lemma vtdf2_z_lin M b a c1 c2 (z1 z2 x1 x2 : nat -> R) n : forall i,
  vtdf2_z M b a (fun i => c1 * z1 i + c2 * z2 i) (fun k => c1 * x1 k + c2 * x2 k) n i
  = c1 * vtdf2_z M b a z1 x1 n i + c2 * vtdf2_z M b a z2 x2 n i.
Proof.
  induction n as [|n IH]; intro i; [reflexivity|]. cbn [vtdf2_z]. rewrite !IH. destruct (S i <? M); ring.
Qed.
Lemma vtdf2_y_lin M b a c1 c2 (z1 z2 x1 x2 : nat -> R) n :
  vtdf2_y M b a (fun i => c1 * z1 i + c2 * z2 i) (fun k => c1 * x1 k + c2 * x2 k) n
  = c1 * vtdf2_y M b a z1 x1 n + c2 * vtdf2_y M b a z2 x2 n.
Proof. unfold vtdf2_y. rewrite vtdf2_z_lin. ring. Qed.

(** ** Zero-padded coefficients *)
Lemma vconv_pad P M b (x : nat -> R) n : (P <= M)%nat -> vconv M (fun n => padz (S P) (b n)) x n = vconv P b x n.
Proof. intro H. unfold vconv. rewrite bsum_padz by lia. reflexivity. Qed.
Lemma vconvt_pad P M b (x : nat -> R) n : (P <= M)%nat -> vconvt M (fun n => padz (S P) (b n)) x n = vconvt P b x n.
Proof.
  intro H. unfold vconvt. rewrite (bsum_trunc (S P) (S M)); [|lia|].
  - apply bsum_ext. intros k Hk. apply dly_ext. intros. unfold padz. now btrue (k <? S P).
  - intros k Hk Hk2. unfold dly, padz. bfalse (k <? S P). destruct (k <=? n); ring.
Qed.
Lemma vpole_pad Q M a (x y yp : nat -> R) n : (Q <= M)%nat -> vpole M (fun n => padz Q (a n)) x y yp n <-> vpole Q a x y yp n.
Proof. intro H. unfold vpole. rewrite bsum_padz by exact H. reflexivity. Qed.
Lemma vpolet_pad Q M a (x y : nat -> R) n : (Q <= M)%nat -> vpolet M (fun n => padz Q (a n)) x y n <-> vpolet Q a x y n.
Proof.
  intro H. unfold vpolet.
  rewrite (bsum_trunc Q M).
  - rewrite (bsum_ext Q _ (fun k => dly (fun m => a m k * y m) (S k) n)); [reflexivity|].
    intros k Hk. apply dly_ext. intros. unfold padz. now btrue (k <? Q).
  - exact H.
  - intros k Hk Hk2. unfold dly, padz. bfalse (k <? Q). destruct (S k <=? n); ring.
Qed.
Lemma vconv_with_pad P M b (x xp : nat -> R) n : (P <= M)%nat -> vconv_with M (fun n => padz (S P) (b n)) x xp n = vconv_with P b x xp n.
Proof.
  intro H. unfold vconv_with. f_equal.
  rewrite (bsum_ext M _ (fun k => padz P (fun k => b n (S k)) k * hist x xp n k)) by reflexivity. now rewrite bsum_padz.
Qed.
End F.
