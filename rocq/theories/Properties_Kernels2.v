(** C52: the compiled kernels stay inside the buffers they are given. *)
From Coq Require Import List Arith Lia ZArith Bool.
From Verif Require Import Scalar Tensor TensorLemmas TensorTac Spec Shapes M_Kernels M_Autograd M_LtiSsm M_LpvSsm
  P_Kernels P_KernelOps P_Scan P_Helion P_Kernels2 P_Autograd3 P_LtiSsm Properties_LtiSsm.
Import ListNotations.
Local Open Scope nat_scope.

(** ** Buffers *)
(** A kernel given a coefficient buffer of [nA] entries and a signal buffer of [nH]
    entries, inside a larger memory: what it leaves in the signal buffer is determined by
    the entries inside the two buffers, and it changes nothing after the signal buffer. *)
Definition in_bounds {R : cring} (nA nH : nat) (kernel : (nat -> R) -> (nat -> R) -> nat -> R) : Prop :=
  forall A A' H H',
    (forall k, k < nA -> A k = A' k) -> (forall k, k < nH -> H k = H' k) ->
    (forall k, k < nH -> kernel A H k = kernel A' H' k) /\
    (forall k, nH <= k -> kernel A H k = H k).

(** The CPU kernels, called with the sizes of their comments: A of B x N x N, N x N,
    B x T x N x N, T x N x N entries, a of B entries; the signal of B x T x N or B x T. *)
Theorem C52_cpu_kernels :
  forall (R : cring) B T N,
    in_bounds (R := R) (B * N * N) (B * T * N) (host_lti_batch_mat_recur_N_order B T N) /\
    in_bounds (R := R) (N * N) (B * T * N) (host_lti_share_mat_recur_N_order B T N) /\
    in_bounds (R := R) (B * T * N * N) (B * T * N) (host_batch_mat_recur_N_order_omp B T N) /\
    in_bounds (R := R) (T * N * N) (B * T * N) (host_share_mat_recur_N_order_omp B T N) /\
    in_bounds (R := R) B (B * T) (host_lti_batch_linear_recurrence B T) /\
    in_bounds (R := R) 1 (B * T) (fun a => host_lti_shared_linear_recurrence B T (a 0%nat)).
Proof.
  intros R B T N.
  assert (L : forall k i j, i < N -> j < N -> k * N * N + i * N + j < (k + 1) * N * N) by (intros; nia).
  assert (LM : forall k k', k <= k' -> k * N * N <= k' * N * N) by (intros; apply Nat.mul_le_mono_r, Nat.mul_le_mono_r; assumption).
  assert (L2 : forall b t i j, b < B -> t < T -> i < N -> j < N ->
            b * T * N * N + t * N * N + i * N + j < B * T * N * N).
  { intros b t i j Hb Ht Hi Hj. pose proof (L (b * T + t) i j Hi Hj).
    replace ((b * T + t) * N * N) with (b * T * N * N + t * N * N) in H by ring.
    assert ((b * T + t + 1) <= B * T) by nia.
    pose proof (LM _ _ H0). lia. }
  split; [|split; [|split; [|split; [|split]]]]; intros A A' H H' HA HH; split; intros k Hk.
  - rewrite !gk_lti_batch. apply gk_agree; [|exact HH|exact Hk]. intros b t i j Hb _ Ht Hi Hj. apply HA.
    pose proof (L b i j Hi Hj). pose proof (LM (b + 1) B ltac:(lia)). lia.
  - rewrite gk_lti_batch. now apply gk_outside.
  - rewrite !gk_lti_share. apply gk_agree; [|exact HH|exact Hk]. intros b t i j Hb _ Ht Hi Hj. apply HA. nia.
  - rewrite gk_lti_share. now apply gk_outside.
  - rewrite !gk_batch. apply gk_agree; [|exact HH|exact Hk]. intros b t i j Hb _ Ht Hi Hj. apply HA. now apply L2.
  - rewrite gk_batch. now apply gk_outside.
  - rewrite !gk_share. apply gk_agree; [|exact HH|exact Hk]. intros b t i j Hb _ Ht Hi Hj. apply HA.
    pose proof (L t i j Hi Hj). pose proof (LM (t + 1) T ltac:(lia)). lia.
  - rewrite gk_share. now apply gk_outside.
  - now apply lin_agree.
  - now apply lin_outside.
  - rewrite (HA 0%nat) by lia. now apply lins_agree.
  - now apply lins_outside.
Qed.
Print Assumptions C52_cpu_kernels.

Lemma two_neq_one (R : cring) : (r1 : R) <> r0 -> (r1 : R) <> radd r1 r1.
Proof.
  intros H E. apply H. transitivity (radd (radd r1 r1) (ropp (r1 : R))).
  - rewrite <- (Radd_assoc (r_th R)), (Ropp_def (r_th R)), (Radd_comm (r_th R)), (Radd_0_l (r_th R)). reflexivity.
  - rewrite <- E. apply (Ropp_def (r_th R)).
Qed.
(** A loop nest with coefficients taken from offset [o b t i j] of a buffer: if
    [o b (S t) i j0] is met by no other coefficient of row i at that step and by none of
    the earlier steps, the buffer must have that entry. *)
Lemma needs (R : cring) (r1n : (r1 : R) <> r0) B T N (o : nat -> nat -> nat -> nat -> nat) b t i j0 n :
  b < B -> S t < T -> i < N -> j0 < N ->
  (forall t' i' j', 1 <= t' -> t' <= t -> i' < N -> j' < N -> o b t' i' j' <> o b (t + 1) i j0) ->
  (forall j', j' < N -> j' <> j0 -> o b (t + 1) i j' <> o b (t + 1) i j0) ->
  in_bounds (R := R) n (B * T * N) (fun A => gk R B T N (fun b t i j => A (o b t i j))) ->
  o b (t + 1) i j0 < n.
Proof.
  intros Hb Ht Hi Hj Hd Hd2 HB. destruct (Nat.lt_ge_cases (o b (t + 1) i j0) n) as [|Hn]; [assumption|exfalso].
  set (last := o b (t + 1) i j0) in *.
  destruct (HB (fun _ => r0) (fun k => if k =? last then r1 else r0) (fun _ => r1) (fun _ => r1)) as [K _].
  { intros k Hk. destruct (Nat.eqb_spec k last); [lia|reflexivity]. }
  { reflexivity. }
  assert (Hoff : off T N b (S t) i < B * T * N).
  { unfold off. replace (b * T * N) with (b * (T * N)) by ring. replace (B * T * N) with (B * (T * N)) by ring.
    assert (S t * N + i < T * N) by nia. nia. }
  specialize (K _ Hoff). rewrite !gk_spec in K by lia.
  rewrite ref_zero in K by (auto; lia). rewrite (ref_unit R T N _ b t i j0) in K; auto.
  - now apply (two_neq_one R r1n).
  - intros t' i' j' H1 H2 H3 H4. destruct (Nat.eqb_spec (o b t' i' j') last) as [E|]; [|reflexivity].
    now apply Hd in E.
  - intros j Hj'. destruct (Nat.eqb_spec j j0) as [->|Hne]; [now rewrite Nat.eqb_refl|].
    destruct (Nat.eqb_spec (o b (t + 1) i j) last) as [E|]; [|reflexivity]. now apply Hd2 in E.
Qed.

(** These sizes are the smallest: with one coefficient fewer the result depends on memory
    behind the buffer. *)
Theorem C52_cpu_kernels_exact :
  forall (R : cring), (r1 : R) <> r0 -> forall B T N n, 1 <= B -> 2 <= T -> 1 <= N ->
    (in_bounds (R := R) n (B * T * N) (host_lti_batch_mat_recur_N_order B T N) -> B * N * N <= n) /\
    (in_bounds (R := R) n (B * T * N) (host_lti_share_mat_recur_N_order B T N) -> N * N <= n) /\
    (in_bounds (R := R) n (B * T * N) (host_batch_mat_recur_N_order_omp B T N) -> B * T * N * N <= n) /\
    (in_bounds (R := R) n (B * T * N) (host_share_mat_recur_N_order_omp B T N) -> T * N * N <= n).
Proof.
  intros R Hr B T N n HB HT HN.
  destruct B as [|b]; [lia|]. destruct T as [|[|t]]; [lia|lia|]. destruct N as [|m]; [lia|].
  split; [|split; [|split]]; intro H.
  - pose proof (needs R Hr (S b) (S (S t)) (S m) (fun b t i j => b * S m * S m + i * S m + j) b 0 m m n) as K.
    cbn beta in K. assert (b * S m * S m + m * S m + m < n); [|nia].
    apply K; try lia. exact H.
  - pose proof (needs R Hr (S b) (S (S t)) (S m) (fun b t i j => i * S m + j) b 0 m m n) as K.
    cbn beta in K. assert (m * S m + m < n); [|nia].
    apply K; try lia. exact H.
  - pose proof (needs R Hr (S b) (S (S t)) (S m) (fun b u i j => b * S (S t) * S m * S m + u * S m * S m + i * S m + j) b t m m n) as K.
    cbn beta in K. assert (b * S (S t) * S m * S m + (t + 1) * S m * S m + m * S m + m < n); [|nia].
    apply K; try lia; [|exact H].
    intros t' i' j' H1 H2 H3 H4 E. assert (t' * (S m * S m) + i' * S m + j' < (t' + 1) * (S m * S m)) by nia.
    assert ((t' + 1) * (S m * S m) <= (t + 1) * (S m * S m)) by nia. nia.
  - pose proof (needs R Hr (S b) (S (S t)) (S m) (fun b t i j => t * S m * S m + i * S m + j) b t m m n) as K.
    cbn beta in K. assert ((t + 1) * S m * S m + m * S m + m < n); [|nia].
    apply K; try lia; [|exact H].
    intros t' i' j' H1 H2 H3 H4 E. assert (t' * (S m * S m) + i' * S m + j' < (t' + 1) * (S m * S m)) by nia.
    assert ((t' + 1) * (S m * S m) <= (t + 1) * (S m * S m)) by nia. nia.
Qed.
Print Assumptions C52_cpu_kernels_exact.

(** ** Operators *)
(** Two tensors that agree on every index inside their common shape. *)
Definition same {R : cring} (t t' : tensor R) : Prop :=
  shape t = shape t' /\ forall idx, Forall2 lt idx (shape t) -> at_ t idx = at_ t' idx.
(** An operator whose result is determined by the entries inside its arguments. *)
Definition reads_inside {R : cring} (op : tensor R -> tensor R -> tensor R -> res (tensor R)) (A zi x : tensor R) : Prop :=
  forall A' zi' x', same A A' -> same zi zi' -> same x x' ->
    exists y y', op A zi x = Ok y /\ op A' zi' x' = Ok y' /\ same y y'.

Lemma same_is1 (R : cring) (t t' : tensor R) a f : same t t' -> is1 t a f -> is1 t' a f.
Proof. intros [Hs H] [S1 V]. split; [congruence|]. intros i Hi. rewrite <- H; [now apply V|]. rewrite S1. repeat constructor; auto. Qed.
Lemma same_is2 (R : cring) (t t' : tensor R) a b f : same t t' -> is2 t a b f -> is2 t' a b f.
Proof. intros [Hs H] [S1 V]. split; [congruence|]. intros i j Hi Hj. rewrite <- H; [now apply V|]. rewrite S1. repeat constructor; auto. Qed.
Lemma same_is3 (R : cring) (t t' : tensor R) a b c f : same t t' -> is3 t a b c f -> is3 t' a b c f.
Proof. intros [Hs H] [S1 V]. split; [congruence|]. intros i j k Hi Hj Hk. rewrite <- H; [now apply V|]. rewrite S1. repeat constructor; auto. Qed.
Lemma same_is4 (R : cring) (t t' : tensor R) a b c d f : same t t' -> is4 t a b c d f -> is4 t' a b c d f.
Proof. intros [Hs H] [S1 V]. split; [congruence|]. intros i j k l Hi Hj Hk Hl. rewrite <- H; [now apply V|]. rewrite S1. repeat constructor; auto. Qed.
Lemma same_matc (R : cring) (t t' : tensor R) B M f : same t t' -> matc B M t f -> matc B M t' f.
Proof. intros H [g V E|V]; [eapply matc_s; [eapply same_is2; eauto|exact E]|apply matc_b; eapply same_is3; eauto]. Qed.
Lemma same_matv (R : cring) (t t' : tensor R) B N M f : same t t' -> matv B N M t f -> matv B N M t' f.
Proof. intros H [g V E|V]; [eapply matv_s; [eapply same_is3; eauto|exact E]|apply matv_b; eapply same_is4; eauto]. Qed.
Lemma is2_same (R : cring) (t t' : tensor R) a b f : is2 t a b f -> is2 t' a b f -> same t t'.
Proof.
  intros [S1 V] [S2 V']. split; [congruence|]. intros idx H. rewrite S1 in H.
  inversion H as [|i ? l ? Hi Hl]; subst. inversion Hl as [|j ? l2 ? Hj Hl2]; subst. inversion Hl2; subst. now rewrite V, V'.
Qed.
Lemma is3_same (R : cring) (t t' : tensor R) a b c f : is3 t a b c f -> is3 t' a b c f -> same t t'.
Proof.
  intros [S1 V] [S2 V']. split; [congruence|]. intros idx H. rewrite S1 in H.
  inversion H as [|i ? l ? Hi Hl]; subst. inversion Hl as [|j ? l2 ? Hj Hl2]; subst.
  inversion Hl2 as [|k ? l3 ? Hk Hl3]; subst. inversion Hl3; subst. now rewrite V, V'.
Qed.

(** An accepted call whose A has one matrix per signal (or a shared one) and, for the
    time-varying operators, one matrix per step. *)
Theorem C52_lti_recurN :
  forall (R : cring) e (A zi x y : tensor R), op_lti_recurN e A zi x = Ok y -> rk x = 3 ->
    (rk A = 3 -> size A 0 = size x 0) -> reads_inside (op_lti_recurN e) A zi x.
Proof.
  intros R e A zi x y H Hx Hb A' zi' x' SA Sz Sx.
  assert (He : ext e = true /\ cuda e = false).
  { unfold op_lti_recurN in H. destruct (ext e), (cuda e); try discriminate H; auto. }
  destruct (op_lti_recurN_fits R e A zi x y H) as (Hr & B & N & M & s & Ex & Ez & H1 & H2 & _).
  unfold rk in Hx. rewrite Ex in Hx. destruct s; [|discriminate Hx].
  destruct (matc_of_sizes R A B M Hr H1 H2) as (Af & HA). { intro K. rewrite (Hb K). unfold size. now rewrite Ex. }
  assert (Vz : is2 zi B M (fun b m => at_ zi [b; m])) by (split; [exact Ez|reflexivity]).
  assert (Vx : is3 x B N M (fun b n m => at_ x [b; n; m])) by (split; [exact Ex|reflexivity]).
  destruct (op_lti_recurN_spec R e B N M A zi x _ _ _ (proj1 He) (proj2 He) HA Vz Vx) as (r & Er & Hr1).
  destruct (op_lti_recurN_spec R e B N M A' zi' x' _ _ _ (proj1 He) (proj2 He) (same_matc _ _ _ _ _ _ SA HA)
              (same_is2 _ _ _ _ _ _ Sz Vz) (same_is3 _ _ _ _ _ _ _ Sx Vx)) as (r' & Er' & Hr1').
  exists r, r'. split; [exact Er|]. split; [exact Er'|]. exact (is3_same _ _ _ _ _ _ _ Hr1 Hr1').
Qed.
Print Assumptions C52_lti_recurN.
Theorem C52_recurN :
  forall (R : cring) e (A zi x y : tensor R), op_recurN e A zi x = Ok y -> rk x = 3 ->
    (rk A = 4 -> size A 0 = size x 0) -> sizen A 3 = size x 1 -> reads_inside (op_recurN e) A zi x.
Proof.
  intros R e A zi x y H Hx Hb Ht A' zi' x' SA Sz Sx.
  assert (He : ext e = true /\ cuda e = false).
  { unfold op_recurN in H. destruct (ext e), (cuda e); try discriminate H; auto. }
  destruct (op_recurN_fits R e A zi x y H) as (Hr & B & N & M & s & Ex & Ez & H1 & H2 & _).
  unfold rk in Hx. rewrite Ex in Hx. destruct s; [|discriminate Hx].
  destruct (matv_of_sizes R A B N M Hr H1 H2) as (Af & HA).
  { intro K. rewrite (Hb K). unfold size. now rewrite Ex. }
  { rewrite Ht. unfold size. now rewrite Ex. }
  assert (Vz : is2 zi B M (fun b m => at_ zi [b; m])) by (split; [exact Ez|reflexivity]).
  assert (Vx : is3 x B N M (fun b n m => at_ x [b; n; m])) by (split; [exact Ex|reflexivity]).
  destruct (op_recurN_spec R e B N M A zi x _ _ _ (proj1 He) (proj2 He) HA Vz Vx) as (r & Er & Hr1).
  destruct (op_recurN_spec R e B N M A' zi' x' _ _ _ (proj1 He) (proj2 He) (same_matv _ _ _ _ _ _ _ SA HA)
              (same_is2 _ _ _ _ _ _ Sz Vz) (same_is3 _ _ _ _ _ _ _ Sx Vx)) as (r' & Er' & Hr1').
  exists r, r'. split; [exact Er|]. split; [exact Er'|]. exact (is3_same _ _ _ _ _ _ _ Hr1 Hr1').
Qed.
Print Assumptions C52_recurN.
Theorem C52_lti_recur2 :
  forall (R : cring) e (A zi x y : tensor R), env_ok e -> op_lti_recur2 e A zi x = Ok y -> rk x = 3 ->
    (rk A = 3 -> size A 0 = size x 0) -> reads_inside (op_lti_recur2 e) A zi x.
Proof.
  intros R e A zi x y He H Hx Hb A' zi' x' SA Sz Sx.
  destruct (op_lti_recur2_fits R e A zi x y (fun _ => Hx) H) as (Hr & B & N & M & s & Ex & Ez & H1 & H2 & _).
  unfold rk in Hx. rewrite Ex in Hx. destruct s; [|discriminate Hx].
  destruct (matc_of_sizes R A B M Hr H1 H2) as (Af & HA). { intro K. rewrite (Hb K). unfold size. now rewrite Ex. }
  assert (Vz : is2 zi B M (fun b m => at_ zi [b; m])) by (split; [exact Ez|reflexivity]).
  assert (Vx : is3 x B N M (fun b n m => at_ x [b; n; m])) by (split; [exact Ex|reflexivity]).
  pose proof (same_matc _ _ _ _ _ _ SA HA) as HA'. pose proof (same_is2 _ _ _ _ _ _ Sz Vz) as Vz'.
  pose proof (same_is3 _ _ _ _ _ _ _ Sx Vx) as Vx'.
  unfold op_lti_recur2 in *. destruct (ext e); [|discriminate H]. destruct (cuda e).
  - destruct (ext_cuda e); [|discriminate H].
    assert (M = 2) as ->.
    { unfold lti_mat_recur_second_order_cuda in H.
      destruct ((rk A =? 2) || (rk A =? 3)); [|discriminate H]. destruct (3 <=? rk x); [|discriminate H].
      destruct (size x 2 =? 2) eqn:E; [|discriminate H]. apply Nat.eqb_eq in E. unfold size in E. rewrite Ex in E. exact E. }
    destruct (lti2_cuda_spec R e B N A zi x _ _ _ He HA Vz Vx) as (r & Er & Hr1).
    destruct (lti2_cuda_spec R e B N A' zi' x' _ _ _ He HA' Vz' Vx') as (r' & Er' & Hr1').
    exists r, r'. split; [exact Er|]. split; [exact Er'|]. exact (is3_same _ _ _ _ _ _ _ Hr1 Hr1').
  - destruct (lti_cpu_spec R B N M A zi x _ _ _ HA Vz Vx) as (r & Er & Hr1).
    destruct (lti_cpu_spec R B N M A' zi' x' _ _ _ HA' Vz' Vx') as (r' & Er' & Hr1').
    exists r, r'. split; [exact Er|]. split; [exact Er'|]. exact (is3_same _ _ _ _ _ _ _ Hr1 Hr1').
Qed.
Print Assumptions C52_lti_recur2.
Theorem C52_recur2 :
  forall (R : cring) e (A zi x y : tensor R), env_ok e -> op_recur2 e A zi x = Ok y -> rk x = 3 ->
    (rk A = 4 -> size A 0 = size x 0) -> sizen A 3 = size x 1 -> reads_inside (op_recur2 e) A zi x.
Proof.
  intros R e A zi x y He H Hx Hb Ht A' zi' x' SA Sz Sx.
  destruct (op_recur2_fits R e A zi x y (fun _ => Hx) H) as (Hr & B & N & M & s & Ex & Ez & H1 & H2 & _).
  unfold rk in Hx. rewrite Ex in Hx. destruct s; [|discriminate Hx].
  destruct (matv_of_sizes R A B N M Hr H1 H2) as (Af & HA).
  { intro K. rewrite (Hb K). unfold size. now rewrite Ex. }
  { rewrite Ht. unfold size. now rewrite Ex. }
  assert (Vz : is2 zi B M (fun b m => at_ zi [b; m])) by (split; [exact Ez|reflexivity]).
  assert (Vx : is3 x B N M (fun b n m => at_ x [b; n; m])) by (split; [exact Ex|reflexivity]).
  pose proof (same_matv _ _ _ _ _ _ _ SA HA) as HA'. pose proof (same_is2 _ _ _ _ _ _ Sz Vz) as Vz'.
  pose proof (same_is3 _ _ _ _ _ _ _ Sx Vx) as Vx'.
  unfold op_recur2 in *. destruct (ext e); [|discriminate H]. destruct (cuda e).
  - destruct (ext_cuda e); [|discriminate H].
    assert (M = 2) as ->.
    { unfold mat_recur_second_order_cuda in H.
      destruct ((rk A =? 3) || (rk A =? 4)); [|discriminate H]. destruct (3 <=? rk x); [|discriminate H].
      destruct (size x 2 =? 2) eqn:E; [|discriminate H]. apply Nat.eqb_eq in E. unfold size in E. rewrite Ex in E. exact E. }
    destruct (lpv2_cuda_spec R e B N A zi x _ _ _ He HA Vz Vx) as (r & Er & Hr1).
    destruct (lpv2_cuda_spec R e B N A' zi' x' _ _ _ He HA' Vz' Vx') as (r' & Er' & Hr1').
    exists r, r'. split; [exact Er|]. split; [exact Er'|]. exact (is3_same _ _ _ _ _ _ _ Hr1 Hr1').
  - destruct (lpv_cpu_spec R B N M A zi x _ _ _ HA Vz Vx) as (r & Er & Hr1).
    destruct (lpv_cpu_spec R B N M A' zi' x' _ _ _ HA' Vz' Vx') as (r' & Er' & Hr1').
    exists r, r'. split; [exact Er|]. split; [exact Er'|]. exact (is3_same _ _ _ _ _ _ _ Hr1 Hr1').
Qed.
Print Assumptions C52_recur2.

Lemma accepts_lti_recur (R : cring) e (a zi x y : tensor R) : op_lti_recur e a zi x = Ok y ->
  ext e = true /\ (cuda e = true -> ext_cuda e = true) /\ rk a <= 1 /\ rk zi = 1 /\
  ((rk a = 1 /\ numel a = size x 0) \/ numel a = 1) /\
  exists B N, shape x = [B; N] /\ shape zi = [B].
Proof.
  assert (K : forall k (y : tensor R), (if rk a <=? 1 then if rk zi =? 1 then if 2 <=? rk x then
     bind (cat 1 [unsqueeze 1 zi; x]) (k : tensor R -> res (tensor R)) else Err IndexError else Err RuntimeError else Err RuntimeError) = Ok y ->
     rk a <= 1 /\ rk zi = 1 /\ (exists B N, shape x = [B; N] /\ shape zi = [B]) /\ exists o, k o = Ok y).
  { intros k y0 H. destruct (rk a <=? 1) eqn:E1; [|discriminate H]. destruct (rk zi =? 1) eqn:E2; [|discriminate H].
    destruct (2 <=? rk x); [|discriminate H]. destruct (cat 1 [unsqueeze 1 zi; x]) as [o|] eqn:Eo; [|discriminate H].
    apply Nat.leb_le in E1. apply Nat.eqb_eq in E2. split; [exact E1|]. split; [exact E2|].
    destruct (cat_zx R _ _ _ Eo) as (b & n & s & Hx & Hz & Ho).
    unfold rk in E2. rewrite Hz in E2. destruct s; [|discriminate E2]. split; [now exists b, n|]. now exists o. }
  assert (K2 : forall (k k' : res (nat -> R)) (f : (nat -> R) -> res (tensor R)) y,
     bind (if (rk a =? 1) && (numel a =? size x 0) then k else if numel a =? 1 then k' else Err RuntimeError) f = Ok y ->
     (rk a = 1 /\ numel a = size x 0) \/ numel a = 1).
  { intros k k' f y0 H. destruct (Nat.eqb_spec (rk a) 1), (Nat.eqb_spec (numel a) (size x 0)), (Nat.eqb_spec (numel a) 1); auto; discriminate H. }
  unfold op_lti_recur. intro H. destruct (ext e) eqn:E1; [|discriminate H]. split; [reflexivity|].
  destruct (cuda e) eqn:E2.
  - destruct (ext_cuda e) eqn:E3; [|discriminate H]. split; [reflexivity|].
    unfold lti_recur_cuda in H. apply K in H as (H1 & H2 & H3 & o & H). apply K2 in H. auto.
  - split; [discriminate|]. unfold lti_recur_cpu in H. apply K in H as (H1 & H2 & H3 & o & H). apply K2 in H. auto.
Qed.
(** The scalar operator checks enough: every accepted call. *)
Theorem C52_lti_recur :
  forall (R : cring) e (a zi x y : tensor R), env_ok e -> op_lti_recur e a zi x = Ok y -> 1 <= size x 0 ->
    reads_inside (op_lti_recur e) a zi x.
Proof.
  intros R e a zi x y He H HB a' zi' x' Sa Sz Sx.
  destruct (accepts_lti_recur R e a zi x y H) as (E1 & E2 & Hr & Hz & Ha & B & N & Ex & Ez).
  unfold size in HB, Ha. rewrite Ex in HB, Ha. cbn [nth] in HB, Ha.
  assert (C : exists af, coef B a af /\ coef B a' af).
  { unfold rk in Hr, Ha. unfold numel in Ha. destruct (shape a) as [|p [|? ?]] eqn:Es; [| |cbn in Hr; lia].
    - exists (fun _ => at_ a []). assert (V : is0 a (at_ a [])) by (split; [exact Es|reflexivity]).
      split; apply coef_0 with (v := at_ a []); auto. destruct Sa as [S1 S2]. split; [congruence|].
      rewrite <- S2; [reflexivity|]. rewrite Es. constructor.
    - assert (V : is1 a p (fun i => at_ a [i])) by (split; [exact Es|reflexivity]).
      pose proof (same_is1 _ _ _ _ _ Sa V) as V'. cbn in Ha. rewrite ?Nat.mul_1_r, ?Nat.mul_1_l, ?Nat.add_0_r in Ha.
      destruct Ha as [[_ ->]| ->].
      + exists (fun i => at_ a [i]). split; now apply coef_B.
      + exists (fun _ => at_ a [0]). split; [eapply coef_1; [exact V|reflexivity]|eapply coef_1; [exact V'|reflexivity]]. }
  destruct C as (af & Ca & Ca').
  assert (Vz : is1 zi B (fun b => at_ zi [b])) by (split; [exact Ez|reflexivity]).
  assert (Vx : is2 x B N (fun b n => at_ x [b; n])) by (split; [exact Ex|reflexivity]).
  destruct (op_lti_recur_spec R e B N a zi x _ _ _ He E1 E2 HB Ca Vz Vx) as (r & Er & Hr1).
  destruct (op_lti_recur_spec R e B N a' zi' x' _ _ _ He E1 E2 HB Ca' (same_is1 _ _ _ _ _ Sz Vz) (same_is2 _ _ _ _ _ _ Sx Vx))
    as (r' & Er' & Hr1').
  exists r, r'. split; [exact Er|]. split; [exact Er'|]. exact (is2_same _ _ _ _ _ _ Hr1 Hr1').
Qed.
Print Assumptions C52_lti_recur.

(** ** Calls that are accepted and are not in bounds *)
Lemma in_bounds_more (R : cring) n n' nH (k : (nat -> R) -> (nat -> R) -> nat -> R) :
  n <= n' -> in_bounds n nH k -> in_bounds n' nH k.
Proof. intros Hn H A A' h h' HA Hh. apply H; auto. intros i Hi. apply HA. lia. Qed.

(** No operator looks at the number of matrices in a batched A.  The kernel it starts stays
    in the buffer of A exactly when there is a matrix for every signal. *)
Theorem C52_batch_iff :
  forall (R : cring), (r1 : R) <> r0 -> forall e B B' N M (A zi x : tensor R),
    ext e = true -> cuda e = false -> 1 <= B -> 1 <= N -> 1 <= M ->
    shape A = [B'; M; M] -> shape zi = [B; M] -> shape x = [B; N; M] ->
    (exists y, op_lti_recurN e A zi x = Ok y) /\
    (in_bounds (R := R) (numel A) (B * (N + 1) * M) (host_lti_batch_mat_recur_N_order B (N + 1) M) <-> B <= B').
Proof.
  intros R Hr e B B' N M A zi x He Hc HB HN HM SA Sz Sx. split.
  - unfold op_lti_recurN. rewrite He, Hc. cbn [negb].
    unfold lti_mat_recur_N_order_cpu, rk, sizen, size. rewrite SA, Sx. cbn [length Nat.eqb orb Nat.leb nth Nat.sub rk].
    unfold rk. rewrite SA. cbn [length Nat.sub nth]. rewrite Nat.eqb_refl.
    assert (E : exists o, cat 1 [unsqueeze 1 zi; x] = Ok o).
    { unfold cat, rk, size, unsqueeze. cbn [forallb shape]. rewrite Sz, Sx.
      cbn [ins del length Nat.ltb Nat.leb andb list_eqb]. rewrite !Nat.eqb_refl. cbn. eexists. reflexivity. }
    destruct E as (o & ->). cbn [bind]. eexists. reflexivity.
  - assert (numel A = B' * M * M) as -> by (unfold numel; rewrite SA; cbn; ring).
    split; intro H.
    + apply (C52_cpu_kernels_exact R Hr) in H; [|lia|lia|lia].
      destruct (Nat.le_gt_cases B B') as [|L]; [assumption|exfalso].
      assert (1 <= M * M) by nia. rewrite <- !Nat.mul_assoc in H. nia.
    + apply (in_bounds_more R (B * M * M)); [|apply C52_cpu_kernels].
      now apply Nat.mul_le_mono_r, Nat.mul_le_mono_r.
Qed.
Print Assumptions C52_batch_iff.
(** The time-varying operators look neither at the number of matrices nor at the number of
    steps; the kernel reads A padded by one step. *)
Theorem C52_steps_iff :
  forall (R : cring), (r1 : R) <> r0 -> forall e B N N' M (A zi x : tensor R),
    ext e = true -> cuda e = false -> 1 <= B -> 1 <= N -> 1 <= M ->
    shape A = [N'; M; M] -> shape zi = [B; M] -> shape x = [B; N; M] ->
    (exists y, op_recurN e A zi x = Ok y) /\
    (in_bounds (R := R) (numel (pad 0 1 0 r0 A)) (B * (N + 1) * M) (host_share_mat_recur_N_order_omp B (N + 1) M) <-> N <= N').
Proof.
  intros R Hr e B N N' M A zi x He Hc HB HN HM SA Sz Sx. split.
  - unfold op_recurN. rewrite He, Hc. cbn [negb].
    unfold mat_recur_N_order_cpu_omp, rk, sizen, size. rewrite SA, Sx. cbn [length Nat.eqb orb Nat.leb nth Nat.sub rk].
    unfold rk. rewrite SA. cbn [length Nat.sub nth]. rewrite Nat.eqb_refl.
    assert (E : exists o, cat 1 [unsqueeze 1 zi; x] = Ok o).
    { unfold cat, rk, size, unsqueeze. cbn [forallb shape]. rewrite Sz, Sx.
      cbn [ins del length Nat.ltb Nat.leb andb list_eqb]. rewrite !Nat.eqb_refl. cbn. eexists. reflexivity. }
    destruct E as (o & ->). cbn [bind]. eexists. reflexivity.
  - assert (numel (pad 0 1 0 r0 A) = (N' + 1) * M * M) as ->.
    { unfold numel, pad. cbn [shape]. rewrite SA. cbn. rewrite Nat.add_0_r. ring. }
    split; intro H.
    + apply (C52_cpu_kernels_exact R Hr) in H; [|lia|lia|lia].
      destruct (Nat.le_gt_cases N N') as [|L]; [assumption|exfalso].
      assert (1 <= M * M) by nia. rewrite <- !Nat.mul_assoc in H. nia.
    + apply (in_bounds_more R ((N + 1) * M * M)); [|apply C52_cpu_kernels].
      apply Nat.mul_le_mono_r, Nat.mul_le_mono_r. lia.
Qed.
Print Assumptions C52_steps_iff.
Theorem C52_batch_steps_iff :
  forall (R : cring), (r1 : R) <> r0 -> forall e B B' N N' M (A zi x : tensor R),
    ext e = true -> cuda e = false -> 1 <= B -> 1 <= N -> 1 <= M ->
    shape A = [B'; N'; M; M] -> shape zi = [B; M] -> shape x = [B; N; M] ->
    (exists y, op_recurN e A zi x = Ok y) /\
    (in_bounds (R := R) (numel (pad 1 1 0 r0 A)) (B * (N + 1) * M) (host_batch_mat_recur_N_order_omp B (N + 1) M) <->
     B * (N + 1) <= B' * (N' + 1)).
Proof.
  intros R Hr e B B' N N' M A zi x He Hc HB HN HM SA Sz Sx. split.
  - unfold op_recurN. rewrite He, Hc. cbn [negb].
    unfold mat_recur_N_order_cpu_omp, rk, sizen, size. rewrite SA, Sx. cbn [length Nat.eqb orb Nat.leb nth Nat.sub rk].
    unfold rk. rewrite SA. cbn [length Nat.sub nth]. rewrite Nat.eqb_refl.
    assert (E : exists o, cat 1 [unsqueeze 1 zi; x] = Ok o).
    { unfold cat, rk, size, unsqueeze. cbn [forallb shape]. rewrite Sz, Sx.
      cbn [ins del length Nat.ltb Nat.leb andb list_eqb]. rewrite !Nat.eqb_refl. cbn. eexists. reflexivity. }
    destruct E as (o & ->). cbn [bind]. eexists. reflexivity.
  - assert (numel (pad 1 1 0 r0 A) = B' * (N' + 1) * M * M) as ->.
    { unfold numel, pad. cbn [shape]. rewrite SA. cbn. rewrite Nat.add_0_r. ring. }
    split; intro H.
    + apply (C52_cpu_kernels_exact R Hr) in H; [|lia|lia|lia].
      destruct (Nat.le_gt_cases (B * (N + 1)) (B' * (N' + 1))) as [|L]; [assumption|exfalso].
      assert (1 <= M * M) by nia. rewrite <- !(Nat.mul_assoc _ M M) in H. nia.
    + apply (in_bounds_more R (B * (N + 1) * M * M)); [|apply C52_cpu_kernels].
      now apply Nat.mul_le_mono_r, Nat.mul_le_mono_r.
Qed.
Print Assumptions C52_batch_steps_iff.

Definition env_c : env := mkEnv true false false false false seqtree 1 1.
(** One matrix, two signals: the operator returns numbers taken from behind A. *)
Theorem C52_lti_recurN_refuted :
  ~ (forall (R : cring) e (A zi x y : tensor R), op_lti_recurN e A zi x = Ok y -> rk x = 3 ->
       reads_inside (op_lti_recurN e) A zi x).
Proof.
  intro H. pose (x := mkT [2; 1; 1] (fun _ => 1%Z) : tensor Zring). pose (z := mkT [2; 1] (fun _ => 1%Z) : tensor Zring).
  pose (A := mkT [1; 1; 1] (fun _ => 1%Z) : tensor Zring).
  pose (A' := mkT [1; 1; 1] (fun i => match i with 0 :: _ => 1%Z | _ => 5%Z end) : tensor Zring).
  assert (K : exists y, op_lti_recurN env_c A z x = Ok y) by (eexists; reflexivity). destruct K as (y & Ey).
  assert (S1 : same A A').
  { split; [reflexivity|]. intros idx Hi. cbn in Hi. inversion Hi as [|i ? l ? Hi1 Hl]; subst. assert (i = 0) by lia. subst. reflexivity. }
  assert (S0 : forall t : tensor Zring, same t t) by (intro t; split; reflexivity).
  destruct (H _ _ _ _ _ _ Ey eq_refl A' z x S1 (S0 z) (S0 x)) as (r & r' & E1 & E2 & [_ E]).
  injection E1 as <-. injection E2 as <-.
  specialize (E [1; 0; 0] ltac:(repeat constructor)). vm_compute in E. discriminate E.
Qed.
Print Assumptions C52_lti_recurN_refuted.

(** Reached from the public interface: lpv.state_space does not compare the batch size of a
    four-dimensional A with that of x, and with the extension and unroll_factor=1 the kernel
    runs without any further check. *)
Theorem C52_state_space_refuted :
  ~ (forall (R : cring) e (A A' x y : tensor R), ext e = true -> cuda e = false ->
       lpv_state_space e false A x None None None None (Some 1) None = Ok (y, None) -> same A A' ->
       exists y', lpv_state_space e false A' x None None None None (Some 1) None = Ok (y', None) /\ same y y').
Proof.
  intro H. pose (x := mkT [2; 3; 2] (fun _ => 1%Z) : tensor Zring).
  pose (A := mkT [1; 3; 2; 2] (fun _ => 1%Z) : tensor Zring).
  pose (A' := mkT [1; 3; 2; 2] (fun i => match i with 0 :: _ => 1%Z | _ => 5%Z end) : tensor Zring).
  assert (K : exists y, lpv_state_space env_c false A x None None None None (Some 1) None = Ok (y, None)) by (eexists; reflexivity).
  destruct K as (y & Ey).
  assert (S1 : same A A').
  { split; [reflexivity|]. intros idx Hi. cbn in Hi. inversion Hi as [|i ? l ? Hi1 Hl]; subst. assert (i = 0) by lia. subst. reflexivity. }
  destruct (H _ env_c A A' x y eq_refl eq_refl Ey S1) as (r & E1 & [_ E]).
  injection Ey as <-. injection E1 as <-.
  specialize (E [1; 2; 0] ltac:(repeat constructor)). vm_compute in E. discriminate E.
Qed.
Print Assumptions C52_state_space_refuted.
(** The pure-Python back-end rejects such an A, for every unroll factor. *)
Theorem C52_python_rejects :
  forall (R : cring) e (A zi x : tensor R) u oi, rk A = 4 -> size x 0 <> size A 0 ->
    exists err, lpv_state_space_recursion e false A zi x u oi = Err err.
Proof.
  intros R e A zi x u oi HA Hb. unfold lpv_state_space_recursion. cbn [lpv_state_space_recursion_fuel].
  destruct ((rk x =? 2) || (rk x =? 3)); [|now eexists]. destruct ((rk A =? 3) || (rk A =? 4)); [|now eexists].
  destruct (sizen A 2 =? sizen A 1); [|now eexists]. destruct (sizen A 3 =? size x 1); [|now eexists].
  rewrite HA. apply Nat.eqb_neq in Hb. rewrite Hb. cbn [Nat.eqb negb orb]. now eexists.
Qed.
Print Assumptions C52_python_rejects.

(** The rank of x is not checked either.  A fourth dimension of size 0 leaves an empty
    signal buffer, and the kernel writes. *)
Theorem C52_rank_refuted :
  ~ (forall (R : cring) e (A zi x y o : tensor R), op_lti_recurN e A zi x = Ok y -> rk A = 2 ->
       cat 1 [unsqueeze 1 zi; x] = Ok o ->
       in_bounds (R := R) (numel A) (numel o) (host_lti_share_mat_recur_N_order (size x 0) (size x 1 + 1) (sizen A 1))).
Proof.
  intro H. pose (x := mkT [1; 1; 1; 0] (fun _ => 1%Z) : tensor Zring). pose (z := mkT [1; 1; 0] (fun _ => 1%Z) : tensor Zring).
  pose (A := mkT [1; 1] (fun _ => 1%Z) : tensor Zring).
  assert (K : exists y, op_lti_recurN env_c A z x = Ok y) by (eexists; reflexivity). destruct K as (y & Ey).
  assert (K : exists o, cat 1 [unsqueeze 1 z; x] = Ok o) by (eexists; reflexivity). destruct K as (o & Eo).
  specialize (H _ _ _ _ _ _ _ Ey eq_refl Eo). injection Eo as <-.
  destruct (H (fun _ => 1%Z) (fun _ => 1%Z) (fun _ => 1%Z) (fun _ => 1%Z) (fun _ _ => eq_refl) (fun _ _ => eq_refl)) as [_ K].
  specialize (K 1 ltac:(vm_compute; lia)). vm_compute in K. discriminate K.
Qed.
Print Assumptions C52_rank_refuted.

(** lti.state_space compares the batch sizes itself, so with any back-end an accepted call
    stays inside A. *)
Theorem C52_lti_state_space :
  forall (R : cring) e (A A' x : tensor R) uf r, unroll_ok uf -> backend_ok e (sizen A 1) ->
    state_space e A x None None None None uf None = Ok r ->
    1 <= size x 0 -> 1 <= size x 1 -> 1 <= sizen A 1 -> (rk x = 3 -> size x 2 = sizen A 1) -> same A A' ->
    exists y y', r = (y, None) /\ state_space e A' x None None None None uf None = Ok (y', None) /\ same y y'.
Proof.
  intros R e A A' x uf r Hu He H HB HN HM HF S1.
  assert (G : (rk x = 2 \/ rk x = 3) /\ (rk A = 2 \/ rk A = 3) /\ sizen A 2 = sizen A 1 /\ (rk A = 3 -> size A 0 = size x 0)).
  { unfold state_space in H.
    destruct ((rk x =? 2) || (rk x =? 3)) eqn:E1; [|discriminate H].
    destruct ((rk A =? 2) || (rk A =? 3)) eqn:E2; [|discriminate H].
    destruct (sizen A 2 =? sizen A 1) eqn:E3; [|discriminate H].
    match type of H with (if ?c then _ else _) = _ => destruct c eqn:E4; [|discriminate H] end.
    apply orb_prop in E1, E2. rewrite !Nat.eqb_eq in E1, E2. apply Nat.eqb_eq in E3.
    split; [exact E1|]. split; [exact E2|]. split; [exact E3|]. intro K. rewrite K in E4. cbn in E4.
    apply Nat.eqb_eq in E4. congruence. }
  destruct G as (Gx & GA & Gs & Gb).
  destruct (matc_of_sizes R A (size x 0) (sizen A 1) GA eq_refl Gs Gb) as (Af & HA).
  pose proof (same_matc _ _ _ _ _ _ S1 HA) as HA'.
  assert (V : exists F xf, sigv (size x 0) (size x 1) F x xf /\ inmat (size x 0) (sizen A 1) F None (@unit3 R)).
  { destruct Gx as [Gx|Gx].
    - exists None, (fun b n _ => at_ x [b; n]). split; [|apply in_none2; intros ? ? ? ? ? ?; reflexivity].
      unfold rk, size in *. destruct (shape x) as [|p [|q [|? ?]]] eqn:E; try discriminate Gx. split; [exact E|reflexivity].
    - exists (Some (sizen A 1)), (fun b n m => at_ x [b; n; m]). split; [|apply in_none3; intros ? ? ? ? ? ?; reflexivity].
      rewrite <- (HF Gx). unfold rk, size in *. destruct (shape x) as [|p [|q [|m [|? ?]]]] eqn:E; try discriminate Gx. split; [exact E|reflexivity]. }
  destruct V as (F & xf & Vx & VB).
  assert (Sy : forall T, matc (size x 0) (sizen A 1) T Af ->
     sys (size x 0) (sizen A 1) F (Some (sizen A 1)) T None None None None Af (@unit3 R) (@unit3 R) (fun _ _ _ => r0)).
  { intros T HT. split; [exact HT|]. split; [exact VB|]. split; [apply out_none; intros ? ? ? ? ? ?; reflexivity|].
    apply fd_none. intros ? ? ? ? ? ?; reflexivity. }
  assert (Vi : init (size x 0) (sizen A 1) None (fun _ _ => @r0 R)) by (apply init_0; reflexivity).
  destruct (state_space_correct R e _ _ _ F _ A x None None None None uf None _ _ _ _ _ _ HB HN HM He Hu (Sy A HA) Vx Vi)
    as (y & zf & Ey & Hy & ->).
  destruct (state_space_correct R e _ _ _ F _ A' x None None None None uf None _ _ _ _ _ _ HB HN HM He Hu (Sy A' HA') Vx Vi)
    as (y' & zf' & Ey' & Hy' & ->).
  exists y, y'. split; [congruence|]. split; [exact Ey'|]. exact (is3_same _ _ _ _ _ _ _ Hy Hy').
Qed.
Print Assumptions C52_lti_state_space.

(** ** Device scans *)
(** The elements a CUDA scan is fed with, at a position inside the signals. *)
Theorem C52_cuda_inputs :
  forall (R : cring) B n i (A A' : nat -> R) x0 x1, 1 <= n -> i < B * n ->
    ((forall k, k < B * 4 -> A k = A' k) -> lti_batch_A_input_op A n i x0 x1 = lti_batch_A_input_op A' n i x0 x1) /\
    ((forall k, k < 4 -> A k = A' k) -> lti_share_A_input_op A n i x0 x1 = lti_share_A_input_op A' n i x0 x1) /\
    ((forall k, k < n * 4 -> A k = A' k) -> share_A_input_op A n i x0 x1 = share_A_input_op A' n i x0 x1) /\
    ((forall k, k < B -> A k = A' k) -> lti_batch_recur_input_op A n i x0 = lti_batch_recur_input_op A' n i x0).
Proof.
  intros R B n i A A' x0 x1 Hn Hi.
  assert (i / n < B) by (apply Nat.div_lt_upper_bound; lia).
  pose proof (Nat.mod_upper_bound i n ltac:(lia)).
  split; [|split; [|split]]; intro E.
  - unfold lti_batch_A_input_op. destruct (0 <? i mod n); [|reflexivity]. now rewrite !E by lia.
  - unfold lti_share_A_input_op. destruct (0 <? i mod n); [|reflexivity]. now rewrite !E by lia.
  - unfold share_A_input_op. now rewrite !E by lia.
  - unfold lti_batch_recur_input_op. destruct (0 <? i mod n); [|reflexivity]. now rewrite !E by lia.
Qed.
Print Assumptions C52_cuda_inputs.
(** Output i of a scan by key uses only the elements of its own signal up to i. *)
Theorem C52_cuda_scan :
  forall (X : Type) e (op : X -> X -> X) n (f g : nat -> X) i, env_ok e -> 1 <= n ->
    (forall k, i / n * n <= k -> k <= i -> f k = g k) -> scan_by_key e op n f i = scan_by_key e op n g i.
Proof. intros X e op n f g i. apply scan_agree. Qed.
Print Assumptions C52_cuda_scan.

(** ** Examples *)
(** A call meeting the hypotheses of C52_recurN, and the sizes of C52_batch_steps_iff. *)
Example C52_ex :
  (exists y, op_recurN env_c (mk4 2 3 2 2 (fun b n i j => Z.of_nat (b + n + i * j)) : tensor Zring)
              (mk2 2 2 (fun _ _ => 1%Z)) (mk3 2 3 2 (fun b n m => Z.of_nat (b * n + m))) = Ok y /\
             at_ y [1; 2; 1] = 114%Z).
Proof. eexists. split; [reflexivity|]. vm_compute. reflexivity. Qed.
(** The buffer really is used to its last entry, and no further. *)
Example C52_ex_kernel :
  let A k := Z.of_nat k : Zring in let H (k : nat) := 1%Z : Zring in
  map (host_batch_mat_recur_N_order_omp 2 2 1 A H) [0; 1; 2; 3; 4] = [1; 2; 1; 4; 1]%Z.
Proof. vm_compute. reflexivity. Qed.
(** One matrix for two signals: [lpv.state_space] returns whatever follows A. *)
Example C52_ex_state_space :
  let x := mkT [2; 3; 2] (fun _ => 1%Z) : tensor Zring in
  let A v := mkT [1; 3; 2; 2] (fun i => match i with 0 :: _ => 1%Z | _ => v end) : tensor Zring in
  map (fun v => match lpv_state_space env_c false (A v) x None None None None (Some 1) None with
                | Ok (y, _) => at_ y [1; 2; 0] | Err _ => 0%Z end) [0%Z; 1%Z; 5%Z] = [1; 3; 11]%Z.
Proof. vm_compute. reflexivity. Qed.
(** With unroll_factor=3 (pure Python) the same call is an error. *)
Example C52_ex_python :
  let x := mkT [2; 3; 2] (fun _ => 1%Z) : tensor Zring in
  let A := mkT [1; 3; 2; 2] (fun _ => 1%Z) : tensor Zring in
  lpv_state_space env_c false A x None None None None (Some 3) None = Err AssertionError.
Proof. vm_compute. reflexivity. Qed.
