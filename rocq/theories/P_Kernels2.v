(** Which buffer entries the CPU kernels read and write. *)
From Coq Require Import List Arith Lia ZArith Bool Ring.
From Verif Require Import Scalar Tensor Spec Algebra M_Kernels P_Kernels.
Import ListNotations.

Definition agree {X : Type} (n : nat) (m m' : nat -> X) : Prop := forall k, k < n -> m k = m' k.

Section S.
Variable R : cring.
Add Ring Rr : (r_th R).
Notation mem := (nat -> R).

Lemma loop_inv2 {X Y : Type} (P : X -> Y -> Prop) n f g s t :
  P s t -> (forall k s t, k < n -> P s t -> P (f k s) (g k t)) -> P (loop n f s) (loop n g t).
Proof.
  intros H0 Hs. revert Hs. induction n as [|n IH]; intro Hs; cbn [loop]; [exact H0|].
  apply Hs; [lia|]. apply IH. intros; apply Hs; auto.
Qed.

Lemma st_agree n (m m' : mem) k v v' : agree n m m' -> v = v' -> agree n (st m k v) (st m' k v').
Proof. intros H -> j Hj. unfold st. destruct (j =? k); auto. Qed.

Lemma gk_agree B T N (c c' : nat -> nat -> nat -> nat -> R) (H H' : mem) :
  (forall b t i j, b < B -> 1 <= t -> t < T -> i < N -> j < N -> c b t i j = c' b t i j) ->
  agree (B * T * N) H H' -> agree (B * T * N) (gk R B T N c H) (gk R B T N c' H').
Proof.
  intros Hc HH. unfold gk.
  apply (loop_inv2 (agree (B * T * N))); [exact HH|]. intros b H1 H1' Hb A1.
  apply (loop_inv2 (agree (B * T * N))); [exact A1|]. intros t H2 H2' Ht A2.
  apply (loop_inv2 (agree (B * T * N))); [exact A2|]. intros i H3 H3' Hi A3.
  assert (K : forall t' j, t' < T -> j < N -> b * T * N + t' * N + j < B * T * N).
  { intros t' j Ht' Hj. replace (b * T * N) with (b * (T * N)) by ring. replace (B * T * N) with (B * (T * N)) by ring.
    assert (t' * N + j < T * N) by nia. nia. }
  apply st_agree; [exact A3|]. f_equal.
  - apply A3, K; lia.
  - rewrite !loop_sum. apply bsum_ext. intros j Hj. f_equal; [apply Hc; lia|]. apply A3, K; lia.
Qed.
Lemma gk_outside B T N (c : nat -> nat -> nat -> nat -> R) (H : mem) k :
  B * T * N <= k -> gk R B T N c H k = H k.
Proof.
  intro Hk. unfold gk.
  apply (loop_inv (fun _ m => m k = H k)); [reflexivity|]. intros b H1 Hb E1.
  apply (loop_inv (fun _ m => m k = H k)); [exact E1|]. intros t H2 Ht E2.
  apply (loop_inv (fun _ m => m k = H k)); [exact E2|]. intros i H3 Hi E3.
  unfold st. destruct (Nat.eqb_spec k (b * T * N + (t + 1) * N + i)) as [->|]; [exfalso|exact E3].
  replace (b * T * N) with (b * (T * N)) in Hk by ring. replace (B * T * N) with (B * (T * N)) in Hk by ring.
  assert ((t + 1) * N + i < T * N) by nia. nia.
Qed.

(** With the coefficients of one row zero before step t, the rows before t keep their value. *)
Lemma ref_zero T N (c : nat -> nat -> nat -> nat -> R) (H : mem) b t i :
  (forall t' i j, 1 <= t' -> t' <= t -> i < N -> j < N -> c b t' i j = r0) -> i < N ->
  ref R T N c H b t i = H (off T N b t i).
Proof.
  intros Hc Hi. destruct t as [|t]; [reflexivity|]. rewrite ref_S.
  rewrite bsum_0.
  - rewrite Nat.add_1_r. ring.
  - intros j Hj. rewrite Hc by lia. ring.
Qed.
(** A single one in the coefficients. *)
Lemma ref_unit T N (c : nat -> nat -> nat -> nat -> R) b t i j0 :
  (forall t' i j, 1 <= t' -> t' <= t -> i < N -> j < N -> c b t' i j = r0) ->
  i < N -> j0 < N -> (forall j, j < N -> c b (t + 1) i j = if j =? j0 then r1 else r0) ->
  ref R T N c (fun _ => r1) b (S t) i = radd r1 r1.
Proof.
  intros Hc Hi Hj0 Hu. rewrite ref_S. rewrite (bsum_one N _ j0 Hj0).
  - rewrite Hu by assumption. rewrite Nat.eqb_refl. rewrite ref_zero by assumption. ring.
  - intros j Hj Hne. rewrite Hu by assumption. apply Nat.eqb_neq in Hne. rewrite Hne. ring.
Qed.

(** ** Scalar kernels *)
Lemma lin_agree B T (a a' : mem) (H H' : mem) : agree B a a' -> agree (B * T) H H' ->
  agree (B * T) (host_lti_batch_linear_recurrence B T a H) (host_lti_batch_linear_recurrence B T a' H').
Proof.
  intros Ha HH. unfold host_lti_batch_linear_recurrence.
  apply (loop_inv2 (agree (B * T))); [exact HH|]. intros b H1 H1' Hb A1.
  apply (loop_inv2 (agree (B * T))); [exact A1|]. intros t H2 H2' Ht A2.
  apply st_agree; [exact A2|]. rewrite (Ha b Hb). f_equal; [|f_equal]; apply A2; nia.
Qed.
Lemma lin_outside B T (a : mem) (H : mem) k : B * T <= k ->
  host_lti_batch_linear_recurrence B T a H k = H k.
Proof.
  intro Hk. unfold host_lti_batch_linear_recurrence.
  apply (loop_inv (fun _ m => m k = H k)); [reflexivity|]. intros b H1 Hb E1.
  apply (loop_inv (fun _ m => m k = H k)); [exact E1|]. intros t H2 Ht E2.
  unfold st. destruct (Nat.eqb_spec k (b * T + (t + 1))) as [->|]; [exfalso; nia|exact E2].
Qed.
Lemma lins_agree B T (a : R) (H H' : mem) : agree (B * T) H H' ->
  agree (B * T) (host_lti_shared_linear_recurrence B T a H) (host_lti_shared_linear_recurrence B T a H').
Proof.
  intros HH. unfold host_lti_shared_linear_recurrence.
  apply (loop_inv2 (agree (B * T))); [exact HH|]. intros b H1 H1' Hb A1.
  apply (loop_inv2 (agree (B * T))); [exact A1|]. intros t H2 H2' Ht A2.
  apply st_agree; [exact A2|]. f_equal; [|f_equal]; apply A2; nia.
Qed.
Lemma lins_outside B T (a : R) (H : mem) k : B * T <= k ->
  host_lti_shared_linear_recurrence B T a H k = H k.
Proof.
  intro Hk. unfold host_lti_shared_linear_recurrence.
  apply (loop_inv (fun _ m => m k = H k)); [reflexivity|]. intros b H1 Hb E1.
  apply (loop_inv (fun _ m => m k = H k)); [exact E1|]. intros t H2 Ht E2.
  unfold st. destruct (Nat.eqb_spec k (b * T + (t + 1))) as [->|]; [exfalso; nia|exact E2].
Qed.

(** ** Scans *)
Lemma tev_agree {X} (op : X -> X -> X) t : forall f g, agree (leaves t) f g -> tev op t f = tev op t g.
Proof.
  induction t as [|l IHl r IHr]; intros f g H; cbn [tev leaves] in *.
  - apply H. lia.
  - f_equal; [apply IHl|apply IHr]; intros k Hk; apply H; lia.
Qed.
Lemma scan_agree {X} e (op : X -> X -> X) n (f g : nat -> X) i : env_ok e -> 1 <= n ->
  (forall k, i / n * n <= k -> k <= i -> f k = g k) -> scan_by_key e op n f i = scan_by_key e op n g i.
Proof.
  intros (He & _) Hn H. unfold scan_by_key. apply tev_agree. intros k Hk. rewrite He in Hk.
  pose proof (Nat.div_mod i n ltac:(lia)). apply H; nia.
Qed.

End S.
