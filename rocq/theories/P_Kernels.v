(** The kernels compute the state recurrence: sequential loops, interleaved workers,
    scans and tiles. *)
From Coq Require Import List Arith Lia ZArith Bool Ring.
From Verif Require Import Scalar Tensor TensorLemmas TensorOps TensorAlg TensorTac TensorList
  Spec Algebra M_Kernels.
Import ListNotations.

Lemma loop_inv {S : Type} (P : nat -> S -> Prop) n f s :
  P 0 s -> (forall k s, k < n -> P k s -> P (Datatypes.S k) (f k s)) -> P n (loop n f s).
Proof.
  intros H0 Hs. revert Hs. induction n as [|n IH]; intro Hs; cbn [loop]; auto.
  apply Hs; [lia|]. apply IH. intros; apply Hs; auto.
Qed.

Lemma mixed_inj N i j i' j' : j < N -> j' < N -> i * N + j = i' * N + j' -> i = i' /\ j = j'.
Proof. intros Hj Hj' H. apply (Nat.div_mod_unique N); lia. Qed.

(** ** The loop nests over any operations (no ring laws) *)
Section Raw.
Variable R : cops.
Notation mem := (nat -> R).

Lemma loop_sum N (f : nat -> R) :
  loop N (fun j s => radd s (f j)) r0 = bsum N f.
Proof. induction N as [|N IH]; cbn [loop bsum]; [reflexivity|now rewrite IH]. Qed.

(** ** Sequential loops *)
Definition off (T N b t i : nat) : nat := b * T * N + t * N + i.
Lemma off_inj T N b t i b' t' i' : t < T -> t' < T -> i < N -> i' < N ->
  off T N b t i = off T N b' t' i' -> b = b' /\ t = t' /\ i = i'.
Proof.
  unfold off. intros Ht Ht' Hi Hi' H.
  destruct (mixed_inj N (b * T + t) i (b' * T + t') i') as [H1 H2]; [lia|lia|nia|].
  destruct (mixed_inj T b t b' t'); auto; lia.
Qed.

(** All sequential matrix kernels are this loop nest with some coefficients. *)
Definition gk (B T N : nat) (c : nat -> nat -> nat -> nat -> R) (H_out : mem) : mem :=
  loop B (fun b H =>
    loop (T - 1) (fun t0 H =>
      loop N (fun i H =>
        st H (b * T * N + (t0 + 1) * N + i)
          (radd (H (b * T * N + (t0 + 1) * N + i))
             (loop N (fun j s => radd s (rmul (c b (t0 + 1) i j) (H (b * T * N + (t0 + 1 - 1) * N + j)))) r0)))
        H) H) H_out.

(** The recurrence as the kernels evaluate it: input first, then the sum. *)
Fixpoint kstate (N : nat) (A : nat -> nat -> nat -> R) (h : nat -> R) (u : nat -> nat -> R)
  (n i : nat) : R :=
  match n with
  | O => h i
  | S k => radd (u k i) (bsum N (fun j => rmul (A k i j) (kstate N A h u k j)))
  end.
Lemma kstate_ext N A A' h h' u u' n i : i < N ->
  (forall k i j, k < n -> i < N -> j < N -> A k i j = A' k i j) ->
  (forall i, i < N -> h i = h' i) -> (forall k i, k < n -> i < N -> u k i = u' k i) ->
  kstate N A h u n i = kstate N A' h' u' n i.
Proof.
  intros Hi HA Hh Hu. revert i Hi. induction n as [|n IH]; intros i Hi; cbn [kstate]; [auto|].
  rewrite Hu by lia. f_equal. apply bsum_ext. intros j Hj. rewrite HA by lia. f_equal. apply IH; auto.
Qed.
(** What the buffer holds when (b, t, i) is about to be processed. *)
Definition kref (T N : nat) (c : nat -> nat -> nat -> nat -> R) (H0 : mem) (b t i : nat) : R :=
  kstate N (fun n => c b (n + 1)) (fun i => H0 (off T N b 0 i)) (fun n i => H0 (off T N b (n + 1) i)) t i.
Definition Inv (B T N : nat) c (H0 : mem) (b t i : nat) (H : mem) : Prop :=
  (forall b' t' i', b' < B -> t' < T -> i' < N ->
     b' < b \/ (b' = b /\ (t' < t \/ (t' = t /\ i' < i))) \/ t' = 0 ->
     H (off T N b' t' i') = kref T N c H0 b' t' i') /\
  (forall b' t' i', b' < B -> t' < T -> i' < N ->
     b < b' \/ (b' = b /\ (t < t' \/ (t' = t /\ i <= i'))) ->
     H (off T N b' t' i') = H0 (off T N b' t' i')).

Lemma gk_raw B T N c H0 b t i : 1 <= T -> b < B -> t < T -> i < N ->
  gk B T N c H0 (off T N b t i) = kref T N c H0 b t i.
Proof.
  intros HT Hb Ht Hi.
  assert (Inv B T N c H0 B 0 0 (gk B T N c H0)) as [I _]; [|apply I; auto].
  unfold gk. apply (loop_inv (fun b H => Inv B T N c H0 b 0 0 H)).
  { split; intros b' t' i' Hb' Ht' Hi' Hc; auto. assert (t' = 0) by lia. subst. reflexivity. }
  intros b1 H1 Hb1 I1.
  assert (Inv B T N c H0 b1 (T - 1 + 1) 0 (loop (T - 1) (fun t0 H =>
      loop N (fun i H =>
        st H (b1 * T * N + (t0 + 1) * N + i)
          (radd (H (b1 * T * N + (t0 + 1) * N + i))
             (loop N (fun j s => radd s (rmul (c b1 (t0 + 1) i j) (H (b1 * T * N + (t0 + 1 - 1) * N + j)))) r0)))
        H) H1)) as I2.
  2:{ destruct I2 as [I2a I2b]. split; intros b' t' i' Hb' Ht' Hi' Hc; [apply I2a|apply I2b]; auto; lia. }
  apply (loop_inv (fun t0 H => Inv B T N c H0 b1 (t0 + 1) 0 H)).
  { destruct I1 as [Ia Ib]. split; intros b' t' i' Hb' Ht' Hi' Hc; [apply Ia|apply Ib]; auto; lia. }
  intros t0 H2 Ht0 I2.
  assert (Inv B T N c H0 b1 (t0 + 1) N (loop N (fun i H =>
        st H (b1 * T * N + (t0 + 1) * N + i)
          (radd (H (b1 * T * N + (t0 + 1) * N + i))
             (loop N (fun j s => radd s (rmul (c b1 (t0 + 1) i j) (H (b1 * T * N + (t0 + 1 - 1) * N + j)))) r0)))
        H2)) as I3.
  2:{ destruct I3 as [Ia Ib]. split; intros b' t' i' Hb' Ht' Hi' Hc; [apply Ia|apply Ib]; auto; lia. }
  apply (loop_inv (fun i H => Inv B T N c H0 b1 (t0 + 1) i H)); [exact I2|].
  intros i1 H3 Hi1 [Ia Ib]. rewrite loop_sum.
  fold (off T N b1 (t0 + 1) i1).
  split; intros b' t' i' Hb' Ht' Hi' Hc; unfold st;
    destruct (Nat.eqb_spec (off T N b' t' i') (off T N b1 (t0 + 1) i1)) as [E|E].
  - apply off_inj in E as (-> & -> & ->); try lia.
    rewrite Ib by (auto; lia). rewrite Nat.add_1_r. unfold kref. cbn [kstate]. rewrite !Nat.add_1_r. f_equal.
    apply bsum_ext. intros j Hj. f_equal. replace (S t0 - 1) with t0 by lia. apply Ia; auto; lia.
  - apply Ia; auto. destruct (Nat.eq_dec b' b1) as [->|]; [|lia].
    destruct (Nat.eq_dec t' (t0 + 1)) as [->|]; [|lia].
    destruct (Nat.eq_dec i' i1) as [->|]; [congruence|lia].
  - apply off_inj in E as (-> & -> & ->); try lia.
  - apply Ib; auto; lia.
Qed.

Lemma gk_lti_batch B T N A : host_lti_batch_mat_recur_N_order B T N A =
  gk B T N (fun b t i j => A (b * N * N + i * N + j)).
Proof. reflexivity. Qed.
Lemma gk_lti_share B T N A : host_lti_share_mat_recur_N_order B T N A =
  gk B T N (fun b t i j => A (i * N + j)).
Proof. reflexivity. Qed.
Lemma gk_batch B T N A : host_batch_mat_recur_N_order_omp B T N A =
  gk B T N (fun b t i j => A (b * T * N * N + t * N * N + i * N + j)).
Proof. reflexivity. Qed.
Lemma gk_share B T N A : host_share_mat_recur_N_order_omp B T N A =
  gk B T N (fun b t i j => A (t * N * N + i * N + j)).
Proof. reflexivity. Qed.

End Raw.
Arguments kstate {R}.

Section S.
Variable R : cring.
Add Ring Rr : (r_th R).
Notation mem := (nat -> R).
Notation ten := (tensor (car R)).

(** The same, in ring notation. *)
Definition ref (T N : nat) (c : nat -> nat -> nat -> nat -> R) (H0 : mem) (b t i : nat) : R :=
  state N (fun n => c b (n + 1)) (fun i => H0 (off T N b 0 i)) (fun n i => H0 (off T N b (n + 1) i)) t i.
Lemma ref_0 T N c H0 b i : ref T N c H0 b 0 i = H0 (off T N b 0 i).
Proof. reflexivity. Qed.
Lemma ref_S T N c H0 b t i : ref T N c H0 b (S t) i =
  radd (bsum N (fun j => rmul (c b (t + 1) i j) (ref T N c H0 b t j))) (H0 (off T N b (t + 1) i)).
Proof. reflexivity. Qed.

Lemma kstate_state N (A : nat -> nat -> nat -> R) h u n i : kstate N A h u n i = state N A h u n i.
Proof.
  revert i. induction n as [|n IH]; intro i; [reflexivity|]. cbn [kstate state]. unfold mvec.
  rewrite (bsum_ext N _ (fun k => rmul (A n i k) (state N A h u n k))) by (intros; now rewrite IH). ring.
Qed.
Lemma gk_spec B T N c H0 b t i : 1 <= T -> b < B -> t < T -> i < N ->
  gk R B T N c H0 (off T N b t i) = ref T N c H0 b t i.
Proof. intros. rewrite gk_raw by assumption. apply kstate_state. Qed.

(** ** Interleaved workers *)
Definition done_upto (l : local R) : nat * nat :=
  match l with LAcc t i _ _ => (t, i) | LSt t i _ _ => (t, i) | LDone => (0, 0) end.
(** Everything about worker [b] that its own accesses depend on. *)
Definition WInv (T N : nat) c (H0 : mem) (b : nat) (l : local R) (H : mem) : Prop :=
  match l with
  | LDone => forall t i, t < T -> i < N -> H (off T N b t i) = ref T N c H0 b t i
  | _ =>
    let (t, i) := done_upto l in
    1 <= t /\
    (forall t' i', t' < T -> i' < N -> t' < t \/ (t' = t /\ i' < i) ->
       H (off T N b t' i') = ref T N c H0 b t' i') /\
    (forall t' i', t' < T -> i' < N -> t < t' \/ (t' = t /\ i <= i') ->
       H (off T N b t' i') = H0 (off T N b t' i')) /\
    match l with
    | LAcc _ _ j s => j <= N /\ (t < T -> i < N ->
        s = bsum j (fun j => rmul (c b t i j) (ref T N c H0 b (t - 1) j)))
    | LSt _ _ s r => t < T /\ i < N /\ r = H0 (off T N b t i) /\
        s = bsum N (fun j => rmul (c b t i j) (ref T N c H0 b (t - 1) j))
    | LDone => True
    end
  end.

Lemma WInv_init T N c H0 b : WInv T N c H0 b tinit H0.
Proof.
  cbn. repeat split; try lia; auto.
  intros t' i' Ht Hi [H|H]; [|lia]. assert (t' = 0) by lia. now subst.
Qed.

Lemma WInv_step T N c H0 b l H : WInv T N c H0 b l H ->
  WInv T N c H0 b (fst (tstep T N c b l H)) (snd (tstep T N c b l H)).
Proof.
  destruct l as [t i j s|t i s r|]; cbn [WInv done_upto]; intro W.
  - destruct W as (Ht & Wa & Wb & Hj & Ws). unfold tstep.
    destruct (T <=? t) eqn:E1; b2p; cbn [fst snd].
    { intros t' i' Ht' Hi'. apply Wa; auto; lia. }
    destruct (N <=? i) eqn:E2; b2p; cbn [fst snd WInv done_upto].
    { repeat split; try lia.
      - intros t' i' Ht' Hi' Hc. apply Wa; auto; lia.
      - intros t' i' Ht' Hi' Hc. apply Wb; auto; lia. }
    destruct (j <? N) eqn:E3; b2p; cbn [fst snd WInv done_upto].
    { repeat split; auto; try lia. intros _ _. cbn [bsum]. rewrite Ws by lia. f_equal. f_equal.
      change (H (off T N b (t - 1) j) = ref T N c H0 b (t - 1) j). apply Wa; lia. }
    repeat split; auto; try lia.
    + change (H (off T N b t i) = H0 (off T N b t i)). apply Wb; lia.
    + rewrite Ws by lia. now replace j with N by lia.
  - destruct W as (Ht & Wa & Wb & HtT & HiN & Hr & Hs). cbn [tstep fst snd WInv done_upto].
    fold (off T N b t i). repeat split; auto; try lia.
    + intros t' i' Ht' Hi' Hc. unfold st.
      destruct (Nat.eqb_spec (off T N b t' i') (off T N b t i)) as [E|E].
      * apply off_inj in E as (_ & -> & ->); auto. subst r s.
        destruct t as [|t]; [lia|]. rewrite ref_S, Nat.add_1_r.
        replace (S t - 1) with t by lia. ring.
      * apply Wa; auto. destruct (Nat.eq_dec t' t) as [->|]; [|lia].
        destruct (Nat.eq_dec i' i) as [->|]; [congruence|lia].
    + intros t' i' Ht' Hi' Hc. unfold st.
      destruct (Nat.eqb_spec (off T N b t' i') (off T N b t i)) as [E|E].
      * apply off_inj in E as (_ & -> & ->); auto; lia.
      * apply Wb; auto; lia.
  - exact W.
Qed.

(** A worker's invariant depends on its own region only, and no other worker writes there. *)
Lemma WInv_region T N c H0 b l H H' :
  (forall t i, t < T -> i < N -> H' (off T N b t i) = H (off T N b t i)) ->
  WInv T N c H0 b l H -> WInv T N c H0 b l H'.
Proof.
  intros E. destruct l as [t i j s|t i s r|]; cbn [WInv done_upto].
  - intros (Ht & Wa & Wb & Hj & Ws). repeat split; auto.
    + intros. rewrite E; auto.
    + intros. rewrite E; auto.
  - intros (Ht & Wa & Wb & HtT & HiN & Hr & Hs). repeat split; auto.
    + intros. rewrite E; auto.
    + intros. rewrite E; auto.
  - intros W t i Ht Hi. rewrite E; auto.
Qed.
Lemma tstep_frame T N c H0 b b' l H : b <> b' -> WInv T N c H0 b l H ->
  forall t i, t < T -> i < N ->
  snd (tstep T N c b l H) (off T N b' t i) = H (off T N b' t i).
Proof.
  intros Hb W t i Ht Hi. destruct l as [t1 i1 j s|t1 i1 s r|]; cbn [tstep].
  - destruct (T <=? t1); [reflexivity|]. destruct (N <=? i1); [reflexivity|].
    destruct (j <? N); reflexivity.
  - cbn [WInv done_upto] in W. destruct W as (Ht1 & Wa & Wb & HtT & HiN & _).
    cbn [snd]. fold (off T N b t1 i1). unfold st.
    destruct (Nat.eqb_spec (off T N b' t i) (off T N b t1 i1)) as [E|E]; [|reflexivity].
    apply off_inj in E as (E & _); auto. congruence.
  - reflexivity.
Qed.

Lemma trun_inv T N c H0 sched : forall ls H,
  (forall b, WInv T N c H0 b (ls b) H) ->
  let r := trun T N c sched ls H in forall b, WInv T N c H0 b (fst r b) (snd r).
Proof.
  induction sched as [|b sched IH]; intros ls H W; cbn [trun]; [exact W|].
  destruct (tstep T N c b (ls b) H) as [l' H'] eqn:E.
  apply IH. intro b'. destruct (Nat.eqb_spec b' b) as [->|Hb].
  - pose proof (WInv_step T N c H0 b (ls b) H (W b)) as W'. now rewrite E in W'.
  - eapply WInv_region; [|apply W]. intros t i Ht Hi.
    pose proof (tstep_frame T N c H0 b b' (ls b) H (not_eq_sym Hb) (W b) t i Ht Hi) as F.
    now rewrite E in F.
Qed.

Lemma trun_spec T N c H0 sched b : let r := trun T N c sched (fun _ => tinit) H0 in
  fst r b = LDone -> forall t i, t < T -> i < N ->
  snd r (off T N b t i) = ref T N c H0 b t i.
Proof.
  intros r Hd. pose proof (trun_inv T N c H0 sched (fun _ => tinit) H0 (WInv_init T N c H0)) as W.
  specialize (W b). fold r in W. rewrite Hd in W. exact W.
Qed.

(** Progress: a worker needs at most [budget] of its own steps. *)
Definition budget (T N : nat) : nat := T * (N * (N + 2) + 1) + 1.
Definition left_ (T N : nat) (l : local R) : nat :=
  match l with
  | LDone => 0
  | LAcc t i j _ => (T - t) * (N * (N + 2) + 1) + 1 - i * (N + 2) - j
  | LSt t i _ _ => (T - t) * (N * (N + 2) + 1) + 1 - i * (N + 2) - (N + 1)
  end.
Definition wfl (T N : nat) (l : local R) : Prop :=
  match l with LDone => True | LAcc t i j _ => (i <= N /\ j <= N /\ (i = N -> j = 0) /\ (T <= t -> i = 0 /\ j = 0))
  | LSt t i _ _ => i < N /\ t < T end.
Lemma tstep_left T N c b l H : wfl T N l -> l <> LDone ->
  wfl T N (fst (tstep T N c b l H)) /\ left_ T N (fst (tstep T N c b l H)) < left_ T N l.
Proof.
  destruct l as [t i j s|t i s r|]; cbn [wfl]; intros W Hl; [| |congruence].
  - unfold tstep. destruct (T <=? t) eqn:E1; b2p; cbn [fst wfl left_].
    { split; [exact I|]. destruct W as (_ & _ & _ & W). destruct (W E1) as [-> ->]. lia. }
    assert ((T - t) = S (T - S t)) as E by lia. set (u := T - S t) in *.
    destruct (N <=? i) eqn:E2; b2p; cbn [fst wfl left_].
    { assert (i = N) by lia. subst i. rewrite E. fold u. destruct W as (_ & _ & W & _). rewrite (W eq_refl). nia. }
    destruct (j <? N) eqn:E3; b2p; cbn [fst wfl left_]; rewrite E.
    { split; [lia|]. assert (i * (N + 2) + S j <= N * (N + 2)) by nia. nia. }
    assert (j = N) by lia. subst j. split; [lia|]. assert (i * (N + 2) + (N + 1) < N * (N + 2)) by nia. nia.
  - cbn [tstep fst wfl left_]. assert ((T - t) = S (T - S t)) as E by lia. rewrite E.
    split; [nia|]. assert (i * (N + 2) + (N + 2) <= N * (N + 2)) by nia. nia.
Qed.
Lemma trun_app T N (c : nat -> nat -> nat -> nat -> R) s1 : forall s2 ls H,
  trun T N c (s1 ++ s2) ls H = (let '(ls', H') := trun T N c s1 ls H in trun T N c s2 ls' H').
Proof.
  induction s1 as [|b s1 IH]; intros; cbn [trun app]; [reflexivity|].
  destruct (tstep T N c b (ls b) H). apply IH.
Qed.
Lemma trun_progress T N (c : nat -> nat -> nat -> nat -> R) b : forall sched ls H, wfl T N (ls b) ->
  left_ T N (ls b) <= count_occ Nat.eq_dec sched b -> 
  fst (trun T N c sched ls H) b = LDone.
Proof.
  induction sched as [|b' sched IH]; intros ls H W Hc; cbn [trun count_occ] in *.
  - destruct (ls b) as [t i j s|t i s r|] eqn:E; auto; cbn [left_ wfl fst] in *.
    + exfalso. destruct (le_lt_dec T t) as [Ht|Ht].
      * destruct W as (_ & _ & _ & W). destruct (W Ht) as [-> ->]. lia.
      * assert (T - t = S (T - S t)) as E' by lia. rewrite E' in Hc. nia.
    + exfalso. assert (T - t = S (T - S t)) as E' by lia. rewrite E' in Hc. nia.
  - destruct (tstep T N c b' (ls b') H) as [l' H'] eqn:Es.
    apply IH; rewrite (Nat.eqb_sym b b'); destruct (Nat.eqb_spec b' b) as [->|Hb]; auto.
    + destruct (ls b) eqn:E; [| |cbn in Es; injection Es as <- <-; exact I].
      * pose proof (tstep_left T N c b _ H W) as L. rewrite Es in L. apply L. discriminate.
      * pose proof (tstep_left T N c b _ H W) as L. rewrite Es in L. apply L. discriminate.
    + destruct (Nat.eq_dec b b) as [_|]; [|congruence].
      destruct (ls b) eqn:E; [| |cbn in Es; injection Es as <- <-; cbn; lia].
      * pose proof (tstep_left T N c b _ H W) as L. rewrite Es in L. cbn [fst] in L.
        destruct L as [_ L]; [discriminate|]. lia.
      * pose proof (tstep_left T N c b _ H W) as L. rewrite Es in L. cbn [fst] in L.
        destruct L as [_ L]; [discriminate|]. lia.
    + destruct (Nat.eq_dec b' b) as [|_]; [congruence|]. exact Hc.
Qed.
Lemma budget_init T N : 1 <= T -> left_ T N tinit <= budget T N /\ wfl T N tinit.
Proof. intro. unfold budget, tinit. cbn [left_ wfl]. split; [nia|lia]. Qed.

End S.
