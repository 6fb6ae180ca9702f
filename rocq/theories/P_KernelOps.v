(** The CPU operators compute the state recurrence. *)
From Coq Require Import List Arith Lia ZArith Bool Ring.
From Verif Require Import Scalar Tensor TensorLemmas TensorOps TensorAlg TensorTac TensorList
  Spec Shapes Algebra M_Kernels P_Kernels.
Import ListNotations.

(** ** Over any operations *)
Section Raw.
Variable R : cops.
Notation mem := (nat -> R).
Notation ten := (tensor (car R)).

(** ** Buffers *)
Lemma dm2 N i j : j < N -> (i * N + j) / N = i /\ (i * N + j) mod N = j.
Proof.
  intro H. split; [rewrite Nat.div_add_l, Nat.div_small by lia; lia|].
  rewrite (Nat.add_comm (i * N)), Nat.mod_add, Nat.mod_small by lia. lia.
Qed.
Lemma flat_is0 (t : ten) v k : is0 t v -> flat t k = v.
Proof. intros [Hs Ht]. unfold flat. now rewrite Hs. Qed.
Lemma flat_is1 (t : ten) n f i : is1 t n f -> i < n -> flat t i = f i.
Proof. intros [Hs Ht] Hi. unfold flat. rewrite Hs. now apply Ht. Qed.
Lemma flat_is2 (t : ten) n m f i j : is2 t n m f -> i < n -> j < m -> flat t (i * m + j) = f i j.
Proof.
  intros [Hs Ht] Hi Hj. unfold flat. rewrite Hs. cbn [unravel prod].
  destruct (dm2 m i j Hj) as [-> ->]. now apply Ht.
Qed.
Lemma flat_is3 (t : ten) n m p f i j k : is3 t n m p f -> i < n -> j < m -> k < p ->
  flat t (i * (m * p) + j * p + k) = f i j k.
Proof.
  intros [Hs Ht] Hi Hj Hk. unfold flat. rewrite Hs. cbn [unravel prod].
  assert (j * p + k < m * p) by nia. rewrite <- Nat.add_assoc.
  destruct (dm2 (m * p) i (j * p + k)) as [-> ->]; [assumption|].
  destruct (dm2 p j k Hk) as [-> ->]. now apply Ht.
Qed.
Lemma flat_is4 (t : ten) n m p q f i j k l : is4 t n m p q f -> i < n -> j < m -> k < p -> l < q ->
  flat t (i * (m * (p * q)) + j * (p * q) + k * q + l) = f i j k l.
Proof.
  intros [Hs Ht] Hi Hj Hk Hl. unfold flat. rewrite Hs. cbn [unravel prod].
  assert (k * q + l < p * q) by nia. assert (j * (p * q) + (k * q + l) < m * (p * q)) by nia.
  replace (i * (m * (p * q)) + j * (p * q) + k * q + l)
    with (i * (m * (p * q)) + (j * (p * q) + (k * q + l))) by lia.
  destruct (dm2 (m * (p * q)) i (j * (p * q) + (k * q + l))) as [-> ->]; [assumption|].
  destruct (dm2 (p * q) j (k * q + l)) as [-> ->]; [assumption|].
  destruct (dm2 q k l Hl) as [-> ->]. now apply Ht.
Qed.
Lemma of_mem_is3 n m p (h : mem) :
  is3 (of_mem [n; m; p] h) n m p (fun i j k => h (i * (m * p) + j * p + k)).
Proof.
  split; [reflexivity|]. intros. cbn [of_mem at_ ravel prod]. f_equal. lia.
Qed.
Lemma of_mem_is2 n m (h : mem) : is2 (of_mem [n; m] h) n m (fun i j => h (i * m + j)).
Proof. split; [reflexivity|]. intros. reflexivity. Qed.

(** [cat (zi.unsqueeze(1), x)]. *)
Lemma init_cat3 (zi x : ten) B N M zf xf : is2 zi B M zf -> is3 x B N M xf ->
  exists o, cat 1 [unsqueeze 1 zi; x] = Ok o /\
    is3 o B (N + 1) M (fun b n m => match n with O => zf b m | S k => xf b k m end).
Proof.
  intros Hz Hx. apply is2_P1 in Hz. apply is3_P2 in Hx. nm (unsqueeze 1 zi). cat2.
  exists w. split; [reflexivity|]. apply is3_P2. fin H0; try lia. intros q n m Hq Hn Hm.
  destruct n; [reflexivity|]. cbn. now rewrite Nat.sub_0_r.
Qed.
Lemma init_cat2 (zi x : ten) B N zf xf : is1 zi B zf -> is2 x B N xf ->
  exists o, cat 1 [unsqueeze 1 zi; x] = Ok o /\
    is2 o B (N + 1) (fun b n => match n with O => zf b | S k => xf b k end).
Proof.
  intros Hz Hx. apply is1_P in Hz. apply is2_P in Hx. nm (unsqueeze 1 zi). cat2.
  exists w. split; [reflexivity|]. apply is2_P. fin H0; try lia. intros q b n Hq Hb Hn.
  destruct n; [reflexivity|]. cbn. now rewrite Nat.sub_0_r.
Qed.
Lemma slice_tail3 (t : ten) B N M f : is3 t B (N + 1) M f ->
  is3 (slice 1 (Some 1%Z) (Some (Z.of_nat (N + 1))) t) B N M (fun b n m => f b (S n) m).
Proof.
  intro H. apply is3_P2 in H. nm (slice 1 (Some 1%Z) (Some (Z.of_nat (N + 1))) t).
  apply is3_P2. fin H0; auto; lia.
Qed.
Lemma slice_tail2 (t : ten) B N f : is2 t B (N + 1) f ->
  is2 (slice 1 (Some 1%Z) (Some (Z.of_nat (N + 1))) t) B N (fun b n => f b (S n)).
Proof.
  intro H. apply is2_P in H. nm (slice 1 (Some 1%Z) (Some (Z.of_nat (N + 1))) t).
  apply is2_P. fin H0; auto; lia.
Qed.

(** Time padding of the coefficient: [at::pad(A, {0,0,0,0,1,0})]. *)
Lemma tpad_s (A : ten) N M g : is3 A N M M g ->
  is3 (pad (rk A - 3) 1 0 r0 A) (N + 1) M M (fun n i j => match n with O => r0 | S k => g k i j end).
Proof.
  intro H. apply is3_P in H. nm (pad (rk A - 3) 1 0 r0 A). apply is3_P. fin H0; try lia.
  intros q n i j Hq Hn Hi Hj. destruct n; [reflexivity|]. cbn [Nat.leb andb].
  bdec. f_equal. lia.
Qed.
Lemma tpad_b (A : ten) B N M g : is4 A B N M M g ->
  is4 (pad (rk A - 3) 1 0 r0 A) B (N + 1) M M (fun b n i j => match n with O => r0 | S k => g b k i j end).
Proof.
  intro H. apply is4_P3 in H. nm (pad (rk A - 3) 1 0 r0 A). apply is4_P3. fin H0; try lia.
  intros q n i j Hq Hn Hi Hj. destruct n; [reflexivity|]. cbn [Nat.leb andb].
  bdec. f_equal. lia.
Qed.

(** ** CPU kernels *)
Lemma lti_cpu_raw B N M (A zi x : ten) Af zf xf :
  matc B M A Af -> is2 zi B M zf -> is3 x B N M xf ->
  exists y, lti_mat_recur_N_order_cpu A zi x = Ok y /\
    is3 y B N M (fun b n m => kstate M (fun _ => Af b) (zf b) (xf b) (S n) m).
Proof.
  intros HA Hz Hx. unfold lti_mat_recur_N_order_cpu.
  destruct (init_cat3 zi x B N M zf xf Hz Hx) as (o & -> & Ho).
  assert (size x 0 = B /\ size x 1 = N /\ size x 2 = M) as (-> & -> & ->)
    by (unfold size; rewrite (proj1 Hx); auto).
  rewrite (i3_rk _ _ _ _ _ Hx). cbn [Nat.leb].
  assert (sizen A 1 = M /\ sizen A 2 = M) as [-> ->].
  { unfold sizen. destruct HA as [g HA _|HA]; unfold rk; rewrite (proj1 HA); auto. }
  rewrite Nat.eqb_refl. cbn [bind].
  assert (((rk A =? 2) || (rk A =? 3)) = true) as ->.
  { destruct HA as [g HA _|HA]; rkt; reflexivity. }
  eexists; split; [reflexivity|].
  rewrite (proj1 Ho).
  eapply is3_ext; [apply slice_tail3, of_mem_is3|]. intros b n m Hb Hn Hm. cbn beta.
  replace (b * ((N + 1) * M)) with (b * (N + 1) * M) by lia. fold (off (N + 1) M b (S n) m).
  assert (forall b t i, b < B -> t < N + 1 -> i < M ->
     flat o (off (N + 1) M b t i) = match t with O => zf b i | S k => xf b k i end) as Ef.
  { intros b' t i Hb' Ht Hi. unfold off. rewrite <- (flat_is3 o B (N + 1) M _ b' t i Ho) by assumption. f_equal. lia. }
  destruct HA as [g HA HAg|HA]; rkt; cbn [Nat.eqb].
  - rewrite gk_lti_share, gk_raw by lia. unfold kref. apply kstate_ext; auto.
    + intros n' i j Hn' Hi Hj. rewrite (flat_is2 A M M g i j HA) by assumption. now rewrite HAg.
    + intros i Hi. now rewrite Ef by lia.
    + intros n' i Hn' Hi. rewrite Ef by lia. now rewrite Nat.add_1_r.
  - rewrite gk_lti_batch, gk_raw by lia. unfold kref. apply kstate_ext; auto.
    + intros n' i j Hn' Hi Hj. rewrite <- (flat_is3 A B M M Af b i j HA) by assumption. f_equal. lia.
    + intros i Hi. now rewrite Ef by lia.
    + intros n' i Hn' Hi. rewrite Ef by lia. now rewrite Nat.add_1_r.
Qed.

Lemma lpv_cpu_raw B N M (A zi x : ten) Af zf xf :
  matv B N M A Af -> is2 zi B M zf -> is3 x B N M xf ->
  exists y, mat_recur_N_order_cpu_omp A zi x = Ok y /\
    is3 y B N M (fun b n m => kstate M (Af b) (zf b) (xf b) (S n) m).
Proof.
  intros HA Hz Hx. unfold mat_recur_N_order_cpu_omp.
  destruct (init_cat3 zi x B N M zf xf Hz Hx) as (o & -> & Ho).
  assert (size x 0 = B /\ size x 1 = N /\ size x 2 = M) as (-> & -> & ->)
    by (unfold size; rewrite (proj1 Hx); auto).
  rewrite (i3_rk _ _ _ _ _ Hx). cbn [Nat.leb].
  assert (sizen A 1 = M /\ sizen A 2 = M) as [-> ->].
  { unfold sizen. destruct HA as [g HA _|HA]; unfold rk; rewrite (proj1 HA); auto. }
  rewrite Nat.eqb_refl. cbn [bind].
  assert (((rk A =? 3) || (rk A =? 4)) = true) as ->.
  { destruct HA as [g HA _|HA]; rkt; reflexivity. }
  eexists; split; [reflexivity|].
  rewrite (proj1 Ho).
  eapply is3_ext; [apply slice_tail3, of_mem_is3|]. intros b n m Hb Hn Hm. cbn beta.
  replace (b * ((N + 1) * M)) with (b * (N + 1) * M) by lia. fold (off (N + 1) M b (S n) m).
  assert (forall b t i, b < B -> t < N + 1 -> i < M ->
     flat o (off (N + 1) M b t i) = match t with O => zf b i | S k => xf b k i end) as Ef.
  { intros b' t i Hb' Ht Hi. unfold off. rewrite <- (flat_is3 o B (N + 1) M _ b' t i Ho) by assumption. f_equal. lia. }
  destruct HA as [g HA HAg|HA].
  - pose proof (tpad_s A N M g HA) as HP. set (P := pad (rk A - 3) 1 0 r0 A) in *. clearbody P.
    rkt; cbn [Nat.eqb].
    rewrite gk_share, gk_raw by lia. unfold kref. apply kstate_ext; auto.
    + intros n' i j Hn' Hi Hj.
      replace ((n' + 1) * M * M + i * M + j) with (S n' * (M * M) + i * M + j) by lia.
      rewrite (flat_is3 P (N + 1) M M _ (S n') i j HP) by lia. now rewrite HAg by lia.
    + intros i Hi. now rewrite Ef by lia.
    + intros n' i Hn' Hi. rewrite Ef by lia. now rewrite Nat.add_1_r.
  - pose proof (tpad_b A B N M Af HA) as HP. set (P := pad (rk A - 3) 1 0 r0 A) in *. clearbody P.
    rkt; cbn [Nat.eqb].
    rewrite gk_batch, gk_raw by lia. unfold kref. apply kstate_ext; auto.
    + intros n' i j Hn' Hi Hj.
      replace (b * (N + 1) * M * M + (n' + 1) * M * M + i * M + j)
        with (b * ((N + 1) * (M * M)) + S n' * (M * M) + i * M + j) by lia.
      now rewrite (flat_is4 P B (N + 1) M M _ b (S n') i j HP) by lia.
    + intros i Hi. now rewrite Ef by lia.
    + intros n' i Hn' Hi. rewrite Ef by lia. now rewrite Nat.add_1_r.
Qed.

Lemma loop_ext {S : Type} n (f g : nat -> S -> S) s :
  (forall k s, k < n -> f k s = g k s) -> loop n f s = loop n g s.
Proof.
  induction n as [|n IH]; intro H; cbn [loop]; [reflexivity|]. rewrite IH by auto. apply H. lia.
Qed.

(** The scalar recurrence as the kernels evaluate it. *)
Fixpoint klin (a h : R) (x : nat -> R) (n : nat) : R :=
  match n with O => h | S k => radd (x k) (rmul a (klin a h x k)) end.
Lemma klin_ext (a : R) h h' x x' n : h = h' -> (forall k, k < n -> x k = x' k) -> klin a h x n = klin a h' x' n.
Proof. intros -> Hx. induction n as [|n IH]; cbn [klin]; [reflexivity|]. rewrite IH by auto. now rewrite Hx by lia. Qed.
(** Same invariant as [gk_spec], for the scalar loop nest. *)
Definition gk1 (B T : nat) (c : nat -> R) (o : mem) : mem :=
  loop B (fun b out =>
    loop (T - 1) (fun t0 out =>
      st out (b * T + (t0 + 1)) (radd (out (b * T + (t0 + 1))) (rmul (c b) (out (b * T + (t0 + 1 - 1))))))
    out) o.
Definition kref1 (T : nat) (c : nat -> R) (H0 : mem) (b t : nat) : R :=
  klin (c b) (H0 (b * T)) (fun n => H0 (b * T + (n + 1))) t.
Definition Inv1 (B T : nat) c (H0 : mem) (b t : nat) (H : mem) : Prop :=
  (forall b' t', b' < B -> t' < T -> b' < b \/ (b' = b /\ t' < t) \/ t' = 0 ->
     H (b' * T + t') = kref1 T c H0 b' t') /\
  (forall b' t', b' < B -> t' < T -> b < b' \/ (b' = b /\ t <= t') ->
     H (b' * T + t') = H0 (b' * T + t')).
Lemma gk1_raw B T c H0 b t : 1 <= T -> b < B -> t < T ->
  gk1 B T c H0 (b * T + t) = kref1 T c H0 b t.
Proof.
  intros HT Hb Ht.
  assert (Inv1 B T c H0 B 0 (gk1 B T c H0)) as [I _]; [|apply I; auto].
  unfold gk1. apply (loop_inv (fun b H => Inv1 B T c H0 b 0 H)).
  { split; intros b' t' Hb' Ht' Hc; auto. assert (t' = 0) by lia. subst. now rewrite Nat.add_0_r. }
  intros b1 H1 Hb1 I1.
  match goal with |- Inv1 _ _ _ _ _ _ ?l => assert (Inv1 B T c H0 b1 (T - 1 + 1) l) as I2 end.
  2:{ destruct I2 as [Ia Ib]. split; intros b' t' Hb' Ht' Hc; [apply Ia|apply Ib]; auto; lia. }
  apply (loop_inv (fun t0 H => Inv1 B T c H0 b1 (t0 + 1) H)).
  { destruct I1 as [Ia Ib]. split; intros b' t' Hb' Ht' Hc; [apply Ia|apply Ib]; auto; lia. }
  intros t0 H2 Ht0 [Ia Ib].
  split; intros b' t' Hb' Ht' Hc; unfold st;
    destruct (Nat.eqb_spec (b' * T + t') (b1 * T + (t0 + 1))) as [E|E].
  - apply mixed_inj in E as (-> & ->); try lia. rewrite Ib by lia.
    replace (t0 + 1 - 1) with t0 by lia. rewrite Ia by lia. rewrite Nat.add_1_r. unfold kref1.
    cbn [klin]. now rewrite Nat.add_1_r.
  - apply Ia; auto. destruct (Nat.eq_dec b' b1) as [->|]; [|lia].
    destruct (Nat.eq_dec t' (t0 + 1)) as [->|]; [congruence|lia].
  - apply mixed_inj in E as (-> & ->); lia.
  - apply Ib; auto; lia.
Qed.

Lemma lti_recur_dispatch B (a : ten) af : coef B a af -> 1 <= B ->
  (rk a <=? 1) = true /\
  ((rk a =? 1) && (numel a =? B) = true /\ (forall b, b < B -> flat a b = af b) \/
   (rk a =? 1) && (numel a =? B) = false /\ (numel a =? 1) = true /\ (forall b, b < B -> flat a 0 = af b)).
Proof.
  intros Ha HB. destruct Ha as [v Ha E|g Ha E|Ha]; rkt; unfold numel; rewrite (proj1 Ha);
    cbn [prod Nat.eqb Nat.leb andb]; (split; [reflexivity|]).
  - right. repeat split; auto. intros b Hb. rewrite (flat_is0 _ _ _ Ha). now rewrite E.
  - destruct (Nat.eq_dec 1 B) as [<-|EB].
    + left. split; [reflexivity|]. intros b Hb. replace b with 0 by lia.
      rewrite (flat_is1 _ _ _ _ Ha) by lia. rewrite E; auto; lia.
    + right. split; [destruct B as [|[|B]]; try lia; reflexivity|]. split; [reflexivity|]. intros b Hb.
      rewrite (flat_is1 _ _ _ _ Ha) by lia. now rewrite E.
  - left. rewrite Nat.eqb_refl. split; [reflexivity|]. intros b Hb. now apply (flat_is1 _ _ _ _ Ha).
Qed.

Lemma lti_recur_cpu_raw B N (a zi x : ten) af zf xf :
  1 <= B -> coef B a af -> is1 zi B zf -> is2 x B N xf ->
  exists y, lti_recur_cpu a zi x = Ok y /\
    is2 y B N (fun b n => klin (af b) (zf b) (xf b) (S n)).
Proof.
  intros HB Ha Hz Hx. unfold lti_recur_cpu.
  destruct (lti_recur_dispatch B a af Ha HB) as (-> & Hd).
  rewrite (i1_rk _ _ _ Hz), (i2_rk _ _ _ _ Hx). cbn [Nat.eqb Nat.leb].
  destruct (init_cat2 zi x B N zf xf Hz Hx) as (o & -> & Ho). cbn [bind].
  assert (size x 0 = B /\ size x 1 = N) as (-> & ->) by (unfold size; rewrite (proj1 Hx); auto).
  assert (size o 1 = N + 1) as -> by (unfold size; now rewrite (proj1 Ho)).
  assert (G : forall c, (forall b, b < B -> c b = af b) ->
    is2 (slice 1 (Some 1%Z) (Some (Z.of_nat (N + 1))) (of_mem (shape o) (gk1 B (N + 1) c (flat o)))) B N
      (fun b n => klin (af b) (zf b) (xf b) (S n))).
  { intros c Hc. rewrite (proj1 Ho). eapply is2_ext; [apply slice_tail2, of_mem_is2|].
    intros b n Hb Hn. cbn beta. rewrite gk1_raw by lia. unfold kref1. rewrite (Hc b) by assumption. apply klin_ext.
    - rewrite <- (Nat.add_0_r (b * (N + 1))). now rewrite (flat_is2 o B (N + 1) _ b 0 Ho) by lia.
    - intros k Hk. rewrite (flat_is2 o B (N + 1) _ b (k + 1) Ho) by lia. now rewrite Nat.add_1_r. }
  destruct Hd as [(-> & Hf)|(-> & -> & Hf)]; cbn [bind]; (eexists; split; [reflexivity|]).
  - apply G. auto.
  - change (host_lti_shared_linear_recurrence B (N + 1) (flat a 0) (flat o)) with
      (gk1 B (N + 1) (fun _ => flat a 0) (flat o)). apply G. auto.
Qed.

End Raw.
Arguments klin {R}.

Section S.
Variable R : cring.
Add Ring Rr : (r_th R).
Notation mem := (nat -> R).
Notation ten := (tensor (car R)).
Lemma klin_lin_rec (a h : R) x n : klin a h x n = lin_rec (fun _ => a) h x n.
Proof. induction n as [|n IH]; [reflexivity|]. cbn [klin lin_rec]. rewrite IH. ring. Qed.

Lemma lti_cpu_spec B N M (A zi x : ten) Af zf xf :
  matc B M A Af -> is2 zi B M zf -> is3 x B N M xf ->
  exists y, lti_mat_recur_N_order_cpu A zi x = Ok y /\
    is3 y B N M (fun b n m => state M (fun _ => Af b) (zf b) (xf b) (S n) m).
Proof.
  intros HA Hz Hx. destruct (lti_cpu_raw R B N M A zi x Af zf xf HA Hz Hx) as (y & E & Hy).
  exists y. split; [exact E|]. eapply is3_ext; [exact Hy|]. intros. apply kstate_state.
Qed.
Lemma lpv_cpu_spec B N M (A zi x : ten) Af zf xf :
  matv B N M A Af -> is2 zi B M zf -> is3 x B N M xf ->
  exists y, mat_recur_N_order_cpu_omp A zi x = Ok y /\
    is3 y B N M (fun b n m => state M (Af b) (zf b) (xf b) (S n) m).
Proof.
  intros HA Hz Hx. destruct (lpv_cpu_raw R B N M A zi x Af zf xf HA Hz Hx) as (y & E & Hy).
  exists y. split; [exact E|]. eapply is3_ext; [exact Hy|]. intros. apply kstate_state.
Qed.
Lemma lti_recur_cpu_spec B N (a zi x : ten) af zf xf :
  1 <= B -> coef B a af -> is1 zi B zf -> is2 x B N xf ->
  exists y, lti_recur_cpu a zi x = Ok y /\
    is2 y B N (fun b n => lin_rec (fun _ => af b) (zf b) (xf b) (S n)).
Proof.
  intros HB Ha Hz Hx. destruct (lti_recur_cpu_raw R B N a zi x af zf xf HB Ha Hz Hx) as (y & E & Hy).
  exists y. split; [exact E|]. eapply is2_ext; [exact Hy|]. intros. apply klin_lin_rec.
Qed.

(** The scalar loops are the matrix loops of order one. *)
Lemma lin_rec_state (a : nat -> R) h x n :
  lin_rec a h x n = state 1 (fun n _ _ => a n) (fun _ => h) (fun n _ => x n) n 0.
Proof.
  induction n as [|n IH]; [reflexivity|]. cbn [lin_rec state]. rewrite IH.
  unfold mvec. cbn [bsum]. ring.
Qed.

Definition ref1 (T : nat) (c : nat -> R) (H0 : mem) (b t : nat) : R :=
  lin_rec (fun _ => c b) (H0 (b * T)) (fun n => H0 (b * T + (n + 1))) t.
Lemma gk1_spec B T c H0 b t : 1 <= T -> b < B -> t < T ->
  gk1 R B T c H0 (b * T + t) = ref1 T c H0 b t.
Proof. intros. rewrite gk1_raw by assumption. apply klin_lin_rec. Qed.

End S.
