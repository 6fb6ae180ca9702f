(** Parallel scans (CUDA kernels, unregistered host kernels) and Helion tiles. *)
From Coq Require Import List Arith Lia ZArith Bool Ring.
From Verif Require Import Scalar Tensor TensorLemmas TensorOps TensorAlg TensorTac TensorList
  Spec Shapes Algebra M_Kernels P_Kernels P_KernelOps P_Kernels2.
Import ListNotations.

(** ** Over any operations: what the device scans compute *)
Section Raw.
Variable R : cops.
Notation mem := (nat -> R).
Notation ten := (tensor (car R)).
Definition m1 (e : R * R) (i j : nat) : R := fst e.
Definition v1 (e : R * R) (i : nat) : R := snd e.
Definition m2 (e : sqm2 R) (i j : nat) : R :=
  match i, j with 0, 0 => q_a e | 0, _ => q_b e | _, 0 => q_c e | _, _ => q_d e end.
Definition v2 (e : sqm2 R) (i : nat) : R := match i with 0 => q_e e | _ => q_f e end.
Definition mN (n : nat) (e : nat -> R) (i j : nat) : R := e (i * n + j).
Definition vN (n : nat) (e : nat -> R) (i : nat) : R := e (n * n + i).
Definition leaf2 (A : nat -> nat -> R) (v : nat -> R) : sqm2 R :=
  mkS (A 0 0) (A 0 1) (A 1 0) (A 1 1) (v 0) (v 1).
Lemma m2_leaf2 A v i j : i < 2 -> j < 2 -> m2 (leaf2 A v) i j = A i j.
Proof. intros. destruct i as [|[|i]], j as [|[|j]]; try lia; reflexivity. Qed.
Lemma v2_leaf2 A v i : i < 2 -> v2 (leaf2 A v) i = v i.
Proof. intros. destruct i as [|[|i]]; try lia; reflexivity. Qed.
Lemma sqm2_eq (a b : sqm2 R) : (forall i j, i < 2 -> j < 2 -> m2 a i j = m2 b i j) ->
  (forall i, i < 2 -> v2 a i = v2 b i) -> a = b.
Proof.
  intros Hm Hv. pose proof (Hm 0 0). pose proof (Hm 0 1). pose proof (Hm 1 0). pose proof (Hm 1 1).
  pose proof (Hv 0). pose proof (Hv 1). destruct a, b. cbn in *. f_equal; auto.
Qed.
Lemma key_segment T b t : t < T -> (b * T + t) / T = b /\ (b * T + t) mod T = t.
Proof. apply dm2. Qed.

Lemma lti_recur_cuda_raw e B N (a zi x : ten) af zf xf :
  env_ok e -> 1 <= B -> coef B a af -> is1 zi B zf -> is2 x B N xf ->
  exists y, lti_recur_cuda e a zi x = Ok y /\
    is2 y B N (fun b n => snd (tev recur_binary_op (par e (S n)) (fun k => match k with O => (r0, zf b) | S k => (af b, xf b k) end))).
Proof.
  intros [He _] HB Ha Hz Hx. unfold lti_recur_cuda.
  destruct (lti_recur_dispatch R B a af Ha HB) as (-> & Hd).
  rewrite (i1_rk _ _ _ Hz), (i2_rk _ _ _ _ Hx). cbn [Nat.eqb Nat.leb].
  destruct (init_cat2 R zi x B N zf xf Hz Hx) as (o & -> & Ho). cbn [bind].
  assert (size x 0 = B /\ size x 1 = N) as (-> & ->) by (unfold size; rewrite (proj1 Hx); auto).
  assert (size o 1 = N + 1) as -> by (unfold size; now rewrite (proj1 Ho)).
  assert (G : forall inp : nat -> R -> R * R,
    (forall b v, b < B -> inp (b * (N + 1)) v = (r0, v)) ->
    (forall b k v, b < B -> S k < N + 1 -> inp (b * (N + 1) + S k) v = (af b, v)) ->
    is2 (slice 1 (Some 1%Z) (Some (Z.of_nat (N + 1))) (of_mem (shape o)
           (fun i => snd (scan_by_key e recur_binary_op (N + 1) (fun i => inp i (flat o i)) i)))) B N
      (fun b n => snd (tev recur_binary_op (par e (S n)) (fun k => match k with O => (r0, zf b) | S k => (af b, xf b k) end)))).
  { intros inp H0 H1. rewrite (proj1 Ho). eapply is2_ext; [apply slice_tail2, of_mem_is2|].
    intros b n Hb Hn. cbn beta. unfold scan_by_key.
    destruct (key_segment (N + 1) b (S n) ltac:(lia)) as [-> ->].
    f_equal. apply tev_agree. intros k Hk. rewrite He in Hk. destruct k as [|k].
    - rewrite Nat.add_0_r, H0 by lia. f_equal.
      rewrite <- (Nat.add_0_r (b * (N + 1))). now rewrite (flat_is2 R o B (N + 1) _ b 0 Ho) by lia.
    - rewrite H1 by lia. f_equal. now rewrite (flat_is2 R o B (N + 1) _ b (S k) Ho) by lia. }
  destruct Hd as [(-> & Hf)|(-> & -> & Hf)]; cbn [bind]; (eexists; split; [reflexivity|]); apply G.
  - intros b v Hb. unfold lti_batch_recur_input_op. rewrite <- (Nat.add_0_r (b * (N + 1))).
    destruct (key_segment (N + 1) b 0 ltac:(lia)) as [_ ->]. reflexivity.
  - intros b k v Hb Hk. unfold lti_batch_recur_input_op.
    destruct (key_segment (N + 1) b (S k) ltac:(lia)) as [-> ->]. cbn [Nat.ltb Nat.leb]. now rewrite Hf.
  - intros b v Hb. unfold lti_shared_recur_input_op. rewrite <- (Nat.add_0_r (b * (N + 1))).
    destruct (key_segment (N + 1) b 0 ltac:(lia)) as [_ ->]. reflexivity.
  - intros b k v Hb Hk. unfold lti_shared_recur_input_op.
    destruct (key_segment (N + 1) b (S k) ltac:(lia)) as [_ ->]. cbn [Nat.ltb Nat.leb]. now rewrite (Hf b).
Qed.

(** Transposed buffers. *)
Lemma transposed_at k total (m : mem) c i : i < total -> transposed k total m (c * total + i) = m (i * k + c).
Proof. intro Hi. unfold transposed. now destruct (dm2 total c i Hi) as [-> ->]. Qed.
Lemma transposed_at0 k total (m : mem) i : i < total -> transposed k total m i = m (i * k).
Proof. intro Hi. pose proof (transposed_at k total m 0 i Hi) as E. cbn [Nat.mul Nat.add] in E. now rewrite E, Nat.add_0_r. Qed.

(** The common shape of the second-order CUDA operators: any input operator that
    yields a zero matrix at the start of each row. *)
Lemma scan2_raw e B N (o : ten) (inp : nat -> R -> R -> sqm2 R) (Af : nat -> nat -> nat -> nat -> R) zf xf :
  env_ok e ->
  is3 o B (N + 1) 2 (fun b n m => match n with O => zf b m | S k => xf b k m end) ->
  (forall b p q, b < B -> forall i j, i < 2 -> j < 2 -> m2 (inp (b * (N + 1)) p q) i j = r0) ->
  (forall b k p q, b < B -> S k < N + 1 -> forall i j, i < 2 -> j < 2 ->
     m2 (inp (b * (N + 1) + S k) p q) i j = Af b k i j) ->
  (forall i p q, q_e (inp i p q) = p /\ q_f (inp i p q) = q) ->
  let total := B * (N + 1) in
  let xt := transposed 2 total (flat o) in
  let input i := inp i (xt i) (xt (total + i)) in
  let out p := if p <? total then q_e (scan_by_key e recur2_binary_op (N + 1) input p)
               else q_f (scan_by_key e recur2_binary_op (N + 1) input (p - total)) in
  is3 (slice 1 (Some 1%Z) (Some (Z.of_nat (N + 1)))
        (of_mem [B; N + 1; 2] (untransposed 2 total out))) B N 2
    (fun b n m => v2 (tev recur2_binary_op (par e (S n)) (fun k => leaf2 (match k with O => fun _ _ => r0 | S k => Af b k end) (match k with O => zf b | S k => xf b k end))) m).
Proof.
  intros [He _] Ho H0 H1 Hx total xt input out.
  eapply is3_ext; [apply slice_tail3, of_mem_is3|]. intros b n m Hb Hn Hm. cbn beta.
  set (P := b * (N + 1) + S n). assert (P < total) by (unfold P, total; nia).
  replace (b * ((N + 1) * 2) + S n * 2 + m) with (P * 2 + m) by (unfold P; nia).
  unfold untransposed. destruct (dm2 2 P m Hm) as [-> ->].
  assert (E : out (m * total + P) = v2 (scan_by_key e recur2_binary_op (N + 1) input P) m).
  { unfold out. destruct m as [|[|m]]; try lia.
    - cbn [Nat.mul Nat.add]. destruct (Nat.ltb_spec P total); [reflexivity|lia].
    - rewrite Nat.mul_1_l. destruct (Nat.ltb_spec (total + P) total); [lia|].
      replace (total + P - total) with P by lia. reflexivity. }
  rewrite E. unfold scan_by_key, P. destruct (key_segment (N + 1) b (S n) ltac:(lia)) as [-> ->].
  assert (Ex : forall k i, k < N + 1 -> i < 2 ->
      v2 (input (b * (N + 1) + k)) i = match k with O => zf b i | S k => xf b k i end).
    { intros k i Hk Hi. unfold v2, input.
      assert (b * (N + 1) + k < total) by (unfold total; nia).
      destruct (Hx (b * (N + 1) + k) (xt (b * (N + 1) + k)) (xt (total + (b * (N + 1) + k)))) as [-> ->].
      destruct i as [|[|i]]; try lia.
      - unfold xt. rewrite transposed_at0 by assumption.
        rewrite <- (flat_is3 R o B (N + 1) 2 _ b k 0 Ho) by lia. f_equal. lia.
      - unfold xt. rewrite <- (Nat.mul_1_l total) at 2. rewrite transposed_at by assumption.
        rewrite <- (flat_is3 R o B (N + 1) 2 _ b k 1 Ho) by lia. f_equal. lia. }
  f_equal. apply tev_agree. intros k Hk. rewrite He in Hk.
  apply sqm2_eq.
  - intros i j Hi Hj. destruct k as [|k].
    + rewrite m2_leaf2 by assumption. rewrite Nat.add_0_r. apply H0; auto.
    + rewrite m2_leaf2 by assumption. unfold input. apply H1; auto; lia.
  - intros i Hi. rewrite v2_leaf2, Ex by lia. destruct k; reflexivity.
Qed.

Lemma lti2_cuda_raw e B N (A zi x : ten) Af zf xf :
  env_ok e -> matc B 2 A Af -> is2 zi B 2 zf -> is3 x B N 2 xf ->
  exists y, lti_mat_recur_second_order_cuda e A zi x = Ok y /\
    is3 y B N 2 (fun b n m => v2 (tev recur2_binary_op (par e (S n)) (fun k => leaf2 (match k with O => fun _ _ => r0 | S k => Af b end) (match k with O => zf b | S k => xf b k end))) m).
Proof.
  intros He HA Hz Hx. unfold lti_mat_recur_second_order_cuda.
  destruct (init_cat3 R zi x B N 2 zf xf Hz Hx) as (o & -> & Ho).
  assert (size x 0 = B /\ size x 1 = N /\ size x 2 = 2) as (-> & -> & ->)
    by (unfold size; rewrite (proj1 Hx); auto).
  rewrite (i3_rk _ _ _ _ _ Hx). cbn [Nat.leb].
  assert (sizen A 1 = 2 /\ sizen A 2 = 2) as [-> ->].
  { unfold sizen. destruct HA as [g HA _|HA]; unfold rk; rewrite (proj1 HA); auto. }
  assert (((rk A =? 2) || (rk A =? 3)) = true) as ->.
  { destruct HA as [g HA _|HA]; rkt; reflexivity. }
  cbn [Nat.eqb andb bind]. eexists; split; [reflexivity|].
  destruct HA as [g HA HAg|HA]; rkt; cbn [Nat.eqb].
  - apply (scan2_raw e B N o (fun i p q => lti_share_A_input_op (flat A) (N + 1) i p q)
             (fun b _ => Af b) zf xf He Ho).
    + intros b p q Hb i j Hi Hj. unfold lti_share_A_input_op. rewrite <- (Nat.add_0_r (b * (N + 1))).
      destruct (key_segment (N + 1) b 0 ltac:(lia)) as [_ ->]. cbn.
      destruct i as [|i], j as [|j]; reflexivity.
    + intros b k p q Hb Hk i j Hi Hj. unfold lti_share_A_input_op.
      destruct (key_segment (N + 1) b (S k) ltac:(lia)) as [_ ->]. cbn [Nat.ltb Nat.leb].
      rewrite HAg by assumption. rewrite <- (flat_is2 R A 2 2 g i j HA) by assumption.
      destruct i as [|[|i]]; try lia; destruct j as [|[|j]]; try lia; reflexivity.
    + intros i p q. unfold lti_share_A_input_op. destruct (0 <? i mod (N + 1)); auto.
  - apply (scan2_raw e B N o (fun i p q => lti_batch_A_input_op (flat A) (N + 1) i p q)
             (fun b _ => Af b) zf xf He Ho).
    + intros b p q Hb i j Hi Hj. unfold lti_batch_A_input_op. rewrite <- (Nat.add_0_r (b * (N + 1))).
      destruct (key_segment (N + 1) b 0 ltac:(lia)) as [_ ->]. cbn.
      destruct i as [|i], j as [|j]; reflexivity.
    + intros b k p q Hb Hk i j Hi Hj. unfold lti_batch_A_input_op.
      destruct (key_segment (N + 1) b (S k) ltac:(lia)) as [-> ->]. cbn [Nat.ltb Nat.leb].
      rewrite <- (flat_is3 R A B 2 2 Af b i j HA) by assumption.
      destruct i as [|[|i]]; try lia; destruct j as [|[|j]]; try lia; cbn [m2 q_a q_b q_c q_d]; f_equal; lia.
    + intros i p q. unfold lti_batch_A_input_op. destruct (0 <? i mod (N + 1)); auto.
Qed.

Lemma numel3 (t : ten) a b c f : is3 t a b c f -> numel t = a * (b * c).
Proof. intros [Hs _]. unfold numel. now rewrite Hs. Qed.
Lemma numel4 (t : ten) a b c d f : is4 t a b c d f -> numel t = a * (b * (c * d)).
Proof. intros [Hs _]. unfold numel. now rewrite Hs. Qed.

Lemma lpv2_cuda_raw e B N (A zi x : ten) Af zf xf :
  env_ok e -> matv B N 2 A Af -> is2 zi B 2 zf -> is3 x B N 2 xf ->
  exists y, mat_recur_second_order_cuda e A zi x = Ok y /\
    is3 y B N 2 (fun b n m => v2 (tev recur2_binary_op (par e (S n)) (fun k => leaf2 (match k with O => fun _ _ => r0 | S k => Af b k end) (match k with O => zf b | S k => xf b k end))) m).
Proof.
  intros He HA Hz Hx. unfold mat_recur_second_order_cuda.
  destruct (init_cat3 R zi x B N 2 zf xf Hz Hx) as (o & -> & Ho).
  assert (size x 0 = B /\ size x 1 = N /\ size x 2 = 2) as (-> & -> & ->)
    by (unfold size; rewrite (proj1 Hx); auto).
  rewrite (i3_rk _ _ _ _ _ Hx). cbn [Nat.leb].
  assert (sizen A 1 = 2 /\ sizen A 2 = 2) as [-> ->].
  { unfold sizen. destruct HA as [g HA _|HA]; unfold rk; rewrite (proj1 HA); auto. }
  assert (((rk A =? 3) || (rk A =? 4)) = true) as ->.
  { destruct HA as [g HA _|HA]; rkt; reflexivity. }
  cbn [Nat.eqb andb bind]. eexists; split; [reflexivity|].
  destruct HA as [g HA HAg|HA].
  - pose proof (tpad_s R A N 2 g HA) as HP. set (P := pad (rk A - 3) 1 0 r0 A) in *. clearbody P.
    rkt; cbn [Nat.eqb].
    assert (numel P / 4 = N + 1) as ->.
    { rewrite (numel3 _ _ _ _ _ HP). change (2 * 2) with 4. apply Nat.div_mul. lia. }
    set (At := transposed 4 (N + 1) (flat P)).
    assert (HAt : forall k i j, k < N + 1 -> i < 2 -> j < 2 ->
      At ((i * 2 + j) * (N + 1) + k) = match k with O => r0 | S k => g k i j end).
    { intros k i j Hk Hi Hj. unfold At. rewrite transposed_at by assumption.
      rewrite <- (flat_is3 R P (N + 1) 2 2 _ k i j HP) by assumption. f_equal. lia. }
    assert (E : forall k p q i j, k < N + 1 -> i < 2 -> j < 2 -> forall b,
       m2 (share_A_input_op At (N + 1) (b * (N + 1) + k) p q) i j = match k with O => r0 | S k => g k i j end).
    { intros k p q i j Hk Hi Hj b. unfold share_A_input_op.
      destruct (key_segment (N + 1) b k Hk) as [_ ->]. rewrite <- HAt by assumption.
      destruct i as [|[|i]]; try lia; destruct j as [|[|j]]; try lia; cbn [m2 q_a q_b q_c q_d]; f_equal; lia. }
    apply (scan2_raw e B N o (fun i p q => share_A_input_op At (N + 1) i p q) Af zf xf He Ho).
    + intros b p q Hb i j Hi Hj. rewrite <- (Nat.add_0_r (b * (N + 1))). rewrite E by lia. reflexivity.
    + intros b k p q Hb Hk i j Hi Hj. rewrite E by lia. rewrite HAg by lia. reflexivity.
    + intros i p q. auto.
  - pose proof (tpad_b R A B N 2 Af HA) as HP. set (P := pad (rk A - 3) 1 0 r0 A) in *. clearbody P.
    rkt; cbn [Nat.eqb].
    assert (numel P / 4 = B * (N + 1)) as ->.
    { rewrite (numel4 _ _ _ _ _ _ HP). change (2 * 2) with 4. rewrite Nat.mul_assoc. apply Nat.div_mul. lia. }
    set (At := transposed 4 (B * (N + 1)) (flat P)).
    set (total := B * (N + 1)) in *.
    assert (E : forall b k p q i j, b < B -> k < N + 1 -> i < 2 -> j < 2 ->
       m2 (mkS (At (b * (N + 1) + k)) (At (total + (b * (N + 1) + k))) (At (total * 2 + (b * (N + 1) + k)))
               (At (total * 3 + (b * (N + 1) + k))) p q) i j
       = match k with O => r0 | S k => Af b k i j end).
    { intros b k p q i j Hb Hk Hi Hj.
      assert (b * (N + 1) + k < total) by (unfold total; nia).
      assert (HAt : At ((i * 2 + j) * total + (b * (N + 1) + k)) = match k with O => r0 | S k => Af b k i j end).
      { unfold At. rewrite transposed_at by assumption.
        rewrite <- (flat_is4 R P B (N + 1) 2 2 _ b k i j HP) by assumption. f_equal. lia. }
      rewrite <- HAt.
      destruct i as [|[|i]]; try lia; destruct j as [|[|j]]; try lia; cbn [m2 q_a q_b q_c q_d]; f_equal; lia. }
    apply (scan2_raw e B N o
      (fun i p q => mkS (At i) (At (total + i)) (At (total * 2 + i)) (At (total * 3 + i)) p q) Af zf xf He Ho).
    + intros b p q Hb i j Hi Hj. rewrite <- (Nat.add_0_r (b * (N + 1))). rewrite E by lia. reflexivity.
    + intros b k p q Hb Hk i j Hi Hj. rewrite E by lia. reflexivity.
    + intros i p q. auto.
Qed.

End Raw.
Arguments m1 {R}. Arguments v1 {R}. Arguments m2 {R}. Arguments v2 {R}. Arguments mN {R}. Arguments vN {R}. Arguments leaf2 {R}.

Section S.
Variable R : cring.
Add Ring Rr : (r_th R).
Notation mem := (nat -> R).
Notation ten := (tensor (car R)).

Lemma state_split N A h (u : nat -> nat -> R) m n i : (i < N)%nat ->
  state N A h u (m + n) i = state N (fun k => A (m + k)%nat) (state N A h u m) (fun k => u (m + k)%nat) n i.
Proof.
  revert i. induction n as [|n IH]; intros i Hi.
  - now rewrite Nat.add_0_r.
  - rewrite Nat.add_succ_r. cbn [state]. f_equal. apply mvec_ext; auto.
Qed.

(** ** Any parenthesisation of a scan with an affine-map operator *)
Section Scan.
Variables (X : Type) (op : X -> X -> X) (N : nat) (Xm : X -> nat -> nat -> R) (Xv : X -> nat -> R).
Hypothesis hom_m : forall a b i j, i < N -> j < N -> Xm (op a b) i j = mmul N (Xm b) (Xm a) i j.
Hypothesis hom_v : forall a b i, i < N -> Xv (op a b) i = radd (mvec N (Xm b) (Xv a) i) (Xv b i).

Lemma tev_act t : forall f s i, i < N ->
  radd (mvec N (Xm (tev op t f)) s i) (Xv (tev op t f) i) =
  state N (fun n => Xm (f n)) s (fun n => Xv (f n)) (leaves t) i.
Proof.
  induction t as [|l IHl r IHr]; intros f s i Hi; cbn [tev leaves]; [reflexivity|].
  rewrite state_split by assumption. rewrite <- IHr by assumption. rewrite hom_v by assumption.
  rewrite (mvec_ext N _ (mmul N (Xm (tev op r (fun k => f (leaves l + k)))) (Xm (tev op l f))) s s)
    by (auto; intros; now apply hom_m).
  rewrite mvec_mmul.
  rewrite (mvec_ext N (Xm (tev op r (fun k => f (leaves l + k)))) (Xm (tev op r (fun k => f (leaves l + k))))
     (state N (fun n => Xm (f n)) s (fun n => Xv (f n)) (leaves l))
     (fun i => radd (mvec N (Xm (tev op l f)) s i) (Xv (tev op l f) i))).
  - rewrite mvec_add. ring.
  - auto.
  - intros k Hk. symmetry. now apply IHl.
Qed.

Lemma tev_state t f m k i : leaves t = m + S k -> i < N ->
  (forall i j, i < N -> j < N -> Xm (f m) i j = r0) ->
  Xv (tev op t f) i =
  state N (fun n => Xm (f (m + S n))) (Xv (f m)) (fun n => Xv (f (m + S n))) k i.
Proof.
  intros Hl Hi H0. pose proof (tev_act t f (fun _ => r0) i Hi) as E. rewrite mvec_0 in E.
  transitivity (radd r0 (Xv (tev op t f) i)); [ring|]. rewrite E, Hl.
  replace (m + S k) with (S m + k) by lia. rewrite state_split by assumption.
  apply state_ext; auto.
  - intros. now replace (S m + k0) with (m + S k0) by lia.
  - intros i' Hi'. cbn [state]. unfold mvec. rewrite bsum_0; [ring|]. intros j Hj. rewrite H0 by assumption. ring.
  - intros. now replace (S m + k0) with (m + S k0) by lia.
Qed.
End Scan.

(** ** The three operators *)
Lemma op1_m (a b : R * R) i j : i < 1 -> j < 1 -> m1 (recur_binary_op a b) i j = mmul 1 (m1 b) (m1 a) i j.
Proof. intros. destruct a, b. unfold m1, mmul. cbn. ring. Qed.
Lemma op1_v (a b : R * R) i : i < 1 -> v1 (recur_binary_op a b) i = radd (mvec 1 (m1 b) (v1 a) i) (v1 b i).
Proof. intros. destruct a, b. unfold m1, v1, mvec. cbn. ring. Qed.

Lemma op2_m (a b : sqm2 R) i j : i < 2 -> j < 2 -> m2 (recur2_binary_op a b) i j = mmul 2 (m2 b) (m2 a) i j.
Proof.
  intros Hi Hj. destruct a, b. unfold mmul.
  destruct i as [|[|i]]; try lia; destruct j as [|[|j]]; try lia; cbn; ring.
Qed.
Lemma op2_v (a b : sqm2 R) i : i < 2 -> v2 (recur2_binary_op a b) i = radd (mvec 2 (m2 b) (v2 a) i) (v2 b i).
Proof. intros Hi. destruct a, b. unfold mvec. destruct i as [|[|i]]; try lia; cbn; ring. Qed.

Lemma opN_m n (a b : nat -> R) i j : i < n -> j < n -> mN n (recurN_binary_op n a b) i j = mmul n (mN n b) (mN n a) i j.
Proof.
  intros Hi Hj. unfold mN, recurN_binary_op, mmul. destruct (dm2 n i j Hj) as [-> ->].
  destruct (Nat.eqb_spec i n); [lia|]. apply bsum_ext. intros k Hk.
  rewrite (Nat.add_comm j). ring.
Qed.
Lemma opN_v n (a b : nat -> R) i : i < n -> vN n (recurN_binary_op n a b) i = radd (mvec n (mN n b) (vN n a) i) (vN n b i).
Proof.
  intros Hi. unfold vN, mN, recurN_binary_op, mvec. destruct (dm2 n n i Hi) as [-> ->].
  rewrite Nat.eqb_refl. ring.
Qed.

(** Associativity (what a parallel scan requires of its operator). *)
Lemma op1_assoc (a b c : R * R) :
  recur_binary_op (recur_binary_op a b) c = recur_binary_op a (recur_binary_op b c).
Proof. destruct a, b, c. cbn. f_equal; ring. Qed.
Lemma op2_assoc (a b c : sqm2 R) :
  recur2_binary_op (recur2_binary_op a b) c = recur2_binary_op a (recur2_binary_op b c).
Proof. destruct a, b, c. unfold recur2_binary_op. cbn. f_equal; ring. Qed.
Lemma opN_assoc n (a b c : nat -> R) k : k < n * n + n ->
  recurN_binary_op n (recurN_binary_op n a b) c k = recurN_binary_op n a (recurN_binary_op n b c) k.
Proof.
  intro Hk. assert (0 < n) as Hn by (destruct n; lia).
  pose proof (Nat.div_mod k n ltac:(lia)) as E. pose proof (Nat.mod_upper_bound k n ltac:(lia)) as Hm.
  rewrite Nat.mul_comm in E. revert E Hm. generalize (k / n) (k mod n). intros i j E Hm.
  assert (i <= n) by nia. destruct (Nat.eq_dec i n) as [Ei|Ei].
  - assert (k = n * n + j) as -> by nia. clear E Hk.
    change (vN n (recurN_binary_op n (recurN_binary_op n a b) c) j =
            vN n (recurN_binary_op n a (recurN_binary_op n b c)) j).
    rewrite !opN_v by assumption.
    rewrite (mvec_ext n (mN n c) (mN n c) _ (fun i => radd (mvec n (mN n b) (vN n a) i) (vN n b i)))
      by (auto; intros; now apply opN_v).
    rewrite (mvec_ext n (mN n (recurN_binary_op n b c)) (mmul n (mN n c) (mN n b)) (vN n a) (vN n a))
      by (auto; intros; now apply opN_m).
    rewrite mvec_add, mvec_mmul. ring.
  - rewrite E. change (mN n (recurN_binary_op n (recurN_binary_op n a b) c) i j =
            mN n (recurN_binary_op n a (recurN_binary_op n b c)) i j).
    rewrite !opN_m by lia.
    rewrite (mmul_ext n (mN n c) (mN n c) _ (mmul n (mN n b) (mN n a)))
      by (auto; intros; apply opN_m; lia).
    rewrite (mmul_ext n (mN n (recurN_binary_op n b c)) (mmul n (mN n c) (mN n b)) (mN n a) (mN n a))
      by (auto; intros; apply opN_m; lia).
    symmetry. apply mmul_assoc.
Qed.

(** ** CUDA operators *)
Lemma lti_recur_cuda_spec e B N (a zi x : ten) af zf xf :
  env_ok e -> 1 <= B -> coef B a af -> is1 zi B zf -> is2 x B N xf ->
  exists y, lti_recur_cuda e a zi x = Ok y /\
    is2 y B N (fun b n => lin_rec (fun _ => af b) (zf b) (xf b) (S n)).
Proof.
  intros He HB Ha Hz Hx. destruct (lti_recur_cuda_raw R e B N a zi x af zf xf He HB Ha Hz Hx) as (y & E & Hy).
  exists y. split; [exact E|]. eapply is2_ext; [exact Hy|]. intros b n Hb Hn. cbn beta. destruct He as [He _].
  change (snd ?z) with (v1 z 0).
  rewrite (tev_state (R * R) recur_binary_op 1 (@m1 R) (@v1 R) op1_m op1_v _ _ 0 (S n) 0).
  - rewrite lin_rec_state. apply state_ext; auto.
  - rewrite He. lia.
  - lia.
  - reflexivity.
Qed.
Lemma scan2_state e n m (A : nat -> nat -> nat -> R) (z : nat -> R) (x : nat -> nat -> R) : env_ok e -> m < 2 ->
  v2 (tev recur2_binary_op (par e (S n)) (fun k => leaf2 (match k with O => fun _ _ => r0 | S k => A k end)
       (match k with O => z | S k => x k end))) m = state 2 A z x (S n) m.
Proof.
  intros [He _] Hm.
  rewrite (tev_state (sqm2 R) recur2_binary_op 2 (@m2 R) (@v2 R) op2_m op2_v _ _ 0 (S n) m).
  - apply state_ext; auto.
    + intros. now rewrite m2_leaf2.
    + intros. now rewrite v2_leaf2.
    + intros. now rewrite v2_leaf2.
  - rewrite He. lia.
  - exact Hm.
  - intros i j Hi Hj. rewrite m2_leaf2 by assumption. reflexivity.
Qed.
Lemma lti2_cuda_spec e B N (A zi x : ten) Af zf xf :
  env_ok e -> matc B 2 A Af -> is2 zi B 2 zf -> is3 x B N 2 xf ->
  exists y, lti_mat_recur_second_order_cuda e A zi x = Ok y /\
    is3 y B N 2 (fun b n m => state 2 (fun _ => Af b) (zf b) (xf b) (S n) m).
Proof.
  intros He HA Hz Hx. destruct (lti2_cuda_raw R e B N A zi x Af zf xf He HA Hz Hx) as (y & E & Hy).
  exists y. split; [exact E|]. eapply is3_ext; [exact Hy|]. intros b n m Hb Hn Hm. exact (scan2_state e n m _ _ _ He Hm).
Qed.
Lemma lpv2_cuda_spec e B N (A zi x : ten) Af zf xf :
  env_ok e -> matv B N 2 A Af -> is2 zi B 2 zf -> is3 x B N 2 xf ->
  exists y, mat_recur_second_order_cuda e A zi x = Ok y /\
    is3 y B N 2 (fun b n m => state 2 (Af b) (zf b) (xf b) (S n) m).
Proof.
  intros He HA Hz Hx. destruct (lpv2_cuda_raw R e B N A zi x Af zf xf He HA Hz Hx) as (y & E & Hy).
  exists y. split; [exact E|]. eapply is3_ext; [exact Hy|]. intros b n m Hb Hn Hm. exact (scan2_state e n m _ _ _ He Hm).
Qed.

(** ** Unregistered host scans: one scan across all batches *)
Lemma host2_spec e B N (A zi x : ten) Af zf xf :
  env_ok e -> matv B N 2 A Af -> is2 zi B 2 zf -> is3 x B N 2 xf ->
  exists y, mat_recur_second_order_cpu e A zi x = Ok y /\
    is3 y B N 2 (fun b n m => state 2 (Af b) (zf b) (xf b) (S n) m).
Proof.
  intros [He _] HA Hz Hx. unfold mat_recur_second_order_cpu.
  destruct (init_cat3 R zi x B N 2 zf xf Hz Hx) as (o & -> & Ho).
  assert (size x 0 = B /\ size x 1 = N /\ size x 2 = 2) as (-> & -> & ->)
    by (unfold size; rewrite (proj1 Hx); auto).
  rewrite (i3_rk _ _ _ _ _ Hx). cbn [Nat.leb].
  assert (sizen A 1 = 2 /\ sizen A 2 = 2) as [-> ->].
  { unfold sizen. destruct HA as [g HA _|HA]; unfold rk; rewrite (proj1 HA); auto. }
  assert (((rk A =? 3) || (rk A =? 4)) = true) as ->.
  { destruct HA as [g HA _|HA]; rkt; reflexivity. }
  cbn [Nat.eqb andb bind]. eexists; split; [reflexivity|].
  assert (G : forall input : nat -> sqm2 R,
    (forall b k i j, b < B -> k < N + 1 -> i < 2 -> j < 2 ->
       m2 (input (b * (N + 1) + k)) i j = match k with O => r0 | S k => Af b k i j end) ->
    (forall i, q_e (input i) = flat o (i * 2) /\ q_f (input i) = flat o (i * 2 + 1)) ->
    is3 (slice 1 (Some 1%Z) (Some (Z.of_nat (N + 1))) (of_mem [B; N + 1; 2]
          (fun p => let r := scan_all e recur2_binary_op input (p / 2) in if p mod 2 =? 0 then q_e r else q_f r)))
      B N 2 (fun b n m => state 2 (Af b) (zf b) (xf b) (S n) m)).
  { intros input Hm Hv. eapply is3_ext; [apply slice_tail3, of_mem_is3|]. intros b n m Hb Hn Hmm. cbn beta.
    replace (b * ((N + 1) * 2) + S n * 2 + m) with ((b * (N + 1) + S n) * 2 + m) by lia.
    destruct (dm2 2 (b * (N + 1) + S n) m Hmm) as [-> ->]. unfold scan_all.
    transitivity (v2 (tev recur2_binary_op (par e (b * (N + 1) + S n)) input) m).
    { destruct m as [|[|m]]; try lia; reflexivity. }
    rewrite (tev_state (sqm2 R) recur2_binary_op 2 (@m2 R) (@v2 R) op2_m op2_v _ _ (b * (N + 1)) (S n) m).
    - assert (Ex : forall k i, k < N + 1 -> i < 2 ->
        v2 (input (b * (N + 1) + k)) i = match k with O => zf b i | S k => xf b k i end).
      { intros k i Hk Hi. unfold v2. destruct (Hv (b * (N + 1) + k)) as [-> ->].
        rewrite <- (flat_is3 R o B (N + 1) 2 _ b k i Ho) by lia.
        destruct i as [|[|i]]; try lia; f_equal; lia. }
      apply state_ext; auto.
      + intros k i j Hk Hi Hj. rewrite Hm by lia. reflexivity.
      + intros i Hi. rewrite <- (Nat.add_0_r (b * (N + 1))), Ex by lia. reflexivity.
      + intros k i Hk Hi. rewrite Ex by lia. reflexivity.
    - rewrite He. lia.
    - assumption.
    - intros i j Hi Hj. rewrite <- (Nat.add_0_r (b * (N + 1))). rewrite Hm by lia. reflexivity. }
  destruct HA as [g HA HAg|HA].
  - pose proof (tpad_s R A N 2 g HA) as HP. set (P := pad (rk A - 3) 1 0 r0 A) in *. clearbody P.
    rkt; cbn [Nat.eqb]. apply G; [|auto].
    intros b k i j Hb Hk Hi Hj. destruct (key_segment (N + 1) b k Hk) as [_ ->].
    transitivity (match k with O => r0 | S k => g k i j end); [|destruct k; auto; symmetry; apply HAg; lia].
    rewrite <- (flat_is3 R P (N + 1) 2 2 _ k i j HP) by assumption.
    destruct i as [|[|i]]; try lia; destruct j as [|[|j]]; try lia; cbn [m2 q_a q_b q_c q_d]; f_equal; lia.
  - pose proof (tpad_b R A B N 2 Af HA) as HP. set (P := pad (rk A - 3) 1 0 r0 A) in *. clearbody P.
    rkt; cbn [Nat.eqb]. apply G; [|auto].
    intros b k i j Hb Hk Hi Hj.
    rewrite <- (flat_is4 R P B (N + 1) 2 2 _ b k i j HP) by assumption.
    destruct i as [|[|i]]; try lia; destruct j as [|[|j]]; try lia; cbn [m2 q_a q_b q_c q_d]; f_equal; lia.
Qed.

Lemma hostN_spec e B N M (A zi x : ten) Af zf xf :
  env_ok e -> matv B N M A Af -> is2 zi B M zf -> is3 x B N M xf ->
  exists y, mat_recur_N_order_cpu e A zi x = Ok y /\
    is3 y B N M (fun b n m => state M (Af b) (zf b) (xf b) (S n) m).
Proof.
  intros [He _] HA Hz Hx. unfold mat_recur_N_order_cpu.
  destruct (init_cat3 R zi x B N M zf xf Hz Hx) as (o & -> & Ho).
  assert (size x 1 = N /\ size x 2 = M) as (-> & ->)
    by (unfold size; rewrite (proj1 Hx); auto).
  rewrite (i3_rk _ _ _ _ _ Hx). cbn [Nat.leb].
  assert (sizen A 1 = M /\ sizen A 2 = M) as [-> ->].
  { unfold sizen. destruct HA as [g HA _|HA]; unfold rk; rewrite (proj1 HA); auto. }
  assert (((rk A =? 3) || (rk A =? 4)) = true) as ->.
  { destruct HA as [g HA _|HA]; rkt; reflexivity. }
  rewrite Nat.eqb_refl. cbn [bind].
  assert (G : forall input : nat -> nat -> R,
    (forall b k i j, b < B -> k < N + 1 -> i < M -> j < M ->
       mN M (input (b * (N + 1) + k)) i j = match k with O => r0 | S k => Af b k i j end) ->
    (forall b k i, b < B -> k < N + 1 -> i < M ->
       vN M (input (b * (N + 1) + k)) i = match k with O => zf b i | S k => xf b k i end) ->
    is3 (slice 1 (Some 1%Z) (Some (Z.of_nat (N + 1))) (of_mem (shape o)
          (fun p => scan_all e (recurN_binary_op M) input (p / M) (M * M + p mod M))))
      B N M (fun b n m => state M (Af b) (zf b) (xf b) (S n) m)).
  { intros input Hm Hv. rewrite (proj1 Ho).
    eapply is3_ext; [apply slice_tail3, of_mem_is3|]. intros b n m Hb Hn Hmm. cbn beta.
    replace (b * ((N + 1) * M) + S n * M + m) with ((b * (N + 1) + S n) * M + m) by lia.
    destruct (dm2 M (b * (N + 1) + S n) m Hmm) as [-> ->]. unfold scan_all.
    fold (vN M (tev (recurN_binary_op M) (par e (b * (N + 1) + S n)) input) m).
    rewrite (tev_state (nat -> R) (recurN_binary_op M) M (@mN R M) (@vN R M) (opN_m M) (opN_v M) _ _ (b * (N + 1)) (S n) m).
    - apply state_ext; auto.
      + intros k i j Hk Hi Hj. rewrite Hm by lia. reflexivity.
      + intros i Hi. rewrite <- (Nat.add_0_r (b * (N + 1))), Hv by lia. reflexivity.
      + intros k i Hk Hi. rewrite Hv by lia. reflexivity.
    - rewrite He. lia.
    - assumption.
    - intros i j Hi Hj. rewrite <- (Nat.add_0_r (b * (N + 1))). rewrite Hm by lia. reflexivity. }
  destruct HA as [g HA HAg|HA].
  - pose proof (tpad_s R A N M g HA) as HP. set (P := pad (rk A - 3) 1 0 r0 A) in *. clearbody P.
    rkt; cbn [Nat.eqb bind]. eexists; split; [reflexivity|]. apply G.
    + intros b k i j Hb Hk Hi Hj. unfold mN. destruct (key_segment (N + 1) b k Hk) as [_ ->].
      destruct (Nat.ltb_spec (i * M + j) (M * M)) as [_|]; [|nia].
      transitivity (match k with O => r0 | S k => g k i j end); [|destruct k; auto; symmetry; apply HAg; lia].
      rewrite <- (flat_is3 R P (N + 1) M M _ k i j HP) by assumption. f_equal. lia.
    + intros b k i Hb Hk Hi. unfold vN. destruct (Nat.ltb_spec (M * M + i) (M * M)) as [|_]; [lia|].
      rewrite <- (flat_is3 R o B (N + 1) M _ b k i Ho) by assumption. f_equal. nia.
  - pose proof (tpad_b R A B N M Af HA) as HP. set (P := pad (rk A - 3) 1 0 r0 A) in *. clearbody P.
    rkt; cbn [Nat.eqb bind]. 
    pose proof Ho as Ho'. apply is3_P2 in Ho'. nm (unsqueeze 2 o). clear Ho'.
    pose proof HP as HP'. apply is4_P3 in HP'. cat2. eexists; split; [reflexivity|].
    assert (HW : is4 w B (N + 1) (M + 1) M (fun b k i j => if i <? M then match k with O => r0 | S k => Af b k i j end
       else match k with O => zf b j | S k => xf b k j end)).
    { apply is4_P3. fin H0; auto. }
    apply G.
    + intros b k i j Hb Hk Hi Hj. unfold mN. transitivity (flat w (b * ((N + 1) * ((M + 1) * M)) + k * ((M + 1) * M) + i * M + j)).
      * f_equal. nia.
      * rewrite (flat_is4 R w B (N + 1) (M + 1) M _ b k i j HW) by lia.
        destruct (Nat.ltb_spec i M); [reflexivity|lia].
    + intros b k i Hb Hk Hi. unfold vN. transitivity (flat w (b * ((N + 1) * ((M + 1) * M)) + k * ((M + 1) * M) + M * M + i)).
      * f_equal. nia.
      * rewrite (flat_is4 R w B (N + 1) (M + 1) M _ b k M i HW) by lia.
        destruct (Nat.ltb_spec M M); [lia|reflexivity].
Qed.

End S.
