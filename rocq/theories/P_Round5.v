(** Rounding errors of state_space (philtorch/lti/ssm.py:386-510). *)
From Coq Require Import List Arith Lia ZArith Bool Ring.
From Verif Require Import Scalar Ordered Spec SpecRound Tensor TensorLemmas TensorOps TensorAlg TensorTac TensorList Shapes Algebra M_Mat P_Mat M_Kernels M_LtiSsm
  P_Kernels P_KernelOps P_Scan P_Helion P_LtiSsm P_Round P_Round2 P_Round3 P_Round4.
Import ListNotations.
Open Scope cr_scope.

(** Reading a view at an index. *)
Section V.
Variable R : cops.
Notation ten := (tensor (car R)).
Lemma P2_is3 (w : ten) B N M g : isP2 w [B] N M g -> is3 w B N M (fun b n m => g [b] n m).
Proof. intro H. apply is3_P2. fin H; auto. intros q n m Hq Hn Hm. now apply vld_1_inv in Hq as (b & -> & Hb). Qed.
Lemma PP1_is3 (w : ten) B N M g : isP1 w [B; N] M g -> is3 w B N M (fun b n m => g [b; n] m).
Proof. intro H. apply is3_PP1. fin H; auto. intros q m Hq Hm. now apply vld_2_inv in Hq as (b & n & -> & Hb & Hn). Qed.
Lemma P1_is2 (w : ten) B N g : isP1 w [B] N g -> is2 w B N (fun b n => g [b] n).
Proof. intro H. apply is2_P1. fin H; auto. intros q n Hq Hn. now apply vld_1_inv in Hq as (b & -> & Hb). Qed.
Lemma P1_sig (w : ten) B N g : isP1 w [B] N g -> sigv B N None w (fun b n _ => g [b] n).
Proof. apply P1_is2. Qed.
Lemma P2_sig (w : ten) B N P g : isP2 w [B] N P g -> sigv B N (Some P) w (fun b n p => g [b] n p).
Proof. apply P2_is3. Qed.
Lemma PP1_sig (w : ten) B N P g : isP1 w [B; N] P g -> sigv B N (Some P) w (fun b n p => g [b; n] p).
Proof. apply PP1_is3. Qed.
Lemma squeeze_sel_raw (t : ten) d : size t d = 1%nat -> squeeze d t = sel d 0 t.
Proof. intro H. unfold squeeze. now rewrite H. Qed.
End V.

Section S.
Variable F : ofield.
Add Ring Rr5 : (r_th F).
Variables (u : F) (fadd fmul fsub : F -> F -> F).
Hypothesis HR : rounds u fadd fmul fsub.
Notation Fl := (flops F fadd fmul fsub).
Notation ten := (tensor (car Fl)).
Notation bnd := (bnd F u).
Let Hu : ole (0 : F) u = true := rd_u _ _ _ _ HR.
Notation Q := (fun k => rpow (1 + u) k).
Let bmono := bnd_mono F u Hu.
Let badd := bnd_add F u Hu fadd fmul fsub HR.
Let bmul := bnd_mul F u Hu fadd fmul fsub HR.
Let bsums := bnd_sum F u Hu fadd fmul fsub HR.

(** ** Exact operations on perturbed operands *)
Lemma xadd k v e m v' e' m' : bnd k v e m -> bnd k v' e' m' -> bnd k (v + v') (e + e') (m + m').
Proof.
  intros [H1 H2] [H1' H2']. split.
  - replace (v + v' - (e + e')) with ((v - e) + (v' - e')) by ring. eapply ole_trans; [apply abs_tri|].
    replace ((Q k - 1) * (m + m')) with ((Q k - 1) * m + (Q k - 1) * m') by ring. now apply le_add.
  - eapply ole_trans; [apply abs_tri|]. now apply le_add.
Qed.
Lemma xmul k l v e m v' e' m' : bnd k v e m -> bnd l v' e' m' -> bnd (k + l) (v * v') (e * e') (m * m').
Proof.
  intros H H'. pose proof (bnd_v F u _ _ _ _ H') as V'.
  pose proof (bnd_m F u _ _ _ _ H) as M. pose proof (bnd_m F u _ _ _ _ H') as M'.
  destruct H as [H1 H2], H' as [H1' H2']. split.
  - replace (v * v' - e * e') with ((v - e) * v' + e * (v' - e')) by ring.
    eapply ole_trans; [apply abs_tri|]. rewrite !abs_mul.
    replace ((rpow (1 + u) (k + l)%nat - 1) * (m * m')) with ((Q k - 1) * m * (Q l * m') + m * ((Q l - 1) * m'))
      by (rewrite (Q_add F u); ring).
    apply le_add; apply le_mul; auto; try apply abs_0_le.
    + apply ole_mul; [apply (Q_pos F u Hu)|exact M'].
    + apply ole_mul; [|exact M']. apply sub_0, (Q_ge1 F u Hu).
  - rewrite abs_mul. apply le_mul; auto. apply abs_0_le.
Qed.
Lemma xsum n k (v e m : nat -> F) : (forall i, (i < n)%nat -> bnd k (v i) (e i) (m i)) -> bnd k (bsum n v) (bsum n e) (bsum n m).
Proof.
  induction n as [|n IH]; intro H; cbn [bsum]; [apply bnd_0|]. apply xadd; [apply IH; intros; apply H; lia|apply H; lia].
Qed.
(** Composition: [v] is computed from quantities that are themselves rounded. *)
Lemma bnd_comp k l v e m e' m' : bnd k v e m -> bnd l e e' m' -> ole m (Q l * m') = true -> bnd (k + l) v e' m'.
Proof.
  intros [H1 _] H Hm. pose proof (bnd_m F u _ _ _ _ H) as M'. destruct H as [H2 H3]. split; [|exact H3].
  replace (v - e') with ((v - e) + (e - e')) by ring. eapply ole_trans; [apply abs_tri|].
  rewrite (Q_add F u). replace ((Q k * Q l - 1) * m') with ((Q k - 1) * (Q l * m') + (Q l - 1) * m') by ring.
  apply le_add; [|exact H2]. eapply ole_trans; [exact H1|]. apply le_mul_l; [|exact Hm]. apply sub_0, (Q_ge1 F u Hu).
Qed.

(** ** The exact recursion on perturbed inputs *)
Lemma state_pert M w c d (Av Ae Am : nat -> nat -> nat -> F) (hv he hm : nat -> F) (xv xe xm : nat -> nat -> F) n :
  (d <= c + w)%nat ->
  (forall k i j, (k < n)%nat -> (i < M)%nat -> (j < M)%nat -> bnd w (Av k i j) (Ae k i j) (Am k i j)) ->
  (forall i, (i < M)%nat -> bnd c (hv i) (he i) (hm i)) ->
  (forall k i, (k < n)%nat -> (i < M)%nat -> bnd d (xv k i) (xe k i) (xm k i)) ->
  forall i, (i < M)%nat -> bnd (c + w * n) (state M Av hv xv n i) (state M Ae he xe n i) (state M Am hm xm n i).
Proof.
  intro Hd. induction n as [|n IH]; intros HA Hh Hx i Hi.
  - rewrite Nat.mul_0_r, Nat.add_0_r. now apply Hh.
  - cbn [state]. unfold mvec. apply xadd.
    + apply xsum. intros j Hj. apply (bmono (w + (c + w * n))%nat); [lia|]. apply xmul; [apply HA; lia|].
      apply IH; auto; intros; first [apply HA|apply Hx]; lia.
    + apply (bmono d); [nia|]. apply Hx; lia.
Qed.
Lemma le_bsum n (f g : nat -> F) : (forall i, (i < n)%nat -> ole (f i) (g i) = true) -> ole (bsum n f) (bsum n g) = true.
Proof.
  induction n as [|n IH]; intro H; cbn [bsum]; [apply ole_refl|]. apply le_add; [apply IH; intros; apply H; lia|apply H; lia].
Qed.
Lemma state_mag M w c d (Av Ae Am : nat -> nat -> nat -> F) (hv he hm : nat -> F) (xv xe xm : nat -> nat -> F) n :
  (d <= c + w)%nat ->
  (forall k i j, (k < n)%nat -> (i < M)%nat -> (j < M)%nat -> bnd w (Av k i j) (Ae k i j) (Am k i j)) ->
  (forall i, (i < M)%nat -> bnd c (hv i) (he i) (hm i)) ->
  (forall k i, (k < n)%nat -> (i < M)%nat -> bnd d (xv k i) (xe k i) (xm k i)) ->
  forall i, (i < M)%nat -> ole 0 (state_abs M Av hv xv n i) = true /\
    ole (state_abs M Av hv xv n i) (Q (c + w * n)%nat * state M Am hm xm n i) = true.
Proof.
  intro Hd. induction n as [|n IH]; intros HA Hh Hx i Hi.
  - rewrite Nat.mul_0_r, Nat.add_0_r. split; [apply abs_0_le|]. apply (bnd_v F u _ _ _ _ (Hh i Hi)).
  - assert (G : forall j, (j < M)%nat -> ole 0 (state_abs M Av hv xv n j) = true /\
       ole (state_abs M Av hv xv n j) (Q (c + w * n)%nat * state M Am hm xm n j) = true).
    { apply IH; auto; intros; first [apply HA|apply Hx]; lia. }
    assert (P : forall j, (j < M)%nat -> ole 0 (state M Am hm xm n j) = true).
    { intros j Hj. eapply (bnd_m F u). apply (state_pert M w c d Av Ae Am hv he hm xv xe xm); auto; intros; first [apply HA|apply Hx]; lia. }
    unfold state_abs in *. cbn [state]. unfold mvec. split.
    + replace (0 : F) with (0 + 0 : F) by ring. apply le_add; [|apply abs_0_le].
      rewrite <- (bsum_0 M (fun _ => 0 : F)) by reflexivity. apply le_bsum. intros j Hj. apply ole_mul; [apply abs_0_le|now apply G].
    + match goal with |- ole _ (?q * (?a + ?b)) = true => replace (q * (a + b)) with (q * a + q * b) by ring end.
      apply le_add.
      * rewrite <- bsum_mul_l. apply le_bsum. intros j Hj.
        replace (c + w * S n)%nat with (w + (c + w * n))%nat by lia. rewrite (Q_add F u).
        match goal with |- ole _ (?a * ?b * (?p * ?q)) = true => replace (a * b * (p * q)) with ((a * p) * (b * q)) by ring end.
        apply le_mul; [apply abs_0_le| |apply (bnd_v F u _ _ _ _ (HA n i j ltac:(lia) Hi Hj))|now apply G].
        apply ole_mul; [apply (Q_pos F u Hu)|now apply P].
      * eapply ole_trans; [apply (bnd_v F u _ _ _ _ (Hx n i ltac:(lia) Hi))|].
        assert (Pm : ole 0 (xm n i) = true) by (eapply (bnd_m F u); apply Hx; lia).
        replace (Q d * xm n i) with (xm n i * Q d) by ring. match goal with |- ole _ (?q * ?y) = true => replace (q * y) with (y * q) by ring end.
        apply le_mul_l; [exact Pm|]. apply (Q_mono F u Hu). nia.
Qed.
(** ** Kernels on operands that carry roundings: coefficients w, initial state c,
    inputs c + 2(w + M) - M *)
Lemma klin_w w c n (a ae am h he hm : F) (x xe xm : nat -> F) : bnd w a ae am -> bnd c h he hm ->
  (forall k, (k < n)%nat -> bnd (c + 2 * (w + 1) - 1) (x k) (xe k) (xm k)) ->
  bnd (c + 2 * (w + 1) * n) (klin (R := Fl) a h x n) (lin_rec (fun _ => ae) he xe n) (lin_rec (fun _ => am) hm xm n).
Proof.
  intros Ha Hh. induction n as [|n IH]; intro Hx.
  - cbn [klin lin_rec]. rewrite Nat.mul_0_r, Nat.add_0_r. exact Hh.
  - cbn [klin lin_rec]. replace (c + 2 * (w + 1) * S n)%nat with (S (c + 2 * (w + 1) * n + 2 * w + 1)) by lia.
    eapply (bnd_fma' F u fadd fmul fsub HR); [exact Ha|apply IH; intros; apply Hx; lia|apply Hx; lia|lia|lia].
Qed.
(** Scans: a subtree that does not contain the initial state, and one that does. *)
Lemma tev1_w w d t : forall f g m : nat -> F * F,
  (forall k, (k < leaves t)%nat -> bnd w (fst (f k)) (fst (g k)) (fst (m k)) /\ bnd d (snd (f k)) (snd (g k)) (snd (m k))) ->
  let p := tev (recur_binary_op (R := Fl)) t f in let q := tev (recur_binary_op (R := F)) t g in let r := tev (recur_binary_op (R := F)) t m in
  bnd (leaves t * (w + 1) - 1) (fst p) (fst q) (fst r) /\ bnd (d + (leaves t - 1) * (w + 2)) (snd p) (snd q) (snd r).
Proof.
  induction t as [|l IHl r IHr]; intros f g m H; cbn [tev leaves] in *; cbv zeta.
  - destruct (H 0%nat ltac:(lia)) as [H1 H2]. split; [apply (bmono w); [lia|exact H1]|apply (bmono d); [lia|exact H2]].
  - specialize (IHl f g m (fun k Hk => H k ltac:(lia))).
    specialize (IHr (fun k => f (leaves l + k)%nat) (fun k => g (leaves l + k)%nat) (fun k => m (leaves l + k)%nat)
                  (fun k Hk => H (leaves l + k)%nat ltac:(lia))). cbv zeta in IHl, IHr.
    pose proof (leaves_pos l) as Pl. pose proof (leaves_pos r) as Pr. revert IHl IHr.
    generalize (tev (recur_binary_op (R := Fl)) l f) (tev (recur_binary_op (R := F)) l g) (tev (recur_binary_op (R := F)) l m)
      (tev (recur_binary_op (R := Fl)) r (fun k => f (leaves l + k)%nat))
      (tev (recur_binary_op (R := F)) r (fun k => g (leaves l + k)%nat))
      (tev (recur_binary_op (R := F)) r (fun k => m (leaves l + k)%nat)).
    intros [a1 a2] [b1 b2] [c1 c2] [a1' a2'] [b1' b2'] [c1' c2']. cbn [fst snd recur_binary_op].
    intros [H1 H2] [H1' H2']. split.
    + apply (bmono (S ((leaves l * (w + 1) - 1) + (leaves r * (w + 1) - 1)))%nat); [nia|]. now apply bmul.
    + apply (bmono (S (d + (leaves l - 1) * (w + 2) + leaves r * (w + 2) - 1))%nat); [nia|].
      apply (bnd_fma F u fadd fmul fsub HR (d + (leaves l - 1) * (w + 2)) (leaves r * (w + 1) - 1) (d + (leaves r - 1) * (w + 2))); auto; nia.
Qed.
Lemma tev1_w0 w c t : forall f g m : nat -> F * F,
  (forall k, (k < leaves t)%nat -> bnd w (fst (f k)) (fst (g k)) (fst (m k)) /\
     bnd (if (k =? 0)%nat then c else c + 2 * (w + 1) - 1) (snd (f k)) (snd (g k)) (snd (m k))) ->
  bnd (c + 2 * (w + 1) * (leaves t - 1)) (snd (tev (recur_binary_op (R := Fl)) t f)) (snd (tev (recur_binary_op (R := F)) t g)) (snd (tev (recur_binary_op (R := F)) t m)).
Proof.
  induction t as [|l IHl r IHr]; intros f g m H; cbn [tev leaves] in *.
  - destruct (H 0%nat ltac:(lia)) as [_ H2]. cbn [Nat.eqb] in H2. apply (bmono c); [lia|exact H2].
  - pose proof (leaves_pos l) as Pl. pose proof (leaves_pos r) as Pr.
    specialize (IHl f g m (fun k Hk => H k ltac:(lia))).
    assert (X : forall k, (k < leaves r)%nat -> bnd w (fst (f (leaves l + k)%nat)) (fst (g (leaves l + k)%nat)) (fst (m (leaves l + k)%nat)) /\
      bnd (c + 2 * (w + 1) - 1) (snd (f (leaves l + k)%nat)) (snd (g (leaves l + k)%nat)) (snd (m (leaves l + k)%nat))).
    { intros k Hk. destruct (H (leaves l + k)%nat ltac:(lia)) as [Y1 Y2]. assert ((leaves l + k =? 0)%nat = false) as E by (apply Nat.eqb_neq; lia).
      rewrite E in Y2. auto. }
    pose proof (tev1_w w (c + 2 * (w + 1) - 1) r (fun k => f (leaves l + k)%nat) (fun k => g (leaves l + k)%nat) (fun k => m (leaves l + k)%nat) X) as IHr'.
    cbv zeta in IHr'. clear IHr X H. revert IHl IHr'.
    generalize (tev (recur_binary_op (R := Fl)) l f) (tev (recur_binary_op (R := F)) l g) (tev (recur_binary_op (R := F)) l m)
      (tev (recur_binary_op (R := Fl)) r (fun k => f (leaves l + k)%nat))
      (tev (recur_binary_op (R := F)) r (fun k => g (leaves l + k)%nat))
      (tev (recur_binary_op (R := F)) r (fun k => m (leaves l + k)%nat)).
    intros [a1 a2] [b1 b2] [c1 c2] [a1' a2'] [b1' b2'] [c1' c2']. cbn [fst snd recur_binary_op].
    intros H2 [H1' H2']. apply (bmono (S (c + 2 * (w + 1) * (leaves l + leaves r - 1) - 1))%nat); [nia|].
    eapply (bnd_fma F u fadd fmul fsub HR); [exact H2|exact H1'|exact H2'|nia|nia].
Qed.
Lemma scan1_w w c t n (a ae am z ze zm : F) (x xe xm : nat -> F) : leaves t = S n -> bnd w a ae am -> bnd c z ze zm ->
  (forall k, (k < n)%nat -> bnd (c + 2 * (w + 1) - 1) (x k) (xe k) (xm k)) ->
  bnd (c + 2 * (w + 1) * n) (snd (tev (recur_binary_op (R := Fl)) t (fun k : nat => match k with O => (r0, z) | S k => (a, x k) end)))
    (lin_rec (fun _ => ae) ze xe n) (lin_rec (fun _ => am) zm xm n).
Proof.
  intros Hl Ha Hz Hx. rewrite <- (tev_lin F ae ze xe t n Hl), <- (tev_lin F am zm xm t n Hl).
  replace n with (leaves t - 1)%nat by lia. apply tev1_w0. intros k Hk. destruct k as [|k]; split; cbn [fst snd Nat.eqb]; auto.
  - apply bnd_0.
  - apply Hx. lia.
Qed.
(** Second order. *)
Lemma kstate_w M w c (A Ae Am : nat -> nat -> nat -> F) (h he hm : nat -> F) (x xe xm : nat -> nat -> F) n : (1 <= M)%nat ->
  (forall k i j, (k < n)%nat -> (i < M)%nat -> (j < M)%nat -> bnd w (A k i j) (Ae k i j) (Am k i j)) ->
  (forall i, (i < M)%nat -> bnd c (h i) (he i) (hm i)) ->
  (forall k i, (k < n)%nat -> (i < M)%nat -> bnd (c + 2 * (w + M) - M) (x k i) (xe k i) (xm k i)) ->
  forall i, (i < M)%nat -> bnd (c + 2 * (w + M) * n) (kstate (R := Fl) M A h x n i) (state M Ae he xe n i) (state M Am hm xm n i).
Proof.
  intro HM. induction n as [|n IH]; intros HA Hh Hx i Hi.
  - cbn [kstate state]. rewrite Nat.mul_0_r, Nat.add_0_r. auto.
  - cbn [kstate state]. unfold mvec.
    match goal with |- bnd _ _ (?a + ?b) (?a' + ?b') => replace (a + b) with (b + a) by ring; replace (a' + b') with (b' + a') by ring end.
    apply (bmono (S (c + 2 * (w + M) * n + (w + M) + (w + M - 1)))); [nia|].
    apply badd; [apply (bmono (c + 2 * (w + M) - M)%nat); [nia|apply Hx; lia]|].
    apply (bmono (S (w + (c + 2 * (w + M) * n)) + (M - 1))%nat); [nia|]. apply bsums. intros j Hj.
    apply bmul; [apply HA; lia|]. apply IH; [intros; apply HA; lia|exact Hh|intros; apply Hx; lia|exact Hj].
Qed.
Definition bw2 (k l : nat) (p : sqm2 Fl) (q r : sqm2 F) : Prop :=
  (forall i j, (i < 2)%nat -> (j < 2)%nat -> bnd k (m2 (R := Fl) p i j) (m2 q i j) (m2 r i j)) /\
  (forall i, (i < 2)%nat -> bnd l (v2 (R := Fl) p i) (v2 q i) (v2 r i)).
Lemma op2_w k l k' l' K L p q r p' q' r' : bw2 k l p q r -> bw2 k' l' p' q' r' ->
  (k' + k + 2 <= K)%nat -> (k' + l + 3 <= L)%nat -> (l' + 1 <= L)%nat ->
  bw2 K L (recur2_binary_op (R := Fl) p p') (recur2_binary_op q q') (recur2_binary_op r r').
Proof.
  intros [Hm Hv] [Hm' Hv'] HK HL HL'.
  assert (G : forall i j, (i < 2)%nat -> (j < 2)%nat ->
    bnd K (fadd (fmul (m2 (R := Fl) p' i 0) (m2 (R := Fl) p 0 j)) (fmul (m2 (R := Fl) p' i 1) (m2 (R := Fl) p 1 j)))
      (m2 q' i 0 * m2 q 0 j + m2 q' i 1 * m2 q 1 j) (m2 r' i 0 * m2 r 0 j + m2 r' i 1 * m2 r 1 j)).
  { intros i j Hi Hj. apply (bmono (S (S (k' + k)))%nat); [lia|]. apply badd; apply bmul; auto. }
  assert (Gv : forall i, (i < 2)%nat ->
    bnd L (fadd (fadd (fmul (m2 (R := Fl) p' i 0) (v2 (R := Fl) p 0)) (fmul (m2 (R := Fl) p' i 1) (v2 (R := Fl) p 1))) (v2 (R := Fl) p' i))
      (m2 q' i 0 * v2 q 0 + m2 q' i 1 * v2 q 1 + v2 q' i) (m2 r' i 0 * v2 r 0 + m2 r' i 1 * v2 r 1 + v2 r' i)).
  { intros i Hi. apply (bmono (S (L - 1))%nat); [lia|].
    apply badd; [|apply (bmono l'); [lia|auto]].
    apply (bmono (S (S (k' + l)))%nat); [lia|]. apply badd; apply bmul; auto. }
  split.
  - intros i j Hi Hj. specialize (G i j Hi Hj). destruct p, q, r, p', q', r'.
    destruct i as [|[|i]]; try lia; destruct j as [|[|j]]; try lia; exact G.
  - intros i Hi. specialize (Gv i Hi). destruct p, q, r, p', q', r'.
    destruct i as [|[|i]]; try lia; exact Gv.
Qed.
Lemma tev2_w w d t : forall (f : nat -> sqm2 Fl) (g m : nat -> sqm2 F), (forall k, (k < leaves t)%nat -> bw2 w d (f k) (g k) (m k)) ->
  bw2 (leaves t * (w + 2) - 2) (d + (leaves t - 1) * (w + 3)) (tev recur2_binary_op t f) (tev recur2_binary_op t g) (tev recur2_binary_op t m).
Proof.
  induction t as [|l IHl r IHr]; intros f g m H; cbn [tev leaves] in *.
  - destruct (H 0%nat ltac:(lia)) as [H1 H2]. split; intros; [apply (bmono w); [lia|auto]|apply (bmono d); [lia|auto]].
  - pose proof (leaves_pos l) as Pl. pose proof (leaves_pos r) as Pr.
    eapply op2_w; [apply IHl; intros k Hk; apply H; lia|apply IHr; intros k Hk; apply H; lia|nia|nia|nia].
Qed.
Lemma tev2_w0 w c t : forall (f : nat -> sqm2 Fl) (g m : nat -> sqm2 F),
  (forall k, (k < leaves t)%nat -> bw2 w (if (k =? 0)%nat then c else c + 2 * (w + 2) - 2)%nat (f k) (g k) (m k)) ->
  bw2 (leaves t * (w + 2) - 2) (c + 2 * (w + 2) * (leaves t - 1)) (tev recur2_binary_op t f) (tev recur2_binary_op t g) (tev recur2_binary_op t m).
Proof.
  induction t as [|l IHl r IHr]; intros f g m H; cbn [tev leaves] in *.
  - destruct (H 0%nat ltac:(lia)) as [H1 H2]. split; intros; [apply (bmono w); [lia|auto]|apply (bmono c); [lia|auto]].
  - pose proof (leaves_pos l) as Pl. pose proof (leaves_pos r) as Pr.
    eapply op2_w; [apply IHl; intros k Hk; apply H; lia| | | |].
    + apply (tev2_w w (c + 2 * (w + 2) - 2)). intros k Hk. specialize (H (leaves l + k)%nat ltac:(lia)).
      assert ((leaves l + k =? 0)%nat = false) as E by (apply Nat.eqb_neq; lia). rewrite E in H. exact H.
    + nia.
    + nia.
    + nia.
Qed.
Lemma scan2_w w c t n (A Ae Am : nat -> nat -> F) (z ze zm : nat -> F) (x xe xm : nat -> nat -> F) i : leaves t = S n -> (i < 2)%nat ->
  (forall i j, (i < 2)%nat -> (j < 2)%nat -> bnd w (A i j) (Ae i j) (Am i j)) ->
  (forall i, (i < 2)%nat -> bnd c (z i) (ze i) (zm i)) ->
  (forall k i, (k < n)%nat -> (i < 2)%nat -> bnd (c + 2 * (w + 2) - 2) (x k i) (xe k i) (xm k i)) ->
  bnd (c + 2 * (w + 2) * n) (v2 (R := Fl) (tev (recur2_binary_op (R := Fl)) t (fun k => leaf2 (R := Fl) (match k with 0%nat => fun _ _ => r0 | S k => A end)
                (match k with 0%nat => z | S k => x k end))) i)
    (state 2 (fun _ => Ae) ze xe n i) (state 2 (fun _ => Am) zm xm n i).
Proof.
  intros Hl Hi HA Hz Hx.
  assert (E : forall (A : nat -> nat -> F) z x, v2 (R := F) (tev (recur2_binary_op (R := F)) t (fun k => leaf2 (R := F) (match k with 0%nat => fun _ _ => r0 | S k => A end)
                (match k with 0%nat => z | S k => x k end))) i = state 2 (fun _ => A) z x n i).
  { intros A' z' x'. rewrite (tev_state F (sqm2 F) recur2_binary_op 2 (@m2 F) (@v2 F) (op2_m F) (op2_v F) _ _ 0 n i).
    - apply state_ext; auto; intros; rewrite ?m2_leaf2, ?v2_leaf2; auto.
    - exact Hl.
    - exact Hi.
    - intros i' j' Hi' Hj'. rewrite m2_leaf2 by assumption. reflexivity. }
  rewrite <- (E Ae ze xe), <- (E Am zm xm). replace n with (leaves t - 1)%nat by lia.
  eapply (tev2_w0 w c); [|exact Hi]. intros k Hk. split.
  - intros i' j' Hi' Hj'. rewrite !m2_leaf2 by assumption. destruct k; [apply bnd_0|auto].
  - intros i' Hi'. rewrite !v2_leaf2 by assumption. destruct k; cbn [Nat.eqb]; [auto|apply Hx; lia].
Qed.

(** ** The compiled back-ends *)
Lemma ext_rel e B N M (A zi x : ten) (Af ae am : nat -> nat -> nat -> F) (zf ze zm : nat -> nat -> F) (x' xe xm : nat -> nat -> nat -> F) oi w0 c0 :
  ext_avail e M -> (1 <= B)%nat -> (1 <= M)%nat ->
  matc B M A Af -> is2 zi B M zf -> drive B N M x x' -> idx_ok M oi ->
  (forall b i j, (b < B)%nat -> (i < M)%nat -> (j < M)%nat -> bnd w0 (Af b i j) (ae b i j) (am b i j)) ->
  (forall b i, (b < B)%nat -> (i < M)%nat -> bnd c0 (zf b i) (ze b i) (zm b i)) ->
  (forall b n i, (b < B)%nat -> (n < N)%nat -> (i < M)%nat -> bnd (c0 + 2 * (w0 + M) - M) (x' b n i) (xe b n i) (xm b n i)) ->
  exists y (yf : nat -> nat -> nat -> F), ext_ss_recur e A zi x oi = Ok y /\ picks B N M oi y yf /\
    forall b n m, (b < B)%nat -> (n < N)%nat -> (m < M)%nat ->
      bnd (c0 + 2 * (w0 + M) * S n) (yf b n m) (state M (fun _ => ae b) (ze b) (xe b) (S n) m) (state M (fun _ => am b) (zm b) (xm b) (S n) m).
Proof.
  intros (He & He2 & He3) HB HM HA Hz Hx Hi RA RZ RU. unfold ext_ss_recur.
  assert (ext e || helion e = true)%bool as ->.
  { destruct (le_lt_dec M 2) as [H|H]; [destruct (He2 H) as [-> _]; reflexivity|].
    unfold helion_backend_indicator in He3. destruct (He3 ltac:(lia)) as [E|[-> _]]; [|reflexivity].
    apply andb_true_iff in E as [E _]. apply andb_true_iff in E as [-> _]. apply orb_true_r. }
  assert (sizen A 1 = M) as -> by (destruct HA as [g HA _|HA]; unfold sizen, rk; now rewrite (proj1 HA)).
  match goal with |- context [bind ?t _] =>
    assert (exists y (yf : nat -> nat -> nat -> F), t = Ok y /\ is3 y B N M yf /\ forall b n m, (b < B)%nat -> (n < N)%nat -> (m < M)%nat ->
      bnd (c0 + 2 * (w0 + M) * S n) (yf b n m) (state M (fun _ => ae b) (ze b) (xe b) (S n) m) (state M (fun _ => am b) (zm b) (xm b) (S n) m))
      as (y & yf & -> & Hy & Hb) end.
  { destruct (Nat.eq_dec M 1) as [E1|E1].
    - subst M. destruct (He2 ltac:(lia)) as [X1 X2]. cbn [Nat.eqb].
      assert (exists a, (let* a0 := select (rk A - 1) 0 A in select (rk a0 - 1) 0 a0)%res = Ok a /\
                coef B a (fun b => Af b 0%nat 0%nat)) as (a & Ea & Ha).
      { destruct HA as [g HA HAg|HA].
        - rewrite (select_ok A _ 0%Z 0%nat) by (rkt; unfold size; rewrite (proj1 HA); reflexivity). cbn [bind].
          apply is2_P in HA. nm (sel (rk A - 1) 0 A).
          rewrite (select_ok v _ 0%Z 0%nat) by (unfold size; rkt; rewrite (proj1 H); reflexivity).
          eexists; split; [reflexivity|]. pose proof (P1_sel0 v [] 1 _ (rk v - 1) 0 H ltac:(dimt) ltac:(lia)) as H'.
          apply (@coef_0 Fl) with (v := g 0%nat 0%nat); [apply is0_P0; exact H'|]. intros. now rewrite HAg by lia.
        - rewrite (select_ok A _ 0%Z 0%nat) by (rkt; unfold size; rewrite (proj1 HA); reflexivity). cbn [bind].
          apply is3_P2 in HA. nm (sel (rk A - 1) 0 A).
          rewrite (select_ok v _ 0%Z 0%nat) by (unfold size; rkt; rewrite (proj1 H); reflexivity).
          eexists; split; [reflexivity|]. pose proof (P1_sel0 v [B] 1 _ (rk v - 1) 0 H ltac:(dimt) ltac:(lia)) as H'.
          apply (@coef_B Fl). apply is1_P0. exact H'. }
      assert (Hzz : is1 (squeeze (rk zi - 1) zi) B (fun b => zf b 0%nat)).
      { rewrite squeeze_sel_raw by (rkt; unfold size; now rewrite (proj1 Hz)).
        apply is2_P1 in Hz. pose proof (P1_sel0 zi [B] 1 _ (rk zi - 1) 0 Hz ltac:(dimt) ltac:(lia)) as H'.
        apply is1_P0. exact H'. }
      set (zz := squeeze _ _) in *. clearbody zz. 
      assert (Hfin : forall x1, is2 x1 B N (fun b n => x' b n 0%nat) ->
         exists y (yf : nat -> nat -> nat -> F), (let* y := LTIRecurrence_forward e a zz x1 in Ok (unsqueeze (rk y) y))%res = Ok y /\
            is3 y B N 1 yf /\ forall b n m, (b < B)%nat -> (n < N)%nat -> (m < 1)%nat ->
      bnd (c0 + 2 * (w0 + 1) * S n) (yf b n m) (state 1 (fun _ => ae b) (ze b) (xe b) (S n) m) (state 1 (fun _ => am b) (zm b) (xm b) (S n) m)).
      { intros x1 Hx1. unfold LTIRecurrence_forward.
        assert (exists y (yf : nat -> nat -> F), op_lti_recur e a zz x1 = Ok y /\ is2 y B N yf /\
          forall b n, (b < B)%nat -> (n < N)%nat -> bnd (c0 + 2 * (w0 + 1) * S n) (yf b n) (lin_rec (fun _ => ae b 0%nat 0%nat) (ze b 0%nat) (fun k => xe b k 0%nat) (S n))
            (lin_rec (fun _ => am b 0%nat 0%nat) (zm b 0%nat) (fun k => xm b k 0%nat) (S n))) as (y & yf & -> & Hy & Hb).
        { unfold op_lti_recur. rewrite X1. destruct (cuda e).
          - rewrite X2 by reflexivity. destruct (lti_recur_cuda_raw Fl e B N a zz x1 _ _ _ He HB Ha Hzz Hx1) as (y & E & Hy).
            exists y. eexists. split; [exact E|]. split; [exact Hy|]. intros b n Hb Hn.
            apply scan1_w; [apply He|apply RA; lia|apply RZ; lia|]. intros k Hk. apply RU; lia.
          - destruct (lti_recur_cpu_raw Fl B N a zz x1 _ _ _ HB Ha Hzz Hx1) as (y & E & Hy).
            exists y. eexists. split; [exact E|]. split; [exact Hy|]. intros b n Hb Hn.
            apply klin_w; [apply RA; lia|apply RZ; lia|]. intros k Hk. apply RU; lia. }
        cbn [bind].
        eexists _, (fun b n _ => yf b n). split; [reflexivity|]. split.
        - apply is2_P1 in Hy. nm (unsqueeze (rk y) y). apply is3_P2. exact H.
        - intros b n m Hb' Hn Hm. replace m with 0%nat by lia. rewrite !lin_rec_state1. now apply Hb. }
      assert (Hbind : forall {X : Type} (r : res ten) (k1 : ten -> res ten) (k2 : ten -> res X),
                bind r (fun a0 => bind (k1 a0) k2) = bind (bind r k1) k2).
      { intros X [t|er]; reflexivity. }
      destruct Hx as [f Hx Hxu|Hx]; rkt; cbn [Nat.eqb andb]; rewrite Hbind, Ea; cbn [bind].
      + apply Hfin. eapply is2_ext; [exact Hx|]. intros b n Hb Hn. now rewrite Hxu by lia.
      + apply Hfin. rewrite squeeze_sel_raw by (rkt; unfold size; now rewrite (proj1 Hx)).
        apply is3_P2 in Hx. apply is2_P1. cbn [Nat.sub]. nm (sel 2 0 x). exact H.
    - bfalse (M =? 1)%nat. rewrite andb_false_r.
      assert (exists x2, (if rk x =? 2 then pad_features x M else Ok x) = Ok x2 /\ is3 x2 B N M x')
        as (x2 & -> & Hx2).
      { destruct Hx as [f Hx Hxu|Hx]; rkt; cbn [Nat.eqb].
        - destruct (pad_features_spec Fl x B N M f HM Hx) as (y & -> & Hy). exists y. split; [reflexivity|].
          eapply is3_ext; [exact Hy|]. intros. cbn beta. now rewrite Hxu.
        - eauto. }
      cbn [bind]. unfold LTIMatrixRecurrence_forward.
      assert (sizen x2 1 = M) as -> by (unfold sizen, rk; now rewrite (proj1 Hx2)).
      destruct (Nat.eq_dec M 2) as [E2|E2].
      + subst M. destruct (He2 ltac:(lia)) as [X1 X2]. cbn [Nat.eqb].
        unfold op_lti_recur2. rewrite X1. destruct (cuda e).
        * rewrite X2 by reflexivity. destruct (lti2_cuda_raw Fl e B N A zi x2 Af zf x' He HA Hz Hx2) as (y & E & Hy).
          exists y. eexists. split; [exact E|]. split; [exact Hy|]. intros b n m Hb Hn Hm.
          apply scan2_w; [apply He|exact Hm|intros; apply RA; lia|intros; apply RZ; lia|intros; apply RU; lia].
        * destruct (lti_cpu_raw Fl B N 2 A zi x2 Af zf x' HA Hz Hx2) as (y & E & Hy).
          exists y. eexists. split; [exact E|]. split; [exact Hy|]. intros b n m Hb Hn Hm.
          apply (kstate_w 2); [lia|intros; apply RA; lia|intros; apply RZ; lia|intros; apply RU; lia|exact Hm].
      + bfalse (M =? 2)%nat. destruct (helion_backend_indicator e) eqn:Eh.
        * destruct (hl_lti_raw Fl e B N M A zi x2 Af zf x' He HA Hz Hx2) as (y & E & Hy). exists y. eexists. split; [exact E|]. split; [exact Hy|].
          intros b n m Hb Hn Hm. 
          apply (rel_hstate Fl F (P_Round.bnd F u) (bnd_mono F u Hu) badd bmul (bnd_0 F u) (rd_0l _ _ _ _ HR) M w0 c0);
            [exact HM|intros; apply RA; lia|intros; apply RZ; lia|intros; apply RU; lia|exact Hm].
        * destruct (He3 ltac:(lia)) as [?|[X1 X2]]; [discriminate|]. unfold op_lti_recurN. rewrite X1, X2. cbn [negb].
          destruct (lti_cpu_raw Fl B N M A zi x2 Af zf x' HA Hz Hx2) as (y & E & Hy). exists y. eexists. split; [exact E|]. split; [exact Hy|].
          intros b n m Hb Hn Hm. apply kstate_w; [exact HM|intros; apply RA; lia|intros; apply RZ; lia|intros; apply RU; lia|exact Hm]. }
  cbn [bind]. destruct oi as [i|]; cbn [picks].
  - rkt. cbn [Nat.eqb]. destruct Hi as (c & Hc). pose proof (pyidx_lt _ _ _ Hc).
    rewrite (select_ok y 2 i c) by (unfold size; rewrite (proj1 Hy); exact Hc).
    eexists _, yf. split; [reflexivity|]. split; [|exact Hb]. intros c' Hc'. rewrite Hc in Hc'. injection Hc' as <-.
    apply is3_P2 in Hy. apply is2_P1. nm (sel 2 c y). exact H0.
  - eexists _, yf. split; [reflexivity|]. auto.
Qed.

Lemma ext_bnd e B N M (A zi x : ten) (Af : nat -> nat -> nat -> F) (zf : nat -> nat -> F) (x' : nat -> nat -> nat -> F) oi :
  ext_avail e M -> (1 <= B)%nat -> (1 <= M)%nat ->
  matc B M A Af -> is2 zi B M zf -> drive B N M x x' -> idx_ok M oi ->
  exists y (yf : nat -> nat -> nat -> F), ext_ss_recur e A zi x oi = Ok y /\ picks B N M oi y yf /\
    forall b n m, (b < B)%nat -> (n < N)%nat -> (m < M)%nat ->
      bnd (2 * M * S n) (yf b n m) (state M (fun _ => Af b) (zf b) (x' b) (S n) m) (state_abs M (fun _ => Af b) (zf b) (x' b) (S n) m).
Proof.
  intros He HB HM HA Hz Hx Hi.
  apply (ext_rel e B N M A zi x Af Af (fun b i j => oabs (Af b i j)) zf zf (fun b i => oabs (zf b i)) x' x' (fun b n i => oabs (x' b n i)) oi 0 0); auto;
    intros; try apply bnd_leaf. apply (bmono 0%nat); [lia|]. apply bnd_leaf.
Qed.

Lemma drive_rank2 B N M (x : ten) (x' : nat -> nat -> nat -> F) : drive B N M x x' -> rk x = 2%nat ->
  forall b n m, (b < B)%nat -> (n < N)%nat -> (1 <= m)%nat -> (m < M)%nat -> x' b n m = 0 /\ oabs (x' b n m) = 0.
Proof.
  intros Hx Hk b n m Hb Hn Hm1 Hm. destruct Hx as [f Hx Hxu|Hx].
  - rewrite Hxu by assumption. destruct m as [|m]; [lia|]. cbn [Nat.eqb]. split; [reflexivity|apply abs_0].
  - unfold rk in Hk. rewrite (proj1 Hx) in Hk. discriminate.
Qed.

(** ** Every way of running the recursion *)
Lemma ssr_bnd e B N M (A zi x : ten) (Af : nat -> nat -> nat -> F) (zf : nat -> nat -> F) (x' : nat -> nat -> nat -> F) bs oi :
  (helion_backend_indicator e = true -> ext_avail e M) ->
  (1 <= B)%nat -> (1 <= N)%nat -> (1 <= M)%nat -> (1 <= bs)%nat ->
  matc B M A Af -> is2 zi B M zf -> drive B N M x x' -> idx_ok M oi ->
  exists y (yf : nat -> nat -> nat -> F), state_space_recursion e A zi x bs oi = Ok y /\ picks B N M oi y yf /\
    forall b n m, (b < B)%nat -> (n < N)%nat -> (m < M)%nat ->
      bnd (2 * M * S n) (yf b n m) (state M (fun _ => Af b) (zf b) (x' b) (S n) m) (state_abs M (fun _ => Af b) (zf b) (x' b) (S n) m).
Proof.
  intros He HB HN HM Hbs HA Hz Hx Hi. unfold state_space_recursion.
  assert (Hs1 : size x 1 = N) by (destruct Hx as [f Hx _|Hx]; unfold size; now rewrite (proj1 Hx)). rewrite Hs1.
  assert (HL : leaf_ok Fl F (P_Round.bnd F u) e B M).
  { destruct (helion_backend_indicator e) eqn:Eh.
    - intros N' A' zi' y' Af' zf' u' ae am ze zm ue um oi' w0 c0 HN' HA' Hz' Hx' Hi' RA RZ RU. rewrite Eh.
      apply (ext_rel e B N' M A' zi' y' Af' ae am zf' ze zm u' ue um oi' w0 c0); auto.
    - apply (leaf_loop Fl F (P_Round.bnd F u) (bnd_mono F u Hu) badd bmul (bnd_0 F u) (rd_0l _ _ _ _ HR) e B M HM Eh). }
  destruct (ssr_fuel_rel Fl F (P_Round.bnd F u) (bnd_mono F u Hu) (bnd_add F u Hu fadd fmul fsub HR) (bnd_mul F u Hu fadd fmul fsub HR)
    (bnd_0 F u) (bnd_1 F u Hu) (fmul_0_r F u fadd fmul fsub HR) (rd_0l _ _ _ _ HR) (rd_0r _ _ _ _ HR) (rd_1r _ _ _ _ HR)
    e B M (S N) HL HB HM N A zi x Af zf x' Af (fun b i j => oabs (Af b i j)) zf (fun b i => oabs (zf b i)) x' (fun b n i => oabs (x' b n i)) bs oi 0 0)
    as (y & yf & E & Hy & G); auto.
  - intros. apply bnd_leaf.
  - intros. apply bnd_leaf.
  - intros. apply (bmono 0%nat); [lia|]. apply bnd_leaf.
  - intros Hk b n m Hb Hn Hm1 Hm. now apply (drive_rank2 B N M x x').
  - exists y, yf. auto.
Qed.

(** ** Products with leaf coefficients *)
Lemma prodl c a v e m : bnd c v e m -> bnd (S c) (fmul a v) (a * e) (oabs a * m).
Proof. intro H. apply (bmono (S (0 + c))); [lia|]. apply bmul; [apply bnd_leaf|exact H]. Qed.
Lemma prodr c a v e m : bnd c v e m -> bnd (S c) (fmul v a) (a * e) (oabs a * m).
Proof.
  intro H. replace (a * e) with (e * a) by ring. replace (oabs a * m) with (m * oabs a) by ring.
  apply (bmono (S (c + 0))); [lia|]. apply bmul; [exact H|apply bnd_leaf].
Qed.
Lemma dotb K c (v e m : nat -> F) : (forall k, (k < K)%nat -> bnd (S c) (v k) (e k) (m k)) ->
  bnd (c + K) (bsum (R := Fl) K v) (bsum K e) (bsum K m).
Proof. intro H. destruct K as [|K]; [apply bnd_0|]. apply (bmono (S c + (S K - 1))%nat); [lia|]. now apply bsums. Qed.
Lemma dot1 c v (e m : nat -> F) : bnd c v (e 0%nat) (m 0%nat) -> bnd c v (bsum 1 e) (bsum 1 m).
Proof. intro H. cbn [bsum]. replace (0 + e 0%nat) with (e 0%nat) by ring. now replace (0 + m 0%nat) with (m 0%nat) by ring. Qed.
Lemma diagb K c v p (a f g : nat -> F) : (p < K)%nat -> (forall k, (k < K)%nat -> k <> p -> a k = 0) ->
  bnd c v (a p * f p) (oabs (a p) * g p) -> bnd c v (bsum K (fun k => a k * f k)) (bsum K (fun k => oabs (a k) * g k)).
Proof.
  intros Hp Ha H.
  rewrite (bsum_one K _ p Hp) by (intros k Hk Hne; rewrite Ha by assumption; ring).
  rewrite (bsum_one K (fun k => oabs (a k) * g k) p Hp); [exact H|].
  intros k Hk Hne. rewrite Ha by assumption. rewrite abs_0. ring.
Qed.
Lemma bnd_abs1 c v e m : bnd c v e m -> bnd c v (1 * e) (oabs 1 * m).
Proof. rewrite abs_pos by apply ole_0_1. replace (1 * e) with e by ring. now replace (1 * m) with m by ring. Qed.
Lemma bnd_abs0 c : forall e m, bnd c 0 (0 * e) (oabs 0 * m).
Proof. intros e m. rewrite abs_0. replace (0 * e) with (0 : F) by ring. replace (0 * m) with (0 : F) by ring. apply bnd_0. Qed.

Lemma ss_input_bnd B N M G (x : ten) (xf : nat -> nat -> nat -> F) (Bt : option ten) (Bm : nat -> nat -> nat -> F) :
  sigv B N G x xf -> inmat B M G Bt Bm ->
  exists y (yv : nat -> nat -> nat -> F), ss_input x Bt B M = Ok y /\ drive B N M y yv /\
    forall b n m, (b < B)%nat -> (n < N)%nat -> (m < M)%nat ->
      bnd (width G) (yv b n m) (bsum (width G) (fun k => Bm b m k * xf b n k)) (bsum (width G) (fun k => oabs (Bm b m k) * oabs (xf b n k))).
Proof.
  intros Hx HB. destruct (sig_size Fl _ _ _ _ _ Hx) as (_ & _ & _ & Hfe & Hrk). unfold ss_input.
  destruct HB as [f Hf|f Hf|t g f Ht Hf|t g f Ht Hf|K t g f Ht Hne Hf|K t g f Ht Hf]; cbn [width] in *.
  - exists x, (fun b n m => if m =? 0 then xf b n 0%nat else 0). split; [reflexivity|]. unfold sigv in Hx. split; [eapply drive_2; [exact Hx|]; reflexivity|].
    intros b n m Hb Hn Hm. apply dot1. rewrite (Hf b m 0%nat) by lia. unfold unit3. destruct (m =? 0)%nat.
    + apply bnd_abs1. apply (bmono 0%nat); [lia|]. apply bnd_leaf.
    + apply bnd_abs0.
  - exists x, xf. split; [reflexivity|]. unfold sigv in Hx. split; [now apply drive_3|].
    intros b n m Hb Hn Hm. apply (diagb M M _ m (f b m) (xf b n) (fun k => oabs (xf b n k)) Hm).
    + intros k Hk Hkm. rewrite Hf by lia. unfold unit3. destruct (Nat.eqb_spec m k); [lia|reflexivity].
    + rewrite Hf by lia. unfold unit3. rewrite Nat.eqb_refl. apply bnd_abs1. apply (bmono 0%nat); [lia|]. apply bnd_leaf.
  - cbn [sigv] in Hx. rewrite (proj1 Ht), Nat.eqb_refl. rkt. cbn [Nat.eqb].
    assert (Hu3 : is3 (unsqueeze 2 x) B N 1 (fun b n _ => xf b n 0%nat)).
    { apply is2_P1 in Hx. nm (unsqueeze 2 x). apply is3_P2. exact H. }
    set (v := unsqueeze 2 x) in *. clearbody v. apply is3_PP1 in Hu3. apply is1_P in Ht. unfold tmul.
    eat @P1_ewl; [exact Hu3|exact Ht|bdt|]. eexists w, _. split; [reflexivity|]. split; [apply (@drive_3 Fl), (PP1_is3 Fl); exact H|].
    intros b n m Hb Hn Hm. cbn [nth]. apply dot1. rewrite Hf by lia. rewrite (bi_lt M) by lia. apply prodr, bnd_leaf.
  - cbn [sigv] in Hx. rewrite (proj1 Ht), !Nat.eqb_refl. rkt. cbn [Nat.eqb andb]. apply is2_P1 in Hx, Ht.
    nm (unsqueeze 2 x). nm (unsqueeze 1 t). unfold tmul. eat @P2_ew; [exact H|exact H0|bdt|bdt|].
    eexists w, _. split; [reflexivity|]. split; [apply (@drive_3 Fl), (P2_is3 Fl); exact H1|].
    intros b n m Hb Hn Hm. cbn [nth]. apply dot1. rewrite Hf by lia. rewrite !(bi_lt M), (bi_lt N) by lia. apply prodr, bnd_leaf.
  - cbn [sigv] in Hx. rewrite (proj1 Ht), Hfe. cbn [feq]. rewrite !Nat.eqb_refl. cbn [andb].
    replace ((M =? B) && (K =? M))%nat with false by (symmetry; apply andb_false_iff; destruct Hne; [left|right]; now apply Nat.eqb_neq).
    apply is3_P2 in Hx. apply is2_P in Ht. nm (mT t). mm. eexists w, _. split; [reflexivity|]. split; [apply (@drive_3 Fl), (P2_is3 Fl); exact H0|].
    intros b n m Hb Hn Hm. cbn [nth]. apply (dotb K 0). intros k Hk. rewrite Hf by lia. apply prodr, bnd_leaf.
  - cbn [sigv] in Hx. rewrite (proj1 Ht), Hfe. cbn [feq]. rewrite !Nat.eqb_refl. cbn [andb].
    apply is3_P2 in Hx, Ht. nm (unsqueeze 1 t). nm (tconj v). replace (rk x - 1)%nat with 2%nat by dimt.
    nm (unsqueeze 2 x). vdot. eexists w, _. split; [reflexivity|]. split; [apply (@drive_3 Fl), (P2_is3 Fl); exact H2|].
    intros b n m Hb Hn Hm. cbn [nth]. apply (dotb K 0). intros k Hk. cbn [conj flops].
    rewrite (bi_lt N), (bi_lt M) by lia. rewrite Hf by lia. apply prodl, bnd_leaf.
Qed.
Lemma ssm_Ch_bnd B N M P (h C : ten) (hv he hm : nat -> nat -> nat -> F) (Cm : nat -> nat -> nat -> F) (c : nat -> nat) :
  is3 h B N M hv -> (forall b n m, (b < B)%nat -> (n < N)%nat -> (m < M)%nat -> bnd (c n) (hv b n m) (he b n m) (hm b n m)) ->
  outmat B M None (Some C) P Cm ->
  exists y (yv : nat -> nat -> nat -> F), ssm_Ch h C B M = Ok y /\ sigv B N P y yv /\
    forall b n p, (b < B)%nat -> (n < N)%nat -> (p < width P)%nat ->
      bnd (c n + M) (yv b n p) (bsum M (fun m => Cm b p m * he b n m)) (bsum M (fun m => oabs (Cm b p m) * hm b n m)).
Proof.
  intros Hh Hhb HC. unfold ssm_Ch.
  remember (@None Z) as oi eqn:Eo. remember (Some C) as C' eqn:EC.
  destruct HC as [f Hf|i k f Hk Hf|t g f Ht Hf|t g f Ht Hf|K t g f Ht Hne Hf|K t g f Ht Hf]; try discriminate;
    injection EC as ->; apply is3_P2 in Hh; rewrite (proj1 Ht), ?Nat.eqb_refl.
  - mm. eexists w, _. split; [reflexivity|]. split; [apply (P1_sig Fl); exact H|].
    intros b n p Hb Hn Hp. cbn [width] in Hp. cbn [nth]. apply dotb. intros m Hm. rewrite Hf by lia. apply prodr. now apply Hhb.
  - cbn [andb]. apply is2_P1 in Ht. nm (unsqueeze 1 C). nm (tconj v). vdot. eexists w, _. split; [reflexivity|]. split; [apply (P1_sig Fl); exact H1|].
    intros b n p Hb Hn Hp. cbn [width] in Hp. cbn [nth].
    apply dotb. intros m Hm. cbn [conj flops]. rewrite (bi_lt N) by lia. rewrite Hf by lia. apply prodl. now apply Hhb.
  - bfalse (K =? B)%nat. cbn [andb]. apply is2_P in Ht. nm (mT C). mm. eexists w, _. split; [reflexivity|]. split; [apply (P2_sig Fl); exact H0|].
    intros b n p Hb Hn Hp. cbn [width] in Hp. cbn [nth].
    apply dotb. intros m Hm. rewrite Hf by lia. apply prodr. now apply Hhb.
  - cbn [andb]. apply is3_P2 in Ht. nm (mT C). mm. eexists w, _. split; [reflexivity|]. split; [apply (P2_sig Fl); exact H0|].
    intros b n p Hb Hn Hp. cbn [width] in Hp. cbn [nth].
    apply dotb. intros m Hm. rewrite Hf by lia. apply prodr. now apply Hhb.
Qed.
Lemma ssm_Dx_bnd B N G P (x D : ten) (xf Dm : nat -> nat -> nat -> F) :
  sigv B N G x xf -> feed B G P (Some D) Dm ->
  exists y (yv : nat -> nat -> nat -> F), ssm_Dx x D B = Ok y /\ sigv B N P y yv /\
    forall b n p, (b < B)%nat -> (n < N)%nat -> (p < width P)%nat ->
      bnd (width G) (yv b n p) (bsum (width G) (fun k => Dm b p k * xf b n k)) (bsum (width G) (fun k => oabs (Dm b p k) * oabs (xf b n k))).
Proof.
  intros Hx HD. destruct (sig_size Fl _ _ _ _ _ Hx) as (_ & _ & _ & Hfe & Hrk). unfold ssm_Dx. rewrite Hfe.
  remember (Some D) as D' eqn:ED.
  destruct HD as [G P f Hf|t v f Ht Hf|t g f Ht Hf|t g f Ht Hf|P t g f Ht H1 H2 Hf|P t g f Ht Hf
    |K t v f Ht Hf|K t g f Ht H1 H2 Hf|K t g f Ht Hf|K t g f Ht Hf|K P t g f Ht Hne Hf|K P t g f Ht Hf];
    try discriminate; injection ED as ->; rewrite (proj1 Ht), ?Hrk; cbn [feq width]; rewrite ?Nat.eqb_refl;
    unfold sigv in Hx.
  - apply is2_P1 in Hx. ew2. eexists w, _. split; [reflexivity|]. split; [apply (P1_sig Fl); exact H|].
    intros b n p Hb Hn Hp. cbn [width] in Hp. cbn [nth]. apply dot1. rewrite Hf by lia. first [apply prodr, bnd_leaf|apply prodl, bnd_leaf].
  - destruct (1 =? B)%nat eqn:E; b2p; [subst B|cbn [Nat.eqb]].
    + apply is1_P0 in Ht. assert (Hx3 : isP1 (unsqueeze 1 D) [1%nat] 1 (fun q _ => g (nth 0 q 0%nat))) by (eapply P0_unsq0; [exact Ht|reflexivity] || (eapply P0_unsq0 with (d := 1%nat) in Ht; [exact Ht|reflexivity])).
      apply is2_P1 in Hx. unfold tmul. eat @P1_ew; [exact Hx3|exact Hx|bdt|].
      eexists w, _. split; [reflexivity|]. split; [apply (P1_sig Fl); exact H|].
    intros b n p Hb Hn Hp. cbn [width] in Hp. cbn [nth]. apply dot1. rewrite Hf by lia.
      rewrite (bi_lt N) by lia. replace b with 0%nat by lia. first [apply prodr, bnd_leaf|apply prodl, bnd_leaf].
    + apply is2_P1 in Hx. apply is1_P in Ht. unfold tmul. eat @P1_ewl; [exact Hx|exact Ht|bdt|].
      eexists w, _. split; [reflexivity|]. split; [apply (P1_sig Fl); exact H|].
    intros b n p Hb Hn Hp. cbn [width] in Hp. cbn [nth]. apply dot1. rewrite Hf by lia.
      rewrite (bi_lt N) by lia. rewrite ?bi_1. first [apply prodr, bnd_leaf|apply prodl, bnd_leaf].
  - apply is1_P0 in Ht. assert (Hx3 : isP1 (unsqueeze 1 D) [B] 1 (fun q _ => g (nth 0 q 0%nat))) by (eapply P0_unsq0; [exact Ht|reflexivity]).
    apply is2_P1 in Hx. unfold tmul. eat @P1_ew; [exact Hx3|exact Hx|bdt|].
    eexists w, _. split; [reflexivity|]. split; [apply (P1_sig Fl); exact H|].
    intros b n p Hb Hn Hp. cbn [width] in Hp. cbn [nth]. apply dot1. rewrite Hf by lia.
    rewrite (bi_lt N) by lia. first [apply prodr, bnd_leaf|apply prodl, bnd_leaf].
  - bfalse (P =? B)%nat. bfalse (P =? 1)%nat. rkt.
    assert (Hx3 : is3 (unsqueeze 2 x) B N 1 (fun b n _ => xf b n 0%nat)).
    { apply is2_P1 in Hx. nm (unsqueeze 2 x). apply is3_P2. exact H. }
    set (v := unsqueeze 2 x) in *. clearbody v. apply is3_PP1 in Hx3. apply is1_P in Ht. unfold tmul.
    eat @P1_ewr; [exact Ht|exact Hx3|bdt|]. eexists w, _. split; [reflexivity|]. split; [apply (PP1_sig Fl); exact H|].
    intros b n p Hb Hn Hp. cbn [width] in Hp. cbn [nth]. apply dot1. rewrite Hf by lia.
    rewrite (bi_lt P) by lia. rewrite ?bi_1. first [apply prodr, bnd_leaf|apply prodl, bnd_leaf].
  - rewrite andb_false_r. rkt. apply is2_P1 in Hx, Ht. nm (unsqueeze 2 x). nm (unsqueeze 1 D). unfold tmul.
    eat @P2_ew; [exact H0|exact H|bdt|bdt|]. eexists w, _. split; [reflexivity|]. split; [apply (P2_sig Fl); exact H1|].
    intros b n p Hb Hn Hp. cbn [width] in Hp. cbn [nth]. apply dot1. rewrite Hf by lia.
    rewrite (bi_lt N), (bi_lt P) by lia. rewrite ?bi_1. first [apply prodr, bnd_leaf|apply prodl, bnd_leaf].
  - apply is3_P2 in Hx. ew2. eexists w, _. split; [reflexivity|]. split; [apply (P2_sig Fl); exact H|].
    intros b n p Hb Hn Hp. cbn [width] in Hp. cbn [nth].
    apply (diagb K K _ p (f b p) (xf b n) (fun k => oabs (xf b n k))); [lia|intros k Hk Hne; rewrite Hf by lia; destruct (Nat.eqb_spec p k); [lia|reflexivity]|].
    rewrite Hf by lia. rewrite Nat.eqb_refl. apply (bmono 1%nat); [lia|]. first [apply prodr, bnd_leaf|apply prodl, bnd_leaf].
  - bfalse (1 =? K)%nat. bfalse (1 =? B)%nat. cbn [Nat.eqb]. apply is3_PP1 in Hx. apply is1_P in Ht. unfold tmul.
    eat @P1_ewl; [exact Hx|exact Ht|bdt|]. eexists w, _. split; [reflexivity|]. split; [apply (PP1_sig Fl); exact H|].
    intros b n p Hb Hn Hp. cbn [width] in Hp. cbn [nth].
    apply (diagb K K _ p (f b p) (xf b n) (fun k => oabs (xf b n k))); [lia|intros k Hk Hne; rewrite Hf by lia; destruct (Nat.eqb_spec p k); [lia|reflexivity]|].
    rewrite Hf by lia. rewrite Nat.eqb_refl. rewrite (bi_lt K) by lia. rewrite ?bi_1. apply (bmono 1%nat); [lia|]. first [apply prodr, bnd_leaf|apply prodl, bnd_leaf].
  - apply is3_P2 in Hx. mm. eexists w, _. split; [reflexivity|]. split; [apply (P1_sig Fl); exact H|].
    intros b n p Hb Hn Hp. cbn [width] in Hp. cbn [nth]. apply (dotb _ 0). intros m Hm. rewrite Hf by lia. apply prodr, bnd_leaf.
  - cbn [andb]. apply is2_P1 in Ht. apply is3_P2 in Hx. nm (unsqueeze 1 D). nm (tconj v). vdot. eexists w, _. split; [reflexivity|]. split; [apply (P1_sig Fl); exact H1|].
    intros b n p Hb Hn Hp. cbn [width] in Hp. cbn [nth].
    apply (dotb _ 0). intros m Hm. cbn [conj flops]. rewrite (bi_lt N) by lia. rewrite Hf by lia. apply prodl, bnd_leaf.
  - bfalse (P =? B)%nat. cbn [andb]. apply is3_P2 in Hx. apply is2_P in Ht. nm (mT D). mm. eexists w, _. split; [reflexivity|]. split; [apply (P2_sig Fl); exact H0|].
    intros b n p Hb Hn Hp. cbn [width] in Hp. cbn [nth].
    apply (dotb _ 0). intros m Hm. rewrite Hf by lia. apply prodr, bnd_leaf.
  - cbn [andb]. apply is3_P2 in Hx, Ht. nm (unsqueeze 1 D). nm (tconj v). replace (rk x - 1)%nat with 2%nat by dimt.
    nm (unsqueeze 2 x). vdot. eexists w, _. split; [reflexivity|]. split; [apply (P2_sig Fl); exact H2|].
    intros b n p Hb Hn Hp. cbn [width] in Hp. cbn [nth]. apply (dotb _ 0). intros k Hk. cbn [conj flops]. rewrite (bi_lt N), (bi_lt P) by lia. rewrite Hf by lia. apply prodl, bnd_leaf.
Qed.

Notation ab2 f := (fun i j => oabs (f i j)).
(** ** state_space.  [K] counts the roundings of B x, 2M each step, M the product with C,
    and one the addition of D x. *)
Theorem state_space_bnd e B N M G P (A x : ten) (Bt C D zi : option ten) uf oi (Af xf Bm Cm Dm : nat -> nat -> nat -> F) (z0 : nat -> nat -> F) :
  (1 <= B)%nat -> (1 <= N)%nat -> (1 <= M)%nat -> backend_ok e M -> unroll_ok uf ->
  matc B M A Af -> sigv B N G x xf ->
  inmat B M G Bt Bm -> outmat B M oi C P Cm -> feed B G P D Dm -> init B M zi z0 ->
  exists y zf (yv : nat -> nat -> nat -> F), state_space e A x Bt C D zi uf oi = Ok (y, zf) /\ sigv B N P y yv /\
    (forall b n p, (b < B)%nat -> (n < N)%nat -> (p < width P)%nat ->
      bnd (2 * M * n + M + width G + 1) (yv b n p)
        (ss_y M (width G) (fun _ => Af b) (fun _ => Bm b) (fun _ => Cm b) (fun _ => Dm b) (z0 b) (xf b) n p)
        (ss_y M (width G) (fun _ => ab2 (Af b)) (fun _ => ab2 (Bm b)) (fun _ => ab2 (Cm b)) (fun _ => ab2 (Dm b)) (fun m => oabs (z0 b m)) (ab2 (xf b)) n p)) /\
    match zi with
    | None => zf = None
    | Some _ => exists z (zv : nat -> nat -> F), zf = Some z /\ is2 z B M zv /\
        forall b m, (b < B)%nat -> (m < M)%nat -> bnd (2 * M * N + width G) (zv b m)
          (ss_h M (width G) (fun _ => Af b) (fun _ => Bm b) (z0 b) (xf b) N m)
          (ss_h M (width G) (fun _ => ab2 (Af b)) (fun _ => ab2 (Bm b)) (fun m => oabs (z0 b m)) (ab2 (xf b)) N m)
    end.
Proof.
  intros HB HN HM He Hu' HA Hx HBm HC HD Hz.
  destruct (sig_size Fl _ _ _ _ _ Hx) as (Hs0 & Hs1 & Hrk & Hfe & Hrk2).
  unfold state_space. rewrite Hs0, Hs1, Hrk.
  assert (((rk A =? 2) || (rk A =? 3))%bool = true) as ->
    by (destruct HA as [g HA _|HA]; rkt; reflexivity).
  assert (sizen A 1 = M) as -> by (destruct HA as [g HA _|HA]; unfold sizen, rk; now rewrite (proj1 HA)).
  assert (sizen A 2 = M) as -> by (destruct HA as [g HA _|HA]; unfold sizen, rk; now rewrite (proj1 HA)).
  assert ((negb (rk A =? 3) || (B =? size A 0))%bool = true) as ->.
  { destruct HA as [g HA _|HA]; rkt; [reflexivity|]. unfold size. rewrite (proj1 HA). cbn [nth]. now rewrite !Nat.eqb_refl. }
  rewrite Nat.eqb_refl.
  assert (match C, oi with Some _, Some _ => false | _, _ => true end = true) as -> by (destruct HC; reflexivity).
  destruct (ss_zi_spec Fl B M x zi z0 HM Hz) as (z & -> & Hzz). cbn [bind]. cbv zeta.
  set (uu := match uf with Some k => k | None => round_sqrt N end) in *.
  assert (1 <= uu)%nat as Hu1 by (unfold uu; destruct uf; [exact Hu'|now apply round_sqrt_pos]).
  destruct (ss_input_bnd B N M G x xf Bt Bm Hx HBm) as (Bx & bx & -> & HBx & Rbx). cbn [bind].
  set (h := fun b n => ss_h M (width G) (fun _ => Af b) (fun _ => Bm b) (z0 b) (xf b) n).
  set (ha := fun b n => ss_h M (width G) (fun _ => ab2 (Af b)) (fun _ => ab2 (Bm b)) (fun m => oabs (z0 b m)) (ab2 (xf b)) n).
  assert (Hrun : forall oi', idx_ok M oi' -> exists y (yv : nat -> nat -> nat -> F),
    (if extension_backend_indicator e M && (uu =? 1) then ext_ss_recur e A z Bx oi'
     else state_space_recursion e A z Bx uu oi') = Ok y /\ picks B N M oi' y yv /\
    forall b n m, (b < B)%nat -> (n < N)%nat -> (m < M)%nat -> bnd (2 * M * S n + width G) (yv b n m) (h b (S n) m) (ha b (S n) m)).
  { intros oi' Hoi'.
    assert (exists y (yv : nat -> nat -> nat -> F),
      (if extension_backend_indicator e M && (uu =? 1) then ext_ss_recur e A z Bx oi'
       else state_space_recursion e A z Bx uu oi') = Ok y /\ picks B N M oi' y yv /\
      forall b n m, (b < B)%nat -> (n < N)%nat -> (m < M)%nat ->
        bnd (2 * M * S n) (yv b n m) (state M (fun _ => Af b) (z0 b) (bx b) (S n) m) (state_abs M (fun _ => Af b) (z0 b) (bx b) (S n) m))
      as (y & yv & E & Hy & Rb).
    { destruct (extension_backend_indicator e M && (uu =? 1))%bool eqn:Ee.
      - apply andb_true_iff in Ee as [Ee _]. destruct (backend_ext e M He Ee). now apply ext_bnd.
      - apply ssr_bnd; auto. intro Eh. now apply backend_helion. }
    exists y, yv. split; [exact E|]. split; [exact Hy|]. intros b n m Hb Hn Hm.
    assert (X1 : forall k i j, (k < S n)%nat -> (i < M)%nat -> (j < M)%nat -> bnd 0 (Af b i j) (Af b i j) (oabs (Af b i j))) by (intros; apply bnd_leaf).
    assert (X2 : forall i, (i < M)%nat -> bnd (width G) (z0 b i) (z0 b i) (oabs (z0 b i))) by (intros; apply (bmono 0%nat); [lia|apply bnd_leaf]).
    assert (X3 : forall k i, (k < S n)%nat -> (i < M)%nat -> bnd (width G) (bx b k i)
       (bsum (width G) (fun j => Bm b i j * xf b k j)) (bsum (width G) (fun j => oabs (Bm b i j) * oabs (xf b k j)))) by (intros; apply Rbx; lia).
    pose proof (state_pert M 0 (width G) (width G) (fun _ => Af b) (fun _ => Af b) (fun _ => ab2 (Af b)) _ _ _ _ _ _ (S n) ltac:(lia) X1 X2 X3 m Hm) as Y1.
    destruct (state_mag M 0 (width G) (width G) (fun _ => Af b) (fun _ => Af b) (fun _ => ab2 (Af b)) _ _ _ _ _ _ (S n) ltac:(lia) X1 X2 X3 m Hm) as [_ Y2].
    cbn [Nat.mul] in Y1, Y2. rewrite Nat.add_0_r in Y1, Y2. eapply bnd_comp; [now apply Rb|exact Y1|exact Y2]. }
  assert (Hoi : idx_ok M oi) by (destruct HC; cbn [idx_ok]; eauto).
  destruct (Hrun (match zi with None => oi | Some _ => None end)) as (yr & yv & Er & Hr & Rr); [destruct zi; [exact I|exact Hoi]|].
  clear Hrun.
  set (hv := fun b n m => match n with O => z0 b m | S k => yv b k m end).
  assert (Rh : forall b n m, (b < B)%nat -> (n <= N)%nat -> (m < M)%nat -> bnd (2 * M * n + width G) (hv b n m) (h b n m) (ha b n m)).
  { intros b n m Hb Hn Hm. destruct n as [|n]; cbn [hv].
    - apply (bmono 0%nat); [lia|]. apply bnd_leaf.
    - apply Rr; lia. }
  destruct (ss_states Fl B N M z zi z0 oi (fun oi' => if extension_backend_indicator e M && (uu =? 1) then ext_ss_recur e A z Bx oi'
     else state_space_recursion e A z Bx uu oi') hv yr HN HM Hzz Hoi (fun _ _ => eq_refl) (Logic.conj Er Hr)) as (hh & zf & -> & Hhh & Hzf).
  cbn [bind].
  assert (Hz' : match zi with
    | None => zf = None
    | Some _ => exists z (zv : nat -> nat -> F), zf = Some z /\ is2 z B M zv /\
        forall b m, (b < B)%nat -> (m < M)%nat -> bnd (2 * M * N + width G) (zv b m) (h b N m) (ha b N m) end).
  { destruct zi; [|exact Hzf]. destruct Hzf as (z' & -> & Hz'). exists z'. eexists. split; [reflexivity|]. split; [exact Hz'|].
    intros b m Hb Hm. now apply Rh. }
  assert (exists y (yv : nat -> nat -> nat -> F), ssm_C_D hh x C D B M = Ok y /\ sigv B N P y yv /\
    forall b n p, (b < B)%nat -> (n < N)%nat -> (p < width P)%nat -> bnd (2 * M * n + M + width G + 1) (yv b n p)
      (bsum M (fun m => Cm b p m * h b n m) + bsum (width G) (fun k => Dm b p k * xf b n k))
      (bsum M (fun m => oabs (Cm b p m) * ha b n m) + bsum (width G) (fun k => oabs (Dm b p k) * oabs (xf b n k)))) as (y & yo & -> & Hy & Ry).
  2: { exists y, zf, yo. split; [reflexivity|]. split; [exact Hy|]. split; [exact Ry|exact Hz']. }
  clear Hz' Hzf Er Hr Rr yr. clearbody hv. clear yv.
  unfold ssm_C_D.
  assert (exists Ch (cv : nat -> nat -> nat -> F), match C with Some C => ssm_Ch hh C B M | None => Ok hh end = Ok Ch /\ sigv B N P Ch cv /\
    forall b n p, (b < B)%nat -> (n < N)%nat -> (p < width P)%nat -> bnd (2 * M * n + width G + M) (cv b n p)
      (bsum M (fun m => Cm b p m * h b n m)) (bsum M (fun m => oabs (Cm b p m) * ha b n m))) as (Ch & cv & ECh & HCh & Rc).
  { destruct C as [C|].
    - assert (oi = None) as -> by (remember (Some C) as C' eqn:E; destruct HC; auto; discriminate).
      cbn [picks] in Hhh. apply (ssm_Ch_bnd B N M P hh C hv h ha Cm (fun n => 2 * M * n + width G)%nat Hhh); [|exact HC].
      intros b n m Hb Hn Hm. apply Rh; lia.
    - exists hh. 
      remember (@None ten) as C' eqn:E in HC. destruct HC as [f Hf|i k f Hk Hf| | | | ]; try discriminate; unfold sigv, picks in *.
      + exists hv. split; [reflexivity|]. split; [exact Hhh|]. intros b n p Hb Hn Hp. cbn [width] in Hp. apply (bmono (2 * M * n + width G)%nat); [lia|].
        apply (diagb M _ _ p (f b p) (h b n) (ha b n) Hp).
        * intros k Hk Hne. rewrite Hf by lia. unfold unit3. destruct (Nat.eqb_spec p k); [lia|reflexivity].
        * rewrite Hf by lia. unfold unit3. rewrite Nat.eqb_refl. apply bnd_abs1. apply Rh; lia.
      + exists (fun b n _ => hv b n k). split; [reflexivity|]. split; [exact (Hhh k Hk)|]. intros b n p Hb Hn Hp. cbn [width] in Hp.
        apply (bmono (2 * M * n + width G)%nat); [lia|]. apply pyidx_lt in Hk.
        apply (diagb M _ _ k (f b p) (h b n) (ha b n) Hk).
        * intros j Hj Hne. rewrite Hf by lia. unfold unit3. destruct (Nat.eqb_spec k j); [lia|reflexivity].
        * rewrite Hf by lia. unfold unit3. rewrite Nat.eqb_refl. apply bnd_abs1. apply Rh; lia. }
  destruct D as [D|].
  - destruct (ssm_Dx_bnd B N G P x D xf Dm Hx HD) as (Dx & dv & -> & HDx & Rd). cbn [bind]. rewrite ECh. cbn [bind].
    assert (R1 : forall b n p, (b < B)%nat -> (n < N)%nat -> (p < width P)%nat -> bnd (2 * M * n + M + width G + 1) (fadd (cv b n p) (dv b n p))
      (bsum M (fun m => Cm b p m * h b n m) + bsum (width G) (fun k => Dm b p k * xf b n k))
      (bsum M (fun m => oabs (Cm b p m) * ha b n m) + bsum (width G) (fun k => oabs (Dm b p k) * oabs (xf b n k)))).
    { intros b n p Hb Hn Hp. replace (2 * M * n + M + width G + 1)%nat with (S (2 * M * n + width G + M)) by lia.
      apply badd; [now apply Rc|]. apply (bmono (width G)); [lia|]. now apply Rd. }
    unfold tadd, sigv in *. destruct P as [P|].
    + apply is3_P2 in HCh, HDx. eat @P2_ew_same; [exact HCh|exact HDx|]. exists w, (fun b n p => fadd (cv b n p) (dv b n p)). split; [reflexivity|].
      split; [apply is3_P2; exact H|]. exact R1.
    + apply is2_P1 in HCh, HDx. eat @P1_ew_same; [exact HCh|exact HDx|]. exists w, (fun b n p => fadd (cv b n p) (dv b n p)). split; [reflexivity|].
      split; [apply is2_P1; exact H|]. exact R1.
  - cbn [bind]. rewrite ECh. cbn [bind]. exists Ch, cv. split; [reflexivity|]. split; [exact HCh|].
    intros b n p Hb Hn Hp. apply (bmono (2 * M * n + width G + M)%nat); [lia|].
    remember (@None ten) as D' eqn:E in HD. destruct HD as [G P f Hf| | | | | | | | | | | ]; try discriminate.
    match goal with |- bnd _ _ (_ + ?s) (_ + ?t) => replace s with (0 : F); [replace t with (0 : F)|] end.
    2: { symmetry. apply (bsum_0 (R := F)). intros k Hk. rewrite Hf by assumption. cbn [r0 flops]. rewrite abs_0. ring. }
    2: { symmetry. apply (bsum_0 (R := F)). intros k Hk. rewrite Hf by assumption. cbn [r0 flops]. ring. }
    match goal with |- bnd _ _ (?a + 0) (?b + 0) => replace (a + 0) with a by ring; replace (b + 0) with b by ring end. now apply Rc.
Qed.
End S.
