(** Bounds on the exact recursions of Spec*.v in terms of row sums of absolute values. *)
From Coq Require Import List Arith Lia ZArith Bool Ring.
From Verif Require Import Scalar Ordered Spec SpecFilter SpecLpv SpecRound SpecStable P_Round Algebra.
Open Scope cr_scope.

Section S.
Variable R : cring.
Variable K : ofield.
Variable v : absval R K.
Add Ring Rr : (r_th R).
Add Ring Kr : (r_th K).
Notation "x <= y" := (ole x y = true) : cr_scope.
Notation letr := (ole_trans K).

Lemma bsum_le n (f g : nat -> K) : (forall k, (k < n)%nat -> f k <= g k) -> bsum n f <= bsum n g.
Proof.
  induction n as [|n IH]; intro H; [apply ole_refl|]. rewrite !bsum_S. apply le_add; [apply IH; intros; apply H; lia|apply H; lia].
Qed.
Lemma bsum_pos n (f : nat -> K) : (forall k, (k < n)%nat -> 0 <= f k) -> 0 <= bsum n f.
Proof.
  intro H. apply (letr _ (bsum n (fun _ => 0 : K))); [rewrite bsum_0 by reflexivity; apply ole_refl|now apply bsum_le].
Qed.
Lemma av_sub x y : v (x - y) <= v x + v y.
Proof. replace (x - y) with (x + - y) by ring. eapply letr; [apply av_add|]. rewrite av_opp. apply ole_refl. Qed.
Lemma av_bsum n (f : nat -> R) : v (bsum n f) <= bsum n (fun k => v (f k)).
Proof.
  induction n as [|n IH]; [cbn; rewrite av_0; apply ole_refl|]. rewrite !bsum_S. eapply letr; [apply av_add|].
  apply le_add; [exact IH|apply ole_refl].
Qed.
Lemma weight_pos n (c : nat -> R) r : weight v n c r -> 0 <= r.
Proof. intro H. eapply letr; [|exact H]. apply bsum_pos. intros; apply av_pos. Qed.
Lemma av_dot n (c h : nat -> R) r s : 0 <= s -> weight v n c r -> (forall k, (k < n)%nat -> upto v s (h k)) ->
  v (bsum n (fun k => c k * h k)) <= r * s.
Proof.
  intros Hs Hc Hh. eapply letr; [apply av_bsum|]. apply (letr _ (bsum n (fun k => v (c k)) * s)).
  - rewrite <- bsum_mul_r. apply bsum_le. intros k Hk. eapply letr; [apply av_mul|]. apply le_mul_l; [apply av_pos|now apply Hh].
  - replace (bsum n (fun k => v (c k)) * s) with (s * bsum n (fun k => v (c k))) by ring.
    replace (r * s) with (s * r) by ring. now apply le_mul_l.
Qed.
Lemma le_add3 (a b x : K) : a <= b -> 0 <= x -> a <= x + b.
Proof. intros H Hx. replace a with (0 + a) by ring. now apply le_add. Qed.

Lemma sub_cancel (a b c : R) : a + b - (c + b) = a - c. Proof. ring. Qed.
Lemma mul_sub (a b c : R) : a * b - a * c = a * (b - c). Proof. ring. Qed.

(** ** Recursions *)
Lemma lin_bounded (a : nat -> R) h x r s c n : r * s + c <= s -> upto v s h ->
  (forall k, (k < n)%nat -> upto v r (a k)) -> (forall k, (k < n)%nat -> upto v c (x k)) -> upto v s (lin_rec a h x n).
Proof.
  intros Hs Hh Ha Hx. assert (Ps : 0 <= s) by (eapply letr; [apply (av_pos R K v h)|exact Hh]).
  assert (G : forall m, (m <= n)%nat -> upto v s (lin_rec a h x m)); [|now apply G].
  induction m as [|m IH]; intro Hm; [exact Hh|]. cbn [lin_rec]. eapply letr; [apply av_add|]. eapply letr; [|exact Hs].
  apply le_add; [|apply Hx; lia]. eapply letr; [apply av_mul|].
  apply le_mul; [apply av_pos|exact Ps|apply Ha; lia|apply IH; lia].
Qed.
Lemma state_bounded M (A : nat -> nat -> nat -> R) h u r s c n : (1 <= M)%nat -> r * s + c <= s ->
  (forall k i, (k < n)%nat -> (i < M)%nat -> weight v M (A k i) r) ->
  (forall i, (i < M)%nat -> upto v s (h i)) ->
  (forall k i, (k < n)%nat -> (i < M)%nat -> upto v c (u k i)) ->
  forall i, (i < M)%nat -> upto v s (state M A h u n i).
Proof.
  intros HM Hs HA Hh Hu. assert (Ps : 0 <= s) by (eapply letr; [apply (av_pos R K v (h 0%nat))|now apply Hh]).
  assert (G : forall m, (m <= n)%nat -> forall i, (i < M)%nat -> upto v s (state M A h u m i)); [|now apply G].
  induction m as [|m IH]; intros Hm i Hi; [now apply Hh|]. cbn [state]. unfold mvec. eapply letr; [apply av_add|].
  eapply letr; [|exact Hs]. apply le_add; [|apply Hu; lia]. apply av_dot; [exact Ps|apply HA; lia|]. intros k Hk. apply IH; lia.
Qed.
(** The difference of two trajectories with different starts. *)
Lemma state_forgets M (A : nat -> nat -> nat -> R) h h' u r s n : (1 <= M)%nat -> 0 <= r ->
  (forall k i, (k < n)%nat -> (i < M)%nat -> weight v M (A k i) r) ->
  (forall i, (i < M)%nat -> upto v s (h i - h' i)) ->
  forall i, (i < M)%nat -> upto v (rpow r n * s) (state M A h u n i - state M A h' u n i).
Proof.
  intros HM Hr HA Hh. assert (Ps : 0 <= s) by (eapply letr; [apply (av_pos R K v (h 0%nat - h' 0%nat))|now apply Hh]).
  assert (Pp : forall m, 0 <= rpow r m) by (induction m; cbn [rpow]; [apply ole_0_1|now apply ole_mul]).
  assert (G : forall m, (m <= n)%nat -> forall i, (i < M)%nat -> upto v (rpow r m * s) (state M A h u m i - state M A h' u m i)); [|now apply G].
  induction m as [|m IH]; intros Hm i Hi.
  - cbn [state rpow]. unfold upto. replace (1 * s) with s by ring. now apply Hh.
  - cbn [state rpow]. unfold mvec, upto.
    rewrite sub_cancel, <- bsum_sub. erewrite bsum_ext; [|intros k Hk; apply mul_sub].
    replace (r * rpow r m * s) with (r * (rpow r m * s)) by ring.
    apply av_dot; [now apply ole_mul|apply HA; lia|]. intros k Hk. apply IH; lia.
Qed.
Lemma ss_h_bounded M G (A B : nat -> nat -> nat -> R) h x r be s c n : (1 <= M)%nat -> 0 <= c -> r * s + be * c <= s ->
  (forall k i, (k < n)%nat -> (i < M)%nat -> weight v M (A k i) r) ->
  (forall k i, (k < n)%nat -> (i < M)%nat -> weight v G (B k i) be) ->
  (forall i, (i < M)%nat -> upto v s (h i)) -> (forall k j, (k < n)%nat -> (j < G)%nat -> upto v c (x k j)) ->
  forall i, (i < M)%nat -> upto v s (ss_h M G A B h x n i).
Proof.
  intros HM Hc Hs HA HB Hh Hx. apply (state_bounded M A h _ r s (be * c)); auto. intros k i Hk Hi. apply av_dot; [exact Hc|now apply HB|]. intros. now apply Hx.
Qed.
Lemma ss_y_bounded M G (A B C D : nat -> nat -> nat -> R) h x r be ga de s c n p : (1 <= M)%nat -> 0 <= c -> r * s + be * c <= s ->
  (forall k i, (k < n)%nat -> (i < M)%nat -> weight v M (A k i) r) ->
  (forall k i, (k < n)%nat -> (i < M)%nat -> weight v G (B k i) be) ->
  weight v M (C n p) ga -> weight v G (D n p) de ->
  (forall i, (i < M)%nat -> upto v s (h i)) -> (forall k j, (k <= n)%nat -> (j < G)%nat -> upto v c (x k j)) ->
  upto v (ga * s + de * c) (ss_y M G A B C D h x n p).
Proof.
  intros HM Hc Hs HA HB HC HD Hh Hx. assert (Ps : 0 <= s) by (eapply letr; [apply (av_pos R K v (h 0%nat))|now apply Hh]).
  unfold ss_y. eapply letr; [apply av_add|]. apply le_add.
  - apply av_dot; auto. intros k Hk. apply (ss_h_bounded M G A B h x r be s c n); auto. intros; apply Hx; lia.
  - apply av_dot; auto.
Qed.

(** ** Filters *)
Lemma filter_bounded P Q (b a x y : nat -> R) r be s c n : 0 <= s -> 0 <= c -> r * s + be * c <= s ->
  weight v Q a r -> weight v (S P) b be -> (forall k, (k <= n)%nat -> upto v c (x k)) ->
  (forall k, (k <= n)%nat -> solves_filter P Q b a x y k) -> upto v s (y n).
Proof.
  intros Ps Pc Hs Ha Hb Hx Hy.
  assert (G : forall m, (m <= n)%nat -> upto v s (y m)); [|now apply G].
  intro m. induction m as [m IH] using (well_founded_induction lt_wf). intro Hm.
  specialize (Hy m Hm). unfold solves_filter in Hy. unfold upto.
  replace (y m) with (bsum (S P) (fun k => b k * dly x k m) - bsum Q (fun k => a k * dly y (S k) m)) by (rewrite <- Hy; ring).
  eapply letr; [apply av_sub|]. eapply letr; [|exact Hs]. replace (r * s + be * c) with (be * c + r * s) by ring.
  assert (Z : forall t, 0 <= t -> upto v t (0 : R)) by (intros t Ht; unfold upto; now rewrite av_0).
  apply le_add; apply av_dot; auto; intros k Hk; unfold dly; match goal with |- context [Nat.leb ?q m] => destruct (Nat.leb_spec q m) end; auto.
  - apply Hx. lia.
  - apply IH; lia.
Qed.
Lemma conv_bounded P (b x : nat -> R) be c n : 0 <= c -> weight v (S P) b be -> (forall k, (k <= n)%nat -> upto v c (x k)) -> upto v (be * c) (conv P b x n).
Proof.
  intros Pc Hb Hx. unfold conv. apply av_dot; auto. intros k Hk. unfold dly. destruct (Nat.leb_spec k n); [apply Hx; lia|].
  unfold upto. now rewrite av_0.
Qed.
Lemma hist_bounded (y p : nat -> R) s n i : (forall k, (k < n)%nat -> upto v s (y k)) -> upto v s (p (i - n)%nat) -> upto v s (hist y p n i).
Proof. intros Hy Hp. unfold hist. destruct (Nat.ltb_spec i n); [apply Hy; lia|exact Hp]. Qed.
Lemma vpole_bounded M (a : nat -> nat -> R) (x y yp : nat -> R) r s c n : 0 <= s -> r * s + c <= s ->
  (forall k, (k <= n)%nat -> weight v M (a k) r) -> (forall k, (k <= n)%nat -> upto v c (x k)) -> (forall k, (k < M)%nat -> upto v s (yp k)) ->
  (forall k, (k <= n)%nat -> vpole M a x y yp k) -> upto v s (y n).
Proof.
  intros Ps Hs Ha Hx Hp Hy.
  assert (G : forall m, (m <= n)%nat -> upto v s (y m)); [|now apply G].
  intro m. induction m as [m IH] using (well_founded_induction lt_wf). intro Hm.
  specialize (Hy m Hm). unfold vpole in Hy. unfold upto.
  replace (y m) with (x m - bsum M (fun k => a m k * hist y yp m k)) by (rewrite <- Hy; ring).
  eapply letr; [apply av_sub|]. eapply letr; [|exact Hs]. replace (r * s + c) with (c + r * s) by ring.
  apply le_add; [now apply Hx|]. apply av_dot; auto. intros k Hk. apply hist_bounded; [intros; apply IH; lia|apply Hp; lia].
Qed.
Lemma vdf2_z_bounded M (a : nat -> nat -> R) (z x : nat -> R) r s c n : 0 <= s -> r * s + c <= s ->
  (forall k, (k < n)%nat -> weight v M (a k) r) -> (forall k, (k < n)%nat -> upto v c (x k)) -> (forall k, (k < M)%nat -> upto v s (z k)) ->
  forall i, (i < M + n)%nat -> upto v s (vdf2_z M a z x n i).
Proof.
  intros Ps Hs Ha Hx Hz.
  assert (G : forall m, (m <= n)%nat -> forall i, (i < M + m)%nat -> upto v s (vdf2_z M a z x m i)); [|now apply G].
  induction m as [|m IH]; intros Hm i Hi; cbn [vdf2_z]; [apply Hz; lia|]. destruct i as [|i]; [|apply IH; lia].
  unfold upto. eapply letr; [apply av_sub|]. eapply letr; [|exact Hs]. replace (r * s + c) with (c + r * s) by ring.
  apply le_add; [apply Hx; lia|]. apply av_dot; [exact Ps|apply Ha; lia|]. intros k Hk. apply IH; lia.
Qed.
Lemma vdf2_y_bounded M (b a : nat -> nat -> R) (z x : nat -> R) r be s c n : 0 <= s -> r * s + c <= s ->
  (forall k, (k <= n)%nat -> weight v M (a k) r) -> weight v (S M) (b n) be -> (forall k, (k <= n)%nat -> upto v c (x k)) -> (forall k, (k < M)%nat -> upto v s (z k)) ->
  upto v (be * s) (vdf2_y M b a z x n).
Proof.
  intros Ps Hs Ha Hb Hx Hz. unfold vdf2_y.
  replace (b n 0%nat * vdf2_z M a z x (S n) 0 + bsum M (fun k => b n (S k) * vdf2_z M a z x n k))
    with (bsum (S M) (fun k => b n k * vdf2_z M a z x (S n) k)) by (rewrite bsum_S_l; reflexivity).
  apply av_dot; auto. intros k Hk. apply (vdf2_z_bounded M a z x r s c (S n)); auto; try (intros; first [apply Ha|apply Hx]; lia). lia.
Qed.
Lemma comb_bounded d (a : R) (x y z : nat -> R) r s c n : (1 <= d)%nat -> 0 <= s -> r * s + c <= s -> upto v r a ->
  (forall k, (k <= n)%nat -> upto v c (x k)) -> (forall k, (k < d)%nat -> upto v s (z k)) ->
  (forall k, (k <= n)%nat -> solves_comb d a x y z k) -> upto v s (y n).
Proof.
  intros Hd Ps Hs Ha Hx Hz Hy.
  assert (G : forall m, (m <= n)%nat -> upto v s (y m)); [|now apply G].
  intro m. induction m as [m IH] using (well_founded_induction lt_wf). intro Hm.
  specialize (Hy m Hm). unfold solves_comb in Hy. unfold upto. rewrite Hy.
  eapply letr; [apply av_sub|]. eapply letr; [|exact Hs]. replace (r * s + c) with (c + r * s) by ring.
  apply le_add; [now apply Hx|]. eapply letr; [apply av_mul|].
  apply le_mul; [apply av_pos|exact Ps|exact Ha|]. apply hist_bounded; [intros; apply IH; lia|apply Hz; lia].
Qed.
End S.

(** ** Instances *)
Section I.
Variable K : ofield.
Add Ring Kr2 : (r_th K).
Notation "x <= y" := (ole x y = true) : cr_scope.
Definition oabs_av : absval K K.
Proof.
  refine (@mkAbsval K K (@oabs K) _ _ _ _ _).
  - apply abs_0.
  - apply abs_0_le.
  - apply abs_opp.
  - apply abs_tri.
  - intros x y. rewrite abs_mul. apply ole_refl.
Defined.
Definition l1_av : absval (cplx K) K.
Proof.
  refine (@mkAbsval (cplx K) K (fun z : K * K => oabs (fst z) + oabs (snd z)) _ _ _ _ _).
  - cbn. rewrite abs_0. ring.
  - intro x. apply ole_0_add; apply abs_0_le.
  - intro x. cbn. now rewrite !abs_opp.
  - intros x y. cbn.
    replace (oabs (fst x) + oabs (snd x) + (oabs (fst y) + oabs (snd y))) with (oabs (fst x) + oabs (fst y) + (oabs (snd x) + oabs (snd y))) by ring.
    apply le_add; apply abs_tri.
  - intros [a b] [c d]. cbn. 
    replace ((oabs a + oabs b) * (oabs c + oabs d)) with (oabs a * oabs c + oabs b * oabs d + (oabs a * oabs d + oabs b * oabs c)) by ring.
    rewrite <- !abs_mul. apply le_add; [|apply abs_tri].
    replace (a * c - b * d) with (a * c + - (b * d)) by ring. eapply ole_trans; [apply abs_tri|]. rewrite abs_opp. apply ole_refl.
Defined.
Lemma l1_conj : (forall x : K, conj x = x) -> conj_abs l1_av.
Proof. intros H [a b]. cbn. rewrite abs_opp. now rewrite !H. Qed.
Lemma oabs_conj : (forall x : K, conj x = x) -> conj_abs oabs_av.
Proof. intros H x. cbn. now rewrite H. Qed.
End I.
