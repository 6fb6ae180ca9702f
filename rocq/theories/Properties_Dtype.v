(** Theorems about element types (C60). *)
From Coq Require Import List Arith Lia Bool.
From Verif Require Import Tensor TensorTac M_LtiSsm M_LtiFilter M_Dtype SpecDtype.
Import ListNotations.
Open Scope res_scope.

Lemma dtype_eqb_eq a b : dtype_eqb a b = true <-> a = b.
Proof. destruct a, b; cbn; split; intro; congruence. Qed.
Lemma dtype_eqb_refl a : dtype_eqb a a = true.
Proof. now apply dtype_eqb_eq. Qed.
Lemma sub_dec a b : {sub a b} + {~ sub a b}.
Proof. destruct a, b; (left; repeat split; cbn; lia) || (right; intros (H1 & H2 & H3); cbn in H1, H2, H3; lia). Qed.

(** Promotion gives the smallest type that includes both. *)
Theorem C60_promote_lub : forall a b,
  sub a (promote a b) /\ sub b (promote a b) /\ forall c, sub a c -> sub b c -> sub (promote a b) c.
Proof.
  intros a b. split; [|split].
  - destruct a, b; repeat split; cbn; lia.
  - destruct a, b; repeat split; cbn; lia.
  - intros c (H1 & H2 & H3) (H4 & H5 & H6). destruct a, b, c; cbn in *; try lia; repeat split; cbn; lia.
Qed.
Print Assumptions C60_promote_lub.
(** A 0-d tensor (such as a shared b[0]) only raises the category. *)
Theorem C60_promote0 : forall a b,
  category (promote0 a b) = max (category a) (category b) /\
  (category b <= category a -> promote0 a b = a) /\
  (category a = 0 -> promote0 a b = b) /\
  (category a = 1 -> category b = 2 -> sub a (promote0 a b) /\ forall c, category c = 2 -> sub a c -> sub (promote0 a b) c).
Proof.
  intros a b. split; [destruct a, b; reflexivity|]. split; [|split].
  - destruct a, b; cbn; intro; reflexivity || lia.
  - destruct a, b; cbn; intro; reflexivity || lia.
  - intros H1 H2. split; [destruct a, b; cbn in *; repeat split; cbn; lia|].
    intros c Hc (H3 & H4 & H5). destruct a, b, c; cbn in *; try lia; repeat split; cbn; lia.
Qed.
Print Assumptions C60_promote0.
Lemma sub_antisym a b : sub a b -> sub b a -> a = b.
Proof. intros (H1 & H2 & H3) (H4 & H5 & H6). destruct a, b; cbn in *; try lia; reflexivity. Qed.
Lemma sub_refl a : sub a a.
Proof. repeat split; lia. Qed.
Lemma promote_sub a b : promote a b = b <-> sub a b.
Proof.
  destruct (C60_promote_lub a b) as (H1 & H2 & H3). split; [intros <-; exact H1|]. intro H.
  apply sub_antisym; [apply H3; [exact H|apply sub_refl]|exact H2].
Qed.
Lemma promote_comm a b : promote a b = promote b a.
Proof. destruct a, b; reflexivity. Qed.
Lemma promote_assoc a b c : promote a (promote b c) = promote (promote a b) c.
Proof. destruct a, b, c; reflexivity. Qed.
Lemma promote_idem a : promote a a = a.
Proof. now destruct a. Qed.

(** ** The registered operators. *)
Theorem C60_operators_partial : forall cuda o A zi x d, (cuda, o) <> (true, Recur2) ->
  op_d cuda o A zi x = Ok d <->
  (o = RecurN \/ o = LtiRecurN -> cuda = false) /\ A = d /\ zi = d /\ x = d /\ supported d /\ (o = LtiRecur -> d <> I64).
Proof.
  intros cuda o A zi x d H.
  assert (Hk : (o = RecurN \/ o = LtiRecurN -> cuda = false) <-> has_kernel cuda o = true).
  { destruct o, cuda; cbn; intuition congruence. }
  rewrite Hk. unfold op_d, supported. split.
  - destruct (has_kernel cuda o) eqn:K; [|discriminate].
    assert (Ec : checks cuda o A zi x = dtype_eqb zi x && dtype_eqb A x) by (destruct cuda, o; try reflexivity; congruence).
    rewrite Ec. destruct (dtype_eqb zi x && dtype_eqb A x) eqn:E; [|discriminate].
    apply andb_true_iff in E as [E1 E2]. apply dtype_eqb_eq in E1. apply dtype_eqb_eq in E2. subst zi A.
    destruct (dispatches o x) eqn:Ed; [|discriminate]. rewrite promote_idem, dtype_eqb_refl. intro E. injection E as <-.
    repeat split; destruct x, o; cbn in Ed; try discriminate; try congruence; intros; discriminate.
  - intros (K & -> & -> & -> & H1 & H2). rewrite K.
    assert (Ec : checks cuda o d d d = true) by (destruct cuda, o; cbn; now rewrite dtype_eqb_refl). rewrite Ec.
    assert (Ed : dispatches o d = true) by (destruct d, o; try reflexivity; exfalso; (now apply H1) || (now apply H2)). rewrite Ed, promote_idem, dtype_eqb_refl. reflexivity.
Qed.
Print Assumptions C60_operators_partial.

(** The CUDA kernel of recur2 also accepts every zi whose type is included in that of x. *)
Theorem C60_recur2_cuda : forall A zi x d,
  op_d true Recur2 A zi x = Ok d <-> A = d /\ x = d /\ sub zi d /\ supported d.
Proof.
  intros A zi x d. rewrite <- promote_sub. unfold op_d, supported. cbn [has_kernel checks]. rewrite !dtype_eqb_refl. cbn [andb]. split.
  - destruct (dispatches Recur2 x) eqn:Ed; [|discriminate]. destruct (dtype_eqb A x) eqn:E1; [|discriminate].
    destruct (dtype_eqb (promote zi x) x) eqn:E2; [|discriminate]. apply dtype_eqb_eq in E1. apply dtype_eqb_eq in E2. subst A.
    rewrite E2. intro E. injection E as <-. repeat split; auto. destruct x; cbn in Ed; congruence.
  - intros (-> & -> & E & H). assert (Ed : dispatches Recur2 d = true) by (destruct d; try reflexivity; congruence).
    now rewrite Ed, E, dtype_eqb_refl.
Qed.
Print Assumptions C60_recur2_cuda.
(** So its checks, which compare zi with zi and A with A, do not do what they say. *)
Theorem C60_recur2_refuted : forall zi d, supported d -> zi <> d -> sub zi d ->
  op_d true Recur2 d zi d = Ok d /\ op_d false Recur2 d zi d = Err RuntimeError.
Proof.
  intros zi d Hd Hn Hs. split; [apply C60_recur2_cuda; auto|].
  unfold op_d. cbn [has_kernel negb checks]. destruct (dtype_eqb zi d) eqn:E; [apply dtype_eqb_eq in E; congruence|reflexivity].
Qed.
Print Assumptions C60_recur2_refuted.
Example C60_recur2_ex :
  sub F32 F64 /\ op_d true Recur2 F64 F32 F64 = Ok F64 /\ op_d false Recur2 F64 F32 F64 = Err RuntimeError /\
  op_d true Recur2 F32 F64 F32 = Err RuntimeError /\ op_d true LtiRecur2 F64 F32 F64 = Err RuntimeError /\
  op_d false LtiRecur I64 I64 I64 = Err NotImplementedError /\ op_d false LtiRecurN I64 I64 I64 = Ok I64.
Proof. repeat split; cbn; lia. Qed.

(** The fake kernels announce the right type. *)
Theorem C60_fake_kernels : forall cuda o A zi x d, op_d cuda o A zi x = Ok d -> d = fake_d A zi x.
Proof.
  intros cuda o A zi x d. unfold op_d, fake_d. destruct (has_kernel cuda o); [|discriminate]. destruct (checks cuda o A zi x); [|discriminate].
  destruct (dispatches o x); [|discriminate]. destruct (dtype_eqb A x); [|discriminate].
  destruct (dtype_eqb (promote zi x) x) eqn:E; [|discriminate]. apply dtype_eqb_eq in E. congruence.
Qed.
Print Assumptions C60_fake_kernels.

(** ** linear_recurrence. *)
Lemma mm_ok a b d : mm_d a b = Ok d <-> a = d /\ b = d.
Proof.
  unfold mm_d. destruct (dtype_eqb a b) eqn:E.
  - apply dtype_eqb_eq in E. subst b. split; [intro H; injection H as <-; auto|intros [-> _]; reflexivity].
  - split; [discriminate|]. intros [-> ->]. rewrite dtype_eqb_refl in E. discriminate.
Qed.
Lemma vecdot_ok a b d : vecdot_d a b = Ok d <-> a = d /\ b = d /\ d <> I64.
Proof.
  unfold vecdot_d. destruct (is_float a || is_cplx a) eqn:E.
  - rewrite mm_ok. split; [intros [-> ->]; repeat split; auto; intros ->; discriminate|tauto].
  - split; [discriminate|]. intros (-> & _ & H). destruct d; try discriminate. congruence.
Qed.
Lemma blocks_lt N u : 2 <= u -> u < N -> 1 <= (N + u - 1) / u < N.
Proof.
  intros Hu HN. split; [apply Nat.div_le_lower_bound; lia|]. apply Nat.div_lt_upper_bound; [lia|]. nia.
Qed.

(** Without unrolling everything is promoted; with unrolling a and x must have equal types
    that include the type of init (and be no integers if a has several elements). *)
Theorem C60_linear_recurrence : forall many a init x N u d, 1 <= u ->
  linear_recurrence_d (S N) many a init x N u = Ok d <->
  if (u =? 1) || (N <=? u) then d = promote (promote a init) x
  else a = d /\ x = d /\ sub init d /\ (many = true -> d <> I64).
Proof.
  intros many a init x N u d Hu.
  assert (G : forall fuel N x, N < fuel -> linear_recurrence_d fuel many a init x N u = Ok d <->
    if (u =? 1) || (N <=? u) then d = promote (promote a init) x else a = d /\ x = d /\ sub init d /\ (many = true -> d <> I64)).
  { clear N x. assert (Uz : (u <? 1) = false) by (apply Nat.ltb_ge; lia).
    assert (W : forall fuel N x, N < fuel ->
      (forall y, linear_recurrence_d fuel many a init x N u = Ok y -> a = x -> y = promote a init) /\
      (a = x -> sub init x -> (many = true -> x <> I64) -> linear_recurrence_d fuel many a init x N u = Ok x) /\
      (linear_recurrence_d fuel many a init x N u = Ok d <->
       if (u =? 1) || (N <=? u) then d = promote (promote a init) x else a = d /\ x = d /\ sub init d /\ (many = true -> d <> I64))).
    2:{ intros fuel N x H. apply (W fuel N x H). }
    induction fuel as [|fuel IH]; intros N x HN; [lia|]. cbn [linear_recurrence_d]. rewrite Uz. cbn [negb].
    destruct ((u =? 1) || (N <=? u)) eqn:E.
    - unfold scalar_loop_d. split; [|split; [|split; congruence]].
      + intros y H <-. injection H as <-. now rewrite (promote_comm _ a), promote_assoc, promote_idem.
      + intros <- Hs _. f_equal. apply promote_sub in Hs. now rewrite (promote_comm a), Hs, promote_idem.
    - apply orb_false_iff in E as [E1 E2]. apply Nat.eqb_neq in E1. apply Nat.leb_gt in E2.
      destruct (blocks_lt N u ltac:(lia) E2) as [Hb1 Hb2]. set (bl := (N + u - 1) / u) in *.
      destruct (IH bl x ltac:(lia)) as (I1 & I2 & _).
      assert (F : forall y, (let* z := if many then vecdot_d x a else mm_d x a in
         let* rest := linear_recurrence_d fuel many a init z bl u in
         let* output := mm_d (promote (promote init rest) x) a in Ok (promote output (promote init rest))) = Ok y <->
         a = y /\ x = y /\ sub init y /\ (many = true -> y <> I64)).
      { intro y.
        assert (Z : forall z, (if many then vecdot_d x a else mm_d x a) = Ok z <-> x = z /\ a = z /\ (many = true -> z <> I64)).
        { intro z. destruct many; [rewrite vecdot_ok|rewrite mm_ok]; intuition congruence. }
        split.
        - destruct (if many then vecdot_d x a else mm_d x a) as [z|] eqn:Ez; [|discriminate]. destruct (proj1 (Z z) eq_refl) as (-> & -> & Hz).
          cbn [bind]. destruct (linear_recurrence_d fuel many z init z bl u) as [r|] eqn:Er; [|discriminate]. cbn [bind].
          pose proof (I1 r eq_refl eq_refl) as ->.
          destruct (mm_d (promote (promote init (promote z init)) z) z) as [o|] eqn:Eo; [|discriminate]. apply mm_ok in Eo as [Eo <-].
          cbn [bind]. intro H. injection H as H.
          assert (Es : promote init z = z).
          { rewrite <- Eo at 2. rewrite (promote_comm z init), promote_assoc, promote_idem, <- promote_assoc, promote_idem. reflexivity. }
          rewrite (promote_comm z init), Es in H.
          rewrite Es in H. rewrite promote_idem in H. subst y. apply promote_sub in Es. tauto.
        - intros (-> & -> & Hs & Hz). rewrite (proj2 (Z y)) by auto. cbn [bind]. rewrite (I2 eq_refl Hs Hz). cbn [bind].
          apply promote_sub in Hs. rewrite !Hs, !promote_idem. rewrite (proj2 (mm_ok y y y)) by auto. cbn [bind]. now rewrite promote_idem. }
      split; [|split].
      + intros y H <-. apply F in H as (<- & _ & Hs & _). apply promote_sub in Hs. now rewrite promote_comm.
      + intros <- Hs Hm. apply F. auto.
      + apply F. }
  apply G. lia.
Qed.
Print Assumptions C60_linear_recurrence.
(** Whether a call with mixed types is accepted depends on the unroll factor. *)
Theorem C60_linear_recurrence_refuted : forall many a init x N u, 2 <= u < N -> ~ (a = x /\ sub init x) ->
  linear_recurrence_d (S N) many a init x N 1 = Ok (promote (promote a init) x) /\
  forall d, linear_recurrence_d (S N) many a init x N u <> Ok d.
Proof.
  intros many a init x N u Hu H. split.
  - now apply C60_linear_recurrence; [lia|].
  - intros d E. apply C60_linear_recurrence in E; [|lia].
    replace ((u =? 1) || (N <=? u)) with false in E.
    + destruct E as (-> & -> & Hs & _). tauto.
    + symmetry. apply orb_false_iff. split; [apply Nat.eqb_neq; lia|apply Nat.leb_gt; lia].
Qed.
Print Assumptions C60_linear_recurrence_refuted.
Example C60_linear_recurrence_ex :
  linear_recurrence_d 6 false F32 F64 F32 5 1 = Ok F64 /\ linear_recurrence_d 6 false F32 F64 F32 5 2 = Err RuntimeError /\
  linear_recurrence_d 6 false F32 I64 F32 5 2 = Ok F32 /\
  linear_recurrence_d 6 true I64 I64 I64 5 1 = Ok I64 /\ linear_recurrence_d 6 true I64 I64 I64 5 2 = Err RuntimeError.
Proof. repeat split. Qed.

(** ** state_space_recursion: equal types, whatever the unroll factor. *)
Lemma loop_ok A zi x d : loop_d A zi x = Ok d <-> A = d /\ zi = d /\ x = d.
Proof.
  unfold loop_d. split.
  - destruct (mm_d zi A) as [h|] eqn:E; [|discriminate]. apply mm_ok in E as [-> ->]. cbn [bind]. rewrite mm_ok. tauto.
  - intros (-> & -> & ->). rewrite (proj2 (mm_ok d d d)) by auto. cbn [bind]. now apply mm_ok.
Qed.
Theorem C60_recursion : forall A zi x N u d, 1 <= u ->
  (state_space_recursion_d (S N) A zi x N u = Ok d <-> A = d /\ zi = d /\ x = d) /\
  (lpv_state_space_recursion_d (S N) A zi x N u = Ok d <-> A = d /\ zi = d /\ x = d).
Proof.
  intros A zi x N u d Hu. assert (Uz : (u <? 1) = false) by (apply Nat.ltb_ge; lia).
  assert (G : forall fuel N x d, N < fuel ->
    (state_space_recursion_d fuel A zi x N u = Ok d <-> A = d /\ zi = d /\ x = d) /\
    (lpv_state_space_recursion_d fuel A zi x N u = Ok d <-> A = d /\ zi = d /\ x = d)).
  2:{ apply G. lia. }
  clear N x d. induction fuel as [|fuel IH]; intros N x d HN; [lia|]. cbn [state_space_recursion_d lpv_state_space_recursion_d]. rewrite Uz. cbn [negb].
  destruct ((u =? 1) || (N <=? u)) eqn:E; [split; apply loop_ok|].
  apply orb_false_iff in E as [E1 E2]. apply Nat.eqb_neq in E1. apply Nat.leb_gt in E2.
  destruct (blocks_lt N u ltac:(lia) E2) as [Hb1 Hb2]. set (bl := (N + u - 1) / u) in *.
  split; split.
  - destruct (mm_d x A) as [z|] eqn:Ez; [|discriminate]. apply mm_ok in Ez as [-> ->]. cbn [bind].
    destruct (state_space_recursion_d fuel z zi z bl u) as [r|] eqn:Er; [|discriminate]. apply (IH bl z r ltac:(lia)) in Er as (-> & -> & _).
    cbn [bind]. rewrite !promote_idem. destruct (mm_d r r) as [o|] eqn:Eo; [|discriminate]. apply mm_ok in Eo as [<- _]. cbn [bind]. rewrite promote_idem. intro H. injection H as <-. auto.
  - intros (-> & -> & ->). rewrite (proj2 (mm_ok d d d)) by auto. cbn [bind]. rewrite (proj2 (proj1 (IH bl d d ltac:(lia)))) by auto.
    cbn [bind]. rewrite !promote_idem, (proj2 (mm_ok d d d)) by auto. cbn [bind]. now rewrite promote_idem.
  - destruct (mm_d x A) as [z|] eqn:Ez; [|discriminate]. apply mm_ok in Ez as [-> ->]. cbn [bind].
    destruct (lpv_state_space_recursion_d fuel z zi z bl u) as [r|] eqn:Er; [|discriminate]. apply (IH bl z r ltac:(lia)) in Er as (-> & -> & _).
    cbn [bind]. rewrite !promote_idem. destruct (loop_d r r r) as [o|] eqn:Eo; [|discriminate]. apply loop_ok in Eo as [<- _]. cbn [bind]. rewrite promote_idem. intro H. injection H as <-. auto.
  - intros (-> & -> & ->). rewrite (proj2 (mm_ok d d d)) by auto. cbn [bind]. rewrite (proj2 (proj2 (IH bl d d ltac:(lia)))) by auto.
    cbn [bind]. rewrite !promote_idem, (proj2 (loop_ok d d d d)) by auto. cbn [bind]. now rewrite promote_idem.
Qed.
Print Assumptions C60_recursion.
Example C60_recursion_ex : state_space_recursion_d 10 C64 C64 C64 9 3 = Ok C64 /\ state_space_recursion_d 10 C64 F32 C64 9 3 = Err RuntimeError /\
  lpv_state_space_recursion_d 10 F64 F64 F64 9 2 = Ok F64 /\ lpv_state_space_recursion_d 10 F64 F32 F64 9 2 = Err RuntimeError.
Proof. repeat split. Qed.

(** ** state_space. *)
Definition uf_ok (uf : option nat) : Prop := match uf with Some u => 1 <= u | None => True end.
Lemma uf_pos N uf : 1 <= N -> uf_ok uf -> 1 <= match uf with Some u => u | None => round_sqrt N end.
Proof.
  intros HN Hu. destruct uf as [u|]; [exact Hu|]. unfold round_sqrt.
  assert (1 <= Nat.sqrt N) by (apply (Nat.sqrt_le_mono 1); exact HN). destruct (N <=? _); lia.
Qed.
(** The recursion, by whatever back-end: equal types. *)
Definition runner (ext cuda : bool) (N M u : nat) (A z Bx : dtype) : res dtype :=
  if ext && ((M =? 2) || (negb cuda && (2 <=? M))) && (u =? 1)
  then op_d cuda (if M =? 2 then LtiRecur2 else LtiRecurN) A z Bx
  else state_space_recursion_d (S N) A z Bx N u.
Lemma runner_ok ext cuda N M u A z Bx d : 1 <= u -> runner ext cuda N M u A z Bx = Ok d -> A = d /\ z = d /\ Bx = d.
Proof.
  intros Hu. unfold runner. destruct (ext && _ && _).
  - intro H. apply C60_operators_partial in H; [|destruct (M =? 2); congruence]. tauto.
  - intro H. exact (proj1 (proj1 (C60_recursion A z Bx N u d Hu)) H).
Qed.
Lemma runner_run ext cuda N M u d : 1 <= u -> (ext = false \/ supported d) -> runner ext cuda N M u d d d = Ok d.
Proof.
  intros Hu Hs. unfold runner. destruct (ext && _ && _) eqn:E.
  - apply andb_true_iff in E as [E _]. apply andb_true_iff in E as [-> E]. destruct Hs as [Hs|Hs]; [discriminate|].
    apply C60_operators_partial; [destruct (M =? 2); congruence|]. repeat split; auto.
    + destruct (M =? 2) eqn:E2; [intros [H|H]; discriminate|]. intros _. cbn in E. now destruct cuda.
    + destruct (M =? 2); discriminate.
  - apply (proj1 (C60_recursion d d d N u d Hu)). auto.
Qed.
Lemma promote0_idem d : promote0 d d = d.
Proof. now destruct d. Qed.
Lemma mult_same k d : (k = Vec -> d <> I64) -> mult_d k d d = Ok d.
Proof.
  intro H. destruct k; cbn [mult_d]; [now rewrite promote_idem|now rewrite promote0_idem|now apply mm_ok|apply vecdot_ok; auto].
Qed.

(** Arguments of one type: accepted in every shape, except 64-bit integers with shapes
    that need vecdot and complex numbers of half precision with the extension. *)
Definition shape_ok (how : list nat -> res how) (d : dtype) (a : option (list nat)) : Prop :=
  match a with None => True | Some s => exists k, how s = Ok k /\ (k = Vec -> d <> I64) end.
Definition typed (d : dtype) (a : option (list nat)) : option (list nat * dtype) :=
  match a with None => None | Some s => Some (s, d) end.
Theorem C60_state_space_uniform : forall ext cuda bs N M f d B C D zi uf, 1 <= N -> uf_ok uf -> (ext = false \/ supported d) ->
  shape_ok (fun s => how_B s bs M f) d B -> shape_ok (fun s => how_C s bs M) d C -> shape_ok (fun s => how_D s bs f) d D ->
  zi = None \/ zi = Some d ->
  state_space_d ext cuda bs N M f d d (typed d B) (typed d C) (typed d D) zi uf = Ok (d, zi).
Proof.
  intros ext cuda bs N M f d B C D zi uf HN Hu Hs HB HC HD Hz. unfold state_space_d.
  assert (Ez : match zi with None => d | Some z => z end = d) by (destruct Hz as [-> | ->]; reflexivity). rewrite Ez.
  pose proof (uf_pos N uf HN Hu) as Hu'. set (u := match uf with Some u => u | None => round_sqrt N end) in *.
  assert (EB : match typed d B with None => Ok d | Some (s, d') => let* k := how_B s bs M f in mult_d k d d' end = Ok d).
  { destruct B as [s|]; [|reflexivity]. destruct HB as (k & E & H). cbn [typed]. rewrite E. now apply mult_same. }
  rewrite EB. cbn [bind]. fold (runner ext cuda N M u d d d). rewrite runner_run by assumption. cbn [bind]. rewrite promote_idem.
  assert (EC : match typed d C with None => Ok d | Some (s, d') => let* k := how_C s bs M in mult_d k d d' end = Ok d).
  { destruct C as [s|]; [|reflexivity]. destruct HC as (k & E & H). cbn [typed]. rewrite E. now apply mult_same. }
  rewrite EC. destruct D as [s|].
  - destruct HD as (k & E & H). cbn [typed]. rewrite E. cbn [bind]. rewrite mult_same by assumption. cbn [bind].
    rewrite promote_idem. destruct Hz as [-> | ->]; reflexivity.
  - cbn [typed bind]. destruct Hz as [-> | ->]; reflexivity.
Qed.
Print Assumptions C60_state_space_uniform.
Example C60_state_space_uniform_ex :
  shape_ok (fun s => how_B s 2 3 (Some 4)) F32 (Some [2;3;4]) /\
  state_space_d true false 2 9 3 (Some 4) F32 F32 (Some ([2;3;4], F32)) (Some ([3], F32)) (Some ([4], F32)) (Some F32) None = Ok (F32, Some F32) /\
  state_space_d true false 2 9 3 (Some 4) I64 I64 (Some ([2;3;4], I64)) None None None None = Err RuntimeError /\
  state_space_d true false 2 9 3 (Some 4) I64 I64 (Some ([3;4], I64)) None None None None = Ok (I64, None).
Proof. split; [exists Vec; split; [reflexivity|discriminate]|]. repeat split. Qed.

(** What an accepted call says: the state has the type of A; the given or implied zi and
    the input B x have it too. *)
Theorem C60_state_space_accepted : forall ext cuda bs N M f A x B C D zi uf y zf, 1 <= N -> uf_ok uf ->
  state_space_d ext cuda bs N M f A x B C D zi uf = Ok (y, zf) ->
  A = match zi with None => x | Some z => z end /\
  match B with None => x = A | Some (s, b) => exists k, how_B s bs M f = Ok k /\ mult_d k x b = Ok A end /\
  zf = match zi with None => None | Some _ => Some A end /\
  exists c, match C with None => c = A | Some (s, m) => exists k, how_C s bs M = Ok k /\ mult_d k A m = Ok c end /\
  match D with None => y = c | Some (s, m) => exists k r, how_D s bs f = Ok k /\ mult_d k x m = Ok r /\ y = promote c r end.
Proof.
  intros ext cuda bs N M f A x B C D zi uf y zf HN Hu. unfold state_space_d.
  pose proof (uf_pos N uf HN Hu) as Hu'. set (u := match uf with Some u => u | None => round_sqrt N end) in *.
  set (z := match zi with None => x | Some z => z end).
  destruct (match B with None => Ok x | Some (s, d) => let* k := how_B s bs M f in mult_d k x d end) as [Bx|] eqn:EB; [|discriminate]. cbn [bind].
  fold (runner ext cuda N M u A z Bx). destruct (runner ext cuda N M u A z Bx) as [h|] eqn:Eh; [|discriminate].
  apply runner_ok in Eh as (EA & E1 & E2); [|exact Hu'].
  cbn [bind]. match goal with |- bind ?e _ = _ -> _ => destruct e as [Dx|] eqn:ED; [|discriminate] end. cbn [bind].
  match goal with |- bind ?e _ = _ -> _ => destruct e as [Ch|] eqn:EC; [|discriminate] end. cbn [bind]. intro H. injection H as H1 H2.
  subst h. split; [congruence|]. split; [|split].
  - destruct B as [[s b]|]; [|congruence]. destruct (how_B s bs M f) as [k|] eqn:Ek; [|discriminate]. exists k. split; [reflexivity|]. cbn [bind] in EB. now rewrite EB, E2.
  - rewrite <- H2. destruct zi; congruence.
  - rewrite E1, promote_idem in EC. exists Ch. split.
    + destruct C as [[s m]|]; [|congruence]. destruct (how_C s bs M) as [k|]; [|discriminate]. exists k. split; [reflexivity|exact EC].
    + destruct D as [[s m]|].
      * destruct (how_D s bs f) as [k|]; [|discriminate]. cbn [bind] in ED. destruct (mult_d k x m) as [r|] eqn:Em; [|discriminate]. cbn [bind] in ED. injection ED as <-.
        exists k, r. split; [reflexivity|]. split; [exact Em|symmetry; exact H1].
      * injection ED as <-. symmetry; exact H1.
Qed.
Print Assumptions C60_state_space_accepted.
(** A signal of another type than A needs an explicit zi: the default is built with the type
    of x, so the same call with zi = zeros of A's type is accepted and the call without is
    not (a real signal through a complex system, or float32 through float64). *)
Theorem C60_state_space_zi_refuted : forall ext cuda bs N M A x uf, 1 <= N -> uf_ok uf -> (ext = false \/ supported A) ->
  sub x A -> x <> A ->
  state_space_d ext cuda bs N M None A x (Some ([M], A)) None None (Some A) uf = Ok (A, Some A) /\
  forall r, state_space_d ext cuda bs N M None A x (Some ([M], A)) None None None uf <> Ok r.
Proof.
  intros ext cuda bs N M A x uf HN Hu Hs Hx Hn. split.
  - unfold state_space_d. pose proof (uf_pos N uf HN Hu) as Hu'. set (u := match uf with Some u => u | None => round_sqrt N end) in *.
    cbn [how_B]. rewrite Nat.eqb_refl. cbn [negb bind mult_d]. apply promote_sub in Hx. rewrite Hx.
    fold (runner ext cuda N M u A A A). rewrite runner_run by assumption. cbn [bind]. now rewrite promote_idem.
  - intros [y zf] E. apply C60_state_space_accepted in E as (E & _); auto.
Qed.
Print Assumptions C60_state_space_zi_refuted.
Example C60_state_space_zi_ex : sub F32 C64 /\
  state_space_d false false 1 4 2 None C64 F32 (Some ([2], C64)) None None (Some C64) None = Ok (C64, Some C64) /\
  state_space_d false false 1 4 2 None C64 F32 (Some ([2], C64)) None None None None = Err RuntimeError.
Proof. split; [repeat split; cbn; lia|]. split; reflexivity. Qed.

(** ** lfilter from rest: x and a of one type; df2 and tdf2 also accept a b of a type
    included in it.  (Batched coefficients in df2: no integers.) *)
Lemma sub_trans a b c : sub a b -> sub b c -> sub a c.
Proof. intros (H1 & H2 & H3) (H4 & H5 & H6). repeat split; lia. Qed.
Lemma promote0_sub a b : sub b a -> promote0 a b = a.
Proof. intros (H1 & H2 & H3). destruct a, b; cbn in *; try lia; reflexivity. Qed.
Lemma how_D_b (bb : bool) bs d x : sub d x -> 1 <= bs ->
  (let* k := how_D (if bb then [bs] else []) bs None in let* r := mult_d k x d in Ok (Some r)) = Ok (Some x).
Proof.
  intros Hs Hb. destruct bb; cbn [how_D].
  - cbn [feq]. rewrite Nat.eqb_refl. cbn [negb bind mult_d]. rewrite promote_comm. apply promote_sub in Hs. now rewrite Hs.
  - cbn [bind mult_d]. now rewrite promote0_sub.
Qed.
Theorem C60_lfilter : forall ext cuda fm bs N M ba bb b a x uf d, 1 <= bs -> 1 <= N -> 1 <= M -> uf_ok uf -> (ext = false \/ supported d) -> fm <> OtherForm ->
  lfilter_d ext cuda fm bs N M ba bb b a x uf = Ok d <->
  a = d /\ x = d /\ match fm with Df2 => sub b d /\ (ba || bb = true -> d <> I64) | Tdf2 => sub b d | _ => b = d end.
Proof.
  intros ext cuda fm bs N M ba bb b a x uf d Hbs HN HM Hu Hs Hf. unfold lfilter_d.
  pose proof (uf_pos N uf HN Hu) as Hu'.
  assert (Hu1 : 1 <= match uf with Some u => u | None => 1 end) by (destruct uf; [exact Hu|lia]).
  destruct fm; [| | | |congruence].
  - (* df2 *) split.
    + destruct (state_space_d _ _ _ _ _ _ _ _ _ _ _ _ _) as [[y zf]|] eqn:E; [|discriminate]. cbn [bind fst]. intro H. injection H as <-.
      pose proof (C60_state_space_accepted _ _ _ _ _ _ _ _ _ _ _ _ _ _ _ HN Hu E) as (-> & _).
      unfold state_space_d in E. cbn [bind] in E. set (u := match uf with Some u => u | None => round_sqrt N end) in *.
      fold (runner ext cuda N M u x x x) in E. destruct (runner ext cuda N M u x x x) as [h|] eqn:Eh; [|discriminate].
      apply runner_ok in Eh as (_ & _ & <-); [|exact Hu']. cbn [bind] in E. rewrite promote_idem in E.
      match type of E with bind ?e _ = _ => destruct e as [Dx|] eqn:ED; [|discriminate] end. cbn [bind] in E.
      match type of E with bind ?e _ = _ => destruct e as [Ch|] eqn:EC; [|discriminate] end. cbn [bind] in E.
      assert (EC' : Ch = x /\ promote b x = x /\ (ba || bb = true -> x <> I64)).
      { destruct (ba || bb) eqn:Eb; cbn [how_C] in EC; rewrite !Nat.eqb_refl in EC; cbn [andb bind mult_d] in EC.
        - apply vecdot_ok in EC as (E1 & E2 & E3). split; [congruence|]. split; congruence.
        - apply mm_ok in EC as (E1 & E2). split; [congruence|]. split; [congruence|discriminate]. }
      destruct EC' as (-> & E2 & E3). apply promote_sub in E2. rewrite (how_D_b bb bs b x E2 Hbs) in ED. injection ED as <-.
      rewrite promote_idem in E. injection E as <- _. auto.
    + intros (-> & -> & Hb & Hi). unfold state_space_d. cbn [bind]. set (u := match uf with Some u => u | None => round_sqrt N end) in *.
      fold (runner ext cuda N M u d d d). rewrite runner_run by assumption. cbn [bind]. rewrite promote_idem, how_D_b by assumption. cbn [bind].
      apply promote_sub in Hb. rewrite Hb.
      destruct (ba || bb); cbn [how_C]; rewrite !Nat.eqb_refl; cbn [andb bind mult_d].
      * rewrite (proj2 (vecdot_ok d d d)) by auto. cbn [bind fst]. now rewrite promote_idem.
      * rewrite (proj2 (mm_ok d d d)) by auto. cbn [bind fst]. now rewrite promote_idem.
  - (* tdf2 *) assert (EB : forall y, (let* k := how_B (if ba || bb then [bs; M] else [M]) bs M None in mult_d k x y) = Ok (promote x y)).
    { intro y. destruct (ba || bb); cbn [how_B]; rewrite !Nat.eqb_refl; reflexivity. }
    split.
    + destruct (state_space_d _ _ _ _ _ _ _ _ _ _ _ _ _) as [[y zf]|] eqn:E; [|discriminate]. cbn [bind fst]. intro H. injection H as <-.
      pose proof (C60_state_space_accepted _ _ _ _ _ _ _ _ _ _ _ _ _ _ _ HN Hu E) as (-> & (k & Ek & Em) & _).
      pose proof (EB (promote b x)) as EB'. rewrite Ek in EB'. cbn [bind] in EB'. rewrite Em in EB'. injection EB' as EB'.
      assert (E2 : promote b x = x) by (rewrite EB' at 2; now rewrite promote_assoc, (promote_comm x b), <- promote_assoc, promote_idem). 
      unfold state_space_d in E. rewrite EB, E2, promote_idem in E. cbn [bind] in E. set (u := match uf with Some u => u | None => round_sqrt N end) in *.
      fold (runner ext cuda N M u x x x) in E. destruct (runner ext cuda N M u x x x) as [h|] eqn:Eh; [|discriminate].
      apply runner_ok in Eh as (_ & _ & <-); [|exact Hu']. cbn [bind] in E. rewrite promote_idem in E.
      apply promote_sub in E2. rewrite (how_D_b bb bs b x E2 Hbs) in E. cbn [bind] in E. rewrite promote_idem in E. injection E as <- _. auto.
    + intros (-> & -> & Hb). unfold state_space_d. rewrite EB. apply promote_sub in Hb. rewrite Hb, promote_idem. cbn [bind].
      set (u := match uf with Some u => u | None => round_sqrt N end) in *.
      fold (runner ext cuda N M u d d d). rewrite runner_run by assumption. cbn [bind]. apply promote_sub in Hb. rewrite promote_idem, how_D_b by assumption.
      cbn [bind fst]. now rewrite promote_idem.
  - (* df1 *) split.
    + destruct (mm_d x b) as [v|] eqn:E; [|discriminate]. apply mm_ok in E as [-> ->]. cbn [bind]. intro H.
      apply (proj1 (C60_recursion a v v N _ d Hu1)) in H as (-> & -> & _). auto.
    + intros (-> & -> & ->). rewrite (proj2 (mm_ok d d d)) by auto. cbn [bind]. apply (proj1 (C60_recursion d d d N _ d Hu1)). auto.
  - (* tdf1 *) split.
    + destruct (state_space_recursion_d (S N) a x x N _) as [v|] eqn:E; [|discriminate]. apply (proj1 (C60_recursion a x x N _ v Hu1)) in E as (-> & -> & _).
      cbn [bind]. rewrite mm_ok. tauto.
    + intros (-> & -> & ->). rewrite (proj2 (proj1 (C60_recursion d d d N _ d Hu1))) by auto. cbn [bind]. now apply mm_ok.
Qed.
Print Assumptions C60_lfilter.
(** Which types are accepted depends on the form; a complex filter of a real signal is
    rejected in every form. *)
Theorem C60_lfilter_forms_refuted : forall ext cuda bs N M b d uf, 1 <= bs -> 1 <= N -> 1 <= M -> uf_ok uf -> supported d -> sub b d -> b <> d ->
  lfilter_d ext cuda Df2 bs N M false false b d d uf = Ok d /\ lfilter_d ext cuda Tdf2 bs N M false false b d d uf = Ok d /\
  (forall r, lfilter_d ext cuda Df1 bs N M false false b d d uf <> Ok r) /\ (forall r, lfilter_d ext cuda Tdf1 bs N M false false b d d uf <> Ok r).
Proof.
  intros ext cuda bs N M b d uf Hbs HN HM Hu Hd Hs Hn.
  split; [|split; [|split]].
  - apply C60_lfilter; auto; try discriminate. repeat split; auto; try apply Hs. discriminate.
  - apply C60_lfilter; auto; try discriminate.
  - intros r. cbn [lfilter_d]. destruct (mm_d d b) as [v|] eqn:E; [|discriminate]. apply mm_ok in E as [-> ->]. congruence.
  - intros r. cbn [lfilter_d]. destruct (state_space_recursion_d (S N) d d d N _) as [v|] eqn:E; [|discriminate].
    assert (Hu1 : 1 <= match uf with Some u => u | None => 1 end) by (destruct uf; [exact Hu|lia]).
    apply (proj1 (C60_recursion d d d N _ v Hu1)) in E as (-> & _). cbn [bind]. rewrite mm_ok. intros [-> ->]. congruence.
Qed.
Print Assumptions C60_lfilter_forms_refuted.
Example C60_lfilter_ex : sub F32 F64 /\
  lfilter_d false false Df2 1 8 2 false false F32 F64 F64 None = Ok F64 /\ lfilter_d false false Df1 1 8 2 false false F32 F64 F64 None = Err RuntimeError /\
  lfilter_d false false Df2 1 8 2 false false C64 C64 F32 None = Err RuntimeError /\ lfilter_d false false Tdf2 1 8 2 false false C64 C64 F32 None = Err RuntimeError /\
  lfilter_d false false Df2 2 8 2 true false I64 I64 I64 None = Err RuntimeError /\ lfilter_d false false Tdf2 2 8 2 true false I64 I64 I64 None = Ok I64.
Proof. split; [repeat split; cbn; lia|]. repeat split. Qed.
