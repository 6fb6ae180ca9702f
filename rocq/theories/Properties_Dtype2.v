(** More about element types (C60): the shapes decide the operations, lpv.state_space,
    diag_state_space and the diag_ssm back-end of lfilter. *)
From Coq Require Import List Arith Lia Bool.
From Verif Require Import Scalar Tensor TensorOps TensorTac M_LtiSsm M_LpvSsm M_LtiFilter M_Diag M_Dtype M_Dtype2 SpecDtype Properties_Dtype.
Import ListNotations.
Open Scope res_scope.

(** ** The tables of the dtype model choose the operations of the value model. *)
Section Link.
Variable R : cring.
Notation ten := (tensor (car R)).
(** The operand as it is, with a new dimension, conjugated, or transposed. *)
Definition seen (t u : ten) : Prop :=
  u = t \/ u = mT t \/ u = tconj t \/
  exists i, u = unsqueeze i t \/ u = tconj (unsqueeze i t) \/ u = unsqueeze i (tconj t).
(** [r] is the product of [x] and [m] of kind [k]. *)
Definition by_op (k : how) (x m : ten) (r : res ten) : Prop :=
  exists u v, seen x u /\ seen m v /\
  match k with
  | Elem => shape m <> [] /\ (r = tmul u v \/ r = tmul v u)
  | Elem0 => shape m = [] /\ r = tmul u v
  | Mat => r = matmul u v
  | Vec => r = vecdot v u
  end.
Definition agree (h : res how) (x m : ten) (r : res ten) : Prop :=
  match h with Err e => r = Err e | Ok k => by_op k x m r end.

Ltac sees := first [left; reflexivity | right; left; reflexivity | right; right; left; reflexivity
  | right; right; right; eexists; left; reflexivity | right; right; right; eexists; right; left; reflexivity
  | right; right; right; eexists; right; right; reflexivity].
Ltac prods := match goal with
  | |- agree (Ok _) _ _ (Ok _) => fail 1
  | |- agree (Ok Elem) _ ?m (tmul ?u ?v) => first
      [ exists u, v; split; [sees|]; split; [sees|]; split; [congruence|left; reflexivity]
      | exists v, u; split; [sees|]; split; [sees|]; split; [congruence|right; reflexivity] ]
  | |- agree (Ok Elem0) _ _ (tmul ?u ?v) => exists u, v; split; [sees|]; split; [sees|]; split; [assumption|reflexivity]
  | |- agree (Ok Mat) _ _ (matmul ?u ?v) => exists u, v; split; [sees|]; split; [sees|]; reflexivity
  | |- agree (Ok Vec) _ _ (vecdot ?v ?u) => exists u, v; split; [sees|]; split; [sees|]; reflexivity
  end.
Ltac walk := repeat match goal with
  | |- agree (match ?s with _ => _ end) _ _ _ => destruct s eqn:?; try (reflexivity || prods)
  end.

Lemma feat_rk (x : ten) : (rk x =? 2) = no_features (features x).
Proof. unfold features. now destruct (rk x =? 2). Qed.

Theorem C60_shapes_lti : forall (x h m : ten) bs M,
  agree (how_B (shape m) bs M (features x)) x m (ss_input x (Some m) bs M) /\
  agree (how_D (shape m) bs (features x)) x m (ssm_Dx x m bs) /\
  agree (how_C (shape m) bs M) h m (ssm_Ch h m bs M).
Proof.
  intros x h m bs M. unfold ss_input, ssm_Dx, ssm_Ch, how_B, how_D, how_C. cbv zeta. rewrite !feat_rk.
  set (f := features x).
  split; [|split]; walk; try (destruct f; cbn [negb] in *; try discriminate; (reflexivity || prods)).
Qed.
Theorem C60_shapes_lpv : forall (x h m : ten) bs N M, rk x = 2 \/ rk x = 3 ->
  agree (lpv_how_B (shape m) bs N M (features x)) x m (lpv_input x (Some m) bs N M) /\
  agree (lpv_how_D (shape m) bs N (features x)) x m (lpv_Dx x m bs N) /\
  agree (lpv_how_C (shape m) bs N M) h m (lpv_Ch h m bs N M).
Proof.
  intros x h m bs N M Hx. unfold lpv_input, lpv_Dx, lpv_Ch, lpv_how_B, lpv_how_D, lpv_how_C. cbv zeta.
  assert (E3 : (rk x =? 3) = with_features (features x)) by (unfold features; destruct Hx as [-> | ->]; reflexivity).
  rewrite !feat_rk, E3.
  set (f := features x).
  split; [|split]; walk; try (destruct f; cbn [negb] in *; try discriminate; (reflexivity || prods)).
Qed.
End Link.
Arguments seen {R}. Arguments by_op {R}. Arguments agree {R}.
Print Assumptions C60_shapes_lti.
Print Assumptions C60_shapes_lpv.

(** diag_state_space multiplies B by Vinv first. *)
Theorem C60_shapes_diag : forall (F : cfield) (x Vinv m : tensor (car F)) bs M, rk Vinv = 2 \/ rk Vinv = 3 ->
  match how_B (shape m) bs M (features x) with
  | Err e => diag_input x Vinv (Some m) bs M = Err e
  | Ok k => exists p, (if (rk Vinv =? 3) && (length (shape m) =? 2) && no_features (features x)
                       then p = vecdot (tconj Vinv) (unsqueeze 1 m)
                       else p = matmul Vinv m \/ p = matmul m (mT Vinv)) /\
              match p with
              | Err e => diag_input x Vinv (Some m) bs M = Err e
              | Ok q => exists u v, seen x u /\ seen q v /\
                  match k with
                  | Elem | Elem0 => diag_input x Vinv (Some m) bs M = tmul u v
                  | Mat => diag_input x Vinv (Some m) bs M = matmul u v
                  | Vec => diag_input x Vinv (Some m) bs M = vecdot v u
                  end
              end
  end.
Proof.
  intros F x Vinv m bs M HV. unfold how_B, diag_input. rewrite !(feat_rk _ x).
  assert (E2 : (rk Vinv =? 2) = negb (rk Vinv =? 3)) by (destruct HV as [-> | ->]; reflexivity).
  destruct (shape m) as [|B0 [|B1 [|B2 [|B3 s]]]]; try reflexivity.
  - destruct (B0 =? M); [|reflexivity]. destruct (features x) as [k|]; [reflexivity|]. cbn [negb].
    exists (matmul Vinv m). split; [destruct (rk Vinv =? 3); cbn; auto|].
    destruct (matmul Vinv m) as [q|]; [|reflexivity]. cbn [bind].
    exists (unsqueeze (rk x) x), (if rk q =? 2 then unsqueeze 1 q else q). split; [right; right; right; eexists; left; reflexivity|].
    split; [|reflexivity]. destruct (rk q =? 2); [right; right; right; eexists; left; reflexivity|left; reflexivity].
  - destruct ((B0 =? bs) && (B1 =? M)).
    + destruct (features x) as [k|]; [reflexivity|]. rewrite E2. change (length [B0; B1] =? 2) with true. destruct (rk Vinv =? 3); cbn [negb andb].
      * exists (vecdot (tconj Vinv) (unsqueeze 1 m)). split; [reflexivity|].
        destruct (vecdot (tconj Vinv) (unsqueeze 1 m)) as [q|]; [|reflexivity]. cbn [bind]. do 2 eexists.
        split; [right; right; right; eexists; left; reflexivity|]. split; [right; right; right; eexists; left; reflexivity|reflexivity].
      * exists (matmul m (mT Vinv)). split; [right; reflexivity|].
        destruct (matmul m (mT Vinv)) as [q|]; [|reflexivity]. cbn [bind]. do 2 eexists.
        split; [right; right; right; eexists; left; reflexivity|]. split; [right; right; right; eexists; left; reflexivity|reflexivity].
    + destruct (features x) as [k|]; cbn [feq]; [|now rewrite andb_false_r].
      destruct ((B0 =? M) && (B1 =? k)); [|reflexivity]. cbn [negb]. rewrite andb_false_r.
      exists (matmul Vinv m). split; [left; reflexivity|]. destruct (matmul Vinv m) as [q|]; [|reflexivity]. cbn [bind].
      exists x, (mT q). split; [left; reflexivity|]. split; [right; left; reflexivity|reflexivity].
  - destruct (features x) as [k|]; cbn [feq]; [|now rewrite andb_false_r].
    destruct ((B0 =? bs) && (B1 =? M) && (B2 =? k)); [|reflexivity]. cbn [negb]. rewrite andb_false_r.
    exists (matmul Vinv m). split; [left; reflexivity|]. destruct (matmul Vinv m) as [q|]; [|reflexivity]. cbn [bind].
    do 2 eexists. split; [right; right; right; eexists; left; reflexivity|].
    split; [right; right; right; eexists; right; left; reflexivity|reflexivity].
Qed.
Print Assumptions C60_shapes_diag.

(** ** lpv.state_space *)
Section Lpv.
Variable lpc_d : dtype -> dtype -> dtype -> res dtype.
Definition lrunner (ext cuda : bool) (N M u : nat) (A z Bx : dtype) : res dtype :=
  if ext && (negb cuda || (M <=? 2)) && (u =? 1)
  then if M =? 1 then lpc_d Bx A z else op_d cuda (if M =? 2 then Recur2 else RecurN) A z Bx
  else lpv_state_space_recursion_d (S N) A z Bx N u.
(** torchlpc is not called, or accepts equal types. *)
Definition lpc_ok (ext : bool) (M : nat) (d : dtype) : Prop := ext = false \/ M <> 1 \/ lpc_d d d d = Ok d.
Lemma lrunner_ok ext cuda N M u A z Bx d : 1 <= u -> ext = false \/ M <> 1 ->
  (ext && cuda && (M =? 2) && (u =? 1)) = false ->
  lrunner ext cuda N M u A z Bx = Ok d -> A = d /\ z = d /\ Bx = d.
Proof.
  intros Hu HM Hc. unfold lrunner. destruct (ext && (negb cuda || (M <=? 2)) && (u =? 1)) eqn:E.
  - apply andb_true_iff in E as [E Eu]. apply andb_true_iff in E as [-> E]. destruct HM as [HM|HM]; [discriminate|].
    apply Nat.eqb_neq in HM. rewrite HM. rewrite Eu, andb_true_r in Hc. cbn [andb] in Hc.
    intro H. apply C60_operators_partial in H; [tauto|]. intro E'. injection E' as -> E'. destruct (M =? 2); [discriminate Hc|discriminate].
  - intro H. exact (proj1 (proj2 (C60_recursion A z Bx N u d Hu)) H).
Qed.
Lemma lrunner_run ext cuda N M u d : 1 <= M -> 1 <= u -> (ext = false \/ supported d) -> lpc_ok ext M d -> lrunner ext cuda N M u d d d = Ok d.
Proof.
  intros HM Hu Hs Hl. unfold lrunner. destruct (ext && _ && _) eqn:E.
  - apply andb_true_iff in E as [E _]. apply andb_true_iff in E as [-> E]. destruct Hs as [Hs|Hs]; [discriminate|].
    destruct (M =? 1) eqn:E1; [apply Nat.eqb_eq in E1; destruct Hl as [Hl|[Hl|Hl]]; [discriminate|contradiction|exact Hl]|].
    apply Nat.eqb_neq in E1. destruct (M =? 2) eqn:E2.
    + destruct cuda; [apply C60_recur2_cuda; repeat split; auto|]. apply C60_operators_partial; [discriminate|]. repeat split; auto; discriminate.
    + apply Nat.eqb_neq in E2. destruct cuda; cbn in E; [apply Nat.leb_le in E; lia|].
      apply C60_operators_partial; [discriminate|]. repeat split; auto; discriminate.
  - apply (proj2 (C60_recursion d d d N u d Hu)). auto.
Qed.

Theorem C60_lpv_state_space_uniform : forall ext cuda bs N M f d B C D zi uf, 1 <= N -> 1 <= M -> uf_ok uf ->
  (ext = false \/ supported d) -> lpc_ok ext M d ->
  shape_ok (fun s => lpv_how_B s bs N M f) d B -> shape_ok (fun s => lpv_how_C s bs N M) d C -> shape_ok (fun s => lpv_how_D s bs N f) d D ->
  zi = None \/ zi = Some d ->
  lpv_state_space_d lpc_d ext cuda bs N M f d d (typed d B) (typed d C) (typed d D) zi uf = Ok (d, zi).
Proof.
  intros ext cuda bs N M f d B C D zi uf HN HM Hu Hs Hl HB HC HD Hz. unfold lpv_state_space_d.
  assert (Ez : match zi with None => d | Some z => z end = d) by (destruct Hz as [-> | ->]; reflexivity). rewrite Ez.
  pose proof (uf_pos N uf HN Hu) as Hu'. set (u := match uf with Some u => u | None => round_sqrt N end) in *.
  assert (EB : match typed d B with None => Ok d | Some (s, d') => let* k := lpv_how_B s bs N M f in mult_d k d d' end = Ok d).
  { destruct B as [s|]; [|reflexivity]. destruct HB as (k & E & H). cbn [typed]. rewrite E. now apply mult_same. }
  rewrite EB. cbn [bind]. fold (lrunner ext cuda N M u d d d). rewrite lrunner_run by assumption. cbn [bind]. rewrite promote_idem.
  assert (EC : match typed d C with None => Ok d | Some (s, d') => let* k := lpv_how_C s bs N M in mult_d k d d' end = Ok d).
  { destruct C as [s|]; [|reflexivity]. destruct HC as (k & E & H). cbn [typed]. rewrite E. now apply mult_same. }
  rewrite EC. destruct D as [s|].
  - destruct HD as (k & E & H). cbn [typed]. rewrite E. cbn [bind]. rewrite mult_same by assumption. cbn [bind].
    rewrite promote_idem. destruct Hz as [-> | ->]; reflexivity.
  - cbn [typed bind]. destruct Hz as [-> | ->]; reflexivity.
Qed.

Theorem C60_lpv_state_space_accepted : forall ext cuda bs N M f A x B C D zi uf y zf, 1 <= N -> uf_ok uf ->
  ext = false \/ (M <> 1 /\ (cuda = false \/ M <> 2)) ->
  lpv_state_space_d lpc_d ext cuda bs N M f A x B C D zi uf = Ok (y, zf) ->
  A = match zi with None => x | Some z => z end /\
  match B with None => x = A | Some (s, b) => exists k, lpv_how_B s bs N M f = Ok k /\ mult_d k x b = Ok A end /\
  zf = match zi with None => None | Some _ => Some A end /\
  exists c, match C with None => c = A | Some (s, m) => exists k, lpv_how_C s bs N M = Ok k /\ mult_d k A m = Ok c end /\
  match D with None => y = c | Some (s, m) => exists k r, lpv_how_D s bs N f = Ok k /\ mult_d k x m = Ok r /\ y = promote c r end.
Proof.
  intros ext cuda bs N M f A x B C D zi uf y zf HN Hu Hex. unfold lpv_state_space_d.
  pose proof (uf_pos N uf HN Hu) as Hu'. set (u := match uf with Some u => u | None => round_sqrt N end) in *.
  set (z := match zi with None => x | Some z => z end).
  destruct (match B with None => Ok x | Some (s, d) => let* k := lpv_how_B s bs N M f in mult_d k x d end) as [Bx|] eqn:EB; [|discriminate]. cbn [bind].
  fold (lrunner ext cuda N M u A z Bx). destruct (lrunner ext cuda N M u A z Bx) as [h|] eqn:Eh; [|discriminate].
  apply lrunner_ok in Eh as (EA & E1 & E2); [|exact Hu'|tauto|].
  2:{ destruct Hex as [-> | (_ & [-> | H])]; [reflexivity|now rewrite andb_false_r|]. apply Nat.eqb_neq in H. rewrite H. now rewrite andb_false_r. }
  cbn [bind]. match goal with |- bind ?e _ = _ -> _ => destruct e as [Dx|] eqn:ED; [|discriminate] end. cbn [bind].
  match goal with |- bind ?e _ = _ -> _ => destruct e as [Ch|] eqn:EC; [|discriminate] end. cbn [bind]. intro H. injection H as H1 H2.
  subst h. split; [congruence|]. split; [|split].
  - destruct B as [[s b]|]; [|congruence]. destruct (lpv_how_B s bs N M f) as [k|] eqn:Ek; [|discriminate]. exists k. split; [reflexivity|]. cbn [bind] in EB. now rewrite EB, E2.
  - rewrite <- H2. destruct zi; congruence.
  - rewrite E1, promote_idem in EC. exists Ch. split.
    + destruct C as [[s m]|]; [|congruence]. destruct (lpv_how_C s bs N M) as [k|]; [|discriminate]. exists k. split; [reflexivity|exact EC].
    + destruct D as [[s m]|].
      * destruct (lpv_how_D s bs N f) as [k|]; [|discriminate]. cbn [bind] in ED. destruct (mult_d k x m) as [r|] eqn:Em; [|discriminate]. cbn [bind] in ED. injection ED as <-.
        exists k, r. split; [reflexivity|]. split; [exact Em|symmetry; exact H1].
      * injection ED as <-. symmetry; exact H1.
Qed.

(** On CUDA, second-order systems are different, because recur2 does not check zi: a
    signal of a smaller type goes through there and is rejected on the CPU. *)
Theorem C60_lpv_cuda_refuted : forall bs N A x, 1 <= N -> supported A -> sub x A -> x <> A ->
  lpv_state_space_d lpc_d true true bs N 2 None A x (Some ([2], A)) None None None (Some 1) = Ok (A, None) /\
  forall r, lpv_state_space_d lpc_d true false bs N 2 None A x (Some ([2], A)) None None None (Some 1) <> Ok r.
Proof.
  intros bs N A x HN Hs Hx Hn. split.
  - unfold lpv_state_space_d. pose proof (proj2 (promote_sub x A) Hx) as E. cbn [lpv_how_B Nat.eqb negb bind mult_d andb orb Nat.leb].
    rewrite E. rewrite (proj2 (C60_recur2_cuda A x A A)) by auto. cbn [bind]. now rewrite E.
  - intros [y zf] E. apply C60_lpv_state_space_accepted in E as (E & _); [congruence|exact HN|exact (le_n 1)|right; split; [discriminate|left; reflexivity]].
Qed.
End Lpv.
Print Assumptions C60_lpv_state_space_uniform.
Print Assumptions C60_lpv_state_space_accepted.
Print Assumptions C60_lpv_cuda_refuted.
Example C60_lpv_ex : let lpc := fun _ _ _ => Err RuntimeError in
  sub F32 F64 /\
  lpv_state_space_d lpc true true 3 9 2 None F64 F32 (Some ([2], F64)) None None None (Some 1) = Ok (F64, None) /\
  lpv_state_space_d lpc true false 3 9 2 None F64 F32 (Some ([2], F64)) None None None (Some 1) = Err RuntimeError /\
  lpv_state_space_d lpc true true 3 9 2 None F64 F32 (Some ([2], F64)) None None None None = Err RuntimeError /\
  lpv_state_space_d lpc true false 3 9 4 (Some 5) C64 C64 (Some ([9;4;5], C64)) (Some ([3;9;7;4], C64)) (Some ([3;9;7;5], C64)) (Some C64) (Some 1)
    = Ok (C64, Some C64) /\
  lpv_state_space_d lpc true false 3 9 4 (Some 5) I64 I64 (Some ([4;5], I64)) (Some ([7;4], I64)) None None (Some 1) = Ok (I64, None) /\
  lpv_state_space_d lpc true false 3 9 4 (Some 5) I64 I64 (Some ([9;4;5], I64)) (Some ([7;4], I64)) None None (Some 1) = Err RuntimeError.
Proof. split; [repeat split; cbn; lia|]. repeat split. Qed.

(** ** diag_state_space *)
(** The types torch.linalg computes with. *)
Definition linear (d : dtype) : Prop := d = F32 \/ d = F64 \/ d = C64 \/ d = C128.
Definition shaped (how : list nat -> res how) (a : option (list nat)) : Prop :=
  match a with None => True | Some s => exists k, how s = Ok k end.
Lemma diag_resolve_A x V Vinv d : linear d -> diag_resolve_d x None V Vinv (Some d) = Ok (to_complex d, to_complex d, to_complex d).
Proof. intros [-> |[-> |[-> | ->]]]; reflexivity. Qed.
Lemma linear_cplx d : linear d -> is_cplx (to_complex d) = true /\ to_complex d <> I64 /\ supported (to_complex d) /\ plus_0j d = to_complex d /\
  plus_0j (to_complex d) = to_complex d /\ promote (to_complex d) d = to_complex d /\ d <> I64 /\
  real_part (to_complex d) = real_part d /\ (is_cplx d = false -> real_part (to_complex d) = d) /\ (is_cplx d = true -> to_complex d = d).
Proof. intros [-> |[-> |[-> | ->]]]; repeat split; try discriminate; auto. Qed.
(** The recurrences, by whatever back-end, on equal types. *)
Lemma scalar_run ext cuda many N u c : 1 <= u -> supported c -> c <> I64 ->
  (if ext && (u =? 1) then op_d cuda LtiRecur c c c else linear_recurrence_d (S N) many c c c N u) = Ok c.
Proof.
  intros Hu Hs Hi. destruct (ext && (u =? 1)).
  - apply C60_operators_partial; [destruct cuda; congruence|]. repeat split; auto. intros [H|H]; discriminate.
  - apply C60_linear_recurrence; [exact Hu|]. destruct ((u =? 1) || (N <=? u)); [now rewrite !promote_idem|]. repeat split; auto.
Qed.

(** One type everywhere, decomposition computed from A: with C the output has that type;
    without C it is complex, also for a real system. *)
Theorem C60_diag_uniform : forall ext cuda bs N M f bv d V Vinv B C D zi uf, 1 <= N -> uf_ok uf -> linear d ->
  shaped (fun s => how_B s bs M f) B -> shaped (fun s => how_C s bs M) C -> shaped (fun s => how_D s bs f) D ->
  zi = None \/ zi = Some d ->
  diag_state_space_d ext cuda bs N M f bv d None V Vinv (Some d) (typed d B) (typed d C) (typed d D) zi uf
  = Ok (match C with Some _ => (d, zi) | None => (to_complex d, option_map to_complex zi) end).
Proof.
  intros ext cuda bs N M f bv d V Vinv B C D zi uf HN Hu Hd HB HC HD Hz. unfold diag_state_space_d.
  pose proof (uf_pos N uf HN Hu) as Hu'. set (u := match uf with Some u => u | None => round_sqrt N end) in *.
  rewrite (diag_resolve_A d V Vinv d Hd). cbn [bind].
  destruct (linear_cplx d Hd) as (E1 & Ei & Es & E0 & E0' & Ep & Hi & _ & Er & Ec). rewrite E1. set (c := to_complex d) in *.
  assert (Ez : plus_0j (match zi with None => d | Some z => z end) = c) by (destruct Hz as [-> | ->]; exact E0). rewrite Ez, E0.
  assert (Eg : forall b : bool, (if b then vecdot_d c c else mm_d c c) = Ok c).
  { intros [|]; [apply vecdot_ok; auto|now apply mm_ok]. }
  rewrite Eg. cbn [bind].
  assert (EB : match typed d B with
    | Some (s, b) => let* k := how_B s bs M f in let* VinvB := if bv && (length s =? 2) && no_features f then vecdot_d c (plus_0j b) else mm_d c (plus_0j b) in mult_d k c VinvB
    | None => if f then mm_d c c else Ok (promote c c) end = Ok c).
  { destruct B as [s|]; cbn [typed].
    - destruct HB as (k & E). rewrite E, E0. cbn [bind]. rewrite Eg. cbn [bind]. apply mult_same. auto.
    - destruct f; [now apply mm_ok|now rewrite promote_idem]. }
  rewrite EB. cbn [bind]. rewrite scalar_run by assumption. cbn [bind]. rewrite (proj2 (mm_ok c c c)) by auto. cbn [bind]. rewrite promote_idem.
  assert (ED : match typed d D with None => Ok None | Some (s, d') => let* k := how_D s bs f in let* r := mult_d k d d' in Ok (Some r) end
    = Ok (match D with None => None | Some _ => Some d end)).
  { destruct D as [s|]; [|reflexivity]. destruct HD as (k & E). cbn [typed]. rewrite E. cbn [bind]. now rewrite mult_same by auto. }
  rewrite ED. cbn [bind]. destruct C as [s|].
  - destruct HC as (k & E). cbn [typed]. rewrite E. cbn [bind].
    assert (Eh : (if negb (is_cplx d) then real_part c else c) = d) by (destruct (is_cplx d); cbn [negb]; auto).
    rewrite Eh, mult_same by auto. cbn [bind]. destruct D; [rewrite promote_idem|]; destruct Hz as [-> | ->]; reflexivity.
  - cbn [typed bind]. destruct D; [rewrite Ep|]; destruct Hz as [-> | ->]; reflexivity.
Qed.
Print Assumptions C60_diag_uniform.
(** So for a real system without C it returns complex numbers where state_space returns
    real ones. *)
Theorem C60_diag_real_system_refuted : forall ext cuda bs N M f bv d B D zi uf, 1 <= N -> uf_ok uf -> d = F32 \/ d = F64 ->
  shaped (fun s => how_B s bs M f) B -> shaped (fun s => how_D s bs f) D -> zi = None \/ zi = Some d ->
  state_space_d ext cuda bs N M f d d (typed d B) None (typed d D) zi uf = Ok (d, zi) /\
  exists c, category c = 2 /\ category d = 1 /\
    diag_state_space_d ext cuda bs N M f bv d None None None (Some d) (typed d B) None (typed d D) zi uf = Ok (c, option_map (fun _ => c) zi).
Proof.
  intros ext cuda bs N M f bv d B D zi uf HN Hu Hd HB HD Hz.
  assert (Hl : linear d) by (unfold linear; tauto).
  split.
  - apply (C60_state_space_uniform ext cuda bs N M f d B None D zi uf); auto.
    + right. destruct Hd as [-> | ->]; discriminate.
    + destruct B as [s|]; [|exact I]. destruct HB as (k & E). exists k. split; [exact E|]. destruct Hd as [-> | ->]; discriminate.
    + exact I.
    + destruct D as [s|]; [|exact I]. destruct HD as (k & E). exists k. split; [exact E|]. destruct Hd as [-> | ->]; discriminate.
  - exists (to_complex d). split; [destruct Hd as [-> | ->]; reflexivity|]. split; [destruct Hd as [-> | ->]; reflexivity|].
    etransitivity; [apply (C60_diag_uniform ext cuda bs N M f bv d None None B None D zi uf); auto; exact I|].
    f_equal. f_equal. destruct Hz as [-> | ->]; reflexivity.
Qed.
Print Assumptions C60_diag_real_system_refuted.
Example C60_diag_ex :
  diag_state_space_d true false 2 9 3 None true F32 None None None (Some F32) None (Some ([2;3], F32)) (Some ([], F32)) (Some F32) None = Ok (F32, Some F32) /\
  diag_state_space_d true false 2 9 3 None true F32 None None None (Some F32) None None (Some ([], F32)) (Some F32) None = Ok (C64, Some C64) /\
  state_space_d true false 2 9 3 None F32 F32 None None (Some ([], F32)) (Some F32) None = Ok (F32, Some F32) /\
  diag_state_space_d false true 2 9 3 None true I64 None None None (Some I64) None (Some ([2;3], I64)) None None None = Err RuntimeError.
Proof. repeat split. Qed.

(** Adding 0j: the smallest complex type, complex64 for integers. *)
Theorem C60_plus_0j : forall d, category (plus_0j d) = 2 /\ sub d (plus_0j d) /\ (d = I64 -> plus_0j d = C64) /\
  forall c, d <> I64 -> category c = 2 -> sub d c -> sub (plus_0j d) c.
Proof.
  intro d. split; [now destruct d|]. split; [destruct d; repeat split; cbn; lia|]. split; [now intros ->|].
  intros c H1 H2 (H3 & H4 & H5). destruct d, c; try congruence; cbn in *; try lia; repeat split; cbn; lia.
Qed.
Print Assumptions C60_plus_0j.
(** The types that are accepted: zi (by default of the type of x) has the precision of A. *)
Theorem C60_diag_accepted : forall ext cuda bs N M f bv x V Vinv A B C D zi uf r,
  diag_state_space_d ext cuda bs N M f bv x None V Vinv (Some A) B C D zi uf = Ok r ->
  linear A /\ plus_0j (match zi with None => x | Some z => z end) = to_complex A.
Proof.
  intros ext cuda bs N M f bv x V Vinv A B C D zi uf r. unfold diag_state_space_d.
  assert (HA : linear A \/ exists e, diag_resolve_d x None V Vinv (Some A) = Err e).
  { destruct A; try (left; unfold linear; tauto); right; eexists; reflexivity. }
  destruct HA as [HA|[e E]]; [|rewrite E; discriminate]. rewrite (diag_resolve_A x V Vinv A HA). cbn [bind].
  destruct (linear_cplx A HA) as (E1 & _). rewrite E1. set (z := match zi with None => x | Some z => z end).
  destruct (if bv then vecdot_d (to_complex A) (plus_0j z) else mm_d (plus_0j z) (to_complex A)) as [v|] eqn:E; [|discriminate].
  intros _. split; [exact HA|]. destruct bv; [apply vecdot_ok in E|apply mm_ok in E]; intuition congruence.
Qed.
Print Assumptions C60_diag_accepted.
Example C60_diag_accepted_ex :
  diag_state_space_d false false 2 9 1 None false I64 None None None (Some F32) None None None None None = Ok (C64, None) /\
  diag_state_space_d false false 2 9 1 None false I64 None None None (Some F64) None None None None None = Err RuntimeError /\
  diag_state_space_d false false 2 9 1 None false F32 None None None (Some F64) None None None (Some F64) None = Ok (C128, Some C128) /\
  diag_state_space_d false false 2 9 1 None false I64 (Some I64) (Some I64) (Some I64) None None None None None (Some 2) = Err RuntimeError /\
  diag_state_space_d false false 1 9 1 None false I64 (Some I64) (Some I64) (Some I64) None None None None None (Some 2) = Ok (I64, None).
Proof. repeat split. Qed.
(** A complex signal through a real system with a real C comes out as a real signal. *)
Theorem C60_diag_complex_signal_refuted : forall ext cuda bs N M bv d uf, 1 <= N -> uf_ok uf -> d = F32 \/ d = F64 ->
  diag_state_space_d ext cuda bs N M None bv (to_complex d) None None None (Some d) None (Some ([M], d)) None None uf = Ok (d, None).
Proof.
  intros ext cuda bs N M bv d uf HN Hu Hd. assert (Hl : linear d) by (unfold linear; tauto). unfold diag_state_space_d.
  pose proof (uf_pos N uf HN Hu) as Hu'. set (u := match uf with Some u => u | None => round_sqrt N end) in *.
  rewrite (diag_resolve_A (to_complex d) None None d Hl). cbn [bind].
  destruct (linear_cplx d Hl) as (E1 & Ei & Es & E0 & E0' & Ep & Hi & _ & Er & Ec). rewrite E1, E0'. set (c := to_complex d) in *.
  assert (Eg : (if bv then vecdot_d c c else mm_d c c) = Ok c) by (destruct bv; [apply vecdot_ok; auto|now apply mm_ok]).
  rewrite Eg. cbn [bind]. rewrite promote_idem, scalar_run by assumption. cbn [bind]. rewrite (proj2 (mm_ok c c c)) by auto. cbn [bind]. rewrite promote_idem.
  assert (Ed : is_cplx d = false) by (destruct Hd as [-> | ->]; reflexivity). rewrite Ed. cbn [negb]. rewrite (Er Ed).
  cbn [how_C]. rewrite Nat.eqb_refl. cbn [bind mult_d]. now rewrite (proj2 (mm_ok d d d)).
Qed.
Print Assumptions C60_diag_complex_signal_refuted.
(** Eigenvalues alone: V and Vinv become the identity of the type of x, so complex
    eigenvalues never work with a real signal. *)
Theorem C60_diag_eigenvalues_refuted : forall ext cuda bs N M f bv x L B C D zi uf r, 1 <= N -> uf_ok uf ->
  category L = 2 -> category x <> 2 ->
  diag_state_space_d ext cuda bs N M f bv x (Some L) None None None B C D zi uf <> Ok r.
Proof.
  intros ext cuda bs N M f bv x L B C D zi uf r HN Hu HL Hx. unfold diag_state_space_d. cbn [diag_resolve_d bind].
  pose proof (uf_pos N uf HN Hu) as Hu'. set (u := match uf with Some u => u | None => round_sqrt N end) in *.
  destruct (if bv then _ else _) as [v|]; [|discriminate]. cbn [bind].
  match goal with |- bind ?e _ <> _ => destruct e as [w|]; [|discriminate] end. cbn [bind].
  match goal with |- bind ?e _ <> _ => destruct e as [h|] eqn:Eh; [|discriminate] end. cbn [bind].
  assert (Ch : category h = 2).
  { destruct (ext && (u =? 1)).
    - apply C60_operators_partial in Eh; [|destruct cuda; congruence]. destruct Eh as (_ & <- & _). exact HL.
    - apply C60_linear_recurrence in Eh; [|exact Hu']. destruct ((u =? 1) || (N <=? u)).
      + subst h. destruct (C60_promote_lub (promote L v) w) as ((H1 & _) & _). destruct (C60_promote_lub L v) as ((H2 & _) & _).
        assert (forall d, category d <= 2) as H3 by (intros []; cbn; lia). specialize (H3 (promote (promote L v) w)). lia.
      + destruct Eh as (<- & _). exact HL. }
  destruct (mm_d x h) as [o|] eqn:Eo; [|discriminate]. apply mm_ok in Eo as [-> <-]. contradiction.
Qed.
Print Assumptions C60_diag_eigenvalues_refuted.
Example C60_diag_eigenvalues_ex :
  diag_state_space_d true false 2 9 3 None false F32 (Some C64) None None None None None None None (Some 1) = Err RuntimeError /\
  diag_state_space_d false false 2 9 3 None false F32 (Some C64) None None None None None None None (Some 1) = Err RuntimeError /\
  diag_state_space_d true false 2 9 3 None false C64 (Some C64) None None None None None None None (Some 1) = Ok (C64, None) /\
  diag_state_space_d true false 2 9 3 None false F32 (Some C64) (Some C64) None None None None None None (Some 1) = Ok (C64, None) /\
  diag_state_space_d true false 2 9 3 None false F32 (Some F32) None None None None None None None (Some 1) = Ok (F32, None).
Proof. repeat split. Qed.

(** ** lfilter with the diag_ssm back-end: tdf2 returns complex numbers. *)
Theorem C60_diag_lfilter_refuted : forall ext cuda bs N M ba bb d zi uf, 1 <= N -> uf_ok uf -> d = F32 \/ d = F64 ->
  zi = None \/ zi = Some d ->
  diag_lfilter_d ext cuda Df2 bs N M ba bb d d d zi uf = Ok (d, zi) /\
  exists c, category c = 2 /\ sig_bits c = sig_bits d /\
    diag_lfilter_d ext cuda Tdf2 bs N M ba bb d d d zi uf = Ok (c, option_map (fun _ => c) zi).
Proof.
  intros ext cuda bs N M ba bb d zi uf HN Hu Hd Hz. assert (Hl : linear d) by (unfold linear; tauto).
  unfold diag_lfilter_d. rewrite promote_idem.
  set (sc := if ba || bb then [bs; M] else [M]). set (sd := if bb then [bs] else []).
  assert (HC : shaped (fun s => how_C s bs M) (Some sc)).
  { unfold sc. destruct (ba || bb); cbn; rewrite !Nat.eqb_refl; eexists; reflexivity. }
  assert (HB : shaped (fun s => how_B s bs M None) (Some sc)).
  { unfold sc. destruct (ba || bb); cbn; rewrite !Nat.eqb_refl; eexists; reflexivity. }
  assert (HD : shaped (fun s => how_D s bs None) (Some sd)).
  { unfold sd. destruct bb; cbn; [rewrite !Nat.eqb_refl|]; eexists; reflexivity. }
  split.
  - apply (C60_diag_uniform ext cuda bs N M None ba d None None None (Some sc) (Some sd) zi uf); auto. exact I.
  - exists (to_complex d). split; [destruct Hd as [-> | ->]; reflexivity|]. split; [destruct Hd as [-> | ->]; reflexivity|].
    etransitivity; [apply (C60_diag_uniform ext cuda bs N M None ba d None None (Some sc) None (Some sd) zi uf); auto; exact I|].
    f_equal. f_equal. destruct Hz as [-> | ->]; reflexivity.
Qed.
Print Assumptions C60_diag_lfilter_refuted.
Example C60_diag_lfilter_ex :
  diag_lfilter_d true false Df2 2 9 3 true false F64 F64 F64 (Some F64) None = Ok (F64, Some F64) /\
  diag_lfilter_d true false Tdf2 2 9 3 true false F64 F64 F64 (Some F64) None = Ok (C128, Some C128) /\
  diag_lfilter_d true false Df2 2 9 3 true false F32 F64 F64 None None = Ok (F64, None) /\
  diag_lfilter_d true false Df2 2 9 3 true false F64 F64 F32 None None = Err RuntimeError.
Proof. repeat split. Qed.
