(** state_space without unrolling is a state machine, bit for bit: no law of arithmetic is
    used (philtorch/lti/ssm.py:118-195, 386-510). *)
From Coq Require Import List Arith Lia ZArith Bool.
From Verif Require Import Scalar Tensor TensorLemmas TensorOps TensorAlg TensorTac TensorList Spec Shapes SpecBits Algebra M_Mat P_Mat M_Kernels M_LtiSsm
  P_Kernels P_KernelOps P_Helion P_LtiSsm P_Round5.
Import ListNotations.
Open Scope cr_scope.
Open Scope nat_scope.

Section S.
Variable R : cops.
Notation ten := (tensor (car R)).

Lemma machine_local M K (f : (nat -> R) -> (nat -> R) -> nat -> R) h h' x x' n : reads M K M f ->
  (forall i, i < M -> h i = h' i) -> (forall k j, k < n -> j < K -> x k j = x' k j) ->
  forall i, i < M -> machine f h x n i = machine f h' x' n i.
Proof.
  intros Hf Hh. induction n as [|n IH]; intros Hx i Hi; cbn [machine]; [auto|].
  apply Hf; auto.
Qed.
Lemma machine_add (f : (nat -> R) -> (nat -> R) -> nat -> R) h x m n :
  machine f h x (m + n) = machine f (machine f h x m) (fun k => x (m + k)) n.
Proof. induction n as [|n IH]; [now rewrite Nat.add_0_r|]. rewrite Nat.add_succ_r. cbn [machine]. now rewrite IH. Qed.

(** ** The input, output and feed-through matrices act sample by sample *)
Lemma ss_input_raw B M G (Bt : option ten) Bm : inmat B M G Bt Bm ->
  exists g : nat -> (nat -> R) -> nat -> R,
    (forall b v v' m, (forall k, k < width G -> v k = v' k) -> m < M -> g b v m = g b v' m) /\
    forall N (x : ten) xf, sigv B N G x xf -> exists y, ss_input x Bt B M = Ok y /\ drive B N M y (fun b n m => g b (xf b n) m).
Proof.
  intro HB. destruct HB as [f Hf|f Hf|t g f Ht Hf|t g f Ht Hf|K t g f Ht Hne Hf|K t g f Ht Hf]; cbn [width].
  - exists (fun _ v m => if m =? 0 then v 0 else r0). split; [intros b v v' m Hv Hm; destruct (m =? 0); auto|].
    intros N x xf Hx. exists x. split; [reflexivity|]. eapply drive_2; [exact Hx|]. reflexivity.
  - exists (fun _ v m => v m). split; [auto|]. intros N x xf Hx. exists x. split; [reflexivity|]. now apply drive_3.
  - exists (fun _ v m => rmul (v 0) (g m)). split; [intros; f_equal; auto|].
    intros N x xf Hx. destruct (sig_size R _ _ _ _ _ Hx) as (_ & _ & _ & Hfe & Hrk). unfold ss_input.
    cbn [sigv] in Hx. rewrite (proj1 Ht), Nat.eqb_refl. rkt. cbn [Nat.eqb].
    assert (Hu3 : is3 (unsqueeze 2 x) B N 1 (fun b n _ => xf b n 0)).
    { apply is2_P1 in Hx. nm (unsqueeze 2 x). apply is3_P2. exact H. }
    set (v := unsqueeze 2 x) in *. clearbody v. apply is3_PP1 in Hu3. apply is1_P in Ht. unfold tmul.
    eat @P1_ewl; [exact Hu3|exact Ht|bdt|]. exists w. split; [reflexivity|]. apply drive_3. apply PP1_is3 in H. eapply is3_ext; [exact H|].
    intros b n m Hb Hn Hm. cbn [nth]. now rewrite (bi_lt M) by lia.
  - exists (fun b v m => rmul (v 0) (g b m)). split; [intros; f_equal; auto|].
    intros N x xf Hx. destruct (sig_size R _ _ _ _ _ Hx) as (_ & _ & _ & Hfe & Hrk). unfold ss_input.
    cbn [sigv] in Hx. rewrite (proj1 Ht), !Nat.eqb_refl. rkt. cbn [Nat.eqb andb]. apply is2_P1 in Hx, Ht.
    nm (unsqueeze 2 x). nm (unsqueeze 1 t). unfold tmul. eat @P2_ew; [exact H|exact H0|bdt|bdt|].
    exists w. split; [reflexivity|]. apply drive_3. apply P2_is3 in H1. eapply is3_ext; [exact H1|].
    intros b n m Hb Hn Hm. cbn [nth]. now rewrite !(bi_lt M), (bi_lt N) by lia.
  - exists (fun _ v m => bsum K (fun k => rmul (v k) (g m k))). split; [intros; apply bsum_ext; intros; f_equal; auto|].
    intros N x xf Hx. destruct (sig_size R _ _ _ _ _ Hx) as (_ & _ & _ & Hfe & Hrk). unfold ss_input.
    cbn [sigv] in Hx. rewrite (proj1 Ht), Hfe. cbn [feq]. rewrite !Nat.eqb_refl. cbn [andb].
    replace ((M =? B) && (K =? M))%bool with false by (symmetry; apply andb_false_iff; destruct Hne; [left|right]; now apply Nat.eqb_neq).
    apply is3_P2 in Hx. apply is2_P in Ht. nm (mT t). mm. exists w. split; [reflexivity|]. apply drive_3. apply P2_is3 in H0. exact H0.
  - exists (fun b v m => bsum K (fun k => rmul (conj (conj (g b m k))) (v k))). split; [intros; apply bsum_ext; intros; f_equal; auto|].
    intros N x xf Hx. destruct (sig_size R _ _ _ _ _ Hx) as (_ & _ & _ & Hfe & Hrk). unfold ss_input.
    cbn [sigv] in Hx. rewrite (proj1 Ht), Hfe. cbn [feq]. rewrite !Nat.eqb_refl. cbn [andb].
    apply is3_P2 in Hx, Ht. nm (unsqueeze 1 t). nm (tconj v). replace (rk x - 1) with 2 by dimt.
    nm (unsqueeze 2 x). vdot. exists w. split; [reflexivity|]. apply drive_3. apply P2_is3 in H2. eapply is3_ext; [exact H2|].
    intros b n m Hb Hn Hm. cbn [nth]. now rewrite (bi_lt N), (bi_lt M) by lia.
Qed.
Lemma ssm_Ch_raw B M P (C : ten) Cm : outmat B M None (Some C) P Cm ->
  exists g : nat -> (nat -> R) -> nat -> R,
    (forall b v v' p, (forall k, k < M -> v k = v' k) -> p < width P -> g b v p = g b v' p) /\
    forall N (h : ten) hv, is3 h B N M hv -> exists y, ssm_Ch h C B M = Ok y /\ sigv B N P y (fun b n p => g b (hv b n) p).
Proof.
  intro HC. remember (@None Z) as oi eqn:Eo. remember (Some C) as C' eqn:EC.
  destruct HC as [f Hf|i k f Hk Hf|t g f Ht Hf|t g f Ht Hf|K t g f Ht Hne Hf|K t g f Ht Hf]; try discriminate; injection EC as ->.
  - exists (fun _ v _ => bsum M (fun m => rmul (v m) (g m))). split; [intros; apply bsum_ext; intros; f_equal; auto|].
    intros N h hv Hh. unfold ssm_Ch. apply is3_P2 in Hh. rewrite (proj1 Ht), ?Nat.eqb_refl.
    mm. exists w. split; [reflexivity|]. apply P1_sig in H. exact H.
  - exists (fun b v _ => bsum M (fun m => rmul (conj (conj (g b m))) (v m))). split; [intros; apply bsum_ext; intros; f_equal; auto|].
    intros N h hv Hh. unfold ssm_Ch. apply is3_P2 in Hh. rewrite (proj1 Ht), ?Nat.eqb_refl.
    cbn [andb]. apply is2_P1 in Ht. nm (unsqueeze 1 C). nm (tconj v). vdot. exists w. split; [reflexivity|].
    apply P1_sig in H1. eapply is2_ext; [exact H1|]. intros b n Hb Hn. cbn [nth]. now rewrite (bi_lt N) by lia.
  - exists (fun _ v p => bsum M (fun m => rmul (v m) (g p m))). split; [intros; apply bsum_ext; intros; f_equal; auto|].
    intros N h hv Hh. unfold ssm_Ch. apply is3_P2 in Hh. rewrite (proj1 Ht), ?Nat.eqb_refl.
    bfalse (K =? B). cbn [andb]. apply is2_P in Ht. nm (mT C). mm. exists w. split; [reflexivity|]. apply P2_sig in H0. exact H0.
  - exists (fun b v p => bsum M (fun m => rmul (v m) (g b p m))). split; [intros; apply bsum_ext; intros; f_equal; auto|].
    intros N h hv Hh. unfold ssm_Ch. apply is3_P2 in Hh. rewrite (proj1 Ht), ?Nat.eqb_refl.
    cbn [andb]. apply is3_P2 in Ht. nm (mT C). mm. exists w. split; [reflexivity|]. apply P2_sig in H0. exact H0.
Qed.
Lemma ssm_Dx_raw B G P (D : ten) Dm : feed B G P (Some D) Dm ->
  exists g : nat -> (nat -> R) -> nat -> R,
    (forall b v v' p, (forall k, k < width G -> v k = v' k) -> p < width P -> g b v p = g b v' p) /\
    forall N (x : ten) xf, sigv B N G x xf -> exists y, ssm_Dx x D B = Ok y /\ sigv B N P y (fun b n p => g b (xf b n) p).
Proof.
  intro HD. remember (Some D) as D' eqn:ED.
  destruct HD as [G P f Hf|t v f Ht Hf|t g f Ht Hf|t g f Ht Hf|P t g f Ht H1 H2 Hf|P t g f Ht Hf
    |K t v f Ht Hf|K t g f Ht H1 H2 Hf|K t g f Ht Hf|K t g f Ht Hf|K P t g f Ht Hne Hf|K P t g f Ht Hf];
    try discriminate; injection ED as ->; cbn [width].
  - exists (fun _ x _ => rmul (x 0) v). split; [intros; f_equal; auto|].
    intros N x xf Hx. destruct (sig_size R _ _ _ _ _ Hx) as (_ & _ & _ & Hfe & Hrk). unfold ssm_Dx. rewrite Hfe, (proj1 Ht), ?Hrk. cbn [feq]. rewrite ?Nat.eqb_refl. unfold sigv in Hx.
    apply is2_P1 in Hx. ew2. exists w. split; [reflexivity|]. apply P1_sig in H. exact H.
  - destruct (1 =? B) eqn:E; b2p.
    + subst B. exists (fun _ x _ => rmul (g 0) (x 0)). split; [intros; f_equal; auto|].
      intros N x xf Hx. destruct (sig_size R _ _ _ _ _ Hx) as (_ & _ & _ & Hfe & Hrk). unfold ssm_Dx. rewrite Hfe, (proj1 Ht), ?Hrk. cbn [feq]. rewrite ?Nat.eqb_refl. unfold sigv in Hx.
      apply is1_P0 in Ht. assert (Hx3 : isP1 (unsqueeze 1 D) [1] 1 (fun q _ => g (nth 0 q 0))) by (eapply P0_unsq0; [exact Ht|reflexivity] || (eapply P0_unsq0 with (d := 1) in Ht; [exact Ht|reflexivity])).
      apply is2_P1 in Hx. unfold tmul. eat @P1_ew; [exact Hx3|exact Hx|bdt|].
      exists w. split; [reflexivity|]. apply P1_sig in H. eapply is2_ext; [exact H|]. intros b n Hb Hn. cbn [nth].
      rewrite (bi_lt N) by lia. now replace b with 0 by lia.
    + exists (fun _ x _ => rmul (x 0) (g 0)). split; [intros; f_equal; auto|].
      intros N x xf Hx. destruct (sig_size R _ _ _ _ _ Hx) as (_ & _ & _ & Hfe & Hrk). unfold ssm_Dx. rewrite Hfe, (proj1 Ht), ?Hrk. cbn [feq]. rewrite ?Nat.eqb_refl. unfold sigv in Hx.
      bfalse (1 =? B). cbn [Nat.eqb].
      apply is2_P1 in Hx. apply is1_P in Ht. unfold tmul. eat @P1_ewl; [exact Hx|exact Ht|bdt|].
      exists w. split; [reflexivity|]. apply P1_sig in H. eapply is2_ext; [exact H|]. intros b n Hb Hn. cbn [nth].
      rewrite (bi_lt N) by lia. now rewrite ?bi_1.
  - exists (fun b x _ => rmul (g b) (x 0)). split; [intros; f_equal; auto|].
    intros N x xf Hx. destruct (sig_size R _ _ _ _ _ Hx) as (_ & _ & _ & Hfe & Hrk). unfold ssm_Dx. rewrite Hfe, (proj1 Ht), ?Hrk. cbn [feq]. rewrite ?Nat.eqb_refl. unfold sigv in Hx.
    apply is1_P0 in Ht. assert (Hx3 : isP1 (unsqueeze 1 D) [B] 1 (fun q _ => g (nth 0 q 0))) by (eapply P0_unsq0; [exact Ht|reflexivity]).
    apply is2_P1 in Hx. unfold tmul. eat @P1_ew; [exact Hx3|exact Hx|bdt|].
    exists w. split; [reflexivity|]. apply P1_sig in H. eapply is2_ext; [exact H|]. intros b n Hb Hn. cbn [nth].
    now rewrite (bi_lt N) by lia.
  - exists (fun _ x p => rmul (g p) (x 0)). split; [intros; f_equal; auto|].
    intros N x xf Hx. destruct (sig_size R _ _ _ _ _ Hx) as (_ & _ & _ & Hfe & Hrk). unfold ssm_Dx. rewrite Hfe, (proj1 Ht), ?Hrk. cbn [feq]. rewrite ?Nat.eqb_refl. unfold sigv in Hx.
    bfalse (P =? B). bfalse (P =? 1). rkt.
    assert (Hx3 : is3 (unsqueeze 2 x) B N 1 (fun b n _ => xf b n 0)).
    { apply is2_P1 in Hx. nm (unsqueeze 2 x). apply is3_P2. exact H. }
    set (v := unsqueeze 2 x) in *. clearbody v. apply is3_PP1 in Hx3. apply is1_P in Ht. unfold tmul.
    eat @P1_ewr; [exact Ht|exact Hx3|bdt|]. exists w. split; [reflexivity|]. apply PP1_sig in H. eapply is3_ext; [exact H|].
    intros b n p Hb Hn Hp. cbn [nth]. rewrite (bi_lt P) by lia. now rewrite ?bi_1.
  - exists (fun b x p => rmul (g b p) (x 0)). split; [intros; f_equal; auto|].
    intros N x xf Hx. destruct (sig_size R _ _ _ _ _ Hx) as (_ & _ & _ & Hfe & Hrk). unfold ssm_Dx. rewrite Hfe, (proj1 Ht), ?Hrk. cbn [feq]. rewrite ?Nat.eqb_refl. unfold sigv in Hx.
    rewrite andb_false_r. rkt. apply is2_P1 in Hx, Ht. nm (unsqueeze 2 x). nm (unsqueeze 1 D). unfold tmul.
    eat @P2_ew; [exact H0|exact H|bdt|bdt|]. exists w. split; [reflexivity|]. apply P2_sig in H1. eapply is3_ext; [exact H1|].
    intros b n p Hb Hn Hp. cbn [nth]. rewrite (bi_lt N), (bi_lt P) by lia. now rewrite ?bi_1.
  - exists (fun _ x p => rmul (x p) v). split; [intros; f_equal; auto|].
    intros N x xf Hx. destruct (sig_size R _ _ _ _ _ Hx) as (_ & _ & _ & Hfe & Hrk). unfold ssm_Dx. rewrite Hfe, (proj1 Ht), ?Hrk. cbn [feq]. rewrite ?Nat.eqb_refl. unfold sigv in Hx.
    apply is3_P2 in Hx. ew2. exists w. split; [reflexivity|]. apply P2_sig in H. exact H.
  - exists (fun _ x p => rmul (x p) (g 0)). split; [intros; f_equal; auto|].
    intros N x xf Hx. destruct (sig_size R _ _ _ _ _ Hx) as (_ & _ & _ & Hfe & Hrk). unfold ssm_Dx. rewrite Hfe, (proj1 Ht), ?Hrk. cbn [feq]. rewrite ?Nat.eqb_refl. unfold sigv in Hx.
    bfalse (1 =? K). bfalse (1 =? B). cbn [Nat.eqb]. apply is3_PP1 in Hx. apply is1_P in Ht. unfold tmul.
    eat @P1_ewl; [exact Hx|exact Ht|bdt|]. exists w. split; [reflexivity|]. apply PP1_sig in H. eapply is3_ext; [exact H|].
    intros b n p Hb Hn Hp. cbn [nth]. rewrite (bi_lt K) by lia. now rewrite ?bi_1.
  - exists (fun _ x _ => bsum K (fun k => rmul (x k) (g k))). split; [intros; apply bsum_ext; intros; f_equal; auto|].
    intros N x xf Hx. destruct (sig_size R _ _ _ _ _ Hx) as (_ & _ & _ & Hfe & Hrk). unfold ssm_Dx. rewrite Hfe, (proj1 Ht), ?Hrk. cbn [feq]. rewrite ?Nat.eqb_refl. unfold sigv in Hx.
    apply is3_P2 in Hx. mm. exists w. split; [reflexivity|]. apply P1_sig in H. exact H.
  - exists (fun b x _ => bsum K (fun k => rmul (conj (conj (g b k))) (x k))). split; [intros; apply bsum_ext; intros; f_equal; auto|].
    intros N x xf Hx. destruct (sig_size R _ _ _ _ _ Hx) as (_ & _ & _ & Hfe & Hrk). unfold ssm_Dx. rewrite Hfe, (proj1 Ht), ?Hrk. cbn [feq]. rewrite ?Nat.eqb_refl. unfold sigv in Hx.
    cbn [andb]. apply is2_P1 in Ht. apply is3_P2 in Hx. nm (unsqueeze 1 D). nm (tconj v). vdot. exists w. split; [reflexivity|].
    apply P1_sig in H1. eapply is2_ext; [exact H1|]. intros b n Hb Hn. cbn [nth]. now rewrite (bi_lt N) by lia.
  - exists (fun _ x p => bsum K (fun k => rmul (x k) (g p k))). split; [intros; apply bsum_ext; intros; f_equal; auto|].
    intros N x xf Hx. destruct (sig_size R _ _ _ _ _ Hx) as (_ & _ & _ & Hfe & Hrk). unfold ssm_Dx. rewrite Hfe, (proj1 Ht), ?Hrk. cbn [feq]. rewrite ?Nat.eqb_refl. unfold sigv in Hx.
    bfalse (P =? B). cbn [andb]. apply is3_P2 in Hx. apply is2_P in Ht. nm (mT D). mm. exists w. split; [reflexivity|]. apply P2_sig in H0. exact H0.
  - exists (fun b x p => bsum K (fun k => rmul (conj (conj (g b p k))) (x k))). split; [intros; apply bsum_ext; intros; f_equal; auto|].
    intros N x xf Hx. destruct (sig_size R _ _ _ _ _ Hx) as (_ & _ & _ & Hfe & Hrk). unfold ssm_Dx. rewrite Hfe, (proj1 Ht), ?Hrk. cbn [feq]. rewrite ?Nat.eqb_refl. unfold sigv in Hx.
    cbn [andb]. apply is3_P2 in Hx, Ht. nm (unsqueeze 1 D). nm (tconj v). replace (rk x - 1) with 2 by dimt.
    nm (unsqueeze 2 x). vdot. exists w. split; [reflexivity|]. apply P2_sig in H2. eapply is3_ext; [exact H2|].
    intros b n p Hb Hn Hp. cbn [nth]. now rewrite (bi_lt N), (bi_lt P) by lia.
Qed.

(** ** The recursion *)
(** CPU with or without the extension, the Python loop on a device, and Helion from order 3 on. *)
Definition sequential (e : env) (M : nat) : Prop :=
  if helion_backend_indicator e then 3 <= M /\ env_ok e else extension_backend_indicator e M = true -> cuda e = false.
Definition step (e : env) (M : nat) (A : nat -> nat -> R) (h u : nat -> R) (i : nat) : R :=
  if extension_backend_indicator e M then radd (u i) (bsum M (fun j => rmul (A i j) (h j)))
  else radd (u i) (bsum M (fun j => rmul (h j) (A i j))).
Lemma hstate_machine e M A h u n i : extension_backend_indicator e M = false -> i < M -> hstate M (fun _ => A) h u n i = machine (step e M A) h u n i.
Proof.
  intro E. revert i. induction n as [|n IH]; intros i Hi; cbn [hstate machine]; [reflexivity|]. unfold step at 1. rewrite E.
  f_equal. apply bsum_ext. intros j Hj. now rewrite IH.
Qed.
Lemma kstate_machine e M A h u n i : extension_backend_indicator e M = true -> i < M -> kstate M (fun _ => A) h u n i = machine (step e M A) h u n i.
Proof.
  intro E. revert i. induction n as [|n IH]; intros i Hi; cbn [kstate machine]; [reflexivity|]. unfold step at 1. rewrite E.
  f_equal. apply bsum_ext. intros j Hj. now rewrite IH.
Qed.
Lemma picks_ext B N M oi (y : ten) h h' : picks B N M oi y h -> (forall b n m, b < B -> n < N -> m < M -> h b n m = h' b n m) -> picks B N M oi y h'.
Proof.
  unfold picks. destruct oi; intros H E.
  - intros k Hk. pose proof (pyidx_lt _ _ _ Hk). eapply is2_ext; [apply (H k Hk)|]. intros. now apply E.
  - eapply is3_ext; [exact H|]. intros. now apply E.
Qed.
Lemma sel_picks B N M oi (y : ten) f : is3 y B N M f -> idx_ok M oi ->
  exists y', match oi with Some i => if rk y =? 3 then select 2 i y else Ok y | None => Ok y end = Ok y' /\ picks B N M oi y' f.
Proof.
  intros Hy Hi. destruct oi as [i|]; cbn [picks]; [|eauto].
  rkt. cbn [Nat.eqb]. destruct Hi as (c & Hc'). pose proof (pyidx_lt _ _ _ Hc').
  rewrite (select_ok y 2 i c) by (unfold size; rewrite (proj1 Hy); exact Hc').
  eexists. split; [reflexivity|]. intros c' Hc2. rewrite Hc' in Hc2. injection Hc2 as <-.
  apply is3_P2 in Hy. apply is2_P1. nm (sel 2 c y). exact H0.
Qed.
Lemma ext_machine e B N M (A zi x : ten) u oi (f : nat -> nat -> nat -> R) : 2 <= M -> (ext e || helion e)%bool = true -> drive B N M x u -> idx_ok M oi ->
  sizen A 1 = M -> (forall x2 : ten, is3 x2 B N M u -> exists y, LTIMatrixRecurrence_forward e A zi x2 = Ok y /\ is3 y B N M f) ->
  exists y, ext_ss_recur e A zi x oi = Ok y /\ picks B N M oi y f.
Proof.
  intros HM X Hx Hi HA H. unfold ext_ss_recur. rewrite X, HA. bfalse (M =? 1). rewrite andb_false_r.
  assert (exists x2, (if rk x =? 2 then pad_features x M else Ok x) = Ok x2 /\ is3 x2 B N M u) as (x2 & -> & Hx2).
  { destruct Hx as [g Hx Hxu|Hx]; rkt; cbn [Nat.eqb].
    - destruct (pad_features_spec R x B N M g ltac:(lia) Hx) as (y & -> & Hy). exists y. split; [reflexivity|].
      eapply is3_ext; [exact Hy|]. intros. cbn beta. now rewrite Hxu.
    - eauto. }
  cbn [bind]. destruct (H x2 Hx2) as (y & -> & Hy). cbn [bind]. now apply (sel_picks B N M oi y f).
Qed.
(** The Python loop, or Helion's. *)
Lemma rec_raw e B N M (A zi x : ten) Af zf u oi : 1 <= N -> 1 <= M -> (helion_backend_indicator e = true -> 3 <= M /\ env_ok e) ->
  matc B M A Af -> is2 zi B M zf -> drive B N M x u -> idx_ok M oi ->
  exists y, state_space_recursion e A zi x 1 oi = Ok y /\ picks B N M oi y (fun b n m => hstate M (fun _ => Af b) (zf b) (u b) (S n) m).
Proof.
  intros HN HM Hs HA Hz Hx Hi.
  assert (HsA : sizen A 1 = M) by (destruct HA as [g HA _|HA]; unfold sizen, rk; now rewrite (proj1 HA)).
  assert (X : exists y, (if helion_backend_indicator e then ext_ss_recur e A zi x oi else recursion_loop A zi x oi) = Ok y /\
      picks B N M oi y (fun b n m => hstate M (fun _ => Af b) (zf b) (u b) (S n) m)).
    { destruct (helion_backend_indicator e) eqn:Eh.
      - destruct (Hs eq_refl) as [HM3 He]. apply (ext_machine e B N M A zi x u); auto; [lia| |].
        + unfold helion_backend_indicator in Eh. apply andb_true_iff in Eh as [Eh _]. apply andb_true_iff in Eh as [Eh _]. rewrite Eh. apply orb_true_r.
        + intros x2 Hx2. unfold LTIMatrixRecurrence_forward. rewrite Eh.
          assert (sizen x2 1 = M) as -> by (unfold sizen, rk; now rewrite (proj1 Hx2)). bfalse (M =? 2).
          exact (hl_lti_raw R e B N M A zi x2 Af zf u He HA Hz Hx2).
      - exact (loop_raw R B N M A zi x Af zf u oi HN HM HA Hz Hx Hi). }
    destruct X as (y & E & Hy). exists y. split; [|exact Hy]. unfold state_space_recursion.
      assert (size x 1 = N) as -> by (destruct Hx as [f Hx _|Hx]; unfold size; now rewrite (proj1 Hx)).
      cbn [state_space_recursion_fuel].
      assert (size x 0 = B) as -> by (destruct Hx as [f Hx _|Hx]; unfold size; now rewrite (proj1 Hx)).
      assert (size x 1 = N) as -> by (destruct Hx as [f Hx _|Hx]; unfold size; now rewrite (proj1 Hx)).
      assert (((rk x =? 2) || (rk x =? 3))%bool = true) as ->
        by (destruct Hx as [f Hx _|Hx]; rkt; reflexivity).
      assert (((rk A =? 2) || (rk A =? 3))%bool = true) as ->
        by (destruct HA as [g HA _|HA]; rkt; reflexivity).
      rewrite HsA.
      assert (sizen A 2 = M) as -> by (destruct HA as [g HA _|HA]; unfold sizen, rk; now rewrite (proj1 HA)).
      assert ((negb (rk A =? 3) || (B =? size A 0))%bool = true) as ->.
      { destruct HA as [g HA _|HA]; rkt; [reflexivity|]. unfold size. rewrite (proj1 HA). cbn [nth]. now rewrite !Nat.eqb_refl. }
      assert ((negb (rk x =? 3) || (M =? sizen x 1))%bool = true) as ->.
      { destruct Hx as [f Hx _|Hx]; rkt; [reflexivity|]. unfold sizen, rk. rewrite (proj1 Hx). cbn [length Nat.sub nth]. now rewrite !Nat.eqb_refl. }
      assert (size zi 0 = B) as -> by (unfold size; now rewrite (proj1 Hz)).
      assert (size zi 1 = M) as -> by (unfold size; now rewrite (proj1 Hz)).
      rewrite (i2_rk _ _ _ _ Hz), !Nat.eqb_refl. cbn [Nat.eqb Nat.ltb Nat.leb negb orb]. exact E.
Qed.
Lemma run_machine e B N M (A zi x : ten) Af zf u oi : 1 <= N -> 1 <= M -> sequential e M ->
  matc B M A Af -> is2 zi B M zf -> drive B N M x u -> idx_ok M oi ->
  exists y, (if (extension_backend_indicator e M && (1 =? 1))%bool then ext_ss_recur e A zi x oi else state_space_recursion e A zi x 1 oi) = Ok y /\
    picks B N M oi y (fun b n m => machine (step e M (Af b)) (zf b) (u b) (S n) m).
Proof.
  intros HN HM Hs HA Hz Hx Hi. cbn [Nat.eqb]. rewrite andb_true_r.
  assert (HsA : sizen A 1 = M) by (destruct HA as [g HA _|HA]; unfold sizen, rk; now rewrite (proj1 HA)).
  destruct (extension_backend_indicator e M) eqn:Ee.
  - assert (helion_backend_indicator e = false /\ cuda e = false) as [Hh Hc].
    { unfold sequential in Hs. destruct (helion_backend_indicator e) eqn:Eh; [|auto]. destruct Hs as [Hs _].
      unfold helion_backend_indicator in Eh. unfold extension_backend_indicator in Ee.
      apply andb_true_iff in Eh as [Eh _]. apply andb_true_iff in Eh as [_ Ec]. apply andb_true_iff in Ee as [_ Ee]. rewrite Ec in Ee. cbn [negb andb] in Ee.
      rewrite orb_false_r in Ee. b2p. lia. }
    unfold extension_backend_indicator in Ee. apply andb_true_iff in Ee as Ee'. destruct Ee' as [X1 Ee'].
    assert (HM2 : 2 <= M). { apply orb_true_iff in Ee' as [Y|Y]; [b2p; lia|]. apply andb_true_iff in Y as [_ Y]. b2p. lia. }
    apply (ext_machine e B N M A zi x u); auto; [now rewrite X1|]. intros x2 Hx2.
    destruct (lti_cpu_raw R B N M A zi x2 Af zf u HA Hz Hx2) as (y & E & Hy). exists y. split.
    + unfold LTIMatrixRecurrence_forward. rewrite Hh. unfold op_lti_recur2, op_lti_recurN. rewrite X1, Hc. cbn [negb].
      destruct (sizen x2 1 =? 2); exact E.
    + eapply is3_ext; [exact Hy|]. intros b n m Hb Hn Hm. now apply kstate_machine.
  - destruct (rec_raw e B N M A zi x Af zf u oi) as (y & E & Hy); auto.
    { intro Eh. unfold sequential in Hs. now rewrite Eh in Hs. }
    exists y. split; [exact E|].
    eapply picks_ext; [exact Hy|]. intros b n m Hb Hn Hm. now apply hstate_machine.
Qed.

(** The drive [g] and the output [out] do not depend on the back-end. *)
Lemma ss_machines B M G P (A : ten) (Bt C D : option ten) oi Af Bm Cm Dm : 1 <= M ->
  matc B M A Af -> inmat B M G Bt Bm -> outmat B M oi C P Cm -> feed B G P D Dm ->
  exists (g : nat -> (nat -> R) -> nat -> R) (out : nat -> (nat -> R) -> (nat -> R) -> nat -> R),
    (forall e b, b < B -> reads M (width G) M (fun h v => step e M (Af b) h (g b v)) /\ reads M (width G) (width P) (out b)) /\
    forall e N (x : ten) xf zi z0, sequential e M -> 1 <= N -> sigv B N G x xf -> init B M zi z0 ->
      let stp := fun b h v => step e M (Af b) h (g b v) in
      exists y zf, state_space e A x Bt C D zi (Some 1) oi = Ok (y, zf) /\
        sigv B N P y (fun b n p => out b (machine (stp b) (z0 b) (xf b) n) (xf b n) p) /\
        match zi with None => zf = None | Some _ => exists z, zf = Some z /\ is2 z B M (fun b => machine (stp b) (z0 b) (xf b) N) end.
Proof.
  intros HM HA HB HC HD.
  destruct (ss_input_raw B M G Bt Bm HB) as (g & Lg & Hg).
  assert (exists c : nat -> (nat -> R) -> nat -> R, (forall b v v' p, (forall k, k < M -> v k = v' k) -> p < width P -> c b v p = c b v' p) /\
    forall N (h : ten) hv, picks B N M oi h hv -> exists y, match C with Some C => ssm_Ch h C B M | None => Ok h end = Ok y /\ sigv B N P y (fun b n p => c b (hv b n) p))
    as (c & Lc & Hc).
  { destruct C as [C|].
    - assert (oi = None) as -> by (remember (Some C) as C' eqn:E; destruct HC; auto; discriminate).
      exact (ssm_Ch_raw B M P C Cm HC).
    - remember (@None ten) as C' eqn:E in HC. destruct HC as [f Hf|i k f Hk Hf| | | | ]; try discriminate; cbn [width].
      + exists (fun _ v p => v p). split; [auto|]. intros N h hv Hh. exists h. split; [reflexivity|exact Hh].
      + exists (fun _ v _ => v k). split; [intros b v v' p H _; apply H; now apply pyidx_lt in Hk|].
        intros N h hv Hh. exists h. split; [reflexivity|exact (Hh k Hk)]. }
  assert (exists d : option (nat -> (nat -> R) -> nat -> R),
    match D, d with
    | None, None => True
    | Some D, Some d => (forall b v v' p, (forall k, k < width G -> v k = v' k) -> p < width P -> d b v p = d b v' p) /\
        forall N (x : ten) xf, sigv B N G x xf -> exists y, ssm_Dx x D B = Ok y /\ sigv B N P y (fun b n p => d b (xf b n) p)
    | _, _ => False end) as (d & Hd).
  { destruct D as [D|]; [|now exists None]. destruct (ssm_Dx_raw B G P D Dm HD) as (d & Ld & Hd). exists (Some d). auto. }
  exists g, (fun b h v p => match d with Some d => radd (c b h p) (d b v p) | None => c b h p end). split.
  { intros e b Hb. split.
    - intros h h' v v' Hh Hv i Hi. unfold step. rewrite (Lg b v v' i Hv Hi).
      destruct (extension_backend_indicator e M); f_equal; apply bsum_ext; intros j Hj; now rewrite Hh.
    - intros h h' v v' Hh Hv p Hp. rewrite (Lc b h h' p Hh Hp). destruct d as [d|]; [|reflexivity]. destruct D; [|contradiction].
      now rewrite (proj1 Hd b v v' p Hv Hp). }
  intros e N x xf zi z0 Hs HN Hx Hz stp.
  destruct (sig_size R _ _ _ _ _ Hx) as (Hs0 & Hs1 & Hrk & Hfe & Hrk2).
  unfold state_space. rewrite Hs0, ?Hs1, Hrk.
  assert (((rk A =? 2) || (rk A =? 3))%bool = true) as -> by (destruct HA as [g0 HA _|HA]; rkt; reflexivity).
  assert (sizen A 1 = M) as -> by (destruct HA as [g0 HA _|HA]; unfold sizen, rk; now rewrite (proj1 HA)).
  assert (sizen A 2 = M) as -> by (destruct HA as [g0 HA _|HA]; unfold sizen, rk; now rewrite (proj1 HA)).
  assert ((negb (rk A =? 3) || (B =? size A 0))%bool = true) as ->.
  { destruct HA as [g0 HA _|HA]; rkt; [reflexivity|]. unfold size. rewrite (proj1 HA). cbn [nth]. now rewrite !Nat.eqb_refl. }
  rewrite Nat.eqb_refl.
  assert (match C, oi with Some _, Some _ => false | _, _ => true end = true) as -> by (destruct HC; reflexivity).
  destruct (ss_zi_spec R B M x zi z0 HM Hz) as (z & -> & Hzz). cbn [bind]. cbv zeta.
  destruct (Hg N x xf Hx) as (Bx & -> & HBx). cbn [bind].
  assert (Hoi : idx_ok M oi) by (destruct HC; cbn [idx_ok]; eauto).
  assert (Em : forall b n, machine (step e M (Af b)) (z0 b) (fun n => g b (xf b n)) n = machine (fun h v => step e M (Af b) h (g b v)) (z0 b) (xf b) n).
  { intros b n. induction n as [|n IH]; cbn [machine]; [reflexivity|]. now rewrite IH. }
  destruct (run_machine e B N M A z Bx Af z0 (fun b n => g b (xf b n)) (match zi with None => oi | Some _ => None end) HN HM Hs HA Hzz HBx) as (yr & Er & Hr).
  { destruct zi; [exact I|exact Hoi]. }
  set (hv := fun b n => machine (fun h v => step e M (Af b) h (g b v)) (z0 b) (xf b) n).
  assert (Hr' : picks B N M (match zi with None => oi | Some _ => None end) yr (fun b n m => hv b (S n) m)).
  { eapply picks_ext; [exact Hr|]. intros b n m Hb Hn Hm. unfold hv. now rewrite <- Em. }
  destruct (ss_states R B N M z zi z0 oi (fun oi' => if extension_backend_indicator e M && (1 =? 1) then ext_ss_recur e A z Bx oi'
     else state_space_recursion e A z Bx 1 oi') hv yr HN HM Hzz Hoi (fun _ _ => eq_refl) (Logic.conj Er Hr')) as (hh & zf & -> & Hhh & Hzf).
  cbn [bind]. destruct (Hc N hh hv Hhh) as (Ch & ECh & HCh). unfold ssm_C_D.
  assert (Hz' : match zi with None => zf = None | Some _ => exists z, zf = Some z /\ is2 z B M (fun b => hv b N) end) by exact Hzf.
  destruct D as [D|], d as [d|]; try contradiction.
  - destruct (proj2 Hd N x xf Hx) as (Dx & -> & HDx). cbn [bind]. rewrite ECh. cbn [bind]. unfold tadd, sigv in *. destruct P as [P|].
    + apply is3_P2 in HCh, HDx. eat @P2_ew_same; [exact HCh|exact HDx|]. exists w, zf. split; [reflexivity|]. split; [apply is3_P2; exact H|exact Hz'].
    + apply is2_P1 in HCh, HDx. eat @P1_ew_same; [exact HCh|exact HDx|]. exists w, zf. split; [reflexivity|]. split; [apply is2_P1; exact H|exact Hz'].
  - cbn [bind]. rewrite ECh. cbn [bind]. exists Ch, zf. split; [reflexivity|]. split; [exact HCh|exact Hz'].
Qed.
Theorem ss_machine e B M G P (A : ten) (Bt C D : option ten) oi Af Bm Cm Dm : 1 <= M -> sequential e M ->
  matc B M A Af -> inmat B M G Bt Bm -> outmat B M oi C P Cm -> feed B G P D Dm ->
  is_machine B M G P (init B M) (fun x zi => state_space e A x Bt C D zi (Some 1) oi).
Proof.
  intros HM Hs HA HB HC HD. destruct (ss_machines B M G P A Bt C D oi Af Bm Cm Dm HM HA HB HC HD) as (g & out & Hl & H).
  exists (fun b h v => step e M (Af b) h (g b v)), out. split; [intros b Hb; now apply Hl|]. intros N x xf zi z0 HN Hx Hz.
  exact (H e N x xf zi z0 Hs HN Hx Hz).
Qed.
(** Where products commute, the order of the factors in the kernels does not matter. *)
Lemma step_comm e e' M A h u i : (forall a b : R, rmul a b = rmul b a) -> step e M A h u i = step e' M A h u i.
Proof.
  intro C. unfold step. destruct (extension_backend_indicator e M), (extension_backend_indicator e' M); try reflexivity; f_equal; apply bsum_ext; intros; apply C.
Qed.
Lemma machine_comm (f f' : (nat -> R) -> (nat -> R) -> nat -> R) M K h x n i : reads M K M f -> (forall h u i, f h u i = f' h u i) -> i < M ->
  machine f h x n i = machine f' h x n i.
Proof.
  intros Hf E. revert i. induction n as [|n IH]; intros i Hi; cbn [machine]; [reflexivity|]. rewrite <- E. apply Hf; auto.
Qed.
End S.
