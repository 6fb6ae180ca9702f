(** lpv.state_space without unrolling, operation by operation (philtorch/lpv/ssm.py:337-581).
    All that is assumed of the operations is that products commute and that conjugating
    twice does nothing. *)
From Coq Require Import List Arith Lia ZArith Bool.
From Verif Require Import Scalar Tensor TensorLemmas TensorOps TensorAlg TensorTac TensorList Spec Shapes SpecBits SpecBits2 Algebra M_Mat P_Mat M_Kernels M_LtiSsm
  P_Kernels P_KernelOps P_Helion M_Ext M_LpvSsm P_LpvSsm P_LpvSs P_LtiSsm P_Round5 P_Round8 P_Round9 P_Bits.
Import ListNotations.
Open Scope cr_scope.
Open Scope nat_scope.

(** The recursion is run sample by sample by the library's own code: not by the CUDA scan,
    the ParaRNN reduction or (scalar states) torchlpc. *)
Definition sequentialv (e : env) (pr : bool) (M : nat) : Prop :=
  pararnn_applicable e pr M = false /\
  if helion_backend_indicator e then 3 <= M /\ env_ok e
  else lpv_extension_backend_indicator e pr M = true -> 2 <= M /\ cuda e = false.

Section S.
Variable R : cops.
Notation ten := (tensor (car R)).
Hypotheses (mulC : forall a b : R, rmul a b = rmul b a) (conjK : forall a : R, conj (conj a) = a).

Lemma vstate_ext M A A' (h h' : nat -> R) u u' n : forall i, i < M ->
  (forall k i j, k < n -> i < M -> j < M -> A k i j = A' k i j) ->
  (forall i, i < M -> h i = h' i) -> (forall k i, k < n -> i < M -> u k i = u' k i) -> vstate M A h u n i = vstate M A' h' u' n i.
Proof.
  induction n as [|n IH]; intros i Hi HA Hh Hu; cbn [vstate]; [auto|].
  f_equal; [apply Hu; lia|]. apply bsum_ext. intros j Hj. f_equal; [apply HA; lia|].
  apply IH; auto.
Qed.
Lemma vstate_add M A (h : nat -> R) u m n : vstate M A h u (m + n) = vstate M (fun k => A (m + k)) (vstate M A h u m) (fun k => u (m + k)) n.
Proof. induction n as [|n IH]; [now rewrite Nat.add_0_r|]. rewrite Nat.add_succ_r. cbn [vstate]. now rewrite IH. Qed.
Lemma vstate_h M A (h : nat -> R) u n i : i < M -> hstate M A h u n i = vstate M A h u n i.
Proof.
  revert i. induction n as [|n IH]; intros i Hi; cbn [hstate vstate]; [reflexivity|]. f_equal. apply bsum_ext. intros j Hj.
  rewrite IH by assumption. apply mulC.
Qed.
Lemma vstate_k M A (h : nat -> R) u n i : i < M -> kstate M A h u n i = vstate M A h u n i.
Proof.
  revert i. induction n as [|n IH]; intros i Hi; cbn [kstate vstate]; [reflexivity|]. f_equal. apply bsum_ext. intros j Hj.
  now rewrite IH.
Qed.
Ltac g2 := repeat match goal with H : ?a <> ?b |- context [(?a =? ?b)%nat] => rewrite (proj2 (Nat.eqb_neq a b) H) end.
Ltac mc := first [reflexivity|apply mulC].
Ltac bis := rewrite ?bi_1; repeat match goal with |- context [bi ?k ?n] => rewrite (bi_lt k n) by lia end.
(** compares an element of a result with the product, or the sum of products, it should be *)
Ltac zz := try match goal with H : ?n < 1 |- _ => replace n with 0%nat in * by lia end.
Ltac fx := intros; cbn [nth]; match goal with Hf : same4 _ _ _ _ _ _ |- _ => rewrite Hf by lia end; rewrite ?Nat.eqb_refl, ?conjK; bis; zz; mc.
Ltac fs := intros; cbn [nth]; apply bsum_ext; intros; match goal with Hf : same4 _ _ _ _ _ _ |- _ => rewrite Hf by lia end; rewrite ?conjK; bis; mc.

Lemma lpv_input_exact B N M G (x : ten) xf (Bt : option ten) Bm : sigv B N G x xf -> inmatv B N M G Bt Bm ->
  exists y, lpv_input x Bt B N M = Ok y /\ drive B N M y (fun b n m => in_at G (hasb Bt) (Bm b n) (xf b n) m).
Proof.
  intros Hx HB. destruct (sig_size R _ _ _ _ _ Hx) as (_ & _ & _ & Hfe & Hrk). unfold lpv_input.
  destruct HB as [f Hf|f Hf|t g f Ht Hf|t g f Ht Hf|t g f Ht H1 Hf|t g f Ht Hf
    |K t g f Ht Hf|K t g f Ht Hf|K t g f Ht H1 H2 Hf|K t g f Ht Hf]; cbn [width sigv hasb in_at] in *;
    try (rewrite (proj1 Ht), ?Hfe; cbn [feq]; rewrite ?Nat.eqb_refl, ?andb_false_r, ?andb_true_r).
  - exists x. split; [reflexivity|]. eapply drive_2; [exact Hx|]. reflexivity.
  - exists x. split; [reflexivity|]. now apply drive_3.
  - rkt. cbn [Nat.eqb]. pose proof (unsq2_3r R x B N _ Hx) as Hu3.
    set (v := unsqueeze 2 x) in *. clearbody v. apply is3_PP1 in Hu3. apply is1_P in Ht. unfold tmul.
    eat @P1_ewl; [exact Hu3|exact Ht|bdt|]. exists w. split; [reflexivity|]. apply drive_3. apply PP1_is3 in H. eapply is3_ext; [exact H|]. fx.
  - rkt. cbn [Nat.eqb andb]. apply is2_P1 in Hx. nm (unsqueeze 2 x). apply is2_P in Ht. unfold tmul.
    eat @P2_ewl; [exact H|exact Ht|bdt|bdt|]. exists w. split; [reflexivity|]. apply drive_3. apply P2_is3 in H0. eapply is3_ext; [exact H0|]. fx.
  - g2. rkt. cbn [Nat.eqb andb]. apply is2_P1 in Hx, Ht. nm (unsqueeze 2 x). nm (unsqueeze 1 t). unfold tmul.
    eat @P2_ew; [exact H|exact H0|bdt|bdt|]. exists w. split; [reflexivity|]. apply drive_3. apply P2_is3 in H2. eapply is3_ext; [exact H2|]. fx.
  - rkt. cbn [Nat.eqb andb]. apply is2_P1 in Hx. nm (unsqueeze 2 x). apply is3_P2 in Ht. unfold tmul.
    eat @P2_ew; [exact H|exact Ht|bdt|bdt|]. exists w. split; [reflexivity|]. apply drive_3. apply P2_is3 in H0. eapply is3_ext; [exact H0|]. fx.
  - cbn [andb]. apply is3_P2 in Hx. apply is2_P in Ht. nm (mT t). mm. exists w. split; [reflexivity|]. apply drive_3. apply P2_is3 in H0. eapply is3_ext; [exact H0|]. fs.
  - cbn [andb]. apply is3_P2 in Hx. apply is3_P in Ht. nm (tconj t). replace (rk x - 1)%nat with 2%nat by dimt.
    nm (unsqueeze 2 x). vdot. exists w. split; [reflexivity|]. apply drive_3. apply P2_is3 in H1. eapply is3_ext; [exact H1|]. fs.
  - g2. cbn [andb]. replace ((K =? M) && (M =? N))%bool with false
      by (symmetry; apply andb_false_iff; destruct H2; [right|left]; now apply Nat.eqb_neq).
    apply is3_P2 in Hx, Ht. nm (unsqueeze 1 t). nm (tconj v). replace (rk x - 1)%nat with 2%nat by dimt.
    nm (unsqueeze 2 x). vdot. exists w. split; [reflexivity|]. apply drive_3. apply P2_is3 in H4. eapply is3_ext; [exact H4|]. fs.
  - cbn [andb]. apply is3_P2 in Hx. apply is4_P3 in Ht. nm (tconj t). replace (rk x - 1)%nat with 2%nat by dimt.
    nm (unsqueeze 2 x). vdot. exists w. split; [reflexivity|]. apply drive_3. apply P2_is3 in H1. eapply is3_ext; [exact H1|]. fs.
Qed.
Lemma lpv_Ch_exact B N M P (h C : ten) hv Cm : is3 h B N M hv -> outmatv B N M None (Some C) P Cm ->
  exists y, lpv_Ch h C B N M = Ok y /\ sigv B N P y (fun b n p => bsum M (fun m => rmul (Cm b n p m) (hv b n m))).
Proof.
  intros Hh HC. unfold lpv_Ch.
  remember (@None Z) as oi eqn:Eo. remember (Some C) as C' eqn:EC.
  destruct HC as [f Hf|i k f Hk Hf|t g f Ht Hf|t g f Ht Hf|t g f Ht H1 Hf|K t g f Ht H1 H2 Hf
    |K t g f Ht Hf|t g f Ht H1 Hf|K t g f Ht H1 H2 Hf|K t g f Ht Hf]; try discriminate;
    injection EC as ->; apply is3_P2 in Hh; rewrite (proj1 Ht), ?Nat.eqb_refl; g2; cbn [andb];
    try (replace (rk h - 1)%nat with 2%nat by dimt).
  - mm. exists w. split; [reflexivity|]. apply P1_sig in H. unfold sigv in *. eapply is2_ext; [exact H|]. fs.
  - apply is2_P in Ht. nm (tconj C). vdot. exists w. split; [reflexivity|]. apply P1_sig in H0. unfold sigv in *. eapply is2_ext; [exact H0|]. fs.
  - apply is2_P1 in Ht. nm (unsqueeze 1 C). nm (tconj v). vdot. exists w. split; [reflexivity|]. apply P1_sig in H2. unfold sigv in *. eapply is2_ext; [exact H2|]. fs.
  - apply is2_P in Ht. nm (mT C). mm. exists w. split; [reflexivity|]. apply P2_sig in H0. unfold sigv in *. eapply is3_ext; [exact H0|]. fs.
  - apply is3_P in Ht. nm (tconj C). nm (unsqueeze 2 h). vdot. exists w. split; [reflexivity|]. apply P2_sig in H1. unfold sigv in *. eapply is3_ext; [exact H1|]. fs.
  - apply is3_P2 in Ht. nm (tconj C). vdot. exists w. split; [reflexivity|]. apply P1_sig in H0. unfold sigv in *. eapply is2_ext; [exact H0|]. fs.
  - apply is3_P2 in Ht. nm (mT C). mm. exists w. split; [reflexivity|]. apply P2_sig in H0. unfold sigv in *. eapply is3_ext; [exact H0|]. fs.
  - apply is4_P3 in Ht. nm (tconj C). nm (unsqueeze 2 h). vdot. exists w. split; [reflexivity|]. apply P2_sig in H1. unfold sigv in *. eapply is3_ext; [exact H1|]. fs.
Qed.
Lemma single_true (t : ten) K g : is1 t K g -> single (Some K) t = false.
Proof. intros [Hs _]. unfold single. rewrite Hs. destruct K as [|[|K]]; reflexivity. Qed.
Lemma lpv_Dx_exact B N G P (x D : ten) xf Dm : sigv B N G x xf -> feedv B N G P (Some D) Dm ->
  exists y, lpv_Dx x D B N = Ok y /\ sigv B N P y (fun b n p => feed_at G (single G D) (Dm b n) (xf b n) p).
Proof.
  intros Hx HD. destruct (sig_size R _ _ _ _ _ Hx) as (_ & _ & _ & Hfe & Hrk). unfold lpv_Dx. rewrite Hfe.
  remember (Some D) as D' eqn:ED.
  destruct HD as [G P f Hf|t v f Ht Hf|t g f Ht Hf|t g f Ht Hf|t g f Ht H1 Hf|P t g f Ht H1 H2 H3 Hf|P t g f Ht Hf
    |t g f Ht H1 Hf|P t g f Ht H1 H2 Hf|P t g f Ht Hf
    |K t v f Ht Hf|K t g f Ht H1 H2 H3 Hf|K t g f Ht Hf|K t g f Ht Hf|K t g f Ht H1 Hf|K P t g f Ht H1 H2 Hf
    |K t g f Ht Hf|K P t g f Ht H1 Hf|K P t g f Ht H1 H2 Hf|K P t g f Ht Hf];
    try discriminate; injection ED as ->; cbn [feed_at];
    try (match type of Ht with is1 D K g => rewrite (single_true D K g Ht) end);
    unfold single; rewrite ?(proj1 Ht), ?Hrk; cbn [feq width]; rewrite ?Nat.eqb_refl, ?andb_false_r;
    g2; cbn [andb negb]; unfold sigv in Hx.
  - (* 2_0 *) apply is2_P1 in Hx. ew2. exists w. split; [reflexivity|]. apply P1_sig in H. unfold sigv in *. eapply is2_ext; [exact H|]. fx.
  - (* 2_1 *) destruct (1 =? N)%nat eqn:EN; b2p; [subst N|destruct (1 =? B)%nat eqn:E; b2p; [subst B|cbn [Nat.eqb]]].
    + apply is2_P1 in Hx. apply is1_P in Ht. unfold tmul. eat @P1_ewr; [exact Ht|exact Hx|bdt|]. exists w. split; [reflexivity|]. apply P1_sig in H. unfold sigv in *. eapply is2_ext; [exact H|]. fx.
    + apply is1_P0 in Ht. assert (Hu3 : isP1 (unsqueeze 1 D) [1%nat] 1 (fun q _ => g (nth 0 q 0%nat))) by (eapply P0_unsq0 with (d := 1%nat) in Ht; [exact Ht|reflexivity]).
      apply is2_P1 in Hx. unfold tmul. eat @P1_ew; [exact Hu3|exact Hx|bdt|]. exists w. split; [reflexivity|]. apply P1_sig in H. unfold sigv in *. eapply is2_ext; [exact H|]. fx.
    + apply is2_P1 in Hx. apply is1_P in Ht. unfold tmul. eat @P1_ewl; [exact Hx|exact Ht|bdt|]. exists w. split; [reflexivity|]. apply P1_sig in H. unfold sigv in *. eapply is2_ext; [exact H|]. fx.
  - (* 2_N *) apply is2_P1 in Hx. apply is1_P in Ht. unfold tmul. eat @P1_ewr; [exact Ht|exact Hx|bdt|]. exists w. split; [reflexivity|]. apply P1_sig in H. unfold sigv in *. eapply is2_ext; [exact H|]. fx.
  - (* 2_B *) apply is1_P0 in Ht. assert (Hu3 : isP1 (unsqueeze 1 D) [B] 1 (fun q _ => g (nth 0 q 0%nat))) by (eapply P0_unsq0; [exact Ht|reflexivity]).
    apply is2_P1 in Hx. unfold tmul. eat @P1_ew; [exact Hu3|exact Hx|bdt|]. exists w. split; [reflexivity|]. apply P1_sig in H. unfold sigv in *. eapply is2_ext; [exact H|]. fx.
  - (* 2_P *) rkt. pose proof (unsq2_3r R x B N _ Hx) as Hu3.
    set (v := unsqueeze 2 x) in *. clearbody v. apply is3_PP1 in Hu3. apply is1_P in Ht. unfold tmul.
    eat @P1_ewl; [exact Hu3|exact Ht|bdt|]. exists w. split; [reflexivity|]. apply PP1_sig in H. unfold sigv in *. eapply is3_ext; [exact H|]. fx.
  - (* 2_NP *) rkt. apply is2_P1 in Hx. nm (unsqueeze 2 x). apply is2_P in Ht. unfold tmul.
    eat @P2_ewr; [exact Ht|exact H|bdt|bdt|]. exists w. split; [reflexivity|]. apply P2_sig in H0. unfold sigv in *. eapply is3_ext; [exact H0|]. fx.
  - (* 2_BN *) apply is2_P1 in Hx, Ht. unfold tmul. eat @P1_ew_same; [exact Ht|exact Hx|]. exists w. split; [reflexivity|]. apply P1_sig in H. unfold sigv in *. eapply is2_ext; [exact H|]. fx.
  - (* 2_BP *) rkt. apply is2_P1 in Hx, Ht. nm (unsqueeze 2 x). nm (unsqueeze 1 D). unfold tmul.
    eat @P2_ew; [exact H0|exact H|bdt|bdt|]. exists w. split; [reflexivity|]. apply P2_sig in H3. unfold sigv in *. eapply is3_ext; [exact H3|]. fx.
  - (* 2_BNP *) rkt. apply is2_P1 in Hx. apply is3_P2 in Ht. nm (unsqueeze 2 x). unfold tmul.
    eat @P2_ew; [exact Ht|exact H|bdt|bdt|]. exists w. split; [reflexivity|]. apply P2_sig in H0. unfold sigv in *. eapply is3_ext; [exact H0|]. fx.
  - (* 3_0 *) apply is3_P2 in Hx. ew2. exists w. split; [reflexivity|]. apply P2_sig in H. unfold sigv in *. eapply is3_ext; [exact H|]. fx.
  - (* 3_1 *) try bfalse (1 =? K)%nat. try bfalse (1 =? N)%nat. try bfalse (1 =? B)%nat. cbn [Nat.eqb negb]. apply is3_PP1 in Hx. apply is1_P in Ht. unfold tmul.
    eat @P1_ewl; [exact Hx|exact Ht|bdt|]. exists w. split; [reflexivity|]. apply PP1_sig in H. unfold sigv in *. eapply is3_ext; [exact H|]. fx.
  - (* 3_F *) apply is3_P2 in Hx. mm. exists w. split; [reflexivity|]. apply P1_sig in H. unfold sigv in *. eapply is2_ext; [exact H|]. fs.
  - (* 3_NF *) apply is2_P in Ht. apply is3_P2 in Hx. nm (tconj D). vdot. exists w. split; [reflexivity|]. apply P1_sig in H0. unfold sigv in *. eapply is2_ext; [exact H0|]. fs.
  - (* 3_BF *) apply is2_P1 in Ht. apply is3_P2 in Hx. nm (tconj D). nm (unsqueeze 1 v). vdot. exists w. split; [reflexivity|]. apply P1_sig in H2. unfold sigv in *. eapply is2_ext; [exact H2|]. fs.
  - (* 3_PF *) rkt. cbn [Nat.eqb]. apply is3_P2 in Hx. apply is2_P in Ht. nm (mT D). mm. exists w. split; [reflexivity|]. apply P2_sig in H0. unfold sigv in *. eapply is3_ext; [exact H0|]. fs.
  - (* 3_BNF *) apply is3_P2 in Ht, Hx. nm (tconj D). vdot. exists w. split; [reflexivity|]. apply P1_sig in H0. unfold sigv in *. eapply is2_ext; [exact H0|]. fs.
  - (* 3_NPF *) replace ((N =? B) && (P =? N))%bool with false
      by (symmetry; apply andb_false_iff; destruct H1; [left|right]; now apply Nat.eqb_neq).
    cbn [andb]. apply is3_P2 in Hx. apply is3_P in Ht. nm (tconj D). replace (rk x - 1)%nat with 2%nat by dimt.
    nm (unsqueeze 2 x). vdot. exists w. split; [reflexivity|]. apply P2_sig in H2. unfold sigv in *. eapply is3_ext; [exact H2|]. fs.
  - (* 3_BPF *) apply is3_P2 in Hx, Ht. nm (mT D). mm. exists w. split; [reflexivity|]. apply P2_sig in H0. unfold sigv in *. eapply is3_ext; [exact H0|]. fs.
  - (* 3_BNPF *) apply is3_P2 in Hx. apply is4_P3 in Ht. nm (tconj D). replace (rk x - 1)%nat with 2%nat by dimt.
    nm (unsqueeze 2 x). vdot. exists w. split; [reflexivity|]. apply P2_sig in H1. unfold sigv in *. eapply is3_ext; [exact H1|]. fs.
Qed.
Lemma lpv_ext_exact e pr B N M (A zi x : ten) u oi (f : nat -> nat -> nat -> R) : 2 <= M -> (ext e || helion e)%bool = true -> drive B N M x u -> idx_ok M oi ->
  sizen A 1 = M -> (forall x2 : ten, is3 x2 B N M u -> exists y, MatrixRecurrence_forward e pr A zi x2 = Ok y /\ is3 y B N M f) ->
  exists y, lpv_ext_ss_recur e pr A zi x oi = Ok y /\ picks B N M oi y f.
Proof.
  intros HM X Hx Hi HA H. unfold lpv_ext_ss_recur. rewrite X, HA. bfalse (M =? 1). rewrite andb_false_r.
  assert (exists x2, (if rk x =? 2 then pad_features x M else Ok x) = Ok x2 /\ is3 x2 B N M u) as (x2 & -> & Hx2).
  { destruct Hx as [g Hx Hxu|Hx]; rkt; cbn [Nat.eqb].
    - destruct (pad_features_spec R x B N M g ltac:(lia) Hx) as (y & -> & Hy). exists y. split; [reflexivity|].
      eapply is3_ext; [exact Hy|]. intros. cbn beta. now rewrite Hxu.
    - eauto. }
  cbn [bind]. destruct (H x2 Hx2) as (y & -> & Hy). cbn [bind]. now apply (sel_picks R B N M oi y f).
Qed.
Lemma lpv_run e pr B N M (A zi x : ten) Af zf u oi : 1 <= N -> 1 <= M -> sequentialv e pr M ->
  matv B N M A Af -> is2 zi B M zf -> drive B N M x u -> idx_ok M oi ->
  exists y, (if (lpv_extension_backend_indicator e pr M && (1 =? 1))%bool then lpv_ext_ss_recur e pr A zi x oi else lpv_state_space_recursion e pr A zi x 1 oi) = Ok y /\
    picks B N M oi y (fun b n m => vstate M (Af b) (zf b) (u b) (S n) m).
Proof.
  intros HN HM [Hp Hs] HA Hz Hx Hi. cbn [Nat.eqb]. rewrite andb_true_r.
  assert (HsA : sizen A 1 = M) by (destruct HA as [g HA _|HA]; unfold sizen, rk; now rewrite (proj1 HA)).
  assert (Ep : lpv_extension_backend_indicator e pr M = ext e && (negb (cuda e) || (M <=? 2))) by (unfold lpv_extension_backend_indicator; now rewrite Hp, orb_false_r).
  destruct (lpv_extension_backend_indicator e pr M) eqn:Ee.
  - assert (helion_backend_indicator e = false /\ 2 <= M /\ cuda e = false) as (Hh & HM2 & Hc).
    { destruct (helion_backend_indicator e) eqn:Eh; [|auto]. destruct Hs as [Hs _].
      unfold helion_backend_indicator in Eh. apply andb_true_iff in Eh as [Eh _]. apply andb_true_iff in Eh as [_ Ec].
      symmetry in Ep. apply andb_true_iff in Ep as [_ Ep]. rewrite Ec in Ep. cbn [negb orb] in Ep. b2p. lia. }
    assert (X1 : ext e = true) by (symmetry in Ep; now apply andb_true_iff in Ep as [X1 _]).
    apply (lpv_ext_exact e pr B N M A zi x u); auto; [now rewrite X1|]. intros x2 Hx2.
    destruct (lpv_cpu_raw R B N M A zi x2 Af zf u HA Hz Hx2) as (y & E & Hy). exists y. split.
    + unfold MatrixRecurrence_forward. rewrite Hh. unfold op_recur2, op_recurN. rewrite X1, Hc. cbn [negb].
      assert (sizen x2 1 = M) as -> by (unfold sizen, rk; now rewrite (proj1 Hx2)). rewrite Hp.
      destruct (M =? 2); exact E.
    + eapply is3_ext; [exact Hy|]. intros b n m Hb Hn Hm. now apply vstate_k.
  - assert (X : exists y, (if helion_backend_indicator e then lpv_ext_ss_recur e pr A zi x oi else lpv_recursion_loop A zi x oi) = Ok y /\
      picks B N M oi y (fun b n m => hstate M (Af b) (zf b) (u b) (S n) m)).
    { destruct (helion_backend_indicator e) eqn:Eh.
      - destruct Hs as [HM3 He]. apply (lpv_ext_exact e pr B N M A zi x u); auto; [lia| |].
        + unfold helion_backend_indicator in Eh. apply andb_true_iff in Eh as [Eh _]. apply andb_true_iff in Eh as [Eh _]. rewrite Eh. apply orb_true_r.
        + intros x2 Hx2. unfold MatrixRecurrence_forward. rewrite Eh.
          assert (sizen x2 1 = M) as -> by (unfold sizen, rk; now rewrite (proj1 Hx2)). rewrite Hp. bfalse (M =? 2).
          exact (hl_lpv_raw R e B N M A zi x2 Af zf u He HA Hz Hx2).
      - exact (lpv_loop_raw R B N M A zi x Af zf u oi HN HM HA Hz Hx Hi). }
    destruct X as (y & E & Hy). exists y. split.
    + unfold lpv_state_space_recursion.
      assert (size x 1 = N) as -> by (destruct Hx as [f Hx _|Hx]; unfold size; now rewrite (proj1 Hx)).
      cbn [lpv_state_space_recursion_fuel].
      assert (size x 0 = B) as -> by (destruct Hx as [f Hx _|Hx]; unfold size; now rewrite (proj1 Hx)).
      assert (size x 1 = N) as -> by (destruct Hx as [f Hx _|Hx]; unfold size; now rewrite (proj1 Hx)).
      assert (((rk x =? 2) || (rk x =? 3))%bool = true) as -> by (destruct Hx as [f Hx _|Hx]; rkt; reflexivity).
      assert (((rk A =? 3) || (rk A =? 4))%bool = true) as -> by (destruct HA as [g HA _|HA]; rkt; reflexivity).
      rewrite HsA.
      assert (sizen A 2 = M) as -> by (destruct HA as [g HA _|HA]; unfold sizen, rk; now rewrite (proj1 HA)).
      assert (sizen A 3 = N) as -> by (destruct HA as [g HA _|HA]; unfold sizen, rk; now rewrite (proj1 HA)).
      assert ((negb (rk A =? 4) || (B =? size A 0))%bool = true) as ->.
      { destruct HA as [g HA _|HA]; rkt; [reflexivity|]. unfold size. rewrite (proj1 HA). cbn [nth]. now rewrite !Nat.eqb_refl. }
      assert ((negb (rk x =? 3) || (M =? sizen x 1))%bool = true) as ->.
      { destruct Hx as [f Hx _|Hx]; rkt; [reflexivity|]. unfold sizen, rk. rewrite (proj1 Hx). cbn [length Nat.sub nth]. now rewrite !Nat.eqb_refl. }
      assert (size zi 0 = B) as -> by (unfold size; now rewrite (proj1 Hz)).
      assert (size zi 1 = M) as -> by (unfold size; now rewrite (proj1 Hz)).
      rewrite (i2_rk _ _ _ _ Hz), !Nat.eqb_refl. cbn [Nat.eqb Nat.ltb Nat.leb negb orb]. exact E.
    + eapply picks_ext; [exact Hy|]. intros b n m Hb Hn Hm. now apply vstate_h.
Qed.
Theorem lpv_exact e pr B N M G P (A x : ten) (Bt C D zi : option ten) oi Af Bm Cm Dm xf z0 :
  1 <= M -> 1 <= N -> sequentialv e pr M -> sysv B N M G P A Bt C D oi Af Bm Cm Dm -> sigv B N G x xf -> init B M zi z0 ->
  exists y zf, lpv_state_space e pr A x Bt C D zi (Some 1) oi = Ok (y, zf) /\
    sigv B N P y (fun b => y_at M G Bt C D oi (Af b) (Bm b) (Cm b) (Dm b) (z0 b) (xf b)) /\
    match zi with None => zf = None | Some _ => exists z, zf = Some z /\ is2 z B M (fun b => h_at M G Bt (Af b) (Bm b) (z0 b) (xf b) N) end.
Proof.
  intros HM HN Hs (HA & HB & HC & HD) Hx Hz.
  destruct (sig_size R _ _ _ _ _ Hx) as (Hs0 & Hs1 & Hrk & Hfe & Hrk2).
  unfold lpv_state_space. rewrite Hs0, Hs1, Hrk.
  assert (((rk A =? 3) || (rk A =? 4))%bool = true) as -> by (destruct HA as [g HA _|HA]; rkt; reflexivity).
  assert (sizen A 1 = M) as -> by (destruct HA as [g HA _|HA]; unfold sizen, rk; now rewrite (proj1 HA)).
  assert (sizen A 2 = M) as -> by (destruct HA as [g HA _|HA]; unfold sizen, rk; now rewrite (proj1 HA)).
  assert (sizen A 3 = N) as -> by (destruct HA as [g HA _|HA]; unfold sizen, rk; now rewrite (proj1 HA)).
  rewrite (Nat.eqb_refl M), (Nat.eqb_refl N).
  assert (match C, oi with Some _, Some _ => false | _, _ => true end = true) as -> by (destruct HC; reflexivity).
  destruct (ss_zi_spec R B M x zi z0 HM Hz) as (z & -> & Hzz). cbn [bind]. cbv zeta.
  destruct (lpv_input_exact B N M G x xf Bt Bm Hx HB) as (Bx & -> & HBx). cbn [bind].
  assert (Hoi : idx_ok M oi) by (destruct HC; cbn [idx_ok]; eauto).
  destruct (lpv_run e pr B N M A z Bx Af z0 _ (match zi with None => oi | Some _ => None end) HN HM Hs HA Hzz HBx) as (yr & Er & Hr).
  { destruct zi; [exact I|exact Hoi]. }
  set (hv := fun b n => h_at M G Bt (Af b) (Bm b) (z0 b) (xf b) n).
  destruct (ss_states R B N M z zi z0 oi (fun oi' => if lpv_extension_backend_indicator e pr M && (1 =? 1) then lpv_ext_ss_recur e pr A z Bx oi'
     else lpv_state_space_recursion e pr A z Bx 1 oi') hv yr HN HM Hzz Hoi (fun _ _ => eq_refl) (Logic.conj Er Hr)) as (hh & zf & -> & Hhh & Hzf).
  cbn [bind].
  assert (Hz' : match zi with None => zf = None | Some _ => exists z, zf = Some z /\ is2 z B M (fun b => hv b N) end) by exact Hzf.
  assert (exists Ch, match C with Some C => lpv_Ch hh C B N M | None => Ok hh end = Ok Ch /\ sigv B N P Ch (fun b n p => out_at M oi (hasb C) (Cm b n) (hv b n) p)) as (Ch & ECh & HCh).
  { destruct C as [C|].
    - assert (oi = None) as -> by (remember (Some C) as C' eqn:E; destruct HC; auto; discriminate).
      cbn [picks] in Hhh. exact (lpv_Ch_exact B N M P hh C hv Cm Hhh HC).
    - exists hh. remember (@None ten) as C' eqn:E in HC. destruct HC as [f Hf|i k f Hk Hf| | | | | | | | ]; try discriminate; unfold sigv, picks in *; split; auto.
      specialize (Hhh k Hk). cbn [out_at hasb]. rewrite Hk. exact Hhh. }
  unfold y_at. destruct D as [D|].
  - destruct (lpv_Dx_exact B N G P x D xf Dm Hx HD) as (Dx & -> & HDx). cbn [bind]. rewrite ECh. cbn [bind]. unfold tadd, sigv in *. destruct P as [P|].
    + apply is3_P2 in HCh, HDx. eat @P2_ew_same; [exact HCh|exact HDx|]. exists w, zf. split; [reflexivity|]. split; [apply is3_P2; exact H|exact Hz'].
    + apply is2_P1 in HCh, HDx. eat @P1_ew_same; [exact HCh|exact HDx|]. exists w, zf. split; [reflexivity|]. split; [apply is2_P1; exact H|exact Hz'].
  - cbn [bind]. rewrite ECh. cbn [bind]. exists Ch, zf. split; [reflexivity|]. split; [exact HCh|exact Hz'].
Qed.
End S.
