(** lti.state_space without unrolling, operation by operation, as P_Bits4.v does for
    lpv.state_space (philtorch/lti/ssm.py:386-510). *)
From Coq Require Import List Arith Lia ZArith Bool.
From Verif Require Import Scalar Tensor TensorLemmas TensorOps TensorAlg TensorTac TensorList Spec Shapes SpecBits SpecBits2 Algebra M_Mat P_Mat M_Kernels M_LtiSsm
  P_Kernels P_KernelOps P_Helion P_LtiSsm P_Round5 P_Round9 P_Bits P_Bits4.
Import ListNotations.
Open Scope cr_scope.
Open Scope nat_scope.

Section S.
Variable R : cops.
Notation ten := (tensor (car R)).
Hypotheses (mulC : forall a b : R, rmul a b = rmul b a) (conjK : forall a : R, conj (conj a) = a).
Ltac g2 := repeat match goal with H : ?a <> ?b |- context [(?a =? ?b)%nat] => rewrite (proj2 (Nat.eqb_neq a b) H) end.
Ltac mc := first [reflexivity|apply mulC].
Ltac bis := rewrite ?bi_1; repeat match goal with |- context [bi ?k ?n] => rewrite (bi_lt k n) by lia end.
Ltac zz := try match goal with H : ?n < 1 |- _ => replace n with 0%nat in * by lia end.
Ltac fx := intros; cbn [nth]; match goal with Hf : same3 _ _ _ _ _ |- _ => rewrite Hf by lia end; rewrite ?Nat.eqb_refl, ?conjK; bis; zz; mc.
Ltac fs := intros; cbn [nth]; apply bsum_ext; intros; match goal with Hf : same3 _ _ _ _ _ |- _ => rewrite Hf by lia end; rewrite ?conjK; bis; mc.

Lemma ss_input_exact B N M G (x : ten) xf (Bt : option ten) Bm : sigv B N G x xf -> inmat B M G Bt Bm ->
  exists y, ss_input x Bt B M = Ok y /\ drive B N M y (fun b n m => in_at G (hasb Bt) (Bm b) (xf b n) m).
Proof.
  intros Hx HB. destruct (sig_size R _ _ _ _ _ Hx) as (_ & _ & _ & Hfe & Hrk). unfold ss_input.
  destruct HB as [f Hf|f Hf|t g f Ht Hf|t g f Ht Hf|K t g f Ht Hne Hf|K t g f Ht Hf]; cbn [width sigv hasb in_at] in *;
    try (rewrite (proj1 Ht), ?Hfe; cbn [feq]; rewrite ?Nat.eqb_refl, ?andb_false_r, ?andb_true_r).
  - exists x. split; [reflexivity|]. eapply drive_2; [exact Hx|]. reflexivity.
  - exists x. split; [reflexivity|]. now apply drive_3.
  - rkt. cbn [Nat.eqb]. pose proof (unsq2_3r R x B N _ Hx) as Hu3.
    set (v := unsqueeze 2 x) in *. clearbody v. apply is3_PP1 in Hu3. apply is1_P in Ht. unfold tmul.
    eat @P1_ewl; [exact Hu3|exact Ht|bdt|]. exists w. split; [reflexivity|]. apply drive_3. apply PP1_is3 in H. eapply is3_ext; [exact H|]. fx.
  - rkt. cbn [Nat.eqb andb]. apply is2_P1 in Hx, Ht. nm (unsqueeze 2 x). nm (unsqueeze 1 t). unfold tmul.
    eat @P2_ew; [exact H|exact H0|bdt|bdt|]. exists w. split; [reflexivity|]. apply drive_3. apply P2_is3 in H1. eapply is3_ext; [exact H1|]. fx.
  - replace ((M =? B) && (K =? M))%bool with false by (symmetry; apply andb_false_iff; destruct Hne; [left|right]; now apply Nat.eqb_neq).
    apply is3_P2 in Hx. apply is2_P in Ht. nm (mT t). mm. exists w. split; [reflexivity|]. apply drive_3. apply P2_is3 in H0. eapply is3_ext; [exact H0|]. fs.
  - cbn [andb]. apply is3_P2 in Hx, Ht. nm (unsqueeze 1 t). nm (tconj v). replace (rk x - 1) with 2 by dimt.
    nm (unsqueeze 2 x). vdot. exists w. split; [reflexivity|]. apply drive_3. apply P2_is3 in H2. eapply is3_ext; [exact H2|]. fs.
Qed.
Lemma ssm_Ch_exact B N M P (h C : ten) hv Cm : is3 h B N M hv -> outmat B M None (Some C) P Cm ->
  exists y, ssm_Ch h C B M = Ok y /\ sigv B N P y (fun b n p => bsum M (fun m => rmul (Cm b p m) (hv b n m))).
Proof.
  intros Hh HC. unfold ssm_Ch. remember (@None Z) as oi eqn:Eo. remember (Some C) as C' eqn:EC.
  destruct HC as [f Hf|i k f Hk Hf|t g f Ht Hf|t g f Ht Hf|K t g f Ht Hne Hf|K t g f Ht Hf]; try discriminate; injection EC as ->;
    apply is3_P2 in Hh; rewrite (proj1 Ht), ?Nat.eqb_refl; g2; cbn [andb].
  - mm. exists w. split; [reflexivity|]. apply P1_sig in H. unfold sigv in *. eapply is2_ext; [exact H|]. fs.
  - apply is2_P1 in Ht. nm (unsqueeze 1 C). nm (tconj v). vdot. exists w. split; [reflexivity|]. apply P1_sig in H1. unfold sigv in *. eapply is2_ext; [exact H1|]. fs.
  - apply is2_P in Ht. nm (mT C). mm. exists w. split; [reflexivity|]. apply P2_sig in H0. unfold sigv in *. eapply is3_ext; [exact H0|]. fs.
  - apply is3_P2 in Ht. nm (mT C). mm. exists w. split; [reflexivity|]. apply P2_sig in H0. unfold sigv in *. eapply is3_ext; [exact H0|]. fs.
Qed.
Lemma ssm_Dx_exact B N G P (x D : ten) xf Dm : sigv B N G x xf -> feed B G P (Some D) Dm ->
  exists y, ssm_Dx x D B = Ok y /\ sigv B N P y (fun b n p => feed_at G (single G D) (Dm b) (xf b n) p).
Proof.
  intros Hx HD. destruct (sig_size R _ _ _ _ _ Hx) as (_ & _ & _ & Hfe & Hrk). unfold ssm_Dx. rewrite Hfe.
  remember (Some D) as D' eqn:ED.
  destruct HD as [G P f Hf|t v f Ht Hf|t g f Ht Hf|t g f Ht Hf|P t g f Ht H1 H2 Hf|P t g f Ht Hf
    |K t v f Ht Hf|K t g f Ht H1 H2 Hf|K t g f Ht Hf|K t g f Ht Hf|K P t g f Ht Hne Hf|K P t g f Ht Hf];
    try discriminate; injection ED as ->; cbn [feed_at];
    try (match type of Ht with is1 D K g => rewrite (single_true R D K g Ht) end);
    unfold single; rewrite ?(proj1 Ht), ?Hrk; cbn [feq width]; rewrite ?Nat.eqb_refl, ?andb_false_r;
    g2; cbn [andb negb]; unfold sigv in Hx.
  - (* 2_0 *) apply is2_P1 in Hx. ew2. exists w. split; [reflexivity|]. apply P1_sig in H. unfold sigv in *. eapply is2_ext; [exact H|]. fx.
  - (* 2_1 *) destruct (1 =? B) eqn:E; b2p; [subst B|cbn [Nat.eqb]].
    + apply is1_P0 in Ht. assert (Hu3 : isP1 (unsqueeze 1 D) [1%nat] 1 (fun q _ => g (nth 0 q 0%nat))) by (eapply P0_unsq0 with (d := 1%nat) in Ht; [exact Ht|reflexivity]).
      apply is2_P1 in Hx. unfold tmul. eat @P1_ew; [exact Hu3|exact Hx|bdt|]. exists w. split; [reflexivity|]. apply P1_sig in H. unfold sigv in *. eapply is2_ext; [exact H|]. fx.
    + apply is2_P1 in Hx. apply is1_P in Ht. unfold tmul. eat @P1_ewl; [exact Hx|exact Ht|bdt|]. exists w. split; [reflexivity|]. apply P1_sig in H. unfold sigv in *. eapply is2_ext; [exact H|]. fx.
  - (* 2_B *) apply is1_P0 in Ht. assert (Hu3 : isP1 (unsqueeze 1 D) [B] 1 (fun q _ => g (nth 0 q 0%nat))) by (eapply P0_unsq0; [exact Ht|reflexivity]).
    apply is2_P1 in Hx. unfold tmul. eat @P1_ew; [exact Hu3|exact Hx|bdt|]. exists w. split; [reflexivity|]. apply P1_sig in H. unfold sigv in *. eapply is2_ext; [exact H|]. fx.
  - (* 2_P *) rkt. pose proof (unsq2_3r R x B N _ Hx) as Hu3.
    set (v := unsqueeze 2 x) in *. clearbody v. apply is3_PP1 in Hu3. apply is1_P in Ht. unfold tmul.
    eat @P1_ewr; [exact Ht|exact Hu3|bdt|]. exists w. split; [reflexivity|]. apply PP1_sig in H. unfold sigv in *. eapply is3_ext; [exact H|]. fx.
  - (* 2_BP *) rkt. apply is2_P1 in Hx, Ht. nm (unsqueeze 2 x). nm (unsqueeze 1 D). unfold tmul.
    eat @P2_ew; [exact H0|exact H|bdt|bdt|]. exists w. split; [reflexivity|]. apply P2_sig in H1. unfold sigv in *. eapply is3_ext; [exact H1|]. fx.
  - (* 3_0 *) apply is3_P2 in Hx. ew2. exists w. split; [reflexivity|]. apply P2_sig in H. unfold sigv in *. eapply is3_ext; [exact H|]. fx.
  - (* 3_1 *) try bfalse (1 =? K). try bfalse (1 =? B). cbn [Nat.eqb negb]. apply is3_PP1 in Hx. apply is1_P in Ht. unfold tmul.
    eat @P1_ewl; [exact Hx|exact Ht|bdt|]. exists w. split; [reflexivity|]. apply PP1_sig in H. unfold sigv in *. eapply is3_ext; [exact H|]. fx.
  - (* 3_F *) apply is3_P2 in Hx. mm. exists w. split; [reflexivity|]. apply P1_sig in H. unfold sigv in *. eapply is2_ext; [exact H|]. fs.
  - (* 3_BF *) apply is2_P1 in Ht. apply is3_P2 in Hx. nm (unsqueeze 1 D). nm (tconj v). vdot. exists w. split; [reflexivity|]. apply P1_sig in H1. unfold sigv in *. eapply is2_ext; [exact H1|]. fs.
  - (* 3_PF *) apply is3_P2 in Hx. apply is2_P in Ht. nm (mT D). mm. exists w. split; [reflexivity|]. apply P2_sig in H0. unfold sigv in *. eapply is3_ext; [exact H0|]. fs.
  - (* 3_BPF *) apply is3_P2 in Hx, Ht. nm (unsqueeze 1 D). nm (tconj v). replace (rk x - 1) with 2 by dimt.
    nm (unsqueeze 2 x). vdot. exists w. split; [reflexivity|]. apply P2_sig in H2. unfold sigv in *. eapply is3_ext; [exact H2|]. fs.
Qed.
Lemma step_vstate e M A (h : nat -> R) u n i : i < M -> machine (step R e M A) h u n i = vstate M (fun _ => A) h u n i.
Proof.
  revert i. induction n as [|n IH]; intros i Hi; cbn [machine vstate]; [reflexivity|]. unfold step at 1.
  destruct (extension_backend_indicator e M); f_equal; apply bsum_ext; intros j Hj; rewrite IH by assumption; mc.
Qed.
Theorem lti_exact e B N M G P (A x : ten) (Bt C D zi : option ten) oi Af Bm Cm Dm xf z0 :
  1 <= M -> 1 <= N -> sequential e M -> sys B M G P A Bt C D oi Af Bm Cm Dm -> sigv B N G x xf -> init B M zi z0 ->
  exists y zf, state_space e A x Bt C D zi (Some 1) oi = Ok (y, zf) /\
    sigv B N P y (fun b => y_at M G Bt C D oi (fun _ => Af b) (fun _ => Bm b) (fun _ => Cm b) (fun _ => Dm b) (z0 b) (xf b)) /\
    match zi with None => zf = None | Some _ => exists z, zf = Some z /\ is2 z B M (fun b => h_at M G Bt (fun _ => Af b) (fun _ => Bm b) (z0 b) (xf b) N) end.
Proof.
  intros HM HN Hs (HA & HB & HC & HD) Hx Hz.
  destruct (sig_size R _ _ _ _ _ Hx) as (Hs0 & Hs1 & Hrk & Hfe & Hrk2).
  unfold state_space. rewrite Hs0, ?Hs1, Hrk.
  assert (((rk A =? 2) || (rk A =? 3))%bool = true) as -> by (destruct HA as [g0 HA _|HA]; rkt; reflexivity).
  assert (sizen A 1 = M) as -> by (destruct HA as [g0 HA _|HA]; unfold sizen, rk; now rewrite (proj1 HA)).
  assert (sizen A 2 = M) as -> by (destruct HA as [g0 HA _|HA]; unfold sizen, rk; now rewrite (proj1 HA)).
  assert ((negb (rk A =? 3) || (B =? size A 0))%bool = true) as ->.
  { destruct HA as [g0 HA _|HA]; rkt; [reflexivity|]. unfold size. rewrite (proj1 HA). cbn [nth]. now rewrite !Nat.eqb_refl. }
  rewrite (Nat.eqb_refl M).
  assert (match C, oi with Some _, Some _ => false | _, _ => true end = true) as -> by (destruct HC; reflexivity).
  destruct (ss_zi_spec R B M x zi z0 HM Hz) as (z & -> & Hzz). cbn [bind]. cbv zeta.
  destruct (ss_input_exact B N M G x xf Bt Bm Hx HB) as (Bx & -> & HBx). cbn [bind].
  assert (Hoi : idx_ok M oi) by (destruct HC; cbn [idx_ok]; eauto).
  destruct (run_machine R e B N M A z Bx Af z0 _ (match zi with None => oi | Some _ => None end) HN HM Hs HA Hzz HBx) as (yr & Er & Hr).
  { destruct zi; [exact I|exact Hoi]. }
  set (hv := fun b n => h_at M G Bt (fun _ => Af b) (fun _ => Bm b) (z0 b) (xf b) n).
  assert (Hr' : picks B N M (match zi with None => oi | Some _ => None end) yr (fun b n m => hv b (S n) m)).
  { eapply picks_ext; [exact Hr|]. intros b n m Hb Hn Hm. unfold hv, h_at. now apply step_vstate. }
  destruct (ss_states R B N M z zi z0 oi (fun oi' => if extension_backend_indicator e M && (1 =? 1) then ext_ss_recur e A z Bx oi'
     else state_space_recursion e A z Bx 1 oi') hv yr HN HM Hzz Hoi (fun _ _ => eq_refl) (Logic.conj Er Hr')) as (hh & zf & -> & Hhh & Hzf).
  cbn [bind]. unfold ssm_C_D.
  assert (Hz' : match zi with None => zf = None | Some _ => exists z, zf = Some z /\ is2 z B M (fun b => hv b N) end) by exact Hzf.
  assert (exists Ch, match C with Some C => ssm_Ch hh C B M | None => Ok hh end = Ok Ch /\ sigv B N P Ch (fun b n p => out_at M oi (hasb C) (Cm b) (hv b n) p)) as (Ch & ECh & HCh).
  { destruct C as [C|].
    - assert (oi = None) as -> by (remember (Some C) as C' eqn:E; destruct HC; auto; discriminate).
      cbn [picks] in Hhh. exact (ssm_Ch_exact B N M P hh C hv Cm Hhh HC).
    - exists hh. remember (@None ten) as C' eqn:E in HC. destruct HC as [f Hf|i k f Hk Hf| | | | ]; try discriminate; unfold sigv, picks in *; split; auto.
      specialize (Hhh k Hk). cbn [out_at hasb]. rewrite Hk. exact Hhh. }
  unfold y_at. destruct D as [D|].
  - destruct (ssm_Dx_exact B N G P x D xf Dm Hx HD) as (Dx & -> & HDx). cbn [bind]. rewrite ECh. cbn [bind]. unfold tadd, sigv in *. destruct P as [P|].
    + apply is3_P2 in HCh, HDx. eat @P2_ew_same; [exact HCh|exact HDx|]. exists w, zf. split; [reflexivity|]. split; [apply is3_P2; exact H|exact Hz'].
    + apply is2_P1 in HCh, HDx. eat @P1_ew_same; [exact HCh|exact HDx|]. exists w, zf. split; [reflexivity|]. split; [apply is2_P1; exact H|exact Hz'].
  - cbn [bind]. rewrite ECh. cbn [bind]. exists Ch, zf. split; [reflexivity|]. split; [exact HCh|exact Hz'].
Qed.
End S.
