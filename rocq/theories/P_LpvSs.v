(** lpv.state_space: argument shapes, states and outputs. *)
From Coq Require Import List Arith Lia ZArith Bool Ring.
From Verif Require Import Scalar Tensor TensorLemmas TensorOps TensorAlg TensorTac TensorList
  Spec Shapes Algebra M_Mat P_Mat M_Kernels P_KernelOps P_Helion M_LtiSsm P_LtiRecur P_LtiSsm
  M_Ext M_LpvSsm P_LpvSsm.
Import ListNotations.

Section S.
Variable R : cring.
Add Ring Rr : (r_th R).
Notation ten := (tensor (car R)).
Open Scope cr_scope.

Ltac g2 := repeat match goal with H : ?a <> ?b |- context [(?a =? ?b)%nat] => rewrite (proj2 (Nat.eqb_neq a b) H) end.
Ltac q1 q b Hq Hb := apply vld_1_inv in Hq as (b & -> & Hb); cbn [nth].

Lemma unsq2_3 (x : ten) B N (f : nat -> nat -> R) : is2 x B N f -> is3 (unsqueeze 2 x) B N 1 (fun b n _ => f b n).
Proof. intro Hx. apply is2_P1 in Hx. nm (unsqueeze 2 x). apply is3_P2. exact H. Qed.

Lemma lpv_input_spec B N M F (x : ten) xf Bt Bm :
  sigv B N F x xf -> inmatv B N M F Bt Bm ->
  exists y, lpv_input x Bt B N M = Ok y /\
    drive B N M y (fun b n m => bsum (width F) (fun k => Bm b n m k * xf b n k)).
Proof.
  intros Hx HB. destruct (sig_size _ _ _ _ _ _ Hx) as (_ & _ & _ & Hfe & Hrk). unfold lpv_input.
  destruct HB as [f Hf|f Hf|t g f Ht Hf|t g f Ht Hf|t g f Ht H1 Hf|t g f Ht Hf
    |K t g f Ht Hf|K t g f Ht Hf|K t g f Ht H1 H2 Hf|K t g f Ht Hf]; cbn [width sigv] in *;
    try (rewrite (proj1 Ht), ?Hfe; cbn [feq]; rewrite ?Nat.eqb_refl, ?andb_false_r, ?andb_true_r).
  - exists x. split; [reflexivity|]. eapply drive_2; [exact Hx|].
    intros b n m Hb Hn Hm. cbn [bsum]. rewrite (Hf b n m 0%nat) by lia. unfold unit3. destruct (m =? 0)%nat; ring.
  - exists x. split; [reflexivity|]. apply drive_3. eapply is3_ext; [exact Hx|].
    intros b n m Hb Hn Hm. cbn beta. rewrite (bsum_one M _ m Hm).
    + rewrite Hf by lia. rewrite mid_unit3, mid_refl. ring.
    + intros k Hk Hkm. rewrite Hf by lia. rewrite mid_unit3, mid_neq by auto. ring.
  - rkt. cbn [Nat.eqb]. pose proof (unsq2_3 x B N _ Hx) as Hu.
    set (v := unsqueeze 2 x) in *. clearbody v. apply is3_PP1 in Hu. apply is1_P in Ht. unfold tmul.
    eat @P1_ewl; [exact Hu|exact Ht|bdt|]. exists w. split; [reflexivity|]. apply drive_3. apply is3_PP1. fin H; auto.
    intros q m Hq Hm. apply vld_2_inv in Hq as (b & n & -> & Hb & Hn). cbn [nth bsum]. rewrite Hf by lia.
    rewrite (bi_lt M) by lia. ring.
  - rkt. cbn [Nat.eqb andb]. apply is2_P1 in Hx. nm (unsqueeze 2 x). apply is2_P in Ht. unfold tmul.
    eat @P2_ewl; [exact H|exact Ht|bdt|bdt|]. exists w. split; [reflexivity|]. apply drive_3. apply is3_P2. fin H0; auto.
    intros q n m Hq Hn Hm. q1 q b Hq Hb. cbn [bsum]. rewrite Hf by lia. rewrite ?(bi_lt M), ?(bi_lt N) by lia. ring.
  - g2. rkt. cbn [Nat.eqb andb]. apply is2_P1 in Hx, Ht. nm (unsqueeze 2 x). nm (unsqueeze 1 t). unfold tmul.
    eat @P2_ew; [exact H|exact H0|bdt|bdt|]. exists w. split; [reflexivity|]. apply drive_3. apply is3_P2. fin H2; auto.
    intros q n m Hq Hn Hm. q1 q b Hq Hb. cbn [bsum]. rewrite Hf by lia. rewrite ?(bi_lt M), ?(bi_lt N) by lia. ring.
  - rkt. cbn [Nat.eqb andb]. apply is2_P1 in Hx. nm (unsqueeze 2 x). apply is3_P2 in Ht. unfold tmul.
    eat @P2_ew; [exact H|exact Ht|bdt|bdt|]. exists w. split; [reflexivity|]. apply drive_3. apply is3_P2. fin H0; auto.
    intros q n m Hq Hn Hm. q1 q b Hq Hb. cbn [bsum]. rewrite Hf by lia. rewrite ?(bi_lt M), ?(bi_lt N) by lia. ring.
  - cbn [andb]. apply is3_P2 in Hx. apply is2_P in Ht. nm (mT t). mm. exists w. split; [reflexivity|]. apply drive_3. apply is3_P2.
    fin H0; auto. intros q n m Hq Hn Hm. q1 q b Hq Hb. apply bsum_ext. intros k Hk. rewrite Hf by lia. ring.
  - cbn [andb]. apply is3_P2 in Hx. apply is3_P in Ht. nm (tconj t). replace (rk x - 1)%nat with 2%nat by dimt.
    nm (unsqueeze 2 x). vdot. exists w. split; [reflexivity|]. apply drive_3. apply is3_P2.
    fin H1; auto. intros q n m Hq Hn Hm. q1 q b Hq Hb. apply bsum_ext.
    intros k Hk. rewrite conj_conj. rewrite (bi_lt N), (bi_lt M) by lia. rewrite Hf by lia. reflexivity.
  - g2. cbn [andb]. replace ((K =? M) && (M =? N))%bool with false
      by (symmetry; apply andb_false_iff; destruct H2; [right|left]; now apply Nat.eqb_neq).
    apply is3_P2 in Hx, Ht. nm (unsqueeze 1 t). nm (tconj v). replace (rk x - 1)%nat with 2%nat by dimt.
    nm (unsqueeze 2 x). vdot. exists w. split; [reflexivity|]. apply drive_3. apply is3_P2.
    fin H4; auto. intros q n m Hq Hn Hm. q1 q b Hq Hb. apply bsum_ext.
    intros k Hk. rewrite conj_conj. rewrite (bi_lt N), (bi_lt M) by lia. rewrite Hf by lia. reflexivity.
  - cbn [andb]. apply is3_P2 in Hx. apply is4_P3 in Ht. nm (tconj t). replace (rk x - 1)%nat with 2%nat by dimt.
    nm (unsqueeze 2 x). vdot. exists w. split; [reflexivity|]. apply drive_3. apply is3_P2.
    fin H1; auto. intros q n m Hq Hn Hm. q1 q b Hq Hb. apply bsum_ext.
    intros k Hk. rewrite conj_conj. rewrite !(bi_lt N), (bi_lt M) by lia. rewrite Hf by lia. reflexivity.
Qed.

Lemma lpv_Ch_spec B N M P (h C : ten) (hf : nat -> nat -> nat -> R) Cm :
  is3 h B N M hf -> outmatv B N M None (Some C) P Cm ->
  exists y, lpv_Ch h C B N M = Ok y /\ sigv B N P y (fun b n p => bsum M (fun m => Cm b n p m * hf b n m)).
Proof.
  intros Hh HC. unfold lpv_Ch.
  remember (@None Z) as oi eqn:Eo. remember (Some C) as C' eqn:EC.
  destruct HC as [f Hf|i k f Hk Hf|t g f Ht Hf|t g f Ht Hf|t g f Ht H1 Hf|K t g f Ht H1 H2 Hf
    |K t g f Ht Hf|t g f Ht H1 Hf|K t g f Ht H1 H2 Hf|K t g f Ht Hf]; try discriminate;
    injection EC as ->; unfold sigv; apply is3_P2 in Hh; rewrite (proj1 Ht), ?Nat.eqb_refl; g2; cbn [andb];
    try (replace (rk h - 1)%nat with 2%nat by dimt).
  - mm. exists w. split; [reflexivity|]. apply is2_P1. fin H; auto. intros q n Hq Hn. q1 q b Hq Hb.
    apply bsum_ext. intros m Hm. rewrite Hf by lia. ring.
  - apply is2_P in Ht. nm (tconj C). vdot. exists w. split; [reflexivity|]. apply is2_P1. fin H0; auto.
    intros q n Hq Hn. q1 q b Hq Hb.
    apply bsum_ext. intros m Hm. rewrite conj_conj, (bi_lt N) by lia. rewrite Hf by lia. reflexivity.
  - apply is2_P1 in Ht. nm (unsqueeze 1 C). nm (tconj v). vdot. exists w. split; [reflexivity|].
    apply is2_P1. fin H2; auto. intros q n Hq Hn. q1 q b Hq Hb.
    apply bsum_ext. intros m Hm. rewrite conj_conj, (bi_lt N) by lia. rewrite Hf by lia. reflexivity.
  - apply is2_P in Ht. nm (mT C). mm. exists w. split; [reflexivity|].
    apply is3_P2. fin H0; auto. intros q n p Hq Hn Hp. q1 q b Hq Hb.
    apply bsum_ext. intros m Hm. rewrite Hf by lia. ring.
  - apply is3_P in Ht. nm (tconj C). nm (unsqueeze 2 h). vdot. exists w. split; [reflexivity|].
    apply is3_P2. fin H1; auto. intros q n p Hq Hn Hp. q1 q b Hq Hb.
    apply bsum_ext. intros m Hm. rewrite conj_conj, (bi_lt N), (bi_lt K) by lia. rewrite Hf by lia. reflexivity.
  - apply is3_P2 in Ht. nm (tconj C). vdot. exists w. split; [reflexivity|]. apply is2_P1. fin H0; auto.
    intros q n Hq Hn. q1 q b Hq Hb.
    apply bsum_ext. intros m Hm. rewrite conj_conj, !(bi_lt N) by lia. rewrite Hf by lia. reflexivity.
  - apply is3_P2 in Ht. nm (mT C). mm. exists w. split; [reflexivity|].
    apply is3_P2. fin H0; auto. intros q n p Hq Hn Hp. q1 q b Hq Hb.
    apply bsum_ext. intros m Hm. rewrite Hf by lia. ring.
  - apply is4_P3 in Ht. nm (tconj C). nm (unsqueeze 2 h). vdot. exists w. split; [reflexivity|].
    apply is3_P2. fin H1; auto. intros q n p Hq Hn Hp. q1 q b Hq Hb.
    apply bsum_ext. intros m Hm. rewrite conj_conj, !(bi_lt N), (bi_lt K) by lia. rewrite Hf by lia. reflexivity.
Qed.

Lemma lpv_Dx_spec B N F P (x D : ten) xf Dm :
  sigv B N F x xf -> feedv B N F P (Some D) Dm ->
  exists y, lpv_Dx x D B N = Ok y /\ sigv B N P y (fun b n p => bsum (width F) (fun k => Dm b n p k * xf b n k)).
Proof.
  intros Hx HD. destruct (sig_size _ _ _ _ _ _ Hx) as (_ & _ & _ & Hfe & Hrk). unfold lpv_Dx. rewrite Hfe.
  remember (Some D) as D' eqn:ED.
  destruct HD as [F P f Hf|t v f Ht Hf|t g f Ht Hf|t g f Ht Hf|t g f Ht H1 Hf|P t g f Ht H1 H2 H3 Hf|P t g f Ht Hf
    |t g f Ht H1 Hf|P t g f Ht H1 H2 Hf|P t g f Ht Hf
    |K t v f Ht Hf|K t g f Ht H1 H2 H3 Hf|K t g f Ht Hf|K t g f Ht Hf|K t g f Ht H1 Hf|K P t g f Ht H1 H2 Hf
    |K t g f Ht Hf|K P t g f Ht H1 Hf|K P t g f Ht H1 H2 Hf|K P t g f Ht Hf];
    try discriminate; injection ED as ->; rewrite (proj1 Ht), ?Hrk; cbn [feq width]; rewrite ?Nat.eqb_refl, ?andb_false_r;
    g2; cbn [andb]; unfold sigv in *; cbn [bsum].
  - (* 2_0 *) apply is2_P1 in Hx. ew2. exists w. split; [reflexivity|]. apply is2_P1. fin H; auto.
    intros q n Hq Hn. q1 q b Hq Hb. rewrite Hf by lia. ring.
  - (* 2_1 *) destruct (1 =? N)%nat eqn:EN; b2p; [subst N|destruct (1 =? B)%nat eqn:E; b2p; [subst B|cbn [Nat.eqb]]].
    + apply is2_P1 in Hx. apply is1_P in Ht. unfold tmul. eat @P1_ewr; [exact Ht|exact Hx|bdt|].
      exists w. split; [reflexivity|]. apply is2_P1. fin H; auto.
      intros q n Hq Hn. q1 q b Hq Hb. rewrite Hf by lia. rewrite ?bi_1. replace n with 0%nat by lia. ring.
    + apply is1_P0 in Ht. assert (Hu : isP1 (unsqueeze 1 D) [1%nat] 1 (fun q _ => g (nth 0 q 0%nat))) by (eapply P0_unsq0 with (d := 1%nat) in Ht; [exact Ht|reflexivity]).
      apply is2_P1 in Hx. unfold tmul. eat @P1_ew; [exact Hu|exact Hx|bdt|].
      exists w. split; [reflexivity|]. apply is2_P1. fin H; auto.
      intros q n Hq Hn. q1 q b Hq Hb. rewrite Hf by lia.
      rewrite (bi_lt N) by lia. replace b with 0%nat by lia. ring.
    + apply is2_P1 in Hx. apply is1_P in Ht. unfold tmul. eat @P1_ewl; [exact Hx|exact Ht|bdt|].
      exists w. split; [reflexivity|]. apply is2_P1. fin H; auto.
      intros q n Hq Hn. q1 q b Hq Hb. rewrite Hf by lia. rewrite (bi_lt N) by lia. rewrite ?bi_1. ring.
  - (* 2_N *) apply is2_P1 in Hx. apply is1_P in Ht. unfold tmul. eat @P1_ewr; [exact Ht|exact Hx|bdt|].
    exists w. split; [reflexivity|]. apply is2_P1. fin H; auto.
    intros q n Hq Hn. q1 q b Hq Hb. rewrite Hf by lia. rewrite !(bi_lt N) by lia. ring.
  - (* 2_B *) apply is1_P0 in Ht. assert (Hu : isP1 (unsqueeze 1 D) [B] 1 (fun q _ => g (nth 0 q 0%nat))) by (eapply P0_unsq0; [exact Ht|reflexivity]).
    apply is2_P1 in Hx. unfold tmul. eat @P1_ew; [exact Hu|exact Hx|bdt|].
    exists w. split; [reflexivity|]. apply is2_P1. fin H; auto.
    intros q n Hq Hn. q1 q b Hq Hb. rewrite Hf by lia. rewrite (bi_lt N) by lia. ring.
  - (* 2_P *) rkt. pose proof (unsq2_3 x B N _ Hx) as Hu.
    set (v := unsqueeze 2 x) in *. clearbody v. apply is3_PP1 in Hu. apply is1_P in Ht. unfold tmul.
    eat @P1_ewl; [exact Hu|exact Ht|bdt|]. exists w. split; [reflexivity|]. apply is3_PP1. fin H; auto.
    intros q m Hq Hm. apply vld_2_inv in Hq as (b & n & -> & Hb & Hn). cbn [nth]. rewrite Hf by lia.
    rewrite (bi_lt P) by lia. rewrite ?bi_1. ring.
  - (* 2_NP *) rkt. apply is2_P1 in Hx. nm (unsqueeze 2 x). apply is2_P in Ht. unfold tmul.
    eat @P2_ewr; [exact Ht|exact H|bdt|bdt|]. exists w. split; [reflexivity|]. apply is3_P2. fin H0; auto.
    intros q n p Hq Hn Hp. q1 q b Hq Hb. rewrite Hf by lia. rewrite !(bi_lt N), (bi_lt P) by lia. rewrite ?bi_1. ring.
  - (* 2_BN *) apply is2_P1 in Hx, Ht. unfold tmul. eat @P1_ew_same; [exact Ht|exact Hx|].
    exists w. split; [reflexivity|]. apply is2_P1. fin H; auto.
    intros q n Hq Hn. q1 q b Hq Hb. rewrite Hf by lia. ring.
  - (* 2_BP *) rkt. apply is2_P1 in Hx, Ht. nm (unsqueeze 2 x). nm (unsqueeze 1 D). unfold tmul.
    eat @P2_ew; [exact H0|exact H|bdt|bdt|]. exists w. split; [reflexivity|]. apply is3_P2. fin H3; auto.
    intros q n p Hq Hn Hp. q1 q b Hq Hb. rewrite Hf by lia. rewrite (bi_lt N), (bi_lt P) by lia. rewrite ?bi_1. ring.
  - (* 2_BNP *) rkt. apply is2_P1 in Hx. apply is3_P2 in Ht. nm (unsqueeze 2 x). unfold tmul.
    eat @P2_ew; [exact Ht|exact H|bdt|bdt|]. exists w. split; [reflexivity|]. apply is3_P2. fin H0; auto.
    intros q n p Hq Hn Hp. q1 q b Hq Hb. rewrite Hf by lia. rewrite !(bi_lt N), (bi_lt P) by lia. rewrite ?bi_1. ring.
  - (* 3_0 *) apply is3_P2 in Hx. ew2. exists w. split; [reflexivity|]. apply is3_P2. fin H; auto.
    intros q n p Hq Hn Hp. q1 q b Hq Hb.
    rewrite (bsum_ext K _ (fun k => (if p =? k then v else 0) * xf b n k)) by (intros; now rewrite Hf by lia).
    rewrite bsum_diag by lia. ring.
  - (* 3_1 *) bfalse (1 =? K)%nat. bfalse (1 =? N)%nat. bfalse (1 =? B)%nat. cbn [Nat.eqb]. apply is3_PP1 in Hx. apply is1_P in Ht. unfold tmul.
    eat @P1_ewl; [exact Hx|exact Ht|bdt|]. exists w. split; [reflexivity|]. apply is3_PP1. fin H; auto.
    intros q p Hq Hp. apply vld_2_inv in Hq as (b & n & -> & Hb & Hn). cbn [nth].
    rewrite (bsum_ext K _ (fun k => (if p =? k then g 0%nat else 0) * xf b n k)) by (intros; now rewrite Hf by lia).
    rewrite bsum_diag by lia. rewrite (bi_lt K) by lia. rewrite ?bi_1. ring.
  - (* 3_F *) apply is3_P2 in Hx. mm. exists w. split; [reflexivity|]. apply is2_P1. fin H; auto. intros q n Hq Hn.
    q1 q b Hq Hb. apply bsum_ext. intros m Hm. rewrite Hf by lia. ring.
  - (* 3_NF *) apply is2_P in Ht. apply is3_P2 in Hx. nm (tconj D). vdot. exists w. split; [reflexivity|].
    apply is2_P1. fin H0; auto. intros q n Hq Hn. q1 q b Hq Hb.
    apply bsum_ext. intros m Hm. rewrite conj_conj, (bi_lt N) by lia. rewrite Hf by lia. reflexivity.
  - (* 3_BF *) apply is2_P1 in Ht. apply is3_P2 in Hx. nm (tconj D). nm (unsqueeze 1 v). vdot. exists w. split; [reflexivity|].
    apply is2_P1. fin H2; auto. intros q n Hq Hn. q1 q b Hq Hb.
    apply bsum_ext. intros m Hm. rewrite conj_conj, (bi_lt N) by lia. rewrite Hf by lia. reflexivity.
  - (* 3_PF *) rkt. cbn [Nat.eqb]. apply is3_P2 in Hx. apply is2_P in Ht. nm (mT D). mm. exists w. split; [reflexivity|].
    apply is3_P2. fin H0; auto. intros q n p Hq Hn Hp. q1 q b Hq Hb.
    apply bsum_ext. intros m Hm. rewrite Hf by lia. ring.
  - (* 3_BNF *) apply is3_P2 in Ht, Hx. nm (tconj D). vdot. exists w. split; [reflexivity|].
    apply is2_P1. fin H0; auto. intros q n Hq Hn. q1 q b Hq Hb.
    apply bsum_ext. intros m Hm. rewrite conj_conj, !(bi_lt N) by lia. rewrite Hf by lia. reflexivity.
  - (* 3_NPF *) replace ((N =? B) && (P =? N))%bool with false
      by (symmetry; apply andb_false_iff; destruct H1; [left|right]; now apply Nat.eqb_neq).
    cbn [andb]. apply is3_P2 in Hx. apply is3_P in Ht. nm (tconj D). replace (rk x - 1)%nat with 2%nat by dimt.
    nm (unsqueeze 2 x). vdot. exists w. split; [reflexivity|]. apply is3_P2.
    fin H2; auto. intros q n m Hq Hn Hm. q1 q b Hq Hb. apply bsum_ext.
    intros k Hk. rewrite conj_conj. rewrite (bi_lt N), (bi_lt P) by lia. rewrite Hf by lia. reflexivity.
  - (* 3_BPF *) apply is3_P2 in Hx, Ht. nm (mT D). mm. exists w. split; [reflexivity|].
    apply is3_P2. fin H0; auto. intros q n p Hq Hn Hp. q1 q b Hq Hb.
    apply bsum_ext. intros m Hm. rewrite Hf by lia. ring.
  - (* 3_BNPF *) apply is3_P2 in Hx. apply is4_P3 in Ht. nm (tconj D). replace (rk x - 1)%nat with 2%nat by dimt.
    nm (unsqueeze 2 x). vdot. exists w. split; [reflexivity|]. apply is3_P2.
    fin H1; auto. intros q n m Hq Hn Hm. q1 q b Hq Hb. apply bsum_ext.
    intros k Hk. rewrite conj_conj. rewrite !(bi_lt N), (bi_lt P) by lia. rewrite Hf by lia. reflexivity.
Qed.

(** The installed back-ends are complete (compare [backend_ok] for lti). *)
Definition lpv_backend_ok (e : env) (pr : bool) (M : nat) : Prop :=
  env_ok e /\ (ext e = true -> cuda e = true -> ext_cuda e = true) /\
  (pararnn_applicable e pr M = true -> ext e || helion e = true) /\
  (helion_backend_indicator e = true -> M = 2%nat -> pararnn_applicable e pr M = false -> ext e = true).
Lemma lpv_backend_helion e pr M : lpv_backend_ok e pr M -> helion_backend_indicator e = true -> lpv_ext_avail e pr M.
Proof.
  intros (H1 & H2 & H3 & H4) Hh. split; [exact H1|]. split.
  - unfold helion_backend_indicator in Hh. destruct (helion e); [apply orb_true_r|discriminate].
  - intro Hp. split; [|auto]. intro HM. assert (ext e = true) by auto. split; [assumption|]. intro. now apply H2.
Qed.
Lemma lpv_backend_ext e pr M : lpv_backend_ok e pr M -> lpv_extension_backend_indicator e pr M = true -> lpv_ext_avail e pr M.
Proof.
  intros (H1 & H2 & H3 & H4) He. split; [exact H1|]. unfold lpv_extension_backend_indicator in He. split.
  - destruct (pararnn_applicable e pr M); [auto|]. rewrite orb_false_r in He. apply andb_true_iff in He as [-> _]. reflexivity.
  - intro Hp. rewrite Hp, orb_false_r in He. apply andb_true_iff in He as [E1 E2]. split.
    + intro. split; [exact E1|auto].
    + intro. right. split; [exact E1|]. assert ((M <=? 2)%nat = false) as Em by (apply Nat.leb_gt; lia).
      rewrite Em, orb_false_r in E2. now apply negb_true_iff in E2.
Qed.
Lemma lpv_backend_env0 M : lpv_backend_ok env0 false M.
Proof. destruct (backend_env0 M) as [H _]. split; [exact H|]. repeat split; discriminate. Qed.

(** The unroll factors for which the block products are computed correctly. *)
Definition unroll_good (N : nat) (uf : option nat) : Prop :=
  let u := match uf with Some u => u | None => round_sqrt N end in
  (1 <= u)%nat /\ (u = 1%nat \/ (N <= u)%nat \/ u = 2%nat \/ is_prime (u - 1)).

Lemma lpv_ssr_spec e pr B N M (A zi x : ten) Af zf u bs oi :
  (1 <= B)%nat -> (1 <= N)%nat -> (1 <= M)%nat -> unroll_good N (Some bs) -> lpv_backend_ok e pr M ->
  matv B N M A Af -> is2 zi B M zf -> drive B N M x u -> idx_ok M oi ->
  exists y, lpv_state_space_recursion e pr A zi x bs oi = Ok y /\
    picks B N M oi y (fun b n m => state M (Af b) (zf b) (u b) (S n) m).
Proof.
  intros HB HN HM (Hb1 & Hb2) He HA Hz Hx Hi. unfold lpv_state_space_recursion. apply lpv_ssr_fuel_spec; auto.
  - destruct Hx as [f Hx _|Hx]; unfold size; rewrite (proj1 Hx); cbn; lia.
  - destruct Hb2 as [?|[?|Hp]]; auto. right. right. apply cumdot_good_prime. destruct Hp as [->|Hp]; auto.
  - intro. now apply lpv_backend_helion.
Qed.

(** The states before each step and the final state, from any correct recursion runner. *)
Lemma ss_states B N M (z : ten) z0 (zi : option ten) oi (run : option Z -> res ten) (h : nat -> nat -> nat -> R) :
  (1 <= N)%nat -> is2 z B M z0 -> (forall b m, h b 0%nat m = z0 b m) -> idx_ok M oi ->
  (forall oi', idx_ok M oi' -> exists y, run oi' = Ok y /\ picks B N M oi' y (fun b n m => h b (S n) m)) ->
  exists hh zf,
    match oi with
    | None =>
        let* h := run None in
        let* zf := if match zi with Some _ => true | None => false end
                   then let* z := select 1 (-1) h in Ok (Some z) else Ok None in
        let* h := cat 1 [unsqueeze 1 z; slice 1 None (Some (-1)%Z) h] in
        Ok (h, zf)
    | Some i =>
        if match zi with Some _ => true | None => false end then
          let* h := run None in
          let* zf := select 1 (-1) h in
          let* z0 := select 1 i z in
          let* h1 := select 2 i (slice 1 None (Some (-1)%Z) h) in
          let* h := cat 1 [unsqueeze 1 z0; h1] in
          Ok (h, Some zf)
        else
          let* h := run (Some i) in
          let* z0 := select 1 i z in
          let* h := cat 1 [unsqueeze 1 z0; slice 1 None (Some (-1)%Z) h] in
          Ok (h, None)
    end%res = Ok (hh, zf) /\ picks B N M oi hh (fun b n m => h b n m) /\
    match zi with
    | None => zf = None
    | Some _ => exists z, zf = Some z /\ is2 z B M (fun b m => h b N m)
    end.
Proof.
  intros HN Hzz Hh0 Hoi Hrun. pose proof Hzz as Hz1. apply is2_P1 in Hz1.
  assert (Hsl : forall (y : ten) g, is3 y B N M g ->
       select 1 (-1) y = Ok (sel 1 (N - 1) y) /\ is2 (sel 1 (N - 1) y) B M (fun b m => g b (N - 1)%nat m)).
  { intros y g Hy. split.
    - apply select_ok. unfold size. rewrite (proj1 Hy). cbn [nth]. apply pyidx_m1. lia.
    - apply sel_13 with (N := N); [exact Hy|lia]. }
  destruct oi as [i|].
  - destruct Hoi as (k & Hk).
    pose proof (pyidx_lt _ _ _ Hk) as Hkl.
    assert (Hz0 : select 1 i z = Ok (sel 1 k z)) by (apply select_ok; unfold size; rewrite (proj1 Hzz); exact Hk).
    assert (Hz0v : isP0 (sel 1 k z) [B] (fun q => z0 (nth 0 q 0%nat) k)).
    { pose proof (P1_sel0 z [B] M _ 1 k Hz1 ltac:(reflexivity) Hkl) as H. exact H. }
    set (z00 := sel 1 k z) in *. clearbody z00.
    assert (Hz0u : isP1 (unsqueeze 1 z00) [B] 1 (fun q _ => z0 (nth 0 q 0%nat) k)) by (eapply P0_unsq0; [exact Hz0v|reflexivity]).
    destruct zi as [zi|].
    + destruct (Hrun None Logic.I) as (y & -> & Hy). cbn [bind picks] in *.
      destruct (Hsl y _ Hy) as [-> Hzfv]. cbn [bind]. rewrite Hz0. cbn [bind].
      apply is3_P2 in Hy. nm (slice 1 None (Some (-1)%Z) y).
      rewrite (select_ok v 2 i k) by (unfold size; rewrite (proj1 H); exact Hk). cbn [bind].
      nm (sel 2 k v). set (zu := unsqueeze 1 z00) in *. clearbody zu. cat2.
      eexists _, _. split; [reflexivity|]. split.
      * intros k' Hk'. rewrite Hk in Hk'. injection Hk' as <-. apply is2_P1. fin H1; [lia|].
        intros q n Hq Hn. destruct (n <? 1)%nat eqn:E; b2p.
        -- replace n with 0%nat by lia. now rewrite Hh0.
        -- replace (S (0 + (n - 1))) with n by lia. reflexivity.
      * eexists. split; [reflexivity|]. eapply is2_ext; [exact Hzfv|]. intros b m Hb Hm. cbn beta.
        now replace (S (N - 1)) with N by lia.
    + destruct (Hrun (Some i)) as (y & -> & Hy); [now exists k|]. cbn [bind picks] in *. rewrite Hz0. cbn [bind].
      specialize (Hy k Hk). apply is2_P1 in Hy. nm (slice 1 None (Some (-1)%Z) y).
      set (zu := unsqueeze 1 z00) in *. clearbody zu. cat2.
      eexists _, _. split; [reflexivity|]. split; [|reflexivity].
      intros k' Hk'. rewrite Hk in Hk'. injection Hk' as <-. apply is2_P1. fin H0; [lia|].
      intros q n Hq Hn. destruct (n <? 1)%nat eqn:E; b2p.
      -- replace n with 0%nat by lia. now rewrite Hh0.
      -- replace (S (0 + (n - 1))) with n by lia. reflexivity.
  - destruct (Hrun None Logic.I) as (y & -> & Hy). cbn [bind picks] in *.
    destruct (Hsl y _ Hy) as [Es Hzfv]. apply is3_P2 in Hy. nm (slice 1 None (Some (-1)%Z) y). nm (unsqueeze 1 z).
    assert (Hfin : forall w, isP2 w [B] (1 + (N - 1)) M (fun q n m => if n <? 1 then z0 (nth 0 q 0%nat) m else h (nth 0 q 0%nat) (S (0 + (n - 1))) m) ->
          is3 w B N M (fun b n m => h b n m)).
    { intros w Hw. apply is3_P2. fin Hw; [lia|auto|].
      intros q n m Hq Hn Hm. destruct (n <? 1)%nat eqn:E; b2p.
      -- replace n with 0%nat by lia. now rewrite Hh0.
      -- replace (S (0 + (n - 1))) with n by lia. reflexivity. }
    destruct zi as [zi|].
    + rewrite Es. cbn [bind]. cat2. eexists _, _. split; [reflexivity|]. split; [apply Hfin; exact H1|].
      eexists. split; [reflexivity|]. eapply is2_ext; [exact Hzfv|]. intros b m Hb Hm. cbn beta.
      now replace (S (N - 1)) with N by lia.
    + cbn [bind]. cat2. eexists _, _. split; [reflexivity|]. split; [apply Hfin; exact H1|reflexivity].
Qed.

Theorem lpv_state_space_spec e pr B N M F P (A x : ten) Bt C D zi uf oi Af xf Bm Cm Dm z0 :
  (1 <= B)%nat -> (1 <= N)%nat -> (1 <= M)%nat -> lpv_backend_ok e pr M -> unroll_good N uf ->
  matv B N M A Af -> sigv B N F x xf ->
  inmatv B N M F Bt Bm -> outmatv B N M oi C P Cm -> feedv B N F P D Dm -> init B M zi z0 ->
  exists y zf, lpv_state_space e pr A x Bt C D zi uf oi = Ok (y, zf) /\
    sigv B N P y (fun b => ss_y M (width F) (Af b) (Bm b) (Cm b) (Dm b) (z0 b) (xf b)) /\
    match zi with
    | None => zf = None
    | Some _ => exists z, zf = Some z /\
        is2 z B M (fun b => ss_h M (width F) (Af b) (Bm b) (z0 b) (xf b) N)
    end.
Proof.
  intros HB HN HM He Hu HA Hx HBm HC HD Hz. unfold ss_y, ss_h.
  set (h := fun b n => state M (Af b) (z0 b) (fun n m => bsum (width F) (fun k => Bm b n m k * xf b n k)) n).
  destruct (sig_size _ _ _ _ _ _ Hx) as (Hs0 & Hs1 & Hrk & Hfe & Hrk2).
  unfold lpv_state_space. rewrite Hs0, Hs1, Hrk.
  assert (((rk A =? 3) || (rk A =? 4))%bool = true) as ->
    by (destruct HA as [g HA _|HA]; rkt; reflexivity).
  assert (sizen A 1 = M) as -> by (destruct HA as [g HA _|HA]; unfold sizen, rk; now rewrite (proj1 HA)).
  assert (sizen A 2 = M) as -> by (destruct HA as [g HA _|HA]; unfold sizen, rk; now rewrite (proj1 HA)).
  assert (sizen A 3 = N) as -> by (destruct HA as [g HA _|HA]; unfold sizen, rk; now rewrite (proj1 HA)).
  rewrite !Nat.eqb_refl.
  assert (match C, oi with Some _, Some _ => false | _, _ => true end = true) as -> by (destruct HC; reflexivity).
  destruct (ss_zi_spec R B M x zi z0 HM Hz) as (z & -> & Hzz). cbn [bind]. cbv zeta.
  unfold unroll_good in Hu. cbv zeta in Hu. set (u := match uf with Some k => k | None => round_sqrt N end) in *.
  clearbody u.
  destruct (lpv_input_spec B N M F x xf Bt Bm Hx HBm) as (Bx & -> & HBx). cbn [bind].
  set (run := fun oi' => if lpv_extension_backend_indicator e pr M && (u =? 1) then lpv_ext_ss_recur e pr A z Bx oi'
     else lpv_state_space_recursion e pr A z Bx u oi').
  assert (Hrun : forall oi', idx_ok M oi' -> exists y, run oi' = Ok y /\ picks B N M oi' y (fun b n m => h b (S n) m)).
  { intros oi' Hoi'. unfold run. destruct (lpv_extension_backend_indicator e pr M && (u =? 1))%bool eqn:Ee.
    - apply andb_true_iff in Ee as [Ee _]. apply lpv_ext_spec; auto. now apply lpv_backend_ext.
    - apply lpv_ssr_spec; auto. }
  assert (Hoi : idx_ok M oi) by (destruct HC; try exact Logic.I; now exists k).
  destruct (ss_states B N M z z0 zi oi run h HN Hzz ltac:(reflexivity) Hoi Hrun) as (hh & zf & E & Hhh & Hzf).
  unfold run in E. rewrite E. cbn [bind]. clear E Hrun run HBx.
  assert (exists Ch, match C with Some C => lpv_Ch hh C B N M | None => Ok hh end = Ok Ch /\
    sigv B N P Ch (fun b n p => bsum M (fun m => Cm b n p m * h b n m))) as (Ch & ECh & HCh).
  { destruct C as [C|].
    - assert (oi = None) as -> by (remember (Some C) as C' eqn:E; destruct HC; auto; discriminate).
      now apply lpv_Ch_spec.
    - exists hh. split; [reflexivity|]. 
      remember (@None ten) as C' eqn:E in HC. destruct HC as [f Hf|i k f Hk Hf| | | | | | | | ]; try discriminate; unfold sigv, picks in *.
      + eapply is3_ext; [exact Hhh|]. intros b n m Hb Hn Hm. cbn beta.
        rewrite (bsum_ext M _ (fun k => (if m =? k then 1 else 0) * h b n k)) by (intros; now rewrite Hf by lia).
        rewrite bsum_diag by lia. ring.
      + eapply is2_ext; [exact (Hhh k Hk)|]. intros b n Hb Hn. cbn beta. apply pyidx_lt in Hk.
        rewrite (bsum_ext M _ (fun j => (if k =? j then 1 else 0) * h b n j)) by (intros; now rewrite Hf by lia).
        rewrite bsum_diag by lia. ring. }
  assert (exists y, (let* Dx := match D with Some D => let* d := lpv_Dx x D B N in Ok (Some d) | None => Ok None end in
     let* Ch := match C with Some C => lpv_Ch hh C B N M | None => Ok hh end in
     match Dx with Some d => tadd Ch d | None => Ok Ch end)%res = Ok y /\
    sigv B N P y (fun b n p => bsum M (fun m => Cm b n p m * h b n m)
                             + bsum (width F) (fun k => Dm b n p k * xf b n k))) as (y & Ey & Hy).
  { rewrite ECh. destruct D as [D|].
    - destruct (lpv_Dx_spec B N F P x D xf Dm Hx HD) as (Dx & -> & HDx). cbn [bind].
      unfold tadd, sigv in *. destruct P as [P|].
      + apply is3_P2 in HCh, HDx. eat @P2_ew_same; [exact HCh|exact HDx|]. exists w. split; [reflexivity|].
        apply is3_P2. exact H.
      + apply is2_P1 in HCh, HDx. eat @P1_ew_same; [exact HCh|exact HDx|]. exists w. split; [reflexivity|].
        apply is2_P1. exact H.
    - cbn [bind]. exists Ch. split; [reflexivity|].
      remember (@None ten) as D' eqn:E in HD. destruct HD as [F P f Hf| | | | | | | | | | | | | | | | | | | ]; try discriminate.
      assert (Hz0 : forall b n p, (b < B)%nat -> (n < N)%nat -> (p < width P)%nat -> bsum (width F) (fun k => f b n p k * xf b n k) = 0).
      { intros b n p Hb Hn Hp. apply bsum_0. intros k Hk. rewrite Hf by assumption. ring. }
      unfold sigv in *. destruct P as [P|]; cbn [width] in Hz0.
      + eapply is3_ext; [exact HCh|]. intros b n p Hb Hn Hp. cbn beta. rewrite Hz0 by assumption. ring.
      + eapply is2_ext; [exact HCh|]. intros b n Hb Hn. cbn beta. rewrite Hz0 by (auto; lia). ring. }
  destruct (match D with Some D => let* d := lpv_Dx x D B N in Ok (Some d) | None => Ok None end) as [Dx|er];
    cbn [bind] in *; [|discriminate].
  rewrite ECh in *. cbn [bind] in *. rewrite Ey. cbn [bind]. eexists _, _. split; [reflexivity|]. auto.
Qed.

(** Without output matrices the state itself is returned. *)
Lemma ss_y_states M K (A B : nat -> nat -> nat -> R) h x n m : (m < M)%nat ->
  ss_y M K A B (fun _ => unit3 (R := R) 0) (fun _ _ _ => 0) h x n m = ss_h M K A B h x n m.
Proof.
  intros Hm. unfold ss_y.
  rewrite (bsum_ext M _ (fun k => (if m =? k then 1 else 0) * ss_h M K A B h x n k)) by reflexivity.
  rewrite bsum_diag by lia. rewrite bsum_0 by (intros; ring). ring.
Qed.
End S.
