(** diag_state_space computes the state-space model whenever the decomposition it uses is
    one of the state matrix: V Vinv = I and A V = V diag(L). *)
From Coq Require Import List Arith Lia ZArith Bool Ring.
From Verif Require Import Scalar Tensor TensorLemmas TensorOps TensorAlg TensorTac TensorList
  Spec Shapes Algebra M_Mat P_Mat M_Kernels P_KernelOps P_Helion M_LtiRecur P_LtiRecur M_LtiSsm P_LtiSsm M_Diag.
Import ListNotations.

(** ** Diagonalised recurrence *)
Section Math.
Variable R : cring.
Add Ring Rr : (r_th R).
Notation ten := (tensor (car R)).
Open Scope cr_scope.

Lemma diag_state M (A V W : nat -> nat -> R) (l h0 : nat -> R) (u : nat -> nat -> R) :
  (forall i j, (i < M)%nat -> (j < M)%nat -> mmul M V W i j = mid i j) ->
  (forall i j, (i < M)%nat -> (j < M)%nat -> mmul M A V i j = V i j * l j) ->
  forall n i, (i < M)%nat ->
    mvec M V (fun k => lin_rec (fun _ => l k) (mvec M W h0 k) (fun n => mvec M W (u n) k) n) i
    = state M (fun _ => A) h0 u n i.
Proof.
  intros HI HA.
  assert (HVW : forall f i, (i < M)%nat -> mvec M V (mvec M W f) i = f i).
  { intros f i Hi. unfold mvec.
    rewrite (bsum_ext M _ (fun k => bsum M (fun j => V i k * W k j * f j))).
    2:{ intros k Hk. rewrite <- bsum_mul_l. apply bsum_ext. intros. ring. }
    rewrite bsum_swap. rewrite (bsum_ext M _ (fun j => mid i j * f j)).
    2:{ intros j Hj. rewrite <- HI by auto. unfold mmul. rewrite <- bsum_mul_r. apply bsum_ext. intros. ring. }
    rewrite (bsum_one M _ i Hi).
    - rewrite mid_refl. ring.
    - intros k Hk Hne. rewrite mid_neq by auto. ring. }
  induction n as [|n IH]; intros i Hi.
  - cbn [lin_rec state]. now apply HVW.
  - cbn [lin_rec state].
    set (g := fun k => lin_rec (fun _ => l k) (mvec M W h0 k) (fun n => mvec M W (u n) k) n) in *.
    transitivity (bsum M (fun k => V i k * l k * g k) + mvec M V (mvec M W (u n)) i).
    { unfold mvec at 1. rewrite (bsum_ext M _ (fun k => V i k * l k * g k + V i k * mvec M W (u n) k)).
      - now rewrite bsum_add.
      - intros k Hk. unfold g. ring. }
    rewrite HVW by auto. f_equal.
    transitivity (bsum M (fun k => mmul M A V i k * g k)).
    { apply bsum_ext. intros k Hk. now rewrite HA. }
    unfold mmul, mvec at 1.
    rewrite (bsum_ext M _ (fun k => bsum M (fun j => A i j * V j k * g k))).
    2:{ intros k Hk. rewrite <- bsum_mul_r. apply bsum_ext. intros. ring. }
    rewrite bsum_swap. apply bsum_ext. intros j Hj. rewrite <- IH by auto. unfold mvec.
    rewrite <- bsum_mul_l. apply bsum_ext. intros. ring.
Qed.
Lemma ssm_C_D_spec B N M K P (hh x : ten) C D oi (h : nat -> nat -> nat -> R) Cm Dm xf :
  sigv B N K x xf -> outmat B M oi C P Cm -> feed B K P D Dm -> picks B N M oi hh h ->
  exists y, ssm_C_D hh x C D B M = Ok y /\
    sigv B N P y (fun b n p => bsum M (fun m => Cm b p m * h b n m)
                             + bsum (width K) (fun k => Dm b p k * xf b n k)).
Proof.
  intros Hx HC HD Hhh.
  unfold ssm_C_D.
  assert (exists Ch, match C with Some C => ssm_Ch hh C B M | None => Ok hh end = Ok Ch /\
    sigv B N P Ch (fun b n p => bsum M (fun m => Cm b p m * h b n m))) as (Ch & ECh & HCh).
  { destruct C as [C|].
    - assert (oi = None) as -> by (remember (Some C) as C' eqn:E; destruct HC; auto; discriminate).
      now apply (ssm_Ch_spec R).
    - exists hh. split; [reflexivity|]. 
      remember (@None ten) as C' eqn:E in HC. destruct HC as [f Hf|i k f Hk Hf| | | | ]; try discriminate; unfold sigv, picks in *.
      + eapply is3_ext; [exact Hhh|]. intros b n m Hb Hn Hm. cbn beta.
        rewrite (bsum_ext M _ (fun k => (if m =? k then 1 else 0) * h b n k)) by (intros; now rewrite Hf by lia).
        rewrite (bsum_diag R) by lia. ring.
      + eapply is2_ext; [exact (Hhh k Hk)|]. intros b n Hb Hn. cbn beta. apply pyidx_lt in Hk.
        rewrite (bsum_ext M _ (fun j => (if k =? j then 1 else 0) * h b n j)) by (intros; now rewrite Hf by lia).
        rewrite (bsum_diag R) by lia. ring. }
  destruct D as [D|].
  - destruct (ssm_Dx_spec R B N K P x D xf Dm Hx HD) as (Dx & -> & HDx). cbn [bind]. rewrite ECh. cbn [bind].
    unfold tadd, sigv in *. destruct P as [P|].
    + apply is3_P2 in HCh, HDx. eat @P2_ew_same; [exact HCh|exact HDx|]. exists w. split; [reflexivity|].
      apply is3_P2. exact H.
    + apply is2_P1 in HCh, HDx. eat @P1_ew_same; [exact HCh|exact HDx|]. exists w. split; [reflexivity|].
      apply is2_P1. exact H.
  - cbn [bind]. rewrite ECh. cbn [bind]. exists Ch. split; [reflexivity|].
    remember (@None ten) as D' eqn:E in HD. destruct HD as [K P f Hf| | | | | | | | | | | ]; try discriminate.
    assert (Hz0 : forall b n p, (b < B)%nat -> (p < width P)%nat -> bsum (width K) (fun k => f b p k * xf b n k) = 0).
    { intros b n p Hb Hp. apply bsum_0. intros k Hk. rewrite Hf by assumption. ring. }
    unfold sigv in *. destruct P as [P|]; cbn [width] in Hz0.
    + eapply is3_ext; [exact HCh|]. intros b n p Hb Hn Hp. cbn beta. rewrite Hz0 by assumption. ring.
    + eapply is2_ext; [exact HCh|]. intros b n Hb Hn. cbn beta. rewrite Hz0 by (auto; lia). ring.
Qed.
End Math.

Section D.
Variable F : cfield.
Add Ring Rr : (r_th F).
Notation ten := (tensor (car F)).
Open Scope cr_scope.

(** Decompositions: shared by all batches, or one per batch. *)
Inductive dec (B M : nat) (L V W : ten) (lf : nat -> nat -> F) (vf wf : nat -> nat -> nat -> F) : Prop :=
| dec_s l v w : is1 L M l -> is2 V M M v -> is2 W M M w ->
    (forall b i, (b < B)%nat -> (i < M)%nat -> lf b i = l i) ->
    (forall b i j, (b < B)%nat -> (i < M)%nat -> (j < M)%nat -> vf b i j = v i j) ->
    (forall b i j, (b < B)%nat -> (i < M)%nat -> (j < M)%nat -> wf b i j = w i j) ->
    dec B M L V W lf vf wf
| dec_b : is2 L B M lf -> is3 V B M M vf -> is3 W B M M wf -> dec B M L V W lf vf wf.

Lemma dec_V B M L V W lf vf wf : dec B M L V W lf vf wf -> matc B M V vf.
Proof. intros [l v w H1 H2 H3 H4 H5 H6|H1 H2 H3]; [now apply matc_s with v|now apply matc_b]. Qed.
Lemma dec_W B M L V W lf vf wf : dec B M L V W lf vf wf -> matc B M W wf.
Proof. intros [l v w H1 H2 H3 H4 H5 H6|H1 H2 H3]; [now apply matc_s with w|now apply matc_b]. Qed.

Lemma diag_zi_spec B M (W z : ten) wf z0 : matc B M W wf -> is2 z B M z0 ->
  exists y, diag_zi W z = Ok y /\ is2 y B M (fun b m => mvec M (wf b) (z0 b) m).
Proof.
  intros HW Hz. unfold diag_zi. destruct HW as [w HW Hw|HW]; rkt; cbn [Nat.eqb].
  - pose proof Hz as Hz'. apply is2_P in Hz', HW. nm (mT W). mm. exists w0. split; [reflexivity|].
    apply is2_P. fin H0; auto. intros q b m Hq Hb Hm. unfold mvec. apply bsum_ext. intros k Hk.
    rewrite Hw by lia. ring.
  - pose proof HW as HW'. apply is3_P2 in HW'. apply is2_P1 in Hz. nm (tconj W). nm (unsqueeze 1 z). vdot.
    exists w. split; [reflexivity|]. apply is2_P1. fin H1; auto. intros q m Hq Hm.
    apply vld_1_inv in Hq as (b & -> & Hb). cbn [nth]. unfold mvec. apply bsum_ext. intros k Hk.
    rewrite conj_conj. rewrite (bi_lt M) by lia. reflexivity.
Qed.

Lemma diag_input_spec B N M K (x W : ten) wf xf Bt Bm :
  (1 <= M)%nat -> matc B M W wf -> sigv B N K x xf -> inmat B M K Bt Bm ->
  exists y, diag_input x W Bt B M = Ok y /\
    is3 y B N M (fun b n m => mvec M (wf b) (fun j => bsum (width K) (fun k => Bm b j k * xf b n k)) m).
Proof.
  intros HM HW Hx HB. destruct (sig_size _ _ _ _ _ _ Hx) as (_ & _ & _ & Hfe & Hrk). unfold diag_input.
  destruct HB as [f Hf|f Hf|t g f Ht Hf|t g f Ht Hf|K t g f Ht Hne Hf|K t g f Ht Hf]; cbn [width sigv] in *.
  - rewrite Hrk. cbn [andb]. destruct HW as [w HW Hw|HW]; rkt; cbn [Nat.eqb andb].
    + assert (Hs : select 1 0 W = Ok (sel 1 0 W)).
      { apply select_ok. unfold size. rewrite (proj1 HW). cbn [nth]. apply (pyidx_nat M 0). lia. }
      rewrite Hs. cbn [bind].
      assert (Hu : is3 (unsqueeze 2 x) B N 1 (fun b n _ => xf b n 0%nat)).
      { apply is2_P1 in Hx. nm (unsqueeze 2 x). apply is3_P2. exact H. }
      assert (Hc : isP1 (sel 1 0 W) [] M (fun _ i => w i 0%nat)).
      { apply is2_P in HW. exact (P2_sel1 W [] M M _ 1 0 HW ltac:(reflexivity) ltac:(lia)). }
      set (v := unsqueeze 2 x) in *. clearbody v. set (c := sel 1 0 W) in *. clearbody c.
      apply is3_PP1 in Hu. unfold tmul.
      eat @P1_ewl; [exact Hu|exact Hc|bdt|]. exists w0. split; [reflexivity|]. apply is3_PP1. fin H; auto.
      intros q m Hq Hm. apply vld_2_inv in Hq as (b & n & -> & Hb & Hn). cbn [nth bsum]. unfold mvec.
      rewrite (bsum_one M _ 0%nat) by (lia || (intros k Hk Hne; rewrite Hf by lia; unfold unit3; bfalse (k =? 0)%nat; ring)).
      rewrite Hf by lia. unfold unit3. cbn [Nat.eqb]. rewrite (bi_lt M) by lia. rewrite Hw by lia. ring.
    + assert (Hs : select 2 0 W = Ok (sel 2 0 W)).
      { apply select_ok. unfold size. rewrite (proj1 HW). cbn [nth]. apply (pyidx_nat M 0). lia. }
      rewrite Hs. cbn [bind]. apply is2_P1 in Hx. pose proof HW as HW'. apply is3_P2 in HW'.
      pose proof (P2_sel1 W [B] M M _ 2 0 HW' ltac:(reflexivity) ltac:(lia)) as Hc. cbv beta in Hc.
      set (c := sel 2 0 W) in *. clearbody c. nm (unsqueeze 2 x). nm (unsqueeze 1 c). unfold tmul.
      eat @P2_ew; [exact H|exact H0|bdt|bdt|]. exists w. split; [reflexivity|]. apply is3_P2. fin H1; auto.
      intros q n m Hq Hn Hm. apply vld_1_inv in Hq as (b & -> & Hb). cbn [nth bsum]. unfold mvec.
      rewrite (bsum_one M _ 0%nat) by (lia || (intros k Hk Hne; rewrite Hf by lia; unfold unit3; bfalse (k =? 0)%nat; ring)).
      rewrite Hf by lia. unfold unit3. cbn [Nat.eqb]. rewrite (bi_lt M), (bi_lt N) by lia. ring.
  - rewrite Hrk. cbn [andb]. replace (rk x =? 3)%nat with true by (rkt; reflexivity).
    apply is3_P2 in Hx.
    assert (HI : forall b n j, (b < B)%nat -> (j < M)%nat -> bsum M (fun k => f b j k * xf b n k) = xf b n j).
    { intros b n j Hb Hj. rewrite (bsum_one M _ j Hj).
      - rewrite Hf by lia. rewrite mid_unit3, mid_refl. ring.
      - intros k Hk Hne. rewrite Hf by lia. rewrite mid_unit3, mid_neq by auto. ring. }
    destruct HW as [w HW Hw|HW].
    + apply is2_P in HW. nm (mT W). mm. exists w0. split; [reflexivity|]. apply is3_P2. fin H0; auto.
      intros q n m Hq Hn Hm. apply vld_1_inv in Hq as (b & -> & Hb). cbn [nth]. unfold mvec. apply bsum_ext.
      intros k Hk. rewrite Hw, HI by lia. ring.
    + apply is3_P2 in HW. nm (mT W). mm. exists w. split; [reflexivity|]. apply is3_P2. fin H0; auto.
      intros q n m Hq Hn Hm. apply vld_1_inv in Hq as (b & -> & Hb). cbn [nth]. unfold mvec. apply bsum_ext.
      intros k Hk. rewrite HI by lia. ring.
  - rewrite (proj1 Ht), Nat.eqb_refl, Hrk. replace (rk x) with 2%nat by (rkt; reflexivity).
    assert (HS : forall b n m, (b < B)%nat -> (m < M)%nat ->
      mvec M (wf b) (fun j => bsum 1 (fun k => f b j k * xf b n k)) m = bsum M (fun l => wf b m l * g l) * xf b n 0%nat).
    { intros b n m Hb Hm. unfold mvec. rewrite <- bsum_mul_r. apply bsum_ext. intros l Hl. cbn [bsum]. rewrite Hf by lia. ring. }
    destruct HW as [w HW Hw|HW].
    + apply is2_P in HW. mm. replace (rk w0) with 1%nat by (rkt; reflexivity). cbn [Nat.eqb].
      assert (Hu : is3 (unsqueeze 2 x) B N 1 (fun b n _ => xf b n 0%nat)).
      { apply is2_P1 in Hx. nm (unsqueeze 2 x). apply is3_P2. exact H0. }
      set (v := unsqueeze 2 x) in *. clearbody v. apply is3_PP1 in Hu. unfold tmul.
      eat @P1_ewl; [exact Hu|exact H|bdt|]. exists w1. split; [reflexivity|]. apply is3_PP1. fin H0; auto.
      intros q m Hq Hm. apply vld_2_inv in Hq as (b & n & -> & Hb & Hn). cbn [nth]. rewrite HS by lia.
      rewrite (bi_lt M) by lia. rewrite (bsum_ext M (fun l => wf b m l * g l) (fun l => w m l * g l)) by (intros; now rewrite Hw by lia).
      ring.
    + apply is3_P2 in HW. mm. replace (rk w) with 2%nat by (rkt; reflexivity). cbn [Nat.eqb].
      apply is2_P1 in Hx. nm (unsqueeze 2 x). nm (unsqueeze 1 w). unfold tmul.
      eat @P2_ew; [exact H0|exact H1|bdt|bdt|]. exists w0. split; [reflexivity|]. apply is3_P2. fin H2; auto.
      intros q n m Hq Hn Hm. apply vld_1_inv in Hq as (b & -> & Hb). cbn [nth]. rewrite HS by lia.
      rewrite (bi_lt M), (bi_lt N) by lia. ring.
  - rewrite (proj1 Ht), !Nat.eqb_refl, Hrk. cbn [andb]. replace (rk x) with 2%nat by (rkt; reflexivity).
    assert (HS : forall b n m, (b < B)%nat -> (m < M)%nat ->
      mvec M (wf b) (fun j => bsum 1 (fun k => f b j k * xf b n k)) m = bsum M (fun l => wf b m l * g b l) * xf b n 0%nat).
    { intros b n m Hb Hm. unfold mvec. rewrite <- bsum_mul_r. apply bsum_ext. intros l Hl. cbn [bsum]. rewrite Hf by lia. ring. }
    assert (exists VB, (if (rk W =? 2)%nat then matmul t (mT W) else vecdot (tconj W) (unsqueeze 1 t)) = Ok VB /\
      is2 VB B M (fun b m => bsum M (fun l => wf b m l * g b l))) as (VB & -> & HVB).
    { destruct HW as [w HW Hw|HW]; rkt; cbn [Nat.eqb].
      - apply is2_P in HW, Ht. nm (mT W). mm. exists w0. split; [reflexivity|]. apply is2_P. fin H0; auto.
        intros q b m Hq Hb Hm. apply bsum_ext. intros k Hk. rewrite Hw by lia. ring.
      - apply is3_P2 in HW. apply is2_P1 in Ht. nm (tconj W). nm (unsqueeze 1 t). vdot.
        exists w. split; [reflexivity|]. apply is2_P1. fin H1; auto. intros q m Hq Hm.
        apply vld_1_inv in Hq as (b & -> & Hb). cbn [nth]. apply bsum_ext. intros k Hk.
        rewrite conj_conj. rewrite (bi_lt M) by lia. reflexivity. }
    cbn [bind]. apply is2_P1 in Hx, HVB. nm (unsqueeze 2 x). nm (unsqueeze 1 VB). unfold tmul.
    eat @P2_ew; [exact H|exact H0|bdt|bdt|]. exists w. split; [reflexivity|]. apply is3_P2. fin H1; auto.
    intros q n m Hq Hn Hm. apply vld_1_inv in Hq as (b & -> & Hb). cbn [nth]. rewrite HS by lia.
    rewrite (bi_lt M), (bi_lt N) by lia. ring.
  - rewrite (proj1 Ht), Hfe. cbn [feq]. rewrite !Nat.eqb_refl. cbn [andb].
    replace ((M =? B) && (K =? M))%nat with false by (symmetry; apply andb_false_iff; destruct Hne; [left|right]; now apply Nat.eqb_neq).
    assert (HS : forall b n m, (b < B)%nat -> (m < M)%nat ->
      mvec M (wf b) (fun j => bsum K (fun k => f b j k * xf b n k)) m
      = bsum K (fun k => xf b n k * bsum M (fun l => wf b m l * g l k))).
    { intros b n m Hb Hm. unfold mvec. rewrite (bsum_ext M _ (fun l => bsum K (fun k => wf b m l * f b l k * xf b n k))).
      2:{ intros l Hl. rewrite <- bsum_mul_l. apply bsum_ext. intros. ring. }
      rewrite bsum_swap. apply bsum_ext. intros k Hk. rewrite <- bsum_mul_l. apply bsum_ext. intros l Hl.
      rewrite Hf by lia. ring. }
    apply is3_P2 in Hx. apply is2_P in Ht. destruct HW as [w HW Hw|HW].
    + apply is2_P in HW. mm. nm (mT w0). mm. exists w1. split; [reflexivity|]. apply is3_P2. fin H1; auto.
      intros q n m Hq Hn Hm. apply vld_1_inv in Hq as (b & -> & Hb). cbn [nth]. rewrite HS by lia.
      apply bsum_ext. intros k Hk. f_equal. apply bsum_ext. intros l Hl. now rewrite Hw by lia.
    + apply is3_P2 in HW. eat @mm2l; [exact HW|exact Ht|]. nm (mT w). mm. exists w0. split; [reflexivity|].
      apply is3_P2. fin H1; auto.
      intros q n m Hq Hn Hm. apply vld_1_inv in Hq as (b & -> & Hb). cbn [nth]. now rewrite HS by lia.
  - rewrite (proj1 Ht), Hfe. cbn [feq]. rewrite !Nat.eqb_refl. cbn [andb].
    assert (HS : forall b n m, (b < B)%nat -> (m < M)%nat ->
      mvec M (wf b) (fun j => bsum K (fun k => f b j k * xf b n k)) m
      = bsum K (fun k => bsum M (fun l => wf b m l * g b l k) * xf b n k)).
    { intros b n m Hb Hm. unfold mvec. rewrite (bsum_ext M _ (fun l => bsum K (fun k => wf b m l * f b l k * xf b n k))).
      2:{ intros l Hl. rewrite <- bsum_mul_l. apply bsum_ext. intros. ring. }
      rewrite bsum_swap. apply bsum_ext. intros k Hk. rewrite <- bsum_mul_r. apply bsum_ext. intros l Hl.
      rewrite Hf by lia. ring. }
    apply is3_P2 in Hx, Ht. replace (rk x - 1)%nat with 2%nat by dimt.
    assert (exists VB, matmul W t = Ok VB /\ isP2 VB [B] M K (fun q i j => bsum M (fun l => wf (nth 0 q 0%nat) i l * g (nth 0 q 0%nat) l j)))
      as (VB & -> & HVB).
    { destruct HW as [w HW Hw|HW].
      - apply is2_P in HW. mm. exists w0. split; [reflexivity|]. fin H; auto.
        intros q i j Hq Hi Hj. apply vld_1_inv in Hq as (b & -> & Hb). cbn [nth]. apply bsum_ext. intros l Hl. now rewrite Hw by lia.
      - apply is3_P2 in HW. mm. exists w. split; [reflexivity|]. exact H. }
    cbn [bind]. nm (unsqueeze 1 VB). nm (tconj v). nm (unsqueeze 2 x). vdot. exists w. split; [reflexivity|].
    apply is3_P2. fin H2; auto. intros q n m Hq Hn Hm. apply vld_1_inv in Hq as (b & -> & Hb). cbn [nth].
    rewrite HS by lia. apply bsum_ext.
    intros k Hk. rewrite conj_conj. rewrite (bi_lt N), (bi_lt M) by lia. reflexivity.
Qed.

Lemma diag_recur_spec e B N M L V W lf vf wf (Vz Vx : ten) zf xf u :
  env_ok e -> (ext e = true -> cuda e = true -> ext_cuda e = true) ->
  (1 <= B)%nat -> (1 <= N)%nat -> (1 <= M)%nat -> (1 <= u)%nat ->
  dec B M L V W lf vf wf -> is2 Vz B M zf -> is3 Vx B N M xf ->
  exists y, diag_recur e L Vz Vx B M u = Ok y /\
    is3 y B M N (fun b m n => lin_rec (fun _ => lf b m) (zf b m) (fun n => xf b n m) (S n)).
Proof.
  intros He Hc HB HN HM Hu Hd Hz Hx. unfold diag_recur.
  assert (exists l, expand [B; M] L = Ok l /\ is2 l B M lf) as (l & -> & Hl).
  { destruct Hd as [l v w H1 H2 H3 H4 H5 H6|H1 H2 H3].
    - destruct (expand_pre1 L [B] M l H1) as (y & E & Hy). exists y. split; [exact E|]. apply is2_P1. fin Hy; auto.
      intros q i Hq Hi. apply vld_1_inv in Hq as (b & -> & Hb). cbn [nth]. now rewrite H4.
    - now apply expand_self2. }
  cbn [bind]. replace (rk Vz - 1)%nat with 1%nat by (rkt; reflexivity).
  apply is2_P in Hl, Hz. apply is3_P2 in Hx. nm (mT Vx).
  assert (H' : is3 v B M N (fun b m n => xf b n m)) by (apply is3_P2; exact H). apply is3_P in H'. clear H Hx.
  nm (flatten 0 1 l). nm (flatten 0 1 Vz). nm (flatten 0 1 v).
  rename H1 into H2. rename H0 into H1. rename H into H0.
  assert (H0' : is1 v0 (B * M) (fun i => lf (i / M)%nat (i mod M)%nat)) by (apply is1_P; exact H0).
  assert (H1' : is1 v1 (B * M) (fun i => zf (i / M)%nat (i mod M)%nat)) by (apply is1_P; exact H1).
  assert (H2' : is2 v2 (B * M) N (fun i n => xf (i / M)%nat n (i mod M)%nat)) by (apply is2_P; exact H2).
  clear H0 H1 H2. rename H0' into H0. rename H1' into H1. rename H2' into H2.
  assert (HBM : (1 <= B * M)%nat) by nia.
  assert (exists y, (if ext e && (u =? 1)%nat then LTIRecurrence_forward e v0 v1 v2 else linear_recurrence v0 v1 v2 u) = Ok y /\
    is2 y (B * M) N (fun i n => lin_rec (fun _ => lf (i / M)%nat (i mod M)%nat) (zf (i / M)%nat (i mod M)%nat) (fun n => xf (i / M)%nat n (i mod M)%nat) (S n))) as (y & -> & Hy).
  { destruct (ext e && (u =? 1)%nat) eqn:E.
    - apply andb_true_iff in E as [E _].
      exact (op_lti_recur_spec F e (B * M) N v0 v1 v2 _ _ _ He E (Hc E) HBM (coef_B H0) H1 H2).
    - exact (linear_recurrence_spec F (B * M) N v0 v1 v2 _ _ _ u HBM HN Hu (coef_B H0) (coef_B H1) H2). }
  cbn [bind]. apply is2_P in Hy. eat @P2_unflat0; [exact Hy|reflexivity|reflexivity|]. exists w. split; [reflexivity|].
  apply is3_P. fin H; auto. intros q i j k Hq Hi Hj Hk.
  replace ((i * M + j) / M)%nat with i by (rewrite Nat.div_add_l by lia; rewrite Nat.div_small by lia; lia).
  replace ((i * M + j) mod M)%nat with j by (rewrite Nat.add_comm, Nat.mod_add by lia; now rewrite Nat.mod_small).
  reflexivity.
Qed.

Theorem diag_core e la re B N M K P (x : ten) L V W A Lt Vt Wt Bt C D zi cc uf oi Af lf vf wf xf Bm Cm Dm z0 :
  (1 <= B)%nat -> (1 <= N)%nat -> (1 <= M)%nat ->
  env_ok e -> (ext e = true -> cuda e = true -> ext_cuda e = true) -> unroll_ok uf ->
  diag_resolve la L V W A B = Ok (Lt, Vt, Wt, M) -> dec B M Lt Vt Wt lf vf wf ->
  (forall b i j, (b < B)%nat -> (i < M)%nat -> (j < M)%nat -> mmul M (vf b) (wf b) i j = mid i j) ->
  (forall b i j, (b < B)%nat -> (i < M)%nat -> (j < M)%nat -> mmul M (Af b) (vf b) i j = vf b i j * lf b j) ->
  sigv B N K x xf -> inmat B M K Bt Bm -> outmat B M oi C P Cm -> feed B K P D Dm -> init B M zi z0 ->
  (C <> None -> cc = false -> forall b n m, (b < B)%nat -> (n <= N)%nat -> (m < M)%nat ->
     let h := ss_h M (width K) (fun _ => Af b) (fun _ => Bm b) (z0 b) (xf b) n m in re h = h) ->
  exists y zf, diag_state_space e la re x L V W A Bt C D zi cc oi uf = Ok (y, zf) /\
    sigv B N P y (fun b => ss_y M (width K) (fun _ => Af b) (fun _ => Bm b) (fun _ => Cm b) (fun _ => Dm b)
                             (z0 b) (xf b)) /\
    match zi with
    | None => zf = None
    | Some _ => exists z, zf = Some z /\
        is2 z B M (fun b => ss_h M (width K) (fun _ => Af b) (fun _ => Bm b) (z0 b) (xf b) N)
    end.
Proof.
  intros HB HN HM He Hce Hu HR Hd HVW HAV Hx HBm HC HD Hz Hre. unfold ss_y in *.
  set (h := fun b n => ss_h M (width K) (fun _ => Af b) (fun _ => Bm b) (z0 b) (xf b) n) in *.
  destruct (sig_size _ _ _ _ _ _ Hx) as (Hs0 & Hs1 & Hrk & Hfe & Hrk2).
  unfold diag_state_space. rewrite Hs0, Hs1, Hrk.
  assert (match C, oi with Some _, Some _ => false | _, _ => true end = true) as -> by (destruct HC; reflexivity).
  cbv zeta. rewrite HR. cbn [bind].
  destruct (ss_zi_spec F B M x zi z0 HM Hz) as (z & -> & Hzz). cbn [bind].
  set (u := match uf with Some k => k | None => round_sqrt N end).
  assert (1 <= u)%nat as Hu1 by (unfold u; destruct uf; [exact Hu|now apply round_sqrt_pos]). clearbody u.
  destruct (diag_zi_spec B M Wt z wf z0 (dec_W _ _ _ _ _ _ _ _ Hd) Hzz) as (Vz & -> & HVz). cbn [bind].
  destruct (diag_input_spec B N M K x Wt wf xf Bt Bm HM (dec_W _ _ _ _ _ _ _ _ Hd) Hx HBm) as (Vx & -> & HVx). cbn [bind].
  destruct (diag_recur_spec e B N M Lt Vt Wt lf vf wf Vz Vx _ _ u He Hce HB HN HM Hu1 Hd HVz HVx) as (Vh & -> & HVh).
  cbn [bind].
  pose proof Hzz as Hz1. apply is2_P1 in Hz1.
  set (g := fun b m n => lin_rec (fun _ : nat => lf b m) (mvec M (wf b) (z0 b) m)
             (fun n0 => mvec M (wf b) (fun j => bsum (width K) (fun k => Bm b j k * xf b n0 k)) m) n) in *.
  change (is3 Vh B M N (fun b m n => g b m (S n))) in HVh.
  assert (Hg : forall b n i, (b < B)%nat -> (i < M)%nat -> bsum M (fun k => vf b i k * g b k n) = h b n i).
  { intros b n i Hb Hi. unfold h, ss_h, g. rewrite <- (diag_state F M (Af b) (vf b) (wf b) (lf b)); auto. }
  clearbody g. clear HVz HVx Vz Vx. apply is3_P2 in HVh.
  assert (HM2 : forall (H : isP2 Vh [B] M N (fun q m n => g (nth 0 q 0%nat) m (S n))),
     exists y, matmul Vt Vh = Ok y /\ isP2 y [B] M N (fun q m n => h (nth 0 q 0%nat) (S n) m)).
  { intro HVh'. destruct (dec_V _ _ _ _ _ _ _ _ Hd) as [v HV Hv|HV].
    - apply is2_P in HV. eat @mm2r; [exact HV|exact HVh'|]. exists w. split; [reflexivity|]. fin H; auto.
      intros q i n Hq Hi Hn. apply vld_1_inv in Hq as (b & -> & Hb). cbn [nth]. rewrite <- Hg by auto.
      apply bsum_ext. intros l Hl. now rewrite Hv by auto.
    - apply is3_P2 in HV. eat @mm2; [exact HV|exact HVh'|]. exists w. split; [reflexivity|]. fin H; auto.
      intros q i n Hq Hi Hn. apply vld_1_inv in Hq as (b & -> & Hb). cbn [nth]. now rewrite <- Hg by auto. }
  specialize (HM2 HVh).
  assert (Hh0 : forall b m, h b 0%nat m = z0 b m) by reflexivity.
  assert (exists hh zf,
    match oi, match zi with Some _ => true | None => false end with
    | Some i, false =>
        let* z0 := select 1 i z in
        let* Vi := select (rk Vt - 2) i Vt in
        let* Vih := matmul (unsqueeze (rk Vt - 2) Vi) (slice 2 None (Some (-1)%Z) Vh) in
        let* h := cat 1 [unsqueeze 1 z0; squeeze (rk Vih - 2) Vih] in
        Ok (h, None)
    | _, _ =>
        let* VVh := matmul Vt Vh in
        let* zf := if match zi with Some _ => true | None => false end
                   then let* z := select 1 (-1) (mT VVh) in Ok (Some z) else Ok None in
        let* h :=
          match oi with
          | None => cat 1 [unsqueeze 1 z; slice 1 None (Some (-1)%Z) (mT VVh)]
          | Some i =>
              let* z0 := select 1 i z in
              let* hi := select 2 i (slice 1 None (Some (-1)%Z) (mT VVh)) in
              cat 1 [unsqueeze 1 z0; hi]
          end in
        Ok (h, zf)
    end%res = Ok (hh, zf) /\ picks B N M oi hh (fun b n m => h b n m) /\
    match zi with
    | None => zf = None
    | Some _ => exists z, zf = Some z /\ is2 z B M (fun b m => h b N m)
    end) as (hh & zf & EE & Hhh & Hzf).
  { assert (Hsl : forall (y : ten) g, is3 y B N M g ->
       select 1 (-1) y = Ok (sel 1 (N - 1) y) /\ is2 (sel 1 (N - 1) y) B M (fun b m => g b (N - 1)%nat m)).
    { intros y g0 Hy. split.
      - apply select_ok. unfold size. rewrite (proj1 Hy). cbn [nth]. apply pyidx_m1. lia.
      - apply sel_13 with (N := N); [exact Hy|lia]. }
    destruct oi as [i|].
    - assert (exists k, pyidx M i = Some k) as (k & Hk).
      { remember (Some i) as oi' eqn:Eo in HC. destruct HC; try discriminate. injection Eo as ->. eauto. }
      pose proof (pyidx_lt _ _ _ Hk) as Hkl.
      assert (Hz0 : select 1 i z = Ok (sel 1 k z)) by (apply select_ok; unfold size; rewrite (proj1 Hzz); exact Hk).
      assert (Hz0v : isP0 (sel 1 k z) [B] (fun q => z0 (nth 0 q 0%nat) k)).
      { pose proof (P1_sel0 z [B] M _ 1 k Hz1 ltac:(reflexivity) Hkl) as H. exact H. }
      set (z00 := sel 1 k z) in *. clearbody z00.
      assert (Hz0u : isP1 (unsqueeze 1 z00) [B] 1 (fun q _ => z0 (nth 0 q 0%nat) k)) by (eapply P0_unsq0; [exact Hz0v|reflexivity]).
      destruct zi as [zi|].
      + destruct HM2 as (VV & -> & HVV). cbn [bind]. nm (mT VV).
        assert (Hy : is3 v B N M (fun b n m => h b (S n) m)) by (apply is3_P2; exact H).
        destruct (Hsl v _ Hy) as [-> Hzfv]. cbn [bind]. rewrite Hz0. cbn [bind]. clear H.
        apply is3_P2 in Hy. nm (slice 1 None (Some (-1)%Z) v).
        rewrite (select_ok v0 2 i k) by (unfold size; rewrite (proj1 H); exact Hk). cbn [bind].
        nm (sel 2 k v0). set (zu := unsqueeze 1 z00) in *. clearbody zu. cat2.
        eexists _, _. split; [reflexivity|]. split.
        * intros k' Hk'. rewrite Hk in Hk'. injection Hk' as <-. apply is2_P1. fin H1; [lia|].
          intros q n Hq Hn. destruct (n <? 1)%nat eqn:E; b2p.
          -- replace n with 0%nat by lia. reflexivity.
          -- replace (S (0 + (n - 1))) with n by lia. reflexivity.
        * eexists. split; [reflexivity|]. eapply is2_ext; [exact Hzfv|]. intros b m Hb Hm. cbn beta.
          now replace (S (N - 1)) with N by lia.
      + rewrite Hz0. cbn [bind]. nm (slice 2 None (Some (-1)%Z) Vh).
        assert (exists Vi, select (rk Vt - 2) i Vt = Ok Vi /\ exists y,
           matmul (unsqueeze (rk Vt - 2) Vi) v = Ok y /\ isP2 y [B] 1 (N - 1) (fun q _ n => h (nth 0 q 0%nat) (S n) k))
          as (Vi & -> & y & EE & Hy).
        { clear HM2. destruct (dec_V _ _ _ _ _ _ _ _ Hd) as [v1 HV Hv|HV]; rkt; cbn [Nat.sub].
          - rewrite (select_ok Vt 0 i k) by (unfold size; rewrite (proj1 HV); exact Hk).
            eexists. split; [reflexivity|]. apply is2_P in HV. nm (sel 0 k Vt). nm (unsqueeze 0 v0).
            eat @mm2r; [exact H1|exact H|]. exists w. split; [reflexivity|]. fin H2; auto.
            intros q _ n Hq _ Hn. apply vld_1_inv in Hq as (b & -> & Hb). cbn [nth Nat.add]. rewrite <- Hg by auto.
            apply bsum_ext. intros l Hl. now rewrite Hv by auto.
          - rewrite (select_ok Vt 1 i k) by (unfold size; rewrite (proj1 HV); exact Hk).
            eexists. split; [reflexivity|]. apply is3_P2 in HV. nm (sel 1 k Vt). nm (unsqueeze 1 v0).
            eat @mm2; [exact H1|exact H|]. exists w. split; [reflexivity|]. fin H2; auto.
            intros q _ n Hq _ Hn. apply vld_1_inv in Hq as (b & -> & Hb). cbn [nth Nat.add]. now rewrite <- Hg by auto. }
        cbn [bind]. rewrite EE. cbn [bind]. clear EE. replace (rk y - 2)%nat with 1%nat by (rkt; reflexivity).
        rewrite squeeze_sel by (unfold size; now rewrite (proj1 Hy)). nm (sel 1 0 y).
        set (zu := unsqueeze 1 z00) in *. clearbody zu. cat2.
        eexists _, _. split; [reflexivity|]. split; [|reflexivity].
        intros k' Hk'. rewrite Hk in Hk'. injection Hk' as <-. apply is2_P1. fin H1; [lia|].
        intros q n Hq Hn. destruct (n <? 1)%nat eqn:E; b2p.
        -- replace n with 0%nat by lia. reflexivity.
        -- replace (S (n - 1)) with n by lia. reflexivity.
    - destruct HM2 as (VV & -> & HVV). cbn [bind]. nm (mT VV).
      assert (Hy : is3 v B N M (fun b n m => h b (S n) m)) by (apply is3_P2; exact H).
      destruct (Hsl v _ Hy) as [Es Hzfv]. clear H. apply is3_P2 in Hy. nm (slice 1 None (Some (-1)%Z) v). nm (unsqueeze 1 z).
      assert (Hfin : forall w, isP2 w [B] (1 + (N - 1)) M (fun q n m => if n <? 1 then z0 (nth 0 q 0%nat) m else h (nth 0 q 0%nat) (S (0 + (n - 1))) m) ->
          is3 w B N M (fun b n m => h b n m)).
      { intros w Hw. apply is3_P2. fin Hw; [lia|auto|].
        intros q n m Hq Hn Hm. destruct (n <? 1)%nat eqn:E; b2p.
        -- replace n with 0%nat by lia. reflexivity.
        -- replace (S (0 + (n - 1))) with n by lia. reflexivity. }
      destruct zi as [zi|].
      + rewrite Es. cbn [bind]. cat2. eexists _, _. split; [reflexivity|]. split; [apply Hfin; exact H1|].
        eexists. split; [reflexivity|]. eapply is2_ext; [exact Hzfv|]. intros b m Hb Hm. cbn beta.
        now replace (S (N - 1)) with N by lia.
      + cbn [bind]. cat2. eexists _, _. split; [reflexivity|]. split; [apply Hfin; exact H1|reflexivity]. }
  rewrite EE. clear EE HM2 HVh. cbn [bind].
  set (ro := match C with Some _ => negb cc | None => false end).
  assert (Hro : ro = true -> oi = None /\ forall b n m, (b < B)%nat -> (n <= N)%nat -> (m < M)%nat -> re (h b n m) = h b n m).
  { unfold ro. destruct C as [C|]; [|discriminate]. intro E. apply negb_true_iff in E. split.
    - destruct oi; [|reflexivity]. remember (Some C) as C' eqn:EC in HC. remember (Some z1) as o eqn:EO in HC. destruct HC; congruence.
    - apply Hre; congruence. }
  assert (Hhh' : picks B N M oi (if ro then tmap re hh else hh) (fun b n m => h b n m)).
  { destruct ro; [|exact Hhh]. destruct (Hro eq_refl) as [-> Hr]. cbn [picks] in *. apply is3_P2 in Hhh.
    apply is3_P2. eassert (H : isP2 (tmap re hh) _ _ _ _) by (eapply P2_map; exact Hhh). fin H; auto.
    intros q n m Hq Hn Hm. apply vld_1_inv in Hq as (b & -> & Hb). cbn [nth]. apply Hr; lia. }
  destruct (ssm_C_D_spec F B N M K P _ x C D oi h Cm Dm xf Hx HC HD Hhh') as (y & -> & Hy). cbn [bind].
  eexists _, _. split; [reflexivity|]. split; [exact Hy|].
  destruct zi as [zi|]; [|subst zf; now destruct ro]. destruct Hzf as (zz & -> & Hzf).
  destruct ro; [|eauto]. eexists. split; [reflexivity|]. destruct (Hro eq_refl) as [_ Hr]. apply is2_P in Hzf. apply is2_P.
  eassert (H : isP2 (tmap re zz) _ _ _ _) by (eapply P2_map; exact Hzf). fin H; auto. intros q b m Hq Hb Hm. apply Hr; lia.
Qed.
End D.
