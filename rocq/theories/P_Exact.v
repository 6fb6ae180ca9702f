(** The calls of fir, lpv.fir, lpv.allpole and diag_shift that the theorems about C21-C25 leave out. *)
From Coq Require Import List Arith Lia ZArith Bool Ring.
From Verif Require Import Scalar Tensor TensorLemmas TensorOps TensorAlg TensorTac TensorList
  Spec Shapes SpecFilter SpecLpv Algebra M_Mat P_Mat M_Kernels M_LtiSsm P_LtiSsm P_Filter M_LtiFilter P_LtiFilter
  M_Ext M_LpvSsm P_LpvSsm P_LpvSs P_LpvAlg M_LpvFilter P_LpvFilter.
Import ListNotations.

Section S.
Variable R : cring.
Add Ring Rr : (r_th R).
Notation ten := (tensor (car R)).
Open Scope cr_scope.

Lemma ew_none (op : R -> R -> R) (t u : ten) B n m f g : is2 t B n f -> is2 u B m g -> bdim n m = None ->
  ew op t u = Err RuntimeError.
Proof. intros [Ht _] [Hu _] H. unfold ew, bshape. rewrite Ht, Hu. cbn [rev app bshape_rev]. now rewrite H. Qed.
Lemma bdim_short N M : (2 <= N)%nat -> (N < M)%nat -> bdim M N = None /\ bdim N M = None.
Proof. intros H1 H2. unfold bdim. bfalse (M =? N)%nat. bfalse (N =? M)%nat. bfalse (M =? 1)%nat. bfalse (N =? 1)%nat. auto. Qed.

(** ** lti.fir *)
Lemma fir_one_direct B N (b x zi : ten) bf xf zf : is2 b B 1 bf -> is2 x B N xf -> is2 zi B 0 zf -> (1 <= N)%nat ->
  exists y z, fir b x (Some zi) false = Ok (y, Some z) /\
    is2 y B N (fun i n => bf i 0%nat * xf i n) /\ is2 z B N (fun i k => xf i (N - 1 - k)%nat).
Proof.
  intros Hb Hx Hz HN. unfold fir. rkt. cbn [Nat.eqb]. unfold size. rewrite (proj1 Hb), (proj1 Hx), (proj1 Hz). cbn [nth]. rewrite !Nat.eqb_refl.
  cbn [Z.of_nat Z.sub Z.add Z.opp Pos.of_succ_nat Z.pos_sub Z.eqb andb].
  apply is2_P1 in Hx, Hz. nm (flip 1 zi). cat2. rename w into p.
  assert (Hp : is2 p B (0 + N) xf).
  { apply P1_cons in H0. eapply is2_ext; [exact H0|]. intros i n Hi Hn. cbn [nth Nat.ltb Nat.leb]. now rewrite Nat.sub_0_r. }
  pose proof Hp as Hp1. apply is2_P1 in Hp1.
  destruct (fir_conv R B N 0 b p bf _ Hb Hp HN) as (y & Ey & Hy). rewrite Ey. cbn [bind].
  nm (slice 1 (Some 0%Z) None p). nm (flip 1 v0).
  do 2 eexists; split; [reflexivity|]. split.
  - eapply is2_ext; [exact Hy|]. intros i n Hi Hn. cbn [bsum]. cbv beta. rewrite Nat.add_0_r. cbn. ring.
  - apply is2_P1. fin H2; [lia|]. intros q k Hq Hk. now f_equal; try lia.
Qed.
Lemma fir_one_transposed B N (b x : ten) bf xf : is2 b B 1 bf -> is2 x B N xf ->
  exists y, fir b x None true = Ok (y, None) /\ shape y = [B; 0]%nat.
Proof.
  intros Hb Hx. unfold fir. rkt. cbn [Nat.eqb]. unfold size. rewrite (proj1 Hb), (proj1 Hx). cbn [nth]. rewrite !Nat.eqb_refl.
  cbn [Z.of_nat Z.sub Z.add Z.opp Pos.of_succ_nat Z.pos_sub].
  destruct (fir_convt R B N 0 b x bf xf Hb Hx) as (y & Ey & Hy). rewrite Ey. cbn [bind].
  set (v := squeeze 0 y) in *. clearbody v. apply is2_P1 in Hy. nm (slice 1 None (Some 0%Z) v).
  eexists; split; [reflexivity|]. rewrite (proj1 H). reflexivity.
Qed.
Lemma fir_one_transposed_state B N (b x zi : ten) bf xf zf : is2 b B 1 bf -> is2 x B N xf -> is2 zi B 0 zf ->
  exists y z, fir b x (Some zi) true = Ok (y, Some z) /\ shape y = [B; 0]%nat /\
    is2 z B N (fun i n => conj (bf i 0%nat) * xf i n).
Proof.
  intros Hb Hx Hz. unfold fir. rkt. cbn [Nat.eqb]. unfold size. rewrite (proj1 Hb), (proj1 Hx), (proj1 Hz). cbn [nth]. rewrite !Nat.eqb_refl.
  cbn [Z.of_nat Z.sub Z.add Z.opp Pos.of_succ_nat Z.pos_sub Z.eqb andb].
  destruct (fir_convt R B N 0 b x bf xf Hb Hx) as (y & Ey & Hy). rewrite Ey. cbn [bind].
  set (v := squeeze 0 y) in *. clearbody v. apply is2_P1 in Hy, Hz.
  nm (slice 1 (Some 0%Z) None v). nm (slice 1 None (Some 0%Z) v).
  nm (slice 1 None (Some 0%Z) v1). nm (slice 1 (Some 0%Z) None v1).
  match type of H1 with isP1 _ _ ?n _ => replace n with 0%nat in H1 by lia end.
  ew2. cat2. do 2 eexists; split; [reflexivity|]. split.
  - match goal with H : isP1 w0 _ _ _ |- _ => rewrite (proj1 H) end. cbn [app]. now repeat f_equal; try lia.
  - apply is2_P1. fin H; [lia|]. intros q k Hq Hk. rewrite Nat.add_0_l. rewrite bsum_S_l. cbn [bsum Nat.leb andb]. rewrite Nat.sub_0_r. btrue (k <? N)%nat. cbn. ring.
Qed.
Lemma fir_short B N M (b x zi : ten) bf xf zf : is2 b B (S M) bf -> is2 x B N xf -> is2 zi B M zf ->
  (2 <= N)%nat -> (N < M)%nat -> fir b x (Some zi) true = Err RuntimeError.
Proof.
  intros Hb Hx Hz HN HM. unfold fir. rkt. cbn [Nat.eqb]. unfold size. rewrite (proj1 Hb), (proj1 Hx), (proj1 Hz). cbn [nth]. rewrite !Nat.eqb_refl.
  replace (Z.of_nat (S M) - 1)%Z with (Z.of_nat M) by lia. rewrite Z.eqb_refl. cbn [andb].
  destruct (fir_convt R B N M b x bf xf Hb Hx) as (y & Ey & Hy). rewrite Ey. cbn [bind].
  set (v := squeeze 0 y) in *. clearbody v. apply is2_P1 in Hy.
  nm (slice 1 None (Some (- Z.of_nat M)%Z) v). nm (slice 1 None (Some (Z.of_nat M)) v0).
  match type of H0 with isP1 _ _ ?n _ => replace n with N in H0 by lia end. apply P1_cons in H0.
  unfold tadd. erewrite ew_none; [reflexivity|exact Hz|exact H0|exact (proj1 (bdim_short N M HN HM))].
Qed.
Lemma fir_short_1 B M (b x zi : ten) bf xf zf : is2 b B (S M) bf -> is2 x B 1 xf -> is2 zi B M zf -> (1 < M)%nat ->
  exists y z, fir b x (Some zi) true = Ok (y, Some z) /\
    is2 y B M (fun i k => zf i k + conj (bf i 0%nat) * xf i 0%nat) /\
    is2 z B M (fun i k => conj (bf i (S k)) * xf i 0%nat).
Proof.
  intros Hb Hx Hz HM. unfold fir. rkt. cbn [Nat.eqb]. unfold size. rewrite (proj1 Hb), (proj1 Hx), (proj1 Hz). cbn [nth]. rewrite !Nat.eqb_refl.
  replace (Z.of_nat (S M) - 1)%Z with (Z.of_nat M) by lia. rewrite Z.eqb_refl. cbn [andb].
  destruct (fir_convt R B 1 M b x bf xf Hb Hx) as (y & Ey & Hy). rewrite Ey. cbn [bind].
  set (v := squeeze 0 y) in *. clearbody v. apply is2_P1 in Hy, Hz.
  nm (slice 1 (Some (- Z.of_nat M)%Z) None v). nm (slice 1 None (Some (- Z.of_nat M)%Z) v).
  nm (slice 1 None (Some (Z.of_nat M)) v1). nm (slice 1 (Some (Z.of_nat M)) None v1).
  match type of H1 with isP1 _ _ ?n _ => replace n with 1%nat in H1 by lia end.
  unfold tadd. destruct (P1_ew (@radd R) zi v2 [B] M 1 M _ _ Hz H1 (bdim_1_r M)) as (h & -> & Hh). cbn [bind].
  cat2. do 2 eexists; split; [reflexivity|]. split.
  - apply is2_P1. match goal with H : isP1 w _ _ _ |- _ => fin H end; [lia|]. intros q k Hq Hk. btrue (k <? M)%nat.
    rewrite bi_lt by exact Hk. f_equal. unfold bi. cbn [Nat.eqb]. rewrite bsum_S_l. cbn.
    rewrite bsum_0 by reflexivity. ring.
  - apply is2_P1. fin H; [lia|]. intros q k Hq Hk. change (1 + k)%nat with (S k).
    rewrite (bsum_one (S M) _ (S k)).
    + btrue (S k <=? S k)%nat. now rewrite Nat.sub_diag.
    + lia.
    + intros j Hj Hne. destruct ((j <=? S k) && (S k - j <? 1)) eqn:E; [b2p; lia|reflexivity].
Qed.

(** ** diag_shift with a single column and no offset, or without columns *)
Lemma diag_shift_one (t : ten) pre T f : isP2 t pre T 1 f ->
  exists y, diag_shift t 0 true = Ok y /\ shape y = pre ++ [0; 1]%nat.
Proof.
  intro Ht. destruct (diag_shift_view R t pre T 1 f 0 false Ht (le_n 1)) as (y0 & E0 & _); [discriminate|].
  revert E0. unfold diag_shift. pose proof (P2_rk _ _ _ _ _ Ht) as Hr. btrue (2 <=? rk t)%nat.
  assert (sizen t 2 = T) as -> by (unfold sizen, size; rewrite (proj1 Ht), (nth_pre pre [T; 1%nat] _ 0) by lia; reflexivity).
  assert (sizen t 1 = 1%nat) as -> by (unfold sizen, size; rewrite (proj1 Ht), (nth_pre pre [T; 1%nat] _ 1) by lia; reflexivity).
  rewrite Hr. nm (mT t). nm (pad (length pre + 2 - 1) 0 1 0 v).
  nm (flatten (length pre + 2 - 2) (length pre + 2 - 1) v0).
  destruct (P1_unflat0 v1 pre _ _ (length pre + 2 - 2) (T + 1 + 0) 1 H1) as (u1 & -> & Hu1); [lia|nia|]. cbn [bind].
  nm (slice (length pre + 2 - 2) None (Some (-1)%Z) u1).
  nm (flatten (length pre + 2 - 2) (length pre + 2 - 1) v2).
  destruct (P1_unflat0 v3 pre _ _ (length pre + 2 - 2) 1 (T + 1 + 0 - 1) H3) as (u2 & -> & Hu2); [lia|nia|]. cbn [bind].
  intros _. change (- (Z.of_nat 1 - 1 + Z.of_nat 0))%Z with 0%Z. nm (slice (length pre + 2 - 1) None (Some 0%Z) u2). nm (mT v4).
  eexists; split; [reflexivity|]. rewrite (proj1 H5). now repeat f_equal; try lia.
Qed.

(** ** lpv.fir *)
Lemma lpv_fir_one B N (b x : ten) bf xf : is3 b B N 1 bf -> is2 x B N xf ->
  (N = 1%nat -> exists y, lpv_fir b x None true = Ok (y, None) /\ shape y = [B; 0]%nat) /\
  ((2 <= N)%nat -> lpv_fir b x None true = Err RuntimeError).
Proof.
  intros Hb Hx. pose proof Hb as Hb'. apply is3_P2 in Hb'. destruct (diag_shift_one b [B] N _ Hb') as (sb & Es & Ss). cbn [app] in Ss.
  assert (Sz : size sb 2 = 1%nat) by (unfold size; now rewrite Ss).
  unfold lpv_fir. rkt. cbn [Nat.eqb negb]. destruct (sz2 R _ _ _ _ Hx) as [-> ->], (sz3 R _ _ _ _ _ Hb) as (-> & -> & ->). rewrite Es, !Nat.eqb_refl.
  cbn [andb Nat.leb bind]. rewrite Sz. cbn [Nat.sub].
  apply is2_P1 in Hx. nm (pad 1 0 0 0 x).
  assert (Hsf : shape (flip 2 sb) = [B; 0; 1]%nat) by (unfold flip; cbn; now rewrite Ss).
  split.
  - intros ->. destruct (P1_unfold0 v [B] _ _ 1 1 H eq_refl) as (u & -> & Hu); [lia|]. cbn [bind].
    unfold vecdot, ew, bshape. rewrite Hsf, (proj1 Hu). cbn [app rev bshape_rev bdim Nat.eqb Nat.add Nat.sub]. rewrite bdim_refl. cbn [rev app bind].
    eexists; split; [reflexivity|]. cbn. reflexivity.
  - intro HN. destruct (P1_unfold0 v [B] _ _ 1 1 H eq_refl) as (u & -> & Hu); [lia|]. cbn [bind].
    unfold vecdot, ew, bshape. rewrite Hsf, (proj1 Hu). cbn [app rev bshape_rev]. rewrite bdim_refl.
    replace (0 + N + 0 - 1 + 1)%nat with N by lia. unfold bdim at 1. bfalse (0 =? N)%nat. cbn [Nat.eqb]. bfalse (N =? 1)%nat. reflexivity.
Qed.
Lemma lpv_fir_short B N M (b x z : ten) bf xf zf : is3 b B N (S M) bf -> is2 x B N xf -> is2 z B M zf ->
  (2 <= N)%nat -> (N < M)%nat -> lpv_fir b x (Some z) true = Err RuntimeError.
Proof.
  intros Hb Hx Hz HN HMN. destruct (lpv_firt_core R B N M b x bf xf true Hb Hx) as (sb & u & y & Es & Ez & Eu & Ey & Hy); [discriminate|lia|].
  unfold lpv_fir. rkt. cbn [Nat.eqb negb] in Es |- *. destruct (sz2 R _ _ _ _ Hx) as [-> ->], (sz2 R _ _ _ _ Hz) as [-> ->], (sz3 R _ _ _ _ _ Hb) as (-> & -> & ->). rewrite Es.
  rewrite Nat.add_1_r, !Nat.eqb_refl. cbn [andb bind]. rewrite Ez. replace (S M - 1)%nat with M by lia. replace (Z.of_nat (S M) - 1)%Z with (Z.of_nat M) by lia.
  rewrite Eu. cbn [bind]. rewrite Ey. cbn [bind]. unfold split2, size. rewrite (proj1 Hy). cbn [nth]. rewrite Nat.eqb_refl. cbn [bind].
  apply is2_P1 in Hy. nm (slice 1 None (Some (Z.of_nat N)) y). match type of H with isP1 _ _ ?n _ => replace n with N in H by lia end.
  nm (slice 1 None (Some (Z.of_nat M)) v). match type of H0 with isP1 _ _ ?n _ => replace n with N in H0 by lia end. apply P1_cons in H0.
  unfold tadd. erewrite ew_none; [reflexivity|exact H0|exact Hz|exact (proj2 (bdim_short N M HN HMN))].
Qed.
Lemma lpv_fir_short_1 B M (b x z : ten) bf xf zf : is3 b B 1 (S M) bf -> is2 x B 1 xf -> is2 z B M zf -> (1 < M)%nat ->
  exists y zo, lpv_fir b x (Some z) true = Ok (y, Some zo) /\
    is2 y B M (fun i k => conj (bf i 0%nat 0%nat) * xf i 0%nat + zf i k) /\
    is2 zo B M (fun i k => conj (bf i 0%nat (S k)) * xf i 0%nat).
Proof.
  intros Hb Hx Hz HM. destruct (lpv_firt_core R B 1 M b x bf xf true Hb Hx) as (sb & u & y & Es & Ez & Eu & Ey & Hy); [discriminate|lia|].
  unfold lpv_fir. rkt. cbn [Nat.eqb negb] in Es |- *. destruct (sz2 R _ _ _ _ Hx) as [-> ->], (sz2 R _ _ _ _ Hz) as [-> ->], (sz3 R _ _ _ _ _ Hb) as (-> & -> & ->). rewrite Es.
  rewrite Nat.add_1_r, !Nat.eqb_refl. cbn [andb bind]. rewrite Ez. replace (S M - 1)%nat with M by lia. replace (Z.of_nat (S M) - 1)%Z with (Z.of_nat M) by lia.
  rewrite Eu. cbn [bind]. rewrite Ey. cbn [bind]. unfold split2, size. rewrite (proj1 Hy). cbn [nth]. rewrite Nat.eqb_refl. cbn [bind].
  apply is2_P1 in Hy, Hz. nm (slice 1 None (Some (Z.of_nat 1)) y). nm (slice 1 (Some (Z.of_nat 1)) None y).
  match type of H with isP1 _ _ ?n _ => replace n with 1%nat in H by lia end.
  nm (slice 1 None (Some (Z.of_nat M)) v). match type of H1 with isP1 _ _ ?n _ => replace n with 1%nat in H1 by lia end.
  nm (slice 1 (Some (Z.of_nat M)) None v).
  unfold tadd. destruct (P1_ew (@radd R) v1 z [B] 1 M M _ _ H1 Hz (bdim_1_l M)) as (h & -> & Hh). cbn [bind].
  cat2. do 2 eexists; split; [reflexivity|]. split.
  - apply is2_P1. match goal with H : isP1 w _ _ _ |- _ => fin H end; [lia|]. intros q k Hq Hk. btrue (k <? M)%nat.
    rewrite (bi_lt M) by exact Hk. f_equal. unfold bi. cbn [Nat.eqb Nat.add]. rewrite bsum_S_l. cbn.
    rewrite bsum_0 by reflexivity. ring.
  - apply is2_P1. fin H0; [lia|]. intros q k Hq Hk. change (1 + k)%nat with (S k).
    rewrite (bsum_one (S M) _ (S k)).
    + btrue (S k <=? S k)%nat. now rewrite Nat.sub_diag.
    + lia.
    + intros j Hj Hne. destruct ((j <=? S k) && (S k - j <? 1)) eqn:E; [b2p; lia|reflexivity].
Qed.

(** ** lpv.allpole *)
(** Direct form: the state is cut out of the new outputs only. *)
Lemma lpv_allpole_odd B N M (a x z : ten) af xf zf : is3 a B N M af -> is2 x B N xf -> is2 z B M zf ->
  (M = 0%nat \/ (N < M)%nat) ->
  exists y zo yf, lpv_allpole a x (Some z) false = Ok (y, Some zo) /\ is2 y B N yf /\
    (forall i n, vpole M (af i) (xf i) (yf i) (zf i) n) /\
    is2 zo B N (fun i k => yf i (N - 1 - k)%nat).
Proof.
  intros Ha Hx Hz HM. unfold lpv_allpole. rkt. cbn [Nat.eqb].
  destruct (sz2 R _ _ _ _ Hx) as [-> ->], (sz2 R _ _ _ _ Hz) as [-> ->], (sz3 R _ _ _ _ _ Ha) as (-> & -> & ->). rewrite !Nat.eqb_refl. cbn [andb bind].
  destruct (lpv_allpole_spec R B N M a x z af xf zf Ha Hx Hz) as (y & -> & Hy). cbn [bind]. pose proof Hy as Hy'. apply is2_P1 in Hy'.
  do 2 eexists. eexists. split; [reflexivity|]. split; [exact Hy|]. split; [intros i n; apply vdf2_inner|].
  assert (isP1 (slice 1 (Some (- Z.of_nat M)%Z) None y) [B] N (fun q i => vdf2_z M (af (nth 0 q 0%nat)) (zf (nth 0 q 0%nat)) (xf (nth 0 q 0%nat)) (S i) 0)) as Hs.
  { assert (Hn : size y 1 = N) by (unfold size; now rewrite (proj1 Hy)).
    assert (El : pybound N 0 (Some (- Z.of_nat M)%Z) = 0%nat) by (destruct HM as [->|HM]; pyb).
    split.
    - unfold slice. rewrite Hn, El. cbn [pybound shape]. rewrite (proj1 Hy). cbn. now rewrite Nat.sub_0_r.
    - intros q i Hq Hi. apply vld_1_inv in Hq as (k & -> & Hk). unfold slice. rewrite Hn, El. cbn. now apply (proj2 Hy). }
  nm (flip 1 (slice 1 (Some (- Z.of_nat M)%Z) None y)). apply is2_P1. fin H; auto.
Qed.
Lemma lpc_size (x a z : ten) : (size a 1 =? size x 1)%nat = false -> exists er, sample_wise_lpc x a z = Err er.
Proof. intro H. unfold sample_wise_lpc. rewrite H, !andb_false_r. eauto. Qed.
Lemma diag_shift_none (t : ten) pre T f offset : isP2 t pre T 0 f ->
  exists y, diag_shift t (S offset) false = Ok y /\ isP2 y pre (T + offset) 0 (fun _ _ _ => 0).
Proof.
  intro Ht. unfold diag_shift. pose proof (P2_rk _ _ _ _ _ Ht) as Hr. btrue (2 <=? rk t)%nat.
  assert (sizen t 2 = T) as -> by (unfold sizen, size; rewrite (proj1 Ht), (nth_pre pre [T; 0%nat] _ 0) by lia; reflexivity).
  assert (sizen t 1 = 0%nat) as -> by (unfold sizen, size; rewrite (proj1 Ht), (nth_pre pre [T; 0%nat] _ 1) by lia; reflexivity).
  rewrite Hr. nm (mT t). nm (pad (length pre + 2 - 1) (S offset) 0 0 v).
  nm (flatten (length pre + 2 - 2) (length pre + 2 - 1) v0).
  destruct (P1_unflat0 v1 pre _ _ (length pre + 2 - 2) (T + 0 + S offset) 0 H1) as (u1 & -> & Hu1); [lia|nia|]. cbn [bind].
  nm (slice (length pre + 2 - 2) None (Some (-1)%Z) u1).
  nm (flatten (length pre + 2 - 2) (length pre + 2 - 1) v2).
  destruct (P1_unflat0 v3 pre _ _ (length pre + 2 - 2) 0 (T + 0 + S offset - 1) H3) as (u2 & -> & Hu2); [lia|nia|]. cbn [bind].
  nm (mT u2). eexists; split; [reflexivity|]. fin H4; [lia|reflexivity|]. intros; lia.
Qed.
Lemma diag_shift_none_cut (t : ten) pre T f : isP2 t pre T 0 f ->
  exists y, diag_shift t 1 true = Ok y /\ isP2 y pre 0 0 (fun _ _ _ => 0).
Proof.
  intro Ht. unfold diag_shift. pose proof (P2_rk _ _ _ _ _ Ht) as Hr. btrue (2 <=? rk t)%nat.
  assert (sizen t 2 = T) as -> by (unfold sizen, size; rewrite (proj1 Ht), (nth_pre pre [T; 0%nat] _ 0) by lia; reflexivity).
  assert (sizen t 1 = 0%nat) as -> by (unfold sizen, size; rewrite (proj1 Ht), (nth_pre pre [T; 0%nat] _ 1) by lia; reflexivity).
  rewrite Hr. nm (mT t). nm (pad (length pre + 2 - 1) 1 0 0 v).
  nm (flatten (length pre + 2 - 2) (length pre + 2 - 1) v0).
  destruct (P1_unflat0 v1 pre _ _ (length pre + 2 - 2) (T + 0 + 1) 0 H1) as (u1 & -> & Hu1); [lia|nia|]. cbn [bind].
  nm (slice (length pre + 2 - 2) None (Some (-1)%Z) u1).
  nm (flatten (length pre + 2 - 2) (length pre + 2 - 1) v2).
  destruct (P1_unflat0 v3 pre _ _ (length pre + 2 - 2) 0 (T + 0 + 1 - 1) H3) as (u2 & -> & Hu2); [lia|nia|]. cbn [bind].
  change (- (Z.of_nat 0 - 1 + Z.of_nat 1))%Z with 0%Z. nm (slice (length pre + 2 - 1) None (Some 0%Z) u2). nm (mT v4).
  eexists; split; [reflexivity|]. fin H5; [lia|reflexivity|]. intros; lia.
Qed.
(** Transposed form, no coefficients and a state: the signal itself. *)
Lemma lpv_allpolet_id B N (a x z : ten) af xf zf : is3 a B N 0 af -> is2 x B N xf -> is2 z B 0 zf ->
  exists y zo, lpv_allpole a x (Some z) true = Ok (y, Some zo) /\ is2 y B N xf /\ shape zo = [B; 0]%nat.
Proof.
  intros Ha Hx Hz. unfold lpv_allpole. rkt. cbn [Nat.eqb].
  destruct (sz2 R _ _ _ _ Hx) as [-> ->], (sz2 R _ _ _ _ Hz) as [-> ->], (sz3 R _ _ _ _ _ Ha) as (-> & -> & ->). rewrite !Nat.eqb_refl. cbn [andb bind negb].
  pose proof Ha as Ha'. apply is3_P2 in Ha'. nm (tconj a). destruct (diag_shift_none v [B] N _ 0 H) as (sa & -> & Hs). cbn [bind].
  rewrite Nat.add_0_r in Hs. apply P2_cons in Hs. destruct (sz3 R _ _ _ _ _ Hs) as (S0 & S1 & S2). rewrite S0, S2. cbn [Z.of_nat].
  pose proof Hx as Hx'. pose proof Hz as Hz'. apply is2_P1 in Hx', Hz'.
  nm (slice 1 None (Some 0%Z) x). nm (slice 1 (Some 0%Z) None x). match type of H0 with isP1 _ _ ?n _ => replace n with 0%nat in H0 by lia end.
  unfold tadd. destruct (@P1_ew_same _ _ _ (@radd R) z v0 [B] 0 _ _ Hz' H0) as (h & -> & Hh). cbn [bind app].
  assert (Hh2 : is2 h B 0 (fun _ _ => 0)) by (apply is2_P1; fin Hh; auto; lia).
  assert (Hv1 : is2 v1 B N xf) by (apply is2_P1; fin H1; [lia|reflexivity]).
  assert (Hzz : is2 (zeros_like z) B 0 (fun _ _ => 0)).
  { destruct Hz as [Sz _]. split; [unfold zeros_like; cbn; exact Sz|]. reflexivity. }
  destruct (cat3 R h v1 (zeros_like z) B _ _ _ _ _ _ Hh2 Hv1 Hzz) as (c & -> & Hc). cbn [bind].
  replace (0 + N + 0)%nat with N in Hc by lia.
  destruct (lpv_allpole_spec R B N 0 sa c _ _ _ _ Hs Hc (zeros_2 R B 0)) as (y & -> & Hy). cbn [bind].
  unfold split2. rewrite (proj2 (sz2 R _ _ _ _ Hy)), Nat.add_0_r, Nat.eqb_refl. cbn [bind]. apply is2_P1 in Hy.
  nm (slice 1 None (Some (Z.of_nat N)) y). nm (slice 1 (Some (Z.of_nat N)) None y).
  do 2 eexists; split; [reflexivity|]. split.
  - apply is2_P1. fin H2; [lia|]. intros q n Hq Hn. rewrite Nat.add_0_l.
    match goal with |- vdf2_z 0 ?a ?z ?x (S n) 0 = _ => pose proof (vdf2_inner R 0 a z x n) as E end.
    unfold vpole in E. cbn [bsum] in E. rewrite (proj2 (Nat.ltb_ge n 0)) in E by lia. rewrite Nat.sub_0_r in E.
    rewrite (proj2 (Nat.ltb_lt n N) Hn) in E. rewrite <- E. ring.
  - rewrite (proj1 H3). now rewrite Nat.sub_diag.
Qed.
(** Transposed form: an error. *)
Lemma lpv_allpolet_err B N M (a x z : ten) af xf zf st : is3 a B N M af -> is2 x B N xf -> is2 z B M zf ->
  (1 <= N)%nat -> (M = 0%nat /\ st = false \/ (N < M)%nat) ->
  exists er, lpv_allpole a x (if st : bool then Some z else None) true = Err er.
Proof.
  intros Ha Hx Hz HN HM. pose proof (tconj_3 R _ _ _ _ _ Ha) as H. apply is3_P2 in H.
  assert (exists z', is2 z' B M (if st then zf else fun _ _ => 0) /\ (if st then z' = z else z' = zeros [B; M])) as (z' & Hz' & Ez).
  { destruct st; [exists z; auto|exists (zeros [B; M]); split; [apply zeros_2|reflexivity]]. }
  assert (E : forall r : res (tensor R * option (tensor R)),
     (let* a0 := diag_shift (tconj a) 1 (negb st) in
      let* h := tadd z' (slice 1 None (Some (Z.of_nat (size a0 2))) x) in
      let* x0 := cat 1 ([h; slice 1 (Some (Z.of_nat (size a0 2))) None x] ++ (if st then [zeros_like z'] else [])) in
      let* y := sample_wise_lpc x0 a0 (zeros [size a0 0; size a0 2]) in
      if st then let* ' (y0, zf0) := split2 1 N (size a0 2) y in Ok (y0, Some zf0) else Ok (y, None)) = r ->
     exists er, r = Err er).
  2:{ unfold lpv_allpole. rkt. cbn [Nat.eqb].
      destruct (sz2 R _ _ _ _ Hx) as [-> ->], (sz3 R _ _ _ _ _ Ha) as (-> & -> & ->). rewrite !Nat.eqb_refl.
      destruct st; cbn [andb bind negb].
      - rkt. destruct (sz2 R _ _ _ _ Hz) as [-> ->]. rewrite !Nat.eqb_refl. cbn [andb bind]. subst z'. apply (E _ eq_refl).
      - subst z'. apply (E _ eq_refl). }
  intros r <-. pose proof Hx as Hx'. pose proof Hz' as Hzp. apply is2_P1 in Hx', Hzp. destruct HM as [[-> ->]|HM].
  - cbn [negb]. destruct (diag_shift_none_cut (tconj a) [B] N _ H) as (sa & -> & Hs). cbn [bind]. apply P2_cons in Hs.
    destruct (sz3 R _ _ _ _ _ Hs) as (S0 & S1 & S2). rewrite S0, S2. cbn [Z.of_nat app].
    nm (slice 1 None (Some 0%Z) x). rename v into vA. nm (slice 1 (Some 0%Z) None x). rename v into vB. match type of H0 with isP1 _ _ ?n _ => replace n with 0%nat in H0 by lia end.
    unfold tadd. destruct (@P1_ew_same _ _ _ (@radd R) z' vA [B] 0 _ _ Hzp H0) as (h & -> & Hh). cbn [bind].
    cat2. destruct (lpc_size w sa (zeros [B; 0%nat])) as (er & ->); [|cbn [bind]; eauto].
    rewrite S1. match goal with H : isP1 w _ _ _ |- _ => unfold size; rewrite (proj1 H) end. cbn [app nth]. apply Nat.eqb_neq. lia.
  - destruct (diag_shift_view R (tconj a) [B] N M _ 1 (negb st) H) as (sa & -> & Hs); [lia|lia|]. cbn [bind].
    apply P2_cons in Hs. destruct (sz3 R _ _ _ _ _ Hs) as (S0 & S1 & S2). rewrite S0, S2.
    nm (slice 1 None (Some (Z.of_nat M)) x). rename v into vA. match type of H0 with isP1 _ _ ?n _ => replace n with N in H0 by lia end.
    destruct (Nat.eq_dec N 1) as [->|Hn].
    + nm (slice 1 (Some (Z.of_nat M)) None x). rename v into vB.
      unfold tadd. destruct (P1_ew (@radd R) z' vA [B] M 1 M _ _ Hzp H0 (bdim_1_r M)) as (h & -> & Hh). cbn [bind].
      apply P1_cons in Hh, H1. destruct st; cbn [app negb] in *.
      * assert (Hzz : is2 (zeros_like z') B M (fun _ _ => 0)).
        { split; [unfold zeros_like; cbn; exact (proj1 Hz')|]. reflexivity. }
        destruct (cat3 R h vB (zeros_like z') B _ _ _ _ _ _ Hh H1 Hzz) as (c & -> & Hc). cbn [bind].
        destruct (lpc_size c sa (zeros [B; M])) as (er & ->); [|cbn [bind]; eauto]. rewrite S1, (proj2 (sz2 R _ _ _ _ Hc)). apply Nat.eqb_neq. lia.
      * apply is2_P1 in Hh, H1. destruct (P1_cat0 h vB [B] _ _ _ _ 1 Hh H1 eq_refl) as (c & -> & Hc). cbn [bind]. apply P1_cons in Hc.
        destruct (lpc_size c sa (zeros [B; M])) as (er & ->); [|cbn [bind]; eauto]. rewrite S1, (proj2 (sz2 R _ _ _ _ Hc)). apply Nat.eqb_neq. lia.
    + apply P1_cons in H0. unfold tadd. erewrite ew_none; [cbn [bind]; eauto|exact Hz'|exact H0|]. apply (proj1 (bdim_short N M ltac:(lia) HM)).
Qed.
End S.
