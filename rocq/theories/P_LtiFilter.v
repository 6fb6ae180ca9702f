(** lti/filtering.py: fir and the direct forms of lfilter. *)
From Coq Require Import List Arith Lia ZArith Bool Ring.
From Verif Require Import Scalar Tensor TensorLemmas TensorOps TensorAlg TensorTac TensorList
  Spec Shapes SpecFilter Algebra M_Mat P_Mat M_Kernels M_LtiRecur M_LtiSsm P_LtiRecur P_LtiSsm P_Filter M_LtiFilter.
Import ListNotations.

Section S.
Variable R : cring.
Add Ring Rr : (r_th R).
Notation ten := (tensor (car R)).
Open Scope cr_scope.

(** ** Convolutions *)
Lemma conv1d_view (x w : ten) B L K f g : is3 x 1 B L f -> is3 w B 1 K g -> (1 <= K)%nat -> (K <= L)%nat ->
  exists y, conv1d_groups x w B = Ok y /\
    is3 y 1 B (L - K + 1) (fun o c n => bsum K (fun k => g c 0%nat k * f o c (n + k)%nat)).
Proof.
  intros [Sx Hx] [Sw Hw] HK HL. unfold conv1d_groups, rk, size. rewrite Sx, Sw. cbn [length nth Nat.eqb]. rewrite !Nat.eqb_refl.
  btrue (1 <=? K)%nat. btrue (K <=? L)%nat. cbn [andb]. eexists; split; [reflexivity|]. split; [reflexivity|].
  intros o c n Ho Hc Hn. cbn [at_ nth]. apply bsum_ext. intros k Hk. rewrite Hw, Hx by lia. reflexivity.
Qed.
Lemma convt1d_view (x w : ten) B L K f g : is3 x 1 B L f -> is3 w B 1 K g -> (1 <= K)%nat ->
  exists y, conv_transpose1d_groups x w B = Ok y /\
    is3 y 1 B (L + K - 1) (fun o c n => bsum K (fun k => if (k <=? n) && (n - k <? L) then g c 0%nat k * f o c (n - k)%nat else 0)).
Proof.
  intros [Sx Hx] [Sw Hw] HK. unfold conv_transpose1d_groups, rk, size. rewrite Sx, Sw. cbn [length nth Nat.eqb]. rewrite !Nat.eqb_refl.
  btrue (1 <=? K)%nat. cbn [andb]. eexists; split; [reflexivity|]. split; [reflexivity|].
  intros o c n Ho Hc Hn. cbn [at_ nth]. apply bsum_ext. intros k Hk.
  destruct ((k <=? n) && (n - k <? L)) eqn:E; [|reflexivity]. b2p. rewrite Hw, Hx by lia. reflexivity.
Qed.
Lemma squeeze0_3 (t : ten) n m f : is3 t 1 n m f -> is2 (squeeze 0 t) n m (f 0%nat).
Proof.
  intros [Hs Hf]. rewrite squeeze_sel by (unfold size; now rewrite Hs). split.
  - unfold sel. cbn [shape]. now rewrite Hs.
  - intros i j Hi Hj. unfold sel. cbn [at_]. cbn [ins firstn skipn app]. apply Hf; lia.
Qed.
Lemma squeeze0_2 (t : ten) n f : is2 t 1 n f -> is1 (squeeze 0 t) n (f 0%nat).
Proof.
  intros [Hs Hf]. rewrite squeeze_sel by (unfold size; now rewrite Hs). split.
  - unfold sel. cbn [shape]. now rewrite Hs.
  - intros i Hi. unfold sel. cbn [at_]. cbn [ins firstn skipn app]. apply Hf; lia.
Qed.
Lemma unsq0_2 (t : ten) n m f : is2 t n m f -> is3 (unsqueeze 0 t) 1 n m (fun _ => f).
Proof. intro H. apply is2_P in H. nm (unsqueeze 0 t). now apply is3_P. Qed.
Lemma unsq1_2 (t : ten) n m f : is2 t n m f -> is3 (unsqueeze 1 t) n 1 m (fun i _ => f i).
Proof. intro H. apply is2_P in H. nm (unsqueeze 1 t). now apply is3_P. Qed.
Lemma tconj_3 (t : ten) n m p f : is3 t n m p f -> is3 (tconj t) n m p (fun i j k => conj (f i j k)).
Proof. intros [Hs Hf]. split; [exact Hs|]. intros. unfold tconj, tmap. cbn [at_]. now rewrite Hf. Qed.
Lemma padZ_view (t : ten) pre n f d (l r : nat) : isP1 t pre n f -> d = length pre ->
  exists y, padZ d (Z.of_nat l) (Z.of_nat r) 0 t = Ok y /\
    isP1 y pre (l + n + r) (fun q i => if (l <=? i) && (i <? l + n) then f q (i - l)%nat else 0).
Proof.
  intros H ->. unfold padZ.
  assert (Hn : size t (length pre) = n) by (unfold size; rewrite (proj1 H), (nth_pre pre [n] _ 0) by lia; reflexivity).
  rewrite Hn. replace (Z.of_nat n + Z.of_nat l + Z.of_nat r <? 0)%Z with false by (symmetry; apply Z.ltb_ge; lia).
  rewrite !Nat2Z.id. replace (Z.max 0 (- Z.of_nat l)) with 0%Z by lia.
  replace (Z.of_nat n - Z.max 0 (- Z.of_nat r))%Z with (Z.of_nat n) by lia.
  nm (slice (length pre) (Some 0%Z) (Some (Z.of_nat n)) t). nm (pad (length pre) l r 0 v).
  eexists; split; [reflexivity|]. fin H1; [lia|]. intros q i Hq Hi. rewrite ?Nat.sub_0_r. reflexivity.
Qed.

(** ** fir *)
Lemma hist_cat (x z : nat -> R) n k M : (k < M)%nat ->
  (if (n + (M - 1 - k) <? M)%nat then z (M - 1 - (n + (M - 1 - k)))%nat else x (n + (M - 1 - k) - M)%nat) = hist x z n k.
Proof.
  intro Hk. unfold hist. destruct (n + (M - 1 - k) <? M)%nat eqn:E1; destruct (k <? n)%nat eqn:E2; b2p; try lia; f_equal; lia.
Qed.
Lemma fir_conv B N M (b p : ten) bf pf : is2 b B (S M) bf -> is2 p B (M + N) pf -> (1 <= N)%nat ->
  exists y, conv1d_groups (unsqueeze 0 p) (unsqueeze 1 (flip 1 b)) B = Ok y /\
    is2 (squeeze 0 y) B N (fun i n => bf i 0%nat * pf i (n + M)%nat
                                      + bsum M (fun k => bf i (S k) * pf i (n + (M - 1 - k))%nat)).
Proof.
  intros Hb Hp HN.
  assert (Hb1 : is2 (flip 1 b) B (S M) (fun i k => bf i (M - k)%nat)).
  { apply is2_P1 in Hb. nm (flip 1 b). apply is2_P1. fin H; auto. intros q i Hq Hi. f_equal. lia. }
  destruct (conv1d_view _ _ B (M + N) (S M) _ _ (unsq0_2 _ _ _ _ Hp) (unsq1_2 _ _ _ _ Hb1)) as (y & E & Hy); try lia.
  exists y. split; [exact E|]. apply squeeze0_3 in Hy. replace (M + N - S M + 1)%nat with N in Hy by lia.
  eapply is2_ext; [exact Hy|]. intros i n Hi Hn. cbn beta.
  rewrite (bsum_rev (S M)), bsum_S_l. f_equal.
  - replace (M - (S M - 1 - 0))%nat with 0%nat by lia. do 2 f_equal. lia.
  - apply bsum_ext. intros k Hk. replace (M - (S M - 1 - S k))%nat with (S k) by lia. do 2 f_equal. lia.
Qed.
Lemma fir_direct_none B N M (b x : ten) bf xf : is2 b B (S M) bf -> is2 x B N xf -> (1 <= N)%nat ->
  exists y, fir b x None false = Ok (y, None) /\ is2 y B N (fun i n => conv M (bf i) (xf i) n).
Proof.
  intros Hb Hx HN. unfold fir. rkt. cbn [Nat.eqb]. unfold size. rewrite (proj1 Hb), (proj1 Hx). cbn [nth]. rewrite Nat.eqb_refl.
  replace (Z.of_nat (S M) - 1)%Z with (Z.of_nat M) by lia.
  apply is2_P1 in Hx. destruct (padZ_view x [B] N _ 1 M 0 Hx eq_refl) as (p & Ep & Hp). cbn [Z.of_nat] in Ep. rewrite Ep.
  cbn [bind]. rewrite Nat.add_0_r in Hp. apply P1_cons in Hp. cbn [nth] in Hp.
  destruct (fir_conv B N M b p bf _ Hb Hp HN) as (y & Ey & Hy). rewrite Ey. cbn [bind].
  eexists; split; [reflexivity|]. eapply is2_ext; [exact Hy|]. intros i n Hi Hn. cbn beta.
  unfold conv. rewrite bsum_S_l, dly_0. f_equal.
  - btrue (M <=? n + M)%nat. btrue (n + M <? M + N)%nat. cbn [andb]. do 2 f_equal. lia.
  - apply bsum_ext. intros k Hk. f_equal. unfold dly. btrue (n + (M - 1 - k) <? M + N)%nat. rewrite andb_true_r.
    destruct (M <=? n + (M - 1 - k))%nat eqn:E1; destruct (S k <=? n)%nat eqn:E2; b2p; try lia; [|reflexivity]. f_equal. lia.
Qed.
(** With a state: the past inputs; not for a single tap, where [-M:] is the whole signal. *)
Lemma fir_direct_some B N M (b x zi : ten) bf xf zf : is2 b B (S M) bf -> is2 x B N xf -> is2 zi B M zf ->
  (1 <= N)%nat -> (1 <= M)%nat ->
  exists y z, fir b x (Some zi) false = Ok (y, Some z) /\
    is2 y B N (fun i n => bf i 0%nat * xf i n + bsum M (fun k => bf i (S k) * hist (xf i) (zf i) n k)) /\
    is2 z B M (fun i k => hist (xf i) (zf i) N k).
Proof.
  intros Hb Hx Hz HN HM. unfold fir. rkt. cbn [Nat.eqb]. unfold size. rewrite (proj1 Hb), (proj1 Hx), (proj1 Hz). cbn [nth]. rewrite !Nat.eqb_refl.
  replace (Z.of_nat (S M) - 1)%Z with (Z.of_nat M) by lia. rewrite Z.eqb_refl. cbn [andb].
  apply is2_P1 in Hx, Hz. nm (flip 1 zi). cat2. rename w into p.
  assert (Hp : is2 p B (M + N) (fun i n => if (n <? M)%nat then zf i (M - 1 - n)%nat else xf i (n - M)%nat)).
  { apply P1_cons in H0. eapply is2_ext; [exact H0|]. intros; reflexivity. }
  pose proof Hp as Hp1. apply is2_P1 in Hp1.
  destruct (fir_conv B N M b p bf _ Hb Hp HN) as (y & Ey & Hy). rewrite Ey. cbn [bind].
  nm (slice 1 (Some (- Z.of_nat M)%Z) None p). nm (flip 1 v0).
  do 2 eexists; split; [reflexivity|]. split.
  - eapply is2_ext; [exact Hy|]. intros i n Hi Hn. cbn beta. f_equal.
    + bfalse (n + M <? M)%nat. do 2 f_equal. lia.
    + apply bsum_ext. intros k Hk. f_equal. now apply hist_cat.
  - apply is2_P1. fin H2; [lia|]. intros q k Hq Hk. apply vld_1_inv in Hq as (i & -> & Hi). cbn [nth].
    rewrite <- (hist_cat (xf i) (zf i) N k M Hk).
    replace (M + N - M + (M + N - (M + N - M) - 1 - k))%nat with (N + (M - 1 - k))%nat by lia. reflexivity.
Qed.

(** The transposed form computes with the conjugated coefficients. *)
Lemma fir_convt B N M (b x : ten) bf xf : is2 b B (S M) bf -> is2 x B N xf ->
  exists y, conv_transpose1d_groups (unsqueeze 0 x) (tconj (unsqueeze 1 b)) B = Ok y /\
    is2 (squeeze 0 y) B (N + M) (fun i n => bsum (S M) (fun k => if (k <=? n) && (n - k <? N) then conj (bf i k) * xf i (n - k)%nat else 0)).
Proof.
  intros Hb Hx.
  destruct (convt1d_view _ _ B N (S M) _ _ (unsq0_2 _ _ _ _ Hx) (tconj_3 _ _ _ _ _ (unsq1_2 _ _ _ _ Hb))) as (y & E & Hy); try lia.
  exists y. split; [exact E|]. apply squeeze0_3 in Hy. replace (N + S M - 1)%nat with (N + M)%nat in Hy by lia. exact Hy.
Qed.
Lemma convt_head (b x : nat -> R) M N n : (n < N)%nat ->
  bsum (S M) (fun k => if (k <=? n) && (n - k <? N) then b k * x (n - k)%nat else 0) = conv M b x n.
Proof.
  intro Hn. unfold conv. apply bsum_ext. intros k Hk. unfold dly. destruct (k <=? n)%nat eqn:E; b2p; cbn [andb].
  - btrue (n - k <? N)%nat. reflexivity.
  - ring.
Qed.
Lemma fir_transposed_none B N M (b x : ten) bf xf : is2 b B (S M) bf -> is2 x B N xf -> (1 <= M)%nat ->
  exists y, fir b x None true = Ok (y, None) /\ is2 y B N (fun i n => conv M (fun k => conj (bf i k)) (xf i) n).
Proof.
  intros Hb Hx HM. unfold fir. rkt. cbn [Nat.eqb]. unfold size. rewrite (proj1 Hb), (proj1 Hx). cbn [nth]. rewrite Nat.eqb_refl.
  replace (Z.of_nat (S M) - 1)%Z with (Z.of_nat M) by lia.
  destruct (fir_convt B N M b x bf xf Hb Hx) as (y & Ey & Hy). rewrite Ey. cbn [bind].
  set (v := squeeze 0 y) in *. clearbody v. apply is2_P1 in Hy. nm (slice 1 None (Some (- Z.of_nat M)%Z) v).
  eexists; split; [reflexivity|]. apply is2_P1. fin H; [lia|]. intros q n Hq Hn. rewrite Nat.add_0_l. now apply (convt_head (fun k => conj (bf (nth 0 q 0%nat) k))).
Qed.
(** With a state, signal at least as long as the order. *)
Lemma convt_tail (b z x : nat -> R) M N i : (1 <= M)%nat -> (M <= N)%nat -> (i < M)%nat ->
  bsum (S M) (fun k => if (k <=? N + i) && (N + i - k <? N) then b k * x (N + i - k)%nat else 0)
  = tdf2_z M b (fun _ => 0) z x N i.
Proof.
  intros HM HN Hi. rewrite tdf2_state by exact Hi. unfold padz. bfalse (N + i <? M)%nat. rewrite bsum_S_l.
  bfalse (N + i - 0 <? N)%nat. rewrite andb_false_r.
  transitivity (bsum M (fun k => if (i <=? k)%nat then b (S k) * dly x (k - i + 1) N else 0)).
  - rewrite (bsum_ext M _ (fun k => if (i <=? k)%nat then b (S k) * dly x (k - i + 1) N else 0)); [ring|].
    intros k Hk. unfold dly. btrue (S k <=? N + i)%nat. cbn [andb].
    destruct (i <=? k)%nat eqn:E; b2p.
    + btrue (N + i - S k <? N)%nat. btrue (k - i + 1 <=? N)%nat. do 2 f_equal. lia.
    + bfalse (N + i - S k <? N)%nat. reflexivity.
  - rewrite (bsum_ext M _ (fun k => if (i <=? k)%nat then b (S k) * dly x (k - i + 1) N
        - 0 * dly (tdf2_y M b (fun _ => 0) z x) (k - i + 1) N else 0)) by (intros k Hk; destruct (i <=? k)%nat; ring).
    ring.
Qed.
Lemma tdf2_fir (b z x : nat -> R) M n : (1 <= M)%nat -> tdf2_y M b (fun _ => 0) z x n = conv M b x n + padz M z n.
Proof.
  intro HM. pose proof (tdf2_diff R M b (fun _ => 0) z x n HM) as H.
  rewrite (bsum_0 M) in H by (intros; ring). unfold conv. rewrite <- H. ring.
Qed.
Lemma fir_transposed_some B N M (b x zi : ten) bf xf zf : is2 b B (S M) bf -> is2 x B N xf -> is2 zi B M zf ->
  (1 <= M)%nat -> (M <= N)%nat ->
  exists y z, fir b x (Some zi) true = Ok (y, Some z) /\
    is2 y B N (fun i n => tdf2_y M (fun k => conj (bf i k)) (fun _ => 0) (zf i) (xf i) n) /\
    is2 z B M (fun i k => tdf2_z M (fun k => conj (bf i k)) (fun _ => 0) (zf i) (xf i) N k).
Proof.
  intros Hb Hx Hz HM HN. unfold fir. rkt. cbn [Nat.eqb]. unfold size. rewrite (proj1 Hb), (proj1 Hx), (proj1 Hz). cbn [nth]. rewrite !Nat.eqb_refl.
  replace (Z.of_nat (S M) - 1)%Z with (Z.of_nat M) by lia. rewrite Z.eqb_refl. cbn [andb].
  destruct (fir_convt B N M b x bf xf Hb Hx) as (y & Ey & Hy). rewrite Ey. cbn [bind].
  set (v := squeeze 0 y) in *. clearbody v. apply is2_P1 in Hy, Hz.
  nm (slice 1 (Some (- Z.of_nat M)%Z) None v). nm (slice 1 None (Some (- Z.of_nat M)%Z) v).
  assert (Hv1 : is2 v1 B N (fun i n => conv M (fun k => conj (bf i k)) (xf i) n)).
  { apply is2_P1. fin H0; [lia|]. intros q n Hq Hn. rewrite Nat.add_0_l. now apply (convt_head (fun k => conj (bf (nth 0 q 0%nat) k))). }
  apply is2_P1 in Hv1. clear H0.
  nm (slice 1 None (Some (Z.of_nat M)) v1). nm (slice 1 (Some (Z.of_nat M)) None v1).
  match type of H0 with isP1 _ _ ?n _ => replace n with M in H0 by lia end.
  ew2. cat2. do 2 eexists; split; [reflexivity|]. split.
  - apply is2_P1. match goal with H : isP1 w0 _ _ _ |- _ => fin H end; [lia|]. intros q n Hq Hn.
    rewrite tdf2_fir by exact HM. unfold padz. destruct (n <? M)%nat eqn:E; b2p.
    + rewrite Nat.add_0_l. ring.
    + replace (M + (n - M))%nat with n by lia. ring.
  - apply is2_P1. fin H; [lia|]. intros q k Hq Hk. replace (N + M - M + k)%nat with (N + k)%nat by lia.
    now apply (convt_tail (fun k => conj (bf (nth 0 q 0%nat) k))).
Qed.

(** ** Coefficient vectors *)
Lemma fcoef_P B n (t : ten) f : fcoef B n t f ->
  exists pre g, (pre = [] \/ pre = [B]) /\ isP1 t pre n g /\
    forall b k, (b < B)%nat -> (k < n)%nat -> f b k = g (match pre with [] => [] | _ => [b] end) k.
Proof.
  intros [g Ht Hf|Ht].
  - exists [], (fun _ => g). split; [auto|]. split; [now apply is1_P|]. exact Hf.
  - exists [B], (fun q => f (nth 0 q 0%nat)). split; [auto|]. split; [now apply is2_P1|]. reflexivity.
Qed.
Lemma P_fcoef B n (t : ten) f pre g : (pre = [] \/ pre = [B]) -> isP1 t pre n g ->
  (forall b k, (b < B)%nat -> (k < n)%nat -> f b k = g (match pre with [] => [] | _ => [b] end) k) -> fcoef B n t f.
Proof.
  intros [->| ->] Ht Hf.
  - apply (fc_s (g [])); [now apply P1_nil|exact Hf].
  - apply fc_b. apply P1_cons in Ht. eapply is2_ext; [exact Ht|]. intros. symmetry. now apply Hf.
Qed.
Lemma fcoef_ext B n (t : ten) f g : fcoef B n t f -> (forall b k, (b < B)%nat -> (k < n)%nat -> f b k = g b k) -> fcoef B n t g.
Proof.
  intros [h Ht Hf|Ht] H.
  - apply (fc_s h); [exact Ht|]. intros. rewrite <- H by assumption. now apply Hf.
  - apply fc_b. eapply is2_ext; [exact Ht|exact H].
Qed.
Lemma fcoef_size B n (t : ten) f : fcoef B n t f -> sizen t 1 = n /\ ((rk t =? 1) || (rk t =? 2))%nat = true /\ (1 <= rk t)%nat.
Proof. intros [h [Hs _] Hf|[Hs _]]; unfold sizen, size, rk; rewrite Hs; cbn; auto. Qed.
Lemma fcoef_pad B n k (t : ten) f : fcoef B n t f -> fcoef B (n + k) (pad (rk t - 1) 0 k 0 t) (fun b => padz n (f b)).
Proof.
  intro H. apply fcoef_P in H as (pre & g & Hp & Ht & Hf).
  pose proof (P1_rk _ _ _ _ Ht) as Hr. nm (pad (rk t - 1) 0 k 0 t). rewrite Nat.add_0_l in H.
  apply (P_fcoef _ _ _ _ pre _ Hp H). intros b i Hb Hi. cbn [Nat.leb andb]. unfold padz. rewrite Nat.sub_0_r.
  destruct (i <? n)%nat eqn:E; b2p; [now apply Hf|reflexivity].
Qed.
Lemma fcoef_padz B n (t : ten) f : fcoef B n t f -> fcoef B n t (fun b => padz n (f b)).
Proof. intro H. eapply fcoef_ext; [exact H|]. intros b k Hb Hk. unfold padz. now btrue (k <? n)%nat. Qed.
Lemma fcoef_conj B n (t : ten) f : fcoef B n t f -> fcoef B n (tconj t) (fun b k => conj (f b k)).
Proof.
  intro H. apply fcoef_P in H as (pre & g & Hp & Ht & Hf). nm (tconj t).
  apply (P_fcoef _ _ _ _ pre _ Hp H). intros. f_equal. now apply Hf.
Qed.
Lemma fcoef_expand B n (t : ten) f : fcoef B n t f -> exists y, expand [B; n] t = Ok y /\ is2 y B n f.
Proof.
  intros [g Ht Hf|Ht].
  - destruct (expand_pre1 t [B] n g Ht) as (y & E & Hy). exists y. split; [exact E|]. apply P1_cons in Hy.
    eapply is2_ext; [exact Hy|]. intros. symmetry. now apply Hf.
  - now apply expand_self2.
Qed.
Lemma companion_mat B M (a : ten) f : fcoef B M a f ->
  exists A, companion a = Ok A /\ sizen A 1 = M /\ matc B M A (fun b => compm R (f b)) /\
    matc B M (tconj (mT A)) (fun b => comph R (fun k => conj (f b k))).
Proof.
  intro H. apply fcoef_P in H as (pre & g & Hp & Ht & Hf).
  destruct (companion_view R a pre M g Ht) as (A & E & HA). exists A. split; [exact E|].
  split; [unfold sizen, size; pose proof (P2_rk _ _ _ _ _ HA) as Hr; rewrite (proj1 HA), (nth_pre pre [M; M] _ 1) by lia; reflexivity|].
  nm (mT A). nm (tconj v). split.
  - destruct Hp as [->| ->].
    + apply P2_nil in HA. apply (matc_s _ HA). intros. unfold compm. now rewrite Hf by assumption.
    + apply P2_cons in HA. apply matc_b. eapply is3_ext; [exact HA|]. intros b i j Hb Hi Hj. cbn beta. unfold compm. now rewrite Hf by assumption.
  - destruct Hp as [->| ->].
    + apply P2_nil in H0. apply (matc_s _ H0). intros b i j Hb Hi Hj. unfold comph. rewrite Hf by assumption.
      destruct (j =? S i)%nat; [now rewrite conj_1|]. destruct (j =? 0)%nat; [now rewrite conj_opp|now rewrite conj_0].
    + apply P2_cons in H0. apply matc_b. eapply is3_ext; [exact H0|]. intros b i j Hb Hi Hj. cbn beta. unfold comph. rewrite Hf by assumption.
      destruct (j =? S i)%nat; [now rewrite conj_1|]. destruct (j =? 0)%nat; [now rewrite conj_opp|now rewrite conj_0].
Qed.
Lemma fcoef_diff B M (b a : ten) bf af : fcoef B (S M) b bf -> fcoef B M a af ->
  exists t, (let* b0a := tmul (slice (rk b - 1) None (Some 1%Z) b) a in tsub (slice (rk b - 1) (Some 1%Z) None b) b0a)%res = Ok t /\
    fcoef B M t (fun i k => bf i (S k) - bf i 0%nat * af i k).
Proof.
  intros Hb Ha. apply fcoef_P in Hb as (pb & gb & Hpb & Hb & Hfb). apply fcoef_P in Ha as (pa & ga & Hpa & Ha & Hfa).
  pose proof (P1_rk _ _ _ _ Hb) as Hrb.
  nm (slice (rk b - 1) None (Some 1%Z) b). match type of H with isP1 _ _ ?n _ => replace n with 1%nat in H by lia end.
  nm (slice (rk b - 1) (Some 1%Z) None b). match type of H0 with isP1 _ _ ?n _ => replace n with M in H0 by lia end.
  destruct Hpb as [->| ->], Hpa as [->| ->]; repeat ew2;
    (eexists; split; [reflexivity|]); (eapply P_fcoef; [|eassumption|]; [auto|]); intros i k Hi Hk;
    rewrite Hfb, (Hfb i 0%nat), Hfa by lia; rewrite ?(bi_lt M) by lia; reflexivity.
Qed.
Lemma fcoef_head B M (b : ten) bf : fcoef B (S M) b bf ->
  exists t, select (rk b - 1) 0 b = Ok t /\ feed B None None (Some t) (fun i _ _ => bf i 0%nat) /\
    feed B None None (Some (tconj t)) (fun i _ _ => conj (bf i 0%nat)).
Proof.
  intros [g Hb Hf|Hb]; rkt; cbn [Nat.sub].
  - rewrite (select_ok b 0 0 0) by (unfold size; rewrite (proj1 Hb); reflexivity). eexists; split; [reflexivity|].
    assert (H : is0 (sel 0 0 b) (g 0%nat)) by (split; [unfold sel; cbn; now rewrite (proj1 Hb)|apply Hb; lia]).
    split.
    + eapply fd_2_0; [exact H|]. intros i p k Hi Hp Hk. now apply Hf; lia.
    + eapply fd_2_0; [split; [exact (proj1 H)|unfold tconj, tmap; cbn [at_]; now rewrite (proj2 H)]|].
      intros i p k Hi Hp Hk. f_equal. now apply Hf; lia.
  - rewrite (select_ok b 1 0 0) by (unfold size; rewrite (proj1 Hb); reflexivity). eexists; split; [reflexivity|].
    apply is2_P in Hb. nm (sel 1 0 b). nm (tconj v). apply P1_nil in H, H0.
    split; (eapply fd_2_B; [eassumption|]); intros i p k Hi Hp Hk; reflexivity.
Qed.
Lemma fcoef_in B M (t : ten) f : fcoef B M t f -> inmat B M None (Some t) (fun b m _ => f b m).
Proof.
  intros [g Ht Hf|Ht]; [eapply in_M; [exact Ht|]|eapply in_BM; [exact Ht|]]; intros b i j Hb Hi Hj; auto.
Qed.
Lemma fcoef_out B M (t : ten) f : fcoef B M t f -> outmat B M None (Some t) None (fun b _ m => f b m).
Proof.
  intros [g Ht Hf|Ht]; [eapply out_M; [exact Ht|]|eapply out_BM; [exact Ht|]]; intros b i j Hb Hi Hj; auto.
Qed.

(** ** The direct forms *)
Section Forms.
Variables (e : env) (B N nb na M : nat) (b a x : ten) (bf af xf : nat -> nat -> R) (uf : option nat).
Hypotheses (HB : (1 <= B)%nat) (HN : (1 <= N)%nat) (Hnb : (1 <= nb)%nat) (EM : M = Nat.max na (nb - 1)) (HM : (1 <= M)%nat)
  (He : backend_ok e M) (Hu : unroll_ok uf)
  (Hb : fcoef B nb b bf) (Ha : fcoef B na a af) (Hx : is2 x B N xf).
Let bp i := padz nb (bf i).
Let ap i := padz na (af i).

Lemma pad_b : exists b', (if (nb <? na + 1)%nat then pad (rk b - 1) 0 (na + 1 - nb) 0 b else b) = b' /\ fcoef B (S M) b' bp.
Proof.
  eexists; split; [reflexivity|]. unfold bp. destruct (nb <? na + 1)%nat eqn:E; b2p.
  - replace (S M) with (nb + (na + 1 - nb))%nat by lia. now apply fcoef_pad.
  - replace (S M) with nb by lia. now apply fcoef_padz.
Qed.
Lemma pad_a : exists a', (if (na + 1 <? nb)%nat then pad (rk a - 1) 0 (nb - na - 1) 0 a else a) = a' /\ fcoef B M a' ap.
Proof.
  eexists; split; [reflexivity|]. unfold ap. destruct (na + 1 <? nb)%nat eqn:E; b2p.
  - replace M with (na + (nb - na - 1))%nat by lia. now apply fcoef_pad.
  - replace M with na by lia. now apply fcoef_padz.
Qed.
Lemma uf1_ok : (1 <= match uf with Some u => u | None => 1 end)%nat.
Proof. unfold unroll_ok in Hu. destruct uf; auto. Qed.

Lemma ssm_df2_spec zi z0 : init B M zi z0 ->
  exists y zf, ssm_lfilter e Df2 uf b a x zi = Ok (y, zf) /\
    is2 y B N (fun i => df2_y M (bp i) (ap i) (z0 i) (xf i)) /\
    match zi with
    | None => zf = None
    | Some _ => exists z, zf = Some z /\ is2 z B M (fun i => df2_z M (ap i) (z0 i) (xf i) N)
    end.
Proof.
  intro Hz. unfold ssm_lfilter.
  rewrite (proj1 (fcoef_size _ _ _ _ Hb)), (proj1 (fcoef_size _ _ _ _ Ha)).
  destruct pad_b as (b' & -> & Hb'). destruct pad_a as (a' & -> & Ha').
  destruct (companion_mat B M a' ap Ha') as (A & -> & _ & HA & _). cbn [bind].
  destruct (fcoef_diff B M b' a' bp ap Hb' Ha') as (C & EC & HC).
  unfold bind in EC |- *. destruct (tmul _ a') as [t|]; [|discriminate]. rewrite EC.
  destruct (fcoef_head B M b' bp Hb') as (D & -> & HD & _).
  destruct (state_space_spec R e B N M None None A x None (Some C) (Some D) zi uf None (fun i => compm R (ap i))
    (fun i n _ => xf i n) (fun _ i _ => if (i =? 0)%nat then 1 else 0) (fun i _ m => bp i (S m) - bp i 0%nat * ap i m)
    (fun i _ _ => bp i 0%nat) z0) as (y & zf & E & Hy & Hzf); auto.
  { apply in_none2. intros i m k Hi Hm Hk. unfold unit3. now replace k with 0%nat by lia. }
  { now apply (fcoef_out B M C (fun i m => bp i (S m) - bp i 0%nat * ap i m)). }
  exists y, zf. split; [exact E|]. split.
  - cbn [sigv] in Hy. eapply is2_ext; [exact Hy|]. intros i n Hi Hn. cbn beta. now apply (ss_df2_y R M (bp i)).
  - destruct zi; [|exact Hzf]. destruct Hzf as (z & -> & Hzf). exists z. split; [reflexivity|].
    eapply is2_ext; [exact Hzf|]. intros i k Hi Hk. cbn beta. now apply ss_df2_h.
Qed.

Let bc i k := conj (bp i k).
Let ac i k := conj (ap i k).
Lemma ssm_tdf2_spec zi z0 : init B M zi z0 ->
  exists y zf, ssm_lfilter e Tdf2 uf b a x zi = Ok (y, zf) /\
    is2 y B N (fun i => tdf2_y M (bc i) (ac i) (z0 i) (xf i)) /\
    match zi with
    | None => zf = None
    | Some _ => exists z, zf = Some z /\ is2 z B M (fun i => tdf2_z M (bc i) (ac i) (z0 i) (xf i) N)
    end.
Proof.
  intro Hz. unfold ssm_lfilter.
  rewrite (proj1 (fcoef_size _ _ _ _ Hb)), (proj1 (fcoef_size _ _ _ _ Ha)).
  destruct pad_b as (b' & -> & Hb'). destruct pad_a as (a' & -> & Ha').
  destruct (companion_mat B M a' ap Ha') as (A & -> & _ & _ & HA). cbn [bind].
  destruct (fcoef_diff B M b' a' bp ap Hb' Ha') as (C & EC & HC).
  unfold bind in EC |- *. destruct (tmul _ a') as [t|]; [|discriminate]. rewrite EC.
  destruct (fcoef_head B M b' bp Hb') as (D & -> & _ & HD).
  destruct (state_space_spec R e B N M None None (tconj (mT A)) x (Some (tconj C)) None (Some (tconj D)) zi uf (Some 0%Z)
    (fun i => comph R (ac i)) (fun i n _ => xf i n) (fun i m _ => bc i (S m) - bc i 0%nat * ac i m) (fun i _ m => unit3 0 0 m)
    (fun i _ _ => bc i 0%nat) z0) as (y & zf & E & Hy & Hzf); auto.
  { apply (fcoef_in B M (tconj C) (fun i m => bc i (S m) - bc i 0%nat * ac i m)).
    eapply fcoef_ext; [apply fcoef_conj; exact HC|]. intros i k Hi Hk. unfold bc, ac. cbn beta.
    now rewrite conj_sub, conj_mul. }
  { apply (out_idx R B M 0%Z 0%nat); [now apply (pyidx_nat M 0)|]. intros i p m Hi Hp Hm. reflexivity. }
  exists y, zf. split; [exact E|]. split.
  - cbn [sigv] in Hy. eapply is2_ext; [exact Hy|]. intros i n Hi Hn. cbn beta. now apply (ss_tdf2_y R M (bc i)).
  - destruct zi; [|exact Hzf]. destruct Hzf as (z & -> & Hzf). exists z. split; [reflexivity|].
    eapply is2_ext; [exact Hzf|]. intros i k Hi Hk. cbn beta. now apply ss_tdf2_h.
Qed.

Lemma ssm_df1_spec zi :
  exists y, ssm_lfilter e Df1 uf b a x zi = Ok (y, None) /\
    exists yf, is2 y B N yf /\ forall i n, (i < B)%nat -> (n < N)%nat -> solves_filter M M (bc i) (ap i) (xf i) (yf i) n.
Proof.
  unfold ssm_lfilter.
  rewrite (proj1 (fcoef_size _ _ _ _ Hb)), (proj1 (fcoef_size _ _ _ _ Ha)).
  destruct pad_b as (b' & -> & Hb'). destruct pad_a as (a' & -> & Ha').
  destruct (companion_mat B M a' ap Ha') as (A & -> & ES & HA & _). cbn [bind].
  rewrite ES, (proj1 (fcoef_size _ _ _ _ Hb')). replace (size x 0) with B by (unfold size; now rewrite (proj1 Hx)).
  destruct (fcoef_expand _ _ _ _ Hb') as (bb & -> & Hbb). cbn [bind].
  destruct (fir_transposed_none B N M bb x bp xf Hbb Hx HM) as (u & -> & Hux). cbn [bind].
  set (U := fun i n m => if (m =? 0)%nat then conv M (bc i) (xf i) n else 0).
  destruct (state_space_recursion_spec R e B N M A (zeros [B; M]) u (fun i => compm R (ap i)) (fun _ _ => 0) U
    (match uf with Some k => k | None => 1%nat end) (Some 0%Z)) as (y & E & Hy); auto.
  { apply uf1_ok. }
  { now apply backend_helion. }
  { pose proof (P1_full [B] M (@r0 R)) as H. apply is2_P1. fin H; auto. }
  { eapply drive_2; [exact Hux|]. intros. reflexivity. }
  { exists 0%nat. now apply (pyidx_nat M 0). }
  rewrite E. cbn [bind]. exists y. split; [reflexivity|]. specialize (Hy 0%nat (pyidx_nat M 0 ltac:(lia))).
  eexists; split; [exact Hy|]. intros i n Hi Hn. unfold solves_filter. cbn beta.
  exact (allpole_df1 R M (ap i) (conv M (bc i) (xf i)) (fun _ => 0) (U i) n HM (fun _ _ _ => eq_refl) (fun _ _ => eq_refl)).
Qed.
Lemma ssm_tdf1_spec zi :
  exists y, ssm_lfilter e Tdf1 uf b a x zi = Ok (y, None) /\
    exists yf, is2 y B N yf /\ forall i n, (i < B)%nat -> (n < N)%nat -> solves_filter M M (bp i) (ac i) (xf i) (yf i) n.
Proof.
  unfold ssm_lfilter.
  rewrite (proj1 (fcoef_size _ _ _ _ Hb)), (proj1 (fcoef_size _ _ _ _ Ha)).
  destruct pad_b as (b' & -> & Hb'). destruct pad_a as (a' & -> & Ha').
  destruct (companion_mat B M a' ap Ha') as (A & -> & ES & _ & HA). cbn [bind].
  rewrite ES, (proj1 (fcoef_size _ _ _ _ Hb')). replace (size x 0) with B by (unfold size; now rewrite (proj1 Hx)).
  destruct (fcoef_expand _ _ _ _ (fcoef_conj _ _ _ _ Hb')) as (bb & -> & Hbb). cbn [bind].
  set (U := fun i n m => if (m =? 0)%nat then xf i n else 0).
  destruct (state_space_recursion_spec R e B N M (tconj (mT A)) (zeros [B; M]) x (fun i => comph R (ac i)) (fun _ _ => 0) U
    (match uf with Some k => k | None => 1%nat end) (Some 0%Z)) as (w & E & Hw); auto.
  { apply uf1_ok. }
  { now apply backend_helion. }
  { pose proof (P1_full [B] M (@r0 R)) as H. apply is2_P1. fin H; auto. }
  { eapply drive_2; [exact Hx|]. intros. reflexivity. }
  { exists 0%nat. now apply (pyidx_nat M 0). }
  rewrite E. cbn [bind]. specialize (Hw 0%nat (pyidx_nat M 0 ltac:(lia))).
  destruct (fir_transposed_none B N M bb w _ _ Hbb Hw HM) as (y & Ey & Hy). exists y. split; [exact Ey|].
  eexists; split; [exact Hy|]. intros i n Hi Hn.
  set (W := fun n => state M (fun _ => comph R (ac i)) (fun _ => 0) (U i) (S n) 0%nat).
  apply (fir_of_allpole R M M (bp i) (ac i) (xf i) W _ N); [| |exact Hn].
  - intros m Hm. exact (allpole_tdf1 R M (ac i) (xf i) (fun _ => 0) (U i) m HM (fun _ _ _ => eq_refl) (fun _ _ => eq_refl)).
  - intros m Hm. unfold conv. apply bsum_ext. intros k Hk. now rewrite conj_conj.
Qed.
End Forms.

(** ** All forms of lfilter *)
(** Which coefficients the code conjugates in each form. *)
Definition lf_num (fm : form) (f : nat -> R) (k : nat) : R := match fm with Tdf2 | Df1 => conj (f k) | _ => f k end.
Definition lf_den (fm : form) (f : nat -> R) (k : nat) : R := match fm with Tdf2 | Tdf1 => conj (f k) | _ => f k end.
(** Output and final state of each form; df1 and tdf1 ignore the state. *)
Definition lf_y (fm : form) (M : nat) (b a z x : nat -> R) : nat -> R :=
  match fm with
  | Df2 => df2_y M b a z x
  | Tdf2 => tdf2_y M b a z x
  | _ => tdf2_y M b a (fun _ => 0) x
  end.
Definition lf_z (fm : form) (M : nat) (b a z x : nat -> R) (N : nat) : nat -> R :=
  match fm with Df2 => df2_z M a z x N | _ => tdf2_z M b a z x N end.
Definition has_state (fm : form) : bool := match fm with Df2 | Tdf2 => true | _ => false end.

Lemma lfilter_2d e fm uf (b a x : ten) zi B N nb na bf af xf : is2 x B N xf -> fcoef B nb b bf -> fcoef B na a af ->
  lfilter_ssm e b a x zi fm uf = ssm_lfilter e fm uf b a x zi.
Proof.
  intros Hx Hb Ha. unfold lfilter_ssm, lfilter_wrap. rkt. cbn [Nat.eqb Nat.ltb Nat.leb andb bind].
  destruct (fcoef_size _ _ _ _ Hb) as (_ & -> & _). destruct (fcoef_size _ _ _ _ Ha) as (_ & -> & _).
  destruct (ssm_lfilter e fm uf b a x zi) as [(y & zf)|]; reflexivity.
Qed.

Theorem lfilter_spec e B N nb na M (b a x : ten) bf af xf zi z0 uf fm :
  (1 <= B)%nat -> (1 <= N)%nat -> (1 <= nb)%nat -> M = Nat.max na (nb - 1) -> (1 <= M)%nat ->
  backend_ok e M -> unroll_ok uf -> fm <> OtherForm ->
  fcoef B nb b bf -> fcoef B na a af -> is2 x B N xf -> (has_state fm = true -> init B M zi z0) ->
  exists y zf, lfilter_ssm e b a x zi fm uf = Ok (y, zf) /\
    is2 y B N (fun i => lf_y fm M (padz nb (lf_num fm (bf i))) (padz na (lf_den fm (af i))) (z0 i) (xf i)) /\
    match zi, has_state fm with
    | Some _, true => exists z, zf = Some z /\
        is2 z B M (fun i => lf_z fm M (padz nb (lf_num fm (bf i))) (padz na (lf_den fm (af i))) (z0 i) (xf i) N)
    | _, _ => zf = None
    end.
Proof.
  intros HB HN Hnb EM HM He Hu Hfm Hb Ha Hx Hz.
  rewrite (lfilter_2d e fm uf b a x zi B N nb na bf af xf Hx Hb Ha).
  assert (Hc : forall n (f : nat -> nat -> R) i k, conj (padz n (f i) k) = padz n (fun k => conj (f i k)) k :> R) by (intros; apply padz_conj).
  destruct fm; cbn [has_state] in *; [| | | |congruence]; try specialize (Hz eq_refl).
  - destruct (ssm_df2_spec e B N nb na M b a x bf af xf uf HB HN Hnb EM HM He Hu Hb Ha Hx zi z0 Hz) as (y & zf & E & Hy & Hzf).
    exists y, zf. split; [exact E|]. split; [exact Hy|]. destruct zi; exact Hzf.
  - destruct (ssm_tdf2_spec e B N nb na M b a x bf af xf uf HB HN Hnb EM HM He Hu Hb Ha Hx zi z0 Hz) as (y & zf & E & Hy & Hzf).
    exists y, zf. split; [exact E|]. split.
    + eapply is2_ext; [exact Hy|]. intros i n Hi Hn. cbn beta. cbn [lf_y].
      apply tdf2_y_ext; auto; intros; apply Hc.
    + destruct zi; [|exact Hzf]. destruct Hzf as (z & -> & Hzf). exists z. split; [reflexivity|].
      eapply is2_ext; [exact Hzf|]. intros i k Hi Hk. cbn beta. cbn [lf_z]. apply tdf2_z_ext; auto; intros; apply Hc.
  - destruct (ssm_df1_spec e B N nb na M b a x bf af xf uf HB HN Hnb EM HM He Hu Hb Ha Hx zi) as (y & E & yf & Hy & Hs).
    exists y, None. split; [exact E|]. split; [|destruct zi; reflexivity].
    eapply is2_ext; [exact Hy|]. intros i n Hi Hn. cbn beta. cbn [lf_y].
    rewrite (solves_filter_tdf2 R M _ _ _ _ N HM (fun n => Hs i n Hi) n Hn). apply tdf2_y_ext; auto; intros; apply Hc.
  - destruct (ssm_tdf1_spec e B N nb na M b a x bf af xf uf HB HN Hnb EM HM He Hu Hb Ha Hx zi) as (y & E & yf & Hy & Hs).
    exists y, None. split; [exact E|]. split; [|destruct zi; reflexivity].
    eapply is2_ext; [exact Hy|]. intros i n Hi Hn. cbn beta. cbn [lf_y].
    rewrite (solves_filter_tdf2 R M _ _ _ _ N HM (fun n => Hs i n Hi) n Hn). apply tdf2_y_ext; auto; intros; apply Hc.
Qed.

Lemma lf_y_solves fm nb na M (b a z x : nat -> R) n : (1 <= nb)%nat -> M = Nat.max na (nb - 1) -> (1 <= M)%nat ->
  (forall k, (k < M)%nat -> z k = 0) ->
  solves_filter (nb - 1) na b a x (lf_y fm M (padz nb b) (padz na a) z x) n.
Proof.
  intros Hnb EM HM Hz. apply (solves_filter_pad R (nb - 1) na M); [lia|lia|].
  replace (S (nb - 1)) with nb by lia.
  destruct fm; cbn [lf_y]; [now apply df2_solves|apply tdf2_solves; auto ..].
Qed.
Lemma lf_y_ext fm M b b' a a' z z' x x' n : (1 <= M)%nat ->
  (forall i, (i <= M)%nat -> b i = b' i :> R) -> (forall i, (i < M)%nat -> a i = a' i) ->
  (forall i, (i < M)%nat -> z i = z' i) -> (forall k, (k <= n)%nat -> x k = x' k) ->
  lf_y fm M b a z x n = lf_y fm M b' a' z' x' n.
Proof. intros. destruct fm; cbn [lf_y]; [now apply df2_y_ext|now apply tdf2_y_ext ..]. Qed.
Lemma lf_z_ext fm M b b' a a' z z' x x' n i : (i < M)%nat ->
  (forall i, (i <= M)%nat -> b i = b' i :> R) -> (forall i, (i < M)%nat -> a i = a' i) ->
  (forall i, (i < M)%nat -> z i = z' i) -> (forall k, (k < n)%nat -> x k = x' k) ->
  lf_z fm M b a z x n i = lf_z fm M b' a' z' x' n i.
Proof. intros. destruct fm; cbn [lf_z]; [now apply df2_z_ext|now apply tdf2_z_ext ..]. Qed.
Lemma lf_y_lin fm M (b a z1 z2 x1 x2 : nat -> R) c1 c2 n : (1 <= M)%nat ->
  lf_y fm M b a (fun k => c1 * z1 k + c2 * z2 k) (fun k => c1 * x1 k + c2 * x2 k) n
  = c1 * lf_y fm M b a z1 x1 n + c2 * lf_y fm M b a z2 x2 n.
Proof.
  intro HM. destruct fm; cbn [lf_y]; try apply df2_y_lin; try apply tdf2_y_lin;
    rewrite <- tdf2_y_lin; apply tdf2_y_ext; auto; intros; ring.
Qed.
Lemma lf_z_lin fm M (b a z1 z2 x1 x2 : nat -> R) c1 c2 n i :
  lf_z fm M b a (fun k => c1 * z1 k + c2 * z2 k) (fun k => c1 * x1 k + c2 * x2 k) n i
  = c1 * lf_z fm M b a z1 x1 n i + c2 * lf_z fm M b a z2 x2 n i.
Proof. destruct fm; cbn [lf_z]; try apply df2_z_lin; apply tdf2_z_lin. Qed.
Lemma lf_y_shift fm M (b a z x : nat -> R) n1 n : has_state fm = true ->
  lf_y fm M b a z x (n1 + n) = lf_y fm M b a (lf_z fm M b a z x n1) (fun k => x (n1 + k)%nat) n.
Proof. destruct fm; try discriminate; intros _; cbn [lf_y lf_z]; [apply df2_y_shift|apply tdf2_y_shift]. Qed.
Lemma lf_z_shift fm M (b a z x : nat -> R) n1 n i :
  lf_z fm M b a z x (n1 + n) i = lf_z fm M b a (lf_z fm M b a z x n1) (fun k => x (n1 + k)%nat) n i.
Proof. destruct fm; cbn [lf_z]; try apply df2_shift; apply tdf2_shift. Qed.
End S.
Arguments lf_num {R}. Arguments lf_den {R}. Arguments lf_y {R}. Arguments lf_z {R}.
