(** Rounding errors of fir and lfilter (philtorch/lti/filtering.py:145-333). *)
From Coq Require Import List Arith Lia ZArith Bool Ring.
From Verif Require Import Scalar Ordered Spec SpecRound SpecFilter Tensor TensorLemmas TensorOps TensorAlg TensorTac TensorList Shapes Algebra M_Mat P_Mat
  M_Kernels M_LtiRecur M_LtiSsm P_Kernels P_LtiSsm P_SsSpec P_Filter M_LtiFilter P_LtiFilter P_Round P_Round5.
Import ListNotations.
Open Scope cr_scope.

(** ** fir over bare operations *)
Section Raw.
Variable R : cops.
Notation ten := (tensor (car R)).
Lemma r_conv1d (x w : ten) B L K f g : is3 x 1 B L f -> is3 w B 1 K g -> (1 <= K)%nat -> (K <= L)%nat ->
  exists y, conv1d_groups x w B = Ok y /\
    is3 y 1 B (L - K + 1) (fun o c n => bsum K (fun k => g c 0%nat k * f o c (n + k)%nat)).
Proof.
  intros [Sx Hx] [Sw Hw] HK HL. unfold conv1d_groups, rk, size. rewrite Sx, Sw. cbn [length nth Nat.eqb]. rewrite !Nat.eqb_refl.
  btrue (1 <=? K)%nat. btrue (K <=? L)%nat. cbn [andb]. eexists; split; [reflexivity|]. split; [reflexivity|].
  intros o c n Ho Hc Hn. cbn [at_ nth]. apply bsum_ext. intros k Hk. rewrite Hw, Hx by lia. reflexivity.
Qed.
Lemma r_convt1d (x w : ten) B L K f g : is3 x 1 B L f -> is3 w B 1 K g -> (1 <= K)%nat ->
  exists y, conv_transpose1d_groups x w B = Ok y /\
    is3 y 1 B (L + K - 1) (fun o c n => bsum K (fun k => if (k <=? n) && (n - k <? L) then g c 0%nat k * f o c (n - k)%nat else 0)).
Proof.
  intros [Sx Hx] [Sw Hw] HK. unfold conv_transpose1d_groups, rk, size. rewrite Sx, Sw. cbn [length nth Nat.eqb]. rewrite !Nat.eqb_refl.
  btrue (1 <=? K)%nat. cbn [andb]. eexists; split; [reflexivity|]. split; [reflexivity|].
  intros o c n Ho Hc Hn. cbn [at_ nth]. apply bsum_ext. intros k Hk.
  destruct ((k <=? n) && (n - k <? L)) eqn:E; [|reflexivity]. b2p. rewrite Hw, Hx by lia. reflexivity.
Qed.
Lemma r_squeeze0_3 (t : ten) n m f : is3 t 1 n m f -> is2 (squeeze 0 t) n m (f 0%nat).
Proof.
  intros [Hs Hf]. rewrite squeeze_sel_raw by (unfold size; now rewrite Hs). split.
  - unfold sel. cbn [shape]. now rewrite Hs.
  - intros i j Hi Hj. unfold sel. cbn [at_]. cbn [ins firstn skipn app]. apply Hf; lia.
Qed.
Lemma r_unsq0_2 (t : ten) n m f : is2 t n m f -> is3 (unsqueeze 0 t) 1 n m (fun _ => f).
Proof. intro H. apply is2_P in H. nm (unsqueeze 0 t). now apply is3_P. Qed.
Lemma r_unsq1_2 (t : ten) n m f : is2 t n m f -> is3 (unsqueeze 1 t) n 1 m (fun i _ => f i).
Proof. intro H. apply is2_P in H. nm (unsqueeze 1 t). now apply is3_P. Qed.
Lemma r_tconj_3 (t : ten) n m p f : is3 t n m p f -> is3 (tconj t) n m p (fun i j k => conj (f i j k)).
Proof. intros [Hs Hf]. split; [exact Hs|]. intros. unfold tconj, tmap. cbn [at_]. now rewrite Hf. Qed.
Lemma r_padZ (t : ten) pre n f d (l r : nat) : isP1 t pre n f -> d = length pre ->
  exists y, padZ d (Z.of_nat l) (Z.of_nat r) 0 t = Ok y /\
    isP1 y pre (l + n + r) (fun q i => if (l <=? i) && (i <? l + n) then f q (i - l)%nat else 0).
Proof.
  intros H ->. unfold padZ.
  assert (Hn : size t (length pre) = n) by (unfold size; rewrite (proj1 H), (nth_pre pre [n] _ 0) by lia; reflexivity).
  rewrite Hn. replace (Z.of_nat n + Z.of_nat l + Z.of_nat r <? 0)%Z with false by (symmetry; apply Z.ltb_ge; lia).
  rewrite !Nat2Z.id. replace (Z.max 0 (- Z.of_nat l)) with 0%Z by lia.
  replace (Z.of_nat n - Z.max 0 (- Z.of_nat r))%Z with (Z.of_nat n) by lia.
  nm (slice (length pre) (Some 0%Z) (Some (Z.of_nat n)) t). nm (pad (length pre) l r 0 v).
  eexists; split; [reflexivity|]. fin H1; [lia|]. intros q i Hq Hi. rewrite ?Nat.sub_0_r. reflexivity.
Qed.
Lemma r_fir_conv B N M (b p : ten) bf pf : is2 b B (S M) bf -> is2 p B (M + N) pf -> (1 <= N)%nat ->
  exists y, conv1d_groups (unsqueeze 0 p) (unsqueeze 1 (flip 1 b)) B = Ok y /\
    is2 (squeeze 0 y) B N (fun i n => bsum (S M) (fun k => bf i (M - k)%nat * pf i (n + k)%nat)).
Proof.
  intros Hb Hp HN.
  assert (Hb1 : is2 (flip 1 b) B (S M) (fun i k => bf i (M - k)%nat)).
  { apply is2_P1 in Hb. nm (flip 1 b). apply is2_P1. fin H; auto. intros q i Hq Hi. f_equal. lia. }
  destruct (r_conv1d _ _ B (M + N) (S M) _ _ (r_unsq0_2 _ _ _ _ Hp) (r_unsq1_2 _ _ _ _ Hb1)) as (y & E & Hy); try lia.
  exists y. split; [exact E|]. apply r_squeeze0_3 in Hy. replace (M + N - S M + 1)%nat with N in Hy by lia. exact Hy.
Qed.
Lemma r_fir_direct_none B N M (b x : ten) bf xf : is2 b B (S M) bf -> is2 x B N xf -> (1 <= N)%nat ->
  exists y, fir b x None false = Ok (y, None) /\
    is2 y B N (fun i n => bsum (S M) (fun k => bf i (M - k)%nat * (if (M <=? n + k)%nat then xf i (n + k - M)%nat else 0))).
Proof.
  intros Hb Hx HN. unfold fir. rkt. cbn [Nat.eqb]. unfold size. rewrite (proj1 Hb), (proj1 Hx). cbn [nth]. rewrite Nat.eqb_refl.
  replace (Z.of_nat (S M) - 1)%Z with (Z.of_nat M) by lia.
  apply is2_P1 in Hx. destruct (r_padZ x [B] N _ 1 M 0 Hx eq_refl) as (p & Ep & Hp). cbn [Z.of_nat] in Ep. rewrite Ep.
  cbn [bind]. rewrite Nat.add_0_r in Hp. apply P1_cons in Hp. cbn [nth] in Hp.
  destruct (r_fir_conv B N M b p bf _ Hb Hp HN) as (y & Ey & Hy). rewrite Ey. cbn [bind].
  eexists; split; [reflexivity|]. eapply is2_ext; [exact Hy|]. intros i n Hi Hn. cbn beta.
  apply bsum_ext. intros k Hk. f_equal. btrue (n + k <? M + N)%nat. now rewrite andb_true_r.
Qed.
Lemma r_fir_direct_some B N M (b x zi : ten) bf xf zf : is2 b B (S M) bf -> is2 x B N xf -> is2 zi B M zf ->
  (1 <= N)%nat -> (1 <= M)%nat ->
  exists y z, fir b x (Some zi) false = Ok (y, Some z) /\
    is2 y B N (fun i n => bsum (S M) (fun k => bf i (M - k)%nat * (if (n + k <? M)%nat then zf i (M - 1 - (n + k))%nat else xf i (n + k - M)%nat))) /\
    is2 z B M (fun i k => if (N + (M - 1 - k) <? M)%nat then zf i (M - 1 - (N + (M - 1 - k)))%nat else xf i (N + (M - 1 - k) - M)%nat).
Proof.
  intros Hb Hx Hz HN HM. unfold fir. rkt. cbn [Nat.eqb]. unfold size. rewrite (proj1 Hb), (proj1 Hx), (proj1 Hz). cbn [nth]. rewrite !Nat.eqb_refl.
  replace (Z.of_nat (S M) - 1)%Z with (Z.of_nat M) by lia. rewrite Z.eqb_refl. cbn [andb].
  apply is2_P1 in Hx, Hz. nm (flip 1 zi). cat2. rename w into p.
  assert (Hp : is2 p B (M + N) (fun i n => if (n <? M)%nat then zf i (M - 1 - n)%nat else xf i (n - M)%nat)).
  { apply P1_cons in H0. eapply is2_ext; [exact H0|]. intros; reflexivity. }
  pose proof Hp as Hp1. apply is2_P1 in Hp1.
  destruct (r_fir_conv B N M b p bf _ Hb Hp HN) as (y & Ey & Hy). rewrite Ey. cbn [bind].
  nm (slice 1 (Some (- Z.of_nat M)%Z) None p). nm (flip 1 v0).
  do 2 eexists; split; [reflexivity|]. split.
  - exact Hy.
  - apply is2_P1. fin H2; [lia|]. intros q k Hq Hk. apply vld_1_inv in Hq as (i & -> & Hi). cbn [nth].
    replace (M + N - M + (M + N - (M + N - M) - 1 - k))%nat with (N + (M - 1 - k))%nat by lia. reflexivity.
Qed.
Definition rconvt (M N : nat) (b x : nat -> R) (n : nat) : R :=
  bsum (S M) (fun k => if (k <=? n) && (n - k <? N) then b k * x (n - k)%nat else 0).
Lemma r_fir_convt B N M (b x : ten) bf xf : is2 b B (S M) bf -> is2 x B N xf ->
  exists y, conv_transpose1d_groups (unsqueeze 0 x) (tconj (unsqueeze 1 b)) B = Ok y /\
    is2 (squeeze 0 y) B (N + M) (fun i n => rconvt M N (fun k => conj (bf i k)) (xf i) n).
Proof.
  intros Hb Hx.
  destruct (r_convt1d _ _ B N (S M) _ _ (r_unsq0_2 _ _ _ _ Hx) (r_tconj_3 _ _ _ _ _ (r_unsq1_2 _ _ _ _ Hb))) as (y & E & Hy); try lia.
  exists y. split; [exact E|]. apply r_squeeze0_3 in Hy. replace (N + S M - 1)%nat with (N + M)%nat in Hy by lia. exact Hy.
Qed.
Lemma r_fir_transposed_none B N M (b x : ten) bf xf : is2 b B (S M) bf -> is2 x B N xf -> (1 <= M)%nat ->
  exists y, fir b x None true = Ok (y, None) /\ is2 y B N (fun i n => rconvt M N (fun k => conj (bf i k)) (xf i) n).
Proof.
  intros Hb Hx HM. unfold fir. rkt. cbn [Nat.eqb]. unfold size. rewrite (proj1 Hb), (proj1 Hx). cbn [nth]. rewrite Nat.eqb_refl.
  replace (Z.of_nat (S M) - 1)%Z with (Z.of_nat M) by lia.
  destruct (r_fir_convt B N M b x bf xf Hb Hx) as (y & Ey & Hy). rewrite Ey. cbn [bind].
  set (v := squeeze 0 y) in *. clearbody v. apply is2_P1 in Hy. nm (slice 1 None (Some (- Z.of_nat M)%Z) v).
  eexists; split; [reflexivity|]. apply is2_P1. fin H; [lia|]. intros q n Hq Hn. now rewrite Nat.add_0_l.
Qed.
Lemma r_fir_transposed_some B N M (b x zi : ten) bf xf zf : is2 b B (S M) bf -> is2 x B N xf -> is2 zi B M zf ->
  (1 <= M)%nat -> (M <= N)%nat ->
  exists y z, fir b x (Some zi) true = Ok (y, Some z) /\
    is2 y B N (fun i n => if (n <? M)%nat then zf i n + rconvt M N (fun k => conj (bf i k)) (xf i) n else rconvt M N (fun k => conj (bf i k)) (xf i) n) /\
    is2 z B M (fun i k => rconvt M N (fun k => conj (bf i k)) (xf i) (N + k)).
Proof.
  intros Hb Hx Hz HM HN. unfold fir. rkt. cbn [Nat.eqb]. unfold size. rewrite (proj1 Hb), (proj1 Hx), (proj1 Hz). cbn [nth]. rewrite !Nat.eqb_refl.
  replace (Z.of_nat (S M) - 1)%Z with (Z.of_nat M) by lia. rewrite Z.eqb_refl. cbn [andb].
  destruct (r_fir_convt B N M b x bf xf Hb Hx) as (y & Ey & Hy). rewrite Ey. cbn [bind].
  set (v := squeeze 0 y) in *. clearbody v. apply is2_P1 in Hy, Hz.
  nm (slice 1 (Some (- Z.of_nat M)%Z) None v). nm (slice 1 None (Some (- Z.of_nat M)%Z) v).
  assert (Hv1 : is2 v1 B N (fun i n => rconvt M N (fun k => conj (bf i k)) (xf i) n)).
  { apply is2_P1. fin H0; [lia|]. intros q n Hq Hn. now rewrite Nat.add_0_l. }
  apply is2_P1 in Hv1. clear H0.
  nm (slice 1 None (Some (Z.of_nat M)) v1). nm (slice 1 (Some (Z.of_nat M)) None v1).
  match type of H0 with isP1 _ _ ?n _ => replace n with M in H0 by lia end.
  ew2. cat2. do 2 eexists; split; [reflexivity|]. split.
  - apply is2_P1. match goal with H : isP1 w0 _ _ _ |- _ => fin H end; [lia|]. intros q n Hq Hn.
    destruct (n <? M)%nat eqn:E; b2p; rewrite ?Nat.add_0_l, ?(bi_lt M) by lia; [reflexivity|].
    now replace (M + (n - M))%nat with n by lia.
  - apply is2_P1. fin H; [lia|]. intros q k Hq Hk. now replace (N + M - M + k)%nat with (N + k)%nat by lia.
Qed.
End Raw.

Section S.
Variable F : ofield.
Add Ring Rr6 : (r_th F).
Variables (u : F) (fadd fmul fsub : F -> F -> F).
Hypothesis HR : rounds u fadd fmul fsub.
Notation Fl := (flops F fadd fmul fsub).
Notation ten := (tensor (car Fl)).
Notation bnd := (bnd F u).
Let Hu : ole (0 : F) u = true := rd_u _ _ _ _ HR.
Notation Q := (fun k => rpow (1 + u) k).
Let bmono := bnd_mono F u Hu.
Let badd := bnd_add F u Hu fadd fmul fsub HR.
Let bmul := bnd_mul F u Hu fadd fmul fsub HR.
Let bsub := bnd_sub F u Hu fadd fmul fsub HR.
Let dot := dotb F u fadd fmul fsub HR.
Let prod := prodl F u fadd fmul fsub HR.
Let exm := xmul F u fadd fmul fsub HR.
Let bcomp := bnd_comp F u fadd fmul fsub HR.
Notation ab f := (fun k => oabs (f k)).
Notation nab f := (fun k => - oabs (f k)).

(** ** Convolutions *)
Lemma rconvt_bnd M N c (b xv xe xm : nat -> F) n : (forall m, (m <= n)%nat -> (m < N)%nat -> bnd c (xv m) (xe m) (xm m)) ->
  bnd (c + S M) (rconvt Fl M N b xv n) (rconvt F M N b xe n) (rconvt F M N (ab b) xm n).
Proof.
  intro H. unfold rconvt. apply dot. intros k Hk. destruct ((k <=? n) && (n - k <? N)) eqn:E; [|apply bnd_0]. b2p.
  cbn [rmul flops]. apply (bmono (S (0 + c))); [lia|]. apply bmul; [apply bnd_leaf|apply H; lia].
Qed.
Lemma rconvt_head M N (b x : nat -> F) n : (n < N)%nat -> rconvt F M N b x n = conv M b x n.
Proof. intro Hn. unfold rconvt. now apply (convt_head F). Qed.
Lemma dly_abs (x : nat -> F) n k : oabs (dly x k n) = dly (ab x) k n.
Proof. unfold dly. destruct (k <=? n)%nat; [reflexivity|apply abs_0]. Qed.

(** fir, computed value by computed value. *)
Lemma fir_none_bnd B N M (b x : ten) (bf xf : nat -> nat -> F) tr : is2 b B (S M) bf -> is2 x B N xf -> (1 <= N)%nat -> (tr = true -> (1 <= M)%nat) ->
  exists y (yv : nat -> nat -> F), fir b x None tr = Ok (y, None) /\ is2 y B N yv /\
    forall i n, (i < B)%nat -> (n < N)%nat -> bnd (S M) (yv i n) (conv M (bf i) (xf i) n) (conv M (ab (bf i)) (ab (xf i)) n).
Proof.
  intros Hb Hx HN HM. destruct tr.
  - destruct (r_fir_transposed_none Fl B N M b x bf xf Hb Hx (HM eq_refl)) as (y & E & Hy).
    eexists y, _. split; [exact E|]. split; [exact Hy|]. intros i n Hi Hn. rewrite <- !(rconvt_head M N) by exact Hn.
    apply (rconvt_bnd M N 0). intros. apply bnd_leaf.
  - destruct (r_fir_direct_none Fl B N M b x bf xf Hb Hx HN) as (y & E & Hy).
    eexists y, _. split; [exact E|]. split; [exact Hy|]. intros i n Hi Hn. unfold conv.
    rewrite (bsum_rev (S M) (fun k => bf i k * _)), (bsum_rev (S M) (fun k => oabs (bf i k) * _)).
    apply (dot (S M) 0). intros k Hk. cbn [rmul flops]. replace (S M - 1 - k)%nat with (M - k)%nat by lia.
    rewrite <- dly_abs.
    assert (dly (R := F) (xf i) (M - k) n = if (M <=? n + k)%nat then xf i (n + k - M)%nat else 0) as ->
      by (unfold dly; destruct (M - k <=? n)%nat eqn:E1; destruct (M <=? n + k)%nat eqn:E2; b2p; try lia; [f_equal; lia|reflexivity]).
    apply prod, bnd_leaf.
Qed.
(** With a state: past inputs (direct) or the state of the transposed form. *)
Definition fir_out (M : nat) (tr : bool) (b z x : nat -> F) (n : nat) : F :=
  if tr then tdf2_y M b (fun _ => 0) z x n else b 0%nat * x n + bsum M (fun k => b (S k) * hist x z n k).
Definition fir_end (M : nat) (tr : bool) (b z x : nat -> F) (N k : nat) : F :=
  if tr then tdf2_z M b (fun _ => 0) z x N k else hist x z N k.
Lemma hist_abs (x z : nat -> F) n k : oabs (hist x z n k) = hist (ab x) (ab z) n k.
Proof. unfold hist. now destruct (k <? n)%nat. Qed.
Lemma fir_some_bnd B N M (b x zi : ten) (bf xf zf : nat -> nat -> F) tr : is2 b B (S M) bf -> is2 x B N xf -> is2 zi B M zf ->
  (1 <= N)%nat -> (1 <= M)%nat -> (tr = true -> (M <= N)%nat) ->
  exists y z (yv zv : nat -> nat -> F), fir b x (Some zi) tr = Ok (y, Some z) /\ is2 y B N yv /\ is2 z B M zv /\
    (forall i n, (i < B)%nat -> (n < N)%nat ->
       bnd (S (S M)) (yv i n) (fir_out M tr (bf i) (zf i) (xf i) n) (fir_out M tr (ab (bf i)) (ab (zf i)) (ab (xf i)) n)) /\
    (forall i k, (i < B)%nat -> (k < M)%nat ->
       bnd (S M) (zv i k) (fir_end M tr (bf i) (zf i) (xf i) N k) (fir_end M tr (ab (bf i)) (ab (zf i)) (ab (xf i)) N k)).
Proof.
  intros Hb Hx Hz HN HM Htr. destruct tr; cbn [fir_out fir_end].
  - specialize (Htr eq_refl).
    destruct (r_fir_transposed_some Fl B N M b x zi bf xf zf Hb Hx Hz HM Htr) as (y & z & E & Hy & Hzf).
    do 4 eexists. split; [exact E|]. split; [exact Hy|]. split; [exact Hzf|]. split.
    + intros i n Hi Hn. cbn beta. rewrite !tdf2_fir by exact HM. unfold padz.
      assert (G : bnd (S M) (rconvt Fl M N (fun k => conj (c := Fl) (bf i k)) (xf i) n) (conv M (bf i) (xf i) n) (conv M (ab (bf i)) (ab (xf i)) n)).
      { rewrite <- !(rconvt_head M N) by exact Hn. apply (rconvt_bnd M N 0). intros. apply bnd_leaf. }
      destruct (n <? M)%nat eqn:E1.
      * cbn [radd flops]. match goal with |- _ _ (?e + ?z) (?m + ?w) => replace (e + z) with (z + e) by ring; replace (m + w) with (w + m) by ring end.
        apply badd; [|exact G]. apply (bmono 0%nat); [lia|apply bnd_leaf].
      * match goal with |- _ _ (?e + _) (?m + _) => replace (e + 0) with e by ring; replace (m + 0) with m by ring end.
        apply (bmono (S M)); [lia|exact G].
    + intros i k Hi Hk. cbn beta.
      rewrite <- !(convt_tail F) by assumption. apply (rconvt_bnd M N 0 (bf i) (xf i) (xf i) (ab (xf i))). intros. apply bnd_leaf.
  - destruct (r_fir_direct_some Fl B N M b x zi bf xf zf Hb Hx Hz HN HM) as (y & z & E & Hy & Hzf).
    do 4 eexists. split; [exact E|]. split; [exact Hy|]. split; [exact Hzf|]. split.
    + intros i n Hi Hn. cbn beta. apply (bmono (S M)); [lia|].
      assert (T : forall b x z : nat -> F, b 0%nat * x n + bsum M (fun k => b (S k) * hist x z n k)
        = bsum (S M) (fun k => b (M - k)%nat * (if (n + k <? M)%nat then z (M - 1 - (n + k))%nat else x (n + k - M)%nat))).
      { intros b' x' z'. rewrite (bsum_rev (S M)), bsum_S_l. f_equal.
        - replace (M - (S M - 1 - 0))%nat with 0%nat by lia. bfalse (n + (S M - 1 - 0) <? M)%nat. do 2 f_equal. lia.
        - apply bsum_ext. intros k Hk. replace (M - (S M - 1 - S k))%nat with (S k) by lia. f_equal.
          replace (S M - 1 - S k)%nat with (M - 1 - k)%nat by lia. symmetry. now apply (hist_cat F). }
      rewrite (T (bf i)), (T (ab (bf i)) (ab (xf i)) (ab (zf i))). apply (dot (S M) 0). intros k Hk. cbn [rmul flops].
      destruct (n + k <? M)%nat; apply prod, bnd_leaf.
    + intros i k Hi Hk. cbn beta. rewrite (hist_cat F) by exact Hk. rewrite <- hist_abs. apply (bmono 0%nat); [lia|apply bnd_leaf].
Qed.

(** ** State-space models with perturbed matrices *)
Lemma bnd_oabs k v e m : bnd k v e m -> bnd k (oabs v) (oabs e) m.
Proof.
  intros [H1 H2]. split; [|rewrite (abs_pos F (oabs e)) by apply abs_0_le; exact H2].
  eapply ole_trans; [|exact H1]. apply abs_le.
  - apply ole_sub. replace (oabs (v - e) - (oabs v - oabs e)) with (oabs (v - e) + oabs e - oabs v) by ring. apply sub_0.
    eapply ole_trans; [|apply abs_tri]. replace (v - e + e) with v by ring. apply ole_refl.
  - apply ole_sub. replace (oabs (v - e) - - (oabs v - oabs e)) with (oabs (v - e) + oabs v - oabs e) by ring. apply sub_0.
    rewrite <- (abs_opp F (v - e)). eapply ole_trans; [|apply abs_tri]. replace (- (v - e) + v) with e by ring. apply ole_refl.
Qed.
Section Pert.
Variables (M K c d : nat).
Lemma ss_h_pert (Av Ae Am Bv Be Bm : nat -> nat -> F) (hv he hm : nat -> F) (xv xe xm : nat -> nat -> F) n :
  (forall i j, (i < M)%nat -> (j < M)%nat -> bnd 0 (Av i j) (Ae i j) (Am i j)) ->
  (forall i k, (i < M)%nat -> (k < K)%nat -> bnd d (Bv i k) (Be i k) (Bm i k)) ->
  (forall i, (i < M)%nat -> bnd 0 (hv i) (he i) (hm i)) ->
  (forall n k, (k < K)%nat -> bnd 0 (xv n k) (xe n k) (xm n k)) ->
  forall i, (i < M)%nat -> bnd d (ss_h M K (fun _ => Av) (fun _ => Bv) hv xv n i)
    (ss_h M K (fun _ => Ae) (fun _ => Be) he xe n i) (ss_h M K (fun _ => Am) (fun _ => Bm) hm xm n i).
Proof.
  intros HA HB Hh Hx i Hi. apply (bmono (d + 0 * n)%nat); [lia|]. unfold ss_h.
  apply (state_pert F u fadd fmul fsub HR M 0 d d); auto; [lia| |].
  - intros j Hj. apply (bmono 0%nat); [lia|now apply Hh].
  - intros k j Hk Hj. apply xsum. intros l Hl. apply (bmono (d + 0)%nat); [lia|]. apply exm; auto.
Qed.
Lemma ss_y_pert (Av Ae Am Bv Be Bm Cv Ce Cm Dv De Dm : nat -> nat -> F) (hv he hm : nat -> F) (xv xe xm : nat -> nat -> F) n p :
  (forall i j, (i < M)%nat -> (j < M)%nat -> bnd 0 (Av i j) (Ae i j) (Am i j)) ->
  (forall i k, (i < M)%nat -> (k < K)%nat -> bnd d (Bv i k) (Be i k) (Bm i k)) ->
  (forall i, (i < M)%nat -> bnd c (Cv p i) (Ce p i) (Cm p i)) ->
  (forall k, (k < K)%nat -> bnd 0 (Dv p k) (De p k) (Dm p k)) ->
  (forall i, (i < M)%nat -> bnd 0 (hv i) (he i) (hm i)) ->
  (forall n k, (k < K)%nat -> bnd 0 (xv n k) (xe n k) (xm n k)) ->
  bnd (c + d) (ss_y M K (fun _ => Av) (fun _ => Bv) (fun _ => Cv) (fun _ => Dv) hv xv n p)
    (ss_y M K (fun _ => Ae) (fun _ => Be) (fun _ => Ce) (fun _ => De) he xe n p)
    (ss_y M K (fun _ => Am) (fun _ => Bm) (fun _ => Cm) (fun _ => Dm) hm xm n p).
Proof.
  intros HA HB HC HD Hh Hx. unfold ss_y. apply xadd; apply xsum; intros i Hi.
  - apply exm; [now apply HC|now apply ss_h_pert].
  - apply (bmono (0 + 0)%nat); [lia|]. apply exm; auto.
Qed.
End Pert.
Notation ab2 f := (fun i j => oabs (f i j)).
Lemma ss_h_comp M K d k v (A : nat -> nat -> F) (Bv Be Bm : nat -> nat -> F) (h : nat -> F) (x : nat -> nat -> F) n i :
  (forall i k, (i < M)%nat -> (k < K)%nat -> bnd d (Bv i k) (Be i k) (Bm i k)) -> (i < M)%nat ->
  bnd k v (ss_h M K (fun _ => A) (fun _ => Bv) h x n i) (ss_h M K (fun _ => ab2 A) (fun _ => ab2 Bv) (ab h) (ab2 x) n i) ->
  bnd (k + d) v (ss_h M K (fun _ => A) (fun _ => Be) h x n i) (ss_h M K (fun _ => ab2 A) (fun _ => Bm) (ab h) (ab2 x) n i).
Proof.
  intros HB Hi H. eapply bcomp; [exact H|apply ss_h_pert; auto; intros; apply bnd_leaf|].
  eapply ole_trans; [apply le_abs|]. eapply (bnd_v F u).
  apply (ss_h_pert M K d (ab2 A) (ab2 A) (ab2 A) (ab2 Bv) (ab2 Be) Bm (ab h) (ab h) (ab h) (ab2 x) (ab2 x) (ab2 x)); auto.
  2: { intros. now apply bnd_oabs, HB. }
  all: intros; rewrite <- (abs_pos F (oabs _)) at 3 by apply abs_0_le; apply bnd_leaf.
Qed.
Lemma ss_y_comp M K c d k v (A : nat -> nat -> F) (Bv Be Bm Cv Ce Cm D : nat -> nat -> F) (h : nat -> F) (x : nat -> nat -> F) n p :
  (forall i k, (i < M)%nat -> (k < K)%nat -> bnd d (Bv i k) (Be i k) (Bm i k)) ->
  (forall i, (i < M)%nat -> bnd c (Cv p i) (Ce p i) (Cm p i)) ->
  bnd k v (ss_y M K (fun _ => A) (fun _ => Bv) (fun _ => Cv) (fun _ => D) h x n p)
    (ss_y M K (fun _ => ab2 A) (fun _ => ab2 Bv) (fun _ => ab2 Cv) (fun _ => ab2 D) (ab h) (ab2 x) n p) ->
  bnd (k + (c + d)) v (ss_y M K (fun _ => A) (fun _ => Be) (fun _ => Ce) (fun _ => D) h x n p)
    (ss_y M K (fun _ => ab2 A) (fun _ => Bm) (fun _ => Cm) (fun _ => ab2 D) (ab h) (ab2 x) n p).
Proof.
  intros HB HC H. eapply bcomp; [exact H|apply ss_y_pert; auto; intros; apply bnd_leaf|].
  eapply ole_trans; [apply le_abs|]. eapply (bnd_v F u).
  apply (ss_y_pert M K c d (ab2 A) (ab2 A) (ab2 A) (ab2 Bv) (ab2 Be) Bm (ab2 Cv) (ab2 Ce) Cm (ab2 D) (ab2 D) (ab2 D) (ab h) (ab h) (ab h) (ab2 x) (ab2 x) (ab2 x)); auto.
  2: { intros. now apply bnd_oabs, HB. }
  2: { intros. now apply bnd_oabs, HC. }
  all: intros; rewrite <- (abs_pos F (oabs _)) at 3 by apply abs_0_le; apply bnd_leaf.
Qed.

(** ** The systems of the direct forms *)
Lemma compm_abs (a : nat -> F) i j : oabs (compm F a i j) = compm F (nab a) i j.
Proof.
  unfold compm. destruct (i =? S j)%nat; [apply abs_pos, ole_0_1|]. destruct (i =? 0)%nat; [|apply abs_0].
  rewrite abs_opp. ring.
Qed.
Lemma comph_abs (a : nat -> F) i j : oabs (comph F a i j) = comph F (nab a) i j.
Proof.
  unfold comph. destruct (j =? S i)%nat; [apply abs_pos, ole_0_1|]. destruct (j =? 0)%nat; [|apply abs_0].
  rewrite abs_opp. ring.
Qed.
Lemma diff_bnd (b0 b1 a : F) : bnd 2 (fsub b1 (fmul b0 a)) (b1 - b0 * a) (oabs b1 - oabs b0 * - oabs a).
Proof.
  replace (oabs b1 - oabs b0 * - oabs a) with (oabs b1 + oabs b0 * oabs a) by ring.
  apply bsub; [apply (bmono 0%nat); [lia|apply bnd_leaf]|apply prod, bnd_leaf].
Qed.
Lemma df2_y_bnd M k v (b a z x : nat -> F) n : (1 <= M)%nat ->
  bnd k v (ss_y M 1 (fun _ => compm F a) (fun _ i _ => if (i =? 0)%nat then 1 else 0) (fun _ _ m => fsub (b (S m)) (fmul (b 0%nat) (a m))) (fun _ _ _ => b 0%nat) z (fun n _ => x n) n 0)
    (ss_y M 1 (fun _ => ab2 (compm F a)) (fun _ i _ => oabs (if (i =? 0)%nat then 1 else 0)) (fun _ _ m => oabs (fsub (b (S m)) (fmul (b 0%nat) (a m)))) (fun _ _ _ => oabs (b 0%nat)) (ab z) (fun n _ => oabs (x n)) n 0) ->
  bnd (k + 2) v (df2_y M b a z x n) (df2_y M (ab b) (nab a) (ab z) (ab x) n).
Proof.
  intros HM H. rewrite <- !(ss_df2_y F M _ _ _ _ n 0) by exact HM.
  apply (bmono (k + (2 + 0))); [lia|].
  pose proof (ss_y_comp M 1 2 0 k v (compm F a) (fun i _ => if (i =? 0)%nat then 1 else 0) (fun i _ => if (i =? 0)%nat then 1 else 0) (fun i _ => oabs (if (i =? 0)%nat then 1 else 0))
    (fun _ m => fsub (b (S m)) (fmul (b 0%nat) (a m))) (fun _ m => b (S m) - b 0%nat * a m) (fun _ m => oabs (b (S m)) - oabs (b 0%nat) * - oabs (a m))
    (fun _ _ => b 0%nat) z (fun n _ => x n) n 0) as G.
  cbv beta in G. specialize (G ltac:(intros; apply bnd_leaf) ltac:(intros; apply diff_bnd) H).
  replace (ss_y M 1 (fun _ => compm F (nab a)) _ _ _ _ _ n 0) with
    (ss_y M 1 (fun _ => ab2 (compm F a)) (fun _ i _ => oabs (if (i =? 0)%nat then 1 else 0)) (fun _ _ m => oabs (b (S m)) - oabs (b 0%nat) * - oabs (a m)) (fun _ _ _ => oabs (b 0%nat)) (ab z) (fun n _ => oabs (x n)) n 0); [exact G|].
  apply ss_y_ext; auto; intros; [apply compm_abs|]. destruct (_ =? 0)%nat; [apply abs_pos, ole_0_1|apply abs_0].
Qed.
Lemma df2_z_bnd M k v (a z x : nat -> F) n i : (i < M)%nat ->
  bnd k v (ss_h M 1 (fun _ => compm F a) (fun _ i _ => if (i =? 0)%nat then 1 else 0) z (fun n _ => x n) n i)
    (ss_h M 1 (fun _ => ab2 (compm F a)) (fun _ i _ => oabs (if (i =? 0)%nat then 1 else 0)) (ab z) (fun n _ => oabs (x n)) n i) ->
  bnd k v (df2_z M a z x n i) (df2_z M (nab a) (ab z) (ab x) n i).
Proof.
  intros Hi H. rewrite <- !(ss_df2_h F M _ _ _ n i) by exact Hi.
  replace (ss_h M 1 (fun _ => compm F (nab a)) _ _ _ n i) with
    (ss_h M 1 (fun _ => ab2 (compm F a)) (fun _ i _ => oabs (if (i =? 0)%nat then 1 else 0)) (ab z) (fun n _ => oabs (x n)) n i); [exact H|].
  apply ss_h_ext; auto; intros; [apply compm_abs|]. destruct (_ =? 0)%nat; [apply abs_pos, ole_0_1|apply abs_0].
Qed.
Lemma unit_abs m : oabs (unit3 0 0 m : F) = unit3 0 0 m.
Proof. unfold unit3. destruct (0 =? m)%nat; [apply abs_pos, ole_0_1|apply abs_0]. Qed.
Lemma tdf2_y_bnd M k v (b a z x : nat -> F) n : (1 <= M)%nat ->
  bnd k v (ss_y M 1 (fun _ => comph F a) (fun _ m _ => fsub (b (S m)) (fmul (b 0%nat) (a m))) (fun _ _ m => unit3 0 0 m) (fun _ _ _ => b 0%nat) z (fun n _ => x n) n 0)
    (ss_y M 1 (fun _ => ab2 (comph F a)) (fun _ m _ => oabs (fsub (b (S m)) (fmul (b 0%nat) (a m)))) (fun _ _ m => oabs (unit3 0 0 m)) (fun _ _ _ => oabs (b 0%nat)) (ab z) (fun n _ => oabs (x n)) n 0) ->
  bnd (k + 2) v (tdf2_y M b a z x n) (tdf2_y M (ab b) (nab a) (ab z) (ab x) n).
Proof.
  intros HM H. rewrite <- !(ss_tdf2_y F M _ _ _ _ n 0) by exact HM.
  apply (bmono (k + (0 + 2))); [lia|].
  pose proof (ss_y_comp M 1 0 2 k v (comph F a) (fun m _ => fsub (b (S m)) (fmul (b 0%nat) (a m))) (fun m _ => b (S m) - b 0%nat * a m) (fun m _ => oabs (b (S m)) - oabs (b 0%nat) * - oabs (a m))
    (fun _ m => unit3 0 0 m) (fun _ m => unit3 0 0 m) (fun _ m => oabs (unit3 0 0 m)) (fun _ _ => b 0%nat) z (fun n _ => x n) n 0) as G.
  cbv beta in G. specialize (G ltac:(intros; apply diff_bnd) ltac:(intros; apply bnd_leaf) H).
  replace (ss_y M 1 (fun _ => comph F (nab a)) _ _ _ _ _ n 0) with
    (ss_y M 1 (fun _ => ab2 (comph F a)) (fun _ m _ => oabs (b (S m)) - oabs (b 0%nat) * - oabs (a m)) (fun _ _ m => oabs (unit3 0 0 m)) (fun _ _ _ => oabs (b 0%nat)) (ab z) (fun n _ => oabs (x n)) n 0); [exact G|].
  apply ss_y_ext; auto; intros; [apply comph_abs|apply unit_abs].
Qed.
Lemma tdf2_z_bnd M k v (b a z x : nat -> F) n i : (i < M)%nat ->
  bnd k v (ss_h M 1 (fun _ => comph F a) (fun _ m _ => fsub (b (S m)) (fmul (b 0%nat) (a m))) z (fun n _ => x n) n i)
    (ss_h M 1 (fun _ => ab2 (comph F a)) (fun _ m _ => oabs (fsub (b (S m)) (fmul (b 0%nat) (a m)))) (ab z) (fun n _ => oabs (x n)) n i) ->
  bnd (k + 2) v (tdf2_z M b a z x n i) (tdf2_z M (ab b) (nab a) (ab z) (ab x) n i).
Proof.
  intros Hi H. rewrite <- !(ss_tdf2_h F M _ _ _ _ n i) by exact Hi.
  pose proof (ss_h_comp M 1 2 k v (comph F a) (fun m _ => fsub (b (S m)) (fmul (b 0%nat) (a m))) (fun m _ => b (S m) - b 0%nat * a m) (fun m _ => oabs (b (S m)) - oabs (b 0%nat) * - oabs (a m))
    z (fun n _ => x n) n i) as G.
  cbv beta in G. specialize (G ltac:(intros; apply diff_bnd) Hi H).
  replace (ss_h M 1 (fun _ => comph F (nab a)) _ _ _ n i) with
    (ss_h M 1 (fun _ => ab2 (comph F a)) (fun _ m _ => oabs (b (S m)) - oabs (b 0%nat) * - oabs (a m)) (ab z) (fun n _ => oabs (x n)) n i); [exact G|].
  apply ss_h_ext; auto; intros. apply comph_abs.
Qed.

(** ** Views over the rounded operations *)
Lemma f_companion B M (a : ten) (f : nat -> nat -> F) : fcoef (R := F) B M a f ->
  exists A : ten, companion (R := Fl) a = Ok A /\ sizen A 1 = M /\ matc (R := Fl) B M A (fun b => compm F (f b)) /\
    matc (R := Fl) B M (tconj (mT A)) (fun b => comph F (f b)).
Proof.
  intro H. apply fcoef_P in H as (pre & g & Hp & Ht & Hf).
  assert (exists A : ten, companion (R := Fl) a = Ok A /\ isP2 (A := car Fl) A pre M M (fun q i j => if (i =? S j)%nat then (1 : F) else if (i =? 0)%nat then - g q j else 0))
    as (A & E & HA) by exact (companion_view F a pre M g Ht). exists A. split; [exact E|].
  split; [unfold sizen, size; pose proof (P2_rk _ _ _ _ _ HA) as Hr; rewrite (proj1 HA), (nth_pre pre [M; M] _ 1) by lia; reflexivity|].
  nm (mT A). nm (tconj v). split.
  - destruct Hp as [->| ->].
    + apply P2_nil in HA. apply (matc_s _ HA). intros. unfold compm. now rewrite Hf by assumption.
    + apply P2_cons in HA. apply matc_b. eapply is3_ext; [exact HA|]. intros b i j Hb Hi Hj. cbn beta. unfold compm. now rewrite Hf by assumption.
  - destruct Hp as [->| ->].
    + apply P2_nil in H0. apply (matc_s _ H0). intros b i j Hb Hi Hj. unfold comph. now rewrite Hf by assumption.
    + apply P2_cons in H0. apply matc_b. eapply is3_ext; [exact H0|]. intros b i j Hb Hi Hj. cbn beta. unfold comph. now rewrite Hf by assumption.
Qed.
Lemma f_diff B M (b a : ten) (bf af : nat -> nat -> F) : fcoef (R := F) B (S M) b bf -> fcoef (R := F) B M a af ->
  exists t : ten, (let* b0a := tmul (R := Fl) (slice (rk b - 1) None (Some 1%Z) b) a in tsub (R := Fl) (slice (rk b - 1) (Some 1%Z) None b) b0a)%res = Ok t /\
    fcoef (R := F) B M t (fun i k => fsub (bf i (S k)) (fmul (bf i 0%nat) (af i k))).
Proof.
  intros Hb Ha. apply fcoef_P in Hb as (pb & gb & Hpb & Hb & Hfb). apply fcoef_P in Ha as (pa & ga & Hpa & Ha & Hfa).
  change (isP1 (A := car Fl) b pb (S M) gb) in Hb. change (isP1 (A := car Fl) a pa M ga) in Ha.
  pose proof (P1_rk _ _ _ _ Hb) as Hrb.
  nm (slice (rk b - 1) None (Some 1%Z) b). match type of H with isP1 _ _ ?n _ => replace n with 1%nat in H by lia end.
  nm (slice (rk b - 1) (Some 1%Z) None b). match type of H0 with isP1 _ _ ?n _ => replace n with M in H0 by lia end.
  destruct Hpb as [->| ->], Hpa as [->| ->]; repeat ew2;
    (eexists; split; [reflexivity|]); (eapply (P_fcoef F); [|eassumption|]; [auto|]); intros i k Hi Hk;
    rewrite Hfb, (Hfb i 0%nat), Hfa by lia; rewrite ?(bi_lt M) by lia; reflexivity.
Qed.
Lemma f_head B M (b : ten) (bf : nat -> nat -> F) : fcoef (R := F) B (S M) b bf ->
  exists t : ten, select (rk b - 1) 0 b = Ok t /\ feed (R := Fl) B None None (Some t) (fun i _ _ => bf i 0%nat) /\
    feed (R := Fl) B None None (Some (tconj t)) (fun i _ _ => bf i 0%nat).
Proof.
  intros [g Hb Hf|Hb].
  - change (is1 (A := car Fl) b (S M) g) in Hb. rkt; cbn [Nat.sub].
    rewrite (select_ok b 0 0 0) by (unfold size; rewrite (proj1 Hb); reflexivity). eexists; split; [reflexivity|].
    assert (H : is0 (A := car Fl) (sel 0 0 b) (g 0%nat)) by (split; [unfold sel; cbn [shape]; rewrite (proj1 Hb); reflexivity|apply Hb; lia]).
    split.
    + eapply fd_2_0; [exact H|]. intros i p k Hi Hp Hk. now apply Hf; lia.
    + eapply fd_2_0; [split; [exact (proj1 H)|unfold tconj, tmap; cbn [at_]; exact (proj2 H)]|].
      intros i p k Hi Hp Hk. now apply Hf; lia.
  - change (is2 (A := car Fl) b B (S M) bf) in Hb. rkt; cbn [Nat.sub].
    rewrite (select_ok b 1 0 0) by (unfold size; rewrite (proj1 Hb); reflexivity). eexists; split; [reflexivity|].
    apply is2_P in Hb. nm (sel 1 0 b). nm (tconj v). apply P1_nil in H, H0.
    split; (eapply fd_2_B; [eassumption|]); intros i p k Hi Hp Hk; reflexivity.
Qed.
Lemma f_in B M (t : ten) (f : nat -> nat -> F) : fcoef (R := F) B M t f -> inmat (R := Fl) B M None (Some t) (fun b m _ => f b m).
Proof.
  intros [g Ht Hf|Ht]; [eapply in_M; [exact Ht|]|eapply in_BM; [exact Ht|]]; intros b i j Hb Hi Hj; auto.
Qed.
Lemma f_out B M (t : ten) (f : nat -> nat -> F) : fcoef (R := F) B M t f -> outmat (R := Fl) B M None (Some t) None (fun b _ m => f b m).
Proof.
  intros [g Ht Hf|Ht]; [eapply out_M; [exact Ht|]|eapply out_BM; [exact Ht|]]; intros b i j Hb Hi Hj; auto.
Qed.
Lemma f_conj B n (t : ten) (f : nat -> nat -> F) : fcoef (R := F) B n t f -> fcoef (R := F) B n (tconj (R := Fl) t) f.
Proof.
  intros [g [Hs Ht] Hf|[Hs Ht]].
  - apply (fc_s g); [|exact Hf]. split; [exact Hs|]. intros i Hi. unfold tconj, tmap. cbn [at_]. exact (Ht i Hi).
  - apply fc_b. split; [exact Hs|]. intros i j Hi Hj. unfold tconj, tmap. cbn [at_]. exact (Ht i j Hi Hj).
Qed.
End S.
