(** Rounding errors of lpv.fir and lpv.lfilter (philtorch/lpv/filtering.py:19-85, 288-370). *)
From Coq Require Import List Arith Lia ZArith Bool Ring.
From Verif Require Import Scalar Ordered Spec SpecRound SpecFilter SpecLpv Tensor TensorLemmas TensorOps TensorAlg TensorTac TensorList Shapes Algebra M_Mat P_Mat
  M_Kernels M_LtiSsm P_Kernels P_LtiSsm P_Filter M_LtiFilter P_LtiFilter M_Ext M_LpvSsm P_LpvSsm P_LpvSs P_LpvAlg M_LpvFilter P_LpvFilter
  P_Round P_Round5 P_Round6 P_Round9.
Import ListNotations.
Open Scope cr_scope.

Section S.
Variable F : ofield.
Add Ring Rr10 : (r_th F).
Variables (u : F) (fadd fmul fsub : F -> F -> F).
Hypothesis HR : rounds u fadd fmul fsub.
Notation Fl := (flops F fadd fmul fsub).
Notation ten := (tensor (car Fl)).
Notation bnd := (bnd F u).
Let Hu : ole (0 : F) u = true := rd_u _ _ _ _ HR.
Let bmono := bnd_mono F u Hu.
Let badd := bnd_add F u Hu fadd fmul fsub HR.
Let bmul := bnd_mul F u Hu fadd fmul fsub HR.
Let dot := dotb F u fadd fmul fsub HR.
Let pdl := prodl F u fadd fmul fsub HR.
Let pdr := prodr F u fadd fmul fsub HR.
Let exm := xmul F u fadd fmul fsub HR.
Let bcomp := bnd_comp F u fadd fmul fsub HR.
Notation ab f := (fun k => oabs (f k)).
Notation nab f := (fun k => - oabs (f k)).
Notation ab2 f := (fun i j => oabs (f i j)).
Notation ab3 f := (fun n i j => oabs (f n i j)).
Notation nab2 f := (fun i j => - oabs (f i j)).

(** ** fir *)
Lemma f_sz2 (t : ten) n m (f : nat -> nat -> F) : is2 t n m f -> size t 0 = n /\ size t 1 = m.
Proof. intros [H _]. unfold size. now rewrite H. Qed.
Lemma f_sz3 (t : ten) n m p (f : nat -> nat -> nat -> F) : is3 t n m p f -> size t 0 = n /\ size t 1 = m /\ size t 2 = p.
Proof. intros [H _]. unfold size. now rewrite H. Qed.
Lemma f_vecdot (t v : ten) pre n c (f g : list nat -> nat -> nat -> F) : isP2 t pre n c f -> isP2 v pre n c g ->
  exists y : ten, vecdot t v = Ok y /\ isP1 y pre n (fun q i => bsum (R := Fl) c (fun z => fmul (f q i z) (g q i z))).
Proof.
  intros Ht Hv. destruct (P2_vecdot Fl t v pre n n n c f g Ht Hv (bdim_refl n)) as (y & E & Hy). exists y. split; [exact E|].
  fin Hy; auto. intros q i Hq Hi. now rewrite bi_lt.
Qed.
Definition vcatv (M : nat) (x z : nat -> F) (n k : nat) : F := if (n + k <? M)%nat then z (M - 1 - (n + k))%nat else x (n + k - M)%nat.
Lemma f_fir_core B N M (b x z : ten) (bf : nat -> nat -> nat -> F) (xf zf : nat -> nat -> F) : is3 b B N (S M) bf -> is2 x B N xf -> is2 z B M zf -> (1 <= N)%nat ->
  exists c t y : ten, cat 1 [flip 1 z; x] = Ok c /\ unfold 1 (S M) c = Ok t /\ vecdot (R := Fl) (tconj (R := Fl) t) (flip 2 b) = Ok y /\
    is2 y B N (fun i n => bsum (R := Fl) (S M) (fun k => fmul (vcatv M (xf i) (zf i) n k) (bf i n (M - k)%nat))) /\
    exists l, select 1 (-1) t = Ok l /\ is2 (flip 1 (slice 1 (Some 1%Z) None l)) B M (fun i k => hist (R := F) (xf i) (zf i) N k).
Proof.
  intros Hb Hx Hz HN. apply is2_P1 in Hx, Hz. apply is3_P2 in Hb. nm (flip 1 z).
  destruct (P1_cat0 v x [B] M N _ _ 1 H Hx eq_refl) as (c & Ec & Hc).
  destruct (P1_unfold0 c [B] _ _ 1 (S M) Hc eq_refl ltac:(lia)) as (t & Et & Ht).
  replace (M + N - S M + 1)%nat with N in Ht by lia. cbv beta in Ht.
  exists c, t.
  assert (Ht' : isP2 (tconj (R := Fl) t) [B] N (S M) (fun q i k => if (i + k <? M)%nat then zf (nth 0 q 0%nat) (M - 1 - (i + k))%nat else xf (nth 0 q 0%nat) (i + k - M)%nat)) by exact Ht.
  nm (flip 2 b).
  match goal with Hb : isP2 v0 _ _ _ _ |- _ => destruct (f_vecdot _ v0 [B] N (S M) _ _ Ht' Hb) as (y & Ey & Hy) end.
  exists y. do 3 (split; [assumption|]). split.
  - apply is2_P1. fin Hy; [lia|]. intros q n Hq Hn. apply vld_1_inv in Hq as (i & -> & Hi). cbn [nth].
    apply bsum_ext. intros k Hk. unfold vcatv. now replace (S M - 1 - k)%nat with (M - k)%nat by lia.
  - rewrite (select_ok t 1 (-1) (N - 1)).
    2:{ unfold size. rewrite (proj1 Ht). cbn [app nth]. now apply pyidx_m1. }
    exists (sel 1 (N - 1) t). split; [reflexivity|]. nm (sel 1 (N - 1) t).
    nm (slice 1 (Some 1%Z) None v1). nm (flip 1 v2). apply is2_P1. match goal with H : isP1 v3 _ _ _ |- _ => fin H end; [lia|].
    intros q k Hq Hk. apply vld_1_inv in Hq as (i & -> & Hi). cbn [nth].
    rewrite <- (hist_cat F (xf i) (zf i) N k M Hk).
    replace (N - 1 + (1 + (M - 1 - k)))%nat with (N + (M - 1 - k))%nat by lia. reflexivity.
Qed.
Lemma vconv_cat M (b x z : nat -> F) n : b 0%nat * x n + bsum M (fun k => b (S k) * hist x z n k) = bsum (S M) (fun k => b (M - k)%nat * vcatv M x z n k).
Proof.
  rewrite (bsum_rev (S M)), bsum_S_l. unfold vcatv. f_equal.
  - replace (M - (S M - 1 - 0))%nat with 0%nat by lia. bfalse (n + (S M - 1 - 0) <? M)%nat. do 2 f_equal. lia.
  - apply bsum_ext. intros k Hk. replace (M - (S M - 1 - S k))%nat with (S k) by lia. f_equal.
    replace (S M - 1 - S k)%nat with (M - 1 - k)%nat by lia. symmetry. now apply (hist_cat F).
Qed.
Lemma vcatv_abs M (x z : nat -> F) n k : oabs (vcatv M x z n k) = vcatv M (ab x) (ab z) n k.
Proof. unfold vcatv. now destruct (n + k <? M)%nat. Qed.
Lemma fcore_bnd M (b x z : nat -> F) n :
  bnd (S M) (bsum (R := Fl) (S M) (fun k => fmul (vcatv M x z n k) (b (M - k)%nat)))
    (b 0%nat * x n + bsum M (fun k => b (S k) * hist x z n k)) (oabs (b 0%nat) * oabs (x n) + bsum M (fun k => oabs (b (S k)) * hist (ab x) (ab z) n k)).
Proof.
  rewrite vconv_cat. rewrite (vconv_cat M (ab b) (ab x) (ab z) n). apply (dot (S M) 0). intros k Hk. rewrite <- vcatv_abs.
  apply pdr, bnd_leaf.
Qed.
Lemma f_zeros_2 B M : is2 (zeros (R := Fl) [B; M]) B M (fun _ _ => 0 : F).
Proof. pose proof (P1_full [B] M (@r0 Fl)) as H. apply is2_P1. fin H; auto. Qed.
Lemma vconv_hist_0 M (b : nat -> nat -> F) x n : vconv_with M b x (fun _ => oabs 0) n = vconv M b x n.
Proof. rewrite vconv_hist. unfold vconv_with. f_equal. apply bsum_ext. intros. f_equal. unfold hist. destruct (_ <? _)%nat; [reflexivity|apply abs_0]. Qed.
Lemma vfir_none_bnd B N M (b x : ten) (bf : nat -> nat -> nat -> F) (xf : nat -> nat -> F) : is3 b B N (S M) bf -> is2 x B N xf -> (1 <= N)%nat ->
  exists (y : ten) (yv : nat -> nat -> F), lpv_fir b x None false = Ok (y, None) /\ is2 y B N yv /\
    forall i n, (i < B)%nat -> (n < N)%nat -> bnd (S M) (yv i n) (vconv M (bf i) (xf i) n) (vconv M (ab2 (bf i)) (ab (xf i)) n).
Proof.
  intros Hb Hx HN. unfold lpv_fir. rkt. cbn [Nat.eqb]. unfold size. rewrite (proj1 Hb), (proj1 Hx). cbn [nth].
  rewrite !Nat.eqb_refl. cbn [andb bind].
  btrue (1 <=? S M)%nat. cbn [bind]. replace (S M - 1)%nat with M by lia.
  destruct (f_fir_core B N M b x _ bf xf _ Hb Hx (f_zeros_2 B M) HN) as (c & t & y & -> & Et & Ey & Hy & _). cbn [bind].
  rewrite Et. cbn [bind]. rewrite Ey. cbn [bind]. eexists y, _. split; [reflexivity|]. split; [exact Hy|].
  intros i n Hi Hn. rewrite vconv_hist, <- (vconv_hist_0 M (ab2 (bf i))). exact (fcore_bnd M (bf i n) (xf i) (fun _ => 0) n).
Qed.
Lemma vfir_some_bnd B N M (b x z : ten) (bf : nat -> nat -> nat -> F) (xf zf : nat -> nat -> F) : is3 b B N (S M) bf -> is2 x B N xf -> is2 z B M zf -> (1 <= N)%nat ->
  exists (y zo : ten) (yv : nat -> nat -> F), lpv_fir b x (Some z) false = Ok (y, Some zo) /\ is2 y B N yv /\
    (forall i n, (i < B)%nat -> (n < N)%nat -> bnd (S M) (yv i n) (vconv_with M (bf i) (xf i) (zf i) n) (vconv_with M (ab2 (bf i)) (ab (xf i)) (ab (zf i)) n)) /\
    is2 zo B M (fun i k => hist (R := F) (xf i) (zf i) N k).
Proof.
  intros Hb Hx Hz HN. unfold lpv_fir. rkt. cbn [Nat.eqb]. unfold size. rewrite (proj1 Hb), (proj1 Hx), (proj1 Hz). cbn [nth].
  rewrite Nat.add_1_r, !Nat.eqb_refl. cbn [andb bind].
  destruct (f_fir_core B N M b x z bf xf zf Hb Hx Hz HN) as (c & t & y & -> & Et & Ey & Hy & l & El & Hl). cbn [bind].
  rewrite Et. cbn [bind]. rewrite Ey. cbn [bind]. rewrite El. cbn [bind]. eexists y, _, _. split; [reflexivity|]. split; [exact Hy|].
  split; [|exact Hl]. intros i n Hi Hn. exact (fcore_bnd M (bf i n) (xf i) (zf i) n).
Qed.

(** Transposed: products b[n-k,k] x[n-k], added from the oldest on; the other terms are 0 times 0. *)
Definition vtterm (N : nat) (b : nat -> nat -> F) (x : nat -> F) (n k : nat) : F :=
  if (k <=? n) && (n - k <? N) then fmul (b (n - k)%nat k) (x (n - k)%nat) else fmul 0 0.
Lemma f_firt_core B N M (b x : ten) (bf : nat -> nat -> nat -> F) (xf : nat -> nat -> F) (tail : bool) : is3 b B N (S M) bf -> is2 x B N xf ->
  (tail = false -> (1 <= M)%nat) -> (1 <= N)%nat ->
  exists sb t y : ten, diag_shift (R := Fl) b 0 (negb tail) = Ok sb /\ size sb 2 = S M /\
    unfold 1 (S M) (pad 1 M (if tail then M else 0%nat) (@r0 Fl) x) = Ok t /\ vecdot (R := Fl) (flip 2 sb) t = Ok y /\
    is2 y B (if tail then N + M else N) (fun i n => bsum (R := Fl) (S M) (fun k => vtterm N (bf i) (xf i) n (M - k)%nat)).
Proof.
  intros Hb Hx HM HN. apply is2_P1 in Hx. apply is3_P2 in Hb.
  assert (exists sb : ten, diag_shift (R := Fl) b 0 (negb tail) = Ok sb /\ isP2 sb [B] (if negb tail then N else N + S M + 0 - 1) (S M) (fun q => shifted F N 0 (bf (nth 0 q 0%nat)))) as (sb & Es & Hs).
  { apply (diag_shift_view F b [B] N (S M) _ 0 (negb tail) Hb ltac:(lia)).
    intro E. destruct tail; [discriminate|]. specialize (HM eq_refl). lia. }
  replace (if negb tail then N else N + S M + 0 - 1)%nat with (if tail then N + M else N)%nat in Hs by (destruct tail; cbn [negb]; lia).
  exists sb. set (Nt := (if tail then N + M else N)%nat) in *.
  nm (pad 1 M (if tail then M else 0%nat) (@r0 Fl) x).
  destruct (P1_unfold0 v [B] _ _ 1 (S M) H eq_refl) as (t & Et & Ht); [destruct tail; lia|].
  match type of Ht with isP2 _ _ ?n _ _ => replace n with Nt in Ht by (unfold Nt; destruct tail; lia) end.
  exists t. nm (flip 2 sb). match goal with H0 : isP2 v0 _ _ _ _ |- _ => destruct (f_vecdot v0 t [B] Nt (S M) _ _ H0 Ht) as (y & Ey & Hy) end.
  exists y. split; [exact Es|]. split; [unfold size; rewrite (proj1 Hs); reflexivity|]. do 2 (split; [assumption|]).
  apply is2_P1. fin Hy; [lia|]. intros q n Hq Hn. apply vld_1_inv in Hq as (i & -> & Hi). cbn [nth].
  apply bsum_ext. intros k Hk.
  replace (S M - 1 - k)%nat with (M - k)%nat by lia. unfold shifted, vtterm. rewrite Nat.add_0_r.
  destruct ((M - k <=? n) && (n - (M - k) <? N)) eqn:E.
  - b2p. btrue (M <=? n + k)%nat. btrue (n + k <? M + N)%nat. cbn [andb]. do 2 f_equal. lia.
  - f_equal. destruct ((M <=? n + k)%nat && (n + k <? M + N)%nat) eqn:E4; [|reflexivity].
    apply andb_true_iff in E4 as [E4 E5]. apply Nat.leb_le in E4. apply Nat.ltb_lt in E5.
    apply andb_false_iff in E as [E|E]; [apply Nat.leb_gt in E|apply Nat.ltb_ge in E]; lia.
Qed.
Lemma vtterm_bnd M N c (b : nat -> nat -> F) (xv xe xm : nat -> F) n :
  (forall m, (m <= n)%nat -> (m < N)%nat -> bnd c (xv m) (xe m) (xm m)) ->
  bnd (c + S M) (bsum (R := Fl) (S M) (fun k => vtterm N b xv n (M - k)%nat))
    (bsum (S M) (fun k => if (k <=? n) && (n - k <? N) then b (n - k)%nat k * xe (n - k)%nat else 0))
    (bsum (S M) (fun k => if (k <=? n) && (n - k <? N) then oabs (b (n - k)%nat k) * xm (n - k)%nat else 0)).
Proof.
  intro H. rewrite (bsum_rev (S M) (fun k => if (k <=? n) && (n - k <? N) then b _ _ * _ else _)), (bsum_rev (S M) (fun k => if (k <=? n) && (n - k <? N) then oabs _ * _ else _)).
  apply dot. intros k Hk. unfold vtterm. replace (S M - 1 - k)%nat with (M - k)%nat by lia.
  destruct ((M - k <=? n) && (n - (M - k) <? N)) eqn:E.
  - b2p. apply pdl, H; lia.
  - apply (bmono 1%nat); [lia|]. pose proof (pdl 0 0 0 0 0 (bnd_0 F u 0)) as G. rewrite abs_0 in G.
    replace (0 * 0 : F) with (0 : F) in G by ring. exact G.
Qed.
Lemma vfirt_none_bnd B N M c (b x : ten) (bf : nat -> nat -> nat -> F) (xv xe xm : nat -> nat -> F) : is3 b B N (S M) bf -> is2 x B N xv -> (1 <= N)%nat -> (1 <= M)%nat ->
  (forall i n, (i < B)%nat -> (n < N)%nat -> bnd (c n) (xv i n) (xe i n) (xm i n)) -> (forall m n, (m <= n)%nat -> (c m <= c n)%nat) ->
  exists (y : ten) (yv : nat -> nat -> F), lpv_fir b x None true = Ok (y, None) /\ is2 y B N yv /\
    forall i n, (i < B)%nat -> (n < N)%nat -> bnd (c n + S M) (yv i n) (vconvt M (bf i) (xe i) n) (vconvt M (ab2 (bf i)) (xm i) n).
Proof.
  intros Hb Hx HN HM Rx Hc. destruct (f_firt_core B N M b x bf xv false Hb Hx (fun _ => HM) HN) as (sb & t & y & Es & Ez & Et & Ey & Hy).
  unfold lpv_fir. rkt. cbn [Nat.eqb negb] in Es |- *. destruct (f_sz2 _ _ _ _ Hx) as [-> ->], (f_sz3 _ _ _ _ _ Hb) as (-> & -> & ->). rewrite Es, !Nat.eqb_refl. cbn [andb]. btrue (1 <=? S M)%nat. cbn [bind]. rewrite Ez. replace (S M - 1)%nat with M by lia.
  rewrite Et. cbn [bind]. rewrite Ey. cbn [bind]. eexists y, _. split; [reflexivity|]. split; [exact Hy|].
  intros i n Hi Hn. rewrite <- (vconvt_head F (bf i) (xe i) M N n Hn), <- (vconvt_head F (ab2 (bf i)) (xm i) M N n Hn).
  apply vtterm_bnd. intros m Hm Hm'. apply (bmono (c m)); auto.
Qed.
Lemma vfirt_some_bnd B N M (b x z : ten) (bf : nat -> nat -> nat -> F) (xf zf : nat -> nat -> F) : is3 b B N (S M) bf -> is2 x B N xf -> is2 z B M zf -> (1 <= N)%nat -> (M <= N)%nat ->
  exists (y zo : ten) (yv zv : nat -> nat -> F), lpv_fir b x (Some z) true = Ok (y, Some zo) /\ is2 y B N yv /\ is2 zo B M zv /\
    (forall i n, (i < B)%nat -> (n < N)%nat -> bnd (S (S M)) (yv i n) (vconvt M (bf i) (xf i) n + padz M (zf i) n) (vconvt M (ab2 (bf i)) (ab (xf i)) n + padz M (ab (zf i)) n)) /\
    (forall i k, (i < B)%nat -> (k < M)%nat -> bnd (S M) (zv i k) (vtdf2_z M (bf i) (fun _ _ => 0) (zf i) (xf i) N k) (vtdf2_z M (ab2 (bf i)) (fun _ _ => 0) (ab (zf i)) (ab (xf i)) N k)).
Proof.
  intros Hb Hx Hz HN HMN. destruct (f_firt_core B N M b x bf xf true Hb Hx) as (sb & t & y & Es & Ez & Et & Ey & Hy); [discriminate|exact HN|].
  unfold lpv_fir. rkt. cbn [Nat.eqb negb] in Es |- *. destruct (f_sz2 _ _ _ _ Hx) as [-> ->], (f_sz2 _ _ _ _ Hz) as [-> ->], (f_sz3 _ _ _ _ _ Hb) as (-> & -> & ->). rewrite Es.
  rewrite Nat.add_1_r, !Nat.eqb_refl. cbn [andb bind]. rewrite Ez. replace (S M - 1)%nat with M by lia. replace (Z.of_nat (S M) - 1)%Z with (Z.of_nat M) by lia.
  rewrite Et. cbn [bind]. rewrite Ey. cbn [bind]. unfold split2, size. rewrite (proj1 Hy). cbn [nth]. rewrite Nat.eqb_refl. cbn [bind].
  apply is2_P1 in Hy, Hz. nm (slice 1 None (Some (Z.of_nat N)) y). nm (slice 1 (Some (Z.of_nat N)) None y).
  match type of H with isP1 _ _ ?n _ => replace n with N in H by lia end.
  nm (slice 1 None (Some (Z.of_nat M)) v). match type of H1 with isP1 _ _ ?n _ => replace n with M in H1 by lia end.
  nm (slice 1 (Some (Z.of_nat M)) None v). ew2. cat2.
  set (Y := fun i n => bsum (R := Fl) (S M) (fun k => vtterm N (bf i) (xf i) n (M - k)%nat)) in *.
  exists w0, v0, (fun i n => if (n <? M)%nat then fadd (Y i n) (zf i n) else Y i n), (fun i k => Y i (N + k)%nat).
  split; [reflexivity|]. split; [|split; [|split]].
  - apply is2_P1. match goal with H : isP1 w0 _ _ _ |- _ => fin H end; [lia|]. intros q n Hq Hn.
    destruct (n <? M)%nat eqn:E; b2p.
    + now rewrite !Nat.add_0_l.
    + rewrite Nat.add_0_l. now replace (M + (n - M))%nat with n by lia.
  - apply is2_P1. fin H0; [lia|]. intros q k Hq Hk. reflexivity.
  - intros i n Hi Hn. rewrite <- (vconvt_head F (bf i) (xf i) M N n Hn), <- (vconvt_head F (ab2 (bf i)) (ab (xf i)) M N n Hn).
    assert (G := vtterm_bnd M N 0 (bf i) (xf i) (xf i) (ab (xf i)) n ltac:(intros; apply bnd_leaf)). fold (Y i n) in G.
    unfold padz. destruct (n <? M)%nat.
    + apply badd; [exact G|]. apply (bmono 0%nat); [lia|apply bnd_leaf].
    + match goal with |- _ _ (?e + _) (?m + _) => replace (e + 0) with e by ring; replace (m + 0) with m by ring end. apply (bmono (S M)); [lia|exact G].
  - intros i k Hi Hk. rewrite <- (vconvt_tail F (bf i) (zf i) (xf i) M N k HMN Hk), <- (vconvt_tail F (ab2 (bf i)) (ab (zf i)) (ab (xf i)) M N k HMN Hk).
    apply (vtterm_bnd M N 0 (bf i) (xf i) (xf i) (ab (xf i))). intros; apply bnd_leaf.
Qed.
End S.
