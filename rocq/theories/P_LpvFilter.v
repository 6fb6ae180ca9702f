(** lpv/utils.py and lpv/filtering.py. *)
From Coq Require Import List Arith Lia ZArith Bool Ring.
From Verif Require Import Scalar Tensor TensorLemmas TensorOps TensorAlg TensorTac TensorList
  Spec Shapes SpecFilter SpecLpv Algebra M_Mat P_Mat M_Kernels M_LtiSsm P_LtiSsm P_Filter M_LtiFilter P_LtiFilter
  M_Ext M_LpvSsm P_LpvSsm P_LpvSs P_LpvAlg M_LpvFilter.
Import ListNotations.

Section S.
Variable R : cring.
Add Ring Rr : (r_th R).
Notation ten := (tensor (car R)).
Open Scope cr_scope.

(** ** diag_shift *)
Lemma shift_index k j L M : (k < M)%nat -> (j < L - 1)%nat -> (M <= L)%nat ->
  ((k * (L - 1) + j) / L, (k * (L - 1) + j) mod L) = (if k <=? j then (k, j - k) else (k - 1, L + j - k))%nat.
Proof.
  intros Hk Hj HL. destruct (k <=? j)%nat eqn:E; b2p.
  - replace (k * (L - 1) + j)%nat with ((j - k) + k * L)%nat by (destruct L; [lia|]; rewrite Nat.sub_succ, Nat.sub_0_r; nia).
    rewrite Nat.div_add, Nat.mod_add by lia. rewrite Nat.div_small, Nat.mod_small by lia. reflexivity.
  - replace (k * (L - 1) + j)%nat with ((L + j - k) + (k - 1) * L)%nat.
    + rewrite Nat.div_add, Nat.mod_add by lia. rewrite Nat.div_small, Nat.mod_small by lia. reflexivity.
    + destruct L as [|L]; [lia|]. destruct k as [|k]; [lia|]. rewrite !Nat.sub_succ, !Nat.sub_0_r. nia.
Qed.
(** Entry (j, k) of the shifted trajectory. *)
Definition shifted (T offset : nat) (f : nat -> nat -> R) (j k : nat) : R :=
  if ((k + offset <=? j) && (j - (k + offset) <? T))%nat then f (j - (k + offset))%nat k else 0.
Lemma diag_shift_view (t : ten) pre T M f offset discard : isP2 t pre T M f -> (1 <= M)%nat ->
  (discard = true -> (1 <= M - 1 + offset)%nat) ->
  exists y, diag_shift t offset discard = Ok y /\
    isP2 y pre (if discard then T else T + M + offset - 1) M (fun q => shifted T offset (f q)).
Proof.
  intros Ht HM Hd. unfold diag_shift. pose proof (P2_rk _ _ _ _ _ Ht) as Hr.
  btrue (2 <=? rk t)%nat.
  assert (sizen t 2 = T) as -> by (unfold sizen, size; rewrite (proj1 Ht), (nth_pre pre [T; M] _ 0) by lia; reflexivity).
  assert (sizen t 1 = M) as -> by (unfold sizen, size; rewrite (proj1 Ht), (nth_pre pre [T; M] _ 1) by lia; reflexivity).
  rewrite Hr. nm (mT t). nm (pad (length pre + 2 - 1) offset M 0 v).
  nm (flatten (length pre + 2 - 2) (length pre + 2 - 1) v0).
  destruct (P1_unflat0 v1 pre _ _ (length pre + 2 - 2) (T + M + offset) M H1) as (u1 & -> & Hu1); [lia|nia|]. cbn [bind].
  nm (slice (length pre + 2 - 2) None (Some (-1)%Z) u1).
  nm (flatten (length pre + 2 - 2) (length pre + 2 - 1) v2).
  destruct (P1_unflat0 v3 pre _ _ (length pre + 2 - 2) M (T + M + offset - 1) H3) as (u2 & -> & Hu2); [lia|nia|]. cbn [bind].
  assert (Hy : isP2 u2 pre M (T + M + offset - 1) (fun q k j => shifted T offset (f q) j k)).
  { fin Hu2; auto. intros q k j Hq Hk Hj. rewrite Nat.add_0_l.
    set (ix := (k * (T + M + offset - 1) + j)%nat).
    replace (ix / M * M + ix mod M)%nat with ix by (rewrite (Nat.mul_comm (ix / M)); apply Nat.div_mod; lia).
    pose proof (shift_index k j (offset + T + M) M Hk ltac:(lia) ltac:(lia)) as E.
    replace (k * (offset + T + M - 1) + j)%nat with ix in E by (unfold ix; do 2 f_equal; lia). clearbody ix.
    assert (E1 := f_equal fst E). assert (E2 := f_equal snd E). cbn [fst snd] in E1, E2. clear E.
    rewrite E1, E2. unfold shifted. destruct (k <=? j)%nat eqn:Ek; b2p; cbn [fst snd].
    - destruct ((k + offset <=? j)%nat && (j - (k + offset) <? T)%nat) eqn:E3.
      + b2p. btrue (offset <=? j - k)%nat. btrue (j - k <? offset + T)%nat. cbn [andb]. f_equal. lia.
      + destruct ((offset <=? j - k)%nat && (j - k <? offset + T)%nat) eqn:E4; [|reflexivity].
        apply andb_false_iff in E3. apply andb_true_iff in E4 as [E4 E5]. apply Nat.leb_le in E4. apply Nat.ltb_lt in E5. destruct E3 as [E3|E3]; [apply Nat.leb_gt in E3|apply Nat.ltb_ge in E3]; lia.
    - bfalse (k + offset <=? j)%nat. cbn [andb]. rewrite (proj2 (Nat.ltb_ge _ _)) by lia. now rewrite andb_false_r. }
  clear - Hy Hd HM. destruct discard.
  - replace (- (Z.of_nat M - 1 + Z.of_nat offset))%Z with (- Z.of_nat (M - 1 + offset))%Z by lia. specialize (Hd eq_refl).
    nm (slice (length pre + 2 - 1) None (Some (- Z.of_nat (M - 1 + offset))%Z) u2). nm (mT v).
    eexists; split; [reflexivity|]. fin H0; auto; lia.
  - nm (mT u2). eexists; split; [reflexivity|]. exact H.
Qed.

Lemma sz2 (t : ten) n m f : is2 t n m f -> size t 0 = n /\ size t 1 = m.
Proof. intros [H _]. unfold size. now rewrite H. Qed.
Lemma sz3 (t : ten) n m p f : is3 t n m p f -> size t 0 = n /\ size t 1 = m /\ size t 2 = p.
Proof. intros [H _]. unfold size. now rewrite H. Qed.
(** ** fir *)
Lemma zeros_2 B M : is2 (zeros (R:=R) [B; M]) B M (fun _ _ => 0).
Proof. pose proof (P1_full [B] M (@r0 R)) as H. apply is2_P1. fin H; auto. Qed.
Lemma vecdot_same (t u : ten) pre n c f g : isP2 t pre n c f -> isP2 u pre n c g ->
  exists y, vecdot t u = Ok y /\ isP1 y pre n (fun q i => bsum c (fun z => conj (f q i z) * g q i z)).
Proof.
  intros Ht Hu. destruct (P2_vecdot _ t u pre n n n c f g Ht Hu (bdim_refl n)) as (y & E & Hy). exists y. split; [exact E|].
  fin Hy; auto. intros q i Hq Hi. now rewrite bi_lt.
Qed.
Lemma lpv_fir_core B N M (b x z : ten) bf xf zf : is3 b B N (S M) bf -> is2 x B N xf -> is2 z B M zf -> (1 <= N)%nat ->
  exists c u y, cat 1 [flip 1 z; x] = Ok c /\ unfold 1 (S M) c = Ok u /\ vecdot (tconj u) (flip 2 b) = Ok y /\
    is2 y B N (fun i => vconv_with M (bf i) (xf i) (zf i)) /\
    exists l, select 1 (-1) u = Ok l /\ is2 (flip 1 (slice 1 (Some 1%Z) None l)) B M (fun i k => hist (xf i) (zf i) N k).
Proof.
  intros Hb Hx Hz HN. apply is2_P1 in Hx, Hz. apply is3_P2 in Hb. nm (flip 1 z).
  destruct (P1_cat0 v x [B] M N _ _ 1 H Hx eq_refl) as (c & Ec & Hc).
  destruct (P1_unfold0 c [B] _ _ 1 (S M) Hc eq_refl ltac:(lia)) as (u & Eu & Hu).
  replace (M + N - S M + 1)%nat with N in Hu by lia. cbv beta in Hu.
  exists c, u. nm (tconj u). nm (flip 2 b).
  match goal with Ha : isP2 v0 _ _ _ _, Hb : isP2 v1 _ _ _ _ |- _ => destruct (vecdot_same v0 v1 [B] N (S M) _ _ Ha Hb) as (y & Ey & Hy) end.
  exists y. do 3 (split; [assumption|]). split.
  - apply is2_P1. fin Hy; [lia|]. intros q n Hq Hn. apply vld_1_inv in Hq as (i & -> & Hi). cbn [nth].
    rewrite (bsum_rev (S M)), bsum_S_l. unfold vconv_with. f_equal.
    + rewrite conj_conj. bfalse (n + (S M - 1 - 0) <? M)%nat. rewrite (Nat.add_comm n). 
      replace (S M - 1 - (S M - 1 - 0))%nat with 0%nat by lia. replace (S M - 1 - 0 + n - M)%nat with n by lia. ring.
    + apply bsum_ext. intros k Hk. rewrite conj_conj.
      replace (S M - 1 - (S M - 1 - S k))%nat with (S k) by lia. replace (S M - 1 - S k)%nat with (M - 1 - k)%nat by lia.
      rewrite (hist_cat R (xf i) (zf i) n k M Hk). ring.
  - rewrite (select_ok u 1 (-1) (N - 1)).
    2:{ unfold size. rewrite (proj1 Hu). cbn [app nth]. now apply pyidx_m1. }
    exists (sel 1 (N - 1) u). split; [reflexivity|]. nm (sel 1 (N - 1) u).
    nm (slice 1 (Some 1%Z) None v2). nm (flip 1 v3). apply is2_P1. fin H4; [lia|].
    intros q k Hq Hk. apply vld_1_inv in Hq as (i & -> & Hi). cbn [nth].
    rewrite <- (hist_cat R (xf i) (zf i) N k M Hk).
    replace (N - 1 + (1 + (M - 1 - k)))%nat with (N + (M - 1 - k))%nat by lia. reflexivity.
Qed.
Lemma lpv_fir_none B N M (b x : ten) bf xf : is3 b B N (S M) bf -> is2 x B N xf -> (1 <= N)%nat ->
  exists y, lpv_fir b x None false = Ok (y, None) /\ is2 y B N (fun i => vconv M (bf i) (xf i)).
Proof.
  intros Hb Hx HN. unfold lpv_fir. rkt. cbn [Nat.eqb]. unfold size. rewrite (proj1 Hb), (proj1 Hx). cbn [nth].
  rewrite !Nat.eqb_refl. cbn [andb bind].
  btrue (1 <=? S M)%nat. cbn [bind]. replace (S M - 1)%nat with M by lia.
  destruct (lpv_fir_core B N M b x _ bf xf _ Hb Hx (zeros_2 B M) HN) as (c & u & y & -> & Eu & Ey & Hy & _). cbn [bind].
  rewrite Eu. cbn [bind]. rewrite Ey. cbn [bind]. eexists; split; [reflexivity|]. eapply is2_ext; [exact Hy|].
  intros i n Hi Hn. cbn beta. now rewrite vconv_hist.
Qed.
Lemma lpv_fir_some B N M (b x z : ten) bf xf zf : is3 b B N (S M) bf -> is2 x B N xf -> is2 z B M zf -> (1 <= N)%nat ->
  exists y zo, lpv_fir b x (Some z) false = Ok (y, Some zo) /\ is2 y B N (fun i => vconv_with M (bf i) (xf i) (zf i)) /\
    is2 zo B M (fun i k => hist (xf i) (zf i) N k).
Proof.
  intros Hb Hx Hz HN. unfold lpv_fir. rkt. cbn [Nat.eqb]. unfold size. rewrite (proj1 Hb), (proj1 Hx), (proj1 Hz). cbn [nth].
  rewrite Nat.add_1_r, !Nat.eqb_refl. cbn [andb bind].
  destruct (lpv_fir_core B N M b x z bf xf zf Hb Hx Hz HN) as (c & u & y & -> & Eu & Ey & Hy & l & El & Hl). cbn [bind].
  rewrite Eu. cbn [bind]. rewrite Ey. cbn [bind]. rewrite El. cbn [bind]. eauto 8.
Qed.

(** The transposed form computes with the conjugated coefficients. *)
Lemma lpv_firt_core B N M (b x : ten) bf xf (tail : bool) : is3 b B N (S M) bf -> is2 x B N xf ->
  (tail = false -> (1 <= M)%nat) -> (1 <= N)%nat ->
  exists sb u y, diag_shift b 0 (negb tail) = Ok sb /\ size sb 2 = S M /\
    unfold 1 (S M) (pad 1 M (if tail then M else 0%nat) 0 x) = Ok u /\ vecdot (flip 2 sb) u = Ok y /\
    is2 y B (if tail then N + M else N) (fun i n =>
      bsum (S M) (fun k => if (k <=? n) && (n - k <? N) then conj (bf i (n - k)%nat k) * xf i (n - k)%nat else 0)).
Proof.
  intros Hb Hx HM HN. apply is2_P1 in Hx. apply is3_P2 in Hb.
  destruct (diag_shift_view b [B] N (S M) _ 0 (negb tail) Hb ltac:(lia)) as (sb & Es & Hs).
  { intro E. destruct tail; [discriminate|]. specialize (HM eq_refl). lia. }
  replace (if negb tail then N else N + S M + 0 - 1)%nat with (if tail then N + M else N)%nat in Hs by (destruct tail; cbn [negb]; lia).
  exists sb. set (Nt := (if tail then N + M else N)%nat) in *.
  nm (pad 1 M (if tail then M else 0%nat) 0 x).
  destruct (P1_unfold0 v [B] _ _ 1 (S M) H eq_refl) as (u & Eu & Hu); [destruct tail; lia|].
  match type of Hu with isP2 _ _ ?n _ _ => replace n with Nt in Hu by (unfold Nt; destruct tail; lia) end.
  exists u. nm (flip 2 sb). destruct (vecdot_same v0 u [B] Nt (S M) _ _ H0 Hu) as (y & Ey & Hy).
  exists y. split; [exact Es|]. split; [unfold size; rewrite (proj1 Hs); reflexivity|]. do 2 (split; [assumption|]).
  apply is2_P1. fin Hy; [lia|]. intros q n Hq Hn. apply vld_1_inv in Hq as (i & -> & Hi). cbn [nth].
  rewrite (bsum_rev (S M)). apply bsum_ext. intros k Hk.
  replace (S M - 1 - (S M - 1 - k))%nat with k by lia. unfold shifted. rewrite Nat.add_0_r.
  destruct ((k <=? n) && (n - k <? N)) eqn:E.
  - b2p. btrue (M <=? n + (S M - 1 - k))%nat. btrue (n + (S M - 1 - k) <? M + N)%nat. cbn [andb]. do 2 f_equal. lia.
  - rewrite conj_0. ring.
Qed.

Lemma vconvt_head (b : nat -> nat -> R) x M N n : (n < N)%nat ->
  bsum (S M) (fun k => if (k <=? n) && (n - k <? N) then b (n - k)%nat k * x (n - k)%nat else 0) = vconvt M b x n.
Proof.
  intro Hn. unfold vconvt. apply bsum_ext. intros k Hk. unfold dly. destruct (k <=? n)%nat eqn:E; b2p; cbn [andb]; [|reflexivity].
  btrue (n - k <? N)%nat. reflexivity.
Qed.
Lemma vconvt_tail (b : nat -> nat -> R) z x M N i : (M <= N)%nat -> (i < M)%nat ->
  bsum (S M) (fun k => if (k <=? N + i) && (N + i - k <? N) then b (N + i - k)%nat k * x (N + i - k)%nat else 0)
  = vtdf2_z M b (fun _ _ => 0) z x N i.
Proof.
  intros HN Hi. rewrite vtdf2_state by exact Hi. unfold padz. bfalse (N + i <? M)%nat. rewrite bsum_S_l.
  bfalse (N + i - 0 <? N)%nat. rewrite andb_false_r.
  rewrite (bsum_ext M _ (fun k => if (i <=? k)%nat then dly (fun m => b m (S k) * x m - 0 * vtdf2_y M b (fun _ _ => 0) z x m) (k - i + 1) N else 0)); [ring|].
  intros k Hk. unfold dly. btrue (S k <=? N + i)%nat. cbn [andb].
  destruct (i <=? k)%nat eqn:E; b2p.
  - btrue (N + i - S k <? N)%nat. btrue (k - i + 1 <=? N)%nat. replace (N + i - S k)%nat with (N - (k - i + 1))%nat by lia. ring.
  - bfalse (N + i - S k <? N)%nat. reflexivity.
Qed.
Lemma lpv_firt_none B N M (b x : ten) bf xf : is3 b B N (S M) bf -> is2 x B N xf -> (1 <= N)%nat -> (1 <= M)%nat ->
  exists y, lpv_fir b x None true = Ok (y, None) /\ is2 y B N (fun i => vconvt M (fun n k => conj (bf i n k)) (xf i)).
Proof.
  intros Hb Hx HN HM. destruct (lpv_firt_core B N M b x bf xf false Hb Hx (fun _ => HM) HN) as (sb & u & y & Es & Ez & Eu & Ey & Hy).
  unfold lpv_fir. rkt. cbn [Nat.eqb negb] in Es |- *. destruct (sz2 _ _ _ _ Hx) as [-> ->], (sz3 _ _ _ _ _ Hb) as (-> & -> & ->). rewrite Es, !Nat.eqb_refl. cbn [andb]. btrue (1 <=? S M)%nat. cbn [bind]. rewrite Ez. replace (S M - 1)%nat with M by lia.
  rewrite Eu. cbn [bind]. rewrite Ey. cbn [bind]. eexists; split; [reflexivity|]. eapply is2_ext; [exact Hy|].
  intros i n Hi Hn. cbn beta. now apply (vconvt_head (fun n k => conj (bf i n k))).
Qed.
Lemma lpv_firt_some B N M (b x z : ten) bf xf zf : is3 b B N (S M) bf -> is2 x B N xf -> is2 z B M zf -> (1 <= N)%nat -> (M <= N)%nat ->
  exists y zo, lpv_fir b x (Some z) true = Ok (y, Some zo) /\
    is2 y B N (fun i n => vconvt M (fun n k => conj (bf i n k)) (xf i) n + padz M (zf i) n) /\
    is2 zo B M (fun i k => vtdf2_z M (fun n k => conj (bf i n k)) (fun _ _ => 0) (zf i) (xf i) N k).
Proof.
  intros Hb Hx Hz HN HMN. destruct (lpv_firt_core B N M b x bf xf true Hb Hx) as (sb & u & y & Es & Ez & Eu & Ey & Hy); [discriminate|exact HN|].
  unfold lpv_fir. rkt. cbn [Nat.eqb negb] in Es |- *. destruct (sz2 _ _ _ _ Hx) as [-> ->], (sz2 _ _ _ _ Hz) as [-> ->], (sz3 _ _ _ _ _ Hb) as (-> & -> & ->). rewrite Es.
  rewrite Nat.add_1_r, !Nat.eqb_refl. cbn [andb bind]. rewrite Ez. replace (S M - 1)%nat with M by lia. replace (Z.of_nat (S M) - 1)%Z with (Z.of_nat M) by lia.
  rewrite Eu. cbn [bind]. rewrite Ey. cbn [bind]. unfold split2, size. rewrite (proj1 Hy). cbn [nth]. rewrite Nat.eqb_refl. cbn [bind].
  apply is2_P1 in Hy, Hz. nm (slice 1 None (Some (Z.of_nat N)) y). nm (slice 1 (Some (Z.of_nat N)) None y).
  match type of H with isP1 _ _ ?n _ => replace n with N in H by lia end.
  nm (slice 1 None (Some (Z.of_nat M)) v). match type of H1 with isP1 _ _ ?n _ => replace n with M in H1 by lia end.
  nm (slice 1 (Some (Z.of_nat M)) None v). ew2. cat2.
  do 2 eexists; split; [reflexivity|]. split.
  - apply is2_P1. match goal with H : isP1 w0 _ _ _ |- _ => fin H end; [lia|]. intros q n Hq Hn.
    rewrite <- (vconvt_head (fun n k => conj (bf (nth 0 q 0%nat) n k)) (xf (nth 0 q 0%nat)) M N n Hn).
    unfold padz. destruct (n <? M)%nat eqn:E; b2p.
    + rewrite !Nat.add_0_l. ring.
    + rewrite Nat.add_0_l. replace (M + (n - M))%nat with n by lia. ring.
  - apply is2_P1. fin H0; [lia|]. intros q k Hq Hk. now apply (vconvt_tail (fun n k => conj (bf (nth 0 q 0%nat) n k))).
Qed.

(** ** allpole *)
Lemma cat3 (t u v : ten) B n m k f g h : is2 t B n f -> is2 u B m g -> is2 v B k h ->
  exists y, cat 1 [t; u; v] = Ok y /\
    is2 y B (n + m + k) (fun i j => if (j <? n)%nat then f i j else if (j - n <? m)%nat then g i (j - n)%nat else h i (j - n - m)%nat).
Proof.
  intros [St Ht] [Su Hu] [Sv Hv]. unfold cat, rk. cbn [forallb cat_size]. unfold rk, size. rewrite St, Su, Sv. cbn [length nth del firstn skipn app]. change (1 <? 2)%nat with true. change (2 =? 2)%nat with true.
  rewrite list_eqb_refl. cbn [andb]. eexists; split; [reflexivity|]. split; [cbn; now rewrite Nat.add_assoc|].
  intros i j Hi Hj. cbn [cat_at at_ nth upd]. unfold size. rewrite St, Su. cbn [nth].
  destruct (j <? n)%nat eqn:E; b2p; [now apply Ht|]. cbn [upd nth firstn skipn app]. destruct (j - n <? m)%nat eqn:E2; b2p; [now apply Hu|apply Hv; lia].
Qed.
Lemma lpv_allpole_spec B N M (a x z : ten) af xf zf : is3 a B N M af -> is2 x B N xf -> is2 z B M zf ->
  exists y, sample_wise_lpc x a z = Ok y /\ is2 y B N (fun i n => vdf2_z M (af i) (zf i) (xf i) (S n) 0).
Proof. intros Ha Hx Hz. exact (sample_wise_lpc_spec R x a z B N M xf af zf Hx Ha Hz). Qed.
Lemma lpv_allpole_none B N M (a x : ten) af xf : is3 a B N M af -> is2 x B N xf ->
  exists y, lpv_allpole a x None false = Ok (y, None) /\
    is2 y B N (fun i n => vdf2_z M (af i) (fun _ => 0) (xf i) (S n) 0).
Proof.
  intros Ha Hx. unfold lpv_allpole. rkt. cbn [Nat.eqb].
  destruct (sz2 _ _ _ _ Hx) as [-> ->], (sz3 _ _ _ _ _ Ha) as (-> & -> & ->). rewrite !Nat.eqb_refl. cbn [andb bind].
  destruct (lpv_allpole_spec B N M a x _ af xf _ Ha Hx (zeros_2 B M)) as (y & -> & Hy). cbn [bind]. eauto.
Qed.
Lemma lpv_allpole_some B N M (a x z : ten) af xf zf : is3 a B N M af -> is2 x B N xf -> is2 z B M zf -> (1 <= M)%nat -> (M <= N)%nat ->
  exists y zo, lpv_allpole a x (Some z) false = Ok (y, Some zo) /\
    is2 y B N (fun i n => vdf2_z M (af i) (zf i) (xf i) (S n) 0) /\
    is2 zo B M (fun i => vdf2_z M (af i) (zf i) (xf i) N).
Proof.
  intros Ha Hx Hz HM HN. unfold lpv_allpole. rkt. cbn [Nat.eqb].
  destruct (sz2 _ _ _ _ Hx) as [-> ->], (sz2 _ _ _ _ Hz) as [-> ->], (sz3 _ _ _ _ _ Ha) as (-> & -> & ->). rewrite !Nat.eqb_refl. cbn [andb bind].
  destruct (lpv_allpole_spec B N M a x z af xf zf Ha Hx Hz) as (y & -> & Hy). cbn [bind]. pose proof Hy as Hy'. apply is2_P1 in Hy'.
  nm (slice 1 (Some (- Z.of_nat M)%Z) None y). nm (flip 1 v). do 2 eexists; split; [reflexivity|]. split; [exact Hy|].
  apply is2_P1. fin H0; [lia|]. intros q k Hq Hk. rewrite (vdf2_hist R M _ _ _ N k). unfold hist. btrue (k <? N)%nat.
  match goal with |- vdf2_z _ _ _ _ (S ?i) _ = vdf2_z _ _ _ _ (S ?j) _ => replace i with j by lia end. reflexivity.
Qed.

(** Transposed, signal at least as long as the order. *)
Lemma shifted_pole M N (a : nat -> nat -> R) (y : nat -> R) n : (n <= N + M)%nat ->
  bsum M (fun k => shifted N 1 a n k * hist y (fun _ => 0) n k)
  = bsum M (fun k => if ((k <? n) && (n - 1 - k <? N))%nat then a (n - 1 - k)%nat k * y (n - 1 - k)%nat else 0).
Proof.
  intro Hn. apply bsum_ext. intros k Hk. unfold shifted, hist. replace (k + 1 <=? n)%nat with (k <? n)%nat by (rewrite Nat.add_1_r; reflexivity).
  replace (n - (k + 1))%nat with (n - 1 - k)%nat by lia.
  destruct (k <? n)%nat; destruct (n - 1 - k <? N)%nat; cbn [andb]; ring.
Qed.
Lemma lpv_allpolet_core B N M (a x z : ten) af xf zf (tail : bool) : is3 a B N M af -> is2 x B N xf -> is2 z B M zf -> (1 <= M)%nat -> (M <= N)%nat ->
  exists sa h c y, diag_shift (tconj a) 1 (negb tail) = Ok sa /\ size sa 0 = B /\ size sa 2 = M /\
    tadd z (slice 1 None (Some (Z.of_nat M)) x) = Ok h /\
    cat 1 ([h; slice 1 (Some (Z.of_nat M)) None x] ++ (if tail then [zeros_like z] else [])) = Ok c /\
    sample_wise_lpc c sa (zeros [B; M]) = Ok y /\
    is2 y B (if tail then N + M else N) (fun i n =>
       if (n <? N)%nat then vtdf2_y M (one_tap R) (fun n k => conj (af i n k)) (zf i) (xf i) n
       else vtdf2_z M (one_tap R) (fun n k => conj (af i n k)) (zf i) (xf i) N (n - N)).
Proof.
  intros Ha Hx Hz HM HN. pose proof Ha as Ha'. apply is3_P2 in Ha'. nm (tconj a).
  destruct (diag_shift_view v [B] N M _ 1 (negb tail) H HM) as (sa & Es & Hs); [lia|].
  replace (if negb tail then N else N + M + 1 - 1)%nat with (if tail then N + M else N)%nat in Hs by (destruct tail; cbn [negb]; lia).
  set (Nt := (if tail then N + M else N)%nat) in *.
  assert (Hs3 : is3 sa B Nt M (fun i => shifted N 1 (fun n k => conj (af i n k)))).
  { apply is3_P2. fin Hs; auto. }
  destruct (sz3 _ _ _ _ _ Hs3) as (S0 & S1 & S2).
  exists sa. pose proof Hx as Hx'. pose proof Hz as Hz'. apply is2_P1 in Hx', Hz'.
  nm (slice 1 None (Some (Z.of_nat M)) x). match type of H0 with isP1 _ _ ?n _ => replace n with M in H0 by lia end.
  nm (slice 1 (Some (Z.of_nat M)) None x).
  unfold tadd. destruct (@P1_ew_same _ _ _ (@radd R) z v0 [B] M _ _ Hz' H0) as (h & Eh & Hh).
  exists h.
  assert (Hh2 : is2 h B M (fun i n => zf i n + xf i n)) by (apply is2_P1; fin Hh; auto).
  assert (Hv1 : is2 v1 B (N - M) (fun i n => xf i (M + n)%nat)) by (apply is2_P1; fin H1; auto; lia).
  assert (exists c, cat 1 ([h; v1] ++ (if tail then [zeros_like z] else [])) = Ok c /\
    is2 c B Nt (fun i n => if (n <? N)%nat then xf i n + padz M (zf i) n else 0)) as (c & Ec & Hc).
  { destruct tail; cbn [app].
    - assert (Hzz : is2 (zeros_like z) B M (fun _ _ => 0)).
      { destruct Hz as [Sz _]. split; [unfold zeros_like; cbn; exact Sz|]. reflexivity. }
      destruct (cat3 h v1 (zeros_like z) B _ _ _ _ _ _ Hh2 Hv1 Hzz) as (c & Ec & Hc). exists c. split; [exact Ec|].
      replace (M + (N - M) + M)%nat with Nt in Hc by (unfold Nt; lia). eapply is2_ext; [exact Hc|]. intros i n Hi Hn. cbn beta.
      unfold padz. destruct (n <? M)%nat eqn:E1; b2p.
      + btrue (n <? N)%nat. ring.
      + destruct (n <? N)%nat eqn:E2; b2p.
        * btrue (n - M <? N - M)%nat. replace (M + (n - M))%nat with n by lia. ring.
        * bfalse (n - M <? N - M)%nat. reflexivity.
    - apply is2_P1 in Hh2, Hv1. destruct (P1_cat0 h v1 [B] _ _ _ _ 1 Hh2 Hv1 eq_refl) as (c & Ec & Hc). exists c. split; [exact Ec|].
      apply is2_P1. fin Hc; [unfold Nt; lia|]. intros q n Hq Hn. unfold Nt in Hn. btrue (n <? N)%nat. unfold padz. destruct (n <? M)%nat eqn:E1; b2p.
      + ring.
      + replace (M + (n - M))%nat with n by lia. ring. }
  exists c. destruct (lpv_allpole_spec B Nt M sa c _ _ _ _ Hs3 Hc (zeros_2 B M)) as (y & Ey & Hy).
  exists y. do 6 (split; [assumption|]). eapply is2_ext; [exact Hy|]. intros i n Hi Hn. cbn beta.
  set (x' := fun n => if (n <? N)%nat then xf i n + padz M (zf i) n else 0).
  set (ac := fun n k => conj (af i n k)). set (w := fun n => vdf2_z M (shifted N 1 ac) (fun _ => 0) x' (S n) 0).
  assert (Hw : forall m, (m <= N + M)%nat -> w m + bsum M (fun k => if ((k <? m) && (m - 1 - k <? N))%nat then ac (m - 1 - k)%nat k * w (m - 1 - k)%nat else 0) = x' m).
  { intros m Hm. pose proof (vdf2_inner R M (shifted N 1 ac) (fun _ => 0) x' m) as E. unfold vpole in E. fold w in E.
    rewrite shifted_pole in E by exact Hm. exact E. }
  assert (Hw1 : forall m, (m < N)%nat -> w m = vtdf2_y M (one_tap R) ac (zf i) (xf i) m).
  { apply (vpolet_unique R M ac (fun m => xf i m + padz M (zf i) m)).
    - intros m Hm. unfold vpolet. specialize (Hw m ltac:(lia)). unfold x' in Hw. rewrite (proj2 (Nat.ltb_lt m N) Hm) in Hw. rewrite <- Hw. f_equal.
      apply bsum_ext. intros k Hk. unfold dly. change (S k <=? m)%nat with (k <? m)%nat. destruct (k <? m)%nat eqn:E; cbn [andb]; [|reflexivity]. b2p.
      btrue (m - 1 - k <? N)%nat. now replace (m - S k)%nat with (m - 1 - k)%nat by lia.
    - intros m Hm. now apply vtdf2_pole. }
  change (w n = if (n <? N)%nat then vtdf2_y M (one_tap R) ac (zf i) (xf i) n else vtdf2_z M (one_tap R) ac (zf i) (xf i) N (n - N)).
  destruct (n <? N)%nat eqn:En; b2p; [now apply Hw1|].
  assert (HnM : (n < N + M)%nat) by (unfold Nt in Hn; destruct tail; lia).
  rewrite vtdf2_state by lia. unfold padz. bfalse (N + (n - N) <? M)%nat.
  specialize (Hw n ltac:(lia)). unfold x' in Hw. rewrite (proj2 (Nat.ltb_ge n N) En) in Hw.
  set (s := bsum M _) in Hw. transitivity (w n + s - s); [ring|]. rewrite Hw. unfold s.
  rewrite (bsum_ext M _ (fun k => - (if (n - N <=? k)%nat then dly (fun m => one_tap R m (S k) * xf i m - ac m k * vtdf2_y M (one_tap R) ac (zf i) (xf i) m) (k - (n - N) + 1) N else 0))).
  - rewrite bsum_opp. ring.
  - intros k Hk. cbn [one_tap]. unfold dly. btrue (k <? n)%nat. cbn [andb]. destruct (n - N <=? k)%nat eqn:E; b2p.
    + btrue (n - 1 - k <? N)%nat. btrue (k - (n - N) + 1 <=? N)%nat. rewrite Hw1 by lia.
      replace (N - (k - (n - N) + 1))%nat with (n - 1 - k)%nat by lia. ring.
    + bfalse (n - 1 - k <? N)%nat. ring.
Qed.
Lemma lpv_allpolet_none B N M (a x : ten) af xf : is3 a B N M af -> is2 x B N xf -> (1 <= M)%nat -> (M <= N)%nat ->
  exists y, lpv_allpole a x None true = Ok (y, None) /\
    is2 y B N (fun i n => vtdf2_y M (one_tap R) (fun n k => conj (af i n k)) (fun _ => 0) (xf i) n).
Proof.
  intros Ha Hx HM HN.
  destruct (lpv_allpolet_core B N M a x _ af xf _ false Ha Hx (zeros_2 B M) HM HN) as (sa & h & c & y & Es & S0 & S2 & Eh & Ec & Ey & Hy).
  unfold lpv_allpole. rkt. cbn [Nat.eqb].
  destruct (sz2 _ _ _ _ Hx) as [-> ->], (sz3 _ _ _ _ _ Ha) as (-> & -> & ->). rewrite !Nat.eqb_refl. cbn [andb bind negb] in Es |- *.
  rewrite Es. cbn [bind]. rewrite S2, Eh. cbn [bind]. rewrite Ec. cbn [bind]. rewrite S0, Ey. cbn [bind].
  eexists; split; [reflexivity|]. eapply is2_ext; [exact Hy|]. intros i n Hi Hn. cbn beta. now btrue (n <? N)%nat.
Qed.
Lemma lpv_allpolet_some B N M (a x z : ten) af xf zf : is3 a B N M af -> is2 x B N xf -> is2 z B M zf -> (1 <= M)%nat -> (M <= N)%nat ->
  exists y zo, lpv_allpole a x (Some z) true = Ok (y, Some zo) /\
    is2 y B N (fun i n => vtdf2_y M (one_tap R) (fun n k => conj (af i n k)) (zf i) (xf i) n) /\
    is2 zo B M (fun i k => vtdf2_z M (one_tap R) (fun n k => conj (af i n k)) (zf i) (xf i) N k).
Proof.
  intros Ha Hx Hz HM HN.
  destruct (lpv_allpolet_core B N M a x z af xf zf true Ha Hx Hz HM HN) as (sa & h & c & y & Es & S0 & S2 & Eh & Ec & Ey & Hy).
  unfold lpv_allpole. rkt. cbn [Nat.eqb].
  destruct (sz2 _ _ _ _ Hx) as [-> ->], (sz2 _ _ _ _ Hz) as [-> ->], (sz3 _ _ _ _ _ Ha) as (-> & -> & ->). rewrite !Nat.eqb_refl. cbn [andb bind negb] in Es |- *.
  rewrite Es. cbn [bind]. rewrite S2, Eh. cbn [bind]. rewrite Ec. cbn [bind]. rewrite S0, Ey. cbn [bind].
  unfold split2. rewrite (proj2 (sz2 _ _ _ _ Hy)), Nat.eqb_refl. cbn [bind]. apply is2_P1 in Hy.
  nm (slice 1 None (Some (Z.of_nat N)) y). nm (slice 1 (Some (Z.of_nat N)) None y).
  do 2 eexists; split; [reflexivity|]. split; apply is2_P1.
  - fin H; [lia|]. intros q n Hq Hn. rewrite Nat.add_0_l. now btrue (n <? N)%nat.
  - fin H0; [lia|]. intros q n Hq Hn. bfalse (N + n <? N)%nat. f_equal. lia.
Qed.

(** ** Coefficient trajectories *)
Definition lead {X} (pre : list X) (b : nat) : list nat := match pre with [] => [] | _ => [b] end.
Lemma vcoef_P B N n (t : ten) f : vcoef B N n t f ->
  exists pre g, (pre = [] \/ pre = [B]) /\ isP2 t pre N n g /\
    forall b m k, (b < B)%nat -> (m < N)%nat -> (k < n)%nat -> f b m k = g (lead pre b) m k.
Proof.
  intros [g Ht Hf|Ht].
  - exists [], (fun _ => g). split; [auto|]. split; [now apply is2_P|]. exact Hf.
  - exists [B], (fun q => f (nth 0 q 0%nat)). split; [auto|]. split; [now apply is3_P2|]. reflexivity.
Qed.
Lemma P_vcoef B N n (t : ten) f pre g : (pre = [] \/ pre = [B]) -> isP2 t pre N n g ->
  (forall b m k, (b < B)%nat -> (m < N)%nat -> (k < n)%nat -> f b m k = g (lead pre b) m k) -> vcoef B N n t f.
Proof.
  intros [->| ->] Ht Hf.
  - apply (vc_s (g [])); [now apply P2_nil|exact Hf].
  - apply vc_b. apply P2_cons in Ht. eapply is3_ext; [exact Ht|]. intros. symmetry. now apply Hf.
Qed.
Lemma vcoef_ext B N n (t : ten) f g : vcoef B N n t f ->
  (forall b m k, (b < B)%nat -> (m < N)%nat -> (k < n)%nat -> f b m k = g b m k) -> vcoef B N n t g.
Proof.
  intros [h Ht Hf|Ht] H.
  - apply (vc_s h); [exact Ht|]. intros. rewrite <- H by assumption. now apply Hf.
  - apply vc_b. eapply is3_ext; [exact Ht|exact H].
Qed.
Lemma vcoef_size B N n (t : ten) f : vcoef B N n t f -> sizen t 1 = n /\ ((rk t =? 2) || (rk t =? 3))%nat = true /\ (2 <= rk t)%nat.
Proof. intros [h [Hs _] Hf|[Hs _]]; unfold sizen, size, rk; rewrite Hs; cbn; auto. Qed.
Lemma rk_lt (t : ten) : rk t = length (shape t). Proof. reflexivity. Qed.
Lemma vcoef_pad B N n k (t : ten) f : vcoef B N n t f ->
  vcoef B N (n + k) (pad (rk t - 1) 0 k 0 t) (fun b m => padz n (f b m)) /\ rk (pad (rk t - 1) 0 k 0 t) = rk t.
Proof.
  intro H. apply vcoef_P in H as (pre & g & Hp & Ht & Hf).
  pose proof (P2_rk _ _ _ _ _ Ht) as Hr. rewrite Hr. nm (pad (length pre + 2 - 1) 0 k 0 t). rewrite Nat.add_0_l in H.
  split; [|apply (P2_rk _ _ _ _ _ H)].
  apply (P_vcoef _ _ _ _ _ pre _ Hp H). intros b m i Hb Hm Hi. cbn [Nat.leb andb]. unfold padz. rewrite Nat.sub_0_r.
  destruct (i <? n)%nat eqn:E; b2p; [now apply Hf|reflexivity].
Qed.
Lemma vcoef_padz B N n (t : ten) f : vcoef B N n t f -> vcoef B N n t (fun b m => padz n (f b m)).
Proof. intro H. eapply vcoef_ext; [exact H|]. intros b m k Hb Hm Hk. unfold padz. now btrue (k <? n)%nat. Qed.
Lemma vcoef_conj B N n (t : ten) f : vcoef B N n t f -> vcoef B N n (tconj t) (fun b m k => conj (f b m k)).
Proof.
  intro H. apply vcoef_P in H as (pre & g & Hp & Ht & Hf). nm (tconj t).
  apply (P_vcoef _ _ _ _ _ pre _ Hp H). intros. f_equal. now apply Hf.
Qed.
Lemma vcoef_expand B N n (t : ten) f : vcoef B N n t f ->
  exists y, expand (if rk t =? 2 then [B; size t 0; size t 1] else [B; size t 1; size t 2]) t = Ok y /\ is3 y B N n f.
Proof.
  intros [g Ht Hf|Ht]; rkt; cbn [Nat.eqb].
  - destruct (sz2 _ _ _ _ Ht) as [-> ->].
    destruct (expand_pre2 t [B] N n g Ht) as (y & E & Hy). exists y. split; [exact E|]. apply P2_cons in Hy.
    eapply is3_ext; [exact Hy|]. intros. symmetry. now apply Hf.
  - destruct (sz3 _ _ _ _ _ Ht) as (_ & -> & ->). now apply expand_self3.
Qed.
Lemma companion_matv B N M (a : ten) f : vcoef B N M a f ->
  exists A, companion a = Ok A /\ sizen A 1 = M /\ matv B N M A (fun b n => compm R (f b n)) /\
    matv B N M (tconj (mT A)) (fun b n => comph R (fun k => conj (f b n k))).
Proof.
  intros [g Ht Hf|Ht].
  - apply is2_P1 in Ht. destruct (companion_view R a [N] M _ Ht) as (A & E & HA). exists A. split; [exact E|].
    split; [unfold sizen, size, rk; rewrite (proj1 HA); reflexivity|].
    nm (mT A). nm (tconj v). apply P2_cons in HA, H0. split.
    + apply (matv_s _ HA). intros b n i j Hb Hn Hi Hj. unfold compm. cbn [nth]. now rewrite Hf.
    + apply (matv_s _ H0). intros b n i j Hb Hn Hi Hj. unfold comph. cbn [nth]. rewrite Hf by assumption.
      destruct (j =? S i)%nat; [now rewrite conj_1|]. destruct (j =? 0)%nat; [now rewrite conj_opp|now rewrite conj_0].
  - apply is3_PP1 in Ht. destruct (companion_view R a [B; N] M _ Ht) as (A & E & HA). exists A. split; [exact E|].
    split; [unfold sizen, size, rk; rewrite (proj1 HA); reflexivity|].
    nm (mT A). nm (tconj v). split; apply matv_b.
    + split; [exact (proj1 HA)|]. intros b n i j Hb Hn Hi Hj. change [b; n; i; j] with ([b; n] ++ [i; j]). rewrite (proj2 HA [b; n] i j) by (auto; repeat constructor; auto). reflexivity.
    + split; [exact (proj1 H0)|]. intros b n i j Hb Hn Hi Hj. change [b; n; i; j] with ([b; n] ++ [i; j]). rewrite (proj2 H0 [b; n] i j) by (auto; repeat constructor; auto). cbn [nth]. unfold comph.
      destruct (j =? S i)%nat; [now rewrite conj_1|]. destruct (j =? 0)%nat; [now rewrite conj_opp|now rewrite conj_0].
Qed.
Lemma vcoef_diff B N M (b a : ten) bf af : vcoef B N (S M) b bf -> vcoef B N M a af ->
  exists t, (let* b0a := tmul (slice (rk b - 1) None (Some 1%Z) b) a in tsub (slice (rk b - 1) (Some 1%Z) None b) b0a)%res = Ok t /\
    vcoef B N M t (fun i n k => bf i n (S k) - bf i n 0%nat * af i n k) /\ (rk t = 3 -> rk b = 3 \/ rk a = 3)%nat.
Proof.
  intros Hb Ha. apply vcoef_P in Hb as (pb & gb & Hpb & Hb & Hfb). apply vcoef_P in Ha as (pa & ga & Hpa & Ha & Hfa).
  pose proof (P2_rk _ _ _ _ _ Hb) as Hrb. pose proof (P2_rk _ _ _ _ _ Ha) as Hra. rewrite Hrb.
  nm (slice (length pb + 2 - 1) None (Some 1%Z) b). match type of H with isP2 _ _ _ ?n _ => replace n with 1%nat in H by lia end.
  nm (slice (length pb + 2 - 1) (Some 1%Z) None b). match type of H0 with isP2 _ _ _ ?n _ => replace n with M in H0 by lia end.
  destruct Hpb as [->| ->], Hpa as [->| ->]; repeat ew2;
    (eexists; split; [reflexivity|]); (split; [eapply P_vcoef; [|eassumption|]; [auto|]|]);
    try (intros i n k Hi Hn Hk; rewrite Hfb, (Hfb i n 0%nat), Hfa by lia; rewrite ?(bi_lt N), ?(bi_lt M) by lia; reflexivity);
    rewrite ?Hrb, ?Hra; cbn [length]; rkt; cbn [length]; lia.
Qed.
Lemma vcoef_head B N M (b : ten) bf : vcoef B N (S M) b bf -> (rk b = 2 \/ B <> N)%nat ->
  exists t, select (rk b - 1) 0 b = Ok t /\ feedv B N None None (Some t) (fun i n _ _ => bf i n 0%nat) /\
    feedv B N None None (Some (tconj t)) (fun i n _ _ => conj (bf i n 0%nat)).
Proof.
  intros [g Hb Hf|Hb] HBN; rkt; cbn [Nat.sub].
  - rewrite (select_ok b 1 0 0) by (unfold size; rewrite (proj1 Hb); reflexivity). eexists; split; [reflexivity|].
    apply is2_P in Hb. nm (sel 1 0 b). nm (tconj v). apply P1_nil in H, H0.
    split; (eapply fdv_2_N; [eassumption|]); intros i n p k Hi Hn Hp Hk; [|f_equal]; apply Hf; lia.
  - destruct HBN as [HBN|HBN]; [revert HBN; rkt; discriminate|].
    rewrite (select_ok b 2 0 0) by (unfold size; rewrite (proj1 Hb); reflexivity). eexists; split; [reflexivity|].
    apply is3_P2 in Hb. nm (sel 2 0 b). nm (tconj v). apply P1_cons in H, H0.
    split; (eapply fdv_2_BN; [eassumption|exact HBN|]); intros i n p k Hi Hn Hp Hk; reflexivity.
Qed.
Lemma vcoef_in B N M (t : ten) f : vcoef B N M t f -> inmatv B N M None (Some t) (fun b n m _ => f b n m).
Proof.
  intros [g Ht Hf|Ht]; [eapply inv_NM; [exact Ht|]|eapply inv_BNM; [exact Ht|]]; intros b n i j Hb Hn Hi Hj; auto.
Qed.
Lemma vcoef_out B N M (t : ten) f : vcoef B N M t f -> (rk t = 3 -> B <> N)%nat -> outmatv B N M None (Some t) None (fun b n _ m => f b n m).
Proof.
  intros [g Ht Hf|Ht] HBN; [eapply outv_NM; [exact Ht|]|eapply outv_BNM; [exact Ht|apply HBN; rkt; reflexivity|]]; intros b n i j Hb Hn Hi Hj; auto.
Qed.

(** ** The ssm back-end *)
Section Forms.
Variables (e : env) (pr : bool) (B N nb na M : nat) (b a x : ten) (bf af : nat -> nat -> nat -> R) (xf : nat -> nat -> R) (uf : option nat).
Hypotheses (HB : (1 <= B)%nat) (HN : (1 <= N)%nat) (Hnb : (1 <= nb)%nat) (EM : M = Nat.max na (nb - 1)) (HM : (1 <= M)%nat)
  (He : lpv_backend_ok e pr M)
  (Hb : vcoef B N nb b bf) (Ha : vcoef B N na a af) (Hx : is2 x B N xf).
Let bp i n := padz nb (bf i n).
Let ap i n := padz na (af i n).

Lemma vpad_b : exists b', (if (nb <? na + 1)%nat then pad (rk b - 1) 0 (na + 1 - nb) 0 b else b) = b' /\ vcoef B N (S M) b' bp /\ rk b' = rk b.
Proof.
  eexists; split; [reflexivity|]. unfold bp. destruct (nb <? na + 1)%nat eqn:E; b2p.
  - replace (S M) with (nb + (na + 1 - nb))%nat by lia. now apply vcoef_pad.
  - replace (S M) with nb by lia. split; [now apply vcoef_padz|reflexivity].
Qed.
Lemma vpad_a : exists a', (if (na + 1 <? nb)%nat then pad (rk a - 1) 0 (nb - na - 1) 0 a else a) = a' /\ vcoef B N M a' ap /\ rk a' = rk a.
Proof.
  eexists; split; [reflexivity|]. unfold ap. destruct (na + 1 <? nb)%nat eqn:E; b2p.
  - replace M with (na + (nb - na - 1))%nat by lia. now apply vcoef_pad.
  - replace M with na by lia. split; [now apply vcoef_padz|reflexivity].
Qed.

Lemma lpv_ssm_df2_spec zi z0 : init B M zi z0 -> unroll_good N uf -> (rk b = 2 /\ rk a = 2 \/ B <> N)%nat ->
  exists y zf, lpv_ssm_lfilter e pr Df2 uf b a x zi = Ok (y, zf) /\
    is2 y B N (fun i => vdf2_y M (bp i) (ap i) (z0 i) (xf i)) /\
    match zi with
    | None => zf = None
    | Some _ => exists z, zf = Some z /\ is2 z B M (fun i => vdf2_z M (ap i) (z0 i) (xf i) N)
    end.
Proof.
  intros Hz Hu HBN. unfold lpv_ssm_lfilter.
  rewrite (proj1 (vcoef_size _ _ _ _ _ Hb)), (proj1 (vcoef_size _ _ _ _ _ Ha)).
  destruct vpad_b as (b' & -> & Hb' & Rb). destruct vpad_a as (a' & -> & Ha' & Ra).
  destruct (companion_matv B N M a' ap Ha') as (A & -> & _ & HA & _). cbn [bind].
  destruct (vcoef_diff B N M b' a' bp ap Hb' Ha') as (C & EC & HC & RC).
  unfold bind in EC |- *. destruct (tmul _ a') as [t|]; [|discriminate]. rewrite EC.
  destruct (vcoef_head B N M b' bp Hb') as (D & -> & HD & _); [lia|].
  destruct (lpv_state_space_spec R e pr B N M None None A x None (Some C) (Some D) zi uf None (fun i n => compm R (ap i n))
    (fun i n _ => xf i n) (fun _ _ i _ => if (i =? 0)%nat then 1 else 0) (fun i n _ m => bp i n (S m) - bp i n 0%nat * ap i n m)
    (fun i n _ _ => bp i n 0%nat) z0) as (y & zf & E & Hy & Hzf); auto.
  { apply inv_none2. intros i n m k Hi Hn Hm Hk. unfold unit3. now replace k with 0%nat by lia. }
  { apply (vcoef_out B N M C (fun i n m => bp i n (S m) - bp i n 0%nat * ap i n m) HC). lia. }
  exists y, zf. split; [exact E|]. split.
  - cbn [sigv] in Hy. eapply is2_ext; [exact Hy|]. intros i n Hi Hn. cbn beta. now apply (ss_vdf2_y R M (bp i)).
  - destruct zi; [|exact Hzf]. destruct Hzf as (z & -> & Hzf). exists z. split; [reflexivity|].
    eapply is2_ext; [exact Hzf|]. intros i k Hi Hk. cbn beta. now apply ss_vdf2_h.
Qed.

Let bc i n k := conj (bp i n k).
Let ac i n k := conj (ap i n k).
Lemma lpv_ssm_tdf2_spec zi z0 : init B M zi z0 -> unroll_good N uf -> (rk b = 2 \/ B <> N)%nat ->
  exists y zf, lpv_ssm_lfilter e pr Tdf2 uf b a x zi = Ok (y, zf) /\
    is2 y B N (fun i => vtdf2_y M (bc i) (ac i) (z0 i) (xf i)) /\
    match zi with
    | None => zf = None
    | Some _ => exists z, zf = Some z /\ is2 z B M (fun i => vtdf2_z M (bc i) (ac i) (z0 i) (xf i) N)
    end.
Proof.
  intros Hz Hu HBN. unfold lpv_ssm_lfilter.
  rewrite (proj1 (vcoef_size _ _ _ _ _ Hb)), (proj1 (vcoef_size _ _ _ _ _ Ha)).
  destruct vpad_b as (b' & -> & Hb' & Rb). destruct vpad_a as (a' & -> & Ha' & Ra).
  destruct (companion_matv B N M a' ap Ha') as (A & -> & _ & _ & HA). cbn [bind].
  destruct (vcoef_diff B N M b' a' bp ap Hb' Ha') as (C & EC & HC & RC).
  unfold bind in EC |- *. destruct (tmul _ a') as [t|]; [|discriminate]. rewrite EC.
  destruct (vcoef_head B N M b' bp Hb') as (D & -> & _ & HD); [lia|].
  destruct (lpv_state_space_spec R e pr B N M None None (tconj (mT A)) x (Some (tconj C)) None (Some (tconj D)) zi uf (Some 0%Z)
    (fun i n => comph R (ac i n)) (fun i n _ => xf i n) (fun i n m _ => bc i n (S m) - bc i n 0%nat * ac i n m) (fun i _ _ m => unit3 0 0 m)
    (fun i n _ _ => bc i n 0%nat) z0) as (y & zf & E & Hy & Hzf); auto.
  { apply (vcoef_in B N M (tconj C) (fun i n m => bc i n (S m) - bc i n 0%nat * ac i n m)).
    eapply vcoef_ext; [apply vcoef_conj; exact HC|]. intros i n k Hi Hn Hk. unfold bc, ac. cbn beta.
    now rewrite conj_sub, conj_mul. }
  { apply (outv_idx R B N M 0%Z 0%nat); [now apply (pyidx_nat M 0)|]. intros i n p m Hi Hn Hp Hm. reflexivity. }
  exists y, zf. split; [exact E|]. split.
  - cbn [sigv] in Hy. eapply is2_ext; [exact Hy|]. intros i n Hi Hn. cbn beta. now apply (ss_vtdf2_y R M (bc i)).
  - destruct zi; [|exact Hzf]. destruct Hzf as (z & -> & Hzf). exists z. split; [reflexivity|].
    eapply is2_ext; [exact Hzf|]. intros i k Hi Hk. cbn beta. now apply ss_vtdf2_h.
Qed.

Definition unroll_good1 : Prop := match uf with None => True | Some _ => unroll_good N uf end.
Lemma lpv_recur_spec (A u : ten) Af uu : unroll_good1 -> matv B N M A Af -> drive B N M u uu ->
  exists y, (if lpv_extension_backend_indicator e pr M
             then lpv_ext_ss_recur e pr A (zeros [B; M]) u (Some 0%Z)
             else lpv_state_space_recursion e pr A (zeros [B; M]) u (match uf with Some k => k | None => 1%nat end) (Some 0%Z)) = Ok y /\
    is2 y B N (fun i n => state M (Af i) (fun _ => 0) (uu i) (S n) 0%nat).
Proof.
  intros Hu HA Hd.
  assert (Hi : idx_ok M (Some 0%Z)) by (exists 0%nat; now apply (pyidx_nat M 0)).
  assert (Hg : unroll_good N (Some (match uf with Some k => k | None => 1%nat end))).
  { unfold unroll_good1 in Hu. destruct uf; [exact Hu|]. split; auto. }
  assert (Hp := pyidx_nat M 0 ltac:(lia)).
  destruct (lpv_extension_backend_indicator e pr M) eqn:Ei.
  - destruct (lpv_ext_spec R e pr B N M A (zeros [B; M]) u Af (fun _ _ => 0) uu (Some 0%Z)) as (y & E & Hy); auto.
    { now apply lpv_backend_ext. }
    { apply zeros_2. }
    exists y. split; [exact E|]. exact (Hy 0%nat Hp).
  - destruct (lpv_ssr_spec R e pr B N M A (zeros [B; M]) u Af (fun _ _ => 0) uu (match uf with Some k => k | None => 1%nat end) (Some 0%Z)) as (y & E & Hy); auto.
    { apply zeros_2. }
    exists y. split; [exact E|]. exact (Hy 0%nat Hp).
Qed.
Lemma lpv_ssm_df1_spec zi : unroll_good1 ->
  exists y, lpv_ssm_lfilter e pr Df1 uf b a x zi = Ok (y, None) /\
    exists yf, is2 y B N yf /\ forall i n, (i < B)%nat -> (n < N)%nat -> vpole M (ap i) (vconv M (bp i) (xf i)) (yf i) (fun _ => 0) n.
Proof.
  intro Hu. unfold lpv_ssm_lfilter.
  rewrite (proj1 (vcoef_size _ _ _ _ _ Hb)), (proj1 (vcoef_size _ _ _ _ _ Ha)).
  destruct vpad_b as (b' & -> & Hb' & Rb). destruct vpad_a as (a' & -> & Ha' & Ra).
  destruct (companion_matv B N M a' ap Ha') as (A & -> & ES & HA & _). cbn [bind].
  rewrite ES, (proj1 (sz2 _ _ _ _ Hx)).
  destruct (vcoef_expand _ _ _ _ _ Hb') as (bb & -> & Hbb). cbn [bind].
  destruct (lpv_fir_none B N M bb x bp xf Hbb Hx HN) as (u & -> & Hux). cbn [bind].
  destruct (lpv_recur_spec A u (fun i n => compm R (ap i n)) (fun i n m => if (m =? 0)%nat then vconv M (bp i) (xf i) n else 0)) as (y & E & Hy); auto.
  { eapply drive_2; [exact Hux|]. intros. reflexivity. }
  rewrite E. cbn [bind]. exists y. split; [reflexivity|]. eexists; split; [exact Hy|]. intros i n Hi Hn.
  apply (vpole_df1 R M (ap i) (vconv M (bp i) (xf i)) (fun _ => 0) (fun n m => if (m =? 0)%nat then vconv M (bp i) (xf i) n else 0)); auto.
Qed.
(** Transposed direct form I: the recursion uses the coefficients one sample late. *)
Lemma lpv_ssm_tdf1_spec zi : unroll_good1 ->
  exists y, lpv_ssm_lfilter e pr Tdf1 uf b a x zi = Ok (y, None) /\
    exists yf wf, is2 y B N yf /\ forall i n, (i < B)%nat -> (n < N)%nat ->
      vpolet M (late R (ac i)) (xf i) (wf i) n /\ yf i n = vconvt M (bp i) (wf i) n.
Proof.
  intro Hu. unfold lpv_ssm_lfilter.
  rewrite (proj1 (vcoef_size _ _ _ _ _ Hb)), (proj1 (vcoef_size _ _ _ _ _ Ha)).
  destruct vpad_b as (b' & -> & Hb' & Rb). destruct vpad_a as (a' & -> & Ha' & Ra).
  destruct (companion_matv B N M a' ap Ha') as (A & -> & ES & _ & HA). cbn [bind].
  rewrite (proj1 (sz2 _ _ _ _ Hx)).
  destruct (vcoef_expand _ _ _ _ _ (vcoef_conj _ _ _ _ _ Hb')) as (bb & -> & Hbb). cbn [bind].
  assert (ES' : sizen (tconj (mT A)) 1 = M) by (destruct HA as [g HA _|HA]; unfold sizen, size, rk; rewrite (proj1 HA); reflexivity).
  rewrite ES, ES'.
  destruct (lpv_recur_spec (tconj (mT A)) x (fun i n => comph R (ac i n)) (fun i n m => if (m =? 0)%nat then xf i n else 0)) as (u & E & Hux); auto.
  { eapply drive_2; [exact Hx|]. intros. reflexivity. }
  rewrite E. cbn [bind].
  destruct (lpv_firt_none B N M bb u _ _ Hbb Hux HN HM) as (y & -> & Hy). exists y. split; [reflexivity|].
  eexists; exists (fun i n => state M (fun n => comph R (ac i n)) (fun _ => 0) (fun n m => if (m =? 0)%nat then xf i n else 0) (S n) 0%nat).
  split; [exact Hy|]. intros i n Hi Hn. split.
  - apply (vpolet_late R M (ac i) (xf i) (fun _ => 0)); auto.
  - apply vconvt_ext; [|reflexivity]. intros. apply conj_conj.
Qed.
End Forms.

(** ** The torchlpc back-end *)
Lemma expand_3 (t : ten) a B N n f : is3 t a N n f -> a = B \/ a = 1%nat ->
  exists y, expand [B; N; n] t = Ok y /\ is3 y B N n (fun i => f (bi a i)).
Proof.
  intros [Hs Hf] H. unfold expand. rewrite Hs. cbn [rev app expandable_rev]. rewrite !Nat.eqb_refl. cbn [orb andb].
  assert (((a =? B) || (a =? 1)) && true = true)%nat as -> by (destruct H as [->| ->]; rewrite !Nat.eqb_refl, ?orb_true_r; reflexivity).
  eexists; split; [reflexivity|]. split; [reflexivity|]. intros i j k Hi Hj Hk. cbn.
  fold (bi N j). fold (bi n k). fold (bi a i). rewrite (bi_lt N), (bi_lt n) by assumption. apply Hf; auto. unfold bi. destruct (a =? 1)%nat eqn:E; b2p; lia.
Qed.
Lemma vcoef_lead B N n (t : ten) f : vcoef B N n t f -> (1 <= B)%nat ->
  exists t1 B1, (if rk t =? 2 then Ok (unsqueeze 0 t) else guard rk t =? 3 else ValueError in Ok t)%res = Ok t1 /\
    size t1 0 = B1 /\ (1 <= B1 <= B)%nat /\ (rk t = 3%nat -> B1 = B) /\ size t1 1 = N /\ size t1 2 = n /\
    exists y, expand [B; N; n] t1 = Ok y /\ is3 y B N n f.
Proof.
  intros [g Ht Hf|Ht] HB; rkt; cbn [Nat.eqb].
  - apply unsq0_2 in Ht. eexists; exists 1%nat. split; [reflexivity|]. destruct (sz3 _ _ _ _ _ Ht) as (-> & -> & ->).
    do 5 (split; [lia|]). destruct (expand_3 _ 1 B N n _ Ht (or_intror eq_refl)) as (y & E & Hy). exists y. split; [exact E|].
    eapply is3_ext; [exact Hy|]. intros. symmetry. now apply Hf.
  - exists t, B. split; [reflexivity|]. destruct (sz3 _ _ _ _ _ Ht) as (-> & -> & ->).
    do 5 (split; [lia|]). now apply expand_self3.
Qed.
(** A signal per filter, or one signal for a batch of filters. *)
Inductive xsig (B N : nat) (b a x : ten) (xf : nat -> nat -> R) : Prop :=
| xs_B : is2 x B N xf -> xsig B N b a x xf
| xs_1 g : is2 x 1 N g -> rk b = 3%nat \/ rk a = 3%nat ->
    (forall i n, (i < B)%nat -> (n < N)%nat -> xf i n = g 0%nat n) -> xsig B N b a x xf.
Section Lpc.
Variables (B N nb na M : nat) (b a x : ten) (bf af : nat -> nat -> nat -> R) (xf : nat -> nat -> R).
Hypotheses (HB : (1 <= B)%nat) (HN : (1 <= N)%nat) (Hnb : (1 <= nb)%nat) (Hna : (1 <= na)%nat) (EM : M = Nat.max na (nb - 1))
  (Hb : vcoef B N nb b bf) (Ha : vcoef B N na a af) (Hx : xsig B N b a x xf).

Lemma torchlpc_unfold zi z0 fm : init B M zi z0 ->
  exists bb ba bx z, is3 bb B N nb bf /\ is3 ba B N na af /\ is2 bx B N xf /\ is2 z B M z0 /\
     torchlpc_lfilter fm b a x zi =
     match fm with
     | Df2 =>
      let* ' (w, a_zf) := lpv_allpole ba bx (Some (slice 1 None (Some (Z.of_nat na)) z)) false in
      let* ' (y, b_zf) := lpv_fir bb w (Some (slice 1 None (Some (Z.of_nat nb - 1)%Z) z)) false in
      match b_zf, a_zf with
      | Some b_zf, Some a_zf =>
          if match zi with Some _ => true | None => false end then Ok (y, Some (if size a_zf 1 <? size b_zf 1 then b_zf else a_zf))
          else Ok (y, None)
      | _, _ => Err TypeError
      end
     | Tdf2 => Err NotImplementedError
     | Df1 => let* ' (u, _) := lpv_fir bb bx None false in lpv_allpole ba u None false
     | Tdf1 => let* ' (u, _) := lpv_allpole ba bx None true in lpv_fir bb u None true
     | OtherForm => Err ValueError
     end%res.
Proof.
  intro Hz. destruct (vcoef_lead B N nb b bf Hb HB) as (b1 & Bb & Eb & Sb0 & Sb & Sb3 & Sb1 & Sb2 & bb & Ebb & Hbb).
  destruct (vcoef_lead B N na a af Ha HB) as (a1 & Ba & Ea & Sa0 & Sa & Sa3 & Sa1 & Sa2 & ba & Eba & Hba).
  assert (exists bx Bx, size x 0 = Bx /\ size x 1 = N /\ Nat.max (Nat.max Bb Ba) Bx = B /\ expand [B; N] x = Ok bx /\ is2 bx B N xf)
    as (bx & Bx & Sx0 & Sx1 & EB & Ebx & Hbx).
  { destruct Hx as [Hx'|g Hx' Hr Hg].
    - destruct (expand_self2 R x B N xf Hx') as (bx & Ebx & Hbx). exists bx, B. destruct (sz2 _ _ _ _ Hx') as [-> ->].
      do 2 (split; [reflexivity|]). split; [lia|auto].
    - destruct (expand_2 x 1 N B N _ Hx' (or_intror eq_refl) (or_introl eq_refl)) as (y & E & Hy). exists y, 1%nat.
      destruct (sz2 _ _ _ _ Hx') as [-> ->]. do 2 (split; [reflexivity|]). split; [destruct Hr as [Hr|Hr]; [rewrite (Sb3 Hr)|rewrite (Sa3 Hr)]; lia|].
      split; [exact E|]. eapply is2_ext; [exact Hy|]. intros i n Hi Hn. cbn beta. rewrite (bi_lt N) by exact Hn. symmetry. now apply Hg. }
  assert (exists z, (match zi with
    | None => Ok (zeros (R:=R) [B; M], B)
    | Some z =>
        if rk z =? 1 then
          guard size z 0 =? M else AssertionError in
          let* z := expand [B; size z 0] (unsqueeze 0 z) in Ok (z, B)
        else if rk z =? 2 then
          guard size z 1 =? M else AssertionError in
          let B := Nat.max B (size z 0) in
          let* z := expand [B; size z 1] z in Ok (z, B)
        else Err ValueError
    end)%res = Ok (z, B) /\ is2 z B M z0) as (z & Ez & Hzz).
  { destruct Hz as [f Hf|t g f Ht Hf|t g f Ht Hf].
    - eexists; split; [reflexivity|]. eapply is2_ext; [apply zeros_2|]. intros. symmetry. now apply Hf.
    - rkt. cbn [Nat.eqb]. assert (size t 0 = M) as -> by (unfold size; now rewrite (proj1 Ht)). rewrite Nat.eqb_refl.
      apply is1_P in Ht. nm (unsqueeze 0 t). apply P2_nil in H || apply is2_P in H.
      destruct (expand_2 v 1 M B M _ H (or_intror eq_refl) (or_introl eq_refl)) as (y & -> & Hy). cbn [bind].
      exists y. split; [reflexivity|]. eapply is2_ext; [exact Hy|]. intros i k Hi Hk. cbn beta. rewrite (bi_lt M) by exact Hk. symmetry. now apply Hf.
    - rkt. cbn [Nat.eqb]. destruct (sz2 _ _ _ _ Ht) as [-> ->]. rewrite Nat.eqb_refl, Nat.max_id.
      destruct (expand_self2 R t B M g Ht) as (y & -> & Hy). cbn [bind]. exists y. split; [reflexivity|].
      eapply is2_ext; [exact Hy|]. intros. symmetry. now apply Hf. }
  exists bb, ba, bx, z. do 4 (split; [assumption|]).
  unfold torchlpc_lfilter. rewrite Eb. cbn [bind]. rewrite Ea. cbn [bind]. cbv zeta in Ez |- *. rewrite Sb0, Sb1, Sb2, Sa0, Sa1, Sa2.
  rewrite Sx0, Sx1, !Nat.eqb_refl. cbn [andb]. rewrite <- EM. rewrite EB, Ez. cbn [bind]. rewrite Ebb. cbn [bind]. rewrite Eba. cbn [bind]. rewrite Ebx. cbn [bind].
  destruct fm, zi; reflexivity.
Qed.
Let bp i n := padz nb (bf i n).
Let ap i n := padz na (af i n).
Lemma vdf2_z_pad z0 (x0 : nat -> R) i n : forall k, vdf2_z M (ap i) z0 x0 n k = vdf2_z na (af i) z0 x0 n k.
Proof.
  induction n as [|n IH]; intro k; [reflexivity|]. cbn [vdf2_z]. destruct k; [|apply IH]. f_equal. unfold ap.
  rewrite bsum_padz by lia. apply bsum_ext. intros. f_equal. apply IH.
Qed.
Lemma vdf2_y_pad z0 (x0 : nat -> R) i n :
  vdf2_y M (bp i) (ap i) z0 x0 n = vconv_with (nb - 1) (bf i) (fun k => vdf2_z na (af i) z0 x0 (S k) 0) z0 n.
Proof.
  rewrite vdf2_y_with. unfold bp. replace (fun n0 => padz nb (bf i n0)) with (fun n0 => padz (S (nb - 1)) (bf i n0)) by now replace (S (nb - 1)) with nb by lia.
  rewrite vconv_with_pad by lia. apply vconv_with_ext; auto. intros. apply vdf2_z_pad.
Qed.
Lemma lpv_allpole_some' (ba bx z : ten) z0 : is3 ba B N na af -> is2 bx B N xf -> is2 z B na z0 ->
  exists y zo, lpv_allpole ba bx (Some z) false = Ok (y, Some zo) /\
    is2 y B N (fun i n => vdf2_z na (af i) (z0 i) (xf i) (S n) 0) /\
    ((na <= N)%nat -> is2 zo B na (fun i => vdf2_z na (af i) (z0 i) (xf i) N)).
Proof.
  intros Ha1 Hx1 Hz1. destruct (le_lt_dec na N) as [Hn|Hn].
  - destruct (lpv_allpole_some B N na ba bx z af xf z0 Ha1 Hx1 Hz1 Hna Hn) as (y & zo & E & Hy & Hz). eauto 8.
  - destruct (lpv_allpole_spec B N na ba bx z af xf z0 Ha1 Hx1 Hz1) as (y & E & Hy). exists y. eexists. split; [|split; [exact Hy|lia]].
    unfold lpv_allpole. rkt. cbn [Nat.eqb].
    destruct (sz2 _ _ _ _ Hx1) as [-> ->], (sz2 _ _ _ _ Hz1) as [-> ->], (sz3 _ _ _ _ _ Ha1) as (-> & -> & ->). rewrite !Nat.eqb_refl. cbn [andb bind].
    rewrite E. reflexivity.
Qed.
Lemma torchlpc_df2_spec zi z0 : init B M zi z0 ->
  exists y zf, torchlpc_lfilter Df2 b a x zi = Ok (y, zf) /\
    is2 y B N (fun i => vdf2_y M (bp i) (ap i) (z0 i) (xf i)) /\
    match zi with
    | None => zf = None
    | Some _ => (na <= N)%nat -> exists z, zf = Some z /\ is2 z B M (fun i => vdf2_z M (ap i) (z0 i) (xf i) N)
    end.
Proof.
  intro Hz. destruct (torchlpc_unfold zi z0 Df2 Hz) as (bb & ba & bx & z & Hbb & Hba & Hbx & Hzz & ->).
  apply is2_P1 in Hzz. nm (slice 1 None (Some (Z.of_nat na)) z). replace (Z.of_nat nb - 1)%Z with (Z.of_nat (nb - 1)) by lia.
  nm (slice 1 None (Some (Z.of_nat (nb - 1))) z).
  assert (Hv : is2 v B na z0) by (apply is2_P1; fin H; [lia|auto]).
  assert (Hv0 : is2 v0 B (nb - 1) z0) by (apply is2_P1; fin H0; [lia|auto]).
  destruct (lpv_allpole_some' ba bx v z0 Hba Hbx Hv) as (w & za & -> & Hw & Hza). cbn [bind].
  destruct (lpv_fir_some B N (nb - 1) bb w v0 bf (fun i n => vdf2_z na (af i) (z0 i) (xf i) (S n) 0) z0) as (y & zb & -> & Hy & Hzb); [|exact Hw|exact Hv0|exact HN|].
  { now replace (S (nb - 1)) with nb by lia. }
  cbn [bind]. rewrite (proj2 (sz2 _ _ _ _ Hzb)).
  assert (Hy' : is2 y B N (fun i => vdf2_y M (bp i) (ap i) (z0 i) (xf i))).
  { eapply is2_ext; [exact Hy|]. intros i n Hi Hn. cbn beta. now rewrite vdf2_y_pad. }
  destruct zi as [zi|]; do 2 eexists; (split; [reflexivity|]); (split; [exact Hy'|]); [|reflexivity].
  intro Hn. specialize (Hza Hn). rewrite (proj2 (sz2 _ _ _ _ Hza)). eexists; split; [reflexivity|].
  destruct (na <? nb - 1)%nat eqn:E; b2p.
  - replace M with (nb - 1)%nat by lia. eapply is2_ext; [exact Hzb|]. intros i k Hi Hk. cbn beta.
    replace (nb - 1)%nat with M by lia. rewrite vdf2_z_pad. now rewrite (vdf2_hist R na _ _ _ N k).
  - replace M with na at 1 by lia. eapply is2_ext; [exact Hza|]. intros i k Hi Hk. cbn beta. now rewrite vdf2_z_pad.
Qed.
Lemma torchlpc_df1_spec zi z0 : init B M zi z0 ->
  exists y, torchlpc_lfilter Df1 b a x zi = Ok (y, None) /\
    exists yf, is2 y B N yf /\ forall i n, (i < B)%nat -> (n < N)%nat -> vpole na (af i) (vconv (nb - 1) (bf i) (xf i)) (yf i) (fun _ => 0) n.
Proof.
  intro Hz. destruct (torchlpc_unfold zi z0 Df1 Hz) as (bb & ba & bx & z & Hbb & Hba & Hbx & Hzz & ->).
  destruct (lpv_fir_none B N (nb - 1) bb bx bf xf) as (u & -> & Hu); [now replace (S (nb - 1)) with nb by lia|exact Hbx|exact HN|]. cbn [bind].
  destruct (lpv_allpole_none B N na ba u af _ Hba Hu) as (y & -> & Hy). exists y. split; [reflexivity|].
  eexists; split; [exact Hy|]. intros i n Hi Hn. apply vdf2_inner.
Qed.
Lemma torchlpc_tdf1_spec zi z0 : init B M zi z0 -> (2 <= nb)%nat -> (na <= N)%nat ->
  exists y, torchlpc_lfilter Tdf1 b a x zi = Ok (y, None) /\
    exists yf wf, is2 y B N yf /\ forall i n, (i < B)%nat -> (n < N)%nat ->
      vpolet na (fun n k => conj (af i n k)) (xf i) (wf i) n /\ yf i n = vconvt (nb - 1) (fun n k => conj (bf i n k)) (wf i) n.
Proof.
  intros Hz Hnb2 HnaN. destruct (torchlpc_unfold zi z0 Tdf1 Hz) as (bb & ba & bx & z & Hbb & Hba & Hbx & Hzz & ->).
  destruct (lpv_allpolet_none B N na ba bx af xf Hba Hbx Hna HnaN) as (u & -> & Hu). cbn [bind].
  destruct (lpv_firt_none B N (nb - 1) bb u bf (fun i => vtdf2_y na (one_tap R) (fun n k => conj (af i n k)) (fun _ => 0) (xf i))) as (y & -> & Hy); [now replace (S (nb - 1)) with nb by lia|exact Hu|exact HN|lia|].
  exists y. split; [reflexivity|]. do 2 eexists; split; [exact Hy|]. intros i n Hi Hn. split; [|reflexivity].
  pose proof (vtdf2_pole R na (fun n k => conj (af i n k)) (fun _ => 0) (xf i) n Hna) as E. unfold vpolet in *. etransitivity; [exact E|].
  unfold padz. destruct (n <? na)%nat; ring.
Qed.
End Lpc.
End S.
