(** Rounding errors of the direct forms of lpv.lfilter (philtorch/lpv/filtering.py:288-370). *)
From Coq Require Import List Arith Lia ZArith Bool Ring.
From Verif Require Import Scalar Ordered Spec SpecRound SpecFilter SpecLpv Tensor TensorLemmas TensorOps TensorAlg TensorTac TensorList Shapes Algebra M_Mat P_Mat
  M_Kernels M_LtiSsm P_Kernels P_LtiSsm P_SsSpec P_Filter M_LtiFilter P_LtiFilter M_Ext M_LpvSsm P_LpvSsm P_LpvSs P_LpvAlg M_LpvFilter P_LpvFilter
  P_Round P_Round5 P_Round6 P_Round8 P_Round9 P_Round10.
Import ListNotations.
Open Scope cr_scope.

Section S.
Variable F : ofield.
Add Ring Rr11 : (r_th F).
Variables (u : F) (fadd fmul fsub : F -> F -> F).
Hypothesis HR : rounds u fadd fmul fsub.
Notation Fl := (flops F fadd fmul fsub).
Notation ten := (tensor (car Fl)).
Notation bnd := (bnd F u).
Let Hu : ole (0 : F) u = true := rd_u _ _ _ _ HR.
Let bmono := bnd_mono F u Hu.
Let badd := bnd_add F u Hu fadd fmul fsub HR.
Let bmul := bnd_mul F u Hu fadd fmul fsub HR.
Let exm := xmul F u fadd fmul fsub HR.
Let bcomp := bnd_comp F u fadd fmul fsub HR.
Notation ab f := (fun k => oabs (f k)).
Notation ab2 f := (fun i j => oabs (f i j)).
Notation ab3 f := (fun n i j => oabs (f n i j)).
Notation nab2 f := (fun i j => - oabs (f i j)).
Notation nab f := (fun k => - oabs (f k)).

(** ** Time-varying systems with perturbed input and output matrices *)
Section Pert.
Variables (M K c d : nat).
Lemma vss_h_pert (Av Ae Am Bv Be Bm : nat -> nat -> nat -> F) (hv he hm : nat -> F) (xv xe xm : nat -> nat -> F) n :
  (forall n i j, (i < M)%nat -> (j < M)%nat -> bnd 0 (Av n i j) (Ae n i j) (Am n i j)) ->
  (forall n i k, (i < M)%nat -> (k < K)%nat -> bnd d (Bv n i k) (Be n i k) (Bm n i k)) ->
  (forall i, (i < M)%nat -> bnd 0 (hv i) (he i) (hm i)) ->
  (forall n k, (k < K)%nat -> bnd 0 (xv n k) (xe n k) (xm n k)) ->
  forall i, (i < M)%nat -> bnd d (ss_h M K Av Bv hv xv n i) (ss_h M K Ae Be he xe n i) (ss_h M K Am Bm hm xm n i).
Proof.
  intros HA HB Hh Hx i Hi. apply (bmono (d + 0 * n)%nat); [lia|]. unfold ss_h.
  apply (state_pert F u fadd fmul fsub HR M 0 d d); auto; [lia| |].
  - intros j Hj. apply (bmono 0%nat); [lia|now apply Hh].
  - intros k j Hk Hj. apply xsum. intros l Hl. apply (bmono (d + 0)%nat); [lia|]. apply exm; auto.
Qed.
Lemma vss_y_pert (Av Ae Am Bv Be Bm Cv Ce Cm Dv De Dm : nat -> nat -> nat -> F) (hv he hm : nat -> F) (xv xe xm : nat -> nat -> F) n p :
  (forall n i j, (i < M)%nat -> (j < M)%nat -> bnd 0 (Av n i j) (Ae n i j) (Am n i j)) ->
  (forall n i k, (i < M)%nat -> (k < K)%nat -> bnd d (Bv n i k) (Be n i k) (Bm n i k)) ->
  (forall i, (i < M)%nat -> bnd c (Cv n p i) (Ce n p i) (Cm n p i)) ->
  (forall k, (k < K)%nat -> bnd 0 (Dv n p k) (De n p k) (Dm n p k)) ->
  (forall i, (i < M)%nat -> bnd 0 (hv i) (he i) (hm i)) ->
  (forall n k, (k < K)%nat -> bnd 0 (xv n k) (xe n k) (xm n k)) ->
  bnd (c + d) (ss_y M K Av Bv Cv Dv hv xv n p) (ss_y M K Ae Be Ce De he xe n p) (ss_y M K Am Bm Cm Dm hm xm n p).
Proof.
  intros HA HB HC HD Hh Hx. unfold ss_y. apply xadd; apply xsum; intros i Hi.
  - apply exm; [now apply HC|now apply vss_h_pert].
  - apply (bmono (0 + 0)%nat); [lia|]. apply exm; auto.
Qed.
End Pert.
Lemma vss_h_comp M K d k v (A Bv Be Bm : nat -> nat -> nat -> F) (h : nat -> F) (x : nat -> nat -> F) n i :
  (forall n i k, (i < M)%nat -> (k < K)%nat -> bnd d (Bv n i k) (Be n i k) (Bm n i k)) -> (i < M)%nat ->
  bnd k v (ss_h M K A Bv h x n i) (ss_h M K (ab3 A) (ab3 Bv) (ab h) (ab2 x) n i) ->
  bnd (k + d) v (ss_h M K A Be h x n i) (ss_h M K (ab3 A) Bm (ab h) (ab2 x) n i).
Proof.
  intros HB Hi H. eapply bcomp; [exact H|apply vss_h_pert; auto; intros; apply bnd_leaf|].
  eapply ole_trans; [apply le_abs|]. eapply (bnd_v F u).
  apply (vss_h_pert M K d (ab3 A) (ab3 A) (ab3 A) (ab3 Bv) (ab3 Be) Bm (ab h) (ab h) (ab h) (ab2 x) (ab2 x) (ab2 x)); auto.
  2: { intros. now apply bnd_oabs, HB. }
  all: intros; rewrite <- (abs_pos F (oabs _)) at 3 by apply abs_0_le; apply bnd_leaf.
Qed.
Lemma vss_y_comp M K c d k v (A Bv Be Bm Cv Ce Cm D : nat -> nat -> nat -> F) (h : nat -> F) (x : nat -> nat -> F) n p :
  (forall n i k, (i < M)%nat -> (k < K)%nat -> bnd d (Bv n i k) (Be n i k) (Bm n i k)) ->
  (forall i, (i < M)%nat -> bnd c (Cv n p i) (Ce n p i) (Cm n p i)) ->
  bnd k v (ss_y M K A Bv Cv D h x n p) (ss_y M K (ab3 A) (ab3 Bv) (ab3 Cv) (ab3 D) (ab h) (ab2 x) n p) ->
  bnd (k + (c + d)) v (ss_y M K A Be Ce D h x n p) (ss_y M K (ab3 A) Bm Cm (ab3 D) (ab h) (ab2 x) n p).
Proof.
  intros HB HC H. eapply bcomp; [exact H|apply vss_y_pert; auto; intros; apply bnd_leaf|].
  eapply ole_trans; [apply le_abs|]. eapply (bnd_v F u).
  apply (vss_y_pert M K c d (ab3 A) (ab3 A) (ab3 A) (ab3 Bv) (ab3 Be) Bm (ab3 Cv) (ab3 Ce) Cm (ab3 D) (ab3 D) (ab3 D) (ab h) (ab h) (ab h) (ab2 x) (ab2 x) (ab2 x)); auto.
  2: { intros. now apply bnd_oabs, HB. }
  2: { intros. now apply bnd_oabs, HC. }
  all: intros; rewrite <- (abs_pos F (oabs _)) at 3 by apply abs_0_le; apply bnd_leaf.
Qed.

(** ** The systems of the direct forms *)
Notation one0 := (fun (_ i _ : nat) => if (i =? 0)%nat then 1 else 0).
Lemma one0_abs i : oabs (if (i =? 0)%nat then 1 else 0 : F) = if (i =? 0)%nat then 1 else 0.
Proof. destruct (i =? 0)%nat; [apply abs_pos, ole_0_1|apply abs_0]. Qed.
Lemma vdf2_y_bnd M k v (b a : nat -> nat -> F) (z x : nat -> F) n : (1 <= M)%nat ->
  bnd k v (ss_y M 1 (fun n => compm F (a n)) one0 (fun n _ m => fsub (b n (S m)) (fmul (b n 0%nat) (a n m))) (fun n _ _ => b n 0%nat) z (fun n _ => x n) n 0)
    (ss_y M 1 (ab3 (fun n => compm F (a n))) (fun _ i _ => oabs (if (i =? 0)%nat then 1 else 0)) (fun n _ m => oabs (fsub (b n (S m)) (fmul (b n 0%nat) (a n m)))) (fun n _ _ => oabs (b n 0%nat)) (ab z) (fun n _ => oabs (x n)) n 0) ->
  bnd (k + 2) v (vdf2_y M b a z x n) (vdf2_y M (ab2 b) (nab2 a) (ab z) (ab x) n).
Proof.
  intros HM H. rewrite <- !(ss_vdf2_y F M _ _ _ _ n 0) by exact HM.
  apply (bmono (k + (2 + 0))); [lia|].
  pose proof (vss_y_comp M 1 2 0 k v (fun n => compm F (a n)) one0 one0 (fun _ i _ => oabs (if (i =? 0)%nat then 1 else 0))
    (fun n _ m => fsub (b n (S m)) (fmul (b n 0%nat) (a n m))) (fun n _ m => b n (S m) - b n 0%nat * a n m) (fun n _ m => oabs (b n (S m)) - oabs (b n 0%nat) * - oabs (a n m))
    (fun n _ _ => b n 0%nat) z (fun n _ => x n) n 0) as G.
  cbv beta in G. specialize (G ltac:(intros; apply bnd_leaf) ltac:(intros; apply (diff_bnd F u fadd fmul fsub HR)) H).
  replace (ss_y M 1 (fun k => compm F (nab (a k))) _ _ _ _ _ n 0) with
    (ss_y M 1 (ab3 (fun n => compm F (a n))) (fun _ i _ => oabs (if (i =? 0)%nat then 1 else 0)) (fun n _ m => oabs (b n (S m)) - oabs (b n 0%nat) * - oabs (a n m)) (fun n _ _ => oabs (b n 0%nat)) (ab z) (fun n _ => oabs (x n)) n 0); [exact G|].
  apply ss_y_ext; auto; intros; [apply compm_abs|apply one0_abs].
Qed.
Lemma vdf2_z_bnd M k v (a : nat -> nat -> F) (z x : nat -> F) n i : (i < M)%nat ->
  bnd k v (ss_h M 1 (fun n => compm F (a n)) one0 z (fun n _ => x n) n i)
    (ss_h M 1 (ab3 (fun n => compm F (a n))) (fun _ i _ => oabs (if (i =? 0)%nat then 1 else 0)) (ab z) (fun n _ => oabs (x n)) n i) ->
  bnd k v (vdf2_z M a z x n i) (vdf2_z M (nab2 a) (ab z) (ab x) n i).
Proof.
  intros Hi H. rewrite <- !(ss_vdf2_h F M _ _ _ n i) by exact Hi.
  replace (ss_h M 1 (fun k => compm F (nab (a k))) _ _ _ n i) with
    (ss_h M 1 (ab3 (fun n => compm F (a n))) (fun _ i _ => oabs (if (i =? 0)%nat then 1 else 0)) (ab z) (fun n _ => oabs (x n)) n i); [exact H|].
  apply ss_h_ext; auto; intros; [apply compm_abs|apply one0_abs].
Qed.
Lemma vtdf2_y_bnd M k v (b a : nat -> nat -> F) (z x : nat -> F) n : (1 <= M)%nat ->
  bnd k v (ss_y M 1 (fun n => comph F (a n)) (fun n m _ => fsub (b n (S m)) (fmul (b n 0%nat) (a n m))) (fun _ _ m => unit3 0 0 m) (fun n _ _ => b n 0%nat) z (fun n _ => x n) n 0)
    (ss_y M 1 (ab3 (fun n => comph F (a n))) (fun n m _ => oabs (fsub (b n (S m)) (fmul (b n 0%nat) (a n m)))) (fun _ _ m => oabs (unit3 0 0 m)) (fun n _ _ => oabs (b n 0%nat)) (ab z) (fun n _ => oabs (x n)) n 0) ->
  bnd (k + 2) v (vtdf2_y M b a z x n) (vtdf2_y M (ab2 b) (nab2 a) (ab z) (ab x) n).
Proof.
  intros HM H. rewrite <- !(ss_vtdf2_y F M _ _ _ _ n 0) by exact HM.
  apply (bmono (k + (0 + 2))); [lia|].
  pose proof (vss_y_comp M 1 0 2 k v (fun n => comph F (a n)) (fun n m _ => fsub (b n (S m)) (fmul (b n 0%nat) (a n m))) (fun n m _ => b n (S m) - b n 0%nat * a n m) (fun n m _ => oabs (b n (S m)) - oabs (b n 0%nat) * - oabs (a n m))
    (fun _ _ m => unit3 0 0 m) (fun _ _ m => unit3 0 0 m) (fun _ _ m => oabs (unit3 0 0 m)) (fun n _ _ => b n 0%nat) z (fun n _ => x n) n 0) as G.
  cbv beta in G. specialize (G ltac:(intros; apply (diff_bnd F u fadd fmul fsub HR)) ltac:(intros; apply bnd_leaf) H).
  replace (ss_y M 1 (fun k => comph F (nab (a k))) _ _ _ _ _ n 0) with
    (ss_y M 1 (ab3 (fun n => comph F (a n))) (fun n m _ => oabs (b n (S m)) - oabs (b n 0%nat) * - oabs (a n m)) (fun _ _ m => oabs (unit3 0 0 m)) (fun n _ _ => oabs (b n 0%nat)) (ab z) (fun n _ => oabs (x n)) n 0); [exact G|].
  apply ss_y_ext; auto; intros; [apply comph_abs|apply unit_abs].
Qed.
Lemma vtdf2_z_bnd M k v (b a : nat -> nat -> F) (z x : nat -> F) n i : (i < M)%nat ->
  bnd k v (ss_h M 1 (fun n => comph F (a n)) (fun n m _ => fsub (b n (S m)) (fmul (b n 0%nat) (a n m))) z (fun n _ => x n) n i)
    (ss_h M 1 (ab3 (fun n => comph F (a n))) (fun n m _ => oabs (fsub (b n (S m)) (fmul (b n 0%nat) (a n m)))) (ab z) (fun n _ => oabs (x n)) n i) ->
  bnd (k + 2) v (vtdf2_z M b a z x n i) (vtdf2_z M (ab2 b) (nab2 a) (ab z) (ab x) n i).
Proof.
  intros Hi H. rewrite <- !(ss_vtdf2_h F M _ _ _ _ n i) by exact Hi.
  pose proof (vss_h_comp M 1 2 k v (fun n => comph F (a n)) (fun n m _ => fsub (b n (S m)) (fmul (b n 0%nat) (a n m))) (fun n m _ => b n (S m) - b n 0%nat * a n m) (fun n m _ => oabs (b n (S m)) - oabs (b n 0%nat) * - oabs (a n m))
    z (fun n _ => x n) n i) as G.
  cbv beta in G. specialize (G ltac:(intros; apply (diff_bnd F u fadd fmul fsub HR)) Hi H).
  replace (ss_h M 1 (fun k => comph F (nab (a k))) _ _ _ n i) with
    (ss_h M 1 (ab3 (fun n => comph F (a n))) (fun n m _ => oabs (b n (S m)) - oabs (b n 0%nat) * - oabs (a n m)) (ab z) (fun n _ => oabs (x n)) n i); [exact G|].
  apply ss_h_ext; auto; intros. apply comph_abs.
Qed.

(** ** Views over the rounded operations *)
Lemma fv_companion B N M (a : ten) (f : nat -> nat -> nat -> F) : vcoef (R := F) B N M a f ->
  exists A : ten, companion (R := Fl) a = Ok A /\ sizen A 1 = M /\ matv (R := Fl) B N M A (fun b n => compm F (f b n)) /\
    matv (R := Fl) B N M (tconj (R := Fl) (mT A)) (fun b n => comph F (f b n)).
Proof.
  assert (V : forall pre g, isP1 (A := car Fl) a pre M g -> exists A : ten, companion (R := Fl) a = Ok A /\
    isP2 (A := car Fl) A pre M M (fun q i j => if (i =? S j)%nat then (1 : F) else if (i =? 0)%nat then - g q j else 0)) by (intros pre g; exact (companion_view F a pre M g)).
  intros [g Ht Hf|Ht].
  - apply is2_P1 in Ht. destruct (V [N] _ Ht) as (A & E & HA). exists A. split; [exact E|].
    split; [unfold sizen, size, rk; rewrite (proj1 HA); reflexivity|].
    nm (mT A). nm (tconj (R := Fl) v). apply P2_cons in HA, H0. split.
    + apply (matv_s (R := Fl) _ HA). intros b n i j Hb Hn Hi Hj. unfold compm. cbn [nth]. now rewrite Hf.
    + apply (matv_s (R := Fl) _ H0). intros b n i j Hb Hn Hi Hj. unfold comph. cbn [nth]. rewrite Hf by assumption. reflexivity.
  - apply is3_PP1 in Ht. destruct (V [B; N] _ Ht) as (A & E & HA). exists A. split; [exact E|].
    split; [unfold sizen, size, rk; rewrite (proj1 HA); reflexivity|].
    nm (mT A). nm (tconj (R := Fl) v). split; apply (matv_b (R := Fl)).
    + split; [exact (proj1 HA)|]. intros b n i j Hb Hn Hi Hj. change [b; n; i; j] with ([b; n] ++ [i; j]). rewrite (proj2 HA [b; n] i j) by (auto; repeat constructor; auto). reflexivity.
    + split; [exact (proj1 H0)|]. intros b n i j Hb Hn Hi Hj. change [b; n; i; j] with ([b; n] ++ [i; j]). rewrite (proj2 H0 [b; n] i j) by (auto; repeat constructor; auto). reflexivity.
Qed.
Lemma fv_diff B N M (b a : ten) (bf af : nat -> nat -> nat -> F) : vcoef (R := F) B N (S M) b bf -> vcoef (R := F) B N M a af ->
  exists t : ten, (let* b0a := tmul (R := Fl) (slice (rk b - 1) None (Some 1%Z) b) a in tsub (R := Fl) (slice (rk b - 1) (Some 1%Z) None b) b0a)%res = Ok t /\
    vcoef (R := F) B N M t (fun i n k => fsub (bf i n (S k)) (fmul (bf i n 0%nat) (af i n k))) /\ (rk t = 3 -> rk b = 3 \/ rk a = 3)%nat.
Proof.
  intros Hb Ha. apply vcoef_P in Hb as (pb & gb & Hpb & Hb & Hfb). apply vcoef_P in Ha as (pa & ga & Hpa & Ha & Hfa).
  change (isP2 (A := car Fl) b pb N (S M) gb) in Hb. change (isP2 (A := car Fl) a pa N M ga) in Ha.
  pose proof (P2_rk _ _ _ _ _ Hb) as Hrb. pose proof (P2_rk _ _ _ _ _ Ha) as Hra. rewrite Hrb.
  nm (slice (length pb + 2 - 1) None (Some 1%Z) b). match type of H with isP2 _ _ _ ?n _ => replace n with 1%nat in H by lia end.
  nm (slice (length pb + 2 - 1) (Some 1%Z) None b). match type of H0 with isP2 _ _ _ ?n _ => replace n with M in H0 by lia end.
  destruct Hpb as [->| ->], Hpa as [->| ->]; repeat ew2;
    (eexists; split; [reflexivity|]); (split; [eapply (P_vcoef F); [|eassumption|]; [auto|]|]);
    try (intros i n k Hi Hn Hk; rewrite Hfb, (Hfb i n 0%nat), Hfa by lia; rewrite ?(bi_lt N), ?(bi_lt M) by lia; reflexivity);
    rewrite ?Hrb, ?Hra; cbn [length]; rkt; cbn [length]; lia.
Qed.
Lemma fv_head B N M (b : ten) (bf : nat -> nat -> nat -> F) : vcoef (R := F) B N (S M) b bf -> (rk b = 2 \/ B <> N)%nat ->
  exists t : ten, select (rk b - 1) 0 b = Ok t /\ feedv (R := Fl) B N None None (Some t) (fun i n _ _ => bf i n 0%nat) /\
    feedv (R := Fl) B N None None (Some (tconj (R := Fl) t)) (fun i n _ _ => bf i n 0%nat).
Proof.
  intros [g Hb Hf|Hb] HBN.
  - change (is2 (A := car Fl) b N (S M) g) in Hb. rkt; cbn [Nat.sub].
    rewrite (select_ok b 1 0 0) by (unfold size; rewrite (proj1 Hb); reflexivity). eexists; split; [reflexivity|].
    apply is2_P in Hb. nm (sel 1 0 b). nm (tconj (R := Fl) v). apply P1_nil in H, H0.
    split; (eapply (fdv_2_N Fl); [eassumption|]); intros i n p k Hi Hn Hp Hk; apply Hf; lia.
  - change (is3 (A := car Fl) b B N (S M) bf) in Hb. revert HBN. rkt; cbn [Nat.sub]. intros [HBN|HBN]; [discriminate|].
    rewrite (select_ok b 2 0 0) by (unfold size; rewrite (proj1 Hb); reflexivity). eexists; split; [reflexivity|].
    apply is3_P2 in Hb. nm (sel 2 0 b). nm (tconj (R := Fl) v). apply P1_cons in H, H0.
    split; (eapply (fdv_2_BN Fl); [eassumption|exact HBN|]); intros i n p k Hi Hn Hp Hk; reflexivity.
Qed.
Lemma fv_in B N M (t : ten) (f : nat -> nat -> nat -> F) : vcoef (R := F) B N M t f -> inmatv (R := Fl) B N M None (Some t) (fun b n m _ => f b n m).
Proof.
  intros [g Ht Hf|Ht]; [eapply (inv_NM Fl); [exact Ht|]|eapply (inv_BNM Fl); [exact Ht|]]; intros b n i j Hb Hn Hi Hj; auto.
Qed.
Lemma fv_out B N M (t : ten) (f : nat -> nat -> nat -> F) : vcoef (R := F) B N M t f -> (rk t = 3 -> B <> N)%nat -> outmatv (R := Fl) B N M None (Some t) None (fun b n _ m => f b n m).
Proof.
  intros [g Ht Hf|Ht] HBN; [eapply (outv_NM Fl); [exact Ht|]|eapply (outv_BNM Fl); [exact Ht|apply HBN; exact (f_equal (@length nat) (proj1 Ht))|]]; intros b n i j Hb Hn Hi Hj; auto.
Qed.
Lemma fv_conj B N n (t : ten) (f : nat -> nat -> nat -> F) : vcoef (R := F) B N n t f -> vcoef (R := F) B N n (tconj (R := Fl) t) f.
Proof.
  intros [g [Hs Ht] Hf|[Hs Ht]].
  - apply (vc_s g); [|exact Hf]. split; [exact Hs|]. exact Ht.
  - apply vc_b. split; [exact Hs|]. exact Ht.
Qed.

Section Forms.
Variables (e : env) (pr : bool) (B N nb na M : nat) (b a x : ten) (bf af : nat -> nat -> nat -> F) (xf : nat -> nat -> F) (uf : option nat).
Hypotheses (HB : (1 <= B)%nat) (HN : (1 <= N)%nat) (Hnb : (1 <= nb)%nat) (EM : M = Nat.max na (nb - 1)) (HM : (1 <= M)%nat)
  (He : lpv_backend_ok e pr M) (Ho : lpv_own e pr M)
  (Hb : vcoef (R := F) B N nb b bf) (Ha : vcoef (R := F) B N na a af) (Hx : is2 x B N xf).
Let bp i n := padz nb (bf i n).
Let ap i n := padz na (af i n).
Lemma fv_pad_b : exists b' : ten, (if (nb <? na + 1)%nat then pad (rk b - 1) 0 (na + 1 - nb) (@r0 Fl) b else b) = b' /\ vcoef (R := F) B N (S M) b' bp /\ rk b' = rk b.
Proof. exact (vpad_b F B N nb na M b bf HB HN Hnb EM HM Hb). Qed.
Lemma fv_pad_a : exists a' : ten, (if (na + 1 <? nb)%nat then pad (rk a - 1) 0 (nb - na - 1) (@r0 Fl) a else a) = a' /\ vcoef (R := F) B N M a' ap /\ rk a' = rk a.
Proof. exact (vpad_a F B N nb na M a af HB HN Hnb EM HM Ha). Qed.
Lemma fv_size_b : sizen b 1 = nb. Proof. exact (proj1 (vcoef_size F _ _ _ _ _ Hb)). Qed.
Lemma fv_size_a : sizen a 1 = na. Proof. exact (proj1 (vcoef_size F _ _ _ _ _ Ha)). Qed.

Lemma vdf2_bnd zi (z0 : nat -> nat -> F) : init (R := Fl) B M zi z0 -> unroll_good N uf -> (rk b = 2 /\ rk a = 2 \/ B <> N)%nat ->
  exists (y : ten) zf (yv : nat -> nat -> F), lpv_ssm_lfilter e pr Df2 uf b a x zi = Ok (y, zf) /\ is2 y B N yv /\
    (forall i n, (i < B)%nat -> (n < N)%nat ->
      bnd (2 * M * n + M + 4) (yv i n) (vdf2_y M (bp i) (ap i) (z0 i) (xf i) n) (vdf2_y M (ab2 (bp i)) (nab2 (ap i)) (ab (z0 i)) (ab (xf i)) n)) /\
    match zi with
    | None => zf = None
    | Some _ => exists (z : ten) (zv : nat -> nat -> F), zf = Some z /\ is2 z B M zv /\
        forall i k, (i < B)%nat -> (k < M)%nat -> bnd (2 * M * N + 3) (zv i k) (vdf2_z M (ap i) (z0 i) (xf i) N k) (vdf2_z M (nab2 (ap i)) (ab (z0 i)) (ab (xf i)) N k)
    end.
Proof.
  intros Hz Hg HBN. unfold lpv_ssm_lfilter.
  rewrite fv_size_b, fv_size_a.
  destruct fv_pad_b as (b' & -> & Hb' & Rkb). destruct fv_pad_a as (a' & -> & Ha' & Rka).
  destruct (fv_companion B N M a' ap Ha') as (A & -> & _ & HA & _). cbn [bind].
  destruct (fv_diff B N M b' a' bp ap Hb' Ha') as (C & EC & HC & RC).
  unfold bind in EC |- *. destruct (tmul _ a') as [t|]; [|discriminate]. rewrite EC.
  destruct (fv_head B N M b' bp Hb') as (D & -> & HD & _); [lia|].
  destruct (lpv_state_space_bnd F u fadd fmul fsub HR e pr B N M None None A x None (Some C) (Some D) zi uf None (fun i n => compm F (ap i n))
    (fun _ _ i _ => if (i =? 0)%nat then 1 else 0) (fun i n _ m => fsub (bp i n (S m)) (fmul (bp i n 0%nat) (ap i n m)))
    (fun i n _ _ => bp i n 0%nat) (fun i n _ => xf i n) z0) as (y & zf & yv & E & Hy & Rb & Hzf); auto.
  { apply (inv_none2 Fl). intros i n m k Hi Hn Hm Hk. unfold unit3. now replace k with 0%nat by lia. }
  { apply (fv_out B N M C (fun i n m => fsub (bp i n (S m)) (fmul (bp i n 0%nat) (ap i n m))) HC). lia. }
  exists y, zf, (fun i n => yv i n 0%nat). split; [exact E|]. split; [exact Hy|]. split.
  - intros i n Hi Hn. apply (bmono (2 * M * n + M + 1 + 1 + 2)%nat); [lia|].
    apply (vdf2_y_bnd M _ _ (bp i) (ap i) (z0 i) (xf i) n HM). exact (Rb i n 0%nat Hi Hn (le_n 1)).
  - destruct zi; [|exact Hzf]. destruct Hzf as (z & zv & -> & Hzz & Rz). exists z, zv. split; [reflexivity|]. split; [exact Hzz|].
    intros i k Hi Hk. apply (bmono (2 * M * N + 1)%nat); [lia|]. apply vdf2_z_bnd; [exact Hk|]. exact (Rz i k Hi Hk).
Qed.
Lemma vtdf2_bnd zi (z0 : nat -> nat -> F) : init (R := Fl) B M zi z0 -> unroll_good N uf -> (rk b = 2 \/ B <> N)%nat ->
  exists (y : ten) zf (yv : nat -> nat -> F), lpv_ssm_lfilter e pr Tdf2 uf b a x zi = Ok (y, zf) /\ is2 y B N yv /\
    (forall i n, (i < B)%nat -> (n < N)%nat ->
      bnd (2 * M * n + M + 4) (yv i n) (vtdf2_y M (bp i) (ap i) (z0 i) (xf i) n) (vtdf2_y M (ab2 (bp i)) (nab2 (ap i)) (ab (z0 i)) (ab (xf i)) n)) /\
    match zi with
    | None => zf = None
    | Some _ => exists (z : ten) (zv : nat -> nat -> F), zf = Some z /\ is2 z B M zv /\
        forall i k, (i < B)%nat -> (k < M)%nat -> bnd (2 * M * N + 3) (zv i k) (vtdf2_z M (bp i) (ap i) (z0 i) (xf i) N k) (vtdf2_z M (ab2 (bp i)) (nab2 (ap i)) (ab (z0 i)) (ab (xf i)) N k)
    end.
Proof.
  intros Hz Hg HBN. unfold lpv_ssm_lfilter.
  rewrite fv_size_b, fv_size_a.
  destruct fv_pad_b as (b' & -> & Hb' & Rkb). destruct fv_pad_a as (a' & -> & Ha' & Rka).
  destruct (fv_companion B N M a' ap Ha') as (A & -> & _ & _ & HA). cbn [bind].
  destruct (fv_diff B N M b' a' bp ap Hb' Ha') as (C & EC & HC & RC).
  unfold bind in EC |- *. destruct (tmul _ a') as [t|]; [|discriminate]. rewrite EC.
  destruct (fv_head B N M b' bp Hb') as (D & -> & _ & HD); [lia|].
  destruct (lpv_state_space_bnd F u fadd fmul fsub HR e pr B N M None None (tconj (R := Fl) (mT A)) x (Some (tconj (R := Fl) C)) None (Some (tconj (R := Fl) D)) zi uf (Some 0%Z)
    (fun i n => comph F (ap i n)) (fun i n m _ => fsub (bp i n (S m)) (fmul (bp i n 0%nat) (ap i n m))) (fun i _ _ m => unit3 0 0 m)
    (fun i n _ _ => bp i n 0%nat) (fun i n _ => xf i n) z0) as (y & zf & yv & E & Hy & Rb & Hzf); auto.
  { apply (fv_in B N M (tconj (R := Fl) C) (fun i n m => fsub (bp i n (S m)) (fmul (bp i n 0%nat) (ap i n m)))). now apply fv_conj. }
  { apply (outv_idx Fl B N M 0%Z 0%nat); [now apply (pyidx_nat M 0)|]. intros i n p m Hi Hn Hp Hm. reflexivity. }
  exists y, zf, (fun i n => yv i n 0%nat). split; [exact E|]. split; [exact Hy|]. split.
  - intros i n Hi Hn. apply (bmono (2 * M * n + M + 1 + 1 + 2)%nat); [lia|].
    apply (vtdf2_y_bnd M _ _ (bp i) (ap i) (z0 i) (xf i) n HM). exact (Rb i n 0%nat Hi Hn (le_n 1)).
  - destruct zi; [|exact Hzf]. destruct Hzf as (z & zv & -> & Hzz & Rz). exists z, zv. split; [reflexivity|]. split; [exact Hzz|].
    intros i k Hi Hk. apply (bmono (2 * M * N + 1 + 2)%nat); [lia|]. apply vtdf2_z_bnd; [exact Hk|]. exact (Rz i k Hi Hk).
Qed.

(** The all-pole recursion on a drive that carries [c] roundings. *)
Definition vimp0 (w : nat -> F) (n m : nat) : F := if (m =? 0)%nat then w n else 0.
Lemma vrec_bnd c k v (A : nat -> nat -> nat -> F) (wv we wm : nat -> F) n i : (i < M)%nat ->
  (forall m, (m < n)%nat -> bnd c (wv m) (we m) (wm m)) ->
  bnd k v (state M A (fun _ => 0) (vimp0 wv) n i) (state_abs M A (fun _ => 0) (vimp0 wv) n i) ->
  bnd (k + c) v (state M A (fun _ => 0) (vimp0 we) n i) (state M (ab3 A) (fun _ => 0) (vimp0 wm) n i).
Proof.
  intros Hi Hw H.
  assert (X1 : forall k i j, (k < n)%nat -> (i < M)%nat -> (j < M)%nat -> bnd 0 (A k i j) (A k i j) (oabs (A k i j))) by (intros; apply bnd_leaf).
  assert (X2 : forall i, (i < M)%nat -> bnd c 0 0 0) by (intros; apply bnd_0).
  assert (X3 : forall k i, (k < n)%nat -> (i < M)%nat -> bnd c (vimp0 wv k i) (vimp0 we k i) (vimp0 wm k i)).
  { intros k' i' Hk' Hi'. unfold vimp0. destruct (i' =? 0)%nat; [now apply Hw|apply bnd_0]. }
  pose proof (state_pert F u fadd fmul fsub HR M 0 c c A A (ab3 A) (fun _ => 0) (fun _ => 0) (fun _ => 0) _ _ _ n ltac:(lia) X1 X2 X3 i Hi) as Y1.
  destruct (state_mag F u fadd fmul fsub HR M 0 c c A A (ab3 A) (fun _ => 0) (fun _ => 0) (fun _ => 0) _ _ _ n ltac:(lia) X1 X2 X3 i Hi) as [_ Y2].
  cbn [Nat.mul] in Y1, Y2. rewrite Nat.add_0_r in Y1, Y2. eapply bcomp; [exact H|exact Y1|exact Y2].
Qed.
Lemma vrecur_bnd (A w : ten) (Af : nat -> nat -> nat -> nat -> F) (wv : nat -> nat -> F) : unroll_good1 N uf -> matv (R := Fl) B N M A Af -> is2 w B N wv ->
  exists (y : ten) (yv : nat -> nat -> F), (if lpv_extension_backend_indicator e pr M
             then lpv_ext_ss_recur (R := Fl) e pr A (zeros (R := Fl) [B; M]) w (Some 0%Z)
             else lpv_state_space_recursion (R := Fl) e pr A (zeros (R := Fl) [B; M]) w (match uf with Some k => k | None => 1%nat end) (Some 0%Z)) = Ok y /\
    is2 y B N yv /\ forall i n, (i < B)%nat -> (n < N)%nat ->
      bnd (2 * M * S n) (yv i n) (state M (Af i) (fun _ => 0) (vimp0 (wv i)) (S n) 0%nat) (state_abs M (Af i) (fun _ => 0) (vimp0 (wv i)) (S n) 0%nat).
Proof.
  intros Hg1 HA Hw.
  assert (Hi : idx_ok M (Some 0%Z)) by (exists 0%nat; now apply (pyidx_nat M 0)).
  assert (Hg : unroll_good N (Some (match uf with Some k => k | None => 1%nat end))).
  { unfold unroll_good1 in Hg1. destruct uf; [exact Hg1|]. split; auto. }
  assert (Hp := pyidx_nat M 0 ltac:(lia)).
  assert (Hd : drive (R := Fl) B N M w (fun i => vimp0 (wv i))) by (eapply (drive_2 (R := Fl)); [exact Hw|]; intros; reflexivity).
  destruct (lpv_extension_backend_indicator e pr M) eqn:Ei.
  - destruct Ho as [Ho1 Ho2]. assert (2 <= M)%nat as HM2.
    { destruct Ho2 as [?|[E1 _]]; [assumption|]. unfold lpv_extension_backend_indicator in Ei. rewrite E1, Ho1 in Ei. discriminate. }
    destruct (lpv_ext_bnd F u fadd fmul fsub HR e pr B N M A (zeros (R := Fl) [B; M]) w Af (fun _ _ => 0) (fun i => vimp0 (wv i)) (Some 0%Z)) as (y & yf & E & Hy & G); auto.
    { now apply lpv_backend_ext. }
    { apply f_zeros_2. }
    exists y, (fun i n => yf i n 0%nat). split; [exact E|]. split; [exact (Hy 0%nat Hp)|]. intros i n Hi' Hn. apply G; lia.
  - destruct (lpv_ssr_bnd F u fadd fmul fsub HR e pr B N M A (zeros (R := Fl) [B; M]) w Af (fun _ _ => 0) (fun i => vimp0 (wv i)) (match uf with Some k => k | None => 1%nat end) (Some 0%Z)) as (y & yf & E & Hy & G); auto.
    { apply f_zeros_2. }
    exists y, (fun i n => yf i n 0%nat). split; [exact E|]. split; [exact (Hy 0%nat Hp)|]. intros i n Hi' Hn. apply G; lia.
Qed.
Lemma vstate_mat_ext (A A' : nat -> nat -> nat -> F) h x' n i : (forall n i j, A n i j = A' n i j) -> (i < M)%nat ->
  state M A h x' n i = state M A' h x' n i.
Proof. intros H Hi. apply state_ext; auto. Qed.
Lemma fv_expand n (t : ten) (f : nat -> nat -> nat -> F) : vcoef (R := F) B N n t f ->
  exists y : ten, expand (if rk t =? 2 then [B; size t 0; size t 1] else [B; size t 1; size t 2]) t = Ok y /\ is3 y B N n f.
Proof. exact (vcoef_expand F B N n t f). Qed.

Lemma vdf1_bnd zi : unroll_good1 N uf ->
  exists (y : ten) (yv ye ym : nat -> nat -> F), lpv_ssm_lfilter e pr Df1 uf b a x zi = Ok (y, None) /\ is2 y B N yv /\
    forall i, (i < B)%nat -> (forall n, (n < N)%nat -> bnd (2 * M * S n + S M) (yv i n) (ye i n) (ym i n)) /\
      (forall n, vpole M (ap i) (vconv M (bp i) (xf i)) (ye i) (fun _ => 0) n) /\
      (forall n, vpole M (nab2 (ap i)) (vconv M (ab2 (bp i)) (ab (xf i))) (ym i) (fun _ => 0) n).
Proof.
  intro Hg. unfold lpv_ssm_lfilter.
  rewrite fv_size_b, fv_size_a.
  destruct fv_pad_b as (b' & -> & Hb' & Rkb). destruct fv_pad_a as (a' & -> & Ha' & Rka).
  destruct (fv_companion B N M a' ap Ha') as (A & -> & ES & HA & _). cbn [bind].
  rewrite ES, (proj1 (f_sz2 F fadd fmul fsub _ _ _ _ Hx)).
  destruct (fv_expand _ _ _ Hb') as (bb & -> & Hbb). cbn [bind].
  destruct (vfir_none_bnd F u fadd fmul fsub HR B N M bb x bp xf Hbb Hx HN) as (w & wv & -> & Hw & Rw). cbn [bind].
  destruct (vrecur_bnd A w (fun i n => compm F (ap i n)) wv) as (y & yv & E & Hy & Ry); auto.
  rewrite E. cbn [bind].
  exists y, yv, (fun i n => state M (fun n => compm F (ap i n)) (fun _ => 0) (vimp0 (vconv M (bp i) (xf i))) (S n) 0%nat),
    (fun i n => state M (fun n => compm F (nab (ap i n))) (fun _ => 0) (vimp0 (vconv M (ab2 (bp i)) (ab (xf i)))) (S n) 0%nat).
  split; [reflexivity|]. split; [exact Hy|]. intros i Hi. split; [|split].
  - intros n Hn. rewrite <- (vstate_mat_ext (ab3 (fun n => compm F (ap i n))) (fun n => compm F (nab (ap i n)))) by (auto; intros; apply compm_abs).
    apply (vrec_bnd (S M) _ _ _ (wv i)); [lia| |now apply Ry]. intros m Hm. apply Rw; lia.
  - intro n. exact (vpole_df1 F M (ap i) (vconv M (bp i) (xf i)) (fun _ => 0) (vimp0 (vconv M (bp i) (xf i))) n HM (fun _ _ _ => eq_refl)).
  - intro n. exact (vpole_df1 F M (nab2 (ap i)) (vconv M (ab2 (bp i)) (ab (xf i))) (fun _ => 0) (vimp0 (vconv M (ab2 (bp i)) (ab (xf i)))) n HM (fun _ _ _ => eq_refl)).
Qed.
Lemma vtdf1_bnd zi : unroll_good1 N uf ->
  exists (y : ten) (yv we wm : nat -> nat -> F), lpv_ssm_lfilter e pr Tdf1 uf b a x zi = Ok (y, None) /\ is2 y B N yv /\
    forall i, (i < B)%nat -> (forall n, (n < N)%nat -> bnd (2 * M * S n + S M) (yv i n) (vconvt M (bp i) (we i) n) (vconvt M (ab2 (bp i)) (wm i) n)) /\
      (forall n, vpolet M (late F (ap i)) (xf i) (we i) n) /\
      (forall n, vpolet M (late F (nab2 (ap i))) (ab (xf i)) (wm i) n).
Proof.
  intro Hg. unfold lpv_ssm_lfilter.
  rewrite fv_size_b, fv_size_a.
  destruct fv_pad_b as (b' & -> & Hb' & Rkb). destruct fv_pad_a as (a' & -> & Ha' & Rka).
  destruct (fv_companion B N M a' ap Ha') as (A & -> & ES & _ & HA). cbn [bind].
  rewrite (proj1 (f_sz2 F fadd fmul fsub _ _ _ _ Hx)).
  destruct (fv_expand _ _ _ (fv_conj _ _ _ _ _ Hb')) as (bb & -> & Hbb). cbn [bind].
  assert (ES' : sizen (tconj (R := Fl) (mT A)) 1 = M) by (destruct HA as [g HA _|HA]; unfold sizen, size, rk; rewrite (proj1 HA); reflexivity).
  rewrite ES, ES'.
  destruct (vrecur_bnd (tconj (R := Fl) (mT A)) x (fun i n => comph F (ap i n)) xf) as (w & wv & E & Hw & Rw); auto.
  rewrite E. cbn [bind].
  set (W := fun (a : nat -> nat -> F) (x : nat -> F) n => state M (fun n => comph F (a n)) (fun _ => 0) (vimp0 x) (S n) 0%nat).
  destruct (vfirt_none_bnd F u fadd fmul fsub HR B N M (fun n => 2 * M * S n)%nat bb w bp wv (fun i => W (ap i) (xf i)) (fun i => W (nab2 (ap i)) (ab (xf i))) Hbb Hw HN HM)
    as (y & yv & -> & Hy & Ry).
  { intros i n Hi Hn. unfold W.
    rewrite <- (vstate_mat_ext (ab3 (fun n => comph F (ap i n))) (fun n => comph F (nab (ap i n)))) by (auto; intros; apply comph_abs).
    apply (bmono (2 * M * S n + 0)%nat); [lia|]. apply (vrec_bnd 0 _ _ _ (xf i)); [lia| |now apply Rw]. intros. apply bnd_leaf. }
  { intros m n Hmn. nia. }
  exists y, yv, (fun i => W (ap i) (xf i)), (fun i => W (nab2 (ap i)) (ab (xf i))). split; [reflexivity|]. split; [exact Hy|]. intros i Hi. split; [|split].
  - intros n Hn. now apply Ry.
  - intro n. exact (vpolet_late F M (ap i) (xf i) (fun _ => 0) (vimp0 (xf i)) n HM (fun _ _ _ => eq_refl) (fun _ _ => eq_refl)).
  - intro n. exact (vpolet_late F M (nab2 (ap i)) (ab (xf i)) (fun _ => 0) (vimp0 (ab (xf i))) n HM (fun _ _ _ => eq_refl) (fun _ _ => eq_refl)).
Qed.
Lemma fv_lfilter_2d fm zi : lpv_lfilter (R := Fl) e pr b a x zi fm Ssm uf = lpv_ssm_lfilter (R := Fl) e pr fm uf b a x zi.
Proof.
  unfold lpv_lfilter, lpv_lfilter_wrap. rkt. cbn [Nat.eqb Nat.ltb Nat.leb andb bind].
  assert ((rk b =? 2) || (rk b =? 3) = true)%nat as -> by exact (proj1 (proj2 (vcoef_size F _ _ _ _ _ Hb))).
  assert ((rk a =? 2) || (rk a =? 3) = true)%nat as -> by exact (proj1 (proj2 (vcoef_size F _ _ _ _ _ Ha))).
  destruct (lpv_ssm_lfilter e pr fm uf b a x zi) as [(y & zf)|]; reflexivity.
Qed.
End Forms.
End S.
