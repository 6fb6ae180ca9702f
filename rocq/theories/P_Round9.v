(** Rounding errors of lpv.state_space (philtorch/lpv/ssm.py:337-581). *)
From Coq Require Import List Arith Lia ZArith Bool Ring.
From Verif Require Import Scalar Ordered Spec SpecRound Tensor TensorLemmas TensorOps TensorAlg TensorTac TensorList Shapes Algebra M_Mat P_Mat M_Kernels M_LtiSsm
  P_Kernels P_KernelOps P_Scan P_Helion M_Ext M_LpvSsm P_LpvSsm P_LpvSs P_LtiSsm P_Round P_Round2 P_Round3 P_Round4 P_Round5 P_Round8.
Import ListNotations.
Open Scope cr_scope.

Lemma unsq2_3r (R : cops) (x : tensor (car R)) B N (f : nat -> nat -> R) : is2 x B N f -> is3 (unsqueeze 2 x) B N 1 (fun b n _ => f b n).
Proof. intro Hx. apply is2_P1 in Hx. nm (unsqueeze 2 x). apply is3_P2. exact H. Qed.

(** The recursion is run by the library's own code: not by the ParaRNN reduction
    and, for scalar states, not by torchlpc. *)
Definition lpv_own (e : env) (pr : bool) (M : nat) : Prop :=
  pararnn_applicable e pr M = false /\ (2 <= M \/ ext e = false /\ helion_backend_indicator e = false)%nat.

Section S.
Variable F : ofield.
Add Ring Rr5 : (r_th F).
Variables (u : F) (fadd fmul fsub : F -> F -> F).
Hypothesis HR : rounds u fadd fmul fsub.
Notation Fl := (flops F fadd fmul fsub).
Notation ten := (tensor (car Fl)).
Notation bnd := (bnd F u).
Let Hu : ole (0 : F) u = true := rd_u _ _ _ _ HR.
Let bmono := bnd_mono F u Hu.
Let badd := bnd_add F u Hu fadd fmul fsub HR.
Let bmul := bnd_mul F u Hu fadd fmul fsub HR.
Let bsums := bnd_sum F u Hu fadd fmul fsub HR.
Let prodl := prodl F u fadd fmul fsub HR.
Let prodr := prodr F u fadd fmul fsub HR.
Let dotb := dotb F u fadd fmul fsub HR.
Let dot1 := dot1 F u.
Let diagb := diagb F u.
Let bnd_abs1 := bnd_abs1 F u.
Let bnd_abs0 := bnd_abs0 F u.
Let bnd_comp := bnd_comp F u fadd fmul fsub HR.
Let state_pert := state_pert F u fadd fmul fsub HR.
Let state_mag := state_mag F u fadd fmul fsub HR.
Let kstate_w := kstate_w F u fadd fmul fsub HR.
Let tev2_w0 := tev2_w0 F u fadd fmul fsub HR.
Notation ab2 f := (fun i j => oabs (f i j)).
Notation ab3 f := (fun n i j => oabs (f n i j)).
Ltac g2 := repeat match goal with H : ?a <> ?b |- context [(?a =? ?b)%nat] => rewrite (proj2 (Nat.eqb_neq a b) H) end.
Ltac pr := first [apply prodl, bnd_leaf|apply prodr, bnd_leaf].
Ltac prx H := first [apply prodl; apply H; assumption|apply prodr; apply H; assumption].

(** ** The second order scan with a matrix per step *)
Lemma scan2_wv w c t n (A Ae Am : nat -> nat -> nat -> F) (z ze zm : nat -> F) (x xe xm : nat -> nat -> F) i : leaves t = S n -> (i < 2)%nat ->
  (forall k i j, (k < n)%nat -> (i < 2)%nat -> (j < 2)%nat -> bnd w (A k i j) (Ae k i j) (Am k i j)) ->
  (forall i, (i < 2)%nat -> bnd c (z i) (ze i) (zm i)) ->
  (forall k i, (k < n)%nat -> (i < 2)%nat -> bnd (c + 2 * (w + 2) - 2) (x k i) (xe k i) (xm k i)) ->
  bnd (c + 2 * (w + 2) * n) (v2 (R := Fl) (tev (recur2_binary_op (R := Fl)) t (fun k => leaf2 (R := Fl) (match k with 0%nat => fun _ _ => r0 | S k => A k end)
                (match k with 0%nat => z | S k => x k end))) i)
    (state 2 Ae ze xe n i) (state 2 Am zm xm n i).
Proof.
  intros Hl Hi HA Hz Hx.
  assert (E : forall (A : nat -> nat -> nat -> F) z x, v2 (R := F) (tev (recur2_binary_op (R := F)) t (fun k => leaf2 (R := F) (match k with 0%nat => fun _ _ => r0 | S k => A k end)
                (match k with 0%nat => z | S k => x k end))) i = state 2 A z x n i).
  { intros A' z' x'. rewrite (tev_state F (sqm2 F) recur2_binary_op 2 (@m2 F) (@v2 F) (op2_m F) (op2_v F) _ _ 0 n i).
    - apply state_ext; auto; intros; rewrite ?m2_leaf2, ?v2_leaf2; auto.
    - exact Hl.
    - exact Hi.
    - intros i' j' Hi' Hj'. rewrite m2_leaf2 by assumption. reflexivity. }
  rewrite <- (E Ae ze xe), <- (E Am zm xm). replace n with (leaves t - 1)%nat by lia.
  eapply (tev2_w0 w c); [|exact Hi]. intros k Hk. split.
  - intros i' j' Hi' Hj'. rewrite !m2_leaf2 by assumption. destruct k; [apply bnd_0|apply HA; lia].
  - intros i' Hi'. rewrite !v2_leaf2 by assumption. destruct k; cbn [Nat.eqb]; [auto|apply Hx; lia].
Qed.

(** ** The compiled back-ends *)
Lemma lpv_ext_rel e pr B N M (A zi x : ten) (Af ae am : nat -> nat -> nat -> nat -> F) (zf ze zm : nat -> nat -> F) (x' xe xm : nat -> nat -> nat -> F) oi w0 (c : nat -> nat) :
  lpv_ext_avail e pr M -> pararnn_applicable e pr M = false -> (2 <= M)%nat -> (1 <= B)%nat ->
  matv B N M A Af -> is2 zi B M zf -> drive B N M x x' -> idx_ok M oi ->
  (forall b n i j, (b < B)%nat -> (n < N)%nat -> (i < M)%nat -> (j < M)%nat -> bnd w0 (Af b n i j) (ae b n i j) (am b n i j)) ->
  (forall b i, (b < B)%nat -> (i < M)%nat -> bnd (c b) (zf b i) (ze b i) (zm b i)) ->
  (forall b n i, (b < B)%nat -> (n < N)%nat -> (i < M)%nat -> bnd (c b + 2 * (w0 + M) - M) (x' b n i) (xe b n i) (xm b n i)) ->
  exists y (yf : nat -> nat -> nat -> F), lpv_ext_ss_recur e pr A zi x oi = Ok y /\ picks B N M oi y yf /\
    forall b n m, (b < B)%nat -> (n < N)%nat -> (m < M)%nat ->
      bnd (c b + 2 * (w0 + M) * S n) (yf b n m) (state M (ae b) (ze b) (xe b) (S n) m) (state M (am b) (zm b) (xm b) (S n) m).
Proof.
  intros (He & Hav & Hpr) Epr HM HB HA Hz Hx Hi RA RZ RU. destruct (Hpr Epr) as [He2 He3]. unfold lpv_ext_ss_recur. rewrite Hav.
  assert (sizen A 1 = M) as -> by (destruct HA as [g HA _|HA]; unfold sizen, rk; now rewrite (proj1 HA)).
  bfalse (M =? 1)%nat. rewrite andb_false_r.
  assert (exists x2, (if rk x =? 2 then pad_features x M else Ok x) = Ok x2 /\ is3 x2 B N M x')
    as (x2 & -> & Hx2).
  { destruct Hx as [f Hx Hxu|Hx]; rkt; cbn [Nat.eqb].
    - destruct (pad_features_spec Fl x B N M f ltac:(lia) Hx) as (y & -> & Hy). exists y. split; [reflexivity|].
      eapply is3_ext; [exact Hy|]. intros. cbn beta. now rewrite Hxu.
    - eauto. }
  cbn [bind].
  assert (exists y (yf : nat -> nat -> nat -> F), MatrixRecurrence_forward e pr A zi x2 = Ok y /\ is3 y B N M yf /\
    forall b n m, (b < B)%nat -> (n < N)%nat -> (m < M)%nat ->
      bnd (c b + 2 * (w0 + M) * S n) (yf b n m) (state M (ae b) (ze b) (xe b) (S n) m) (state M (am b) (zm b) (xm b) (S n) m))
    as (y & yf & -> & Hy & Hb).
  { unfold MatrixRecurrence_forward.
    assert (sizen x2 1 = M) as -> by (unfold sizen, rk; now rewrite (proj1 Hx2)). rewrite Epr.
    destruct (Nat.eq_dec M 2) as [E2|E2].
    - subst M. destruct (He2 ltac:(lia)) as [X1 X2]. cbn [Nat.eqb].
      unfold op_recur2. rewrite X1. destruct (cuda e).
      + rewrite X2 by reflexivity. destruct (lpv2_cuda_raw Fl e B N A zi x2 Af zf x' He HA Hz Hx2) as (y & E & Hy).
        exists y. eexists. split; [exact E|]. split; [exact Hy|]. intros b n m Hb Hn Hm.
        apply scan2_wv; [apply He|exact Hm|intros; apply RA; lia|intros; apply RZ; lia|intros; apply RU; lia].
      + destruct (lpv_cpu_raw Fl B N 2 A zi x2 Af zf x' HA Hz Hx2) as (y & E & Hy).
        exists y. eexists. split; [exact E|]. split; [exact Hy|]. intros b n m Hb Hn Hm.
        apply (kstate_w 2); [lia|intros; apply RA; lia|intros; apply RZ; lia|intros; apply RU; lia|exact Hm].
    - bfalse (M =? 2)%nat. destruct (helion_backend_indicator e) eqn:Eh.
      + destruct (hl_lpv_raw Fl e B N M A zi x2 Af zf x' He HA Hz Hx2) as (y & E & Hy). exists y. eexists. split; [exact E|]. split; [exact Hy|].
        intros b n m Hb Hn Hm. 
        apply (rel_hstate Fl F (P_Round.bnd F u) (bnd_mono F u Hu) badd bmul (bnd_0 F u) (rd_0l _ _ _ _ HR) M w0 (c b));
          [lia|intros; apply RA; lia|intros; apply RZ; lia|intros; apply RU; lia|exact Hm].
      + destruct (He3 ltac:(lia)) as [?|[X1 X2]]; [discriminate|]. unfold op_recurN. rewrite X1, X2. cbn [negb].
        destruct (lpv_cpu_raw Fl B N M A zi x2 Af zf x' HA Hz Hx2) as (y & E & Hy). exists y. eexists. split; [exact E|]. split; [exact Hy|].
        intros b n m Hb Hn Hm. apply kstate_w; [lia|intros; apply RA; lia|intros; apply RZ; lia|intros; apply RU; lia|exact Hm]. }
  cbn [bind]. destruct oi as [i|]; cbn [picks].
  - rkt. cbn [Nat.eqb]. destruct Hi as (k & Hc). pose proof (pyidx_lt _ _ _ Hc).
    rewrite (select_ok y 2 i k) by (unfold size; rewrite (proj1 Hy); exact Hc).
    eexists _, yf. split; [reflexivity|]. split; [|exact Hb]. intros c' Hc'. rewrite Hc in Hc'. injection Hc' as <-.
    apply is3_P2 in Hy. apply is2_P1. nm (sel 2 k y). exact H0.
  - eexists _, yf. split; [reflexivity|]. auto.
Qed.
Lemma lpv_ext_bnd e pr B N M (A zi x : ten) (Af : nat -> nat -> nat -> nat -> F) (zf : nat -> nat -> F) (x' : nat -> nat -> nat -> F) oi :
  lpv_ext_avail e pr M -> pararnn_applicable e pr M = false -> (2 <= M)%nat -> (1 <= B)%nat ->
  matv B N M A Af -> is2 zi B M zf -> drive B N M x x' -> idx_ok M oi ->
  exists y (yf : nat -> nat -> nat -> F), lpv_ext_ss_recur e pr A zi x oi = Ok y /\ picks B N M oi y yf /\
    forall b n m, (b < B)%nat -> (n < N)%nat -> (m < M)%nat ->
      bnd (2 * M * S n) (yf b n m) (state M (Af b) (zf b) (x' b) (S n) m) (state_abs M (Af b) (zf b) (x' b) (S n) m).
Proof.
  intros He Hp HM HB HA Hz Hx Hi.
  apply (lpv_ext_rel e pr B N M A zi x Af Af (fun b n i j => oabs (Af b n i j)) zf zf (fun b i => oabs (zf b i)) x' x' (fun b n i => oabs (x' b n i)) oi 0%nat (fun _ => 0%nat)); auto;
    intros; try apply bnd_leaf. apply (bmono 0%nat); [lia|]. apply bnd_leaf.
Qed.

(** ** Every way of running the recursion *)
Lemma lpv_ssr_bnd e pr B N M (A zi x : ten) (Af : nat -> nat -> nat -> nat -> F) (zf : nat -> nat -> F) (x' : nat -> nat -> nat -> F) bs oi :
  lpv_backend_ok e pr M -> lpv_own e pr M ->
  (1 <= B)%nat -> (1 <= N)%nat -> (1 <= M)%nat -> (1 <= bs)%nat /\ (bs = 1%nat \/ (N <= bs)%nat \/ bs = 2%nat \/ is_prime (bs - 1)) ->
  matv B N M A Af -> is2 zi B M zf -> drive B N M x x' -> idx_ok M oi ->
  exists y (yf : nat -> nat -> nat -> F), lpv_state_space_recursion e pr A zi x bs oi = Ok y /\ picks B N M oi y yf /\
    forall b n m, (b < B)%nat -> (n < N)%nat -> (m < M)%nat ->
      bnd (2 * M * S n) (yf b n m) (state M (Af b) (zf b) (x' b) (S n) m) (state_abs M (Af b) (zf b) (x' b) (S n) m).
Proof.
  intros He [Hp Ho] HB HN HM [Hbs Hbg] HA Hz Hx Hi. unfold lpv_state_space_recursion.
  assert (Hs1 : size x 1 = N) by (destruct Hx as [f Hx _|Hx]; unfold size; now rewrite (proj1 Hx)). rewrite Hs1.
  assert (HL : lpv_leaf_ok Fl F (P_Round.bnd F u) e pr M).
  { destruct (helion_backend_indicator e) eqn:Eh.
    - assert (2 <= M)%nat as HM2 by (destruct Ho as [?|[_ ?]]; [assumption|discriminate]).
      intros B' N' A' zi' y' Af' zf' u' ae am ze zm ue um oi' w0 c HB' HN' HA' Hz' Hx' Hi' RA RZ RU. rewrite Eh.
      apply (lpv_ext_rel e pr B' N' M A' zi' y' Af' ae am zf' ze zm u' ue um oi' w0 c); auto. now apply lpv_backend_helion.
    - apply (lpv_leaf_loop Fl F (P_Round.bnd F u) (bnd_mono F u Hu) badd bmul (bnd_0 F u) (rd_0l _ _ _ _ HR) e pr M HM Eh). }
  destruct (lpv_ssr_fuel_rel Fl F (P_Round.bnd F u) (bnd_mono F u Hu) (bnd_add F u Hu fadd fmul fsub HR) (bnd_mul F u Hu fadd fmul fsub HR)
    (bnd_0 F u) (bnd_1 F u Hu) (rd_0l _ _ _ _ HR)
    e pr M (S N) HL HM B N A zi x Af zf x' Af (fun b n i j => oabs (Af b n i j)) zf (fun b i => oabs (zf b i)) x' (fun b n i => oabs (x' b n i)) bs oi 0%nat 0%nat)
    as (y & yf & E & Hy & G); auto.
  - intros. apply bnd_leaf.
  - intros. apply bnd_leaf.
  - intros. apply (bmono 0%nat); [lia|]. apply bnd_leaf.
  - intros Hk b n m Hb Hn Hm1 Hm. now apply (drive_rank2 F fadd fmul fsub B N M x x').
  - exists y, yf. auto.
Qed.

Lemma lpv_input_bnd B N M G (x : ten) (xf : nat -> nat -> nat -> F) (Bt : option ten) (Bm : nat -> nat -> nat -> nat -> F) :
  sigv B N G x xf -> inmatv B N M G Bt Bm ->
  exists y (yv : nat -> nat -> nat -> F), lpv_input x Bt B N M = Ok y /\ drive B N M y yv /\
    forall b n m, (b < B)%nat -> (n < N)%nat -> (m < M)%nat ->
      bnd (width G) (yv b n m) (bsum (width G) (fun k => Bm b n m k * xf b n k)) (bsum (width G) (fun k => oabs (Bm b n m k) * oabs (xf b n k))).
Proof.
  intros Hx HB. destruct (sig_size Fl _ _ _ _ _ Hx) as (_ & _ & _ & Hfe & Hrk). unfold lpv_input.
  destruct HB as [f Hf|f Hf|t g f Ht Hf|t g f Ht Hf|t g f Ht H1 Hf|t g f Ht Hf
    |K t g f Ht Hf|K t g f Ht Hf|K t g f Ht H1 H2 Hf|K t g f Ht Hf]; cbn [width sigv] in *;
    try (rewrite (proj1 Ht), ?Hfe; cbn [feq]; rewrite ?Nat.eqb_refl, ?andb_false_r, ?andb_true_r).
  - exists x, (fun b n m => if m =? 0 then xf b n 0%nat else 0). split; [reflexivity|]. split; [eapply drive_2; [exact Hx|]; reflexivity|].
    intros b n m Hb Hn Hm. apply dot1. rewrite (Hf b n m 0%nat) by lia. unfold unit3. destruct (m =? 0)%nat.
    + apply bnd_abs1. apply (bmono 0%nat); [lia|]. apply bnd_leaf.
    + apply bnd_abs0.
  - exists x, xf. split; [reflexivity|]. split; [now apply drive_3|].
    intros b n m Hb Hn Hm. apply (diagb M M _ m (f b n m) (xf b n) (fun k => oabs (xf b n k)) Hm).
    + intros k Hk Hkm. rewrite Hf by lia. unfold unit3. destruct (Nat.eqb_spec m k); [lia|reflexivity].
    + rewrite Hf by lia. unfold unit3. rewrite Nat.eqb_refl. apply bnd_abs1. apply (bmono 0%nat); [lia|]. apply bnd_leaf.
  - rkt. cbn [Nat.eqb]. pose proof (unsq2_3r Fl x B N _ Hx) as Hu3.
    set (v := unsqueeze 2 x) in *. clearbody v. apply is3_PP1 in Hu3. apply is1_P in Ht. unfold tmul.
    eat @P1_ewl; [exact Hu3|exact Ht|bdt|]. eexists w, _. split; [reflexivity|]. split; [apply (@drive_3 Fl), (PP1_is3 Fl); exact H|].
    intros b n m Hb Hn Hm. cbn [nth]. apply dot1. rewrite Hf by lia. rewrite ?(bi_lt M), ?(bi_lt N) by lia. rewrite ?bi_1. pr.
  - rkt. cbn [Nat.eqb andb]. apply is2_P1 in Hx. nm (unsqueeze 2 x). apply is2_P in Ht. unfold tmul.
    eat @P2_ewl; [exact H|exact Ht|bdt|bdt|]. eexists w, _. split; [reflexivity|]. split; [apply (@drive_3 Fl), (P2_is3 Fl); exact H0|].
    intros b n m Hb Hn Hm. cbn [nth]. apply dot1. rewrite Hf by lia. rewrite ?(bi_lt M), ?(bi_lt N) by lia. rewrite ?bi_1. pr.
  - g2. rkt. cbn [Nat.eqb andb]. apply is2_P1 in Hx, Ht. nm (unsqueeze 2 x). nm (unsqueeze 1 t). unfold tmul.
    eat @P2_ew; [exact H|exact H0|bdt|bdt|]. eexists w, _. split; [reflexivity|]. split; [apply (@drive_3 Fl), (P2_is3 Fl); exact H2|].
    intros b n m Hb Hn Hm. cbn [nth]. apply dot1. rewrite Hf by lia. rewrite ?(bi_lt M), ?(bi_lt N) by lia. rewrite ?bi_1. pr.
  - rkt. cbn [Nat.eqb andb]. apply is2_P1 in Hx. nm (unsqueeze 2 x). apply is3_P2 in Ht. unfold tmul.
    eat @P2_ew; [exact H|exact Ht|bdt|bdt|]. eexists w, _. split; [reflexivity|]. split; [apply (@drive_3 Fl), (P2_is3 Fl); exact H0|].
    intros b n m Hb Hn Hm. cbn [nth]. apply dot1. rewrite Hf by lia. rewrite ?(bi_lt M), ?(bi_lt N) by lia. rewrite ?bi_1. pr.
  - cbn [andb]. apply is3_P2 in Hx. apply is2_P in Ht. nm (mT t). mm. eexists w, _. split; [reflexivity|]. split; [apply (@drive_3 Fl), (P2_is3 Fl); exact H0|].
    intros b n m Hb Hn Hm. cbn [nth]. apply (dotb K 0). intros k Hk. cbn [conj flops]. rewrite ?(bi_lt N), ?(bi_lt M) by lia. rewrite Hf by lia. pr.
  - cbn [andb]. apply is3_P2 in Hx. apply is3_P in Ht. nm (tconj t). replace (rk x - 1)%nat with 2%nat by dimt.
    nm (unsqueeze 2 x). vdot. eexists w, _. split; [reflexivity|]. split; [apply (@drive_3 Fl), (P2_is3 Fl); exact H1|].
    intros b n m Hb Hn Hm. cbn [nth]. apply (dotb K 0). intros k Hk. cbn [conj flops]. rewrite ?(bi_lt N), ?(bi_lt M) by lia. rewrite Hf by lia. pr.
  - g2. cbn [andb]. replace ((K =? M) && (M =? N))%bool with false
      by (symmetry; apply andb_false_iff; destruct H2; [right|left]; now apply Nat.eqb_neq).
    apply is3_P2 in Hx, Ht. nm (unsqueeze 1 t). nm (tconj v). replace (rk x - 1)%nat with 2%nat by dimt.
    nm (unsqueeze 2 x). vdot. eexists w, _. split; [reflexivity|]. split; [apply (@drive_3 Fl), (P2_is3 Fl); exact H4|].
    intros b n m Hb Hn Hm. cbn [nth]. apply (dotb K 0). intros k Hk. cbn [conj flops]. rewrite ?(bi_lt N), ?(bi_lt M) by lia. rewrite Hf by lia. pr.
  - cbn [andb]. apply is3_P2 in Hx. apply is4_P3 in Ht. nm (tconj t). replace (rk x - 1)%nat with 2%nat by dimt.
    nm (unsqueeze 2 x). vdot. eexists w, _. split; [reflexivity|]. split; [apply (@drive_3 Fl), (P2_is3 Fl); exact H1|].
    intros b n m Hb Hn Hm. cbn [nth]. apply (dotb K 0). intros k Hk. cbn [conj flops]. rewrite ?(bi_lt N), ?(bi_lt M) by lia. rewrite Hf by lia. pr.
Qed.
Lemma lpv_Ch_bnd B N M P (h C : ten) (hv he hm : nat -> nat -> nat -> F) (Cm : nat -> nat -> nat -> nat -> F) (c : nat -> nat) :
  is3 h B N M hv -> (forall b n m, (b < B)%nat -> (n < N)%nat -> (m < M)%nat -> bnd (c n) (hv b n m) (he b n m) (hm b n m)) ->
  outmatv B N M None (Some C) P Cm ->
  exists y (yv : nat -> nat -> nat -> F), lpv_Ch h C B N M = Ok y /\ sigv B N P y yv /\
    forall b n p, (b < B)%nat -> (n < N)%nat -> (p < width P)%nat ->
      bnd (c n + M) (yv b n p) (bsum M (fun m => Cm b n p m * he b n m)) (bsum M (fun m => oabs (Cm b n p m) * hm b n m)).
Proof.
  intros Hh Hhb HC. unfold lpv_Ch.
  remember (@None Z) as oi eqn:Eo. remember (Some C) as C' eqn:EC.
  destruct HC as [f Hf|i k f Hk Hf|t g f Ht Hf|t g f Ht Hf|t g f Ht H1 Hf|K t g f Ht H1 H2 Hf
    |K t g f Ht Hf|t g f Ht H1 Hf|K t g f Ht H1 H2 Hf|K t g f Ht Hf]; try discriminate;
    injection EC as ->; apply is3_P2 in Hh; rewrite (proj1 Ht), ?Nat.eqb_refl; g2; cbn [andb];
    try (replace (rk h - 1)%nat with 2%nat by dimt).
  - mm. eexists w, _. split; [reflexivity|]. split; [apply (P1_sig Fl); exact H|].
    intros b n p Hb Hn Hp. cbn [width] in Hp. cbn [nth]. apply dotb. intros m Hm. cbn [conj flops]. rewrite ?(bi_lt N) by lia. rewrite Hf by lia. prx Hhb.
  - apply is2_P in Ht. nm (tconj C). vdot. eexists w, _. split; [reflexivity|]. split; [apply (P1_sig Fl); exact H0|].
    intros b n p Hb Hn Hp. cbn [width] in Hp. cbn [nth]. apply dotb. intros m Hm. cbn [conj flops]. rewrite ?(bi_lt N) by lia. rewrite Hf by lia. prx Hhb.
  - apply is2_P1 in Ht. nm (unsqueeze 1 C). nm (tconj v). vdot. eexists w, _. split; [reflexivity|]. split; [apply (P1_sig Fl); exact H2|].
    intros b n p Hb Hn Hp. cbn [width] in Hp. cbn [nth]. apply dotb. intros m Hm. cbn [conj flops]. rewrite ?(bi_lt N) by lia. rewrite Hf by lia. prx Hhb.
  - apply is2_P in Ht. nm (mT C). mm. eexists w, _. split; [reflexivity|]. split; [apply (P2_sig Fl); exact H0|].
    intros b n p Hb Hn Hp. cbn [width] in Hp. cbn [nth]. apply dotb. intros m Hm. cbn [conj flops]. rewrite ?(bi_lt N), ?(bi_lt K) by lia. rewrite Hf by lia. prx Hhb.
  - apply is3_P in Ht. nm (tconj C). nm (unsqueeze 2 h). vdot. eexists w, _. split; [reflexivity|]. split; [apply (P2_sig Fl); exact H1|].
    intros b n p Hb Hn Hp. cbn [width] in Hp. cbn [nth]. apply dotb. intros m Hm. cbn [conj flops]. rewrite ?(bi_lt N), ?(bi_lt K) by lia. rewrite Hf by lia. prx Hhb.
  - apply is3_P2 in Ht. nm (tconj C). vdot. eexists w, _. split; [reflexivity|]. split; [apply (P1_sig Fl); exact H0|].
    intros b n p Hb Hn Hp. cbn [width] in Hp. cbn [nth]. apply dotb. intros m Hm. cbn [conj flops]. rewrite ?(bi_lt N) by lia. rewrite Hf by lia. prx Hhb.
  - apply is3_P2 in Ht. nm (mT C). mm. eexists w, _. split; [reflexivity|]. split; [apply (P2_sig Fl); exact H0|].
    intros b n p Hb Hn Hp. cbn [width] in Hp. cbn [nth]. apply dotb. intros m Hm. cbn [conj flops]. rewrite ?(bi_lt N), ?(bi_lt K) by lia. rewrite Hf by lia. prx Hhb.
  - apply is4_P3 in Ht. nm (tconj C). nm (unsqueeze 2 h). vdot. eexists w, _. split; [reflexivity|]. split; [apply (P2_sig Fl); exact H1|].
    intros b n p Hb Hn Hp. cbn [width] in Hp. cbn [nth]. apply dotb. intros m Hm. cbn [conj flops]. rewrite ?(bi_lt N), ?(bi_lt K) by lia. rewrite Hf by lia. prx Hhb.
Qed.
Lemma lpv_Dx_bnd B N G P (x D : ten) (xf : nat -> nat -> nat -> F) (Dm : nat -> nat -> nat -> nat -> F) :
  sigv B N G x xf -> feedv B N G P (Some D) Dm ->
  exists y (yv : nat -> nat -> nat -> F), lpv_Dx x D B N = Ok y /\ sigv B N P y yv /\
    forall b n p, (b < B)%nat -> (n < N)%nat -> (p < width P)%nat ->
      bnd (width G) (yv b n p) (bsum (width G) (fun k => Dm b n p k * xf b n k)) (bsum (width G) (fun k => oabs (Dm b n p k) * oabs (xf b n k))).
Proof.
  intros Hx HD. destruct (sig_size Fl _ _ _ _ _ Hx) as (_ & _ & _ & Hfe & Hrk). unfold lpv_Dx. rewrite Hfe.
  remember (Some D) as D' eqn:ED.
  destruct HD as [G P f Hf|t v f Ht Hf|t g f Ht Hf|t g f Ht Hf|t g f Ht H1 Hf|P t g f Ht H1 H2 H3 Hf|P t g f Ht Hf
    |t g f Ht H1 Hf|P t g f Ht H1 H2 Hf|P t g f Ht Hf
    |K t v f Ht Hf|K t g f Ht H1 H2 H3 Hf|K t g f Ht Hf|K t g f Ht Hf|K t g f Ht H1 Hf|K P t g f Ht H1 H2 Hf
    |K t g f Ht Hf|K P t g f Ht H1 Hf|K P t g f Ht H1 H2 Hf|K P t g f Ht Hf];
    try discriminate; injection ED as ->; rewrite (proj1 Ht), ?Hrk; cbn [feq width]; rewrite ?Nat.eqb_refl, ?andb_false_r;
    g2; cbn [andb]; unfold sigv in Hx.
  - (* 2_0 *) apply is2_P1 in Hx. ew2. eexists w, _. split; [reflexivity|]. split; [apply (P1_sig Fl); exact H|].
    intros b n p Hb Hn Hp. cbn [width] in Hp. cbn [nth]. apply dot1. rewrite Hf by lia. rewrite ?(bi_lt N) by lia. rewrite ?bi_1. pr.
  - (* 2_1 *) destruct (1 =? N)%nat eqn:EN; b2p; [subst N|destruct (1 =? B)%nat eqn:E; b2p; [subst B|cbn [Nat.eqb]]].
    + apply is2_P1 in Hx. apply is1_P in Ht. unfold tmul. eat @P1_ewr; [exact Ht|exact Hx|bdt|].
      eexists w, _. split; [reflexivity|]. split; [apply (P1_sig Fl); exact H|].
    intros b n p Hb Hn Hp. cbn [width] in Hp. cbn [nth]. apply dot1. rewrite Hf by lia. rewrite ?(bi_lt N) by lia. rewrite ?bi_1. try replace n with 0%nat by lia; try replace b with 0%nat by lia; pr.
    + apply is1_P0 in Ht. assert (Hu3 : isP1 (unsqueeze 1 D) [1%nat] 1 (fun q _ => g (nth 0 q 0%nat))) by (eapply P0_unsq0 with (d := 1%nat) in Ht; [exact Ht|reflexivity]).
      apply is2_P1 in Hx. unfold tmul. eat @P1_ew; [exact Hu3|exact Hx|bdt|].
      eexists w, _. split; [reflexivity|]. split; [apply (P1_sig Fl); exact H|].
    intros b n p Hb Hn Hp. cbn [width] in Hp. cbn [nth]. apply dot1. rewrite Hf by lia. rewrite ?(bi_lt N) by lia. rewrite ?bi_1. try replace n with 0%nat by lia; try replace b with 0%nat by lia; pr.
    + apply is2_P1 in Hx. apply is1_P in Ht. unfold tmul. eat @P1_ewl; [exact Hx|exact Ht|bdt|].
      eexists w, _. split; [reflexivity|]. split; [apply (P1_sig Fl); exact H|].
    intros b n p Hb Hn Hp. cbn [width] in Hp. cbn [nth]. apply dot1. rewrite Hf by lia. rewrite ?(bi_lt N) by lia. rewrite ?bi_1. try replace n with 0%nat by lia; try replace b with 0%nat by lia; pr.
  - (* 2_N *) apply is2_P1 in Hx. apply is1_P in Ht. unfold tmul. eat @P1_ewr; [exact Ht|exact Hx|bdt|].
    eexists w, _. split; [reflexivity|]. split; [apply (P1_sig Fl); exact H|].
    intros b n p Hb Hn Hp. cbn [width] in Hp. cbn [nth]. apply dot1. rewrite Hf by lia. rewrite ?(bi_lt N) by lia. rewrite ?bi_1. pr.
  - (* 2_B *) apply is1_P0 in Ht. assert (Hu3 : isP1 (unsqueeze 1 D) [B] 1 (fun q _ => g (nth 0 q 0%nat))) by (eapply P0_unsq0; [exact Ht|reflexivity]).
    apply is2_P1 in Hx. unfold tmul. eat @P1_ew; [exact Hu3|exact Hx|bdt|].
    eexists w, _. split; [reflexivity|]. split; [apply (P1_sig Fl); exact H|].
    intros b n p Hb Hn Hp. cbn [width] in Hp. cbn [nth]. apply dot1. rewrite Hf by lia. rewrite ?(bi_lt N) by lia. rewrite ?bi_1. pr.
  - (* 2_P *) rkt. pose proof (unsq2_3r Fl x B N _ Hx) as Hu3.
    set (v := unsqueeze 2 x) in *. clearbody v. apply is3_PP1 in Hu3. apply is1_P in Ht. unfold tmul.
    eat @P1_ewl; [exact Hu3|exact Ht|bdt|]. eexists w, _. split; [reflexivity|]. split; [apply (PP1_sig Fl); exact H|].
    intros b n p Hb Hn Hp. cbn [width] in Hp. cbn [nth]. apply dot1. rewrite Hf by lia. rewrite ?(bi_lt N), ?(bi_lt P) by lia. rewrite ?bi_1. pr.
  - (* 2_NP *) rkt. apply is2_P1 in Hx. nm (unsqueeze 2 x). apply is2_P in Ht. unfold tmul.
    eat @P2_ewr; [exact Ht|exact H|bdt|bdt|]. eexists w, _. split; [reflexivity|]. split; [apply (P2_sig Fl); exact H0|].
    intros b n p Hb Hn Hp. cbn [width] in Hp. cbn [nth]. apply dot1. rewrite Hf by lia. rewrite ?(bi_lt N), ?(bi_lt P) by lia. rewrite ?bi_1. pr.
  - (* 2_BN *) apply is2_P1 in Hx, Ht. unfold tmul. eat @P1_ew_same; [exact Ht|exact Hx|].
    eexists w, _. split; [reflexivity|]. split; [apply (P1_sig Fl); exact H|].
    intros b n p Hb Hn Hp. cbn [width] in Hp. cbn [nth]. apply dot1. rewrite Hf by lia. rewrite ?(bi_lt N) by lia. rewrite ?bi_1. pr.
  - (* 2_BP *) rkt. apply is2_P1 in Hx, Ht. nm (unsqueeze 2 x). nm (unsqueeze 1 D). unfold tmul.
    eat @P2_ew; [exact H0|exact H|bdt|bdt|]. eexists w, _. split; [reflexivity|]. split; [apply (P2_sig Fl); exact H3|].
    intros b n p Hb Hn Hp. cbn [width] in Hp. cbn [nth]. apply dot1. rewrite Hf by lia. rewrite ?(bi_lt N), ?(bi_lt P) by lia. rewrite ?bi_1. pr.
  - (* 2_BNP *) rkt. apply is2_P1 in Hx. apply is3_P2 in Ht. nm (unsqueeze 2 x). unfold tmul.
    eat @P2_ew; [exact Ht|exact H|bdt|bdt|]. eexists w, _. split; [reflexivity|]. split; [apply (P2_sig Fl); exact H0|].
    intros b n p Hb Hn Hp. cbn [width] in Hp. cbn [nth]. apply dot1. rewrite Hf by lia. rewrite ?(bi_lt N), ?(bi_lt P) by lia. rewrite ?bi_1. pr.
  - (* 3_0 *) apply is3_P2 in Hx. ew2. eexists w, _. split; [reflexivity|]. split; [apply (P2_sig Fl); exact H|].
    intros b n p Hb Hn Hp. cbn [width] in Hp. cbn [nth].
    apply (diagb K K _ p (f b n p) (xf b n) (fun k => oabs (xf b n k))); [lia|intros k Hk Hne; rewrite Hf by lia; destruct (Nat.eqb_spec p k); [lia|reflexivity]|].
    rewrite Hf by lia. rewrite Nat.eqb_refl. rewrite ?(bi_lt K) by lia. rewrite ?bi_1. apply (bmono 1%nat); [lia|]. pr.
  - (* 3_1 *) bfalse (1 =? K)%nat. bfalse (1 =? N)%nat. bfalse (1 =? B)%nat. cbn [Nat.eqb]. apply is3_PP1 in Hx. apply is1_P in Ht. unfold tmul.
    eat @P1_ewl; [exact Hx|exact Ht|bdt|]. eexists w, _. split; [reflexivity|]. split; [apply (PP1_sig Fl); exact H|].
    intros b n p Hb Hn Hp. cbn [width] in Hp. cbn [nth].
    apply (diagb K K _ p (f b n p) (xf b n) (fun k => oabs (xf b n k))); [lia|intros k Hk Hne; rewrite Hf by lia; destruct (Nat.eqb_spec p k); [lia|reflexivity]|].
    rewrite Hf by lia. rewrite Nat.eqb_refl. rewrite ?(bi_lt K) by lia. rewrite ?bi_1. apply (bmono 1%nat); [lia|]. pr.
  - (* 3_F *) apply is3_P2 in Hx. mm. eexists w, _. split; [reflexivity|]. split; [apply (P1_sig Fl); exact H|].
    intros b n p Hb Hn Hp. cbn [width] in Hp. cbn [nth]. apply (dotb _ 0). intros m Hm. cbn [conj flops]. rewrite ?(bi_lt N) by lia. rewrite Hf by lia. pr.
  - (* 3_NF *) apply is2_P in Ht. apply is3_P2 in Hx. nm (tconj D). vdot. eexists w, _. split; [reflexivity|]. split; [apply (P1_sig Fl); exact H0|].
    intros b n p Hb Hn Hp. cbn [width] in Hp. cbn [nth]. apply (dotb _ 0). intros m Hm. cbn [conj flops]. rewrite ?(bi_lt N) by lia. rewrite Hf by lia. pr.
  - (* 3_BF *) apply is2_P1 in Ht. apply is3_P2 in Hx. nm (tconj D). nm (unsqueeze 1 v). vdot. eexists w, _. split; [reflexivity|]. split; [apply (P1_sig Fl); exact H2|].
    intros b n p Hb Hn Hp. cbn [width] in Hp. cbn [nth]. apply (dotb _ 0). intros m Hm. cbn [conj flops]. rewrite ?(bi_lt N) by lia. rewrite Hf by lia. pr.
  - (* 3_PF *) rkt. cbn [Nat.eqb]. apply is3_P2 in Hx. apply is2_P in Ht. nm (mT D). mm. eexists w, _. split; [reflexivity|]. split; [apply (P2_sig Fl); exact H0|].
    intros b n p Hb Hn Hp. cbn [width] in Hp. cbn [nth]. apply (dotb _ 0). intros m Hm. cbn [conj flops]. rewrite ?(bi_lt N), ?(bi_lt P) by lia. rewrite Hf by lia. pr.
  - (* 3_BNF *) apply is3_P2 in Ht, Hx. nm (tconj D). vdot. eexists w, _. split; [reflexivity|]. split; [apply (P1_sig Fl); exact H0|].
    intros b n p Hb Hn Hp. cbn [width] in Hp. cbn [nth]. apply (dotb _ 0). intros m Hm. cbn [conj flops]. rewrite ?(bi_lt N) by lia. rewrite Hf by lia. pr.
  - (* 3_NPF *) replace ((N =? B) && (P =? N))%bool with false
      by (symmetry; apply andb_false_iff; destruct H1; [left|right]; now apply Nat.eqb_neq).
    cbn [andb]. apply is3_P2 in Hx. apply is3_P in Ht. nm (tconj D). replace (rk x - 1)%nat with 2%nat by dimt.
    nm (unsqueeze 2 x). vdot. eexists w, _. split; [reflexivity|]. split; [apply (P2_sig Fl); exact H2|].
    intros b n p Hb Hn Hp. cbn [width] in Hp. cbn [nth]. apply (dotb _ 0). intros m Hm. cbn [conj flops]. rewrite ?(bi_lt N), ?(bi_lt P) by lia. rewrite Hf by lia. pr.
  - (* 3_BPF *) apply is3_P2 in Hx, Ht. nm (mT D). mm. eexists w, _. split; [reflexivity|]. split; [apply (P2_sig Fl); exact H0|].
    intros b n p Hb Hn Hp. cbn [width] in Hp. cbn [nth]. apply (dotb _ 0). intros m Hm. cbn [conj flops]. rewrite ?(bi_lt N), ?(bi_lt P) by lia. rewrite Hf by lia. pr.
  - (* 3_BNPF *) apply is3_P2 in Hx. apply is4_P3 in Ht. nm (tconj D). replace (rk x - 1)%nat with 2%nat by dimt.
    nm (unsqueeze 2 x). vdot. eexists w, _. split; [reflexivity|]. split; [apply (P2_sig Fl); exact H1|].
    intros b n p Hb Hn Hp. cbn [width] in Hp. cbn [nth]. apply (dotb _ 0). intros m Hm. cbn [conj flops]. rewrite ?(bi_lt N), ?(bi_lt P) by lia. rewrite Hf by lia. pr.
Qed.
Theorem lpv_state_space_bnd e pr B N M G P (A x : ten) (Bt C D zi : option ten) uf oi (Af Bm Cm Dm : nat -> nat -> nat -> nat -> F) (xf : nat -> nat -> nat -> F) (z0 : nat -> nat -> F) :
  (1 <= B)%nat -> (1 <= N)%nat -> (1 <= M)%nat -> lpv_backend_ok e pr M -> lpv_own e pr M -> unroll_good N uf ->
  matv B N M A Af -> sigv B N G x xf ->
  inmatv B N M G Bt Bm -> outmatv B N M oi C P Cm -> feedv B N G P D Dm -> init B M zi z0 ->
  exists y zf (yv : nat -> nat -> nat -> F), lpv_state_space e pr A x Bt C D zi uf oi = Ok (y, zf) /\ sigv B N P y yv /\
    (forall b n p, (b < B)%nat -> (n < N)%nat -> (p < width P)%nat ->
      bnd (2 * M * n + M + width G + 1) (yv b n p)
        (ss_y M (width G) (Af b) (Bm b) (Cm b) (Dm b) (z0 b) (xf b) n p)
        (ss_y M (width G) (ab3 (Af b)) (ab3 (Bm b)) (ab3 (Cm b)) (ab3 (Dm b)) (fun m => oabs (z0 b m)) (ab2 (xf b)) n p)) /\
    match zi with
    | None => zf = None
    | Some _ => exists z (zv : nat -> nat -> F), zf = Some z /\ is2 z B M zv /\
        forall b m, (b < B)%nat -> (m < M)%nat -> bnd (2 * M * N + width G) (zv b m)
          (ss_h M (width G) (Af b) (Bm b) (z0 b) (xf b) N m)
          (ss_h M (width G) (ab3 (Af b)) (ab3 (Bm b)) (fun m => oabs (z0 b m)) (ab2 (xf b)) N m)
    end.
Proof.
  intros HB HN HM He Ho Hu' HA Hx HBm HC HD Hz.
  destruct (sig_size Fl _ _ _ _ _ Hx) as (Hs0 & Hs1 & Hrk & Hfe & Hrk2).
  unfold lpv_state_space. rewrite Hs0, Hs1, Hrk.
  assert (((rk A =? 3) || (rk A =? 4))%bool = true) as ->
    by (destruct HA as [g HA _|HA]; rkt; reflexivity).
  assert (sizen A 1 = M) as -> by (destruct HA as [g HA _|HA]; unfold sizen, rk; now rewrite (proj1 HA)).
  assert (sizen A 2 = M) as -> by (destruct HA as [g HA _|HA]; unfold sizen, rk; now rewrite (proj1 HA)).
  assert (sizen A 3 = N) as -> by (destruct HA as [g HA _|HA]; unfold sizen, rk; now rewrite (proj1 HA)).
  rewrite !Nat.eqb_refl.
  assert (match C, oi with Some _, Some _ => false | _, _ => true end = true) as -> by (destruct HC; reflexivity).
  destruct (ss_zi_spec Fl B M x zi z0 HM Hz) as (z & -> & Hzz). cbn [bind]. cbv zeta.
  unfold unroll_good in Hu'. cbv zeta in Hu'. set (uu := match uf with Some k => k | None => round_sqrt N end) in *. clearbody uu.
  destruct (lpv_input_bnd B N M G x xf Bt Bm Hx HBm) as (Bx & bx & -> & HBx & Rbx). cbn [bind].
  set (h := fun b n => ss_h M (width G) (Af b) (Bm b) (z0 b) (xf b) n).
  set (ha := fun b n => ss_h M (width G) (ab3 (Af b)) (ab3 (Bm b)) (fun m => oabs (z0 b m)) (ab2 (xf b)) n).
  assert (Hrun : forall oi', idx_ok M oi' -> exists y (yv : nat -> nat -> nat -> F),
    (if lpv_extension_backend_indicator e pr M && (uu =? 1) then lpv_ext_ss_recur e pr A z Bx oi'
     else lpv_state_space_recursion e pr A z Bx uu oi') = Ok y /\ picks B N M oi' y yv /\
    forall b n m, (b < B)%nat -> (n < N)%nat -> (m < M)%nat -> bnd (2 * M * S n + width G) (yv b n m) (h b (S n) m) (ha b (S n) m)).
  { intros oi' Hoi'.
    assert (exists y (yv : nat -> nat -> nat -> F),
      (if lpv_extension_backend_indicator e pr M && (uu =? 1) then lpv_ext_ss_recur e pr A z Bx oi'
       else lpv_state_space_recursion e pr A z Bx uu oi') = Ok y /\ picks B N M oi' y yv /\
      forall b n m, (b < B)%nat -> (n < N)%nat -> (m < M)%nat ->
        bnd (2 * M * S n) (yv b n m) (state M (Af b) (z0 b) (bx b) (S n) m) (state_abs M (Af b) (z0 b) (bx b) (S n) m))
      as (y & yv & E & Hy & Rb).
    { destruct (lpv_extension_backend_indicator e pr M && (uu =? 1))%bool eqn:Ee.
      - apply andb_true_iff in Ee as [Ee _]. destruct Ho as [Ho1 [Ho2|(Eo & _)]]; [apply lpv_ext_bnd; auto; now apply lpv_backend_ext|].
        unfold lpv_extension_backend_indicator in Ee. rewrite Eo, Ho1 in Ee. discriminate.
      - apply lpv_ssr_bnd; auto. }
    exists y, yv. split; [exact E|]. split; [exact Hy|]. intros b n m Hb Hn Hm.
    assert (X1 : forall k i j, (k < S n)%nat -> (i < M)%nat -> (j < M)%nat -> bnd 0 (Af b k i j) (Af b k i j) (oabs (Af b k i j))) by (intros; apply bnd_leaf).
    assert (X2 : forall i, (i < M)%nat -> bnd (width G) (z0 b i) (z0 b i) (oabs (z0 b i))) by (intros; apply (bmono 0%nat); [lia|apply bnd_leaf]).
    assert (X3 : forall k i, (k < S n)%nat -> (i < M)%nat -> bnd (width G) (bx b k i)
       (bsum (width G) (fun j => Bm b k i j * xf b k j)) (bsum (width G) (fun j => oabs (Bm b k i j) * oabs (xf b k j)))) by (intros; apply Rbx; lia).
    pose proof (state_pert M 0 (width G) (width G) (Af b) (Af b) (ab3 (Af b)) _ _ _ _ _ _ (S n) ltac:(lia) X1 X2 X3 m Hm) as Y1.
    destruct (state_mag M 0 (width G) (width G) (Af b) (Af b) (ab3 (Af b)) _ _ _ _ _ _ (S n) ltac:(lia) X1 X2 X3 m Hm) as [_ Y2].
    cbn [Nat.mul] in Y1, Y2. rewrite Nat.add_0_r in Y1, Y2. eapply bnd_comp; [now apply Rb|exact Y1|exact Y2]. }
  assert (Hoi : idx_ok M oi) by (destruct HC; cbn [idx_ok]; eauto).
  destruct (Hrun (match zi with None => oi | Some _ => None end)) as (yr & yv & Er & Hr & Rr); [destruct zi; [exact I|exact Hoi]|].
  clear Hrun.
  set (hv := fun b n m => match n with O => z0 b m | S k => yv b k m end).
  assert (Rh : forall b n m, (b < B)%nat -> (n <= N)%nat -> (m < M)%nat -> bnd (2 * M * n + width G) (hv b n m) (h b n m) (ha b n m)).
  { intros b n m Hb Hn Hm. destruct n as [|n]; cbn [hv].
    - apply (bmono 0%nat); [lia|]. apply bnd_leaf.
    - apply Rr; lia. }
  destruct (ss_states Fl B N M z zi z0 oi (fun oi' => if lpv_extension_backend_indicator e pr M && (uu =? 1) then lpv_ext_ss_recur e pr A z Bx oi'
     else lpv_state_space_recursion e pr A z Bx uu oi') hv yr HN HM Hzz Hoi (fun _ _ => eq_refl) (Logic.conj Er Hr)) as (hh & zf & -> & Hhh & Hzf).
  cbn [bind].
  assert (Hz' : match zi with
    | None => zf = None
    | Some _ => exists z (zv : nat -> nat -> F), zf = Some z /\ is2 z B M zv /\
        forall b m, (b < B)%nat -> (m < M)%nat -> bnd (2 * M * N + width G) (zv b m) (h b N m) (ha b N m) end).
  { destruct zi; [|exact Hzf]. destruct Hzf as (z' & -> & Hz'). exists z'. eexists. split; [reflexivity|]. split; [exact Hz'|].
    intros b m Hb Hm. now apply Rh. }
  assert (exists y (yv : nat -> nat -> nat -> F), (let* Dx := match D with Some D => let* d := lpv_Dx x D B N in Ok (Some d) | None => Ok None end in
     let* Ch := match C with Some C => lpv_Ch hh C B N M | None => Ok hh end in
     match Dx with Some d => tadd Ch d | None => Ok Ch end)%res = Ok y /\ sigv B N P y yv /\
    forall b n p, (b < B)%nat -> (n < N)%nat -> (p < width P)%nat -> bnd (2 * M * n + M + width G + 1) (yv b n p)
      (bsum M (fun m => Cm b n p m * h b n m) + bsum (width G) (fun k => Dm b n p k * xf b n k))
      (bsum M (fun m => oabs (Cm b n p m) * ha b n m) + bsum (width G) (fun k => oabs (Dm b n p k) * oabs (xf b n k)))) as (y & yo & Ey & Hy & Ry).
  2: { destruct (match D with Some D => let* d := lpv_Dx x D B N in Ok (Some d) | None => Ok None end)%res as [Dx|er];
         cbn [bind] in *; [|discriminate].
       destruct (match C with Some C => lpv_Ch hh C B N M | None => Ok hh end) as [Ch|er]; cbn [bind] in *; [|discriminate].
       rewrite Ey. cbn [bind].
       exists y, zf, yo. split; [reflexivity|]. split; [exact Hy|]. split; [exact Ry|exact Hz']. }
  clear Hz' Hzf Er Hr Rr yr. clearbody hv. clear yv.
  assert (exists Ch (cv : nat -> nat -> nat -> F), match C with Some C => lpv_Ch hh C B N M | None => Ok hh end = Ok Ch /\ sigv B N P Ch cv /\
    forall b n p, (b < B)%nat -> (n < N)%nat -> (p < width P)%nat -> bnd (2 * M * n + width G + M) (cv b n p)
      (bsum M (fun m => Cm b n p m * h b n m)) (bsum M (fun m => oabs (Cm b n p m) * ha b n m))) as (Ch & cv & ECh & HCh & Rc).
  { destruct C as [C|].
    - assert (oi = None) as -> by (remember (Some C) as C' eqn:E; destruct HC; auto; discriminate).
      cbn [picks] in Hhh. apply (lpv_Ch_bnd B N M P hh C hv h ha Cm (fun n => 2 * M * n + width G)%nat Hhh); [|exact HC].
      intros b n m Hb Hn Hm. apply Rh; lia.
    - exists hh. 
      remember (@None ten) as C' eqn:E in HC. destruct HC as [f Hf|i k f Hk Hf| | | | | | | | ]; try discriminate; unfold sigv, picks in *.
      + exists hv. split; [reflexivity|]. split; [exact Hhh|]. intros b n p Hb Hn Hp. cbn [width] in Hp. apply (bmono (2 * M * n + width G)%nat); [lia|].
        apply (diagb M _ _ p (f b n p) (h b n) (ha b n) Hp).
        * intros k Hk Hne. rewrite Hf by lia. unfold unit3. destruct (Nat.eqb_spec p k); [lia|reflexivity].
        * rewrite Hf by lia. unfold unit3. rewrite Nat.eqb_refl. apply bnd_abs1. apply Rh; lia.
      + exists (fun b n _ => hv b n k). split; [reflexivity|]. split; [exact (Hhh k Hk)|]. intros b n p Hb Hn Hp. cbn [width] in Hp.
        apply (bmono (2 * M * n + width G)%nat); [lia|]. apply pyidx_lt in Hk.
        apply (diagb M _ _ k (f b n p) (h b n) (ha b n) Hk).
        * intros j Hj Hne. rewrite Hf by lia. unfold unit3. destruct (Nat.eqb_spec k j); [lia|reflexivity].
        * rewrite Hf by lia. unfold unit3. rewrite Nat.eqb_refl. apply bnd_abs1. apply Rh; lia. }
  destruct D as [D|].
  - destruct (lpv_Dx_bnd B N G P x D xf Dm Hx HD) as (Dx & dv & -> & HDx & Rd). cbn [bind]. rewrite ECh. cbn [bind].
    assert (R1 : forall b n p, (b < B)%nat -> (n < N)%nat -> (p < width P)%nat -> bnd (2 * M * n + M + width G + 1) (fadd (cv b n p) (dv b n p))
      (bsum M (fun m => Cm b n p m * h b n m) + bsum (width G) (fun k => Dm b n p k * xf b n k))
      (bsum M (fun m => oabs (Cm b n p m) * ha b n m) + bsum (width G) (fun k => oabs (Dm b n p k) * oabs (xf b n k)))).
    { intros b n p Hb Hn Hp. replace (2 * M * n + M + width G + 1)%nat with (S (2 * M * n + width G + M)) by lia.
      apply badd; [now apply Rc|]. apply (bmono (width G)); [lia|]. now apply Rd. }
    unfold tadd, sigv in *. destruct P as [P|].
    + apply is3_P2 in HCh, HDx. eat @P2_ew_same; [exact HCh|exact HDx|]. exists w, (fun b n p => fadd (cv b n p) (dv b n p)). split; [reflexivity|].
      split; [apply is3_P2; exact H|]. exact R1.
    + apply is2_P1 in HCh, HDx. eat @P1_ew_same; [exact HCh|exact HDx|]. exists w, (fun b n p => fadd (cv b n p) (dv b n p)). split; [reflexivity|].
      split; [apply is2_P1; exact H|]. exact R1.
  - cbn [bind]. rewrite ECh. cbn [bind]. exists Ch, cv. split; [reflexivity|]. split; [exact HCh|].
    intros b n p Hb Hn Hp. apply (bmono (2 * M * n + width G + M)%nat); [lia|].
    remember (@None ten) as D' eqn:E in HD. destruct HD as [G P f Hf| | | | | | | | | | | | | | | | | | | ]; try discriminate.
    match goal with |- bnd _ _ (_ + ?s) (_ + ?t) => replace s with (0 : F); [replace t with (0 : F)|] end.
    2: { symmetry. apply (bsum_0 (R := F)). intros k Hk. rewrite Hf by assumption. cbn [r0 flops]. rewrite abs_0. ring. }
    2: { symmetry. apply (bsum_0 (R := F)). intros k Hk. rewrite Hf by assumption. cbn [r0 flops]. ring. }
    match goal with |- bnd _ _ (?a + 0) (?b + 0) => replace (a + 0) with a by ring; replace (b + 0) with b by ring end. now apply Rc.
Qed.
End S.
