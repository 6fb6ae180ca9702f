(** The jvp bodies are the eps part of the forward operator on dual numbers; the backward
    bodies are their adjoints. *)
From Coq Require Import List Arith Lia ZArith Bool.
From Verif Require Import Scalar Tensor TensorLemmas TensorOps TensorAlg TensorTac TensorList Spec Shapes Algebra
  M_Mat M_Kernels P_KernelOps P_Helion M_LtiSsm P_LtiSsm M_Ext M_LpvSsm P_LpvSsm M_Autograd SpecAutograd P_Autograd.
Import ListNotations.
Open Scope cr_scope.
Open Scope res_scope.

Section S.
Variable R : cring.
Add Ring Rr : (r_th R).
Notation ten := (tensor (car R)).
Notation D := (dual R).

(** ** Lifting views to dual numbers *)
Lemma lift_is1 (t : ten) o B f : is1 t B f -> like t o ->
  exists df, tan1 R B o df /\ is1 (lift t o) B (fun b => (f b, df b)).
Proof.
  intros [Hs Hf] Ho. destruct o as [d|]; cbn [like] in Ho.
  - exists (fun b => at_ d [b]). split; [split; [congruence|reflexivity]|].
    split; [exact Hs|]. intros. cbn. now rewrite Hf.
  - exists (fun _ => 0). split; [intros b Hb; reflexivity|].
    split; [exact Hs|]. intros. cbn. now rewrite Hf.
Qed.
Lemma lift_is2 (t : ten) o B M f : is2 t B M f -> like t o ->
  exists df, tan2 R B M o df /\ is2 (lift t o) B M (fun b m => (f b m, df b m)).
Proof.
  intros [Hs Hf] Ho. destruct o as [d|]; cbn [like] in Ho.
  - exists (fun b m => at_ d [b; m]). split; [split; [congruence|reflexivity]|].
    split; [exact Hs|]. intros. cbn. now rewrite Hf.
  - exists (fun _ _ => 0). split; [intros b m Hb Hm; reflexivity|].
    split; [exact Hs|]. intros. cbn. now rewrite Hf.
Qed.
Lemma lift_is3 (t : ten) o B N M f : is3 t B N M f -> like t o ->
  exists df, tan3 R B N M o df /\ is3 (lift t o) B N M (fun b n m => (f b n m, df b n m)).
Proof.
  intros [Hs Hf] Ho. destruct o as [d|]; cbn [like] in Ho.
  - exists (fun b n m => at_ d [b; n; m]). split; [split; [congruence|reflexivity]|].
    split; [exact Hs|]. intros. cbn. now rewrite Hf.
  - exists (fun _ _ _ => 0). split; [intros b n m Hb Hn Hm; reflexivity|].
    split; [exact Hs|]. intros. cbn. now rewrite Hf.
Qed.
Lemma lift_is4 (t : ten) o B N M P f : is4 t B N M P f -> like t o ->
  exists df, match o with None => forall b n m p, df b n m p = 0 | Some d => is4 d B N M P df end /\
    is4 (lift t o) B N M P (fun b n m p => (f b n m p, df b n m p)).
Proof.
  intros [Hs Hf] Ho. destruct o as [d|]; cbn [like] in Ho.
  - exists (fun b n m p => at_ d [b; n; m; p]). split; [split; [congruence|reflexivity]|].
    split; [exact Hs|]. intros. cbn. now rewrite Hf.
  - exists (fun _ _ _ _ => 0). split; [reflexivity|].
    split; [exact Hs|]. intros. cbn. now rewrite Hf.
Qed.
Lemma lift_coef (a : ten) o B f : coef B a f -> like a o ->
  exists df, tans R B o df /\ coef (R := D) B (lift a o) (fun b => (f b, df b)).
Proof.
  intros [v [Hs Hv] Hf|g H Hf|H] Ho.
  - destruct o as [d|]; cbn [like] in Ho.
    + exists (fun _ => at_ d []). split.
      * apply coef_0 with (v := at_ d []); [split; [congruence|reflexivity]|auto].
      * apply coef_0 with (v := ((v, at_ d []) : D)); [|intros; now rewrite Hf].
        split; [exact Hs|]. cbn. now rewrite Hv.
    + exists (fun _ => 0). split; [intros b Hb; reflexivity|].
      apply coef_0 with (v := ((v, 0) : D)); [|intros; now rewrite Hf].
      split; [exact Hs|]. cbn. now rewrite Hv.
  - destruct (lift_is1 a o 1 g H Ho) as (df & Hd & Hl).
    exists (fun _ => df 0%nat). split.
    + destruct o as [d|]; cbn [tans tan1] in *; [|intros; apply Hd; lia].
      apply coef_1 with (g := df); auto.
    + apply coef_1 with (g := fun b => ((g b, df b) : D)); [exact Hl|]. intros; now rewrite Hf.
  - destruct (lift_is1 a o B f H Ho) as (df & Hd & Hl).
    exists df. split; [|now apply coef_B].
    destruct o as [d|]; cbn [tans tan1] in *; [now apply coef_B|exact Hd].
Qed.
Lemma lift_matc (A : ten) o B M f : matc B M A f -> like A o ->
  exists df, tanc R B M o df /\ matc (R := D) B M (lift A o) (fun b i j => (f b i j, df b i j)).
Proof.
  intros [g H Hf|H] Ho.
  - destruct (lift_is2 A o M M g H Ho) as (df & Hd & Hl).
    exists (fun _ => df). split.
    + destruct o as [d|]; cbn [tanc tan2] in *; [|auto]. apply matc_s with (g := df); auto.
    + eapply matc_s; [exact Hl|]. intros; cbn beta; now rewrite Hf.
  - destruct (lift_is3 A o B M M f H Ho) as (df & Hd & Hl).
    exists df. split; [|now apply matc_b].
    destruct o as [d|]; cbn [tanc tan3] in *; [now apply matc_b|exact Hd].
Qed.
Lemma lift_matv (A : ten) o B N M f : matv B N M A f -> like A o ->
  exists df, tanv R B N M o df /\ matv (R := D) B N M (lift A o) (fun b n i j => (f b n i j, df b n i j)).
Proof.
  intros [g H Hf|H] Ho.
  - destruct (lift_is3 A o N M M g H Ho) as (df & Hd & Hl).
    exists (fun _ => df). split.
    + destruct o as [d|]; cbn [tanv tan3] in *; [|auto]. apply matv_s with (g := df); auto.
    + eapply matv_s; [exact Hl|]. intros; cbn beta; now rewrite Hf.
  - destruct (lift_is4 A o B N M M f H Ho) as (df & Hd & Hl).
    exists df. split; [|now apply matv_b].
    destruct o as [d|]; cbn [tanv] in *; [now apply matv_b|intros; apply Hd].
Qed.

Lemma dual_of3 (Y : tensor (car D)) (y t : ten) B N M f g :
  is3 Y B N M (fun b n m => (f b n m, g b n m)) -> is3 y B N M f -> is3 t B N M g -> dual_of Y y t.
Proof.
  intros [HY1 HY2] [Hy1 Hy2] [Ht1 Ht2]. split; [congruence|]. split; [congruence|].
  intros idx Hidx. rewrite Hy1 in Hidx.
  inversion Hidx as [|b ? r1 ? Hb Hr1]; subst. inversion Hr1 as [|n ? r2 ? Hn Hr2]; subst.
  inversion Hr2 as [|m ? r3 ? Hm Hr3]; subst. inversion Hr3; subst.
  now rewrite HY2, Hy2, Ht2.
Qed.
Lemma dual_of2 (Y : tensor (car D)) (y t : ten) B N f g :
  is2 Y B N (fun b n => (f b n, g b n)) -> is2 y B N f -> is2 t B N g -> dual_of Y y t.
Proof.
  intros [HY1 HY2] [Hy1 Hy2] [Ht1 Ht2]. split; [congruence|]. split; [congruence|].
  intros idx Hidx. rewrite Hy1 in Hidx.
  inversion Hidx as [|b ? r1 ? Hb Hr1]; subst. inversion Hr1 as [|n ? r2 ? Hn Hr2]; subst.
  inversion Hr2; subst. now rewrite HY2, Hy2, Ht2.
Qed.

(** ** Empty signals: the delayed output has one row, which broadcasts away. *)
Lemma delayed3_0 (zi y : ten) B M zf yf : is2 zi B M zf -> is3 y B 0 M yf ->
  exists p, delayed zi y = Ok p /\ is3 p B 1 M (fun b _ m => zf b m).
Proof.
  intros Hz Hy. unfold delayed. apply is3_P2 in Hy. nm (slice 1 None (Some (-1)%Z) y).
  rename v into s. assert (Hs : is3 s B 0 M yf).
  { apply is3_P2. fin H; try lia. }
  destruct (init_cat3 R zi s B 0 M zf yf Hz Hs) as (o & -> & Ho).
  exists o. split; [reflexivity|]. eapply is3_ext; [exact Ho|].
  intros b n m Hb Hn Hm. destruct n; [reflexivity|lia].
Qed.
Lemma delayed2_0 (zi y : ten) B zf yf : is1 zi B zf -> is2 y B 0 yf ->
  exists p, delayed zi y = Ok p /\ is2 p B 1 (fun b _ => zf b).
Proof.
  intros Hz Hy. unfold delayed. apply is2_P in Hy. nm (slice 1 None (Some (-1)%Z) y).
  rename v into s. assert (Hs : is2 s B 0 yf).
  { apply is2_P. fin H; try lia. }
  destruct (init_cat2 R zi s B 0 zf yf Hz Hs) as (o & -> & Ho).
  exists o. split; [reflexivity|]. eapply is2_ext; [exact Ho|].
  intros b n Hb Hn. destruct n; [reflexivity|lia].
Qed.
Lemma add3_0 (s t : ten) B M f g h : is3 s B 0 M f -> is3 t B 1 M g ->
  exists w, tadd s t = Ok w /\ is3 w B 0 M h.
Proof.
  intros Hs Ht. apply is3_P2 in Hs, Ht. unfold tadd.
  destruct (P2_ew radd s t [B] 0 M 1 M 0 M _ _ Hs Ht) as (w & Ew & Hw); [bdt|bdt|].
  exists w. split; [exact Ew|]. apply P2_cons in Hw. split; [exact (proj1 Hw)|]. intros; lia.
Qed.
Lemma add2_0 (s t : ten) B f g h : is2 s B 0 f -> is2 t B 1 g ->
  exists w, tadd s t = Ok w /\ is2 w B 0 h.
Proof.
  intros Hs Ht. apply is2_P in Hs, Ht. unfold tadd.
  destruct (P2_ew radd s t [] B 0 B 1 B 0 _ _ Hs Ht) as (w & Ew & Hw); [bdt|bdt|].
  exists w. split; [exact Ew|]. apply P2_nil in Hw. split; [exact (proj1 Hw)|]. intros; lia.
Qed.
Lemma add3_00 (s t : ten) B M f g h : is3 s B 0 M f -> is3 t B 0 M g ->
  exists w, tadd s t = Ok w /\ is3 w B 0 M h.
Proof.
  intros Hs Ht. destruct (add3 R s t B 0 M f g Hs Ht) as (w & E & H). exists w. split; [exact E|].
  split; [exact (proj1 H)|]. intros; lia.
Qed.
Lemma jv_lpv0 (A l : ten) B M Af g h : matv B 0 M A Af -> is3 l B 1 M g ->
  exists p, matmul A (unsqueeze 3 l) = Ok p /\ is3 (squeeze (rk p - 1) p) B 0 M h.
Proof.
  intros HA Hl. destruct HA as [f HA HAf|HA].
  - apply is3_P in HA. apply is3_P2 in Hl. nm (unsqueeze 3 l). mm. exists w. split; [reflexivity|].
    apply (P3_cons w) in H0. pose proof (sq_last4 R _ _ _ _ _ H0) as Hq.
    split; [exact (proj1 Hq)|]. intros; lia.
  - apply is4_P3 in HA. apply is3_P2 in Hl. nm (unsqueeze 3 l). mm.
    exists w. split; [reflexivity|].
    apply (P3_cons w) in H0. pose proof (sq_last4 R _ _ _ _ _ H0) as Hq.
    split; [exact (proj1 Hq)|]. intros; lia.
Qed.
Lemma lti_jvp_all op B N M (A zi y : ten) (oA oz ox : option ten) Af dAf zf dzf xf dxf :
  runs_lti R op B M -> matc B M A Af -> is2 zi B M zf ->
  is3 y B N M (fun b n m => state M (fun _ => Af b) (zf b) (xf b) (S n) m) ->
  tanc R B M oA dAf -> tan2 R B M oz dzf -> tan3 R B N M ox dxf ->
  exists t, lti_jvp op A zi y oA oz ox = Ok t /\
    is3 t B N M (fun b n m =>
      tang R M (fun _ => Af b) (fun _ => dAf b) (zf b) (dzf b) (xf b) (dxf b) (S n) m).
Proof.
  intros Hop HA Hz Hy HoA Hoz Hox. destruct N as [|N].
  2:{ apply (lti_jvp_run R op B (S N) M A zi y oA oz ox Af dAf zf dzf xf dxf); auto. lia. }
  unfold lti_jvp.
  pose proof (or_zeros2 R _ _ _ _ _ _ Hz Hoz) as Hz'. pose proof (or_zeros3 R _ _ _ _ _ _ _ Hy Hox) as Hx'.
  set (fz := or_zeros oz zi) in *. set (fx := or_zeros ox y) in *. clearbody fz fx.
  match goal with |- exists t, bind ?r _ = _ /\ _ => assert (K : exists u, r = Ok u /\ is3 u B 0 M dxf) end.
  { destruct oA as [dA|]; [|exists fx; auto]. cbn [tanc] in HoA.
    destruct (delayed3_0 zi y B M _ _ Hz Hy) as (p & -> & Hp). cbn [bind].
    assert (rk p = 3)%nat as -> by (rkt; reflexivity).
    destruct (jv_lti R dA p B 1 M _ _ HoA Hp) as (v & -> & Hv). cbn [bind].
    exact (add3_0 _ _ B M _ _ dxf Hx' Hv). }
  destruct K as (u & -> & Hu). cbn [bind].
  destruct (Hop 0%nat A fz u _ _ _ HA Hz' Hu) as (t & -> & Ht). exists t. split; [reflexivity|].
  split; [exact (proj1 Ht)|]. intros; lia.
Qed.
Lemma lpv_jvp_all op B N M (A zi y : ten) (oA oz ox : option ten) Af dAf zf dzf xf dxf :
  runs_lpv R op B M -> matv B N M A Af -> is2 zi B M zf ->
  is3 y B N M (fun b n m => state M (Af b) (zf b) (xf b) (S n) m) ->
  tanv R B N M oA dAf -> tan2 R B M oz dzf -> tan3 R B N M ox dxf ->
  exists t, lpv_jvp op A zi y oA oz ox = Ok t /\
    is3 t B N M (fun b n m => tang R M (Af b) (dAf b) (zf b) (dzf b) (xf b) (dxf b) (S n) m).
Proof.
  intros Hop HA Hz Hy HoA Hoz Hox. destruct N as [|N].
  2:{ apply (lpv_jvp_run R op B (S N) M A zi y oA oz ox Af dAf zf dzf xf dxf); auto. lia. }
  unfold lpv_jvp.
  pose proof (or_zeros2 R _ _ _ _ _ _ Hz Hoz) as Hz'. pose proof (or_zeros3 R _ _ _ _ _ _ _ Hy Hox) as Hx'.
  set (fz := or_zeros oz zi) in *. set (fx := or_zeros ox y) in *. clearbody fz fx.
  match goal with |- exists t, bind ?r _ = _ /\ _ => assert (K : exists u, r = Ok u /\ is3 u B 0 M dxf) end.
  { destruct oA as [dA|]; [|exists fx; auto]. cbn [tanv] in HoA.
    destruct (delayed3_0 zi y B M _ _ Hz Hy) as (p & -> & Hp). cbn [bind].
    assert (rk p = 3)%nat as -> by (rkt; reflexivity).
    destruct (jv_lpv0 dA p B M _ _ dxf HoA Hp) as (v & -> & Hv). cbn [bind].
    exact (add3_00 _ _ B M _ _ dxf Hx' Hv). }
  destruct K as (u & -> & Hu). cbn [bind].
  destruct (Hop 0%nat A fz u _ _ _ HA Hz' Hu) as (t & -> & Ht). exists t. split; [reflexivity|].
  split; [exact (proj1 Ht)|]. intros; lia.
Qed.
Lemma scalar_jvp_all op B N (a zi y : ten) (oa oz ox : option ten) af daf zf dzf xf dxf :
  runs_sc R op B -> coef B a af -> is1 zi B zf ->
  is2 y B N (fun b n => lin_rec (fun _ => af b) (zf b) (xf b) (S n)) ->
  tans R B oa daf -> tan1 R B oz dzf -> tan2 R B N ox dxf ->
  exists t, scalar_jvp op a zi y oa oz ox = Ok t /\
    is2 t B N (fun b n => stang R (af b) (daf b) (zf b) (dzf b) (xf b) (dxf b) (S n)).
Proof.
  intros Hop Ha Hz Hy Hoa Hoz Hox. destruct N as [|N].
  2:{ apply (scalar_jvp_run R op B (S N) a zi y oa oz ox af daf zf dzf xf dxf); auto. lia. }
  unfold scalar_jvp.
  pose proof (or_zeros1 R _ _ _ _ _ Hz Hoz) as Hz'. pose proof (or_zeros2 R _ _ _ _ _ _ Hy Hox) as Hx'.
  set (fz := or_zeros oz zi) in *. set (fx := or_zeros ox y) in *. clearbody fz fx.
  match goal with |- exists t, bind ?r _ = _ /\ _ => assert (K : exists u, r = Ok u /\ is2 u B 0 dxf) end.
  { destruct oa as [da|]; [|exists fx; auto]. cbn [tans] in Hoa.
    destruct (delayed2_0 zi y B _ _ Hz Hy) as (p & -> & Hp). cbn [bind].
    destruct (scale_rows R p da B 1 _ _ Hp Hoa) as (v & -> & Hv). cbn [bind].
    exact (add2_0 _ _ B _ _ dxf Hx' Hv). }
  destruct K as (u & -> & Hu). cbn [bind].
  destruct (Hop 0%nat a fz u _ _ _ Ha Hz' Hu) as (t & -> & Ht). exists t. split; [reflexivity|].
  split; [exact (proj1 Ht)|]. intros; lia.
Qed.

(** ** jvp = derivative *)
Lemma scalar_jvp_dual op opD B N (a zi x : ten) (oa oz ox : option ten) af zf xf :
  runs_sc R op B -> runs_sc D opD B ->
  coef B a af -> is1 zi B zf -> is2 x B N xf -> like a oa -> like zi oz -> like x ox ->
  exists y t Y, op a zi x = Ok y /\ scalar_jvp op a zi y oa oz ox = Ok t /\
    opD (lift a oa) (lift zi oz) (lift x ox) = Ok Y /\ shape y = shape x /\ dual_of Y y t.
Proof.
  intros Hop HopD Ha Hz Hx La Lz Lx.
  destruct (lift_coef a oa B af Ha La) as (daf & Ta & DA).
  destruct (lift_is1 zi oz B zf Hz Lz) as (dzf & Tz & DZ).
  destruct (lift_is2 x ox B N xf Hx Lx) as (dxf & Tx & DX).
  destruct (Hop N a zi x _ _ _ Ha Hz Hx) as (y & Ey & Hy).
  destruct (scalar_jvp_all op B N a zi y oa oz ox af daf zf dzf xf dxf) as (t & Et & Ht); auto.
  destruct (HopD N _ _ _ _ _ _ DA DZ DX) as (Y & EY & HY).
  exists y, t, Y. repeat (split; [assumption|]). split; [rewrite (proj1 Hy); symmetry; apply (proj1 Hx)|].
  eapply dual_of2; [|exact Hy|exact Ht].
  eapply is2_ext; [exact HY|]. intros b n Hb Hn. apply lin_dual.
Qed.
Lemma lti_jvp_dual op opD B N M (A zi x : ten) (oA oz ox : option ten) Af zf xf :
  runs_lti R op B M -> runs_lti D opD B M ->
  matc B M A Af -> is2 zi B M zf -> is3 x B N M xf -> like A oA -> like zi oz -> like x ox ->
  exists y t Y, op A zi x = Ok y /\ lti_jvp op A zi y oA oz ox = Ok t /\
    opD (lift A oA) (lift zi oz) (lift x ox) = Ok Y /\ shape y = shape x /\ dual_of Y y t.
Proof.
  intros Hop HopD Ha Hz Hx La Lz Lx.
  destruct (lift_matc A oA B M Af Ha La) as (daf & Ta & DA).
  destruct (lift_is2 zi oz B M zf Hz Lz) as (dzf & Tz & DZ).
  destruct (lift_is3 x ox B N M xf Hx Lx) as (dxf & Tx & DX).
  destruct (Hop N A zi x _ _ _ Ha Hz Hx) as (y & Ey & Hy).
  destruct (lti_jvp_all op B N M A zi y oA oz ox Af daf zf dzf xf dxf) as (t & Et & Ht); auto.
  destruct (HopD N _ _ _ _ _ _ DA DZ DX) as (Y & EY & HY).
  exists y, t, Y. repeat (split; [assumption|]). split; [rewrite (proj1 Hy); symmetry; apply (proj1 Hx)|].
  eapply dual_of3; [|exact Hy|exact Ht].
  eapply is3_ext; [exact HY|]. intros b n m Hb Hn Hm.
  apply (state_dual R M (fun _ => Af b) (fun _ => daf b)). exact Hm.
Qed.
Lemma lpv_jvp_dual op opD B N M (A zi x : ten) (oA oz ox : option ten) Af zf xf :
  runs_lpv R op B M -> runs_lpv D opD B M ->
  matv B N M A Af -> is2 zi B M zf -> is3 x B N M xf -> like A oA -> like zi oz -> like x ox ->
  exists y t Y, op A zi x = Ok y /\ lpv_jvp op A zi y oA oz ox = Ok t /\
    opD (lift A oA) (lift zi oz) (lift x ox) = Ok Y /\ shape y = shape x /\ dual_of Y y t.
Proof.
  intros Hop HopD Ha Hz Hx La Lz Lx.
  destruct (lift_matv A oA B N M Af Ha La) as (daf & Ta & DA).
  destruct (lift_is2 zi oz B M zf Hz Lz) as (dzf & Tz & DZ).
  destruct (lift_is3 x ox B N M xf Hx Lx) as (dxf & Tx & DX).
  destruct (Hop N A zi x _ _ _ Ha Hz Hx) as (y & Ey & Hy).
  destruct (lpv_jvp_all op B N M A zi y oA oz ox Af daf zf dzf xf dxf) as (t & Et & Ht); auto.
  destruct (HopD N _ _ _ _ _ _ DA DZ DX) as (Y & EY & HY).
  exists y, t, Y. repeat (split; [assumption|]). split; [rewrite (proj1 Hy); symmetry; apply (proj1 Hx)|].
  eapply dual_of3; [|exact Hy|exact Ht].
  eapply is3_ext; [exact HY|]. intros b n m Hb Hn Hm.
  apply (state_dual R M (Af b) (daf b)). exact Hm.
Qed.

(** ** Inner products of viewed tensors *)
Lemma tdot1 (a b : ten) n f g : is1 a n f -> is1 b n g -> tdot a b = bsum n (fun i => conj (f i) * g i).
Proof. intros Ha Hb. unfold tdot. rewrite (proj1 Ha). cbn [sumT].
  apply bsum_ext. intros. now rewrite (proj2 Ha), (proj2 Hb). Qed.
Lemma tdot2 (a b : ten) n m f g : is2 a n m f -> is2 b n m g ->
  tdot a b = bsum n (fun i => bsum m (fun j => conj (f i j) * g i j)).
Proof. intros Ha Hb. unfold tdot. rewrite (proj1 Ha). cbn [sumT].
  apply bsum_ext. intros. apply bsum_ext. intros. now rewrite (proj2 Ha), (proj2 Hb). Qed.
Lemma tdot3 (a b : ten) n m p f g : is3 a n m p f -> is3 b n m p g ->
  tdot a b = bsum n (fun i => bsum m (fun j => bsum p (fun k => conj (f i j k) * g i j k))).
Proof. intros Ha Hb. unfold tdot. rewrite (proj1 Ha). cbn [sumT].
  apply bsum_ext. intros. apply bsum_ext. intros. apply bsum_ext. intros. now rewrite (proj2 Ha), (proj2 Hb). Qed.
Lemma tdot4 (a b : ten) n m p q f g : is4 a n m p q f -> is4 b n m p q g ->
  tdot a b = bsum n (fun i => bsum m (fun j => bsum p (fun k => bsum q (fun l => conj (f i j k l) * g i j k l)))).
Proof. intros Ha Hb. unfold tdot. rewrite (proj1 Ha). cbn [sumT].
  apply bsum_ext. intros. apply bsum_ext. intros. apply bsum_ext. intros. apply bsum_ext. intros.
  now rewrite (proj2 Ha), (proj2 Hb). Qed.
Lemma sum0 n (f : nat -> R) : (forall i, (i < n)%nat -> f i = 0) -> bsum n f = 0.
Proof. apply bsum_0. Qed.
Lemma odot_tan1 (g : ten) o B f h : is1 g B f -> tan1 R B o h ->
  odot (Some g) o = bsum B (fun b => conj (f b) * h b).
Proof.
  intros Hg Ho. destruct o as [d|]; cbn [odot tan1] in *; [now apply tdot1|].
  symmetry. apply bsum_0. intros. rewrite Ho by assumption. ring.
Qed.
Lemma odot_tan2 (g : ten) o B M f h : is2 g B M f -> tan2 R B M o h ->
  odot (Some g) o = bsum B (fun b => bsum M (fun m => conj (f b m) * h b m)).
Proof.
  intros Hg Ho. destruct o as [d|]; cbn [odot tan2] in *; [now apply tdot2|].
  symmetry. apply bsum_0. intros. apply bsum_0. intros. rewrite Ho by assumption. ring.
Qed.
Lemma odot_tan3 (g : ten) o B N M f h : is3 g B N M f -> tan3 R B N M o h ->
  odot (Some g) o = bsum B (fun b => bsum N (fun n => bsum M (fun m => conj (f b n m) * h b n m))).
Proof.
  intros Hg Ho. destruct o as [d|]; cbn [odot tan3] in *; [now apply tdot3|].
  symmetry. apply bsum_0. intros. apply bsum_0. intros. apply bsum_0. intros. rewrite Ho by assumption. ring.
Qed.

(** The coefficient's contribution. *)
Lemma odot_matc (A gA : ten) o B N M dAf lam h : outerc R B N M A gA lam h -> tanc R B M o dAf -> like A o ->
  odot (Some gA) o
  = bsum B (fun b => bsum N (fun n => bsum M (fun i => conj (lam b n i) * mvec M (dAf b) (h b n) i))).
Proof.
  intros HA Ho L. destruct o as [d|]; cbn [odot tanc like] in *.
  2:{ symmetry. apply bsum_0. intros b Hb. apply bsum_0. intros n Hn. apply bsum_0. intros i Hi.
      unfold mvec. rewrite bsum_0; [ring|]. intros j Hj. rewrite Ho by assumption. ring. }
  destruct HA as [[E HA]|[E HA]], Ho as [g Hd Hg|Hd].
  - rewrite (tdot2 _ _ _ _ _ _ HA Hd).
    transitivity (bsum M (fun i => bsum B (fun b => bsum N (fun n => conj (lam b n i) * mvec M (dAf b) (h b n) i)))).
    2:{ rewrite bsum_swap. apply bsum_ext. intros b Hb. now rewrite bsum_swap. }
    apply bsum_ext. intros i Hi.
    transitivity (bsum M (fun j => bsum B (fun b => bsum N (fun n => conj (lam b n i) * (g i j * h b n j))))).
    { apply bsum_ext. intros j Hj. rewrite bsum_conj, <- bsum_mul_r. apply bsum_ext. intros b Hb.
      rewrite bsum_conj, <- bsum_mul_r. apply bsum_ext. intros n Hn. rewrite conj_mul, conj_conj. ring. }
    rewrite bsum_swap. apply bsum_ext. intros b Hb. rewrite bsum_swap. apply bsum_ext. intros n Hn.
    unfold mvec. rewrite <- bsum_mul_l. apply bsum_ext. intros j Hj. now rewrite Hg.
  - exfalso. unfold rk in E. rewrite <- L, (proj1 Hd) in E. discriminate.
  - exfalso. unfold rk in E. rewrite <- L, (proj1 Hd) in E. discriminate.
  - rewrite (tdot3 _ _ _ _ _ _ _ HA Hd). apply bsum_ext. intros b Hb.
    rewrite bsum_swap with (n := N). apply bsum_ext. intros i Hi.
    transitivity (bsum M (fun j => bsum N (fun n => conj (lam b n i) * (dAf b i j * h b n j)))).
    { apply bsum_ext. intros j Hj. rewrite bsum_conj, <- bsum_mul_r. apply bsum_ext. intros n Hn.
      rewrite conj_mul, conj_conj. ring. }
    rewrite bsum_swap. apply bsum_ext. intros n Hn. unfold mvec. now rewrite <- bsum_mul_l.
Qed.
Lemma odot_matv (A gA : ten) o B N M dAf lam h : outerv R B N M A gA lam h -> tanv R B N M o dAf -> like A o ->
  odot (Some gA) o
  = bsum B (fun b => bsum N (fun n => bsum M (fun i => conj (lam b n i) * mvec M (dAf b n) (h b n) i))).
Proof.
  intros HA Ho L. destruct o as [d|]; cbn [odot tanv like] in *.
  2:{ symmetry. apply bsum_0. intros b Hb. apply bsum_0. intros n Hn. apply bsum_0. intros i Hi.
      unfold mvec. rewrite bsum_0; [ring|]. intros j Hj. rewrite Ho by assumption. ring. }
  destruct HA as [[E HA]|[E HA]], Ho as [g Hd Hg|Hd].
  - rewrite (tdot3 _ _ _ _ _ _ _ HA Hd). rewrite bsum_swap with (n := B). apply bsum_ext. intros n Hn.
    rewrite bsum_swap with (n := B). apply bsum_ext. intros i Hi.
    transitivity (bsum M (fun j => bsum B (fun b => conj (lam b n i) * (g n i j * h b n j)))).
    { apply bsum_ext. intros j Hj. rewrite bsum_conj, <- bsum_mul_r. apply bsum_ext. intros b Hb.
      rewrite conj_mul, conj_conj. ring. }
    rewrite bsum_swap. apply bsum_ext. intros b Hb.
    unfold mvec. rewrite <- bsum_mul_l. apply bsum_ext. intros j Hj. now rewrite Hg.
  - exfalso. unfold rk in E. rewrite <- L, (proj1 Hd) in E. discriminate.
  - exfalso. unfold rk in E. rewrite <- L, (proj1 Hd) in E. discriminate.
  - rewrite (tdot4 _ _ _ _ _ _ _ _ HA Hd). apply bsum_ext. intros b Hb. apply bsum_ext. intros n Hn.
    apply bsum_ext. intros i Hi. unfold mvec. rewrite <- bsum_mul_l. apply bsum_ext. intros j Hj.
    rewrite conj_mul, conj_conj. ring.
Qed.

(** ** backward = adjoint of jvp *)
Lemma shuffle3 (u v w : R) : u + v + w = v + w + u.
Proof. ring. Qed.
Lemma lti_adjoint op B N M (A zi x y t g : ten) (oA oz ox : option ten) Af daf zf dzf xf dxf gf :
  runs_lti R op B M -> (1 <= N)%nat ->
  matc B M A Af -> is2 zi B M zf -> is3 x B N M xf -> is3 g B N M gf ->
  like A oA -> tanc R B M oA daf -> tan2 R B M oz dzf -> tan3 R B N M ox dxf ->
  is3 y B N M (fun b n m => state M (fun _ => Af b) (zf b) (xf b) (S n) m) ->
  is3 t B N M (fun b n m => tang R M (fun _ => Af b) (fun _ => daf b) (zf b) (dzf b) (xf b) (dxf b) (S n) m) ->
  exists gA gz gx,
    (forall nA nz nx, lti_backward op (nA, nz, nx) A zi y g = Ok (mask R nA gA, mask R nz gz, mask R nx gx)) /\
    shape gA = shape A /\ shape gz = shape zi /\ shape gx = shape x /\
    tdot g t = odot (Some gA) oA + odot (Some gz) oz + odot (Some gx) ox.
Proof.
  intros Hop HN Ha Hz Hx Hg La Ta Tz Tx Hy Ht.
  destruct (lti_backward_run R op B N M A zi y g Af zf xf gf) as (lam & gA & gz & gx & Eb & Hgx & Hgz & HgA & Hl); auto.
  exists gA, gz, gx. split; [exact Eb|].
  split. { destruct HgA as [[E HgA]|[E HgA]]; destruct Ha as [f Ha _|Ha]; unfold rk in E; rewrite (proj1 Ha) in E; try discriminate;
           rewrite (proj1 Ha); exact (proj1 HgA). }
  split; [rewrite (proj1 Hz); exact (proj1 Hgz)|]. split; [rewrite (proj1 Hx); exact (proj1 Hgx)|].
  rewrite (odot_matc A gA oA B N M _ _ _ HgA Ta La), (odot_tan2 gz oz B M _ _ Hgz Tz),
    (odot_tan3 gx ox B N M _ _ Hgx Tx), (tdot3 _ _ _ _ _ _ _ Hg Ht).
  rewrite <- !bsum_add. apply bsum_ext. intros b Hb.
  pose proof (adj_identity R M N (fun _ => Af b) (fun _ => daf b) (zf b) (dzf b) (xf b) (dxf b) (gf b) (lam b)
                (fun n m Hn Hm => Hl b n m Hb Hn Hm)) as E.
  unfold ipm in E. rewrite E.
  rewrite (bsum_ext N _ (fun n => bsum M (fun m => conj (lam b n m) * dxf b n m)
     + bsum M (fun i => conj (lam b n i) * mvec M (daf b) (state M (fun _ => Af b) (zf b) (xf b) n) i))).
  2:{ intros n Hn. rewrite <- bsum_add. apply bsum_ext. intros m Hm. ring. }
  rewrite bsum_add. apply shuffle3.
Qed.
Lemma lpv_adjoint op B N M (A zi x y t g : ten) (oA oz ox : option ten) Af daf zf dzf xf dxf gf :
  runs_lpv R op B M -> (1 <= N)%nat ->
  matv B N M A Af -> is2 zi B M zf -> is3 x B N M xf -> is3 g B N M gf ->
  like A oA -> tanv R B N M oA daf -> tan2 R B M oz dzf -> tan3 R B N M ox dxf ->
  is3 y B N M (fun b n m => state M (Af b) (zf b) (xf b) (S n) m) ->
  is3 t B N M (fun b n m => tang R M (Af b) (daf b) (zf b) (dzf b) (xf b) (dxf b) (S n) m) ->
  exists gA gz gx,
    (forall nA nz nx, lpv_backward op (nA, nz, nx) A zi y g = Ok (mask R nA gA, mask R nz gz, mask R nx gx)) /\
    shape gA = shape A /\ shape gz = shape zi /\ shape gx = shape x /\
    tdot g t = odot (Some gA) oA + odot (Some gz) oz + odot (Some gx) ox.
Proof.
  intros Hop HN Ha Hz Hx Hg La Ta Tz Tx Hy Ht.
  destruct (lpv_backward_run R op B N M A zi y g Af zf xf gf) as (lam & gA & gz & gx & Eb & Hgx & Hgz & HgA & Hl); auto.
  exists gA, gz, gx. split; [exact Eb|].
  split. { destruct HgA as [[E HgA]|[E HgA]]; destruct Ha as [f Ha _|Ha]; unfold rk in E; rewrite (proj1 Ha) in E; try discriminate;
           rewrite (proj1 Ha); exact (proj1 HgA). }
  split; [rewrite (proj1 Hz); exact (proj1 Hgz)|]. split; [rewrite (proj1 Hx); exact (proj1 Hgx)|].
  rewrite (odot_matv A gA oA B N M _ _ _ HgA Ta La), (odot_tan2 gz oz B M _ _ Hgz Tz),
    (odot_tan3 gx ox B N M _ _ Hgx Tx), (tdot3 _ _ _ _ _ _ _ Hg Ht).
  rewrite <- !bsum_add. apply bsum_ext. intros b Hb.
  pose proof (adj_identity R M N (Af b) (daf b) (zf b) (dzf b) (xf b) (dxf b) (gf b) (lam b)
                (fun n m Hn Hm => Hl b n m Hb Hn Hm)) as E.
  unfold ipm in E. rewrite E.
  rewrite (bsum_ext N _ (fun n => bsum M (fun m => conj (lam b n m) * dxf b n m)
     + bsum M (fun i => conj (lam b n i) * mvec M (daf b n) (state M (Af b) (zf b) (xf b) n) i))).
  2:{ intros n Hn. rewrite <- bsum_add. apply bsum_ext. intros m Hm. ring. }
  rewrite bsum_add. apply shuffle3.
Qed.

(** Scalar recursion: the same with one state, via the 1 x 1 matrix. *)
Lemma stang_tang (a da z dz : R) x dx n :
  tang R 1 (fun _ _ _ => a) (fun _ _ _ => da) (fun _ => z) (fun _ => dz) (fun n _ => x n) (fun n _ => dx n) n 0
  = stang R a da z dz x dx n.
Proof.
  assert (E : forall n, state 1 (fun _ _ _ => a) (fun _ => z) (fun n _ => x n) n 0%nat = lin_rec (fun _ => a) z x n).
  { induction n0 as [|k IH]; [reflexivity|]. cbn [state lin_rec]. unfold mvec. cbn [bsum]. rewrite IH. ring. }
  unfold tang, stang. induction n as [|n IH]; [reflexivity|]. cbn [state lin_rec].
  unfold mvec. cbn [bsum]. fold (mvec (R := R)). rewrite <- E. 
  cbn [bsum] in IH. unfold mvec in IH. cbn [bsum] in IH. rewrite <- IH. ring.
Qed.
Lemma scalar_identity N (a da z dz : R) x dx g lam :
  (forall n, (n < N)%nat -> lam n = g n + (if S n <? N then conj a * lam (S n) else 0)) -> (1 <= N)%nat ->
  bsum N (fun n => conj (g n) * stang R a da z dz x dx (S n))
  = bsum N (fun n => conj (lam n) * (da * lin_rec (fun _ => a) z x n))
    + conj (lam 0%nat * conj a) * dz + bsum N (fun n => conj (lam n) * dx n).
Proof.
  intros Hl HN.
  pose proof (adj_identity R 1 N (fun _ _ _ => a) (fun _ _ _ => da) (fun _ => z) (fun _ => dz) (fun n _ => x n)
     (fun n _ => dx n) (fun n _ => g n) (fun n _ => lam n)) as E.
  assert (H : forall n m, (n < N)%nat -> (m < 1)%nat ->
     lam n = g n + adj R 1 N (fun _ _ _ => a) (fun n _ => lam n) (S n) m).
  { intros n m Hn Hm. rewrite (Hl n Hn). f_equal. unfold adj. destruct (S n <? N); [|reflexivity].
    cbn [bsum]. ring. }
  specialize (E H). unfold ipm in E. cbn [bsum] in E.
  assert (E3 : forall n, state 1 (fun _ _ _ => a) (fun _ => z) (fun n _ => x n) n 0%nat = lin_rec (fun _ => a) z x n).
  { induction n as [|k IH]; [reflexivity|]. cbn [state lin_rec]. unfold mvec. cbn [bsum]. rewrite IH. ring. }
  rewrite (bsum_ext N _ (fun n => 0 + conj (g n) * tang R 1 (fun _ _ _ => a) (fun _ _ _ => da) (fun _ => z)
     (fun _ => dz) (fun n _ => x n) (fun n _ => dx n) (S n) 0)).
  2:{ intros n Hn. rewrite stang_tang. ring. }
  rewrite E. rewrite (bsum_ext N _ (fun n => conj (lam n) * (da * lin_rec (fun _ => a) z x n) + conj (lam n) * dx n)).
  2:{ intros n Hn. unfold mvec. cbn [bsum]. rewrite E3. ring. }
  rewrite bsum_add. unfold adj. replace (0 <? N) with true by (symmetry; apply Nat.ltb_lt; lia). cbn [bsum].
  rewrite conj_add, conj_0, !conj_mul, conj_conj. ring.
Qed.
Lemma odot_coef (a ga : ten) o B N af daf lam h : coef B a af -> outers R B N a ga lam h -> tans R B o daf -> like a o ->
  odot (Some (engine_reduce a ga)) o
  = bsum B (fun b => bsum N (fun n => conj (lam b n) * (daf b * h b n))).
Proof.
  intros Ha HA Ho L. destruct o as [d|]; cbn [odot tans like] in *.
  2:{ symmetry. apply bsum_0. intros b Hb. apply bsum_0. intros n Hn. rewrite Ho by assumption. ring. }
  destruct HA as [[E HA]|[E HA]].
  - assert (Es : shape a = []). { unfold rk in E. destruct (shape a); [reflexivity|discriminate]. }
    unfold engine_reduce. rewrite Es, (proj1 HA). cbn [list_eqb].
    unfold tdot. rewrite (proj1 HA). cbn [sumT].
    destruct Ho as [v Hd Hv|k Hd Hk|Hd]; [|exfalso; rewrite (proj1 Hd), Es in L; discriminate|exfalso; rewrite (proj1 Hd), Es in L; discriminate].
    rewrite (proj2 HA), (proj2 Hd), bsum_conj, <- bsum_mul_r. apply bsum_ext. intros b Hb.
    rewrite bsum_conj, <- bsum_mul_r. apply bsum_ext. intros n Hn. rewrite Hv by assumption.
    rewrite conj_mul, conj_conj. ring.
  - assert (Hterm : forall b, (b < B)%nat -> conj (bsum N (fun n => conj (h b n) * lam b n)) * daf b
       = bsum N (fun n => conj (lam b n) * (daf b * h b n))).
    { intros b Hb. rewrite bsum_conj, <- bsum_mul_r. apply bsum_ext. intros n Hn. rewrite conj_mul, conj_conj. ring. }
    destruct Ho as [v Hd Hv|k Hd Hk|Hd].
    + exfalso. unfold rk in E. rewrite <- L, (proj1 Hd) in E. discriminate.
    + assert (Es : shape a = [1%nat]) by (rewrite <- L; exact (proj1 Hd)).
      unfold engine_reduce. rewrite Es, (proj1 HA). cbn [list_eqb]. destruct (B =? 1) eqn:EB.
      * apply Nat.eqb_eq in EB. subst B. cbn [andb]. rewrite (tdot1 _ _ _ _ _ HA Hd).
        apply bsum_ext. intros b Hb. rewrite <- Hterm by assumption. rewrite Hk by lia.
        now replace b with 0%nat by lia.
      * cbn [andb]. unfold tdot. cbn [shape sumT bsum at_].
        rewrite (proj2 Hd) by lia.
        rewrite (bsum_ext B _ (fun b => bsum N (fun n => conj (h b n) * lam b n))) by (intros; now rewrite (proj2 HA)).
        rewrite bsum_conj.
        transitivity (bsum B (fun b => conj (bsum N (fun n => conj (h b n) * lam b n)) * daf b)).
        2:{ apply bsum_ext. intros b Hb. now rewrite Hterm. }
        replace (0 + bsum B (fun i => conj (bsum N (fun n => conj (h i n) * lam i n))) * k 0%nat)
          with (bsum B (fun i => conj (bsum N (fun n => conj (h i n) * lam i n))) * k 0%nat) by ring.
        rewrite <- bsum_mul_r. apply bsum_ext. intros b Hb. now rewrite Hk.
    + unfold engine_reduce. rewrite <- L, (proj1 HA), (proj1 Hd). cbn [list_eqb]. rewrite Nat.eqb_refl. cbn [andb].
      rewrite (tdot1 _ _ _ _ _ HA Hd). apply bsum_ext. intros b Hb. now rewrite Hterm.
Qed.
Lemma scalar_adjoint op B N (a zi x y t g : ten) (oA oz ox : option ten) Af daf zf dzf xf dxf gf :
  runs_sc R op B -> (1 <= N)%nat ->
  coef B a Af -> is1 zi B zf -> is2 x B N xf -> is2 g B N gf ->
  like a oA -> tans R B oA daf -> tan1 R B oz dzf -> tan2 R B N ox dxf ->
  is2 y B N (fun b n => lin_rec (fun _ => Af b) (zf b) (xf b) (S n)) ->
  is2 t B N (fun b n => stang R (Af b) (daf b) (zf b) (dzf b) (xf b) (dxf b) (S n)) ->
  exists ga gz gx,
    (forall nA nz nx, scalar_backward op (nA, nz, nx) a zi y g = Ok (mask R nA ga, mask R nz gz, mask R nx gx)) /\
    shape (engine_reduce a ga) = shape a /\ shape gz = shape zi /\ shape gx = shape x /\
    tdot g t = odot (Some (engine_reduce a ga)) oA + odot (Some gz) oz + odot (Some gx) ox.
Proof.
  intros Hop HN Ha Hz Hx Hg La Ta Tz Tx Hy Ht.
  destruct (scalar_backward_run R op B N a zi y g Af zf xf gf) as (lam & ga & gz & gx & Eb & Hgx & Hgz & HgA & Hl); auto.
  exists ga, gz, gx. split; [exact Eb|].
  split. { unfold engine_reduce. destruct (list_eqb (shape ga) (shape a)) eqn:E; [now apply list_eqb_eq|reflexivity]. }
  split; [rewrite (proj1 Hz); exact (proj1 Hgz)|]. split; [rewrite (proj1 Hx); exact (proj1 Hgx)|].
  rewrite (odot_coef a ga oA B N Af _ _ _ Ha HgA Ta La), (odot_tan1 gz oz B _ _ Hgz Tz),
    (odot_tan2 gx ox B N _ _ Hgx Tx), (tdot2 _ _ _ _ _ _ Hg Ht).
  rewrite <- !bsum_add. apply bsum_ext. intros b Hb.
  apply scalar_identity; auto.
Qed.

(** ** Derivative and adjoint of an operator together *)
Lemma eps3 (Y : tensor (car D)) B N M f g : is3 Y B N M (fun b n m => (f b n m, g b n m)) -> is3 (eps Y) B N M g.
Proof. intros [H1 H2]. split; [exact H1|]. intros. cbn. now rewrite H2. Qed.
Lemma eps2 (Y : tensor (car D)) B N f g : is2 Y B N (fun b n => (f b n, g b n)) -> is2 (eps Y) B N g.
Proof. intros [H1 H2]. split; [exact H1|]. intros. cbn. now rewrite H2. Qed.
Lemma lti_reverse op opB opD B N M (A zi x g : ten) (oA oz ox : option ten) Af zf xf gf :
  runs_lti R op B M -> runs_lti R opB B M -> runs_lti D opD B M -> (1 <= N)%nat ->
  matc B M A Af -> is2 zi B M zf -> is3 x B N M xf -> is3 g B N M gf ->
  like A oA -> like zi oz -> like x ox ->
  exists y t Y gA gz gx, op A zi x = Ok y /\ opD (lift A oA) (lift zi oz) (lift x ox) = Ok Y /\
    lti_jvp opB A zi y oA oz ox = Ok t /\ dual_of Y y t /\
    (forall nA nz nx, lti_backward opB (nA, nz, nx) A zi y g = Ok (mask R nA gA, mask R nz gz, mask R nx gx)) /\
    shape gA = shape A /\ shape gz = shape zi /\ shape gx = shape x /\
    tdot g (eps Y) = odot (Some gA) oA + odot (Some gz) oz + odot (Some gx) ox /\
    tdot g t = odot (Some gA) oA + odot (Some gz) oz + odot (Some gx) ox.
Proof.
  intros Hop HopB HopD HN Ha Hz Hx Hg La Lz Lx.
  destruct (lift_matc A oA B M Af Ha La) as (daf & Ta & DA).
  destruct (lift_is2 zi oz B M zf Hz Lz) as (dzf & Tz & DZ).
  destruct (lift_is3 x ox B N M xf Hx Lx) as (dxf & Tx & DX).
  destruct (Hop N A zi x _ _ _ Ha Hz Hx) as (y & Ey & Hy).
  destruct (HopD N _ _ _ _ _ _ DA DZ DX) as (Y & EY & HY0).
  pose (F b n m := tang R M (fun _ => Af b) (fun _ => daf b) (zf b) (dzf b) (xf b) (dxf b) (S n) m).
  assert (HY : is3 Y B N M (fun b n m => (state M (fun _ => Af b) (zf b) (xf b) (S n) m, F b n m))).
  { eapply is3_ext; [exact HY0|]. intros b n m Hb Hn Hm.
    apply (state_dual R M (fun _ => Af b) (fun _ => daf b)). exact Hm. }
  destruct (lti_jvp_all opB B N M A zi y oA oz ox Af daf zf dzf xf dxf) as (t & Et & Ht); auto.
  destruct (lti_adjoint opB B N M A zi x y t g oA oz ox Af daf zf dzf xf dxf gf)
    as (gA & gz & gx & Eb & S1 & S2 & S3 & I); auto.
  exists y, t, Y, gA, gz, gx. repeat (split; [assumption|]).
  split; [exact (dual_of3 Y y t B N M _ _ HY Hy Ht)|]. repeat (split; [assumption|]). split; [|exact I].
  rewrite <- I. rewrite (tdot3 _ _ _ _ _ _ _ Hg Ht). apply (tdot3 _ _ _ _ _ _ _ Hg (eps3 _ _ _ _ _ _ HY)).
Qed.
Lemma lpv_reverse op opB opD B N M (A zi x g : ten) (oA oz ox : option ten) Af zf xf gf :
  runs_lpv R op B M -> runs_lpv R opB B M -> runs_lpv D opD B M -> (1 <= N)%nat ->
  matv B N M A Af -> is2 zi B M zf -> is3 x B N M xf -> is3 g B N M gf ->
  like A oA -> like zi oz -> like x ox ->
  exists y t Y gA gz gx, op A zi x = Ok y /\ opD (lift A oA) (lift zi oz) (lift x ox) = Ok Y /\
    lpv_jvp opB A zi y oA oz ox = Ok t /\ dual_of Y y t /\
    (forall nA nz nx, lpv_backward opB (nA, nz, nx) A zi y g = Ok (mask R nA gA, mask R nz gz, mask R nx gx)) /\
    shape gA = shape A /\ shape gz = shape zi /\ shape gx = shape x /\
    tdot g (eps Y) = odot (Some gA) oA + odot (Some gz) oz + odot (Some gx) ox /\
    tdot g t = odot (Some gA) oA + odot (Some gz) oz + odot (Some gx) ox.
Proof.
  intros Hop HopB HopD HN Ha Hz Hx Hg La Lz Lx.
  destruct (lift_matv A oA B N M Af Ha La) as (daf & Ta & DA).
  destruct (lift_is2 zi oz B M zf Hz Lz) as (dzf & Tz & DZ).
  destruct (lift_is3 x ox B N M xf Hx Lx) as (dxf & Tx & DX).
  destruct (Hop N A zi x _ _ _ Ha Hz Hx) as (y & Ey & Hy).
  destruct (HopD N _ _ _ _ _ _ DA DZ DX) as (Y & EY & HY0).
  pose (F b n m := tang R M (Af b) (daf b) (zf b) (dzf b) (xf b) (dxf b) (S n) m).
  assert (HY : is3 Y B N M (fun b n m => (state M (Af b) (zf b) (xf b) (S n) m, F b n m))).
  { eapply is3_ext; [exact HY0|]. intros b n m Hb Hn Hm.
    apply (state_dual R M (Af b) (daf b)). exact Hm. }
  destruct (lpv_jvp_all opB B N M A zi y oA oz ox Af daf zf dzf xf dxf) as (t & Et & Ht); auto.
  destruct (lpv_adjoint opB B N M A zi x y t g oA oz ox Af daf zf dzf xf dxf gf)
    as (gA & gz & gx & Eb & S1 & S2 & S3 & I); auto.
  exists y, t, Y, gA, gz, gx. repeat (split; [assumption|]).
  split; [exact (dual_of3 Y y t B N M _ _ HY Hy Ht)|]. repeat (split; [assumption|]). split; [|exact I].
  rewrite <- I. rewrite (tdot3 _ _ _ _ _ _ _ Hg Ht). apply (tdot3 _ _ _ _ _ _ _ Hg (eps3 _ _ _ _ _ _ HY)).
Qed.
Lemma scalar_reverse op opD B N (a zi x g : ten) (oa oz ox : option ten) af zf xf gf :
  runs_sc R op B -> runs_sc D opD B -> (1 <= N)%nat ->
  coef B a af -> is1 zi B zf -> is2 x B N xf -> is2 g B N gf ->
  like a oa -> like zi oz -> like x ox ->
  exists y t Y ga gz gx, op a zi x = Ok y /\ opD (lift a oa) (lift zi oz) (lift x ox) = Ok Y /\
    scalar_jvp op a zi y oa oz ox = Ok t /\ dual_of Y y t /\
    (forall na nz nx, scalar_backward op (na, nz, nx) a zi y g = Ok (mask R na ga, mask R nz gz, mask R nx gx)) /\
    shape (engine_reduce a ga) = shape a /\ shape gz = shape zi /\ shape gx = shape x /\
    tdot g (eps Y) = odot (Some (engine_reduce a ga)) oa + odot (Some gz) oz + odot (Some gx) ox /\
    tdot g t = odot (Some (engine_reduce a ga)) oa + odot (Some gz) oz + odot (Some gx) ox.
Proof.
  intros Hop HopD HN Ha Hz Hx Hg La Lz Lx.
  destruct (lift_coef a oa B af Ha La) as (daf & Ta & DA).
  destruct (lift_is1 zi oz B zf Hz Lz) as (dzf & Tz & DZ).
  destruct (lift_is2 x ox B N xf Hx Lx) as (dxf & Tx & DX).
  destruct (Hop N a zi x _ _ _ Ha Hz Hx) as (y & Ey & Hy).
  destruct (HopD N _ _ _ _ _ _ DA DZ DX) as (Y & EY & HY0).
  pose (F b n := stang R (af b) (daf b) (zf b) (dzf b) (xf b) (dxf b) (S n)).
  assert (HY : is2 Y B N (fun b n => (lin_rec (fun _ => af b) (zf b) (xf b) (S n), F b n))).
  { eapply is2_ext; [exact HY0|]. intros b n Hb Hn. apply lin_dual. }
  destruct (scalar_jvp_all op B N a zi y oa oz ox af daf zf dzf xf dxf) as (t & Et & Ht); auto.
  destruct (scalar_adjoint op B N a zi x y t g oa oz ox af daf zf dzf xf dxf gf)
    as (ga & gz & gx & Eb & S1 & S2 & S3 & I); auto.
  exists y, t, Y, ga, gz, gx. repeat (split; [assumption|]).
  split; [exact (dual_of2 Y y t B N _ _ HY Hy Ht)|]. repeat (split; [assumption|]). split; [|exact I].
  rewrite <- I. rewrite (tdot2 _ _ _ _ _ _ Hg Ht). apply (tdot2 _ _ _ _ _ _ Hg (eps2 _ _ _ _ _ HY)).
Qed.

(** ** The operators that satisfy the contracts *)
Lemma lti_recur_runs e B : env_ok e -> ext e = true -> (cuda e = true -> ext_cuda e = true) -> (1 <= B)%nat ->
  runs_sc R (op_lti_recur e) B.
Proof. intros He H1 H2 HB N a zi x af zf xf Ha Hz Hx. now apply op_lti_recur_spec. Qed.
Definition lti_op_avail (e : env) (M : nat) : Prop :=
  env_ok e /\ (M = 2%nat -> ext e = true /\ (cuda e = true -> ext_cuda e = true)) /\
  (M <> 2%nat -> helion_backend_indicator e = true \/ (ext e = true /\ cuda e = false)).
Definition lpv_op_avail (e : env) (pr : bool) (M : nat) : Prop :=
  env_ok e /\ (pararnn_applicable e pr M = true \/ lti_op_avail e M).
Lemma LTIMatrixRecurrence_runs e B M : lti_op_avail e M ->
  runs_lti R (LTIMatrixRecurrence_forward e) B M.
Proof.
  intros (He & He2 & He3) N A zi x Af zf xf HA Hz Hx. unfold LTIMatrixRecurrence_forward.
  assert (sizen x 1 = M) as -> by (unfold sizen, rk; now rewrite (proj1 Hx)).
  destruct (Nat.eq_dec M 2) as [E2|E2].
  - subst M. destruct (He2 eq_refl) as [X1 X2]. cbn [Nat.eqb]. now apply op_lti_recur2_spec.
  - assert ((M =? 2)%nat = false) as -> by now apply Nat.eqb_neq.
    destruct (helion_backend_indicator e) eqn:Eh.
    + now apply hl_lti_spec.
    + destruct (He3 E2) as [?|[X1 X2]]; [discriminate|]. now apply op_lti_recurN_spec.
Qed.
Lemma MatrixRecurrence_runs e pr B M : (1 <= B)%nat -> lpv_op_avail e pr M ->
  runs_lpv R (MatrixRecurrence_forward e pr) B M.
Proof.
  intros HB (He & Hp) N A zi x Af zf xf HA Hz Hx.
  pose proof (pararnn_spec R B N M A zi x Af zf xf) as HP. unfold MatrixRecurrence_forward in *.
  assert (sizen x 1 = M) as E by (unfold sizen, rk; now rewrite (proj1 Hx)).
  rewrite E in *. clear E.
  destruct (pararnn_applicable e pr M) eqn:Ep; [apply HP; auto|].
  destruct Hp as [Hp|(_ & He2 & He3)]; [discriminate|].
  destruct (Nat.eq_dec M 2) as [E2|E2].
  - subst M. destruct (He2 eq_refl) as [X1 X2]. cbn [Nat.eqb]. now apply op_recur2_spec.
  - assert ((M =? 2)%nat = false) as -> by now apply Nat.eqb_neq.
    destruct (helion_backend_indicator e) eqn:Eh.
    + now apply hl_lpv_spec.
    + destruct (He3 E2) as [?|[X1 X2]]; [discriminate|]. now apply op_recurN_spec.
Qed.
End S.
