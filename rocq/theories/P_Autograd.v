(** Derivatives of the linear recursion: the tangent recursion, the adjoint recursion,
    and the runs of the jvp and backward bodies. *)
From Coq Require Import List Arith Lia ZArith Bool.
From Verif Require Import Scalar Tensor TensorLemmas TensorOps TensorAlg TensorTac TensorList Spec Shapes Algebra
  M_Mat M_Kernels P_KernelOps P_Helion M_LtiSsm P_LtiSsm M_Ext M_LpvSsm P_LpvSsm M_Autograd SpecAutograd.
Import ListNotations.
Open Scope cr_scope.
Open Scope res_scope.

Section S.
Variable R : cring.
Add Ring Rr : (r_th R).
Notation ten := (tensor (car R)).
Notation D := (dual R).

(** ** The tangent recursion *)
Definition tang M (A dA : nat -> nat -> nat -> R) z dz x dx : nat -> nat -> R :=
  state M A dz (fun n i => dx n i + mvec M (dA n) (state M A z x n) i).

Lemma bsum_dual n (f g : nat -> R) :
  bsum (R := D) n (fun i => (f i, g i)) = (bsum n f, bsum n g).
Proof. induction n as [|n IH]; [reflexivity|]. cbn [bsum]. rewrite IH. reflexivity. Qed.
Lemma state_dual M (A dA : nat -> nat -> nat -> R) z dz x dx n m : (m < M)%nat ->
  state (R := D) M (fun n i j => (A n i j, dA n i j)) (fun i => (z i, dz i)) (fun n i => (x n i, dx n i)) n m
  = (state M A z x n m, tang M A dA z dz x dx n m).
Proof.
  revert m. induction n as [|n IH]; intros m Hm; [reflexivity|].
  unfold tang in *. cbn [state]. unfold mvec at 1.
  rewrite (bsum_ext M _ (fun k => (A n m k * state M A z x n k,
     A n m k * state M A dz (fun n0 i => dx n0 i + mvec M (dA n0) (state M A z x n0) i) n k
     + dA n m k * state M A z x n k) : D)).
  2:{ intros k Hk. rewrite IH by assumption. reflexivity. }
  rewrite bsum_dual. cbn [radd dual fst snd r_ops]. f_equal.
  rewrite bsum_add. unfold mvec. ring.
Qed.

Definition stang (a da : R) z dz (x dx : nat -> R) : nat -> R :=
  lin_rec (fun _ => a) dz (fun n => dx n + da * lin_rec (fun _ => a) z x n).
Lemma lin_dual (a da : R) z dz (x dx : nat -> R) n :
  lin_rec (R := D) (fun _ => (a, da)) (z, dz) (fun n => (x n, dx n)) n
  = (lin_rec (fun _ => a) z x n, stang a da z dz x dx n).
Proof.
  induction n as [|n IH]; [reflexivity|]. unfold stang in *. cbn [lin_rec].
  rewrite IH. cbn [radd rmul dual fst snd r_ops]. f_equal. ring.
Qed.

(** ** The adjoint recursion *)
Section Adj.
Variables (M N : nat) (A dA : nat -> nat -> nat -> R) (z dz : nat -> R) (x dx g lam : nat -> nat -> R).
Definition adj (n m : nat) : R := if n <? N then bsum M (fun j => conj (A n j m) * lam n j) else 0.
Hypothesis Hlam : forall n m, (n < N)%nat -> (m < M)%nat -> lam n m = g n m + adj (S n) m.
Notation dh := (tang M A dA z dz x dx).
Notation h := (state M A z x).
Definition ipm (f k : nat -> R) : R := bsum M (fun m => conj (f m) * k m).

Lemma adj_step n : (n < N)%nat ->
  ipm (g n) (dh (S n))
  = ipm (lam n) (fun m => dx n m + mvec M (dA n) (h n) m) + ipm (adj n) (dh n) - ipm (adj (S n)) (dh (S n)).
Proof.
  intro Hn.
  assert (E : ipm (lam n) (dh (S n))
            = ipm (adj n) (dh n) + ipm (lam n) (fun m => dx n m + mvec M (dA n) (h n) m)).
  { unfold ipm. rewrite (bsum_ext M _ (fun m => bsum M (fun k => conj (lam n m) * (A n m k * dh n k))
        + conj (lam n m) * (dx n m + mvec M (dA n) (h n) m))).
    2:{ intros m Hm. unfold tang at 1. cbn [state]. unfold mvec at 1. rewrite bsum_mul_l. unfold tang. ring. }
    rewrite bsum_add. f_equal. rewrite bsum_swap. apply bsum_ext. intros k Hk.
    unfold adj. apply Nat.ltb_lt in Hn. rewrite Hn, bsum_conj, <- bsum_mul_r. apply bsum_ext. intros m Hm.
    rewrite conj_mul, conj_conj. ring. }
  assert (E2 : ipm (g n) (dh (S n)) = ipm (lam n) (dh (S n)) - ipm (adj (S n)) (dh (S n))).
  { unfold ipm. rewrite <- bsum_sub. apply bsum_ext. intros m Hm. rewrite (Hlam n m Hn Hm), conj_add. ring. }
  rewrite E2, E. ring.
Qed.

Lemma adj_identity :
  bsum N (fun n => ipm (g n) (dh (S n)))
  = bsum N (fun n => ipm (lam n) (fun m => dx n m + mvec M (dA n) (h n) m)) + ipm (adj 0) dz.
Proof.
  assert (H : forall k, (k <= N)%nat ->
    bsum k (fun n => ipm (g n) (dh (S n)))
    = bsum k (fun n => ipm (lam n) (fun m => dx n m + mvec M (dA n) (h n) m))
      + ipm (adj 0) (dh 0) - ipm (adj k) (dh k)).
  { induction k as [|k IH]; intro Hk; [cbn [bsum]; ring|].
    cbn [bsum]. rewrite IH by lia. rewrite adj_step by lia. ring. }
  rewrite H by lia.
  assert (ipm (adj N) (dh N) = 0) as ->.
  { apply bsum_0. intros m Hm. unfold adj. rewrite Nat.ltb_irrefl. rewrite conj_0. ring. }
  change (dh 0) with dz. ring.
Qed.
End Adj.

(** The reversed run gives the adjoint states. *)
Lemma reversed_adj M N (A A' : nat -> nat -> nat -> R) (g g' : nat -> nat -> R) n m :
  (forall k i j, (1 <= k)%nat -> (k < N)%nat -> (i < M)%nat -> (j < M)%nat -> A' k i j = conj (A (N - k)%nat j i)) ->
  (forall k i, (k < N)%nat -> (i < M)%nat -> g' k i = g (N - 1 - k)%nat i) ->
  (n < N)%nat -> (m < M)%nat ->
  let lam n m := state M A' (fun _ => 0) g' (N - n) m in
  lam n m = g n m + adj M N A lam (S n) m.
Proof.
  intros HA Hg Hn Hm lam. unfold lam at 1. replace (N - n)%nat with (S (N - S n)) by lia. cbn [state].
  rewrite Hg by lia. replace (N - 1 - (N - S n))%nat with n by lia.
  unfold adj. destruct (S n <? N) eqn:E.
  - apply Nat.ltb_lt in E. unfold mvec.
    rewrite (bsum_ext M _ (fun j => conj (A (S n) j m) * lam (S n) j)).
    2:{ intros j Hj. rewrite HA by lia. replace (N - (N - S n))%nat with (S n) by lia. reflexivity. }
    ring.
  - apply Nat.ltb_ge in E. replace (N - S n)%nat with 0%nat by lia. cbn [state]. rewrite mvec_0. ring.
Qed.
(** ** Runs of the tensor operations *)
Lemma delayed3 (zi y : ten) B N M zf yf : (1 <= N)%nat -> is2 zi B M zf -> is3 y B N M yf ->
  exists p, delayed zi y = Ok p /\
    is3 p B N M (fun b n m => match n with O => zf b m | S k => yf b k m end).
Proof.
  intros HN Hz Hy. unfold delayed. apply is3_P2 in Hy. nm (slice 1 None (Some (-1)%Z) y).
  rename v into s. assert (Hs : is3 s B (N - 1) M yf).
  { apply is3_P2. fin H; try lia. intros. f_equal. }
  destruct (init_cat3 R zi s B (N - 1) M zf yf Hz Hs) as (o & -> & Ho).
  exists o. split; [reflexivity|]. now replace (N - 1 + 1)%nat with N in Ho by lia.
Qed.
Lemma delayed2 (zi y : ten) B N zf yf : (1 <= N)%nat -> is1 zi B zf -> is2 y B N yf ->
  exists p, delayed zi y = Ok p /\
    is2 p B N (fun b n => match n with O => zf b | S k => yf b k end).
Proof.
  intros HN Hz Hy. unfold delayed. apply is2_P in Hy. nm (slice 1 None (Some (-1)%Z) y).
  rename v into s. assert (Hs : is2 s B (N - 1) yf).
  { apply is2_P. fin H; try lia. intros. f_equal. }
  destruct (init_cat2 R zi s B (N - 1) zf yf Hz Hs) as (o & -> & Ho).
  exists o. split; [reflexivity|]. now replace (N - 1 + 1)%nat with N in Ho by lia.
Qed.
Lemma last3 (t : ten) B N M f : (1 <= N)%nat -> is3 t B N M f ->
  exists l, select 1 (-1) t = Ok l /\ is2 l B M (fun b m => f b (N - 1)%nat m).
Proof.
  intros HN Ht. rewrite (select_ok t 1 (-1) (N - 1)%nat).
  2:{ unfold size. rewrite (proj1 Ht). cbn [nth]. apply pyidx_m1. lia. }
  eexists; split; [reflexivity|]. apply is3_P2 in Ht. apply is2_P1. nm (sel 1 (N - 1) t). exact H.
Qed.
Lemma last2 (t : ten) B N f : (1 <= N)%nat -> is2 t B N f ->
  exists l, select 1 (-1) t = Ok l /\ is1 l B (fun b => f b (N - 1)%nat).
Proof.
  intros HN Ht. rewrite (select_ok t 1 (-1) (N - 1)%nat).
  2:{ unfold size. rewrite (proj1 Ht). cbn [nth]. apply pyidx_m1. lia. }
  eexists; split; [reflexivity|]. apply is2_P in Ht. apply is1_P. nm (sel 1 (N - 1) t). exact H.
Qed.
Lemma flip3 (t : ten) B N M f : is3 t B N M f -> is3 (flip 1 t) B N M (fun b n m => f b (N - 1 - n)%nat m).
Proof. intro H. apply is3_P2 in H. apply is3_P2. nm (flip 1 t). exact H0. Qed.
Lemma flip2 (t : ten) B N f : is2 t B N f -> is2 (flip 1 t) B N (fun b n => f b (N - 1 - n)%nat).
Proof. intro H. apply is2_P in H. apply is2_P. nm (flip 1 t). exact H0. Qed.

Lemma sq_last4 (t : ten) B N M f : is4 t B N M 1 f -> is3 (squeeze (rk t - 1) t) B N M (fun b n m => f b n m 0%nat).
Proof.
  intro H. rewrite squeeze_sel by (rkt; unfold size; now rewrite (proj1 H)). rkt. cbn [Nat.sub].
  apply is4_P3 in H. apply is3_P2. nm (sel 3 0 t). exact H0.
Qed.
Lemma sq_last3 (t : ten) B M f : is3 t B M 1 f -> is2 (squeeze (rk t - 1) t) B M (fun b m => f b m 0%nat).
Proof.
  intro H. rewrite squeeze_sel by (rkt; unfold size; now rewrite (proj1 H)). rkt. cbn [Nat.sub].
  apply is3_P2 in H. apply is2_P1. nm (sel 2 0 t). exact H0.
Qed.

(** Matrix times state: one matrix per batch or shared. *)
Lemma mv_run (A l : ten) B M Af g : matc B M A Af -> is2 l B M g ->
  exists p, matmul A (unsqueeze 2 l) = Ok p /\
    is2 (squeeze (rk p - 1) p) B M (fun b i => bsum M (fun j => Af b i j * g b j)).
Proof.
  intros HA Hl. apply is2_P1 in Hl. nm (unsqueeze 2 l). destruct HA as [f HA HAf|HA].
  - apply is2_P in HA. mm. exists w. split; [reflexivity|].
    apply (P2_cons w) in H0. eapply is2_ext; [apply sq_last3; exact H0|].
    intros b i Hb Hi. cbn beta. apply bsum_ext. intros j Hj. now rewrite HAf.
  - apply is3_P2 in HA. mm. exists w. split; [reflexivity|].
    apply (P2_cons w) in H0. eapply is2_ext; [apply sq_last3; exact H0|]. reflexivity.
Qed.
(** Matrix tangent times delayed states. *)
Lemma jv_lti (A l : ten) B N M Af g : matc B M A Af -> is3 l B N M g ->
  exists p, matmul (if rk A =? 2 then A else unsqueeze (rk A - 2) A) (unsqueeze 3 l) = Ok p /\
    is3 (squeeze (rk p - 1) p) B N M (fun b n i => bsum M (fun j => Af b i j * g b n j)).
Proof.
  intros HA Hl. destruct HA as [f HA HAf|HA]; rkt; cbn [Nat.eqb Nat.sub].
  - apply is2_P in HA. apply is3_PP1 in Hl. nm (unsqueeze 3 l). mm. exists w. split; [reflexivity|].
    apply (pop2 w [B] N) in H0. apply (P3_cons w) in H0. eapply is3_ext; [apply sq_last4; exact H0|].
    intros b n i Hb Hn Hi. cbn. apply bsum_ext. intros j Hj. now rewrite HAf.
  - apply is3_P2 in HA. apply is3_P2 in Hl. nm (unsqueeze 1 A). nm (unsqueeze 3 l). mm.
    exists w. split; [reflexivity|].
    apply (P3_cons w) in H1. eapply is3_ext; [apply sq_last4; exact H1|].
    intros b n i Hb Hn Hi. cbn beta. apply bsum_ext. intros j Hj. cbn [nth].
    f_equal. f_equal. unfold bi. destruct (N =? 1) eqn:E; [|reflexivity].
    apply Nat.eqb_eq in E. lia.
Qed.
Lemma jv_lpv (A l : ten) B N M Af g : matv B N M A Af -> is3 l B N M g ->
  exists p, matmul A (unsqueeze 3 l) = Ok p /\
    is3 (squeeze (rk p - 1) p) B N M (fun b n i => bsum M (fun j => Af b n i j * g b n j)).
Proof.
  assert (Hbi : forall n i, (i < n)%nat -> bi n i = i).
  { intros n i Hi. unfold bi. destruct (n =? 1) eqn:E; [|reflexivity]. apply Nat.eqb_eq in E. lia. }
  intros HA Hl. destruct HA as [f HA HAf|HA].
  - apply is3_P in HA. apply is3_P2 in Hl. nm (unsqueeze 3 l). mm. exists w. split; [reflexivity|].
    apply (P3_cons w) in H0. eapply is3_ext; [apply sq_last4; exact H0|].
    intros b n i Hb Hn Hi. cbn. apply bsum_ext. intros j Hj. now rewrite !Hbi, HAf.
  - apply is4_P3 in HA. apply is3_P2 in Hl. nm (unsqueeze 3 l). mm.
    exists w. split; [reflexivity|].
    apply (P3_cons w) in H0. eapply is3_ext; [apply sq_last4; exact H0|].
    intros b n i Hb Hn Hi. cbn. apply bsum_ext. intros j Hj. now rewrite !Hbi.
Qed.
Lemma add3 (s t : ten) B N M f g : is3 s B N M f -> is3 t B N M g ->
  exists w, tadd s t = Ok w /\ is3 w B N M (fun b n m => f b n m + g b n m).
Proof.
  intros Hs Ht. apply is3_P2 in Hs, Ht. ew2. exists w. split; [reflexivity|].
  apply (P2_cons w) in H. exact H.
Qed.
(** ** What the operators compute *)
Definition runs_lti (op : ten -> ten -> ten -> res ten) (B M : nat) : Prop :=
  forall N (A zi x : ten) Af zf xf, matc B M A Af -> is2 zi B M zf -> is3 x B N M xf ->
  exists y, op A zi x = Ok y /\ is3 y B N M (fun b n m => state M (fun _ => Af b) (zf b) (xf b) (S n) m).
Definition runs_lpv (op : ten -> ten -> ten -> res ten) (B M : nat) : Prop :=
  forall N (A zi x : ten) Af zf xf, matv B N M A Af -> is2 zi B M zf -> is3 x B N M xf ->
  exists y, op A zi x = Ok y /\ is3 y B N M (fun b n m => state M (Af b) (zf b) (xf b) (S n) m).
Definition runs_sc (op : ten -> ten -> ten -> res ten) (B : nat) : Prop :=
  forall N (a zi x : ten) af zf xf, coef B a af -> is1 zi B zf -> is2 x B N xf ->
  exists y, op a zi x = Ok y /\ is2 y B N (fun b n => lin_rec (fun _ => af b) (zf b) (xf b) (S n)).

(** Optional tangents. *)
Definition tan2 (B M : nat) (o : option ten) (f : nat -> nat -> R) : Prop :=
  match o with None => forall b m, (b < B)%nat -> (m < M)%nat -> f b m = 0 | Some d => is2 d B M f end.
Definition tan3 (B N M : nat) (o : option ten) (f : nat -> nat -> nat -> R) : Prop :=
  match o with
  | None => forall b n m, (b < B)%nat -> (n < N)%nat -> (m < M)%nat -> f b n m = 0
  | Some d => is3 d B N M f
  end.
Definition tanc (B M : nat) (o : option ten) (f : nat -> nat -> nat -> R) : Prop :=
  match o with
  | None => forall b i j, (b < B)%nat -> (i < M)%nat -> (j < M)%nat -> f b i j = 0
  | Some d => matc B M d f
  end.
Definition tanv (B N M : nat) (o : option ten) (f : nat -> nat -> nat -> nat -> R) : Prop :=
  match o with
  | None => forall b n i j, (b < B)%nat -> (n < N)%nat -> (i < M)%nat -> (j < M)%nat -> f b n i j = 0
  | Some d => matv B N M d f
  end.
Lemma or_zeros2 (o : option ten) t B M f tf : is2 t B M tf -> tan2 B M o f -> is2 (or_zeros o t) B M f.
Proof.
  intros Ht. destruct o as [d|]; cbn [tan2 or_zeros]; [auto|]. intro H0.
  split; [apply (proj1 Ht)|]. intros b m Hb Hm. cbn. symmetry. now apply H0.
Qed.
Lemma or_zeros3 (o : option ten) t B N M f tf : is3 t B N M tf -> tan3 B N M o f -> is3 (or_zeros o t) B N M f.
Proof.
  intros Ht. destruct o as [d|]; cbn [tan3 or_zeros]; [auto|]. intro H0.
  split; [apply (proj1 Ht)|]. intros b n m Hb Hn Hm. cbn. symmetry. now apply H0.
Qed.
Lemma matc_ext B M (A : ten) f g : matc B M A f ->
  (forall b i j, (b < B)%nat -> (i < M)%nat -> (j < M)%nat -> f b i j = g b i j) -> matc B M A g.
Proof.
  intros [k H Hk|H] E; [eapply matc_s; [exact H|]; intros; now rewrite <- E, Hk|].
  apply matc_b. eapply is3_ext; [exact H|]. exact E.
Qed.

(** The jvp bodies. *)
Definition padf (zf : nat -> nat -> R) (yf : nat -> nat -> nat -> R) (b n m : nat) : R :=
  match n with O => zf b m | S k => yf b k m end.
Lemma lti_jvp_run op B N M (A zi y : ten) (oA oz ox : option ten) Af dAf zf dzf xf dxf :
  runs_lti op B M -> (1 <= N)%nat -> matc B M A Af -> is2 zi B M zf ->
  is3 y B N M (fun b n m => state M (fun _ => Af b) (zf b) (xf b) (S n) m) ->
  tanc B M oA dAf -> tan2 B M oz dzf -> tan3 B N M ox dxf ->
  exists t, lti_jvp op A zi y oA oz ox = Ok t /\
    is3 t B N M (fun b n m =>
      tang M (fun _ => Af b) (fun _ => dAf b) (zf b) (dzf b) (xf b) (dxf b) (S n) m).
Proof.
  intros Hop HN HA Hz Hy HoA Hoz Hox. unfold lti_jvp.
  pose proof (or_zeros2 _ _ _ _ _ _ Hz Hoz) as Hz'. pose proof (or_zeros3 _ _ _ _ _ _ _ Hy Hox) as Hx'.
  set (fz := or_zeros oz zi) in *. set (fx := or_zeros ox y) in *. clearbody fz fx.
  destruct oA as [dA|]; cbn [tanc] in HoA.
  - destruct (delayed3 zi y B N M _ _ HN Hz Hy) as (p & -> & Hp). cbn [bind].
    assert (rk p = 3) as -> by (rkt; reflexivity).
    destruct (jv_lti dA p B N M _ _ HoA Hp) as (v & -> & Hv). cbn [bind].
    destruct (add3 _ _ B N M _ _ Hx' Hv) as (u & -> & Hu). cbn [bind].
    destruct (Hop N A fz u _ _ _ HA Hz' Hu) as (t & -> & Ht). exists t. split; [reflexivity|].
    eapply is3_ext; [exact Ht|]. intros b n m Hb Hn Hm. cbn beta. unfold tang.
    apply state_ext; auto. intros k i Hk Hi. unfold mvec. f_equal. apply bsum_ext. intros j Hj.
    destruct k; reflexivity.
  - cbn [bind]. destruct (Hop N A fz fx _ _ _ HA Hz' Hx') as (t & -> & Ht). exists t. split; [reflexivity|].
    eapply is3_ext; [exact Ht|]. intros b n m Hb Hn Hm. cbn beta. unfold tang.
    apply state_ext; auto. intros k i Hk Hi. unfold mvec. rewrite bsum_0; [ring|].
    intros j Hj. rewrite HoA by lia. ring.
Qed.
Lemma lpv_jvp_run op B N M (A zi y : ten) (oA oz ox : option ten) Af dAf zf dzf xf dxf :
  runs_lpv op B M -> (1 <= N)%nat -> matv B N M A Af -> is2 zi B M zf ->
  is3 y B N M (fun b n m => state M (Af b) (zf b) (xf b) (S n) m) ->
  tanv B N M oA dAf -> tan2 B M oz dzf -> tan3 B N M ox dxf ->
  exists t, lpv_jvp op A zi y oA oz ox = Ok t /\
    is3 t B N M (fun b n m => tang M (Af b) (dAf b) (zf b) (dzf b) (xf b) (dxf b) (S n) m).
Proof.
  intros Hop HN HA Hz Hy HoA Hoz Hox. unfold lpv_jvp.
  pose proof (or_zeros2 _ _ _ _ _ _ Hz Hoz) as Hz'. pose proof (or_zeros3 _ _ _ _ _ _ _ Hy Hox) as Hx'.
  set (fz := or_zeros oz zi) in *. set (fx := or_zeros ox y) in *. clearbody fz fx.
  destruct oA as [dA|]; cbn [tanv] in HoA.
  - destruct (delayed3 zi y B N M _ _ HN Hz Hy) as (p & -> & Hp). cbn [bind].
    assert (rk p = 3) as -> by (rkt; reflexivity).
    destruct (jv_lpv dA p B N M _ _ HoA Hp) as (v & -> & Hv). cbn [bind].
    destruct (add3 _ _ B N M _ _ Hx' Hv) as (u & -> & Hu). cbn [bind].
    destruct (Hop N A fz u _ _ _ HA Hz' Hu) as (t & -> & Ht). exists t. split; [reflexivity|].
    eapply is3_ext; [exact Ht|]. intros b n m Hb Hn Hm. cbn beta. unfold tang.
    apply state_ext; auto. intros k i Hk Hi. unfold mvec. f_equal. apply bsum_ext. intros j Hj.
    destruct k; reflexivity.
  - cbn [bind]. destruct (Hop N A fz fx _ _ _ HA Hz' Hx') as (t & -> & Ht). exists t. split; [reflexivity|].
    eapply is3_ext; [exact Ht|]. intros b n m Hb Hn Hm. cbn beta. unfold tang.
    apply state_ext; auto. intros k i Hk Hi. unfold mvec. rewrite bsum_0; [ring|].
    intros j Hj. rewrite HoA by lia. ring.
Qed.

(** ** The backward bodies *)
Definition mask (b : bool) (t : ten) : option ten := if b then Some t else None.
Lemma when_ok b t : when b (Ok t) = Ok (mask b t).
Proof. now destruct b. Qed.
Lemma when_do b (r : res ten) t : r = Ok t -> when b r = Ok (mask b t).
Proof. intros ->. apply when_ok. Qed.

Lemma conjT_matc B M (A : ten) Af : matc B M A Af -> matc B M (tconj (mT A)) (fun b i j => conj (Af b j i)).
Proof.
  intros [f H Hf|H].
  - eapply matc_s with (g := fun i j => conj (f j i)).
    + apply is2_P in H. nm (mT A). apply is2_P. nm (tconj v). exact H1.
    + intros. cbn beta. now rewrite Hf.
  - apply matc_b. apply is3_P2 in H. nm (mT A). apply is3_P2. nm (tconj v). exact H1.
Qed.
Lemma conjT_matv B N M (A : ten) Af : matv B N M A Af ->
  matv B N M (tconj (mT A)) (fun b n i j => conj (Af b n j i)).
Proof.
  intros [f H Hf|H].
  - eapply matv_s with (g := fun n i j => conj (f n j i)).
    + apply is3_P in H. nm (mT A). apply is3_P. nm (tconj v). exact H1.
    + intros. cbn beta. now rewrite Hf.
  - apply matv_b. apply is4_P3 in H. nm (mT A). apply is4_P3. nm (tconj v). exact H1.
Qed.
Lemma rollflip_matv B N M (A : ten) Af : matv B N M A Af ->
  matv B N M (flip (rk A - 3) (roll_m1 (rk A - 3) A)) (fun b n i j => Af b ((N - 1 - n + 1) mod N)%nat i j).
Proof.
  intros [f H Hf|H]; rkt; cbn [Nat.sub].
  - eapply matv_s with (g := fun n i j => f ((N - 1 - n + 1) mod N)%nat i j).
    + split; [exact (proj1 H)|]. intros n i j Hn Hi Hj. unfold flip, roll_m1. cbn [at_ upd shape].
      unfold size. cbn [shape]. rewrite (proj1 H). cbn [nth]. apply (proj2 H); auto. apply Nat.mod_upper_bound. lia.
    + intros b n i j Hb Hn Hi Hj. cbn beta. apply Hf; auto. apply Nat.mod_upper_bound. lia.
  - apply matv_b. split; [exact (proj1 H)|]. intros b n i j Hb Hn Hi Hj. unfold flip, roll_m1. cbn [at_ upd shape].
    unfold size. cbn [shape]. rewrite (proj1 H). cbn [nth]. apply (proj2 H); auto. apply Nat.mod_upper_bound. lia.
Qed.
Lemma first_matv B N M (A : ten) Af : (1 <= N)%nat -> matv B N M A Af ->
  exists A0, select (rk A - 3) 0 A = Ok A0 /\ matc B M A0 (fun b i j => Af b 0%nat i j).
Proof.
  intros HN [f H Hf|H]; rkt; cbn [Nat.sub].
  - rewrite (select_ok A 0 0 0%nat) by (unfold size; rewrite (proj1 H); cbn [nth]; apply (pyidx_nat N 0); lia).
    eexists; split; [reflexivity|]. eapply matc_s with (g := fun i j => f 0%nat i j).
    + apply is3_P in H. apply is2_P. nm (sel 0 0 A). exact H0.
    + intros. cbn beta. apply Hf; auto.
  - rewrite (select_ok A 1 0 0%nat) by (unfold size; rewrite (proj1 H); cbn [nth]; apply (pyidx_nat N 0); lia).
    eexists; split; [reflexivity|]. apply matc_b. apply is4_P3 in H. apply is3_P2. nm (sel 1 0 A). exact H0.
Qed.

(** The coefficient gradient: an outer product of adjoint and delayed states, summed over
    the dimensions in which the coefficient is shared. *)
Definition outerc (B N M : nat) (A gA : ten) (lam h : nat -> nat -> nat -> R) : Prop :=
  (rk A = 2%nat /\ is2 gA M M (fun i j => bsum B (fun b => bsum N (fun n => lam b n i * conj (h b n j)))))
  \/ (rk A = 3%nat /\ is3 gA B M M (fun b i j => bsum N (fun n => lam b n i * conj (h b n j)))).
Definition outerv (B N M : nat) (A gA : ten) (lam h : nat -> nat -> nat -> R) : Prop :=
  (rk A = 3%nat /\ is3 gA N M M (fun n i j => bsum B (fun b => lam b n i * conj (h b n j))))
  \/ (rk A = 4%nat /\ is4 gA B N M M (fun b n i j => lam b n i * conj (h b n j))).

Lemma lti_backward_run op B N M (A zi y g : ten) Af zf xf gf :
  runs_lti op B M -> (1 <= N)%nat -> matc B M A Af -> is2 zi B M zf ->
  is3 y B N M (fun b n m => state M (fun _ => Af b) (zf b) (xf b) (S n) m) -> is3 g B N M gf ->
  exists lam gA gz gx,
    (forall nA nz nx, lti_backward op (nA, nz, nx) A zi y g = Ok (mask nA gA, mask nz gz, mask nx gx)) /\
    is3 gx B N M lam /\
    is2 gz B M (fun b m => adj M N (fun _ => Af b) (lam b) 0 m) /\
    outerc B N M A gA lam (fun b n m => state M (fun _ => Af b) (zf b) (xf b) n m) /\
    (forall b n m, (b < B)%nat -> (n < N)%nat -> (m < M)%nat ->
       lam b n m = gf b n m + adj M N (fun _ => Af b) (lam b) (S n) m).
Proof.
  intros Hop HN HA Hz Hy Hg.
  pose proof (conjT_matc _ _ _ _ HA) as HT. set (AT := tconj (mT A)) in *.
  assert (Hz0 : is2 (zeros_like zi) B M (fun _ _ => 0)).
  { split; [exact (proj1 Hz)|]. reflexivity. }
  destruct (Hop N AT (zeros_like zi) (flip 1 g) _ _ _ HT Hz0 (flip3 g B N M gf Hg)) as (fl & Efl & Hfl).
  set (lam := fun b n m => state M (fun _ i j => conj (Af b j i)) (fun _ => 0) (fun k i => gf b (N - 1 - k)%nat i) (N - n) m).
  assert (Hgx : is3 (flip 1 fl) B N M lam).
  { eapply is3_ext; [apply flip3; exact Hfl|]. intros b n m Hb Hn Hm. cbn beta. unfold lam.
    now replace (S (N - 1 - n)) with (N - n)%nat by lia. }
  destruct (last3 fl B N M _ HN Hfl) as (l & El & Hl).
  destruct (mv_run AT l B M _ _ HT Hl) as (p & Ep & Hp).
  destruct (delayed3 zi y B N M _ _ HN Hz Hy) as (pd & Epd & Hpd).
  assert (HgA : exists gA, (if rk A =? 2
     then matmul (mT (flatten 0 1 (flip 1 fl))) (flatten 0 1 (tconj pd))
     else matmul (mT (flip 1 fl)) (tconj pd)) = Ok gA /\
     outerc B N M A gA lam (fun b n m => state M (fun _ => Af b) (zf b) (xf b) n m)).
  { assert (Hpd' : is3 pd B N M (fun b n m => state M (fun _ => Af b) (zf b) (xf b) n m)).
    { eapply is3_ext; [exact Hpd|]. intros b n m Hb Hn Hm. cbn beta. destruct n; reflexivity. }
    set (fx := flip 1 fl) in *. clearbody fx. clear - HA Hgx Hpd'.
    destruct HA as [f HA HAf|HA]; rkt; cbn [Nat.eqb].
    - apply is3_P in Hgx. apply is3_P in Hpd'. nm (flatten 0 1 fx). nm (tconj pd). nm (flatten 0 1 v0). nm (mT v).
      mm. exists w. split; [reflexivity|]. left. split; [rkt; reflexivity|].
      apply P2_nil in H3. eapply is2_ext; [exact H3|]. intros i j Hi Hj. cbn beta.
      rewrite <- (bsum_flat_dm B N (fun b n => lam b n i * conj (state M (fun _ => Af b) (zf b) (xf b) n j))).
      reflexivity.
    - apply is3_P2 in Hgx. apply is3_P2 in Hpd'. nm (mT fx). nm (tconj pd). mm.
      exists w. split; [reflexivity|]. right. split; [rkt; reflexivity|].
      apply (P2_cons w) in H1. exact H1. }
  destruct HgA as (gA & EgA & HgA).
  exists lam, gA, (squeeze (rk p - 1) p), (flip 1 fl). repeat split.
  - intros nA nz nx. unfold lti_backward. fold AT. rewrite Efl. cbn [bind].
    rewrite (when_do nz _ (squeeze (rk p - 1) p)) by (rewrite El; cbn [bind]; rewrite Ep; reflexivity). cbn [bind].
    rewrite when_ok. cbn [bind].
    rewrite (when_do nA _ gA) by (rewrite Epd; cbn [bind]; exact EgA). reflexivity.
  - exact (proj1 Hgx).
  - exact (proj2 Hgx).
  - exact (proj1 Hp).
  - intros b m Hb Hm. rewrite (proj2 Hp) by assumption. unfold adj.
    replace (0 <? N) with true by (symmetry; apply Nat.ltb_lt; lia).
    apply bsum_ext. intros j Hj. unfold lam. rewrite Nat.sub_0_r. now replace (S (N - 1)) with N by lia.
  - exact HgA.
  - intros b n m Hb Hn Hm.
    apply (reversed_adj M N (fun _ => Af b) (fun _ i j => conj (Af b j i)) (gf b)
             (fun k i => gf b (N - 1 - k)%nat i) n m); auto.
Qed.

Lemma lpv_backward_run op B N M (A zi y g : ten) Af zf xf gf :
  runs_lpv op B M -> (1 <= N)%nat -> matv B N M A Af -> is2 zi B M zf ->
  is3 y B N M (fun b n m => state M (Af b) (zf b) (xf b) (S n) m) -> is3 g B N M gf ->
  exists lam gA gz gx,
    (forall nA nz nx, lpv_backward op (nA, nz, nx) A zi y g = Ok (mask nA gA, mask nz gz, mask nx gx)) /\
    is3 gx B N M lam /\
    is2 gz B M (fun b m => adj M N (Af b) (lam b) 0 m) /\
    outerv B N M A gA lam (fun b n m => state M (Af b) (zf b) (xf b) n m) /\
    (forall b n m, (b < B)%nat -> (n < N)%nat -> (m < M)%nat ->
       lam b n m = gf b n m + adj M N (Af b) (lam b) (S n) m).
Proof.
  intros Hop HN HA Hz Hy Hg.
  pose proof (conjT_matv _ _ _ _ _ HA) as HT. set (AT := tconj (mT A)) in *.
  pose proof (rollflip_matv _ _ _ _ _ HT) as HR. set (AR := flip _ (roll_m1 _ AT)) in *.
  assert (Hz0 : is2 (zeros_like zi) B M (fun _ _ => 0)).
  { split; [exact (proj1 Hz)|]. reflexivity. }
  destruct (Hop N AR (zeros_like zi) (flip 1 g) _ _ _ HR Hz0 (flip3 g B N M gf Hg)) as (fl & Efl & Hfl).
  set (lam := fun b n m => state M (fun k i j => conj (Af b ((N - 1 - k + 1) mod N)%nat j i)) (fun _ => 0)
                             (fun k i => gf b (N - 1 - k)%nat i) (N - n) m).
  assert (Hgx : is3 (flip 1 fl) B N M lam).
  { eapply is3_ext; [apply flip3; exact Hfl|]. intros b n m Hb Hn Hm. cbn beta. unfold lam.
    now replace (S (N - 1 - n)) with (N - n)%nat by lia. }
  destruct (last3 fl B N M _ HN Hfl) as (l & El & Hl).
  destruct (first_matv _ _ _ _ _ HN HT) as (A0 & EA0 & HA0).
  destruct (mv_run A0 l B M _ _ HA0 Hl) as (p & Ep & Hp).
  destruct (delayed3 zi y B N M _ _ HN Hz Hy) as (pd & Epd & Hpd).
  assert (HgA : exists gA, (if rk A =? 3
     then matmul (permute120 (flip 1 fl)) (transpose 0 1 (tconj pd))
     else tmul (unsqueeze (rk (tconj pd) - 1) (tconj pd)) (unsqueeze (rk (flip 1 fl)) (flip 1 fl))) = Ok gA /\
     outerv B N M A gA lam (fun b n m => state M (Af b) (zf b) (xf b) n m)).
  { assert (Hpd' : is3 pd B N M (fun b n m => state M (Af b) (zf b) (xf b) n m)).
    { eapply is3_ext; [exact Hpd|]. intros b n m Hb Hn Hm. cbn beta. destruct n; reflexivity. }
    set (fx := flip 1 fl) in *. clearbody fx lam. clear - HA Hgx Hpd'.
    assert (Hc : is3 (tconj pd) B N M (fun b n m => conj (state M (Af b) (zf b) (xf b) n m))).
    { apply is3_P in Hpd'. apply is3_P. nm (tconj pd). exact H. }
    set (c := tconj pd) in *. clearbody c. clear Hpd'.
    destruct HA as [f HA HAf|HA]; rkt; cbn [Nat.eqb Nat.sub].
    - apply is3_P in Hgx. apply is3_P in Hc. unfold permute120. nm (transpose 0 1 fx). nm (transpose 1 2 v).
      nm (transpose 0 1 c). mm. exists w. split; [reflexivity|]. left. split; [rkt; reflexivity|].
      apply P3_nil in H2. eapply is3_ext; [exact H2|]. intros n i j Hn Hi Hj. cbn beta.
      apply bsum_ext. intros b Hb. unfold bi. destruct (N =? 1) eqn:E; [|reflexivity].
      apply Nat.eqb_eq in E. subst N. now replace n with 0%nat by lia.
    - apply is3_PP1 in Hgx. apply is3_PP1 in Hc. nm (unsqueeze 2 c). nm (unsqueeze 3 fx).
      ew2. exists w. split; [reflexivity|]. right. split; [rkt; reflexivity|].
      apply (pop2 w [B] N) in H1. apply (P3_cons w) in H1. eapply is4_ext; [exact H1|].
      intros b n i j Hb Hn Hi Hj. cbn.
      replace (bi M i) with i. replace (bi M j) with j. ring.
      all: unfold bi; destruct (M =? 1) eqn:E; [apply Nat.eqb_eq in E; lia|reflexivity]. }
  destruct HgA as (gA & EgA & HgA).
  exists lam, gA, (squeeze (rk p - 1) p), (flip 1 fl). repeat split.
  - intros nA nz nx. unfold lpv_backward. fold AT. fold AR. rewrite Efl. cbn [bind].
    rewrite (when_do nz _ (squeeze (rk p - 1) p))
      by (rewrite El; cbn [bind]; rewrite EA0; cbn [bind]; rewrite Ep; reflexivity). cbn [bind].
    rewrite when_ok. cbn [bind].
    rewrite (when_do nA _ gA) by (rewrite Epd; cbn [bind]; exact EgA). reflexivity.
  - exact (proj1 Hgx).
  - exact (proj2 Hgx).
  - exact (proj1 Hp).
  - intros b m Hb Hm. rewrite (proj2 Hp) by assumption. unfold adj.
    replace (0 <? N) with true by (symmetry; apply Nat.ltb_lt; lia).
    apply bsum_ext. intros j Hj. unfold lam. rewrite Nat.sub_0_r. now replace (S (N - 1)) with N by lia.
  - exact HgA.
  - intros b n m Hb Hn Hm.
    apply (reversed_adj M N (Af b) (fun k i j => conj (Af b ((N - 1 - k + 1) mod N)%nat j i)) (gf b)
             (fun k i => gf b (N - 1 - k)%nat i) n m); auto.
    intros k i j Hk1 HkN Hi Hj. do 2 f_equal. rewrite Nat.mod_small by lia. lia.
Qed.
(** ** Scalar recursion *)
Definition tan1 (B : nat) (o : option ten) (f : nat -> R) : Prop :=
  match o with None => forall b, (b < B)%nat -> f b = 0 | Some d => is1 d B f end.
Definition tans (B : nat) (o : option ten) (f : nat -> R) : Prop :=
  match o with None => forall b, (b < B)%nat -> f b = 0 | Some d => coef B d f end.
Lemma or_zeros1 (o : option ten) t B f tf : is1 t B tf -> tan1 B o f -> is1 (or_zeros o t) B f.
Proof.
  intros Ht. destruct o as [d|]; cbn [tan1 or_zeros]; [auto|]. intro H0.
  split; [apply (proj1 Ht)|]. intros b Hb. cbn. symmetry. now apply H0.
Qed.
Lemma bi_id n i : (i < n)%nat -> bi n i = i.
Proof. intro Hi. unfold bi. destruct (n =? 1) eqn:E; [apply Nat.eqb_eq in E; lia|reflexivity]. Qed.
Lemma view_col_coef B (d : ten) f : coef B d f ->
  exists k g, (k = 1 \/ k = B)%nat /\ is2 (view_col d) k 1 (fun i _ => g i) /\
    forall b, (b < B)%nat -> g (bi k b) = f b.
Proof.
  intros [v H Hf|g H Hf|H].
  - exists 1%nat, (fun _ => v). split; [auto|]. split; [|intros; now rewrite Hf].
    split; [unfold view_col, numel; cbn [shape]; now rewrite (proj1 H)|].
    intros i j Hi Hj. cbn [view_col at_ nth]. rewrite (proj1 H). cbn [unravel]. apply (proj2 H).
  - exists 1%nat, g. split; [auto|]. split; [|intros; now rewrite Hf].
    split; [unfold view_col, numel; cbn [shape]; now rewrite (proj1 H)|].
    intros i j Hi Hj. cbn [view_col at_ nth]. rewrite (proj1 H). cbn [unravel prod].
    now apply (proj2 H).
  - exists B, f. split; [auto|]. split; [|intros; now rewrite bi_id].
    split; [unfold view_col, numel; cbn [shape]; now rewrite (proj1 H)|].
    intros i j Hi Hj. cbn [view_col at_ nth]. rewrite (proj1 H). cbn [unravel prod].
    now apply (proj2 H).
Qed.
Lemma flatten_all2 (t : ten) B N f : is2 t B N f ->
  is1 (flatten_all t) (B * N) (fun k => f (k / N)%nat (k mod N)%nat).
Proof.
  intro H. split; [unfold flatten_all, numel; cbn [shape]; now rewrite (proj1 H)|].
  intros k Hk. cbn [flatten_all at_ nth]. rewrite (proj1 H). cbn [unravel prod].
  assert (N <> 0)%nat by nia.
  apply (proj2 H).
  - apply Nat.div_lt_upper_bound; nia.
  - now apply Nat.mod_upper_bound.
Qed.
Lemma scale_rows (p d : ten) B N f da : is2 p B N f -> coef B d da ->
  exists w, tmul p (view_col d) = Ok w /\ is2 w B N (fun b n => f b n * da b).
Proof.
  intros Hp Hd. destruct (view_col_coef B d da Hd) as (k & g & Hk & Hv & Hg).
  set (v := view_col d) in *. clearbody v. apply is2_P in Hp, Hv. unfold tmul.
  destruct (P2_ew rmul p v [] B N k 1 B N _ _ Hp Hv) as (w & Ew & Hw).
  - destruct Hk; subst; bdt.
  - bdt.
  - exists w. split; [exact Ew|]. apply P2_nil in Hw. eapply is2_ext; [exact Hw|].
    intros b n Hb Hn. cbn beta. rewrite Hg by assumption. now rewrite !bi_id by assumption.
Qed.
Lemma add2 (s t : ten) B N f g : is2 s B N f -> is2 t B N g ->
  exists w, tadd s t = Ok w /\ is2 w B N (fun b n => f b n + g b n).
Proof.
  intros Hs Ht. apply is2_P in Hs, Ht. ew2. exists w. split; [reflexivity|].
  apply P2_nil in H. exact H.
Qed.
Lemma or_zeros2' (o : option ten) t B N f tf : is2 t B N tf -> tan2 B N o f -> is2 (or_zeros o t) B N f.
Proof. apply or_zeros2. Qed.

Lemma scalar_jvp_run op B N (a zi y : ten) (oa oz ox : option ten) af daf zf dzf xf dxf :
  runs_sc op B -> (1 <= N)%nat -> coef B a af -> is1 zi B zf ->
  is2 y B N (fun b n => lin_rec (fun _ => af b) (zf b) (xf b) (S n)) ->
  tans B oa daf -> tan1 B oz dzf -> tan2 B N ox dxf ->
  exists t, scalar_jvp op a zi y oa oz ox = Ok t /\
    is2 t B N (fun b n => stang (af b) (daf b) (zf b) (dzf b) (xf b) (dxf b) (S n)).
Proof.
  intros Hop HN Ha Hz Hy Hoa Hoz Hox. unfold scalar_jvp.
  pose proof (or_zeros1 _ _ _ _ _ Hz Hoz) as Hz'. pose proof (or_zeros2 _ _ _ _ _ _ Hy Hox) as Hx'.
  set (fz := or_zeros oz zi) in *. set (fx := or_zeros ox y) in *. clearbody fz fx.
  destruct oa as [da|]; cbn [tans] in Hoa.
  - destruct (delayed2 zi y B N _ _ HN Hz Hy) as (p & -> & Hp). cbn [bind].
    destruct (scale_rows p da B N _ _ Hp Hoa) as (v & -> & Hv). cbn [bind].
    destruct (add2 _ _ B N _ _ Hx' Hv) as (u & -> & Hu). cbn [bind].
    destruct (Hop N a fz u _ _ _ Ha Hz' Hu) as (t & -> & Ht). exists t. split; [reflexivity|].
    eapply is2_ext; [exact Ht|]. intros b n Hb Hn. cbn beta. unfold stang.
    apply lin_rec_ext; auto. intros k Hk. destruct k; cbn [lin_rec]; ring.
  - cbn [bind]. destruct (Hop N a fz fx _ _ _ Ha Hz' Hx') as (t & -> & Ht). exists t. split; [reflexivity|].
    eapply is2_ext; [exact Ht|]. intros b n Hb Hn. cbn beta. unfold stang.
    apply lin_rec_ext; auto. intros k Hk. rewrite Hoa by assumption. ring.
Qed.

Definition outers (B N : nat) (a ga : ten) (lam h : nat -> nat -> R) : Prop :=
  (rk a = 0%nat /\ is0 ga (bsum B (fun b => bsum N (fun n => conj (h b n) * lam b n))))
  \/ (rk a = 1%nat /\ is1 ga B (fun b => bsum N (fun n => conj (h b n) * lam b n))).
Lemma conj_coef B (a : ten) af : coef B a af -> coef B (tconj a) (fun b => conj (af b)).
Proof.
  intros [v H Hf|g H Hf|H].
  - eapply coef_0 with (v := conj v); [|intros; cbn beta; now rewrite Hf].
    split; [exact (proj1 H)|]. cbn. now rewrite (proj2 H).
  - eapply coef_1 with (g := fun i => conj (g i)); [|intros; cbn beta; now rewrite Hf].
    split; [exact (proj1 H)|]. intros. cbn. now rewrite (proj2 H).
  - apply coef_B. split; [exact (proj1 H)|]. intros. cbn. now rewrite (proj2 H).
Qed.
Lemma mul_coef (l a : ten) B f af : is1 l B f -> coef B a af ->
  exists w, tmul l a = Ok w /\ is1 w B (fun b => f b * af b).
Proof.
  intros Hl [v H Hf|g H Hf|H]; apply is1_P in Hl; unfold tmul.
  - ew2. exists w. split; [reflexivity|]. apply P1_nil in H0. eapply is1_ext; [exact H0|].
    intros b Hb. cbn beta. now rewrite Hf.
  - apply is1_P in H. destruct (P1_ew rmul l a [] B 1 B _ _ Hl H ltac:(bdt)) as (w & Ew & Hw).
    exists w. split; [exact Ew|]. apply P1_nil in Hw. eapply is1_ext; [exact Hw|].
    intros b Hb. cbn beta. rewrite bi_id by assumption. now rewrite Hf.
  - apply is1_P in H. ew2. exists w. split; [reflexivity|]. apply P1_nil in H0. exact H0.
Qed.

Lemma scalar_backward_run op B N (a zi y g : ten) af zf xf gf :
  runs_sc op B -> (1 <= N)%nat -> coef B a af -> is1 zi B zf ->
  is2 y B N (fun b n => lin_rec (fun _ => af b) (zf b) (xf b) (S n)) -> is2 g B N gf ->
  exists lam ga gz gx,
    (forall na nz nx, scalar_backward op (na, nz, nx) a zi y g = Ok (mask na ga, mask nz gz, mask nx gx)) /\
    is2 gx B N lam /\
    is1 gz B (fun b => lam b 0%nat * conj (af b)) /\
    outers B N a ga lam (fun b n => lin_rec (fun _ => af b) (zf b) (xf b) n) /\
    (forall b n, (b < B)%nat -> (n < N)%nat ->
       lam b n = gf b n + (if S n <? N then conj (af b) * lam b (S n) else 0)).
Proof.
  intros Hop HN Ha Hz Hy Hg.
  pose proof (conj_coef _ _ _ Ha) as Hc.
  destruct (last2 g B N _ HN Hg) as (bp & Ebp & Hbp).
  assert (Hs : is2 (flip 1 (slice 1 None (Some (-1)%Z) g)) B (N - 1) (fun b k => gf b (N - 1 - 1 - k)%nat)).
  { apply flip2. apply is2_P in Hg. nm (slice 1 None (Some (-1)%Z) g). apply is2_P. fin H; try lia.
    intros. f_equal. }
  set (gs := flip 1 (slice 1 None (Some (-1)%Z) g)) in *.
  destruct (Hop (N - 1)%nat (tconj a) bp gs _ _ _ Hc Hbp Hs) as (tl & Etl & Htl).
  destruct (init_cat2 R bp tl B (N - 1) _ _ Hbp Htl) as (fl & Efl & Hfl).
  replace (N - 1 + 1)%nat with N in Hfl by lia.
  set (mu := fun b k => lin_rec (fun _ => conj (af b)) (gf b (N - 1)%nat) (fun k => gf b (N - 1 - 1 - k)%nat) k).
  assert (Hmu : is2 fl B N mu).
  { eapply is2_ext; [exact Hfl|]. intros b n Hb Hn. destruct n; reflexivity. }
  set (lam := fun b n => mu b (N - 1 - n)%nat).
  assert (Hgx : is2 (flip 1 fl) B N lam) by (apply flip2; exact Hmu).
  destruct (last2 fl B N _ HN Hmu) as (l & El & Hl).
  destruct (mul_coef l (tconj a) B _ _ Hl Hc) as (gz & Egz & Hgz).
  destruct (delayed2 zi y B N _ _ HN Hz Hy) as (pd & Epd & Hpd).
  assert (Hpd' : is2 pd B N (fun b n => lin_rec (fun _ => af b) (zf b) (xf b) n)).
  { eapply is2_ext; [exact Hpd|]. intros b n Hb Hn. cbn beta. destruct n; reflexivity. }
  assert (Hga : exists ga, (if rk a =? 1 then vecdot pd (flip 1 fl)
     else matmul (tconj (flatten_all pd)) (flatten_all (flip 1 fl))) = Ok ga /\
     outers B N a ga lam (fun b n => lin_rec (fun _ => af b) (zf b) (xf b) n)).
  { set (fx := flip 1 fl) in *. clearbody fx. clear - Ha Hgx Hpd'.
    assert (H1 : forall ga, is1 ga B (fun b => bsum N (fun n => conj (lin_rec (fun _ => af b) (zf b) (xf b) n) * lam b n)) ->
       rk a = 1%nat -> outers B N a ga lam (fun b n => lin_rec (fun _ => af b) (zf b) (xf b) n)).
    { intros ga H E. right. auto. }
    assert (Hv : exists ga, vecdot pd fx = Ok ga /\
       is1 ga B (fun b => bsum N (fun n => conj (lin_rec (fun _ => af b) (zf b) (xf b) n) * lam b n))).
    { apply is2_P in Hgx, Hpd'. destruct (P2_vecdot _ pd fx [] B B B N _ _ Hpd' Hgx ltac:(bdt)) as (w & Ew & Hw).
      exists w. split; [exact Ew|]. apply P1_nil in Hw. eapply is1_ext; [exact Hw|].
      intros b Hb. cbn beta. now rewrite bi_id. }
    destruct Ha as [v H Hf|k H Hf|H]; rkt; cbn [Nat.eqb].
    - clear H1 Hv. apply flatten_all2 in Hgx, Hpd'.
      set (p1 := flatten_all pd) in *. set (f1 := flatten_all fx) in *. clearbody p1 f1.
      assert (Hp1 : is1 (tconj p1) (B * N) (fun k => conj (lin_rec (fun _ => af (k / N)%nat) (zf (k / N)%nat) (xf (k / N)%nat) (k mod N)))).
      { split; [exact (proj1 Hpd')|]. intros i Hi. cbn. now rewrite (proj2 Hpd'). }
      set (c1 := tconj p1) in *. clearbody c1.
      unfold matmul. rkt. unfold size. rewrite (proj1 Hp1), (proj1 Hgx). cbn [nth]. rewrite Nat.eqb_refl.
      eexists; split; [reflexivity|]. left. split; [rkt; reflexivity|]. split; [reflexivity|]. cbn [at_].
      rewrite <- (bsum_flat_dm B N (fun b n => conj (lin_rec (fun _ => af b) (zf b) (xf b) n) * lam b n)).
      apply bsum_ext. intros i Hi. now rewrite (proj2 Hp1), (proj2 Hgx) by assumption.
    - destruct Hv as (ga & E & Hv). exists ga. split; [exact E|]. apply H1; auto. now rkt.
    - destruct Hv as (ga & E & Hv). exists ga. split; [exact E|]. apply H1; auto. now rkt. }
  destruct Hga as (ga & Ega & Hga).
  exists lam, ga, gz, (flip 1 fl). repeat split.
  - intros na nz nx. unfold scalar_backward. rewrite Ebp. cbn [bind]. fold gs. rewrite Etl. cbn [bind].
    rewrite Efl. cbn [bind].
    rewrite (when_do nz _ gz) by (rewrite El; cbn [bind]; exact Egz). cbn [bind].
    rewrite when_ok. cbn [bind].
    rewrite (when_do na _ ga) by (rewrite Epd; cbn [bind]; exact Ega). reflexivity.
  - exact (proj1 Hgx).
  - exact (proj2 Hgx).
  - exact (proj1 Hgz).
  - intros b Hb. rewrite (proj2 Hgz) by assumption. unfold lam. now rewrite Nat.sub_0_r.
  - exact Hga.
  - intros b n Hb Hn. unfold lam, mu. destruct (S n <? N) eqn:E.
    + apply Nat.ltb_lt in E. replace (N - 1 - n)%nat with (S (N - 1 - S n)) by lia. cbn [lin_rec].
      replace (N - 1 - 1 - (N - 1 - S n))%nat with n by lia. ring.
    + apply Nat.ltb_ge in E. replace (N - 1 - n)%nat with 0%nat by lia. cbn [lin_rec].
      replace (N - 1)%nat with n by lia. ring.
Qed.
End S.
