(** Batch sizes of coefficients and signals that differ (lti and lpv lfilter). *)
From Coq Require Import List Arith Lia ZArith Bool Ring.
From Verif Require Import Scalar Tensor TensorLemmas TensorOps TensorAlg TensorTac TensorList
  Spec Shapes SpecFilter SpecLpv Algebra M_Mat P_Mat M_Kernels M_LtiSsm P_LtiSsm P_Filter M_LtiFilter P_LtiFilter
  M_Ext M_LpvSsm P_LpvSsm M_LpvFilter.
Import ListNotations.

Section S.
Variable R : cring.
Add Ring Rr : (r_th R).
Notation ten := (tensor (car R)).
Open Scope cr_scope.

Lemma pad_last pre n k (t : ten) f : isP1 t pre n f -> isP1 (pad (rk t - 1) 0 k 0 t) pre (n + k) (fun q => padz n (f q)).
Proof.
  intro Ht. pose proof (P1_rk _ _ _ _ Ht) as Hr. nm (pad (rk t - 1) 0 k 0 t). rewrite Nat.add_0_l in H.
  fin H; [reflexivity|]. intros q i Hq Hi. cbn [Nat.leb andb]. unfold padz. rewrite Nat.sub_0_r. reflexivity.
Qed.
Lemma pad_a2 P n nb (a : ten) af : is2 a P n af ->
  exists a' m f, (if (n + 1 <? nb)%nat then pad (rk a - 1) 0 (nb - n - 1) 0 a else a) = a' /\ isP1 a' [P] m f.
Proof.
  intro H. apply is2_P1 in H. destruct (n + 1 <? nb)%nat; do 3 eexists; (split; [reflexivity|]); [apply pad_last|]; exact H.
Qed.
Lemma fir_rows (b x u : ten) zo : fir b x None true = Ok (u, zo) -> size u 0 = size x 0 /\ rk u = 2%nat.
Proof.
  unfold fir. destruct (rk b =? 2)%nat; [|discriminate]. destruct (rk x =? 2)%nat eqn:Ex; [|discriminate]. b2p.
  destruct (size b 0 =? size x 0)%nat; [|discriminate]. cbv zeta. unfold conv_transpose1d_groups.
  match goal with |- context [if ?g then _ else _] => destruct g; [|discriminate] end. cbn [bind]. intro H. inversion H; subst. clear H.
  split; reflexivity.
Qed.
(** ** Batched denominators *)
Lemma ss_batch_err e (A x : ten) Bt C D zi uf oi pre : pre <> size x 0 -> rk x = 2%nat -> rk A = 3%nat -> size A 0 = pre ->
  exists er, state_space e A x Bt C D zi uf oi = Err er.
Proof.
  intros Hp Hx HA HP. unfold state_space. rewrite Hx, HA. cbn [Nat.eqb orb negb]. destruct (sizen A 2 =? sizen A 1)%nat; [|eauto].
  rewrite HP. bfalse (size x 0 =? pre)%nat. eauto.
Qed.
Lemma ssr_batch_err e (A zi x : ten) uf oi pre : pre <> size x 0 -> rk x = 2%nat -> rk A = 3%nat -> size A 0 = pre ->
  exists er, state_space_recursion e A zi x uf oi = Err er.
Proof.
  intros Hp Hx HA HP. unfold state_space_recursion. cbn [state_space_recursion_fuel]. rewrite Hx, HA. cbn [Nat.eqb orb negb]. destruct (sizen A 2 =? sizen A 1)%nat; [|eauto].
  rewrite HP. bfalse (size x 0 =? pre)%nat. eauto.
Qed.
Lemma ssm_batched_a e fm uf P na (b a x : ten) af zi :
  is2 a P na af -> rk x = 2%nat -> P <> size x 0 -> exists er, ssm_lfilter e fm uf b a x zi = Err er.
Proof.
  intros Ha Hx HP. unfold ssm_lfilter. assert (sizen a 1 = na) as -> by (unfold sizen, size, rk; now rewrite (proj1 Ha)). cbv zeta.
  destruct (pad_a2 P na (sizen b 1) a af Ha) as (a' & m & f & -> & Ha').
  destruct (companion_view R a' [P] m f Ha') as (A & -> & HA). cbn [bind].
  set (b' := if (sizen b 1 <? na + 1)%nat then _ else b). clearbody b'.
  assert (HA3 : rk A = 3%nat) by (unfold rk; now rewrite (proj1 HA)).
  assert (HA0 : size A 0 = P) by (unfold size; now rewrite (proj1 HA)).
  assert (HH3 : rk (tconj (mT A)) = 3%nat) by (unfold tconj, tmap, mT, transpose, rk at 1; cbn [shape]; rewrite HA3, (proj1 HA); reflexivity).
  assert (HH0 : size (tconj (mT A)) 0 = P) by (unfold tconj, tmap, mT, transpose, size; cbn [shape]; rewrite HA3, (proj1 HA); reflexivity).
  destruct fm.
  - destruct (tmul _ a') as [t|]; cbn [bind]; [|eauto]. destruct (tsub _ t) as [c|]; cbn [bind]; [|eauto].
    destruct (select _ 0 b') as [d|]; cbn [bind]; [|eauto]. now apply (ss_batch_err e A x _ _ _ _ _ _ P).
  - destruct (tmul _ a') as [t|]; cbn [bind]; [|eauto]. destruct (tsub _ t) as [c|]; cbn [bind]; [|eauto].
    destruct (select _ 0 b') as [d|]; cbn [bind]; [|eauto]. now apply (ss_batch_err e _ x _ _ _ _ _ _ P).
  - destruct (expand _ b') as [bb|]; cbn [bind]; [|eauto]. destruct (fir bb x None true) as [(u, zo)|] eqn:E; cbn [bind]; [|eauto].
    apply fir_rows in E as [Eu Eu2]. match goal with |- context [state_space_recursion e A ?z u ?k ?o] =>
      destruct (ssr_batch_err e A z u k o P ltac:(now rewrite Eu) Eu2 HA3 HA0) as (er & ->) end. cbn [bind]. eauto.
  - destruct (expand _ (tconj b')) as [bb|]; cbn [bind]; [|eauto].
    match goal with |- context [state_space_recursion e ?A' ?z x ?k ?o] =>
      destruct (ssr_batch_err e A' z x k o P HP Hx HH3 HH0) as (er & ->) end. cbn [bind]. eauto.
  - eauto.
Qed.

(** ** Batched numerators, shared denominators *)
Section Bank.
Variables (P nb na M : nat) (b a : ten) (bf : nat -> nat -> R) (af : nat -> R).
Hypotheses (Hnb : (1 <= nb)%nat) (EM : M = Nat.max na (nb - 1)) (Hb : is2 b P nb bf) (Ha : is1 a na af).
Lemma pad_b2 : exists b', (if (nb <? na + 1)%nat then pad (rk b - 1) 0 (na + 1 - nb) 0 b else b) = b' /\
  isP1 b' [P] (S M) (fun q => padz nb (bf (nth 0 q 0%nat))).
Proof.
  eexists; split; [reflexivity|]. apply is2_P1 in Hb. destruct (nb <? na + 1)%nat eqn:E; b2p.
  - replace (S M) with (nb + (na + 1 - nb))%nat by lia. now apply pad_last.
  - replace (S M) with nb by lia. fin Hb; [reflexivity|]. intros q i Hq Hi. unfold padz. now btrue (i <? nb)%nat.
Qed.
Lemma pad_a1 : exists a', (if (na + 1 <? nb)%nat then pad (rk a - 1) 0 (nb - na - 1) 0 a else a) = a' /\
  isP1 a' [] M (fun _ => padz na af).
Proof.
  eexists; split; [reflexivity|]. apply is1_P in Ha. destruct (na + 1 <? nb)%nat eqn:E; b2p.
  - replace M with (na + (nb - na - 1))%nat by lia. now apply pad_last.
  - replace M with na by lia. fin Ha; [reflexivity|]. intros q i Hq Hi. unfold padz. now btrue (i <? na)%nat.
Qed.
Lemma diff2 (b' a' : ten) : isP1 b' [P] (S M) (fun q => padz nb (bf (nth 0 q 0%nat))) -> isP1 a' [] M (fun _ => padz na af) ->
  exists t, (let* b0a := tmul (slice (rk b' - 1) None (Some 1%Z) b') a' in tsub (slice (rk b' - 1) (Some 1%Z) None b') b0a)%res = Ok t /\
    is2 t P M (fun p k => padz nb (bf p) (S k) - padz nb (bf p) 0%nat * padz na af k).
Proof.
  intros Hb' Ha'. pose proof (P1_rk _ _ _ _ Hb') as Hrb.
  nm (slice (rk b' - 1) None (Some 1%Z) b'). match type of H with isP1 _ _ ?n _ => replace n with 1%nat in H by lia end.
  nm (slice (rk b' - 1) (Some 1%Z) None b'). match type of H0 with isP1 _ _ ?n _ => replace n with M in H0 by lia end.
  repeat ew2. eexists; split; [reflexivity|].
  match goal with H : isP1 ?t _ _ _ |- is2 ?t _ _ _ => apply is2_P1; fin H; [reflexivity|]; intros q i Hq Hi end. rewrite ?(bi_lt M) by lia. reflexivity.
Qed.
Lemma head2 (b' : ten) : isP1 b' [P] (S M) (fun q => padz nb (bf (nth 0 q 0%nat))) ->
  exists t, select (rk b' - 1) 0 b' = Ok t /\ is1 t P (fun p => padz nb (bf p) 0%nat).
Proof.
  intro H. apply (is2_P1 b' P (S M) (fun p => padz nb (bf p))) in H. rkt. cbn [Nat.sub].
  rewrite (select_ok b' 1 0 0) by (unfold size; rewrite (proj1 H); reflexivity). eexists; split; [reflexivity|].
  apply is2_P in H. nm (sel 1 0 b'). now apply P1_nil in H0.
Qed.
Variables (e : env) (B N : nat) (x : ten) (xf : nat -> nat -> R) (uf : option nat).
Hypotheses (HB : (1 <= B)%nat) (HN : (1 <= N)%nat) (HM : (1 <= M)%nat) (HP : P <> B) (HP1 : P <> 1%nat) (Hx : is2 x B N xf).

Lemma ssm_bank_df2 zi z0 : backend_ok e M -> unroll_ok uf -> init B M zi z0 ->
  exists y zf, ssm_lfilter e Df2 uf b a x zi = Ok (y, zf) /\
    is3 y B N P (fun i n p => df2_y M (padz nb (bf p)) (padz na af) (z0 i) (xf i) n) /\
    match zi with
    | None => zf = None
    | Some _ => exists z, zf = Some z /\ is2 z B M (fun i => df2_z M (padz na af) (z0 i) (xf i) N)
    end.
Proof.
  intros He Hu Hz. unfold ssm_lfilter.
  assert (sizen b 1 = nb) as -> by (unfold sizen, size, rk; now rewrite (proj1 Hb)).
  assert (sizen a 1 = na) as -> by (unfold sizen, size, rk; now rewrite (proj1 Ha)).
  destruct pad_b2 as (b' & -> & Hb'). destruct pad_a1 as (a' & -> & Ha').
  assert (Haf : fcoef B M a' (fun _ => padz na af)).
  { eapply fc_s; [apply P1_nil in Ha'; exact Ha'|reflexivity]. }
  destruct (companion_mat R B M a' _ Haf) as (A & -> & _ & HA & _). cbn [bind].
  destruct (diff2 b' a' Hb' Ha') as (C & EC & HC).
  unfold bind in EC |- *. destruct (tmul _ a') as [t|]; [|discriminate]. rewrite EC.
  destruct (head2 b' Hb') as (D & -> & HD).
  destruct (state_space_spec R e B N M None (Some P) A x None (Some C) (Some D) zi uf None (fun _ => compm R (padz na af))
    (fun i n _ => xf i n) (fun _ i _ => if (i =? 0)%nat then 1 else 0)
    (fun _ p m => padz nb (bf p) (S m) - padz nb (bf p) 0%nat * padz na af m)
    (fun _ p _ => padz nb (bf p) 0%nat) z0) as (y & zf & E & Hy & Hzf); auto.
  { apply in_none2. intros i m k Hi Hm Hk. unfold unit3. now replace k with 0%nat by lia. }
  { eapply out_PM; [exact HC|exact HP|]. intros ? ? ? ? ? ?. reflexivity. }
  { eapply fd_2_P; [exact HD|exact HP|exact HP1|]. intros ? ? ? ? ? ?. reflexivity. }
  exists y, zf. split; [exact E|]. split.
  - cbn [sigv] in Hy. eapply is3_ext; [exact Hy|]. intros i n p Hi Hn Hp. cbn beta. exact (ss_df2_y R M (padz nb (bf p)) (padz na af) (z0 i) (xf i) n p HM).
  - destruct zi; [|exact Hzf]. destruct Hzf as (z & -> & Hzf). exists z. split; [reflexivity|].
    eapply is2_ext; [exact Hzf|]. intros i k Hi Hk. cbn beta. now apply ss_df2_h.
Qed.

Lemma ssm_bank_tdf2 zi z0 : init B M zi z0 -> ssm_lfilter e Tdf2 uf b a x zi = Err ValueError.
Proof.
  intros Hz. unfold ssm_lfilter.
  assert (sizen b 1 = nb) as -> by (unfold sizen, size, rk; now rewrite (proj1 Hb)).
  assert (sizen a 1 = na) as -> by (unfold sizen, size, rk; now rewrite (proj1 Ha)).
  destruct pad_b2 as (b' & -> & Hb'). destruct pad_a1 as (a' & -> & Ha').
  assert (Haf : fcoef B M a' (fun _ => padz na af)).
  { eapply fc_s; [apply P1_nil in Ha'; exact Ha'|reflexivity]. }
  assert (HA2 : exists A, companion a' = Ok A /\ is2 (tconj (mT A)) M M (fun i j => conj (compm R (padz na af) j i))).
  { destruct (companion_view R a' [] M _ Ha') as (A & EA & HA). exists A. split; [exact EA|]. nm (mT A). nm (tconj v). apply P2_nil in H0. exact H0. }
  destruct HA2 as (A & -> & HA). cbn [bind].
  destruct (diff2 b' a' Hb' Ha') as (C & EC & HC).
  unfold bind in EC |- *. destruct (tmul _ a') as [t|]; [|discriminate]. rewrite EC.
  destruct (head2 b' Hb') as (D & -> & HD).
  set (A' := tconj (mT A)) in *. clearbody A'. unfold state_space.
  rkt. cbn [Nat.eqb orb negb].
  assert (sizen A' 2 = M) as -> by (unfold sizen, rk; now rewrite (proj1 HA)).
  assert (sizen A' 1 = M) as -> by (unfold sizen, rk; now rewrite (proj1 HA)). rewrite Nat.eqb_refl.
  assert (size x 0 = B) as -> by (unfold size; now rewrite (proj1 Hx)). cbv zeta.
  assert (Hzi : exists z, ss_zi x zi B M = Ok z).
  { destruct (ss_zi_spec R B M x zi z0 HM Hz) as (z & E & _). eauto. }
  destruct Hzi as (z & ->). unfold bind. unfold ss_input. unfold tconj at 1, tmap at 1. cbn [shape]. rewrite (proj1 HC).
  bfalse (P =? B)%nat. unfold features. rkt. cbn [Nat.eqb feq andb]. rewrite andb_false_r. reflexivity.
Qed.
Lemma bank_expand (t : ten) n : shape t = [P; n] -> exists er, expand [size x 0; sizen t 1] t = Err er.
Proof.
  intro H. assert (sizen t 1 = n) as -> by (unfold sizen, size, rk; now rewrite H).
  assert (size x 0 = B) as -> by (unfold size; now rewrite (proj1 Hx)).
  unfold expand. rewrite H. cbn [rev app expandable_rev].
  rewrite !Nat.eqb_refl. cbn [orb andb]. bfalse (P =? B)%nat. bfalse (P =? 1)%nat. cbn [orb andb]. eexists. reflexivity.
Qed.
Lemma ssm_bank_df1 fm zi : fm = Df1 \/ fm = Tdf1 -> exists er, ssm_lfilter e fm uf b a x zi = Err er.
Proof.
  intros Hfm. unfold ssm_lfilter.
  assert (sizen b 1 = nb) as -> by (unfold sizen, size, rk; now rewrite (proj1 Hb)).
  assert (sizen a 1 = na) as -> by (unfold sizen, size, rk; now rewrite (proj1 Ha)).
  destruct pad_b2 as (b' & -> & Hb'). destruct pad_a1 as (a' & -> & Ha').
  destruct (companion_view R a' [] M _ Ha') as (A & -> & HA). cbn [bind].
  destruct Hfm as [-> | ->].
  - destruct (bank_expand b' _ (proj1 Hb')) as (er & ->). cbn [bind]. eauto.
  - destruct (bank_expand (tconj b') _ (proj1 Hb')) as (er & E). change (sizen (tconj b') 1) with (sizen b' 1) in E. rewrite E. cbn [bind]. eauto.
Qed.
End Bank.
End S.
