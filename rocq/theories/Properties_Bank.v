(** Theorems about batches of filters whose size differs from the signal's batch:
    one signal through several filters (C58) and mismatched batch sizes (C45). *)
From Coq Require Import List Arith Lia ZArith Bool Ring.
From Verif Require Import Scalar Tensor TensorLemmas TensorList TensorTac Spec Shapes SpecFilter SpecLpv Algebra M_Mat M_Kernels M_LtiSsm M_LpvSsm M_LtiFilter
  M_LpvFilter P_LtiSsm P_LpvSs P_LpvSsm P_Filter P_LtiFilter P_LtiFilter3 P_LpvAlg P_LpvFilter P_LpvFilter2 P_Bank
  Properties_LpvSsm Properties_LtiFilter Properties_LtiFilter2 Properties_LpvFilter Properties_LpvFilter2.
Import ListNotations.

(** A signal of shape (N,) becomes one of shape (1, N). *)
Definition sig1 {R : cring} (B N : nat) (x : tensor R) (xf : nat -> nat -> R) : Prop :=
  is2 x B N xf \/ B = 1 /\ is1 x N (xf 0).

Lemma sig1_is2 (R : cring) B N (x : tensor R) xf : sig1 B N x xf ->
  is2 (if rk x =? 1 then unsqueeze 0 x else x) B N xf.
Proof.
  intros [H|(-> & H)].
  - unfold rk. rewrite (proj1 H). exact H.
  - unfold rk. rewrite (proj1 H). cbn [length Nat.eqb]. destruct H as (Hs & Hv). split.
    + unfold unsqueeze. cbn [shape]. now rewrite Hs.
    + intros i n Hi Hn. unfold unsqueeze. cbn [at_]. replace i with 0 by lia. apply Hv. exact Hn.
Qed.

Lemma wrap_bank (R : cring) core B N (b a x : tensor R) xf zi : sig1 B N x xf -> rk b = 1 \/ rk b = 2 -> rk a = 1 \/ rk a = 2 -> rk b = 2 \/ rk a = 2 ->
  lfilter_wrap core b a x zi = core b a (if rk x =? 1 then unsqueeze 0 x else x) zi.
Proof.
  intros Hx Hb Ha Hba. destruct Hx as [Hx|(_ & Hx)].
  - assert (Rx : rk x = 2) by (unfold rk; now rewrite (proj1 Hx)). unfold lfilter_wrap. rewrite Rx. cbn [Nat.eqb andb Nat.ltb Nat.leb bind].
    assert ((rk b =? 1) || (rk b =? 2) = true) as -> by (destruct Hb as [-> | ->]; reflexivity).
    assert ((rk a =? 1) || (rk a =? 2) = true) as -> by (destruct Ha as [-> | ->]; reflexivity).
    destruct (core b a x zi) as [[y z]|]; reflexivity.
  - assert (Rx : rk x = 1) by (unfold rk; now rewrite (proj1 Hx)). rewrite lfilter_not_squeezed; auto; [now rewrite Rx|]. destruct Hba; auto.
Qed.

(** ** Direct form II, a batch of P numerators over a shared denominator, P different from
    the batch size B of the signal (and from 1): the call returns a tensor of shape (B, N, P)
    in which entry (i, n, p) is sample n of signal i through filter p. *)
Theorem C58_lfilter_df2_bank :
  forall (R : cring) e B N P nb na M (b a x : tensor R) bf af xf zi z0 uf,
  1 <= B -> 1 <= N -> 1 <= nb -> M = Nat.max na (nb - 1) -> 1 <= M -> backend_ok e M -> unroll_ok uf ->
  P <> B -> P <> 1 -> is2 b P nb bf -> is1 a na af -> sig1 B N x xf -> init B M zi z0 ->
  exists y zf, lfilter_ssm e b a x zi Df2 uf = Ok (y, zf) /\
    is3 y B N P (fun i n p => df2_y M (padz nb (bf p)) (padz na af) (z0 i) (xf i) n) /\
    match zi with
    | None => zf = None
    | Some _ => exists z, zf = Some z /\ is2 z B M (fun i => df2_z M (padz na af) (z0 i) (xf i) N)
    end.
Proof.
  intros R e B N P nb na M b a x bf af xf zi z0 uf HB HN Hnb EM HM He Hu HPB HP1 Hb Ha Hx Hz.
  unfold lfilter_ssm. rewrite (wrap_bank R _ B N b a x xf zi Hx); unfold rk; rewrite ?(proj1 Hb), ?(proj1 Ha); cbn [length]; auto.
  apply sig1_is2 in Hx. unfold rk in Hx.
  now apply (ssm_bank_df2 R P nb na M b a bf af Hnb EM Hb Ha e B N _ xf uf HB HN HM HPB HP1 Hx zi z0).
Qed.
Print Assumptions C58_lfilter_df2_bank.

(** From rest every slice solves the difference equation of its own filter. *)
Theorem C58_lfilter_df2_bank_solves :
  forall (R : cring) e B N P nb na M (b a x : tensor R) bf af xf uf,
  1 <= B -> 1 <= N -> 1 <= nb -> M = Nat.max na (nb - 1) -> 1 <= M -> backend_ok e M -> unroll_ok uf ->
  P <> B -> P <> 1 -> is2 b P nb bf -> is1 a na af -> sig1 B N x xf ->
  exists y yf, lfilter_ssm e b a x None Df2 uf = Ok (y, None) /\ is3 y B N P (fun i n p => yf i p n) /\
    forall i p n, i < B -> p < P -> n < N -> solves_filter (nb - 1) na (bf p) af (xf i) (yf i p) n.
Proof.
  intros R e B N P nb na M b a x bf af xf uf HB HN Hnb EM HM He Hu HPB HP1 Hb Ha Hx.
  destruct (C58_lfilter_df2_bank R e B N P nb na M b a x bf af xf None (fun _ _ => r0) uf HB HN Hnb EM HM He Hu HPB HP1 Hb Ha Hx) as (y & zf & E & Hy & ->);
    [now apply init_0|].
  exists y, (fun i p => df2_y M (padz nb (bf p)) (padz na af) (fun _ => r0) (xf i)). split; [exact E|]. split; [exact Hy|].
  intros i p n Hi Hp Hn. exact (lf_y_solves R Df2 nb na M (bf p) af (fun _ => r0) (xf i) n Hnb EM HM (fun _ _ => eq_refl)).
Qed.
Print Assumptions C58_lfilter_df2_bank_solves.

(** The other three forms raise. *)
Theorem C58_lfilter_other_forms_raise :
  forall (R : cring) e B N P nb na M (b a x : tensor R) bf af xf zi z0 uf fm,
  1 <= B -> 1 <= N -> 1 <= nb -> M = Nat.max na (nb - 1) -> 1 <= M ->
  P <> B -> P <> 1 -> is2 b P nb bf -> is1 a na af -> sig1 B N x xf -> init B M zi z0 -> fm <> Df2 ->
  exists er, lfilter_ssm e b a x zi fm uf = Err er.
Proof.
  intros R e B N P nb na M b a x bf af xf zi z0 uf fm HB HN Hnb EM HM HPB HP1 Hb Ha Hx Hz Hfm.
  unfold lfilter_ssm. rewrite (wrap_bank R _ B N b a x xf zi Hx); unfold rk; rewrite ?(proj1 Hb), ?(proj1 Ha); cbn [length]; auto.
  apply sig1_is2 in Hx. unfold rk in Hx. destruct fm; [congruence| | | |].
  - exists ValueError. now apply (ssm_bank_tdf2 R P nb na M b a bf af Hnb EM Hb Ha e B N _ xf uf HB HN HM HPB HP1 Hx zi z0).
  - now apply (ssm_bank_df1 R P nb na M b a bf af Hnb EM Hb Ha e B N _ xf uf HB HN HM HPB HP1 Hx); auto.
  - now apply (ssm_bank_df1 R P nb na M b a bf af Hnb EM Hb Ha e B N _ xf uf HB HN HM HPB HP1 Hx); auto.
  - unfold ssm_lfilter. cbv zeta. match goal with |- context [bind (companion ?t) _] => destruct (companion t) end; eexists; reflexivity.
Qed.
Print Assumptions C58_lfilter_other_forms_raise.

(** A batch of denominators whose size is not the signal's raises in every form. *)
Theorem C58_lfilter_batched_a_raises :
  forall (R : cring) e B N P na (b a x : tensor R) af xf zi uf fm,
  P <> B -> rk b = 1 \/ rk b = 2 -> is2 a P na af -> sig1 B N x xf ->
  exists er, lfilter_ssm e b a x zi fm uf = Err er.
Proof.
  intros R e B N P na b a x af xf zi uf fm HPB Hb Ha Hx.
  assert (Ra : rk a = 2) by (unfold rk; now rewrite (proj1 Ha)).
  unfold lfilter_ssm. rewrite (wrap_bank R _ B N b a x xf zi Hx); auto.
  apply sig1_is2 in Hx. eapply ssm_batched_a; [exact Ha| |].
  - unfold rk at 1. rewrite (proj1 Hx). reflexivity.
  - unfold size. now rewrite (proj1 Hx).
Qed.
Print Assumptions C58_lfilter_batched_a_raises.

(** The documented use, a single signal of shape (N,) with a batch of P >= 2 filters, does
    not return the P filtered signals, in any form. *)
Theorem C58_lfilter_refuted :
  forall (R : cring) e N P nb na M (b a x : tensor R) bf af xf zi z0 uf fm,
  2 <= P -> 1 <= N -> 1 <= nb -> M = Nat.max na (nb - 1) -> 1 <= M -> backend_ok e M -> unroll_ok uf ->
  fcoef P nb b bf -> fcoef P na a af -> rk b = 2 \/ rk a = 2 -> is1 x N xf -> init 1 M zi z0 ->
  ~ exists y zf yf, lfilter_ssm e b a x zi fm uf = Ok (y, zf) /\ is2 y P N yf.
Proof.
  intros R e N P nb na M b a x bf af xf zi z0 uf fm HP HN Hnb EM HM He Hu Hb Ha Hba Hx Hz (y & zf & yf & E & Hy).
  assert (Hs : sig1 1 N x (fun _ => xf)) by (right; auto).
  assert (Rb : rk b = 1 \/ rk b = 2) by (destruct Hb as [g Hb _|Hb]; unfold rk; rewrite (proj1 Hb); auto).
  destruct Ha as [ga Ha _|Ha].
  - destruct Hb as [gb Hb _|Hb].
    + unfold rk in Hba. rewrite (proj1 Hb), (proj1 Ha) in Hba. cbn in Hba. lia.
    + assert (HPB : P <> 1) by lia. destruct fm.
      { destruct (C58_lfilter_df2_bank R e 1 N P nb na M b a x bf ga (fun _ => xf) zi z0 uf ltac:(lia) HN Hnb EM HM He Hu HPB HPB Hb Ha Hs Hz) as (y' & zf' & E' & Hy' & _).
        rewrite E in E'. injection E' as <- _. destruct Hy as (Hy & _), Hy' as (Hy' & _). rewrite Hy in Hy'. discriminate. }
      all: match type of E with lfilter_ssm _ _ _ _ _ ?f _ = _ =>
        destruct (C58_lfilter_other_forms_raise R e 1 N P nb na M b a x bf ga (fun _ => xf) zi z0 uf f ltac:(lia) HN Hnb EM HM HPB HPB Hb Ha Hs Hz ltac:(discriminate)) as (er & E') end;
        rewrite E in E'; discriminate.
  - destruct (C58_lfilter_batched_a_raises R e 1 N P na b a x af (fun _ => xf) zi uf fm ltac:(lia) Rb Ha Hs) as (er & E'). rewrite E in E'. discriminate.
Qed.
Print Assumptions C58_lfilter_refuted.

(** What df2 returns for two filters and one signal, and for two signals and three filters
    (no error although the batch sizes differ); the other forms and a batched denominator
    raise. *)
Example C58_lfilter_ex :
  let b := v2 [[1;2];[3;4]]%Z in let a := v1 [-1]%Z in let x := v1 [1;0;0]%Z in
  is2 b 2 2 (fun i k => at_ b [i;k]) /\ is1 a 1 (fun _ => (-1)%Z) /\ sig1 (R := Zring) 1 3 x (fun _ n => at_ x [n]) /\
  show2' (lfilter_ssm env0 b a x None Df2 None) = Some (Some ([1;3;2], [1;3; 3;7; 3;7]%Z), None) /\
  show2' (lfilter_ssm env_ext b a x None Df2 None) = Some (Some ([1;3;2], [1;3; 3;7; 3;7]%Z), None) /\
  show2' (lfilter_ssm env0 (v2 [[1;2];[3;4];[0;1]]%Z) a (v2 [[1;0];[0;1]]%Z) None Df2 None)
    = Some (Some ([2;2;3], [1;3;0; 3;7;1; 0;0;0; 1;3;0]%Z), None) /\
  (forall fm, In fm [Tdf2; Df1; Tdf1] -> show2' (lfilter_ssm env0 b a x None fm None) = None) /\
  (forall fm, In fm [Df2; Tdf2; Df1; Tdf1] -> show2' (lfilter_ssm env0 b (v2 [[1];[2]]%Z) x None fm None) = None).
Proof.
  cbv zeta. split; [split; [reflexivity|intros; reflexivity]|]. split.
  { split; [reflexivity|]. intros i Hi. now replace i with 0 by lia. }
  split. { right. split; [reflexivity|]. split; [reflexivity|intros; reflexivity]. }
  split; [vm_compute; reflexivity|]. split; [vm_compute; reflexivity|]. split; [vm_compute; reflexivity|]. split.
  - intros fm [<-|[<-|[<-|[]]]]; vm_compute; reflexivity.
  - intros fm [<-|[<-|[<-|[<-|[]]]]]; vm_compute; reflexivity.
Qed.

(** ** C45: "mismatched batch sizes raise" fails for the numerator in direct form II. *)
Theorem C45_lfilter_batch_mismatch_refuted :
  forall (R : cring) e B N P nb na (b a x : tensor R) bf af xf uf,
  1 <= B -> 1 <= N -> 1 <= nb -> 1 <= Nat.max na (nb - 1) -> backend_ok e (Nat.max na (nb - 1)) -> unroll_ok uf ->
  P <> B -> P <> 1 -> is2 b P nb bf -> is1 a na af -> is2 x B N xf ->
  ~ exists er, lfilter_ssm e b a x None Df2 uf = Err er.
Proof.
  intros R e B N P nb na b a x bf af xf uf HB HN Hnb HM He Hu HPB HP1 Hb Ha Hx (er & E).
  destruct (C58_lfilter_df2_bank R e B N P nb na _ b a x bf af xf None (fun _ _ => r0) uf HB HN Hnb eq_refl HM He Hu HPB HP1 Hb Ha) as (y & zf & E' & _);
    [now left|now apply init_0|]. rewrite E in E'. discriminate.
Qed.
Print Assumptions C45_lfilter_batch_mismatch_refuted.
Theorem C45_lfilter_batch_mismatch_raises :
  forall (R : cring) e B N P nb na (b a x : tensor R) bf af xf uf fm,
  1 <= B -> 1 <= N -> 1 <= nb -> 1 <= Nat.max na (nb - 1) -> P <> B -> P <> 1 ->
  is2 b P nb bf -> is1 a na (af 0) /\ fm <> Df2 \/ is2 a P na af -> is2 x B N xf ->
  exists er, lfilter_ssm e b a x None fm uf = Err er.
Proof.
  intros R e B N P nb na b a x bf af xf uf fm HB HN Hnb HM HPB HP1 Hb [(Ha & Hf)|Ha] Hx.
  - apply (C58_lfilter_other_forms_raise R e B N P nb na (Nat.max na (nb - 1)) b a x bf (af 0) xf None (fun _ _ => r0) uf fm); auto; [now left|now apply init_0].
  - apply (C58_lfilter_batched_a_raises R e B N P na b a x af xf None uf fm); auto; [|now left].
    right. unfold rk. now rewrite (proj1 Hb).
Qed.
Print Assumptions C45_lfilter_batch_mismatch_raises.
Example C45_lfilter_batch_mismatch_ex :
  let b := v2 [[1;2];[3;4];[0;1]]%Z in let x := v2 [[1;0];[0;1]]%Z in
  show2' (lfilter_ssm env0 b (v1 [-1]%Z) x None Df2 None) = Some (Some ([2;2;3], [1;3;0; 3;7;1; 0;0;0; 1;3;0]%Z), None) /\
  lfilter_ssm env0 b (v1 [-1]%Z) x None Tdf2 None = Err ValueError /\
  show2' (lfilter_ssm env0 b (v2 [[1];[2];[3]]%Z) x None Df2 None) = None.
Proof. repeat split; vm_compute; reflexivity. Qed.

(** ** lpv.lfilter, torchlpc back-end: one signal (N,) through B time-varying filters gives
    the B filtered signals, in every form it implements. *)
Lemma lpv_wrap1 (R : cring) core B N nb na (b a x : tensor R) bf af xf zi : vcoef B N nb b bf -> vcoef B N na a af -> is1 x N xf ->
  rk b = 3 \/ rk a = 3 -> lpv_lfilter_wrap core b a x zi = core b a (unsqueeze 0 x) zi.
Proof.
  intros Hb Ha Hx H. unfold lpv_lfilter_wrap. destruct (vcoef_size _ _ _ _ _ _ Hb) as (_ & Rb & _), (vcoef_size _ _ _ _ _ _ Ha) as (_ & Ra & _).
  rewrite Rb, Ra. assert (rk x = 1) as -> by (unfold rk; now rewrite (proj1 Hx)). cbn [Nat.eqb andb bind].
  assert ((rk b =? 2) && (rk a =? 2) = false) as ->.
  { destruct H as [-> | ->]; cbn [Nat.eqb]; [reflexivity|now rewrite Bool.andb_false_r]. }
  cbn [andb]. destruct (core b a (unsqueeze 0 x) zi) as [[y z]|]; reflexivity.
Qed.
Lemma xsig_1 (R : cring) B N (b a x : tensor R) xf : is1 x N xf -> rk b = 3 \/ rk a = 3 -> xsig R B N b a (unsqueeze 0 x) (fun _ => xf).
Proof.
  intros Hx H. apply (xs_1 R B N b a _ (fun _ => xf) (fun _ => xf)); auto. destruct Hx as (Hs & Hv). split.
  - unfold unsqueeze. cbn [shape]. now rewrite Hs.
  - intros i n Hi Hn. unfold unsqueeze. cbn [at_]. now apply Hv.
Qed.

Theorem C58_lpv_torchlpc_df2 :
  forall (R : cring) e pr B N nb na M (b a x : tensor R) bf af xf zi z0 uf,
  1 <= B -> 1 <= N -> 1 <= nb -> 1 <= na -> M = Nat.max na (nb - 1) ->
  vcoef B N nb b bf -> vcoef B N na a af -> rk b = 3 \/ rk a = 3 -> is1 x N xf -> init B M zi z0 ->
  exists y zf, lpv_lfilter e pr b a x zi Df2 TorchLpc uf = Ok (y, zf) /\
    is2 y B N (fun i => vdf2_y M (fun n => padz nb (bf i n)) (fun n => padz na (af i n)) (z0 i) xf) /\
    match zi with
    | None => zf = None
    | Some _ => na <= N ->
        exists z, zf = Some z /\ is2 z B M (fun i => vdf2_z M (fun n => padz na (af i n)) (z0 i) xf N)
    end.
Proof.
  intros R e pr B N nb na M b a x bf af xf zi z0 uf HB HN Hnb Hna EM Hb Ha H3 Hx Hz.
  unfold lpv_lfilter. rewrite (lpv_wrap1 R _ B N nb na b a x bf af xf zi Hb Ha Hx H3).
  destruct (torchlpc_df2_spec R B N nb na M b a _ bf af (fun _ => xf) HB HN Hnb Hna EM Hb Ha (xsig_1 R B N b a x xf Hx H3) zi z0 Hz) as (y & zf & E & Hy & H).
  exists y, zf. auto.
Qed.
Print Assumptions C58_lpv_torchlpc_df2.
Theorem C58_lpv_torchlpc_df1 :
  forall (R : cring) e pr B N nb na M (b a x : tensor R) bf af xf zi z0 uf,
  1 <= B -> 1 <= N -> 1 <= nb -> 1 <= na -> M = Nat.max na (nb - 1) ->
  vcoef B N nb b bf -> vcoef B N na a af -> rk b = 3 \/ rk a = 3 -> is1 x N xf -> init B M zi z0 ->
  exists y yf, lpv_lfilter e pr b a x zi Df1 TorchLpc uf = Ok (y, None) /\ is2 y B N yf /\
    forall i n, i < B -> n < N -> vpole na (af i) (vconv (nb - 1) (bf i) xf) (yf i) (fun _ => r0) n.
Proof.
  intros R e pr B N nb na M b a x bf af xf zi z0 uf HB HN Hnb Hna EM Hb Ha H3 Hx Hz.
  unfold lpv_lfilter. rewrite (lpv_wrap1 R _ B N nb na b a x bf af xf zi Hb Ha Hx H3).
  destruct (torchlpc_df1_spec R B N nb na M b a _ bf af (fun _ => xf) HB HN Hnb Hna EM Hb Ha (xsig_1 R B N b a x xf Hx H3) zi z0 Hz) as (y & E & yf & Hy & H).
  exists y, yf. auto.
Qed.
Print Assumptions C58_lpv_torchlpc_df1.
Theorem C58_lpv_torchlpc_tdf1_partial :
  forall (R : cring) e pr B N nb na M (b a x : tensor R) bf af xf zi z0 uf,
  1 <= B -> 1 <= N -> 2 <= nb -> 1 <= na -> na <= N -> M = Nat.max na (nb - 1) ->
  vcoef B N nb b bf -> vcoef B N na a af -> rk b = 3 \/ rk a = 3 -> is1 x N xf -> init B M zi z0 ->
  exists y yf wf, lpv_lfilter e pr b a x zi Tdf1 TorchLpc uf = Ok (y, None) /\ is2 y B N yf /\
    forall i n, i < B -> n < N ->
      vpolet na (fun n k => conj (af i n k)) xf (wf i) n /\ yf i n = vconvt (nb - 1) (fun n k => conj (bf i n k)) (wf i) n.
Proof.
  intros R e pr B N nb na M b a x bf af xf zi z0 uf HB HN Hnb Hna HNa EM Hb Ha H3 Hx Hz.
  unfold lpv_lfilter. rewrite (lpv_wrap1 R _ B N nb na b a x bf af xf zi Hb Ha Hx H3).
  destruct (torchlpc_tdf1_spec R B N nb na M b a _ bf af (fun _ => xf) HB HN ltac:(lia) Hna EM Hb Ha (xsig_1 R B N b a x xf Hx H3) zi z0 Hz Hnb HNa) as (y & E & yf & wf & Hy & H).
  eauto 8.
Qed.
Print Assumptions C58_lpv_torchlpc_tdf1_partial.

(** Two time-varying denominators, one signal. *)
Example C58_lpv_torchlpc_ex :
  let b := v2 [[1;1];[1;1];[1;1]]%Z in let a := v3 [[[-1];[-1];[-1]];[[0];[-2];[1]]]%Z in let x := v1 [1;0;0]%Z in
  vcoef (R := Zring) 2 3 2 b (fun _ _ _ => 1%Z) /\ vcoef (R := Zring) 2 3 1 a (fun i n k => at_ a [i;n;k]) /\ rk a = 3 /\
  is1 x 3 (fun n => at_ x [n]) /\
  show2' (lpv_lfilter env0 true b a x None Df2 TorchLpc None) = Some (Some ([2;3], [1;2;2; 1;3;0]%Z), None) /\
  show2' (lpv_lfilter env0 true b a x None Df1 TorchLpc None) = Some (Some ([2;3], [1;2;2; 1;3;-3]%Z), None).
Proof.
  cbv zeta. split.
  { apply (vc_s (R := Zring) (fun _ _ => 1%Z)); [|reflexivity]. split; [reflexivity|].
    intros i j Hi Hj. destruct i as [|[|[|]]]; destruct j as [|[|]]; try lia; reflexivity. }
  split. { apply vc_b. split; [reflexivity|intros; reflexivity]. }
  split; [reflexivity|]. split; [split; [reflexivity|intros; reflexivity]|]. split.
  - vm_compute; reflexivity.
  - vm_compute; reflexivity.
Qed.

(** The state-space back-end raises for the same call with the Python fallback, in every
    form ... *)
Theorem C58_lpv_ssm_refuted :
  let b := v2 [[1;1];[1;1];[1;1]]%Z in let a := v3 [[[-1];[-1];[-1]];[[0];[-2];[1]]]%Z in let x := v1 [1;0;0]%Z in
  forall fm, ~ exists y zf yf, lpv_lfilter env0 true b a x None fm Ssm None = Ok (y, zf) /\ is2 y 2 3 yf.
Proof.
  cbv zeta. intros fm (y & zf & yf & E & _).
  assert (H : match lpv_lfilter env0 true (v2 [[1;1];[1;1];[1;1]]%Z) (v3 [[[-1];[-1];[-1]];[[0];[-2];[1]]]%Z) (v1 [1;0;0]%Z) None fm Ssm None with Ok _ => true | Err _ => false end = false)
    by (destruct fm; vm_compute; reflexivity).
  rewrite E in H. discriminate.
Qed.
Print Assumptions C58_lpv_ssm_refuted.
(** ... and with the compiled kernel, which does not compare the batch sizes of A and x,
    direct forms I silently filter with the first filter of the batch only: shape (1, N)
    instead of (2, N), and the second filter's output is missing. *)
Theorem C58_lpv_ssm_ext_refuted :
  let b := v2 [[1;1;0];[1;1;1];[1;1;2]]%Z in let x := v1 [1;0;0]%Z in
  let a1 := [[-1;0];[-1;1];[-1;0]]%Z in let a2 := [[0;1];[-2;1];[1;1]]%Z in
  show2' (lpv_lfilter env_ext false b (v3 [a1; a2]) x None Df1 Ssm None) = Some (Some ([1;3], [1;2;4]%Z), None) /\
  show2' (lpv_lfilter env_ext false b (v3 [a1]) x None Df1 Ssm None) = Some (Some ([1;3], [1;2;4]%Z), None) /\
  show2' (lpv_lfilter env_ext false b (v3 [a2]) x None Df1 Ssm None) = Some (Some ([1;3], [1;3;-2]%Z), None) /\
  show2' (lpv_lfilter env_ext false b (v3 [a1; a2]) x None Df1 TorchLpc None) = Some (Some ([2;3], [1;2;4; 1;3;-2]%Z), None) /\
  show2' (lpv_lfilter env_ext false b (v3 [a1; a2]) x None Df2 Ssm None) = None.
Proof. repeat split; vm_compute; reflexivity. Qed.
Print Assumptions C58_lpv_ssm_ext_refuted.
