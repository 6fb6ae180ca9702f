(** Theorems about lpv.lfilter (C15-C18, C24, C45, C46). *)
From Coq Require Import List Arith Lia ZArith Bool Ring.
From Verif Require Import Scalar Tensor TensorLemmas TensorList TensorTac Spec Shapes SpecFilter SpecLpv Algebra M_Mat M_Kernels M_LtiSsm M_LpvSsm M_LtiFilter
  M_LpvFilter P_LtiSsm P_LpvSs P_LpvSsm P_Filter P_LtiFilter P_LtiFilter3 P_LpvAlg P_LpvFilter P_LpvFilter2 Properties_LpvSsm Properties_LtiFilter Properties_LpvFilter.
Import ListNotations.

(** Configurations.  State-space back-end: extension available where it is selected,
    unroll factor as in C04, and no confusion between batch and time (C14); torchlpc:
    at least one feedback coefficient. *)
Definition lpv_cfg {R : cring} (bk : lpv_backend) e pr (B N na M : nat) (b a : tensor R) uf : Prop :=
  match bk with
  | Ssm => lpv_backend_ok e pr M /\ unroll_good N uf /\ (rk b = 2 /\ rk a = 2 \/ B <> N)
  | TorchLpc => 1 <= na
  | OtherBackend => False
  end.

(** ** C24: direct form II, both back-ends, any initial state. *)
Theorem lpv_lfilter_df2_partial :
  forall (R : cring) bk e pr B N nb na M (b a x : tensor R) bf af xf zi z0 uf,
  1 <= B -> 1 <= N -> 1 <= nb -> M = Nat.max na (nb - 1) -> 1 <= M -> lpv_cfg bk e pr B N na M b a uf ->
  vcoef B N nb b bf -> vcoef B N na a af -> is2 x B N xf -> init B M zi z0 ->
  exists y zf, lpv_lfilter e pr b a x zi Df2 bk uf = Ok (y, zf) /\
    is2 y B N (fun i => vdf2_y M (fun n => padz nb (bf i n)) (fun n => padz na (af i n)) (z0 i) (xf i)) /\
    match zi with
    | None => zf = None
    | Some _ => bk = Ssm \/ na <= N ->
        exists z, zf = Some z /\ is2 z B M (fun i => vdf2_z M (fun n => padz na (af i n)) (z0 i) (xf i) N)
    end.
Proof.
  intros R bk e pr B N nb na M b a x bf af xf zi z0 uf HB HN Hnb EM HM Hc Hb Ha Hx Hz.
  unfold lpv_lfilter. rewrite (lpv_wrap R B N nb na b a x _ bf af xf zi Hb Ha Hx). destruct bk; cbn [lpv_cfg] in Hc; [| |contradiction].
  - destruct Hc as (He & Hu & HBN).
    destruct (lpv_ssm_df2_spec R e pr B N nb na M b a x bf af xf uf HB HN Hnb EM HM He Hb Ha Hx zi z0 Hz Hu HBN) as (y & zf & E & Hy & H).
    exists y, zf. split; [exact E|]. split; [exact Hy|]. destruct zi; [intros _|]; exact H.
  - destruct (torchlpc_df2_spec R B N nb na M b a x bf af xf HB HN Hnb Hc EM Hb Ha (xs_B R _ _ _ _ _ _ Hx) zi z0 Hz) as (y & zf & E & Hy & H).
    exists y, zf. split; [exact E|]. split; [exact Hy|]. destruct zi; [|exact H]. intros [?|Hn]; [discriminate|auto].
Qed.
Print Assumptions lpv_lfilter_df2_partial.

(** Transposed direct form II (state-space back-end; complex coefficients are conjugated). *)
Theorem lpv_lfilter_tdf2_partial :
  forall (R : cring) e pr B N nb na M (b a x : tensor R) bf af xf zi z0 uf,
  1 <= B -> 1 <= N -> 1 <= nb -> M = Nat.max na (nb - 1) -> 1 <= M ->
  lpv_backend_ok e pr M -> unroll_good N uf -> rk b = 2 \/ B <> N ->
  vcoef B N nb b bf -> vcoef B N na a af -> is2 x B N xf -> init B M zi z0 ->
  exists y zf, lpv_lfilter e pr b a x zi Tdf2 Ssm uf = Ok (y, zf) /\
    is2 y B N (fun i => vtdf2_y M (fun n k => conj (padz nb (bf i n) k)) (fun n k => conj (padz na (af i n) k)) (z0 i) (xf i)) /\
    match zi with
    | None => zf = None
    | Some _ => exists z, zf = Some z /\
        is2 z B M (fun i => vtdf2_z M (fun n k => conj (padz nb (bf i n) k)) (fun n k => conj (padz na (af i n) k)) (z0 i) (xf i) N)
    end.
Proof.
  intros R e pr B N nb na M b a x bf af xf zi z0 uf HB HN Hnb EM HM He Hu HBN Hb Ha Hx Hz.
  unfold lpv_lfilter. rewrite (lpv_wrap R B N nb na b a x _ bf af xf zi Hb Ha Hx).
  exact (lpv_ssm_tdf2_spec R e pr B N nb na M b a x bf af xf uf HB HN Hnb EM HM He Hb Ha Hx zi z0 Hz Hu HBN).
Qed.
Print Assumptions lpv_lfilter_tdf2_partial.
(** torchlpc does not implement it. *)
Theorem lpv_lfilter_tdf2_torchlpc_refuted :
  forall (R : cring) e pr B N nb na M (b a x : tensor R) bf af xf zi z0 uf,
  1 <= B -> 1 <= N -> 1 <= nb -> 1 <= na -> M = Nat.max na (nb - 1) ->
  vcoef B N nb b bf -> vcoef B N na a af -> is2 x B N xf -> init B M zi z0 ->
  lpv_lfilter e pr b a x zi Tdf2 TorchLpc uf = Err NotImplementedError.
Proof.
  intros R e pr B N nb na M b a x bf af xf zi z0 uf HB HN Hnb Hna EM Hb Ha Hx Hz.
  unfold lpv_lfilter. rewrite (lpv_wrap R B N nb na b a x _ bf af xf zi Hb Ha Hx).
  destruct (torchlpc_unfold R B N nb na M b a x bf af xf HB HN Hnb Hna EM Hb Ha (xs_B R _ _ _ _ _ _ Hx) zi z0 Tdf2 Hz) as (? & ? & ? & ? & _ & _ & _ & _ & ->). reflexivity.
Qed.
Print Assumptions lpv_lfilter_tdf2_torchlpc_refuted.

(** Direct form I: y[n] + sum_k a[n,k] y[n-1-k] = sum_k b[n,k] x[n-k], on both back-ends;
    here any batch size, and [unroll_factor] only as far as it is used. *)
Definition lpv_cfg1 (bk : lpv_backend) e pr (N na M : nat) uf : Prop :=
  match bk with
  | Ssm => lpv_backend_ok e pr M /\ (uf = None \/ unroll_good N uf)
  | TorchLpc => 1 <= na
  | OtherBackend => False
  end.
Theorem lpv_lfilter_df1_partial :
  forall (R : cring) bk e pr B N nb na M (b a x : tensor R) bf af xf zi z0 uf,
  1 <= B -> 1 <= N -> 1 <= nb -> M = Nat.max na (nb - 1) -> 1 <= M -> lpv_cfg1 bk e pr N na M uf ->
  vcoef B N nb b bf -> vcoef B N na a af -> is2 x B N xf -> init B M zi z0 ->
  exists y yf, lpv_lfilter e pr b a x zi Df1 bk uf = Ok (y, None) /\ is2 y B N yf /\
    forall i n, i < B -> n < N -> vpole na (af i) (vconv (nb - 1) (bf i) (xf i)) (yf i) (fun _ => r0) n.
Proof.
  intros R bk e pr B N nb na M b a x bf af xf zi z0 uf HB HN Hnb EM HM Hc Hb Ha Hx Hz.
  unfold lpv_lfilter. rewrite (lpv_wrap R B N nb na b a x _ bf af xf zi Hb Ha Hx). destruct bk; cbn [lpv_cfg1] in Hc; [| |contradiction].
  - destruct Hc as (He & Hu). assert (Hu' : unroll_good1 N uf) by (destruct Hu as [-> | Hu]; [exact I|now apply unroll_good_1]).
    destruct (lpv_ssm_df1_spec R e pr B N nb na M b a x bf af xf uf HB HN Hnb EM HM He Hb Ha Hx zi Hu') as (y & E & yf & Hy & H).
    exists y, yf. split; [exact E|]. split; [exact Hy|]. intros i n Hi Hn. apply (vpole_pad R na M); [lia|].
    refine (vpole_ext R M _ _ _ _ _ _ _ _ n _ _ _ _ (H i n Hi Hn)); [reflexivity| |reflexivity|reflexivity].
    replace (fun n0 => padz nb (bf i n0)) with (fun n0 => padz (S (nb - 1)) (bf i n0)) by (now replace (S (nb - 1)) with nb by lia).
    apply vconv_pad. lia.
  - destruct (torchlpc_df1_spec R B N nb na M b a x bf af xf HB HN Hnb Hc EM Hb Ha (xs_B R _ _ _ _ _ _ Hx) zi z0 Hz) as (y & E & yf & Hy & H). exists y, yf. auto.
Qed.
Print Assumptions lpv_lfilter_df1_partial.

(** Back-ends agree in direct form II (outputs and states) and direct form I. *)
Theorem lpv_backends_agree_df2_partial :
  forall (R : cring) e pr B N nb na M (b a x : tensor R) bf af xf zi z0 uf uf',
  1 <= B -> 1 <= N -> 1 <= nb -> 1 <= na -> M = Nat.max na (nb - 1) -> lpv_cfg Ssm e pr B N na M b a uf ->
  vcoef B N nb b bf -> vcoef B N na a af -> is2 x B N xf -> init B M zi z0 ->
  exists y zf y' zf' f, lpv_lfilter e pr b a x zi Df2 Ssm uf = Ok (y, zf) /\ lpv_lfilter e pr b a x zi Df2 TorchLpc uf' = Ok (y', zf') /\
    is2 y B N f /\ is2 y' B N f /\
    match zi with
    | None => zf = None /\ zf' = None
    | Some _ => na <= N -> exists z z' g, zf = Some z /\ zf' = Some z' /\ is2 z B M g /\ is2 z' B M g
    end.
Proof.
  intros R e pr B N nb na M b a x bf af xf zi z0 uf uf' HB HN Hnb Hna EM Hc Hb Ha Hx Hz.
  destruct (lpv_lfilter_df2_partial R Ssm e pr B N nb na M b a x bf af xf zi z0 uf HB HN Hnb EM ltac:(lia) Hc Hb Ha Hx Hz) as (y & zf & E & Y & H).
  destruct (lpv_lfilter_df2_partial R TorchLpc e pr B N nb na M b a x bf af xf zi z0 uf' HB HN Hnb EM ltac:(lia) Hna Hb Ha Hx Hz) as (y' & zf' & E' & Y' & H').
  exists y, zf, y', zf'. eexists. do 2 (split; [eassumption|]). split; [exact Y|]. split; [exact Y'|].
  destruct zi; [|auto]. intro Hn. destruct (H (or_introl eq_refl)) as (z & -> & HZ), (H' (or_intror Hn)) as (z' & -> & HZ'). eauto 8.
Qed.
Print Assumptions lpv_backends_agree_df2_partial.
Theorem lpv_backends_agree_df1_partial :
  forall (R : cring) e pr B N nb na M (b a x : tensor R) bf af xf zi z0 uf uf',
  1 <= B -> 1 <= N -> 1 <= nb -> 1 <= na -> M = Nat.max na (nb - 1) -> lpv_cfg1 Ssm e pr N na M uf ->
  vcoef B N nb b bf -> vcoef B N na a af -> is2 x B N xf -> init B M zi z0 ->
  exists y y' f, lpv_lfilter e pr b a x zi Df1 Ssm uf = Ok (y, None) /\ lpv_lfilter e pr b a x zi Df1 TorchLpc uf' = Ok (y', None) /\
    is2 y B N f /\ is2 y' B N f.
Proof.
  intros R e pr B N nb na M b a x bf af xf zi z0 uf uf' HB HN Hnb Hna EM Hc Hb Ha Hx Hz.
  destruct (lpv_lfilter_df1_partial R Ssm e pr B N nb na M b a x bf af xf zi z0 uf HB HN Hnb EM ltac:(lia) Hc Hb Ha Hx Hz) as (y & f & E & Y & H).
  destruct (lpv_lfilter_df1_partial R TorchLpc e pr B N nb na M b a x bf af xf zi z0 uf' HB HN Hnb EM ltac:(lia) Hna Hb Ha Hx Hz) as (y' & f' & E' & Y' & H').
  exists y, y', f. do 3 (split; [assumption|]). eapply is2_ext; [exact Y'|]. intros i n Hi Hn.
  apply (vpole_unique R na (af i) (vconv (nb - 1) (bf i) (xf i)) (f' i) (f i) (fun _ => r0) N); auto.
Qed.
Print Assumptions lpv_backends_agree_df1_partial.

(** Transposed direct form I on torchlpc, orders >= 1 and na <= N:
    w[n] + sum_k a[n-1-k,k] w[n-1-k] = x[n],  y[n] = sum_k b[n-k,k] w[n-k]. *)
Theorem lpv_lfilter_tdf1_torchlpc_partial :
  forall (R : cring) e pr B N nb na M (b a x : tensor R) bf af xf zi z0 uf,
  1 <= B -> 1 <= N -> 2 <= nb -> 1 <= na -> na <= N -> M = Nat.max na (nb - 1) ->
  vcoef B N nb b bf -> vcoef B N na a af -> is2 x B N xf -> init B M zi z0 ->
  exists y yf wf, lpv_lfilter e pr b a x zi Tdf1 TorchLpc uf = Ok (y, None) /\ is2 y B N yf /\
    forall i n, i < B -> n < N ->
      vpolet na (fun n k => conj (af i n k)) (xf i) (wf i) n /\ yf i n = vconvt (nb - 1) (fun n k => conj (bf i n k)) (wf i) n.
Proof.
  intros R e pr B N nb na M b a x bf af xf zi z0 uf HB HN Hnb Hna HNa EM Hb Ha Hx Hz.
  unfold lpv_lfilter. rewrite (lpv_wrap R B N nb na b a x _ bf af xf zi Hb Ha Hx).
  destruct (torchlpc_tdf1_spec R B N nb na M b a x bf af xf HB HN ltac:(lia) Hna EM Hb Ha (xs_B R _ _ _ _ _ _ Hx) zi z0 Hz Hnb HNa) as (y & E & yf & wf & Hy & H). eauto 8.
Qed.
Print Assumptions lpv_lfilter_tdf1_torchlpc_partial.
(** The state-space back-end uses a[n-k,k] instead of a[n-1-k,k] (one sample late) and
    does not conjugate b; this is what it computes. *)
Theorem lpv_lfilter_tdf1_ssm_partial :
  forall (R : cring) e pr B N nb na M (b a x : tensor R) bf af xf zi uf,
  1 <= B -> 1 <= N -> 1 <= nb -> M = Nat.max na (nb - 1) -> 1 <= M -> lpv_backend_ok e pr M -> uf = None \/ unroll_good N uf ->
  vcoef B N nb b bf -> vcoef B N na a af -> is2 x B N xf ->
  exists y yf wf, lpv_lfilter e pr b a x zi Tdf1 Ssm uf = Ok (y, None) /\ is2 y B N yf /\
    forall i n, i < B -> n < N ->
      vpolet na (fun n k => conj (af i (S n) k)) (xf i) (wf i) n /\ yf i n = vconvt (nb - 1) (bf i) (wf i) n.
Proof.
  intros R e pr B N nb na M b a x bf af xf zi uf HB HN Hnb EM HM He Hu Hb Ha Hx.
  unfold lpv_lfilter. rewrite (lpv_wrap R B N nb na b a x _ bf af xf zi Hb Ha Hx).
  assert (Hu' : unroll_good1 N uf) by (destruct Hu as [-> | Hu]; [exact I|now apply unroll_good_1]).
  destruct (lpv_ssm_tdf1_spec R e pr B N nb na M b a x bf af xf uf HB HN Hnb EM HM He Hb Ha Hx zi Hu') as (y & E & yf & wf & Hy & H).
  exists y, yf, wf. split; [exact E|]. split; [exact Hy|]. intros i n Hi Hn. destruct (H i n Hi Hn) as [H1 H2]. split.
  - apply (vpolet_pad R na M); [lia|]. refine (vpolet_ext R M _ _ _ _ _ n _ _ H1); [|reflexivity].
    intros m k Hm Hk. unfold late, padz. destruct (k <? na); [reflexivity|apply conj_0].
  - rewrite H2. replace (fun n0 => padz nb (bf i n0)) with (fun n0 => padz (S (nb - 1)) (bf i n0)) by (now replace (S (nb - 1)) with nb by lia).
    apply vconvt_pad. lia.
Qed.
Print Assumptions lpv_lfilter_tdf1_ssm_partial.
(** So the back-ends agree in this form when a does not vary in time and b is real ... *)
Theorem lpv_backends_agree_tdf1_partial :
  forall (R : cring) e pr B N nb na M (b a x : tensor R) bf af xf zi z0 uf uf',
  1 <= B -> 1 <= N -> 2 <= nb -> 1 <= na -> na <= N -> M = Nat.max na (nb - 1) -> lpv_cfg1 Ssm e pr N na M uf ->
  vcoef B N nb b bf -> vcoef B N na a af -> is2 x B N xf -> init B M zi z0 ->
  (forall i n k, i < B -> n < N -> k < na -> af i n k = af i 0 k) -> (forall i n k, i < B -> n < N -> k < nb -> conj (bf i n k) = bf i n k) ->
  exists y y' f, lpv_lfilter e pr b a x zi Tdf1 Ssm uf = Ok (y, None) /\ lpv_lfilter e pr b a x zi Tdf1 TorchLpc uf' = Ok (y', None) /\
    is2 y B N f /\ is2 y' B N f.
Proof.
  intros R e pr B N nb na M b a x bf af xf zi z0 uf uf' HB HN Hnb Hna HNa EM Hc Hb Ha Hx Hz Ca Cb. destruct Hc as (He & Hu).
  destruct (lpv_lfilter_tdf1_ssm_partial R e pr B N nb na M b a x bf af xf zi uf HB HN ltac:(lia) EM ltac:(lia) He Hu Hb Ha Hx) as (y & f & w & E & Y & H).
  destruct (lpv_lfilter_tdf1_torchlpc_partial R e pr B N nb na M b a x bf af xf zi z0 uf' HB HN Hnb Hna HNa EM Hb Ha Hx Hz) as (y' & f' & w' & E' & Y' & H').
  exists y, y', f. do 3 (split; [assumption|]). eapply is2_ext; [exact Y'|]. intros i n Hi Hn.
  rewrite (proj2 (H i n Hi Hn)), (proj2 (H' i n Hi Hn)). apply vconvt_ext; [intros; apply Cb; lia|].
  intros m Hm. apply (vpolet_unique R na (fun n k => conj (af i 0 k)) (xf i) (w' i) (w i) N); [| |lia].
  - intros k Hk. refine (vpolet_ext R na _ _ _ _ _ k _ _ (proj1 (H' i k Hi Hk))); [|reflexivity]. intros; cbv beta. f_equal. apply Ca; lia.
  - intros k Hk. refine (vpolet_ext R na _ _ _ _ _ k _ _ (proj1 (H i k Hi Hk))); [|reflexivity]. intros; cbv beta. f_equal. apply Ca; lia.
Qed.
Print Assumptions lpv_backends_agree_tdf1_partial.
(** ... and not otherwise: a first-order filter with a = 1, 2, 3 and b = 1. *)
Theorem lpv_backends_agree_tdf1_refuted :
  let b := v2 [[1;0];[1;0];[1;0]]%Z in let a := v2 [[1];[2];[3]]%Z in let x := v2 [[1;0;0]]%Z in
  vcoef 1 3 2 b (fun _ _ k => nth k [1;0]%Z 0%Z) /\ vcoef 1 3 1 a (fun _ n _ => nth n [1;2;3]%Z 0%Z) /\
  show2' (lpv_lfilter env0 false b a x None Tdf1 TorchLpc None) = Some (Some ([1;3], [1;-1;2]%Z), None) /\
  show2' (lpv_lfilter env0 false b a x None Tdf1 Ssm None) = Some (Some ([1;3], [1;-2;6]%Z), None).
Proof.
  cbv zeta. split; [|split; [|split; vm_compute; reflexivity]].
  - eapply (vc_s (R := Zring) (fun _ k => nth k [1;0]%Z 0%Z)); [|reflexivity]. split; [reflexivity|]. intros i k Hi Hk.
    destruct i as [|[|[|i]]]; [reflexivity..|lia].
  - eapply (vc_s (R := Zring) (fun n _ => nth n [1;2;3]%Z 0%Z)); [|reflexivity]. split; [reflexivity|]. intros i k Hi Hk. replace k with 0 by lia.
    destruct i as [|[|[|i]]]; [reflexivity..|lia].
Qed.
Print Assumptions lpv_backends_agree_tdf1_refuted.
(** Batched coefficients with batch size = length: the state-space back-end returns a
    tensor of the wrong shape. *)
Theorem lpv_backends_agree_square_refuted :
  let b := v3 [[[1;0];[2;0]];[[3;0];[4;0]]]%Z in let a := v3 [[[0];[0]];[[0];[0]]]%Z in let x := v2 [[1;1];[1;1]]%Z in
  show2' (lpv_lfilter env0 false b a x None Df2 TorchLpc None) = Some (Some ([2;2], [1;2;3;4]%Z), None) /\
  show2' (lpv_lfilter env0 false b a x None Df2 Ssm None) = Some (Some ([2;2;2], [1;2;3;4;1;2;3;4]%Z), None).
Proof. cbv zeta. split; vm_compute; reflexivity. Qed.
Print Assumptions lpv_backends_agree_square_refuted.

Example lpv_lfilter_ex :
  let b := v2 [[1;2];[3;4];[5;6];[7;8]]%Z in let a := v2 [[1;1];[2;1];[3;1];[4;1]]%Z in let x := v2 [[1;0;0;1];[1;2;0;0]]%Z in
  let zi := v2 [[1;0];[0;1]]%Z in
  vcoef 2 4 2 b (fun _ n k => at_ b [n;k]) /\ init 2 2 (Some zi) (fun i k => at_ zi [i;k]) /\
  lpv_cfg Ssm env0 false 2 4 2 2 b a None /\
  show2' (lpv_lfilter env0 false b a x (Some zi) Df2 Ssm None) = Some (Some ([2;4], [2;-3;9;-46; 0;6;-18;106]%Z), Some ([2;2], [-10;3;22;-6]%Z)) /\
  show2' (lpv_lfilter env0 false b a x (Some zi) Df2 TorchLpc None) = Some (Some ([2;4], [2;-3;9;-46; 0;6;-18;106]%Z), Some ([2;2], [-10;3;22;-6]%Z)) /\
  show2' (lpv_lfilter env0 false b a x None Df1 Ssm None) = Some (Some ([2;4], [1;2;-7;33; 1;8;-13;44]%Z), None) /\
  show2' (lpv_lfilter env0 false b a x None Df1 TorchLpc None) = Some (Some ([2;4], [1;2;-7;33; 1;8;-13;44]%Z), None) /\
  show2' (lpv_lfilter env0 false b a x None Tdf2 Ssm None) = Some (Some ([2;4], [1;1;-3;15; 1;7;-7;14]%Z), None).
Proof.
  cbv zeta. split; [|split; [|split]].
  - eapply (vc_s (R := Zring)); [split; reflexivity|reflexivity].
  - eapply (init_BM Zring); [split; reflexivity|reflexivity].
  - split; [apply lpv_backend_env0|]. split; [apply lpv_default_unroll_good; lia|]. right. discriminate.
  - repeat split; vm_compute; reflexivity.
Qed.

(** ** C15: streaming; direct form II may even change back-end between the chunks. *)
Theorem lpv_lfilter_streaming_partial :
  forall (R : cring) bk bk1 bk2 e e1 e2 p p1 p2 B N1 N2 nb na M (b b1 b2 a a1 a2 x x1 x2 zi : tensor R) uf uf1 uf2 bf af xf z0,
  1 <= B -> 1 <= N1 -> 1 <= N2 -> 1 <= nb -> M = Nat.max na (nb - 1) -> 1 <= M ->
  lpv_cfg bk e p B (N1 + N2) na M b a uf -> lpv_cfg bk1 e1 p1 B N1 na M b1 a1 uf1 -> lpv_cfg bk2 e2 p2 B N2 na M b2 a2 uf2 ->
  bk = Ssm \/ na <= N1 + N2 -> bk1 = Ssm \/ na <= N1 -> bk2 = Ssm \/ na <= N2 ->
  vcoef B (N1 + N2) nb b bf -> vcoef B N1 nb b1 bf -> vcoef B N2 nb b2 (fun i n => bf i (N1 + n)) ->
  vcoef B (N1 + N2) na a af -> vcoef B N1 na a1 af -> vcoef B N2 na a2 (fun i n => af i (N1 + n)) ->
  is2 x B (N1 + N2) xf -> is2 x1 B N1 xf -> is2 x2 B N2 (fun i n => xf i (N1 + n)) -> init B M (Some zi) z0 ->
  exists y z y1 z1 y2 z2 f g,
    lpv_lfilter e p b a x (Some zi) Df2 bk uf = Ok (y, Some z) /\
    lpv_lfilter e1 p1 b1 a1 x1 (Some zi) Df2 bk1 uf1 = Ok (y1, Some z1) /\
    lpv_lfilter e2 p2 b2 a2 x2 (Some z1) Df2 bk2 uf2 = Ok (y2, Some z2) /\
    is2 y B (N1 + N2) f /\ is2 y1 B N1 f /\ is2 y2 B N2 (fun i n => f i (N1 + n)) /\ is2 z B M g /\ is2 z2 B M g.
Proof.
  intros R bk bk1 bk2 e e1 e2 p p1 p2 B N1 N2 nb na M b b1 b2 a a1 a2 x x1 x2 zi uf uf1 uf2 bf af xf z0
    HB H1 H2 Hnb EM HM C C1 C2 D D1 D2 Hb Hb1 Hb2 Ha Ha1 Ha2 Hx Hx1 Hx2 Hz.
  destruct (lpv_lfilter_df2_partial R bk e p B (N1 + N2) nb na M b a x bf af xf (Some zi) z0 uf HB ltac:(lia) Hnb EM HM C Hb Ha Hx Hz) as (y & zo & E & Y & HZ).
  destruct (lpv_lfilter_df2_partial R bk1 e1 p1 B N1 nb na M b1 a1 x1 bf af xf (Some zi) z0 uf1 HB H1 Hnb EM HM C1 Hb1 Ha1 Hx1 Hz) as (y1 & zo1 & E1 & Y1 & HZ1).
  destruct (HZ D) as (z & -> & Z), (HZ1 D1) as (z1 & -> & Z1).
  destruct (lpv_lfilter_df2_partial R bk2 e2 p2 B N2 nb na M b2 a2 x2 _ _ _ (Some z1) _ uf2 HB H2 Hnb EM HM C2 Hb2 Ha2 Hx2
    (init_BM R B M z1 _ _ Z1 (fun _ _ _ _ => eq_refl))) as (y2 & zo2 & E2 & Y2 & HZ2).
  destruct (HZ2 D2) as (z2 & -> & Z2).
  exists y, z, y1, z1, y2, z2. do 2 eexists. do 3 (split; [assumption|]). split; [exact Y|]. split; [exact Y1|]. split; [|split; [exact Z|]].
  - eapply is2_ext; [exact Y2|]. intros i n Hi Hn. cbv beta. now rewrite vdf2_y_shift.
  - eapply is2_ext; [exact Z2|]. intros i k Hi Hk. cbv beta. now rewrite vdf2_shift.
Qed.
Print Assumptions lpv_lfilter_streaming_partial.
Theorem lpv_lfilter_tdf2_streaming_partial :
  forall (R : cring) e e1 e2 p p1 p2 B N1 N2 nb na M (b b1 b2 a a1 a2 x x1 x2 zi : tensor R) uf uf1 uf2 bf af xf z0,
  1 <= B -> 1 <= N1 -> 1 <= N2 -> 1 <= nb -> M = Nat.max na (nb - 1) -> 1 <= M ->
  lpv_backend_ok e p M -> lpv_backend_ok e1 p1 M -> lpv_backend_ok e2 p2 M ->
  unroll_good (N1 + N2) uf -> unroll_good N1 uf1 -> unroll_good N2 uf2 ->
  rk b = 2 \/ B <> N1 + N2 -> rk b1 = 2 \/ B <> N1 -> rk b2 = 2 \/ B <> N2 ->
  vcoef B (N1 + N2) nb b bf -> vcoef B N1 nb b1 bf -> vcoef B N2 nb b2 (fun i n => bf i (N1 + n)) ->
  vcoef B (N1 + N2) na a af -> vcoef B N1 na a1 af -> vcoef B N2 na a2 (fun i n => af i (N1 + n)) ->
  is2 x B (N1 + N2) xf -> is2 x1 B N1 xf -> is2 x2 B N2 (fun i n => xf i (N1 + n)) -> init B M (Some zi) z0 ->
  exists y z y1 z1 y2 z2 f g,
    lpv_lfilter e p b a x (Some zi) Tdf2 Ssm uf = Ok (y, Some z) /\
    lpv_lfilter e1 p1 b1 a1 x1 (Some zi) Tdf2 Ssm uf1 = Ok (y1, Some z1) /\
    lpv_lfilter e2 p2 b2 a2 x2 (Some z1) Tdf2 Ssm uf2 = Ok (y2, Some z2) /\
    is2 y B (N1 + N2) f /\ is2 y1 B N1 f /\ is2 y2 B N2 (fun i n => f i (N1 + n)) /\ is2 z B M g /\ is2 z2 B M g.
Proof.
  intros R e e1 e2 p p1 p2 B N1 N2 nb na M b b1 b2 a a1 a2 x x1 x2 zi uf uf1 uf2 bf af xf z0
    HB H1 H2 Hnb EM HM C C1 C2 U U1 U2 D D1 D2 Hb Hb1 Hb2 Ha Ha1 Ha2 Hx Hx1 Hx2 Hz.
  destruct (lpv_lfilter_tdf2_partial R e p B (N1 + N2) nb na M b a x bf af xf (Some zi) z0 uf HB ltac:(lia) Hnb EM HM C U D Hb Ha Hx Hz) as (y & zo & E & Y & z & -> & Z).
  destruct (lpv_lfilter_tdf2_partial R e1 p1 B N1 nb na M b1 a1 x1 bf af xf (Some zi) z0 uf1 HB H1 Hnb EM HM C1 U1 D1 Hb1 Ha1 Hx1 Hz) as (y1 & zo1 & E1 & Y1 & z1 & -> & Z1).
  destruct (lpv_lfilter_tdf2_partial R e2 p2 B N2 nb na M b2 a2 x2 _ _ _ (Some z1) _ uf2 HB H2 Hnb EM HM C2 U2 D2 Hb2 Ha2 Hx2
    (init_BM R B M z1 _ _ Z1 (fun _ _ _ _ => eq_refl))) as (y2 & zo2 & E2 & Y2 & z2 & -> & Z2).
  exists y, z, y1, z1, y2, z2. do 2 eexists. do 3 (split; [assumption|]). split; [exact Y|]. split; [exact Y1|]. split; [|split; [exact Z|]].
  - eapply is2_ext; [exact Y2|]. intros i n Hi Hn. cbv beta. now rewrite vtdf2_y_shift.
  - eapply is2_ext; [exact Z2|]. intros i k Hi Hk. cbv beta. symmetry. now rewrite vtdf2_shift.
Qed.
Print Assumptions lpv_lfilter_tdf2_streaming_partial.
Example lpv_lfilter_streaming_ex :
  let b := v2 [[1;2];[3;4];[5;6];[7;8]]%Z in let a := v2 [[1;1];[2;1];[3;1];[4;1]]%Z in let zi := v2 [[1;0]]%Z in
  show2' (lpv_lfilter env0 false b a (v2 [[1;0;0;1]]%Z) (Some zi) Df2 Ssm None) = Some (Some ([1;4], [2;-3;9;-46]%Z), Some ([1;2], [-10;3]%Z)) /\
  show2' (lpv_lfilter env0 false (slice 0 None (Some 2%Z) b) (slice 0 None (Some 2%Z) a) (v2 [[1;0]]%Z) (Some zi) Df2 TorchLpc None)
    = Some (Some ([1;2], [2;-3]%Z), Some ([1;2], [-1;0]%Z)) /\
  show2' (lpv_lfilter env0 false (slice 0 (Some 2%Z) None b) (slice 0 (Some 2%Z) None a) (v2 [[0;1]]%Z) (Some (v2 [[-1;0]]%Z)) Df2 Ssm (Some 1))
    = Some (Some ([1;2], [9;-46]%Z), Some ([1;2], [-10;3]%Z)).
Proof. cbv zeta. repeat split; vm_compute; reflexivity. Qed.

(** ** C16, C17: rows are independent and every form of the state-space back-end is
    causal, in the signal and in the coefficient trajectories. *)
Theorem lpv_lfilter_batch_causal_partial :
  forall (R : cring) e e' p p' B B' i i' N N' nb na M (b a x b' a' x' : tensor R) bf af xf bf' af' xf' zi zi' z0 z0' uf uf' fm n,
  i < B -> i' < B' -> n < N -> n < N' -> 1 <= nb -> M = Nat.max na (nb - 1) -> 1 <= M ->
  lpv_backend_ok e p M -> lpv_backend_ok e' p' M -> unroll_good N uf -> unroll_good N' uf' -> fm <> OtherForm ->
  (fm = Df2 \/ fm = Tdf2 -> (rk b = 2 /\ rk a = 2 \/ B <> N) /\ (rk b' = 2 /\ rk a' = 2 \/ B' <> N')) ->
  vcoef B N nb b bf -> vcoef B N na a af -> is2 x B N xf -> init B M zi z0 ->
  vcoef B' N' nb b' bf' -> vcoef B' N' na a' af' -> is2 x' B' N' xf' -> init B' M zi' z0' ->
  (forall m k, m <= n -> k < nb -> bf i m k = bf' i' m k) -> (forall m k, m <= n -> k < na -> af i m k = af' i' m k) ->
  (forall k, k < M -> z0 i k = z0' i' k) -> (forall m, m <= n -> xf i m = xf' i' m) ->
  exists y z y' z' f f', lpv_lfilter e p b a x zi fm Ssm uf = Ok (y, z) /\ lpv_lfilter e' p' b' a' x' zi' fm Ssm uf' = Ok (y', z') /\
    is2 y B N f /\ is2 y' B' N' f' /\ forall m, m <= n -> f i m = f' i' m.
Proof.
  intros R e e' p p' B B' i i' N N' nb na M b a x b' a' x' bf af xf bf' af' xf' zi zi' z0 z0' uf uf' fm n
    Hi Hi' HN HN' Hnb EM HM He He' U U' Hfm HBN Hb Ha Hx Hz Hb' Ha' Hx' Hz' Xb Xa Xz Xx.
  assert (D : has_state fm = true -> fm = Df2 \/ fm = Tdf2) by (destruct fm; cbn; auto; discriminate).
  destruct (lpv_lfilter_ssm_spec R e p B N nb na M b a x bf af xf uf ltac:(lia) ltac:(lia) Hnb EM HM He Hb Ha Hx U fm zi z0 Hz Hfm) as (y & z & f & E & Y & S).
  { intro H. apply (HBN (D H)). }
  destruct (lpv_lfilter_ssm_spec R e' p' B' N' nb na M b' a' x' bf' af' xf' uf' ltac:(lia) ltac:(lia) Hnb EM HM He' Hb' Ha' Hx' U' fm zi' z0' Hz' Hfm) as (y' & z' & f' & E' & Y' & S').
  { intro H. apply (HBN (D H)). }
  exists y, z, y', z', f, f'. do 4 (split; [assumption|]). intros m Hm.
  apply (lpv_sol_ext R fm M N N' _ _ _ _ _ _ _ _ _ _ m HM ltac:(lia) ltac:(lia)) with (5 := S i Hi) (6 := S' i' Hi'); auto.
  - intros j k Hj Hk. apply padz_ext. intros l Hl. apply Xb; lia.
  - intros j k Hj Hk. apply padz_ext. intros l Hl. apply Xa; lia.
  - intros j Hj. apply Xx. lia.
Qed.
Print Assumptions lpv_lfilter_batch_causal_partial.
Example lpv_lfilter_causal_ex :
  let b := v2 [[1;2];[3;4];[5;6]]%Z in let b' := v3 [[[1;2];[3;4];[7;7];[7;7]];[[0;0];[0;0];[0;0];[0;0]]]%Z in
  let a := v2 [[1];[2];[3]]%Z in let a' := v2 [[1];[2];[9];[9]]%Z in
  show2' (lpv_lfilter env0 false b a (v2 [[0;0;0];[1;2;3]]%Z) None Tdf1 Ssm None) = Some (Some ([2;3], [0;0;0; 1;2;15]%Z), None) /\
  show2' (lpv_lfilter env0 false b' a' (v2 [[1;2;8;8];[0;0;0;0]]%Z) None Tdf1 Ssm (Some 3)) = Some (Some ([2;4], [1;2;56;-392; 0;0;0;0]%Z), None).
Proof. cbv zeta. repeat split; vm_compute; reflexivity. Qed.

(** ** C18: linearity in input and state. *)
Theorem lpv_lfilter_linear_partial :
  forall (R : cring) bk e p B N nb na M (b a x x1 x2 zi zi1 zi2 : tensor R) bf af xf1 xf2 z1 z2 c1 c2 uf,
  1 <= B -> 1 <= N -> 1 <= nb -> M = Nat.max na (nb - 1) -> 1 <= M -> lpv_cfg bk e p B N na M b a uf -> bk = Ssm \/ na <= N ->
  vcoef B N nb b bf -> vcoef B N na a af -> is2 x1 B N xf1 -> is2 x2 B N xf2 -> init B M (Some zi1) z1 -> init B M (Some zi2) z2 ->
  is2 x B N (fun i n => radd (rmul c1 (xf1 i n)) (rmul c2 (xf2 i n))) ->
  init B M (Some zi) (fun i k => radd (rmul c1 (z1 i k)) (rmul c2 (z2 i k))) ->
  forall fm, fm = Df2 \/ (fm = Tdf2 /\ bk = Ssm) ->
  exists y w y1 w1 y2 w2 f1 f2 g1 g2,
    lpv_lfilter e p b a x (Some zi) fm bk uf = Ok (y, Some w) /\ lpv_lfilter e p b a x1 (Some zi1) fm bk uf = Ok (y1, Some w1) /\
    lpv_lfilter e p b a x2 (Some zi2) fm bk uf = Ok (y2, Some w2) /\
    is2 y1 B N f1 /\ is2 y2 B N f2 /\ is2 w1 B M g1 /\ is2 w2 B M g2 /\
    is2 y B N (fun i n => radd (rmul c1 (f1 i n)) (rmul c2 (f2 i n))) /\
    is2 w B M (fun i k => radd (rmul c1 (g1 i k)) (rmul c2 (g2 i k))).
Proof.
  intros R bk e p B N nb na M b a x x1 x2 zi zi1 zi2 bf af xf1 xf2 z1 z2 c1 c2 uf HB HN Hnb EM HM C D Hb Ha Hx1 Hx2 Hz1 Hz2 Hx Hz fm [-> |[-> ->]].
  - destruct (lpv_lfilter_df2_partial R bk e p B N nb na M b a x bf af _ (Some zi) _ uf HB HN Hnb EM HM C Hb Ha Hx Hz) as (y & zo & E & Y & HZ).
    destruct (lpv_lfilter_df2_partial R bk e p B N nb na M b a x1 bf af _ (Some zi1) _ uf HB HN Hnb EM HM C Hb Ha Hx1 Hz1) as (y1 & zo1 & E1 & Y1 & HZ1).
    destruct (lpv_lfilter_df2_partial R bk e p B N nb na M b a x2 bf af _ (Some zi2) _ uf HB HN Hnb EM HM C Hb Ha Hx2 Hz2) as (y2 & zo2 & E2 & Y2 & HZ2).
    destruct (HZ D) as (w & -> & W), (HZ1 D) as (w1 & -> & W1), (HZ2 D) as (w2 & -> & W2).
    exists y, w, y1, w1, y2, w2. do 4 eexists. do 3 (split; [assumption|]). do 4 (split; [eassumption|]). split.
    + eapply is2_ext; [exact Y|]. intros i n Hi Hn. cbv beta. apply vdf2_y_lin.
    + eapply is2_ext; [exact W|]. intros i k Hi Hk. cbv beta. apply vdf2_z_lin.
  - destruct C as (He & Hu & HBN). assert (K : rk b = 2 \/ B <> N) by (destruct HBN as [[? ?]|?]; auto).
    destruct (lpv_lfilter_tdf2_partial R e p B N nb na M b a x bf af _ (Some zi) _ uf HB HN Hnb EM HM He Hu K Hb Ha Hx Hz) as (y & zo & E & Y & w & -> & W).
    destruct (lpv_lfilter_tdf2_partial R e p B N nb na M b a x1 bf af _ (Some zi1) _ uf HB HN Hnb EM HM He Hu K Hb Ha Hx1 Hz1) as (y1 & zo1 & E1 & Y1 & w1 & -> & W1).
    destruct (lpv_lfilter_tdf2_partial R e p B N nb na M b a x2 bf af _ (Some zi2) _ uf HB HN Hnb EM HM He Hu K Hb Ha Hx2 Hz2) as (y2 & zo2 & E2 & Y2 & w2 & -> & W2).
    exists y, w, y1, w1, y2, w2. do 4 eexists. do 3 (split; [assumption|]). do 4 (split; [eassumption|]). split.
    + eapply is2_ext; [exact Y|]. intros i n Hi Hn. cbv beta. apply vtdf2_y_lin.
    + eapply is2_ext; [exact W|]. intros i k Hi Hk. cbv beta. apply vtdf2_z_lin.
Qed.
Print Assumptions lpv_lfilter_linear_partial.
Example lpv_lfilter_linear_ex :
  let b := v2 [[1;2];[3;4]]%Z in let a := v2 [[1];[2]]%Z in
  show2' (lpv_lfilter env0 false b a (v2 [[1;0]]%Z) (Some (v2 [[2]]%Z)) Tdf2 Ssm None) = Some (Some ([1;2], [3;-1]%Z), Some ([1;1], [2]%Z)) /\
  show2' (lpv_lfilter env0 false b a (v2 [[0;1]]%Z) (Some (v2 [[1]]%Z)) Tdf2 Ssm None) = Some (Some ([1;2], [1;2]%Z), Some ([1;1], [0]%Z)) /\
  show2' (lpv_lfilter env0 false b a (v2 [[2;3]]%Z) (Some (v2 [[7]]%Z)) Tdf2 Ssm None) = Some (Some ([1;2], [9;4]%Z), Some ([1;1], [4]%Z)).
Proof. cbv zeta. repeat split; vm_compute; reflexivity. Qed.

(** ** C46: unbatched signals, for every back-end and every outcome. *)
Theorem lpv_lfilter_unbatched :
  forall (R : cring) e p (b a x : tensor R) zi fm bk uf,
  rk x = 1 -> rk b = 2 -> rk a = 2 -> (forall z, zi = Some z -> rk z = 1) ->
  lpv_lfilter e p b a x zi fm bk uf =
  match lpv_lfilter e p b a (unsqueeze 0 x) zi fm bk uf with
  | Ok (y, z) => Ok (squeeze 0 y, match z with Some z => Some (squeeze 0 z) | None => None end)
  | Err err => Err err
  end.
Proof.
  intros R e p b a x zi fm bk uf Hx Hb Ha Hz. unfold lpv_lfilter, lpv_lfilter_wrap.
  assert (Hu : rk (unsqueeze 0 x) = 2) by (unfold unsqueeze, rk; cbn; unfold rk in Hx; now rewrite Hx).
  assert (Hz' : match zi with None => true | Some z => rk z =? 1 end = true).
  { destruct zi as [z|]; [|reflexivity]. now rewrite (Hz z eq_refl). }
  rewrite Hu, Hx, Hb, Ha, Hz'. cbn [Nat.eqb Nat.ltb Nat.leb andb orb bind].
  match goal with |- context [bind ?c _] => destruct c as [[y z]|]; reflexivity end.
Qed.
Print Assumptions lpv_lfilter_unbatched.
(** In values: the 1-D result is the row of the 2-D result (all forms, state-space back-end). *)
Theorem lpv_lfilter_unbatched_values_partial :
  forall (R : cring) e p N nb na M (b a x x' : tensor R) bf af xf uf fm,
  1 <= N -> 1 <= nb -> M = Nat.max na (nb - 1) -> 1 <= M -> lpv_backend_ok e p M -> unroll_good N uf -> fm <> OtherForm ->
  is2 b N nb bf -> is2 a N na af -> is1 x N xf -> is2 x' 1 N (fun _ => xf) ->
  exists y zf y' zf' f, lpv_lfilter e p b a x None fm Ssm uf = Ok (y, zf) /\ lpv_lfilter e p b a x' None fm Ssm uf = Ok (y', zf') /\
    is1 y N f /\ is2 y' 1 N (fun _ => f).
Proof.
  intros R e p N nb na M b a x x' bf af xf uf fm HN Hnb EM HM He Hu Hfm Hb Ha Hx Hx'.
  assert (Vb : vcoef 1 N nb b (fun _ => bf)) by (eapply vc_s; [exact Hb|reflexivity]).
  assert (Va : vcoef 1 N na a (fun _ => af)) by (eapply vc_s; [exact Ha|reflexivity]).
  assert (Rb : rk b = 2) by (unfold rk; now rewrite (proj1 Hb)). assert (Ra : rk a = 2) by (unfold rk; now rewrite (proj1 Ha)).
  assert (Hux : is2 (unsqueeze 0 x) 1 N (fun _ => xf)).
  { destruct Hx as [Hs Hf]. split; [unfold unsqueeze; cbn; now rewrite Hs|]. intros i k Hi Hk. cbn. now rewrite <- Hf. }
  destruct (lpv_lfilter_ssm_spec R e p 1 N nb na M b a _ _ _ _ uf ltac:(lia) HN Hnb EM HM He Vb Va Hux Hu fm None (fun _ _ => r0)) as (y & z & f & E & Y & S);
    [now apply init_0|exact Hfm|auto|].
  destruct (lpv_lfilter_ssm_spec R e p 1 N nb na M b a _ _ _ _ uf ltac:(lia) HN Hnb EM HM He Vb Va Hx' Hu fm None (fun _ _ => r0)) as (y' & z' & f' & E' & Y' & S');
    [now apply init_0|exact Hfm|auto|].
  do 4 eexists. exists (f 0). split.
  - rewrite lpv_lfilter_unbatched; [rewrite E; reflexivity| |exact Rb|exact Ra|discriminate]. unfold rk. now rewrite (proj1 Hx).
  - split; [exact E'|]. split; [exact (squeeze0_2 R y N _ Y)|]. eapply is2_ext; [exact Y'|]. intros i n Hi Hn. replace i with 0 by lia.
    apply (lpv_sol_ext R fm M N N _ _ _ _ _ _ _ _ _ _ n HM Hn Hn) with (5 := S' 0 ltac:(lia)) (6 := S 0 ltac:(lia)); auto.
Qed.
Print Assumptions lpv_lfilter_unbatched_values_partial.
Example lpv_lfilter_unbatched_ex :
  let b := v2 [[1;2];[3;4];[5;6]]%Z in let a := v2 [[1];[2];[3]]%Z in
  show2' (lpv_lfilter env0 false b a (v1 [1;2;3]%Z) None Df2 Ssm None) = Some (Some ([3], [1;4;15]%Z), None) /\
  show2' (lpv_lfilter env0 false b a (v2 [[1;2;3]]%Z) None Df2 Ssm None) = Some (Some ([1;3], [1;4;15]%Z), None) /\
  show2' (lpv_lfilter env0 false b a (v1 [1;2;3]%Z) (Some (v1 [1]%Z)) Df2 TorchLpc None) = Some (Some ([3], [2;6;-3]%Z), Some ([1], [-3]%Z)).
Proof. cbv zeta. repeat split; vm_compute; reflexivity. Qed.

(** ** C45: argument errors. *)
Theorem lpv_lfilter_rank_error :
  forall (R : cring) e p (b a x : tensor R) zi fm bk uf, 3 <= rk x -> lpv_lfilter e p b a x zi fm bk uf = Err ValueError.
Proof.
  intros. unfold lpv_lfilter, lpv_lfilter_wrap.
  rewrite (proj2 (Nat.eqb_neq (rk x) 1)) by lia. rewrite (proj2 (Nat.ltb_lt 2 (rk x))) by lia. reflexivity.
Qed.
Print Assumptions lpv_lfilter_rank_error.
Theorem lpv_lfilter_backend_error :
  forall (R : cring) e p (b a x : tensor R) zi fm uf,
  1 <= rk x <= 2 -> 2 <= rk b <= 3 -> 2 <= rk a <= 3 -> lpv_lfilter e p b a x zi fm OtherBackend uf = Err ValueError.
Proof.
  intros R e p b a x zi fm uf Hx Hb Ha. unfold lpv_lfilter, lpv_lfilter_wrap.
  assert (Rx : rk x = 1 \/ rk x = 2) by lia. assert (Rb : rk b = 2 \/ rk b = 3) by lia. assert (Ra : rk a = 2 \/ rk a = 3) by lia.
  destruct Rx as [-> | ->], Rb as [-> | ->], Ra as [-> | ->]; reflexivity.
Qed.
Print Assumptions lpv_lfilter_backend_error.
Theorem lpv_lfilter_form_error :
  forall (R : cring) bk e p B N nb na M (b a x : tensor R) bf af xf zi z0 uf,
  1 <= B -> 1 <= N -> 1 <= nb -> 1 <= na -> M = Nat.max na (nb - 1) ->
  vcoef B N nb b bf -> vcoef B N na a af -> is2 x B N xf -> init B M zi z0 ->
  lpv_lfilter e p b a x zi OtherForm bk uf = Err ValueError.
Proof.
  intros R bk e p B N nb na M b a x bf af xf zi z0 uf HB HN Hnb Hna EM Hb Ha Hx Hz.
  unfold lpv_lfilter. rewrite (lpv_wrap R B N nb na b a x _ bf af xf zi Hb Ha Hx). destruct bk; [| |reflexivity].
  - unfold lpv_ssm_lfilter. rewrite (proj1 (vcoef_size R _ _ _ _ _ Hb)), (proj1 (vcoef_size R _ _ _ _ _ Ha)).
    destruct (vpad_a R B N nb na M a af HB HN Hnb EM ltac:(lia) Ha) as (a' & -> & Ha' & _).
    destruct (companion_matv R B N M a' _ Ha') as (A & -> & _). reflexivity.
  - destruct (torchlpc_unfold R B N nb na M b a x bf af xf HB HN Hnb Hna EM Hb Ha (xs_B R _ _ _ _ _ _ Hx) zi z0 OtherForm Hz) as (? & ? & ? & ? & _ & _ & _ & _ & ->). reflexivity.
Qed.
Print Assumptions lpv_lfilter_form_error.
Example lpv_lfilter_error_ex :
  let b := v2 [[1;2];[3;4]]%Z in let a := v2 [[1];[2]]%Z in let x := v2 [[1;0]]%Z in
  lpv_lfilter env0 false b a x None OtherForm TorchLpc None = Err ValueError /\
  lpv_lfilter env0 false b a x None OtherForm Ssm None = Err ValueError /\
  lpv_lfilter env0 false b a x None Df2 OtherBackend None = Err ValueError /\
  lpv_lfilter env0 false b a (v3 [[[1;0]]]%Z) None Df2 Ssm None = Err ValueError.
Proof. cbv zeta. repeat split; vm_compute; reflexivity. Qed.
