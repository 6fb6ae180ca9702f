(** Batch independence, causality and linearity (C16, C17, C18) of lpv.lfilter: the
    state-space back-end with every unroll factor, and the torchlpc back-end. *)
From Coq Require Import List Arith Lia ZArith Bool Ring.
From Verif Require Import Scalar Tensor TensorLemmas TensorList TensorTac Spec Shapes SpecFilter SpecLpv Algebra M_Mat M_Kernels M_LtiSsm M_LpvSsm M_LtiFilter
  M_LpvFilter P_LtiSsm P_LpvSs P_LpvSsm P_LpvSs2 P_Filter P_LtiFilter P_LpvAlg P_LpvFilter P_LpvFilter2 P_LpvFilter5
  Properties_LpvSsm Properties_LtiFilter Properties_LpvFilter Properties_LpvFilter2 Properties_Rel.
Import ListNotations.
Local Open Scope nat_scope.

(** Two calls of the same configuration (form, length, factor, back-end) whose rows i and i'
    agree up to time n agree up to time n; if they agree everywhere, so do the states. *)
Theorem C16_C17_lpv_lfilter_any_factor :
  forall (R : cring) e p B B' i i' N nb na M (b a x b' a' x' : tensor R) bf af xf bf' af' xf' zi zi' z0 z0' uf fm n,
  i < B -> i' < B' -> n < N -> 1 <= nb -> M = Nat.max na (nb - 1) -> 1 <= M ->
  lpv_backend_ok e p M -> (forall u, uf = Some u -> 1 <= u) -> fm <> OtherForm ->
  (fm = Df2 \/ fm = Tdf2 -> (rk b = 2 /\ rk a = 2 \/ B <> N) /\ (rk b' = 2 /\ rk a' = 2 \/ B' <> N)) ->
  vcoef B N nb b bf -> vcoef B N na a af -> is2 x B N xf -> init B M zi z0 ->
  vcoef B' N nb b' bf' -> vcoef B' N na a' af' -> is2 x' B' N xf' -> init B' M zi' z0' ->
  (forall m k, m <= n -> k < nb -> bf i m k = bf' i' m k) -> (forall m k, m <= n -> k < na -> af i m k = af' i' m k) ->
  (forall k, k < M -> z0 i k = z0' i' k) -> (forall m, m <= n -> xf i m = xf' i' m) ->
  exists y z y' z' f f', lpv_lfilter e p b a x zi fm Ssm uf = Ok (y, z) /\ lpv_lfilter e p b' a' x' zi' fm Ssm uf = Ok (y', z') /\
    is2 y B N f /\ is2 y' B' N f' /\ (forall m, m <= n -> f i m = f' i' m) /\
    (S n = N -> forall w w', z = Some w -> z' = Some w' -> exists g g', is2 w B M g /\ is2 w' B' M g' /\ forall k, k < M -> g i k = g' i' k).
Proof.
  intros R e p B B' i i' N nb na M b a x b' a' x' bf af xf bf' af' xf' zi zi' z0 z0' uf fm n
    Hi Hi' Hn Hnb EM HM He U Hfm HBN Hb Ha Hx Hz Hb' Ha' Hx' Hz' Xb Xa Xz Xx.
  assert (D : has_state fm = true -> fm = Df2 \/ fm = Tdf2) by (destruct fm; cbn; auto; discriminate).
  destruct (lpv_lfilter_any R e p B N nb na M b a x bf af xf uf ltac:(lia) ltac:(lia) Hnb EM HM He U Hb Ha Hx fm zi z0 Hz Hfm) as (y & z & E & Y & Z).
  { intro H. apply (HBN (D H)). }
  destruct (lpv_lfilter_any R e p B' N nb na M b' a' x' bf' af' xf' uf ltac:(lia) ltac:(lia) Hnb EM HM He U Hb' Ha' Hx' fm zi' z0' Hz' Hfm) as (y' & z' & E' & Y' & Z').
  { intro H. apply (HBN (D H)). }
  pose proof (form_uf_pos e p B N nb na M uf ltac:(lia) ltac:(lia) Hnb EM HM U fm) as HP.
  exists y, z, y', z'. do 2 eexists. do 2 (split; [assumption|]). split; [exact Y|]. split; [exact Y'|]. split.
  - intros m Hm. cbv beta. apply form_y_ext; auto.
    + intros. apply padz_ext. intros. apply Xb; lia.
    + intros. apply padz_ext. intros. apply Xa; lia.
    + intros. apply Xx. lia.
  - intros QN w w' -> ->. destruct zi, zi'; try discriminate. destruct (has_state fm); [|discriminate].
    destruct Z as (? & [= <-] & Z), Z' as (? & [= <-] & Z').
    do 2 eexists. split; [exact Z|]. split; [exact Z'|]. intros k Hk. cbv beta. apply form_h_ext; auto.
    + intros. apply padz_ext. intros. apply Xb; lia.
    + intros. apply padz_ext. intros. apply Xa; lia.
    + intros. apply Xx. lia.
Qed.
Print Assumptions C16_C17_lpv_lfilter_any_factor.
Theorem C18_lpv_lfilter_any_factor :
  forall (R : cring) e p B N nb na M (b a x x1 x2 zi zi1 zi2 : tensor R) bf af xf1 xf2 z1 z2 c1 c2 uf fm,
  1 <= B -> 1 <= N -> 1 <= nb -> M = Nat.max na (nb - 1) -> 1 <= M ->
  lpv_backend_ok e p M -> (forall u, uf = Some u -> 1 <= u) -> fm <> OtherForm -> (fm = Df2 \/ fm = Tdf2 -> rk b = 2 /\ rk a = 2 \/ B <> N) ->
  vcoef B N nb b bf -> vcoef B N na a af -> is2 x1 B N xf1 -> is2 x2 B N xf2 -> init B M (Some zi1) z1 -> init B M (Some zi2) z2 ->
  is2 x B N (fun i n => radd (rmul c1 (xf1 i n)) (rmul c2 (xf2 i n))) ->
  init B M (Some zi) (fun i k => radd (rmul c1 (z1 i k)) (rmul c2 (z2 i k))) ->
  exists y w y1 w1 y2 w2 f1 f2,
    lpv_lfilter e p b a x (Some zi) fm Ssm uf = Ok (y, w) /\ lpv_lfilter e p b a x1 (Some zi1) fm Ssm uf = Ok (y1, w1) /\
    lpv_lfilter e p b a x2 (Some zi2) fm Ssm uf = Ok (y2, w2) /\
    is2 y1 B N f1 /\ is2 y2 B N f2 /\ is2 y B N (fun i n => radd (rmul c1 (f1 i n)) (rmul c2 (f2 i n))) /\
    (fm = Df2 \/ fm = Tdf2 -> exists v v1 v2 g1 g2, w = Some v /\ w1 = Some v1 /\ w2 = Some v2 /\ is2 v1 B M g1 /\ is2 v2 B M g2 /\
       is2 v B M (fun i k => radd (rmul c1 (g1 i k)) (rmul c2 (g2 i k)))).
Proof.
  intros R e p B N nb na M b a x x1 x2 zi zi1 zi2 bf af xf1 xf2 z1 z2 c1 c2 uf fm HB HN Hnb EM HM He U Hfm HBN Hb Ha Hx1 Hx2 Hz1 Hz2 Hx Hz.
  assert (D : has_state fm = true -> rk b = 2 /\ rk a = 2 \/ B <> N) by (destruct fm; cbn; auto; discriminate).
  destruct (lpv_lfilter_any R e p B N nb na M b a x bf af _ uf HB HN Hnb EM HM He U Hb Ha Hx fm _ _ Hz Hfm D) as (y & w & E & Y & Z).
  destruct (lpv_lfilter_any R e p B N nb na M b a x1 bf af _ uf HB HN Hnb EM HM He U Hb Ha Hx1 fm _ _ Hz1 Hfm D) as (y1 & w1 & E1 & Y1 & Z1).
  destruct (lpv_lfilter_any R e p B N nb na M b a x2 bf af _ uf HB HN Hnb EM HM He U Hb Ha Hx2 fm _ _ Hz2 Hfm D) as (y2 & w2 & E2 & Y2 & Z2).
  exists y, w, y1, w1, y2, w2. do 2 eexists. do 3 (split; [assumption|]). split; [exact Y1|]. split; [exact Y2|]. split.
  - eapply is2_ext; [exact Y|]. intros i n Hi Hn. cbv beta. apply form_y_lin.
  - intro H. assert (Hs : has_state fm = true) by (destruct H as [-> | ->]; reflexivity). rewrite Hs in *.
    destruct Z as (v & -> & V), Z1 as (v1 & -> & V1), Z2 as (v2 & -> & V2).
    exists v, v1, v2. do 2 eexists. do 3 (split; [reflexivity|]). split; [exact V1|]. split; [exact V2|].
    eapply is2_ext; [exact V|]. intros i k Hi Hk. cbv beta. apply form_h_lin.
Qed.
Print Assumptions C18_lpv_lfilter_any_factor.

(** ** torchlpc: one function of row and form describes every call. *)
Section Lpc.
Variable R : cring.
Add Ring Rr : (r_th R).
Local Open Scope cr_scope.
Definition lpc_sol (fm : form) (nb na N : nat) (b a : nat -> nat -> R) (z x y : nat -> R) : Prop :=
  match fm with
  | Df2 => forall n, (n < N)%nat -> y n = vconv_with (nb - 1) b (fun k => vdf2_z na a z x (S k) 0) z n
  | Df1 => forall n, (n < N)%nat -> vpole na a (vconv (nb - 1) b x) y (fun _ => 0) n
  | Tdf1 => exists w, forall n, (n < N)%nat -> vpolet na (fun n k => conj (a n k)) x w n /\ y n = vconvt (nb - 1) (fun n k => conj (b n k)) w n
  | _ => False
  end.
Lemma torchlpc_sol e p B N nb na M (b a x : tensor R) bf af xf zi z0 uf fm :
  (1 <= B)%nat -> (1 <= N)%nat -> (1 <= nb)%nat -> (1 <= na)%nat -> M = Nat.max na (nb - 1) ->
  vcoef B N nb b bf -> vcoef B N na a af -> is2 x B N xf -> init B M zi z0 ->
  fm = Df1 \/ fm = Df2 \/ fm = Tdf1 /\ (2 <= nb)%nat /\ (na <= N)%nat ->
  exists y zf yf, lpv_lfilter e p b a x zi fm TorchLpc uf = Ok (y, zf) /\ is2 y B N yf /\
    forall i, (i < B)%nat -> lpc_sol fm nb na N (bf i) (af i) (z0 i) (xf i) (yf i).
Proof.
  intros HB HN Hnb Hna EM Hb Ha Hx Hz Hfm. unfold lpv_lfilter. rewrite (lpv_wrap R B N nb na b a x _ bf af xf zi Hb Ha Hx).
  destruct Hfm as [-> |[-> |(-> & Hnb2 & HnaN)]].
  - destruct (torchlpc_df1_spec R B N nb na M b a x bf af xf HB HN Hnb Hna EM Hb Ha (xs_B R _ _ _ _ _ _ Hx) zi z0 Hz) as (y & E & yf & Y & H).
    exists y, None, yf. split; [exact E|]. split; [exact Y|]. intros i Hi n Hn. now apply H.
  - destruct (torchlpc_df2_spec R B N nb na M b a x bf af xf HB HN Hnb Hna EM Hb Ha (xs_B R _ _ _ _ _ _ Hx) zi z0 Hz) as (y & zf & E & Y & _).
    do 3 eexists. split; [exact E|]. split; [exact Y|]. intros i Hi n Hn. cbv beta. apply (vdf2_y_pad R B N nb na M bf af HB HN Hnb Hna EM).
  - destruct (torchlpc_tdf1_spec R B N nb na M b a x bf af xf HB HN Hnb Hna EM Hb Ha (xs_B R _ _ _ _ _ _ Hx) zi z0 Hz Hnb2 HnaN) as (y & E & yf & wf & Y & H).
    exists y, None, yf. split; [exact E|]. split; [exact Y|]. intros i Hi. exists (wf i). intros n Hn. now apply H.
Qed.
Lemma lpc_sol_ext fm nb na N N' b b' a a' (z z' x x' y y' : nat -> R) n : (1 <= nb)%nat -> (n < N)%nat -> (n < N')%nat ->
  (forall m k, (m <= n)%nat -> (k < nb)%nat -> b m k = b' m k) -> (forall m k, (m <= n)%nat -> (k < na)%nat -> a m k = a' m k) ->
  (forall k, (k < Nat.max na (nb - 1))%nat -> z k = z' k) -> (forall m, (m <= n)%nat -> x m = x' m) ->
  lpc_sol fm nb na N b a z x y -> lpc_sol fm nb na N' b' a' z' x' y' -> y n = y' n.
Proof.
  intros Hnb Hn Hn' Hb Ha Hz Hx. destruct fm; cbn [lpc_sol]; try contradiction.
  - intros H H'. rewrite H, H' by assumption. apply vconv_with_ext.
    + intros k Hk. apply Hb; lia.
    + intros m Hm. assert (K : forall t k, (t <= S n)%nat -> (k < Nat.max na (nb - 1))%nat -> vdf2_z na a z x t k = vdf2_z na a' z' x' t k).
      { induction t as [|t IH]; intros k Ht Hk; [apply Hz; exact Hk|]. cbn [vdf2_z]. destruct k as [|k]; [|apply IH; lia].
        rewrite Hx by lia. f_equal. apply bsum_ext. intros j Hj. rewrite Ha, IH by lia. reflexivity. }
      destruct na as [|na']; [|apply K; lia]. cbn [vdf2_z bsum]. now rewrite Hx by lia.
    + intros k Hk. apply Hz. lia.
  - intros H H'. apply (vpole_unique R na a (vconv (nb - 1) b x) y y' (fun _ => 0) (S n)); [intros; apply H; lia| |lia].
    intros m Hm. eapply (vpole_ext R); [| | | |apply (H' m); lia]; auto; [intros; symmetry; apply Ha; lia|].
    apply vconv_ext; intros; symmetry; [apply Hb|apply Hx]; lia.
  - intros [w H] [w' H']. rewrite (proj2 (H n Hn)), (proj2 (H' n Hn')). apply vconvt_ext; [intros; f_equal; apply Hb; lia|]. intros m Hm.
    apply (vpolet_unique R na (fun n k => conj (a n k)) x w w' (S n)); [intros; apply H; lia| |lia].
    intros j Hj. eapply (vpolet_ext R); [| |apply (proj1 (H' j ltac:(lia)))].
    + intros l k Hl Hk. cbv beta. f_equal. symmetry. apply Ha; lia.
    + symmetry. apply Hx. lia.
Qed.
Lemma vconv_lin P (b : nat -> nat -> R) c1 c2 (x1 x2 : nat -> R) n :
  vconv P b (fun m => c1 * x1 m + c2 * x2 m) n = c1 * vconv P b x1 n + c2 * vconv P b x2 n.
Proof.
  unfold vconv. rewrite <- !bsum_mul_l, <- bsum_add. apply bsum_ext. intros k Hk. unfold dly. destruct (k <=? n)%nat; ring.
Qed.
Lemma lpc_sol_lin fm nb na N b a c1 c2 (z1 z2 x1 x2 y1 y2 : nat -> R) :
  lpc_sol fm nb na N b a z1 x1 y1 -> lpc_sol fm nb na N b a z2 x2 y2 ->
  lpc_sol fm nb na N b a (fun k => c1 * z1 k + c2 * z2 k) (fun k => c1 * x1 k + c2 * x2 k) (fun k => c1 * y1 k + c2 * y2 k).
Proof.
  destruct fm; cbn [lpc_sol]; try contradiction.
  - intros H1 H2 n Hn. rewrite H1, H2 by exact Hn. symmetry. etransitivity; [|apply vconv_with_lin].
    apply vconv_with_ext; auto. intros. apply vdf2_z_lin.
  - intros H1 H2 n Hn. specialize (H1 n Hn). specialize (H2 n Hn). unfold vpole in *.
    rewrite (vconv_lin (nb - 1) b c1 c2 x1 x2 n), <- H1, <- H2.
    rewrite (bsum_ext na _ (fun k => c1 * (a n k * hist y1 (fun _ => 0) n k) + c2 * (a n k * hist y2 (fun _ => 0) n k)))
      by (intros k Hk; unfold hist; destruct (k <? n)%nat; ring).
    rewrite bsum_add, !bsum_mul_l. ring.
  - intros [w1 H1] [w2 H2]. exists (fun k => c1 * w1 k + c2 * w2 k). intros n Hn.
    destruct (H1 n Hn) as [P1 Q1], (H2 n Hn) as [P2 Q2]. split; [|rewrite Q1, Q2; symmetry; apply vconvt_lin].
    unfold vpolet in *. rewrite <- P1, <- P2.
    rewrite (bsum_ext na _ (fun k => c1 * (dly (fun m => conj (a m k) * w1 m) (S k) n) + c2 * (dly (fun m => conj (a m k) * w2 m) (S k) n)))
      by (intros k Hk; unfold dly; destruct (S k <=? n)%nat; ring).
    rewrite bsum_add, !bsum_mul_l. ring.
Qed.
End Lpc.
Theorem C16_C17_lpv_lfilter_torchlpc :
  forall (R : cring) e e' p p' B B' i i' N N' nb na M (b a x b' a' x' : tensor R) bf af xf bf' af' xf' zi zi' z0 z0' uf uf' fm n,
  i < B -> i' < B' -> n < N -> n < N' -> 1 <= nb -> 1 <= na -> M = Nat.max na (nb - 1) ->
  fm = Df1 \/ fm = Df2 \/ fm = Tdf1 /\ 2 <= nb /\ na <= N /\ na <= N' ->
  vcoef B N nb b bf -> vcoef B N na a af -> is2 x B N xf -> init B M zi z0 ->
  vcoef B' N' nb b' bf' -> vcoef B' N' na a' af' -> is2 x' B' N' xf' -> init B' M zi' z0' ->
  (forall m k, m <= n -> k < nb -> bf i m k = bf' i' m k) -> (forall m k, m <= n -> k < na -> af i m k = af' i' m k) ->
  (forall k, k < M -> z0 i k = z0' i' k) -> (forall m, m <= n -> xf i m = xf' i' m) ->
  exists y z y' z' f f', lpv_lfilter e p b a x zi fm TorchLpc uf = Ok (y, z) /\ lpv_lfilter e' p' b' a' x' zi' fm TorchLpc uf' = Ok (y', z') /\
    is2 y B N f /\ is2 y' B' N' f' /\ forall m, m <= n -> f i m = f' i' m.
Proof.
  intros R e e' p p' B B' i i' N N' nb na M b a x b' a' x' bf af xf bf' af' xf' zi zi' z0 z0' uf uf' fm n
    Hi Hi' HN HN' Hnb Hna EM Hfm Hb Ha Hx Hz Hb' Ha' Hx' Hz' Xb Xa Xz Xx.
  destruct (torchlpc_sol R e p B N nb na M b a x bf af xf zi z0 uf fm ltac:(lia) ltac:(lia) Hnb Hna EM Hb Ha Hx Hz) as (y & z & f & E & Y & S); [tauto|].
  destruct (torchlpc_sol R e' p' B' N' nb na M b' a' x' bf' af' xf' zi' z0' uf' fm ltac:(lia) ltac:(lia) Hnb Hna EM Hb' Ha' Hx' Hz') as (y' & z' & f' & E' & Y' & S'); [tauto|].
  exists y, z, y', z', f, f'. do 4 (split; [assumption|]). intros m Hm.
  apply (lpc_sol_ext R fm nb na N N' (bf i) (bf' i') (af i) (af' i') (z0 i) (z0' i') (xf i) (xf' i') (f i) (f' i') m Hnb ltac:(lia) ltac:(lia)); auto; intros; subst M; auto;
    [apply Xb|apply Xa|apply Xx]; auto; lia.
Qed.
Print Assumptions C16_C17_lpv_lfilter_torchlpc.
Theorem C18_lpv_lfilter_torchlpc :
  forall (R : cring) e p B N nb na M (b a x x1 x2 : tensor R) bf af xf1 xf2 zi zi1 zi2 z1 z2 c1 c2 uf fm,
  1 <= B -> 1 <= N -> 1 <= nb -> 1 <= na -> M = Nat.max na (nb - 1) -> fm = Df1 \/ fm = Df2 \/ fm = Tdf1 /\ 2 <= nb /\ na <= N ->
  vcoef B N nb b bf -> vcoef B N na a af -> is2 x1 B N xf1 -> is2 x2 B N xf2 -> init B M zi1 z1 -> init B M zi2 z2 ->
  is2 x B N (fun i n => radd (rmul c1 (xf1 i n)) (rmul c2 (xf2 i n))) -> init B M zi (fun i k => radd (rmul c1 (z1 i k)) (rmul c2 (z2 i k))) ->
  exists y w y1 w1 y2 w2 f1 f2,
    lpv_lfilter e p b a x zi fm TorchLpc uf = Ok (y, w) /\ lpv_lfilter e p b a x1 zi1 fm TorchLpc uf = Ok (y1, w1) /\
    lpv_lfilter e p b a x2 zi2 fm TorchLpc uf = Ok (y2, w2) /\
    is2 y1 B N f1 /\ is2 y2 B N f2 /\ is2 y B N (fun i n => radd (rmul c1 (f1 i n)) (rmul c2 (f2 i n))).
Proof.
  intros R e p B N nb na M b a x x1 x2 bf af xf1 xf2 zi zi1 zi2 z1 z2 c1 c2 uf fm HB HN Hnb Hna EM Hfm Hb Ha Hx1 Hx2 Hz1 Hz2 Hx Hz.
  destruct (torchlpc_sol R e p B N nb na M b a x bf af _ zi _ uf fm HB HN Hnb Hna EM Hb Ha Hx Hz Hfm) as (y & w & f & E & Y & S).
  destruct (torchlpc_sol R e p B N nb na M b a x1 bf af _ zi1 _ uf fm HB HN Hnb Hna EM Hb Ha Hx1 Hz1 Hfm) as (y1 & w1 & f1 & E1 & Y1 & S1).
  destruct (torchlpc_sol R e p B N nb na M b a x2 bf af _ zi2 _ uf fm HB HN Hnb Hna EM Hb Ha Hx2 Hz2 Hfm) as (y2 & w2 & f2 & E2 & Y2 & S2).
  exists y, w, y1, w1, y2, w2, f1, f2. do 5 (split; [assumption|]).
  eapply is2_ext; [exact Y|]. intros i n Hi Hn. cbv beta.
  pose proof (lpc_sol_lin R fm nb na N (bf i) (af i) c1 c2 (z1 i) (z2 i) (xf1 i) (xf2 i) (f1 i) (f2 i) (S1 i Hi) (S2 i Hi)) as S3.
  eapply (lpc_sol_ext R fm nb na N N (bf i) (bf i) (af i) (af i)) with (9 := S3) (8 := S i Hi); auto.
Qed.
Print Assumptions C18_lpv_lfilter_torchlpc.
(** Second order, eight samples, factor 5: the result is wrong (torchlpc gives the right
    one), and still causal, linear and row by row. *)
Theorem C24_lfilter_factor5_refuted :
  let b := v2 (repeat [1;0;0]%Z 8) in let a := v2 [[1;1];[2;1];[3;1];[1;2];[1;1];[2;3];[1;1];[1;1]]%Z in let x := v2 [[0;1;0;0;0;0;0;0]]%Z in
  vcoef 1 8 3 b (fun _ n k => at_ b [n; k]) /\ vcoef 1 8 2 a (fun _ n k => at_ a [n; k]) /\ is2 x 1 8 (fun i n => at_ x [i; n]) /\
  forall fm, fm = Df1 \/ fm = Df2 ->
  show2' (lpv_lfilter env0 false b a x None fm TorchLpc None) <> show2' (lpv_lfilter env0 false b a x None fm Ssm (Some 5)) /\
  show2' (lpv_lfilter env0 false b a x None fm TorchLpc None) = show2' (lpv_lfilter env0 false b a x None fm Ssm (Some 4)).
Proof.
  cbv zeta. split; [eapply (vc_s (R := Zring)); [split; reflexivity|reflexivity]|]. split; [eapply (vc_s (R := Zring)); [split; reflexivity|reflexivity]|].
  split; [split; reflexivity|]. intros fm [-> | ->]; (split; [vm_compute; discriminate|vm_compute; reflexivity]).
Qed.
Print Assumptions C24_lfilter_factor5_refuted.
Example lpv_lfilter_rel_ex :
  let b := v2 (repeat [1;0;2]%Z 8) in let a := v2 [[1;1];[2;1];[3;1];[1;2];[1;1];[2;3];[1;1];[1;1]]%Z in
  let run x fm bk uf := show2' (lpv_lfilter env0 false b a (v2 x) None fm bk uf) in
  lpv_backend_ok env0 false 2 /\ vcoef 2 8 3 b (fun _ n k => at_ b [n; k]) /\
  forall fm, fm = Df1 \/ fm = Df2 \/ fm = Tdf1 \/ fm = Tdf2 ->
  match run [[1;2;3;4;5;6;7;8];[1;0;0;0;0;0;0;0]]%Z fm Ssm (Some 5), run [[1;2;3;4;5;6;9;9]]%Z fm Ssm (Some 5), run [[2;4;6;8;10;12;14;16]]%Z fm Ssm (Some 5) with
  | Some (Some (_, y), _), Some (Some (_, y'), _), Some (Some (_, y''), _) => firstn 6 y = firstn 6 y' /\ y'' = map (Z.mul 2) (firstn 8 y)
  | _, _, _ => False
  end.
Proof.
  cbv zeta. split; [apply lpv_backend_env0|]. split; [eapply (vc_s (R := Zring)); [split; reflexivity|reflexivity]|].
  intros fm [-> |[-> |[-> | ->]]]; vm_compute; split; reflexivity.
Qed.
Example lpv_lfilter_rel_lpc_ex :
  let b := v2 (repeat [1;0;2]%Z 4) in let a := v2 [[1;1];[2;1];[3;1];[1;2]]%Z in
  let run x fm := show2' (lpv_lfilter env0 false b a (v2 x) None fm TorchLpc None) in
  vcoef 1 4 3 b (fun _ n k => at_ b [n; k]) /\ vcoef 1 4 2 a (fun _ n k => at_ a [n; k]) /\
  forall fm, fm = Df1 \/ fm = Df2 \/ fm = Tdf1 ->
  match run [[1;2;3;4]]%Z fm, run [[1;2;9;9]]%Z fm, run [[2;4;6;8]]%Z fm with
  | Some (Some (_, y), _), Some (Some (_, y'), _), Some (Some (_, y''), _) => firstn 2 y = firstn 2 y' /\ y <> y' /\ y'' = map (Z.mul 2) y
  | _, _, _ => False
  end.
Proof.
  cbv zeta. split; [eapply (vc_s (R := Zring)); [split; reflexivity|reflexivity]|]. split; [eapply (vc_s (R := Zring)); [split; reflexivity|reflexivity]|].
  intros fm [-> |[-> | ->]]; vm_compute; repeat split; discriminate.
Qed.

(** ** lti.lfilter: linearity of every form, with or without a state; state of a row. *)
Theorem C18_lfilter :
  forall (R : cring) e B N nb na M (b a x x1 x2 : tensor R) zi zi1 zi2 bf af xf1 xf2 z1 z2 c1 c2 uf fm,
  1 <= B -> 1 <= N -> 1 <= nb -> M = Nat.max na (nb - 1) -> 1 <= M -> backend_ok e M -> unroll_ok uf -> fm <> OtherForm ->
  fcoef B nb b bf -> fcoef B na a af -> is2 x1 B N xf1 -> is2 x2 B N xf2 -> init B M zi1 z1 -> init B M zi2 z2 ->
  is2 x B N (fun i n => radd (rmul c1 (xf1 i n)) (rmul c2 (xf2 i n))) ->
  init B M zi (fun i k => radd (rmul c1 (z1 i k)) (rmul c2 (z2 i k))) ->
  exists y w y1 w1 y2 w2 f1 f2,
    lfilter_ssm e b a x zi fm uf = Ok (y, w) /\ lfilter_ssm e b a x1 zi1 fm uf = Ok (y1, w1) /\ lfilter_ssm e b a x2 zi2 fm uf = Ok (y2, w2) /\
    is2 y1 B N f1 /\ is2 y2 B N f2 /\ is2 y B N (fun i n => radd (rmul c1 (f1 i n)) (rmul c2 (f2 i n))).
Proof.
  intros R e B N nb na M b a x x1 x2 zi zi1 zi2 bf af xf1 xf2 z1 z2 c1 c2 uf fm HB HN Hnb EM HM E U Hof Hb Ha Hx1 Hx2 Hz1 Hz2 Hx Hz.
  destruct (lfilter_spec R e B N nb na M b a x bf af _ zi _ uf fm HB HN Hnb EM HM E U Hof Hb Ha Hx (fun _ => Hz)) as (y & zo & Q & Y & Z).
  destruct (lfilter_spec R e B N nb na M b a x1 bf af _ zi1 _ uf fm HB HN Hnb EM HM E U Hof Hb Ha Hx1 (fun _ => Hz1)) as (y1 & zo1 & Q1 & Y1 & Z1).
  destruct (lfilter_spec R e B N nb na M b a x2 bf af _ zi2 _ uf fm HB HN Hnb EM HM E U Hof Hb Ha Hx2 (fun _ => Hz2)) as (y2 & zo2 & Q2 & Y2 & Z2).
  exists y, zo, y1, zo1, y2, zo2. do 2 eexists. do 3 (split; [eassumption|]). do 2 (split; [eassumption|]).
  eapply is2_ext; [exact Y|]. intros i n Hi Hn. cbv beta. now apply lf_y_lin.
Qed.
Print Assumptions C18_lfilter.
Theorem C16_lfilter_state :
  forall (R : cring) e e' B B' i i' N nb na M (b a x b' a' x' zi zi' : tensor R) bf af xf bf' af' xf' z0 z0' uf uf' fm,
  i < B -> i' < B' -> 1 <= N -> 1 <= nb -> M = Nat.max na (nb - 1) -> 1 <= M ->
  backend_ok e M -> backend_ok e' M -> unroll_ok uf -> unroll_ok uf' -> fm = Df2 \/ fm = Tdf2 ->
  fcoef B nb b bf -> fcoef B na a af -> is2 x B N xf -> init B M (Some zi) z0 ->
  fcoef B' nb b' bf' -> fcoef B' na a' af' -> is2 x' B' N xf' -> init B' M (Some zi') z0' ->
  (forall k, k < nb -> bf i k = bf' i' k) -> (forall k, k < na -> af i k = af' i' k) ->
  (forall k, k < M -> z0 i k = z0' i' k) -> (forall n, n < N -> xf i n = xf' i' n) ->
  exists y z y' z' g g', lfilter_ssm e b a x (Some zi) fm uf = Ok (y, Some z) /\ lfilter_ssm e' b' a' x' (Some zi') fm uf' = Ok (y', Some z') /\
    is2 z B M g /\ is2 z' B' M g' /\ forall k, k < M -> g i k = g' i' k.
Proof.
  intros R e e' B B' i i' N nb na M b a x b' a' x' zi zi' bf af xf bf' af' xf' z0 z0' uf uf' fm
    Hi Hi' HN Hnb EM HM E E' U U' Hfm Hb Ha Hx Hz Hb' Ha' Hx' Hz' Xb Xa Xz Xx.
  assert (Hst : has_state fm = true) by (destruct Hfm; subst; reflexivity).
  assert (Hof : fm <> OtherForm) by (intros ->; discriminate).
  destruct (lfilter_spec R e B N nb na M b a x bf af xf (Some zi) z0 uf fm) as (y & zo & Q & _ & Z); auto; [lia|].
  destruct (lfilter_spec R e' B' N nb na M b' a' x' bf' af' xf' (Some zi') z0' uf' fm) as (y' & zo' & Q' & _ & Z'); auto; [lia|].
  rewrite Hst in Z, Z'. destruct Z as (z & -> & Z), Z' as (z' & -> & Z').
  exists y, z, y', z'. do 2 eexists. do 2 (split; [eassumption|]). split; [exact Z|]. split; [exact Z'|].
  intros k Hk. cbv beta. apply lf_z_ext; auto.
  - intros j Hj. apply padz_ext. intros l Hl. unfold lf_num. destruct fm; rewrite ?Xb by exact Hl; reflexivity.
  - intros j Hj. apply padz_ext. intros l Hl. unfold lf_den. destruct fm; rewrite ?Xa by exact Hl; reflexivity.
Qed.
Print Assumptions C16_lfilter_state.
(** C16 fails for lpv.state_space when batch = length: a documented (batch, M) input matrix
    is read along time, so changing its row 1 changes row 0 of the result. *)
Theorem C16_square_refuted :
  let A := mkT [3;1;1]%nat (fun _ => 0%Z) : tensor Zring in let x := v2 (repeat [1;1;1]%Z 3) in
  let run Bt := show2' (lpv_state_space env0 false A x (Some (v2 Bt)) None None None None None) in
  is3 A 3 1 1 (fun _ _ _ => 0%Z) /\ is2 x 3 3 (fun _ _ => 1%Z) /\
  run [[1];[2];[3]]%Z = Some (Some ([3;3;1], [0;1;2; 0;1;2; 0;1;2]%Z), None) /\
  run [[1];[5];[3]]%Z = Some (Some ([3;3;1], [0;1;5; 0;1;5; 0;1;5]%Z), None).
Proof.
  cbv zeta. split; [|split; [|split; vm_compute; reflexivity]].
  - split; [reflexivity|]. intros [|[|[|]]] [|] [|] ? ? ?; try lia; reflexivity.
  - split; [reflexivity|]. intros [|[|[|]]] [|[|[|]]] ? ?; try lia; reflexivity.
Qed.
Print Assumptions C16_square_refuted.
Example lfilter_lin_ex :
  let b := lst1 0%Z [1;2]%Z : tensor Zring in let a := lst1 0%Z [1;1]%Z : tensor Zring in
  let run x := show2' (lfilter_ssm env0 b a (v2 x) None Df1 None) in
  fcoef 1 2 b (fun _ k => nth k [1;2]%Z 0%Z) /\
  run [[1;2;3;4]]%Z = Some (Some ([1;4], [1;3;3;4]%Z), None) /\ run [[3;6;9;12]]%Z = Some (Some ([1;4], [3;9;9;12]%Z), None).
Proof.
  cbv zeta. split; [|split; vm_compute; reflexivity]. eapply fc_s; [|reflexivity]. split; [reflexivity|]. intros [|[|]] ?; try lia; reflexivity.
Qed.
