(** Batch independence, causality and linearity (C16, C17, C18) for lpv.state_space with
    every unroll factor and for the remaining filters and recurrences. *)
From Coq Require Import List Arith Lia ZArith Bool Ring.
From Verif Require Import Scalar Tensor TensorLemmas TensorTac Spec Shapes SpecFilter SpecLpv Algebra M_Kernels M_LtiRecur M_LpvRecur M_LtiSsm M_LpvSsm
  M_LtiFilter M_LpvFilter P_LtiSsm P_SsSpec P_LpvSs P_LpvSs2 P_Filter P_LtiFilter P_LtiFilter3 P_LpvAlg P_LpvFilter
  Properties_LtiRecur Properties_LpvRecur Properties_LtiFilter Properties_LtiFilter2 Properties_LpvFilter.
Import ListNotations.

Section L.
Variable R : cring.
Add Ring Rr : (r_th R).
Local Open Scope cr_scope.
Lemma lin4 (c1 c2 a1 a2 d1 d2 : R) : c1 * a1 + c2 * a2 + (c1 * d1 + c2 * d2) = c1 * (a1 + d1) + c2 * (a2 + d2).
Proof. ring. Qed.
Lemma lin_rec_lin (a : nat -> R) c1 c2 h1 h2 (x1 x2 : nat -> R) n :
  lin_rec a (c1 * h1 + c2 * h2) (fun k => c1 * x1 k + c2 * x2 k) n = c1 * lin_rec a h1 x1 n + c2 * lin_rec a h2 x2 n.
Proof. induction n as [|n IH]; cbn [lin_rec]; [reflexivity|]. rewrite IH. ring. Qed.
Lemma hist_lin c1 c2 (x1 x2 p1 p2 : nat -> R) n k :
  hist (fun m => c1 * x1 m + c2 * x2 m) (fun m => c1 * p1 m + c2 * p2 m) n k = c1 * hist x1 p1 n k + c2 * hist x2 p2 n k.
Proof. unfold hist. now destruct (k <? n)%nat. Qed.
Lemma vconv_with_lin P (b : nat -> nat -> R) c1 c2 (x1 x2 p1 p2 : nat -> R) n :
  vconv_with P b (fun m => c1 * x1 m + c2 * x2 m) (fun m => c1 * p1 m + c2 * p2 m) n
  = c1 * vconv_with P b x1 p1 n + c2 * vconv_with P b x2 p2 n.
Proof.
  unfold vconv_with. rewrite (bsum_ext P _ (fun k => c1 * (b n (S k) * hist x1 p1 n k) + c2 * (b n (S k) * hist x2 p2 n k)))
    by (intros; rewrite hist_lin; ring).
  rewrite bsum_add, !bsum_mul_l. ring.
Qed.
Lemma vconvt_lin P (b : nat -> nat -> R) c1 c2 (x1 x2 : nat -> R) n :
  vconvt P b (fun m => c1 * x1 m + c2 * x2 m) n = c1 * vconvt P b x1 n + c2 * vconvt P b x2 n.
Proof.
  unfold vconvt. rewrite <- !bsum_mul_l, <- bsum_add. apply bsum_ext. intros k Hk. unfold dly.
  destruct (k <=? n)%nat; ring.
Qed.
Lemma padz_lin M c1 c2 (z1 z2 : nat -> R) n : padz M (fun k => c1 * z1 k + c2 * z2 k) n = c1 * padz M z1 n + c2 * padz M z2 n.
Proof. unfold padz. destruct (n <? M)%nat; ring. Qed.
End L.

(** ** lpv.state_space, every unroll factor.  For the factors where matrices_cumdot goes
    wrong (C05) the result is not the solution of the recurrence, but it is still computed
    row by row, causally and linearly.  The two calls must then use the same factor and
    (because the recursion over blocks falls back to a plain loop for short signals) the
    same length. *)
Lemma uf_pos N uf : 1 <= N -> (forall u, uf = Some u -> 1 <= u) -> 1 <= lpv_uf N uf.
Proof.
  intros HN Hu. unfold lpv_uf. destruct uf as [u|]; [auto|]. now apply round_sqrt_pos.
Qed.

Theorem C16_lpv_state_space_any_factor :
  forall (R : cring) e e' p p' B B' b b' N M F P (A x A' x' : tensor R) Bt C D zi uf oi Bt' C' D' zi' oi'
    Af xf Bm Cm Dm z0 Af' xf' Bm' Cm' Dm' z0',
  b < B -> b' < B' -> 1 <= N -> 1 <= M -> lpv_backend_ok e p M -> lpv_backend_ok e' p' M ->
  (forall u, uf = Some u -> 1 <= u) ->
  sysv B N M F P A Bt C D oi Af Bm Cm Dm -> sysv B' N M F P A' Bt' C' D' oi' Af' Bm' Cm' Dm' ->
  sigv B N F x xf -> sigv B' N F x' xf' -> init B M zi z0 -> init B' M zi' z0' ->
  (forall n i j, n < N -> i < M -> j < M -> Af b n i j = Af' b' n i j) ->
  (forall n i j, n < N -> i < M -> j < width F -> Bm b n i j = Bm' b' n i j) ->
  (forall n i j, n < N -> i < width P -> j < M -> Cm b n i j = Cm' b' n i j) ->
  (forall n i j, n < N -> i < width P -> j < width F -> Dm b n i j = Dm' b' n i j) ->
  (forall i, i < M -> z0 b i = z0' b' i) -> (forall n k, n < N -> k < width F -> xf b n k = xf' b' n k) ->
  exists y z y' z' f f' g g',
    lpv_state_space e p A x Bt C D zi uf oi = Ok (y, z) /\
    lpv_state_space e' p' A' x' Bt' C' D' zi' uf oi' = Ok (y', z') /\
    sigv B N P y f /\ sigv B' N P y' f' /\
    (forall n p, n < N -> p < width P -> f b n p = f' b' n p) /\
    (forall w, z = Some w -> is2 w B M g) /\ (forall w, z' = Some w -> is2 w B' M g') /\
    (forall m, m < M -> g b m = g' b' m).
Proof.
  intros R e e' p p' B B' b b' N M F P A x A' x' Bt C D zi uf oi Bt' C' D' zi' oi'
    Af xf Bm Cm Dm z0 Af' xf' Bm' Cm' Dm' z0' Hb Hb' HN HM E E' U (HA & HB & HC & HD) (HA' & HB' & HC' & HD') Hx Hx' Hz Hz' XA XB XC XD Xz Xx.
  pose proof (uf_pos N uf HN U) as Hu.
  destruct (lpv_state_space_any R e p B N M F P A x Bt C D zi uf oi Af xf Bm Cm Dm z0)
    as (y & z & Q & Y & HZ); auto; [lia|].
  destruct (lpv_state_space_any R e' p' B' N M F P A' x' Bt' C' D' zi' uf oi' Af' xf' Bm' Cm' Dm' z0')
    as (y' & z' & Q' & Y' & HZ'); auto; [lia|].
  assert (K : forall n m, n <= N -> m < M ->
    lpv_h R M (lpv_uf N uf) N (Af b) (z0 b) (lpv_in R (width F) (Bm b) (xf b)) n m
    = lpv_h R M (lpv_uf N uf) N (Af' b') (z0' b') (lpv_in R (width F) (Bm' b') (xf' b')) n m).
  { intros n m Hn Hm. apply lpv_h_causal; auto.
    - intros. apply XA; auto. lia.
    - intros k i Hk Hi. unfold lpv_in. apply bsum_ext. intros j Hj. rewrite XB, Xx by (auto; lia). reflexivity. }
  exists y, z, y', z'. do 4 eexists. repeat (split; [eassumption|]). split; [|split; [|split]].
  - intros n q Hn Hp. cbv beta. f_equal; apply bsum_ext; intros j Hj; f_equal; auto. apply K; auto. lia.
  - intros w ->. destruct zi; [|discriminate]. destruct HZ as (w' & [= <-] & HZ). exact HZ.
  - intros w ->. destruct zi'; [|discriminate]. destruct HZ' as (w' & [= <-] & HZ'). exact HZ'.
  - intros m Hm. cbv beta. apply K; auto.
Qed.
Print Assumptions C16_lpv_state_space_any_factor.

Theorem C17_lpv_state_space_any_factor :
  forall (R : cring) e e' p p' B N M F P (A x A' x' : tensor R) Bt C D Bt' C' D' zi uf oi
    Af xf Bm Cm Dm Af' xf' Bm' Cm' Dm' z0 n,
  1 <= B -> 1 <= N -> 1 <= M -> lpv_backend_ok e p M -> lpv_backend_ok e' p' M ->
  (forall u, uf = Some u -> 1 <= u) ->
  sysv B N M F P A Bt C D oi Af Bm Cm Dm -> sysv B N M F P A' Bt' C' D' oi Af' Bm' Cm' Dm' ->
  sigv B N F x xf -> sigv B N F x' xf' -> init B M zi z0 ->
  same4 B n M M Af Af' -> same4 B n M (width F) Bm Bm' ->
  same4 B (S n) (width P) M Cm Cm' -> same4 B (S n) (width P) (width F) Dm Dm' ->
  (forall b k j, b < B -> k <= n -> j < width F -> xf b k j = xf' b k j) ->
  exists y z y' z' f f',
    lpv_state_space e p A x Bt C D zi uf oi = Ok (y, z) /\ lpv_state_space e' p' A' x' Bt' C' D' zi uf oi = Ok (y', z') /\
    sigv B N P y f /\ sigv B N P y' f' /\
    (forall b k p, b < B -> k <= n -> p < width P -> f b k p = f' b k p).
Proof.
  intros R e e' p p' B N M F P A x A' x' Bt C D Bt' C' D' zi uf oi Af xf Bm Cm Dm Af' xf' Bm' Cm' Dm' z0 n
    HB HN HM E E' U (HA & HBm & HC & HD) (HA' & HBm' & HC' & HD') Hx Hx' Hz SA SB SC SD Xx.
  pose proof (uf_pos N uf HN U) as Hu.
  destruct (lpv_state_space_any R e p B N M F P A x Bt C D zi uf oi Af xf Bm Cm Dm z0) as (y & z & Q & Y & _); auto.
  destruct (lpv_state_space_any R e' p' B N M F P A' x' Bt' C' D' zi uf oi Af' xf' Bm' Cm' Dm' z0) as (y' & z' & Q' & Y' & _); auto.
  exists y, z, y', z'. do 2 eexists. repeat (split; [eassumption|]).
  intros b k q Hb Hk Hq. cbv beta. f_equal; apply bsum_ext; intros j Hj; f_equal; try (apply SC || apply SD || apply Xx); auto; try lia.
  apply lpv_h_causal; auto.
  - intros. apply SA; auto. lia.
  - intros m i Hm Hi. unfold lpv_in. apply bsum_ext. intros l Hl. rewrite SB, Xx by (auto; lia). reflexivity.
Qed.
Print Assumptions C17_lpv_state_space_any_factor.

Theorem C18_lpv_state_space_any_factor :
  forall (R : cring) e pr B N M F P (A x x1 x2 zi zi1 zi2 : tensor R) Bt C D uf oi Af xf1 xf2 Bm Cm Dm z1 z2 c1 c2,
  1 <= B -> 1 <= N -> 1 <= M -> lpv_backend_ok e pr M -> (forall u, uf = Some u -> 1 <= u) ->
  sysv B N M F P A Bt C D oi Af Bm Cm Dm ->
  sigv B N F x1 xf1 -> sigv B N F x2 xf2 -> init B M (Some zi1) z1 -> init B M (Some zi2) z2 ->
  sigv B N F x (fun b n k => radd (rmul c1 (xf1 b n k)) (rmul c2 (xf2 b n k))) ->
  init B M (Some zi) (fun b m => radd (rmul c1 (z1 b m)) (rmul c2 (z2 b m))) ->
  exists y w y1 w1 y2 w2 f1 f2 g1 g2,
    lpv_state_space e pr A x Bt C D (Some zi) uf oi = Ok (y, Some w) /\
    lpv_state_space e pr A x1 Bt C D (Some zi1) uf oi = Ok (y1, Some w1) /\
    lpv_state_space e pr A x2 Bt C D (Some zi2) uf oi = Ok (y2, Some w2) /\
    sigv B N P y1 f1 /\ sigv B N P y2 f2 /\ is2 w1 B M g1 /\ is2 w2 B M g2 /\
    sigv B N P y (fun b n p => radd (rmul c1 (f1 b n p)) (rmul c2 (f2 b n p))) /\
    is2 w B M (fun b m => radd (rmul c1 (g1 b m)) (rmul c2 (g2 b m))).
Proof.
  intros R e pr B N M F P A x x1 x2 zi zi1 zi2 Bt C D uf oi Af xf1 xf2 Bm Cm Dm z1 z2 c1 c2
    HB HN HM E U (HA & HBm & HC & HD) Hx1 Hx2 Hz1 Hz2 Hx Hz.
  pose proof (uf_pos N uf HN U) as Hu.
  destruct (lpv_state_space_any R e pr B N M F P A x Bt C D (Some zi) uf oi Af _ Bm Cm Dm _ HB HN HM E Hu HA Hx HBm HC HD Hz)
    as (y & ? & Q & Y & w & -> & W).
  destruct (lpv_state_space_any R e pr B N M F P A x1 Bt C D (Some zi1) uf oi Af _ Bm Cm Dm _ HB HN HM E Hu HA Hx1 HBm HC HD Hz1)
    as (y1 & ? & Q1 & Y1 & w1 & -> & W1).
  destruct (lpv_state_space_any R e pr B N M F P A x2 Bt C D (Some zi2) uf oi Af _ Bm Cm Dm _ HB HN HM E Hu HA Hx2 HBm HC HD Hz2)
    as (y2 & ? & Q2 & Y2 & w2 & -> & W2).
  exists y, w, y1, w1, y2, w2. do 4 eexists. repeat (split; [eassumption|]).
  assert (K : forall b n m, 
    lpv_h R M (lpv_uf N uf) N (Af b) (fun m => radd (rmul c1 (z1 b m)) (rmul c2 (z2 b m)))
       (lpv_in R (width F) (Bm b) (fun n k => radd (rmul c1 (xf1 b n k)) (rmul c2 (xf2 b n k)))) n m
    = radd (rmul c1 (lpv_h R M (lpv_uf N uf) N (Af b) (z1 b) (lpv_in R (width F) (Bm b) (xf1 b)) n m))
           (rmul c2 (lpv_h R M (lpv_uf N uf) N (Af b) (z2 b) (lpv_in R (width F) (Bm b) (xf2 b)) n m))).
  { intros b n m. apply lpv_h_lin; [reflexivity|]. intros k i. unfold lpv_in. exact (mvec_lin R (width F) (Bm b k) c1 c2 (xf1 b k) (xf2 b k) i). }
  assert (L : forall b n p, radd (bsum M (fun m => rmul (Cm b n p m) (lpv_h R M (lpv_uf N uf) N (Af b) (fun m => radd (rmul c1 (z1 b m)) (rmul c2 (z2 b m)))
       (lpv_in R (width F) (Bm b) (fun n k => radd (rmul c1 (xf1 b n k)) (rmul c2 (xf2 b n k)))) n m)))
       (bsum (width F) (fun k => rmul (Dm b n p k) (radd (rmul c1 (xf1 b n k)) (rmul c2 (xf2 b n k)))))
    = radd (rmul c1 (radd (bsum M (fun m => rmul (Cm b n p m) (lpv_h R M (lpv_uf N uf) N (Af b) (z1 b) (lpv_in R (width F) (Bm b) (xf1 b)) n m)))
                          (bsum (width F) (fun k => rmul (Dm b n p k) (xf1 b n k)))))
           (rmul c2 (radd (bsum M (fun m => rmul (Cm b n p m) (lpv_h R M (lpv_uf N uf) N (Af b) (z2 b) (lpv_in R (width F) (Bm b) (xf2 b)) n m)))
                          (bsum (width F) (fun k => rmul (Dm b n p k) (xf2 b n k)))))).
  { intros b n q. 
    rewrite (bsum_ext M _ (fun m => rmul (Cm b n q m) (radd (rmul c1 (lpv_h R M (lpv_uf N uf) N (Af b) (z1 b) (lpv_in R (width F) (Bm b) (xf1 b)) n m))
           (rmul c2 (lpv_h R M (lpv_uf N uf) N (Af b) (z2 b) (lpv_in R (width F) (Bm b) (xf2 b)) n m))))) by (intros; now rewrite K).
    pose proof (mvec_lin R M (Cm b n) c1 c2 (lpv_h R M (lpv_uf N uf) N (Af b) (z1 b) (lpv_in R (width F) (Bm b) (xf1 b)) n)
      (lpv_h R M (lpv_uf N uf) N (Af b) (z2 b) (lpv_in R (width F) (Bm b) (xf2 b)) n) q) as L1. unfold mvec in L1. rewrite L1.
    pose proof (mvec_lin R (width F) (Dm b n) c1 c2 (xf1 b n) (xf2 b n) q) as L2. unfold mvec in L2. rewrite L2.
    apply lin4. }
  split.
  - destruct P; [eapply is3_ext|eapply is2_ext]; try exact Y; intros; cbv beta; apply L.
  - eapply is2_ext; [exact W|]. intros. cbv beta. apply K.
Qed.
Print Assumptions C18_lpv_state_space_any_factor.

(** Unroll factor 9 on 10 samples of a second-order system, one of the factors excluded in
    C04: the impulse at sample 3 gives a last output of 1 instead of 150.  Changing the input from
    sample 8 on leaves the outputs up to 8 alone, changing row 0 leaves row 1 alone, and
    the outputs add. *)
Example any_factor_ex :
  let A := mk4 2 10 2 2 (fun b n i j => if (i =? 0)%nat then (if (j =? 0)%nat then 1 else Z.of_nat n) else if (j =? 0)%nat then (1 - Z.of_nat b) else 0)%Z : tensor Zring in
  let run := fun l c u => show2 (lpv_state_space env0 false A (lst2 0%Z [l; repeat c 10]) None None None
                              (Some (lst2 0%Z [[0;0];[0;0]]%Z : tensor Zring)) (Some u) (Some 0%Z)) in
  run [0;0;0;1;0;0;0;0;0;0]%Z 1%Z 1 = Some ([2;10], [0;0;0;0;1;1;6;12;54;150; 0;1;2;3;4;5;6;7;8;9]%Z, Some ([2;2], [636;150; 10;0]%Z)) /\
  run [0;0;0;1;0;0;0;0;0;0]%Z 1%Z 9 = Some ([2;10], [0;0;0;0;1;1;6;12;54;1; 0;1;2;3;4;5;6;7;8;9]%Z, Some ([2;2], [10;1; 10;0]%Z)) /\
  run [1;0;0;0;0;0;0;0;0;0]%Z 0%Z 9 = Some ([2;10], [0;1;1;3;6;18;48;156;492;1740; 0;0;0;0;0;0;0;0;0;0]%Z, Some ([2;2], [6168;1740; 0;0]%Z)) /\
  run [1;0;0;0;0;0;0;0;5;9]%Z 1%Z 9 = Some ([2;10], [0;1;1;3;6;18;48;156;492;1745; 0;1;2;3;4;5;6;7;8;9]%Z, Some ([2;2], [6182;1745; 10;0]%Z)) /\
  run [2;0;0;3;0;0;0;0;0;0]%Z 3%Z 9 = Some ([2;10], [0;2;2;6;15;39;114;348;1146;3483; 0;3;6;9;12;15;18;21;24;27]%Z, Some ([2;2], [12366;3483; 30;0]%Z)).
Proof. cbv zeta. repeat split; vm_compute; reflexivity. Qed.

(** ** linear_recurrence (lti and lpv), every unroll factor, any two lengths *)
Theorem C16_C17_linear_recurrence :
  forall (R : cring) B B' i i' N N' (a init x a' init' x' : tensor R) af hf xf af' hf' xf' u u' n,
  i < B -> i' < B' -> n < N -> n < N' -> 1 <= u -> 1 <= u' ->
  coef B a af -> coef B init hf -> is2 x B N xf -> coef B' a' af' -> coef B' init' hf' -> is2 x' B' N' xf' ->
  af i = af' i' -> hf i = hf' i' -> (forall m, m <= n -> xf i m = xf' i' m) ->
  exists y y' f f', linear_recurrence a init x u = Ok y /\ linear_recurrence a' init' x' u' = Ok y' /\
    is2 y B N f /\ is2 y' B' N' f' /\ forall m, m <= n -> f i m = f' i' m.
Proof.
  intros R B B' i i' N N' a init x a' init' x' af hf xf af' hf' xf' u u' n Hi Hi' HN HN' Hu Hu' Ha Hh Hx Ha' Hh' Hx' Ea Eh Ex.
  destruct (linear_recurrence_correct R B N a init x af hf xf u) as (y & E & Y); auto; [lia..|].
  destruct (linear_recurrence_correct R B' N' a' init' x' af' hf' xf' u') as (y' & E' & Y'); auto; [lia..|].
  exists y, y'. do 2 eexists. do 2 (split; [eassumption|]). split; [exact Y|]. split; [exact Y'|]. intros m Hm. cbv beta.
  apply lin_rec_ext; auto. intros k Hk. apply Ex. lia.
Qed.
Print Assumptions C16_C17_linear_recurrence.
Theorem C16_C17_lpv_linear_recurrence :
  forall (R : cring) B B' i i' N N' (a init x a' init' x' : tensor R) af hf xf af' hf' xf' u u' n,
  i < B -> i' < B' -> n < N -> n < N' -> 1 <= u -> 1 <= u' ->
  coefv B N a af -> coef B init hf -> is2 x B N xf -> coefv B' N' a' af' -> coef B' init' hf' -> is2 x' B' N' xf' ->
  (forall m, m <= n -> af i m = af' i' m) -> hf i = hf' i' -> (forall m, m <= n -> xf i m = xf' i' m) ->
  exists y y' f f', lpv_linear_recurrence a init x u = Ok y /\ lpv_linear_recurrence a' init' x' u' = Ok y' /\
    is2 y B N f /\ is2 y' B' N' f' /\ forall m, m <= n -> f i m = f' i' m.
Proof.
  intros R B B' i i' N N' a init x a' init' x' af hf xf af' hf' xf' u u' n Hi Hi' HN HN' Hu Hu' Ha Hh Hx Ha' Hh' Hx' Ea Eh Ex.
  destruct (lpv_linear_recurrence_correct R B N a init x af hf xf u) as (y & E & Y); auto; [lia..|].
  destruct (lpv_linear_recurrence_correct R B' N' a' init' x' af' hf' xf' u') as (y' & E' & Y'); auto; [lia..|].
  exists y, y'. do 2 eexists. do 2 (split; [eassumption|]). split; [exact Y|]. split; [exact Y'|]. intros m Hm. cbv beta.
  apply lin_rec_ext; auto; intros k Hk; [apply Ea|apply Ex]; lia.
Qed.
Print Assumptions C16_C17_lpv_linear_recurrence.
Theorem C18_linear_recurrence :
  forall (R : cring) B N (a init x init1 x1 init2 x2 : tensor R) af h1 h2 xf1 xf2 c1 c2 u,
  1 <= B -> 1 <= N -> 1 <= u -> coef B a af ->
  coef B init1 h1 -> coef B init2 h2 -> is2 x1 B N xf1 -> is2 x2 B N xf2 ->
  coef B init (fun i => radd (rmul c1 (h1 i)) (rmul c2 (h2 i))) ->
  is2 x B N (fun i n => radd (rmul c1 (xf1 i n)) (rmul c2 (xf2 i n))) ->
  exists y y1 y2 f1 f2, linear_recurrence a init x u = Ok y /\ linear_recurrence a init1 x1 u = Ok y1 /\ linear_recurrence a init2 x2 u = Ok y2 /\
    is2 y1 B N f1 /\ is2 y2 B N f2 /\ is2 y B N (fun i n => radd (rmul c1 (f1 i n)) (rmul c2 (f2 i n))).
Proof.
  intros R B N a init x init1 x1 init2 x2 af h1 h2 xf1 xf2 c1 c2 u HB HN Hu Ha H1 H2 X1 X2 H X.
  destruct (linear_recurrence_correct R B N a init x af _ _ u HB HN Hu Ha H X) as (y & E & Y).
  destruct (linear_recurrence_correct R B N a init1 x1 af _ _ u HB HN Hu Ha H1 X1) as (y1 & E1 & Y1).
  destruct (linear_recurrence_correct R B N a init2 x2 af _ _ u HB HN Hu Ha H2 X2) as (y2 & E2 & Y2).
  exists y, y1, y2. do 2 eexists. do 3 (split; [assumption|]). split; [exact Y1|]. split; [exact Y2|].
  eapply is2_ext; [exact Y|]. intros. cbv beta. apply lin_rec_lin.
Qed.
Print Assumptions C18_linear_recurrence.
Theorem C18_lpv_linear_recurrence :
  forall (R : cring) B N (a init x init1 x1 init2 x2 : tensor R) af h1 h2 xf1 xf2 c1 c2 u,
  1 <= B -> 1 <= N -> 1 <= u -> coefv B N a af ->
  coef B init1 h1 -> coef B init2 h2 -> is2 x1 B N xf1 -> is2 x2 B N xf2 ->
  coef B init (fun i => radd (rmul c1 (h1 i)) (rmul c2 (h2 i))) ->
  is2 x B N (fun i n => radd (rmul c1 (xf1 i n)) (rmul c2 (xf2 i n))) ->
  exists y y1 y2 f1 f2, lpv_linear_recurrence a init x u = Ok y /\ lpv_linear_recurrence a init1 x1 u = Ok y1 /\ lpv_linear_recurrence a init2 x2 u = Ok y2 /\
    is2 y1 B N f1 /\ is2 y2 B N f2 /\ is2 y B N (fun i n => radd (rmul c1 (f1 i n)) (rmul c2 (f2 i n))).
Proof.
  intros R B N a init x init1 x1 init2 x2 af h1 h2 xf1 xf2 c1 c2 u HB HN Hu Ha H1 H2 X1 X2 H X.
  destruct (lpv_linear_recurrence_correct R B N a init x af _ _ u HB HN Hu Ha H X) as (y & E & Y).
  destruct (lpv_linear_recurrence_correct R B N a init1 x1 af _ _ u HB HN Hu Ha H1 X1) as (y1 & E1 & Y1).
  destruct (lpv_linear_recurrence_correct R B N a init2 x2 af _ _ u HB HN Hu Ha H2 X2) as (y2 & E2 & Y2).
  exists y, y1, y2. do 2 eexists. do 3 (split; [assumption|]). split; [exact Y1|]. split; [exact Y2|].
  eapply is2_ext; [exact Y|]. intros. cbv beta. apply lin_rec_lin.
Qed.
Print Assumptions C18_lpv_linear_recurrence.
Example linear_recurrence_rel_ex :
  let a := v1 [2;3]%Z in let av := v2 [[2;1;0;3];[1;1;1;2]]%Z in let av' := v2 [[2;1;0;9;9]]%Z in
  coef 2 a (fun i => nth i [2;3]%Z 0%Z) /\
  show (linear_recurrence a (mk0 1%Z : tensor Zring) (v2 [[1;0;0;1];[0;1;1;0]]%Z) 2) = Some ([2;4], [3;6;12;25; 3;10;31;93]%Z) /\
  show (linear_recurrence (mk0 2%Z : tensor Zring) (mk0 1%Z : tensor Zring) (v2 [[1;0;0;7;7]]%Z) 3) = Some ([1;5], [3;6;12;31;69]%Z) /\
  show (linear_recurrence a (mk0 2%Z : tensor Zring) (v2 [[2;0;0;2];[0;2;2;0]]%Z) 2) = Some ([2;4], [6;12;24;50; 6;20;62;186]%Z) /\
  show (lpv_linear_recurrence av (mk0 1%Z : tensor Zring) (v2 [[1;0;5;1];[0;1;1;0]]%Z) 3) = Some ([2;4], [3;3;5;16; 1;2;3;6]%Z) /\
  show (lpv_linear_recurrence av' (mk0 1%Z : tensor Zring) (v2 [[1;0;5;7;7]]%Z) 2) = Some ([1;5], [3;3;5;52;475]%Z).
Proof. cbv zeta. split; [apply coef_B; split; reflexivity|]. repeat split; vm_compute; reflexivity. Qed.

(** ** lti.fir.  [past]: the state argument, none being zero. *)
Definition past {R : cring} (B M : nat) (zi : option (tensor R)) (zf : nat -> nat -> R) : Prop :=
  match zi with Some z => is2 z B M zf | None => forall i k, i < B -> k < M -> zf i k = r0 end.
(** Where lti.fir works (C21): a single tap only in direct form without state, signals
    shorter than the order not in transposed form with state. *)
Definition fir_dom {A} (tr : bool) (zi : option A) (M N : nat) : Prop :=
  1 <= N /\ (tr = true \/ zi <> None -> 1 <= M) /\ (tr = true -> zi <> None -> M <= N).
Definition fir_out {R : cring} (tr : bool) M (b z x : nat -> R) (n : nat) : R :=
  if tr then tdf2_y M (fun k => conj (b k)) (fun _ => r0) z x n else vconv_with M (fun _ => b) x z n.
Definition fir_st {R : cring} (tr : bool) M (b z x : nat -> R) (n k : nat) : R :=
  if tr then tdf2_z M (fun k => conj (b k)) (fun _ => r0) z x n k else hist x z n k.
Lemma fir_rows (R : cring) B N M (b x : tensor R) zi bf xf zf tr :
  fir_dom tr zi M N -> is2 b B (S M) bf -> is2 x B N xf -> past B M zi zf ->
  exists y z, fir b x zi tr = Ok (y, z) /\ is2 y B N (fun i => fir_out tr M (bf i) (zf i) (xf i)) /\
    match zi with None => z = None | Some _ => exists w, z = Some w /\ is2 w B M (fun i => fir_st tr M (bf i) (zf i) (xf i) N) end.
Proof.
  intros (HN & HM & HMN) Hb Hx Hz. destruct tr, zi as [zi|]; cbn [past] in Hz.
  - destruct (fir_transposed_state_partial R B N M b x zi bf xf zf) as (y & z & E & Y & Z); auto; [apply HMN; [reflexivity|discriminate]|].
    exists y, (Some z). split; [exact E|]. split; [exact Y|]. eauto.
  - destruct (fir_transposed_partial R B N M b x bf xf) as (y & E & Y); auto. exists y, None. split; [exact E|]. split; [|reflexivity].
    eapply is2_ext; [exact Y|]. intros i n Hi Hn. cbv beta. unfold fir_out. rewrite tdf2_fir by auto.
    assert (padz M (zf i) n = r0) as ->. { unfold padz. destruct (n <? M) eqn:Q; b2p; auto. }
    rewrite (Radd_comm (r_th R)). now rewrite (Radd_0_l (r_th R)).
  - destruct (fir_state_partial R B N M b x zi bf xf zf) as (y & z & E & Y & Z); auto; [apply HM; right; discriminate|].
    exists y, (Some z). split; [exact E|]. split; [exact Y|]. eauto.
  - destruct (fir_convolution R B N M b x bf xf) as (y & E & Y); auto. exists y, None. split; [exact E|]. split; [|reflexivity].
    eapply is2_ext; [exact Y|]. intros i n Hi Hn. cbv beta. unfold fir_out.
    transitivity (vconv M (fun _ => bf i) (xf i) n); [reflexivity|]. rewrite vconv_hist.
    apply vconv_with_ext; auto. intros k Hk. symmetry. auto.
Qed.
Lemma fir_out_ext (R : cring) tr M (b b' z z' x x' : nat -> R) n : (tr = true -> 1 <= M) -> (forall k, k <= M -> b k = b' k) ->
  (forall k, k < M -> z k = z' k) -> (forall k, k <= n -> x k = x' k) -> fir_out tr M b z x n = fir_out tr M b' z' x' n.
Proof.
  intros HM Hb Hz Hx. unfold fir_out. destruct tr.
  - apply tdf2_y_ext; auto. intros. now rewrite Hb.
  - apply vconv_with_ext; auto.
Qed.
Lemma fir_st_ext (R : cring) tr M (b b' z z' x x' : nat -> R) n i : (forall k, k <= M -> b k = b' k) ->
  (forall k, k < M -> z k = z' k) -> (forall k, k < n -> x k = x' k) -> i < M -> fir_st tr M b z x n i = fir_st tr M b' z' x' n i.
Proof.
  intros Hb Hz Hx Hi. unfold fir_st. destruct tr.
  - apply tdf2_z_ext; auto. intros. now rewrite Hb.
  - now apply (hist_ext _ _ _ _ _ _ _ M).
Qed.
Lemma fir_dom_tr A tr (zi : option A) M N : fir_dom tr zi M N -> tr = true -> 1 <= M.
Proof. intros (_ & H & _) E. auto. Qed.

(** Row i of one call equals row i' of another up to the last sample where the data agree;
    the final states of equally long signals agree too. *)
Theorem C16_C17_fir :
  forall (R : cring) tr B B' i i' N N' M (b x b' x' : tensor R) zi zi' bf xf zf bf' xf' zf' n,
  i < B -> i' < B' -> n < N -> n < N' -> fir_dom tr zi M N -> fir_dom tr zi' M N' ->
  is2 b B (S M) bf -> is2 x B N xf -> past B M zi zf -> is2 b' B' (S M) bf' -> is2 x' B' N' xf' -> past B' M zi' zf' ->
  (forall k, k <= M -> bf i k = bf' i' k) -> (forall k, k < M -> zf i k = zf' i' k) -> (forall m, m <= n -> xf i m = xf' i' m) ->
  exists y z y' z' f f', fir b x zi tr = Ok (y, z) /\ fir b' x' zi' tr = Ok (y', z') /\
    is2 y B N f /\ is2 y' B' N' f' /\ (forall m, m <= n -> f i m = f' i' m) /\
    (S n = N -> S n = N' -> forall w w', z = Some w -> z' = Some w' ->
     exists g g', is2 w B M g /\ is2 w' B' M g' /\ forall k, k < M -> g i k = g' i' k).
Proof.
  intros R tr B B' i i' N N' M b x b' x' zi zi' bf xf zf bf' xf' zf' n Hi Hi' HN HN' HD HD' Hb Hx Hz Hb' Hx' Hz' Eb Ez Ex.
  destruct (fir_rows R B N M b x zi bf xf zf tr) as (y & z & E & Y & Z); auto.
  destruct (fir_rows R B' N' M b' x' zi' bf' xf' zf' tr) as (y' & z' & E' & Y' & Z'); auto.
  exists y, z, y', z'. do 2 eexists. do 2 (split; [assumption|]). split; [exact Y|]. split; [exact Y'|]. split.
  - intros m Hm. cbv beta. apply fir_out_ext; auto; [now apply (fir_dom_tr _ tr zi M N)|]. intros. apply Ex. lia.
  - intros QN QN' w w' -> ->. destruct zi, zi'; try discriminate. destruct Z as (? & [= <-] & W), Z' as (? & [= <-] & W').
    do 2 eexists. split; [exact W|]. split; [exact W'|]. intros k Hk. cbv beta. rewrite <- QN, <- QN'.
    apply fir_st_ext; auto. intros. apply Ex. lia.
Qed.
Print Assumptions C16_C17_fir.
Theorem C18_fir :
  forall (R : cring) tr B N M (b x x1 x2 zi zi1 zi2 : tensor R) bf xf1 xf2 z1 z2 c1 c2,
  fir_dom tr (Some zi) M N -> is2 b B (S M) bf ->
  is2 x1 B N xf1 -> is2 x2 B N xf2 -> is2 zi1 B M z1 -> is2 zi2 B M z2 ->
  is2 x B N (fun i n => radd (rmul c1 (xf1 i n)) (rmul c2 (xf2 i n))) -> is2 zi B M (fun i k => radd (rmul c1 (z1 i k)) (rmul c2 (z2 i k))) ->
  exists y w y1 w1 y2 w2 f1 f2 g1 g2, fir b x (Some zi) tr = Ok (y, Some w) /\
    fir b x1 (Some zi1) tr = Ok (y1, Some w1) /\ fir b x2 (Some zi2) tr = Ok (y2, Some w2) /\
    is2 y1 B N f1 /\ is2 y2 B N f2 /\ is2 w1 B M g1 /\ is2 w2 B M g2 /\
    is2 y B N (fun i n => radd (rmul c1 (f1 i n)) (rmul c2 (f2 i n))) /\ is2 w B M (fun i k => radd (rmul c1 (g1 i k)) (rmul c2 (g2 i k))).
Proof.
  intros R tr B N M b x x1 x2 zi zi1 zi2 bf xf1 xf2 z1 z2 c1 c2 HD Hb X1 X2 Z1 Z2 X Z.
  assert (HD' : forall z : tensor R, fir_dom tr (Some z) M N).
  { intro z. destruct HD as (? & H1 & H2). split; [assumption|]. split; intros.
    - apply H1. right. discriminate. - apply H2; [assumption|discriminate]. }
  destruct (fir_rows R B N M b x (Some zi) bf _ _ tr HD Hb X Z) as (y & ? & E & Y & w & -> & W).
  destruct (fir_rows R B N M b x1 (Some zi1) bf _ _ tr (HD' _) Hb X1 Z1) as (y1 & ? & E1 & Y1 & w1 & -> & W1).
  destruct (fir_rows R B N M b x2 (Some zi2) bf _ _ tr (HD' _) Hb X2 Z2) as (y2 & ? & E2 & Y2 & w2 & -> & W2).
  exists y, w, y1, w1, y2, w2. do 4 eexists. do 3 (split; [assumption|]). do 4 (split; [eassumption|]). split.
  - eapply is2_ext; [exact Y|]. intros. cbv beta. unfold fir_out. destruct tr; [apply tdf2_y_lin|apply vconv_with_lin].
  - eapply is2_ext; [exact W|]. intros. cbv beta. unfold fir_st. destruct tr; [apply tdf2_z_lin|apply hist_lin].
Qed.
Print Assumptions C18_fir.
Example fir_rel_ex :
  let b := v2 [[1;2;3];[1;0;-1]]%Z in let zi := v2 [[5;6];[0;1]]%Z in
  fir_dom true (Some zi) 2 4 /\ fir_dom false (Some zi) 2 4 /\ is2 b 2 3 (fun i k => at_ b [i;k]) /\
  show2' (fir b (v2 [[1;1;1;2];[4;5;6;7]]%Z) (Some zi) true) = Some (Some ([2;4], [6;9;6;7; 4;6;2;2]%Z), Some ([2;2], [7;6;-6;-7]%Z)) /\
  show2' (fir (v2 [[1;2;3]]%Z) (v2 [[1;1;1;9;9]]%Z) (Some (v2 [[5;6]]%Z)) true) = Some (Some ([1;5], [6;9;6;14;30]%Z), Some ([1;2], [45;27]%Z)) /\
  show2' (fir b (v2 [[2;2;2;4];[8;10;12;14]]%Z) (Some (v2 [[10;12];[0;2]]%Z)) true) = Some (Some ([2;4], [12;18;12;14; 8;12;4;4]%Z), Some ([2;2], [14;12;-12;-14]%Z)).
Proof.
  cbv zeta. split; [|split]; [unfold fir_dom; split; [lia|split; intros; lia]..|].
  split; [split; [reflexivity|intros; reflexivity]|]. repeat split; vm_compute; reflexivity.
Qed.

(** ** lpv.fir *)
Definition lpv_fir_dom {A} (tr : bool) (zi : option A) (M N : nat) : Prop :=
  1 <= N /\ (tr = true -> match zi with None => 1 <= M | Some _ => M <= N end).
Definition lpv_fir_out {R : cring} (tr : bool) M (b : nat -> nat -> R) (z x : nat -> R) (n : nat) : R :=
  if tr then radd (vconvt M (fun m k => conj (b m k)) x n) (padz M z n) else vconv_with M b x z n.
Definition lpv_fir_st {R : cring} (tr : bool) M (b : nat -> nat -> R) (z x : nat -> R) (n k : nat) : R :=
  if tr then vtdf2_z M (fun m k => conj (b m k)) (fun _ _ => r0) z x n k else hist x z n k.
Lemma lpv_fir_rows (R : cring) B N M (b x : tensor R) zi bf xf zf tr :
  lpv_fir_dom tr zi M N -> is3 b B N (S M) bf -> is2 x B N xf -> past B M zi zf ->
  exists y z, lpv_fir b x zi tr = Ok (y, z) /\ is2 y B N (fun i => lpv_fir_out tr M (bf i) (zf i) (xf i)) /\
    match zi with None => z = None | Some _ => exists w, z = Some w /\ is2 w B M (fun i => lpv_fir_st tr M (bf i) (zf i) (xf i) N) end.
Proof.
  intros (HN & HM) Hb Hx Hz. destruct tr, zi as [zi|]; cbn [past] in Hz.
  - destruct (lpv_fir_transposed_state_partial R B N M b x zi bf xf zf) as (y & z & E & Y & Z); auto.
    exists y, (Some z). split; [exact E|]. split; [exact Y|]. eauto.
  - destruct (lpv_fir_transposed_partial R B N M b x bf xf) as (y & E & Y); auto. exists y, None. split; [exact E|]. split; [|reflexivity].
    eapply is2_ext; [exact Y|]. intros i n Hi Hn. cbv beta. unfold lpv_fir_out.
    assert (padz M (zf i) n = r0) as ->. { unfold padz. destruct (n <? M) eqn:Q; b2p; auto. }
    rewrite (Radd_comm (r_th R)). now rewrite (Radd_0_l (r_th R)).
  - destruct (lpv_fir_state R B N M b x zi bf xf zf) as (y & z & E & Y & Z); auto.
    exists y, (Some z). split; [exact E|]. split; [exact Y|]. eauto.
  - destruct (lpv_fir_convolution R B N M b x bf xf) as (y & E & Y); auto. exists y, None. split; [exact E|]. split; [|reflexivity].
    eapply is2_ext; [exact Y|]. intros i n Hi Hn. cbv beta. unfold lpv_fir_out. rewrite vconv_hist.
    apply vconv_with_ext; auto. intros k Hk. symmetry. auto.
Qed.
Theorem C16_C17_lpv_fir :
  forall (R : cring) tr B B' i i' N N' M (b x b' x' : tensor R) zi zi' bf xf zf bf' xf' zf' n,
  i < B -> i' < B' -> n < N -> n < N' -> lpv_fir_dom tr zi M N -> lpv_fir_dom tr zi' M N' ->
  is3 b B N (S M) bf -> is2 x B N xf -> past B M zi zf -> is3 b' B' N' (S M) bf' -> is2 x' B' N' xf' -> past B' M zi' zf' ->
  (forall m k, m <= n -> k <= M -> bf i m k = bf' i' m k) -> (forall k, k < M -> zf i k = zf' i' k) -> (forall m, m <= n -> xf i m = xf' i' m) ->
  exists y z y' z' f f', lpv_fir b x zi tr = Ok (y, z) /\ lpv_fir b' x' zi' tr = Ok (y', z') /\
    is2 y B N f /\ is2 y' B' N' f' /\ (forall m, m <= n -> f i m = f' i' m) /\
    (S n = N -> S n = N' -> forall w w', z = Some w -> z' = Some w' ->
     exists g g', is2 w B M g /\ is2 w' B' M g' /\ forall k, k < M -> g i k = g' i' k).
Proof.
  intros R tr B B' i i' N N' M b x b' x' zi zi' bf xf zf bf' xf' zf' n Hi Hi' HN HN' HD HD' Hb Hx Hz Hb' Hx' Hz' Eb Ez Ex.
  destruct (lpv_fir_rows R B N M b x zi bf xf zf tr) as (y & z & E & Y & Z); auto.
  destruct (lpv_fir_rows R B' N' M b' x' zi' bf' xf' zf' tr) as (y' & z' & E' & Y' & Z'); auto.
  exists y, z, y', z'. do 2 eexists. do 2 (split; [assumption|]). split; [exact Y|]. split; [exact Y'|]. split.
  - intros m Hm. cbv beta. unfold lpv_fir_out. destruct tr.
    + f_equal; [|now apply padz_ext]. apply vconvt_ext; intros; [rewrite Eb by lia; reflexivity|apply Ex; lia].
    + apply vconv_with_ext; auto; intros; apply Ex; lia.
  - intros QN QN' w w' -> ->. destruct zi, zi'; try discriminate. destruct Z as (? & [= <-] & W), Z' as (? & [= <-] & W').
    do 2 eexists. split; [exact W|]. split; [exact W'|]. intros k Hk. cbv beta. rewrite <- QN, <- QN'. unfold lpv_fir_st. destruct tr.
    + apply vtdf2_z_ext; auto; intros; [rewrite Eb by lia; reflexivity|apply Ex; lia].
    + apply (hist_ext _ _ _ _ _ _ _ M); auto. intros; apply Ex; lia.
Qed.
Print Assumptions C16_C17_lpv_fir.
Theorem C18_lpv_fir :
  forall (R : cring) tr B N M (b x x1 x2 zi zi1 zi2 : tensor R) bf xf1 xf2 z1 z2 c1 c2,
  lpv_fir_dom tr (Some zi) M N -> is3 b B N (S M) bf ->
  is2 x1 B N xf1 -> is2 x2 B N xf2 -> is2 zi1 B M z1 -> is2 zi2 B M z2 ->
  is2 x B N (fun i n => radd (rmul c1 (xf1 i n)) (rmul c2 (xf2 i n))) -> is2 zi B M (fun i k => radd (rmul c1 (z1 i k)) (rmul c2 (z2 i k))) ->
  exists y w y1 w1 y2 w2 f1 f2 g1 g2, lpv_fir b x (Some zi) tr = Ok (y, Some w) /\
    lpv_fir b x1 (Some zi1) tr = Ok (y1, Some w1) /\ lpv_fir b x2 (Some zi2) tr = Ok (y2, Some w2) /\
    is2 y1 B N f1 /\ is2 y2 B N f2 /\ is2 w1 B M g1 /\ is2 w2 B M g2 /\
    is2 y B N (fun i n => radd (rmul c1 (f1 i n)) (rmul c2 (f2 i n))) /\ is2 w B M (fun i k => radd (rmul c1 (g1 i k)) (rmul c2 (g2 i k))).
Proof.
  intros R tr B N M b x x1 x2 zi zi1 zi2 bf xf1 xf2 z1 z2 c1 c2 HD Hb X1 X2 Z1 Z2 X Z.
  destruct (lpv_fir_rows R B N M b x (Some zi) bf _ _ tr HD Hb X Z) as (y & ? & E & Y & w & -> & W).
  destruct (lpv_fir_rows R B N M b x1 (Some zi1) bf _ _ tr HD Hb X1 Z1) as (y1 & ? & E1 & Y1 & w1 & -> & W1).
  destruct (lpv_fir_rows R B N M b x2 (Some zi2) bf _ _ tr HD Hb X2 Z2) as (y2 & ? & E2 & Y2 & w2 & -> & W2).
  exists y, w, y1, w1, y2, w2. do 4 eexists. do 3 (split; [assumption|]). do 4 (split; [eassumption|]). split.
  - eapply is2_ext; [exact Y|]. intros. cbv beta. unfold lpv_fir_out. destruct tr; [|apply vconv_with_lin].
    rewrite vconvt_lin, padz_lin. apply lin4.
  - eapply is2_ext; [exact W|]. intros. cbv beta. unfold lpv_fir_st. destruct tr; [apply vtdf2_z_lin|apply hist_lin].
Qed.
Print Assumptions C18_lpv_fir.
Example lpv_fir_rel_ex :
  let b := v3 [[[1;2;3];[4;5;6];[7;8;9];[1;0;2]]]%Z in let b' := v3 [[[1;2;3];[4;5;6];[7;8;9];[0;0;0];[0;0;0]]]%Z in let zi := v2 [[1;1]]%Z in
  lpv_fir_dom true (Some zi) 2 4 /\
  show2' (lpv_fir b (v2 [[1;2;1;3]]%Z) (Some zi) false) = Some (Some ([1;4], [6;19;32;7]%Z), Some ([1;2], [3;1]%Z)) /\
  show2' (lpv_fir b' (v2 [[1;2;1;5;5]]%Z) (Some zi) false) = Some (Some ([1;5], [6;19;32;0;0]%Z), Some ([1;2], [5;5]%Z)) /\
  show2' (lpv_fir b (v2 [[2;4;2;6]]%Z) (Some (v2 [[2;2]]%Z)) false) = Some (Some ([1;4], [12;38;64;14]%Z), Some ([1;2], [6;2]%Z)).
Proof. cbv zeta. split; [split; [lia|intros; lia]|]. repeat split; vm_compute; reflexivity. Qed.

(** ** lpv.allpole *)
Definition allpole_dom {A} (tr : bool) (zi : option A) (M N : nat) : Prop := tr = true \/ zi <> None -> 1 <= M /\ M <= N.
Definition allpole_out {R : cring} (tr : bool) M (a : nat -> nat -> R) (z x : nat -> R) (n : nat) : R :=
  if tr then vtdf2_y M (fun _ k => match k with O => r1 | S _ => r0 end) (fun m k => conj (a m k)) z x n else vdf2_z M a z x (S n) 0.
Definition allpole_st {R : cring} (tr : bool) M (a : nat -> nat -> R) (z x : nat -> R) (n k : nat) : R :=
  if tr then vtdf2_z M (fun _ k => match k with O => r1 | S _ => r0 end) (fun m k => conj (a m k)) z x n k else vdf2_z M a z x n k.
Lemma allpole_rows (R : cring) B N M (a x : tensor R) zi af xf zf tr :
  allpole_dom tr zi M N -> is3 a B N M af -> is2 x B N xf -> past B M zi zf ->
  exists y z, lpv_allpole a x zi tr = Ok (y, z) /\ is2 y B N (fun i => allpole_out tr M (af i) (zf i) (xf i)) /\
    match zi with None => z = None | Some _ => exists w, z = Some w /\ is2 w B M (fun i => allpole_st tr M (af i) (zf i) (xf i) N) end.
Proof.
  intros HD Ha Hx Hz. unfold allpole_dom in HD. destruct tr, zi as [zi|]; cbn [past] in Hz.
  - destruct HD as [HM HN]; [now left|]. destruct (lpv_allpolet_some R B N M a x zi af xf zf Ha Hx Hz HM HN) as (y & z & E & Y & Z).
    exists y, (Some z). split; [exact E|]. split; [exact Y|]. eauto.
  - destruct HD as [HM HN]; [now left|]. destruct (lpv_allpolet_none R B N M a x af xf Ha Hx HM HN) as (y & E & Y).
    exists y, None. split; [exact E|]. split; [|reflexivity]. eapply is2_ext; [exact Y|]. intros i n Hi Hn. cbv beta.
    apply vtdf2_y_ext; auto. intros k Hk. symmetry. auto.
  - destruct HD as [HM HN]; [right; discriminate|]. destruct (lpv_allpole_some R B N M a x zi af xf zf Ha Hx Hz HM HN) as (y & z & E & Y & Z).
    exists y, (Some z). split; [exact E|]. split; [exact Y|]. eauto.
  - destruct (lpv_allpole_none R B N M a x af xf Ha Hx) as (y & E & Y).
    exists y, None. split; [exact E|]. split; [|reflexivity]. eapply is2_ext; [exact Y|]. intros i n Hi Hn. cbv beta. unfold allpole_out.
    cbn [vdf2_z]. f_equal. apply bsum_ext. intros j Hj. f_equal. apply vdf2_z_ext; auto. intros k Hk. symmetry. auto.
Qed.
Theorem C16_C17_lpv_allpole :
  forall (R : cring) tr B B' i i' N N' M (a x a' x' : tensor R) zi zi' af xf zf af' xf' zf' n,
  i < B -> i' < B' -> n < N -> n < N' -> allpole_dom tr zi M N -> allpole_dom tr zi' M N' ->
  is3 a B N M af -> is2 x B N xf -> past B M zi zf -> is3 a' B' N' M af' -> is2 x' B' N' xf' -> past B' M zi' zf' ->
  (forall m k, m <= n -> k < M -> af i m k = af' i' m k) -> (forall k, k < M -> zf i k = zf' i' k) -> (forall m, m <= n -> xf i m = xf' i' m) ->
  exists y z y' z' f f', lpv_allpole a x zi tr = Ok (y, z) /\ lpv_allpole a' x' zi' tr = Ok (y', z') /\
    is2 y B N f /\ is2 y' B' N' f' /\ (forall m, m <= n -> f i m = f' i' m) /\
    (S n = N -> S n = N' -> forall w w', z = Some w -> z' = Some w' ->
     exists g g', is2 w B M g /\ is2 w' B' M g' /\ forall k, k < M -> g i k = g' i' k).
Proof.
  intros R tr B B' i i' N N' M a x a' x' zi zi' af xf zf af' xf' zf' n Hi Hi' HN HN' HD HD' Ha Hx Hz Ha' Hx' Hz' Ea Ez Ex.
  destruct (allpole_rows R B N M a x zi af xf zf tr) as (y & z & E & Y & Z); auto.
  destruct (allpole_rows R B' N' M a' x' zi' af' xf' zf' tr) as (y' & z' & E' & Y' & Z'); auto.
  exists y, z, y', z'. do 2 eexists. do 2 (split; [assumption|]). split; [exact Y|]. split; [exact Y'|]. split.
  - intros m Hm. cbv beta. unfold allpole_out. destruct tr.
    + apply vtdf2_y_ext; auto; [apply HD; auto|..]; intros; [rewrite Ea by lia; reflexivity|apply Ex; lia].
    + cbn [vdf2_z]. rewrite Ex by lia. f_equal. apply bsum_ext. intros j Hj. rewrite Ea by lia. f_equal.
      apply vdf2_z_ext; auto; intros; [apply Ea|apply Ex]; lia.
  - intros QN QN' w w' -> ->. destruct zi, zi'; try discriminate. destruct Z as (? & [= <-] & W), Z' as (? & [= <-] & W').
    do 2 eexists. split; [exact W|]. split; [exact W'|]. intros k Hk. cbv beta. rewrite <- QN, <- QN'. unfold allpole_st. destruct tr.
    + apply vtdf2_z_ext; auto; intros; [rewrite Ea by lia; reflexivity|apply Ex; lia].
    + apply vdf2_z_ext; auto; intros; [apply Ea|apply Ex]; lia.
Qed.
Print Assumptions C16_C17_lpv_allpole.
Theorem C18_lpv_allpole :
  forall (R : cring) tr B N M (a x x1 x2 zi zi1 zi2 : tensor R) af xf1 xf2 z1 z2 c1 c2,
  1 <= M -> M <= N -> is3 a B N M af ->
  is2 x1 B N xf1 -> is2 x2 B N xf2 -> is2 zi1 B M z1 -> is2 zi2 B M z2 ->
  is2 x B N (fun i n => radd (rmul c1 (xf1 i n)) (rmul c2 (xf2 i n))) -> is2 zi B M (fun i k => radd (rmul c1 (z1 i k)) (rmul c2 (z2 i k))) ->
  exists y w y1 w1 y2 w2 f1 f2 g1 g2, lpv_allpole a x (Some zi) tr = Ok (y, Some w) /\
    lpv_allpole a x1 (Some zi1) tr = Ok (y1, Some w1) /\ lpv_allpole a x2 (Some zi2) tr = Ok (y2, Some w2) /\
    is2 y1 B N f1 /\ is2 y2 B N f2 /\ is2 w1 B M g1 /\ is2 w2 B M g2 /\
    is2 y B N (fun i n => radd (rmul c1 (f1 i n)) (rmul c2 (f2 i n))) /\ is2 w B M (fun i k => radd (rmul c1 (g1 i k)) (rmul c2 (g2 i k))).
Proof.
  intros R tr B N M a x x1 x2 zi zi1 zi2 af xf1 xf2 z1 z2 c1 c2 HM HN Ha X1 X2 Z1 Z2 X Z.
  assert (HD : forall z : option (tensor R), allpole_dom tr z M N) by (intros ? ?; auto).
  destruct (allpole_rows R B N M a x (Some zi) af _ _ tr (HD _) Ha X Z) as (y & ? & E & Y & w & -> & W).
  destruct (allpole_rows R B N M a x1 (Some zi1) af _ _ tr (HD _) Ha X1 Z1) as (y1 & ? & E1 & Y1 & w1 & -> & W1).
  destruct (allpole_rows R B N M a x2 (Some zi2) af _ _ tr (HD _) Ha X2 Z2) as (y2 & ? & E2 & Y2 & w2 & -> & W2).
  exists y, w, y1, w1, y2, w2. do 4 eexists. do 3 (split; [assumption|]). do 4 (split; [eassumption|]). split.
  - eapply is2_ext; [exact Y|]. intros. cbv beta. unfold allpole_out. destruct tr; [apply vtdf2_y_lin|apply vdf2_z_lin].
  - eapply is2_ext; [exact W|]. intros. cbv beta. unfold allpole_st. destruct tr; [apply vtdf2_z_lin|apply vdf2_z_lin].
Qed.
Print Assumptions C18_lpv_allpole.
Example lpv_allpole_rel_ex :
  let a := v3 [[[1;2];[3;4];[5;6];[7;8]]]%Z in let a' := v3 [[[1;2];[3;4];[0;0];[0;0];[0;0]]]%Z in let zi := v2 [[1;0]]%Z in
  show2' (lpv_allpole a (v2 [[1;0;0;0]]%Z) (Some zi) false) = Some (Some ([1;4], [0;-4;20;-108]%Z), Some ([1;2], [-108;20]%Z)) /\
  show2' (lpv_allpole a' (v2 [[1;0;9;9;9]]%Z) (Some zi) false) = Some (Some ([1;5], [0;-4;9;9;9]%Z), Some ([1;2], [9;9]%Z)) /\
  show2' (lpv_allpole a (v2 [[2;0;0;0]]%Z) (Some (v2 [[2;0]]%Z)) false) = Some (Some ([1;4], [0;-8;40;-216]%Z), Some ([1;2], [-216;40]%Z)).
Proof. cbv zeta. repeat split; vm_compute; reflexivity. Qed.

(** ** The comb filter, delay at least two, with the compiled extension (C29) *)
Theorem C16_C17_comb_filter :
  forall (R : cring) e e' B B' i i' N N' d (a x a' x' : tensor R) zi zi' af xf z0 af' xf' z0' uf uf' n,
  i < B -> i' < B' -> n < N -> n < N' -> ext e = true -> ext e' = true -> unroll_ok uf -> unroll_ok uf' -> 2 <= d ->
  ccoef B a af -> is2 x B N xf -> cpast B d zi z0 -> ccoef B' a' af' -> is2 x' B' N' xf' -> cpast B' d zi' z0' ->
  af i = af' i' -> (forall k, k < d -> z0 i k = z0' i' k) -> (forall m, m <= n -> xf i m = xf' i' m) ->
  exists y z y' z' f f', comb_filter e a d x zi uf = Ok (y, z) /\ comb_filter e' a' d x' zi' uf' = Ok (y', z') /\
    is2 y B N f /\ is2 y' B' N' f' /\ (forall m, m <= n -> f i m = f' i' m) /\
    (S n = N -> S n = N' -> forall w w', z = Some w -> z' = Some w' ->
     exists g g', is2 w B (Nat.min d N) g /\ is2 w' B' (Nat.min d N') g' /\ forall k, k < Nat.min d N -> g i k = g' i' k).
Proof.
  intros R e e' B B' i i' N N' d a x a' x' zi zi' af xf z0 af' xf' z0' uf uf' n Hi Hi' HN HN' He He' Hu Hu' Hd Ha Hx Hz Ha' Hx' Hz' Ea Ez Ex.
  destruct (comb_filter_partial R e B N d a x zi af xf z0 uf) as (y & z & f & E & Y & S1 & Z); auto; [lia..|].
  destruct (comb_filter_partial R e' B' N' d a' x' zi' af' xf' z0' uf') as (y' & z' & f' & E' & Y' & S1' & Z'); auto; [lia..|].
  assert (K : forall m, m < S n -> f i m = f' i' m).
  { apply (solves_comb_unique R d (af i) (xf i) (f i) (f' i') (z0 i) (S n)); [lia|intros; apply S1; lia|].
    intros m Hm. pose proof (S1' i' m Hi' ltac:(lia)) as H. unfold solves_comb in *. rewrite H, Ea, Ex by lia. do 2 f_equal.
    unfold hist. destruct (d - 1 <? m); [reflexivity|]. symmetry. apply Ez. lia. }
  exists y, z, y', z', f, f'. do 4 (split; [assumption|]). split; [intros; apply K; lia|].
  intros QN QN' w w' -> ->. destruct zi, zi'; try discriminate. destruct Z as (? & [= <-] & W), Z' as (? & [= <-] & W').
  do 2 eexists. split; [exact W|]. split; [exact W'|]. intros k Hk. cbv beta. rewrite <- QN, <- QN'.
  apply (hist_ext _ _ _ _ _ _ _ d); auto. lia.
Qed.
Print Assumptions C16_C17_comb_filter.
Theorem C18_comb_filter :
  forall (R : cring) e B N d (a x x1 x2 zi zi1 zi2 : tensor R) af xf1 xf2 z1 z2 c1 c2 uf,
  1 <= B -> 1 <= N -> ext e = true -> unroll_ok uf -> 2 <= d -> ccoef B a af ->
  is2 x1 B N xf1 -> is2 x2 B N xf2 -> cpast B d (Some zi1) z1 -> cpast B d (Some zi2) z2 ->
  is2 x B N (fun i n => radd (rmul c1 (xf1 i n)) (rmul c2 (xf2 i n))) -> cpast B d (Some zi) (fun i k => radd (rmul c1 (z1 i k)) (rmul c2 (z2 i k))) ->
  exists y w y1 w1 y2 w2 f1 f2 g1 g2, comb_filter e a d x (Some zi) uf = Ok (y, Some w) /\
    comb_filter e a d x1 (Some zi1) uf = Ok (y1, Some w1) /\ comb_filter e a d x2 (Some zi2) uf = Ok (y2, Some w2) /\
    is2 y1 B N f1 /\ is2 y2 B N f2 /\ is2 w1 B (Nat.min d N) g1 /\ is2 w2 B (Nat.min d N) g2 /\
    is2 y B N (fun i n => radd (rmul c1 (f1 i n)) (rmul c2 (f2 i n))) /\
    is2 w B (Nat.min d N) (fun i k => radd (rmul c1 (g1 i k)) (rmul c2 (g2 i k))).
Proof.
  intros R e B N d a x x1 x2 zi zi1 zi2 af xf1 xf2 z1 z2 c1 c2 uf HB HN He Hu Hd Ha X1 X2 Z1 Z2 X Z.
  destruct (comb_filter_spec R e B N d a x (Some zi) af _ _ uf He Hu HB HN Hd Ha X Z) as (y & ? & E & Y & w & -> & W).
  destruct (comb_filter_spec R e B N d a x1 (Some zi1) af _ _ uf He Hu HB HN Hd Ha X1 Z1) as (y1 & ? & E1 & Y1 & w1 & -> & W1).
  destruct (comb_filter_spec R e B N d a x2 (Some zi2) af _ _ uf He Hu HB HN Hd Ha X2 Z2) as (y2 & ? & E2 & Y2 & w2 & -> & W2).
  exists y, w, y1, w1, y2, w2. do 4 eexists. do 3 (split; [assumption|]). do 4 (split; [eassumption|]). split.
  - eapply is2_ext; [exact Y|]. intros. cbv beta. unfold comb_y. apply lin_rec_lin.
  - eapply is2_ext; [exact W|]. intros. cbv beta. unfold comb_y. apply lin_rec_lin.
Qed.
Print Assumptions C18_comb_filter.
Example comb_rel_ex :
  let zi := v2 [[7;8];[0;1]]%Z in
  show2' (comb_filter env_ext (v1 [2;-1]%Z) 2 (v2 [[1;0;0;0;1];[1;2;3;4;5]]%Z) (Some zi) None)
    = Some (Some ([2;5], [-15;-14;30;28;-59; 2;2;5;6;10]%Z), Some ([2;2], [-59;28;10;6]%Z)) /\
  show2' (comb_filter env_ext (v1 [2]%Z) 2 (v2 [[1;0;0;9]]%Z) (Some (v2 [[7;8]]%Z)) (Some 3))
    = Some (Some ([1;4], [-15;-14;30;37]%Z), Some ([1;2], [37;30]%Z)) /\
  show2' (comb_filter env_ext (v1 [2;-1]%Z) 2 (v2 [[2;0;0;0;2];[2;4;6;8;10]]%Z) (Some (v2 [[14;16];[0;2]]%Z)) None)
    = Some (Some ([2;5], [-30;-28;60;56;-118; 4;4;10;12;20]%Z), Some ([2;2], [-118;56;20;12]%Z)).
Proof. cbv zeta. repeat split; vm_compute; reflexivity. Qed.
