(** Pulse responses, fractions, changes of coordinates and exponential signals (C65). *)
From Coq Require Import List Arith Lia ZArith Bool Ring.
From Verif Require Import Scalar Tensor TensorLemmas TensorTac Spec Shapes SpecFilter SpecPoly SpecSystem SpecResponse Algebra M_Mat M_Kernels
  M_LtiSsm M_LpvSsm M_LtiFilter P_LtiSsm P_LpvSsm P_LpvSs P_SsSpec P_Filter P_LtiFilter P_Response
  Properties_LtiSsm Properties_LpvSsm Properties_LtiFilter.
Import ListNotations.
Open Scope nat_scope.

(** The coefficients a form really uses (C19, C20): conjugated or not. *)
Definition eff {R : cring} (c : bool) (f : nat -> R) (k : nat) : R := if c then conj (f k) else f k.
Definition num {R : cring} fm (b : nat -> R) := eff (eq_num fm) b.
Definition den {R : cring} fm (a : nat -> R) := eff (eq_den fm) a.
(** Arguments of an lfilter call with [nb] numerator and [na] denominator coefficients. *)
Definition call_ok {R : cring} e B nb na (b a : tensor R) (bf af : nat -> nat -> R) uf fm : Prop :=
  1 <= nb /\ (1 <= na \/ 2 <= nb) /\ backend_ok e (Nat.max na (nb - 1)) /\ unroll_ok uf /\ fm <> OtherForm /\ fcoef B nb b bf /\ fcoef B na a af.
Lemma call_solves {R : cring} e B N nb na (b a x : tensor R) bf af xf uf fm : 1 <= B -> 1 <= N -> call_ok e B nb na b a bf af uf fm -> is2 x B N xf ->
  exists y yf, lfilter_ssm e b a x None fm uf = Ok (y, None) /\ is2 y B N yf /\
    forall i n, i < B -> n < N -> solves_filter (nb - 1) na (num fm (bf i)) (den fm (af i)) (xf i) (yf i) n.
Proof. intros HB HN (H1 & H2 & H3 & H4 & H5 & H6 & H7) Hx. exact (lfilter_difference_equation_complex R e B N nb na b a x bf af xf uf fm HB HN H1 H2 H3 H4 H5 H6 H7 Hx). Qed.

(** ** lfilter is convolution with its pulse response h, and h is the power series b/a *)
Theorem C65_lfilter_convolution :
  forall (R : cring) e e' B N nb na (b a d x : tensor R) bf af xf uf uf' fm,
  1 <= B -> 1 <= N -> call_ok e B nb na b a bf af uf fm -> call_ok e' B nb na b a bf af uf' fm ->
  is2 d B N (fun _ => pulse) -> is2 x B N xf ->
  exists h y hf, lfilter_ssm e b a d None fm uf = Ok (h, None) /\ lfilter_ssm e' b a x None fm uf' = Ok (y, None) /\
    is2 h B N hf /\ is2 y B N (fun i => convolve (hf i) (xf i)) /\
    forall i n, i < B -> n < N -> conv na (with_one (den fm (af i))) (hf i) n = if n <? nb then num fm (bf i) n else r0.
Proof.
  intros R e e' B N nb na b a d x bf af xf uf uf' fm HB HN Hc Hc' Hd Hx.
  destruct (call_solves e B N nb na b a d bf af _ uf fm HB HN Hc Hd) as (h & hf & E & H & Sh).
  destruct (call_solves e' B N nb na b a x bf af _ uf' fm HB HN Hc' Hx) as (y & yf & E' & Y & Sy).
  exists h, y, hf. do 3 (split; [assumption|]). split.
  - eapply is2_ext; [exact Y|]. intros i n Hi Hn. cbv beta. eapply (solves_convolve R) with (N := N); [| |exact Hn]; intros; eauto.
  - intros i n Hi Hn. pose proof (proj1 (P_Diag4.solves_conv R _ _ _ _ _ _ n) (Sh i n Hi Hn)) as G.
    rewrite (conv_pulse R) in G. transitivity (if n <=? nb - 1 then num fm (bf i) n else r0); [rewrite <- G; apply P_System.conv_ext_at; auto|].
    destruct Hc as (Hnb & _). destruct (n <? nb) eqn:E1, (n <=? nb - 1) eqn:E2; b2p; auto; lia.
Qed.
Print Assumptions C65_lfilter_convolution.

(** ** Two filters agree on all signals of length N iff their fractions do: b1 (1,a2) and
    b2 (1,a1) have the same first N coefficients. *)
Theorem C65_lfilter_same :
  forall (R : cring) e1 e2 B N nb1 na1 nb2 na2 (b1 a1 b2 a2 : tensor R) bf1 af1 bf2 af2 uf1 uf2 fm1 fm2,
  1 <= B -> 1 <= N -> call_ok e1 B nb1 na1 b1 a1 bf1 af1 uf1 fm1 -> call_ok e2 B nb2 na2 b2 a2 bf2 af2 uf2 fm2 ->
  (forall x xf, is2 x B N xf -> exists y1 y2 yf, lfilter_ssm e1 b1 a1 x None fm1 uf1 = Ok (y1, None) /\
     lfilter_ssm e2 b2 a2 x None fm2 uf2 = Ok (y2, None) /\ is2 y1 B N yf /\ is2 y2 B N yf) <->
  (forall i n, i < B -> n < N -> cross nb1 na2 (num fm1 (bf1 i)) (den fm2 (af2 i)) n = cross nb2 na1 (num fm2 (bf2 i)) (den fm1 (af1 i)) n).
Proof.
  intros R e1 e2 B N nb1 na1 nb2 na2 b1 a1 b2 a2 bf1 af1 bf2 af2 uf1 uf2 fm1 fm2 HB HN H1 H2.
  assert (N1 : S (nb1 - 1) = nb1) by (destruct H1; lia). assert (N2 : S (nb2 - 1) = nb2) by (destruct H2; lia).
  split.
  - intros H i n Hi Hn. set (d := mkT [B; N] (fun ix => pulse (nth 1 ix 0)) : tensor R).
    assert (Hd : is2 d B N (fun _ => pulse)) by (split; reflexivity).
    destruct (H d _ Hd) as (y1 & y2 & yf & E1 & E2 & Y1 & Y2).
    destruct (call_solves e1 B N nb1 na1 b1 a1 d bf1 af1 _ uf1 fm1 HB HN H1 Hd) as (y1' & f1 & E1' & Y1' & S1).
    destruct (call_solves e2 B N nb2 na2 b2 a2 d bf2 af2 _ uf2 fm2 HB HN H2 Hd) as (y2' & f2 & E2' & Y2' & S2).
    rewrite E1 in E1'. injection E1' as <-. rewrite E2 in E2'. injection E2' as <-.
    rewrite <- N1, <- N2. apply (cross_of_same R (nb1 - 1) na1 (nb2 - 1) na2 _ _ _ _ (f1 i) (f2 i) N); auto.
    intros k Hk. rewrite <- (proj2 Y1' i k Hi Hk), <- (proj2 Y2' i k Hi Hk), (proj2 Y1 i k Hi Hk). symmetry. now apply Y2.
  - intros H x xf Hx.
    destruct (call_solves e1 B N nb1 na1 b1 a1 x bf1 af1 _ uf1 fm1 HB HN H1 Hx) as (y1 & f1 & E1 & Y1 & S1).
    destruct (call_solves e2 B N nb2 na2 b2 a2 x bf2 af2 _ uf2 fm2 HB HN H2 Hx) as (y2 & f2 & E2 & Y2 & S2).
    exists y1, y2, f1. do 3 (split; [assumption|]). eapply is2_ext; [exact Y2|]. intros i n Hi Hn. cbv beta. symmetry.
    apply (same_filter R (nb1 - 1) na1 (nb2 - 1) na2 (num fm1 (bf1 i)) (den fm1 (af1 i)) (num fm2 (bf2 i)) (den fm2 (af2 i)) (xf i) (f1 i) (f2 i) N); auto.
    rewrite N1, N2. auto.
Qed.
Print Assumptions C65_lfilter_same.

(** ** The sum of two filters is the filter of the sum of the fractions *)
Theorem C65_lfilter_parallel :
  forall (R : cring) e1 e2 e B N nb1 na1 nb2 na2 (b1 a1 b2 a2 b a x : tensor R) bf1 af1 bf2 af2 bf af xf uf1 uf2 uf fm1 fm2 fm,
  1 <= B -> 1 <= N -> call_ok e1 B nb1 na1 b1 a1 bf1 af1 uf1 fm1 -> call_ok e2 B nb2 na2 b2 a2 bf2 af2 uf2 fm2 ->
  call_ok e B (Nat.max (nb1 + na2) (nb2 + na1)) (na1 + na2) b a bf af uf fm ->
  (forall i k, i < B -> k < Nat.max (nb1 + na2) (nb2 + na1) -> num fm (bf i) k =
     (cross nb1 na2 (num fm1 (bf1 i)) (den fm2 (af2 i)) k + cross nb2 na1 (num fm2 (bf2 i)) (den fm1 (af1 i)) k)%cr) ->
  (forall i k, i < B -> k < na1 + na2 -> den fm (af i) k = cascade_den na1 na2 (den fm1 (af1 i)) (den fm2 (af2 i)) k) -> is2 x B N xf ->
  exists y1 y2 y f1 f2, lfilter_ssm e1 b1 a1 x None fm1 uf1 = Ok (y1, None) /\ lfilter_ssm e2 b2 a2 x None fm2 uf2 = Ok (y2, None) /\
    lfilter_ssm e b a x None fm uf = Ok (y, None) /\ is2 y1 B N f1 /\ is2 y2 B N f2 /\ is2 y B N (fun i n => f1 i n + f2 i n)%cr.
Proof.
  intros R e1 e2 e B N nb1 na1 nb2 na2 b1 a1 b2 a2 b a x bf1 af1 bf2 af2 bf af xf uf1 uf2 uf fm1 fm2 fm HB HN H1 H2 H Hb Ha Hx.
  assert (N1 : S (nb1 - 1) = nb1) by (destruct H1; lia). assert (N2 : S (nb2 - 1) = nb2) by (destruct H2; lia).
  destruct (call_solves e1 B N nb1 na1 b1 a1 x bf1 af1 _ uf1 fm1 HB HN H1 Hx) as (y1 & f1 & E1 & Y1 & S1).
  destruct (call_solves e2 B N nb2 na2 b2 a2 x bf2 af2 _ uf2 fm2 HB HN H2 Hx) as (y2 & f2 & E2 & Y2 & S2).
  destruct (call_solves e B N _ _ b a x bf af _ uf fm HB HN H Hx) as (y & f & E & Y & S0).
  exists y1, y2, y, f1, f2. do 5 (split; [assumption|]). eapply is2_ext; [exact Y|]. intros i n Hi Hn. cbv beta.
  apply (solves_filter_unique R (Nat.max (nb1 + na2) (nb2 + na1) - 1) (na1 + na2) (num fm (bf i)) (den fm (af i)) (xf i) (f i) (fun n => f1 i n + f2 i n)%cr) with (N := N); [| |exact Hn].
  - intros m Hm. now apply S0.
  - intros m Hm.
    pose proof (solves_parallel R (nb1 - 1) na1 (nb2 - 1) na2 _ _ _ _ (xf i) (f1 i) (f2 i) (Nat.max (nb1 + na2) (nb2 + na1) - 1) m
      ltac:(lia) ltac:(lia) (fun k Hk => S1 i k Hi ltac:(lia)) (fun k Hk => S2 i k Hi ltac:(lia))) as G.
    rewrite N1, N2 in G.
    eapply (solves_filter_ext R) with (5 := G); auto; intros k Hk; cbv beta; symmetry; [apply Hb|apply Ha]; auto; lia.
Qed.
Print Assumptions C65_lfilter_parallel.

(** ** The filter a/b undoes the filter b/a (b_0 = 1) *)
Theorem C65_lfilter_inverse :
  forall (R : cring) e1 e2 B N nb na (b1 a1 b2 a2 x : tensor R) bf1 af1 bf2 af2 xf uf1 uf2 fm1 fm2,
  1 <= B -> 1 <= N -> call_ok e1 B nb na b1 a1 bf1 af1 uf1 fm1 -> call_ok e2 B (S na) (nb - 1) b2 a2 bf2 af2 uf2 fm2 ->
  (forall i, i < B -> num fm1 (bf1 i) 0 = r1) ->
  (forall i k, i < B -> k < S na -> num fm2 (bf2 i) k = with_one (den fm1 (af1 i)) k) ->
  (forall i k, i < B -> k < nb - 1 -> den fm2 (af2 i) k = num fm1 (bf1 i) (S k)) -> is2 x B N xf ->
  exists y w, lfilter_ssm e1 b1 a1 x None fm1 uf1 = Ok (y, None) /\ lfilter_ssm e2 b2 a2 y None fm2 uf2 = Ok (w, None) /\ is2 w B N xf.
Proof.
  intros R e1 e2 B N nb na b1 a1 b2 a2 x bf1 af1 bf2 af2 xf uf1 uf2 fm1 fm2 HB HN H1 H2 Hb Hn Hd Hx.
  destruct (call_solves e1 B N nb na b1 a1 x bf1 af1 _ uf1 fm1 HB HN H1 Hx) as (y & f & E1 & Y & S1).
  destruct (call_solves e2 B N _ _ b2 a2 y bf2 af2 _ uf2 fm2 HB HN H2 Y) as (w & g & E2 & W & S2).
  replace (S na - 1) with na in S2 by lia.
  exists y, w. do 2 (split; [assumption|]). eapply is2_ext; [exact W|]. intros i n Hi Hn'. cbv beta.
  apply (solves_inverse R (nb - 1) na (num fm1 (bf1 i)) (den fm1 (af1 i)) (xf i) (f i) (g i) N); auto.
  intros m Hm. eapply (solves_filter_ext R) with (5 := S2 i m Hi Hm); auto. intros k Hk. apply Hn; lia.
Qed.
Print Assumptions C65_lfilter_inverse.

(** ** state_space: y_n = C A^n h_0 + sum_j H_j x_{n-j} with the Markov parameters H_j *)
Theorem C65_state_space_response :
  forall (R : cring) e B N M F P (A x : tensor R) Bt C D zi uf oi Af xf Bm Cm Dm z0,
  1 <= B -> 1 <= N -> 1 <= M -> backend_ok e M -> unroll_ok uf ->
  sys B M F P A Bt C D oi Af Bm Cm Dm -> sigv B N F x xf -> init B M zi z0 ->
  exists y zf, state_space e A x Bt C D zi uf oi = Ok (y, zf) /\
    sigv B N P y (fun b n p => bsum M (fun i => Cm b p i * mvec M (mpow M (Af b) n) (z0 b) i)
      + bsum (S n) (fun j => bsum (width F) (fun k => markov M (Af b) (Bm b) (Cm b) (Dm b) j p k * xf b (n - j)%nat k)))%cr.
Proof.
  intros R e B N M F P A x Bt C D zi uf oi Af xf Bm Cm Dm z0 HB HN HM He Hu HS Hx Hz.
  destruct (state_space_correct R e B N M F P A x Bt C D zi uf oi Af xf Bm Cm Dm z0 HB HN HM He Hu HS Hx Hz) as (y & zf & E & Y & _).
  exists y, zf. split; [exact E|].
  destruct P; cbn [sigv] in *; [eapply is3_ext|eapply is2_ext]; try exact Y; intros; cbv beta; apply ss_y_response.
Qed.
Print Assumptions C65_state_space_response.

Lemma sigv_ext {R : cring} B N F (t : tensor R) f g : sigv B N F t f -> (forall b n k, b < B -> n < N -> k < width F -> f b n k = g b n k) -> sigv B N F t g.
Proof. intros H E. destruct F; cbn [sigv width] in *; [eapply is3_ext|eapply is2_ext]; try exact H; intros; cbv beta; auto. Qed.
Lemma sigv_eq {R : cring} B N F (t : tensor R) f g : sigv B N F t f -> sigv B N F t g -> forall b n k, b < B -> n < N -> k < width F -> f b n k = g b n k.
Proof.
  intros H H' b n k Hb Hn Hk. destruct F; cbn [sigv width] in *.
  - rewrite <- (proj2 H), <- (proj2 H'); auto.
  - replace k with 0 by lia. rewrite <- (proj2 H b n Hb Hn). now apply H'.
Qed.

(** Two systems, of any orders and given in any shapes, agree from rest on all signals of
    length N iff their first N Markov parameters do. *)
Theorem C65_state_space_same :
  forall (R : cring) e e' B N M M' F P (A A' : tensor R) Bt C D Bt' C' D' uf uf' oi oi' Af Bm Cm Dm Af' Bm' Cm' Dm',
  1 <= B -> 1 <= N -> 1 <= M -> 1 <= M' -> backend_ok e M -> backend_ok e' M' -> unroll_ok uf -> unroll_ok uf' ->
  sys B M F P A Bt C D oi Af Bm Cm Dm -> sys B M' F P A' Bt' C' D' oi' Af' Bm' Cm' Dm' ->
  (forall x xf, sigv B N F x xf -> exists y y' yf, state_space e A x Bt C D None uf oi = Ok (y, None) /\
     state_space e' A' x Bt' C' D' None uf' oi' = Ok (y', None) /\ sigv B N P y yf /\ sigv B N P y' yf) <->
  (forall b n p k, b < B -> n < N -> p < width P -> k < width F ->
     markov M (Af b) (Bm b) (Cm b) (Dm b) n p k = markov M' (Af' b) (Bm' b) (Cm' b) (Dm' b) n p k).
Proof.
  intros R e e' B N M M' F P A A' Bt C D Bt' C' D' uf uf' oi oi' Af Bm Cm Dm Af' Bm' Cm' Dm' HB HN HM HM' He He' Hu Hu' HS HS'.
  assert (Hz : forall M, init B M None (fun _ _ => r0 : R)) by (intro; now apply init_0).
  split.
  - intros H b n p k Hb Hn Hp Hk.
    set (x := match F with None => mkT [B; N] (fun ix => pulse (nth 1 ix 0))
                         | Some K => mkT [B; N; K] (fun ix => if (nth 1 ix 0 =? 0) && (nth 2 ix 0 =? k) then r1 else r0) end : tensor R).
    assert (Hx : sigv B N F x (fun _ j q => if (j =? 0) && (q =? k) then r1 else r0)).
    { destruct F; cbn [sigv width] in *; unfold x; (split; [reflexivity|]); intros; auto. unfold pulse. cbn [nth at_].
      replace k with 0 by lia. cbn [Nat.eqb]. now rewrite andb_true_r. }
    destruct (H x _ Hx) as (y & y' & yf & E & E' & Y & Y').
    destruct (state_space_correct R e B N M F P A x Bt C D None uf oi Af _ Bm Cm Dm _ HB HN HM He Hu HS Hx (Hz M)) as (y1 & z1 & E1 & Y1 & ->).
    destruct (state_space_correct R e' B N M' F P A' x Bt' C' D' None uf' oi' Af' _ Bm' Cm' Dm' _ HB HN HM' He' Hu' HS' Hx (Hz M')) as (y2 & z2 & E2 & Y2 & ->).
    rewrite E in E1. injection E1 as <-. rewrite E' in E2. injection E2 as <-.
    pose proof (sigv_eq B N P y _ _ Y Y1 b n p Hb Hn Hp) as G1. pose proof (sigv_eq B N P y' _ _ Y' Y2 b n p Hb Hn Hp) as G2. cbv beta in G1, G2.
    rewrite (ss_y_pulse R M (width F) _ _ _ _ _ n p k Hk) in G1 by reflexivity.
    rewrite (ss_y_pulse R M' (width F) _ _ _ _ _ n p k Hk) in G2 by reflexivity. congruence.
  - intros H x xf Hx.
    destruct (state_space_correct R e B N M F P A x Bt C D None uf oi Af _ Bm Cm Dm _ HB HN HM He Hu HS Hx (Hz M)) as (y & z1 & E1 & Y1 & ->).
    destruct (state_space_correct R e' B N M' F P A' x Bt' C' D' None uf' oi' Af' _ Bm' Cm' Dm' _ HB HN HM' He' Hu' HS' Hx (Hz M')) as (y' & z2 & E2 & Y2 & ->).
    exists y, y'. eexists. do 3 (split; [eassumption|]). eapply sigv_ext; [exact Y2|]. intros b n p Hb Hn Hp. cbv beta.
    rewrite !ss_y_response_rest. apply bsum_ext. intros j Hj. apply bsum_ext. intros k Hk. rewrite H by (auto; lia). reflexivity.
Qed.
Print Assumptions C65_state_space_same.

(** ** Change of state coordinates (the new state may have another size) *)
Theorem C65_state_space_coordinates :
  forall (R : cring) e e' B N M M' F P (A A' x : tensor R) Bt C D Bt' C' D' zi zi' uf uf' oi oi' Af Bm Cm Dm Af' Bm' Cm' Dm' xf z0 z0' T,
  1 <= B -> 1 <= N -> 1 <= M -> 1 <= M' -> backend_ok e M -> backend_ok e' M' -> unroll_ok uf -> unroll_ok uf' ->
  sys B M F P A Bt C D oi Af Bm Cm Dm -> sys B M' F P A' Bt' C' D' oi' Af' Bm' Cm' Dm' -> sigv B N F x xf -> init B M zi z0 -> init B M' zi' z0' ->
  (forall b, b < B -> carries M M' (width F) (width P) (T b) (T b) (Af b) (Af' b) (Bm b) (Bm' b) (Cm b) (Cm' b)) ->
  same3 B (width P) (width F) Dm' Dm -> (forall b i, b < B -> i < M' -> z0' b i = mvec M (T b) (z0 b) i) ->
  exists y y' zf zf' yf, state_space e A x Bt C D zi uf oi = Ok (y, zf) /\ state_space e' A' x Bt' C' D' zi' uf' oi' = Ok (y', zf') /\
    sigv B N P y yf /\ sigv B N P y' yf /\
    (zi <> None -> zi' <> None -> exists z z' g, zf = Some z /\ zf' = Some z' /\ is2 z B M g /\ is2 z' B M' (fun b => mvec M (T b) (g b))).
Proof.
  intros R e e' B N M M' F P A A' x Bt C D Bt' C' D' zi zi' uf uf' oi oi' Af Bm Cm Dm Af' Bm' Cm' Dm' xf z0 z0' T
    HB HN HM HM' He He' Hu Hu' HS HS' Hx Hz Hz' HT HD H0.
  destruct (state_space_correct R e B N M F P A x Bt C D zi uf oi Af _ Bm Cm Dm _ HB HN HM He Hu HS Hx Hz) as (y & zf & E & Y & Z).
  destruct (state_space_correct R e' B N M' F P A' x Bt' C' D' zi' uf' oi' Af' _ Bm' Cm' Dm' _ HB HN HM' He' Hu' HS' Hx Hz') as (y' & zf' & E' & Y' & Z').
  exists y, y', zf, zf'. eexists. do 3 (split; [eassumption|]). split.
  - eapply sigv_ext; [exact Y'|]. intros b n p Hb Hn Hp. cbv beta.
    apply (carries_y R M M' (width F) (width P) (fun _ => T b)) with (N := N); auto.
  - intros Hs Hs'. destruct zi as [zi|]; [|congruence]. destruct zi' as [zi'|]; [|congruence].
    destruct Z as (z & -> & Z), Z' as (z' & -> & Z'). exists z, z'. eexists. do 2 (split; [reflexivity|]). split; [exact Z|].
    eapply is2_ext; [exact Z'|]. intros b i Hb Hi. cbv beta.
    apply (carries_h R M M' (width F) (width P) (fun _ => T b) _ _ _ _ (fun _ => Cm b) (fun _ => Cm' b)) with (N := N); auto.
Qed.
Print Assumptions C65_state_space_coordinates.

Theorem C65_lpv_state_space_coordinates :
  forall (R : cring) e e' pr pr' B N M M' F P (A A' x : tensor R) Bt C D Bt' C' D' zi zi' uf uf' oi oi' Af Bm Cm Dm Af' Bm' Cm' Dm' xf z0 z0' T,
  1 <= B -> 1 <= N -> 1 <= M -> 1 <= M' -> lpv_backend_ok e pr M -> lpv_backend_ok e' pr' M' -> unroll_good N uf -> unroll_good N uf' ->
  sysv B N M F P A Bt C D oi Af Bm Cm Dm -> sysv B N M' F P A' Bt' C' D' oi' Af' Bm' Cm' Dm' -> sigv B N F x xf -> init B M zi z0 -> init B M' zi' z0' ->
  (forall b n, b < B -> n < N -> carries M M' (width F) (width P) (T b n) (T b (S n)) (Af b n) (Af' b n) (Bm b n) (Bm' b n) (Cm b n) (Cm' b n)) ->
  same4 B N (width P) (width F) Dm' Dm -> (forall b i, b < B -> i < M' -> z0' b i = mvec M (T b 0) (z0 b) i) ->
  exists y y' zf zf' yf, lpv_state_space e pr A x Bt C D zi uf oi = Ok (y, zf) /\ lpv_state_space e' pr' A' x Bt' C' D' zi' uf' oi' = Ok (y', zf') /\
    sigv B N P y yf /\ sigv B N P y' yf /\
    (zi <> None -> zi' <> None -> exists z z' g, zf = Some z /\ zf' = Some z' /\ is2 z B M g /\ is2 z' B M' (fun b => mvec M (T b N) (g b))).
Proof.
  intros R e e' pr pr' B N M M' F P A A' x Bt C D Bt' C' D' zi zi' uf uf' oi oi' Af Bm Cm Dm Af' Bm' Cm' Dm' xf z0 z0' T
    HB HN HM HM' He He' Hu Hu' HS HS' Hx Hz Hz' HT HD H0.
  destruct (lpv_state_space_partial R e pr B N M F P A x Bt C D zi uf oi Af xf Bm Cm Dm z0) as (y & zf & E & Y & Z); auto.
  destruct (lpv_state_space_partial R e' pr' B N M' F P A' x Bt' C' D' zi' uf' oi' Af' xf Bm' Cm' Dm' z0') as (y' & zf' & E' & Y' & Z'); auto.
  exists y, y', zf, zf'. eexists. do 3 (split; [eassumption|]). split.
  - eapply sigv_ext; [exact Y'|]. intros b n p Hb Hn Hp. cbv beta.
    apply (carries_y R M M' (width F) (width P) (T b)) with (N := N); auto.
  - intros Hs Hs'. destruct zi as [zi|]; [|congruence]. destruct zi' as [zi'|]; [|congruence].
    destruct Z as (z & -> & Z), Z' as (z' & -> & Z'). exists z, z'. eexists. do 2 (split; [reflexivity|]). split; [exact Z|].
    eapply is2_ext; [exact Z'|]. intros b i Hb Hi. cbv beta.
    apply (carries_h R M M' (width F) (width P) (T b) _ _ _ _ (Cm b) (Cm' b)) with (N := N); auto.
Qed.
Print Assumptions C65_lpv_state_space_coordinates.

(** ** Exponential signals are eigenfunctions: for x_n = c^n v and c h_0 = A h_0 + B v the
    output is c^n (C h_0 + D v) and the state c^N h_0 *)
Theorem C65_state_space_exponential :
  forall (R : cring) e B N M F P (A x : tensor R) Bt C D zi uf oi Af xf Bm Cm Dm z0 c v,
  1 <= B -> 1 <= N -> 1 <= M -> backend_ok e M -> unroll_ok uf ->
  sys B M F P A Bt C D oi Af Bm Cm Dm -> sigv B N F x xf -> init B M (Some zi) z0 ->
  (forall b n k, b < B -> n < N -> k < width F -> xf b n k = spow (c b) n * v b k)%cr ->
  (forall b i, b < B -> i < M -> c b * z0 b i = mvec M (Af b) (z0 b) i + bsum (width F) (fun k => Bm b i k * v b k))%cr ->
  exists y zf, state_space e A x Bt C D (Some zi) uf oi = Ok (y, Some zf) /\
    sigv B N P y (fun b n p => spow (c b) n * (bsum M (fun m => Cm b p m * z0 b m) + bsum (width F) (fun k => Dm b p k * v b k)))%cr /\
    is2 zf B M (fun b i => spow (c b) N * z0 b i)%cr.
Proof.
  intros R e B N M F P A x Bt C D zi uf oi Af xf Bm Cm Dm z0 c v HB HN HM He Hu HS Hx Hz Hxe Hh.
  destruct (state_space_correct R e B N M F P A x Bt C D (Some zi) uf oi Af xf Bm Cm Dm z0 HB HN HM He Hu HS Hx Hz) as (y & zf & E & Y & z & -> & Z).
  exists y, z. split; [exact E|]. split.
  - eapply sigv_ext; [exact Y|]. intros b n p Hb Hn Hp. cbv beta. apply (exp_y R) with (N := N); auto.
  - eapply is2_ext; [exact Z|]. intros b i Hb Hi. cbv beta. apply (exp_h R) with (N := N) (v := v b); auto.
Qed.
Print Assumptions C65_state_space_exponential.

(** Example for the theorems on lfilter: (1 + 2z)/(1 + z - z^2), its pulse response and a
    signal; 1/(1+z) + 2/(1-z) = (3+z)/(1-z^2); (1+3z)/(1+2z) and its inverse; (1+z)/(1+3z+2z^2) = 1/(1+2z). *)
Example C65_lfilter_ex :
  let b := v1 [1;2]%Z in let a := v1 [1;-1]%Z in let x := v2 [[1;2;0;3]]%Z in let d := v2 [[1;0;0;0]]%Z in
  let ex fm b a := show2' (lfilter_ssm env0 (v1 b) (v1 a) x None fm None) in
  is2 d 1 4 (fun _ => pulse (R := Zring)) /\
  call_ok (R := Zring) env0 1 2 2 b a (fun _ k => nth k [1;2]%Z 0%Z) (fun _ k => nth k [1;-1]%Z 0%Z) None Tdf2 /\
  show2' (lfilter_ssm env0 b a d None Tdf2 None) = Some (Some ([1;4], [1;1;0;1]%Z), None) /\
  map (convolve (R := Zring) (fun k => nth k [1;1;0;1]%Z 0%Z) (fun k => nth k [1;2;0;3]%Z 0%Z)) [0;1;2;3] = [1;3;2;4]%Z /\
  show2' (lfilter_ssm env0 b a x None Df1 None) = Some (Some ([1;4], [1;3;2;4]%Z), None) /\
  ex Df2 [1]%Z [1]%Z = Some (Some ([1;4], [1;1;-1;4]%Z), None) /\ ex Tdf2 [2]%Z [-1]%Z = Some (Some ([1;4], [2;6;6;12]%Z), None) /\
  ex Df1 [3;1]%Z [0;-1]%Z = Some (Some ([1;4], [3;7;5;16]%Z), None) /\
  map (fun k => cross (R := Zring) 1 1 (fun _ => 1%Z) (fun _ => (-1)%Z) k + cross (R := Zring) 1 1 (fun _ => 2%Z) (fun _ => 1%Z) k)%Z [0;1] = [3;1]%Z /\
  map (cascade_den (R := Zring) 1 1 (fun _ => 1%Z) (fun _ => (-1)%Z)) [0;1] = [0;-1]%Z /\
  show2' (let* ' (y, _) := lfilter_ssm env0 (v1 [1;3]%Z) (v1 [2]%Z) x None Df2 None in lfilter_ssm env0 (v1 [1;2]%Z) (v1 [3]%Z) y None Tdf1 None)
    = Some (Some ([1;4], [1;2;0;3]%Z), None) /\
  map (cross (R := Zring) 2 1 (fun _ => 1%Z) (fun _ => 2%Z)) [0;1;2;3] = map (cross (R := Zring) 1 2 (fun _ => 1%Z) (fun k => nth k [3;2]%Z 0%Z)) [0;1;2;3] /\
  ex Df2 [1;1]%Z [3;2]%Z = ex Tdf2 [1]%Z [2]%Z /\ ex Tdf2 [1]%Z [2]%Z = Some (Some ([1;4], [1;0;0;3]%Z), None).
Proof.
  cbv zeta. split; [|split; [|repeat split; vm_compute; reflexivity]].
  - split; [reflexivity|]. intros i n Hi Hn. replace i with 0 by lia. destruct n as [|[|[|[|n]]]]; first [reflexivity|lia].
  - split; [lia|]. split; [lia|]. split; [apply backend_env0|]. split; [exact I|]. split; [discriminate|].
    split; [apply (fc_s (R := Zring) (fun k => nth k [1;2]%Z 0%Z))|apply (fc_s (R := Zring) (fun k => nth k [1;-1]%Z 0%Z))];
      try (split; reflexivity); intros; reflexivity.
Qed.

(** The system A = [[1,1],[1,0]], B = (1,0), C = (1,1), D = 2; the same in the coordinates
    T = [[1,1],[0,1]]; and B = (0,1), D = 3 with the signal 2^n from the state (1,1). *)
Example C65_state_space_ex :
  let A := ofl 0%Z [2;2] [1;1;1;0]%Z : tensor Zring in let A' := ofl 0%Z [2;2] [2;-1;1;-1]%Z : tensor Zring in
  let x := v2 [[1;0;3]]%Z in let T i j := nth j (nth i [[1;1];[0;1]]%Z []) 0%Z in
  let f A i j := nth j (nth i A []) 0%Z in
  map (fun n => markov (R := Zring) 2 (f [[1;1];[1;0]]%Z) (f [[1];[0]]%Z) (f [[1;1]]%Z) (f [[2]]%Z) n 0 0) [0;1;2;3] = [2;1;2;3]%Z /\
  show2' (state_space env0 A (v2 [[1;0;0;0]]%Z) (Some (v1 [1;0]%Z)) (Some (v1 [1;1]%Z)) (Some (mk0 (2 : Zring)%Z)) None None None)
    = Some (Some ([1;4], [2;1;2;3]%Z), None) /\
  carries (R := Zring) 2 2 1 1 T T (f [[1;1];[1;0]]%Z) (f [[2;-1];[1;-1]]%Z) (f [[1];[0]]%Z) (f [[1];[0]]%Z) (f [[1;1]]%Z) (f [[1;0]]%Z) /\
  show2' (state_space env0 A x (Some (v1 [1;0]%Z)) (Some (v1 [1;1]%Z)) (Some (mk0 (2 : Zring)%Z)) (Some (v1 [1;2]%Z)) None None)
    = Some (Some ([1;3], [5;5;15]%Z), Some ([1;2], [12;5]%Z)) /\
  show2' (state_space env0 A' x (Some (v1 [1;0]%Z)) (Some (v1 [1;0]%Z)) (Some (mk0 (2 : Zring)%Z)) (Some (v1 [3;2]%Z)) (Some 3) None)
    = Some (Some ([1;3], [5;5;15]%Z), Some ([1;2], [17;5]%Z)) /\
  show2' (state_space env0 A (v2 [[1;2;4]]%Z) (Some (v1 [0;1]%Z)) (Some (v1 [1;1]%Z)) (Some (mk0 (3 : Zring)%Z)) (Some (v1 [1;1]%Z)) None None)
    = Some (Some ([1;3], [5;10;20]%Z), Some ([1;2], [8;8]%Z)).
Proof.
  cbv zeta. split; [vm_compute; reflexivity|]. split; [vm_compute; reflexivity|].
  split; [|repeat split; vm_compute; reflexivity].
  split; [|split]; intros i j Hi Hj; destruct i as [|[|i]]; try lia; destruct j as [|[|j]]; try lia; reflexivity.
Qed.
