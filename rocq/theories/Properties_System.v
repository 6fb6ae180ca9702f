(** Time invariance (C55) and cascades (C56) of the functions of philtorch.lti. *)
From Coq Require Import List Arith Lia ZArith Bool Ring.
From Verif Require Import Scalar Tensor TensorLemmas TensorTac Spec Shapes SpecFilter SpecPoly SpecSystem Algebra M_Mat M_Kernels M_LtiRecur
  M_LtiSsm M_LtiFilter P_LtiRecur P_LtiSsm P_SsSpec P_Filter P_LtiFilter P_LtiFilter2 P_LtiFilter3 P_LtiFilter4 P_Diag4 P_System
  Properties_LtiRecur Properties_LtiSsm Properties_LtiFilter Properties_LtiFilter2.
Import ListNotations.

(** ** C55: time invariance.  A signal delayed by [d] samples (zeros in front, possibly
    longer: N' <= N + d) gives the output delayed by [d] samples, from rest. *)
Section Gen.
Variable R : cring.
Add Ring Rr : (r_th R).

Lemma delay_filter P Q (b a x x' y y' : nat -> R) d N N' : N' <= N + d ->
  (forall n, n < N -> solves_filter P Q b a x y n) -> (forall n, n < N' -> solves_filter P Q b a x' y' n) ->
  (forall n, n < N' -> x' n = dly x d n) -> forall n, n < N' -> y' n = dly y d n.
Proof.
  intros HN H H' Hx. apply (solves_filter_unique R P Q b a (dly x d)).
  - intros n Hn. eapply (solves_filter_ext R) with (5 := H' n Hn); auto. intros k Hk. apply Hx. lia.
  - intros n Hn. apply solves_filter_dly. intros m Hm. apply H. lia.
Qed.
Lemma delay_state M A (u u' : nat -> nat -> R) d N : 
  (forall n i, n < N -> i < M -> u' n i = if d <=? n then u (n - d) i else r0) ->
  forall n i, n <= N -> i < M -> state M (fun _ => A) (fun _ => r0) u' n i = if d <=? n then state M (fun _ => A) (fun _ => r0) u (n - d) i else r0.
Proof.
  intro Hu. induction n as [|n IH]; intros i Hn Hi.
  - cbn [state]. destruct (d <=? 0) eqn:E; b2p; [|reflexivity]. now replace (0 - d) with 0 by lia.
  - cbn [state]. rewrite Hu by lia. destruct (d <=? S n) eqn:E; b2p.
    + destruct (d <=? n) eqn:E1; b2p.
      * replace (S n - d) with (S (n - d)) by lia. cbn [state]. f_equal. apply mvec_ext; auto. intros j Hj. apply IH; lia.
      * replace (S n - d) with 0 by lia. cbn [state]. transitivity (mvec M A (fun _ => r0) i + r0)%cr; [|rewrite mvec_0; ring].
        f_equal. apply mvec_ext; auto. intros j Hj. apply IH; lia.
    + bfalse (d <=? n). transitivity (mvec M A (fun _ => r0) i + r0)%cr; [|rewrite mvec_0; ring].
      f_equal. apply mvec_ext; auto. intros j Hj. rewrite IH by lia. now bfalse (d <=? n).
Qed.
Lemma delay_comb k (a : R) (x x' y y' : nat -> R) d N N' : 1 <= k -> N' <= N + d ->
  (forall n, n < N -> solves_comb k a x y (fun _ => r0) n) -> (forall n, n < N' -> solves_comb k a x' y' (fun _ => r0) n) ->
  (forall n, n < N' -> x' n = dly x d n) -> forall n, n < N' -> y' n = dly y d n.
Proof.
  intros Hk HN H H' Hx. induction n as [n IH] using lt_wf_ind. intro Hn.
  rewrite (H' n Hn), Hx by lia. unfold hist. destruct (k - 1 <? n) eqn:E; b2p.
  - rewrite IH by lia. unfold dly. destruct (d <=? n) eqn:E1; b2p.
    + rewrite (H (n - d)) by lia. f_equal. f_equal. unfold hist.
      destruct (k - 1 <? n - d) eqn:E2; destruct (d <=? n - 1 - (k - 1)) eqn:E3; b2p; try lia; [|reflexivity]. f_equal. lia.
    + bfalse (d <=? n - 1 - (k - 1)). ring.
  - unfold dly. destruct (d <=? n) eqn:E1; b2p; [|ring]. rewrite (H (n - d)) by lia. unfold hist. now bfalse (k - 1 <? n - d).
Qed.
Lemma ARmul_0_r (c : R) : (c * 0 = 0)%cr.
Proof. ring. Qed.
Lemma delay_lin (a : R) (x : nat -> R) d n :
  lin_rec (fun _ => a) r0 (dly x d) (S n) = dly (fun n => lin_rec (fun _ => a) r0 x (S n)) d n.
Proof.
  assert (H : forall k, lin_rec (fun _ => a) r0 (dly x d) k = if d <=? k then lin_rec (fun _ => a) r0 x (k - d) else r0).
  { induction k as [|m IH]; cbn [lin_rec]; [destruct (d <=? 0); reflexivity|].
    rewrite IH. unfold dly. destruct (d <=? S m) eqn:E; b2p.
    - destruct (d <=? m) eqn:E1; b2p; [replace (S m - d) with (S (m - d)) by lia; reflexivity|].
      replace (S m - d) with 0 by lia. cbn [lin_rec]. ring.
    - bfalse (d <=? m). ring. }
  rewrite H. unfold dly. destruct (d <=? n) eqn:E; b2p.
  - btrue (d <=? S n). now replace (S n - d) with (S (n - d)) by lia.
  - destruct (d <=? S n) eqn:E1; b2p; [|reflexivity]. now replace (S n - d) with 0 by lia.
Qed.
End Gen.
Theorem C55_lfilter :
  forall (R : cring) e B N N' d nb na (b a x x' : tensor R) bf af xf uf uf' fm,
  1 <= B -> 1 <= N -> 1 <= N' <= N + d -> 1 <= nb -> 1 <= na \/ 2 <= nb -> backend_ok e (Nat.max na (nb - 1)) ->
  unroll_ok uf -> unroll_ok uf' -> fm <> OtherForm -> fcoef B nb b bf -> fcoef B na a af ->
  is2 x B N xf -> is2 x' B N' (fun i => dly (xf i) d) ->
  exists y y' yf, lfilter_ssm e b a x None fm uf = Ok (y, None) /\ lfilter_ssm e b a x' None fm uf' = Ok (y', None) /\
    is2 y B N yf /\ is2 y' B N' (fun i => dly (yf i) d).
Proof.
  intros R e B N N' d nb na b a x x' bf af xf uf uf' fm HB HN HN' Hnb Hor He Hu Hu' Hfm Hb Ha Hx Hx'.
  destruct (lfilter_difference_equation_complex R e B N nb na b a x bf af xf uf fm) as (y & yf & E & Y & H); auto.
  destruct (lfilter_difference_equation_complex R e B N' nb na b a x' bf af _ uf' fm HB ltac:(lia) Hnb Hor He Hu' Hfm Hb Ha Hx') as (y' & yf' & E' & Y' & H').
  exists y, y', yf. do 3 (split; [assumption|]). eapply is2_ext; [exact Y'|]. intros i n Hi Hn. cbv beta.
  eapply (delay_filter R) with (N := N) (N' := N'); [lia| | |reflexivity|exact Hn]; intros; [apply H|apply H']; auto.
Qed.
Print Assumptions C55_lfilter.

Theorem C55_fir :
  forall (R : cring) B N N' d M (b x x' : tensor R) bf xf tr,
  1 <= N -> 1 <= N' <= N + d -> tr = false \/ 1 <= M -> is2 b B (S M) bf -> is2 x B N xf -> is2 x' B N' (fun i => dly (xf i) d) ->
  exists y y' yf, fir b x None tr = Ok (y, None) /\ fir b x' None tr = Ok (y', None) /\
    is2 y B N yf /\ is2 y' B N' (fun i => dly (yf i) d).
Proof.
  intros R B N N' d M b x x' bf xf tr HN HN' Ht Hb Hx Hx'. destruct tr.
  - destruct Ht as [Ht|HM]; [discriminate|].
    destruct (fir_transposed_partial R B N M b x bf xf HM Hb Hx) as (y & E & Y).
    destruct (fir_transposed_partial R B N' M b x' bf _ HM Hb Hx') as (y' & E' & Y').
    exists y, y'. eexists. do 2 (split; [assumption|]). split; [exact Y|]. eapply is2_ext; [exact Y'|]. intros i n Hi Hn. cbv beta. apply conv_dly.
  - destruct (fir_convolution R B N M b x bf xf HN Hb Hx) as (y & E & Y).
    destruct (fir_convolution R B N' M b x' bf _ ltac:(lia) Hb Hx') as (y' & E' & Y').
    exists y, y'. eexists. do 2 (split; [assumption|]). split; [exact Y|]. eapply is2_ext; [exact Y'|]. intros i n Hi Hn. cbv beta. apply conv_dly.
Qed.
Print Assumptions C55_fir.

Theorem C55_comb_filter :
  forall (R : cring) e B N N' d k (a x x' : tensor R) af xf uf uf',
  k = 1 \/ 2 <= k /\ ext e = true -> unroll_ok uf -> unroll_ok uf' -> 1 <= B -> 1 <= N -> 1 <= N' <= N + d ->
  ccoef B a af -> is2 x B N xf -> is2 x' B N' (fun i => dly (xf i) d) ->
  exists y y' yf, comb_filter e a k x None uf = Ok (y, None) /\ comb_filter e a k x' None uf' = Ok (y', None) /\
    is2 y B N yf /\ is2 y' B N' (fun i => dly (yf i) d).
Proof.
  intros R e B N N' d k a x x' af xf uf uf' Hk Hu Hu' HB HN HN' Ha Hx Hx'.
  assert (Hz : cpast B k None (fun _ _ => r0 : R)) by (constructor; reflexivity).
  assert (G : forall N u (x : tensor R) xf, 1 <= N -> unroll_ok u -> is2 x B N xf -> exists y yf, comb_filter e a k x None u = Ok (y, None) /\ is2 y B N yf /\
     forall i n, i < B -> n < N -> solves_comb k (af i) (xf i) (yf i) (fun _ => r0) n).
  { intros N0 u x0 xf0 HN0 Hu0 Hx0. destruct Hk as [->|[Hk He]].
    - exact (comb_filter_delay_one_partial R e B N0 a x0 None af xf0 _ u Hu0 HB HN0 Ha Hx0 Hz).
    - destruct (comb_filter_partial R e B N0 k a x0 None af xf0 _ u He Hu0 HB HN0 Hk Ha Hx0 Hz) as (y & zf & yf & E & Y & H & ->). eauto. }
  destruct (G N uf x xf HN Hu Hx) as (y & yf & E & Y & H). destruct (G N' uf' x' _ ltac:(lia) Hu' Hx') as (y' & yf' & E' & Y' & H').
  exists y, y', yf. do 3 (split; [assumption|]). eapply is2_ext; [exact Y'|]. intros i n Hi Hn. cbv beta.
  eapply (delay_comb R k (af i)) with (N := N) (N' := N'); [lia|lia| | |reflexivity|exact Hn]; intros; [apply H|apply H']; auto.
Qed.
Print Assumptions C55_comb_filter.

Theorem C55_state_space :
  forall (R : cring) e B N N' d M F P (A x x' : tensor R) Bt C D zi uf uf' oi Af xf Bm Cm Dm,
  1 <= B -> 1 <= N -> 1 <= N' <= N + d -> 1 <= M -> backend_ok e M -> unroll_ok uf -> unroll_ok uf' ->
  sys B M F P A Bt C D oi Af Bm Cm Dm -> sigv B N F x xf -> sigv B N' F x' (fun b n k => if d <=? n then xf b (n - d) k else r0) ->
  init B M zi (fun _ _ => r0) ->
  exists y y' zf zf' yf, state_space e A x Bt C D zi uf oi = Ok (y, zf) /\ state_space e A x' Bt C D zi uf' oi = Ok (y', zf') /\
    sigv B N P y yf /\ sigv B N' P y' (fun b n k => if d <=? n then yf b (n - d) k else r0) /\
    (zi <> None -> N' = N + d -> exists z z' g, zf = Some z /\ zf' = Some z' /\ is2 z B M g /\ is2 z' B M g).
Proof.
  intros R e B N N' d M F P A x x' Bt C D zi uf uf' oi Af xf Bm Cm Dm HB HN HN' HM He Hu Hu' HS Hx Hx' Hz.
  destruct (state_space_correct R e B N M F P A x Bt C D zi uf oi Af xf Bm Cm Dm _ HB HN HM He Hu HS Hx Hz) as (y & zf & E & Y & Z).
  destruct (state_space_correct R e B N' M F P A x' Bt C D zi uf' oi Af _ Bm Cm Dm _ HB ltac:(lia) HM He Hu' HS Hx' Hz) as (y' & zf' & E' & Y' & Z').
  assert (Hh : forall b n i, n <= N' -> i < M ->
    ss_h M (width F) (fun _ => Af b) (fun _ => Bm b) (fun _ => r0) (fun n k => if d <=? n then xf b (n - d) k else r0) n i
    = if d <=? n then ss_h M (width F) (fun _ => Af b) (fun _ => Bm b) (fun _ => r0) (xf b) (n - d) i else r0).
  { intros b n i Hn Hi. unfold ss_h. apply (delay_state R M (Af b)) with (N := N'); auto. intros m j Hm Hj.
    destruct (d <=? m); [reflexivity|]. apply bsum_0. intros. apply (ARmul_0_r R). }
  exists y, y', zf, zf'. eexists. do 2 (split; [assumption|]). split; [exact Y|]. split.
  - assert (Q : forall b n p, n < N' -> ss_y M (width F) (fun _ => Af b) (fun _ => Bm b) (fun _ => Cm b) (fun _ => Dm b) (fun _ => r0)
        (fun n k => if d <=? n then xf b (n - d) k else r0) n p
      = if d <=? n then ss_y M (width F) (fun _ => Af b) (fun _ => Bm b) (fun _ => Cm b) (fun _ => Dm b) (fun _ => r0) (xf b) (n - d) p else r0).
    { intros b n p Hn. unfold ss_y. rewrite (bsum_ext M _ (fun m => rmul (Cm b p m) (if d <=? n then ss_h M (width F) (fun _ => Af b) (fun _ => Bm b) (fun _ => r0) (xf b) (n - d) m else r0)))
        by (intros; rewrite Hh by lia; reflexivity).
      destruct (d <=? n); [reflexivity|]. rewrite !bsum_0 by (intros; apply (ARmul_0_r R)). apply (Radd_0_l (r_th R)). }
    destruct P; cbn [sigv] in *; [eapply is3_ext|eapply is2_ext]; try exact Y'; intros; cbv beta; now apply Q.
  - intros Hs ->. destruct zi as [zi|]; [|congruence]. destruct Z as (z & -> & Z). destruct Z' as (z' & -> & Z').
    exists z, z'. eexists. do 2 (split; [reflexivity|]). split; [exact Z|]. eapply is2_ext; [exact Z'|]. intros b i Hb Hi. cbv beta.
    rewrite Hh by lia. btrue (d <=? N + d). now replace (N + d - d) with N by lia.
Qed.
Print Assumptions C55_state_space.

Theorem C55_linear_recurrence :
  forall (R : cring) B N N' d (a init x x' : tensor R) af xf u u',
  1 <= B -> 1 <= N -> 1 <= N' <= N + d -> 1 <= u -> 1 <= u' -> coef B a af -> coef B init (fun _ => r0) ->
  is2 x B N xf -> is2 x' B N' (fun i => dly (xf i) d) ->
  exists y y' yf, linear_recurrence a init x u = Ok y /\ linear_recurrence a init x' u' = Ok y' /\
    is2 y B N yf /\ is2 y' B N' (fun i => dly (yf i) d).
Proof.
  intros R B N N' d a init x x' af xf u u' HB HN HN' Hu Hu' Ha Hi Hx Hx'.
  destruct (linear_recurrence_correct R B N a init x af _ xf u HB HN Hu Ha Hi Hx) as (y & E & Y).
  destruct (linear_recurrence_correct R B N' a init x' af _ _ u' HB ltac:(lia) Hu' Ha Hi Hx') as (y' & E' & Y').
  exists y, y'. eexists. do 2 (split; [assumption|]). split; [exact Y|]. eapply is2_ext; [exact Y'|]. intros i n Hj Hn. cbv beta.
  exact (delay_lin R (af i) (xf i) d n).
Qed.
Print Assumptions C55_linear_recurrence.

(** ** C56: cascades.  Filtering with (b1, a1) and then with (b2, a2) is filtering with the
    products of the numerators and of the denominators: complex coefficients if the three
    calls use the same form, real ones if the forms differ. *)
Definition forms_fit {R : cring} (fm1 fm2 fm : form) nb1 na1 nb2 na2 (b1 a1 b2 a2 : nat -> nat -> R) : Prop :=
  (fm1 = fm /\ fm2 = fm) \/ (realc nb1 b1 /\ realc na1 a1 /\ realc nb2 b2 /\ realc na2 a2).
Section Casc.
Variable R : cring.
Lemma casc_eqs fm1 fm2 fm nb1 na1 nb2 na2 (b1 a1 b2 a2 : nat -> nat -> R) i :
  forms_fit fm1 fm2 fm nb1 na1 nb2 na2 b1 a1 b2 a2 ->
  (forall k, (if eq_num fm then conj (cascade_num nb1 nb2 (b1 i) (b2 i) k) else cascade_num nb1 nb2 (b1 i) (b2 i) k)
    = pmulc nb1 nb2 (fun k => if eq_num fm1 then conj (b1 i k) else b1 i k) (fun k => if eq_num fm2 then conj (b2 i k) else b2 i k) k) /\
  (forall k, (if eq_den fm then conj (cascade_den na1 na2 (a1 i) (a2 i) k) else cascade_den na1 na2 (a1 i) (a2 i) k)
    = casc_a R na1 na2 (fun k => if eq_den fm1 then conj (a1 i k) else a1 i k) (fun k => if eq_den fm2 then conj (a2 i k) else a2 i k) k).
Proof.
  intro H.
  assert (G : forall c c1 c2 : bool, forall n1 n2 (f1 f2 : nat -> R), (c1 = c /\ c2 = c) \/ ((forall k, k < n1 -> conj (f1 k) = f1 k) /\ (forall k, k < n2 -> conj (f2 k) = f2 k)) ->
    forall k, (if c then conj (pmulc n1 n2 f1 f2 k) else pmulc n1 n2 f1 f2 k)
      = pmulc n1 n2 (fun k => if c1 then conj (f1 k) else f1 k) (fun k => if c2 then conj (f2 k) else f2 k) k).
  { intros c c1 c2 n1 n2 f1 f2 [[-> ->]|[H1 H2]] k.
    - destruct c; [apply pmulc_conj|reflexivity].
    - transitivity (pmulc n1 n2 f1 f2 k).
      + destruct c; [|reflexivity]. rewrite pmulc_conj. now apply pmulc_ext.
      + apply pmulc_ext; intros n Hn; [destruct c1|destruct c2]; auto; symmetry; auto. }
  split; intro k.
  - apply G. destruct H as [[-> ->]|(H1 & _ & H2 & _)]; [now left|right; split; intros; auto].
  - unfold casc_a, cascade_den.
    rewrite (pmulc_ext R (S na1) (S na2) (monic1 (fun k => if eq_den fm1 then conj (a1 i k) else a1 i k)) (fun k => if eq_den fm1 then conj (with_one (a1 i) k) else with_one (a1 i) k)
      (monic1 (fun k => if eq_den fm2 then conj (a2 i k) else a2 i k)) (fun k => if eq_den fm2 then conj (with_one (a2 i) k) else with_one (a2 i) k)).
    + apply G. destruct H as [[-> ->]|(_ & H1 & _ & H2)]; [now left|right; split; intros [|j] Hj; cbn [with_one]; try apply conj_1; [apply H1|apply H2]; lia].
    + intros [|n] _; cbn [monic1 with_one]; [destruct (eq_den fm1); [symmetry; apply conj_1|reflexivity]|reflexivity].
    + intros [|n] _; cbn [monic1 with_one]; [destruct (eq_den fm2); [symmetry; apply conj_1|reflexivity]|reflexivity].
Qed.
End Casc.

Theorem C56_lfilter_cascade :
  forall (R : cring) e1 e2 e B N nb1 na1 nb2 na2 (b1 a1 b2 a2 b a x : tensor R) bf1 af1 bf2 af2 xf uf1 uf2 uf fm1 fm2 fm,
  1 <= B -> 1 <= N -> 1 <= nb1 -> 1 <= nb2 -> 1 <= na1 \/ 2 <= nb1 -> 1 <= na2 \/ 2 <= nb2 ->
  backend_ok e1 (Nat.max na1 (nb1 - 1)) -> backend_ok e2 (Nat.max na2 (nb2 - 1)) -> backend_ok e (Nat.max (na1 + na2) (nb1 + nb2 - 1 - 1)) ->
  unroll_ok uf1 -> unroll_ok uf2 -> unroll_ok uf -> fm1 <> OtherForm -> fm2 <> OtherForm -> fm <> OtherForm ->
  fcoef B nb1 b1 bf1 -> fcoef B na1 a1 af1 -> fcoef B nb2 b2 bf2 -> fcoef B na2 a2 af2 ->
  fcoef B (nb1 + nb2 - 1) b (fun i => cascade_num nb1 nb2 (bf1 i) (bf2 i)) -> fcoef B (na1 + na2) a (fun i => cascade_den na1 na2 (af1 i) (af2 i)) ->
  forms_fit fm1 fm2 fm nb1 na1 nb2 na2 bf1 af1 bf2 af2 -> is2 x B N xf ->
  exists u y y' yf, lfilter_ssm e1 b1 a1 x None fm1 uf1 = Ok (u, None) /\ lfilter_ssm e2 b2 a2 u None fm2 uf2 = Ok (y, None) /\
    lfilter_ssm e b a x None fm uf = Ok (y', None) /\ is2 y B N yf /\ is2 y' B N yf.
Proof.
  intros R e1 e2 e B N nb1 na1 nb2 na2 b1 a1 b2 a2 b a x bf1 af1 bf2 af2 xf uf1 uf2 uf fm1 fm2 fm
    HB HN Hnb1 Hnb2 Ho1 Ho2 He1 He2 He Hu1 Hu2 Hu Hf1 Hf2 Hf Hb1 Ha1 Hb2 Ha2 Hb Ha Hfit Hx.
  destruct (lfilter_difference_equation_complex R e1 B N nb1 na1 b1 a1 x bf1 af1 xf uf1 fm1) as (u & uf0 & E1 & U & H1); auto.
  destruct (lfilter_difference_equation_complex R e2 B N nb2 na2 b2 a2 u bf2 af2 uf0 uf2 fm2) as (y & yf & E2 & Y & H2); auto.
  destruct (lfilter_difference_equation_complex R e B N (nb1 + nb2 - 1) (na1 + na2) b a x _ _ xf uf fm HB HN ltac:(lia) ltac:(lia) He Hu Hf Hb Ha Hx) as (y' & yf' & E & Y' & H).
  exists u, y, y', yf. do 4 (split; [assumption|]). eapply is2_ext; [exact Y'|]. intros i n Hi Hn. cbv beta.
  destruct (casc_eqs R fm1 fm2 fm nb1 na1 nb2 na2 bf1 af1 bf2 af2 i Hfit) as [Q1 Q2].
  apply (solves_filter_unique R (nb1 - 1 + (nb2 - 1)) (na1 + na2)
    (fun k => if eq_num fm then conj (cascade_num nb1 nb2 (bf1 i) (bf2 i) k) else cascade_num nb1 nb2 (bf1 i) (bf2 i) k)
    (fun k => if eq_den fm then conj (cascade_den na1 na2 (af1 i) (af2 i) k) else cascade_den na1 na2 (af1 i) (af2 i) k) (xf i)) with (N := N); [| |exact Hn].
  - intros m Hm. replace (nb1 - 1 + (nb2 - 1)) with (nb1 + nb2 - 1 - 1) by lia. now apply H.
  - intros m Hm. pose proof (solves_cascade R (nb1 - 1) na1 (nb2 - 1) na2 _ _ _ _ (xf i) (uf0 i) (yf i) m (fun k Hk => H1 i k Hi ltac:(lia)) (fun k Hk => H2 i k Hi ltac:(lia))) as S0.
    eapply (solves_filter_ext R) with (5 := S0); auto.
    + intros k Hk. rewrite Q1. unfold casc_b. replace (S (nb1 - 1)) with nb1 by lia. now replace (S (nb2 - 1)) with nb2 by lia.
Qed.
Print Assumptions C56_lfilter_cascade.

(** The order of two filters does not matter. *)
Theorem C56_lfilter_commute :
  forall (R : cring) e1 e2 B N nb1 na1 nb2 na2 (b1 a1 b2 a2 x : tensor R) bf1 af1 bf2 af2 xf uf1 uf2 uf1' uf2' fm1 fm2 fm1' fm2',
  1 <= B -> 1 <= N -> 1 <= nb1 -> 1 <= nb2 -> 1 <= na1 \/ 2 <= nb1 -> 1 <= na2 \/ 2 <= nb2 ->
  backend_ok e1 (Nat.max na1 (nb1 - 1)) -> backend_ok e2 (Nat.max na2 (nb2 - 1)) ->
  unroll_ok uf1 -> unroll_ok uf2 -> unroll_ok uf1' -> unroll_ok uf2' ->
  fm1 <> OtherForm -> fm2 <> OtherForm -> fm1' <> OtherForm -> fm2' <> OtherForm ->
  fcoef B nb1 b1 bf1 -> fcoef B na1 a1 af1 -> fcoef B nb2 b2 bf2 -> fcoef B na2 a2 af2 ->
  (fm1 = fm1' /\ fm2 = fm2') \/ (realc nb1 bf1 /\ realc na1 af1 /\ realc nb2 bf2 /\ realc na2 af2) -> is2 x B N xf ->
  exists u y u' y' yf, lfilter_ssm e1 b1 a1 x None fm1 uf1 = Ok (u, None) /\ lfilter_ssm e2 b2 a2 u None fm2 uf2 = Ok (y, None) /\
    lfilter_ssm e2 b2 a2 x None fm2' uf2' = Ok (u', None) /\ lfilter_ssm e1 b1 a1 u' None fm1' uf1' = Ok (y', None) /\
    is2 y B N yf /\ is2 y' B N yf.
Proof.
  intros R e1 e2 B N nb1 na1 nb2 na2 b1 a1 b2 a2 x bf1 af1 bf2 af2 xf uf1 uf2 uf1' uf2' fm1 fm2 fm1' fm2'
    HB HN Hnb1 Hnb2 Ho1 Ho2 He1 He2 Hu1 Hu2 Hu1' Hu2' Hf1 Hf2 Hf1' Hf2' Hb1 Ha1 Hb2 Ha2 Hfit Hx.
  destruct (lfilter_difference_equation_complex R e1 B N nb1 na1 b1 a1 x bf1 af1 xf uf1 fm1) as (u & uf0 & E1 & U & H1); auto.
  destruct (lfilter_difference_equation_complex R e2 B N nb2 na2 b2 a2 u bf2 af2 uf0 uf2 fm2) as (y & yf & E2 & Y & H2); auto.
  destruct (lfilter_difference_equation_complex R e2 B N nb2 na2 b2 a2 x bf2 af2 xf uf2' fm2') as (u' & uf0' & E1' & U' & H1'); auto.
  destruct (lfilter_difference_equation_complex R e1 B N nb1 na1 b1 a1 u' bf1 af1 uf0' uf1' fm1') as (y' & yf' & E2' & Y' & H2'); auto.
  exists u, y, u', y', yf. do 5 (split; [assumption|]). eapply is2_ext; [exact Y'|]. intros i n Hi Hn. cbv beta. symmetry.
  assert (Cv : forall c c' N (f : nat -> nat -> R), c = c' \/ realc N f -> forall i k, k < N -> (if c : bool then conj (f i k) else f i k) = (if c' : bool then conj (f i k) else f i k)).
  { intros c c' K f [->|Hr] j k Hk; [reflexivity|]. rewrite (Hr j k Hk). now destruct c, c'. }
  assert (F : forall P (c : form -> bool) f g, (fm1 = fm1' /\ fm2 = fm2') \/ P -> f = fm1 /\ g = fm1' \/ f = fm2 /\ g = fm2' -> c f = c g \/ P).
  { intros P c f g [[-> ->]|HP] [[-> ->]|[-> ->]]; auto. }
  apply (commute_filter R (nb1 - 1) na1 (nb2 - 1) na2
    (fun k => if eq_num fm1 then conj (bf1 i k) else bf1 i k) (fun k => if eq_den fm1 then conj (af1 i k) else af1 i k)
    (fun k => if eq_num fm2 then conj (bf2 i k) else bf2 i k) (fun k => if eq_den fm2 then conj (af2 i k) else af2 i k)
    (xf i) (uf0 i) (yf i) (uf0' i) (yf' i) N); auto.
  - intros m Hm. eapply (solves_filter_ext R) with (5 := H1' i m Hi Hm); auto.
    + intros k Hk. symmetry. apply (Cv (eq_num fm2) (eq_num fm2') nb2); [|lia]. apply F; tauto.
    + intros k Hk. symmetry. apply (Cv (eq_den fm2) (eq_den fm2') na2); [|lia]. apply F; tauto.
  - intros m Hm. eapply (solves_filter_ext R) with (5 := H2' i m Hi Hm); auto.
    + intros k Hk. symmetry. apply (Cv (eq_num fm1) (eq_num fm1') nb1); [|lia]. apply F; tauto.
    + intros k Hk. symmetry. apply (Cv (eq_den fm1) (eq_den fm1') na1); [|lia]. apply F; tauto.
Qed.
Print Assumptions C56_lfilter_commute.

Theorem C56_fir_cascade :
  forall (R : cring) B N M1 M2 (b1 b2 b x : tensor R) bf1 bf2 xf tr,
  1 <= N -> tr = false \/ 1 <= M1 /\ 1 <= M2 -> is2 b1 B (S M1) bf1 -> is2 b2 B (S M2) bf2 ->
  is2 b B (S (M1 + M2)) (fun i => cascade_num (S M1) (S M2) (bf1 i) (bf2 i)) -> is2 x B N xf ->
  exists u y y' yf, fir b1 x None tr = Ok (u, None) /\ fir b2 u None tr = Ok (y, None) /\ fir b x None tr = Ok (y', None) /\
    is2 y B N yf /\ is2 y' B N yf.
Proof.
  intros R B N M1 M2 b1 b2 b x bf1 bf2 xf tr HN Ht Hb1 Hb2 Hb Hx. destruct tr.
  - destruct Ht as [Ht|[HM1 HM2]]; [discriminate|].
    destruct (fir_transposed_partial R B N M1 b1 x bf1 xf HM1 Hb1 Hx) as (u & E1 & U).
    destruct (fir_transposed_partial R B N M2 b2 u bf2 _ HM2 Hb2 U) as (y & E2 & Y).
    destruct (fir_transposed_partial R B N (M1 + M2) b x _ xf ltac:(lia) Hb Hx) as (y' & E & Y').
    exists u, y, y'. eexists. do 3 (split; [assumption|]). split; [exact Y|]. eapply is2_ext; [exact Y'|]. intros i n Hi Hn. cbv beta.

    rewrite conv_conv. apply conv_ext_at; auto. intros k Hk. apply pmulc_conj.
  - destruct (fir_convolution R B N M1 b1 x bf1 xf HN Hb1 Hx) as (u & E1 & U).
    destruct (fir_convolution R B N M2 b2 u bf2 _ HN Hb2 U) as (y & E2 & Y).
    destruct (fir_convolution R B N (M1 + M2) b x _ xf HN Hb Hx) as (y' & E & Y').
    exists u, y, y'. eexists. do 3 (split; [assumption|]). split; [exact Y|]. eapply is2_ext; [exact Y'|]. intros i n Hi Hn. cbv beta.
    symmetry. apply conv_conv.
Qed.
Print Assumptions C56_fir_cascade.

(** A second-order filter with two numerator coefficients: the signal delayed by two. *)
Example C55_ex :
  let b := v1 [1;2]%Z in let a := v1 [1;-1]%Z in let x := v2 [[1;2;0;3]]%Z in let x' := v2 [[0;0;1;2;0;3]]%Z in
  is2 x 1 4 (fun i n => at_ x [i;n]) /\ is2 x' 1 6 (fun i => dly (R := Zring) (fun n => at_ x [i;n]) 2) /\
  (forall fm, In fm [Df2; Tdf2; Df1; Tdf1] ->
    show2' (lfilter_ssm env0 b a x None fm None) = Some (Some ([1;4], [1;3;2;4]%Z), None) /\
    show2' (lfilter_ssm env0 b a x' None fm None) = Some (Some ([1;6], [0;0;1;3;2;4]%Z), None)) /\
  show2' (comb_filter env0 (mk0 (-2 : Zring)%Z) 1 x None None) = Some (Some ([1;4], [1;4;8;19]%Z), None) /\
  show2' (comb_filter env0 (mk0 (-2 : Zring)%Z) 1 x' None None) = Some (Some ([1;6], [0;0;1;4;8;19]%Z), None).
Proof.
  cbv zeta. split; [split; reflexivity|]. split; [|split; [|split; vm_compute; reflexivity]].
  - split; [reflexivity|]. intros i n Hi Hn. replace i with 0 by lia. do 6 (destruct n as [|n]; [reflexivity|]). lia.
  - intros fm [<-|[<-|[<-|[<-|[]]]]]; split; vm_compute; reflexivity.
Qed.
(** (1 + 2z)/(1 + z - z^2) and (3 - z + z^2)/(1 + 2z): product (3 + 5z - z^2 + 2z^3)/(1 + 3z + z^2 - 2z^3). *)
Example C56_ex :
  let b1 := v1 [1;2]%Z in let a1 := v1 [1;-1]%Z in let b2 := v1 [3;-1;1]%Z in let a2 := v1 [2]%Z in
  let b := v1 [3;5;-1;2]%Z in let a := v1 [3;1;-2]%Z in let x := v2 [[1;2;0;3];[0;1;0;0]]%Z in
  fcoef 2 4 b (fun _ => cascade_num (R := Zring) 2 3 (fun k => nth k [1;2]%Z 0%Z) (fun k => nth k [3;-1;1]%Z 0%Z)) /\
  fcoef 2 3 a (fun _ => cascade_den (R := Zring) 2 1 (fun k => nth k [1;-1]%Z 0%Z) (fun k => nth k [2]%Z 0%Z)) /\
  show2' (let* ' (u, _) := lfilter_ssm env0 b1 a1 x None Tdf2 None in lfilter_ssm env0 b2 a2 u None Df1 None)
    = show2' (lfilter_ssm env0 b a x None Df2 None) /\
  show2' (let* ' (u, _) := lfilter_ssm env0 b2 a2 x None Tdf2 None in lfilter_ssm env0 b1 a1 u None Df1 None)
    = show2' (lfilter_ssm env0 b a x None Df2 None) /\
  show2' (lfilter_ssm env0 b a x None Df2 None) = Some (Some ([2;4], [3;2;0;13; 0;3;-4;8]%Z), None).
Proof.
  cbv zeta. split; [|split; [|split; [|split]]]; try (vm_compute; reflexivity).
  - apply (fc_s (R := Zring) (fun k => nth k [3;5;-1;2]%Z 0%Z)); [split; reflexivity|]. intros i k _ Hk. do 4 (destruct k as [|k]; [reflexivity|]). lia.
  - apply (fc_s (R := Zring) (fun k => nth k [3;1;-2]%Z 0%Z)); [split; reflexivity|]. intros i k _ Hk. do 3 (destruct k as [|k]; [reflexivity|]). lia.
Qed.
