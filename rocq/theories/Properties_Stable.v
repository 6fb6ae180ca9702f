(** C63: contractive systems stay bounded, forget their initial state, and have
    rounding errors of an explicit size. *)
From Coq Require Import List Arith Lia ZArith Bool Ring QArith Qcanon.
From Verif Require Import Scalar Ordered Tensor TensorLemmas Spec Shapes SpecFilter SpecLpv SpecRound SpecStable Algebra
  M_Kernels M_LtiRecur M_LpvRecur M_LtiSsm M_LpvSsm M_LtiFilter M_LpvFilter P_Kernels P_KernelOps P_SsSpec P_LtiSsm P_LpvSsm P_LpvSs P_Filter P_LtiFilter P_Round P_Stable FloatQ
  Properties_LtiRecur Properties_LpvRecur Properties_LtiSsm Properties_LpvSsm Properties_LtiFilter Properties_LtiFilter2 Properties_LpvFilter Properties_LpvFilter2 Properties_Round Properties_Round2.
Import ListNotations.
Close Scope Qc_scope. Close Scope Q_scope. Open Scope nat_scope.

Section S.
Variable R : cring.
Variable K : ofield.
Variable v : absval R K.
Notation ten := (tensor (car R)).
Notation "x <=r y" := (ole x y = true) (at level 70).
(** [s] is an invariant bound: gain [r] and drive [c] do not leave it. *)
Notation keeps r s c := (radd (rmul r s) c <=r s).

(** ** Recurrences h_n = a_n h_(n-1) + x_n with |a_n| <= r. *)
Theorem C63_linear_recurrence B N (a init x : ten) af hf xf u r s c :
  1 <= B -> 1 <= N -> 1 <= u -> coef B a af -> coef B init hf -> is2 x B N xf ->
  keeps r s c -> (forall b, b < B -> upto v r (af b)) -> (forall b, b < B -> upto v s (hf b)) ->
  (forall b n, b < B -> n < N -> upto v c (xf b n)) ->
  exists y yf, linear_recurrence a init x u = Ok y /\ is2 y B N yf /\ forall b n, b < B -> n < N -> upto v s (yf b n).
Proof.
  intros HB HN Hu Ha Hi Hx Hs Va Vh Vx.
  destruct (linear_recurrence_correct R B N a init x af hf xf u) as (y & E & Hy); auto.
  exists y. eexists. split; [exact E|]. split; [exact Hy|]. intros b n Hb Hn. cbv beta.
  apply (lin_bounded R K v _ _ _ r s c (S n)); auto. intros k Hk. apply Vx; lia.
Qed.
Theorem C63_lpv_linear_recurrence B N (a init x : ten) af hf xf u r s c :
  1 <= B -> 1 <= N -> 1 <= u -> coefv B N a af -> coef B init hf -> is2 x B N xf ->
  keeps r s c -> (forall b n, b < B -> n < N -> upto v r (af b n)) -> (forall b, b < B -> upto v s (hf b)) ->
  (forall b n, b < B -> n < N -> upto v c (xf b n)) ->
  exists y yf, lpv_linear_recurrence a init x u = Ok y /\ is2 y B N yf /\ forall b n, b < B -> n < N -> upto v s (yf b n).
Proof.
  intros HB HN Hu Ha Hi Hx Hs Va Vh Vx.
  destruct (lpv_linear_recurrence_correct R B N a init x af hf xf u) as (y & E & Hy); auto.
  exists y. eexists. split; [exact E|]. split; [exact Hy|]. intros b n Hb Hn. cbv beta.
  apply (lin_bounded R K v _ _ _ r s c (S n)); auto; intros k Hk; [apply Va|apply Vx]; lia.
Qed.

(** ** State-space models: row sums of |A|, |B|, |C|, |D| at most r, be, ga, de; inputs at
    most c; initial state at most s. *)
Theorem C63_state_space e B N M G P (A x : ten) Bt C D zi uf oi Af xf Bm Cm Dm z0 r be ga de s c :
  1 <= B -> 1 <= N -> 1 <= M -> backend_ok e M -> unroll_ok uf ->
  sys B M G P A Bt C D oi Af Bm Cm Dm -> sigv B N G x xf -> init B M zi z0 ->
  r0 <=r c -> keeps r s (rmul be c) ->
  (forall b i, b < B -> i < M -> weight v M (Af b i) r) ->
  (forall b i, b < B -> i < M -> weight v (width G) (Bm b i) be) ->
  (forall b p, b < B -> p < width P -> weight v M (Cm b p) ga) ->
  (forall b p, b < B -> p < width P -> weight v (width G) (Dm b p) de) ->
  (forall b i, b < B -> i < M -> upto v s (z0 b i)) ->
  (forall b n k, b < B -> n < N -> k < width G -> upto v c (xf b n k)) ->
  exists y zf yf, state_space e A x Bt C D zi uf oi = Ok (y, zf) /\ sigv B N P y yf /\
    (forall b n p, b < B -> n < N -> p < width P -> upto v (radd (rmul ga s) (rmul de c)) (yf b n p)) /\
    match zi with
    | None => zf = None
    | Some _ => exists z zv, zf = Some z /\ is2 z B M zv /\ forall b i, b < B -> i < M -> upto v s (zv b i)
    end.
Proof.
  intros HB HN HM He Hu HS Hx Hz Hc Hs VA VB VC VD Vz Vx.
  destruct (state_space_correct R e B N M G P A x Bt C D zi uf oi Af xf Bm Cm Dm z0) as (y & zf & E & Hy & Z); auto.
  exists y, zf. eexists. split; [exact E|]. split; [exact Hy|]. split.
  - intros b n p Hb Hn Hp. cbv beta. apply (ss_y_bounded R K v M (width G) _ _ _ _ _ _ r be ga de s c n p); auto.
    intros k j Hk Hj. apply Vx; auto; lia.
  - destruct zi; [|exact Z]. destruct Z as (z & -> & Z). exists z. eexists. split; [reflexivity|]. split; [exact Z|].
    intros b i Hb Hi. cbv beta. apply (ss_h_bounded R K v M (width G) _ _ _ _ r be s c N); auto.
Qed.
Theorem C63_lpv_state_space e pr B N M G P (A x : ten) Bt C D zi uf oi Af xf Bm Cm Dm z0 r be ga de s c :
  1 <= B -> 1 <= N -> 1 <= M -> lpv_backend_ok e pr M -> unroll_good N uf ->
  sysv B N M G P A Bt C D oi Af Bm Cm Dm -> sigv B N G x xf -> init B M zi z0 ->
  r0 <=r c -> keeps r s (rmul be c) ->
  (forall b n i, b < B -> n < N -> i < M -> weight v M (Af b n i) r) ->
  (forall b n i, b < B -> n < N -> i < M -> weight v (width G) (Bm b n i) be) ->
  (forall b n p, b < B -> n < N -> p < width P -> weight v M (Cm b n p) ga) ->
  (forall b n p, b < B -> n < N -> p < width P -> weight v (width G) (Dm b n p) de) ->
  (forall b i, b < B -> i < M -> upto v s (z0 b i)) ->
  (forall b n k, b < B -> n < N -> k < width G -> upto v c (xf b n k)) ->
  exists y zf yf, lpv_state_space e pr A x Bt C D zi uf oi = Ok (y, zf) /\ sigv B N P y yf /\
    (forall b n p, b < B -> n < N -> p < width P -> upto v (radd (rmul ga s) (rmul de c)) (yf b n p)) /\
    match zi with
    | None => zf = None
    | Some _ => exists z zv, zf = Some z /\ is2 z B M zv /\ forall b i, b < B -> i < M -> upto v s (zv b i)
    end.
Proof.
  intros HB HN HM He Hu HS Hx Hz Hc Hs VA VB VC VD Vz Vx.
  destruct (lpv_state_space_partial R e pr B N M G P A x Bt C D zi uf oi Af xf Bm Cm Dm z0) as (y & zf & E & Hy & Z); auto.
  exists y, zf. eexists. split; [exact E|]. split; [exact Hy|]. split.
  - intros b n p Hb Hn Hp. cbv beta. apply (ss_y_bounded R K v M (width G) _ _ _ _ _ _ r be ga de s c n p); auto;
      intros; first [apply VA|apply VB|apply Vx]; auto; lia.
  - destruct zi; [|exact Z]. destruct Z as (z & -> & Z). exists z. eexists. split; [reflexivity|]. split; [exact Z|].
    intros b i Hb Hi. cbv beta. apply (ss_h_bounded R K v M (width G) _ _ _ _ r be s c N); auto.
Qed.
(** Two runs from initial states at distance d: the outputs at time n differ by at most
    ga r^n d, on any back-ends and unroll factors. *)
Theorem C63_forgets e e' B N M G P (A x zi zi' : ten) Bt C D uf uf' oi Af xf Bm Cm Dm z0 z0' r ga d :
  1 <= B -> 1 <= N -> 1 <= M -> backend_ok e M -> backend_ok e' M -> unroll_ok uf -> unroll_ok uf' ->
  sys B M G P A Bt C D oi Af Bm Cm Dm -> sigv B N G x xf -> init B M (Some zi) z0 -> init B M (Some zi') z0' ->
  (forall b i, b < B -> i < M -> weight v M (Af b i) r) ->
  (forall b p, b < B -> p < width P -> weight v M (Cm b p) ga) ->
  (forall b i, b < B -> i < M -> upto v d (rsub (z0 b i) (z0' b i))) ->
  exists y z y' z' yf yf' zf zf',
    state_space e A x Bt C D (Some zi) uf oi = Ok (y, Some z) /\ state_space e' A x Bt C D (Some zi') uf' oi = Ok (y', Some z') /\
    sigv B N P y yf /\ sigv B N P y' yf' /\ is2 z B M zf /\ is2 z' B M zf' /\
    (forall b n p, b < B -> n < N -> p < width P -> upto v (rmul ga (rmul (rpow r n) d)) (rsub (yf b n p) (yf' b n p))) /\
    (forall b i, b < B -> i < M -> upto v (rmul (rpow r N) d) (rsub (zf b i) (zf' b i))).
Proof.
  intros HB HN HM He He' Hu Hu' HS Hx Hz Hz' VA VC Vd.
  destruct (state_space_correct R e B N M G P A x Bt C D (Some zi) uf oi Af xf Bm Cm Dm z0) as (y & w & E & Hy & z & -> & Z); auto.
  destruct (state_space_correct R e' B N M G P A x Bt C D (Some zi') uf' oi Af xf Bm Cm Dm z0') as (y' & w' & E' & Hy' & z' & -> & Z'); auto.
  exists y, z, y', z'. do 4 eexists. do 2 (split; [eassumption|]). do 4 (split; [eassumption|]).
  assert (Hr : r0 <=r r) by (eapply (weight_pos R K v M (Af 0 0)); apply VA; lia).
  assert (Hd : r0 <=r d) by (eapply ole_trans; [apply (av_pos R K v)|apply (Vd 0 0); lia]).
  assert (Pp : forall m, r0 <=r rpow r m) by (induction m; cbn [rpow]; [apply ole_0_1|now apply ole_mul]).
  split.
  - intros b n p Hb Hn Hp. cbv beta. unfold ss_y. rewrite (sub_cancel R), <- bsum_sub. erewrite bsum_ext; [|intros k Hk; apply (mul_sub R)].
    apply (av_dot R K v); [now apply ole_mul|now apply VC|]. intros k Hk. apply (state_forgets R K v); auto.
  - intros b i Hb Hi. cbv beta. apply (state_forgets R K v); auto.
Qed.

(** ** Filters: sum |a_k| <= r, sum |b_k| <= be, inputs at most c. *)
Theorem C63_lfilter e B N nb na (b a x : ten) bf af xf uf fm r be s c :
  conj_abs v -> 1 <= B -> 1 <= N -> 1 <= nb -> 1 <= na \/ 2 <= nb -> backend_ok e (Nat.max na (nb - 1)) -> unroll_ok uf ->
  fm <> OtherForm -> fcoef B nb b bf -> fcoef B na a af -> is2 x B N xf ->
  r0 <=r s -> r0 <=r c -> keeps r s (rmul be c) ->
  (forall i, i < B -> weight v na (af i) r) -> (forall i, i < B -> weight v nb (bf i) be) ->
  (forall i n, i < B -> n < N -> upto v c (xf i n)) ->
  exists y yf, lfilter_ssm e b a x None fm uf = Ok (y, None) /\ is2 y B N yf /\
    forall i n, i < B -> n < N -> upto v s (yf i n).
Proof.
  intros Hj HB HN Hnb Hor He Hu Hf Hb Ha Hx Ps Pc Hs Va Vb Vx.
  destruct (lfilter_difference_equation_complex R e B N nb na b a x bf af xf uf fm) as (y & yf & E & Hy & H); auto.
  exists y, yf. split; [exact E|]. split; [exact Hy|]. intros i n Hi Hn.
  assert (J : forall (t : bool) (z : R), v (if t then conj z else z) = v z) by (intros [] z; auto).
  eapply (filter_bounded R K v (nb - 1) na _ _ (xf i) (yf i) r be s c n); auto.
  - unfold weight. erewrite bsum_ext; [apply (Va i Hi)|]. intros k Hk. apply (J (eq_den fm)).
  - replace (S (nb - 1)) with nb by lia. unfold weight. erewrite bsum_ext; [apply (Vb i Hi)|]. intros k Hk. apply (J (eq_num fm)).
  - intros k Hk. apply Vx; lia.
  - intros k Hk. apply H; lia.
Qed.
Theorem C63_lpv_lfilter_df2 bk e pr B N nb na M (b a x : ten) bf af xf zi z0 uf r be s c :
  1 <= B -> 1 <= N -> 1 <= nb -> M = Nat.max na (nb - 1) -> 1 <= M -> lpv_cfg bk e pr B N na M b a uf ->
  vcoef B N nb b bf -> vcoef B N na a af -> is2 x B N xf -> init B M zi z0 ->
  keeps r s c ->
  (forall i n, i < B -> n < N -> weight v na (af i n) r) -> (forall i n, i < B -> n < N -> weight v nb (bf i n) be) ->
  (forall i k, i < B -> k < M -> upto v s (z0 i k)) -> (forall i n, i < B -> n < N -> upto v c (xf i n)) ->
  exists y zf yf, lpv_lfilter e pr b a x zi Df2 bk uf = Ok (y, zf) /\ is2 y B N yf /\
    (forall i n, i < B -> n < N -> upto v (rmul be s) (yf i n)) /\
    match zi with
    | None => zf = None
    | Some _ => bk = Ssm \/ na <= N -> exists z zv, zf = Some z /\ is2 z B M zv /\ forall i k, i < B -> k < M -> upto v s (zv i k)
    end.
Proof.
  intros HB HN Hnb EM HM Hc Hb Ha Hx Hz Hs Va Vb Vz Vx.
  destruct (lpv_lfilter_df2_partial R bk e pr B N nb na M b a x bf af xf zi z0 uf) as (y & zf & E & Hy & Z); auto.
  assert (Ps : r0 <=r s) by (eapply ole_trans; [apply (av_pos R K v)|apply (Vz 0 0); lia]).
  assert (W : forall n m (f : nat -> R) t, n <= m -> weight v n f t -> weight v m (padz n f) t).
  { intros n m f t Hnm H. unfold weight. rewrite (bsum_trunc n m); [|lia|].
    - erewrite bsum_ext; [exact H|]. intros k Hk. unfold padz. now rewrite (proj2 (Nat.ltb_lt k n)).
    - intros k Hk1 Hk2. unfold padz. rewrite (proj2 (Nat.ltb_ge k n)) by lia. apply av_0. }
  exists y, zf. eexists. split; [exact E|]. split; [exact Hy|]. split.
  - intros i n Hi Hn. cbv beta. apply (vdf2_y_bounded R K v M _ _ _ _ r be s c n); auto.
    + intros k Hk. apply W; [lia|]. apply Va; lia.
    + apply W; [lia|]. apply Vb; lia.
    + intros k Hk. apply Vx; lia.
  - destruct zi; [|exact Z]. intro H. destruct (Z H) as (z & -> & Hz'). exists z. eexists. split; [reflexivity|]. split; [exact Hz'|].
    intros i k Hi Hk. cbv beta. apply (vdf2_z_bounded R K v M _ _ _ r s c N); auto; [|lia]. intros m Hm. apply W; [lia|]. apply Va; lia.
Qed.
Theorem C63_lpv_allpole B N M (a x : ten) af xf r s c :
  is3 a B N M af -> is2 x B N xf -> r0 <=r s -> keeps r s c ->
  (forall i n, i < B -> n < N -> weight v M (af i n) r) -> (forall i n, i < B -> n < N -> upto v c (xf i n)) ->
  exists y yf, lpv_allpole a x None false = Ok (y, None) /\ is2 y B N yf /\ forall i n, i < B -> n < N -> upto v s (yf i n).
Proof.
  intros Ha Hx Ps Hs Va Vx. destruct (lpv_allpole_equation R B N M a x af xf Ha Hx) as (y & yf & E & Hy & H).
  exists y, yf. split; [exact E|]. split; [exact Hy|]. intros i n Hi Hn.
  eapply (vpole_bounded R K v M (af i) (xf i) (yf i) _ r s c n); auto; try (intros; first [apply Va|apply Vx|apply H]; lia).
  intros k Hk. unfold upto. now rewrite av_0.
Qed.
Theorem C63_comb_filter e B N d (a x : ten) zi af xf z0 uf r s c :
  d = 1 \/ 2 <= d /\ ext e = true -> unroll_ok uf -> 1 <= B -> 1 <= N -> ccoef B a af -> is2 x B N xf -> cpast B d zi z0 ->
  r0 <=r s -> keeps r s c -> (forall i, i < B -> upto v r (af i)) -> (forall i k, i < B -> k < d -> upto v s (z0 i k)) ->
  (forall i n, i < B -> n < N -> upto v c (xf i n)) ->
  exists y zf yf, comb_filter e a d x zi uf = Ok (y, zf) /\ is2 y B N yf /\ forall i n, i < B -> n < N -> upto v s (yf i n).
Proof.
  intros Hd Hu HB HN Ha Hx Hz Ps Hs Va Vz Vx.
  assert (G : exists y zf yf, comb_filter e a d x zi uf = Ok (y, zf) /\ is2 y B N yf /\
    (forall i n, i < B -> n < N -> solves_comb d (af i) (xf i) (yf i) (z0 i) n)).
  { destruct Hd as [->|[Hd He]].
    - destruct (comb_filter_delay_one_partial R e B N a x zi af xf z0 uf) as (y & yf & E & Hy & H); auto. exists y, None, yf. auto.
    - destruct (comb_filter_partial R e B N d a x zi af xf z0 uf) as (y & zf & yf & E & Hy & H & _); auto. exists y, zf, yf. auto. }
  destruct G as (y & zf & yf & E & Hy & H). exists y, zf, yf. split; [exact E|]. split; [exact Hy|]. intros i n Hi Hn.
  eapply (comb_bounded R K v d (af i) (xf i) (yf i) (z0 i) r s c n); auto; try (intros; first [apply Vx|apply H]; lia). destruct Hd; lia.
Qed.
Theorem C63_fir B N M (b x : ten) bf xf be c :
  1 <= N -> is2 b B (S M) bf -> is2 x B N xf -> r0 <=r c -> (forall i, i < B -> weight v (S M) (bf i) be) ->
  (forall i n, i < B -> n < N -> upto v c (xf i n)) ->
  exists y yf, fir b x None false = Ok (y, None) /\ is2 y B N yf /\ forall i n, i < B -> n < N -> upto v (rmul be c) (yf i n).
Proof.
  intros HN Hb Hx Pc Vb Vx. destruct (fir_convolution R B N M b x bf xf HN Hb Hx) as (y & E & Hy).
  exists y. eexists. split; [exact E|]. split; [exact Hy|]. intros i n Hi Hn. cbv beta. apply (conv_bounded R K v); auto. intros k Hk. apply Vx; lia.
Qed.
End S.
Print Assumptions C63_linear_recurrence.
Print Assumptions C63_lpv_linear_recurrence.
Print Assumptions C63_state_space.
Print Assumptions C63_lpv_state_space.
Print Assumptions C63_forgets.
Print Assumptions C63_lfilter.
Print Assumptions C63_lpv_lfilter_df2.
Print Assumptions C63_lpv_allpole.
Print Assumptions C63_comb_filter.
Print Assumptions C63_fir.

(** ** The bound is attained, and r < 1 is needed *)
Section T.
Variable R : cring.
Add Ring Rt : (r_th R).
Notation ten := (tensor (car R)).
(** With a constant coefficient a, constant input c and start s = a s + c the output
    stays at s. *)
Theorem C63_sharp N u (a init x : ten) (aa s c : R) :
  1 <= N -> 1 <= u -> coef 1 a (fun _ => aa) -> coef 1 init (fun _ => s) -> is2 x 1 N (fun _ _ => c) ->
  radd (rmul aa s) c = s ->
  exists y, linear_recurrence a init x u = Ok y /\ is2 y 1 N (fun _ _ => s).
Proof.
  intros HN Hu Ha Hi Hx Hs. destruct (linear_recurrence_correct R 1 N a init x _ _ _ u (le_n 1) HN Hu Ha Hi Hx) as (y & E & Hy).
  exists y. split; [exact E|]. eapply is2_ext; [exact Hy|]. intros b n Hb Hn. cbv beta. clear Hn.
  induction n as [|n IH]; [exact Hs|]. cbn [lin_rec] in *. now rewrite IH.
Qed.
(** a = 1 and a constant input 1: the output is n + 1. *)
Theorem C63_unstable N u (a init x : ten) :
  1 <= N -> 1 <= u -> coef 1 a (fun _ => r1) -> coef 1 init (fun _ => r0) -> is2 x 1 N (fun _ _ => r1) ->
  exists y, linear_recurrence a init x u = Ok y /\ is2 y 1 N (fun _ n => rnat (S n)).
Proof.
  intros HN Hu Ha Hi Hx. destruct (linear_recurrence_correct R 1 N a init x _ _ _ u (le_n 1) HN Hu Ha Hi Hx) as (y & E & Hy).
  exists y. split; [exact E|]. eapply is2_ext; [exact Hy|]. intros b n Hb Hn. cbv beta. clear Hn.
  induction n as [|n IH]; [cbn; ring|]. cbn [lin_rec rnat] in *. rewrite IH. ring.
Qed.
End T.
Print Assumptions C63_sharp.
Print Assumptions C63_unstable.

(** ** Rounding: with the row sums above, the error of state_space in floating point is at
    most (1 + u)^k - 1 times the bound of C63_state_space. *)
Section F.
Variable F : ofield.
Variables (u : F) (fadd fmul fsub : F -> F -> F).
Hypothesis HR : rounds u fadd fmul fsub.
Notation Fl := (flops F fadd fmul fsub).
Notation ten := (tensor (car Fl)).
Notation va := (oabs_av F).
Notation "x <=r y" := (ole (x : F) y = true) (at level 70).
Theorem C63_rounding e B N M G P (A x : ten) (Bt C D zi : option ten) uf oi
  (Af xf Bm Cm Dm : nat -> nat -> nat -> F) (z0 : nat -> nat -> F) (r be ga de s c : F) :
  1 <= B -> 1 <= N -> 1 <= M -> backend_ok e M -> unroll_ok uf ->
  sys (R := Fl) B M G P A Bt C D oi Af Bm Cm Dm -> sigv (R := Fl) B N G x xf -> init (R := Fl) B M zi z0 ->
  r0 <=r c -> radd (rmul r s) (rmul be c) <=r s ->
  (forall b i, b < B -> i < M -> weight va M (Af b i) r) ->
  (forall b i, b < B -> i < M -> weight va (width G) (Bm b i) be) ->
  (forall b p, b < B -> p < width P -> weight va M (Cm b p) ga) ->
  (forall b p, b < B -> p < width P -> weight va (width G) (Dm b p) de) ->
  (forall b i, b < B -> i < M -> upto va s (z0 b i)) ->
  (forall b n k, b < B -> n < N -> k < width G -> upto va c (xf b n k)) ->
  exists y zf (yv : nat -> nat -> nat -> F), state_space e A x Bt C D zi uf oi = Ok (y, zf) /\ sigv B N P y yv /\
    forall b n p, b < B -> n < N -> p < width P ->
      within u (2 * M * n + M + width G + 1) (yv b n p)
        (ss_y (R := F) M (width G) (fun _ => Af b) (fun _ => Bm b) (fun _ => Cm b) (fun _ => Dm b) (z0 b) (xf b) n p)
        (radd (rmul ga s) (rmul de c)).
Proof.
  intros HB HN HM He Hu HS Hx Hz Hc Hs VA VB VC VD Vz Vx.
  destruct (C62_state_space F u fadd fmul fsub HR e B N M G P A x Bt C D zi uf oi Af xf Bm Cm Dm z0) as (y & zf & yv & E & Hy & W & _); auto.
  exists y, zf, yv. split; [exact E|]. split; [exact Hy|]. intros b n p Hb Hn Hp. specialize (W b n p Hb Hn Hp).
  unfold within in *. eapply ole_trans; [exact W|]. apply le_mul_l.
  - apply sub_0. apply (Q_ge1 F u (rd_u _ _ _ _ HR)).
  - assert (I : forall t : F, oabs (oabs t) = oabs t) by (intro t; apply abs_pos, abs_0_le).
    assert (WW : forall n (f : nat -> F) t, weight va n f t -> weight va n (fun k => oabs (f k)) t).
    { intros n' f t H. unfold weight. erewrite bsum_ext; [exact H|]. intros k Hk. apply I. }
    assert (UU : forall t (z : F), upto va t z -> upto va t (oabs z)).
    { intros t z H. unfold upto. cbn. rewrite I. exact H. }
    eapply ole_trans; [apply le_abs|].
    apply (ss_y_bounded F F va M (width G) _ _ _ _ _ _ r be ga de s c n p); auto.
    all: first [intros k i Hk Hi; apply WW; now auto | apply (WW M (Cm b p)); now auto | apply (WW (width G) (Dm b p)); now auto
              | intros i Hi; apply UU; now auto | intros k j Hk Hj; apply UU, Vx; auto; lia].
Qed.
End F.
Print Assumptions C63_rounding.

(** Example: b = [1, 1/2], a = [1/2, -1/4], inputs in [-1, 1]: r = 3/4, be = 3/2, s = 6. *)
Definition st_b : list Qc := [q 1 1; q 1 2].
Definition st_a : list Qc := [q 1 2; q (-1) 4].
Definition st_x : list Qc := [q 1 1; q (-1) 1; q 1 1; q (-1) 1].
Example C63_lfilter_ex :
  exists y yf, lfilter_ssm env0 (lst1 (q 0 1) st_b : tensor Qring) (lst1 (q 0 1) st_a) (lst2 (q 0 1) [st_x]) None Df1 (Some 2) = Ok (y, None) /\
    is2 y 1 4 yf /\ forall i n, i < 1 -> n < 4 -> upto (oabs_av Qofield) (q 6 1) (yf i n).
Proof.
  apply (C63_lfilter Qring Qofield (oabs_av Qofield) env0 1 4 2 2 _ _ _ (fun _ k => nth k st_b (q 0 1)) (fun _ k => nth k st_a (q 0 1)) (fun _ n => nth n st_x (q 0 1))
    (Some 2) Df1 (q 3 4) (q 3 2) (q 6 1) (q 1 1)); try lia; try discriminate; try (vm_compute; reflexivity).
  - apply backend_env0.
  - unfold unroll_ok. lia.
  - apply (fc_s (R := Qring) (fun k => nth k st_b (q 0 1))); [split; reflexivity|reflexivity].
  - apply (fc_s (R := Qring) (fun k => nth k st_a (q 0 1))); [split; reflexivity|reflexivity].
  - split; [reflexivity|]. intros [|i] n Hi Hn; [reflexivity|lia].
  - intros i n Hi Hn. unfold upto. destruct n as [|[|[|[|n]]]]; try lia; vm_compute; reflexivity.
Qed.
(** The values: 1, -1, 5/4, ... *)
Example C63_lfilter_values :
  match lfilter_ssm env0 (lst1 (q 0 1) st_b : tensor Qring) (lst1 (q 0 1) st_a) (lst2 (q 0 1) [st_x]) None Df1 (Some 2) with
  | Ok (y, _) => map (fun n => this (at_ y [0; n])) [0;1;2;3] | Err _ => [] end = [1#1; -1#1; 5#4; -11#8]%Q.
Proof. vm_compute. reflexivity. Qed.
(** Complex scalars: |re| + |im| of a complex one-pole filter, a = (1 + i) / 4. *)
Example C63_complex_ex :
  conj_abs (l1_av Qofield) /\ weight (l1_av Qofield) 1 (fun _ => (q 1 4, q 1 4) : Scalar.cplx Qofield) (q 1 2) /\
  ole (radd (rmul (q 1 2 : Qofield) (q 4 1)) (q 2 1)) (q 4 1) = true.
Proof. split; [apply l1_conj; reflexivity|split; vm_compute; reflexivity]. Qed.
