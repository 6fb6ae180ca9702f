(** C64: the primitives on all their inputs.  C21-C25, C26, C29 and C30 are proved on the
    domains where they hold; here the domains are shown to be exact, and the behaviour
    outside is described for all inputs rather than by counterexamples. *)
From Coq Require Import List Arith Lia ZArith Bool Ring.
From Verif Require Import Scalar Tensor TensorLemmas TensorList TensorTac Spec Shapes SpecFilter SpecLpv Algebra M_Mat M_Kernels M_LtiSsm M_LtiFilter
  M_LpvSsm M_LpvFilter SpecPoly M_Poly P_LtiSsm P_Filter P_LtiFilter P_LtiFilter3 P_LpvAlg P_LpvFilter P_LpvFilter2 P_Poly P_Exact Properties_LtiFilter Properties_LtiFilter2
  Properties_LpvFilter Properties_Poly.
Import ListNotations.
Open Scope nat_scope.

(** A call returned an output (B, N) with values [yf], and a state (B, M) with values [zf]
    exactly when one was passed ([st]). *)
Definition returns {R : cring} (r : res (tensor R * option (tensor R))) (st : bool) (B N M : nat) (yf zf : nat -> nat -> R) : Prop :=
  exists y zo, r = Ok (y, zo) /\ is2 y B N yf /\ (if st then exists z, zo = Some z /\ is2 z B M zf else zo = None).
(** The optional state and its values: zeros when it is not passed. *)
Definition opt {A} (st : bool) (a : A) : option A := if st then Some a else None.
Definition past0 {R : cring} (st : bool) (zf : nat -> nat -> R) : nat -> nat -> R := if st then zf else fun _ _ => r0.

Lemma returns_shapes {R : cring} r st B N M (yf zf : nat -> nat -> R) y zo : returns r st B N M yf zf -> r = Ok (y, zo) ->
  shape y = [B; N] /\ (if st then exists z, zo = Some z /\ shape z = [B; M] else zo = None).
Proof.
  intros (y' & zo' & E & [Hy _] & Hz) E'. rewrite E in E'. injection E' as <- <-. split; [exact Hy|].
  destruct st; [|exact Hz]. destruct Hz as (z & -> & [Hz _]). eauto.
Qed.
Lemma returns_err {R : cring} r st B N M (yf zf : nat -> nat -> R) er : r = Err er -> ~ returns r st B N M yf zf.
Proof. intros -> (y & zo & E & _). discriminate. Qed.

(** ** lti.fir: right exactly when there are two or more taps (direct form without state: any
    number) and, in transposed form with a state, the signal is at least as long as the order. *)
Definition fir_dom (tr st : bool) (N M : nat) : Prop :=
  if tr then 1 <= M /\ (st = true -> M <= N) else st = true -> 1 <= M.
Definition fir_y {R : cring} (tr : bool) M (b z x : nat -> R) (n : nat) : R :=
  if tr then radd (bsum (S M) (fun k => rmul (conj (b k)) (dly x k n))) (padz M z n)
  else radd (rmul (b 0) (x n)) (bsum M (fun k => rmul (b (S k)) (hist x z n k))).
Definition fir_z {R : cring} (tr : bool) M N (b z x : nat -> R) (k : nat) : R :=
  if tr then tdf2_z M (fun k => conj (b k)) (fun _ => r0) z x N k else hist x z N k.

Theorem C64_fir :
  forall (R : cring) (tr st : bool) B N M (b x zi : tensor R) bf xf zf,
  1 <= N -> is2 b B (S M) bf -> is2 x B N xf -> is2 zi B M zf ->
  (returns (fir b x (opt st zi) tr) st B N M
     (fun i n => fir_y tr M (bf i) (past0 st zf i) (xf i) n) (fun i k => fir_z tr M N (bf i) (past0 st zf i) (xf i) k)
   <-> fir_dom tr st N M).
Proof.
  intros R tr st B N M b x zi bf xf zf HN Hb Hx Hz. destruct tr, st; cbn [opt past0 fir_dom].
  - split.
    + intro H. destruct M as [|M].
      * destruct (fir_one_transposed_state R B N b x zi bf xf zf Hb Hx Hz) as (y & z & E & Sy & _).
        destruct (returns_shapes _ _ _ _ _ _ _ _ _ H E) as [Hy _]. rewrite Sy in Hy. injection Hy. lia.
      * split; [lia|]. intros _. destruct (le_lt_dec (S M) N) as [|Hlt]; [assumption|exfalso].
        destruct (le_lt_dec 2 N) as [H2|H2].
        -- exact (returns_err _ _ _ _ _ _ _ _ (fir_short R B N (S M) b x zi bf xf zf Hb Hx Hz H2 Hlt) H).
        -- replace N with 1 in * by lia. destruct (fir_short_1 R B (S M) b x zi bf xf zf Hb Hx Hz Hlt) as (y & z & E & [Sy _] & _).
           destruct (returns_shapes _ _ _ _ _ _ _ _ _ H E) as [Hy _]. rewrite Sy in Hy. injection Hy. lia.
    + intros [HM HMN]. destruct (fir_transposed_state_partial R B N M b x zi bf xf zf HM (HMN eq_refl) Hb Hx Hz) as (y & z & E & Y & Z).
      exists y, (Some z). split; [exact E|]. split; [|eauto]. eapply is2_ext; [exact Y|]. intros i n Hi Hn. cbn beta.
      now apply (tdf2_fir R (fun k => conj (bf i k))).
  - split.
    + intro H. split; [|discriminate]. destruct M as [|M]; [exfalso|lia].
      destruct (fir_one_transposed R B N b x bf xf Hb Hx) as (y & E & Sy).
      destruct (returns_shapes _ _ _ _ _ _ _ _ _ H E) as [Hy _]. rewrite Sy in Hy. injection Hy. lia.
    + intros [HM _]. destruct (fir_transposed_partial R B N M b x bf xf HM Hb Hx) as (y & E & Y).
      exists y, None. split; [exact E|]. split; [|reflexivity]. eapply is2_ext; [exact Y|]. intros i n Hi Hn. cbn beta. unfold fir_y, padz, conv.
      destruct (n <? M); symmetry; rewrite (Radd_comm (r_th R)); apply (Radd_0_l (r_th R)).
  - split.
    + intros H _. destruct M as [|M]; [exfalso|lia].
      destruct (fir_one_direct R B N b x zi bf xf zf Hb Hx Hz HN) as (y & z & E & _ & [Sz _]).
      destruct (returns_shapes _ _ _ _ _ _ _ _ _ H E) as [_ (z' & Ez & Hz')]. injection Ez as <-. rewrite Sz in Hz'. injection Hz'. lia.
    + intros HM. destruct (fir_state_partial R B N M b x zi bf xf zf HN (HM eq_refl) Hb Hx Hz) as (y & z & E & Y & Z).
      exists y, (Some z). split; [exact E|]. split; [exact Y|eauto].
  - split; [discriminate|]. intros _. destruct (fir_convolution R B N M b x bf xf HN Hb Hx) as (y & E & Y).
    exists y, None. split; [exact E|]. split; [|reflexivity]. eapply is2_ext; [exact Y|]. intros i n Hi Hn. cbn beta. unfold fir_y, conv.
    rewrite bsum_S_l, dly_0. f_equal. apply bsum_ext. intros k Hk. f_equal. unfold dly, hist.
    change (S k <=? n) with (k <? n). destruct (k <? n) eqn:E0; [|reflexivity]. b2p. f_equal. lia.
Qed.
Print Assumptions C64_fir.
(** Outside the domain.  One tap: the direct form returns the whole signal, reversed, as its
    state; the transposed form returns an empty output.  Shorter than the order, transposed,
    with state: a single sample gives M outputs, more samples an error. *)
Theorem C64_fir_outside :
  forall (R : cring) B N M (b x zi : tensor R) bf xf zf,
  1 <= N -> is2 b B (S M) bf -> is2 x B N xf -> is2 zi B M zf ->
  (M = 0 ->
     (exists y z, fir b x (Some zi) false = Ok (y, Some z) /\
        is2 y B N (fun i n => rmul (bf i 0) (xf i n)) /\ is2 z B N (fun i k => xf i (N - 1 - k))) /\
     (exists y, fir b x None true = Ok (y, None) /\ shape y = [B; 0]) /\
     (exists y z, fir b x (Some zi) true = Ok (y, Some z) /\ shape y = [B; 0] /\
        is2 z B N (fun i n => rmul (conj (bf i 0)) (xf i n)))) /\
  (N < M -> 2 <= N -> fir b x (Some zi) true = Err RuntimeError) /\
  (N < M -> N = 1 -> exists y z, fir b x (Some zi) true = Ok (y, Some z) /\
        is2 y B M (fun i k => radd (zf i k) (rmul (conj (bf i 0)) (xf i 0))) /\
        is2 z B M (fun i k => rmul (conj (bf i (S k))) (xf i 0))).
Proof.
  intros R B N M b x zi bf xf zf HN Hb Hx Hz. split; [|split].
  - intros ->. split; [|split].
    + now apply (fir_one_direct R B N b x zi bf xf zf).
    + now apply (fir_one_transposed R B N b x bf xf).
    + now apply (fir_one_transposed_state R B N b x zi bf xf zf).
  - intros H1 H2. now apply (fir_short R B N M b x zi bf xf zf).
  - intros H1 ->. now apply (fir_short_1 R B M b x zi bf xf zf).
Qed.
Print Assumptions C64_fir_outside.
Example C64_fir_ex :
  let b := v2 [[1;2;3]]%Z in let x1 := v2 [[5]]%Z in let x2 := v2 [[5;7]]%Z in let zi := v2 [[10;20]]%Z in
  is2 b 1 3 (fun _ k => nth k [1;2;3]%Z 0%Z) /\ is2 x1 1 1 (fun _ _ => 5%Z) /\ is2 x2 1 2 (fun _ k => nth k [5;7]%Z 0%Z) /\ is2 zi 1 2 (fun _ k => nth k [10;20]%Z 0%Z) /\
  fir_dom true true 2 2 /\ ~ fir_dom true true 1 2 /\ ~ fir_dom true false 3 0 /\ fir_dom false false 3 0 /\
  show2' (fir b x2 (Some zi) true) = Some (Some ([1;2], [15;37]%Z), Some ([1;2], [29;21]%Z)) /\
  show2' (fir b x1 (Some zi) true) = Some (Some ([1;2], [15;25]%Z), Some ([1;2], [10;15]%Z)).
Proof.
  cbv zeta. repeat match goal with |- _ /\ _ => split end; try reflexivity; try (vm_compute; reflexivity).
  all: try (intros i j Hi Hj; replace i with 0 by lia; destruct j as [|[|[|j]]]; first [reflexivity|lia]).
  all: unfold fir_dom; try lia; try discriminate. all: try (intros [_ H]; specialize (H eq_refl); lia). all: split; [reflexivity|]; intros i j Hi Hj; replace i with 0 by lia; destruct j as [|[|[|j]]]; first [reflexivity|lia].
Qed.

(** ** lpv.fir: the direct form always; transposed: two or more taps without a state, at
    least as many samples as the order with one. *)
Definition lpv_fir_dom (tr st : bool) (N M : nat) : Prop :=
  tr = true -> if st then M <= N else 1 <= M.
Definition lpv_fir_y {R : cring} (tr : bool) M (b : nat -> nat -> R) (z x : nat -> R) (n : nat) : R :=
  if tr then radd (vconvt M (fun m k => conj (b m k)) x n) (padz M z n) else vconv_with M b x z n.
Definition lpv_fir_z {R : cring} (tr : bool) M N (b : nat -> nat -> R) (z x : nat -> R) (k : nat) : R :=
  if tr then vtdf2_z M (fun m k => conj (b m k)) (fun _ _ => r0) z x N k else hist x z N k.
Theorem C64_lpv_fir :
  forall (R : cring) (tr st : bool) B N M (b x zi : tensor R) bf xf zf,
  1 <= N -> is3 b B N (S M) bf -> is2 x B N xf -> is2 zi B M zf ->
  (returns (lpv_fir b x (opt st zi) tr) st B N M
     (fun i n => lpv_fir_y tr M (bf i) (past0 st zf i) (xf i) n) (fun i k => lpv_fir_z tr M N (bf i) (past0 st zf i) (xf i) k)
   <-> lpv_fir_dom tr st N M).
Proof.
  intros R tr st B N M b x zi bf xf zf HN Hb Hx Hz. destruct tr, st; cbn [opt past0].
  - split.
    + intros H _. destruct (le_lt_dec M N) as [|Hlt]; [assumption|exfalso]. destruct (le_lt_dec 2 N) as [H2|H2].
      * exact (returns_err _ _ _ _ _ _ _ _ (lpv_fir_short R B N M b x zi bf xf zf Hb Hx Hz H2 Hlt) H).
      * replace N with 1 in * by lia. destruct (lpv_fir_short_1 R B M b x zi bf xf zf Hb Hx Hz Hlt) as (y & z & E & [Sy _] & _).
        destruct (returns_shapes _ _ _ _ _ _ _ _ _ H E) as [Hy _]. rewrite Sy in Hy. injection Hy. lia.
    + intro HM. specialize (HM eq_refl). cbn in HM.
      destruct (lpv_fir_transposed_state_partial R B N M b x zi bf xf zf HN HM Hb Hx Hz) as (y & z & E & Y & Z).
      exists y, (Some z). split; [exact E|]. split; [exact Y|eauto].
  - split.
    + intros H _. destruct M as [|M]; [exfalso|lia]. destruct (lpv_fir_one R B N b x bf xf Hb Hx) as [H1 H2].
      destruct (le_lt_dec 2 N) as [Hn|Hn]; [exact (returns_err _ _ _ _ _ _ _ _ (H2 Hn) H)|].
      destruct (H1 ltac:(lia)) as (y & E & Sy). destruct (returns_shapes _ _ _ _ _ _ _ _ _ H E) as [Hy _]. rewrite Sy in Hy. injection Hy. lia.
    + intro HM. specialize (HM eq_refl). cbn in HM. destruct (lpv_fir_transposed_partial R B N M b x bf xf HN HM Hb Hx) as (y & E & Y).
      exists y, None. split; [exact E|]. split; [|reflexivity]. eapply is2_ext; [exact Y|]. intros i n Hi Hn. cbn beta. unfold lpv_fir_y, padz.
      destruct (n <? M); symmetry; rewrite (Radd_comm (r_th R)); apply (Radd_0_l (r_th R)).
  - split; [discriminate|]. intros _. destruct (lpv_fir_state R B N M b x zi bf xf zf HN Hb Hx Hz) as (y & z & E & Y & Z).
    exists y, (Some z). split; [exact E|]. split; [exact Y|eauto].
  - split; [discriminate|]. intros _. destruct (lpv_fir_convolution R B N M b x bf xf HN Hb Hx) as (y & E & Y).
    exists y, None. split; [exact E|]. split; [|reflexivity]. eapply is2_ext; [exact Y|]. intros i n Hi Hn. cbn beta. unfold lpv_fir_y.
    apply vconv_hist.
Qed.
Print Assumptions C64_lpv_fir.
Theorem C64_lpv_fir_outside :
  forall (R : cring) B N M (b x zi : tensor R) bf xf zf,
  1 <= N -> is3 b B N (S M) bf -> is2 x B N xf -> is2 zi B M zf ->
  (M = 0 -> 2 <= N -> lpv_fir b x None true = Err RuntimeError) /\
  (M = 0 -> N = 1 -> exists y, lpv_fir b x None true = Ok (y, None) /\ shape y = [B; 0]) /\
  (N < M -> 2 <= N -> lpv_fir b x (Some zi) true = Err RuntimeError) /\
  (N < M -> N = 1 -> exists y z, lpv_fir b x (Some zi) true = Ok (y, Some z) /\
        is2 y B M (fun i k => radd (rmul (conj (bf i 0 0)) (xf i 0)) (zf i k)) /\
        is2 z B M (fun i k => rmul (conj (bf i 0 (S k))) (xf i 0))).
Proof.
  intros R B N M b x zi bf xf zf HN Hb Hx Hz. split; [|split; [|split]].
  - intros -> H2. now apply (lpv_fir_one R B N b x bf xf).
  - intros -> H2. now apply (lpv_fir_one R B N b x bf xf).
  - intros H1 H2. now apply (lpv_fir_short R B N M b x zi bf xf zf).
  - intros H1 ->. now apply (lpv_fir_short_1 R B M b x zi bf xf zf).
Qed.
Print Assumptions C64_lpv_fir_outside.
Example C64_lpv_fir_ex :
  let b := v3 [[[1;2;3];[4;5;6]]]%Z in let x := v2 [[5;7]]%Z in let zi := v2 [[10;20]]%Z in
  is3 b 1 2 3 (fun _ n k => nth k (nth n [[1;2;3];[4;5;6]] []) 0)%Z /\ is2 x 1 2 (fun _ k => nth k [5;7]%Z 0%Z) /\
  lpv_fir_dom true true 2 2 /\ ~ lpv_fir_dom true true 2 3 /\ ~ lpv_fir_dom true false 3 0 /\
  show2' (lpv_fir b x (Some zi) true) = Some (Some ([1;2], [15;58]%Z), Some ([1;2], [50;42]%Z)) /\
  lpv_fir (v3 [[[2];[3]]]%Z) x None true = Err RuntimeError.
Proof.
  cbv zeta. repeat match goal with |- _ /\ _ => split end; try reflexivity; try (vm_compute; reflexivity).
  - split; [reflexivity|]. intros i n k Hi Hn Hk. replace i with 0 by lia. reflexivity.
  - split; [reflexivity|]. intros i j Hi Hj. replace i with 0 by lia. reflexivity.
  - intro H. specialize (H eq_refl). cbn in H. lia.
  - intro H. specialize (H eq_refl). cbn in H. lia.
Qed.

(** ** lpv.allpole *)
Definition allpole_dom (tr st : bool) (N M : nat) : Prop :=
  match tr, st with
  | false, false => True | false, true => 1 <= M <= N
  | true, false => 1 <= M <= N | true, true => M <= N
  end.
(** The output is determined by its equation; the state is the past outputs (direct form) or
    that of the transposed direct form II with numerator 1. *)
Definition allpole_right {R : cring} (tr st : bool) B N M (af : nat -> nat -> nat -> R) (zf xf : nat -> nat -> R)
  (r : res (tensor R * option (tensor R))) : Prop :=
  exists yf, returns r st B N M yf (fun i k =>
      if tr then vtdf2_z M (fun _ k => match k with O => r1 | S _ => r0 end) (fun m k => conj (af i m k)) (past0 st zf i) (xf i) N k
      else hist (yf i) (past0 st zf i) N k) /\
    forall i n, i < B -> n < N ->
      if tr then vpolet M (fun m k => conj (af i m k)) (fun n => radd (xf i n) (padz M (past0 st zf i) n)) (yf i) n
      else vpole M (af i) (xf i) (yf i) (past0 st zf i) n.
Theorem C64_lpv_allpole :
  forall (R : cring) (tr st : bool) B N M (a x zi : tensor R) af xf zf,
  1 <= N -> is3 a B N M af -> is2 x B N xf -> is2 zi B M zf ->
  (allpole_right tr st B N M af zf xf (lpv_allpole a x (opt st zi) tr) <-> allpole_dom tr st N M).
Proof.
  intros R tr st B N M a x zi af xf zf HN Ha Hx Hz. unfold allpole_right. destruct tr.
  - assert (Hbad : (exists yf, returns (lpv_allpole a x (opt st zi) true) st B N M yf (fun i k =>
        vtdf2_z M (fun _ k => match k with O => r1 | S _ => r0 end) (fun m k => conj (af i m k)) (past0 st zf i) (xf i) N k)) ->
        M <= N /\ (st = false -> 1 <= M)).
    { intros (yf & H). destruct (le_lt_dec M N) as [HM|HM].
      - split; [exact HM|]. intros ->. destruct M as [|M]; [exfalso|lia].
        destruct (lpv_allpolet_err R B N 0 a x zi af xf zf false Ha Hx Hz HN ltac:(auto)) as (er & E).
        exact (returns_err _ _ _ _ _ _ _ _ E H).
      - exfalso. destruct (lpv_allpolet_err R B N M a x zi af xf zf st Ha Hx Hz HN ltac:(auto)) as (er & E).
        exact (returns_err _ _ _ _ _ _ _ _ E H). }
    destruct st; cbn [opt past0 allpole_dom] in *.
    + split; [intros (yf & H & _); apply Hbad; eauto|]. intro HM. destruct M as [|M].
      * destruct (lpv_allpolet_id R B N a x zi af xf zf Ha Hx Hz) as (y & z & E & Y & Sz).
        exists xf. split.
        -- exists y, (Some z). split; [exact E|]. split; [exact Y|]. exists z. split; [reflexivity|]. split; [exact Sz|]. intros; lia.
        -- intros i n Hi Hn. unfold vpolet, padz. cbn. rewrite !(Radd_comm (r_th R) _ r0), !(Radd_0_l (r_th R)). reflexivity.
      * destruct (lpv_allpole_transposed_state_partial R B N (S M) a x zi af xf zf ltac:(lia) HM Ha Hx Hz) as (y & z & E & Y & Z).
        eexists. split.
        -- exists y, (Some z). split; [exact E|]. split; [exact Y|]. exists z. split; [reflexivity|exact Z].
        -- intros i n Hi Hn. cbv beta. exact (vtdf2_pole R (S M) (fun m k => conj (af i m k)) (zf i) (xf i) n ltac:(lia)).
    + split; [intros (yf & H & _); destruct (Hbad ltac:(eauto)) as [H1 H2]; split; auto|]. intros [HM HMN].
      destruct (lpv_allpole_transposed_partial R B N M a x af xf HM HMN Ha Hx) as (y & yf & E & Y & H).
      exists yf. split; [exists y, None; auto|]. intros i n Hi Hn. eapply vpolet_ext; [reflexivity| |exact (H i n Hi Hn)].
      cbv beta. unfold padz. destruct (n <? M); rewrite (Radd_comm (r_th R)); symmetry; apply (Radd_0_l (r_th R)).
  - destruct st; cbn [opt past0 allpole_dom].
    + split.
      * intros (yf & H & _). assert (~ (M = 0 \/ N < M)) as Hn; [|lia]. intro Hc.
        destruct (lpv_allpole_odd R B N M a x zi af xf zf Ha Hx Hz Hc) as (y & z & yf' & E & _ & _ & [Sz _]).
        destruct (returns_shapes _ _ _ _ _ _ _ _ _ H E) as [_ (z' & Ez & Hz')]. injection Ez as <-. rewrite Sz in Hz'. injection Hz'. lia.
      * intros [HM HMN]. destruct (lpv_allpole_state_partial R B N M a x zi af xf zf HM HMN Ha Hx Hz) as (y & z & yf & E & Y & H & Z).
        exists yf. split; [|exact H]. exists y, (Some z). eauto 6.
    + split; [trivial|]. intros _. destruct (lpv_allpole_equation R B N M a x af xf Ha Hx) as (y & yf & E & Y & H).
      exists yf. split; [exists y, None; auto|exact H].
Qed.
Print Assumptions C64_lpv_allpole.
(** Outside: the direct form still gives the right output, but its state is the whole signal;
    the transposed form raises. *)
Theorem C64_lpv_allpole_outside :
  forall (R : cring) B N M (a x zi : tensor R) af xf zf,
  1 <= N -> is3 a B N M af -> is2 x B N xf -> is2 zi B M zf ->
  (M = 0 \/ N < M -> exists y z yf, lpv_allpole a x (Some zi) false = Ok (y, Some z) /\ is2 y B N yf /\
     (forall i n, vpole M (af i) (xf i) (yf i) (zf i) n) /\ is2 z B N (fun i k => yf i (N - 1 - k))) /\
  (M = 0 \/ N < M -> exists er, lpv_allpole a x None true = Err er) /\
  (N < M -> exists er, lpv_allpole a x (Some zi) true = Err er).
Proof.
  intros R B N M a x zi af xf zf HN Ha Hx Hz. split; [|split].
  - now apply (lpv_allpole_odd R B N M a x zi af xf zf).
  - intro H. apply (lpv_allpolet_err R B N M a x zi af xf zf false Ha Hx Hz HN). tauto.
  - intro H. apply (lpv_allpolet_err R B N M a x zi af xf zf true Ha Hx Hz HN). tauto.
Qed.
Print Assumptions C64_lpv_allpole_outside.
Example C64_lpv_allpole_ex :
  let a := v3 [[[1;2;3];[4;5;6]]]%Z in let x := v2 [[5;7]]%Z in let zi := v2 [[1;2;3]]%Z in
  is3 a 1 2 3 (fun _ n k => nth k (nth n [[1;2;3];[4;5;6]] []) 0)%Z /\ is2 x 1 2 (fun _ k => nth k [5;7]%Z 0%Z) /\
  ~ allpole_dom false true 2 3 /\ allpole_dom true true 2 0 /\
  show2' (lpv_allpole a x (Some zi) false) = Some (Some ([1;2], [-9;26]%Z), Some ([1;2], [26;-9]%Z)) /\
  lpv_allpole a x (Some zi) true = Err RuntimeError.
Proof.
  cbv zeta. repeat match goal with |- _ /\ _ => split end; try reflexivity; try (vm_compute; reflexivity).
  - split; [reflexivity|]. intros i n k Hi Hn Hk. replace i with 0 by lia. reflexivity.
  - split; [reflexivity|]. intros i j Hi Hj. replace i with 0 by lia. reflexivity.
  - cbn. lia.
  - cbn. lia.
Qed.

(** ** diag_shift with discard_end *)
Theorem C64_diag_shift :
  forall (R : cring) (t : tensor R) pre T M f offset,
  1 <= T -> 1 <= M -> isP2 t pre T M f ->
  ((exists y, diag_shift t offset true = Ok y /\
     isP2 y pre T M (fun q j k => if k + offset <=? j then f q (j - k - offset) k else r0))
   <-> 2 <= M \/ 1 <= offset) /\
  (M = 1 -> offset = 0 -> exists y, diag_shift t offset true = Ok y /\ shape y = pre ++ [0; 1]).
Proof.
  intros R t pre T M f o HT HM Ht. split; [split|].
  - intros (y & E & Hy). destruct (le_lt_dec 2 M) as [|H1]; [auto|]. destruct o as [|o]; [exfalso|lia].
    replace M with 1 in * by lia. destruct (diag_shift_one R t pre T f Ht) as (y' & E' & Sy). rewrite E in E'. injection E' as <-.
    rewrite (proj1 Hy) in Sy. apply app_inv_head in Sy. injection Sy. lia.
  - intro H. now apply (diag_shift_partial R t pre T M f o).
  - intros -> ->. now apply (diag_shift_one R t pre T f).
Qed.
Print Assumptions C64_diag_shift.
Example C64_diag_shift_ex :
  let t := v2 [[1];[2];[3]]%Z in
  isP2 t [] 3 1 (fun _ i _ => nth i [1;2;3]%Z 0%Z) /\
  show (diag_shift t 0 true) = Some ([0; 1], []) /\ show (diag_shift t 1 true) = Some ([3; 1], [0;1;2]%Z).
Proof.
  cbv zeta. split; [|split; vm_compute; reflexivity].
  split; [reflexivity|]. intros q i j Hq Hi Hj. apply vld_nil_inv in Hq. subst q. replace j with 0 by lia.
  destruct i as [|[|[|i]]]; [reflexivity..|lia].
Qed.

(** ** comb_filter: the next state.  With a state, the result has the right shapes exactly when
    the delay is at least two, the extension is there and the signal is at least as long as
    the delay; the output alone is right also for delay one and for short signals. *)
Theorem C64_comb_filter :
  forall (R : cring) e B N d (a x zi : tensor R) af xf z0 uf,
  unroll_ok uf -> 1 <= B -> 1 <= N -> 1 <= d -> ccoef B a af -> is2 x B N xf -> cpast B d (Some zi) z0 ->
  ((exists yf, returns (comb_filter e a d x (Some zi) uf) true B N d yf (fun i k => hist (yf i) (z0 i) N k) /\
     forall i n, i < B -> n < N -> solves_comb d (af i) (xf i) (yf i) (z0 i) n)
   <-> ext e = true /\ 2 <= d <= N) /\
  ((exists y zo yf, comb_filter e a d x (Some zi) uf = Ok (y, zo) /\ is2 y B N yf /\
     forall i n, i < B -> n < N -> solves_comb d (af i) (xf i) (yf i) (z0 i) n)
   <-> ext e = true \/ d = 1).
Proof.
  intros R e B N d a x zi af xf z0 uf Hu HB HN Hd Ha Hx Hz. destruct (Nat.eq_dec d 1) as [->|Hd1].
  - destruct (comb_filter_delay_one_partial R e B N a x (Some zi) af xf z0 uf Hu HB HN Ha Hx Hz) as (y & yf & E & Y & S). split.
    + split; [|lia]. intros (yf' & H & _). destruct (returns_shapes _ _ _ _ _ _ _ _ _ H E) as [_ (z & Ez & _)]. discriminate.
    + split; [auto|]. intros _. exists y, None, yf. auto.
  - destruct (ext e) eqn:Ee.
    + destruct (comb_filter_partial R e B N d a x (Some zi) af xf z0 uf Ee Hu HB HN ltac:(lia) Ha Hx Hz) as (y & zo & yf & E & Y & S & z & -> & Z). split.
      * split.
        -- intros (yf' & H & _). split; [reflexivity|]. split; [lia|].
           destruct (returns_shapes _ _ _ _ _ _ _ _ _ H E) as [_ (z' & Ez & Sz)]. injection Ez as <-. rewrite (proj1 Z) in Sz. injection Sz. lia.
        -- intros [_ HdN]. exists yf. split; [|exact S]. exists y, (Some z). split; [exact E|]. split; [exact Y|]. exists z.
           rewrite Nat.min_l in Z by lia. auto.
      * split; [auto|]. intros _. exists y, (Some z), yf. auto.
    + pose proof (comb_filter_no_extension_refuted R e B N d a x (Some zi) af xf uf Ee HN ltac:(lia) Ha Hx) as E. split.
      * split; [|intros [H _]; discriminate]. intros (yf & H & _). destruct (returns_err _ _ _ _ _ _ _ _ E H).
      * split; [|intros [H|H]; [discriminate|lia]]. intros (y & zo & yf & E' & _). rewrite E in E'. discriminate.
Qed.
Print Assumptions C64_comb_filter.
(** Without a state the output is right exactly with the extension or for delay one. *)
Theorem C64_comb_filter_rest :
  forall (R : cring) e B N d (a x : tensor R) af xf uf,
  unroll_ok uf -> 1 <= B -> 1 <= N -> 1 <= d -> ccoef B a af -> is2 x B N xf ->
  ((exists yf, returns (comb_filter e a d x None uf) false B N d yf (fun _ _ => r0) /\
     forall i n, i < B -> n < N -> solves_comb d (af i) (xf i) (yf i) (fun _ => r0) n)
   <-> ext e = true \/ d = 1) /\
  (ext e = false -> 2 <= d -> comb_filter e a d x None uf = Err AttributeError).
Proof.
  intros R e B N d a x af xf uf Hu HB HN Hd Ha Hx.
  assert (Hz : cpast (R := R) B d None (fun _ _ => r0)) by (apply cp_none; reflexivity).
  split; [|intros He H2; exact (comb_filter_no_extension_refuted R e B N d a x None af xf uf He HN H2 Ha Hx)]. split.
  - intros (yf & H & _). destruct (ext e) eqn:Ee; [auto|]. destruct (Nat.eq_dec d 1) as [|Hd1]; [auto|exfalso].
    exact (returns_err _ _ _ _ _ _ _ _ (comb_filter_no_extension_refuted R e B N d a x None af xf uf Ee HN ltac:(lia) Ha Hx) H).
  - intro H. destruct (Nat.eq_dec d 1) as [->|Hd1].
    + destruct (comb_filter_delay_one_partial R e B N a x None af xf _ uf Hu HB HN Ha Hx Hz) as (y & yf & E & Y & S).
      exists yf. split; [exists y, None; auto|exact S].
    + destruct H as [Ee|]; [|lia].
      destruct (comb_filter_partial R e B N d a x None af xf _ uf Ee Hu HB HN ltac:(lia) Ha Hx Hz) as (y & zo & yf & E & Y & S & ->).
      exists yf. split; [exists y, None; auto|exact S].
Qed.
Print Assumptions C64_comb_filter_rest.
(** A delay of three: two samples return a state of two entries, three samples one of three. *)
Example C64_comb_filter_ex :
  let zi := v2 [[7;8;9]]%Z in
  cpast 1 3 (Some zi) (fun i k => at_ zi [i;k]) /\ ccoef 1 (v1 [2]%Z) (fun _ => 2%Z) /\
  show2' (comb_filter env_ext (v1 [2]%Z) 3 (v2 [[1;2]]%Z) (Some zi) None) = Some (Some ([1;2], [-17;-14]%Z), Some ([1;2], [-14;-17]%Z)) /\
  show2' (comb_filter env_ext (v1 [2]%Z) 3 (v2 [[1;2;3]]%Z) (Some zi) None) = Some (Some ([1;3], [-17;-14;-11]%Z), Some ([1;3], [-11;-14;-17]%Z)) /\
  comb_filter env0 (v1 [2]%Z) 3 (v2 [[1;2;3]]%Z) (Some zi) None = Err AttributeError.
Proof.
  cbv zeta. split; [apply cp_Bd; split; reflexivity|]. split; [|repeat split; vm_compute; reflexivity].
  apply cc_B. split; [reflexivity|]. intros i Hi. now replace i with 0 by lia.
Qed.

Lemma nth_upd1 (g : nat -> nat) : forall (l : list nat) d, d < length l -> nth d (upd d g l) 0 = g (nth d l 0).
Proof. induction l as [|a l IH]; intros [|d] H; cbn in *; try lia. apply IH. lia. Qed.
(** ** lfiltic with a single feed-forward tap, whatever the other arguments. *)
Theorem C64_lfiltic_one_tap :
  forall (R : cring) (b a y : tensor R) x,
  1 <= rk b -> 1 <= rk a -> sizen b 1 = 1 -> lfiltic b a y x = Err RuntimeError.
Proof.
  intros R b a y x Hb Ha H1. unfold lfiltic. btrue (1 <=? rk b). btrue (1 <=? rk a). rewrite H1. cbn [Nat.sub].
  assert (size (slice (rk b - 1) (Some 1%Z) None b) (rk b - 1) = 0) as E.
  { unfold sizen, size in *. unfold slice, size. rewrite H1. cbn [shape]. rewrite nth_upd1 by (unfold rk in *; lia). reflexivity. }
  unfold padZ. rewrite E. reflexivity.
Qed.
Print Assumptions C64_lfiltic_one_tap.
Example C64_lfiltic_ex :
  let b := v2 [[4];[5]]%Z in (1 <= rk b)%nat /\ sizen b 1 = 1 /\
  lfiltic b (v1 [1;2]%Z) (v1 [3;4]%Z) None = Err RuntimeError /\
  show (lfiltic (v1 [4;0]%Z) (v1 [1;2]%Z) (v1 [3;4]%Z) None) = Some ([2], [-11;-6]%Z).
Proof. cbv zeta. repeat split; try (vm_compute; reflexivity). cbn. lia. Qed.

(** ** polydiv returns exactly when the dividend is at least as long as the divisor. *)
Theorem C64_polydiv :
  forall (F : cfield) pre m n (u v : tensor F) uf vf,
  isP1 u pre (S m) uf -> rowc pre (S n) v vf -> (forall b, vld pre b -> vf b 0 <> r0) ->
  ((exists q r qf rf, polydiv u v = Ok (q, r) /\ isP1 q pre (m - n + 1) qf /\ isP1 r pre n rf /\
      forall b i, vld pre b -> i <= m ->
        uf b i = radd (pmulc (m - n + 1) (S n) (qf b) (vf b) i)
                      (if m - n + 1 <=? i then rf b (i - (m - n + 1)) else r0)) <-> n <= m) /\
  (m < n -> polydiv u v = Err RuntimeError).
Proof.
  intros F pre m n u v uf vf Hu Hv H0.
  assert (E : m < n -> polydiv u v = Err RuntimeError).
  { intro H. assert (1 <= rk u /\ sizen u 1 = S m) as [Ru Su].
    { split; [rewrite (P1_rk _ _ _ _ Hu); lia|]. unfold sizen, size. rewrite (P1_rk _ _ _ _ Hu), (proj1 Hu), (nth_pre pre [S m] _ 0) by lia. reflexivity. }
    assert (1 <= rk v /\ sizen v 1 = S n) as [Rv Sv].
    { destruct Hv as [g Hv|g [Hs _]]; [|unfold sizen, size, rk; rewrite Hs; auto].
      split; [rewrite (P1_rk _ _ _ _ Hv); lia|]. unfold sizen, size. rewrite (P1_rk _ _ _ _ Hv), (proj1 Hv), (nth_pre pre [S n] _ 0) by lia. reflexivity. }
    apply C30_short_dividend_raises; lia. }
  split; [|exact E]. split.
  - intros (q & r & _ & _ & Er & _). destruct (le_lt_dec n m); [assumption|]. rewrite E in Er by assumption. discriminate.
  - intro H. exact (C30_polydiv F pre m n u v uf vf Hu Hv H H0).
Qed.
Print Assumptions C64_polydiv.
Example C64_polydiv_ex :
  let u := lst1 (qz 0) (map qz [2; 1]%Z) in let v := lst1 (qz 0) (map qz [1; 0; 3]%Z) in
  isP1 u [] 2 (fun _ i => nth i (map qz [2; 1]%Z) (qz 0)) /\ rowc [] 3 v (fun _ i => nth i (map qz [1; 0; 3]%Z) (qz 0)) /\
  polydiv (F := Qfield) u v = Err RuntimeError.
Proof.
  cbv zeta. split; [|split; [|apply C30_short_dividend_raises; cbn; lia]].
  - split; [reflexivity|]. intros q i Hq Hi. apply vld_nil_inv in Hq. subst q. reflexivity.
  - apply rowc_shared. split; reflexivity.
Qed.
