(** Theorems about lti/filtering.py with the state-space back-end
    (C15-C21, C26-C29, C45, C46). *)
From Coq Require Import List Arith Lia ZArith Bool Ring.
From Verif Require Import Scalar Tensor TensorLemmas TensorTac Spec Shapes SpecFilter Algebra M_Mat M_Kernels M_LtiSsm M_LtiFilter
  P_LtiSsm P_Filter P_LtiFilter P_LtiFilter2 P_LtiFilter3 P_LtiFilter4.
Import ListNotations.

Definition v1 (l : list Z) : tensor Zring := lst1 0%Z l.
Definition v2 (l : list (list Z)) : tensor Zring := lst2 0%Z l.
Definition show2' {A} (r : res (tensor A * option (tensor A))) :=
  match r with Ok (y, z) => Some (show (Ok y), match z with Some z => show (Ok z) | None => None end) | Err _ => None end.

(** ** C19: difference equation.  Real coefficients, order at least one, every form, shared
    or per-batch coefficients, b longer or shorter than a, every consistent back-end.
    Partial: at order zero (one feed-forward tap, no feedback) the claim is false, see
    [lfilter_order_zero_refuted]. *)
Theorem lfilter_difference_equation_partial :
  forall (R : cring) e B N nb na (b a x : tensor R) bf af xf uf fm,
  1 <= B -> 1 <= N -> 1 <= nb -> 1 <= na \/ 2 <= nb -> backend_ok e (Nat.max na (nb - 1)) -> unroll_ok uf ->
  fm <> OtherForm -> fcoef B nb b bf -> fcoef B na a af -> is2 x B N xf -> realc nb bf -> realc na af ->
  exists y yf, lfilter_ssm e b a x None fm uf = Ok (y, None) /\ is2 y B N yf /\
    forall i n, i < B -> n < N -> solves_filter (nb - 1) na (bf i) (af i) (xf i) (yf i) n.
Proof.
  intros R e B N nb na b a x bf af xf uf fm HB HN Hnb Hor He Hu Hfm Hb Ha Hx Hrb Hra.
  destruct (lfilter_spec R e B N nb na _ b a x bf af xf None (fun _ _ => r0) uf fm HB HN Hnb eq_refl ltac:(lia) He Hu Hfm Hb Ha Hx)
    as (y & zf & E & Hy & Hz); [intros _; now apply init_0|].
  exists y. eexists. split; [rewrite E; destruct (has_state fm); subst; reflexivity|]. split; [exact Hy|].
  intros i n Hi Hn. cbv beta.
  eapply (solves_filter_ext R) with (5 := lf_y_solves R fm nb na _ (lf_num fm (bf i)) (lf_den fm (af i)) (fun _ => r0) (xf i) n Hnb eq_refl ltac:(lia) (fun _ _ => eq_refl)); auto.
  - intros k Hk. destruct fm; cbn [lf_num]; auto; apply Hrb; lia.
  - intros k Hk. destruct fm; cbn [lf_den]; auto; apply Hra; lia.
Qed.
Print Assumptions lfilter_difference_equation_partial.

(** Numerator longer than the denominator, two rows, all four forms. *)
Example lfilter_ex :
  let b := v1 [1;2;3]%Z in let a := v2 [[-1];[2]]%Z in let x := v2 [[1;0;0;1];[1;2;3;4]]%Z in
  fcoef 2 3 b (fun _ k => nth k [1;2;3]%Z 0%Z) /\ fcoef 2 1 a (fun i k => at_ a [i;k]) /\
  forall fm, In fm [Df2; Tdf2; Df1; Tdf1] ->
    show2' (lfilter_ssm env0 b a x None fm None) = Some (Some ([2;4], [1;3;6;7; 1;2;6;4]%Z), None).
Proof.
  cbv zeta. split; [|split].
  - apply (fc_s (R := Zring) (fun k => nth k [1;2;3]%Z 0%Z)); [split; reflexivity|reflexivity].
  - apply fc_b. split; [reflexivity|]. intros. reflexivity.
  - intros fm [<-|[<-|[<-|[<-|[]]]]]; vm_compute; reflexivity.
Qed.

(** For complex coefficients each form solves the equation with some of the coefficients
    conjugated: tdf2 both b and a, df1 only b, tdf1 only a, df2 none. *)
Definition eq_num (fm : form) : bool := match fm with Tdf2 | Df1 => true | _ => false end.
Definition eq_den (fm : form) : bool := match fm with Tdf2 | Tdf1 => true | _ => false end.
Theorem lfilter_difference_equation_complex :
  forall (R : cring) e B N nb na (b a x : tensor R) bf af xf uf fm,
  1 <= B -> 1 <= N -> 1 <= nb -> 1 <= na \/ 2 <= nb -> backend_ok e (Nat.max na (nb - 1)) -> unroll_ok uf ->
  fm <> OtherForm -> fcoef B nb b bf -> fcoef B na a af -> is2 x B N xf ->
  exists y yf, lfilter_ssm e b a x None fm uf = Ok (y, None) /\ is2 y B N yf /\
    forall i n, i < B -> n < N ->
      solves_filter (nb - 1) na (fun k => if eq_num fm then conj (bf i k) else bf i k)
                                (fun k => if eq_den fm then conj (af i k) else af i k) (xf i) (yf i) n.
Proof.
  intros R e B N nb na b a x bf af xf uf fm HB HN Hnb Hor He Hu Hfm Hb Ha Hx.
  destruct (lfilter_spec R e B N nb na _ b a x bf af xf None (fun _ _ => r0) uf fm HB HN Hnb eq_refl ltac:(lia) He Hu Hfm Hb Ha Hx)
    as (y & zf & E & Hy & Hz); [intros _; now apply init_0|].
  exists y. eexists. split; [rewrite E; destruct (has_state fm); subst; reflexivity|]. split; [exact Hy|].
  intros i n Hi Hn. cbv beta.
  pose proof (lf_y_solves R fm nb na _ (lf_num fm (bf i)) (lf_den fm (af i)) (fun _ => r0) (xf i) n Hnb eq_refl ltac:(lia) (fun _ _ => eq_refl)) as H.
  destruct fm; exact H.
Qed.
Print Assumptions lfilter_difference_equation_complex.

(** Order zero: a one-tap filter in direct form I raises instead of scaling the signal. *)
Theorem lfilter_order_zero_refuted :
  let b := v1 [2]%Z in let a := v1 [] in let x := v2 [[1;2;3]]%Z in
  fcoef 1 1 b (fun _ _ => 2%Z) /\ fcoef 1 0 a (fun _ _ => 0%Z) /\
  ~ exists y zf yf, lfilter_ssm env0 b a x None Df1 None = Ok (y, zf) /\ is2 y 1 3 yf.
Proof.
  cbv zeta. split; [|split].
  - apply (fc_s (R := Zring) (fun _ => 2%Z)); [|reflexivity]. split; [reflexivity|]. intros i Hi. now replace i with 0 by lia.
  - apply (fc_s (R := Zring) (fun _ => 0%Z)); [|reflexivity]. split; [reflexivity|]. intros. lia.
  - intros (y & zf & yf & E & _). 
    assert (H : match lfilter_ssm env0 (v1 [2]%Z) (v1 []) (v2 [[1;2;3]]%Z) None Df1 None with Ok _ => true | Err _ => false end = false) by (vm_compute; reflexivity).
    rewrite E in H. discriminate.
Qed.
Print Assumptions lfilter_order_zero_refuted.

(** ** C20: forms agree for real coefficients ... *)
Theorem lfilter_forms_agree_partial :
  forall (R : cring) e e' B N nb na (b a x : tensor R) bf af xf uf uf' fm fm',
  1 <= B -> 1 <= N -> 1 <= nb -> 1 <= na \/ 2 <= nb ->
  backend_ok e (Nat.max na (nb - 1)) -> backend_ok e' (Nat.max na (nb - 1)) -> unroll_ok uf -> unroll_ok uf' ->
  fm <> OtherForm -> fm' <> OtherForm -> fcoef B nb b bf -> fcoef B na a af -> is2 x B N xf -> realc nb bf -> realc na af ->
  exists y y' yf, lfilter_ssm e b a x None fm uf = Ok (y, None) /\ lfilter_ssm e' b a x None fm' uf' = Ok (y', None) /\
    is2 y B N yf /\ is2 y' B N yf.
Proof.
  intros R e e' B N nb na b a x bf af xf uf uf' fm fm' HB HN Hnb Hor He He' Hu Hu' Hfm Hfm' Hb Ha Hx Hrb Hra.
  destruct (lfilter_difference_equation_partial R e B N nb na b a x bf af xf uf fm) as (y & f & E & Hy & H); auto.
  destruct (lfilter_difference_equation_partial R e' B N nb na b a x bf af xf uf' fm') as (y' & f' & E' & Hy' & H'); auto.
  exists y, y', f. do 3 (split; [assumption|]). eapply is2_ext; [exact Hy'|]. intros i n Hi Hn.
  apply (solves_filter_unique R (nb - 1) na (bf i) (af i) (xf i) (f' i) (f i) N); auto.
Qed.
Print Assumptions lfilter_forms_agree_partial.

(** ... and differ for complex ones: b = [i], a = [0] gives i in df2 and -i in tdf2. *)
Theorem lfilter_forms_agree_refuted :
  let b := lst1 (r0 (c := Gauss)) [(0, 1)%Z] : tensor Gauss in
  let a := lst1 (r0 (c := Gauss)) [(0, 0)%Z] : tensor Gauss in
  let x := lst2 (r0 (c := Gauss)) [[(1, 0)%Z]] : tensor Gauss in
  exists y y' yf yf', lfilter_ssm env0 b a x None Df2 None = Ok (y, None) /\ lfilter_ssm env0 b a x None Tdf2 None = Ok (y', None) /\
    is2 y 1 1 yf /\ is2 y' 1 1 yf' /\ yf 0 0 = (0, 1)%Z /\ yf' 0 0 = (0, -1)%Z.
Proof.
  intros b a x.
  assert (Hb : fcoef 1 1 b (fun _ _ => (0, 1)%Z)).
  { apply (fc_s (R := Gauss) (fun _ => (0, 1)%Z)); [|reflexivity]. split; [reflexivity|]. intros i Hi. now replace i with 0 by lia. }
  assert (Ha : fcoef 1 1 a (fun _ _ => (0, 0)%Z)).
  { apply (fc_s (R := Gauss) (fun _ => (0, 0)%Z)); [|reflexivity]. split; [reflexivity|]. intros i Hi. now replace i with 0 by lia. }
  assert (Hx : is2 x 1 1 (fun _ _ => (1, 0)%Z)).
  { split; [reflexivity|]. intros i j Hi Hj. replace i with 0 by lia. now replace j with 0 by lia. }
  pose proof (fun fm Hfm => lfilter_difference_equation_complex Gauss env0 1 1 1 1 b a x _ _ _ None fm (le_n 1) (le_n 1) (le_n 1)
    (or_introl (le_n 1)) (backend_env0 _) Logic.I Hfm Hb Ha Hx) as HH.
  destruct (HH Df2 ltac:(discriminate)) as (y & f & E & Hy & H).
  destruct (HH Tdf2 ltac:(discriminate)) as (y' & f' & E' & Hy' & H').
  exists y, y', f, f'. do 4 (split; [assumption|]).
  specialize (H 0 0 ltac:(lia) ltac:(lia)). specialize (H' 0 0 ltac:(lia) ltac:(lia)). unfold solves_filter in H, H'. cbn in H, H'.
  destruct (f 0 0) as (p, q), (f' 0 0) as (p', q'). cbn in H, H'. injection H as H1 H2. injection H' as H3 H4.
  rewrite Z.add_0_r in H1, H2, H3, H4. subst. auto.
Qed.
Print Assumptions lfilter_forms_agree_refuted.

(** ** C21: fir.  Direct form without state: convolution for every tap count and length. *)
Theorem fir_convolution :
  forall (R : cring) B N M (b x : tensor R) bf xf,
  1 <= N -> is2 b B (S M) bf -> is2 x B N xf ->
  exists y, fir b x None false = Ok (y, None) /\ is2 y B N (fun i n => conv M (bf i) (xf i) n).
Proof. intros. now apply fir_direct_none. Qed.
Print Assumptions fir_convolution.

(** Direct form with state, at least two taps: [zi] holds the previous inputs, newest
    first, and the returned state is the new such past. *)
Theorem fir_state_partial :
  forall (R : cring) B N M (b x zi : tensor R) bf xf zf,
  1 <= N -> 1 <= M -> is2 b B (S M) bf -> is2 x B N xf -> is2 zi B M zf ->
  exists y z, fir b x (Some zi) false = Ok (y, Some z) /\
    is2 y B N (fun i n => radd (rmul (bf i 0) (xf i n)) (bsum M (fun k => rmul (bf i (S k)) (hist (xf i) (zf i) n k)))) /\
    is2 z B M (fun i k => hist (xf i) (zf i) N k).
Proof. intros. now apply fir_direct_some. Qed.
Print Assumptions fir_state_partial.

(** Transposed form, at least two taps; the taps are conjugated. *)
Theorem fir_transposed_partial :
  forall (R : cring) B N M (b x : tensor R) bf xf,
  1 <= M -> is2 b B (S M) bf -> is2 x B N xf ->
  exists y, fir b x None true = Ok (y, None) /\ is2 y B N (fun i n => conv M (fun k => conj (bf i k)) (xf i) n).
Proof. intros. now apply fir_transposed_none. Qed.
Print Assumptions fir_transposed_partial.

(** Transposed form with state, at least two taps, signal at least as long as the order. *)
Theorem fir_transposed_state_partial :
  forall (R : cring) B N M (b x zi : tensor R) bf xf zf,
  1 <= M -> M <= N -> is2 b B (S M) bf -> is2 x B N xf -> is2 zi B M zf ->
  exists y z, fir b x (Some zi) true = Ok (y, Some z) /\
    is2 y B N (fun i n => tdf2_y M (fun k => conj (bf i k)) (fun _ => r0) (zf i) (xf i) n) /\
    is2 z B M (fun i k => tdf2_z M (fun k => conj (bf i k)) (fun _ => r0) (zf i) (xf i) N k).
Proof. intros. now apply fir_transposed_some. Qed.
Print Assumptions fir_transposed_state_partial.

(** The two forms agree for real taps. *)
Theorem fir_forms_agree_partial :
  forall (R : cring) B N M (b x : tensor R) bf xf,
  1 <= N -> 1 <= M -> is2 b B (S M) bf -> is2 x B N xf -> realc (S M) bf ->
  exists y y', fir b x None false = Ok (y, None) /\ fir b x None true = Ok (y', None) /\
    is2 y B N (fun i n => conv M (bf i) (xf i) n) /\ is2 y' B N (fun i n => conv M (bf i) (xf i) n).
Proof.
  intros R B N M b x bf xf HN HM Hb Hx Hre.
  destruct (fir_convolution R B N M b x bf xf HN Hb Hx) as (y & E & Hy).
  destruct (fir_transposed_partial R B N M b x bf xf HM Hb Hx) as (y' & E' & Hy').
  exists y, y'. do 3 (split; [assumption|]). eapply is2_ext; [exact Hy'|]. intros i n Hi Hn. cbv beta. unfold conv.
  apply bsum_ext. intros k Hk. now rewrite Hre.
Qed.
Print Assumptions fir_forms_agree_partial.

Example fir_ex :
  let b := v2 [[1;2;3];[1;0;-1]]%Z in let x := v2 [[1;1;1;2];[4;5;6;7]]%Z in let zi := v2 [[5;6];[0;1]]%Z in
  is2 b 2 3 (fun i k => at_ b [i;k]) /\ is2 x 2 4 (fun i k => at_ x [i;k]) /\ is2 zi 2 2 (fun i k => at_ zi [i;k]) /\
  show2' (fir b x None false) = Some (Some ([2;4], [1;3;6;7; 4;5;2;2]%Z), None) /\
  show2' (fir b x None true) = Some (Some ([2;4], [1;3;6;7; 4;5;2;2]%Z), None) /\
  show2' (fir b x (Some zi) false) = Some (Some ([2;4], [29;18;6;7; 3;5;2;2]%Z), Some ([2;2], [2;1;7;6]%Z)) /\
  show2' (fir b x (Some zi) true) = Some (Some ([2;4], [6;9;6;7; 4;6;2;2]%Z), Some ([2;2], [7;6;-6;-7]%Z)).
Proof. cbv zeta. repeat split; vm_compute; reflexivity. Qed.

(** One tap: the transposed form returns an empty signal, and the direct form returns the
    whole signal as its "state" (the slice from -0 is everything). *)
Theorem fir_one_tap_refuted :
  let b := v2 [[2]]%Z in let x := v2 [[1;2;3]]%Z in let zi := mk2 1 0 (fun _ _ => 0%Z) : tensor Zring in
  show2' (fir b x None false) = Some (Some ([1;3], [2;4;6]%Z), None) /\
  show2' (fir b x None true) = Some (Some ([1;0], []), None) /\
  show2' (fir b x (Some zi) false) = Some (Some ([1;3], [2;4;6]%Z), Some ([1;3], [3;2;1]%Z)).
Proof. cbv zeta. repeat split; vm_compute; reflexivity. Qed.
Print Assumptions fir_one_tap_refuted.

(** Signal shorter than the order: the transposed form with state returns a result of the
    wrong length for one sample (broadcasting) and raises for two. *)
Theorem fir_short_signal_refuted :
  show2' (fir (v2 [[1;2;3]]%Z) (v2 [[1]]%Z) (Some (v2 [[5;6]]%Z)) true) = Some (Some ([1;2], [6;7]%Z), Some ([1;2], [2;3]%Z)) /\
  show2' (fir (v2 [[1;2;3]]%Z) (v2 [[1]]%Z) (Some (v2 [[5;6]]%Z)) false) = Some (Some ([1;1], [29]%Z), Some ([1;2], [1;5]%Z)) /\
  fir (v2 [[1;2;3;4]]%Z) (v2 [[1;1]]%Z) (Some (v2 [[5;6;7]]%Z)) true = Err RuntimeError.
Proof. repeat split; vm_compute; reflexivity. Qed.
Print Assumptions fir_short_signal_refuted.

(** ** C15: streaming through fir and lfilter. *)
Lemma hist_shift (R : cring) (x x1 x2 z : nat -> R) N1 n k :
  (forall j, j < N1 -> x j = x1 j) -> (forall j, j < n -> x (N1 + j) = x2 j) ->
  hist x2 (fun k => hist x1 z N1 k) n k = hist x z (N1 + n) k.
Proof.
  intros H1 H2. unfold hist. destruct (k <? n) eqn:E; b2p.
  - btrue (k <? N1 + n). rewrite <- H2 by lia. f_equal. lia.
  - destruct (k - n <? N1) eqn:E1; destruct (k <? N1 + n) eqn:E2; b2p; try lia; [rewrite <- H1 by lia; f_equal; lia|f_equal; lia].
Qed.
Theorem fir_streaming_partial :
  forall (R : cring) B N1 N2 M (b x x1 x2 zi : tensor R) bf xf xf1 xf2 zf,
  1 <= M -> 1 <= N1 -> 1 <= N2 -> is2 b B (S M) bf ->
  is2 x B (N1 + N2) xf -> is2 x1 B N1 xf1 -> is2 x2 B N2 xf2 -> is2 zi B M zf ->
  (forall i n, i < B -> n < N1 -> xf i n = xf1 i n) -> (forall i n, i < B -> n < N2 -> xf i (N1 + n) = xf2 i n) ->
  exists y z y1 z1 y2 z2 f g,
    fir b x (Some zi) false = Ok (y, Some z) /\ fir b x1 (Some zi) false = Ok (y1, Some z1) /\
    fir b x2 (Some z1) false = Ok (y2, Some z2) /\
    is2 y B (N1 + N2) f /\ is2 y1 B N1 f /\ is2 y2 B N2 (fun i n => f i (N1 + n)) /\ is2 z B M g /\ is2 z2 B M g.
Proof.
  intros R B N1 N2 M b x x1 x2 zi bf xf xf1 xf2 zf HM H1 H2 Hb Hx Hx1 Hx2 Hz X1 X2.
  destruct (fir_state_partial R B (N1 + N2) M b x zi bf xf zf ltac:(lia) HM Hb Hx Hz) as (y & z & E & Y & Z).
  destruct (fir_state_partial R B N1 M b x1 zi bf xf1 zf H1 HM Hb Hx1 Hz) as (y1 & z1 & E1 & Y1 & Z1).
  destruct (fir_state_partial R B N2 M b x2 z1 bf xf2 _ H2 HM Hb Hx2 Z1) as (y2 & z2 & E2 & Y2 & Z2).
  exists y, z, y1, z1, y2, z2. do 2 eexists. do 3 (split; [assumption|]). split; [exact Y|]. split; [|split; [|split; [exact Z|]]].
  - eapply is2_ext; [exact Y1|]. intros i n Hi Hn. cbv beta. rewrite X1 by auto. f_equal. apply bsum_ext. intros k Hk. f_equal.
    apply (hist_ext R _ _ _ _ n k (S k)); auto. intros j Hj. symmetry. apply X1; lia.
  - eapply is2_ext; [exact Y2|]. intros i n Hi Hn. cbv beta. rewrite X2 by auto. f_equal. apply bsum_ext. intros k Hk. f_equal.
    apply hist_shift; intros; [apply X1; lia|apply X2; lia].
  - eapply is2_ext; [exact Z2|]. intros i k Hi Hk. cbv beta. apply hist_shift; intros; [apply X1; lia|apply X2; lia].
Qed.
Print Assumptions fir_streaming_partial.
Theorem fir_transposed_streaming_partial :
  forall (R : cring) B N1 N2 M (b x x1 x2 zi : tensor R) bf xf xf1 xf2 zf,
  1 <= M -> M <= N1 -> M <= N2 -> is2 b B (S M) bf ->
  is2 x B (N1 + N2) xf -> is2 x1 B N1 xf1 -> is2 x2 B N2 xf2 -> is2 zi B M zf ->
  (forall i n, i < B -> n < N1 -> xf i n = xf1 i n) -> (forall i n, i < B -> n < N2 -> xf i (N1 + n) = xf2 i n) ->
  exists y z y1 z1 y2 z2 f g,
    fir b x (Some zi) true = Ok (y, Some z) /\ fir b x1 (Some zi) true = Ok (y1, Some z1) /\
    fir b x2 (Some z1) true = Ok (y2, Some z2) /\
    is2 y B (N1 + N2) f /\ is2 y1 B N1 f /\ is2 y2 B N2 (fun i n => f i (N1 + n)) /\ is2 z B M g /\ is2 z2 B M g.
Proof.
  intros R B N1 N2 M b x x1 x2 zi bf xf xf1 xf2 zf HM H1 H2 Hb Hx Hx1 Hx2 Hz X1 X2.
  destruct (fir_transposed_state_partial R B (N1 + N2) M b x zi bf xf zf HM ltac:(lia) Hb Hx Hz) as (y & z & E & Y & Z).
  destruct (fir_transposed_state_partial R B N1 M b x1 zi bf xf1 zf HM H1 Hb Hx1 Hz) as (y1 & z1 & E1 & Y1 & Z1).
  destruct (fir_transposed_state_partial R B N2 M b x2 z1 bf xf2 _ HM H2 Hb Hx2 Z1) as (y2 & z2 & E2 & Y2 & Z2).
  exists y, z, y1, z1, y2, z2. do 2 eexists. do 3 (split; [assumption|]). split; [exact Y|]. split; [|split; [|split; [exact Z|]]].
  - eapply is2_ext; [exact Y1|]. intros i n Hi Hn. cbv beta. apply tdf2_y_ext; auto. intros. symmetry. apply X1; lia.
  - eapply is2_ext; [exact Y2|]. intros i n Hi Hn. cbv beta. rewrite tdf2_y_shift. apply tdf2_y_ext; auto.
    + intros k Hk. apply tdf2_z_ext; auto. intros. symmetry. apply X1; lia.
    + intros. symmetry. apply X2; lia.
  - eapply is2_ext; [exact Z2|]. intros i k Hi Hk. cbv beta. rewrite tdf2_shift. apply tdf2_z_ext; auto.
    + intros j Hj. apply tdf2_z_ext; auto. intros. symmetry. apply X1; lia.
    + intros. symmetry. apply X2; lia.
Qed.
Print Assumptions fir_transposed_streaming_partial.

(** lfilter with state: direct form II and its transpose run their textbook recursions
    from [zi] and return the state after the last sample.  All orders >= 1; any ring
    (tdf2 with conjugated coefficients).  Splitting lfilter b a x anywhere is invisible. *)
Theorem lfilter_state :
  forall (R : cring) e B N nb na M (b a x : tensor R) bf af xf zi z0 uf,
  1 <= B -> 1 <= N -> 1 <= nb -> M = Nat.max na (nb - 1) -> 1 <= M -> backend_ok e M -> unroll_ok uf ->
  fcoef B nb b bf -> fcoef B na a af -> is2 x B N xf -> init B M (Some zi) z0 ->
  (exists y z, lfilter_ssm e b a x (Some zi) Df2 uf = Ok (y, Some z) /\
    is2 y B N (fun i => df2_y M (padz nb (bf i)) (padz na (af i)) (z0 i) (xf i)) /\
    is2 z B M (fun i => df2_z M (padz na (af i)) (z0 i) (xf i) N)) /\
  (exists y z, lfilter_ssm e b a x (Some zi) Tdf2 uf = Ok (y, Some z) /\
    is2 y B N (fun i => tdf2_y M (padz nb (fun k => conj (bf i k))) (padz na (fun k => conj (af i k))) (z0 i) (xf i)) /\
    is2 z B M (fun i => tdf2_z M (padz nb (fun k => conj (bf i k))) (padz na (fun k => conj (af i k))) (z0 i) (xf i) N)).
Proof.
  intros R e B N nb na M b a x bf af xf zi z0 uf HB HN Hnb EM HM He Hu Hb Ha Hx Hz. split.
  - destruct (lfilter_spec R e B N nb na M b a x bf af xf (Some zi) z0 uf Df2 HB HN Hnb EM HM He Hu ltac:(discriminate) Hb Ha Hx)
      as (y & zo & E & Hy & z & -> & HZ); auto. exists y, z. auto.
  - destruct (lfilter_spec R e B N nb na M b a x bf af xf (Some zi) z0 uf Tdf2 HB HN Hnb EM HM He Hu ltac:(discriminate) Hb Ha Hx)
      as (y & zo & E & Hy & z & -> & HZ); auto. exists y, z. auto.
Qed.
Print Assumptions lfilter_state.
Theorem lfilter_streaming :
  forall (R : cring) e e1 e2 B N1 N2 nb na M (b a x x1 x2 zi : tensor R) uf uf1 uf2 fm bf af xf xf1 xf2 z0,
  1 <= B -> 1 <= N1 -> 1 <= N2 -> 1 <= nb -> M = Nat.max na (nb - 1) -> 1 <= M ->
  backend_ok e M -> backend_ok e1 M -> backend_ok e2 M -> unroll_ok uf -> unroll_ok uf1 -> unroll_ok uf2 ->
  fm = Df2 \/ fm = Tdf2 -> fcoef B nb b bf -> fcoef B na a af ->
  is2 x B (N1 + N2) xf -> is2 x1 B N1 xf1 -> is2 x2 B N2 xf2 ->
  (forall i n, i < B -> n < N1 -> xf i n = xf1 i n) -> (forall i n, i < B -> n < N2 -> xf i (N1 + n) = xf2 i n) ->
  init B M (Some zi) z0 ->
  exists y z y1 z1 y2 z2 f g,
    lfilter_ssm e b a x (Some zi) fm uf = Ok (y, Some z) /\
    lfilter_ssm e1 b a x1 (Some zi) fm uf1 = Ok (y1, Some z1) /\
    lfilter_ssm e2 b a x2 (Some z1) fm uf2 = Ok (y2, Some z2) /\
    is2 y B (N1 + N2) f /\ is2 y1 B N1 f /\ is2 y2 B N2 (fun i n => f i (N1 + n)) /\ is2 z B M g /\ is2 z2 B M g.
Proof.
  intros R e e1 e2 B N1 N2 nb na M b a x x1 x2 zi uf uf1 uf2 fm bf af xf xf1 xf2 z0
    HB H1 H2 Hnb EM HM E E1 E2 U U1 U2 Hfm Hb Ha Hx Hx1 Hx2 X1 X2 Hz.
  assert (Hst : has_state fm = true) by (destruct Hfm; subst; reflexivity).
  assert (Hof : fm <> OtherForm) by (intros ->; discriminate).
  destruct (lfilter_spec R e B (N1 + N2) nb na M b a x bf af xf (Some zi) z0 uf fm) as (y & zo & Q & Y & HZ); auto; [lia|].
  destruct (lfilter_spec R e1 B N1 nb na M b a x1 bf af xf1 (Some zi) z0 uf1 fm) as (y1 & zo1 & Q1 & Y1 & HZ1); auto.
  rewrite Hst in HZ, HZ1. destruct HZ as (z & -> & HZ), HZ1 as (z1 & -> & HZ1).
  destruct (lfilter_spec R e2 B N2 nb na M b a x2 bf af xf2 (Some z1) _ uf2 fm HB H2 Hnb EM HM E2 U2 Hof Hb Ha Hx2
    (fun _ => init_BM R B M z1 _ _ HZ1 (fun _ _ _ _ => eq_refl))) as (y2 & zo2 & Q2 & Y2 & HZ2).
  rewrite Hst in HZ2. destruct HZ2 as (z2 & -> & HZ2).
  exists y, z, y1, z1, y2, z2. do 2 eexists. do 3 (split; [assumption|]). split; [exact Y|]. split; [|split; [|split; [exact HZ|]]].
  - eapply is2_ext; [exact Y1|]. intros i n Hi Hn. cbv beta. apply lf_y_ext; auto. intros. symmetry. apply X1; lia.
  - eapply is2_ext; [exact Y2|]. intros i n Hi Hn. cbv beta. rewrite lf_y_shift by exact Hst. apply lf_y_ext; auto.
    + intros k Hk. apply lf_z_ext; auto. intros. symmetry. apply X1; lia.
    + intros. symmetry. apply X2; lia.
  - eapply is2_ext; [exact HZ2|]. intros i k Hi Hk. cbv beta. rewrite lf_z_shift. apply lf_z_ext; auto.
    + intros j Hj. apply lf_z_ext; auto. intros. symmetry. apply X1; lia.
    + intros. symmetry. apply X2; lia.
Qed.
Print Assumptions lfilter_streaming.

Example lfilter_state_ex :
  let b := v1 [1;2;3]%Z in let a := v1 [-1]%Z in let x := v2 [[1;0;0;1];[1;2;3;4]]%Z in let zi := v2 [[1;1];[0;2]]%Z in
  init 2 2 (Some zi) (fun i k => at_ zi [i;k]) /\ is2 x 2 (2 + 2) (fun i k => at_ x [i;k]) /\
  show2' (lfilter_ssm env0 b a x (Some zi) Df2 None) = Some (Some ([2;4], [7;9;12;13; 7;5;15;31]%Z), Some ([2;2], [3;2;10;6]%Z)) /\
  show2' (lfilter_ssm env0 b a x (Some zi) Tdf2 None) = Some (Some ([2;4], [2;5;8;9; 1;7;17;33]%Z), Some ([2;2], [11;3;50;12]%Z)).
Proof.
  cbv zeta. split; [|split; [|split]]; [|split; reflexivity|vm_compute; reflexivity|vm_compute; reflexivity].
  apply (init_BM Zring 2 2 _ (fun i k => at_ (v2 [[1;1];[0;2]]%Z) [i;k])); [split; reflexivity|reflexivity].
Qed.

(** ** C16-C18 for lfilter (every form). *)
Theorem lfilter_batch_independent :
  forall (R : cring) e e' B B' i i' N nb na M (b a x b' a' x' : tensor R) bf af xf bf' af' xf' zi zi' z0 z0' uf uf' fm,
  i < B -> i' < B' -> 1 <= N -> 1 <= nb -> M = Nat.max na (nb - 1) -> 1 <= M ->
  backend_ok e M -> backend_ok e' M -> unroll_ok uf -> unroll_ok uf' -> fm <> OtherForm ->
  fcoef B nb b bf -> fcoef B na a af -> is2 x B N xf -> init B M zi z0 ->
  fcoef B' nb b' bf' -> fcoef B' na a' af' -> is2 x' B' N xf' -> init B' M zi' z0' ->
  (forall k, k < nb -> bf i k = bf' i' k) -> (forall k, k < na -> af i k = af' i' k) ->
  (forall k, k < M -> z0 i k = z0' i' k) -> (forall n, n < N -> xf i n = xf' i' n) ->
  exists y z y' z' f f', lfilter_ssm e b a x zi fm uf = Ok (y, z) /\ lfilter_ssm e' b' a' x' zi' fm uf' = Ok (y', z') /\
    is2 y B N f /\ is2 y' B' N f' /\ forall n, n < N -> f i n = f' i' n.
Proof.
  intros R e e' B B' i i' N nb na M b a x b' a' x' bf af xf bf' af' xf' zi zi' z0 z0' uf uf' fm
    Hi Hi' HN Hnb EM HM E E' U U' Hfm Hb Ha Hx Hz Hb' Ha' Hx' Hz' Xb Xa Xz Xx.
  destruct (lfilter_spec R e B N nb na M b a x bf af xf zi z0 uf fm) as (y & zo & Q & Y & _); auto; [lia|].
  destruct (lfilter_spec R e' B' N nb na M b' a' x' bf' af' xf' zi' z0' uf' fm) as (y' & zo' & Q' & Y' & _); auto; [lia|].
  exists y, zo, y', zo'. do 2 eexists. do 2 (split; [eassumption|]). do 2 (split; [eassumption|]).
  intros n Hn. cbv beta. apply lf_y_ext; auto.
  - intros k _. apply padz_ext. intros j Hj. unfold lf_num. rewrite Xb by exact Hj. reflexivity.
  - intros k _. apply padz_ext. intros j Hj. unfold lf_den. rewrite Xa by exact Hj. reflexivity.
  - intros k Hk. apply Xx. lia.
Qed.
Print Assumptions lfilter_batch_independent.

Theorem lfilter_causal :
  forall (R : cring) e e' B N N' nb na M (b a x x' : tensor R) bf af xf xf' zi z0 uf uf' fm n,
  1 <= B -> 1 <= N -> 1 <= N' -> 1 <= nb -> M = Nat.max na (nb - 1) -> 1 <= M ->
  backend_ok e M -> backend_ok e' M -> unroll_ok uf -> unroll_ok uf' -> fm <> OtherForm ->
  fcoef B nb b bf -> fcoef B na a af -> is2 x B N xf -> is2 x' B N' xf' -> init B M zi z0 ->
  (forall i k, i < B -> k <= n -> xf i k = xf' i k) ->
  exists y z y' z' f f', lfilter_ssm e b a x zi fm uf = Ok (y, z) /\ lfilter_ssm e' b a x' zi fm uf' = Ok (y', z') /\
    is2 y B N f /\ is2 y' B N' f' /\ forall i k, i < B -> k <= n -> f i k = f' i k.
Proof.
  intros R e e' B N N' nb na M b a x x' bf af xf xf' zi z0 uf uf' fm n HB HN HN' Hnb EM HM E E' U U' Hfm Hb Ha Hx Hx' Hz Xx.
  destruct (lfilter_spec R e B N nb na M b a x bf af xf zi z0 uf fm) as (y & zo & Q & Y & _); auto.
  destruct (lfilter_spec R e' B N' nb na M b a x' bf af xf' zi z0 uf' fm) as (y' & zo' & Q' & Y' & _); auto.
  exists y, zo, y', zo'. do 2 eexists. do 2 (split; [eassumption|]). do 2 (split; [eassumption|]).
  intros i k Hi Hk. cbv beta. apply lf_y_ext; auto. intros j Hj. apply Xx; lia.
Qed.
Print Assumptions lfilter_causal.

Theorem lfilter_linear :
  forall (R : cring) e B N nb na M (b a x x1 x2 zi zi1 zi2 : tensor R) bf af xf1 xf2 z1 z2 c1 c2 uf fm,
  1 <= B -> 1 <= N -> 1 <= nb -> M = Nat.max na (nb - 1) -> 1 <= M -> backend_ok e M -> unroll_ok uf -> fm = Df2 \/ fm = Tdf2 ->
  fcoef B nb b bf -> fcoef B na a af -> is2 x1 B N xf1 -> is2 x2 B N xf2 -> init B M (Some zi1) z1 -> init B M (Some zi2) z2 ->
  is2 x B N (fun i n => radd (rmul c1 (xf1 i n)) (rmul c2 (xf2 i n))) ->
  init B M (Some zi) (fun i k => radd (rmul c1 (z1 i k)) (rmul c2 (z2 i k))) ->
  exists y w y1 w1 y2 w2 f1 f2 g1 g2,
    lfilter_ssm e b a x (Some zi) fm uf = Ok (y, Some w) /\ lfilter_ssm e b a x1 (Some zi1) fm uf = Ok (y1, Some w1) /\
    lfilter_ssm e b a x2 (Some zi2) fm uf = Ok (y2, Some w2) /\
    is2 y1 B N f1 /\ is2 y2 B N f2 /\ is2 w1 B M g1 /\ is2 w2 B M g2 /\
    is2 y B N (fun i n => radd (rmul c1 (f1 i n)) (rmul c2 (f2 i n))) /\
    is2 w B M (fun i k => radd (rmul c1 (g1 i k)) (rmul c2 (g2 i k))).
Proof.
  intros R e B N nb na M b a x x1 x2 zi zi1 zi2 bf af xf1 xf2 z1 z2 c1 c2 uf fm HB HN Hnb EM HM E U Hfm Hb Ha Hx1 Hx2 Hz1 Hz2 Hx Hz.
  assert (Hst : has_state fm = true) by (destruct Hfm; subst; reflexivity).
  assert (Hof : fm <> OtherForm) by (intros ->; discriminate).
  destruct (lfilter_spec R e B N nb na M b a x bf af _ (Some zi) _ uf fm HB HN Hnb EM HM E U Hof Hb Ha Hx (fun _ => Hz)) as (y & zo & Q & Y & Z).
  destruct (lfilter_spec R e B N nb na M b a x1 bf af _ (Some zi1) _ uf fm HB HN Hnb EM HM E U Hof Hb Ha Hx1 (fun _ => Hz1)) as (y1 & zo1 & Q1 & Y1 & Z1).
  destruct (lfilter_spec R e B N nb na M b a x2 bf af _ (Some zi2) _ uf fm HB HN Hnb EM HM E U Hof Hb Ha Hx2 (fun _ => Hz2)) as (y2 & zo2 & Q2 & Y2 & Z2).
  rewrite Hst in Z, Z1, Z2. destruct Z as (w & -> & Z), Z1 as (w1 & -> & Z1), Z2 as (w2 & -> & Z2).
  exists y, w, y1, w1, y2, w2. do 4 eexists. do 3 (split; [eassumption|]). do 4 (split; [eassumption|]). split.
  - eapply is2_ext; [exact Y|]. intros i n Hi Hn. cbv beta. now apply lf_y_lin.
  - eapply is2_ext; [exact Z|]. intros i n Hi Hn. cbv beta. now apply lf_z_lin.
Qed.
Print Assumptions lfilter_linear.
