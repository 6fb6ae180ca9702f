(** C66: rounding errors of fir and lfilter. *)
From Coq Require Import List Arith Lia ZArith Bool Ring QArith Qcanon.
From Verif Require Import Scalar Ordered Spec SpecRound SpecFilter Tensor TensorLemmas Shapes Algebra M_Kernels M_LtiSsm M_LtiFilter
  P_Kernels P_LtiSsm P_Filter P_LtiFilter P_Round P_Round5 P_Round6 P_Round7 FloatQ Properties_Round Properties_Round2.
Import ListNotations.
Close Scope Qc_scope. Close Scope Q_scope. Open Scope nat_scope.

Section S.
Variable F : ofield.
Add Ring Rr66 : (r_th F).
Variables (u : F) (fadd fmul fsub : F -> F -> F).
Hypothesis HR : rounds u fadd fmul fsub.
Notation Fl := (flops F fadd fmul fsub).
Notation ten := (tensor (car Fl)).
Notation ab f := (fun k => oabs (f k : F)).
Notation nab f := (fun k => ropp (oabs (f k : F))).

(** fir without a state: M + 1 roundings, one per tap. *)
Theorem C66_fir B N M (b x : ten) (bf xf : nat -> nat -> F) tr :
  is2 b B (S M) bf -> is2 x B N xf -> 1 <= N -> (tr = true -> 1 <= M) ->
  exists y (yv : nat -> nat -> F), fir b x None tr = Ok (y, None) /\ is2 y B N yv /\
    forall i n, i < B -> n < N -> within u (S M) (yv i n)
      (bsum (R := F) (S M) (fun k => rmul (bf i k) (dly (xf i) k n)))
      (bsum (R := F) (S M) (fun k => rmul (oabs (bf i k)) (dly (ab (xf i)) k n))).
Proof.
  intros Hb Hx HN HM. destruct (fir_none_bnd F u fadd fmul fsub HR B N M b x bf xf tr Hb Hx HN HM) as (y & yv & E & Hy & G).
  exists y, yv. split; [exact E|]. split; [exact Hy|]. intros i n Hi Hn. apply bnd_within, (G i n Hi Hn).
Qed.
(** With a state (past inputs): one rounding more at most, and the new state is exact. *)
Theorem C66_fir_state B N M (b x zi : ten) (bf xf zf : nat -> nat -> F) :
  is2 b B (S M) bf -> is2 x B N xf -> is2 zi B M zf -> 1 <= N -> 1 <= M ->
  exists y z (yv : nat -> nat -> F), fir b x (Some zi) false = Ok (y, Some z) /\ is2 y B N yv /\
    (forall i n, i < B -> n < N -> within u (S (S M)) (yv i n)
      (radd (rmul (bf i 0) (xf i n)) (bsum (R := F) M (fun k => rmul (bf i (S k)) (hist (xf i) (zf i) n k))))
      (radd (rmul (oabs (bf i 0)) (oabs (xf i n))) (bsum (R := F) M (fun k => rmul (oabs (bf i (S k))) (oabs (hist (xf i) (zf i) n k)))))) /\
    is2 z B M (fun i k => hist (R := F) (xf i) (zf i) N k).
Proof.
  intros Hb Hx Hz HN HM.
  destruct (fir_some_bnd F u fadd fmul fsub HR B N M b x zi bf xf zf false Hb Hx Hz HN HM) as (y & z & yv & zv & E & Hy & Hz' & G & _); [discriminate|].
  destruct (r_fir_direct_some Fl B N M b x zi bf xf zf Hb Hx Hz HN HM) as (y1 & z1 & E1 & _ & Hz1).
  rewrite E1 in E. injection E as <- <-.
  exists y1, z1, yv. split; [exact E1|]. split; [exact Hy|]. split.
  - intros i n Hi Hn. pose proof (bnd_within F u _ _ _ _ (G i n Hi Hn)) as W. cbn [fir_out] in W.
    erewrite (bsum_ext M (fun k => rmul (oabs (bf i (S k))) _)); [exact W|]. intros k Hk. cbn beta. now rewrite hist_abs.
  - eapply is2_ext; [exact Hz1|]. intros i k Hi Hk. cbn beta. now apply (hist_cat F).
Qed.
(** Transposed form with a state; [tdf2_y] with no denominator is the exact output. *)
Theorem C66_firt_state B N M (b x zi : ten) (bf xf zf : nat -> nat -> F) :
  is2 b B (S M) bf -> is2 x B N xf -> is2 zi B M zf -> 1 <= M -> M <= N ->
  exists y z (yv zv : nat -> nat -> F), fir b x (Some zi) true = Ok (y, Some z) /\ is2 y B N yv /\ is2 z B M zv /\
    (forall i n, i < B -> n < N -> within u (S (S M)) (yv i n)
      (tdf2_y (R := F) M (bf i) (fun _ => r0) (zf i) (xf i) n) (tdf2_y (R := F) M (ab (bf i)) (fun _ => r0) (ab (zf i)) (ab (xf i)) n)) /\
    (forall i k, i < B -> k < M -> within u (S M) (zv i k)
      (tdf2_z (R := F) M (bf i) (fun _ => r0) (zf i) (xf i) N k) (tdf2_z (R := F) M (ab (bf i)) (fun _ => r0) (ab (zf i)) (ab (xf i)) N k)).
Proof.
  intros Hb Hx Hz HM HN.
  destruct (fir_some_bnd F u fadd fmul fsub HR B N M b x zi bf xf zf true Hb Hx Hz ltac:(lia) HM (fun _ => HN)) as (y & z & yv & zv & E & Hy & Hz' & G & H).
  exists y, z, yv, zv. split; [exact E|]. split; [exact Hy|]. split; [exact Hz'|]. split; intros; apply bnd_within.
  - exact (G i n H0 H1).
  - exact (H i k H0 H1).
Qed.

(** lfilter from rest, any form.  [ye] is the exact filter output; [ym] is the output of
    the filter with coefficients |b| and -|a| on the input |x|. *)
Theorem C66_lfilter e B N nb na M (b a x : ten) (bf af xf : nat -> nat -> F) zi uf fm :
  1 <= B -> 1 <= N -> 1 <= nb -> M = Nat.max na (nb - 1) -> 1 <= M -> backend_ok e M -> unroll_ok uf -> fm <> OtherForm ->
  fcoef (R := F) B nb b bf -> fcoef (R := F) B na a af -> is2 x B N xf ->
  (has_state fm = true -> init (R := Fl) B M zi (fun _ _ => r0)) ->
  exists y zf (yv : nat -> nat -> F), lfilter_ssm e b a x zi fm uf = Ok (y, zf) /\ is2 y B N yv /\
    forall i (ye ym : nat -> F), i < B ->
      (forall n, n < N -> solves_filter (R := F) (nb - 1) na (bf i) (af i) (xf i) ye n) ->
      (forall n, n < N -> solves_filter (R := F) (nb - 1) na (ab (bf i)) (nab (af i)) (ab (xf i)) ym n) ->
      forall n, n < N -> within u (2 * M * S n + M + 2) (yv i n) (ye n) (ym n).
Proof.
  intros HB HN Hnb EM HM He Huf Hfm Hb Ha Hx Hz.
  set (bp := fun i => padz (R := F) nb (bf i)). set (ap := fun i => padz (R := F) na (af i)).
  assert (Pad : forall (f g y : nat -> F) h, (forall n, n < N -> solves_filter (R := F) (nb - 1) na f g h y n) ->
    forall n, n < N -> solves_filter (R := F) M M (padz (R := F) nb f) (padz (R := F) na g) h y n).
  { intros f g y h H n Hn. replace nb with (S (nb - 1)) at 1 by lia. apply (solves_filter_pad F); [lia|lia|auto]. }
  assert (PA : forall k (f : nat -> F) j, oabs (padz (R := F) k f j) = padz (R := F) k (ab f) j).
  { intros k f j. unfold padz. destruct (j <? k); [reflexivity|apply abs_0]. }
  assert (K : exists y zf (yv ye0 ym0 : nat -> nat -> F), ssm_lfilter e fm uf b a x zi = Ok (y, zf) /\ is2 y B N yv /\
    forall i, i < B -> (forall n, n < N -> within u (2 * M * S n + M + 2) (yv i n) (ye0 i n) (ym0 i n)) /\
      (forall n, solves_filter (R := F) M M (bp i) (ap i) (xf i) (ye0 i) n) /\
      (forall n, solves_filter (R := F) M M (ab (bp i)) (nab (ap i)) (ab (xf i)) (ym0 i) n)).
  { assert (Hm : forall k l v e' m', k <= l -> bnd F u k v e' m' -> within u l v e' m').
    { intros k l v e' m' Hk H. apply bnd_within. now apply (bnd_mono F u (rd_u _ _ _ _ HR) k l). }
    assert (Z0 : forall n : nat, n < M -> oabs (r0 : F) = r0) by (intros; apply abs_0).
    destruct fm; cbn [has_state] in Hz; [| | | |congruence]; try specialize (Hz eq_refl).
    - destruct (df2_bnd F u fadd fmul fsub HR e B N nb na M b a x bf af xf uf HB HN Hnb EM HM He Huf Hb Ha Hx zi _ Hz) as (y & zf & yv & E & Hy & G & _).
      exists y, zf, yv, (fun i => df2_y (R := F) M (bp i) (ap i) (fun _ => r0) (xf i)), (fun i => df2_y (R := F) M (ab (bp i)) (nab (ap i)) (fun _ => oabs r0) (ab (xf i))).
      split; [exact E|]. split; [exact Hy|]. intros i Hi. split; [|split].
      + intros n Hn. eapply Hm; [|apply (G i n Hi Hn)]. nia.
      + intro n. now apply df2_solves.
      + intro n. now apply df2_solves.
    - destruct (tdf2_bnd F u fadd fmul fsub HR e B N nb na M b a x bf af xf uf HB HN Hnb EM HM He Huf Hb Ha Hx zi _ Hz) as (y & zf & yv & E & Hy & G & _).
      exists y, zf, yv, (fun i => tdf2_y (R := F) M (bp i) (ap i) (fun _ => r0) (xf i)), (fun i => tdf2_y (R := F) M (ab (bp i)) (nab (ap i)) (fun _ => oabs r0) (ab (xf i))).
      split; [exact E|]. split; [exact Hy|]. intros i Hi. split; [|split].
      + intros n Hn. eapply Hm; [|apply (G i n Hi Hn)]. nia.
      + intro n. now apply tdf2_solves.
      + intro n. now apply tdf2_solves.
    - destruct (df1_bnd F u fadd fmul fsub HR e B N nb na M b a x bf af xf uf HB HN Hnb EM HM He Huf Hb Ha Hx zi) as (y & yv & ye & ym & E & Hy & G).
      exists y, None, yv, ye, ym. split; [exact E|]. split; [exact Hy|]. intros i Hi. destruct (G i Hi) as (G1 & G2 & G3).
      split; [|split; assumption]. intros n Hn. eapply Hm; [|apply (G1 n Hn)]. lia.
    - destruct (tdf1_bnd F u fadd fmul fsub HR e B N nb na M b a x bf af xf uf HB HN Hnb EM HM He Huf Hb Ha Hx zi) as (y & yv & ye & ym & E & Hy & G).
      exists y, None, yv, ye, ym. split; [exact E|]. split; [exact Hy|]. intros i Hi. destruct (G i Hi) as (G1 & G2 & G3).
      split; [|split; assumption]. intros n Hn. eapply Hm; [|apply (G1 n Hn)]. lia. }
  destruct K as (y & zf & yv & ye0 & ym0 & E & Hy & G).
  exists y, zf, yv. split.
  { etransitivity; [|exact E]. apply (f_lfilter_2d F fadd fmul fsub e B N nb na b a x bf af xf uf Hb Ha Hx). }
  split; [exact Hy|]. intros i ye ym Hi He' Hm' n Hn. destruct (G i Hi) as (G1 & G2 & G3).
  assert (ye n = ye0 i n) as ->.
  { apply (solves_filter_unique F M M (bp i) (ap i) (xf i) ye (ye0 i) N); [now apply Pad|intros; apply G2|exact Hn]. }
  assert (ym n = ym0 i n) as ->.
  { apply (solves_filter_unique F M M (ab (bp i)) (nab (ap i)) (ab (xf i)) ym (ym0 i) N); [|intros; apply G3|exact Hn].
    intros m Hm. eapply (solves_filter_ext F); [| | | |apply (Pad _ _ ym _ Hm' m Hm)]; auto.
    - intros k Hk. symmetry. unfold bp. apply PA.
    - intros k Hk. unfold ap, padz. destruct (k <? na); [reflexivity|]. rewrite abs_0. ring. }
  now apply G1.
Qed.
(** With an initial state: direct form II and its transpose, output and final state. *)
Theorem C66_lfilter_df2 e B N nb na M (b a x : ten) (bf af xf : nat -> nat -> F) zi (z0 : nat -> nat -> F) uf :
  1 <= B -> 1 <= N -> 1 <= nb -> M = Nat.max na (nb - 1) -> 1 <= M -> backend_ok e M -> unroll_ok uf ->
  fcoef (R := F) B nb b bf -> fcoef (R := F) B na a af -> is2 x B N xf -> init (R := Fl) B M (Some zi) z0 ->
  exists y z (yv zv : nat -> nat -> F), lfilter_ssm e b a x (Some zi) Df2 uf = Ok (y, Some z) /\ is2 y B N yv /\ is2 z B M zv /\
    (forall i n, i < B -> n < N -> within u (2 * M * n + M + 4) (yv i n)
       (df2_y (R := F) M (padz (R := F) nb (bf i)) (padz (R := F) na (af i)) (z0 i) (xf i) n)
       (df2_y (R := F) M (ab (padz (R := F) nb (bf i))) (nab (padz (R := F) na (af i))) (ab (z0 i)) (ab (xf i)) n)) /\
    (forall i k, i < B -> k < M -> within u (2 * M * N + 3) (zv i k)
       (df2_z (R := F) M (padz (R := F) na (af i)) (z0 i) (xf i) N k) (df2_z (R := F) M (nab (padz (R := F) na (af i))) (ab (z0 i)) (ab (xf i)) N k)).
Proof.
  intros HB HN Hnb EM HM He Huf Hb Ha Hx Hz.
  destruct (df2_bnd F u fadd fmul fsub HR e B N nb na M b a x bf af xf uf HB HN Hnb EM HM He Huf Hb Ha Hx (Some zi) _ Hz) as (y & zf & yv & E & Hy & G & z & zv & -> & Hz' & H).
  exists y, z, yv, zv. split; [etransitivity; [apply (f_lfilter_2d F fadd fmul fsub e B N nb na b a x bf af xf uf Hb Ha Hx)|exact E]|].
  split; [exact Hy|]. split; [exact Hz'|]. split; intros; apply bnd_within; [exact (G i n H0 H1)|exact (H i k H0 H1)].
Qed.
Theorem C66_lfilter_tdf2 e B N nb na M (b a x : ten) (bf af xf : nat -> nat -> F) zi (z0 : nat -> nat -> F) uf :
  1 <= B -> 1 <= N -> 1 <= nb -> M = Nat.max na (nb - 1) -> 1 <= M -> backend_ok e M -> unroll_ok uf ->
  fcoef (R := F) B nb b bf -> fcoef (R := F) B na a af -> is2 x B N xf -> init (R := Fl) B M (Some zi) z0 ->
  exists y z (yv zv : nat -> nat -> F), lfilter_ssm e b a x (Some zi) Tdf2 uf = Ok (y, Some z) /\ is2 y B N yv /\ is2 z B M zv /\
    (forall i n, i < B -> n < N -> within u (2 * M * n + M + 4) (yv i n)
       (tdf2_y (R := F) M (padz (R := F) nb (bf i)) (padz (R := F) na (af i)) (z0 i) (xf i) n)
       (tdf2_y (R := F) M (ab (padz (R := F) nb (bf i))) (nab (padz (R := F) na (af i))) (ab (z0 i)) (ab (xf i)) n)) /\
    (forall i k, i < B -> k < M -> within u (2 * M * N + 3) (zv i k)
       (tdf2_z (R := F) M (padz (R := F) nb (bf i)) (padz (R := F) na (af i)) (z0 i) (xf i) N k)
       (tdf2_z (R := F) M (ab (padz (R := F) nb (bf i))) (nab (padz (R := F) na (af i))) (ab (z0 i)) (ab (xf i)) N k)).
Proof.
  intros HB HN Hnb EM HM He Huf Hb Ha Hx Hz.
  destruct (tdf2_bnd F u fadd fmul fsub HR e B N nb na M b a x bf af xf uf HB HN Hnb EM HM He Huf Hb Ha Hx (Some zi) _ Hz) as (y & zf & yv & E & Hy & G & z & zv & -> & Hz' & H).
  exists y, z, yv, zv. split; [etransitivity; [apply (f_lfilter_2d F fadd fmul fsub e B N nb na b a x bf af xf uf Hb Ha Hx)|exact E]|].
  split; [exact Hy|]. split; [exact Hz'|]. split; intros; apply bnd_within; [exact (G i n H0 H1)|exact (H i k H0 H1)].
Qed.
(** Two forms, two configurations, two unroll factors: from rest the outputs agree up to
    twice the bound. *)
Theorem C66_forms_agree e e' B N nb na M (b a x : ten) (bf af xf : nat -> nat -> F) uf uf' fm fm' :
  1 <= B -> 1 <= N -> 1 <= nb -> M = Nat.max na (nb - 1) -> 1 <= M -> backend_ok e M -> backend_ok e' M -> unroll_ok uf -> unroll_ok uf' ->
  fm <> OtherForm -> fm' <> OtherForm ->
  fcoef (R := F) B nb b bf -> fcoef (R := F) B na a af -> is2 x B N xf ->
  exists y zf y' zf' (yv yv' : nat -> nat -> F),
    lfilter_ssm e b a x None fm uf = Ok (y, zf) /\ lfilter_ssm e' b a x None fm' uf' = Ok (y', zf') /\ is2 y B N yv /\ is2 y' B N yv' /\
    forall i (ym : nat -> F), i < B ->
      (forall n, n < N -> solves_filter (R := F) (nb - 1) na (ab (bf i)) (nab (af i)) (ab (xf i)) ym n) ->
      forall n, n < N -> ole (oabs (rsub (yv i n) (yv' i n)))
        (rmul (radd r1 r1) (rmul (rsub (rpow (radd r1 u) (2 * M * S n + M + 2)) r1) (ym n))) = true.
Proof.
  intros HB HN Hnb EM HM He He' Hu Hu' Hfm Hfm' Hb Ha Hx.
  assert (Z : forall fm, has_state fm = true -> init (R := Fl) B M None (fun _ _ => r0)) by (intros; apply init_0; reflexivity).
  destruct (C66_lfilter e B N nb na M b a x bf af xf None uf fm) as (y & zf & yv & E & Hy & G); auto. { apply Z. }
  destruct (C66_lfilter e' B N nb na M b a x bf af xf None uf' fm') as (y' & zf' & yv' & E' & Hy' & G'); auto. { apply Z. }
  exists y, zf, y', zf', yv, yv'. do 4 (split; [assumption|]). intros i ym Hi Hm n Hn.
  set (ye := tdf2_y (R := F) M (padz (R := F) nb (bf i)) (padz (R := F) na (af i)) (fun _ => r0) (xf i)).
  assert (He0 : forall n, n < N -> solves_filter (R := F) (nb - 1) na (bf i) (af i) (xf i) ye n).
  { intros k Hk. apply (solves_filter_pad F (nb - 1) na M); [lia|lia|]. replace (S (nb - 1)) with nb by lia. now apply tdf2_solves. }
  eapply within_agree; [now apply (G i ye ym)|now apply (G' i ye ym)].
Qed.
End S.

Print Assumptions C66_fir.
Print Assumptions C66_fir_state.
Print Assumptions C66_firt_state.
Print Assumptions C66_lfilter.
Print Assumptions C66_lfilter_df2.
Print Assumptions C66_lfilter_tdf2.
Print Assumptions C66_forms_agree.

(** ** Example: a second-order filter in 3-bit arithmetic; the four forms *)
Definition lB : list Qc := [q 3 2; q (-7) 8; q 5 8].
Definition lA : list Qc := [q (-5) 4; q 3 4].
Definition lX : list Qc := [q 3 2; q 1 1; q 7 8; q (-1) 2].
Definition l_b : tensor (car F3) := lst1 (q 0 1) lB.
Definition l_a : tensor (car F3) := lst1 (q 0 1) lA.
Definition l_x : tensor (car F3) := lst2 (q 0 1) [lX].
Definition lrun fm := match lfilter_ssm env0 l_b l_a l_x None fm (Some 1) with Ok (y, _) => shq3 (Ok y) | _ => None end.
Example C66_ex :
  lrun Df2 = Some ([1; 4], [2%Q; 3%Q; 4%Q; 2%Q]) /\ lrun Tdf2 = Some ([1; 4], [2%Q; 3%Q; 4%Q; (7 # 4)%Q]) /\
  lrun Df1 = Some ([1; 4], [2%Q; 3%Q; 4%Q; 2%Q]) /\ lrun Tdf1 = Some ([1; 4], [2%Q; 3%Q; 4%Q; (5 # 2)%Q]).
Proof. repeat split; vm_compute; reflexivity. Qed.
(** The forms are not bit for bit the same. *)
Theorem C66_bitwise_refuted :
  ~ (forall fm fm' (b a x : tensor (car F3)), fm <> OtherForm -> fm' <> OtherForm ->
       outs (lfilter_ssm env0 b a x None fm (Some 1)) = outs (lfilter_ssm env0 b a x None fm' (Some 1))).
Proof.
  intro H. specialize (H Df2 Tdf2 l_b l_a l_x ltac:(discriminate) ltac:(discriminate)). revert H. vm_compute. discriminate.
Qed.
Print Assumptions C66_bitwise_refuted.
(** The hypotheses at this instance, any two forms. *)
Example C66_agree_ex fm fm' : fm <> OtherForm -> fm' <> OtherForm ->
  exists y zf y' zf' (yv yv' : nat -> nat -> Qofield),
    lfilter_ssm env0 l_b l_a l_x None fm (Some 1) = Ok (y, zf) /\ lfilter_ssm env0 l_b l_a l_x None fm' (Some 2) = Ok (y', zf') /\
    is2 y 1 4 yv /\ is2 y' 1 4 yv' /\
    forall i (ym : nat -> Qofield), i < 1 ->
      (forall n, n < 4 -> solves_filter (R := Qofield) 2 2 (fun k => oabs (nth k lB (q 0 1) : Qofield)) (fun k => ropp (oabs (nth k lA (q 0 1) : Qofield)))
         (fun k => oabs (nth k lX (q 0 1) : Qofield)) ym n) ->
      forall n, n < 4 -> ole (oabs (rsub (yv i n) (yv' i n)))
        (rmul (radd r1 r1) (rmul (rsub (rpow (radd r1 (unit_roundoff 3)) (2 * 2 * S n + 2 + 2)) r1) (ym n))) = true.
Proof.
  intros Hf Hf'.
  apply (C66_forms_agree Qofield (unit_roundoff 3) _ _ _ (float_rounds 3) env0 env0 1 4 3 2 2 l_b l_a l_x
    (fun _ k => nth k lB (q 0 1)) (fun _ k => nth k lA (q 0 1)) (fun _ n => nth n lX (q 0 1)) (Some 1) (Some 2) fm fm'); auto.
  - apply backend_env0.
  - apply backend_env0.
  - unfold unroll_ok. lia.
  - unfold unroll_ok. lia.
  - apply (fc_s (R := Qofield) (fun k => nth k lB (q 0 1))); [split; reflexivity|reflexivity].
  - apply (fc_s (R := Qofield) (fun k => nth k lA (q 0 1))); [split; reflexivity|reflexivity].
  - split; [reflexivity|]. intros [|b] n Hb Hn; [reflexivity|lia].
Qed.
(** fir, both forms, on the same data (the exact output starts with 9/4). *)
Definition frun tr := match fir (lst2 (q 0 1) [lB] : tensor (car F3)) l_x None tr with Ok (y, _) => shq3 (Ok y) | _ => None end.
Example C66_fir_ex : frun true = Some ([1; 4], [2%Q; (1 # 4)%Q; (3 # 2)%Q; (-7 # 8)%Q]) /\ frun false = frun true.
Proof. split; vm_compute; reflexivity. Qed.
