(** Derivatives of calls with initial and final states (C67): direct form II filters, fir,
    lpv.fir, lpv.allpole, comb_filter and linear_recurrence.  The arguments carry tangents;
    the derivative of the call is the eps part of the result (see C59).  The gradients are
    given by calls of the library itself: the transposed structure on the reversed output
    gradient, started from the gradient of the final state. *)
From Coq Require Import List Arith Lia ZArith Bool Ring.
From Verif Require Import Scalar Tensor TensorLemmas TensorList TensorTac Spec Shapes SpecFilter SpecLpv SpecPoly SpecAutograd SpecSystem SpecDeriv Algebra M_Mat M_Kernels
  M_LtiRecur M_LtiSsm M_LpvSsm M_LtiFilter M_LpvFilter P_LtiRecur P_LtiSsm P_SsSpec P_LpvSs P_LpvSsm P_Filter P_LtiFilter P_LtiFilter2 P_LtiFilter3 P_LtiFilter4 P_LpvAlg
  P_LpvFilter P_LpvFilter2 P_Diag4 P_System P_Adjoint P_Deriv P_Deriv3
  Properties_LtiRecur Properties_LtiSsm Properties_LpvSsm Properties_LtiFilter Properties_LtiFilter2 Properties_LpvFilter Properties_LpvFilter2 Properties_Adjoint Properties_Deriv.
Import ListNotations.
Open Scope nat_scope.

(** ** lpv.lfilter, direct form II, both back-ends.  w is the inner signal. *)
Theorem C67_lpv_lfilter_gradient :
  forall (R : cring) bk e pr e' pr' B N nb na M (b a x zi : tensor (dual R)) (b' a' g gz : tensor R) bf dbf af daf xf dxf z0 dz gf gzf uf uf',
  1 <= B -> 1 <= N -> 1 <= nb -> M = Nat.max na (nb - 1) -> 1 <= M -> lpv_cfg (R := dual R) bk e pr B N na M b a uf -> bk = Ssm \/ na <= N ->
  lpv_backend_ok e' pr' M -> unroll_good N uf' -> rk b' = 2 \/ B <> N ->
  vcoef (R := dual R) B N nb b (fun i n k => (bf i n k, dbf i n k)) -> vcoef (R := dual R) B N na a (fun i n k => (af i n k, daf i n k)) ->
  is2 x B N (fun i n => (xf i n, dxf i n)) -> init (R := dual R) B M (Some zi) (fun i k => (z0 i k, dz i k)) ->
  vcoef B N nb b' (fun i => backwards N (bf i)) -> vcoef B N na a' (fun i => backwards N (af i)) ->
  is2 g B N (fun i => backwards N (gf i)) -> init B M (Some gz) gzf ->
  exists Y Z u v yf dyf zf dzf w uf0 vf,
    lpv_lfilter (R := dual R) e pr b a x (Some zi) Df2 bk uf = Ok (Y, Some Z) /\
    lpv_lfilter e' pr' b' a' g (Some gz) Tdf2 Ssm uf' = Ok (u, Some v) /\
    is2 Y B N (fun i n => (yf i n, dyf i n)) /\ is2 Z B M (fun i k => (zf i k, dzf i k)) /\ is2 u B N uf0 /\ is2 v B M vf /\
    forall i, i < B -> (forall n, n < N -> vpole na (af i) (xf i) (w i) (z0 i) n) /\
      let gx := backwards N (uf0 i) in let gzi := vf i in
      let gb := fun n k => rmul (gf i n) (conj (hist (w i) (z0 i) (S n) k)) in
      let ga := fun n k => ropp (rmul (gx n) (conj (hist (w i) (z0 i) n k))) in
      radd (dot N (gf i) (dyf i)) (dot M (gzf i) (dzf i))
      = radd (radd (radd (dot N gx (dxf i)) (dot M gzi (dz i))) (dotc N nb gb (dbf i))) (dotc N na ga (daf i)).
Proof.
  intros R bk e pr e' pr' B N nb na M b a x zi b' a' g gz bf dbf af daf xf dxf z0 dz gf gzf uf uf' HB HN Hnb EM HM Hc Hbk He' Hu' Hr Hb Ha Hx Hz Hb' Ha' Hg Hgz.
  destruct (lpv_lfilter_df2_partial (dual R) bk e pr B N nb na M b a x _ _ _ (Some zi) _ uf HB HN Hnb EM HM Hc Hb Ha Hx Hz) as (Y & Z & E & HY & HZ).
  destruct (HZ Hbk) as (z & -> & HZ0). clear HZ.
  destruct (lpv_lfilter_tdf2_partial R e' pr' B N nb na M b' a' g _ _ _ (Some gz) gzf uf' HB HN Hnb EM HM He' Hu' Hr Hb' Ha' Hg Hgz) as (u & v' & E' & HU & v & -> & HV).
  set (ap := fun i n => padz na (af i n)). set (dap := fun i n => padz na (daf i n)). set (bp := fun i n => padz nb (bf i n)). set (dbp := fun i n => padz nb (dbf i n)).
  exists Y, z, u, v, (fun i => vdf2_y M (bp i) (ap i) (z0 i) (xf i)),
    (fun i n => radd (vdf2_y M (bp i) (ap i) (dz i) (dual_in R M (ap i) (dap i) (z0 i) (xf i) (dxf i)) n) (vdf2_y M (dbp i) (ap i) (z0 i) (xf i) n)),
    (fun i => vdf2_z M (ap i) (z0 i) (xf i) N), (fun i => vdf2_z M (ap i) (dz i) (dual_in R M (ap i) (dap i) (z0 i) (xf i) (dxf i)) N),
    (fun i => inner R M (ap i) (z0 i) (xf i)). do 2 eexists.
  do 2 (split; [assumption|]). split; [|split; [|split; [exact HU|split; [exact HV|]]]].
  - eapply is2_ext; [exact HY|]. intros i n Hi Hn. cbv beta. rewrite <- vdf2_y_dual.
    apply vdf2_y_ext; auto; intros; apply padz_pair.
  - eapply is2_ext; [exact HZ0|]. intros i k Hi Hk. cbv beta. rewrite <- vdf2_z_dual.
    apply vdf2_z_ext; auto; intros; apply padz_pair.
  - intros i Hi. split.
    + intros n Hn. apply (vpole_pad R na M); [lia|]. apply vdf2_inner.
    + cbv zeta. etransitivity; [exact (grad_vdf2 R M nb na (bf i) (dbf i) (af i) (daf i) (z0 i) (dz i) (gzf i) (xf i) (dxf i) (gf i) N HM Hnb ltac:(lia) ltac:(lia))|].
      cbv zeta. rewrite dotc_opp. apply sub_opp.
Qed.
Print Assumptions C67_lpv_lfilter_gradient.

(** The derivative itself, with calls of the filter (numerator at most as long as the
    denominator): lfilter(b, a, dx, dzi) + lfilter(db, a, x, zi) - lfilter(b, a, e), where
    e = lfilter([0, da], a, x, zi). *)
Theorem C67_lpv_lfilter_tangent :
  forall (R : cring) bk e pr B N nb na (b a x zi : tensor (dual R)) (b0 a0 x0 zi0 db da0 dx dzi o : tensor R) bf dbf af daf xf dxf z0 dz uf,
  1 <= B -> 1 <= N -> 1 <= nb -> nb <= S na -> 1 <= na -> bk = Ssm \/ na <= N ->
  lpv_cfg (R := dual R) bk e pr B N na na b a uf -> lpv_cfg bk e pr B N na na b0 a0 uf -> lpv_cfg bk e pr B N na na db a0 uf -> lpv_cfg bk e pr B N na na da0 a0 uf ->
  vcoef (R := dual R) B N nb b (fun i n k => (bf i n k, dbf i n k)) -> vcoef (R := dual R) B N na a (fun i n k => (af i n k, daf i n k)) ->
  is2 x B N (fun i n => (xf i n, dxf i n)) -> init (R := dual R) B na (Some zi) (fun i k => (z0 i k, dz i k)) ->
  vcoef B N nb b0 bf -> vcoef B N na a0 af -> vcoef B N nb db dbf ->
  vcoef B N (S na) da0 (fun i n k => match k with 0 => r0 | S j => daf i n j end) ->
  is2 x0 B N xf -> is2 dx B N dxf -> init B na (Some zi0) z0 -> init B na (Some dzi) dz -> init B na (Some o) (fun _ _ => r0) ->
  exists Y Z y z t1 z1 t2 z2 t3 z3 ee ze yf zf f1 g1 f2 f3 g3,
    lpv_lfilter (R := dual R) e pr b a x (Some zi) Df2 bk uf = Ok (Y, Some Z) /\
    lpv_lfilter e pr b0 a0 x0 (Some zi0) Df2 bk uf = Ok (y, Some z) /\
    lpv_lfilter e pr b0 a0 dx (Some dzi) Df2 bk uf = Ok (t1, Some z1) /\
    lpv_lfilter e pr db a0 x0 (Some zi0) Df2 bk uf = Ok (t2, Some z2) /\
    lpv_lfilter e pr da0 a0 x0 (Some zi0) Df2 bk uf = Ok (ee, Some ze) /\
    lpv_lfilter e pr b0 a0 ee (Some o) Df2 bk uf = Ok (t3, Some z3) /\
    is2 y B N yf /\ is2 z B na zf /\ is2 t1 B N f1 /\ is2 z1 B na g1 /\ is2 t2 B N f2 /\ is2 t3 B N f3 /\ is2 z3 B na g3 /\
    is2 Y B N (fun i n => (yf i n, rsub (radd (f1 i n) (f2 i n)) (f3 i n))) /\ is2 Z B na (fun i k => (zf i k, rsub (g1 i k) (g3 i k))).
Proof.
  intros R bk e pr B N nb na b a x zi b0 a0 x0 zi0 db da0 dx dzi o bf dbf af daf xf dxf z0 dz uf HB HN Hnb Hle Hna Hbk C1 C2 C3 C4 Hb Ha Hx Hz Hb0 Ha0 Hdb Hda0 Hx0 Hdx Hz0 Hdz Ho.
  assert (EM : na = Nat.max na (nb - 1)) by lia. assert (EM1 : na = Nat.max na (S na - 1)) by lia.
  destruct (lpv_lfilter_df2_partial (dual R) bk e pr B N nb na na b a x _ _ _ (Some zi) _ uf HB HN Hnb EM Hna C1 Hb Ha Hx Hz) as (Y & Z & E & HY & HZ).
  destruct (HZ Hbk) as (Z' & -> & HZ'). clear HZ.
  destruct (lpv_lfilter_df2_partial R bk e pr B N nb na na b0 a0 x0 _ _ _ (Some zi0) _ uf HB HN Hnb EM Hna C2 Hb0 Ha0 Hx0 Hz0) as (y & z & E0 & Hy & H). destruct (H Hbk) as (z' & -> & Hz'). clear H.
  destruct (lpv_lfilter_df2_partial R bk e pr B N nb na na b0 a0 dx _ _ _ (Some dzi) _ uf HB HN Hnb EM Hna C2 Hb0 Ha0 Hdx Hdz) as (t1 & z1 & E1 & Ht1 & H). destruct (H Hbk) as (z1' & -> & Hz1). clear H.
  destruct (lpv_lfilter_df2_partial R bk e pr B N nb na na db a0 x0 _ _ _ (Some zi0) _ uf HB HN Hnb EM Hna C3 Hdb Ha0 Hx0 Hz0) as (t2 & z2 & E2 & Ht2 & H). destruct (H Hbk) as (z2' & -> & Hz2). clear H.
  destruct (lpv_lfilter_df2_partial R bk e pr B N (S na) na na da0 a0 x0 _ _ _ (Some zi0) _ uf HB HN ltac:(lia) EM1 Hna C4 Hda0 Ha0 Hx0 Hz0) as (ee & ze & Ee & Hee & H). destruct (H Hbk) as (ze' & -> & Hze). clear H.
  destruct (lpv_lfilter_df2_partial R bk e pr B N nb na na b0 a0 ee _ _ _ (Some o) _ uf HB HN Hnb EM Hna C2 Hb0 Ha0 Hee Ho) as (t3 & z3 & E3 & Ht3 & H). destruct (H Hbk) as (z3' & -> & Hz3). clear H.
  exists Y, Z', y, z', t1, z1', t2, z2', t3, z3', ee, ze'. do 7 eexists. do 6 (split; [assumption|]).
  split; [exact Hy|]. split; [exact Hz'|]. split; [exact Ht1|]. split; [exact Hz1|]. split; [exact Ht2|]. split; [exact Ht3|]. split; [exact Hz3|]. split.
  - eapply is2_ext; [exact HY|]. intros i n Hi Hn. cbv beta.
    transitivity (vdf2_y (R := dual R) na (pair2 R (fun n => padz nb (bf i n)) (fun n => padz nb (dbf i n))) (pair2 R (fun n => padz na (af i n)) (fun n => padz na (daf i n)))
      (pair1 R (z0 i) (dz i)) (pair1 R (xf i) (dxf i)) n).
    { apply vdf2_y_ext; auto; intros; apply padz_pair. }
    rewrite vdf2_y_dual. f_equal. unfold dual_in. rewrite vdf2_y_sub by exact Hna.
    rewrite (vdf2_y_ext R na _ (fun n => padz nb (bf i n)) _ (fun n => padz na (af i n)) (fun _ => r0) (fun _ => r0)
      (fun n0 => bsum na (fun j => rmul (padz na (daf i n0) j) (vdf2_z na (fun n1 => padz na (af i n1)) (z0 i) (xf i) n0 j)))
      (vdf2_y na (fun n0 => padz (S na) (shift1 R (daf i n0))) (fun n0 => padz na (af i n0)) (z0 i) (xf i)) n Hna); auto.
    + apply reorder.
    + intros k Hk. symmetry. apply vdf2_y_shift1. lia.
  - eapply is2_ext; [exact HZ'|]. intros i k Hi Hk. cbv beta.
    transitivity (vdf2_z (R := dual R) na (pair2 R (fun n => padz na (af i n)) (fun n => padz na (daf i n)))
      (pair1 R (z0 i) (dz i)) (pair1 R (xf i) (dxf i)) N k).
    { apply vdf2_z_ext; auto; intros; apply padz_pair. }
    rewrite vdf2_z_dual. f_equal. unfold dual_in. rewrite vdf2_z_sub by exact Hk. f_equal.
    apply vdf2_z_ext; auto. intros n Hn. symmetry. apply vdf2_y_shift1. lia.
Qed.
Print Assumptions C67_lpv_lfilter_tangent.

(** From rest. *)
Theorem C67_lpv_lfilter_gradient_rest :
  forall (R : cring) bk e pr e' pr' B N nb na M (b a x : tensor (dual R)) (b' a' g : tensor R) bf dbf af daf xf dxf gf uf uf',
  1 <= B -> 1 <= N -> 1 <= nb -> M = Nat.max na (nb - 1) -> 1 <= M -> lpv_cfg (R := dual R) bk e pr B N na M b a uf ->
  lpv_backend_ok e' pr' M -> unroll_good N uf' -> rk b' = 2 \/ B <> N ->
  vcoef (R := dual R) B N nb b (fun i n k => (bf i n k, dbf i n k)) -> vcoef (R := dual R) B N na a (fun i n k => (af i n k, daf i n k)) ->
  is2 x B N (fun i n => (xf i n, dxf i n)) ->
  vcoef B N nb b' (fun i => backwards N (bf i)) -> vcoef B N na a' (fun i => backwards N (af i)) -> is2 g B N (fun i => backwards N (gf i)) ->
  exists Y u yf dyf w uf0,
    lpv_lfilter (R := dual R) e pr b a x None Df2 bk uf = Ok (Y, None) /\ lpv_lfilter e' pr' b' a' g None Tdf2 Ssm uf' = Ok (u, None) /\
    is2 Y B N (fun i n => (yf i n, dyf i n)) /\ is2 u B N uf0 /\
    forall i, i < B -> (forall n, n < N -> vpole na (af i) (xf i) (w i) (fun _ => r0) n) /\
      let gx := backwards N (uf0 i) in
      let gb := fun n k => rmul (gf i n) (conj (dly (w i) k n)) in
      let ga := fun n k => ropp (rmul (gx n) (conj (dly (w i) (S k) n))) in
      dot N (gf i) (dyf i) = radd (radd (dot N gx (dxf i)) (dotc N nb gb (dbf i))) (dotc N na ga (daf i)).
Proof.
  intros R bk e pr e' pr' B N nb na M b a x b' a' g bf dbf af daf xf dxf gf uf uf' HB HN Hnb EM HM Hc He' Hu' Hr Hb Ha Hx Hb' Ha' Hg.
  assert (Hz : init (R := dual R) B M None (fun i k => (r0, r0))) by (constructor; reflexivity).
  assert (Hgz : init (R := R) B M None (fun i k => r0)) by (constructor; reflexivity).
  destruct (lpv_lfilter_df2_partial (dual R) bk e pr B N nb na M b a x _ _ _ None _ uf HB HN Hnb EM HM Hc Hb Ha Hx Hz) as (Y & Z & E & HY & ->).
  destruct (lpv_lfilter_tdf2_partial R e' pr' B N nb na M b' a' g _ _ _ None _ uf' HB HN Hnb EM HM He' Hu' Hr Hb' Ha' Hg Hgz) as (u & v' & E' & HU & ->).
  set (ap := fun i n => padz na (af i n)). set (dap := fun i n => padz na (daf i n)). set (bp := fun i n => padz nb (bf i n)). set (dbp := fun i n => padz nb (dbf i n)).
  set (o := fun _ : nat => r0 : R).
  exists Y, u, (fun i => vdf2_y M (bp i) (ap i) o (xf i)),
    (fun i n => radd (vdf2_y M (bp i) (ap i) o (dual_in R M (ap i) (dap i) o (xf i) (dxf i)) n) (vdf2_y M (dbp i) (ap i) o (xf i) n)),
    (fun i => inner R M (ap i) o (xf i)). eexists.
  do 2 (split; [assumption|]). split; [|split; [exact HU|]].
  - eapply is2_ext; [exact HY|]. intros i n Hi Hn. cbv beta. rewrite <- vdf2_y_dual.
    apply vdf2_y_ext; auto; intros; apply padz_pair.
  - intros i Hi. split.
    + intros n Hn. apply (vpole_pad R na M); [lia|]. apply vdf2_inner.
    + cbv zeta. pose proof (grad_vdf2 R M nb na (bf i) (dbf i) (af i) (daf i) o o o (xf i) (dxf i) (gf i) N HM Hnb ltac:(lia) ltac:(lia)) as G. cbv zeta in G.
      match type of G with radd ?p (dot M o _) = rsub (radd (radd ?q (dot M _ o)) (dotc N nb ?gb _)) (dotc N na ?ga _) =>
        assert (G' : p = rsub (radd q (dotc N nb gb (dbf i))) (dotc N na ga (daf i))) by
          (unfold o in G; rewrite dot_0, dot_0r, !add_0_r in G; exact G) end.
      etransitivity; [exact G'|]. rewrite dotc_opp, sub_opp. f_equal; [f_equal|f_equal]; apply dotc_ext; intros n k Hn Hk; do 2 f_equal; apply hist_rest0 || apply hist_rest.
Qed.
Print Assumptions C67_lpv_lfilter_gradient_rest.

(** ** lti.lfilter, direct form II: the gradients of constant coefficients are summed over
    time. *)
Theorem C67_lfilter_gradient :
  forall (R : cring) e e' B N nb na M (b a x zi : tensor (dual R)) (b' a' g gz : tensor R) bf dbf af daf xf dxf z0 dz gf gzf uf uf',
  1 <= B -> 1 <= N -> 1 <= nb -> M = Nat.max na (nb - 1) -> 1 <= M -> backend_ok e M -> backend_ok e' M -> unroll_ok uf -> unroll_ok uf' ->
  fcoef (R := dual R) B nb b (fun i k => (bf i k, dbf i k)) -> fcoef (R := dual R) B na a (fun i k => (af i k, daf i k)) ->
  is2 x B N (fun i n => (xf i n, dxf i n)) -> init (R := dual R) B M (Some zi) (fun i k => (z0 i k, dz i k)) ->
  fcoef B nb b' bf -> fcoef B na a' af -> is2 g B N (fun i => backwards N (gf i)) -> init B M (Some gz) gzf ->
  exists Y Z u v yf dyf zf dzf w uf0 vf,
    lfilter_ssm (R := dual R) e b a x (Some zi) Df2 uf = Ok (Y, Some Z) /\ lfilter_ssm e' b' a' g (Some gz) Tdf2 uf' = Ok (u, Some v) /\
    is2 Y B N (fun i n => (yf i n, dyf i n)) /\ is2 Z B M (fun i k => (zf i k, dzf i k)) /\ is2 u B N uf0 /\ is2 v B M vf /\
    forall i, i < B -> (forall n, n < N -> vpole na (fun _ => af i) (xf i) (w i) (z0 i) n) /\
      let gx := backwards N (uf0 i) in let gzi := vf i in
      let gb := fun k => bsum N (fun n => rmul (gf i n) (conj (hist (w i) (z0 i) (S n) k))) in
      let ga := fun k => bsum N (fun n => ropp (rmul (gx n) (conj (hist (w i) (z0 i) n k)))) in
      radd (dot N (gf i) (dyf i)) (dot M (gzf i) (dzf i))
      = radd (radd (radd (dot N gx (dxf i)) (dot M gzi (dz i))) (dot nb gb (dbf i))) (dot na ga (daf i)).
Proof.
  intros R e e' B N nb na M b a x zi b' a' g gz bf dbf af daf xf dxf z0 dz gf gzf uf uf' HB HN Hnb EM HM He He' Hu Hu' Hb Ha Hx Hz Hb' Ha' Hg Hgz.
  destruct (lfilter_spec (dual R) e B N nb na M b a x _ _ _ (Some zi) _ uf Df2 HB HN Hnb EM HM He Hu ltac:(discriminate) Hb Ha Hx (fun _ => Hz)) as (Y & Z & E & HY & z & -> & HZ).
  destruct (lfilter_spec R e' B N nb na M b' a' g bf af _ (Some gz) gzf uf' Tdf2 HB HN Hnb EM HM He' Hu' ltac:(discriminate) Hb' Ha' Hg (fun _ => Hgz)) as (u & v' & E' & HU & v & -> & HV).
  set (ap := fun i (n : nat) => padz na (af i)). set (dap := fun i (n : nat) => padz na (daf i)). set (bp := fun i (n : nat) => padz nb (bf i)). set (dbp := fun i (n : nat) => padz nb (dbf i)).
  exists Y, z, u, v, (fun i => vdf2_y M (bp i) (ap i) (z0 i) (xf i)),
    (fun i n => radd (vdf2_y M (bp i) (ap i) (dz i) (dual_in R M (ap i) (dap i) (z0 i) (xf i) (dxf i)) n) (vdf2_y M (dbp i) (ap i) (z0 i) (xf i) n)),
    (fun i => vdf2_z M (ap i) (z0 i) (xf i) N), (fun i => vdf2_z M (ap i) (dz i) (dual_in R M (ap i) (dap i) (z0 i) (xf i) (dxf i)) N),
    (fun i => inner R M (ap i) (z0 i) (xf i)). do 2 eexists.
  do 2 (split; [assumption|]). split; [|split; [|split; [exact HU|split; [exact HV|]]]].
  - eapply is2_ext; [exact HY|]. intros i n Hi Hn. cbv beta. rewrite <- vdf2_y_dual. unfold lf_y. rewrite df2_y_vdf2.
    apply vdf2_y_ext; auto; intros; apply (padz_pair R _ (fun _ => _ i) (fun _ => _ i) 0).
  - eapply is2_ext; [exact HZ|]. intros i k Hi Hk. cbv beta. rewrite <- vdf2_z_dual. unfold lf_z. rewrite df2_z_vdf2.
    apply vdf2_z_ext; auto; intros; apply (padz_pair R _ (fun _ => _ i) (fun _ => _ i) 0).
  - intros i Hi. split.
    + intros n Hn. apply (vpole_pad R na M); [lia|]. apply vdf2_inner.
    + cbv zeta. etransitivity; [exact (grad_vdf2 R M nb na (fun _ => bf i) (fun _ => dbf i) (fun _ => af i) (fun _ => daf i) (z0 i) (dz i) (gzf i) (xf i) (dxf i) (gf i) N HM Hnb ltac:(lia) ltac:(lia))|].
      cbv zeta. rewrite sub_opp, <- dotc_opp, !dotc_sum.
      assert (P1 : forall n (f : nat -> R) k, conj (padz n f k) = padz n (fun k => conj (f k)) k) by (intros; apply padz_conj).
      assert (GX : forall n, backwards N (vtdf2_y M (fun _ k => conj (padz nb (bf i) k)) (fun _ k => conj (padz na (af i) k)) (gzf i) (backwards N (gf i))) n
        = backwards N (lf_y Tdf2 M (padz nb (lf_num Tdf2 (bf i))) (padz na (lf_den Tdf2 (af i))) (gzf i) (backwards N (gf i))) n).
      { intro n. unfold backwards at 1 3. unfold lf_y. rewrite tdf2_y_vtdf2. apply vtdf2_y_ext; auto; intros; apply P1. }
      f_equal; [f_equal; f_equal; apply dot_ext; intros k Hk; auto|].
      * unfold lf_z. rewrite tdf2_z_vtdf2. apply vtdf2_z_ext; auto; intros; apply P1.
      * apply dot_ext; auto. intros k Hk. apply bsum_ext. intros n Hn. do 2 f_equal. apply GX.
Qed.
Print Assumptions C67_lfilter_gradient.

(** ** fir and lpv.fir: the transposed form gives the gradients of input and state. *)
Theorem C67_fir_gradient :
  forall (R : cring) B N M (b x zi : tensor (dual R)) (b' g gz : tensor R) bf dbf xf dxf z0 dz gf gzf,
  1 <= M -> M <= N -> is2 b B (S M) (fun i k => (bf i k, dbf i k)) -> is2 x B N (fun i n => (xf i n, dxf i n)) -> is2 zi B M (fun i k => (z0 i k, dz i k)) ->
  is2 b' B (S M) bf -> is2 g B N (fun i => backwards N (gf i)) -> is2 gz B M gzf ->
  exists Y Z u v yf dyf zf dzf uf0 vf,
    fir (R := dual R) b x (Some zi) false = Ok (Y, Some Z) /\ fir b' g (Some gz) true = Ok (u, Some v) /\
    is2 Y B N (fun i n => (yf i n, dyf i n)) /\ is2 Z B M (fun i k => (zf i k, dzf i k)) /\ is2 u B N uf0 /\ is2 v B M vf /\
    forall i, i < B ->
      let gb := fun k => bsum N (fun n => rmul (gf i n) (conj (hist (xf i) (z0 i) (S n) k))) in
      radd (dot N (gf i) (dyf i)) (dot M (gzf i) (dzf i))
      = radd (radd (dot N (backwards N (uf0 i)) (dxf i)) (dot M (vf i) (dz i))) (dot (S M) gb (dbf i)).
Proof.
  intros R B N M b x zi b' g gz bf dbf xf dxf z0 dz gf gzf HM HN Hb Hx Hz Hb' Hg Hgz.
  destruct (fir_state_partial (dual R) B N M b x zi _ _ _ ltac:(lia) HM Hb Hx Hz) as (Y & Z & E & HY & HZ).
  destruct (fir_transposed_state_partial R B N M b' g gz bf _ gzf HM HN Hb' Hg Hgz) as (u & v & E' & HU & HV).
  exists Y, Z, u, v, (fun i => vconv_with M (fun _ => bf i) (xf i) (z0 i)),
    (fun i n => radd (vconv_with M (fun _ => bf i) (dxf i) (dz i) n) (vconv_with M (fun _ => dbf i) (xf i) (z0 i) n)),
    (fun i => hist (xf i) (z0 i) N), (fun i => hist (dxf i) (dz i) N). do 2 eexists.
  do 2 (split; [assumption|]). split; [|split; [|split; [exact HU|split; [exact HV|]]]].
  - eapply is2_ext; [exact HY|]. intros i n Hi Hn. cbv beta. rewrite <- vconv_with_dual. reflexivity.
  - eapply is2_ext; [exact HZ|]. intros i k Hi Hk. cbv beta. rewrite <- hist_dual. reflexivity.
  - intros i Hi. cbv zeta.
    etransitivity; [exact (grad_fir R M (fun _ => bf i) (fun _ => dbf i) (z0 i) (dz i) (gzf i) (xf i) (dxf i) (gf i) N HM)|].
    cbv zeta. rewrite dotc_sum. f_equal. f_equal; apply dot_ext; intros k Hk; auto.
    + unfold backwards at 1 3. symmetry. apply tdf2_y_vtdf2.
    + symmetry. apply tdf2_z_vtdf2.
Qed.
Print Assumptions C67_fir_gradient.

Theorem C67_lpv_fir_gradient :
  forall (R : cring) B N M (b x zi : tensor (dual R)) (b' g gz : tensor R) bf dbf xf dxf z0 dz gf gzf,
  1 <= M -> M <= N -> is3 b B N (S M) (fun i n k => (bf i n k, dbf i n k)) -> is2 x B N (fun i n => (xf i n, dxf i n)) ->
  is2 zi B M (fun i k => (z0 i k, dz i k)) ->
  is3 b' B N (S M) (fun i => backwards N (bf i)) -> is2 g B N (fun i => backwards N (gf i)) -> is2 gz B M gzf ->
  exists Y Z u v yf dyf zf dzf uf0 vf,
    lpv_fir (R := dual R) b x (Some zi) false = Ok (Y, Some Z) /\ lpv_fir b' g (Some gz) true = Ok (u, Some v) /\
    is2 Y B N (fun i n => (yf i n, dyf i n)) /\ is2 Z B M (fun i k => (zf i k, dzf i k)) /\ is2 u B N uf0 /\ is2 v B M vf /\
    forall i, i < B ->
      let gb := fun n k => rmul (gf i n) (conj (hist (xf i) (z0 i) (S n) k)) in
      radd (dot N (gf i) (dyf i)) (dot M (gzf i) (dzf i))
      = radd (radd (dot N (backwards N (uf0 i)) (dxf i)) (dot M (vf i) (dz i))) (dotc N (S M) gb (dbf i)).
Proof.
  intros R B N M b x zi b' g gz bf dbf xf dxf z0 dz gf gzf HM HN Hb Hx Hz Hb' Hg Hgz.
  destruct (lpv_fir_state (dual R) B N M b x zi _ _ _ ltac:(lia) Hb Hx Hz) as (Y & Z & E & HY & HZ).
  destruct (lpv_fir_transposed_state_partial R B N M b' g gz _ _ gzf ltac:(lia) HN Hb' Hg Hgz) as (u & v & E' & HU & HV).
  exists Y, Z, u, v, (fun i => vconv_with M (bf i) (xf i) (z0 i)),
    (fun i n => radd (vconv_with M (bf i) (dxf i) (dz i) n) (vconv_with M (dbf i) (xf i) (z0 i) n)),
    (fun i => hist (xf i) (z0 i) N), (fun i => hist (dxf i) (dz i) N). do 2 eexists.
  do 2 (split; [assumption|]). split; [|split; [|split; [exact HU|split; [exact HV|]]]].
  - eapply is2_ext; [exact HY|]. intros i n Hi Hn. cbv beta. rewrite <- vconv_with_dual. reflexivity.
  - eapply is2_ext; [exact HZ|]. intros i k Hi Hk. cbv beta. rewrite <- hist_dual. reflexivity.
  - intros i Hi. cbv zeta.
    etransitivity; [exact (grad_fir R M (bf i) (dbf i) (z0 i) (dz i) (gzf i) (xf i) (dxf i) (gf i) N HM)|].
    cbv zeta. f_equal. f_equal; apply dot_ext; intros k Hk; auto.
    unfold backwards at 1 4. now rewrite vtdf2_fir.
Qed.
Print Assumptions C67_lpv_fir_gradient.

(** ** lpv.allpole: the gradient of the coefficients is minus the product with past
    outputs. *)
Theorem C67_lpv_allpole_gradient :
  forall (R : cring) B N M (a x zi : tensor (dual R)) (a' g gz : tensor R) af daf xf dxf z0 dz gf gzf,
  1 <= M -> M <= N -> is3 a B N M (fun i n k => (af i n k, daf i n k)) -> is2 x B N (fun i n => (xf i n, dxf i n)) ->
  is2 zi B M (fun i k => (z0 i k, dz i k)) ->
  is3 a' B N M (fun i => backwards N (af i)) -> is2 g B N (fun i => backwards N (gf i)) -> is2 gz B M gzf ->
  exists Y Z u v yf dyf zf dzf uf0 vf,
    lpv_allpole (R := dual R) a x (Some zi) false = Ok (Y, Some Z) /\ lpv_allpole a' g (Some gz) true = Ok (u, Some v) /\
    is2 Y B N (fun i n => (yf i n, dyf i n)) /\ is2 Z B M (fun i k => (zf i k, dzf i k)) /\ is2 u B N uf0 /\ is2 v B M vf /\
    forall i, i < B ->
      let gx := backwards N (uf0 i) in
      let ga := fun n k => ropp (rmul (gx n) (conj (hist (yf i) (z0 i) n k))) in
      radd (dot N (gf i) (dyf i)) (dot M (gzf i) (dzf i))
      = radd (radd (dot N gx (dxf i)) (dot M (vf i) (dz i))) (dotc N M ga (daf i)).
Proof.
  intros R B N M a x zi a' g gz af daf xf dxf z0 dz gf gzf HM HN Ha Hx Hz Ha' Hg Hgz.
  destruct (lpv_allpole_some (dual R) B N M a x zi _ _ _ Ha Hx Hz HM HN) as (Y & Z & E & HY & HZ).
  destruct (lpv_allpole_transposed_state_partial R B N M a' g gz _ _ gzf HM HN Ha' Hg Hgz) as (u & v & E' & HU & HV).
  exists Y, Z, u, v, (fun i => inner R M (af i) (z0 i) (xf i)),
    (fun i n => vdf2_z M (af i) (dz i) (dual_in R M (af i) (daf i) (z0 i) (xf i) (dxf i)) (S n) 0),
    (fun i => vdf2_z M (af i) (z0 i) (xf i) N), (fun i => vdf2_z M (af i) (dz i) (dual_in R M (af i) (daf i) (z0 i) (xf i) (dxf i)) N). do 2 eexists.
  do 2 (split; [assumption|]). split; [|split; [|split; [exact HU|split; [exact HV|]]]].
  - eapply is2_ext; [exact HY|]. intros i n Hi Hn. cbv beta. unfold inner. rewrite <- vdf2_z_dual. reflexivity.
  - eapply is2_ext; [exact HZ|]. intros i k Hi Hk. cbv beta. rewrite <- vdf2_z_dual. reflexivity.
  - intros i Hi. cbv zeta.
    etransitivity; [exact (grad_pole R M (af i) (daf i) (z0 i) (dz i) (gzf i) (xf i) (dxf i) (gf i) N HM)|].
    cbv zeta. rewrite dotc_opp. apply sub_opp.
Qed.
Print Assumptions C67_lpv_allpole_gradient.

(** ** comb_filter with past outputs: the gradient of past output k (k samples before the
    newest) is -conj(a) times the gradient of input d-1-k, if there is such an input. *)
Theorem C67_comb_filter_gradient :
  forall (R : cring) e e' B N d (a x : tensor (dual R)) zi (a' g : tensor R) af daf xf dxf z0 dz gf uf uf',
  d = 1 \/ 2 <= d /\ ext e = true /\ ext e' = true -> unroll_ok uf -> unroll_ok uf' -> 1 <= B -> 1 <= N ->
  ccoef (R := dual R) B a (fun i => (af i, daf i)) -> is2 x B N (fun i n => (xf i n, dxf i n)) -> cpast (R := dual R) B d zi (fun i k => (z0 i k, dz i k)) ->
  ccoef B a' (fun i => conj (af i)) -> is2 g B N (fun i => backwards N (gf i)) ->
  exists Y Z u yf dyf uf0,
    comb_filter (R := dual R) e a d x zi uf = Ok (Y, Z) /\ comb_filter e' a' d g None uf' = Ok (u, None) /\
    is2 Y B N (fun i n => (yf i n, dyf i n)) /\ is2 u B N uf0 /\
    forall i, i < B ->
      let gx := backwards N (uf0 i) in
      let ga := ropp (bsum N (fun n => rmul (gx n) (conj (hist (yf i) (z0 i) n (d - 1))))) in
      let gz := fun k => if d - 1 - k <? N then ropp (rmul (conj (af i)) (gx (d - 1 - k))) else r0 in
      dot N (gf i) (dyf i) = radd (radd (dot N gx (dxf i)) (dot d gz (dz i))) (rmul (conj ga) (daf i)).
Proof.
  intros R e e' B N d a x zi a' g af daf xf dxf z0 dz gf uf uf' Hd Hu Hu' HB HN Ha Hx Hz Ha' Hg.
  assert (Hz' : cpast B d None (fun _ _ => r0 : R)) by (constructor; reflexivity).
  assert (G : forall (R : cring) e u (a : tensor R) af (x : tensor R) xf zi z0, d = 1 \/ 2 <= d /\ ext e = true -> unroll_ok u -> ccoef B a af -> is2 x B N xf -> cpast B d zi z0 ->
     exists y z yf, comb_filter e a d x zi u = Ok (y, z) /\ (zi = None -> z = None) /\ is2 y B N yf /\
     forall i n, i < B -> n < N -> solves_comb d (af i) (xf i) (yf i) (z0 i) n).
  { intros S e0 u a0 af0 x0 xf0 zi0 z00 Hk0 Hu0 Ha0 Hx0 Hz0. destruct Hk0 as [->|[Hk0 He0]].
    - destruct (comb_filter_delay_one_partial S e0 B N a0 x0 zi0 af0 xf0 _ u Hu0 HB HN Ha0 Hx0 Hz0) as (y & yf & E & Y & H). exists y, None, yf. auto.
    - destruct (comb_filter_partial S e0 B N d a0 x0 zi0 af0 xf0 _ u He0 Hu0 HB HN Hk0 Ha0 Hx0 Hz0) as (y & zf & yf & E & Y & H & C).
      exists y, zf, yf. split; [exact E|]. split; [intros ->; exact C|auto]. }
  destruct (G (dual R) e uf a _ x _ zi _ ltac:(tauto) Hu Ha Hx Hz) as (Y & Z & Yf & E & _ & HY & H).
  destruct (G R e' uf' a' _ g _ None _ ltac:(tauto) Hu' Ha' Hg Hz') as (u & z' & uf0 & E' & C & HU & H'). rewrite (C eq_refl) in E'. clear C G.
  destruct (split_fun2 Yf) as (yf & dyf & Ed).
  exists Y, Z, u, yf, dyf, uf0. do 2 (split; [assumption|]). split; [|split; [exact HU|]].
  { eapply is2_ext; [exact HY|]. intros i n Hi Hn. apply Ed. }
  intros i Hi. cbv zeta.
  assert (Hc : forall n, n < N -> solves_comb d (af i) (fun n => rsub (dxf i n) (rmul (daf i) (hist (yf i) (z0 i) n (d - 1)))) (dyf i) (dz i) n).
  { intros n Hn. specialize (H i n Hi Hn).
    apply (comb_dual R d (af i) (daf i) (xf i) (dxf i) (yf i) (dyf i) (z0 i) (dz i) n).
    unfold solves_comb in *. unfold pair1. rewrite <- Ed, H. f_equal. f_equal. unfold hist. destruct (d - 1 <? n); [apply Ed|reflexivity]. }
  rewrite (comb_grad R d (af i) _ (dyf i) (dz i) (gf i) (uf0 i) N ltac:(lia) Hc (fun n Hn => H' i n Hi Hn)).
  apply comb_pairing.
Qed.
Print Assumptions C67_comb_filter_gradient.

(** ** lti.linear_recurrence with an initial value. *)
Theorem C67_linear_recurrence_gradient :
  forall (R : cring) B N (a init x : tensor (dual R)) (a' zero g : tensor R) af daf hf dhf xf dxf gf u u',
  1 <= B -> 1 <= N -> 1 <= u -> 1 <= u' ->
  coef (R := dual R) B a (fun i => (af i, daf i)) -> coef (R := dual R) B init (fun i => (hf i, dhf i)) -> is2 x B N (fun i n => (xf i n, dxf i n)) ->
  coef B a' (fun i => conj (af i)) -> coef B zero (fun _ => r0) -> is2 g B N (fun i => backwards N (gf i)) ->
  exists Y v yf dyf vf,
    linear_recurrence (R := dual R) a init x u = Ok Y /\ linear_recurrence a' zero g u' = Ok v /\
    is2 Y B N (fun i n => (yf i n, dyf i n)) /\ is2 v B N vf /\
    forall i, i < B ->
      let gx := backwards N (vf i) in
      let gh := rmul (conj (af i)) (gx 0) in
      let ga := bsum N (fun n => rmul (gx n) (conj (match n with 0 => hf i | S m => yf i m end))) in
      dot N (gf i) (dyf i) = radd (radd (dot N gx (dxf i)) (rmul (conj gh) (dhf i))) (rmul (conj ga) (daf i)).
Proof.
  intros R B N a init x a' zero g af daf hf dhf xf dxf gf u u' HB HN Hu Hu' Ha Hi Hx Ha' Hz Hg.
  destruct (linear_recurrence_correct (dual R) B N a init x _ _ _ u HB HN Hu Ha Hi Hx) as (Y & E & HY).
  destruct (linear_recurrence_correct R B N a' zero g _ _ _ u' HB HN Hu' Ha' Hz Hg) as (v & E' & HV).
  exists Y, v, (fun i n => lin_rec (fun _ => af i) (hf i) (xf i) (S n)),
    (fun i n => lin_rec (fun _ => af i) (dhf i) (fun k => radd (dxf i k) (rmul (daf i) (lin_rec (fun _ => af i) (hf i) (xf i) k))) (S n)). eexists.
  do 2 (split; [assumption|]). split; [|split; [exact HV|]].
  { eapply is2_ext; [exact HY|]. intros i n Hi' Hn. cbv beta. rewrite <- lin_rec_dual. reflexivity. }
  intros i Hi'. cbv zeta. rewrite lin_rec_grad. cbv zeta. bfalse (N =? 0).
  rewrite <- (rec_pairing R). f_equal. do 2 f_equal. apply bsum_ext. intros [|n] Hn; reflexivity.
Qed.
Print Assumptions C67_linear_recurrence_gradient.

(** A time-varying filter with two numerator coefficients and one denominator coefficient,
    three samples, every argument with a tangent; output gradient (1, 1, 2), gradient of the
    final state 3.  The pairing is 19 on both sides. *)
Example C67_ex :
  let b := ofl (0, 0)%Z [3;2] [(1,1);(2,0);(0,0);(1,1);(2,1);(1,1)]%Z : tensor (dual Zring) in
  let a := ofl (0, 0)%Z [3;1] [(1,1);(-1,2);(2,0)]%Z : tensor (dual Zring) in
  let x := ofl (0, 0)%Z [1;3] [(1,0);(2,1);(3,1)]%Z : tensor (dual Zring) in
  let zi := ofl (0, 0)%Z [1;1] [(1,1)]%Z : tensor (dual Zring) in
  let b' := ofl 0%Z [3;2] [2;1;0;1;1;2]%Z : tensor Zring in let a' := ofl 0%Z [3;1] [2;-1;1]%Z : tensor Zring in
  let g := v2 [[2;1;1]]%Z in let gz := v2 [[3]]%Z in
  let df := fun (l : list Z) (w : nat) (_ i j : nat) => nth (i * w + j) l 0%Z in
  vcoef (R := dual Zring) 1 3 2 b (fun i n k => (df [1;2;0;1;2;1]%Z 2 i n k, df [1;0;0;1;1;1]%Z 2 i n k)) /\
  vcoef (R := Zring) 1 3 2 b' (fun i => backwards 3 (df [1;2;0;1;2;1]%Z 2 i)) /\
  is2 (A := car Zring) g 1 3 (fun _ => backwards 3 (fun n => nth n [1;1;2]%Z 0%Z)) /\
  init (R := dual Zring) 1 1 (Some zi) (fun _ _ => (1, 1)%Z) /\
  match lpv_lfilter (R := dual Zring) env0 false b a x (Some zi) Df2 Ssm None with
  | Ok (Y, Some Z) => Some (map (fun n => at_ Y [0; n]) [0; 1; 2], map (fun m => at_ Z [0; m]) [0])
  | _ => None
  end = Some ([(2, 0); (0, -2); (0, 6)]%Z, [(-1, 3)]%Z) /\
  show2' (lpv_lfilter env0 false b' a' g (Some gz) Tdf2 Ssm None) = Some (Some ([1;3], [7;-12;-10]%Z), Some ([1;1], [12]%Z)) /\
  (forall n, n < 3 -> vpole (R := Zring) 1 (df [1;-1;2]%Z 1 0) (fun n => nth n [1;2;3]%Z 0%Z) (fun n => nth n [0;2;-1]%Z 0%Z) (fun _ => 1%Z) n) /\
  (1 * 0 + 1 * -2 + 2 * 6 + 3 * 3
   = (-10 * 0 + -12 * 1 + 7 * 1) + 12 * 1 + (1 * (0 * 1 + 1 * 0) + 1 * (2 * 0 + 0 * 1) + 2 * (-1 * 1 + 2 * 1)) - (-10 * 1 * 1 + -12 * 0 * 2 + 7 * 2 * 0))%Z.
Proof.
  cbv zeta. split; [|split; [|split; [|split; [|split; [|split; [|split]]]]]].
  - eapply vc_s; [split; [reflexivity|intros; reflexivity]|]. intros b n k Hb Hn Hk. destruct n as [|[|[|n]]]; [| | |lia]; (destruct k as [|[|k]]; [| |lia]); reflexivity.
  - eapply vc_s; [split; [reflexivity|intros; reflexivity]|]. intros b n k Hb Hn Hk. destruct n as [|[|[|n]]]; [| | |lia]; (destruct k as [|[|k]]; [| |lia]); reflexivity.
  - split; [reflexivity|]. intros i n Hi Hn. destruct i as [|i]; [|lia]. destruct n as [|[|[|n]]]; [| | |lia]; reflexivity.
  - eapply init_BM; [split; [reflexivity|intros; reflexivity]|]. intros b m Hb Hm. destruct b as [|b]; [|lia]. destruct m as [|m]; [|lia]. reflexivity.
  - vm_compute. reflexivity.
  - vm_compute. reflexivity.
  - intros n Hn. destruct n as [|[|[|n]]]; [| | |lia]; vm_compute; reflexivity.
  - reflexivity.
Qed.
(** Comb filter of delay 2 with past outputs (1, 2): the pairing is 90. *)
Example C67_comb_ex :
  let a := ofl (0, 0)%Z [] [(2,1)]%Z : tensor (dual Zring) in let x := ofl (0, 0)%Z [1;3] [(1,0);(2,1);(3,1)]%Z : tensor (dual Zring) in
  let zi := ofl (0, 0)%Z [1;2] [(1,1);(2,3)]%Z : tensor (dual Zring) in
  ccoef (R := dual Zring) 1 a (fun _ => (2, 1)%Z) /\ cpast (R := dual Zring) 1 2 (Some zi) (fun _ k => (nth k [1;2]%Z 0%Z, nth k [1;3]%Z 0%Z)) /\
  match comb_filter (R := dual Zring) env_ext a 2 x (Some zi) None with Ok (Y, _) => Some (map (fun n => at_ Y [0; n]) [0; 1; 2]) | _ => None end
    = Some [(-3, -8); (0, -2); (9, 20)]%Z /\
  show2' (comb_filter env_ext (ofl 0%Z [] [2]%Z : tensor Zring) 2 (v2 [[5;1;1]]%Z) None None) = Some (Some ([1;3], [5;1;-9]%Z), None) /\
  (1 * -8 + 1 * -2 + 5 * 20 = (-9 * 0 + 1 * 1 + 5 * 1) + (-(2 * 1) * 1 + -(2 * -9) * 3) + -(-9 * 2 + 1 * 1 + 5 * -3) * 1)%Z.
Proof.
  cbv zeta. split; [|split; [|split; [|split]]].
  - eapply cc_0; [split; [reflexivity|reflexivity]|]. reflexivity.
  - apply cp_Bd. split; [reflexivity|]. intros i k Hi Hk. destruct i as [|i]; [|lia]. destruct k as [|[|k]]; [| |lia]; reflexivity.
  - vm_compute. reflexivity.
  - vm_compute. reflexivity.
  - reflexivity.
Qed.
