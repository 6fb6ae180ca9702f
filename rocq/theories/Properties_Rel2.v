(** Batch independence, causality and linearity (C16, C17, C18) for filtfilt, the cubic
    spline and diag_state_space. *)
From Coq Require Import List Arith Lia ZArith Bool Ring QArith Qcanon.
From Verif Require Import Scalar Ordered Tensor TensorLemmas TensorTac Spec Shapes SpecFilter SpecInterp SpecDiag Algebra M_Mat M_Kernels M_LtiRecur M_LtiSsm
  M_LtiFilter M_Interp M_Diag P_LtiSsm P_SsSpec P_Filter P_LtiFilter P_LtiFilter2 P_LtiFilter3 P_LtiFilter4 P_Interp P_Interp2 P_Interp3 P_Diag P_Diag2 P_Diag3
  Qsqrt3 LinalgEx Properties_LtiFilter Properties_LtiFilter2 Properties_Interp Properties_Diag Properties_Rel.
Import ListNotations.
Local Open Scope nat_scope.

Section L.
Variable R : cring.
Add Ring Rr : (r_th R).
Local Open Scope cr_scope.
Lemma pass_lin fm M (b a s x1 x2 : nat -> R) c1 c2 n : fm = Df2 \/ fm = Tdf2 -> (1 <= M)%nat ->
  pass fm M b a s (fun k => c1 * x1 k + c2 * x2 k) n = c1 * pass fm M b a s x1 n + c2 * pass fm M b a s x2 n.
Proof.
  intros Hfm HM. unfold pass. destruct Hfm as [-> | ->].
  - rewrite <- df2_y_lin. apply df2_y_ext; auto. intros. ring.
  - rewrite <- tdf2_y_lin. apply tdf2_y_ext; auto. intros. ring.
Qed.
Lemma extended_lin pm N e (x1 x2 : nat -> R) c1 c2 n :
  extended pm N e (fun k => c1 * x1 k + c2 * x2 k) n = c1 * extended pm N e x1 n + c2 * extended pm N e x2 n.
Proof.
  destruct pm as [[]|]; cbn [extended]; unfold ext_replicate, ext_reflect, ext_circular, ext_zero, extend;
    try (destruct (n <? e)%nat; [|destruct (n - e <? N)%nat]); ring.
Qed.
Lemma extended_ext pm N e (x x' : nat -> R) n : (e < N)%nat -> (n < N + 2 * e)%nat -> (pm = None -> e = 0%nat) ->
  (forall k, (k < N)%nat -> x k = x' k) -> extended pm N e x n = extended pm N e x' n.
Proof.
  intros He Hn H0 Hx. destruct pm as [[]|]; cbn [extended]; [..|apply Hx; rewrite H0 in Hn by reflexivity; lia];
    unfold ext_replicate, ext_reflect, ext_circular, ext_zero, extend;
    (destruct (n <? e)%nat eqn:E1; b2p; [|destruct (n - e <? N)%nat eqn:E2; b2p]); try (apply Hx; lia); reflexivity.
Qed.
End L.

(** ** filtfilt (where C28 holds): a row of the result depends only on the same row of the
    signal, and the result is linear in the signal. *)
Lemma filtfilt_one (R : cring) la B nb na M (b a s : tensor R) bf af fm :
  solve_vec R la -> 1 <= nb -> M = Nat.max na (nb - 1) -> 1 <= M ->
  fm = Df2 \/ fm = Tdf2 -> (fm = Tdf2 -> realc nb bf /\ realc na af) -> (fm = Df2 -> nb <= na + 1) ->
  fcoef B nb b bf -> fcoef B na a af -> lfilter_zi la a (Some b) (is_tdf2 fm) = Ok s ->
  exists sf, forall e N edge (x : tensor R) xf pm padlen uf, 1 <= B -> backend_ok e M -> unroll_ok uf ->
    is2 x B N xf -> edge = pad_edge pm padlen nb na -> edge < N ->
    exists y, filtfilt_ssm e la b a x pm padlen false fm uf = Ok y /\
      is2 y B N (fun i n => let L := N + 2 * edge in let F := pass fm M (padz nb (bf i)) (padz na (af i)) (sf i) in
        F (fun m => F (extended pm N edge (xf i)) (L - 1 - m)) (L - 1 - edge - n)).
Proof.
  intros Hla Hnb EM HM Hfm Hre Hlen Hb Ha E.
  assert (Hst : has_state fm = true) by (destruct Hfm; subst; reflexivity).
  destruct (zi_steady R la fm B nb na M b a s bf af Hla Hst Hnb EM HM Hre Hlen Hb Ha E) as (sf & Hs & Hst').
  exists sf. intros e N edge x xf pm padlen uf HB He Hu Hx Hedge HN.
  destruct (filtfilt_spec R e la [B] B N nb na M edge b a x s bf af xf sf pm padlen uf fm) as (y & Q & Y); auto.
  { now left. } { now apply (proj1 (is2_P1 _ _ _ _)). } { discriminate. }
  exists y. split; [exact Q|]. apply (proj2 (is2_P1 _ _ _ _)) in Y. eapply is2_ext; [exact Y|].
  intros i n Hi Hn. cbv beta zeta. now rewrite pass_fbwd by auto.
Qed.

Theorem C16_filtfilt :
  forall (R : cring) la e e' B N nb na M (b a x x' s : tensor R) bf af xf xf' pm padlen uf uf' fm i,
  solve_vec R la -> i < B -> 1 <= nb -> M = Nat.max na (nb - 1) -> 1 <= M -> backend_ok e M -> backend_ok e' M -> unroll_ok uf -> unroll_ok uf' ->
  fm = Df2 \/ fm = Tdf2 -> (fm = Tdf2 -> realc nb bf /\ realc na af) -> (fm = Df2 -> nb <= na + 1) ->
  fcoef B nb b bf -> fcoef B na a af -> is2 x B N xf -> is2 x' B N xf' -> pad_edge pm padlen nb na < N ->
  lfilter_zi la a (Some b) (is_tdf2 fm) = Ok s -> (forall n, n < N -> xf i n = xf' i n) ->
  exists y y' f f', filtfilt_ssm e la b a x pm padlen false fm uf = Ok y /\ filtfilt_ssm e' la b a x' pm padlen false fm uf' = Ok y' /\
    is2 y B N f /\ is2 y' B N f' /\ forall n, n < N -> f i n = f' i n.
Proof.
  intros R la e e' B N nb na M b a x x' s bf af xf xf' pm padlen uf uf' fm i Hla Hi Hnb EM HM He He' Hu Hu' Hfm Hre Hlen Hb Ha Hx Hx' HN E Ex.
  destruct (filtfilt_one R la B nb na M b a s bf af fm) as (sf & H); auto.
  destruct (H e N (pad_edge pm padlen nb na) x xf pm padlen uf) as (y & Q & Y); auto; [lia|].
  destruct (H e' N (pad_edge pm padlen nb na) x' xf' pm padlen uf') as (y' & Q' & Y'); auto; [lia|].
  exists y, y'. do 2 eexists. do 2 (split; [assumption|]). split; [exact Y|]. split; [exact Y'|]. intros n Hn. cbv beta zeta.
  set (ed := pad_edge pm padlen nb na) in *.
  apply pass_ext; auto. intros k Hk. apply pass_ext; auto. intros j Hj. apply extended_ext; auto; [lia|].
  intros ->. reflexivity.
Qed.
Print Assumptions C16_filtfilt.
Theorem C18_filtfilt :
  forall (R : cring) la e B N nb na M (b a x x1 x2 s : tensor R) bf af xf1 xf2 c1 c2 pm padlen uf fm,
  solve_vec R la -> 1 <= B -> 1 <= nb -> M = Nat.max na (nb - 1) -> 1 <= M -> backend_ok e M -> unroll_ok uf ->
  fm = Df2 \/ fm = Tdf2 -> (fm = Tdf2 -> realc nb bf /\ realc na af) -> (fm = Df2 -> nb <= na + 1) ->
  fcoef B nb b bf -> fcoef B na a af -> is2 x1 B N xf1 -> is2 x2 B N xf2 ->
  is2 x B N (fun i n => radd (rmul c1 (xf1 i n)) (rmul c2 (xf2 i n))) -> pad_edge pm padlen nb na < N ->
  lfilter_zi la a (Some b) (is_tdf2 fm) = Ok s ->
  exists y y1 y2 f1 f2, filtfilt_ssm e la b a x pm padlen false fm uf = Ok y /\
    filtfilt_ssm e la b a x1 pm padlen false fm uf = Ok y1 /\ filtfilt_ssm e la b a x2 pm padlen false fm uf = Ok y2 /\
    is2 y1 B N f1 /\ is2 y2 B N f2 /\ is2 y B N (fun i n => radd (rmul c1 (f1 i n)) (rmul c2 (f2 i n))).
Proof.
  intros R la e B N nb na M b a x x1 x2 s bf af xf1 xf2 c1 c2 pm padlen uf fm Hla HB Hnb EM HM He Hu Hfm Hre Hlen Hb Ha X1 X2 X HN E.
  destruct (filtfilt_one R la B nb na M b a s bf af fm) as (sf & H); auto.
  destruct (H e N _ x _ pm padlen uf HB He Hu X eq_refl HN) as (y & Q & Y).
  destruct (H e N _ x1 _ pm padlen uf HB He Hu X1 eq_refl HN) as (y1 & Q1 & Y1).
  destruct (H e N _ x2 _ pm padlen uf HB He Hu X2 eq_refl HN) as (y2 & Q2 & Y2).
  exists y, y1, y2. do 2 eexists. do 3 (split; [assumption|]). split; [exact Y1|]. split; [exact Y2|].
  eapply is2_ext; [exact Y|]. intros i n Hi Hn. cbv beta zeta. rewrite <- pass_lin by auto.
  apply pass_ext; auto. intros k Hk. rewrite <- pass_lin by auto. apply pass_ext; auto. intros j Hj. apply extended_lin.
Qed.
Print Assumptions C18_filtfilt.
Example filtfilt_rel_ex :
  let b := v1 [1;2]%Z in let a := v1 [-2]%Z in
  let run := fun x => Tensor.show (filtfilt_ssm env0 laZ b a (v2 x) (Some Reflect) (Some 2) false Tdf2 None) in
  solve_vec Zring laZ /\ Tensor.show (lfilter_zi laZ a (Some b) true) = Some ([1], [-4]%Z) /\
  run [[1;0;2];[1;1;1]]%Z = Some ([2;3], [4401;2236;1186;9;9;9]%Z) /\
  run [[1;0;2];[5;5;5]]%Z = Some ([2;3], [4401;2236;1186;45;45;45]%Z) /\
  run [[2;0;4];[2;2;2]]%Z = Some ([2;3], [8802;4472;2372;18;18;18]%Z).
Proof. cbv zeta. split; [exact laZ_solves|]. repeat split; vm_compute; reflexivity. Qed.

(** ** diag_state_space (where C33 holds).  [real_states]: a real output matrix keeps only
    the real part of the states, so these must be real. *)
Definition real_states {F : cfield} (re : F -> F) (C : option (tensor F)) (cc : bool) B N M K (Af Bm : nat -> nat -> nat -> F) z0 xf : Prop :=
  C <> None -> cc = false -> forall b n m, b < B -> n <= N -> m < M ->
  let h := ss_h M (width K) (fun _ => Af b) (fun _ => Bm b) (z0 b) (xf b) n m in re h = h.
Theorem C16_C17_diag_state_space :
  forall (F : cfield) e e' (la la' : linalg F) re B B' b b' N N' M K P (x x' : tensor F) L V W A Bt C D zi L' V' W' A' Bt' C' D' zi' cc cc' uf uf' oi oi'
    Af xf Bm Cm Dm z0 Af' xf' Bm' Cm' Dm' z0' n,
  b < B -> b' < B' -> n < N -> n < N' -> 1 <= M -> backend_ok e M -> backend_ok e' M -> unroll_ok uf -> unroll_ok uf' -> linalg_ok la M -> linalg_ok la' M ->
  diag_args la B M L V W A Af -> diag_args la' B' M L' V' W' A' Af' ->
  sigv B N K x xf -> inmat B M K Bt Bm -> outmat B M oi C P Cm -> feed B K P D Dm -> init B M zi z0 ->
  sigv B' N' K x' xf' -> inmat B' M K Bt' Bm' -> outmat B' M oi' C' P Cm' -> feed B' K P D' Dm' -> init B' M zi' z0' ->
  real_states re C cc B N M K Af Bm z0 xf -> real_states re C' cc' B' N' M K Af' Bm' z0' xf' ->
  (forall i j, i < M -> j < M -> Af b i j = Af' b' i j) -> (forall i j, i < M -> j < width K -> Bm b i j = Bm' b' i j) ->
  (forall i j, i < width P -> j < M -> Cm b i j = Cm' b' i j) -> (forall i j, i < width P -> j < width K -> Dm b i j = Dm' b' i j) ->
  (forall i, i < M -> z0 b i = z0' b' i) -> (forall m k, m <= n -> k < width K -> xf b m k = xf' b' m k) ->
  exists y z y' z' f f', diag_state_space e la re x L V W A Bt C D zi cc oi uf = Ok (y, z) /\
    diag_state_space e' la' re x' L' V' W' A' Bt' C' D' zi' cc' oi' uf' = Ok (y', z') /\
    sigv B N P y f /\ sigv B' N' P y' f' /\ (forall m p, m <= n -> p < width P -> f b m p = f' b' m p) /\
    (S n = N -> S n = N' -> forall w w', z = Some w -> z' = Some w' ->
     exists g g', is2 w B M g /\ is2 w' B' M g' /\ forall k, k < M -> g b k = g' b' k).
Proof.
  intros F e e' la la' re B B' b b' N N' M K P x x' L V W A Bt C D zi L' V' W' A' Bt' C' D' zi' cc cc' uf uf' oi oi'
    Af xf Bm Cm Dm z0 Af' xf' Bm' Cm' Dm' z0' n Hb Hb' HN HN' HM He He' Hu Hu' Hl Hl' HA HA' Hx HB HC HD Hz Hx' HB' HC' HD' Hz' Hr Hr' XA XB XC XD Xz Xx.
  destruct (C33_diag_state_space F e la re B N M K P x L V W A Bt C D zi cc uf oi Af xf Bm Cm Dm z0) as (y & z & E & Y & Z); auto; [lia..|].
  destruct (C33_diag_state_space F e' la' re B' N' M K P x' L' V' W' A' Bt' C' D' zi' cc' uf' oi' Af' xf' Bm' Cm' Dm' z0') as (y' & z' & E' & Y' & Z'); auto; [lia..|].
  exists y, z, y', z'. do 2 eexists. do 2 (split; [assumption|]). split; [exact Y|]. split; [exact Y'|]. split.
  - intros m p Hm Hp. cbv beta. apply ss_y_ext; auto. intros. apply Xx; auto; lia.
  - intros QN QN' w w' -> ->. destruct zi, zi'; try discriminate. destruct Z as (? & [= <-] & W1), Z' as (? & [= <-] & W2).
    do 2 eexists. split; [exact W1|]. split; [exact W2|]. intros k Hk. cbv beta. rewrite <- QN, <- QN'.
    apply ss_h_ext; auto. intros. apply Xx; auto; lia.
Qed.
Print Assumptions C16_C17_diag_state_space.
Theorem C18_diag_state_space :
  forall (F : cfield) e (la : linalg F) re B N M K P (x x1 x2 zi zi1 zi2 : tensor F) L V W A Bt C D cc uf oi Af xf1 xf2 Bm Cm Dm z1 z2 c1 c2,
  1 <= B -> 1 <= N -> 1 <= M -> backend_ok e M -> unroll_ok uf -> linalg_ok la M -> diag_args la B M L V W A Af ->
  inmat B M K Bt Bm -> outmat B M oi C P Cm -> feed B K P D Dm ->
  let xf := fun b n k => radd (rmul c1 (xf1 b n k)) (rmul c2 (xf2 b n k)) in
  let z0 := fun b m => radd (rmul c1 (z1 b m)) (rmul c2 (z2 b m)) in
  sigv B N K x1 xf1 -> sigv B N K x2 xf2 -> sigv B N K x xf ->
  init B M (Some zi1) z1 -> init B M (Some zi2) z2 -> init B M (Some zi) z0 ->
  real_states re C cc B N M K Af Bm z1 xf1 -> real_states re C cc B N M K Af Bm z2 xf2 -> real_states re C cc B N M K Af Bm z0 xf ->
  exists y w y1 w1 y2 w2 f1 f2 g1 g2,
    diag_state_space e la re x L V W A Bt C D (Some zi) cc oi uf = Ok (y, Some w) /\
    diag_state_space e la re x1 L V W A Bt C D (Some zi1) cc oi uf = Ok (y1, Some w1) /\
    diag_state_space e la re x2 L V W A Bt C D (Some zi2) cc oi uf = Ok (y2, Some w2) /\
    sigv B N P y1 f1 /\ sigv B N P y2 f2 /\ is2 w1 B M g1 /\ is2 w2 B M g2 /\
    sigv B N P y (fun b n p => radd (rmul c1 (f1 b n p)) (rmul c2 (f2 b n p))) /\
    is2 w B M (fun b m => radd (rmul c1 (g1 b m)) (rmul c2 (g2 b m))).
Proof.
  intros F e la re B N M K P x x1 x2 zi zi1 zi2 L V W A Bt C D cc uf oi Af xf1 xf2 Bm Cm Dm z1 z2 c1 c2 HB HN HM He Hu Hl HA HBm HC HD xf z0
    X1 X2 X Z1 Z2 Z R1 R2 R0.
  destruct (C33_diag_state_space F e la re B N M K P x L V W A Bt C D (Some zi) cc uf oi Af xf Bm Cm Dm z0) as (y & ? & E & Y & w & -> & W0); auto.
  destruct (C33_diag_state_space F e la re B N M K P x1 L V W A Bt C D (Some zi1) cc uf oi Af xf1 Bm Cm Dm z1) as (y1 & ? & E1 & Y1 & w1 & -> & W1); auto.
  destruct (C33_diag_state_space F e la re B N M K P x2 L V W A Bt C D (Some zi2) cc uf oi Af xf2 Bm Cm Dm z2) as (y2 & ? & E2 & Y2 & w2 & -> & W2); auto.
  exists y, w, y1, w1, y2, w2. do 4 eexists. do 3 (split; [assumption|]). do 4 (split; [eassumption|]). split.
  - destruct P; [eapply is3_ext|eapply is2_ext]; try exact Y; intros; cbv beta; apply ss_y_lin.
  - eapply is2_ext; [exact W0|]. intros. cbv beta. apply ss_h_lin.
Qed.
Print Assumptions C18_diag_state_space.

(** ** Spline *)
Section CS.
Variable F : cfield.
Add Ring Rf : (r_th F).
Local Open Scope cr_scope.
Lemma cs_ext (r : F) sc L (x x' : nat -> F) k : (1 <= L)%nat -> (forall n, (n < L)%nat -> x n = x' n) -> cs F r sc L x k = cs F r sc L x' k.
Proof.
  intros HL Hx.
  assert (Hz : czi F r sc L x = czi F r sc L x').
  { unfold czi. destruct sc; apply bsum_ext; intros; rewrite Hx by lia; reflexivity. }
  assert (Hh : forall n, (n < L)%nat -> hs F r sc L x n = hs F r sc L x' n).
  { intros n Hn. unfold hs. apply lin_rec_ext; auto. intros. apply Hx. lia. }
  unfold cs, lastc. rewrite (Hh (L - 1)%nat), (Hx (L - 1)%nat) by lia. f_equal. apply lin_rec_ext; auto.
  intros j Hj. now rewrite Hh by lia.
Qed.
Lemma cs_lin (r : F) sc L c1 c2 (x1 x2 : nat -> F) k :
  cs F r sc L (fun n => c1 * x1 n + c2 * x2 n) k = c1 * cs F r sc L x1 k + c2 * cs F r sc L x2 k.
Proof.
  assert (Hz : czi F r sc L (fun n => c1 * x1 n + c2 * x2 n) = c1 * czi F r sc L x1 + c2 * czi F r sc L x2).
  { unfold czi. destruct sc; rewrite <- !bsum_mul_l, <- bsum_add; apply bsum_ext; intros; ring. }
  assert (Hh : forall n, hs F r sc L (fun n => c1 * x1 n + c2 * x2 n) n = c1 * hs F r sc L x1 n + c2 * hs F r sc L x2 n).
  { intro n. unfold hs. rewrite Hz. apply lin_rec_lin. }
  assert (Hl : lastc F r sc L (fun n => c1 * x1 n + c2 * x2 n) = c1 * lastc F r sc L x1 + c2 * lastc F r sc L x2).
  { unfold lastc. rewrite Hh. destruct sc; ring. }
  unfold cs. rewrite Hl.
  rewrite (lin_rec_ext _ (fun _ => r) _ (c1 * lastc F r sc L x1 + c2 * lastc F r sc L x2) _
    (fun j => c1 * (hs F r sc L x1 (L - 2 - j) * - r) + c2 * (hs F r sc L x2 (L - 2 - j) * - r))); auto.
  - rewrite lin_rec_lin. ring.
  - intros. rewrite Hh. ring.
Qed.
Lemma bspline_mirror_lin sc L c1 c2 (d1 d2 : nat -> F) k u :
  bspline (mirror sc L (fun n => c1 * d1 n + c2 * d2 n)) k u = c1 * bspline (mirror sc L d1) k u + c2 * bspline (mirror sc L d2) k u.
Proof.
  assert (H : forall k, mirror sc L (fun n => c1 * d1 n + c2 * d2 n) k = c1 * mirror sc L d1 k + c2 * mirror sc L d2 k).
  { intro j. unfold mirror. destruct (j <? 0)%Z; [reflexivity|]. destruct (j <? Z.of_nat L)%Z; reflexivity. }
  unfold bspline. rewrite !H. ring.
Qed.
Lemma bspline_mirror_ext sc L (d1 d2 : nat -> F) k u : (forall n, d1 n = d2 n) ->
  bspline (mirror sc L d1) k u = bspline (mirror sc L d2) k u.
Proof.
  intro Hd. assert (H : forall k, mirror sc L d1 k = mirror sc L d2 k).
  { intro j. unfold mirror. destruct (j <? 0)%Z; [apply Hd|]. destruct (j <? Z.of_nat L)%Z; apply Hd. }
  unfold bspline. now rewrite !H.
Qed.
End CS.
(** A row of the coefficients depends only on the same row of the signal. *)
Theorem C16_cubic_coeff (F : cfield) (e e' : env) (r : F) B B' b b' L (x x' : tensor F) xf xf' (sc par par' : bool) uf uf' :
  pole r -> (rnat 6 : F) <> r0 -> spl_env e uf -> spl_env e' uf' -> b < B -> b' < B' -> 2 <= L -> is2 x B L xf -> is2 x' B' L xf' ->
  (forall n, n < L -> xf b n = xf' b' n) ->
  exists y y' f f', cubic_coeff e r x par sc uf = Ok y /\ cubic_coeff e' r x' par' sc uf' = Ok y' /\
    is2 y B L f /\ is2 y' B' L f' /\ forall n, n < L -> f b n = f' b' n.
Proof.
  intros Hr H6 He He' Hb Hb' HL Hx Hx' E.
  destruct (cubic_coeff_spec F e r B L x xf par sc uf Hr H6 He ltac:(lia) ltac:(lia) ltac:(lia) Hx) as (y & Q & Y).
  destruct (cubic_coeff_spec F e' r B' L x' xf' par' sc uf' Hr H6 He' ltac:(lia) ltac:(lia) ltac:(lia) Hx') as (y' & Q' & Y').
  exists y, y'. do 2 eexists. split; [exact Q|]. split; [exact Q'|]. split; [exact Y|]. split; [exact Y'|].
  intros n Hn. cbv beta. apply cs_ext; auto. lia.
Qed.
Print Assumptions C16_cubic_coeff.
Theorem C18_cubic_coeff (F : cfield) (e : env) (r : F) B L (x x1 x2 : tensor F) xf1 xf2 c1 c2 (sc par : bool) uf :
  pole r -> (rnat 6 : F) <> r0 -> spl_env e uf -> 1 <= B -> 2 <= L -> is2 x1 B L xf1 -> is2 x2 B L xf2 ->
  is2 x B L (fun i n => radd (rmul c1 (xf1 i n)) (rmul c2 (xf2 i n))) ->
  exists y y1 y2 f1 f2, cubic_coeff e r x par sc uf = Ok y /\ cubic_coeff e r x1 par sc uf = Ok y1 /\ cubic_coeff e r x2 par sc uf = Ok y2 /\
    is2 y1 B L f1 /\ is2 y2 B L f2 /\ is2 y B L (fun i n => radd (rmul c1 (f1 i n)) (rmul c2 (f2 i n))).
Proof.
  intros Hr H6 He HB HL X1 X2 X.
  destruct (cubic_coeff_spec F e r B L x _ par sc uf Hr H6 He HB ltac:(lia) ltac:(lia) X) as (y & Q & Y).
  destruct (cubic_coeff_spec F e r B L x1 _ par sc uf Hr H6 He HB ltac:(lia) ltac:(lia) X1) as (y1 & Q1 & Y1).
  destruct (cubic_coeff_spec F e r B L x2 _ par sc uf Hr H6 He HB ltac:(lia) ltac:(lia) X2) as (y2 & Q2 & Y2).
  exists y, y1, y2. do 2 eexists. do 3 (split; [eassumption|]). split; [exact Y1|]. split; [exact Y2|].
  eapply is2_ext; [exact Y|]. intros i n Hi Hn. cbv beta. apply cs_lin.
Qed.
Print Assumptions C18_cubic_coeff.
Theorem C16_cubic_spline (F : ofield) (e e' : env) (r : F) B B' b b' L (x x' : tensor F) xf xf' m (sc par par' : bool) uf uf' :
  pole r -> spl_env e uf -> spl_env e' uf' -> b < B -> b' < B' -> (if sc then 2 <= L else 3 <= L) -> 2 <= m -> arange_len m = 4 * m ->
  is2 x B L xf -> is2 x' B' L xf' -> (forall n, n < L -> xf b n = xf' b' n) ->
  exists y y' f f', cubic_spline e r x m sc par false uf = Ok y /\ cubic_spline e' r x' m sc par' false uf' = Ok y' /\
    is2 y B ((L - 1) * m + 1) f /\ is2 y' B' ((L - 1) * m + 1) f' /\ forall n, f b n = f' b' n.
Proof.
  intros Hr He He' Hb Hb' HL Hm Ha Hx Hx' E.
  destruct (cubic_spline_spec F e r B L x xf m sc par uf Hr He ltac:(lia) HL Hm Ha Hx) as (y & Q & Y).
  destruct (cubic_spline_spec F e' r B' L x' xf' m sc par' uf' Hr He' ltac:(lia) HL Hm Ha Hx') as (y' & Q' & Y').
  exists y, y'. do 2 eexists. split; [exact Q|]. split; [exact Q'|]. split; [exact Y|]. split; [exact Y'|].
  intros n. cbv beta. apply bspline_mirror_ext. intro k. apply cs_ext; auto. destruct sc; lia.
Qed.
Print Assumptions C16_cubic_spline.
Theorem C18_cubic_spline (F : ofield) (e : env) (r : F) B L (x x1 x2 : tensor F) xf1 xf2 c1 c2 m (sc par : bool) uf :
  pole r -> spl_env e uf -> 1 <= B -> (if sc then 2 <= L else 3 <= L) -> 2 <= m -> arange_len m = 4 * m ->
  is2 x1 B L xf1 -> is2 x2 B L xf2 -> is2 x B L (fun i n => radd (rmul c1 (xf1 i n)) (rmul c2 (xf2 i n))) ->
  exists y y1 y2 f1 f2, cubic_spline e r x m sc par false uf = Ok y /\ cubic_spline e r x1 m sc par false uf = Ok y1 /\ cubic_spline e r x2 m sc par false uf = Ok y2 /\
    is2 y1 B ((L - 1) * m + 1) f1 /\ is2 y2 B ((L - 1) * m + 1) f2 /\
    is2 y B ((L - 1) * m + 1) (fun i n => radd (rmul c1 (f1 i n)) (rmul c2 (f2 i n))).
Proof.
  intros Hr He HB HL Hm Ha X1 X2 X.
  destruct (cubic_spline_spec F e r B L x _ m sc par uf Hr He HB HL Hm Ha X) as (y & Q & Y).
  destruct (cubic_spline_spec F e r B L x1 _ m sc par uf Hr He HB HL Hm Ha X1) as (y1 & Q1 & Y1).
  destruct (cubic_spline_spec F e r B L x2 _ m sc par uf Hr He HB HL Hm Ha X2) as (y2 & Q2 & Y2).
  exists y, y1, y2. do 2 eexists. do 3 (split; [eassumption|]). split; [exact Y1|]. split; [exact Y2|].
  eapply is2_ext; [exact Y|]. intros i n Hi Hn. cbv beta. rewrite <- bspline_mirror_lin.
  apply bspline_mirror_ext. intro k. apply cs_lin.
Qed.
Print Assumptions C18_cubic_spline.
(** Signals (1 2 0 1) and (1 2 5 7) share two samples, so the outputs do; doubling signal and
    state doubles the output.  The states stay real. *)
Definition zI (a b : Z) : tensor QI := mk1 2 (fun m => match m with O => qi a 0 | _ => qi b 0 end).
Definition CI : tensor QI := mk1 2 (fun m => match m with O => qi 2 0 | _ => qi 1 0 end).
Example diag_rel_ex :
  let run l z := showI2 (diag_state_space env0 (laI rotL) reI (sigI l) None None None (Some rot) None (Some CI) None (Some z) false None None) in
  let st l z := real_states (F := QI) reI (Some CI) false 1 4 2 None (fun _ i j => at_ rot [i; j])
    (fun _ i j => if (i =? 0)%nat then r1 else r0) (fun _ m => at_ z [m]) (fun _ n _ => qi (nth n l 0%Z) 0) in
  linalg_ok (laI rotL) 2 /\ diag_args (laI rotL) 1 2 None None None (Some rot) (fun _ i j => at_ rot [i; j]) /\
  inmat (R := QI) 1 2 None None (fun _ i j => if (i =? 0)%nat then r1 else r0) /\
  st [1; 2; 0; 1]%Z (zI 3 0) /\ st [2; 4; 0; 2]%Z (zI 6 0) /\
  run [1; 2; 0; 1]%Z (zI 3 0) = Some (Some ([1;4]%nat, [(6#1, 0#1); (5#1, 0#1); (-1#1, 0#1); (-3#1, 0#1)]%Q), Some ([1;2]%nat, [(2#1, 0#1); (-1#1, 0#1)]%Q)) /\
  run [1; 2; 5; 7]%Z (zI 3 0) = Some (Some ([1;4]%nat, [(6#1, 0#1); (5#1, 0#1); (-1#1, 0#1); (7#1, 0#1)]%Q), Some ([1;2]%nat, [(8#1, 0#1); (4#1, 0#1)]%Q)) /\
  run [2; 4; 0; 2]%Z (zI 6 0) = Some (Some ([1;4]%nat, [(12#1, 0#1); (10#1, 0#1); (-2#1, 0#1); (-6#1, 0#1)]%Q), Some ([1;2]%nat, [(4#1, 0#1); (-2#1, 0#1)]%Q)).
Proof.
  cbv zeta. split; [apply laI_ok|]. split; [exact (proj1 (proj2 (proj2 C33_ex)))|]. split.
  { apply in_none2. intros b i j _ Hi Hj. destruct j; [|lia]. destruct i; reflexivity. }
  split.
  { intros _ _ b n m _ Hn Hm h. subst h. do 5 (destruct n as [|n]; [destruct m as [|[|]]; [vm_compute; reflexivity..|lia]|]). lia. }
  split.
  { intros _ _ b n m _ Hn Hm h. subst h. do 5 (destruct n as [|n]; [destruct m as [|[|]]; [vm_compute; reflexivity..|lia]|]). lia. }
  repeat split; vm_compute; reflexivity.
Qed.
(** Row (1 0 2) alone and below (5 5 5): the hypotheses hold and the last sample of both curves is 2. *)
Definition x3 (rows : list (list Z)) : tensor (car Qsqrt3) := mk2 (length rows) 3 (fun b k => q3 (nth k (nth b rows []) 0%Z)).
Example spline_rel_ex :
  let rows := [[5;5;5];[1;0;2]]%Z in
  pole pole3 /\ (rnat 6 : Qsqrt3) <> r0 /\ spl_env env0 1 /\ arange_len 2 = 4 * 2 /\
  is2 (x3 [[1;0;2]]%Z) 1 3 (fun b k => q3 (nth k (nth b [[1;0;2]]%Z []) 0%Z)) /\ is2 (x3 rows) 2 3 (fun b k => q3 (nth k (nth b rows []) 0%Z)) /\
  (forall n, n < 3 -> q3 (nth n (nth 0 [[1;0;2]]%Z []) 0%Z) = q3 (nth n (nth 1 rows []) 0%Z)) /\
  match cubic_spline env0 pole3 (x3 rows) 2 true true false 1 with
  | Ok y => shape y = [2; 5] /\ at_ y [1; 4] = q3 2 /\ at_ y [0; 4] = q3 5
  | Err _ => False
  end.
Proof.
  cbv zeta. split; [exact pole3_ok|]. split; [apply rnat_neq0; lia|]. split; [exact env0_spl|]. split; [vm_compute; reflexivity|].
  split; [apply is2_mk|]. split; [apply is2_mk|]. split; [reflexivity|].
  destruct (cubic_spline_spec Qsqrt3 env0 pole3 2 3 (x3 [[5;5;5];[1;0;2]]%Z) (fun b k => q3 (nth k (nth b [[5;5;5];[1;0;2]]%Z []) 0%Z)) 2 true true 1
    pole3_ok env0_spl ltac:(lia) ltac:(cbn; lia) ltac:(lia) eq_refl (is2_mk _ _ _)) as (y & -> & S & V).
  split; [exact S|]. rewrite !V by lia. split; apply qs3_eq; vm_compute; reflexivity.
Qed.
