(** Adjoints (C57): the conjugate transposed structure run backwards in time is the adjoint
    of a filter, initial and final states included.  With g the gradient of the output and
    gz that of the final state, the transposed run gives the gradients of the input (its
    output, backwards) and of the initial state (its final state). *)
From Coq Require Import List Arith Lia ZArith Bool Ring.
From Verif Require Import Scalar Tensor TensorLemmas TensorList TensorTac Spec Shapes SpecFilter SpecLpv SpecPoly SpecSystem Algebra M_Mat M_Kernels M_LtiRecur
  M_LtiSsm M_LpvSsm M_LtiFilter M_LpvFilter P_LtiRecur P_LtiSsm P_SsSpec P_LpvSs P_LpvSsm P_Filter P_LtiFilter P_LtiFilter2 P_LtiFilter3 P_LtiFilter4 P_LpvAlg
  P_LpvFilter P_LpvFilter2 P_Diag4 P_System P_Adjoint
  Properties_LtiRecur Properties_LtiSsm Properties_LpvSsm Properties_LtiFilter Properties_LtiFilter2 Properties_LpvFilter Properties_LpvFilter2.
Import ListNotations.

Section Gen.
Variable R : cring.
Add Ring Rr : (r_th R).
Local Open Scope cr_scope.
Lemma df2_z_vdf2 M (a z x : nat -> R) n : forall i, df2_z M a z x n i = vdf2_z M (fun _ => a) z x n i.
Proof.
  induction n as [|n IH]; intro i; [reflexivity|]. cbn [df2_z vdf2_z]. destruct i as [|i]; [|apply IH].
  f_equal. apply bsum_ext. intros. now rewrite IH.
Qed.
Lemma df2_y_vdf2 M (b a z x : nat -> R) n : df2_y M b a z x n = vdf2_y M (fun _ => b) (fun _ => a) z x n.
Proof. unfold df2_y, vdf2_y. rewrite df2_z_vdf2. f_equal. apply bsum_ext. intros. now rewrite df2_z_vdf2. Qed.
Lemma tdf2_z_vtdf2 M (b a z x : nat -> R) n : forall i, tdf2_z M b a z x n i = vtdf2_z M (fun _ => b) (fun _ => a) z x n i.
Proof. induction n as [|n IH]; intro i; [reflexivity|]. cbn [tdf2_z vtdf2_z]. now rewrite !IH. Qed.
Lemma tdf2_y_vtdf2 M (b a z x : nat -> R) n : tdf2_y M b a z x n = vtdf2_y M (fun _ => b) (fun _ => a) z x n.
Proof. unfold tdf2_y, vtdf2_y. now rewrite tdf2_z_vtdf2. Qed.
Lemma dot_ext n (f f' g g' : nat -> R) : (forall i, (i < n)%nat -> f i = f' i) -> (forall i, (i < n)%nat -> g i = g' i) -> dot n f g = dot n f' g'.
Proof. intros Hf Hg. unfold dot. apply bsum_ext. intros i Hi. now rewrite Hf, Hg. Qed.
Lemma dot_0 n (g : nat -> R) : dot n (fun _ => 0) g = 0.
Proof. unfold dot. apply bsum_0. intros. rewrite conj_0. ring. Qed.
Lemma dot_0r n (g : nat -> R) : dot n g (fun _ => 0) = 0.
Proof. unfold dot. apply bsum_0. intros. ring. Qed.
Lemma mul_0_r (c : R) : c * 0 = 0.
Proof. ring. Qed.
Lemma add_0_r (c : R) : c + 0 = c.
Proof. ring. Qed.
Lemma init_rest B M : init B M None (fun _ _ => 0 : R).
Proof. now constructor. Qed.
Lemma ss_adjoint_rest M K P A B C D (x g : nat -> nat -> R) N :
  dotc N P g (ss_y M K A B C D (fun _ => 0) x)
  = dotc N K (backwards N (ss_y M P (revH R N A) (revH R N C) (revH R N B) (revH R N D) (fun _ => 0) (backwards N g))) x.
Proof.
  pose proof (ss_adjoint R M K P A B C D (fun _ => 0) (fun _ => 0) x g N) as H.
  cbv beta in H. match type of H with ?p + ?q = ?r + ?s =>
    assert (Hq : q = 0) by (apply bsum_0; intros; rewrite conj_0; ring); assert (Hs : s = 0) by (apply bsum_0; intros; ring) end.
  rewrite Hq, Hs, !add_0_r in H. exact H.
Qed.
Lemma vdf2_adjoint_rest M (b a : nat -> nat -> R) (x g : nat -> R) N : (1 <= M)%nat ->
  dot N g (vdf2_y M b a (fun _ => 0) x)
  = dot N (backwards N (vtdf2_y M (fun n k => conj (b (N - 1 - n)%nat k)) (fun n k => conj (a (N - 1 - n)%nat k)) (fun _ => 0) (backwards N g))) x.
Proof.
  intro HM. pose proof (vdf2_adjoint R M b a (fun _ => 0) (fun _ => 0) x g N HM) as H. cbv zeta in H.
  cbv beta in H. match type of H with ?p + ?q = ?r + ?s =>
    assert (Hq : q = 0) by (apply bsum_0; intros; rewrite conj_0; ring); assert (Hs : s = 0) by (apply bsum_0; intros; ring) end.
  rewrite Hq, Hs, !add_0_r in H. exact H.
Qed.
Lemma vdf2_fir M (z x : nat -> R) n i : vdf2_z M (fun _ _ => 0) z x n i = hist x z n i.
Proof.
  rewrite vdf2_hist. unfold hist. destruct (i <? n)%nat; [|reflexivity]. cbn [vdf2_z].
  rewrite bsum_0 by (intros; ring). ring.
Qed.
Lemma vdf2_y_fir M b (z x : nat -> R) n : vdf2_y M b (fun _ _ => 0) z x n = vconv_with M b x z n.
Proof.
  unfold vdf2_y, vconv_with. cbn [vdf2_z]. rewrite (bsum_0 M (fun j => 0 * _ M _ z x n j)) by (intros; ring).
  rewrite (bsum_ext M _ (fun k => b n (S k) * hist x z n k)) by (intros; now rewrite vdf2_fir). ring.
Qed.
Lemma vdf2_y_pole M a (z x : nat -> R) n :
  vdf2_y M (fun _ k => match k with O => 1 | S _ => 0 end) a z x n = vdf2_z M a z x (S n) 0%nat.
Proof. unfold vdf2_y. rewrite (bsum_0 M (fun k => 0 * vdf2_z M a z x n k)) by (intros; ring). ring. Qed.
Lemma fir_adjoint M (b : nat -> nat -> R) (z gz x g : nat -> R) N : (1 <= M)%nat ->
  dot N g (vconv_with M b x z) + dot M gz (hist x z N)
  = dot N (backwards N (vtdf2_y M (fun n k => conj (b (N - 1 - n)%nat k)) (fun _ _ => 0) gz (backwards N g))) x
  + dot M (vtdf2_z M (fun n k => conj (b (N - 1 - n)%nat k)) (fun _ _ => 0) gz (backwards N g) N) z.
Proof.
  intro HM. pose proof (vdf2_adjoint R M b (fun _ _ => 0) z gz x g N HM) as H. cbv zeta in H.
  etransitivity; [|etransitivity; [exact H|]]; f_equal; unfold dot; apply bsum_ext; intros k Hk; f_equal.
  - symmetry. apply vdf2_y_fir.
  - symmetry. apply vdf2_fir.
  - f_equal. unfold backwards. apply vtdf2_y_ext; auto; intros; apply conj_0.
  - f_equal. apply vtdf2_z_ext; auto; intros; apply conj_0.
Qed.
Lemma pole_adjoint M (a : nat -> nat -> R) (z gz x g : nat -> R) N : (1 <= M)%nat ->
  dot N g (fun n => vdf2_z M a z x (S n) 0%nat) + dot M gz (vdf2_z M a z x N)
  = dot N (backwards N (vtdf2_y M (fun _ k => match k with O => 1 | S _ => 0 end) (fun n k => conj (a (N - 1 - n)%nat k)) gz (backwards N g))) x
  + dot M (vtdf2_z M (fun _ k => match k with O => 1 | S _ => 0 end) (fun n k => conj (a (N - 1 - n)%nat k)) gz (backwards N g) N) z.
Proof.
  intro HM. pose proof (vdf2_adjoint R M (fun _ k => match k with O => 1 | S _ => 0 end) a z gz x g N HM) as H. cbv zeta in H.
  etransitivity; [|etransitivity; [exact H|]]; f_equal; unfold dot; apply bsum_ext; intros k Hk; f_equal.
  - symmetry. apply vdf2_y_pole.
  - f_equal. unfold backwards. apply vtdf2_y_ext; auto; intros m [|i] _ _; [apply conj_1|apply conj_0].
  - f_equal. apply vtdf2_z_ext; auto; intros m [|i] _ _; [apply conj_1|apply conj_0].
Qed.
Lemma comb_filter_form k (a : R) (x y : nat -> R) n : (1 <= k)%nat ->
  solves_comb k a x y (fun _ => 0) n <-> solves_filter 0 k (fun _ => 1) (fun j => if (j =? k - 1)%nat then a else 0) x y n.
Proof.
  intro Hk. unfold solves_comb, solves_filter. cbn [bsum]. rewrite dly_0.
  rewrite (bsum_one k _ (k - 1)%nat) by (try lia; intros j Hj Hne; bfalse (j =? k - 1)%nat; ring).
  rewrite Nat.eqb_refl, dly_hist. set (h := hist y _ n _). split; intro H.
  - rewrite H. ring.
  - transitivity (y n + a * h - a * h); [ring|]. rewrite H. ring.
Qed.
Lemma lin_filter_form (a : R) (x : nat -> R) n :
  solves_filter 0 1 (fun _ => 1) (fun _ => - a) x (fun n => lin_rec (fun _ => a) 0 x (S n)) n.
Proof.
  unfold solves_filter. cbn [bsum lin_rec]. rewrite dly_0. unfold dly. destruct n as [|n]; cbn [Nat.leb lin_rec]; [ring|].
  replace (S n - 1)%nat with n by lia. cbn [lin_rec]. ring.
Qed.
End Gen.

(** ** lti.state_space *)
Theorem C57_state_space :
  forall (R : cring) e e' B N M F P (A x A' g : tensor R) Bt C D Bt' C' D' zi gz uf uf' oi oi' Af xf gf Bm Cm Dm z0 gzf,
  1 <= B -> 1 <= N -> 1 <= M -> backend_ok e M -> backend_ok e' M -> unroll_ok uf -> unroll_ok uf' ->
  sys B M F P A Bt C D oi Af Bm Cm Dm ->
  sys B M P F A' Bt' C' D' oi' (fun b i j => conj (Af b j i)) (fun b m p => conj (Cm b p m)) (fun b k m => conj (Bm b m k)) (fun b k p => conj (Dm b p k)) ->
  sigv B N F x xf -> sigv B N P g (fun b => backwards N (gf b)) -> init B M (Some zi) z0 -> init B M (Some gz) gzf ->
  exists y zf u wf yf zff yf' wff,
    state_space e A x Bt C D (Some zi) uf oi = Ok (y, Some zf) /\ state_space e' A' g Bt' C' D' (Some gz) uf' oi' = Ok (u, Some wf) /\
    sigv B N P y yf /\ is2 zf B M zff /\ sigv B N F u yf' /\ is2 wf B M wff /\
    forall b, b < B ->
      radd (dotc N (width P) (gf b) (yf b)) (dot M (gzf b) (zff b))
      = radd (dotc N (width F) (backwards N (yf' b)) (xf b)) (dot M (wff b) (z0 b)).
Proof.
  intros R e e' B N M F P A x A' g Bt C D Bt' C' D' zi gz uf uf' oi oi' Af xf gf Bm Cm Dm z0 gzf HB HN HM He He' Hu Hu' HS HS' Hx Hg Hz Hgz.
  destruct (state_space_correct R e B N M F P A x Bt C D (Some zi) uf oi Af xf Bm Cm Dm _ HB HN HM He Hu HS Hx Hz) as (y & zf & E & Y & z & -> & Z).
  destruct (state_space_correct R e' B N M P F A' g Bt' C' D' (Some gz) uf' oi' _ _ _ _ _ _ HB HN HM He' Hu' HS' Hg Hgz) as (u & zf' & E' & Y' & z' & -> & Z').
  exists y, z, u, z'. do 4 eexists. do 2 (split; [assumption|]). split; [exact Y|]. split; [exact Z|]. split; [exact Y'|]. split; [exact Z'|].
  intros b Hb. exact (ss_adjoint R M (width F) (width P) (fun _ => Af b) (fun _ => Bm b) (fun _ => Cm b) (fun _ => Dm b) (z0 b) (gzf b) (xf b) (gf b) N).
Qed.
Print Assumptions C57_state_space.

Theorem C57_state_space_rest :
  forall (R : cring) e e' B N M F P (A x A' g : tensor R) Bt C D Bt' C' D' uf uf' oi oi' Af xf gf Bm Cm Dm,
  1 <= B -> 1 <= N -> 1 <= M -> backend_ok e M -> backend_ok e' M -> unroll_ok uf -> unroll_ok uf' ->
  sys B M F P A Bt C D oi Af Bm Cm Dm ->
  sys B M P F A' Bt' C' D' oi' (fun b i j => conj (Af b j i)) (fun b m p => conj (Cm b p m)) (fun b k m => conj (Bm b m k)) (fun b k p => conj (Dm b p k)) ->
  sigv B N F x xf -> sigv B N P g (fun b => backwards N (gf b)) ->
  exists y u yf yf',
    state_space e A x Bt C D None uf oi = Ok (y, None) /\ state_space e' A' g Bt' C' D' None uf' oi' = Ok (u, None) /\
    sigv B N P y yf /\ sigv B N F u yf' /\
    forall b, b < B -> dotc N (width P) (gf b) (yf b) = dotc N (width F) (backwards N (yf' b)) (xf b).
Proof.
  intros R e e' B N M F P A x A' g Bt C D Bt' C' D' uf uf' oi oi' Af xf gf Bm Cm Dm HB HN HM He He' Hu Hu' HS HS' Hx Hg.
  destruct (state_space_correct R e B N M F P A x Bt C D None uf oi Af xf Bm Cm Dm _ HB HN HM He Hu HS Hx (init_rest R B M)) as (y & zf & E & Y & ->).
  destruct (state_space_correct R e' B N M P F A' g Bt' C' D' None uf' oi' _ _ _ _ _ _ HB HN HM He' Hu' HS' Hg (init_rest R B M)) as (u & zf' & E' & Y' & ->).
  exists y, u. do 2 eexists. do 2 (split; [assumption|]). split; [exact Y|]. split; [exact Y'|].
  intros b Hb. exact (ss_adjoint_rest R M (width F) (width P) (fun _ => Af b) (fun _ => Bm b) (fun _ => Cm b) (fun _ => Dm b) (xf b) (gf b) N).
Qed.
Print Assumptions C57_state_space_rest.

(** ** lpv.state_space: the transposed matrices also in reversed time *)
Theorem C57_lpv_state_space :
  forall (R : cring) e e' pr pr' B N M F P (A x A' g : tensor R) Bt C D Bt' C' D' zi gz uf uf' oi oi' Af xf gf Bm Cm Dm z0 gzf,
  1 <= B -> 1 <= N -> 1 <= M -> lpv_backend_ok e pr M -> lpv_backend_ok e' pr' M -> unroll_good N uf -> unroll_good N uf' ->
  sysv B N M F P A Bt C D oi Af Bm Cm Dm ->
  sysv B N M P F A' Bt' C' D' oi' (fun b n i j => conj (backwards N (Af b) n j i)) (fun b n m p => conj (backwards N (Cm b) n p m))
    (fun b n k m => conj (backwards N (Bm b) n m k)) (fun b n k p => conj (backwards N (Dm b) n p k)) ->
  sigv B N F x xf -> sigv B N P g (fun b => backwards N (gf b)) -> init B M (Some zi) z0 -> init B M (Some gz) gzf ->
  exists y zf u wf yf zff yf' wff,
    lpv_state_space e pr A x Bt C D (Some zi) uf oi = Ok (y, Some zf) /\
    lpv_state_space e' pr' A' g Bt' C' D' (Some gz) uf' oi' = Ok (u, Some wf) /\
    sigv B N P y yf /\ is2 zf B M zff /\ sigv B N F u yf' /\ is2 wf B M wff /\
    forall b, b < B ->
      radd (dotc N (width P) (gf b) (yf b)) (dot M (gzf b) (zff b))
      = radd (dotc N (width F) (backwards N (yf' b)) (xf b)) (dot M (wff b) (z0 b)).
Proof.
  intros R e e' pr pr' B N M F P A x A' g Bt C D Bt' C' D' zi gz uf uf' oi oi' Af xf gf Bm Cm Dm z0 gzf HB HN HM He He' Hu Hu' HS HS' Hx Hg Hz Hgz.
  destruct (lpv_state_space_partial R e pr B N M F P A x Bt C D (Some zi) uf oi Af xf Bm Cm Dm _ HB HN HM He Hu HS Hx Hz) as (y & zf & E & Y & z & -> & Z).
  destruct (lpv_state_space_partial R e' pr' B N M P F A' g Bt' C' D' (Some gz) uf' oi' _ _ _ _ _ _ HB HN HM He' Hu' HS' Hg Hgz) as (u & zf' & E' & Y' & z' & -> & Z').
  exists y, z, u, z'. do 4 eexists. do 2 (split; [assumption|]). split; [exact Y|]. split; [exact Z|]. split; [exact Y'|]. split; [exact Z'|].
  intros b Hb. exact (ss_adjoint R M (width F) (width P) (Af b) (Bm b) (Cm b) (Dm b) (z0 b) (gzf b) (xf b) (gf b) N).
Qed.
Print Assumptions C57_lpv_state_space.

(** ** lti.lfilter: the df2 and tdf2 forms with the same coefficients are adjoint to each
    other (tdf2 conjugates them), states included. *)
Theorem C57_lfilter :
  forall (R : cring) e e' B N nb na M (b a x g zi gz : tensor R) bf af xf gf z0 gzf uf uf',
  1 <= B -> 1 <= N -> 1 <= nb -> M = Nat.max na (nb - 1) -> 1 <= M -> backend_ok e M -> backend_ok e' M -> unroll_ok uf -> unroll_ok uf' ->
  fcoef B nb b bf -> fcoef B na a af -> is2 x B N xf -> is2 g B N (fun i => backwards N (gf i)) ->
  init B M (Some zi) z0 -> init B M (Some gz) gzf ->
  exists y zf u wf yf zff yf' wff,
    lfilter_ssm e b a x (Some zi) Df2 uf = Ok (y, Some zf) /\ lfilter_ssm e' b a g (Some gz) Tdf2 uf' = Ok (u, Some wf) /\
    is2 y B N yf /\ is2 zf B M zff /\ is2 u B N yf' /\ is2 wf B M wff /\
    forall i, i < B -> radd (dot N (gf i) (yf i)) (dot M (gzf i) (zff i)) = radd (dot N (backwards N (yf' i)) (xf i)) (dot M (wff i) (z0 i)).
Proof.
  intros R e e' B N nb na M b a x g zi gz bf af xf gf z0 gzf uf uf' HB HN Hnb EM HM He He' Hu Hu' Hb Ha Hx Hg Hz Hgz.
  destruct (lfilter_spec R e B N nb na M b a x bf af xf (Some zi) z0 uf Df2 HB HN Hnb EM HM He Hu ltac:(discriminate) Hb Ha Hx (fun _ => Hz)) as (y & zf & E & Y & z & -> & Z).
  destruct (lfilter_spec R e' B N nb na M b a g bf af _ (Some gz) gzf uf' Tdf2 HB HN Hnb EM HM He' Hu' ltac:(discriminate) Hb Ha Hg (fun _ => Hgz)) as (u & zf' & E' & Y' & z' & -> & Z').
  exists y, z, u, z'. do 4 eexists. do 2 (split; [assumption|]). split; [exact Y|]. split; [exact Z|]. split; [exact Y'|]. split; [exact Z'|].
  intros i Hi. pose proof (vdf2_adjoint R M (fun _ => padz nb (bf i)) (fun _ => padz na (af i)) (z0 i) (gzf i) (xf i) (gf i) N HM) as H. cbv zeta in H.
  etransitivity; [|etransitivity; [exact H|]]; f_equal; unfold dot; apply bsum_ext; intros k Hk; cbn [lf_y lf_z lf_num lf_den]; do 1 f_equal.
  - apply df2_y_vdf2.
  - apply df2_z_vdf2.
  - f_equal. unfold backwards. rewrite tdf2_y_vtdf2. apply vtdf2_y_ext; auto; intros; apply padz_conj.
  - f_equal. rewrite tdf2_z_vtdf2. apply vtdf2_z_ext; auto; intros; apply padz_conj.
Qed.
Print Assumptions C57_lfilter.

(** From rest, every form is the adjoint of itself with conjugated coefficients. *)
Theorem C57_lfilter_rest :
  forall (R : cring) e e' B N nb na (b a b' a' x g : tensor R) bf af xf gf uf uf' fm,
  1 <= B -> 1 <= N -> 1 <= nb -> 1 <= na \/ 2 <= nb -> backend_ok e (Nat.max na (nb - 1)) -> backend_ok e' (Nat.max na (nb - 1)) ->
  unroll_ok uf -> unroll_ok uf' -> fm <> OtherForm ->
  fcoef B nb b bf -> fcoef B na a af -> fcoef B nb b' (fun i k => conj (bf i k)) -> fcoef B na a' (fun i k => conj (af i k)) ->
  is2 x B N xf -> is2 g B N (fun i => backwards N (gf i)) ->
  exists y u yf yf', lfilter_ssm e b a x None fm uf = Ok (y, None) /\ lfilter_ssm e' b' a' g None fm uf' = Ok (u, None) /\
    is2 y B N yf /\ is2 u B N yf' /\ forall i, i < B -> dot N (gf i) (yf i) = dot N (backwards N (yf' i)) (xf i).
Proof.
  intros R e e' B N nb na b a b' a' x g bf af xf gf uf uf' fm HB HN Hnb Hor He He' Hu Hu' Hfm Hb Ha Hb' Ha' Hx Hg.
  destruct (lfilter_difference_equation_complex R e B N nb na b a x bf af xf uf fm) as (y & yf & E & Y & H); auto.
  destruct (lfilter_difference_equation_complex R e' B N nb na b' a' g _ _ _ uf' fm HB HN Hnb Hor He' Hu' Hfm Hb' Ha' Hg) as (u & yf' & E' & Y' & H').
  exists y, u, yf, yf'. do 4 (split; [assumption|]). intros i Hi.
  apply (adjoint_filter R (nb - 1) na (fun k => if eq_num fm then conj (bf i k) else bf i k) (fun k => if eq_den fm then conj (af i k) else af i k)); auto.
  intros n Hn. eapply (solves_filter_ext R) with (5 := H' i n Hi Hn); auto; intros k Hk; [destruct (eq_num fm)|destruct (eq_den fm)]; reflexivity.
Qed.
Print Assumptions C57_lfilter_rest.

(** ** lpv.lfilter: df2 (either back-end) and tdf2, the coefficients in reversed time. *)
Theorem C57_lpv_lfilter :
  forall (R : cring) bk e pr e' pr' B N nb na M (b a b' a' x g zi gz : tensor R) bf af xf gf z0 gzf uf uf',
  1 <= B -> 1 <= N -> 1 <= nb -> M = Nat.max na (nb - 1) -> 1 <= M -> lpv_cfg bk e pr B N na M b a uf -> bk = Ssm \/ na <= N ->
  lpv_backend_ok e' pr' M -> unroll_good N uf' -> rk b' = 2 \/ B <> N ->
  vcoef B N nb b bf -> vcoef B N na a af -> vcoef B N nb b' (fun i => backwards N (bf i)) -> vcoef B N na a' (fun i => backwards N (af i)) ->
  is2 x B N xf -> is2 g B N (fun i => backwards N (gf i)) -> init B M (Some zi) z0 -> init B M (Some gz) gzf ->
  exists y zf u wf yf zff yf' wff,
    lpv_lfilter e pr b a x (Some zi) Df2 bk uf = Ok (y, Some zf) /\ lpv_lfilter e' pr' b' a' g (Some gz) Tdf2 Ssm uf' = Ok (u, Some wf) /\
    is2 y B N yf /\ is2 zf B M zff /\ is2 u B N yf' /\ is2 wf B M wff /\
    forall i, i < B -> radd (dot N (gf i) (yf i)) (dot M (gzf i) (zff i)) = radd (dot N (backwards N (yf' i)) (xf i)) (dot M (wff i) (z0 i)).
Proof.
  intros R bk e pr e' pr' B N nb na M b a b' a' x g zi gz bf af xf gf z0 gzf uf uf' HB HN Hnb EM HM Hc Hbk He' Hu' Hr Hb Ha Hb' Ha' Hx Hg Hz Hgz.
  destruct (lpv_lfilter_df2_partial R bk e pr B N nb na M b a x bf af xf (Some zi) z0 uf HB HN Hnb EM HM Hc Hb Ha Hx Hz) as (y & zf & E & Y & Z).
  destruct (Z Hbk) as (z & -> & Z0).
  destruct (lpv_lfilter_tdf2_partial R e' pr' B N nb na M b' a' g _ _ _ (Some gz) gzf uf' HB HN Hnb EM HM He' Hu' Hr Hb' Ha' Hg Hgz) as (u & zf' & E' & Y' & z' & -> & Z').
  exists y, z, u, z'. do 4 eexists. do 2 (split; [assumption|]). split; [exact Y|]. split; [exact Z0|]. split; [exact Y'|]. split; [exact Z'|].
  intros i Hi. exact (vdf2_adjoint R M (fun n => padz nb (bf i n)) (fun n => padz na (af i n)) (z0 i) (gzf i) (xf i) (gf i) N HM).
Qed.
Print Assumptions C57_lpv_lfilter.

(** ** fir: direct and transposed form *)
Theorem C57_fir :
  forall (R : cring) B N M (b x g zi gz : tensor R) bf xf gf z0 gzf,
  1 <= M -> M <= N -> is2 b B (S M) bf -> is2 x B N xf -> is2 g B N (fun i => backwards N (gf i)) -> is2 zi B M z0 -> is2 gz B M gzf ->
  exists y zf u wf yf zff yf' wff,
    fir b x (Some zi) false = Ok (y, Some zf) /\ fir b g (Some gz) true = Ok (u, Some wf) /\
    is2 y B N yf /\ is2 zf B M zff /\ is2 u B N yf' /\ is2 wf B M wff /\
    forall i, i < B -> radd (dot N (gf i) (yf i)) (dot M (gzf i) (zff i)) = radd (dot N (backwards N (yf' i)) (xf i)) (dot M (wff i) (z0 i)).
Proof.
  intros R B N M b x g zi gz bf xf gf z0 gzf HM HN Hb Hx Hg Hz Hgz.
  destruct (fir_state_partial R B N M b x zi bf xf z0 ltac:(lia) HM Hb Hx Hz) as (y & z & E & Y & Z).
  destruct (fir_transposed_state_partial R B N M b g gz bf _ gzf HM HN Hb Hg Hgz) as (u & z' & E' & Y' & Z').
  exists y, z, u, z'. do 4 eexists. do 2 (split; [assumption|]). split; [exact Y|]. split; [exact Z|]. split; [exact Y'|]. split; [exact Z'|].
  intros i Hi. etransitivity; [|etransitivity; [exact (fir_adjoint R M (fun _ => bf i) (z0 i) (gzf i) (xf i) (gf i) N HM)|]]; f_equal; apply dot_ext; intros k Hk; auto.
  - unfold backwards at 1 3. symmetry. apply tdf2_y_vtdf2.
  - symmetry. apply tdf2_z_vtdf2.
Qed.
Print Assumptions C57_fir.

Theorem C57_lpv_fir :
  forall (R : cring) B N M (b b' x g zi gz : tensor R) bf xf gf z0 gzf,
  1 <= M -> M <= N -> is3 b B N (S M) bf -> is3 b' B N (S M) (fun i => backwards N (bf i)) ->
  is2 x B N xf -> is2 g B N (fun i => backwards N (gf i)) -> is2 zi B M z0 -> is2 gz B M gzf ->
  exists y zf u wf yf zff yf' wff,
    lpv_fir b x (Some zi) false = Ok (y, Some zf) /\ lpv_fir b' g (Some gz) true = Ok (u, Some wf) /\
    is2 y B N yf /\ is2 zf B M zff /\ is2 u B N yf' /\ is2 wf B M wff /\
    forall i, i < B -> radd (dot N (gf i) (yf i)) (dot M (gzf i) (zff i)) = radd (dot N (backwards N (yf' i)) (xf i)) (dot M (wff i) (z0 i)).
Proof.
  intros R B N M b b' x g zi gz bf xf gf z0 gzf HM HN Hb Hb' Hx Hg Hz Hgz.
  destruct (lpv_fir_state R B N M b x zi bf xf z0 ltac:(lia) Hb Hx Hz) as (y & z & E & Y & Z).
  destruct (lpv_fir_transposed_state_partial R B N M b' g gz _ _ gzf ltac:(lia) HN Hb' Hg Hgz) as (u & z' & E' & Y' & Z').
  exists y, z, u, z'. do 4 eexists. do 2 (split; [assumption|]). split; [exact Y|]. split; [exact Z|]. split; [exact Y'|]. split; [exact Z'|].
  intros i Hi. etransitivity; [|etransitivity; [exact (fir_adjoint R M (bf i) (z0 i) (gzf i) (xf i) (gf i) N HM)|]]; f_equal; apply dot_ext; intros k Hk; auto.
  unfold backwards at 1 4. now rewrite vtdf2_fir.
Qed.
Print Assumptions C57_lpv_fir.

(** ** lpv.allpole: direct and transposed form *)
Theorem C57_lpv_allpole :
  forall (R : cring) B N M (a a' x g zi gz : tensor R) af xf gf z0 gzf,
  1 <= M -> M <= N -> is3 a B N M af -> is3 a' B N M (fun i => backwards N (af i)) ->
  is2 x B N xf -> is2 g B N (fun i => backwards N (gf i)) -> is2 zi B M z0 -> is2 gz B M gzf ->
  exists y zf u wf yf zff yf' wff,
    lpv_allpole a x (Some zi) false = Ok (y, Some zf) /\ lpv_allpole a' g (Some gz) true = Ok (u, Some wf) /\
    is2 y B N yf /\ is2 zf B M zff /\ is2 u B N yf' /\ is2 wf B M wff /\
    forall i, i < B -> radd (dot N (gf i) (yf i)) (dot M (gzf i) (zff i)) = radd (dot N (backwards N (yf' i)) (xf i)) (dot M (wff i) (z0 i)).
Proof.
  intros R B N M a a' x g zi gz af xf gf z0 gzf HM HN Ha Ha' Hx Hg Hz Hgz.
  destruct (lpv_allpole_some R B N M a x zi af xf z0 Ha Hx Hz HM HN) as (y & z & E & Y & Z).
  destruct (lpv_allpole_transposed_state_partial R B N M a' g gz _ _ gzf HM HN Ha' Hg Hgz) as (u & z' & E' & Y' & Z').
  exists y, z, u, z'. do 4 eexists. do 2 (split; [assumption|]). split; [exact Y|]. split; [exact Z|]. split; [exact Y'|]. split; [exact Z'|].
  intros i Hi. exact (pole_adjoint R M (af i) (z0 i) (gzf i) (xf i) (gf i) N HM).
Qed.
Print Assumptions C57_lpv_allpole.

(** ** comb_filter and linear_recurrence from rest *)
Theorem C57_comb_filter :
  forall (R : cring) e e' B N k (a a' x g : tensor R) af xf gf uf uf',
  k = 1 \/ 2 <= k /\ ext e = true /\ ext e' = true -> unroll_ok uf -> unroll_ok uf' -> 1 <= B -> 1 <= N ->
  ccoef B a af -> ccoef B a' (fun i => conj (af i)) -> is2 x B N xf -> is2 g B N (fun i => backwards N (gf i)) ->
  exists y u yf yf', comb_filter e a k x None uf = Ok (y, None) /\ comb_filter e' a' k g None uf' = Ok (u, None) /\
    is2 y B N yf /\ is2 u B N yf' /\ forall i, i < B -> dot N (gf i) (yf i) = dot N (backwards N (yf' i)) (xf i).
Proof.
  intros R e e' B N k a a' x g af xf gf uf uf' Hk Hu Hu' HB HN Ha Ha' Hx Hg.
  assert (Hz : cpast B k None (fun _ _ => r0 : R)) by (constructor; reflexivity).
  assert (G : forall e u (a : tensor R) af (x : tensor R) xf, k = 1 \/ 2 <= k /\ ext e = true -> unroll_ok u -> ccoef B a af -> is2 x B N xf ->
     exists y yf, comb_filter e a k x None u = Ok (y, None) /\ is2 y B N yf /\
     forall i n, i < B -> n < N -> solves_comb k (af i) (xf i) (yf i) (fun _ => r0) n).
  { intros e0 u a0 af0 x0 xf0 Hk0 Hu0 Ha0 Hx0. destruct Hk0 as [->|[Hk0 He0]].
    - exact (comb_filter_delay_one_partial R e0 B N a0 x0 None af0 xf0 _ u Hu0 HB HN Ha0 Hx0 Hz).
    - destruct (comb_filter_partial R e0 B N k a0 x0 None af0 xf0 _ u He0 Hu0 HB HN Hk0 Ha0 Hx0 Hz) as (y & zf & yf & E & Y & H & ->). eauto. }
  destruct (G e uf a af x xf) as (y & yf & E & Y & H); auto; [tauto|].
  destruct (G e' uf' a' _ g _ ltac:(tauto) Hu' Ha' Hg) as (u & yf' & E' & Y' & H').
  exists y, u, yf, yf'. do 4 (split; [assumption|]). intros i Hi.
  apply (adjoint_filter R 0 k (fun _ => r1) (fun j => if j =? k - 1 then af i else r0)).
  - intros n Hn. apply comb_filter_form; [lia|]. now apply H.
  - intros n Hn. specialize (H' i n Hi Hn). apply comb_filter_form in H'; [|lia].
    eapply (solves_filter_ext R) with (5 := H'); auto.
    + intros. symmetry. apply conj_1.
    + intros j Hj. destruct (j =? k - 1); [reflexivity|symmetry; apply conj_0].
Qed.
Print Assumptions C57_comb_filter.

Theorem C57_linear_recurrence :
  forall (R : cring) B N (a a' init x g : tensor R) af xf gf u u',
  1 <= B -> 1 <= N -> 1 <= u -> 1 <= u' -> coef B a af -> coef B a' (fun i => conj (af i)) -> coef B init (fun _ => r0) ->
  is2 x B N xf -> is2 g B N (fun i => backwards N (gf i)) ->
  exists y w yf yf', linear_recurrence a init x u = Ok y /\ linear_recurrence a' init g u' = Ok w /\
    is2 y B N yf /\ is2 w B N yf' /\ forall i, i < B -> dot N (gf i) (yf i) = dot N (backwards N (yf' i)) (xf i).
Proof.
  intros R B N a a' init x g af xf gf u u' HB HN Hu Hu' Ha Ha' Hi Hx Hg.
  destruct (linear_recurrence_correct R B N a init x af _ xf u HB HN Hu Ha Hi Hx) as (y & E & Y).
  destruct (linear_recurrence_correct R B N a' init g _ _ _ u' HB HN Hu' Ha' Hi Hg) as (w & E' & Y').
  exists y, w. do 2 eexists. do 2 (split; [assumption|]). split; [exact Y|]. split; [exact Y'|]. intros i Hj.
  cbv beta. apply (adjoint_filter R 0 1 (fun _ => r1) (fun _ => ropp (af i)) (xf i) (fun n => lin_rec (fun _ => af i) r0 (xf i) (S n)) (gf i)
    (fun n => lin_rec (fun _ => conj (af i)) r0 (backwards N (gf i)) (S n)) N).
  - intros n Hn. apply lin_filter_form.
  - intros n Hn. eapply (solves_filter_ext R) with (5 := lin_filter_form R (conj (af i)) (backwards N (gf i)) n); auto; intros; symmetry; [apply conj_1|apply conj_opp].
Qed.
Print Assumptions C57_linear_recurrence.

(** Two rows, complex data: <g, y> + <gz, zf> against <u, x> + <wf, zi> (df2 against tdf2). *)
Definition g2 (l : list (list (Z * Z))) : tensor Gauss := lst2 (r0 (c := Gauss)) l.
Definition sumup (t : tensor Gauss) (s : tensor Gauss) (n m : nat) : Gauss := bsum n (fun i => dot m (fun k => at_ t [i;k]) (fun k => at_ s [i;k])).
Example C57_ex :
  let b := g2 [[(1,1);(0,2)];[(0,1);(3,0)]]%Z in let a := g2 [[(0,1);(1,-1)];[(2,0);(0,0)]]%Z in
  let x := g2 [[(1,0);(0,1);(2,2)];[(1,1);(0,0);(-1,2)]]%Z in let g := g2 [[(1,2);(0,1);(1,0)];[(1,0);(0,-1);(2,1)]]%Z in
  let zi := g2 [[(1,0);(0,1)];[(2,1);(0,0)]]%Z in let gz := g2 [[(0,1);(1,0)];[(1,1);(3,0)]]%Z in
  is2 b 2 2 (fun i k => at_ b [i;k]) /\ is2 g 2 3 (fun i => backwards 3 (fun n => at_ g [i; 2 - n])) /\
  match lfilter_ssm env0 b a x (Some zi) Df2 None, lfilter_ssm env0 b a g (Some gz) Tdf2 None with
  | Ok (y, Some zf), Ok (u, Some wf) =>
      radd (sumup (mk2 2 3 (fun i n => at_ g [i; 2 - n])) y 2 3) (sumup gz zf 2 2) = (48, 6)%Z /\
      radd (sumup (mk2 2 3 (fun i n => at_ u [i; 2 - n])) x 2 3) (sumup wf zi 2 2) = (48, 6)%Z
  | _, _ => False
  end.
Proof.
  cbv zeta. split; [split; reflexivity|]. split; [|vm_compute; split; reflexivity].
  split; [reflexivity|]. intros i n Hi Hn. unfold backwards. now replace (2 - (3 - 1 - n)) with n by lia.
Qed.
