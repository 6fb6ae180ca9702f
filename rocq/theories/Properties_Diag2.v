(** Theorems about lti.lfilter with the diagonal state-space back-end (C34). *)
From Coq Require Import List Arith Lia ZArith Bool Ring QArith Qcanon.
From Verif Require Import Scalar Ordered Tensor TensorLemmas TensorOps TensorAlg TensorTac TensorList P_Helion Spec Shapes SpecFilter SpecPoly Algebra
  M_Mat P_Mat M_Kernels P_KernelOps M_LtiRecur M_LtiSsm P_LtiSsm M_LtiFilter P_Filter P_LtiFilter M_Poly P_Poly
  M_Diag SpecDiag P_Diag P_Diag2 P_Diag3 P_Diag4 P_Diag5 LinalgEx Properties_Diag.
Import ListNotations.
Local Open Scope nat_scope.
Local Open Scope cr_scope.

(** The matrix whose eigenvalues the code takes has distinct ones: the companion matrix in
    the df2 form, its conjugate transpose in the tdf2 form. *)
Definition simple_poles {F : cfield} (la : linalg F) (na : nat) (fm : form) (a : tensor F) : Prop :=
  forall A, companion a = Ok A ->
    distinct_eigs la na (match fm with Tdf2 => tconj (mT A) | _ => A end).
(** [re] fixes a subring. *)
Definition real_ring {F : cfield} (re : F -> F) : Prop :=
  real_closed re /\ (forall x, re x = x -> re (- x) = - x).
(** df2 with real coefficients (the code then takes the real part of the states). *)
Definition real_data {F : cfield} (re : F -> F) (B N na : nat) (af z0 xf : nat -> nat -> F) : Prop :=
  real_ring re /\ (forall i k, (i < B)%nat -> (k < na)%nat -> re (af i k) = af i k) /\
  (forall i k, (i < B)%nat -> (k < na)%nat -> re (z0 i k) = z0 i k) /\
  (forall i n, (i < B)%nat -> (n < N)%nat -> re (xf i n) = xf i n).

Lemma re_df2_z {F : cfield} (re : F -> F) M N (a z x : nat -> F) : real_ring re ->
  (forall k, (k < M)%nat -> re (a k) = a k) -> (forall k, (k < M)%nat -> re (z k) = z k) ->
  (forall n, (n < N)%nat -> re (x n) = x n) ->
  forall n m, (n <= N)%nat -> (m < M)%nat -> re (df2_z M a z x n m) = df2_z M a z x n m.
Proof.
  intros [Hc Ho] Ha Hz Hx. induction n as [|n IH]; intros m Hn Hm; cbn [df2_z]; [now apply Hz|].
  destruct m as [|m]; [|apply IH; lia].
  assert (E : forall p q : F, re p = p -> re q = q -> re (p - q) = p - q).
  { intros p q Hp Hq. rewrite (Rsub_def (r_th F)). apply (proj2 Hc); auto. }
  apply E; [apply Hx; lia|]. apply re_bsum; [exact Hc|]. intros k Hk. apply (proj2 Hc); [now apply Ha|]. apply IH; lia.
Qed.
Lemma cond_of {F : cfield} la re B N na fm cc (a : tensor F) af z0 xf : fm = Df2 \/ fm = Tdf2 ->
  simple_poles la na fm a ->
  (fm = Df2 -> forall i, (i < B)%nat -> af i (na - 1)%nat <> 0) ->
  (fm = Df2 -> cc = false -> real_data re B N na af z0 xf) ->
  diag_cond F la re B N na fm cc a af z0 xf.
Proof.
  intros Hf Hs Hl Hr A EA. specialize (Hs A EA). destruct Hf; subst fm; [|exact Hs].
  split; [exact Hs|]. split; [now apply Hl|]. intros Hcc i n m Hi Hn Hm.
  destruct (Hr eq_refl Hcc) as (H1 & H2 & H3 & H4). apply (re_df2_z re na N); auto.
Qed.

(** At most one numerator coefficient more than denominator coefficients: output and final
    state are those of the state-space back-end, for every zi, in plain and delayed form. *)
Theorem C34_short_numerator :
  forall (F : cfield) e (la : linalg F) re B N nb na (b a x : tensor F) zi fm dl cc uf uf' bf af xf z0,
  (1 <= B)%nat -> (1 <= N)%nat -> (1 <= na)%nat -> (1 <= nb)%nat -> (nb <= na + 1)%nat ->
  backend_ok e na -> unroll_ok uf -> unroll_ok uf' -> linalg_ok la na -> fm = Df2 \/ fm = Tdf2 ->
  fcoef B nb b bf -> fcoef B na a af -> is2 x B N xf -> init B na zi z0 ->
  simple_poles la na fm a ->
  (fm = Df2 -> forall i, (i < B)%nat -> af i (na - 1)%nat <> 0) ->
  (fm = Df2 -> cc = false -> real_data re B N na af z0 xf) ->
  exists y zf y' zf' g h,
    lfilter_diag e la re b a x zi fm dl cc uf = Ok (y, zf) /\
    lfilter_ssm e b a x zi fm uf' = Ok (y', zf') /\
    is2 y B N g /\ is2 y' B N g /\
    match zi with
    | None => zf = None /\ zf' = None /\
        forall i n, (i < B)%nat -> solves_filter (nb - 1) na (lf_num fm (bf i)) (lf_den fm (af i)) (xf i) (g i) n
    | Some _ => exists z z', zf = Some z /\ zf' = Some z' /\ is2 z B na h /\ is2 z' B na h
    end.
Proof.
  intros F e la re B N nb na b a x zi fm dl cc uf uf' bf af xf z0 HB HN Hna Hnb Hle He Hu Hu' Hla Hf Hb Ha Hx Hz Hs Hl Hr.
  pose proof (cond_of la re B N na fm cc a af z0 xf Hf Hs Hl Hr) as Hc.
  destruct (diag_short F e la re B N na a x af xf cc uf fm) with (dl := dl) (nb := nb) (b := b) (bf := bf) (zi := zi) (z0 := z0)
    as (y & zf & E & Hy & Hzf); auto.
  destruct (lfilter_spec F e B N nb na na b a x bf af xf zi z0 uf' fm) as (y' & zf' & E' & Hy' & Hzf'); auto; try lia.
  { destruct Hf; subst fm; discriminate. }
  assert (Hst : has_state fm = true) by (destruct Hf; subst fm; reflexivity). rewrite Hst in Hzf'.
  exists y, zf, y', zf'. do 2 eexists. split; [exact E|]. split; [exact E'|]. split; [exact Hy|]. split; [exact Hy'|].
  destruct zi.
  - destruct Hzf as (z & -> & H1). destruct Hzf' as (z' & -> & H2). eauto 8.
  - split; [exact Hzf|]. split; [exact Hzf'|]. intros i n Hi. apply lf_y_solves; auto; try lia.
    intros k Hk. inversion Hz; auto.
Qed.
Print Assumptions C34_short_numerator.

(** Longer numerators, own b per batch entry, real b and a in the df2 form, at least as many
    samples as the delay in the delayed form: the output is that of the state-space back-end
    from rest. *)
Theorem C34_long_numerator :
  forall (F : cfield) e (la : linalg F) re B N nb na (b a x : tensor F) zi fm dl cc uf uf' bf af xf,
  (1 <= B)%nat -> (1 <= N)%nat -> (1 <= na)%nat -> (na + 1 < nb)%nat ->
  backend_ok e na -> backend_ok e (nb - 1) -> unroll_ok uf -> unroll_ok uf' -> linalg_ok la na -> fm = Df2 \/ fm = Tdf2 ->
  is2 b B nb bf -> fcoef B na a af -> is2 x B N xf ->
  simple_poles la na fm a ->
  (dl = true -> (nb - na <= N)%nat) ->
  (fm = Df2 \/ dl = false -> forall i, (i < B)%nat -> af i (na - 1)%nat <> 0) ->
  (fm = Df2 -> (forall i k, (i < B)%nat -> (k < nb)%nat -> conj (bf i k) = bf i k) /\
               (forall i k, (i < B)%nat -> (k < na)%nat -> conj (af i k) = af i k)) ->
  (fm = Df2 -> cc = false -> real_data re B N na af (fun _ _ => 0) xf) ->
  exists y y' g,
    lfilter_diag e la re b a x zi fm dl cc uf = Ok (y, None) /\
    lfilter_ssm e b a x None fm uf' = Ok (y', None) /\
    is2 y B N g /\ is2 y' B N g /\
    forall i n, (i < B)%nat -> solves_filter (nb - 1) na (lf_num fm (bf i)) (lf_den fm (af i)) (xf i) (g i) n.
Proof.
  intros F e la re B N nb na b a x zi fm dl cc uf uf' bf af xf HB HN Hna Hnb He He' Hu Hu' Hla Hf Hb Ha Hx Hs Hd Hl Hre Hr.
  pose proof (cond_of la re B N na fm cc a af (fun _ _ => 0) xf Hf Hs (fun H => Hl (or_introl H)) Hr) as Hc.
  destruct (diag_long F e la re B N na a x af xf cc uf fm) with (dl := dl) (nb := nb) (b := b) (bf := bf) (zi := zi)
    as (y & E & Hy); auto.
  destruct (lfilter_spec F e B N nb na (nb - 1) b a x bf af xf None (fun _ _ => 0) uf' fm) as (y' & zf' & E' & Hy' & Hzf'); auto; try lia.
  { destruct Hf; subst fm; discriminate. }
  { now apply fc_b. }
  { intros _. now constructor. }
  assert (zf' = None) as -> by (destruct Hf; subst fm; exact Hzf').
  exists y, y'. eexists. split; [exact E|]. split; [exact E'|]. split; [exact Hy|]. split; [exact Hy'|].
  intros i n Hi. apply lf_y_solves; auto; lia.
Qed.
Print Assumptions C34_long_numerator.

(** But zi has no effect then, and no final state is returned. *)
Theorem C34_long_numerator_ignores_zi :
  forall (F : cfield) e (la : linalg F) re B N nb na (b a x z : tensor F) fm dl cc uf bf af xf,
  fcoef B nb b bf -> fcoef B na a af -> is2 x B N xf -> (na + 1 < nb)%nat ->
  lfilter_diag e la re b a x (Some z) fm dl cc uf = lfilter_diag e la re b a x None fm dl cc uf.
Proof.
  intros F e la re B N nb na b a x z fm dl cc uf bf af xf Hb Ha Hx Hn.
  rewrite !(diag_2d F e la re B N na a x af xf cc uf fm Ha Hx dl nb b bf _ Hb), !diag_unfold.
  rewrite (proj1 (fcoef_size F _ _ _ _ Hb)), (proj1 (fcoef_size F _ _ _ _ Ha)).
  assert ((na + 1 <? nb)%nat = true) as -> by (apply Nat.ltb_lt; lia). reflexivity.
Qed.
Print Assumptions C34_long_numerator_ignores_zi.

(** So with a zi the result is never that of the state-space back-end, which returns a final
    state. *)
Theorem C34_long_numerator_loses_state :
  forall (F : cfield) e (la : linalg F) re B N nb na (b a x z : tensor F) fm dl cc uf uf' bf af xf z0 r,
  (1 <= B)%nat -> (1 <= N)%nat -> (1 <= na)%nat -> (na + 1 < nb)%nat ->
  backend_ok e (nb - 1) -> unroll_ok uf' -> fm = Df2 \/ fm = Tdf2 ->
  fcoef B nb b bf -> fcoef B na a af -> is2 x B N xf -> is2 z B (nb - 1) z0 ->
  lfilter_ssm e b a x (Some z) fm uf' = r ->
  lfilter_diag e la re b a x (Some z) fm dl cc uf = lfilter_diag e la re b a x None fm dl cc uf /\
  exists y' z', r = Ok (y', Some z').
Proof.
  intros F e la re B N nb na b a x z fm dl cc uf uf' bf af xf z0 r HB HN Hna Hnb He Hu Hf Hb Ha Hx Hz E. split.
  - now apply (C34_long_numerator_ignores_zi F e la re B N nb na b a x z fm dl cc uf bf af xf).
  - destruct (lfilter_spec F e B N nb na (nb - 1) b a x bf af xf (Some z) z0 uf' fm) as (y' & zf' & E' & Hy' & Hzf'); auto; try lia.
    { destruct Hf; subst fm; discriminate. }
    { intros _. eapply init_BM; eauto. }
    assert (Hst : has_state fm = true) by (destruct Hf; subst fm; reflexivity). rewrite Hst in Hzf'.
    destruct Hzf' as (z' & -> & _). exists y', z'. now rewrite <- E.
Qed.
Print Assumptions C34_long_numerator_loses_state.

(** One numerator shared by the batch (a 1-D b) is rejected when it is longer: fir wants a 2-D
    one.  The state-space back-end accepts it. *)
Theorem C34_long_shared_numerator_raises :
  forall (F : cfield) e (la : linalg F) re B N nb na (b a x : tensor F) zi fm dl cc uf bf af xf,
  (1 <= B)%nat -> (1 <= N)%nat -> (1 <= na)%nat -> (na + 1 < nb)%nat ->
  backend_ok e na -> unroll_ok uf -> linalg_ok la na -> fm = Df2 \/ fm = Tdf2 ->
  is1 b nb bf -> is1 a na af -> is2 x B N xf ->
  simple_poles la na fm a -> af (na - 1)%nat <> 0 ->
  (fm = Df2 -> cc = false -> real_data re B N na (fun _ => af) (fun _ _ => 0) xf) ->
  lfilter_diag e la re b a x zi fm dl cc uf = Err AssertionError.
Proof.
  intros F e la re B N nb na b a x zi fm dl cc uf bf af xf HB HN Hna Hnb He Hu Hla Hf Hb Ha Hx Hs Hl Hr.
  assert (Hb' : fcoef B nb b (fun _ => bf)) by (apply (fc_s bf); auto).
  assert (Ha' : fcoef B na a (fun _ => af)) by (apply (fc_s af); auto).
  pose proof (cond_of la re B N na fm cc a (fun _ => af) (fun _ _ => 0) xf Hf Hs (fun _ _ _ => Hl) Hr) as Hc.
  assert (Htail : forall q r d qf rf, is1 q (nb - na) qf -> is1 r na rf ->
    diag_tail F e la re fm cc uf a x r None (Some q) d = Err AssertionError).
  { intros q r d qf rf Hq Hr'.
    destruct (diag_tail_spec F e la re B N na a x (fun _ => af) xf cc uf fm HB HN Hna He Hu Hla Ha' Hx na r (fun _ => rf) None (fun _ _ => 0))
      as (w & zf & Hw & E & ->); auto; try lia.
    { now apply (fc_s rf). }
    { now constructor. }
    rewrite E. unfold diag_finish, fir. unfold rk. rewrite (proj1 Hq). reflexivity. }
  rewrite (diag_2d F e la re B N na a x _ xf cc uf fm Ha' Hx dl nb b _ _ Hb'), diag_unfold.
  rewrite (proj1 (fcoef_size F _ _ _ _ Hb')), (proj1 (fcoef_size F _ _ _ _ Ha')).
  assert ((na + 1 <? nb)%nat = true) as -> by (apply Nat.ltb_lt; lia).
  pose proof (is1_P b nb bf) as PB. pose proof (is1_P a na af) as PA. apply PB in Hb. apply PA in Ha.
  destruct dl.
  - pose proof (P1_pad0 a [] na _ (rk a - 1) 1 0 (@r1 F) Ha ltac:(rewrite (P1_rk _ _ _ _ Ha); cbn; lia)) as Hv.
    replace (1 + na + 0)%nat with (S na) in Hv by lia. replace nb with (S (nb - 1)) in Hb by lia.
    destruct (polydiv_spec_l F [] (nb - 1) na b _ _ _ Hb (rowc_own _ _ _ _ Hv)) as (q & r & qf & rf & E & Hq & Hr' & _).
    + lia.
    + intros p Hp. cbn [Nat.leb andb]. apply (r1_neq_r0 F).
    + change (pad (rk a - 1) 1 0 r1 a) with (pad (rk a - 1) 1 0 (@r1 F) a). rewrite E. cbn [bind].
      replace (nb - 1 - na + 1)%nat with (nb - na)%nat in Hq by lia.
      eapply Htail; apply P1_nil; eassumption.
  - pose proof (P1_flip0 a [] na _ (rk a - 1) Ha ltac:(rewrite (P1_rk _ _ _ _ Ha); cbn; lia)) as Hv0.
    pose proof (P1_pad0 _ [] na _ (rk a - 1) 0 1 (@r1 F) Hv0 ltac:(rewrite (P1_rk _ _ _ _ Ha); cbn; lia)) as Hv.
    pose proof (P1_flip0 b [] nb _ (rk b - 1) Hb ltac:(rewrite (P1_rk _ _ _ _ Hb); cbn; lia)) as Hu0.
    replace (0 + na + 1)%nat with (S na) in Hv by lia. replace nb with (S (nb - 1)) in Hu0 at 1 by lia.
    destruct (polydiv_spec_l F [] (nb - 1) na _ _ _ _ Hu0 (rowc_own _ _ _ _ Hv)) as (q & r & qf & rf & E & Hq & Hr' & _).
    + lia.
    + intros p Hp. cbn [Nat.leb andb]. assert ((0 <? 0 + na)%nat = true) as -> by (apply Nat.ltb_lt; lia).
      replace (na - 1 - (0 - 0))%nat with (na - 1)%nat by lia. exact Hl.
    + rewrite E. cbn [bind]. replace (nb - 1 - na + 1)%nat with (nb - na)%nat in Hq by lia.
      pose proof (P1_flip0 q [] _ _ (rk q - 1) Hq ltac:(rewrite (P1_rk _ _ _ _ Hq); cbn; lia)) as Hq'.
      pose proof (P1_flip0 r [] _ _ (rk r - 1) Hr' ltac:(rewrite (P1_rk _ _ _ _ Hr'); cbn; lia)) as Hr''.
      eapply Htail; apply P1_nil; eassumption.
Qed.
Print Assumptions C34_long_shared_numerator_raises.

(** The delayed form fails on signals shorter than the delay (two samples or more). *)
Theorem C34_delayed_form_short_signal_raises :
  forall (F : cfield) e (la : linalg F) re B N nb na (b a x : tensor F) zi fm cc uf bf af xf,
  (1 <= B)%nat -> (2 <= N)%nat -> (1 <= na)%nat -> (na + 1 < nb)%nat -> (N < nb - na)%nat ->
  backend_ok e na -> unroll_ok uf -> linalg_ok la na -> fm = Df2 \/ fm = Tdf2 ->
  is2 b B nb bf -> fcoef B na a af -> is2 x B N xf ->
  simple_poles la na fm a ->
  (fm = Df2 -> forall i, (i < B)%nat -> af i (na - 1)%nat <> 0) ->
  (fm = Df2 -> cc = false -> real_data re B N na af (fun _ _ => 0) xf) ->
  lfilter_diag e la re b a x zi fm true cc uf = Err RuntimeError.
Proof.
  intros F e la re B N nb na b a x zi fm cc uf bf af xf HB HN Hna Hnb HNd He Hu Hla Hf Hb Ha Hx Hs Hl Hr.
  pose proof (cond_of la re B N na fm cc a af (fun _ _ => 0) xf Hf Hs Hl Hr) as Hc.
  assert (Hb' : fcoef B nb b bf) by now apply fc_b.
  rewrite (diag_2d F e la re B N na a x _ xf cc uf fm Ha Hx true nb b _ _ Hb'), diag_unfold.
  rewrite (proj1 (fcoef_size F _ _ _ _ Hb')), (proj1 (fcoef_size F _ _ _ _ Ha)).
  assert ((na + 1 <? nb)%nat = true) as -> by (apply Nat.ltb_lt; lia).
  destruct (divide_delayed F B nb na b a bf af) as (q & r & -> & qf & rf & Hq & Hr' & _); auto; [lia|]. cbn [bind].
  destruct (diag_tail_spec F e la re B N na a x af xf cc uf fm HB ltac:(lia) Hna He Hu Hla Ha Hx na r rf None (fun _ _ => 0))
    as (w & zf & Hw & E & ->); auto; try lia.
  { now apply fc_b. }
  { now constructor. }
  rewrite E. unfold diag_finish. assert ((0 <? nb - na)%nat = true) as -> by (apply Nat.ltb_lt; lia).
  replace (nb - na)%nat with (S (nb - na - 1)) in Hq by lia.
  destruct (fir_transposed_none F B N (nb - na - 1) q x qf xf Hq Hx) as (dd & -> & Hdd); [lia|]. cbn [bind].
  assert (Hsh : shape (pad 1 (nb - na) 0 0 (slice 1 None (Some (- Z.of_nat (nb - na))%Z) w)) = [B; nb - na]%nat).
  { apply is2_P1 in Hw.
    pose proof (P1_slice0 w [B] N _ 1%nat None (Some (- Z.of_nat (nb - na))%Z) 0%nat 0%nat Hw eq_refl eq_refl) as H1.
    rewrite pyb_neg in H1 by lia. specialize (H1 ltac:(lia)).
    pose proof (P1_pad0 _ [B] _ _ 1%nat (nb - na) 0%nat (@r0 F) H1 eq_refl) as H2. rewrite (proj1 H2). cbn [app]. f_equal. f_equal. lia. }
  unfold tadd, ew. rewrite Hsh, (proj1 Hdd). unfold bshape. cbn [rev app bshape_rev]. unfold bdim at 1.
  assert (nb - na <> N /\ nb - na <> 1 /\ N <> 1)%nat as (E1 & E2 & E3) by lia.
  apply Nat.eqb_neq in E1, E2, E3. rewrite E1, E2, E3. reflexivity.
Qed.
Print Assumptions C34_delayed_form_short_signal_raises.

(** ** Concrete filters: poles 1 and 2, over the complex rationals *)
Lemma distinct2 {F : cfield} (la : linalg F) (A L : tensor F) g l : is2 A 2 2 g -> l_eigvals la A = Ok L -> is1 L 2 l ->
  l 0%nat <> l 1%nat ->
  (forall k, (k < 2)%nat -> exists v, eigvec 2 g (l k) v /\ exists i, (i < 2)%nat /\ v i <> 0) ->
  distinct_eigs la 2 A.
Proof.
  intros HA EL HL Hd Hv pa f Hf.
  assert (pa = []) as ->.
  { destruct Hf as [H _]. rewrite (proj1 HA) in H. apply (f_equal (@length nat)) in H. rewrite app_length in H. cbn in H.
    destruct pa; [reflexivity|cbn in H; lia]. }
  exists L, (fun _ => l). split; [exact EL|]. split; [now apply is1_P|]. intros q Hq. apply vld_nil_inv in Hq. subst q. split.
  - intros [|[|]] [|[|]] Hj Hk; try lia; auto.
  - intros k Hk. destruct (Hv k Hk) as (v & H1 & H2). exists v. split; [|exact H2]. intros i Hi. rewrite <- (H1 i Hi).
    unfold mvec. apply bsum_ext. intros j Hj. f_equal. rewrite <- (proj2 Hf [] i j) by (auto using vld_nil). now rewrite <- (proj2 HA i j).
Qed.
Definition vecI (l : list (Z * Z)) : tensor QI := mk1 (length l) (fun n => qi (fst (nth n l (0, 0)%Z)) (snd (nth n l (0, 0)%Z))).
Definition rowI (l : list (Z * Z)) : tensor QI := mk2 1 (length l) (fun _ n => qi (fst (nth n l (0, 0)%Z)) (snd (nth n l (0, 0)%Z))).
Definition cI (l : list (Z * Z)) (n : nat) : QI := qi (fst (nth n l (0, 0)%Z)) (snd (nth n l (0, 0)%Z)).
Definition l12 : list (Z * Z) := [(1, 0); (2, 0)]%Z.
Definition c12 : list (Z * Z) := [(-3, 0); (2, 0)]%Z.
Definition la12 := laI (vecI l12).
Lemma poles12 fm : fm = Df2 \/ fm = Tdf2 -> simple_poles la12 2 fm (vecI c12).
Proof.
  intros Hf A EA. destruct (companion_view QI (vecI c12) [] 2 (fun _ => cI c12)) as (A' & EA' & HA); [apply is1_P; apply is1_mk|].
  rewrite EA in EA'. injection EA' as <-. destruct Hf; subst fm.
  - apply is2_P in HA. apply (distinct2 la12 A (vecI l12) _ (cI l12) HA eq_refl); [apply is1_mk|discriminate|].
    intros k Hk. exists (fun i => match i with O => cI l12 k | _ => qi 1 0 end). split.
    + intros i Hi. destruct k as [|[|]]; [| |lia]; (destruct i as [|[|]]; [| |lia]); vm_compute; reflexivity.
    + exists 1%nat. split; [lia|]. discriminate.
  - nm (mT A). nm (tconj v). apply is2_P in H0.
    apply (distinct2 la12 v0 (vecI l12) _ (cI l12) H0 eq_refl); [apply is1_mk|discriminate|].
    intros k Hk. exists (fun i => match i, k with O, _ => qi 1 0 | _, O => qi (-2) 0 | _, _ => qi (-1) 0 end). split.
    + intros i Hi. destruct k as [|[|]]; [| |lia]; (destruct i as [|[|]]; [| |lia]); vm_compute; reflexivity.
    + exists 0%nat. split; [lia|]. discriminate.
Qed.
Lemma reI_ring : real_ring reI.
Proof.
  split; [apply reI_closed|]. intros [p q] H. assert (q = Q2Qc 0) by (now injection H). subst q. reflexivity.
Qed.
Lemma real12 : real_data reI 1 5 2 (fun _ => cI c12) (fun _ => cI [(1, 0); (2, 0)]%Z) (fun _ n => qi (nth n [1; 2; 0; 1; 0]%Z 0%Z) 0).
Proof.
  split; [exact reI_ring|]. split; [|split].
  - intros i [|[|]] Hi Hk; try lia; reflexivity.
  - intros i [|[|]] Hi Hk; try lia; reflexivity.
  - intros i [|[|[|[|[|]]]]] Hi Hk; try lia; reflexivity.
Qed.

Notation dg b x zi fm dl := (lfilter_diag env0 la12 reI b (vecI c12) x zi fm dl false None).
Notation sg b x zi fm := (lfilter_ssm env0 b (vecI c12) x zi fm None).
Definition b5 : list (Z * Z) := [(1, 0); (2, 0); (-1, 0); (3, 0); (1, 0)]%Z.

(** The hypotheses of the theorems above for b of 2 and of 5 coefficients, and the values. *)
Example C34_ex :
  let x := sigI [1; 2; 0; 1; 0]%Z in let z2 := rowI [(1, 0); (2, 0)]%Z in
  let b2 := vecI [(1, 0); (2, 0)]%Z in
  let y2 := Some (Some ([1;5]%nat, [(2#1,0#1); (0#1,0#1); (0#1,0#1); (1#1,0#1); (5#1,0#1)]), Some ([1;2]%nat, [(3#1,0#1); (1#1,0#1)])) in
  let t2 := Some (Some ([1;5]%nat, [(2#1,0#1); (12#1,0#1); (36#1,0#1); (85#1,0#1); (185#1,0#1)]), Some ([1;2]%nat, [(385#1,0#1); (-370#1,0#1)])) in
  let y5 := Some (Some ([1;5]%nat, [(1#1,0#1); (7#1,0#1); (22#1,0#1); (54#1,0#1); (127#1,0#1)]), None) in
  (forall fm, fm = Df2 \/ fm = Tdf2 -> simple_poles la12 2 fm (vecI c12)) /\
  linalg_ok la12 2 /\ backend_ok env0 2 /\ backend_ok env0 4 /\ cI c12 1 <> 0 /\
  real_data reI 1 5 2 (fun _ => cI c12) (fun _ => cI [(1, 0); (2, 0)]%Z) (fun _ n => qi (nth n [1; 2; 0; 1; 0]%Z 0%Z) 0) /\
  showI2 (dg b2 x (Some z2) Df2 false) = y2 /\ showI2 (sg b2 x (Some z2) Df2) = y2 /\
  showI2 (dg b2 x (Some z2) Tdf2 true) = t2 /\ showI2 (sg b2 x (Some z2) Tdf2) = t2 /\
  showI2 (dg (rowI b5) x None Df2 false) = y5 /\ showI2 (dg (rowI b5) x None Df2 true) = y5 /\
  showI2 (dg (rowI b5) x None Tdf2 false) = y5 /\ showI2 (dg (rowI b5) x None Tdf2 true) = y5 /\
  showI2 (sg (rowI b5) x None Df2) = y5.
Proof.
  cbv zeta. split; [exact poles12|]. split; [apply laI_ok|]. split; [apply backend_env0|]. split; [apply backend_env0|].
  split; [discriminate|]. split; [exact real12|]. repeat (split; [vm_compute; reflexivity|]). vm_compute; reflexivity.
Qed.

(** The failures, concretely: zi ignored, 1-D b, signal shorter than the delay. *)
Example C34_failures_ex :
  let x := sigI [1; 2; 0; 1; 0]%Z in let z4 := rowI [(1, 0); (2, 0); (3, 0); (4, 0)]%Z in
  showI2 (dg (rowI b5) x (Some z4) Tdf2 false) = showI2 (dg (rowI b5) x None Tdf2 false) /\
  showI2 (sg (rowI b5) x (Some z4) Tdf2) =
    Some (Some ([1;5]%nat, [(2#1,0#1); (12#1,0#1); (38#1,0#1); (96#1,0#1); (221#1,0#1)]),
          Some ([1;4]%nat, [(472#1,0#1); (-439#1,0#1); (1#1,0#1); (0#1,0#1)])) /\
  dg (vecI b5) x None Tdf2 false = Err AssertionError /\ is_ok (sg (vecI b5) x None Tdf2) = true /\
  dg (rowI b5) (sigI [1; 2]%Z) None Tdf2 true = Err RuntimeError.
Proof. cbv zeta. repeat (split; [vm_compute; reflexivity|]). vm_compute; reflexivity. Qed.

(** Complex coefficients in the df2 form: fir conjugates the quotient.  B = i (1 - 3 z^-1 + 2
    z^-2), a = [-3, 2]: the filter is y = i x, the result -i x. *)
Definition bi4 : list (Z * Z) := [(0, 1); (0, -3); (0, 2); (0, 0)]%Z.
Notation r3 := (lfilter_diag env0 la12 reI (rowI bi4) (vecI c12) (sigI [1; 0; 0]%Z) None Df2 false true None).
Definition at0 (r : res (tensor QI * option (tensor QI))) : QI := match r with Ok (y, _) => at_ y [0; 0]%nat | Err _ => qi 7 7 end.
Lemma r3_val : is_ok r3 = true /\ at0 r3 = qi 0 (-1).
Proof. split; vm_compute; reflexivity. Qed.
Theorem C34_complex_df2_refuted :
  ~ (forall (F : cfield) e (la : linalg F) re B N nb na (b a x : tensor F) bf af xf,
       (1 <= B)%nat -> (1 <= N)%nat -> (1 <= na)%nat -> (na + 1 < nb)%nat -> backend_ok e na -> linalg_ok la na ->
       is2 b B nb bf -> fcoef B na a af -> is2 x B N xf -> simple_poles la na Df2 a ->
       (forall i, (i < B)%nat -> af i (na - 1)%nat <> 0) ->
       exists y yf, lfilter_diag e la re b a x None Df2 false true None = Ok (y, None) /\ is2 y B N yf /\
         forall i n, (i < B)%nat -> (n < N)%nat -> solves_filter (nb - 1) na (bf i) (af i) (xf i) (yf i) n).
Proof.
  intro H. destruct r3_val as [O V].
  specialize (H QI env0 la12 reI 1%nat 3%nat 4%nat 2%nat (rowI bi4) (vecI c12) (sigI [1; 0; 0]%Z)).
  specialize (H (fun _ => cI bi4) (fun _ => cI c12) (fun _ n => qi (nth n [1; 0; 0]%Z 0%Z) 0)).
  assert (Ha : fcoef 1 2 (vecI c12) (fun _ => cI c12)) by (apply (fc_s (cI c12)); [apply is1_mk|reflexivity]).
  assert (Hl : forall i, (i < 1)%nat -> cI c12 (2 - 1)%nat <> 0) by (intros i Hi; discriminate).
  specialize (H ltac:(lia) ltac:(lia) ltac:(lia) ltac:(lia) (backend_env0 2) (laI_ok _) (is2_mk _ _ _) Ha (is2_mk _ _ _)).
  specialize (H (poles12 Df2 (or_introl eq_refl)) Hl). destruct H as (y & yf & E & Hy & Hs).
  rewrite E in V. unfold at0 in V. rewrite (proj2 Hy) in V by lia.
  pose proof (Hs 0%nat 0%nat ltac:(lia) ltac:(lia)) as S. unfold solves_filter in S. cbn [bsum dly Nat.sub Nat.leb] in S.
  rewrite V in S. vm_compute in S. discriminate.
Qed.
Print Assumptions C34_complex_df2_refuted.

(** Real coefficients, complex signal, df2: the imaginary part of the states is dropped
    although lti.lfilter with the other back-ends keeps it. *)
Definition xi3 : list (Z * Z) := [(0, 1); (0, 0); (0, 0)]%Z.
Notation r4 := (lfilter_diag env0 la12 reI (vecI [(1, 0)]%Z) (vecI c12) (rowI xi3) None Df2 false false None).
Definition at1 (r : res (tensor QI * option (tensor QI))) : QI := match r with Ok (y, _) => at_ y [0; 1]%nat | Err _ => qi 7 7 end.
Lemma r4_val : is_ok r4 = true /\ at0 r4 = qi 0 1 /\ at1 r4 = qi 0 0.
Proof. repeat split; vm_compute; reflexivity. Qed.
Theorem C34_complex_signal_refuted :
  ~ (forall (F : cfield) e (la : linalg F) re B N nb na (b a x : tensor F) bf af xf,
       (1 <= B)%nat -> (1 <= N)%nat -> (1 <= na)%nat -> (1 <= nb)%nat -> (nb <= na + 1)%nat -> backend_ok e na -> linalg_ok la na ->
       fcoef B nb b bf -> fcoef B na a af -> is2 x B N xf -> simple_poles la na Df2 a ->
       (forall i, (i < B)%nat -> af i (na - 1)%nat <> 0) -> real_ring re ->
       (forall i k, (i < B)%nat -> (k < nb)%nat -> re (bf i k) = bf i k) ->
       (forall i k, (i < B)%nat -> (k < na)%nat -> re (af i k) = af i k) ->
       exists y yf, lfilter_diag e la re b a x None Df2 false false None = Ok (y, None) /\ is2 y B N yf /\
         forall i n, (i < B)%nat -> (n < N)%nat -> solves_filter (nb - 1) na (bf i) (af i) (xf i) (yf i) n).
Proof.
  intro H. destruct r4_val as (O & V0 & V1).
  specialize (H QI env0 la12 reI 1%nat 3%nat 1%nat 2%nat (vecI [(1, 0)]%Z) (vecI c12) (rowI xi3)).
  specialize (H (fun _ => cI [(1, 0)]%Z) (fun _ => cI c12) (fun _ => cI xi3)).
  assert (Ha : fcoef 1 2 (vecI c12) (fun _ => cI c12)) by (apply (fc_s (cI c12)); [apply is1_mk|reflexivity]).
  assert (Hb : fcoef 1 1 (vecI [(1, 0)]%Z) (fun _ => cI [(1, 0)]%Z)) by (apply (fc_s (cI [(1, 0)]%Z)); [apply is1_mk|reflexivity]).
  assert (Hl : forall i, (i < 1)%nat -> cI c12 (2 - 1)%nat <> 0) by (intros i Hi; discriminate).
  specialize (H ltac:(lia) ltac:(lia) ltac:(lia) ltac:(lia) ltac:(lia) (backend_env0 2) (laI_ok _) Hb Ha (is2_mk _ _ _)).
  specialize (H (poles12 Df2 (or_introl eq_refl)) Hl reI_ring).
  assert (H1 : forall i k, (i < 1)%nat -> (k < 1)%nat -> reI (cI [(1, 0)]%Z k) = cI [(1, 0)]%Z k) by (intros i [|] Hi Hk; try lia; reflexivity).
  assert (H2 : forall i k, (i < 1)%nat -> (k < 2)%nat -> reI (cI c12 k) = cI c12 k) by (intros i [|[|]] Hi Hk; try lia; reflexivity).
  specialize (H H1 H2). destruct H as (y & yf & E & Hy & Hs).
  rewrite E in V0, V1. unfold at0 in V0. unfold at1 in V1. rewrite (proj2 Hy) in V0, V1 by lia.
  pose proof (Hs 0%nat 1%nat ltac:(lia) ltac:(lia)) as S. unfold solves_filter in S. cbn [bsum dly Nat.sub Nat.leb] in S.
  rewrite V0, V1 in S. vm_compute in S. discriminate.
Qed.
Print Assumptions C34_complex_signal_refuted.

(** A pole at 0 in the df2 form, y[n] = x[n] + y[n-1] with a = [-1, 0]: no result with a solve
    that rejects singular systems. *)
Definition c10 : list (Z * Z) := [(-1, 0); (0, 0)]%Z.
Definition l10 : list (Z * Z) := [(1, 0); (0, 0)]%Z.
Notation r5 := (lfilter_diag env0 (laI (vecI l10)) reI (vecI [(1, 0)]%Z) (vecI c10) (sigI [1; 2; 3]%Z) None Df2 false false None).
Lemma r5_val : is_ok r5 = false.
Proof. vm_compute. reflexivity. Qed.
Theorem C34_zero_pole_df2_refuted :
  ~ (forall (F : cfield) e (la : linalg F) re B N nb na (b a x : tensor F) bf af xf,
       (1 <= B)%nat -> (1 <= N)%nat -> (1 <= na)%nat -> (1 <= nb)%nat -> (nb <= na + 1)%nat -> backend_ok e na -> linalg_ok la na ->
       fcoef B nb b bf -> fcoef B na a af -> is2 x B N xf -> simple_poles la na Df2 a ->
       real_data re B N na af (fun _ _ => 0) xf ->
       exists y, lfilter_diag e la re b a x None Df2 false false None = Ok (y, None)).
Proof.
  intro H. pose proof r5_val as V.
  specialize (H QI env0 (laI (vecI l10)) reI 1%nat 3%nat 1%nat 2%nat (vecI [(1, 0)]%Z) (vecI c10) (sigI [1; 2; 3]%Z)).
  specialize (H (fun _ => cI [(1, 0)]%Z) (fun _ => cI c10) (fun _ n => qi (nth n [1; 2; 3]%Z 0%Z) 0)).
  assert (Ha : fcoef 1 2 (vecI c10) (fun _ => cI c10)) by (apply (fc_s (cI c10)); [apply is1_mk|reflexivity]).
  assert (Hb : fcoef 1 1 (vecI [(1, 0)]%Z) (fun _ => cI [(1, 0)]%Z)) by (apply (fc_s (cI [(1, 0)]%Z)); [apply is1_mk|reflexivity]).
  assert (Hp : simple_poles (laI (vecI l10)) 2 Df2 (vecI c10)).
  { intros A EA. destruct (companion_view QI (vecI c10) [] 2 (fun _ => cI c10)) as (A' & EA' & HA); [apply is1_P; apply is1_mk|].
    rewrite EA in EA'. injection EA' as <-. apply is2_P in HA.
    apply (distinct2 (laI (vecI l10)) A (vecI l10) _ (cI l10) HA eq_refl); [apply is1_mk|discriminate|].
    intros k Hk. exists (fun i => match i with O => cI l10 k | _ => qi 1 0 end). split.
    + intros i Hi. destruct k as [|[|]]; [| |lia]; (destruct i as [|[|]]; [| |lia]); vm_compute; reflexivity.
    + exists 1%nat. split; [lia|]. discriminate. }
  assert (Hr : real_data reI 1 3 2 (fun _ => cI c10) (fun _ _ => 0) (fun _ n => qi (nth n [1; 2; 3]%Z 0%Z) 0)).
  { split; [exact reI_ring|]. split; [|split].
    - intros i [|[|]] Hi Hk; try lia; reflexivity.
    - intros i k Hi Hk. reflexivity.
    - intros i [|[|[|]]] Hi Hk; try lia; reflexivity. }
  specialize (H ltac:(lia) ltac:(lia) ltac:(lia) ltac:(lia) ltac:(lia) (backend_env0 2) (laI_ok _) Hb Ha (is2_mk _ _ _) Hp Hr).
  destruct H as (y & E). rewrite E in V. discriminate.
Qed.
Print Assumptions C34_zero_pole_df2_refuted.
