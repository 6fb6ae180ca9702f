(** cubic_spline: the kernel weights, the padding and the convolution. *)
From Coq Require Import List Arith Lia ZArith Bool.
From Verif Require Import Scalar Tensor TensorLemmas TensorOps TensorAlg TensorTac TensorList
  Spec Shapes Algebra Ordered M_LtiRecur P_LtiRecur M_Kernels P_Helion M_LtiSsm M_Interp SpecInterp P_Interp P_Interp2.
Import ListNotations.
Open Scope cr_scope.

Lemma cat3_2 {A} (t u v : tensor A) B a b c f g h :
  is2 t B a f -> is2 u B b g -> is2 v B c h ->
  exists y, cat 1 [t; u; v] = Ok y /\
    is2 y B (a + (b + c)) (fun q i => if (i <? a)%nat then f q i
       else if (i - a <? b)%nat then g q (i - a)%nat else h q (i - a - b)%nat).
Proof.
  intros [St Ht] [Su Hu] [Sv Hv]. unfold cat, rk. cbn [forallb cat_size]. unfold rk, size. rewrite St, Su, Sv.
  cbn [length nth del list_eqb Nat.eqb andb upd]. rewrite Nat.eqb_refl. cbn [andb]. btrue (1 <? 2)%nat.
  eexists. split; [reflexivity|]. split; [reflexivity|]. intros q i Hq Hi. cbn [at_ cat_at nth]. unfold size. rewrite St, Su.
  cbn [nth]. destruct (Nat.ltb_spec i a) as [H|H]; [now apply Ht|]. cbn [upd nth].
  destruct (Nat.ltb_spec (i - a) b) as [H'|H']; [now apply Hu|]. cbn [upd]. apply Hv; lia.
Qed.

Section Kernel.
Variable F : ofield.
Add Ring Rr : (r_th F).
Lemma frac_mm m : (1 <= m)%nat -> (1 : F) = rnat m * rinv (rnat m).
Proof. intro Hm. transitivity (rinv (rnat m) * rnat m : F); [symmetry; apply rinv_l, rnat_neq0, Hm|ring]. Qed.
Lemma rnat_sub n k : (k <= n)%nat -> (rnat (n - k) : F) = rnat n - rnat k.
Proof. intro H. transitivity (rnat ((n - k) + k) - rnat k : F); [rewrite rnat_add; ring|]. do 2 f_equal. lia. Qed.
Lemma abs_frac i k m : (1 <= m)%nat ->
  oabs ((rnat i - rnat k) * rinv (rnat m) : F) = rnat (if (k <=? i)%nat then i - k else k - i)%nat * rinv (rnat m).
Proof.
  intro Hm. unfold oabs.
  assert (ole 0 ((rnat i - rnat k) * rinv (rnat m) : F) = (k <=? i)%nat) as ->.
  { transitivity (ole (0 * rinv (rnat m)) ((rnat i - rnat k) * rinv (rnat m) : F)); [f_equal; ring|].
    rewrite frac_le by exact Hm. rewrite <- (rnat_le_iff F k i).
    destruct (ole (rnat k : F) (rnat i)) eqn:E; [exact (proj1 (ole_sub _ _ _) E)|].
    destruct (ole 0 (rnat i - rnat k : F)) eqn:E'; [|reflexivity]. apply (proj2 (ole_sub _ _ _)) in E'. congruence. }
  destruct (Nat.leb_spec k i); rewrite rnat_sub by lia; ring.
Qed.
Lemma frac_le_nat p c m : (1 <= m)%nat -> ole (rnat p * rinv (rnat m) : F) (rnat c) = (p <=? c * m)%nat.
Proof.
  intro Hm. transitivity (ole (rnat p * rinv (rnat m) : F) (rnat (c * m) * rinv (rnat m))).
  - f_equal. rewrite rnat_mul. transitivity (rnat c * (rnat m * rinv (rnat m)) : F); [|ring]. rewrite <- frac_mm by exact Hm. ring.
  - rewrite frac_le by exact Hm. apply rnat_le_iff.
Qed.
Lemma nat_le_frac p c m : (1 <= m)%nat -> ole (rnat c : F) (rnat p * rinv (rnat m)) = (c * m <=? p)%nat.
Proof.
  intro Hm. transitivity (ole (rnat (c * m) * rinv (rnat m)) (rnat p * rinv (rnat m) : F)).
  - f_equal. rewrite rnat_mul. transitivity (rnat c * (rnat m * rinv (rnat m)) : F); [|ring]. rewrite <- frac_mm by exact Hm. ring.
  - rewrite frac_le by exact Hm. apply rnat_le_iff.
Qed.
Lemma rnat_1 : (rnat 1 : F) = 1.
Proof. cbn. ring. Qed.

(** Weight of tap k (coefficient k - 1) at the offset u = o / m. *)
Definition wt (k : nat) (u : F) : F :=
  match k with
  | 0%nat => (1 - u) * (1 - u) * (1 - u)
  | 1%nat => rnat 3 * u * u * u - rnat 6 * u * u + rnat 4
  | 2%nat => - (rnat 3 * u * u * u) + rnat 3 * u * u + rnat 3 * u + 1
  | _ => u * u * u
  end.
Lemma kernel_wt k o m : (k < 4)%nat -> (o < m)%nat ->
  cubic_spline_kernel1 ((rnat ((3 - k) * m + o) - rnat (2 * m)) * rinv (rnat m) : F)
  = wt k (rnat o * rinv (rnat m)) * rinv (rnat 6).
Proof.
  intros Hk Ho. unfold cubic_spline_kernel1. rewrite abs_frac by lia.
  set (p := (if (2 * m <=? (3 - k) * m + o)%nat then (3 - k) * m + o - 2 * m else 2 * m - ((3 - k) * m + o))%nat).
  replace (ole (rnat p * rinv (rnat m) : F) 1) with (p <=? m)%nat by (rewrite <- rnat_1, frac_le_nat by lia; now rewrite Nat.mul_1_l).
  unfold olt. rewrite nat_le_frac by lia.
  pose proof (frac_mm m ltac:(lia)) as H1. set (u := rnat o * rinv (rnat m) : F).
  destruct k as [|[|[|[|k]]]]; [..|lia]; unfold wt, six.
  - assert (p = (m + o)%nat) as Ep by (subst p; destruct (Nat.leb_spec (2 * m) ((3 - 0) * m + o)); lia).
    rewrite Ep. assert (rnat (m + o) * rinv (rnat m) = 1 + u :> F) as -> by (rewrite rnat_add; unfold u; rewrite H1 at 1; ring).
    destruct (Nat.leb_spec (m + o) m) as [H|H].
    + assert (o = 0%nat) as -> by lia. unfold u. cbn [rnat rpow]. ring.
    + bfalse (2 * m <=? m + o)%nat. cbn [negb rpow rnat]. ring.
  - assert (p = o) as Ep by (subst p; destruct (Nat.leb_spec (2 * m) ((3 - 1) * m + o)); lia).
    rewrite Ep. fold u. btrue (o <=? m)%nat. cbn [rpow rnat]. ring.
  - assert (p = (m - o)%nat) as Ep by (subst p; destruct (Nat.leb_spec (2 * m) ((3 - 2) * m + o)); lia).
    rewrite Ep. assert (rnat (m - o) * rinv (rnat m) = 1 - u :> F) as -> by (rewrite rnat_sub by lia; unfold u; rewrite H1 at 1; ring).
    btrue (m - o <=? m)%nat. cbn [rpow rnat]. ring.
  - assert (p = (2 * m - o)%nat) as Ep by (subst p; destruct (Nat.leb_spec (2 * m) ((3 - 3) * m + o)); lia).
    rewrite Ep. assert (rnat (2 * m - o) * rinv (rnat m) = rnat 2 - u :> F) as ->.
    { rewrite rnat_sub by lia. rewrite rnat_mul. unfold u. transitivity (rnat 2 * (rnat m * rinv (rnat m)) - rnat o * rinv (rnat m) : F); [ring|]. rewrite <- H1. ring. }
    bfalse (2 * m - o <=? m)%nat. destruct (Nat.leb_spec (2 * m) (2 * m - o)) as [H|H]; cbn [negb].
    + assert (o = 0%nat) as -> by lia. unfold u. cbn [rnat]. ring.
    + cbn [rpow rnat]. ring.
Qed.
End Kernel.

Section Spline.
Variable F : ofield.
Notation ten := (tensor (car F)).
Add Ring Rr2 : (r_th F).
Variable e : env.
Variable r : F.

Lemma pad_spec B L (c : ten) cf (sc : bool) : (1 <= B)%nat -> (if sc then 2 <= L else 3 <= L)%nat -> is2 c B L cf ->
  exists p, (if sc
    then let* p := cat 1 [slice 1 None (Some 1%Z) c; c; flip 1 (slice 1 (Some (-2)%Z) None c)] in Ok (unsqueeze 1 p)
    else pad_reflect 1 2 (unsqueeze 1 c))%res = Ok p /\
    is3 p B 1 (L + 3) (fun b _ j => mirror sc L (cf b) (Z.of_nat j - 1)).
Proof.
  intros HB HL Hc. destruct sc.
  - pose proof Hc as Hc1. apply is2_P1 in Hc1.
    pose proof (P1_slice0 _ _ _ _ 1%nat None (Some 1%Z) 0 1 Hc1 eq_refl eq_refl ltac:(rewrite pyb_1; lia)) as Ha.
    pose proof (P1_slice0 _ _ _ _ 1%nat (Some (-2)%Z) None (L - 2) 2 Hc1 eq_refl ltac:(change (-2)%Z with (- Z.of_nat 2)%Z; rewrite pyb_neg; lia) ltac:(rewrite pyb_none; lia)) as Hb.
    pose proof (P1_flip0 _ _ _ _ 1%nat Hb eq_refl) as Hb'. clear Hb.
    apply (is2_P1 _ _ _ (fun b i => cf b i)) in Ha.
    apply (is2_P1 _ _ _ (fun b i => cf b (L - 2 + (2 - 1 - i))%nat)) in Hb'.
    destruct (cat3_2 _ _ _ _ _ _ _ _ _ _ Ha Hc Hb') as (p & E & Hp). rewrite E. cbn [bind].
    eexists. split; [reflexivity|]. apply is2_P1 in Hp. apply is3_P2.
    eapply isP2_ext'; [eapply P1_unsq0; [exact Hp|reflexivity]|reflexivity|lia|].
    intros q i j Hq Hi Hj. cbn beta. unfold mirror.
    destruct (Nat.ltb_spec j 1) as [H|H].
    + assert (j = 0%nat) as -> by lia. reflexivity.
    + destruct (Z.ltb_spec (Z.of_nat j - 1) 0); [lia|].
      destruct (Nat.ltb_spec (j - 1) L); destruct (Z.ltb_spec (Z.of_nat j - 1) (Z.of_nat L)); try lia; f_equal; lia.
  - unfold pad_reflect. assert (size (unsqueeze 1 c) 2 = L) as -> by (unfold size; cbn; now rewrite (proj1 Hc)).
    btrue (1 <? L)%nat. btrue (2 <? L)%nat. cbn [andb]. eexists. split; [reflexivity|].
    split; [cbn; rewrite (proj1 Hc); cbn; f_equal; f_equal; f_equal; lia|].
    intros b i j Hb Hi Hj. cbn [at_ upd unsqueeze del]. unfold mirror.
    destruct (Nat.ltb_spec j 1) as [H|H].
    + assert (j = 0%nat) as -> by lia. cbn. apply (proj2 Hc); lia.
    + destruct (Z.ltb_spec (Z.of_nat j - 1) 0); [lia|].
      destruct (Nat.ltb_spec j (1 + L)); destruct (Z.ltb_spec (Z.of_nat j - 1) (Z.of_nat L)); try lia;
        rewrite (proj2 Hc) by lia; f_equal; lia.
Qed.

Theorem cubic_spline_spec B L (x : ten) xf m (sc par : bool) uf : pole r ->
  spl_env e uf -> (1 <= B)%nat -> (if sc then 2 <= L else 3 <= L)%nat -> (2 <= m)%nat -> arange_len m = (4 * m)%nat ->
  is2 x B L xf ->
  exists y, cubic_spline e r x m sc par false uf = Ok y /\
    is2 y B ((L - 1) * m + 1) (fun b n =>
      bspline (mirror sc L (cs F r sc L (xf b))) (Z.of_nat (n / m)) (rnat (n mod m) * rinv (rnat m))).
Proof.
  intros Hr He HB HL Hm Hlen Hx. unfold cubic_spline. btrue (1 <=? m)%nat. bfalse (m =? 1)%nat.
  assert (H6 : (rnat 6 : F) <> 0) by (apply rnat_neq0; lia).
  assert (HL2 : (2 <= L)%nat) by (destruct sc; lia).
  unfold cspline. destruct (cubic_coeff_spec F e r B L x xf par sc uf Hr H6 He HB ltac:(lia) ltac:(lia) Hx) as (c & Ec & Hc).
  rewrite Ec. cbn [bind]. unfold reshape2. unfold arange_m at 1. unfold mk1, size. cbn [shape nth]. rewrite Hlen, Nat.eqb_refl. cbn [bind].
  match goal with |- context [cubic_spline_kernel ?t] => set (kt := cubic_spline_kernel t) end.
  assert (Hk : is2 kt 4 m (fun a o => cubic_spline_kernel1 ((rnat (a * m + o) - rnat (2 * m)) * rinv (rnat m)))).
  { split; [reflexivity|]. intros a o Ha Ho. reflexivity. }
  clearbody kt. apply is2_P in Hk. pose proof (P2_flip0 _ _ _ _ _ 0%nat Hk eq_refl) as Hk1.
  pose proof (P2_mT _ _ _ _ _ Hk1) as Hk2. clear Hk1. set (kernel := mT (flip 0 kt)) in *. clearbody kernel.
  pose proof (P2_unsq1 _ _ _ _ _ 1%nat Hk2 eq_refl) as Hk3. cbn beta in Hk3.
  set (w := unsqueeze 1 kernel) in *. clearbody w. destruct Hk3 as [Sw Hw]. cbn [app] in Sw.
  destruct (pad_spec B L c _ sc HB HL Hc) as (p & Ep & Hp). rewrite Ep. cbn [bind].
  unfold conv1d_1, rk, size. rewrite (proj1 Hp), Sw. cbn [length nth Nat.eqb andb]. btrue (4 <=? L + 3)%nat. cbn [bind].
  match goal with |- context [mk3 ?a ?b ?c ?d] => set (yt := mk3 a b c d) end.
  assert (Hy : is3 yt B m L (fun b o t => bspline (mirror sc L (cs F r sc L (xf b))) (Z.of_nat t) (rnat o * rinv (rnat m)))).
  { split; [cbn; f_equal; f_equal; f_equal; lia|]. intros b o t Hb Ho Ht. cbn [yt mk3 at_ nth].
    assert (Hwk : forall k, (k < 4)%nat -> at_ w [o; 0; k]%nat = wt F k (rnat o * rinv (rnat m)) * rinv (rnat 6)).
    { intros k Hk'. pose proof (Hw [] o 0%nat k vld_nil Ho ltac:(lia) Hk') as Ew. cbn [app] in Ew. rewrite Ew. rewrite <- kernel_wt by assumption.
      replace (4 - 1 - k)%nat with (3 - k)%nat by lia. reflexivity. }
    cbn [bsum]. rewrite !Hwk by lia. rewrite !(proj2 Hp) by lia. unfold bspline, wt.
    replace (Z.of_nat (t + 0) - 1)%Z with (Z.of_nat t - 1)%Z by lia.
    replace (Z.of_nat (t + 1) - 1)%Z with (Z.of_nat t) by lia.
    replace (Z.of_nat (t + 2) - 1)%Z with (Z.of_nat t + 1)%Z by lia.
    replace (Z.of_nat (t + 3) - 1)%Z with (Z.of_nat t + 2)%Z by lia.
    change (fun k : nat => cs F r sc L (xf b) k) with (cs F r sc L (xf b)). ring. }
  clearbody yt. clear Ep Ec Hw Sw Hp Hk2. apply is3_P2 in Hy. pose proof (P2_mT _ _ _ _ _ Hy) as Hy1. clear Hy.
  pose proof (P2_flat0 _ _ _ _ _ 1%nat 2%nat Hy1 eq_refl eq_refl) as Hy2. clear Hy1.
  set (ip := flatten 1 2 (mT yt)) in *. clearbody ip.
  eexists. split; [reflexivity|]. apply is2_P1.
  assert (length (shape ip) - 1 = 1)%nat as -> by (rewrite (proj1 Hy2); reflexivity).
  eapply isP1_ext'; [eapply (P1_slice0 _ _ (L * m)%nat _ 1%nat None (Some (- Z.of_nat (m - 1))%Z) 0 (L * m - (m - 1))%nat Hy2 eq_refl eq_refl)|..].
  - rewrite pyb_neg by lia. lia.
  - nia.
  - intros q n Hq Hn. reflexivity.
Qed.

(** Lengths for which the padding fails. *)
Lemma cubic_spline_short B L (x : ten) xf m (sc : bool) uf : pole r -> spl_env e uf -> (1 <= B)%nat -> (1 <= L)%nat ->
  (if sc then L = 1 else L <= 2)%nat -> (2 <= m)%nat -> arange_len m = (4 * m)%nat -> is2 x B L xf ->
  cubic_spline e r x m sc true false uf = Err RuntimeError.
Proof.
  intros Hr He HB HL1 HL Hm Hlen Hx. unfold cubic_spline. btrue (1 <=? m)%nat. bfalse (m =? 1)%nat.
  assert (H6 : (rnat 6 : F) <> 0) by (apply rnat_neq0; lia).
  unfold cspline. destruct (cubic_coeff_spec F e r B L x xf true sc uf Hr H6 He HB HL1 ltac:(discriminate) Hx) as (c & Ec & Hc).
  rewrite Ec. cbn [bind]. unfold reshape2. unfold arange_m at 1. unfold mk1 at 1, size. cbn [shape nth]. rewrite Hlen, Nat.eqb_refl. cbn [bind].
  destruct sc.
  - subst L. pose proof Hc as Hc1. apply is2_P1 in Hc1.
    pose proof (P1_slice0 _ _ _ _ 1%nat None (Some 1%Z) 0 1 Hc1 eq_refl eq_refl eq_refl) as Ha.
    pose proof (P1_slice0 _ _ _ _ 1%nat (Some (-2)%Z) None 0 1 Hc1 eq_refl eq_refl eq_refl) as Hb.
    pose proof (P1_flip0 _ _ _ _ 1%nat Hb eq_refl) as Hb'. clear Hb.
    apply (is2_P1 _ _ _ (fun b i => cs F r true 1 (xf b) i)) in Ha.
    apply (is2_P1 _ _ _ (fun b i => cs F r true 1 (xf b) (0 + (1 - 1 - i)))%nat) in Hb'.
    destruct (cat3_2 _ _ _ _ _ _ _ _ _ _ Ha Hc Hb') as (p & E & Hp). rewrite E. cbn [bind].
    unfold conv1d_1, rk, size. cbn [unsqueeze shape ins length]. rewrite (proj1 Hp). reflexivity.
  - unfold pad_reflect. assert (size (unsqueeze 1 c) 2 = L) as -> by (unfold size; cbn; now rewrite (proj1 Hc)).
    bfalse (2 <? L)%nat. now rewrite andb_false_r.
Qed.

(** A grid of another length than 4 m cannot be reshaped. *)
Lemma cubic_spline_grid B L (x : ten) xf m (sc par : bool) uf : pole r ->
  spl_env e uf -> (1 <= B)%nat -> (2 <= L)%nat -> (2 <= m)%nat -> arange_len m <> (4 * m)%nat -> is2 x B L xf ->
  cubic_spline e r x m sc par false uf = Err RuntimeError.
Proof.
  intros Hr He HB HL Hm Hlen Hx. unfold cubic_spline. btrue (1 <=? m)%nat. bfalse (m =? 1)%nat.
  assert (H6 : (rnat 6 : F) <> 0) by (apply rnat_neq0; lia).
  unfold cspline. destruct (cubic_coeff_spec F e r B L x xf par sc uf Hr H6 He HB ltac:(lia) ltac:(lia) Hx) as (c & Ec & Hc).
  rewrite Ec. cbn [bind]. unfold reshape2. unfold arange_m at 1. unfold mk1 at 1, size. cbn [shape nth].
  now rewrite (proj2 (Nat.eqb_neq _ _) Hlen).
Qed.
End Spline.
