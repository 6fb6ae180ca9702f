(** C38, C39: cubic spline interpolation (philtorch/lti/interp.py). *)
From Coq Require Import List Arith Lia ZArith Bool QArith Qcanon.
From Verif Require Import Scalar Tensor TensorLemmas TensorOps TensorAlg TensorTac TensorList
  Spec Shapes Algebra Ordered Qsqrt3 M_LtiRecur P_LtiRecur M_Kernels P_Helion M_LtiSsm M_Interp SpecInterp P_Interp P_Interp2 P_Interp3.
Import ListNotations.
Open Scope cr_scope.

(** ** Specification *)
Section Spec.
Context {F : cfield}.
(** c interpolates x at every sample but the first. *)
Definition interpolates (scipy : bool) (L : nat) (c x : nat -> F) : Prop :=
  forall k, (1 <= k < L)%nat ->
    mirror scipy L c (Z.of_nat k - 1) + rnat 4 * mirror scipy L c (Z.of_nat k) + mirror scipy L c (Z.of_nat k + 1)
    = rnat 6 * x k.
(** What is missing at the first sample. *)
Definition residual0 (scipy : bool) (L : nat) (c x : nat -> F) : F :=
  mirror scipy L c (-1) + rnat 4 * c 0%nat + c 1%nat - rnat 6 * x 0%nat.
Definition geom (r : F) (n : nat) (x : nat -> F) : F := bsum n (fun k => x k * rpow r k).
Definition geom_rev (r : F) (n : nat) (x : nat -> F) : F := bsum n (fun k => rpow r (n - 1 - k) * x k).
End Spec.

(** ** C38 *)
(** The coefficients of cspline: for every r with r^2 + 4 r + 1 = 0 (over any field where
    6 <> 0), every padding rule, length and signal there is one coefficient sequence cf that
    both forms of the code return; its B-spline passes through x_1 .. x_{L-1} (at the right end
    with the mirrored neighbour); at the left end the error is a multiple of r^(L-1). *)
Theorem C38_cspline_interpolates (F : cfield) (e : env) (r : F) B L (x : tensor (car F)) xf (sc : bool) uf :
  pole r -> (rnat 6 : F) <> 0 -> spl_env e uf -> (1 <= B)%nat -> (1 <= L)%nat -> is2 x B L xf ->
  exists cf : nat -> nat -> F,
    (forall par : bool, (par = false -> 2 <= L)%nat ->
       exists c, cspline e r x par sc false uf = Ok c /\ is2 c B L cf) /\
    (forall b, (b < B)%nat -> interpolates sc L (cf b) (xf b)) /\
    (forall b, (b < B)%nat -> (2 <= L)%nat ->
       if sc
       then (1 + r) * residual0 true L (cf b) (xf b)
            = - (rnat 6 * rpow r (S L) * (rpow r L * geom r L (xf b) + geom_rev r L (xf b)))
       else residual0 false L (cf b) (xf b)
            = - (rnat 6 * rpow r (L - 1) *
                 (rpow r L * geom r (L - 1) (fun k => xf b (S k)) + geom_rev r L (xf b) - xf b (L - 1)%nat))).
Proof.
  intros Hr H6 He HB HL Hx. exists (fun b k => cs F r sc L (xf b) k). split; [|split].
  - intros par HL2. exact (cubic_coeff_spec F e r B L x xf par sc uf Hr H6 He HB HL HL2 Hx).
  - intros b Hb k Hk. exact (cs_interp F r Hr H6 sc L (xf b) HL k Hk).
  - intros b Hb HL2. unfold residual0.
    assert (hs F r sc L (xf b) (L - 1) = rpow r L * czi F r sc L (xf b) + geom_rev r L (xf b)) as Eh.
    { unfold hs, geom_rev. replace (S (L - 1)) with L by lia. pose proof (lin_rec_closed r (czi F r sc L (xf b)) (xf b) 0 L) as E.
      cbn [Nat.add] in E. rewrite E. reflexivity. }
    destruct sc.
    + pose proof (cs_left_scipy F r Hr H6 L (xf b) HL2) as E. rewrite Eh in E. exact E.
    + pose proof (cs_left_reflect F r Hr H6 L (xf b) HL2) as E. rewrite Eh in E. exact E.
Qed.
Print Assumptions C38_cspline_interpolates.

(** Any smoothing (lamb != 0) is refused. *)
Theorem C38_cspline_smoothing (F : cfield) (e : env) (r : F) (x : tensor (car F)) par sc uf :
  cspline e r x par sc true uf = Err NotImplementedError.
Proof. reflexivity. Qed.
Print Assumptions C38_cspline_smoothing.

(** ** C39 *)
Section C39.
Variable F : ofield.
Add Ring Rr : (r_th F).

(** Output length and values: sample n = k m + j is the B-spline of the coefficients at k + j/m;
    so the samples at m, 2m, .. reproduce the signal. *)
Theorem C39_cubic_spline_partial (e : env) (r : F) B L (x : tensor (car F)) xf m (sc par : bool) uf :
  pole r -> spl_env e uf -> (1 <= B)%nat -> (if sc then 2 <= L else 3 <= L)%nat ->
  (2 <= m)%nat -> arange_len m = (4 * m)%nat -> is2 x B L xf ->
  exists c cf y yf, cspline e r x par sc false uf = Ok c /\ is2 c B L cf /\
    cubic_spline e r x m sc par false uf = Ok y /\ is2 y B ((L - 1) * m + 1) yf /\
    (forall b k j, (b < B)%nat -> (j < m)%nat -> (k * m + j < (L - 1) * m + 1)%nat ->
       yf b (k * m + j)%nat = bspline (mirror sc L (cf b)) (Z.of_nat k) (rnat j * rinv (rnat m))) /\
    (forall b k, (b < B)%nat -> (1 <= k < L)%nat -> yf b (k * m)%nat = xf b k).
Proof.
  intros Hr He HB HL Hm Hlen Hx. assert (HL2 : (2 <= L)%nat) by (destruct sc; lia).
  assert (H6 : (rnat 6 : F) <> 0) by (apply rnat_neq0; lia).
  destruct (cubic_coeff_spec F e r B L x xf par sc uf Hr H6 He HB ltac:(lia) (fun _ => HL2) Hx) as (c & Ec & Hc).
  destruct (cubic_spline_spec F e r B L x xf m sc par uf Hr He HB HL Hm Hlen Hx) as (y & Ey & Hy).
  do 4 eexists. split; [exact Ec|]. split; [exact Hc|]. split; [exact Ey|]. split; [exact Hy|]. split.
  - intros b k j Hb Hj _. cbn beta. rewrite Nat.div_add_l, Nat.div_small, Nat.add_0_r by lia.
    rewrite Nat.add_comm, Nat.mod_add, Nat.mod_small by lia. reflexivity.
  - intros b k Hb Hk. cbn beta. rewrite Nat.div_mul, Nat.mod_mul by lia. unfold bspline.
    pose proof (cs_interp F r Hr H6 sc L (xf b) ltac:(lia) k Hk) as E.
    pose proof (rinv_l _ H6) as H6i. cbn [rnat] in *.
    match type of E with ?a + _ * ?bb + ?cc = _ => set (c0 := a) in *; set (c1 := bb) in *; set (c2 := cc) in * end.
    change (fun k0 : nat => cs F r sc L (xf b) k0) with (cs F r sc L (xf b)). fold c0 c1 c2.
    match type of H6i with ?i * ?s = _ => set (inv6 := i) in *; transitivity (inv6 * s * xf b k); [|rewrite H6i; ring];
      transitivity (inv6 * (s * xf b k)); [rewrite <- E; ring|ring] end.
Qed.

(** m = 1 returns the input. *)
Theorem C39_cubic_spline_m1 (e : env) (r : F) (x : tensor (car F)) sc par lam uf :
  cubic_spline e r x 1 sc par lam uf = Ok x.
Proof. reflexivity. Qed.

(** The property does not hold for every m: torch.arange(-2, 2, 1 / m) has 4 m entries only if
    the double-precision quotient 4 / (1 / m) does not round up; for m = 49 it has 197, and
    the reshape to (4, 49) fails for every signal. *)
Theorem C39_m49_refuted (e : env) (r : F) B L (x : tensor (car F)) xf (sc par : bool) uf :
  pole r -> spl_env e uf -> (1 <= B)%nat -> (2 <= L)%nat -> is2 x B L xf ->
  cubic_spline e r x 49 sc par false uf = Err RuntimeError.
Proof.
  intros Hr He HB HL Hx. apply (cubic_spline_grid F e r B L x xf 49 sc par uf Hr He HB HL ltac:(lia)); [|exact Hx].
  vm_compute. discriminate.
Qed.

(** Nor for every length: signals of one sample (scipy padding) or two (reflect padding)
    are refused. *)
Theorem C39_short_refuted (e : env) (r : F) B L (x : tensor (car F)) xf (sc : bool) m uf :
  pole r -> spl_env e uf -> (1 <= B)%nat -> (1 <= L)%nat -> (if sc then L = 1 else L <= 2)%nat ->
  (2 <= m)%nat -> arange_len m = (4 * m)%nat -> is2 x B L xf ->
  cubic_spline e r x m sc true false uf = Err RuntimeError.
Proof. intros. now apply (cubic_spline_short F e r B L x xf). Qed.
End C39.
Print Assumptions C39_cubic_spline_partial.
Print Assumptions C39_cubic_spline_m1.
Print Assumptions C39_m49_refuted.
Print Assumptions C39_short_refuted.

(** The grid has the right size up to m = 48. *)
Lemma arange_len_48 : forallb (fun m => arange_len m =? 4 * m)%nat (seq 1 48) = true.
Proof. vm_compute. reflexivity. Qed.
Theorem C39_grid_ok m : (1 <= m <= 48)%nat -> arange_len m = (4 * m)%nat.
Proof.
  intro Hm. pose proof arange_len_48 as H. rewrite forallb_forall in H. specialize (H m).
  rewrite in_seq in H. apply Nat.eqb_eq, H. lia.
Qed.
Print Assumptions C39_grid_ok.
Lemma arange_len_bad : filter (fun m => negb (arange_len m =? 4 * m)%nat) (seq 1 128) = [49; 98; 103; 107]%nat.
Proof. vm_compute. reflexivity. Qed.

(** ** Examples over Q(sqrt 3) *)
Lemma pole3_ok : pole pole3.
Proof. unfold pole. apply qs3_eq; reflexivity. Qed.
Definition q3 (z : Z) : Qsqrt3 := (Q2Qc (z # 1), Q2Qc 0).
(** x = (1, 0, 2) *)
Definition xex : tensor (car Qsqrt3) := mk2 1 3 (fun _ k => q3 (nth k [1; 0; 2]%Z 0%Z)).
Lemma xex_ok : is2 xex 1 3 (fun _ k => q3 (nth k [1; 0; 2]%Z 0%Z)).
Proof. split; [reflexivity|]. intros i j _ _. reflexivity. Qed.
Lemma env0_spl : spl_env env0 1.
Proof. split; [|split; [discriminate|lia]]. split; [|cbn; lia]. intro k. cbn. induction k as [|k IH]; cbn; [reflexivity|rewrite IH; lia]. Qed.
Example C38_hyp : pole pole3 /\ (rnat 6 : Qsqrt3) <> 0 /\ spl_env env0 1 /\ is2 xex 1 3 (fun _ k => q3 (nth k [1; 0; 2]%Z 0%Z)).
Proof. split; [exact pole3_ok|]. split; [apply rnat_neq0; lia|]. split; [exact env0_spl|exact xex_ok]. Qed.
(** Coefficients (scipy padding) computed by the model: both forms, first entry. *)
Definition show (q : Qsqrt3) : Q * Q := (this (fst q), this (snd q)).
Example C38_values :
  match cubic_coeff env0 pole3 xex true true 1, cubic_coeff env0 pole3 xex false true 1 with
  | Ok a, Ok b => map (fun k => show (at_ a [0; k]%nat)) [0; 1; 2]%nat = map (fun k => show (at_ b [0; k]%nat)) [0; 1; 2]%nat
  | _, _ => False
  end.
Proof. vm_compute. reflexivity. Qed.
Example C39_hyp : (if true then 2 <= 3 else 3 <= 3)%nat /\ arange_len 2 = (4 * 2)%nat.
Proof. split; [lia|]. vm_compute. reflexivity. Qed.
(** The interpolated signal at k = 1, 2 (m = 2) is x_1 = 0, x_2 = 2; at k = 0 it is not x_0 = 1. *)
Example C39_values :
  match cubic_spline env0 pole3 xex 2 true true false 1 with
  | Ok y => shape y = [1; 5]%nat /\ at_ y [0; 2]%nat = q3 0 /\ at_ y [0; 4]%nat = q3 2 /\ at_ y [0; 0]%nat <> q3 1
  | Err _ => False
  end.
Proof.
  set (t := cubic_spline _ _ _ _ _ _ _ _).
  destruct (cubic_spline_spec Qsqrt3 env0 pole3 1 3 xex _ 2 true true 1 pole3_ok env0_spl ltac:(lia) ltac:(cbn; lia) ltac:(lia) eq_refl xex_ok) as (y & E & S & V).
  subst t. rewrite E. split; [exact S|]. rewrite !V by lia. do 2 (split; [apply qs3_eq; vm_compute; reflexivity|]).
  intro H. apply (f_equal show) in H. revert H. vm_compute. discriminate.
Qed.

(** The claim "the spline passes through every sample" fails at the left end: x = (1, 0) under
    reflect padding has the residual - 6 r^2. *)
Theorem C38_left_refuted : exists (F : ofield) (r : F) (e : env) (x c : tensor (car F)) (xf cf : nat -> nat -> F),
  pole r /\ spl_env e 1 /\ is2 x 1 2 xf /\ cspline e r x true false false 1 = Ok c /\ is2 c 1 2 cf /\
  residual0 false 2 (cf 0%nat) (xf 0%nat) <> 0.
Proof.
  set (x := mk2 1 2 (fun _ k => q3 (nth k [1; 0]%Z 0%Z))).
  assert (Hx : is2 x 1 2 (fun _ k => q3 (nth k [1; 0]%Z 0%Z))) by (split; [reflexivity|]; intros i j _ _; reflexivity).
  destruct (C38_cspline_interpolates Qsqrt3 env0 pole3 1 2 x _ false 1 pole3_ok (rnat_neq0 Qsqrt3 6 ltac:(lia)) env0_spl ltac:(lia) ltac:(lia) Hx)
    as (cf & Hc & _ & Hres).
  destruct (Hc true ltac:(discriminate)) as (c & Ec & Hc').
  exists Qsqrt3, pole3, env0, x, c, (fun _ k => q3 (nth k [1; 0]%Z 0%Z)), cf. do 5 (split; [first [exact pole3_ok|exact env0_spl|exact Hx|exact Ec|exact Hc']|]).
  rewrite (Hres 0%nat ltac:(lia) ltac:(lia)). intro H. apply (f_equal show) in H. revert H. vm_compute. discriminate.
Qed.
Print Assumptions C38_left_refuted.
