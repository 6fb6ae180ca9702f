(** Binary floating point with [p] significant bits and an unbounded exponent, as a
    rounding of the rationals: round to nearest, ties to even.  It meets the contract
    [rounds] of SpecRound.v with unit roundoff 2^-p (p = 24: float32, p = 53: float64). *)
From Coq Require Import List Arith Lia ZArith Bool QArith Qcanon Qpower Qround Lqa.
From Verif Require Import Scalar Ordered SpecRound P_Round.
Open Scope Q_scope.

Notation pow2 := (Qpower 2).

(** Exponent of a positive rational: 2^e <= x < 2^(e+1). *)
Definition expo (x : Q) : Z :=
  let e := (Z.log2 (Qnum x) - Z.log2 (Zpos (Qden x)))%Z in
  if Qle_bool (pow2 e) x then e else (e - 1)%Z.
(** Nearest integer, ties to even. *)
Definition nearest (q : Q) : Z :=
  let m := Qfloor (q + (1 # 2)) in
  if Qeq_bool (inject_Z m) (q + (1 # 2)) && Z.odd m then (m - 1)%Z else m.
Definition rnd_pos (p : Z) (x : Q) : Q :=
  let s := (p - 1 - expo x)%Z in inject_Z (nearest (x * pow2 s)) * pow2 (- s).
Definition rnd (p : Z) (x : Q) : Q :=
  if Qeq_bool x 0 then 0 else if Qle_bool 0 x then rnd_pos p x else - rnd_pos p (- x).

Lemma pow2_pos z : 0 < pow2 z.
Proof. apply Qpower_0_lt. reflexivity. Qed.
Lemma pow2_add a b : pow2 (a + b) == pow2 a * pow2 b.
Proof. apply Qpower_plus. discriminate. Qed.
Lemma pow2_Z n : (0 <= n)%Z -> pow2 n == inject_Z (2 ^ n).
Proof. intro H. rewrite Zpower_Qpower by exact H. reflexivity. Qed.
Lemma pow2_S z : pow2 (z + 1) == 2 * pow2 z.
Proof. rewrite pow2_add. change (pow2 1) with 2. ring. Qed.
Lemma expo_spec x : 0 < x -> pow2 (expo x) <= x /\ x < pow2 (expo x + 1).
Proof.
  intro Hx. destruct x as [n d]. assert (Hn : (0 < n)%Z) by (unfold Qlt in Hx; cbn in Hx; lia).
  destruct (Z.log2_spec n Hn) as [N1 N2]. destruct (Z.log2_spec (Zpos d) eq_refl) as [D1 D2].
  pose proof (Z.log2_nonneg n) as Ln. pose proof (Z.log2_nonneg (Zpos d)) as Ld.
  unfold expo. cbn [Qnum Qden]. set (ln := Z.log2 n) in *. set (ld := Z.log2 (Zpos d)) in *. clearbody ln ld.
  assert (Ex : n # d == inject_Z n / inject_Z (Zpos d)) by (rewrite Qmake_Qdiv; reflexivity).
  assert (P : 0 < inject_Z (Zpos d)) by reflexivity.
  assert (L : pow2 (ln - ld - 1) <= n # d).
  { rewrite Ex. apply Qle_shift_div_l; [exact P|].
    apply (Qle_trans _ (pow2 (ln - ld - 1) * pow2 (ld + 1))).
    - apply Qmult_le_l; [apply pow2_pos|]. rewrite pow2_Z by lia. rewrite <- Zle_Qle. rewrite Z.add_1_r. lia.
    - rewrite <- pow2_add. replace (ln - ld - 1 + (ld + 1))%Z with ln by lia. rewrite pow2_Z by lia. rewrite <- Zle_Qle. lia. }
  assert (U : n # d < pow2 (ln - ld + 1)).
  { rewrite Ex. apply Qlt_shift_div_r; [exact P|].
    apply (Qlt_le_trans _ (pow2 (ln - ld + 1) * pow2 ld)).
    - rewrite <- pow2_add. replace (ln - ld + 1 + ld)%Z with (Z.succ ln) by lia. rewrite pow2_Z by lia. rewrite <- Zlt_Qlt. lia.
    - apply Qmult_le_l; [apply pow2_pos|]. rewrite pow2_Z by lia. rewrite <- Zle_Qle. lia. }
  destruct (Qle_bool (pow2 (ln - ld)) (n # d)) eqn:E.
  - apply Qle_bool_iff in E. auto.
  - split; [exact L|]. replace (ln - ld - 1 + 1)%Z with (ln - ld)%Z by lia.
    apply Qnot_le_lt. intro H. apply Qle_bool_iff in H. congruence.
Qed.
Lemma nearest_spec q : inject_Z (nearest q) - q <= 1 # 2 /\ q - inject_Z (nearest q) <= 1 # 2.
Proof.
  unfold nearest. pose proof (Qfloor_le (q + (1 # 2))) as H1. pose proof (Qlt_floor (q + (1 # 2))) as H2.
  rewrite inject_Z_plus in H2. change (inject_Z 1) with 1 in H2.
  generalize dependent (Qfloor (q + (1 # 2))). intros m H1 H2. cbv zeta.
  destruct (Qeq_bool (inject_Z m) (q + (1 # 2))) eqn:E; cbn [andb].
  - apply Qeq_bool_eq in E. destruct (Z.odd m); [|split; lra].
    unfold Zminus. rewrite inject_Z_plus, inject_Z_opp. change (inject_Z 1) with 1. split; lra.
  - split; lra.
Qed.
Lemma rnd_pos_err p x : 0 < x -> rnd_pos p x - x <= pow2 (- p) * x /\ x - rnd_pos p x <= pow2 (- p) * x.
Proof.
  intro Hx. destruct (expo_spec x Hx) as [He _]. unfold rnd_pos. set (e := expo x) in *. set (s := (p - 1 - e)%Z).
  destruct (nearest_spec (x * pow2 s)) as [H1 H2]. set (m := inject_Z (nearest (x * pow2 s))) in *. clearbody m.
  assert (Hs : pow2 s * pow2 (- s) == 1) by (rewrite <- pow2_add; now replace (s + - s)%Z with 0%Z by lia).
  assert (Hb : (1 # 2) * pow2 (- s) <= pow2 (- p) * x).
  { apply (Qle_trans _ (pow2 (- p) * pow2 e)).
    - rewrite <- pow2_add. replace (- p + e)%Z with (- s + -1)%Z by (unfold s; lia). rewrite pow2_add. change (pow2 (-1)) with (1 # 2). lra.
    - apply Qmult_le_l; [apply pow2_pos|exact He]. }
  pose proof (pow2_pos (- s)) as Hp.
  assert (X : x == x * pow2 s * pow2 (- s)) by (rewrite <- Qmult_assoc, Hs; ring).
  split.
  - apply (Qle_trans _ ((1 # 2) * pow2 (- s))); [|exact Hb].
    setoid_replace (m * pow2 (- s) - x) with ((m - x * pow2 s) * pow2 (- s)) by (rewrite X at 1; ring).
    apply Qmult_le_compat_r; [exact H1|now apply Qlt_le_weak].
  - apply (Qle_trans _ ((1 # 2) * pow2 (- s))); [|exact Hb].
    setoid_replace (x - m * pow2 (- s)) with ((x * pow2 s - m) * pow2 (- s)) by (rewrite X at 1; ring).
    apply Qmult_le_compat_r; [exact H2|now apply Qlt_le_weak].
Qed.
(** Relative error at most 2^-p. *)
Lemma rnd_err p x : (0 <= x -> rnd p x - x <= pow2 (- p) * x /\ x - rnd p x <= pow2 (- p) * x) /\
  (x <= 0 -> rnd p x - x <= pow2 (- p) * - x /\ x - rnd p x <= pow2 (- p) * - x).
Proof.
  unfold rnd. destruct (Qeq_bool x 0) eqn:E0.
  { apply Qeq_bool_eq in E0. split; intros _; rewrite E0; split; ring_simplify; discriminate. }
  assert (Hn : ~ x == 0) by (intro H; apply Qeq_eq_bool in H; congruence).
  destruct (Qle_bool 0 x) eqn:E1.
  - apply Qle_bool_iff in E1. assert (0 < x) by (apply Qle_lteq in E1 as [H|H]; [exact H|symmetry in H; contradiction]).
    split; intro H'; [now apply rnd_pos_err|lra].
  - assert (x < 0) by (apply Qnot_le_lt; intro H; apply Qle_bool_iff in H; congruence).
    split; intro H'; [lra|]. destruct (rnd_pos_err p (- x)) as [H1 H2]; [lra|]. split; lra.
Qed.

(** ** The operations *)
Definition rep (p : Z) (x : Qc) : bool := Qeq_bool (rnd p x) x.
(** Operands that are not representable do not occur in a floating-point computation;
    on them the operations are exact. *)
Definition f2 (p : Z) (op : Qc -> Qc -> Qc) (x y : Qc) : Qc :=
  if rep p x && rep p y then Q2Qc (rnd p (op x y)) else op x y.
Definition fl_add (p : Z) : Qofield -> Qofield -> Qofield := f2 p Qcplus.
Definition fl_mul (p : Z) : Qofield -> Qofield -> Qofield := f2 p Qcmult.
Definition fl_sub (p : Z) : Qofield -> Qofield -> Qofield := f2 p Qcminus.
Definition unit_roundoff (p : Z) : Qofield := Q2Qc (pow2 (- p)).

Lemma near_Q (u x y : Qc) :
  (0 <= y -> x - y <= u * y /\ y - x <= u * y)%Q -> (y <= 0 -> x - y <= u * - y /\ y - x <= u * - y)%Q ->
  @near Qofield u x y.
Proof.
  intros H1 H2. unfold near.
  assert (T : forall a b : Qc, (a <= b)%Q -> @ole Qofield a b = true) by (intros a b H; now apply Qle_bool_iff).
  assert (Q : forall a b : Qc, this (Qcplus a b) == a + b /\ this (Qcmult a b) == a * b /\ this (Qcopp a) == - a).
  { intros a b. repeat split; apply Qred_correct. }
  assert (M : forall a b : Qc, this (Qcminus a b) == a - b) by (intros a b; unfold Qcminus; rewrite (proj1 (Q a (Qcopp b))), (proj2 (proj2 (Q b b))); reflexivity).
  unfold oabs at 2. destruct (@ole Qofield _ y) eqn:E.
  - change (Qle_bool 0 y = true) in E. apply Qle_bool_iff in E. destruct (H1 E) as [A B].
    apply (abs_le Qofield); apply T; change (@rmul Qofield) with Qcmult; change (@rsub Qofield) with Qcminus; change (@ropp Qofield) with Qcopp.
    + rewrite M, (proj1 (proj2 (Q u y))). lra.
    + rewrite (proj2 (proj2 (Q (Qcminus x y) y))), M, (proj1 (proj2 (Q u y))). lra.
  - change (Qle_bool 0 y = false) in E.
    assert (E' : y <= 0) by (apply Qnot_lt_le; intro E'; apply Qlt_le_weak, Qle_bool_iff in E'; congruence).
    destruct (H2 E') as [A B].
    apply (abs_le Qofield); apply T; change (@rmul Qofield) with Qcmult; change (@rsub Qofield) with Qcminus; change (@ropp Qofield) with Qcopp.
    + rewrite M, (proj1 (proj2 (Q u _))), (proj2 (proj2 (Q y y))). lra.
    + rewrite (proj2 (proj2 (Q (Qcminus x y) y))), M, (proj1 (proj2 (Q u _))), (proj2 (proj2 (Q y y))). lra.
Qed.
Lemma near_f2 p op (x y : Qc) : @near Qofield (unit_roundoff p) (f2 p op x y) (op x y).
Proof.
  unfold f2. destruct (rep p x && rep p y).
  - destruct (rnd_err p (op x y)) as [H1 H2].
    apply near_Q; intro H; unfold unit_roundoff, Q2Qc; cbn [this]; rewrite !Qred_correct; auto.
  - unfold near. pose proof (pow2_pos (- p)) as Hp.
    assert (Hu : ole (r0 : Qofield) (unit_roundoff p) = true).
    { cbn. apply Qle_bool_iff. unfold unit_roundoff, Q2Qc. cbn [this]. rewrite Qred_correct. now apply Qlt_le_weak. }
    replace (rsub (op x y : Qofield) (op x y)) with (r0 : Qofield) by (cbn; unfold Qcminus; now rewrite Qcplus_opp_r).
    rewrite abs_0. apply ole_mul; [exact Hu|apply abs_0_le].
Qed.
Lemma rep_eq p (x : Qc) : rep p x = true -> Q2Qc (rnd p x) = x.
Proof. intro H. apply Qeq_bool_eq in H. apply Qc_is_canon. cbn [Q2Qc this]. rewrite Qred_correct. exact H. Qed.
Theorem float_rounds p : @rounds Qofield (unit_roundoff p) (fl_add p) (fl_mul p) (fl_sub p).
Proof.
  pose proof (pow2_pos (- p)) as Hp.
  constructor.
  - cbn. apply Qle_bool_iff. unfold unit_roundoff, Q2Qc. cbn [this]. rewrite Qred_correct. now apply Qlt_le_weak.
  - intros x y. apply near_f2.
  - intros x y. apply near_f2.
  - intros x y. apply near_f2.
  - intro x. unfold fl_add, f2. change (r0 : Qofield) with (Q2Qc 0). rewrite Qcplus_0_l. destruct (rep p x) eqn:E; rewrite ?andb_false_r; [|reflexivity].
    destruct (rep p (Q2Qc 0)); [now apply rep_eq|reflexivity].
  - intro x. unfold fl_add, f2. change (r0 : Qofield) with (Q2Qc 0). rewrite Qcplus_0_r. destruct (rep p x) eqn:E; cbn [andb]; [|reflexivity].
    destruct (rep p (Q2Qc 0)); [now apply rep_eq|reflexivity].
  - intro x. unfold fl_mul, f2. change (r1 : Qofield) with (Q2Qc 1). rewrite Qcmult_1_l. destruct (rep p x) eqn:E; rewrite ?andb_false_r; [|reflexivity].
    destruct (rep p (Q2Qc 1)); [now apply rep_eq|reflexivity].
  - intro x. unfold fl_mul, f2. change (r1 : Qofield) with (Q2Qc 1). rewrite Qcmult_1_r. destruct (rep p x) eqn:E; cbn [andb]; [|reflexivity].
    destruct (rep p (Q2Qc 1)); [now apply rep_eq|reflexivity].
Qed.

(** Results are representable: a computation that starts from representable numbers
    is rounded at every operation. *)
Lemma nearest_Z z : nearest (inject_Z z) = z.
Proof.
  unfold nearest. assert (E : Qfloor (inject_Z z + (1 # 2)) = z).
  { apply Z.le_antisymm.
    - apply Z.lt_succ_r. rewrite Zlt_Qlt. unfold Z.succ. rewrite inject_Z_plus. change (inject_Z 1) with 1.
      pose proof (Qfloor_le (inject_Z z + (1 # 2))). lra.
    - rewrite <- (Qfloor_Z z) at 1. apply Qfloor_resp_le. lra. }
  rewrite E. replace (Qeq_bool (inject_Z z) (inject_Z z + (1 # 2))) with false; [reflexivity|].
  symmetry. apply not_true_iff_false. intro H. apply Qeq_bool_eq in H. lra.
Qed.
Lemma nearest_comp q q' : q == q' -> nearest q = nearest q'.
Proof. intro H. unfold nearest. rewrite (Qfloor_comp (q + (1 # 2)) (q' + (1 # 2))) by (now rewrite H). now rewrite H. Qed.
Lemma nearest_mono q (z : Z) : inject_Z z <= q -> (z <= nearest q)%Z.
Proof.
  intro H. destruct (nearest_spec q) as [_ H2]. apply Z.lt_succ_r. rewrite Zlt_Qlt. unfold Z.succ. rewrite inject_Z_plus. change (inject_Z 1) with 1. lra.
Qed.
Lemma nearest_mono' q (z : Z) : q <= inject_Z z -> (nearest q <= z)%Z.
Proof.
  intro H. destruct (nearest_spec q) as [H1 _]. apply Z.lt_succ_r. rewrite Zlt_Qlt. unfold Z.succ. rewrite inject_Z_plus. change (inject_Z 1) with 1. lra.
Qed.
Lemma expo_unique x e : pow2 e <= x -> x < pow2 (e + 1) -> 0 < x -> expo x = e.
Proof.
  intros H1 H2 Hx. destruct (expo_spec x Hx) as [E1 E2].
  assert (M : forall a b, (a <= b)%Z -> pow2 a <= pow2 b).
  { intros a b Hab. replace b with (a + (b - a))%Z by lia. rewrite pow2_add.
    setoid_replace (pow2 a) with (pow2 a * 1) at 1 by ring. apply Qmult_le_l; [apply pow2_pos|].
    rewrite pow2_Z by lia. change 1 with (inject_Z 1). rewrite <- Zle_Qle. pose proof (Z.pow_pos_nonneg 2 (b - a)). lia. }
  destruct (Z.lt_trichotomy (expo x) e) as [L|[L|L]]; [exfalso|exact L|exfalso].
  - pose proof (M (expo x + 1)%Z e ltac:(lia)). lra.
  - pose proof (M (e + 1)%Z (expo x) ltac:(lia)). lra.
Qed.
Lemma expo_comp x y : 0 < x -> x == y -> expo x = expo y.
Proof.
  intros Hx H. destruct (expo_spec x Hx) as [H1 H2]. symmetry. apply expo_unique; rewrite <- H; assumption.
Qed.
(** An integer multiple of the spacing is a fixed point. *)
Lemma rnd_pos_fix p x m : 0 < x -> x == inject_Z m * pow2 (expo x - (p - 1)) -> rnd_pos p x == x.
Proof.
  intros Hx H. unfold rnd_pos. set (s := (p - 1 - expo x)%Z).
  assert (Hs : pow2 s * pow2 (- s) == 1) by (rewrite <- pow2_add; now replace (s + - s)%Z with 0%Z by lia).
  replace (expo x - (p - 1))%Z with (- s)%Z in H by (unfold s; lia).
  rewrite (nearest_comp (x * pow2 s) (inject_Z m)), nearest_Z.
  - symmetry; exact H.
  - rewrite H at 1. rewrite <- Qmult_assoc, (Qmult_comm (pow2 (- s))), Hs. ring.
Qed.
Lemma rnd_pos_idem p x : (1 <= p)%Z -> 0 < x -> 0 < rnd_pos p x /\ rnd_pos p (rnd_pos p x) == rnd_pos p x.
Proof.
  intros Hp Hx. destruct (expo_spec x Hx) as [E1 E2]. set (e := expo x) in *. set (s := (p - 1 - e)%Z).
  assert (Er : rnd_pos p x = inject_Z (nearest (x * pow2 s)) * pow2 (- s)) by reflexivity.
  set (m := nearest (x * pow2 s)) in *.
  assert (Hm1 : (2 ^ (p - 1) <= m)%Z).
  { apply nearest_mono. rewrite <- pow2_Z by lia. replace (p - 1)%Z with (e + s)%Z by (unfold s; lia). rewrite pow2_add.
    apply Qmult_le_compat_r; [exact E1|apply Qlt_le_weak, pow2_pos]. }
  assert (Hm2 : (m <= 2 ^ p)%Z).
  { apply nearest_mono'. rewrite <- pow2_Z by lia. replace p with ((e + 1) + s)%Z at 1 by (unfold s; lia). rewrite pow2_add.
    apply Qmult_le_compat_r; [now apply Qlt_le_weak|apply Qlt_le_weak, pow2_pos]. }
  clearbody m. rewrite Er.
  assert (P0 : (0 < 2 ^ (p - 1))%Z) by (apply Z.pow_pos_nonneg; lia).
  assert (Hpos : 0 < inject_Z m * pow2 (- s)).
  { apply Qmult_lt_0_compat; [|apply pow2_pos]. change 0 with (inject_Z 0). rewrite <- Zlt_Qlt. lia. }
  split; [exact Hpos|].
  destruct (Z.eq_dec m (2 ^ p)) as [->|Hne].
  - apply (rnd_pos_fix p _ (2 ^ (p - 1))); [exact Hpos|].
    assert (V : inject_Z (2 ^ p) * pow2 (- s) == pow2 (e + 1)).
    { rewrite <- pow2_Z by lia. rewrite <- pow2_add. now replace (p + - s)%Z with (e + 1)%Z by (unfold s; lia). }
    rewrite (expo_unique _ (e + 1)%Z).
    + rewrite V, <- pow2_Z by lia. rewrite <- pow2_add. now replace (p - 1 + (e + 1 - (p - 1)))%Z with (e + 1)%Z by lia.
    + rewrite V. apply Qle_refl.
    + rewrite V, (pow2_S (e + 1)). pose proof (pow2_pos (e + 1)). lra.
    + exact Hpos.
  - apply (rnd_pos_fix p _ m); [exact Hpos|]. rewrite (expo_unique _ e).
    + now replace (e - (p - 1))%Z with (- s)%Z by (unfold s; lia).
    + replace e with (p - 1 + - s)%Z by (unfold s; lia). rewrite pow2_add. apply Qmult_le_compat_r; [|apply Qlt_le_weak, pow2_pos].
      rewrite pow2_Z by lia. rewrite <- Zle_Qle. exact Hm1.
    + replace (e + 1)%Z with (p + - s)%Z by (unfold s; lia). rewrite pow2_add. apply Qmult_lt_r; [apply pow2_pos|].
      rewrite pow2_Z by lia. rewrite <- Zlt_Qlt. lia.
    + exact Hpos.
Qed.
Lemma rnd_pos_comp p x y : 0 < x -> x == y -> rnd_pos p x == rnd_pos p y.
Proof.
  intros Hx H. unfold rnd_pos. rewrite (expo_comp x y Hx H). rewrite (nearest_comp (x * _) (y * pow2 (p - 1 - expo y))); [reflexivity|now rewrite H].
Qed.
Lemma rnd_comp p x y : x == y -> rnd p x == rnd p y.
Proof.
  intro H. unfold rnd. rewrite (Qeqb_comp x y H 0 0 (Qeq_refl 0)), (Qleb_comp 0 0 (Qeq_refl 0) x y H).
  destruct (Qeq_bool y 0) eqn:E0; [reflexivity|].
  assert (Hn : ~ y == 0) by (intro G; apply Qeq_eq_bool in G; congruence).
  destruct (Qle_bool 0 y) eqn:E1.
  - apply Qle_bool_iff in E1. apply rnd_pos_comp; [rewrite H; apply Qle_lteq in E1 as [G|G]; [exact G|symmetry in G; contradiction]|exact H].
  - assert (y < 0) by (apply Qnot_le_lt; intro G; apply Qle_bool_iff in G; congruence).
    apply Qopp_comp, rnd_pos_comp; [lra|now rewrite H].
Qed.
Lemma rnd_idem p x : (1 <= p)%Z -> rnd p (rnd p x) == rnd p x.
Proof.
  intro Hp. unfold rnd at 2 3. destruct (Qeq_bool x 0) eqn:E0; [reflexivity|].
  assert (Hn : ~ x == 0) by (intro H; apply Qeq_eq_bool in H; congruence).
  destruct (Qle_bool 0 x) eqn:E1.
  - apply Qle_bool_iff in E1. assert (Hx : 0 < x) by (apply Qle_lteq in E1 as [H|H]; [exact H|symmetry in H; contradiction]).
    destruct (rnd_pos_idem p x Hp Hx) as [P I]. unfold rnd. 
    destruct (Qeq_bool (rnd_pos p x) 0) eqn:Ez; [apply Qeq_bool_eq in Ez; lra|].
    destruct (Qle_bool 0 (rnd_pos p x)) eqn:El; [exact I|]. apply Qlt_le_weak, Qle_bool_iff in P. congruence.
  - assert (Hx : x < 0) by (apply Qnot_le_lt; intro H; apply Qle_bool_iff in H; congruence).
    destruct (rnd_pos_idem p (- x) Hp ltac:(lra)) as [P I]. unfold rnd.
    destruct (Qeq_bool (- rnd_pos p (- x)) 0) eqn:Ez; [apply Qeq_bool_eq in Ez; lra|].
    destruct (Qle_bool 0 (- rnd_pos p (- x))) eqn:El; [apply Qle_bool_iff in El; lra|].
    apply Qopp_comp. rewrite (rnd_pos_comp p (- - rnd_pos p (- x)) (rnd_pos p (- x))); [exact I|lra|ring].
Qed.
Theorem float_rep p op (x y : Qc) : (1 <= p)%Z -> rep p x = true -> rep p y = true -> rep p (f2 p op x y) = true.
Proof.
  intros Hp Hx Hy. unfold f2. rewrite Hx, Hy. cbn [andb]. unfold rep. apply Qeq_eq_bool. cbn [Q2Qc this].
  rewrite (rnd_comp p (Qred _) (rnd p (op x y)) (Qred_correct _)), Qred_correct. now apply rnd_idem.
Qed.
