(** Theorems about the derivatives of whole filter calls (C59).  The derivative of a call in
    a direction is the eps part of the call on dual numbers (C35, C54: the custom autograd
    Functions agree with that). *)
From Coq Require Import List Arith Lia ZArith Bool Ring.
From Verif Require Import Scalar Tensor TensorLemmas TensorList TensorTac Spec Shapes SpecFilter SpecAutograd SpecSystem Algebra M_Mat M_Kernels M_LtiSsm M_LtiFilter
  P_LtiSsm P_Filter P_LtiFilter P_Autograd P_System P_Deriv Properties_LtiFilter.
Import ListNotations.

(** Lifting coefficients with a tangent of the same shape. *)
Lemma fcoef_lift (R : cring) B n (t dt : tensor R) f df : fcoef B n t f -> fcoef B n dt df -> shape dt = shape t ->
  fcoef (R := dual R) B n (lift t (Some dt)) (fun i k => (f i k, df i k)).
Proof.
  intros [g Ht Hf|Ht] [g' Hd Hf'|Hd] E; try (exfalso; rewrite (proj1 Ht), (proj1 Hd) in E; discriminate).
  - apply (fc_s (R := dual R) (fun k => (g k, g' k))).
    + split; [exact (proj1 Ht)|]. intros k Hk. cbn. now rewrite (proj2 Ht), (proj2 Hd).
    + intros b k Hb Hk. now rewrite Hf, Hf'.
  - apply fc_b. split; [exact (proj1 Ht)|]. intros i k Hi Hk. cbn. now rewrite (proj2 Ht), (proj2 Hd).
Qed.
Lemma is2_lift (R : cring) B N (t dt : tensor R) f df : is2 t B N f -> is2 dt B N df ->
  is2 (lift t (Some dt)) B N (fun i k => (f i k, df i k)).
Proof. intros Ht Hd. split; [exact (proj1 Ht)|]. intros i k Hi Hk. cbn. now rewrite (proj2 Ht), (proj2 Hd). Qed.

(** The forms in which numerator and denominator are treated alike, or real coefficients. *)
Definition same_conj {R : cring} fm nb na (bf af dbf daf : nat -> nat -> R) : Prop :=
  fm = Df2 \/ fm = Tdf2 \/ realc nb bf /\ realc na af /\ realc nb dbf /\ realc na daf.

Lemma fst_snd {A B} (p : A * B) : p = (fst p, snd p).
Proof. now destruct p. Qed.
Lemma split_fun2 {R : cring} (yf : nat -> nat -> dual R) : exists y dy : nat -> nat -> R, forall i n, yf i n = (y i n, dy i n).
Proof. exists (fun i n => fst (yf i n)), (fun i n => snd (yf i n)). intros. apply fst_snd. Qed.

(** ** The derivative in direction (db, da, dx) is
    lfilter(b, a, dx) + lfilter(db, a, x) - lfilter([0, da], a, y). *)
Theorem C59_lfilter_tangent :
  forall (R : cring) e B N nb na (b a x db da dx da0 : tensor R) bf af xf dbf daf dxf uf fm,
  1 <= B -> 1 <= N -> 1 <= nb -> 1 <= na -> backend_ok e (Nat.max na (nb - 1)) -> backend_ok e na -> unroll_ok uf -> fm <> OtherForm ->
  fcoef B nb b bf -> fcoef B na a af -> is2 x B N xf ->
  fcoef B nb db dbf -> fcoef B na da daf -> is2 dx B N dxf -> shape db = shape b -> shape da = shape a ->
  fcoef B (S na) da0 (fun i k => match k with 0 => r0 | S j => daf i j end) -> same_conj fm nb na bf af dbf daf ->
  exists Y y t1 t2 t3 yf f1 f2 f3,
    lfilter_ssm (R := dual R) e (lift b (Some db)) (lift a (Some da)) (lift x (Some dx)) None fm uf = Ok (Y, None) /\
    lfilter_ssm e b a x None fm uf = Ok (y, None) /\
    lfilter_ssm e b a dx None fm uf = Ok (t1, None) /\ lfilter_ssm e db a x None fm uf = Ok (t2, None) /\
    lfilter_ssm e da0 a y None fm uf = Ok (t3, None) /\
    is2 y B N yf /\ is2 t1 B N f1 /\ is2 t2 B N f2 /\ is2 t3 B N f3 /\
    is2 Y B N (fun i n => (yf i n, rsub (radd (f1 i n) (f2 i n)) (f3 i n))).
Proof.
  intros R e B N nb na b a x db da dx da0 bf af xf dbf daf dxf uf fm HB HN Hnb Hna He He' Hu Hfm Hb Ha Hx Hdb Hda Hdx Eb Ea Hd0 Hs.
  pose proof (fcoef_lift R B nb b db bf dbf Hb Hdb Eb) as HB'. pose proof (fcoef_lift R B na a da af daf Ha Hda Ea) as HA'.
  pose proof (is2_lift R B N x dx xf dxf Hx Hdx) as HX'.
  destruct (lfilter_difference_equation_complex (dual R) e B N nb na _ _ _ _ _ _ uf fm HB HN Hnb (or_introl Hna) He Hu Hfm HB' HA' HX') as (Y & Yf & E & HY & H).
  destruct (lfilter_difference_equation_complex R e B N nb na b a x bf af xf uf fm HB HN Hnb (or_introl Hna) He Hu Hfm Hb Ha Hx) as (y & yf & Ey & Hy & H0).
  destruct (lfilter_difference_equation_complex R e B N nb na b a dx bf af dxf uf fm HB HN Hnb (or_introl Hna) He Hu Hfm Hb Ha Hdx) as (t1 & f1 & E1 & Ht1 & H1).
  destruct (lfilter_difference_equation_complex R e B N nb na db a x dbf af xf uf fm HB HN Hnb (or_introl Hna) He Hu Hfm Hdb Ha Hx) as (t2 & f2 & E2 & Ht2 & H2).
  assert (He3 : backend_ok e (Nat.max na (S na - 1))) by (now replace (Nat.max na (S na - 1)) with na by lia).
  destruct (lfilter_difference_equation_complex R e B N (S na) na da0 a y _ af yf uf fm HB HN ltac:(lia) (or_introl Hna) He3 Hu Hfm Hd0 Ha Hy) as (t3 & f3 & E3 & Ht3 & H3).
  exists Y, y, t1, t2, t3, yf, f1, f2, f3. do 5 (split; [assumption|]). do 4 (split; [assumption|]).
  destruct (split_fun2 Yf) as (y0 & dy & Ed).
  set (cb := fun (c : bool) (z : R) => if c then conj z else z).
  assert (Hc : forall i n, i < B -> n < N ->
    solves_filter (R := dual R) (nb - 1) na (fun k => (cb (eq_num fm) (bf i k), cb (eq_num fm) (dbf i k))) (fun k => (cb (eq_den fm) (af i k), cb (eq_den fm) (daf i k)))
      (fun m => (xf i m, dxf i m)) (fun m => (y0 i m, dy i m)) n).
  { intros i n Hi Hn. eapply (solves_filter_ext (dual R)) with (5 := H i n Hi Hn); intros; rewrite ?Ed; auto; unfold cb.
    - destruct (eq_num fm); reflexivity.
    - destruct (eq_den fm); reflexivity. }
  assert (Hy0 : forall i n, i < B -> n < N -> y0 i n = yf i n).
  { intros i n Hi Hn. apply (solves_filter_unique R (nb - 1) na (fun k => cb (eq_num fm) (bf i k)) (fun k => cb (eq_den fm) (af i k)) (xf i) (y0 i) (yf i) N); auto.
    - intros m Hm. exact (proj1 (proj1 (solves_dual R _ _ _ _ _ _ _ _ _ _ m) (Hc i m Hi Hm))).
    - intros m Hm. exact (H0 i m Hi Hm). }
  eapply is2_ext; [exact HY|]. intros i n Hi Hn. cbv beta. rewrite Ed. f_equal; [now apply Hy0|].
  apply (tangent_filter R (nb - 1) na (fun k => cb (eq_num fm) (bf i k)) (fun k => cb (eq_num fm) (dbf i k)) (fun k => cb (eq_den fm) (af i k)) (fun k => cb (eq_den fm) (daf i k))
    (xf i) (dxf i) (y0 i) (dy i) (f1 i) (f2 i) (f3 i) N); auto.
  - intros m Hm. exact (H1 i m Hi Hm).
  - intros m Hm. exact (H2 i m Hi Hm).
  - intros m Hm. specialize (H3 i m Hi Hm). rewrite Nat.sub_succ, Nat.sub_0_r in H3.
    eapply (solves_filter_ext R) with (5 := H3); auto.
    + intros k Hk. destruct k as [|k]; cbn [shift1]; [destruct (eq_num fm); [apply conj_0|reflexivity]|].
      destruct Hs as [-> | [-> | (_ & _ & _ & Hr)]]; [reflexivity|reflexivity|]. specialize (Hr i k ltac:(lia)). unfold cb.
      destruct (eq_num fm), (eq_den fm); rewrite ?Hr; reflexivity.
    + intros k Hk. symmetry. apply Hy0; [auto|lia].
Qed.
Print Assumptions C59_lfilter_tangent.

(** ** Gradients.  For an output gradient g the gradients are: the transposed filter run
    backwards for x, correlations with one backward all-pole filter for b and a. *)
Theorem C59_lfilter_gradient :
  forall (R : cring) e B N nb na (b a x db da dx g bc ac one : tensor R) bf af xf dbf daf dxf gf uf fm,
  1 <= B -> 1 <= N -> 1 <= nb -> 1 <= na -> backend_ok e (Nat.max na (nb - 1)) -> backend_ok e na -> unroll_ok uf -> fm <> OtherForm ->
  fcoef B nb b bf -> fcoef B na a af -> is2 x B N xf ->
  fcoef B nb db dbf -> fcoef B na da daf -> is2 dx B N dxf -> shape db = shape b -> shape da = shape a ->
  fm = Df2 \/ realc nb bf /\ realc na af /\ realc nb dbf /\ realc na daf ->
  is2 g B N (fun i => backwards N (gf i)) -> fcoef B nb bc (fun i k => conj (bf i k)) -> fcoef B na ac (fun i k => conj (af i k)) ->
  fcoef B 1 one (fun _ _ => r1) ->
  exists Y y w u yf wf vf dyf,
    lfilter_ssm (R := dual R) e (lift b (Some db)) (lift a (Some da)) (lift x (Some dx)) None fm uf = Ok (Y, None) /\
    lfilter_ssm e b a x None fm uf = Ok (y, None) /\
    lfilter_ssm e bc ac g None fm uf = Ok (w, None) /\ lfilter_ssm e one ac g None fm uf = Ok (u, None) /\
    is2 y B N yf /\ is2 Y B N (fun i n => (yf i n, dyf i n)) /\ is2 w B N wf /\ is2 u B N vf /\
    forall i, i < B ->
      let gx := backwards N (wf i) in let v := backwards N (vf i) in
      let gb := fun k => dot N (dly (xf i) k) v in let ga := fun k => ropp (dot N (dly (yf i) (S k)) v) in
      dot N (gf i) (dyf i) = radd (radd (dot N gx (dxf i)) (dot nb gb (dbf i))) (dot na ga (daf i)).
Proof.
  intros R e B N nb na b a x db da dx g bc ac one bf af xf dbf daf dxf gf uf fm HB HN Hnb Hna He He' Hu Hfm Hb Ha Hx Hdb Hda Hdx Eb Ea Hs Hg Hbc Hac H1.
  pose proof (fcoef_lift R B nb b db bf dbf Hb Hdb Eb) as HB'. pose proof (fcoef_lift R B na a da af daf Ha Hda Ea) as HA'.
  pose proof (is2_lift R B N x dx xf dxf Hx Hdx) as HX'.
  destruct (lfilter_difference_equation_complex (dual R) e B N nb na _ _ _ _ _ _ uf fm HB HN Hnb (or_introl Hna) He Hu Hfm HB' HA' HX') as (Y & Yf & E & HY & H).
  destruct (lfilter_difference_equation_complex R e B N nb na b a x bf af xf uf fm HB HN Hnb (or_introl Hna) He Hu Hfm Hb Ha Hx) as (y & yf & Ey & Hy & H0).
  destruct (lfilter_difference_equation_complex R e B N nb na bc ac g _ _ _ uf fm HB HN Hnb (or_introl Hna) He Hu Hfm Hbc Hac Hg) as (w & wf & Ew & Hw & Hw').
  assert (He3 : backend_ok e (Nat.max na (1 - 1))) by (now replace (Nat.max na (1 - 1)) with na by lia).
  destruct (lfilter_difference_equation_complex R e B N 1 na one ac g _ _ _ uf fm HB HN ltac:(lia) (or_introl Hna) He3 Hu Hfm H1 Hac Hg) as (u & vf & Ev & Hv & Hv').
  destruct (split_fun2 Yf) as (y0 & dy & Ed).
  assert (Rl : forall (c : bool) n (f : nat -> nat -> R) i k, k < n -> (c = false \/ realc n f) -> (if c then conj (f i k) else f i k) = f i k).
  { intros c n f i k Hk [-> | Hr]; [reflexivity|]. destruct c; [now apply Hr|reflexivity]. }
  assert (Rc : forall (c : bool) n (f : nat -> nat -> R) i k, k < n -> (c = false \/ realc n f) -> (if c then conj (conj (f i k)) else conj (f i k)) = conj (f i k)).
  { intros c n f i k Hk [-> | Hr]; [reflexivity|]. destruct c; [now rewrite conj_conj, Hr|reflexivity]. }
  assert (Cn : eq_num fm = false /\ eq_den fm = false \/ realc nb bf /\ realc na af /\ realc nb dbf /\ realc na daf) by (destruct Hs as [-> | Hs]; auto).
  assert (C1 : eq_num fm = false \/ realc nb bf) by tauto. assert (C2 : eq_den fm = false \/ realc na af) by tauto.
  assert (C3 : eq_num fm = false \/ realc nb dbf) by tauto. assert (C4 : eq_den fm = false \/ realc na daf) by tauto.
  assert (Hc : forall i n, i < B -> n < N ->
    solves_filter (R := dual R) (nb - 1) na (fun k => (bf i k, dbf i k)) (fun k => (af i k, daf i k)) (fun m => (xf i m, dxf i m)) (fun m => (y0 i m, dy i m)) n).
  { intros i n Hi Hn. eapply (solves_filter_ext (dual R)) with (5 := H i n Hi Hn); intros k Hk; rewrite ?Ed; auto.
    - transitivity ((if eq_num fm then conj (bf i k) else bf i k, if eq_num fm then conj (dbf i k) else dbf i k) : dual R); [destruct (eq_num fm); reflexivity|].
      now rewrite (Rl _ nb bf), (Rl _ nb dbf) by (assumption || lia).
    - transitivity ((if eq_den fm then conj (af i k) else af i k, if eq_den fm then conj (daf i k) else daf i k) : dual R); [destruct (eq_den fm); reflexivity|].
      now rewrite (Rl _ na af), (Rl _ na daf) by (assumption || lia). }
  assert (Hy0 : forall i n, i < B -> n < N -> y0 i n = yf i n).
  { intros i n Hi Hn. apply (solves_filter_unique R (nb - 1) na (bf i) (af i) (xf i) (y0 i) (yf i) N); auto.
    - intros m Hm. exact (proj1 (proj1 (solves_dual R _ _ _ _ _ _ _ _ _ _ m) (Hc i m Hi Hm))).
    - intros m Hm. eapply (solves_filter_ext R) with (5 := H0 i m Hi Hm); auto; intros k Hk; [apply (Rl _ nb bf)|apply (Rl _ na af)]; assumption || lia. }
  exists Y, y, w, u, yf, wf, vf, dy. do 5 (split; [assumption|]). split.
  { eapply is2_ext; [exact HY|]. intros i n Hi Hn. cbv beta. rewrite Ed. f_equal. now apply Hy0. }
  do 2 (split; [assumption|]). intros i Hi. cbv zeta.
  pose proof (gradient_filter R (nb - 1) na (bf i) (dbf i) (af i) (daf i) (xf i) (dxf i) (y0 i) (dy i) (gf i) (wf i) (vf i) N
    (fun n Hn => Hc i n Hi Hn)) as G.
  assert (G1 : forall n, n < N -> solves_filter (nb - 1) na (fun k => conj (bf i k)) (fun k => conj (af i k)) (fun n => gf i (N - 1 - n)%nat) (wf i) n).
  { intros n Hn. eapply (solves_filter_ext R) with (5 := Hw' i n Hi Hn); auto; intros k Hk; [apply (Rc _ nb bf)|apply (Rc _ na af)]; assumption || lia. }
  assert (G2 : forall n, n < N -> solves_filter 0 na (P_Deriv.one R) (fun k => conj (af i k)) (fun n => gf i (N - 1 - n)%nat) (vf i) n).
  { intros n Hn. eapply (solves_filter_ext R) with (5 := Hv' i n Hi Hn); auto; intros k Hk.
    - unfold P_Deriv.one. destruct (eq_num fm); [apply conj_1|reflexivity].
    - apply (Rc _ na af); assumption || lia. }
  specialize (G G1 G2). unfold dot, backwards. rewrite G. clear G.
  replace (S (nb - 1)) with nb by lia.
  assert (X : forall a b b' c c' : R, b = b' -> ropp c = c' -> rsub (radd a b) c = radd (radd a b') c').
  { intros a0 b0 b1 c c' <- <-. apply (Rsub_def (r_th R)). }
  apply X.
  - apply bsum_ext. intros k Hk. f_equal. rewrite bsum_conj. apply bsum_ext. intros n Hn. now rewrite conj_mul, conj_conj, (Rmul_comm (r_th R)).
  - rewrite <- bsum_opp. apply bsum_ext. intros k Hk. rewrite conj_opp, bsum_conj.
    rewrite (bsum_ext N (fun i0 => conj (rmul (conj (dly (yf i) (S k) i0)) (vf i (N - 1 - i0)%nat))) (fun n => rmul (conj (vf i (N - 1 - n)%nat)) (dly (y0 i) (S k) n))).
    + generalize (bsum N (fun n => rmul (conj (vf i (N - 1 - n)%nat)) (dly (y0 i) (S k) n))) (daf i k). intros p q. apply (P_Deriv.opp_mul R).
    + intros n Hn. rewrite conj_mul, conj_conj, (Rmul_comm (r_th R)). f_equal. apply dly_ext. intros j Hj. symmetry. apply Hy0; [auto|lia].
Qed.
Print Assumptions C59_lfilter_gradient.

(** Second-order numerator, first-order denominator; all values written out. *)
Example C59_lfilter_ex :
  let b := v1 [1;2]%Z in let a := v1 [-1]%Z in let x := v2 [[1;0;2]]%Z in
  let db := v1 [0;1]%Z in let da := v1 [1]%Z in let dx := v2 [[0;1;0]]%Z in
  same_conj (R := Zring) Df1 2 1 (fun _ k => nth k [1;2]%Z 0%Z) (fun _ _ => (-1)%Z) (fun _ k => nth k [0;1]%Z 0%Z) (fun _ _ => 1%Z) /\
  (forall fm, In fm [Df2; Tdf2; Df1; Tdf1] ->
    show2' (lfilter_ssm env0 b a x None fm None) = Some (Some ([1;3]%nat, [1;3;5]%Z), None) /\
    show2' (lfilter_ssm env0 b a dx None fm None) = Some (Some ([1;3]%nat, [0;1;3]%Z), None) /\
    show2' (lfilter_ssm env0 db a x None fm None) = Some (Some ([1;3]%nat, [0;1;1]%Z), None) /\
    show2' (lfilter_ssm env0 (v1 [0;1]%Z) a (v2 [[1;3;5]]%Z) None fm None) = Some (Some ([1;3]%nat, [0;1;4]%Z), None) /\
    match lfilter_ssm (R := dual Zring) env0 (lift b (Some db)) (lift a (Some da)) (lift x (Some dx)) None fm None with
    | Ok (Y, _) => Some (map (fun n => at_ Y [0; n]%nat) [0; 1; 2]%nat)
    | Err _ => None
    end = Some [(1, 0 + 0 - 0); (3, 1 + 1 - 1); (5, 3 + 1 - 4)]%Z).
Proof.
  cbv zeta. split; [right; right; split; [|split; [|split]]; intros i k Hk; reflexivity|].
  intros fm [<-|[<-|[<-|[<-|[]]]]]; (do 4 (split; [vm_compute; reflexivity|])); vm_compute; reflexivity.
Qed.
(** The same call paired with g = (1, 2, 3): the sum of g times the tangent, 2 + 0, equals
    the three products of gradients and tangents. *)
Example C59_gradient_ex :
  let g := v2 [[3;2;1]]%Z in
  show2' (lfilter_ssm env0 (v1 [1;2]%Z) (v1 [-1]%Z) g None Df2 None) = Some (Some ([1;3]%nat, [3;11;16]%Z), None) /\
  show2' (lfilter_ssm env0 (v1 [1]%Z) (v1 [-1]%Z) g None Df2 None) = Some (Some ([1;3]%nat, [3;5;6]%Z), None) /\
  (1 * 0 + 2 * 1 + 3 * 0 = 11 * 1 + (5 * 1 + 3 * 0) * 1 + - (5 * 1 + 3 * 3) * 1)%Z.
Proof. repeat split; vm_compute; reflexivity. Qed.
