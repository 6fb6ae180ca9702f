(** C76: scaling that commutes with rounding (sign change, powers of two) passes through the
    filters bit for bit. *)
From Coq Require Import List Arith Lia ZArith Bool QArith Qcanon.
From Verif Require Import Scalar Ordered FloatQ Spec SpecRound SpecFilter SpecLpv Tensor TensorLemmas TensorOps TensorAlg TensorTac TensorList Shapes SpecBits SpecBits2 SpecBits3 SpecScale
  Algebra M_Mat M_Kernels M_LtiSsm P_Kernels P_LtiSsm M_LtiFilter M_Ext M_LpvSsm P_LpvSsm M_LpvFilter P_Filter P_Round M_LtiRecur M_LpvRecur P_Bits P_Bits2 P_Bits3 P_Bits4 P_Bits5 P_Bits6 P_Bits7 P_Scale
  Properties_Round Properties_Bits Properties_Bits2 Properties_Bits3 Properties_Bits4 Properties_Bits5.
Import ListNotations.
Close Scope Qc_scope. Close Scope Q_scope. Open Scope nat_scope.

(** ** The operations of the specifications *)
Section Ops.
Variable R : cops.
Variable s : R -> R.
Hypothesis HS : scales R s.
Let S0 := proj1 HS.
Let Sadd := proj1 (proj2 HS).
Let Smul := proj1 (proj2 (proj2 HS)).
Let Smul' := proj2 (proj2 (proj2 HS)).

Lemma bsum_scale n (f g : nat -> R) : (forall k, k < n -> f k = s (g k)) -> bsum n f = s (bsum n g).
Proof.
  induction n as [|n IH]; intro H; cbn [bsum]; [now rewrite S0|]. rewrite Sadd, IH by (intros; apply H; lia). now rewrite H by lia.
Qed.
Lemma vstate_scale M A z z' u u' n i : (forall m, z' m = s (z m)) -> (forall k m, u' k m = s (u k m)) ->
  vstate (R := R) M A z' u' n i = s (vstate M A z u n i).
Proof.
  intros Hz Hu. revert i. induction n as [|n IH]; intro i; cbn [vstate]; [apply Hz|].
  rewrite Hu, Sadd. f_equal. apply bsum_scale. intros k _. now rewrite IH, Smul.
Qed.
Lemma h_scale M G Bt A Bm z x n i : h_at (R := R) M G Bt A Bm (fun m => s (z m)) (fun k j => s (x k j)) n i = s (h_at M G Bt A Bm z x n i).
Proof.
  unfold h_at. apply vstate_scale; [reflexivity|]. intros k m. unfold in_at.
  destruct G as [K|], (hasb Bt).
  - apply bsum_scale. intros; now rewrite Smul.
  - reflexivity.
  - now rewrite Smul.
  - destruct (m =? 0); [reflexivity|now rewrite S0].
Qed.
Lemma y_scale M G Bt C D oi A Bm Cm Dm z x n p :
  y_at (R := R) M G Bt C D oi A Bm Cm Dm (fun m => s (z m)) (fun k j => s (x k j)) n p = s (y_at M G Bt C D oi A Bm Cm Dm z x n p).
Proof.
  assert (E : out_at M oi (hasb C) (Cm n) (h_at M G Bt A Bm (fun m => s (z m)) (fun k j => s (x k j)) n) p = s (out_at M oi (hasb C) (Cm n) (h_at M G Bt A Bm z x n) p)).
  { unfold out_at. destruct (hasb C).
    - apply bsum_scale. intros k _. now rewrite h_scale, Smul.
    - destruct oi as [i|]; [|apply h_scale]. destruct (pyidx M i); [apply h_scale|now rewrite S0]. }
  unfold y_at. rewrite E. destruct D as [D|]; [|reflexivity]. rewrite Sadd. f_equal. unfold feed_at.
  destruct G as [K|]; [|now rewrite Smul]. destruct (single (Some K) D); [now rewrite Smul|].
  apply bsum_scale. intros; now rewrite Smul.
Qed.
Lemma follows_scale op B N a h x y y' : (forall a h x, op (a : R) (s h) (s x) = s (op a h x)) ->
  follows op B N a h x y -> follows op B N a (fun b => s (h b)) (fun b n => s (x b n)) y' ->
  forall b n, b < B -> n < N -> y' b n = s (y b n).
Proof.
  intros Ho F F' b n Hb. induction n as [|n IH]; intro Hn; rewrite F, F' by assumption; cbn [before]; [apply Ho|].
  rewrite IH by lia. apply Ho.
Qed.

(** ** The calls *)
(** Recursions, sample by sample. *)
Theorem C76_recurrence B N (a init init' x x' : tensor (car R)) af hf xf uf :
  1 <= N -> stepwise uf N -> coef B a af -> coef B init hf -> coef B init' (fun b => s (hf b)) -> is2 x B N xf -> is2 x' B N (fun b n => s (xf b n)) ->
  exists y y' yf, linear_recurrence a init x uf = Ok y /\ linear_recurrence a init' x' uf = Ok y' /\ is2 y B N yf /\ is2 y' B N (fun b n => s (yf b n)).
Proof.
  intros HN Hu Ha Hi Hi' Hx Hx'.
  destruct (C74_lti R B N a init x af hf xf uf HN Hu Ha Hi Hx) as (y & yf & E & Hy & F).
  destruct (C74_lti R B N a init' x' af _ _ uf HN Hu Ha Hi' Hx') as (y' & yf' & E' & Hy' & F').
  exists y, y', yf. split; [exact E|]. split; [exact E'|]. split; [exact Hy|]. eapply is2_ext; [exact Hy'|].
  eapply follows_scale; eauto. intros u v w. unfold op_lti. now rewrite Sadd, Smul.
Qed.
Theorem C76_lpv_recurrence B N (a init init' x x' : tensor (car R)) af hf xf uf :
  1 <= N -> stepwise uf N -> coefv B N a af -> coef B init hf -> coef B init' (fun b => s (hf b)) -> is2 x B N xf -> is2 x' B N (fun b n => s (xf b n)) ->
  exists y y' yf, lpv_linear_recurrence a init x uf = Ok y /\ lpv_linear_recurrence a init' x' uf = Ok y' /\ is2 y B N yf /\ is2 y' B N (fun b n => s (yf b n)).
Proof.
  intros HN Hu Ha Hi Hi' Hx Hx'.
  destruct (C74_lpv R B N a init x af hf xf uf HN Hu Ha Hi Hx) as (y & yf & E & Hy & F).
  destruct (C74_lpv R B N a init' x' af _ _ uf HN Hu Ha Hi' Hx') as (y' & yf' & E' & Hy' & F').
  exists y, y', yf. split; [exact E|]. split; [exact E'|]. split; [exact Hy|]. eapply is2_ext; [exact Hy'|].
  eapply follows_scale; eauto. intros u v w. unfold op_lpv. now rewrite Sadd, Smul'.
Qed.

Lemma hom_from B N M G P run (Y : (nat -> R) -> (nat -> nat -> R) -> nat -> nat -> nat -> R) (H : (nat -> R) -> (nat -> nat -> R) -> nat -> nat -> R) :
  (forall z x b n p, Y (fun m => s (z m)) (fun k j => s (x k j)) b n p = s (Y z x b n p)) ->
  (forall z x b m, H (fun m => s (z m)) (fun k j => s (x k j)) b m = s (H z x b m)) ->
  (forall x zi xf z0, sigv B N G x xf -> init B M zi z0 ->
    exists y zf, run x zi = Ok (y, zf) /\ sigv B N P y (fun b => Y (z0 b) (xf b) b) /\
      match zi with None => zf = None | Some _ => exists z, zf = Some z /\ is2 z B M (fun b => H (z0 b) (xf b) b) end) ->
  homogeneous s B N M G P run.
Proof.
  intros HY HH Hr x x' zi zi' xf z0 Hx Hx' Hz Hz' Hn.
  destruct (Hr x zi xf z0 Hx Hz) as (y & zf & E & Hy & Hf).
  destruct (Hr x' zi' _ _ Hx' Hz') as (y' & zf' & E' & Hy' & Hf').
  exists y, zf, y', zf', (fun b => Y (z0 b) (xf b) b). split; [exact E|]. split; [exact E'|]. split; [exact Hy|]. split.
  - destruct P as [K|]; cbn [sigv] in *; [eapply is3_ext; [exact Hy'|]|eapply is2_ext; [exact Hy'|]]; intros; cbn beta; apply HY.
  - destruct zi as [zi|].
    + right. destruct zi' as [zi'|]; [|destruct Hn as [_ Hn]; discriminate (Hn eq_refl)].
      destruct Hf as (z & -> & Hf), Hf' as (z' & -> & Hf'). exists z, z'. eexists. split; [reflexivity|]. split; [reflexivity|].
      split; [exact Hf|]. eapply is2_ext; [exact Hf'|]. intros; cbn beta; apply HH.
    + left. rewrite (proj1 Hn eq_refl) in Hf'. now repeat split.
Qed.

Hypotheses (mulC : forall a b : R, rmul a b = rmul b a) (conjK : forall a : R, conj (conj a) = a).
Theorem C76_state_space e B N M G P (A : tensor (car R)) Bt C D oi Af Bm Cm Dm :
  1 <= M -> 1 <= N -> sequential e M -> sys B M G P A Bt C D oi Af Bm Cm Dm ->
  homogeneous s B N M G P (fun x zi => state_space e A x Bt C D zi (Some 1) oi).
Proof.
  intros HM HN He HSy.
  apply (hom_from B N M G P _ (fun z x b => y_at M G Bt C D oi (fun _ => Af b) (fun _ => Bm b) (fun _ => Cm b) (fun _ => Dm b) z x)
    (fun z x b => h_at M G Bt (fun _ => Af b) (fun _ => Bm b) z x N)).
  - intros. apply y_scale.
  - intros. apply h_scale.
  - intros x zi xf z0 Hx Hz. exact (lti_exact R mulC conjK e B N M G P A x Bt C D zi oi Af Bm Cm Dm xf z0 HM HN He HSy Hx Hz).
Qed.
Theorem C76_lpv_state_space e pr B N M G P (A : tensor (car R)) Bt C D oi Af Bm Cm Dm :
  1 <= M -> 1 <= N -> sequentialv e pr M -> sysv B N M G P A Bt C D oi Af Bm Cm Dm ->
  homogeneous s B N M G P (fun x zi => lpv_state_space e pr A x Bt C D zi (Some 1) oi).
Proof.
  intros HM HN He HSy.
  apply (hom_from B N M G P _ (fun z x b => y_at M G Bt C D oi (Af b) (Bm b) (Cm b) (Dm b) z x) (fun z x b => h_at M G Bt (Af b) (Bm b) z x N)).
  - intros. apply y_scale.
  - intros. apply h_scale.
  - intros x zi xf z0 Hx Hz. exact (lpv_exact R mulC conjK e pr B N M G P A x Bt C D zi oi Af Bm Cm Dm xf z0 HM HN He HSy Hx Hz).
Qed.
End Ops.

Section Filters.
Variable F : ofield.
Variables (fadd fmul fsub : F -> F -> F) (s : F -> F).
Hypothesis mulC : forall u v : F, fmul u v = fmul v u.
Notation Fl := (flops F fadd fmul fsub).
Notation ten := (tensor (car Fl)).
Hypothesis HS : scales Fl s.

Lemma fh_scale fm M b a (z x : nat -> F) n i :
  form_h F fadd fmul fsub fm M b a (fun m => s (z m)) (fun k => s (x k)) n i = s (form_h F fadd fmul fsub fm M b a z x n i).
Proof.
  destruct HS as (S0 & Sadd & Smul & _). revert i. induction n as [|n IH]; intro i; cbn [form_h]; [reflexivity|].
  symmetry. etransitivity; [apply Sadd|]. symmetry.
  apply (f_equal2 fadd).
  - unfold form_u. destruct fm; try (destruct (i =? 0); [reflexivity|symmetry; exact S0]). symmetry. apply Smul.
  - apply (bsum_scale Fl s HS). intros j _. rewrite IH. symmetry. apply Smul.
Qed.
Lemma fy_scale fm M b a (z x : nat -> F) n :
  form_y F fadd fmul fsub fm M b a (fun m => s (z m)) (fun k => s (x k)) n = s (form_y F fadd fmul fsub fm M b a z x n).
Proof.
  destruct HS as (S0 & Sadd & Smul & _). unfold form_y. cbn beta. symmetry. etransitivity; [apply Sadd|]. symmetry.
  apply (f_equal2 fadd); [|symmetry; apply Smul]. destruct fm; try apply fh_scale; apply (bsum_scale Fl s HS); intros j _; rewrite fh_scale; symmetry; apply Smul.
Qed.
Theorem C76_lfilter e B N nb na M (b a : ten) (bf af : nat -> nat -> F) fm :
  1 <= B -> 1 <= N -> 1 <= nb -> M = Nat.max na (nb - 1) -> 1 <= M -> sequential e M ->
  fcoef (R := F) B nb b bf -> fcoef (R := F) B na a af -> second_form fm ->
  homogeneous (R := Fl) s B N M None None (fun x zi => lfilter_ssm e b a x zi fm (Some 1)).
Proof.
  intros HB HN Hnb EM HM He Hb Ha Hfm.
  apply (hom_from Fl s B N M None None _ (fun z x i n _ => form_y F fadd fmul fsub fm M (fun _ => padz nb (bf i)) (fun _ => padz na (af i)) z (fun n => x n 0) n)
    (fun z x i => form_h F fadd fmul fsub fm M (fun _ => padz nb (bf i)) (fun _ => padz na (af i)) z (fun n => x n 0) N)).
  - intros. apply fy_scale.
  - intros. apply fh_scale.
  - intros x zi xf z0 Hx Hz. exact (C75_lti F fadd fmul fsub mulC e B N nb na M b a x bf af (fun i n => xf i n 0) z0 zi fm HB HN Hnb EM HM Hx He Hb Ha Hz Hfm).
Qed.
Theorem C76_lpv_lfilter e pr B N nb na M (b a : ten) (bf af : nat -> nat -> nat -> F) fm :
  1 <= B -> 1 <= N -> 1 <= nb -> M = Nat.max na (nb - 1) -> 1 <= M -> sequentialv e pr M ->
  vcoef (R := F) B N nb b bf -> vcoef (R := F) B N na a af -> second_form fm -> shapes_ok fm B N (rk b) (rk a) ->
  homogeneous (R := Fl) s B N M None None (fun x zi => lpv_lfilter e pr b a x zi fm Ssm (Some 1)).
Proof.
  intros HB HN Hnb EM HM He Hb Ha Hfm Hs.
  apply (hom_from Fl s B N M None None _ (fun z x i n _ => form_y F fadd fmul fsub fm M (fun n => padz nb (bf i n)) (fun n => padz na (af i n)) z (fun n => x n 0) n)
    (fun z x i => form_h F fadd fmul fsub fm M (fun n => padz nb (bf i n)) (fun n => padz na (af i n)) z (fun n => x n 0) N)).
  - intros. apply fy_scale.
  - intros. apply fh_scale.
  - intros x zi xf z0 Hx Hz. exact (C75_lpv F fadd fmul fsub mulC e pr B N nb na M b a x bf af (fun i n => xf i n 0) z0 zi fm HB HN Hnb EM HM Hx He Hb Ha Hz Hfm Hs).
Qed.
End Filters.
(** Binary floating point of every precision: the sign and powers of two. *)
Theorem C76_float p neg k : scales (flops Qofield (fl_add p) (fl_mul p) (fl_sub p)) (scale2 neg k).
Proof. apply float_scales. Qed.
Print Assumptions C76_recurrence.
Print Assumptions C76_lpv_recurrence.
Print Assumptions C76_state_space.
Print Assumptions C76_lpv_state_space.
Print Assumptions C76_lfilter.
Print Assumptions C76_lpv_lfilter.
Print Assumptions C76_float.

(** ** Examples and counterexamples, 3-bit numbers *)
Example C76_ex fm neg k : second_form fm ->
  homogeneous (R := F3) (scale2 neg k) 1 6 2 None None (fun x zi => lfilter_ssm env0 c_b c_a x zi fm (Some 1)) /\
  homogeneous (R := F3) (scale2 neg k) 1 6 2 None None (fun x zi => lpv_lfilter ext_env false (u_B 0 6) (u_A 0 6) x zi fm Ssm (Some 1)).
Proof.
  intro Hfm. split.
  - apply (C76_lfilter Qofield _ _ _ _ mul3_comm (C76_float 3 neg k) env0 1 6 3 2 2 c_b c_a
      (fun _ k => nth k [q 3 2; q (-7) 8; q 5 8] (q 0 1)) (fun _ k => nth k [q (-5) 4; q 3 4] (q 0 1))); try lia; try exact Hfm.
    + apply seq_env0.
    + exact c_b_is.
    + apply (fc_s (fun k => nth k [q (-5) 4; q 3 4] (q 0 1) : Qofield)); [split; reflexivity|reflexivity].
  - apply (C76_lpv_lfilter Qofield _ _ _ _ mul3_comm (C76_float 3 neg k) ext_env false 1 6 3 2 2 (u_B 0 6) (u_A 0 6) (fun _ => u_b) (fun _ => u_a)); try lia; try exact Hfm.
    + exact seqv_ext.
    + apply (u_B_is 0 6).
    + apply (u_A_is 0 6).
    + destruct Hfm as [-> | ->]; right; lia.
Qed.
Definition outs (x : list Qc) : list (option Q) := map (num (lfilter_ssm env0 c_b c_a (row x) (Some c_z) Df2 (Some 1))) (seq 0 (length x)).
(** The signal times -8. *)
Example C76_values :
  outs c_x = map Some [2 # 1; 5 # 2; 3 # 4; 3 # 2; 2 # 1; -3 # 8]%Q /\
  outs (map (scale2 true 3) c_x) = map Some [-16 # 1; -20 # 1; -6 # 1; -12 # 1; -16 # 1; 3 # 1]%Q.
Proof. split; vm_compute; reflexivity. Qed.
(** The signal 1 gives 3/2, the signal 3 gives 4. *)
Theorem C76_three_refuted : ~ homogeneous (R := F3) (Qcmult (q 3 1)) 1 1 2 None None (fun x zi => lfilter_ssm env0 c_b c_a x zi Df2 (Some 1)).
Proof.
  intro H. destruct (H (row [q 1 1]) (row [q 3 1]) (Some c_z) (Some c_z) (fun _ _ _ => q 1 1) (fun _ _ => q 0 1)) as (y & zf & y' & zf' & yf & E & E' & Hy & Hy' & _).
  - apply row_sig; [reflexivity|]. intros k Hk. destruct k as [|k]; [reflexivity|lia].
  - apply row_sig; [reflexivity|]. intros k Hk. destruct k as [|k]; [|lia]. apply Qc_is_canon. reflexivity.
  - apply (init_is2 F3), c_z_is.
  - apply (init_is2 F3). eapply is2_ext; [exact c_z_is|]. intros. apply Qc_is_canon. reflexivity.
  - split; discriminate.
  - assert (V : forall x y zf, lfilter_ssm env0 c_b c_a (row x) (Some c_z) Df2 (Some 1) = Ok (y, zf) -> num (lfilter_ssm env0 c_b c_a (row x) (Some c_z) Df2 (Some 1)) 0 = Some (this (at_ (y : ten3) [0; 0]))).
    { intros x0 y0 z0 ->. reflexivity. }
    apply V in E, E'. rewrite (proj2 Hy 0 0) in E by lia. rewrite (proj2 Hy' 0 0) in E' by lia. clear -E E'.
    assert (X : num (lfilter_ssm env0 c_b c_a (row [q 1 1]) (Some c_z) Df2 (Some 1)) 0 = Some (3 # 2)%Q /\
                num (lfilter_ssm env0 c_b c_a (row [q 3 1]) (Some c_z) Df2 (Some 1)) 0 = Some (4 # 1)%Q) by (split; vm_compute; reflexivity).
    destruct X as [X X']. rewrite X in E. rewrite X' in E'. clear X X'. injection E as E. injection E' as E'.
    assert (K : yf 0 0 0 = q 3 2) by (apply Qc_is_canon; rewrite <- E; reflexivity). rewrite K in E'. vm_compute in E'. discriminate E'.
Qed.
Print Assumptions C76_three_refuted.
