(** Cubic spline coefficients: the left end, and the result of the model. *)
From Coq Require Import List Arith Lia ZArith Bool.
From Verif Require Import Scalar Tensor TensorLemmas TensorOps TensorAlg TensorTac TensorList
  Spec Shapes Algebra Ordered M_LtiRecur P_LtiRecur M_Kernels P_Helion M_LtiSsm P_Poly M_Interp SpecInterp P_Interp.
Import ListNotations.
Open Scope cr_scope.

Section Left.
Variable F : cfield.
Add Ring Rr : (r_th F).
Variable r : F.
Hypothesis Hr : pole r.
Hypothesis H6 : (rnat 6 : F) <> 0.
Variables (L : nat) (x : nat -> F).
Hypothesis HL : (2 <= L)%nat.
Let HL1 : (1 <= L)%nat := le_S_n _ _ (le_S _ _ HL).

(** The residual at the left end, scipy padding. *)
Lemma cs_left_scipy :
  (1 + r) * (mirror true L (cs F r true L x) (-1) + rnat 4 * cs F r true L x 0 + cs F r true L x 1 - rnat 6 * x 0%nat)
  = - (rnat 6 * rpow r (S L) * hs F r true L x (L - 1)).
Proof.
  change (mirror true L (cs F r true L x) (-1)) with (cs F r true L x 0).
  pose proof (cs_back F r true L x HL1 0 ltac:(lia)) as H0.
  assert (HG : hm F r true L x (L + L - 1) = rpow r L * hs F r true L x (L - 1) + czi F r true L x).
  { unfold hm. replace (S (L + L - 1)) with (L + L)%nat by lia. rewrite lin_rec_closed. f_equal.
    - rewrite <- (hm_hs F r true L x HL1) by lia. unfold hm. do 2 f_equal. lia.
    - unfold czi. rewrite (bsum_rev L (fun k => x k * rpow r k)). apply bsum_ext. intros j Hj.
      unfold mx, mlen. rewrite (proj2 (Nat.ltb_ge _ _)) by lia. replace (L + L - 1 - (L + j))%nat with (L - 1 - j)%nat by lia. ring. }
  pose proof (cp_cs F r Hr H6 true L x ltac:(lia) 0%nat ltac:(lia)) as Hc. unfold cp, mlen in Hc.
  rewrite Nat.sub_0_r, HG, (hm_hs F r true L x HL1 0) in Hc by lia. rewrite (hs_0 F r true L x) in Hc, H0.
  pose proof (K_D F r Hr H6) as HK.
  apply (r_cancel F r Hr). set (c0 := cs F r true L x 0) in *. set (c1 := cs F r true L x 1) in *.
  set (z := czi F r true L x) in *. set (H := hs F r true L x (L - 1)) in *. cbn [rpow].
  assert (E1 : r * c1 = c0 + rnat 6 * r * (r * z + x 0%nat)).
  { transitivity (c0 - (c0 - r * c1)); [ring|]. rewrite H0. ring. }
  transitivity ((1 + r) * ((1 + rnat 5 * r) * c0 + rnat 6 * r * (r * z + x 0%nat) - rnat 6 * r * x 0%nat)).
  { transitivity ((1 + r) * (r * c0 + rnat 4 * r * c0 + r * c1 - rnat 6 * r * x 0%nat)); [ring|]. rewrite E1. cbn [rnat]. ring. }
  assert (E2 : (1 + r) * ((1 + rnat 5 * r) * c0) = - (rnat 6 * r * r * ((1 + r) * z + rpow r L * H))).
  { transitivity (r * ((1 - r * r) * c0)).
    - apply (modr F r Hr _ _ ((1 + r) * c0)). cbn [rnat]. ring.
    - rewrite <- Hc. transitivity (r * (K F r * (1 - r * r)) * ((1 + r) * z + rpow r L * H)); [ring|]. rewrite HK. ring. }
  transitivity ((1 + r) * ((1 + rnat 5 * r) * c0) + (1 + r) * (rnat 6 * r * (r * z + x 0%nat) - rnat 6 * r * x 0%nat)); [ring|].
  rewrite E2. ring.
Qed.

(** The residual at the left end, reflect padding. *)
Lemma cs_left_reflect :
  mirror false L (cs F r false L x) (-1) + rnat 4 * cs F r false L x 0 + cs F r false L x 1 - rnat 6 * x 0%nat
  = - (rnat 6 * rpow r (L - 1) * (hs F r false L x (L - 1) - x (L - 1)%nat)).
Proof.
  change (mirror false L (cs F r false L x) (-1)) with (cs F r false L x 1).
  pose proof (cs_back F r false L x HL1 0 ltac:(lia)) as H0.
  assert (Hh0 : hs F r false L x 0 = bsum L (fun k => x k * rpow r k)).
  { rewrite hs_0. unfold czi. replace L with (S (L - 1)) at 2 by lia. rewrite bsum_S_l.
    rewrite (bsum_ext (L - 1) (fun i => x (S i) * rpow r (S i)) (fun i => r * (x (1 + i)%nat * rpow r i))).
    - rewrite bsum_mul_l. cbn [rpow]. ring.
    - intros i Hi. cbn [rpow Nat.add]. ring. }
  assert (HG : hm F r false L x (L + (L - 1) - 1) = rpow r (L - 1) * hs F r false L x (L - 1) + bsum (L - 1) (fun k => x k * rpow r k)).
  { unfold hm. replace (S (L + (L - 1) - 1)) with (L + (L - 1))%nat by lia. rewrite lin_rec_closed. f_equal.
    - rewrite <- (hm_hs F r false L x HL1) by lia. unfold hm. do 2 f_equal. lia.
    - rewrite (bsum_rev (L - 1) (fun k => x k * rpow r k)). apply bsum_ext. intros j Hj.
      unfold mx, mlen. rewrite (proj2 (Nat.ltb_ge _ _)) by lia.
      replace (L + (L - 1) - 1 - (L + j))%nat with (L - 1 - 1 - j)%nat by lia. ring. }
  assert (Hh0' : hs F r false L x 0 = bsum (L - 1) (fun k => x k * rpow r k) + x (L - 1)%nat * rpow r (L - 1)).
  { rewrite Hh0. replace L with (S (L - 1)) at 1 by lia. reflexivity. }
  pose proof (cp_cs F r Hr H6 false L x ltac:(lia) 0%nat ltac:(lia)) as Hc. unfold cp, mlen in Hc.
  rewrite Nat.sub_0_r, HG, (hm_hs F r false L x HL1 0) in Hc by lia. 
  pose proof (K_D F r Hr H6) as HK.
  set (c0 := cs F r false L x 0) in *. set (c1 := cs F r false L x 1) in *. set (H := hs F r false L x (L - 1)) in *.
  set (S0 := bsum (L - 1) (fun k => x k * rpow r k)) in *. set (h0 := hs F r false L x 0) in *.
  assert (E1 : r * c1 = c0 + rnat 6 * r * h0).
  { transitivity (c0 - (c0 - r * c1)); [ring|]. rewrite H0. ring. }
  apply (r_cancel F r Hr).
  transitivity ((1 + 1) * (r * c1) + rnat 4 * r * c0 - rnat 6 * r * x 0%nat); [ring|]. rewrite E1.
  transitivity ((1 - r * r) * c0 + rnat 6 * (1 + 1) * r * h0 - rnat 6 * r * x 0%nat).
  { apply (modr F r Hr _ _ c0). cbn [rnat]. ring. }
  rewrite <- Hc. transitivity ((K F r * (1 - r * r)) * (h0 + (rpow r (L - 1) * H + S0) - x 0%nat) + rnat 6 * (1 + 1) * r * h0 - rnat 6 * r * x 0%nat); [ring|].
  rewrite HK, Hh0'. ring.
Qed.
End Left.

Section Model.
Variable F : cfield.
Notation ten := (tensor (car F)).
Add Ring Rr2 : (r_th F).
Variable e : env.
Variable r : F.

(** Available back-ends. *)
Definition spl_env (uf : nat) : Prop :=
  env_ok e /\ (ext e = true -> cuda e = true -> ext_cuda e = true) /\ (1 <= uf)%nat.

Lemma first_order_spec B N (x zi : ten) xf zf (b : option ten) bf uf :
  spl_env uf -> (1 <= B)%nat -> (1 <= N)%nat -> is2 x B N xf -> is1 zi B zf ->
  match b with None => True | Some bt => is0 bt bf end ->
  exists y, first_order_filt e x (mk0 r) zi b uf = Ok y /\
    is2 y B N (fun i n => lin_rec (fun _ => r) (zf i) (fun k => match b with None => xf i k | Some _ => xf i k * bf end) (S n)).
Proof.
  intros (He & Hc & Hu) HB HN Hx Hz Hb. unfold first_order_filt.
  assert (exists xb, match b with None => Ok x | Some b0 => tmul x b0 end = Ok xb /\
    is2 xb B N (fun i k => match b with None => xf i k | Some _ => xf i k * bf end)) as (xb & E & Hxb).
  { destruct b as [bt|]; [|now exists x]. apply is2_P1 in Hx. destruct (P1_ews rmul _ _ _ _ _ _ Hx Hb) as (y & E & Hy).
    exists y. split; [exact E|]. apply is2_P1. exact Hy. }
  rewrite E. cbn [bind]. unfold size. rewrite (proj1 Hx). cbn [nth].
  destruct (expand_0 (mk0 r) r B ltac:(split; reflexivity)) as (a & Ea & Ha). rewrite Ea. cbn [bind].
  destruct (ext e) eqn:Ee.
  - destruct (expand_pre1 zi [] B zf Hz) as (z' & Ez & Hz'). cbn [app] in Ez. rewrite Ez. cbn [bind].
    unfold LTIRecurrence_forward. apply P1_nil in Hz'.
    apply (op_lti_recur_spec F e B N a z' xb (fun _ => r) zf _ He Ee (fun H => Hc eq_refl H) HB (coef_B Ha) Hz' Hxb).
  - apply (linear_recurrence_spec F B N a zi xb (fun _ => r) zf _ uf HB HN Hu (coef_B Ha) (coef_B Hz) Hxb).
Qed.

Lemma czi_spec B L (x : ten) xf (sc : bool) : is2 x B L xf ->
  exists z, (if sc then matmul x (powers r L) else matmul (slice 1 (Some 1%Z) None x) (powers r (L - 1))) = Ok z /\
    is1 z B (fun b => czi F r sc L (xf b)).
Proof.
  intro Hx. assert (Hp : forall n, is1 (powers r n) n (rpow r)) by (intro n; split; [reflexivity|intros; reflexivity]).
  destruct sc.
  - apply is2_P in Hx. destruct (mmv _ _ _ _ _ _ _ _ Hx (Hp L)) as (z & E & Hz). exists z. split; [exact E|].
    apply P1_nil in Hz. exact Hz.
  - assert (Hs : is2 (slice 1 (Some 1%Z) None x) B (L - 1) (fun b k => xf b (1 + k)%nat)).
    { destruct L as [|L]; [split; [unfold slice, size; cbn [shape]; now rewrite (proj1 Hx)|intros; cbn in *; lia]|].
      apply is2_P1 in Hx. apply is2_P1.
      exact (P1_slice0 _ _ (S L) _ 1%nat (Some 1%Z) None 1 (S L - 1) Hx eq_refl (pyb_1 (S L) 0 ltac:(lia)) eq_refl). }
    apply is2_P in Hs. destruct (mmv _ _ _ _ _ _ _ _ Hs (Hp (L - 1)%nat)) as (z & E & Hz). exists z. split; [exact E|].
    apply P1_nil in Hz. exact Hz.
Qed.

Theorem cubic_coeff_spec B L (x : ten) xf par sc uf : pole r -> (rnat 6 : F) <> 0 ->
  spl_env uf -> (1 <= B)%nat -> (1 <= L)%nat -> (par = false -> 2 <= L)%nat -> is2 x B L xf ->
  exists c, cubic_coeff e r x par sc uf = Ok c /\ is2 c B L (fun b k => cs F r sc L (xf b) k).
Proof.
  intros Hr H6 He HB HL HL2 Hx. unfold cubic_coeff.
  assert (size x 1 = L) as -> by (unfold size; now rewrite (proj1 Hx)).
  destruct (czi_spec B L x xf sc Hx) as (z & Ez & Hz). rewrite Ez. cbn [bind].
  destruct par.
  - (* partial fractions *)
    pose proof Hx as Hx1. apply is2_P1 in Hx1.
    assert (exists mxt, cat 1 [x; flip 1 (if sc then x else slice 1 None (Some (-1)%Z) x)] = Ok mxt /\
      is2 mxt B (mlen sc L) (fun b j => mx F sc L (xf b) j)) as (mxt & Em & Hm).
    { set (y := if sc then x else slice 1 None (Some (-1)%Z) x).
      assert (Hy : isP1 y [B] (mlen sc L - L) (fun q k => xf (nth 0 q 0%nat) k)).
      { subst y. unfold mlen. destruct sc.
        - replace (L + L - L)%nat with L by lia. exact Hx1.
        - replace (L + (L - 1) - L)%nat with (L - 1)%nat by lia.
          exact (P1_slice0 _ _ L _ 1%nat None (Some (-1)%Z) 0 (L - 1) Hx1 eq_refl eq_refl ltac:(rewrite pyb_m1; lia)). }
      pose proof (P1_flip0 _ _ _ _ 1%nat Hy eq_refl) as Hf.
      destruct (P1_cat0 _ _ _ _ _ _ _ 1%nat Hx1 Hf eq_refl) as (m & E & Hm'). exists m. split; [exact E|].
      pose proof (mlen_ge sc L ltac:(lia)) as Hg.
      apply is2_P1. eapply isP1_ext'; [exact Hm'|lia|]. intros q j Hq Hj. cbn beta. unfold mx.
      destruct (Nat.ltb_spec j L); [reflexivity|]. f_equal. lia. }
    rewrite Em. cbn [bind].
    pose proof (mlen_ge sc L ltac:(lia)) as (Hg1 & Hg2 & Hg3).
    destruct (first_order_spec B (mlen sc L) mxt z _ _ None 0 uf He HB ltac:(lia) Hm Hz Logic.I) as (h & Eh & Hh).
    rewrite Eh. cbn [bind]. apply is2_P1 in Hh.
    pose proof (P1_slice0 _ _ _ _ 1%nat None (Some (Z.of_nat L)) 0 L Hh eq_refl eq_refl ltac:(rewrite pyb_le; lia)) as Hc.
    pose proof (P1_slice0 _ _ _ _ 1%nat (Some (- Z.of_nat L)%Z) None (mlen sc L - L) L Hh eq_refl ltac:(rewrite pyb_neg; lia) ltac:(rewrite pyb_none; lia)) as Ha.
    pose proof (P1_flip0 _ _ _ _ 1%nat Ha eq_refl) as Ha'. clear Ha.
    destruct (P1_ew_same radd _ _ _ _ _ _ Hc Ha') as (s & Es & Hs). unfold tadd. rewrite Es. cbn [bind].
    destruct (P1_ew_same rsub _ _ _ _ _ _ Hs Hx1) as (d & Ed & Hd). unfold tsub. rewrite Ed. cbn [bind].
    destruct (P1_sew rmul (mk0 (- six * r * rinv (1 - r * r))) _ _ _ _ (- six * r * rinv (1 - r * r)) Hd ltac:(split; reflexivity)) as (c & Ec & Hcc).
    exists c. split; [exact Ec|]. apply is2_P1. eapply isP1_ext; [exact Hcc|]. intros q k Hq Hk. cbn beta.
    rewrite <- (cp_cs F r Hr H6 sc L (xf (nth 0 q 0%nat)) HL k Hk). unfold cp, K, six, hm.
    replace (mlen sc L - L + (L - 1 - k))%nat with (mlen sc L - 1 - k)%nat by lia. reflexivity.
  - (* cascade *)
    specialize (HL2 eq_refl).
    destruct (first_order_spec B L x z _ _ None 0 uf He HB HL Hx Hz Logic.I) as (h & Eh & Hh).
    rewrite Eh. cbn [bind].
    assert (Hh' : is2 h B L (fun b k => hs F r sc L (xf b) k)) by exact Hh. clear Hh. rename Hh' into Hh.
    apply is2_P1 in Hh.
    assert (Hsel : select 1 (-1) h = Ok (sel 1 (L - 1) h)).
    { apply select_ok. unfold size. rewrite (proj1 Hh). cbn [nth app]. apply pyidx_m1. lia. }
    rewrite Hsel. cbn [bind].
    pose proof (P1_sel0 _ _ _ _ 1%nat (L - 1)%nat Hh eq_refl ltac:(lia)) as Hhl.
    pose proof Hx as Hx1. apply is2_P1 in Hx1.
    assert (exists zi, (if sc then tmul (mk0 (r * rinv (r - 1))) (sel 1 (L - 1) h)
      else let* xl := select 1 (-1) x in let* h2 := tmul (mk0 (1 + 1)) (sel 1 (L - 1) h) in
           let* d := tsub h2 xl in tmul (mk0 (- r * rinv (1 - r * r))) d)%res = Ok zi /\
        isP0 zi [B] (fun q => lastc F r sc L (xf (nth 0 q 0%nat)))) as (zi & Ezi & Hzi).
    { destruct sc.
      - destruct (P0_sew rmul (mk0 (r * rinv (r - 1))) _ _ (r * rinv (r - 1)) _ ltac:(split; reflexivity) Hhl) as (y & E & Hy).
        exists y. split; [exact E|exact Hy].
      - assert (Hselx : select 1 (-1) x = Ok (sel 1 (L - 1) x)).
        { apply select_ok. unfold size. rewrite (proj1 Hx1). cbn [nth app]. apply pyidx_m1. lia. }
        rewrite Hselx. cbn [bind].
        pose proof (P1_sel0 _ _ _ _ 1%nat (L - 1)%nat Hx1 eq_refl ltac:(lia)) as Hxl.
        destruct (P0_sew rmul (mk0 (1 + 1)) _ _ (1 + 1) _ ltac:(split; reflexivity) Hhl) as (y & E & Hy).
        unfold tmul. rewrite E. cbn [bind].
        destruct (P0_ew_same rsub _ _ _ _ _ Hy Hxl) as (d & Ed & Hd). unfold tsub. rewrite Ed. cbn [bind].
        destruct (P0_sew rmul (mk0 (- r * rinv (1 - r * r))) _ _ (- r * rinv (1 - r * r)) _ ltac:(split; reflexivity) Hd) as (w & Ew & Hw).
        exists w. split; [exact Ew|exact Hw]. }
    rewrite Ezi. cbn [bind].
    pose proof (P1_slice0 _ _ _ _ 1%nat None (Some (-1)%Z) 0 (L - 1) Hh eq_refl eq_refl ltac:(rewrite pyb_m1; lia)) as Hh1.
    pose proof (P1_flip0 _ _ _ _ 1%nat Hh1 eq_refl) as Hh2. clear Hh1.
    assert (Hh3 : is2 (flip 1 (slice 1 None (Some (-1)%Z) h)) B (L - 1) (fun b j => hs F r sc L (xf b) (L - 2 - j))).
    { apply is2_P1. eapply isP1_ext; [exact Hh2|]. intros q j Hq Hj. cbn beta. f_equal. lia. }
    pose proof (proj2 (is1_P0 zi B (fun b => lastc F r sc L (xf b))) Hzi) as Hzi1.
    destruct (first_order_spec B (L - 1) _ zi _ _ (Some (mk0 (- r))) (- r) uf He HB ltac:(lia) Hh3 Hzi1 ltac:(split; reflexivity)) as (cf & Ecf & Hcf).
    rewrite Ecf. cbn [bind]. apply is2_P1 in Hcf.
    pose proof (P1_flip0 _ _ _ _ 1%nat Hcf eq_refl) as Hcf'.
    pose proof (P0_unsq0 zi [B] _ (rk zi) Hzi ltac:(rewrite (P0_rk _ _ _ Hzi); reflexivity)) as Hun.
    destruct (P1_cat0 _ _ _ _ _ _ _ 1%nat Hcf' Hun eq_refl) as (c & Ec & Hc). rewrite Ec. cbn [bind].
    destruct (P1_ews rmul _ (mk0 six) _ _ _ six Hc ltac:(split; reflexivity)) as (w & Ew & Hw).
    exists w. split; [exact Ew|]. apply is2_P1. eapply isP1_ext'; [exact Hw|lia|]. intros q k Hq Hk. cbn beta.
    unfold cs, six. f_equal. destruct (Nat.ltb_spec k (L - 1)) as [H|H].
    + replace (S (L - 1 - 1 - k)) with (L - 1 - k)%nat by lia. reflexivity.
    + replace (L - 1 - k)%nat with 0%nat by lia. reflexivity.
Qed.
End Model.
