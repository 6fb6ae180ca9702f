(** C54: second derivatives.  Differentiating a backward function in a direction v (forward
    over reverse) gives the derivative of the gradient: its inner product with a direction
    u is the eps1 eps2 coefficient of the loss along u and v. *)
From Coq Require Import List Arith Lia ZArith Bool Ring.
From Verif Require Import Scalar Tensor TensorLemmas TensorOps TensorAlg TensorTac Spec Shapes Algebra
  M_Mat M_Kernels P_KernelOps P_Helion M_LtiSsm P_LtiSsm M_Ext M_LpvSsm P_LpvSsm
  M_Autograd SpecAutograd P_Autograd P_Autograd2 P_Autograd3 M_Autograd2 P_Autograd4 Properties_Autograd.
Import ListNotations.
Local Open Scope nat_scope.
Local Open Scope cr_scope.

(** ** Vocabulary: t + eps1 v + eps2 u (eps1^2 = eps2^2 = 0), and the coefficients of eps2
    and of eps1 eps2. *)
Definition along {R : cring} (t : tensor R) (v u : option (tensor R)) : tensor (dual (dual R)) :=
  mkT (shape t) (fun i => ((at_ t i, match v with Some v => at_ v i | None => r0 end),
                           (match u with Some u => at_ u i | None => r0 end, r0))).
Definition d2 {R : cring} (t : tensor (dual (dual R))) : tensor R := mkT (shape t) (fun i => fst (snd (at_ t i))).
Definition d12 {R : cring} (t : tensor (dual (dual R))) : tensor R := mkT (shape t) (fun i => snd (snd (at_ t i))).
(** The gradient and its derivative, from a tensor with a tangent. *)
Definition grad {R : cring} (t : tensor (dual R)) : tensor R := primal t.
Definition dgrad {R : cring} (t : tensor (dual R)) : tensor R := tangent t.

Lemma along_two (R : cring) (t : tensor R) v u : two R t v u = along t v u.
Proof. now destruct v, u. Qed.

Theorem C54_LTIMatrixRecurrence :
  forall (R : cring) e B N M (A zi x g : tensor R) (vA vz vx vg : option (tensor R)) Af zf xf gf,
  lti_op_avail e M -> (1 <= N)%nat -> matc B M A Af -> is2 zi B M zf -> is3 x B N M xf -> is3 g B N M gf ->
  like A vA -> like zi vz -> like x vx -> like g vg ->
  exists Y GA GZ GX, LTIMatrixRecurrence_fwdad e (lift A vA) (lift zi vz) (lift x vx) = Ok Y /\
    (forall nA nz nx, LTIMatrixRecurrence_backward_fwdad e (nA, nz, nx) (lift A vA) (lift zi vz) Y (lift g vg)
                      = Ok (grad_of nA GA, grad_of nz GZ, grad_of nx GX)) /\
    shape GA = shape A /\ shape GZ = shape zi /\ shape GX = shape x /\
    forall uA uz ux, like A uA -> like zi uz -> like x ux ->
    exists Z, LTIMatrixRecurrence_forward e (along A vA uA) (along zi vz uz) (along x vx ux) = Ok Z /\
      tdot g (d2 Z) = odot (Some (grad GA)) uA + odot (Some (grad GZ)) uz + odot (Some (grad GX)) ux /\
      tdot g (d12 Z) + odot vg (Some (d2 Z))
        = odot (Some (dgrad GA)) uA + odot (Some (dgrad GZ)) uz + odot (Some (dgrad GX)) ux.
Proof.
  intros R e B N M A zi x g vA vz vx vg Af zf xf gf He HN Ha Hz Hx Hg La Lz Lx Lg.
  destruct (lift_matc R A vA B M Af Ha La) as (daf & _ & DA).
  destruct (lift_is2 R zi vz B M zf Hz Lz) as (dzf & _ & DZ).
  destruct (lift_is3 R x vx B N M xf Hx Lx) as (dxf & _ & DX).
  destruct (lift_is3 R g vg B N M gf Hg Lg) as (dgf & _ & DG).
  pose (op := LTIMatrixRecurrence_fwdad (R := R) e).
  assert (Hop : runs_lti (dual R) op B M) by (apply runs_lti_jvp; apply LTIMatrixRecurrence_runs; exact He).
  pose proof (LTIMatrixRecurrence_runs (dual (dual R)) e B M He) as HopD.
  destruct (lti_reverse (dual R) op op _ B N M _ _ _ _ None None None _ _ _ _ Hop Hop HopD HN DA DZ DX DG I I I)
    as (Y & t0 & Y0 & GA & GZ & GX & E1 & _ & _ & _ & Eb & S1 & S2 & S3 & _ & _).
  exists Y, GA, GZ, GX. split; [exact E1|]. split; [exact Eb|]. repeat (split; [assumption|]).
  intros uA uz ux Ua Uz Ux.
  destruct (lti_reverse (dual R) op op _ B N M _ _ _ _ _ _ _ _ _ _ _ Hop Hop HopD HN DA DZ DX DG
              (like_two R A vA uA Ua) (like_two R zi vz uz Uz) (like_two R x vx ux Ux))
    as (Y' & t & Z & GA' & GZ' & GX' & E1' & EZ & _ & _ & Eb' & _ & _ & _ & I1 & _).
  rewrite E1 in E1'. injection E1' as <-.
  specialize (Eb true true true). rewrite Eb' in Eb. cbn in Eb. injection Eb as -> -> ->.
  exists Z. rewrite <- !along_two. split; [exact EZ|].
  rewrite (odot_dual R GA), (odot_dual R GZ), (odot_dual R GX) in I1.
  change (eps (R := dual R) Z) with (tangent (R := dual R) Z) in I1. rewrite tdot_dual in I1.
  rewrite (tangent_lift R g vg _ Lg) in I1.
  split; [exact (f_equal fst I1)|exact (f_equal snd I1)].
Qed.
Print Assumptions C54_LTIMatrixRecurrence.
Theorem C54_MatrixRecurrence :
  forall (R : cring) e pr B N M (A zi x g : tensor R) (vA vz vx vg : option (tensor R)) Af zf xf gf,
  (1 <= B)%nat -> lpv_op_avail e pr M -> (1 <= N)%nat -> matv B N M A Af -> is2 zi B M zf -> is3 x B N M xf -> is3 g B N M gf ->
  like A vA -> like zi vz -> like x vx -> like g vg ->
  exists Y GA GZ GX, MatrixRecurrence_fwdad e pr (lift A vA) (lift zi vz) (lift x vx) = Ok Y /\
    (forall nA nz nx, MatrixRecurrence_backward_fwdad e pr (nA, nz, nx) (lift A vA) (lift zi vz) Y (lift g vg)
                      = Ok (grad_of nA GA, grad_of nz GZ, grad_of nx GX)) /\
    shape GA = shape A /\ shape GZ = shape zi /\ shape GX = shape x /\
    forall uA uz ux, like A uA -> like zi uz -> like x ux ->
    exists Z, MatrixRecurrence_forward e pr (along A vA uA) (along zi vz uz) (along x vx ux) = Ok Z /\
      tdot g (d2 Z) = odot (Some (grad GA)) uA + odot (Some (grad GZ)) uz + odot (Some (grad GX)) ux /\
      tdot g (d12 Z) + odot vg (Some (d2 Z))
        = odot (Some (dgrad GA)) uA + odot (Some (dgrad GZ)) uz + odot (Some (dgrad GX)) ux.
Proof.
  intros R e pr B N M A zi x g vA vz vx vg Af zf xf gf HB He HN Ha Hz Hx Hg La Lz Lx Lg.
  destruct (lift_matv R A vA B N M Af Ha La) as (daf & _ & DA).
  destruct (lift_is2 R zi vz B M zf Hz Lz) as (dzf & _ & DZ).
  destruct (lift_is3 R x vx B N M xf Hx Lx) as (dxf & _ & DX).
  destruct (lift_is3 R g vg B N M gf Hg Lg) as (dgf & _ & DG).
  pose (op := MatrixRecurrence_fwdad (R := R) e pr).
  assert (Hop : runs_lpv (dual R) op B M) by (apply runs_lpv_jvp; apply MatrixRecurrence_runs; assumption).
  pose proof (MatrixRecurrence_runs (dual (dual R)) e pr B M HB He) as HopD.
  destruct (lpv_reverse (dual R) op op _ B N M _ _ _ _ None None None _ _ _ _ Hop Hop HopD HN DA DZ DX DG I I I)
    as (Y & t0 & Y0 & GA & GZ & GX & E1 & _ & _ & _ & Eb & S1 & S2 & S3 & _ & _).
  exists Y, GA, GZ, GX. split; [exact E1|]. split; [exact Eb|]. repeat (split; [assumption|]).
  intros uA uz ux Ua Uz Ux.
  destruct (lpv_reverse (dual R) op op _ B N M _ _ _ _ _ _ _ _ _ _ _ Hop Hop HopD HN DA DZ DX DG
              (like_two R A vA uA Ua) (like_two R zi vz uz Uz) (like_two R x vx ux Ux))
    as (Y' & t & Z & GA' & GZ' & GX' & E1' & EZ & _ & _ & Eb' & _ & _ & _ & I1 & _).
  rewrite E1 in E1'. injection E1' as <-.
  specialize (Eb true true true). rewrite Eb' in Eb. cbn in Eb. injection Eb as -> -> ->.
  exists Z. rewrite <- !along_two. split; [exact EZ|].
  rewrite (odot_dual R GA), (odot_dual R GZ), (odot_dual R GX) in I1.
  change (eps (R := dual R) Z) with (tangent (R := dual R) Z) in I1. rewrite tdot_dual in I1.
  rewrite (tangent_lift R g vg _ Lg) in I1.
  split; [exact (f_equal fst I1)|exact (f_equal snd I1)].
Qed.
Print Assumptions C54_MatrixRecurrence.
Theorem C54_LTIRecurrence :
  forall (R : cring) e B N (A zi x g : tensor R) (vA vz vx vg : option (tensor R)) Af zf xf gf,
  env_ok e -> has2 e -> (1 <= B)%nat -> (1 <= N)%nat -> coef B A Af -> is1 zi B zf -> is2 x B N xf -> is2 g B N gf ->
  like A vA -> like zi vz -> like x vx -> like g vg ->
  exists Y GA GZ GX, LTIRecurrence_fwdad e (lift A vA) (lift zi vz) (lift x vx) = Ok Y /\
    (forall nA nz nx, LTIRecurrence_backward_fwdad e (nA, nz, nx) (lift A vA) (lift zi vz) Y (lift g vg)
                      = Ok (grad_of nA GA, grad_of nz GZ, grad_of nx GX)) /\
    shape (engine_reduce (lift A vA) GA) = shape A /\ shape GZ = shape zi /\ shape GX = shape x /\
    forall uA uz ux, like A uA -> like zi uz -> like x ux ->
    exists Z, LTIRecurrence_forward e (along A vA uA) (along zi vz uz) (along x vx ux) = Ok Z /\
      tdot g (d2 Z) = odot (Some (grad (engine_reduce (lift A vA) GA))) uA + odot (Some (grad GZ)) uz + odot (Some (grad GX)) ux /\
      tdot g (d12 Z) + odot vg (Some (d2 Z))
        = odot (Some (dgrad (engine_reduce (lift A vA) GA))) uA + odot (Some (dgrad GZ)) uz + odot (Some (dgrad GX)) ux.
Proof.
  intros R e B N A zi x g vA vz vx vg Af zf xf gf He [H1 H2] HB HN Ha Hz Hx Hg La Lz Lx Lg.
  destruct (lift_coef R A vA B Af Ha La) as (daf & _ & DA).
  destruct (lift_is1 R zi vz B zf Hz Lz) as (dzf & _ & DZ).
  destruct (lift_is2 R x vx B N xf Hx Lx) as (dxf & _ & DX).
  destruct (lift_is2 R g vg B N gf Hg Lg) as (dgf & _ & DG).
  pose (op := LTIRecurrence_fwdad (R := R) e).
  assert (Hop : runs_sc (dual R) op B) by (apply runs_sc_jvp; apply lti_recur_runs; assumption).
  pose proof (lti_recur_runs (dual (dual R)) e B He H1 H2 HB) as HopD.
  destruct (scalar_reverse (dual R) op _ B N _ _ _ _ None None None _ _ _ _ Hop HopD HN DA DZ DX DG I I I)
    as (Y & t0 & Y0 & GA & GZ & GX & E1 & _ & _ & _ & Eb & S1 & S2 & S3 & _ & _).
  exists Y, GA, GZ, GX. split; [exact E1|]. split; [exact Eb|]. repeat (split; [assumption|]).
  intros uA uz ux Ua Uz Ux.
  destruct (scalar_reverse (dual R) op _ B N _ _ _ _ _ _ _ _ _ _ _ Hop HopD HN DA DZ DX DG
              (like_two R A vA uA Ua) (like_two R zi vz uz Uz) (like_two R x vx ux Ux))
    as (Y' & t & Z & GA' & GZ' & GX' & E1' & EZ & _ & _ & Eb' & _ & _ & _ & I1 & _).
  rewrite E1 in E1'. injection E1' as <-.
  specialize (Eb true true true). rewrite Eb' in Eb. cbn in Eb. injection Eb as -> -> ->.
  exists Z. rewrite <- !along_two. split; [exact EZ|].
  rewrite (odot_dual R (engine_reduce (lift A vA) GA)), (odot_dual R GZ), (odot_dual R GX) in I1.
  change (eps (R := dual R) Z) with (tangent (R := dual R) Z) in I1. rewrite tdot_dual in I1.
  rewrite (tangent_lift R g vg _ Lg) in I1.
  split; [exact (f_equal fst I1)|exact (f_equal snd I1)].
Qed.
Print Assumptions C54_LTIRecurrence.

Lemma LTIM_d12_sym (R : cring) e B N M (A zi x g : tensor R) vA vz vx uA uz ux Af zf xf gf Z Z' :
  lti_op_avail e M -> matc B M A Af -> is2 zi B M zf -> is3 x B N M xf -> is3 g B N M gf ->
  like A vA -> like zi vz -> like x vx -> like A uA -> like zi uz -> like x ux ->
  LTIMatrixRecurrence_forward e (along A vA uA) (along zi vz uz) (along x vx ux) = Ok Z ->
  LTIMatrixRecurrence_forward e (along A uA vA) (along zi uz vz) (along x ux vx) = Ok Z' ->
  tdot g (d12 Z) = tdot g (d12 Z').
Proof.
  intros He Ha Hz Hx Hg La Lz Lx Ua Uz Ux EZ EZ'. rewrite <- !along_two in EZ, EZ'.
  destruct (lift_matc R A vA B M Af Ha La) as (daf & _ & DA).
  destruct (lift_is2 R zi vz B M zf Hz Lz) as (dzf & _ & DZ).
  destruct (lift_is3 R x vx B N M xf Hx Lx) as (dxf & _ & DX).
  destruct (lift_matc (dual R) _ _ B M _ DA (like_two R A vA uA Ua)) as (daf' & _ & DA').
  destruct (lift_is2 (dual R) _ _ B M _ DZ (like_two R zi vz uz Uz)) as (dzf' & _ & DZ').
  destruct (lift_is3 (dual R) _ _ B N M _ DX (like_two R x vx ux Ux)) as (dxf' & _ & DX').
  pose proof (LTIMatrixRecurrence_runs (dual (dual R)) e B M He) as H.
  destruct (H N _ _ _ _ _ _ DA' DZ' DX') as (Z1 & E1 & V1). fold (two R A vA uA) (two R zi vz uz) (two R x vx ux) in E1.
  rewrite E1 in EZ. injection EZ as ->.
  rewrite (two_swap R A vA uA), (two_swap R zi vz uz), (two_swap R x vx ux) in EZ'.
  destruct (H N _ _ _ _ _ _ (swapT_matc R _ _ _ _ DA') (swapT_is2 R _ _ _ _ DZ') (swapT_is3 R _ _ _ _ _ DX')) as (Z2 & E2 & V2).
  fold (two R A vA uA) (two R zi vz uz) (two R x vx ux) in E2. rewrite E2 in EZ'. injection EZ' as ->.
  assert (W1 : is3 (d12 Z) B N M (fun b n m => snd (snd (at_ Z [b; n; m])))) by (split; [exact (proj1 V1)|reflexivity]).
  assert (W2 : is3 (d12 Z') B N M (fun b n m => snd (snd (at_ Z [b; n; m])))).
  { split; [exact (proj1 V2)|]. intros b n m Hb Hn Hm. cbn [d12 at_].
    assert (Q : at_ Z' [b; n; m] = swap R (at_ Z [b; n; m])).
    { rewrite (proj2 V1), (proj2 V2) by assumption. symmetry. apply (swap_state R M). }
    rewrite Q. reflexivity. }
  rewrite (tdot3 _ _ _ _ _ _ _ _ Hg W1). symmetry. exact (tdot3 _ _ _ _ _ _ _ _ Hg W2).
Qed.
(** The Hessian of the loss <g, y> is symmetric as the code computes it: <u, H v> = <v, H u>. *)
Theorem C54_LTIMatrixRecurrence_symmetric :
  forall (R : cring) e B N M (A zi x g : tensor R) vA vz vx uA uz ux Af zf xf gf,
  lti_op_avail e M -> (1 <= N)%nat -> matc B M A Af -> is2 zi B M zf -> is3 x B N M xf -> is3 g B N M gf ->
  like A vA -> like zi vz -> like x vx -> like A uA -> like zi uz -> like x ux ->
  exists Y GA GZ GX Y' GA' GZ' GX',
    LTIMatrixRecurrence_fwdad e (lift A vA) (lift zi vz) (lift x vx) = Ok Y /\
    LTIMatrixRecurrence_backward_fwdad e (true, true, true) (lift A vA) (lift zi vz) Y (lift g None) = Ok (Some GA, Some GZ, Some GX) /\
    LTIMatrixRecurrence_fwdad e (lift A uA) (lift zi uz) (lift x ux) = Ok Y' /\
    LTIMatrixRecurrence_backward_fwdad e (true, true, true) (lift A uA) (lift zi uz) Y' (lift g None) = Ok (Some GA', Some GZ', Some GX') /\
    odot (Some (dgrad GA)) uA + odot (Some (dgrad GZ)) uz + odot (Some (dgrad GX)) ux
      = odot (Some (dgrad GA')) vA + odot (Some (dgrad GZ')) vz + odot (Some (dgrad GX')) vx.
Proof.
  intros R e B N M A zi x g vA vz vx uA uz ux Af zf xf gf He HN Ha Hz Hx Hg La Lz Lx Ua Uz Ux.
  destruct (C54_LTIMatrixRecurrence R e B N M A zi x g vA vz vx None _ _ _ _ He HN Ha Hz Hx Hg La Lz Lx I)
    as (Y & GA & GZ & GX & E1 & E2 & _ & _ & _ & S).
  destruct (C54_LTIMatrixRecurrence R e B N M A zi x g uA uz ux None _ _ _ _ He HN Ha Hz Hx Hg Ua Uz Ux I)
    as (Y' & GA' & GZ' & GX' & E1' & E2' & _ & _ & _ & S').
  destruct (S uA uz ux Ua Uz Ux) as (Z & EZ & _ & K). destruct (S' vA vz vx La Lz Lx) as (Z' & EZ' & _ & K').
  exists Y, GA, GZ, GX, Y', GA', GZ', GX'.
  split; [exact E1|]. split; [exact (E2 true true true)|]. split; [exact E1'|]. split; [exact (E2' true true true)|].
  rewrite <- K, <- K', (LTIM_d12_sym R e B N M A zi x g vA vz vx uA uz ux Af zf xf gf Z Z'); auto.
Qed.
Print Assumptions C54_LTIMatrixRecurrence_symmetric.

Lemma MR_d12_sym (R : cring) e pr B N M (A zi x g : tensor R) vA vz vx uA uz ux Af zf xf gf Z Z' :
  (1 <= B)%nat -> lpv_op_avail e pr M -> matv B N M A Af -> is2 zi B M zf -> is3 x B N M xf -> is3 g B N M gf ->
  like A vA -> like zi vz -> like x vx -> like A uA -> like zi uz -> like x ux ->
  MatrixRecurrence_forward e pr (along A vA uA) (along zi vz uz) (along x vx ux) = Ok Z ->
  MatrixRecurrence_forward e pr (along A uA vA) (along zi uz vz) (along x ux vx) = Ok Z' ->
  tdot g (d12 Z) = tdot g (d12 Z').
Proof.
  intros HB He Ha Hz Hx Hg La Lz Lx Ua Uz Ux EZ EZ'. rewrite <- !along_two in EZ, EZ'.
  destruct (lift_matv R A vA B N M Af Ha La) as (daf & _ & DA).
  destruct (lift_is2 R zi vz B M zf Hz Lz) as (dzf & _ & DZ).
  destruct (lift_is3 R x vx B N M xf Hx Lx) as (dxf & _ & DX).
  destruct (lift_matv (dual R) _ _ B N M _ DA (like_two R A vA uA Ua)) as (daf' & _ & DA').
  destruct (lift_is2 (dual R) _ _ B M _ DZ (like_two R zi vz uz Uz)) as (dzf' & _ & DZ').
  destruct (lift_is3 (dual R) _ _ B N M _ DX (like_two R x vx ux Ux)) as (dxf' & _ & DX').
  pose proof (MatrixRecurrence_runs (dual (dual R)) e pr B M HB He) as H.
  destruct (H N _ _ _ _ _ _ DA' DZ' DX') as (Z1 & E1 & V1). fold (two R A vA uA) (two R zi vz uz) (two R x vx ux) in E1.
  rewrite E1 in EZ. injection EZ as ->.
  rewrite (two_swap R A vA uA), (two_swap R zi vz uz), (two_swap R x vx ux) in EZ'.
  destruct (H N _ _ _ _ _ _ (swapT_matv R _ _ _ _ _ DA') (swapT_is2 R _ _ _ _ DZ') (swapT_is3 R _ _ _ _ _ DX')) as (Z2 & E2 & V2).
  fold (two R A vA uA) (two R zi vz uz) (two R x vx ux) in E2. rewrite E2 in EZ'. injection EZ' as ->.
  assert (W1 : is3 (d12 Z) B N M (fun b n m => snd (snd (at_ Z [b; n; m])))) by (split; [exact (proj1 V1)|reflexivity]).
  assert (W2 : is3 (d12 Z') B N M (fun b n m => snd (snd (at_ Z [b; n; m])))).
  { split; [exact (proj1 V2)|]. intros b n m Hb Hn Hm. cbn [d12 at_].
    assert (Q : at_ Z' [b; n; m] = swap R (at_ Z [b; n; m])).
    { rewrite (proj2 V1), (proj2 V2) by assumption. symmetry. apply (swap_state R M). }
    rewrite Q. reflexivity. }
  rewrite (tdot3 _ _ _ _ _ _ _ _ Hg W1). symmetry. exact (tdot3 _ _ _ _ _ _ _ _ Hg W2).
Qed.
(** The Hessian of the loss <g, y> is symmetric as the code computes it: <u, H v> = <v, H u>. *)
Theorem C54_MatrixRecurrence_symmetric :
  forall (R : cring) e pr B N M (A zi x g : tensor R) vA vz vx uA uz ux Af zf xf gf,
  (1 <= B)%nat -> lpv_op_avail e pr M -> (1 <= N)%nat -> matv B N M A Af -> is2 zi B M zf -> is3 x B N M xf -> is3 g B N M gf ->
  like A vA -> like zi vz -> like x vx -> like A uA -> like zi uz -> like x ux ->
  exists Y GA GZ GX Y' GA' GZ' GX',
    MatrixRecurrence_fwdad e pr (lift A vA) (lift zi vz) (lift x vx) = Ok Y /\
    MatrixRecurrence_backward_fwdad e pr (true, true, true) (lift A vA) (lift zi vz) Y (lift g None) = Ok (Some GA, Some GZ, Some GX) /\
    MatrixRecurrence_fwdad e pr (lift A uA) (lift zi uz) (lift x ux) = Ok Y' /\
    MatrixRecurrence_backward_fwdad e pr (true, true, true) (lift A uA) (lift zi uz) Y' (lift g None) = Ok (Some GA', Some GZ', Some GX') /\
    odot (Some (dgrad GA)) uA + odot (Some (dgrad GZ)) uz + odot (Some (dgrad GX)) ux
      = odot (Some (dgrad GA')) vA + odot (Some (dgrad GZ')) vz + odot (Some (dgrad GX')) vx.
Proof.
  intros R e pr B N M A zi x g vA vz vx uA uz ux Af zf xf gf HB He HN Ha Hz Hx Hg La Lz Lx Ua Uz Ux.
  destruct (C54_MatrixRecurrence R e pr B N M A zi x g vA vz vx None _ _ _ _ HB He HN Ha Hz Hx Hg La Lz Lx I)
    as (Y & GA & GZ & GX & E1 & E2 & _ & _ & _ & S).
  destruct (C54_MatrixRecurrence R e pr B N M A zi x g uA uz ux None _ _ _ _ HB He HN Ha Hz Hx Hg Ua Uz Ux I)
    as (Y' & GA' & GZ' & GX' & E1' & E2' & _ & _ & _ & S').
  destruct (S uA uz ux Ua Uz Ux) as (Z & EZ & _ & K). destruct (S' vA vz vx La Lz Lx) as (Z' & EZ' & _ & K').
  exists Y, GA, GZ, GX, Y', GA', GZ', GX'.
  split; [exact E1|]. split; [exact (E2 true true true)|]. split; [exact E1'|]. split; [exact (E2' true true true)|].
  rewrite <- K, <- K', (MR_d12_sym R e pr B N M A zi x g vA vz vx uA uz ux Af zf xf gf Z Z'); auto.
Qed.
Print Assumptions C54_MatrixRecurrence_symmetric.

Lemma LTI_d12_sym (R : cring) e B N (A zi x g : tensor R) vA vz vx uA uz ux Af zf xf gf Z Z' :
  env_ok e -> has2 e -> (1 <= B)%nat -> coef B A Af -> is1 zi B zf -> is2 x B N xf -> is2 g B N gf ->
  like A vA -> like zi vz -> like x vx -> like A uA -> like zi uz -> like x ux ->
  LTIRecurrence_forward e (along A vA uA) (along zi vz uz) (along x vx ux) = Ok Z ->
  LTIRecurrence_forward e (along A uA vA) (along zi uz vz) (along x ux vx) = Ok Z' ->
  tdot g (d12 Z) = tdot g (d12 Z').
Proof.
  unfold LTIRecurrence_forward; intros He [H1 H2] HB Ha Hz Hx Hg La Lz Lx Ua Uz Ux EZ EZ'. rewrite <- !along_two in EZ, EZ'.
  destruct (lift_coef R A vA B Af Ha La) as (daf & _ & DA).
  destruct (lift_is1 R zi vz B zf Hz Lz) as (dzf & _ & DZ).
  destruct (lift_is2 R x vx B N xf Hx Lx) as (dxf & _ & DX).
  destruct (lift_coef (dual R) _ _ B _ DA (like_two R A vA uA Ua)) as (daf' & _ & DA').
  destruct (lift_is1 (dual R) _ _ B _ DZ (like_two R zi vz uz Uz)) as (dzf' & _ & DZ').
  destruct (lift_is2 (dual R) _ _ B N _ DX (like_two R x vx ux Ux)) as (dxf' & _ & DX').
  pose proof (lti_recur_runs (dual (dual R)) e B He H1 H2 HB) as H.
  destruct (H N _ _ _ _ _ _ DA' DZ' DX') as (Z1 & E1 & V1). fold (two R A vA uA) (two R zi vz uz) (two R x vx ux) in E1.
  rewrite E1 in EZ. injection EZ as ->.
  rewrite (two_swap R A vA uA), (two_swap R zi vz uz), (two_swap R x vx ux) in EZ'.
  destruct (H N _ _ _ _ _ _ (swapT_coef R _ _ _ DA') (swapT_is1 R _ _ _ DZ') (swapT_is2 R _ _ _ _ DX')) as (Z2 & E2 & V2).
  fold (two R A vA uA) (two R zi vz uz) (two R x vx ux) in E2. rewrite E2 in EZ'. injection EZ' as ->.
  assert (W1 : is2 (d12 Z) B N (fun b n => snd (snd (at_ Z [b; n])))) by (split; [exact (proj1 V1)|reflexivity]).
  assert (W2 : is2 (d12 Z') B N (fun b n => snd (snd (at_ Z [b; n])))).
  { split; [exact (proj1 V2)|]. intros b n Hb Hn. cbn [d12 at_].
    assert (Q : at_ Z' [b; n] = swap R (at_ Z [b; n])).
    { rewrite (proj2 V1), (proj2 V2) by assumption. symmetry. apply (swap_lin R). }
    rewrite Q. reflexivity. }
  rewrite (tdot2 _ _ _ _ _ _ _ Hg W1). symmetry. exact (tdot2 _ _ _ _ _ _ _ Hg W2).
Qed.
(** The Hessian of the loss <g, y> is symmetric as the code computes it: <u, H v> = <v, H u>. *)
Theorem C54_LTIRecurrence_symmetric :
  forall (R : cring) e B N (A zi x g : tensor R) vA vz vx uA uz ux Af zf xf gf,
  env_ok e -> has2 e -> (1 <= B)%nat -> (1 <= N)%nat -> coef B A Af -> is1 zi B zf -> is2 x B N xf -> is2 g B N gf ->
  like A vA -> like zi vz -> like x vx -> like A uA -> like zi uz -> like x ux ->
  exists Y GA GZ GX Y' GA' GZ' GX',
    LTIRecurrence_fwdad e (lift A vA) (lift zi vz) (lift x vx) = Ok Y /\
    LTIRecurrence_backward_fwdad e (true, true, true) (lift A vA) (lift zi vz) Y (lift g None) = Ok (Some GA, Some GZ, Some GX) /\
    LTIRecurrence_fwdad e (lift A uA) (lift zi uz) (lift x ux) = Ok Y' /\
    LTIRecurrence_backward_fwdad e (true, true, true) (lift A uA) (lift zi uz) Y' (lift g None) = Ok (Some GA', Some GZ', Some GX') /\
    odot (Some (dgrad (engine_reduce (lift A vA) GA))) uA + odot (Some (dgrad GZ)) uz + odot (Some (dgrad GX)) ux
      = odot (Some (dgrad (engine_reduce (lift A uA) GA'))) vA + odot (Some (dgrad GZ')) vz + odot (Some (dgrad GX')) vx.
Proof.
  intros R e B N A zi x g vA vz vx uA uz ux Af zf xf gf He H2e HB HN Ha Hz Hx Hg La Lz Lx Ua Uz Ux.
  destruct (C54_LTIRecurrence R e B N A zi x g vA vz vx None _ _ _ _ He H2e HB HN Ha Hz Hx Hg La Lz Lx I)
    as (Y & GA & GZ & GX & E1 & E2 & _ & _ & _ & S).
  destruct (C54_LTIRecurrence R e B N A zi x g uA uz ux None _ _ _ _ He H2e HB HN Ha Hz Hx Hg Ua Uz Ux I)
    as (Y' & GA' & GZ' & GX' & E1' & E2' & _ & _ & _ & S').
  destruct (S uA uz ux Ua Uz Ux) as (Z & EZ & _ & K). destruct (S' vA vz vx La Lz Lx) as (Z' & EZ' & _ & K').
  exists Y, GA, GZ, GX, Y', GA', GZ', GX'.
  split; [exact E1|]. split; [exact (E2 true true true)|]. split; [exact E1'|]. split; [exact (E2' true true true)|].
  rewrite <- K, <- K', (LTI_d12_sym R e B N A zi x g vA vz vx uA uz ux Af zf xf gf Z Z'); auto.
Qed.
Print Assumptions C54_LTIRecurrence_symmetric.

(** The reverse-mode second derivative of LTIRecurrence fails on one-sample signals: the
    recursion that its backward runs is then over an empty signal, and the backward of
    that inner call raises for every incoming gradient. *)
Theorem C54_one_sample_refuted :
  forall (R : cring) e B (a g : tensor R) af gf,
  env_ok e -> has2 e -> (1 <= B)%nat -> coef B a af -> is2 g B 1 gf ->
  exists bp tail, select 1 (-1) g = Ok bp /\
    LTIRecurrence_forward e (tconj a) bp (flip 1 (slice 1 None (Some (-1)%Z) g)) = Ok tail /\ shape tail = [B; 0]%nat /\
    forall needs g', shape g' = [B; 0]%nat -> LTIRecurrence_backward R e needs (tconj a) bp tail g' = Err IndexError.
Proof.
  intros R e B a g af gf He [H1 H2] HB Ha Hg.
  destruct (last2 R g B 1 _ ltac:(lia) Hg) as (bp & Ebp & Hbp).
  assert (Hs : is2 (flip 1 (slice 1 None (Some (-1)%Z) g)) B 0 (fun b k => gf b (0 - 1 - k)%nat)).
  { apply flip2. apply is2_P in Hg. nm (slice 1 None (Some (-1)%Z) g). apply is2_P. fin H; try lia. }
  destruct (lti_recur_runs R e B He H1 H2 HB 0%nat _ _ _ _ _ _ (conj_coef R _ _ _ Ha) Hbp Hs) as (tl & Etl & Htl).
  exists bp, tl. split; [exact Ebp|]. split; [exact Etl|]. split; [exact (proj1 Htl)|].
  intros needs g' Hg'. apply (C36_empty_LTIRecurrence_raises R e needs _ _ _ g' B (fun i j => at_ g' [i; j])).
  split; [exact Hg'|reflexivity].
Qed.
Print Assumptions C54_one_sample_refuted.

(** y = (a z + x0, a y0 + x1, a y1 + x2) with z = x_i = 1: the loss y0 + y1 + y2 is
    a^3 + 2 a^2 + 3 a + 3, so at a = 2 its derivatives in a are 23 and 16. *)
Example C54_ex :
  let a := lst1 0%Z [2]%Z : tensor Zring in let z := lst1 0%Z [1]%Z : tensor Zring in
  let x := mk2 1 3 (fun _ _ => 1%Z) : tensor Zring in
  let run e k := match LTIRecurrence_fwdad e (lift a (Some z)) (lift z None) (lift x None) with
    | Ok Y => match LTIRecurrence_backward_fwdad e (true, true, true) (lift a (Some z)) (lift z None) Y (lift x None) with
              | Ok (Some ga, _, _) => Some (k (at_ ga [0%nat])) | _ => None end | _ => None end in
  env_ok env_cpu /\ has2 env_cpu /\ coef 1 a (fun _ => 2%Z) /\ is1 z 1 (fun _ => 1%Z) /\ is2 x 1 3 (fun _ _ => 1%Z) /\
  like a (Some z) /\ run env_cpu fst = Some 23%Z /\ run env_cpu snd = Some 16%Z.
Proof.
  cbv zeta. split; [split; [exact seq_leaves|cbn; lia]|]. split; [split; [reflexivity|discriminate]|].
  split; [apply coef_B; split; [reflexivity|intros [|] ?; [reflexivity|lia]]|].
  split; [split; [reflexivity|intros [|] ?; [reflexivity|lia]]|]. split; [apply is2_mk|]. split; [reflexivity|].
  split; vm_compute; reflexivity.
Qed.
(** A 2 x 2 system with two samples, the direction in A = the identity; L = sum of the
    entries of A z + x0 and A^2 z + A x0 + x1. *)
Example C54_matrix_ex :
  let A := lst2 0%Z [[1;2];[3;4]]%Z : tensor Zring in let I2 := lst2 0%Z [[1;0];[0;1]]%Z : tensor Zring in
  let z := lst2 0%Z [[1;1]]%Z : tensor Zring in let x := mk3 1 2 2 (fun _ _ _ => 1%Z) : tensor Zring in
  lti_op_avail env_cpu 2 /\ matc 1 2 A (fun _ i j => at_ A [i; j]) /\ like A (Some I2) /\
  match LTIMatrixRecurrence_fwdad env_cpu (lift A (Some I2)) (lift z None) (lift x None) with
  | Ok Y => match LTIMatrixRecurrence_backward_fwdad env_cpu (true, true, true) (lift A (Some I2)) (lift z None) Y (lift x None) with
            | Ok (Some ga, Some gz, Some gx) => Some (show (Ok (dgrad ga)), show (Ok (dgrad gz)), show (Ok (dgrad gx))) | _ => None end | _ => None end
  = Some (Some ([2;2]%nat, [2;2;2;2]%Z), Some ([1;2]%nat, [9;13]%Z), Some ([1;2;2]%nat, [1;1;0;0]%Z)).
Proof.
  cbv zeta. split; [|split; [eapply (matc_s (R := Zring)); [split; [reflexivity|intros; reflexivity]|reflexivity]|split; [reflexivity|vm_compute; reflexivity]]].
  repeat split; try exact seq_leaves; cbn; try lia; try reflexivity; try discriminate.
Qed.
