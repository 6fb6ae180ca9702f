(** Theorems about the derivative rules and the fake kernels (C35, C36, C37). *)
From Coq Require Import List Arith Lia ZArith Bool Ring.
From Verif Require Import Scalar Tensor TensorLemmas TensorOps TensorAlg TensorTac Spec Shapes Algebra
  M_Mat M_Kernels P_KernelOps P_Helion M_LtiSsm P_LtiSsm M_Ext M_LpvSsm P_LpvSsm
  M_Autograd SpecAutograd P_Autograd P_Autograd2 P_Autograd3.
Import ListNotations.
Local Open Scope nat_scope.
Local Open Scope cr_scope.

(** ** The operators registered with torch.library *)
Inductive ltiop := LtiRecur2 | LtiRecurN | HlLtiRecurN.
Inductive lpvop := Recur2 | RecurN | HlRecurN.
Definition run_lti {R : cring} (e : env) (k : ltiop) : tensor R -> tensor R -> tensor R -> res (tensor R) :=
  match k with LtiRecur2 => op_lti_recur2 e | LtiRecurN => op_lti_recurN e | HlLtiRecurN => hl_lti_recurN e end.
Definition run_lpv {R : cring} (e : env) (k : lpvop) : tensor R -> tensor R -> tensor R -> res (tensor R) :=
  match k with Recur2 => op_recur2 e | RecurN => op_recurN e | HlRecurN => hl_recurN e end.
(** The operator has a kernel for the device, and so has the second-order one when the
    backward function will switch to it. *)
Definition has2 (e : env) : Prop := ext e = true /\ (cuda e = true -> ext_cuda e = true).
Definition ltiop_ok (e : env) (k : ltiop) (M : nat) : Prop :=
  env_ok e /\
  match k with
  | LtiRecur2 => M = 2 /\ has2 e
  | LtiRecurN => ext e = true /\ cuda e = false
  | HlLtiRecurN => M = 2 -> has2 e
  end.
Definition lpvop_ok (e : env) (k : lpvop) (M : nat) : Prop :=
  env_ok e /\
  match k with
  | Recur2 => M = 2 /\ has2 e
  | RecurN => ext e = true /\ cuda e = false
  | HlRecurN => M = 2 -> has2 e
  end.
Lemma recur2_runs R e B : env_ok e -> has2 e -> runs_lti R (op_lti_recur2 e) B 2.
Proof. intros He [H1 H2] N A zi x Af zf xf HA Hz Hx. now apply op_lti_recur2_spec. Qed.
Lemma recur2v_runs R e B : env_ok e -> has2 e -> runs_lpv R (op_recur2 e) B 2.
Proof. intros He [H1 H2] N A zi x Af zf xf HA Hz Hx. now apply op_recur2_spec. Qed.
Lemma run_lti_runs R e k B M : ltiop_ok e k M -> runs_lti R (run_lti e k) B M.
Proof.
  intros [He H]. destruct k; cbn [run_lti].
  - destruct H as [-> H]. now apply recur2_runs.
  - intros N A zi x Af zf xf HA Hz Hx. now apply op_lti_recurN_spec.
  - intros N A zi x Af zf xf HA Hz Hx. now apply hl_lti_spec.
Qed.
Lemma run_lpv_runs R e k B M : lpvop_ok e k M -> runs_lpv R (run_lpv e k) B M.
Proof.
  intros [He H]. destruct k; cbn [run_lpv].
  - destruct H as [-> H]. now apply recur2v_runs.
  - intros N A zi x Af zf xf HA Hz Hx. now apply op_recurN_spec.
  - intros N A zi x Af zf xf HA Hz Hx. now apply hl_lpv_spec.
Qed.
Lemma ltiop_has2 e k M : ltiop_ok e k M -> M = 2 -> has2 e.
Proof. intros [_ H] HM. destruct k; [apply H|destruct H as [H1 H2]; split; [exact H1|intro H3; rewrite H2 in H3; discriminate]|auto]. Qed.
Lemma lpvop_has2 e k M : lpvop_ok e k M -> M = 2 -> has2 e.
Proof. intros [_ H] HM. destruct k; [apply H|destruct H as [H1 H2]; split; [exact H1|intro H3; rewrite H2 in H3; discriminate]|auto]. Qed.

Lemma seq_leaves k : leaves (seqtree k) = S k.
Proof. induction k as [|k IH]; cbn; [reflexivity|rewrite IH; lia]. Qed.

(** * C35: the jvp rules are the derivatives of the forward functions *)
Theorem C35_LTIRecurrence_jvp_exact :
  forall (R : cring) e B N (a zi x : tensor R) (oa oz ox : option (tensor R)) af zf xf,
    env_ok e -> has2 e -> (1 <= B)%nat ->
    coef B a af -> is1 zi B zf -> is2 x B N xf -> like a oa -> like zi oz -> like x ox ->
    exists y t Y, LTIRecurrence_forward e a zi x = Ok y /\
      LTIRecurrence_jvp R e a zi y oa oz ox = Ok t /\
      LTIRecurrence_forward e (lift a oa) (lift zi oz) (lift x ox) = Ok Y /\
      shape y = shape x /\ dual_of Y y t.
Proof.
  intros R e B N a zi x oa oz ox af zf xf He [H1 H2] HB Ha Hz Hx La Lz Lx.
  eapply (scalar_jvp_dual R (LTIRecurrence_forward e) (LTIRecurrence_forward e)); eauto;
    apply lti_recur_runs; auto.
Qed.
Print Assumptions C35_LTIRecurrence_jvp_exact.

Theorem C35_LTIMatrixRecurrence_jvp_exact :
  forall (R : cring) e B N M (A zi x : tensor R) (oA oz ox : option (tensor R)) Af zf xf,
    lti_op_avail e M ->
    matc B M A Af -> is2 zi B M zf -> is3 x B N M xf -> like A oA -> like zi oz -> like x ox ->
    exists y t Y, LTIMatrixRecurrence_forward e A zi x = Ok y /\
      LTIMatrixRecurrence_jvp R e A zi y oA oz ox = Ok t /\
      LTIMatrixRecurrence_forward e (lift A oA) (lift zi oz) (lift x ox) = Ok Y /\
      shape y = shape x /\ dual_of Y y t.
Proof.
  intros R e B N M A zi x oA oz ox Af zf xf He Ha Hz Hx La Lz Lx.
  eapply (lti_jvp_dual R (LTIMatrixRecurrence_forward e) (LTIMatrixRecurrence_forward e)); eauto;
    apply LTIMatrixRecurrence_runs; auto.
Qed.
Print Assumptions C35_LTIMatrixRecurrence_jvp_exact.

Theorem C35_MatrixRecurrence_jvp_exact :
  forall (R : cring) e pr B N M (A zi x : tensor R) (oA oz ox : option (tensor R)) Af zf xf,
    (1 <= B)%nat -> lpv_op_avail e pr M ->
    matv B N M A Af -> is2 zi B M zf -> is3 x B N M xf -> like A oA -> like zi oz -> like x ox ->
    exists y t Y, MatrixRecurrence_forward e pr A zi x = Ok y /\
      MatrixRecurrence_jvp R e pr A zi y oA oz ox = Ok t /\
      MatrixRecurrence_forward e pr (lift A oA) (lift zi oz) (lift x ox) = Ok Y /\
      shape y = shape x /\ dual_of Y y t.
Proof.
  intros R e pr B N M A zi x oA oz ox Af zf xf HB He Ha Hz Hx La Lz Lx.
  eapply (lpv_jvp_dual R (MatrixRecurrence_forward e pr) (MatrixRecurrence_forward e pr)); eauto;
    apply MatrixRecurrence_runs; auto.
Qed.
Print Assumptions C35_MatrixRecurrence_jvp_exact.

(** * C36: the backward rules are the adjoints of the derivatives *)

(** [grad_of needs g] is the gradient a rule returns when the input needs one. *)
Definition grad_of {R : cring} (b : bool) (t : tensor R) : option (tensor R) := if b then Some t else None.

Theorem C36_LTIRecurrence_backward_adjoint :
  forall (R : cring) e B N (a zi x g : tensor R) (oa oz ox : option (tensor R)) af zf xf gf,
    env_ok e -> has2 e -> (1 <= B)%nat -> (1 <= N)%nat ->
    coef B a af -> is1 zi B zf -> is2 x B N xf -> is2 g B N gf ->
    like a oa -> like zi oz -> like x ox ->
    exists y t ga gz gx, LTIRecurrence_forward e a zi x = Ok y /\
      LTIRecurrence_jvp R e a zi y oa oz ox = Ok t /\
      (forall na nz nx, LTIRecurrence_backward R e (na, nz, nx) a zi y g
                        = Ok (grad_of na ga, grad_of nz gz, grad_of nx gx)) /\
      shape (engine_reduce a ga) = shape a /\ shape gz = shape zi /\ shape gx = shape x /\
      tdot g t = odot (Some (engine_reduce a ga)) oa + odot (Some gz) oz + odot (Some gx) ox.
Proof.
  intros R e B N a zi x g oa oz ox af zf xf gf He [H1 H2] HB HN Ha Hz Hx Hg La Lz Lx.
  destruct (scalar_reverse R (LTIRecurrence_forward e) (LTIRecurrence_forward e) B N a zi x g oa oz ox af zf xf gf)
    as (y & t & Y & ga & gz & gx & E1 & E2 & E3 & E4 & E5 & S1 & S2 & S3 & E6 & E7); auto;
    try (apply lti_recur_runs; auto).
  exists y, t, ga, gz, gx. repeat (split; [assumption|]). assumption.
Qed.
Print Assumptions C36_LTIRecurrence_backward_adjoint.

Theorem C36_LTIMatrixRecurrence_backward_adjoint :
  forall (R : cring) e B N M (A zi x g : tensor R) (oA oz ox : option (tensor R)) Af zf xf gf,
    lti_op_avail e M -> (1 <= N)%nat ->
    matc B M A Af -> is2 zi B M zf -> is3 x B N M xf -> is3 g B N M gf ->
    like A oA -> like zi oz -> like x ox ->
    exists y t gA gz gx, LTIMatrixRecurrence_forward e A zi x = Ok y /\
      LTIMatrixRecurrence_jvp R e A zi y oA oz ox = Ok t /\
      (forall nA nz nx, LTIMatrixRecurrence_backward R e (nA, nz, nx) A zi y g
                        = Ok (grad_of nA gA, grad_of nz gz, grad_of nx gx)) /\
      shape gA = shape A /\ shape gz = shape zi /\ shape gx = shape x /\
      tdot g t = odot (Some gA) oA + odot (Some gz) oz + odot (Some gx) ox.
Proof.
  intros R e B N M A zi x g oA oz ox Af zf xf gf He HN Ha Hz Hx Hg La Lz Lx.
  destruct (lti_reverse R (LTIMatrixRecurrence_forward e) (LTIMatrixRecurrence_forward e) (LTIMatrixRecurrence_forward e)
              B N M A zi x g oA oz ox Af zf xf gf)
    as (y & t & Y & gA & gz & gx & E1 & E2 & E3 & E4 & E5 & S1 & S2 & S3 & E6 & E7); auto;
    try (apply LTIMatrixRecurrence_runs; auto).
  exists y, t, gA, gz, gx. repeat (split; [assumption|]). assumption.
Qed.
Print Assumptions C36_LTIMatrixRecurrence_backward_adjoint.

Theorem C36_MatrixRecurrence_backward_adjoint :
  forall (R : cring) e pr B N M (A zi x g : tensor R) (oA oz ox : option (tensor R)) Af zf xf gf,
    (1 <= B)%nat -> lpv_op_avail e pr M -> (1 <= N)%nat ->
    matv B N M A Af -> is2 zi B M zf -> is3 x B N M xf -> is3 g B N M gf ->
    like A oA -> like zi oz -> like x ox ->
    exists y t gA gz gx, MatrixRecurrence_forward e pr A zi x = Ok y /\
      MatrixRecurrence_jvp R e pr A zi y oA oz ox = Ok t /\
      (forall nA nz nx, MatrixRecurrence_backward R e pr (nA, nz, nx) A zi y g
                        = Ok (grad_of nA gA, grad_of nz gz, grad_of nx gx)) /\
      shape gA = shape A /\ shape gz = shape zi /\ shape gx = shape x /\
      tdot g t = odot (Some gA) oA + odot (Some gz) oz + odot (Some gx) ox.
Proof.
  intros R e pr B N M A zi x g oA oz ox Af zf xf gf HB He HN Ha Hz Hx Hg La Lz Lx.
  destruct (lpv_reverse R (MatrixRecurrence_forward e pr) (MatrixRecurrence_forward e pr) (MatrixRecurrence_forward e pr)
              B N M A zi x g oA oz ox Af zf xf gf)
    as (y & t & Y & gA & gz & gx & E1 & E2 & E3 & E4 & E5 & S1 & S2 & S3 & E6 & E7); auto;
    try (apply MatrixRecurrence_runs; auto).
  exists y, t, gA, gz, gx. repeat (split; [assumption|]). assumption.
Qed.
Print Assumptions C36_MatrixRecurrence_backward_adjoint.

(** The registered operators have no jvp; the derivative is the operator on dual numbers. *)
Theorem C36_lti_recur_registered_adjoint :
  forall (R : cring) e B N (a zi x g : tensor R) (oa oz ox : option (tensor R)) af zf xf gf,
    env_ok e -> has2 e -> (1 <= B)%nat -> (1 <= N)%nat ->
    coef B a af -> is1 zi B zf -> is2 x B N xf -> is2 g B N gf ->
    like a oa -> like zi oz -> like x ox ->
    exists y Y ga gz gx, op_lti_recur e a zi x = Ok y /\
      op_lti_recur e (lift a oa) (lift zi oz) (lift x ox) = Ok Y /\
      (forall na nz nx, lti_recur_backward R e (na, nz, nx) a zi y g
                        = Ok (grad_of na ga, grad_of nz gz, grad_of nx gx)) /\
      shape (engine_reduce a ga) = shape a /\ shape gz = shape zi /\ shape gx = shape x /\
      tdot g (eps Y) = odot (Some (engine_reduce a ga)) oa + odot (Some gz) oz + odot (Some gx) ox.
Proof.
  intros R e B N a zi x g oa oz ox af zf xf gf He [H1 H2] HB HN Ha Hz Hx Hg La Lz Lx.
  destruct (scalar_reverse R (op_lti_recur e) (op_lti_recur e) B N a zi x g oa oz ox af zf xf gf)
    as (y & t & Y & ga & gz & gx & E1 & E2 & E3 & E4 & E5 & S1 & S2 & S3 & E6 & E7); auto;
    try (apply lti_recur_runs; auto).
  exists y, Y, ga, gz, gx. repeat (split; [assumption|]). assumption.
Qed.
Print Assumptions C36_lti_recur_registered_adjoint.

Theorem C36_lti_registered_adjoint :
  forall (R : cring) e k B N M (A zi x g : tensor R) (oA oz ox : option (tensor R)) Af zf xf gf,
    ltiop_ok e k M -> (1 <= N)%nat ->
    matc B M A Af -> is2 zi B M zf -> is3 x B N M xf -> is3 g B N M gf ->
    like A oA -> like zi oz -> like x ox ->
    exists y Y gA gz gx, run_lti e k A zi x = Ok y /\
      run_lti e k (lift A oA) (lift zi oz) (lift x ox) = Ok Y /\
      (forall nA nz nx, lti_recurN_backward e (run_lti e k) (nA, nz, nx) A zi y g
                        = Ok (grad_of nA gA, grad_of nz gz, grad_of nx gx)) /\
      shape gA = shape A /\ shape gz = shape zi /\ shape gx = shape x /\
      tdot g (eps Y) = odot (Some gA) oA + odot (Some gz) oz + odot (Some gx) ox.
Proof.
  intros R e k B N M A zi x g oA oz ox Af zf xf gf Hk HN Ha Hz Hx Hg La Lz Lx.
  destruct (lti_reverse R (run_lti e k) (if negb (sizen A 1 =? 2)%nat then run_lti e k else op_lti_recur2 e) (run_lti e k)
              B N M A zi x g oA oz ox Af zf xf gf)
    as (y & t & Y & gA & gz & gx & E1 & E2 & E3 & E4 & E5 & S1 & S2 & S3 & E6 & E7); auto;
    try (apply run_lti_runs; auto).
  { apply (pick_lti R e (run_lti e k) B M A Af Ha); [now apply run_lti_runs|].
    intros ->. apply recur2_runs; [apply Hk|]. now apply (ltiop_has2 e k 2). }
  exists y, Y, gA, gz, gx. repeat (split; [assumption|]). assumption.
Qed.
Print Assumptions C36_lti_registered_adjoint.

Theorem C36_lpv_registered_adjoint :
  forall (R : cring) e k B N M (A zi x g : tensor R) (oA oz ox : option (tensor R)) Af zf xf gf,
    lpvop_ok e k M -> (1 <= N)%nat ->
    matv B N M A Af -> is2 zi B M zf -> is3 x B N M xf -> is3 g B N M gf ->
    like A oA -> like zi oz -> like x ox ->
    exists y Y gA gz gx, run_lpv e k A zi x = Ok y /\
      run_lpv e k (lift A oA) (lift zi oz) (lift x ox) = Ok Y /\
      (forall nA nz nx, recurN_backward e (run_lpv e k) (nA, nz, nx) A zi y g
                        = Ok (grad_of nA gA, grad_of nz gz, grad_of nx gx)) /\
      shape gA = shape A /\ shape gz = shape zi /\ shape gx = shape x /\
      tdot g (eps Y) = odot (Some gA) oA + odot (Some gz) oz + odot (Some gx) ox.
Proof.
  intros R e k B N M A zi x g oA oz ox Af zf xf gf Hk HN Ha Hz Hx Hg La Lz Lx.
  destruct (lpv_reverse R (run_lpv e k) (if negb (sizen A 1 =? 2)%nat then run_lpv e k else op_recur2 e) (run_lpv e k)
              B N M A zi x g oA oz ox Af zf xf gf)
    as (y & t & Y & gA & gz & gx & E1 & E2 & E3 & E4 & E5 & S1 & S2 & S3 & E6 & E7); auto;
    try (apply run_lpv_runs; auto).
  { apply (pick_lpv R e (run_lpv e k) B M N A Af Ha); [now apply run_lpv_runs|].
    intros ->. apply recur2v_runs; [apply Hk|]. now apply (lpvop_has2 e k 2). }
  exists y, Y, gA, gz, gx. repeat (split; [assumption|]). assumption.
Qed.
Print Assumptions C36_lpv_registered_adjoint.

(** ** Empty signals: the forward functions succeed, the backward rules raise. *)
Lemma select_empty {R : cring} (t : tensor R) : size t 1 = 0%nat -> select 1 (-1) t = Err IndexError.
Proof. intro H. unfold select. rewrite H. reflexivity. Qed.
Theorem C36_empty_LTIRecurrence_raises :
  forall (R : cring) e needs (a zi y g : tensor R) B gf, is2 g B 0 gf ->
    LTIRecurrence_backward R e needs a zi y g = Err IndexError.
Proof.
  intros R e [[na nz] nx] a zi y g B gf Hg. unfold LTIRecurrence_backward, scalar_backward.
  rewrite select_empty; [reflexivity|]. unfold size. now rewrite (proj1 Hg).
Qed.
Print Assumptions C36_empty_LTIRecurrence_raises.
Theorem C36_empty_LTIMatrixRecurrence_raises :
  forall (R : cring) e B M (A zi y g : tensor R) Af zf gf nA nx,
    lti_op_avail e M -> matc B M A Af -> is2 zi B M zf -> is3 g B 0 M gf ->
    LTIMatrixRecurrence_backward R e (nA, true, nx) A zi y g = Err IndexError.
Proof.
  intros R e B M A zi y g Af zf gf nA nx He HA Hz Hg. unfold LTIMatrixRecurrence_backward, lti_backward.
  assert (Hz0 : is2 (zeros_like zi) B M (fun _ _ => 0)) by (split; [exact (proj1 Hz)|reflexivity]).
  destruct (LTIMatrixRecurrence_runs R e B M He 0%nat _ _ _ _ _ _ (conjT_matc R B M A Af HA) Hz0
              (flip3 R g B 0 M gf Hg)) as (f & -> & Hf).
  cbn [bind when]. rewrite select_empty; [reflexivity|]. unfold size. now rewrite (proj1 Hf).
Qed.
Print Assumptions C36_empty_LTIMatrixRecurrence_raises.
Theorem C36_empty_MatrixRecurrence_raises :
  forall (R : cring) e pr B M (A zi y g : tensor R) Af zf gf nA nx,
    (1 <= B)%nat -> lpv_op_avail e pr M -> matv B 0 M A Af -> is2 zi B M zf -> is3 g B 0 M gf ->
    MatrixRecurrence_backward R e pr (nA, true, nx) A zi y g = Err IndexError.
Proof.
  intros R e pr B M A zi y g Af zf gf nA nx HB He HA Hz Hg. unfold MatrixRecurrence_backward, lpv_backward.
  assert (Hz0 : is2 (zeros_like zi) B M (fun _ _ => 0)) by (split; [exact (proj1 Hz)|reflexivity]).
  destruct (MatrixRecurrence_runs R e pr B M HB He 0%nat _ _ _ _ _ _
              (rollflip_matv R B 0 M _ _ (conjT_matv R B 0 M A Af HA)) Hz0
              (flip3 R g B 0 M gf Hg)) as (f & E & Hf).
  rewrite E.
  cbn [bind when]. rewrite select_empty; [reflexivity|]. unfold size. now rewrite (proj1 Hf).
Qed.
Print Assumptions C36_empty_MatrixRecurrence_raises.

(** Helion without the compiled extension: the forward operator works at order 2, its
    registered backward function looks up a missing operator. *)
Theorem C36_helion_order2_refuted :
  ~ (forall (R : cring) e B N (A zi x g : tensor R) Af zf xf gf y,
       env_ok e -> (1 <= N)%nat -> matc B 2 A Af -> is2 zi B 2 zf -> is3 x B N 2 xf -> is3 g B N 2 gf ->
       hl_lti_recurN e A zi x = Ok y ->
       exists r, lti_recurN_backward e (hl_lti_recurN e) (true, true, true) A zi y g = Ok r).
Proof.
  intro H.
  set (e := mkEnv false false true true false seqtree 1 1).
  assert (He : env_ok e) by (split; [exact seq_leaves|cbn; lia]).
  pose (A := mk2 2 2 (fun _ _ => 1%Z) : tensor Zring). pose (z := mk2 1 2 (fun _ _ => 1%Z) : tensor Zring).
  pose (x := mk3 1 1 2 (fun _ _ _ => 1%Z) : tensor Zring).
  assert (HA : matc 1 2 A (fun _ _ _ => 1%Z)) by (eapply matc_s; [apply is2_mk|reflexivity]).
  destruct (hl_lti_spec Zring e 1 1 2 A z x _ _ _ He HA (is2_mk _ _ _) (is3_mk _ _ _ _)) as (y & Ey & _).
  destruct (H Zring e 1%nat 1%nat A z x x _ _ _ _ y He ltac:(lia) HA (is2_mk _ _ _) (is3_mk _ _ _ _) (is3_mk _ _ _ _) Ey) as (r & Er).
  unfold lti_recurN_backward, lti_backward in Er. cbn in Er. discriminate.
Qed.
Print Assumptions C36_helion_order2_refuted.

(** * C37: fake kernels *)
Theorem C37_lti_recur_fake :
  forall (R : cring) e (a zi x y : tensor R), op_lti_recur e a zi x = Ok y ->
    fake_lti_recur a zi x = Ok (shape y).
Proof. intros R e a zi x y. apply fake_lti_recur_accepts. Qed.
Print Assumptions C37_lti_recur_fake.

(** The matrix operators: the fake kernel also checks the batch (and time) size of A. *)
Theorem C37_lti_recurN_fake :
  forall (R : cring) e (A zi x y : tensor R), op_lti_recurN e A zi x = Ok y ->
    (rk A = 3 -> size A 0%nat = size x 0%nat) -> fake_lti_recurN A zi x = Ok (shape y).
Proof.
  intros R e A zi x y H Hb. pose proof (op_lti_recurN_fits R e A zi x y H) as F.
  unfold fake_lti_recurN. rewrite (fake_accepts R 2 false A zi x y); auto; try discriminate.
  destruct F as (_ & B & N & M & s & _ & _ & _ & _ & ->). reflexivity.
Qed.
Print Assumptions C37_lti_recurN_fake.
Theorem C37_lti_recur2_fake :
  forall (R : cring) e (A zi x y : tensor R), op_lti_recur2 e A zi x = Ok y ->
    (rk A = 3 -> size A 0%nat = size x 0%nat) -> sizen A 1 = 2 -> (cuda e = true -> rk x = 3) ->
    fake_lti_recur2 A zi x = Ok (shape y).
Proof.
  intros R e A zi x y H Hb H2 Hc. pose proof (op_lti_recur2_fits R e A zi x y Hc H) as F.
  unfold fake_lti_recur2. rewrite (fake_accepts R 2 true A zi x y); auto; try discriminate.
  destruct F as (_ & B & N & M & s & _ & _ & _ & _ & ->). reflexivity.
Qed.
Print Assumptions C37_lti_recur2_fake.
Theorem C37_recurN_fake :
  forall (R : cring) e (A zi x y : tensor R), op_recurN e A zi x = Ok y ->
    (rk A = 4 -> size A 0%nat = size x 0%nat) -> sizen A 3%nat = size x 1%nat -> fake_recurN A zi x = Ok (shape y).
Proof.
  intros R e A zi x y H Hb Ht. pose proof (op_recurN_fits R e A zi x y H) as F.
  unfold fake_recurN. rewrite (fake_accepts R 3 false A zi x y); auto; try discriminate.
  destruct F as (_ & B & N & M & s & _ & _ & _ & _ & ->). reflexivity.
Qed.
Print Assumptions C37_recurN_fake.
Theorem C37_recur2_fake :
  forall (R : cring) e (A zi x y : tensor R), op_recur2 e A zi x = Ok y ->
    (rk A = 4 -> size A 0%nat = size x 0%nat) -> sizen A 3%nat = size x 1%nat -> sizen A 1 = 2 -> (cuda e = true -> rk x = 3) ->
    fake_recur2 A zi x = Ok (shape y).
Proof.
  intros R e A zi x y H Hb Ht H2 Hc. pose proof (op_recur2_fits R e A zi x y Hc H) as F.
  unfold fake_recur2. rewrite (fake_accepts R 3 true A zi x y); auto; try discriminate.
  destruct F as (_ & B & N & M & s & _ & _ & _ & _ & ->). reflexivity.
Qed.
Print Assumptions C37_recur2_fake.
(** The Helion operators check nothing, so their theorem takes well-shaped arguments. *)
Theorem C37_hl_fake :
  forall (R : cring) e B N M (A A' zi x : tensor R) Af Af' zf xf, env_ok e ->
    matc B M A Af -> matv B N M A' Af' -> is2 zi B M zf -> is3 x B N M xf ->
    (exists y, hl_lti_recurN e A zi x = Ok y /\ fake_hl_lti_recurN A zi x = Ok (shape y)) /\
    (exists y, hl_recurN e A' zi x = Ok y /\ fake_hl_recurN A' zi x = Ok (shape y)).
Proof.
  intros R e B N M A A' zi x Af Af' zf xf He HA HA' Hz Hx. split.
  - destruct (hl_lti_spec R e B N M A zi x _ _ _ He HA Hz Hx) as (y & Ey & Hy). exists y. split; [exact Ey|].
    destruct (matc_fits R A zi x y B N M _ _ _ _ HA Hz Hx Hy) as [F Hb].
    unfold fake_hl_lti_recurN. rewrite (fake_accepts R 2 false A zi x y); auto; try discriminate.
    cbn [bind]. unfold size. rewrite (proj1 Hx), (proj1 Hy). cbn [nth]. repeat f_equal. lia.
  - destruct (hl_lpv_spec R e B N M A' zi x _ _ _ He HA' Hz Hx) as (y & Ey & Hy). exists y. split; [exact Ey|].
    destruct (matv_fits R A' zi x y B N M _ _ _ _ HA' Hz Hx Hy) as (F & Hb & Ht).
    unfold fake_hl_recurN. rewrite (fake_accepts R 3 false A' zi x y); auto; try discriminate.
    cbn [bind]. unfold size. rewrite (proj1 Hx), (proj1 Hy). cbn [nth]. repeat f_equal. lia.
Qed.
Print Assumptions C37_hl_fake.

(** Conversely, arguments of the right rank that a fake kernel accepts are accepted by the
    operator, with the predicted shape. *)
Theorem C37_fake_lti_complete :
  forall (R : cring) e (A zi x : tensor R) s, env_ok e -> rk x = 3 -> rk zi = 2 ->
    (fake_lti_recur2 A zi x = Ok s -> has2 e -> exists y, op_lti_recur2 e A zi x = Ok y /\ shape y = s) /\
    (fake_lti_recurN A zi x = Ok s -> ext e = true -> cuda e = false ->
       exists y, op_lti_recurN e A zi x = Ok y /\ shape y = s) /\
    (fake_hl_lti_recurN A zi x = Ok s -> exists y, hl_lti_recurN e A zi x = Ok y /\ shape y = s).
Proof.
  intros R e A zi x s He Hx Hz. split; [|split].
  - intros H [H1 H2]. unfold fake_lti_recur2 in H.
    destruct (fake_matrix 2 true A zi x) as [[]|] eqn:E; [|discriminate H]. injection H as <-.
    destruct (fake_lti_views R true A zi x E Hx Hz) as (B & N & M & Af & zf & xf & VA & Vz & Vx & HM).
    rewrite HM in * by reflexivity.
    destruct (op_lti_recur2_spec R e B N A zi x _ _ _ He H1 H2 VA Vz Vx) as (y & Ey & Hy).
    exists y. split; [exact Ey|]. now rewrite (proj1 Hy), (proj1 Vx).
  - intros H H1 H2. unfold fake_lti_recurN in H.
    destruct (fake_matrix 2 false A zi x) as [[]|] eqn:E; [|discriminate H]. injection H as <-.
    destruct (fake_lti_views R false A zi x E Hx Hz) as (B & N & M & Af & zf & xf & VA & Vz & Vx & _).
    destruct (op_lti_recurN_spec R e B N M A zi x _ _ _ H1 H2 VA Vz Vx) as (y & Ey & Hy).
    exists y. split; [exact Ey|]. now rewrite (proj1 Hy), (proj1 Vx).
  - intros H. unfold fake_hl_lti_recurN in H.
    destruct (fake_matrix 2 false A zi x) as [[]|] eqn:E; [|discriminate H]. injection H as <-.
    destruct (fake_lti_views R false A zi x E Hx Hz) as (B & N & M & Af & zf & xf & VA & Vz & Vx & _).
    destruct (hl_lti_spec R e B N M A zi x _ _ _ He VA Vz Vx) as (y & Ey & Hy).
    exists y. split; [exact Ey|]. unfold size. rewrite (proj1 Hy), (proj1 Vx). cbn [nth]. repeat f_equal. lia.
Qed.
Print Assumptions C37_fake_lti_complete.
Theorem C37_fake_lpv_complete :
  forall (R : cring) e (A zi x : tensor R) s, env_ok e -> rk x = 3 -> rk zi = 2 ->
    (fake_recur2 A zi x = Ok s -> has2 e -> exists y, op_recur2 e A zi x = Ok y /\ shape y = s) /\
    (fake_recurN A zi x = Ok s -> ext e = true -> cuda e = false ->
       exists y, op_recurN e A zi x = Ok y /\ shape y = s) /\
    (fake_hl_recurN A zi x = Ok s -> exists y, hl_recurN e A zi x = Ok y /\ shape y = s).
Proof.
  intros R e A zi x s He Hx Hz. split; [|split].
  - intros H [H1 H2]. unfold fake_recur2 in H.
    destruct (fake_matrix 3 true A zi x) as [[]|] eqn:E; [|discriminate H]. injection H as <-.
    destruct (fake_lpv_views R true A zi x E Hx Hz) as (B & N & M & Af & zf & xf & VA & Vz & Vx & HM).
    rewrite HM in * by reflexivity.
    destruct (op_recur2_spec R e B N A zi x _ _ _ He H1 H2 VA Vz Vx) as (y & Ey & Hy).
    exists y. split; [exact Ey|]. now rewrite (proj1 Hy), (proj1 Vx).
  - intros H H1 H2. unfold fake_recurN in H.
    destruct (fake_matrix 3 false A zi x) as [[]|] eqn:E; [|discriminate H]. injection H as <-.
    destruct (fake_lpv_views R false A zi x E Hx Hz) as (B & N & M & Af & zf & xf & VA & Vz & Vx & _).
    destruct (op_recurN_spec R e B N M A zi x _ _ _ H1 H2 VA Vz Vx) as (y & Ey & Hy).
    exists y. split; [exact Ey|]. now rewrite (proj1 Hy), (proj1 Vx).
  - intros H. unfold fake_hl_recurN in H.
    destruct (fake_matrix 3 false A zi x) as [[]|] eqn:E; [|discriminate H]. injection H as <-.
    destruct (fake_lpv_views R false A zi x E Hx Hz) as (B & N & M & Af & zf & xf & VA & Vz & Vx & _).
    destruct (hl_lpv_spec R e B N M A zi x _ _ _ He VA Vz Vx) as (y & Ey & Hy).
    exists y. split; [exact Ey|]. unfold size. rewrite (proj1 Hy), (proj1 Vx). cbn [nth]. repeat f_equal. lia.
Qed.
Print Assumptions C37_fake_lpv_complete.

(** ** Calls that an operator accepts and its fake kernel rejects *)
Definition env_cpu : env := mkEnv true false false false false seqtree 1 1.
Definition z1 (s : list nat) : tensor Zring := mkT s (fun _ => 1%Z).
(** Three matrices for two signals. *)
Theorem C37_batch_refuted :
  ~ (forall (R : cring) e (A zi x y : tensor R), op_lti_recurN e A zi x = Ok y ->
       exists s, fake_lti_recurN A zi x = Ok s).
Proof.
  intro H.
  assert (K : exists y, op_lti_recurN env_cpu (z1 [3; 1; 1]%nat) (z1 [2; 1]%nat) (z1 [2; 2; 1]%nat) = Ok y)
    by (eexists; reflexivity).
  destruct K as (y & Ey). destruct (H _ _ _ _ _ _ Ey) as (s & Es). discriminate Es.
Qed.
Print Assumptions C37_batch_refuted.
(** Three time steps in A, two in x. *)
Theorem C37_time_refuted :
  ~ (forall (R : cring) e (A zi x y : tensor R), op_recurN e A zi x = Ok y ->
       exists s, fake_recurN A zi x = Ok s).
Proof.
  intro H.
  assert (K : exists y, op_recurN env_cpu (z1 [3; 1; 1]%nat) (z1 [2; 1]%nat) (z1 [2; 2; 1]%nat) = Ok y)
    by (eexists; reflexivity).
  destruct K as (y & Ey). destruct (H _ _ _ _ _ _ Ey) as (s & Es). discriminate Es.
Qed.
Print Assumptions C37_time_refuted.
(** lti_recur2 and recur2 run the N-order CPU kernel, which accepts every order. *)
Theorem C37_order_refuted :
  ~ (forall (R : cring) e (A zi x y : tensor R), op_lti_recur2 e A zi x = Ok y ->
       exists s, fake_lti_recur2 A zi x = Ok s).
Proof.
  intro H.
  assert (K : exists y, op_lti_recur2 env_cpu (z1 [3; 3]%nat) (z1 [2; 3]%nat) (z1 [2; 2; 3]%nat) = Ok y)
    by (eexists; reflexivity).
  destruct K as (y & Ey). destruct (H _ _ _ _ _ _ Ey) as (s & Es). discriminate Es.
Qed.
Print Assumptions C37_order_refuted.
Theorem C37_order_lpv_refuted :
  ~ (forall (R : cring) e (A zi x y : tensor R), op_recur2 e A zi x = Ok y ->
       exists s, fake_recur2 A zi x = Ok s).
Proof.
  intro H.
  assert (K : exists y, op_recur2 env_cpu (z1 [2; 3; 3]%nat) (z1 [2; 3]%nat) (z1 [2; 2; 3]%nat) = Ok y)
    by (eexists; reflexivity).
  destruct K as (y & Ey). destruct (H _ _ _ _ _ _ Ey) as (s & Es). discriminate Es.
Qed.
Print Assumptions C37_order_lpv_refuted.

(** * Examples over the Gaussian integers *)
Definition G (a b : Z) : Gauss := (a, b).
Definition exA : tensor Gauss := mk2 2 2 (fun i j => G (Z.of_nat (i + j)) (Z.of_nat i - 1)).
Definition exdA : tensor Gauss := mk2 2 2 (fun i j => G (Z.of_nat i) (Z.of_nat j + 1)).
Definition exz : tensor Gauss := mk2 2 2 (fun b m => G (Z.of_nat b + 1) (Z.of_nat m)).
Definition exx : tensor Gauss := mk3 2 3 2 (fun b n m => G (Z.of_nat (b + n)) (1 - Z.of_nat m)).
Definition exg : tensor Gauss := mk3 2 3 2 (fun b n m => G (Z.of_nat (n + m)) (Z.of_nat b)).
Lemma env_cpu_ok : env_ok env_cpu.
Proof. split; [exact seq_leaves|cbn; lia]. Qed.
Lemma env_cpu_has2 : has2 env_cpu.
Proof. split; [reflexivity|discriminate]. Qed.
Lemma env_cpu_avail M : lti_op_avail env_cpu M.
Proof. split; [exact env_cpu_ok|]. split; intros _; [exact env_cpu_has2|right; auto]. Qed.
Lemma env_cpu_lpv pr M : lpv_op_avail env_cpu pr M.
Proof. split; [exact env_cpu_ok|]. right. apply env_cpu_avail. Qed.
Lemma exA_mat : matc 2 2 exA (fun _ i j => G (Z.of_nat (i + j)) (Z.of_nat i - 1)).
Proof. eapply matc_s; [apply is2_mk|reflexivity]. Qed.

Definition at3 (r : res (tensor Gauss)) b n m : option Gauss :=
  match r with Ok t => Some (at_ t [b; n; m]) | Err _ => None end.
Notation fw := (LTIMatrixRecurrence_forward env_cpu exA exz exx).
Notation jv := (bind fw (fun y => LTIMatrixRecurrence_jvp Gauss env_cpu exA exz y (Some exdA) None (Some exx))).
Example ex_lti_jvp_value :
  at3 fw 1 2 1 = Some (G 52 (-4)) /\ at3 jv 1 2 1 = Some (G 85 145).
Proof. split; vm_compute; reflexivity. Qed.
Example ex_C35_lti :
  exists y t Y, LTIMatrixRecurrence_forward env_cpu exA exz exx = Ok y /\
    LTIMatrixRecurrence_jvp Gauss env_cpu exA exz y (Some exdA) None (Some exx) = Ok t /\
    LTIMatrixRecurrence_forward env_cpu (lift exA (Some exdA)) (lift exz None) (lift exx (Some exx)) = Ok Y /\
    shape y = shape exx /\ dual_of Y y t.
Proof.
  apply (C35_LTIMatrixRecurrence_jvp_exact Gauss env_cpu 2 3 2 exA exz exx (Some exdA) None (Some exx) _ _ _
           (env_cpu_avail 2) exA_mat (is2_mk _ _ _) (is3_mk _ _ _ _)); cbn; auto.
Qed.
Notation bw := (bind fw (fun y => LTIMatrixRecurrence_backward Gauss env_cpu (true, true, true) exA exz y exg)).
Definition gA_at (r : res (option (tensor Gauss) * option (tensor Gauss) * option (tensor Gauss))) i j : option Gauss :=
  match r with Ok (Some t, _, _) => Some (at_ t [i; j]) | _ => None end.
(** The values were computed independently (finite differences of the complex recursion). *)
Example ex_lti_backward_value :
  gA_at bw 0 0 = Some (G 52 81) /\ gA_at bw 0 1 = Some (G 139 41) /\
  gA_at bw 1 0 = Some (G 140 135) /\ gA_at bw 1 1 = Some (G 287 21).
Proof. repeat split; vm_compute; reflexivity. Qed.
Example ex_C36_lti :
  exists y t gA gz gx, LTIMatrixRecurrence_forward env_cpu exA exz exx = Ok y /\
    LTIMatrixRecurrence_jvp Gauss env_cpu exA exz y (Some exdA) (Some exz) None = Ok t /\
    (forall nA nz nx, LTIMatrixRecurrence_backward Gauss env_cpu (nA, nz, nx) exA exz y exg
                      = Ok (grad_of nA gA, grad_of nz gz, grad_of nx gx)) /\
    shape gA = shape exA /\ shape gz = shape exz /\ shape gx = shape exx /\
    tdot exg t = odot (Some gA) (Some exdA) + odot (Some gz) (Some exz) + odot (Some gx) None.
Proof.
  apply (C36_LTIMatrixRecurrence_backward_adjoint Gauss env_cpu 2 3 2 exA exz exx exg (Some exdA) (Some exz) None _ _ _ _
           (env_cpu_avail 2) ltac:(lia) exA_mat (is2_mk _ _ _) (is3_mk _ _ _ _) (is3_mk _ _ _ _)); cbn; auto.
Qed.

(** Scalar recursion, one coefficient of shape [1] shared by two signals. *)
Definition sa : tensor Gauss := mk1 1 (fun _ => G 1 2).
Definition sda : tensor Gauss := mk1 1 (fun _ => G 0 1).
Definition sz : tensor Gauss := mk1 2 (fun b => G (Z.of_nat b) 1).
Definition sx : tensor Gauss := mk2 2 3 (fun b n => G (Z.of_nat n) (Z.of_nat b)).
Lemma sa_coef : coef 2 sa (fun _ => G 1 2).
Proof. apply coef_1 with (g := fun _ => G 1 2); [apply is1_mk|reflexivity]. Qed.
Example ex_C35_scalar :
  exists y t Y, LTIRecurrence_forward env_cpu sa sz sx = Ok y /\
    LTIRecurrence_jvp Gauss env_cpu sa sz y (Some sda) (Some sz) None = Ok t /\
    LTIRecurrence_forward env_cpu (lift sa (Some sda)) (lift sz (Some sz)) (lift sx None) = Ok Y /\
    shape y = shape sx /\ dual_of Y y t.
Proof.
  apply (C35_LTIRecurrence_jvp_exact Gauss env_cpu 2 3 sa sz sx (Some sda) (Some sz) None _ _ _
           env_cpu_ok env_cpu_has2 ltac:(lia) sa_coef (is1_mk _ _) (is2_mk _ _ _)); cbn; auto.
Qed.
Example ex_C36_scalar :
  exists y t ga gz gx, LTIRecurrence_forward env_cpu sa sz sx = Ok y /\
    LTIRecurrence_jvp Gauss env_cpu sa sz y (Some sda) (Some sz) (Some sx) = Ok t /\
    (forall na nz nx, LTIRecurrence_backward Gauss env_cpu (na, nz, nx) sa sz y sx
                      = Ok (grad_of na ga, grad_of nz gz, grad_of nx gx)) /\
    shape (engine_reduce sa ga) = shape sa /\ shape gz = shape sz /\ shape gx = shape sx /\
    tdot sx t = odot (Some (engine_reduce sa ga)) (Some sda) + odot (Some gz) (Some sz) + odot (Some gx) (Some sx).
Proof.
  apply (C36_LTIRecurrence_backward_adjoint Gauss env_cpu 2 3 sa sz sx sx (Some sda) (Some sz) (Some sx) _ _ _ _
           env_cpu_ok env_cpu_has2 ltac:(lia) ltac:(lia) sa_coef (is1_mk _ _) (is2_mk _ _ _) (is2_mk _ _ _)); cbn; auto.
Qed.

(** Time-varying matrices, one sequence per signal; also the registered operator. *)
Definition vA : tensor Gauss := mk4 2 3 2 2 (fun b n i j => G (Z.of_nat (b + n)) (Z.of_nat (i + j))).
Definition vdA : tensor Gauss := mk4 2 3 2 2 (fun b n i j => G (Z.of_nat (i + n)) (Z.of_nat (b + j))).
Lemma vA_mat : matv 2 3 2 vA (fun b n i j => G (Z.of_nat (b + n)) (Z.of_nat (i + j))).
Proof. apply matv_b. apply is4_mk. Qed.
Example ex_C35_lpv :
  exists y t Y, MatrixRecurrence_forward env_cpu false vA exz exx = Ok y /\
    MatrixRecurrence_jvp Gauss env_cpu false vA exz y (Some vdA) None None = Ok t /\
    MatrixRecurrence_forward env_cpu false (lift vA (Some vdA)) (lift exz None) (lift exx None) = Ok Y /\
    shape y = shape exx /\ dual_of Y y t.
Proof.
  apply (C35_MatrixRecurrence_jvp_exact Gauss env_cpu false 2 3 2 vA exz exx (Some vdA) None None _ _ _
           ltac:(lia) (env_cpu_lpv false 2) vA_mat (is2_mk _ _ _) (is3_mk _ _ _ _)); cbn; auto.
Qed.
Example ex_C36_lpv :
  exists y t gA gz gx, MatrixRecurrence_forward env_cpu false vA exz exx = Ok y /\
    MatrixRecurrence_jvp Gauss env_cpu false vA exz y (Some vdA) None None = Ok t /\
    (forall nA nz nx, MatrixRecurrence_backward Gauss env_cpu false (nA, nz, nx) vA exz y exg
                      = Ok (grad_of nA gA, grad_of nz gz, grad_of nx gx)) /\
    shape gA = shape vA /\ shape gz = shape exz /\ shape gx = shape exx /\
    tdot exg t = odot (Some gA) (Some vdA) + odot (Some gz) None + odot (Some gx) None.
Proof.
  apply (C36_MatrixRecurrence_backward_adjoint Gauss env_cpu false 2 3 2 vA exz exx exg (Some vdA) None None _ _ _ _
           ltac:(lia) (env_cpu_lpv false 2) ltac:(lia)
           vA_mat (is2_mk _ _ _) (is3_mk _ _ _ _) (is3_mk _ _ _ _)); cbn; auto.
Qed.
Example ex_registered :
  ltiop_ok env_cpu LtiRecur2 2 /\ ltiop_ok env_cpu LtiRecurN 2 /\ ltiop_ok env_cpu HlLtiRecurN 2 /\
  lpvop_ok env_cpu Recur2 2 /\ lpvop_ok env_cpu RecurN 5 /\ lpvop_ok env_cpu HlRecurN 5.
Proof.
  repeat split; try exact env_cpu_ok; try exact seq_leaves; try (cbn; lia); try reflexivity; try discriminate; intros; exact env_cpu_has2.
Qed.
(** Shapes: two signals, three steps, order 2. *)
Example ex_C37 :
  fake_lti_recur2 exA exz exx = Ok [2; 3; 2]%nat /\ fake_recur2 vA exz exx = Ok [2; 3; 2]%nat /\
  fake_lti_recur sa sz sx = Ok [2; 3]%nat /\ fake_hl_recurN vA exz exx = Ok [2; 3; 2]%nat /\
  fake_lti_recurN exA exz (mk2 2 2 (fun _ _ => G 0 0)) = Err IndexError /\
  fake_recurN vA exz (mk3 2 4 2 (fun _ _ _ => G 0 0)) = Err RuntimeError /\
  exists y, op_recur2 env_cpu vA exz exx = Ok y /\ shape y = [2; 3; 2]%nat.
Proof. repeat split; try reflexivity. eexists. split; reflexivity. Qed.
