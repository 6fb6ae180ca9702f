(** C61: rounding errors of the recursions, on every back-end. *)
From Coq Require Import List Arith Lia ZArith Bool Ring QArith Qcanon.
From Verif Require Import Scalar Ordered Spec SpecRound Tensor TensorLemmas Shapes Algebra M_Kernels M_LtiRecur M_LpvRecur
  P_Kernels P_KernelOps P_Scan P_Helion P_LtiRecur P_LpvRecur P_Round P_Round2 P_Round3 FloatQ.
Import ListNotations.
Close Scope Qc_scope. Close Scope Q_scope. Open Scope nat_scope.

Section S.
Variable F : ofield.
Add Ring Rr : (r_th F).
Variables (u : F) (fadd fmul fsub : F -> F -> F).
Hypothesis HR : rounds u fadd fmul fsub.
Notation Fl := (flops F fadd fmul fsub).
Notation ten := (tensor (car Fl)).

Lemma bnd_within k v e m : bnd F u k v e m -> within u k v e m.
Proof. now intros [H _]. Qed.

(** ** First order *)
(** The compiled operator, on the CPU or on a CUDA device with any scan tree: the
    output at step n has been through at most 2(n+1) roundings. *)
Theorem C61_operator e B N (a zi x : ten) af zf xf :
  env_ok e -> ext e = true -> (cuda e = true -> ext_cuda e = true) ->
  1 <= B -> coef B a af -> is1 zi B zf -> is2 x B N xf ->
  exists y yf, op_lti_recur e a zi x = Ok y /\ is2 y B N yf /\
    forall b n, b < B -> n < N ->
      within u (2 * S n) (yf b n) (lin_rec (R := F) (fun _ => af b) (zf b) (xf b) (S n)) (lin_abs (F := F) (fun _ => af b) (zf b) (xf b) (S n)).
Proof.
  intros He He1 He2 HB Ha Hz Hx. unfold op_lti_recur. rewrite He1. destruct (cuda e).
  - rewrite He2 by reflexivity.
    destruct (lti_recur_cuda_raw Fl e B N a zi x af zf xf He HB Ha Hz Hx) as (y & E & Hy).
    exists y. eexists. split; [exact E|]. split; [exact Hy|]. intros b n Hb Hn. apply bnd_within.
    apply (scan1_bnd F u fadd fmul fsub HR). apply He.
  - destruct (lti_recur_cpu_raw Fl B N a zi x af zf xf HB Ha Hz Hx) as (y & E & Hy).
    exists y. eexists. split; [exact E|]. split; [exact Hy|]. intros b n Hb Hn. apply bnd_within.
    apply (klin_bnd F u fadd fmul fsub HR).
Qed.

Let rel := bnd F u.
Let Hu : ole (r0 : F) u = true := rd_u _ _ _ _ HR.
(** The Python implementation, for every unroll factor. *)
Theorem C61_python B N (a init x : ten) af hf xf uf :
  1 <= B -> 1 <= N -> 1 <= uf -> coef B a af -> coef B init hf -> is2 x B N xf ->
  exists y yf, linear_recurrence a init x uf = Ok y /\ is2 y B N yf /\
    forall b n, b < B -> n < N ->
      within u (2 * S n) (yf b n) (lin_rec (R := F) (fun _ => af b) (hf b) (xf b) (S n)) (lin_abs (F := F) (fun _ => af b) (hf b) (xf b) (S n)).
Proof.
  intros HB HN Hf Ha Hi Hx. unfold linear_recurrence.
  destruct (lr_fuel_rel Fl F rel (bnd_mono F u Hu) (bnd_add F u Hu fadd fmul fsub HR) (bnd_mul F u Hu fadd fmul fsub HR)
    (bnd_0 F u) (bnd_1 F u Hu) (fmul_0_r F u fadd fmul fsub HR) (rd_0l _ _ _ _ HR) (rd_0r _ _ _ _ HR) (rd_1l _ _ _ _ HR) (rd_1r _ _ _ _ HR) (fun _ => eq_refl)
    (S (size x 1)) B N a init x af hf xf af (fun b => oabs (af b)) hf (fun b => oabs (hf b)) xf (fun b n => oabs (xf b n)) uf 1 0)
    as (y & yf & E & Hy & G); auto.
  - unfold size. rewrite (proj1 Hx). cbn. lia.
  - intros. apply bnd_leaf.
  - intros. apply bnd_leaf.
  - intros. apply bnd_leaf.
  - exists y, yf. split; [exact E|]. split; [exact Hy|]. intros b n Hb Hn. apply bnd_within, (G b n Hb Hn).
Qed.
Theorem C61_lpv_python B N (a init x : ten) af hf xf uf :
  1 <= B -> 1 <= N -> 1 <= uf -> coefv B N a af -> coef B init hf -> is2 x B N xf ->
  exists y yf, lpv_linear_recurrence a init x uf = Ok y /\ is2 y B N yf /\
    forall b n, b < B -> n < N ->
      within u (2 * S n) (yf b n) (lin_rec (R := F) (af b) (hf b) (xf b) (S n)) (lin_abs (F := F) (af b) (hf b) (xf b) (S n)).
Proof.
  intros HB HN Hf Ha Hi Hx. unfold lpv_linear_recurrence.
  destruct (lpv_lr_fuel_rel Fl F rel (bnd_mono F u Hu) (bnd_add F u Hu fadd fmul fsub HR) (bnd_mul F u Hu fadd fmul fsub HR)
    (bnd_0 F u) (bnd_1 F u Hu) (rd_0l _ _ _ _ HR) (rd_1l _ _ _ _ HR) (rd_1r _ _ _ _ HR) (fun _ => eq_refl)
    (S (size x 1)) B N a init x af hf xf af (fun b n => oabs (af b n)) hf (fun b => oabs (hf b)) xf (fun b n => oabs (xf b n)) uf 1 0)
    as (y & yf & E & Hy & G); auto.
  - unfold size. rewrite (proj1 Hx). cbn. lia.
  - intros. apply bnd_leaf.
  - intros. apply bnd_leaf.
  - intros. apply bnd_leaf.
  - exists y, yf. split; [exact E|]. split; [exact Hy|]. intros b n Hb Hn. apply bnd_within, (G b n Hb Hn).
Qed.

(** Two values within the same bound of the exact one. *)
Lemma within_agree k v v' e m : within u k v e m -> within u k v' e m ->
  ole (oabs (rsub (v : F) v')) (rmul (radd r1 r1) (rmul (rsub (rpow (radd r1 u) k) r1) m)) = true.
Proof.
  intros H H'. replace (rsub v v') with (radd (rsub v e) (ropp (rsub v' e))) by ring.
  eapply ole_trans; [apply abs_tri|]. rewrite abs_opp.
  match goal with |- ole _ ?g = true => replace g with (radd (rmul (rsub (rpow (radd r1 u) k) r1) m) (rmul (rsub (rpow (radd r1 u) k) r1) m)) by ring end.
  now apply le_add.
Qed.
(** The back-ends agree up to twice that bound: a tolerance for comparing the operator
    of any two configurations with each other and with the Python implementation. *)
Theorem C61_agree e e' B N (a zi x : ten) af zf xf uf :
  env_ok e -> ext e = true -> (cuda e = true -> ext_cuda e = true) ->
  env_ok e' -> ext e' = true -> (cuda e' = true -> ext_cuda e' = true) ->
  1 <= B -> 1 <= N -> 1 <= uf -> coef B a af -> is1 zi B zf -> is2 x B N xf ->
  exists y1 y2 y3 f1 f2 f3,
    op_lti_recur e a zi x = Ok y1 /\ op_lti_recur e' a zi x = Ok y2 /\ linear_recurrence a zi x uf = Ok y3 /\
    is2 y1 B N f1 /\ is2 y2 B N f2 /\ is2 y3 B N f3 /\
    forall b n, b < B -> n < N ->
      let tol := rmul (radd r1 r1) (rmul (rsub (rpow (radd r1 u) (2 * S n)) r1) (lin_abs (F := F) (fun _ => af b) (zf b) (xf b) (S n))) in
      ole (oabs (rsub (f1 b n : F) (f2 b n))) tol = true /\ ole (oabs (rsub (f1 b n : F) (f3 b n))) tol = true.
Proof.
  intros He He1 He2 He' He1' He2' HB HN Hf Ha Hz Hx.
  destruct (C61_operator e B N a zi x af zf xf) as (y1 & f1 & E1 & H1 & G1); auto.
  destruct (C61_operator e' B N a zi x af zf xf) as (y2 & f2 & E2 & H2 & G2); auto.
  destruct (C61_python B N a zi x af zf xf uf) as (y3 & f3 & E3 & H3 & G3); auto. { now apply coef_B. }
  exists y1, y2, y3, f1, f2, f3. do 3 (split; [assumption|]). do 3 (split; [assumption|]).
  intros b n Hb Hn tol. split; eapply within_agree; eauto.
Qed.

(** ** Matrix recursions: M+1 roundings per step *)
Theorem C61_lti_recurN B N M (A zi x : ten) Af zf xf :
  matc B M A Af -> is2 zi B M zf -> is3 x B N M xf ->
  exists y yf, lti_mat_recur_N_order_cpu A zi x = Ok y /\ is3 y B N M yf /\
    forall b n m, b < B -> n < N -> m < M ->
      within u ((M + 1) * S n) (yf b n m) (state (R := F) M (fun _ => Af b) (zf b) (xf b) (S n) m) (state_abs (F := F) M (fun _ => Af b) (zf b) (xf b) (S n) m).
Proof.
  intros HA Hz Hx. destruct (lti_cpu_raw Fl B N M A zi x Af zf xf HA Hz Hx) as (y & E & Hy).
  exists y. eexists. split; [exact E|]. split; [exact Hy|]. intros b n m Hb Hn Hm. apply bnd_within.
  now apply (kstate_bnd F u fadd fmul fsub HR).
Qed.
Theorem C61_recurN B N M (A zi x : ten) Af zf xf :
  matv B N M A Af -> is2 zi B M zf -> is3 x B N M xf ->
  exists y yf, mat_recur_N_order_cpu_omp A zi x = Ok y /\ is3 y B N M yf /\
    forall b n m, b < B -> n < N -> m < M ->
      within u ((M + 1) * S n) (yf b n m) (state (R := F) M (Af b) (zf b) (xf b) (S n) m) (state_abs (F := F) M (Af b) (zf b) (xf b) (S n) m).
Proof.
  intros HA Hz Hx. destruct (lpv_cpu_raw Fl B N M A zi x Af zf xf HA Hz Hx) as (y & E & Hy).
  exists y. eexists. split; [exact E|]. split; [exact Hy|]. intros b n m Hb Hn Hm. apply bnd_within.
  now apply (kstate_bnd F u fadd fmul fsub HR).
Qed.
(** Helion, any tile sizes. *)
Theorem C61_helion_lti e B N M (A zi x : ten) Af zf xf :
  env_ok e -> matc B M A Af -> is2 zi B M zf -> is3 x B N M xf ->
  exists y yf, hl_lti_recurN e A zi x = Ok y /\ is3 y B N M yf /\
    forall b n m, b < B -> n < N -> m < M ->
      within u ((M + 1) * S n) (yf b n m) (state (R := F) M (fun _ => Af b) (zf b) (xf b) (S n) m) (state_abs (F := F) M (fun _ => Af b) (zf b) (xf b) (S n) m).
Proof.
  intros He HA Hz Hx. destruct (hl_lti_raw Fl e B N M A zi x Af zf xf He HA Hz Hx) as (y & E & Hy).
  exists y. eexists. split; [exact E|]. split; [exact Hy|]. intros b n m Hb Hn Hm. apply bnd_within.
  now apply (hstate_bnd F u fadd fmul fsub HR).
Qed.
Theorem C61_helion_lpv e B N M (A zi x : ten) Af zf xf :
  env_ok e -> matv B N M A Af -> is2 zi B M zf -> is3 x B N M xf ->
  exists y yf, hl_recurN e A zi x = Ok y /\ is3 y B N M yf /\
    forall b n m, b < B -> n < N -> m < M ->
      within u ((M + 1) * S n) (yf b n m) (state (R := F) M (Af b) (zf b) (xf b) (S n) m) (state_abs (F := F) M (Af b) (zf b) (xf b) (S n) m).
Proof.
  intros He HA Hz Hx. destruct (hl_lpv_raw Fl e B N M A zi x Af zf xf He HA Hz Hx) as (y & E & Hy).
  exists y. eexists. split; [exact E|]. split; [exact Hy|]. intros b n m Hb Hn Hm. apply bnd_within.
  now apply (hstate_bnd F u fadd fmul fsub HR).
Qed.
(** Second order, CPU or CUDA with any scan tree: 3 roundings per step either way. *)
Theorem C61_lti_recur2 e B N (A zi x : ten) Af zf xf :
  env_ok e -> ext e = true -> (cuda e = true -> ext_cuda e = true) ->
  matc B 2 A Af -> is2 zi B 2 zf -> is3 x B N 2 xf ->
  exists y yf, op_lti_recur2 e A zi x = Ok y /\ is3 y B N 2 yf /\
    forall b n m, b < B -> n < N -> m < 2 ->
      within u (3 * S n) (yf b n m) (state (R := F) 2 (fun _ => Af b) (zf b) (xf b) (S n) m) (state_abs (F := F) 2 (fun _ => Af b) (zf b) (xf b) (S n) m).
Proof.
  intros He He1 He2 HA Hz Hx. unfold op_lti_recur2. rewrite He1. destruct (cuda e).
  - rewrite He2 by reflexivity. destruct (lti2_cuda_raw Fl e B N A zi x Af zf xf He HA Hz Hx) as (y & E & Hy).
    exists y. eexists. split; [exact E|]. split; [exact Hy|]. intros b n m Hb Hn Hm. apply bnd_within.
    apply (scan2_bnd F u fadd fmul fsub HR (par e (S n)) (fun _ => Af b) (zf b) (xf b) (S n) m); [apply He|exact Hm].
  - now apply C61_lti_recurN.
Qed.
Theorem C61_recur2 e B N (A zi x : ten) Af zf xf :
  env_ok e -> ext e = true -> (cuda e = true -> ext_cuda e = true) ->
  matv B N 2 A Af -> is2 zi B 2 zf -> is3 x B N 2 xf ->
  exists y yf, op_recur2 e A zi x = Ok y /\ is3 y B N 2 yf /\
    forall b n m, b < B -> n < N -> m < 2 ->
      within u (3 * S n) (yf b n m) (state (R := F) 2 (Af b) (zf b) (xf b) (S n) m) (state_abs (F := F) 2 (Af b) (zf b) (xf b) (S n) m).
Proof.
  intros He He1 He2 HA Hz Hx. unfold op_recur2. rewrite He1. destruct (cuda e).
  - rewrite He2 by reflexivity. destruct (lpv2_cuda_raw Fl e B N A zi x Af zf xf He HA Hz Hx) as (y & E & Hy).
    exists y. eexists. split; [exact E|]. split; [exact Hy|]. intros b n m Hb Hn Hm. apply bnd_within.
    apply (scan2_bnd F u fadd fmul fsub HR (par e (S n)) (Af b) (zf b) (xf b) (S n) m); [apply He|exact Hm].
  - now apply C61_recurN.
Qed.

(** ** Stable recursions *)
(** If |a| (1+u)^2 leaves room, [D] bounds the error of the CPU kernel at every time:
    it does not grow with the length of the signal. *)
Theorem C61_stable B N (a zi x : ten) af zf xf (M X D : nat -> F) :
  1 <= B -> coef B a af -> is1 zi B zf -> is2 x B N xf ->
  (forall b, b < B -> ole r0 (D b) = true) ->
  (forall b n, b < B -> ole (oabs (xf b n : F)) (X b) = true) ->
  (forall b n, b < B -> ole (oabs (lin_rec (R := F) (fun _ => af b) (zf b) (xf b) n)) (M b) = true) ->
  (forall b, b < B -> ole (radd (rmul (rmul (rmul (radd r1 u) (radd r1 u)) (oabs (af b : F))) (D b))
     (radd (rmul (rsub (rmul (radd r1 u) (radd r1 u)) r1) (rmul (oabs (af b : F)) (M b))) (rmul u (X b)))) (D b) = true) ->
  exists y yf, lti_recur_cpu a zi x = Ok y /\ is2 y B N yf /\
    forall b n, b < B -> n < N -> ole (oabs (rsub (yf b n : F) (lin_rec (R := F) (fun _ => af b) (zf b) (xf b) (S n)))) (D b) = true.
Proof.
  intros HB Ha Hz Hx HD HX HM HK. destruct (lti_recur_cpu_raw Fl B N a zi x af zf xf HB Ha Hz Hx) as (y & E & Hy).
  exists y. eexists. split; [exact E|]. split; [exact Hy|]. intros b n Hb Hn.
  apply (klin_stable F u fadd fmul fsub HR (af b) (zf b) (xf b) (M b) (X b) (D b)); auto.
Qed.

(** With exact operations the bounds are equalities. *)
Theorem C61_exact k (v e m : F) : u = r0 -> within u k v e m -> v = e.
Proof.
  intros -> H. unfold within in H.
  assert (P : rpow (radd r1 r0 : F) k = r1) by (clear H; induction k as [|k IH]; [reflexivity|cbn [rpow]; rewrite IH; ring]).
  rewrite P in H. replace (rmul (rsub r1 r1) m) with (r0 : F) in H by ring.
  apply abs_0_eq in H. transitivity (radd (rsub v e) e); [ring|rewrite H; ring].
Qed.
End S.
Print Assumptions C61_operator.
Print Assumptions C61_python.
Print Assumptions C61_lpv_python.
Print Assumptions C61_agree.
Print Assumptions C61_lti_recurN.
Print Assumptions C61_recurN.
Print Assumptions C61_helion_lti.
Print Assumptions C61_helion_lpv.
Print Assumptions C61_lti_recur2.
Print Assumptions C61_recur2.
Print Assumptions C61_stable.
Print Assumptions C61_exact.

(** The contract is met by binary floating point with p bits (24: float32, 53: float64). *)
Theorem C61_float p : @rounds Qofield (unit_roundoff p) (fl_add p) (fl_mul p) (fl_sub p).
Proof. exact (float_rounds p). Qed.
Print Assumptions C61_float.
Theorem C61_float_closed p x y : (1 <= p)%Z -> rep p x = true -> rep p y = true ->
  rep p (fl_add p x y) = true /\ rep p (fl_mul p x y) = true /\ rep p (fl_sub p x y) = true.
Proof. intros. repeat split; now apply float_rep. Qed.
Print Assumptions C61_float_closed.

(** ** Examples: 4-bit floating point (unit roundoff 1/16) *)
Notation F4 := (flops Qofield (fl_add 4) (fl_mul 4) (fl_sub 4)).
Definition cpu_env : env := mkEnv true true false false false seqtree 1 1.
(** A device scan that combines the later elements first. *)
Fixpoint ltree (n : nat) : tree := match n with O => Leaf | S k => Node Leaf (ltree k) end.
Lemma ltree_leaves n : leaves (ltree n) = S n.
Proof. induction n as [|n IH]; [reflexivity|]. cbn [ltree leaves]. now rewrite IH. Qed.
Definition gpu_env : env := mkEnv true true false true false ltree 1 1.
Lemma cpu_env_ok : env_ok cpu_env.
Proof. split; [|cbn; auto]. intro k. cbn [par cpu_env]. induction k as [|k IH]; [reflexivity|]. cbn [seqtree leaves]. rewrite IH. cbn. lia. Qed.
Lemma gpu_env_ok : env_ok gpu_env.
Proof. split; [exact ltree_leaves|cbn; auto]. Qed.
Definition q (n : Z) (d : positive) : Qc := Q2Qc (n # d).
Definition ex_a : tensor (car F4) := lst1 (q 0 1) [q 11 16].
Definition ex_z : tensor (car F4) := lst1 (q 0 1) [q 3 2].
Definition ex_x : tensor (car F4) := lst2 (q 0 1) [[q 13 8; q (-5) 4; q 9 8; q 7 4; q 15 16]].
Definition shq (r : res (tensor (car F4))) : option (list nat * list Q) :=
  match show r with Some (s, l) => Some (s, map (fun v : Qc => this v) l) | None => None end.
(** CPU, CUDA and Python with unroll factors 1, 2, 3 round differently... *)
Example C61_ex :
  shq (op_lti_recur cpu_env ex_a ex_z ex_x) = Some ([1; 5], [5 # 2; 1 # 2; 3 # 2; 11 # 4; 11 # 4]%Q) /\
  shq (op_lti_recur gpu_env ex_a ex_z ex_x) = Some ([1; 5], [5 # 2; 9 # 16; 3 # 2; 11 # 4; 3]%Q) /\
  shq (linear_recurrence ex_a ex_z ex_x 1) = Some ([1; 5], [5 # 2; 1 # 2; 3 # 2; 11 # 4; 11 # 4]%Q) /\
  shq (linear_recurrence ex_a ex_z ex_x 2) = Some ([1; 5], [5 # 2; 9 # 16; 3 # 2; 11 # 4; 11 # 4]%Q) /\
  shq (linear_recurrence ex_a ex_z ex_x 3) = Some ([1; 5], [5 # 2; 1 # 2; 3 # 2; 11 # 4; 3]%Q).
Proof. repeat split; vm_compute; reflexivity. Qed.
(** ... so equality bit for bit is not a property of the code: a comparison needs a
    tolerance such as [C61_agree]'s. *)
Theorem C61_bitwise_refuted :
  ~ (forall e e' (a zi x : tensor (car F4)), env_ok e -> ext e = true -> (cuda e = true -> ext_cuda e = true) ->
      env_ok e' -> ext e' = true -> (cuda e' = true -> ext_cuda e' = true) ->
      shq (op_lti_recur e a zi x) = shq (op_lti_recur e' a zi x)) /\
  ~ (forall uf uf' (a zi x : tensor (car F4)), 1 <= uf -> 1 <= uf' ->
      shq (linear_recurrence a zi x uf) = shq (linear_recurrence a zi x uf')).
Proof.
  destruct C61_ex as (E1 & E2 & E3 & E4 & _). split; intro H.
  - specialize (H cpu_env gpu_env ex_a ex_z ex_x cpu_env_ok eq_refl (fun _ => eq_refl) gpu_env_ok eq_refl (fun _ => eq_refl)).
    rewrite E1, E2 in H. discriminate.
  - specialize (H 1 2 ex_a ex_z ex_x ltac:(lia) ltac:(lia)). rewrite E3, E4 in H. discriminate.
Qed.
Print Assumptions C61_bitwise_refuted.
(** The hypotheses of the bounds at this instance. *)
Example C61_agree_ex :
  exists y1 y2 y3 f1 f2 f3,
    op_lti_recur cpu_env ex_a ex_z ex_x = Ok y1 /\ op_lti_recur gpu_env ex_a ex_z ex_x = Ok y2 /\ linear_recurrence ex_a ex_z ex_x 2 = Ok y3 /\
    is2 y1 1 5 f1 /\ is2 y2 1 5 f2 /\ is2 y3 1 5 f3 /\
    forall b n, b < 1 -> n < 5 ->
      let tol := @rmul Qofield (radd r1 r1) (rmul (rsub (rpow (radd r1 (unit_roundoff 4)) (2 * S n)) r1)
         (lin_abs (F := Qofield) (fun _ => q 11 16) (q 3 2) (fun n => nth n [q 13 8; q (-5) 4; q 9 8; q 7 4; q 15 16] (q 0 1)) (S n))) in
      ole (oabs (rsub (f1 b n : Qofield) (f2 b n))) tol = true /\ ole (oabs (rsub (f1 b n : Qofield) (f3 b n))) tol = true.
Proof.
  apply (C61_agree Qofield (unit_roundoff 4) _ _ _ (float_rounds 4) cpu_env gpu_env 1 5 ex_a ex_z ex_x (fun _ => q 11 16) (fun _ => q 3 2)
    (fun _ n => nth n [q 13 8; q (-5) 4; q 9 8; q 7 4; q 15 16] (q 0 1)) 2); try reflexivity; try lia.
  - apply cpu_env_ok.
  - apply gpu_env_ok.
  - apply coef_B. split; [reflexivity|]. intros b Hb. now replace b with 0 by lia.
  - split; [reflexivity|]. intros b Hb. now replace b with 0 by lia.
  - split; [reflexivity|]. intros b n Hb Hn. replace b with 0 by lia. reflexivity.
Qed.
(** Second order: a matrix recursion on both devices, 3-bit numbers. *)
Notation F3 := (flops Qofield (fl_add 3) (fl_mul 3) (fl_sub 3)).
Definition ex_A : tensor (car F3) := lst2 (q 0 1) [[q 5 4; q (-7) 8]; [q 3 4; q 1 4]].
Definition ex_z2 : tensor (car F3) := lst2 (q 0 1) [[q 1 2; q 7 8]].
Definition ex_x2 : tensor (car F3) := mk3 1 3 2 (fun b n m => if m =? 0 then q (3 - Z.of_nat n) 2 else q 0 1).
Definition shq3 (r : res (tensor (car F3))) : option (list nat * list Q) :=
  match show r with Some (s, l) => Some (s, map (fun v : Qc => this v) l) | None => None end.
Example C61_mat_ex :
  shq3 (op_lti_recur2 cpu_env ex_A ex_z2 ex_x2) <> shq3 (op_lti_recur2 gpu_env ex_A ex_z2 ex_x2) /\
  exists y yf, op_lti_recur2 gpu_env ex_A ex_z2 ex_x2 = Ok y /\ is3 y 1 3 2 yf /\
    forall b n m, b < 1 -> n < 3 -> m < 2 ->
      within (F := Qofield) (unit_roundoff 3) (3 * S n) (yf b n m)
        (state (R := Qofield) 2 (fun _ i j => nth j (nth i [[q 5 4; q (-7) 8]; [q 3 4; q 1 4]] []) (q 0 1)) (fun i => nth i [q 1 2; q 7 8] (q 0 1))
           (fun n m => if m =? 0 then q (3 - Z.of_nat n) 2 else q 0 1) (S n) m)
        (state_abs (F := Qofield) 2 (fun _ i j => nth j (nth i [[q 5 4; q (-7) 8]; [q 3 4; q 1 4]] []) (q 0 1)) (fun i => nth i [q 1 2; q 7 8] (q 0 1))
           (fun n m => if m =? 0 then q (3 - Z.of_nat n) 2 else q 0 1) (S n) m).
Proof.
  split.
  - vm_compute. discriminate.
  - apply (C61_lti_recur2 Qofield (unit_roundoff 3) _ _ _ (float_rounds 3) gpu_env 1 3 ex_A ex_z2 ex_x2
      (fun _ i j => nth j (nth i [[q 5 4; q (-7) 8]; [q 3 4; q 1 4]] []) (q 0 1)) (fun _ i => nth i [q 1 2; q 7 8] (q 0 1))
      (fun _ n m => if m =? 0 then q (3 - Z.of_nat n) 2 else q 0 1)); try reflexivity.
    + apply gpu_env_ok.
    + apply matc_s with (g := fun i j => nth j (nth i [[q 5 4; q (-7) 8]; [q 3 4; q 1 4]] []) (q 0 1)); [|reflexivity].
      split; [reflexivity|]. intros [|[|i]] [|[|j]] Hi Hj; try lia; reflexivity.
    + split; [reflexivity|]. intros [|b] [|[|i]] Hb Hi; try lia; reflexivity.
    + split; [reflexivity|]. intros [|b] n m Hb Hn Hm; try lia. reflexivity.
Qed.
(** a = 1/2, |x| <= 1: in 4-bit arithmetic the error stays below 1/2 for ever. *)
Lemma half_bounded n : ole (oabs (lin_rec (R := Qofield) (fun _ => q 1 2) (q 0 1) (fun _ => q 1 1) n)) (q 2 1) = true.
Proof.
  induction n as [|n IH]; [reflexivity|]. cbn [lin_rec]. eapply ole_trans; [apply abs_tri|]. rewrite abs_mul.
  eapply (ole_trans Qofield _ (radd (rmul (oabs (q 1 2 : Qofield)) (q 2 1)) (oabs (q 1 1 : Qofield)))).
  - apply le_add; [|apply ole_refl]. apply le_mul_l; [reflexivity|exact IH].
  - reflexivity.
Qed.
Example C61_stable_ex N :
  exists y yf, lti_recur_cpu (mk1 1 (fun _ => q 1 2) : tensor (car F4)) (mk1 1 (fun _ => q 0 1)) (mk2 1 N (fun _ _ => q 1 1)) = Ok y /\ is2 y 1 N yf /\
    forall b n, b < 1 -> n < N ->
      ole (oabs (rsub (yf b n : Qofield) (lin_rec (R := Qofield) (fun _ => q 1 2) (q 0 1) (fun _ => q 1 1) (S n)))) (q 1 2) = true.
Proof.
  apply (C61_stable Qofield (unit_roundoff 4) _ _ _ (float_rounds 4) 1 N _ _ _ (fun _ => q 1 2) (fun _ => q 0 1) (fun _ _ => q 1 1)
    (fun _ => q 2 1) (fun _ => q 1 1) (fun _ => q 1 2)); auto.
  - apply coef_B. split; [reflexivity|auto].
  - split; [reflexivity|auto].
  - split; [reflexivity|auto].
  - intros. apply half_bounded.
Qed.
