(** C74: linear_recurrence (lti and lpv) and the CPU kernel, bit for bit.  No law of
    arithmetic is used unless stated. *)
From Coq Require Import List Arith Lia ZArith Bool QArith Qcanon.
From Verif Require Import Scalar Tensor TensorLemmas TensorOps TensorAlg TensorTac TensorList Spec Shapes M_Kernels M_LtiRecur M_LpvRecur
  P_Kernels P_KernelOps P_LtiRecur P_LpvRecur M_Interp SpecRound Ordered Ordered FloatQ Properties_Round.
Import ListNotations.
Open Scope nat_scope.

(** ** Spec *)
Section Spec.
Variable R : cops.
Notation ten := (tensor (car R)).
(** The value before sample n: the initial one, or the previous output. *)
Definition before (h : R) (y : nat -> R) (n : nat) : R := match n with 0 => h | S k => y k end.
(** The operations for one sample: lti/recur.py multiplies a by the previous value and adds
    x; lpv/recur.py uses torch.addcmul(x, h, a); the kernels add to x. *)
Definition op_lti (a h x : R) : R := radd (rmul a h) x.
Definition op_lpv (a h x : R) : R := radd x (rmul h a).
Definition op_cpu (a h x : R) : R := radd x (rmul a h).
Definition follows (op : R -> R -> R -> R) (B N : nat) (a : nat -> nat -> R) (h : nat -> R) (x y : nat -> nat -> R) : Prop :=
  forall b n, b < B -> n < N -> y b n = op (a b n) (before (h b) (y b) n) (x b n).
(** The signal is run sample by sample. *)
Definition stepwise (uf N : nat) : Prop := 1 <= uf /\ (uf = 1 \/ N <= uf).
End Spec.
Arguments before {R}. Arguments op_lti {R}. Arguments op_lpv {R}. Arguments op_cpu {R}. Arguments follows {R}.

(** ** The calls *)
Section S.
Variable R : cops.
Notation ten := (tensor (car R)).

Theorem C74_lti B N (a init x : ten) af hf xf uf :
  1 <= N -> stepwise uf N -> coef B a af -> coef B init hf -> is2 x B N xf ->
  exists y yf, linear_recurrence a init x uf = Ok y /\ is2 y B N yf /\ follows op_lti B N (fun b _ => af b) hf xf yf.
Proof.
  intros HN (Hu & Hu') Ha Hi Hx. unfold linear_recurrence. cbn [linear_recurrence_fuel].
  assert (rk x = 2) as -> by (unfold rk; now rewrite (proj1 Hx)). cbn [Nat.eqb].
  assert (size x 0 = B) as -> by (unfold size; now rewrite (proj1 Hx)).
  assert (size x 1 = N) as -> by (unfold size; now rewrite (proj1 Hx)).
  destruct (coef_expand R B a af Ha) as (-> & -> & a' & na & ag & -> & Ha' & Hna & Hag). cbn [bind].
  destruct (coef_expand R B init hf Hi) as (-> & -> & i' & ni & ig & -> & Hi' & Hni & Hig). cbn [bind].
  assert ((uf <? 1) = false) as -> by (apply Nat.ltb_ge; lia). cbn [negb].
  assert ((uf =? 1) || (N <=? uf) = true) as -> by (destruct Hu' as [->|Hu']; [reflexivity|]; apply orb_true_iff; right; now apply Nat.leb_le).
  destruct (loop_ok R B N a' i' x na ni ag ig xf Ha' Hi' Hx Hna Hni HN) as (y & E & Hy).
  exists y. eexists. split; [exact E|]. split; [exact Hy|]. intros b n Hb Hn. cbn beta. unfold op_lti.
  destruct n as [|n]; cbn [lin_rec before]; rewrite ?(Hag b Hb), ?(Hig b Hb); reflexivity.
Qed.

Theorem C74_lpv B N (a init x : ten) af hf xf uf :
  1 <= N -> stepwise uf N -> coefv B N a af -> coef B init hf -> is2 x B N xf ->
  exists y yf, lpv_linear_recurrence a init x uf = Ok y /\ is2 y B N yf /\ follows op_lpv B N af hf xf yf.
Proof.
  intros HN (Hu & Hu') Ha Hi Hx. unfold lpv_linear_recurrence. cbn [lpv_linear_recurrence_fuel].
  assert (rk x = 2) as -> by (unfold rk; now rewrite (proj1 Hx)). cbn [Nat.eqb].
  assert (size x 0 = B) as -> by (unfold size; now rewrite (proj1 Hx)).
  assert (size x 1 = N) as -> by (unfold size; now rewrite (proj1 Hx)).
  assert (((rk a =? 1) || (rk a =? 2)) = true /\ negb ((rk a =? 1) && negb (size a 0 =? N)) = true) as (-> & ->).
  { unfold rk, size. destruct Ha as [g Ha _|Ha]; rewrite (proj1 Ha); cbn; rewrite ?Nat.eqb_refl; auto. }
  destruct (coef_expand R B init hf Hi) as (-> & -> & i' & ni & ig & -> & Hi' & Hni & Hig). cbn [bind].
  assert ((uf <? 1) = false) as -> by (apply Nat.ltb_ge; lia). cbn [negb].
  assert ((uf =? 1) || (N <=? uf) = true) as -> by (destruct Hu' as [->|Hu']; [reflexivity|]; apply orb_true_iff; right; now apply Nat.leb_le).
  destruct (lpv_loop2_raw R B N a i' x ni af ig xf Ha Hi' Hx Hni HN) as (y & E & Hy).
  exists y. eexists. split; [exact E|]. split; [exact Hy|]. intros b n Hb Hn. cbn beta. unfold op_lpv.
  destruct n as [|n]; cbn [alin before]; rewrite ?(Hig b Hb); reflexivity.
Qed.

Theorem C74_cpu e B N (a zi x : ten) af zf xf :
  ext e = true -> cuda e = false -> 1 <= B -> coef B a af -> is1 zi B zf -> is2 x B N xf ->
  exists y yf, op_lti_recur e a zi x = Ok y /\ is2 y B N yf /\ follows op_cpu B N (fun b _ => af b) zf xf yf.
Proof.
  intros He Hc HB Ha Hz Hx. unfold op_lti_recur. rewrite He, Hc.
  destruct (lti_recur_cpu_raw R B N a zi x af zf xf HB Ha Hz Hx) as (y & E & Hy).
  exists y. eexists. split; [exact E|]. split; [exact Hy|]. intros b n Hb Hn. unfold op_cpu. destruct n; reflexivity.
Qed.

(** ** Consequences *)
(** The operations determine every sample from the row's earlier samples, coefficients and
    initial value. *)
Lemma follows_local op B N B' N' a a' h h' x x' y y' b b' n : follows (R := R) op B N a h x y -> follows op B' N' a' h' x' y' ->
  b < B -> b' < B' -> n < N -> n < N' -> h b = h' b' -> (forall m, m <= n -> a b m = a' b' m /\ x b m = x' b' m) -> y b n = y' b' n.
Proof.
  intros F F' Hb Hb' Hn Hn' Hh. revert Hn Hn'. induction n as [|n IH]; intros Hn Hn' H; rewrite F, F' by assumption;
    destruct (H _ (le_n _)) as [-> ->]; f_equal; cbn [before]; [exact Hh|].
  apply IH; try lia. intros m Hm. apply H. lia.
Qed.
(** Causality and independence of the rows: sample n of row b, whatever the other rows,
    the length and the unroll factors. *)
Theorem C74_causal B N B' N' (a init x a' init' x' : ten) af hf xf af' hf' xf' uf uf' b b' n :
  1 <= N -> 1 <= N' -> stepwise uf N -> stepwise uf' N' ->
  coef B a af -> coef B init hf -> is2 x B N xf -> coef B' a' af' -> coef B' init' hf' -> is2 x' B' N' xf' ->
  b < B -> b' < B' -> n < N -> n < N' -> af b = af' b' -> hf b = hf' b' -> (forall m, m <= n -> xf b m = xf' b' m) ->
  exists y y', linear_recurrence a init x uf = Ok y /\ linear_recurrence a' init' x' uf' = Ok y' /\ at_ y [b; n] = at_ y' [b'; n].
Proof.
  intros HN HN' Hu Hu' Ha Hi Hx Ha' Hi' Hx' Hb Hb' Hn Hn' Ea Eh Ex.
  destruct (C74_lti B N a init x af hf xf uf HN Hu Ha Hi Hx) as (y & yf & E & Hy & F).
  destruct (C74_lti B' N' a' init' x' af' hf' xf' uf' HN' Hu' Ha' Hi' Hx') as (y' & yf' & E' & Hy' & F').
  exists y, y'. split; [exact E|]. split; [exact E'|]. rewrite (proj2 Hy), (proj2 Hy') by assumption.
  eapply follows_local; eauto.
Qed.
Theorem C74_lpv_causal B N B' N' (a init x a' init' x' : ten) af hf xf af' hf' xf' uf uf' b b' n :
  1 <= N -> 1 <= N' -> stepwise uf N -> stepwise uf' N' ->
  coefv B N a af -> coef B init hf -> is2 x B N xf -> coefv B' N' a' af' -> coef B' init' hf' -> is2 x' B' N' xf' ->
  b < B -> b' < B' -> n < N -> n < N' -> hf b = hf' b' -> (forall m, m <= n -> af b m = af' b' m /\ xf b m = xf' b' m) ->
  exists y y', lpv_linear_recurrence a init x uf = Ok y /\ lpv_linear_recurrence a' init' x' uf' = Ok y' /\ at_ y [b; n] = at_ y' [b'; n].
Proof.
  intros HN HN' Hu Hu' Ha Hi Hx Ha' Hi' Hx' Hb Hb' Hn Hn' Eh Ex.
  destruct (C74_lpv B N a init x af hf xf uf HN Hu Ha Hi Hx) as (y & yf & E & Hy & F).
  destruct (C74_lpv B' N' a' init' x' af' hf' xf' uf' HN' Hu' Ha' Hi' Hx') as (y' & yf' & E' & Hy' & F').
  exists y, y'. split; [exact E|]. split; [exact E'|]. rewrite (proj2 Hy), (proj2 Hy') by assumption.
  eapply follows_local; eauto.
Qed.

Lemma follows_cut op B N1 N2 a h x y y1 y2 : 1 <= N1 -> follows (R := R) op B (N1 + N2) a h x y -> follows op B N1 a h x y1 ->
  follows op B N2 (fun b n => a b (N1 + n)) (fun b => y1 b (N1 - 1)) (fun b n => x b (N1 + n)) y2 ->
  (forall b n, b < B -> n < N1 -> y1 b n = y b n) /\ (forall b n, b < B -> n < N2 -> y2 b n = y b (N1 + n)).
Proof.
  intros H1 F F1 F2.
  assert (K : forall b n, b < B -> n < N1 -> y1 b n = y b n).
  { intros b n Hb Hn. eapply follows_local; try exact F1; try exact F; auto. lia. }
  split; [exact K|]. intros b n Hb. induction n as [|n IH]; intros Hn; rewrite F2, (F b (N1 + _)) by lia; f_equal; cbn [before].
  - rewrite K by lia. destruct N1 as [|k]; [lia|]. rewrite Nat.add_0_r. cbn [before]. f_equal. lia.
  - rewrite IH by lia. rewrite Nat.add_succ_r. reflexivity.
Qed.
(** Two chunks, the second started from the last output of the first, are the whole. *)
Theorem C74_stream B N1 N2 (a init x x1 x2 : ten) af hf xf uf uf1 uf2 :
  1 <= N1 -> 1 <= N2 -> stepwise uf (N1 + N2) -> stepwise uf1 N1 -> stepwise uf2 N2 ->
  coef B a af -> coef B init hf -> is2 x B (N1 + N2) xf -> is2 x1 B N1 xf -> is2 x2 B N2 (fun b n => xf b (N1 + n)) ->
  exists y y1 yf, linear_recurrence a init x uf = Ok y /\ linear_recurrence a init x1 uf1 = Ok y1 /\
    is2 y B (N1 + N2) yf /\ is2 y1 B N1 yf /\
    forall i2, is1 i2 B (fun b => yf b (N1 - 1)) ->
      exists y2, linear_recurrence a i2 x2 uf2 = Ok y2 /\ is2 y2 B N2 (fun b n => yf b (N1 + n)).
Proof.
  intros H1 H2 Hu Hu1 Hu2 Ha Hi Hx Hx1 Hx2.
  destruct (C74_lti B (N1 + N2) a init x af hf xf uf ltac:(lia) Hu Ha Hi Hx) as (y & yf & E & Hy & F).
  destruct (C74_lti B N1 a init x1 af hf xf uf1 H1 Hu1 Ha Hi Hx1) as (y1 & yf1 & E1 & Hy1 & F1).
  assert (K : forall b n, b < B -> n < N1 -> yf1 b n = yf b n).
  { intros b n Hb Hn. eapply follows_local; try exact F1; try exact F; auto. lia. }
  exists y, y1, yf. split; [exact E|]. split; [exact E1|]. split; [exact Hy|].
  split; [eapply is2_ext; [exact Hy1|exact K]|]. intros i2 Hi2.
  destruct (C74_lti B N2 a i2 x2 af (fun b => yf1 b (N1 - 1)) _ uf2 H2 Hu2 Ha
    (coef_B (is1_ext _ _ _ _ Hi2 (fun b Hb => eq_sym (K b (N1 - 1) Hb ltac:(lia))))) Hx2) as (y2 & yf2 & E2 & Hy2 & F2).
  exists y2. split; [exact E2|]. eapply is2_ext; [exact Hy2|].
  now apply (follows_cut op_lti B N1 N2 (fun b _ => af b) hf xf yf yf1 yf2).
Qed.
Theorem C74_lpv_stream B N1 N2 (a a1 a2 init x x1 x2 : ten) af hf xf uf uf1 uf2 :
  1 <= N1 -> 1 <= N2 -> stepwise uf (N1 + N2) -> stepwise uf1 N1 -> stepwise uf2 N2 ->
  coefv B (N1 + N2) a af -> coefv B N1 a1 af -> coefv B N2 a2 (fun b n => af b (N1 + n)) ->
  coef B init hf -> is2 x B (N1 + N2) xf -> is2 x1 B N1 xf -> is2 x2 B N2 (fun b n => xf b (N1 + n)) ->
  exists y y1 yf, lpv_linear_recurrence a init x uf = Ok y /\ lpv_linear_recurrence a1 init x1 uf1 = Ok y1 /\
    is2 y B (N1 + N2) yf /\ is2 y1 B N1 yf /\
    forall i2, is1 i2 B (fun b => yf b (N1 - 1)) ->
      exists y2, lpv_linear_recurrence a2 i2 x2 uf2 = Ok y2 /\ is2 y2 B N2 (fun b n => yf b (N1 + n)).
Proof.
  intros H1 H2 Hu Hu1 Hu2 Ha Ha1 Ha2 Hi Hx Hx1 Hx2.
  destruct (C74_lpv B (N1 + N2) a init x af hf xf uf ltac:(lia) Hu Ha Hi Hx) as (y & yf & E & Hy & F).
  destruct (C74_lpv B N1 a1 init x1 af hf xf uf1 H1 Hu1 Ha1 Hi Hx1) as (y1 & yf1 & E1 & Hy1 & F1).
  assert (K : forall b n, b < B -> n < N1 -> yf1 b n = yf b n).
  { intros b n Hb Hn. eapply follows_local; try exact F1; try exact F; auto. lia. }
  exists y, y1, yf. split; [exact E|]. split; [exact E1|]. split; [exact Hy|].
  split; [eapply is2_ext; [exact Hy1|exact K]|]. intros i2 Hi2.
  destruct (C74_lpv B N2 a2 i2 x2 _ (fun b => yf1 b (N1 - 1)) _ uf2 H2 Hu2 Ha2
    (coef_B (is1_ext _ _ _ _ Hi2 (fun b Hb => eq_sym (K b (N1 - 1) Hb ltac:(lia))))) Hx2) as (y2 & yf2 & E2 & Hy2 & F2).
  exists y2. split; [exact E2|]. eapply is2_ext; [exact Hy2|].
  now apply (follows_cut op_lpv B N1 N2 af hf xf yf yf1 yf2).
Qed.

(** Python, CPU kernel and the parameter-varying recursion with constant coefficients
    return the same bits if addition and multiplication commute. *)
Theorem C74_agree e B N (a a' zi x : ten) af zf xf uf uf' :
  (forall u v : R, radd u v = radd v u) -> (forall u v : R, rmul u v = rmul v u) ->
  ext e = true -> cuda e = false -> 1 <= B -> 1 <= N -> stepwise uf N -> stepwise uf' N ->
  coef B a af -> coefv B N a' (fun b _ => af b) -> is1 zi B zf -> is2 x B N xf ->
  exists y1 y2 y3 yf, linear_recurrence a zi x uf = Ok y1 /\ lpv_linear_recurrence a' zi x uf' = Ok y2 /\ op_lti_recur e a zi x = Ok y3 /\
    is2 y1 B N yf /\ is2 y2 B N yf /\ is2 y3 B N yf.
Proof.
  intros CA CM He Hc HB HN Hu Hu' Ha Ha' Hz Hx.
  destruct (C74_lti B N a zi x af zf xf uf HN Hu Ha (coef_B Hz) Hx) as (y1 & f1 & E1 & Hy1 & F1).
  destruct (C74_lpv B N a' zi x _ zf xf uf' HN Hu' Ha' (coef_B Hz) Hx) as (y2 & f2 & E2 & Hy2 & F2).
  destruct (C74_cpu e B N a zi x af zf xf He Hc HB Ha Hz Hx) as (y3 & f3 & E3 & Hy3 & F3).
  exists y1, y2, y3, f1. repeat (split; [assumption|]).
  assert (G2 : follows op_lti B N (fun b _ => af b) zf xf f2).
  { intros b n Hb Hn. rewrite F2 by assumption. unfold op_lpv, op_lti. rewrite CA. f_equal. apply CM. }
  assert (G3 : follows op_lti B N (fun b _ => af b) zf xf f3).
  { intros b n Hb Hn. rewrite F3 by assumption. unfold op_cpu, op_lti. apply CA. }
  split; (eapply is2_ext; [eassumption|]); intros b n Hb Hn; eapply follows_local; eauto.
Qed.
End S.
Print Assumptions C74_lti.
Print Assumptions C74_lpv.
Print Assumptions C74_cpu.
Print Assumptions C74_causal.
Print Assumptions C74_lpv_causal.
Print Assumptions C74_stream.
Print Assumptions C74_lpv_stream.
Print Assumptions C74_agree.

(** ** Example and counterexample, 4-bit numbers *)
Definition u_x2 : tensor (car F4) := lst2 (q 0 1) [[q 13 8; q (-5) 4]].
Definition u_x3 : tensor (car F4) := lst2 (q 0 1) [[q 9 8; q 7 4; q 15 16]].
Definition u_i2 : tensor (car F4) := lst1 (q 0 1) [q 1 2].
Definition u_v : tensor (car F4) := lst1 (q 0 1) [q 11 16; q 11 16; q 11 16; q 11 16; q 11 16].
Definition u_f (_ n : nat) : F4 := nth n [q 13 8; q (-5) 4; q 9 8; q 7 4; q 15 16] (q 0 1).
Lemma u_a_is : coef (R := F4) 1 ex_a (fun _ => q 11 16).
Proof. apply (coef_1 (R := F4) (fun _ => q 11 16)); [|reflexivity]. split; [reflexivity|]. intros i Hi. destruct i as [|i]; [reflexivity|lia]. Qed.
Lemma u_z_is : is1 (ex_z : tensor (car F4)) 1 (fun _ => q 3 2).
Proof. split; [reflexivity|]. intros i Hi. destruct i as [|i]; [reflexivity|lia]. Qed.
Lemma u_x_is : is2 (ex_x : tensor (car F4)) 1 5 u_f.
Proof. split; [reflexivity|]. intros [|i] j Hi Hj; [reflexivity|lia]. Qed.
Lemma u_x2_is : is2 (u_x2 : tensor (car F4)) 1 2 u_f.
Proof. split; [reflexivity|]. intros [|i] j Hi Hj; [|lia]. destruct j as [|[|j]]; [reflexivity|reflexivity|lia]. Qed.
(** The same bits from the two chunks and from the three implementations... *)
Example C74_ex :
  shq (linear_recurrence ex_a ex_z ex_x 1) = Some ([1; 5], [5 # 2; 1 # 2; 3 # 2; 11 # 4; 11 # 4]%Q) /\
  shq (linear_recurrence ex_a ex_z u_x2 1) = Some ([1; 2], [5 # 2; 1 # 2]%Q) /\
  shq (linear_recurrence ex_a u_i2 u_x3 3) = Some ([1; 3], [3 # 2; 11 # 4; 11 # 4]%Q) /\
  shq (lpv_linear_recurrence u_v ex_z ex_x 1) = Some ([1; 5], [5 # 2; 1 # 2; 3 # 2; 11 # 4; 11 # 4]%Q) /\
  shq (op_lti_recur cpu_env ex_a ex_z ex_x) = Some ([1; 5], [5 # 2; 1 # 2; 3 # 2; 11 # 4; 11 # 4]%Q).
Proof. repeat split; vm_compute; reflexivity. Qed.
Lemma fl_comm p : (forall u v : Qofield, fl_add p u v = fl_add p v u) /\ (forall u v : Qofield, fl_mul p u v = fl_mul p v u).
Proof.
  split; intros u v; unfold fl_add, fl_mul, f2; [rewrite (Qcplus_comm u v)|rewrite (Qcmult_comm u v)]; rewrite andb_comm; reflexivity.
Qed.
Example C74_agree_ex :
  exists y1 y2 y3 yf, linear_recurrence (R := F4) ex_a ex_z ex_x 1 = Ok y1 /\ lpv_linear_recurrence (R := F4) u_v ex_z ex_x 5 = Ok y2 /\
    op_lti_recur (R := F4) cpu_env ex_a ex_z ex_x = Ok y3 /\ is2 y1 1 5 yf /\ is2 y2 1 5 yf /\ is2 y3 1 5 yf.
Proof.
  apply (C74_agree F4 cpu_env 1 5 ex_a u_v ex_z ex_x (fun _ => q 11 16) (fun _ => q 3 2) u_f 1 5
    (proj1 (fl_comm 4)) (proj2 (fl_comm 4)) eq_refl eq_refl); try lia.
  - split; lia.
  - split; lia.
  - exact u_a_is.
  - apply (coefv_s (R := F4) (fun _ => q 11 16)); [|reflexivity]. split; [reflexivity|].
    intros i Hi. do 5 (destruct i as [|i]; [reflexivity|]). lia.
  - exact u_z_is.
  - exact u_x_is.
Qed.
(** ... but with unroll factor 2, sample 1 depends on whether 2 or 5 samples are given. *)
Theorem C74_unroll_refuted :
  ~ (forall N N' (a init x x' : tensor (car F4)) af hf xf uf n, 1 <= uf -> 1 <= N -> 1 <= N' ->
      coef (R := F4) 1 a af -> coef (R := F4) 1 init hf -> is2 x 1 N xf -> is2 x' 1 N' xf -> n < N -> n < N' ->
      exists y y', linear_recurrence (R := F4) a init x uf = Ok y /\ linear_recurrence (R := F4) a init x' uf = Ok y' /\
        at_ y [0; n] = at_ y' [0; n]).
Proof.
  intro H. destruct (H 2 5 ex_a ex_z u_x2 ex_x (fun _ => q 11 16) (fun _ => q 3 2) u_f 2 1) as (y & y' & E & E' & K); try lia.
  - exact u_a_is.
  - apply (coef_B (R := F4) u_z_is).
  - exact u_x2_is.
  - exact u_x_is.
  - assert (V : forall r z, r = Ok z -> match r with Ok t => this (at_ t [0; 1]) | Err _ => 0%Q end = this (at_ (z : tensor (car F4)) [0; 1]))
      by (intros r z ->; reflexivity).
    apply V in E, E'. rewrite K in E. rewrite <- E' in E. vm_compute in E. discriminate E.
Qed.
Print Assumptions C74_unroll_refuted.
