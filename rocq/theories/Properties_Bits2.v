(** C72: sequential back-ends agree bit for bit; more on C71. *)
From Coq Require Import List Arith Lia ZArith Bool Ring QArith Qcanon.
From Verif Require Import Scalar Ordered Spec SpecRound SpecFilter Tensor TensorLemmas Shapes SpecBits Algebra M_Kernels M_LtiSsm M_LtiFilter
  P_Kernels P_LtiSsm P_Filter P_LtiFilter P_Round P_Round5 P_Bits P_Bits2 P_Bits3 FloatQ Properties_Round Properties_Round4 Properties_Bits.
Import ListNotations.
Close Scope Qc_scope. Close Scope Q_scope. Open Scope nat_scope.

(** The first direct forms with the default unroll factor (which is 1 there). *)
Theorem C71_lfilter_df1 (F : ofield) (fadd fmul fsub : F -> F -> F) e B nb na M (b a : tensor (car (flops F fadd fmul fsub))) (bf af : nat -> nat -> F) fm uf :
  1 <= B -> 1 <= nb -> M = Nat.max na (nb - 1) -> 1 <= M -> (helion_backend_indicator e = true -> 3 <= M /\ env_ok e) ->
  fcoef (R := F) B nb b bf -> fcoef (R := F) B na a af -> fm = Df1 \/ fm = Tdf1 -> uf = None \/ uf = Some 1 ->
  causal_rows (R := flops F fadd fmul fsub) B M None None (fun _ _ => True) (fun x zi => lfilter_ssm e b a x zi fm uf).
Proof. intros HB Hnb EM HM He Hb Ha Hfm Huf. now apply (form1_causal F fadd fmul fsub B nb na M b a bf af). Qed.

(** state_space: the Python loop and Helion multiply h*A, the CPU kernel A*h. *)
Theorem C72_state_space (R : cops) e e' B N M G P (A x : tensor (car R)) Bt C D zi oi Af Bm Cm Dm xf z0 :
  1 <= M -> 1 <= N -> sequential e M -> sequential e' M ->
  extension_backend_indicator e M = extension_backend_indicator e' M \/ (forall a b : R, rmul a b = rmul b a) ->
  sys B M G P A Bt C D oi Af Bm Cm Dm -> sigv B N G x xf -> init B M zi z0 ->
  same_result B M P N (state_space e A x Bt C D zi (Some 1) oi) (state_space e' A x Bt C D zi (Some 1) oi).
Proof. apply ss_agree. Qed.
Theorem C72_lfilter (F : ofield) (fadd fmul fsub : F -> F -> F) e e' B N nb na M (b a x : tensor (car (flops F fadd fmul fsub))) (bf af xf : nat -> nat -> F) zi z0 fm :
  1 <= B -> 1 <= N -> 1 <= nb -> M = Nat.max na (nb - 1) -> 1 <= M -> sequential e M -> sequential e' M ->
  extension_backend_indicator e M = extension_backend_indicator e' M \/ (forall a b : F, fmul a b = fmul b a) ->
  fcoef (R := F) B nb b bf -> fcoef (R := F) B na a af -> is2 x B N xf -> init (R := flops F fadd fmul fsub) B M zi z0 -> fm <> OtherForm ->
  same_result (R := flops F fadd fmul fsub) B M None N (lfilter_ssm e b a x zi fm (Some 1)) (lfilter_ssm e' b a x zi fm (Some 1)).
Proof.
  intros HB HN Hnb EM HM He He' Hc Hb Ha Hx Hz Hfm.
  assert (Hr : forall e, sequential e M -> rec_seq M e) by (intros e0 H0 H1; unfold sequential in H0; now rewrite H1 in H0).
  destruct fm; [| | | |contradiction].
  - apply (form2_agree F fadd fmul fsub B nb na M b a bf af HB Hnb EM HM Hb Ha e e' N x xf zi z0); auto.
  - apply (form2_agree F fadd fmul fsub B nb na M b a bf af HB Hnb EM HM Hb Ha e e' N x xf zi z0); auto.
  - apply (form1_agree F fadd fmul fsub B nb na M b a bf af HB Hnb EM HM Hb Ha e e' N x xf zi); auto.
  - apply (form1_agree F fadd fmul fsub B nb na M b a bf af HB Hnb EM HM Hb Ha e e' N x xf zi); auto.
Qed.
Print Assumptions C71_lfilter_df1.
Print Assumptions C72_state_space.
Print Assumptions C72_lfilter.

(** ** Example and counterexamples, 3-bit numbers *)
Lemma mul3_comm (a b : Qofield) : fl_mul 3 a b = fl_mul 3 b a.
Proof. unfold fl_mul, f2. rewrite (Qcmult_comm a b), andb_comm. reflexivity. Qed.
(** Python against the CPU kernel and against Helion (third order, on the device). *)
Definition hel_env : env := mkEnv false false true true false seqtree 1 1.
Definition d_a : ten3 := lst1 (q 0 1) [q (-5) 4; q 3 4; q 3 8].
Lemma c_b_is : fcoef (R := Qofield) 1 3 c_b (fun _ k => nth k [q 3 2; q (-7) 8; q 5 8] (q 0 1)).
Proof. apply (fc_s (fun k => nth k [q 3 2; q (-7) 8; q 5 8] (q 0 1) : Qofield)); [split; reflexivity|reflexivity]. Qed.
Lemma d_a_is : fcoef (R := Qofield) 1 3 d_a (fun _ k => nth k [q (-5) 4; q 3 4; q 3 8] (q 0 1)).
Proof. apply (fc_s (fun k => nth k [q (-5) 4; q 3 4; q 3 8] (q 0 1) : Qofield)); [split; reflexivity|reflexivity]. Qed.
Example C72_ex fm e : fm <> OtherForm -> e = ext_env \/ e = hel_env ->
  sequential e 3 /\ same_result (R := F3) 1 3 None 6 (lfilter_ssm env0 c_b d_a (row c_x) None fm (Some 1)) (lfilter_ssm e c_b d_a (row c_x) None fm (Some 1)).
Proof.
  intros Hfm He. assert (Hs : sequential e 3).
  { destruct He as [-> | ->]; [intros _; reflexivity|]. split; [lia|]. split; [|cbn; lia]. exact (proj1 cpu_env_ok). }
  split; [exact Hs|]. eapply (C72_lfilter Qofield _ _ _ env0 e 1 6 3 3 3 c_b d_a (row c_x) _ _ (fun _ n => nth n c_x (q 0 1)) None (fun _ _ => q 0 1)); try lia.
  - apply seq_env0.
  - exact Hs.
  - right. exact mul3_comm.
  - exact c_b_is.
  - exact d_a_is.
  - apply row_is; reflexivity.
  - apply init_0. reflexivity.
  - exact Hfm.
Qed.
(** The CUDA scan reassociates. *)
Theorem C72_scan_refuted : env_ok gpu_env /\
  ~ same_result (R := F3) 1 2 None 6 (lfilter_ssm env0 c_b c_a (row c_x) None Df2 (Some 1)) (lfilter_ssm gpu_env c_b c_a (row c_x) None Df2 (Some 1)).
Proof.
  split; [exact gpu_env_ok|]. intros (y & zf & y' & zf' & yf & E & E' & Hy & Hy' & _).
  assert (X : forall n, n < 6 -> num (lfilter_ssm env0 c_b c_a (row c_x) None Df2 (Some 1)) n = num (lfilter_ssm gpu_env c_b c_a (row c_x) None Df2 (Some 1)) n).
  { intros n Hn. rewrite E, E'. cbn [num]. do 2 f_equal. transitivity (yf 0 n 0); [|symmetry]; [apply (proj2 Hy)|apply (proj2 Hy')]; lia. }
  pose proof (X 1 ltac:(lia)) as X1. pose proof (X 2 ltac:(lia)) as X2. pose proof (X 3 ltac:(lia)) as X3. pose proof (X 4 ltac:(lia)) as X4. pose proof (X 5 ltac:(lia)) as X5.
  clear -X1 X2 X3 X4 X5. vm_compute in X1, X2, X3, X4, X5. discriminate.
Qed.
Print Assumptions C72_scan_refuted.
