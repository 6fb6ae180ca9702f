(** C71: without unrolling, state-space filters stream bit for bit. *)
From Coq Require Import List Arith Lia ZArith Bool Ring QArith Qcanon.
From Verif Require Import Scalar Ordered Spec SpecRound SpecFilter Tensor TensorLemmas Shapes SpecBits Algebra M_Kernels M_LtiSsm M_LtiFilter
  P_Kernels P_LtiSsm P_Filter P_LtiFilter P_Round P_Round5 P_Bits P_Bits2 FloatQ Properties_Round Properties_Round4.
Import ListNotations.
Close Scope Qc_scope. Close Scope Q_scope. Open Scope nat_scope.

Lemma init_is2 (R : cops) B M (z : tensor (car R)) g : is2 z B M g -> init B M (Some z) g.
Proof. intro H. apply (init_BM R B M z g g H). reflexivity. Qed.

(** No law of arithmetic is assumed of R: floating-point numbers with NaN included. *)
Section Any.
Variable R : cops.
Notation ten := (tensor (car R)).
Theorem C71_machine e B M G P (A : ten) Bt C D oi Af Bm Cm Dm : 1 <= M -> sequential e M -> sys B M G P A Bt C D oi Af Bm Cm Dm ->
  is_machine B M G P (init B M) (fun x zi => state_space e A x Bt C D zi (Some 1) oi).
Proof. intros HM Hs (HA & HB & HC & HD). exact (ss_machine R e B M G P A Bt C D oi Af Bm Cm Dm HM Hs HA HB HC HD). Qed.
Theorem C71_stream e B M G P (A : ten) Bt C D oi Af Bm Cm Dm : 1 <= M -> sequential e M -> sys B M G P A Bt C D oi Af Bm Cm Dm ->
  streams B M G P (init B M) (fun x zi => state_space e A x Bt C D zi (Some 1) oi) 1.
Proof. intros HM Hs HS. apply machine_streams; [apply init_is2|]. eapply C71_machine; eassumption. Qed.
Theorem C71_causal e B M G P (A : ten) Bt C D oi Af Bm Cm Dm : 1 <= M -> sequential e M -> sys B M G P A Bt C D oi Af Bm Cm Dm ->
  causal_rows B M G P (init B M) (fun x zi => state_space e A x Bt C D zi (Some 1) oi).
Proof. intros HM Hs HS. apply machine_causal. eapply C71_machine; eassumption. Qed.
Theorem C71_fir B M (b : ten) bf : 1 <= M -> is2 b B (S M) bf ->
  streams B M None None (init2 R B M) (fun x zi => fir b x zi false) 1 /\
  causal_rows B M None None (init2 R B M) (fun x zi => fir b x zi false) /\
  causal_rows B M None None (fun zi _ => zi = None) (fun x zi => fir b x zi true).
Proof.
  intros HM Hb. pose proof (fir_machine R B M b bf HM Hb) as H. split; [|split].
  - apply machine_streams; [|exact H]. intros z g Hz. exact Hz.
  - now apply machine_causal.
  - exact (firt_causal R B M b bf HM Hb).
Qed.
End Any.
(** lfilter: any addition, multiplication and subtraction on the numbers of F. *)
Theorem C71_lfilter (F : ofield) (fadd fmul fsub : F -> F -> F) e B nb na M (b a : tensor (car (flops F fadd fmul fsub))) (bf af : nat -> nat -> F) fm :
  1 <= B -> 1 <= nb -> M = Nat.max na (nb - 1) -> 1 <= M -> sequential e M -> fcoef (R := F) B nb b bf -> fcoef (R := F) B na a af -> fm = Df2 \/ fm = Tdf2 ->
  streams (R := flops F fadd fmul fsub) B M None None (init (R := flops F fadd fmul fsub) B M) (fun x zi => lfilter_ssm e b a x zi fm (Some 1)) 1 /\
  causal_rows (R := flops F fadd fmul fsub) B M None None (init (R := flops F fadd fmul fsub) B M) (fun x zi => lfilter_ssm e b a x zi fm (Some 1)).
Proof.
  intros HB Hnb EM HM He Hb Ha Hfm. pose proof (lfilter_machine F fadd fmul fsub e B nb na M b a bf af HB Hnb EM HM He Hb Ha fm Hfm) as H. split.
  - apply machine_streams; [apply init_is2|exact H].
  - now apply machine_causal.
Qed.
Print Assumptions C71_machine.
Print Assumptions C71_stream.
Print Assumptions C71_causal.
Print Assumptions C71_fir.
Print Assumptions C71_lfilter.

(** ** With unrolling, or transposed, they do not *)
Notation ten3 := (tensor (car F3)).
Definition num (r : res (ten3 * option ten3)) (n : nat) : option Q := match r with Ok (y, _) => Some (this (at_ y [0; n])) | _ => None end.
Definition chunked (run : ten3 -> option ten3 -> res (ten3 * option ten3)) (x1 x2 z : ten3) (j : nat) : option Q :=
  match run x1 (Some z) with Ok (_, Some z1) => num (run x2 (Some z1)) j | _ => None end.
Definition row (l : list Qc) : ten3 := lst2 (q 0 1) [l].
Lemma row_is (l : list Qc) n (f : nat -> Qc) : length l = n -> (forall k, k < n -> f k = nth k l (q 0 1)) -> is2 (row l) 1 n (fun _ => f).
Proof. intros <- H. split; [reflexivity|]. intros [|i] k Hi Hk; [|lia]. cbn. symmetry. now apply H. Qed.
Lemma row_sig (l : list Qc) n (xf : nat -> nat -> nat -> Qc) : length l = n -> (forall k, k < n -> xf 0 k 0 = nth k l (q 0 1)) -> sigv (R := F3) 1 n None (row l) xf.
Proof.
  intros <- H. split; [reflexivity|]. intros [|i] k Hi Hk; [|lia]. cbn. symmetry. now apply H.
Qed.
Lemma streams_at M ini run K (l1 l2 : list Qc) (z : ten3) z0 j : streams (R := F3) 1 M None None ini run K -> K <= length l1 -> K <= length l2 -> ini (Some z) z0 -> j < length l2 ->
  chunked run (row l1) (row l2) z j = num (run (row (l1 ++ l2)) (Some z)) (length l1 + j) /\ chunked run (row l1) (row l2) z j <> None.
Proof.
  intros H H1 H2 Hz Hj.
  destruct (H (length l1) (length l2) (row l1) (row l2) (row (l1 ++ l2)) (fun _ n _ => nth n (l1 ++ l2) (q 0 1)) z z0)
    as (y1 & z1 & y2 & z2 & y & z' & yf & zf & E1 & E2 & E & _ & Hy2 & Hy & _); auto.
  - apply row_sig; [reflexivity|]. intros k Hk. now apply app_nth1.
  - apply row_sig; [reflexivity|]. intros k Hk. rewrite app_nth2 by lia. f_equal. lia.
  - apply row_sig; [apply app_length|]. reflexivity.
  - unfold chunked. rewrite E1, E2, E. cbn [num]. split; [|discriminate]. do 2 f_equal.
    transitivity (yf 0 (length l1 + j) 0); [|symmetry]; [apply (proj2 Hy2)|apply (proj2 Hy)]; lia.
Qed.
Definition c_b : ten3 := lst1 (q 0 1) [q 3 2; q (-7) 8; q 5 8].
Definition c_a : ten3 := lst1 (q 0 1) [q (-5) 4; q 3 4].
Definition c_b2 : ten3 := row [q 3 2; q (-7) 8; q 5 4].
Definition c_z : ten3 := row [q 0 1; q 0 1].
Definition c_x : list Qc := [q 3 2; q 5 8; q (-7) 8; q 1 1; q 5 4; q (-3) 4].
Definition c_w : list Qc := [q 7 8; q 5 4; q (-7) 8; q 5 8].
Lemma c_z_is : is2 (A := car F3) c_z 1 2 (fun _ _ => q 0 1).
Proof. split; [reflexivity|]. intros [|i] [|[|j]] Hi Hj; try lia; reflexivity. Qed.
(** The default unroll factor, and an unroll factor of 2. *)
Theorem C71_unroll_refuted : forall uf, uf = None \/ uf = Some 2 ->
  ~ streams (R := F3) 1 2 None None (init (R := F3) 1 2) (fun x zi => lfilter_ssm env0 c_b c_a x zi Df2 uf) 1.
Proof.
  intros uf Huf H. apply (fun H => streams_at 2 _ _ 1 (firstn 3 c_x) (skipn 3 c_x) c_z _ 2 H ltac:(cbn; lia) ltac:(cbn; lia) (init_is2 F3 1 2 _ _ c_z_is) ltac:(cbn; lia)) in H.
  destruct H as [H _]. destruct Huf as [-> | ->]; vm_compute in H; discriminate.
Qed.
(** With the default factor, sample 4 of the output depends on whether 6 or 7 samples are filtered. *)
Theorem C71_length_refuted :
  ~ causal_rows (R := F3) 1 2 None None (init (R := F3) 1 2) (fun x zi => lfilter_ssm env0 c_b c_a x zi Df2 None).
Proof.
  intro H. set (f := fun (_ n _ : nat) => nth n (c_x ++ [q 1 1]) (q 0 1)).
  destruct (H 6 7 (row c_x) (row (c_x ++ [q 1 1])) f f (Some c_z) (Some c_z) (fun _ _ => q 0 1) (fun _ _ => q 0 1))
    as (y & zf & y' & zf' & yf & yf' & E & E' & Hy & Hy' & G); try lia.
  - apply row_sig; [reflexivity|]. intros k Hk. now apply app_nth1.
  - apply row_sig; reflexivity.
  - apply (init_is2 F3), c_z_is.
  - apply (init_is2 F3), c_z_is.
  - specialize (G 0 4 ltac:(lia) ltac:(lia) ltac:(lia) (fun _ _ => eq_refl) (fun _ _ _ _ => eq_refl) 0 (le_n 1)).
    assert (X : num (lfilter_ssm env0 c_b c_a (row c_x) (Some c_z) Df2 None) 4 = num (lfilter_ssm env0 c_b c_a (row (c_x ++ [q 1 1])) (Some c_z) Df2 None) 4).
    { rewrite E, E'. cbn [num]. do 2 f_equal. transitivity (yf 0 4 0); [|rewrite G; symmetry]; [apply (proj2 Hy)|apply (proj2 Hy')]; lia. }
    vm_compute in X. discriminate.
Qed.
(** The transposed form of fir, in chunks of at least its order. *)
Theorem C71_firt_refuted : ~ streams (R := F3) 1 2 None None (init2 F3 1 2) (fun x zi => fir c_b2 x zi true) 2.
Proof.
  intro H. apply (fun H => streams_at 2 (init2 F3 1 2) _ 2 (firstn 2 c_w) (skipn 2 c_w) c_z (fun _ _ => q 0 1) 0 H ltac:(cbn; lia) ltac:(cbn; lia) c_z_is ltac:(cbn; lia)) in H.
  destruct H as [H _]. vm_compute in H. discriminate.
Qed.
Print Assumptions C71_unroll_refuted.
Print Assumptions C71_length_refuted.
Print Assumptions C71_firt_refuted.

(** ** Examples *)
Lemma seq_env0 M : sequential env0 M.
Proof. hnf. intros _. reflexivity. Qed.
Example C71_stream_ex fm : fm = Df2 \/ fm = Tdf2 ->
  streams (R := F3) 1 2 None None (init (R := F3) 1 2) (fun x zi => lfilter_ssm env0 c_b c_a x zi fm (Some 1)) 1.
Proof.
  intro H. apply (C71_lfilter Qofield _ _ _ env0 1 3 2 2 c_b c_a (fun _ k => nth k [q 3 2; q (-7) 8; q 5 8] (q 0 1)) (fun _ k => nth k [q (-5) 4; q 3 4] (q 0 1)) fm); try lia; try exact H.
  - apply seq_env0.
  - apply (fc_s (fun k => nth k [q 3 2; q (-7) 8; q 5 8] (q 0 1) : Qofield)); [split; reflexivity|reflexivity].
  - apply (fc_s (fun k => nth k [q (-5) 4; q 3 4] (q 0 1) : Qofield)); [split; reflexivity|reflexivity].
Qed.
Example C71_values :
  chunked (fun x zi => lfilter_ssm env0 c_b c_a x zi Df2 (Some 1)) (row (firstn 3 c_x)) (row (skipn 3 c_x)) c_z 2 = Some (-3 # 8)%Q /\
  num (lfilter_ssm env0 c_b c_a (row c_x) (Some c_z) Df2 (Some 1)) 5 = Some (-3 # 8)%Q /\
  num (lfilter_ssm env0 c_b c_a (row c_x) (Some c_z) Df2 None) 5 = Some (-1 # 4)%Q.
Proof. repeat split; vm_compute; reflexivity. Qed.
(** The compiled kernel on the CPU, two features in, two states out. *)
Definition ext_env : env := mkEnv true false false false false seqtree 1 1.
Definition k_A : ten3 := lst2 (q 0 1) [[q 3 4; q (-5) 8]; [q 1 2; q 7 8]].
Example C71_kernel_ex : sequential ext_env 2 /\ extension_backend_indicator ext_env 2 = true /\
  streams (R := F3) 1 2 (Some 2) (Some 2) (init (R := F3) 1 2) (fun x zi => state_space ext_env k_A x None None None zi (Some 1) None) 1.
Proof.
  assert (Hs : sequential ext_env 2) by (intros _; reflexivity).
  split; [exact Hs|]. split; [reflexivity|].
  apply (C71_stream F3 ext_env 1 2 (Some 2) (Some 2) k_A None None None None (fun _ i j => nth j (nth i [[q 3 4; q (-5) 8]; [q 1 2; q 7 8]] []) (q 0 1)) unit3 unit3 (fun _ _ _ => r0)); [lia|exact Hs|].
  split; [|split; [|split]].
  - apply (matc_s (R := F3) (fun i j => nth j (nth i [[q 3 4; q (-5) 8]; [q 1 2; q 7 8]] []) (q 0 1))); [split; reflexivity|reflexivity].
  - apply in_none3. intros b i j _ _ _. reflexivity.
  - apply out_none. intros b i j _ _ _. reflexivity.
  - apply fd_none. intros b i j _ _ _. reflexivity.
Qed.
