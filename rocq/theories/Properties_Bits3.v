(** C73: lpv.state_space without unrolling, bit for bit. *)
From Coq Require Import List Arith Lia ZArith Bool Ring QArith Qcanon.
From Verif Require Import Scalar Ordered Spec SpecRound SpecFilter Tensor TensorLemmas Shapes SpecBits SpecBits2 Algebra M_Kernels M_LtiSsm M_LpvSsm
  P_Kernels P_LtiSsm P_Round P_Bits P_Round5 P_Bits4 P_Bits5 P_Bits6 P_Bits2 FloatQ Properties_Round Properties_Round4 Properties_Bits Properties_Bits2.
Import ListNotations.
Close Scope Qc_scope. Close Scope Q_scope. Open Scope nat_scope.

Section Any.
Variable R : cops.
Hypotheses (mulC : forall a b : R, rmul a b = rmul b a) (conjK : forall a : R, conj (conj a) = a).
Notation ten := (tensor (car R)).
(** Every output and final state is the stated sequence of operations, whatever the shapes
    in which the matrices are passed and whatever sequential back-end runs. *)
Theorem C73_values e pr B N M G P (A x : ten) (Bt C D zi : option ten) oi Af Bm Cm Dm xf z0 :
  1 <= M -> 1 <= N -> sequentialv e pr M -> sysv B N M G P A Bt C D oi Af Bm Cm Dm -> sigv B N G x xf -> init B M zi z0 ->
  exists y zf, lpv_state_space e pr A x Bt C D zi (Some 1) oi = Ok (y, zf) /\
    sigv B N P y (fun b => y_at M G Bt C D oi (Af b) (Bm b) (Cm b) (Dm b) (z0 b) (xf b)) /\
    match zi with None => zf = None | Some _ => exists z, zf = Some z /\ is2 z B M (fun b => h_at M G Bt (Af b) (Bm b) (z0 b) (xf b) N) end.
Proof. apply (lpv_exact R mulC conjK). Qed.
(** Two chunks are the whole signal. *)
Theorem C73_stream e pr B N1 N2 M G P (A1 A2 A x1 x2 x zi : ten) (B1 B2 Bt C1 C2 C D1 D2 D : option ten) oi Af Bm Cm Dm xf z0 :
  1 <= M -> 1 <= N1 -> 1 <= N2 -> sequentialv e pr M ->
  sysv B (N1 + N2) M G P A Bt C D oi Af Bm Cm Dm -> sysv B N1 M G P A1 B1 C1 D1 oi Af Bm Cm Dm ->
  sysv B N2 M G P A2 B2 C2 D2 oi (fun b n => Af b (N1 + n)) (fun b n => Bm b (N1 + n)) (fun b n => Cm b (N1 + n)) (fun b n => Dm b (N1 + n)) ->
  alike G B1 C1 D1 Bt C D -> alike G B2 C2 D2 Bt C D ->
  sigv B (N1 + N2) G x xf -> sigv B N1 G x1 xf -> sigv B N2 G x2 (fun b n => xf b (N1 + n)) -> init B M (Some zi) z0 ->
  exists y1 z1 y2 z2 y z yf zf,
    lpv_state_space e pr A1 x1 B1 C1 D1 (Some zi) (Some 1) oi = Ok (y1, Some z1) /\
    lpv_state_space e pr A2 x2 B2 C2 D2 (Some z1) (Some 1) oi = Ok (y2, Some z2) /\
    lpv_state_space e pr A x Bt C D (Some zi) (Some 1) oi = Ok (y, Some z) /\
    sigv B N1 P y1 yf /\ sigv B N2 P y2 (fun b n => yf b (N1 + n)) /\ sigv B (N1 + N2) P y yf /\ is2 z2 B M zf /\ is2 z B M zf.
Proof.
  intros HM HN1 HN2 He HS HS1 HS2 L1 L2 Hx Hx1 Hx2 Hz.
  destruct (lpv_exact R mulC conjK e pr B (N1 + N2) M G P A x Bt C D (Some zi) oi _ _ _ _ _ _ HM ltac:(lia) He HS Hx Hz) as (y & ? & E & Hy & z & -> & Hzf).
  destruct (lpv_exact R mulC conjK e pr B N1 M G P A1 x1 B1 C1 D1 (Some zi) oi _ _ _ _ _ _ HM HN1 He HS1 Hx1 Hz) as (y1 & ? & E1 & Hy1 & z1 & -> & Hz1).
  destruct (lpv_exact R mulC conjK e pr B N2 M G P A2 x2 B2 C2 D2 (Some z1) oi _ _ _ _ _ _ HM HN2 He HS2 Hx2 (init_is2 R _ _ _ _ Hz1)) as (y2 & ? & E2 & Hy2 & z2 & -> & Hz2).
  exists y1, z1, y2, z2, y, z. eexists. eexists. do 3 (split; [eassumption|]).
  apply sysv_kinds in HS1, HS2.
  assert (Hh : forall b i, i < M -> h_at M G B1 (Af b) (Bm b) (z0 b) (xf b) N1 i = h_at M G Bt (Af b) (Bm b) (z0 b) (xf b) N1 i)
    by (intros b i Hi; eapply h_at_ext; try eassumption; auto).
  split; [|split; [|split; [exact Hy|split; [|exact Hzf]]]].
  - eapply sigv_ext; [exact Hy1|]. intros b n p Hb Hn Hp. cbn beta. eapply y_at_ext; try eassumption; auto.
  - eapply sigv_ext; [exact Hy2|]. intros b n p Hb Hn Hp. cbn beta. rewrite (y_at_add R M G Bt). eapply y_at_ext; try eassumption; auto.
  - eapply is2_ext; [exact Hz2|]. intros b i Hb Hi. cbn beta. rewrite (h_at_add R M G Bt). eapply h_at_ext; try eassumption; auto.
Qed.
(** Sample n of row b depends on the matrices and samples up to time n of that row only. *)
Theorem C73_causal e pr B N N' M G P (A A' x x' : ten) (Bt C D zi Bt' C' D' zi' : option ten) oi Af Bm Cm Dm Af' Bm' Cm' Dm' xf xf' z0 z0' :
  1 <= M -> 1 <= N -> 1 <= N' -> sequentialv e pr M ->
  sysv B N M G P A Bt C D oi Af Bm Cm Dm -> sysv B N' M G P A' Bt' C' D' oi Af' Bm' Cm' Dm' -> alike G Bt C D Bt' C' D' ->
  sigv B N G x xf -> sigv B N' G x' xf' -> init B M zi z0 -> init B M zi' z0' ->
  exists y zf y' zf' yf yf', lpv_state_space e pr A x Bt C D zi (Some 1) oi = Ok (y, zf) /\ lpv_state_space e pr A' x' Bt' C' D' zi' (Some 1) oi = Ok (y', zf') /\
    sigv B N P y yf /\ sigv B N' P y' yf' /\
    forall b n, b < B -> n < N -> n < N' ->
      (forall k i j, k < n -> i < M -> j < M -> Af b k i j = Af' b k i j) -> (forall k i j, k < n -> i < M -> j < width G -> Bm b k i j = Bm' b k i j) ->
      (forall i j, i < width P -> j < M -> Cm b n i j = Cm' b n i j) -> (forall i j, i < width P -> j < width G -> Dm b n i j = Dm' b n i j) ->
      (forall i, i < M -> z0 b i = z0' b i) -> (forall k j, k <= n -> j < width G -> xf b k j = xf' b k j) ->
      forall p, p < width P -> yf b n p = yf' b n p.
Proof.
  intros HM HN HN' He HS HS' HL Hx Hx' Hz Hz'.
  destruct (lpv_exact R mulC conjK e pr B N M G P A x Bt C D zi oi _ _ _ _ _ _ HM HN He HS Hx Hz) as (y & zf & E & Hy & _).
  destruct (lpv_exact R mulC conjK e pr B N' M G P A' x' Bt' C' D' zi' oi _ _ _ _ _ _ HM HN' He HS' Hx' Hz') as (y' & zf' & E' & Hy' & _).
  exists y, zf, y', zf'. eexists. eexists. do 4 (split; [eassumption|]). apply sysv_kinds in HS.
  intros b n Hb Hn Hn' G1 G2 G3 G4 G5 G6 p Hp. eapply y_at_ext; eassumption.
Qed.
(** Sequential back-ends agree, and with constant matrices agree with lti.state_space. *)
Theorem C73_backends e pr e' pr' B N M G P (A A' x : ten) (Bt C D Bt' C' D' zi : option ten) oi Af Bm Cm Dm xf z0 :
  1 <= M -> 1 <= N -> sequentialv e pr M -> sequentialv e' pr' M ->
  sysv B N M G P A Bt C D oi Af Bm Cm Dm -> sysv B N M G P A' Bt' C' D' oi Af Bm Cm Dm -> alike G Bt C D Bt' C' D' ->
  sigv B N G x xf -> init B M zi z0 ->
  same_result B M P N (lpv_state_space e pr A x Bt C D zi (Some 1) oi) (lpv_state_space e' pr' A' x Bt' C' D' zi (Some 1) oi).
Proof.
  intros HM HN He He' HS HS' HL Hx Hz.
  destruct (lpv_exact R mulC conjK e pr B N M G P A x Bt C D zi oi _ _ _ _ _ _ HM HN He HS Hx Hz) as (y & zf & E & Hy & Hf).
  destruct (lpv_exact R mulC conjK e' pr' B N M G P A' x Bt' C' D' zi oi _ _ _ _ _ _ HM HN He' HS' Hx Hz) as (y' & zf' & E' & Hy' & Hf').
  apply sysv_kinds in HS. exists y, zf, y', zf'. eexists. split; [exact E|]. split; [exact E'|]. split; [exact Hy|]. split.
  - eapply sigv_ext; [exact Hy'|]. intros b n p Hb Hn Hp. cbn beta. symmetry. eapply y_at_ext; try eassumption; auto.
  - destruct zi as [zi|]; [|now left]. destruct Hf as (z & -> & Hf), Hf' as (z' & -> & Hf'). right. exists z, z'. eexists.
    do 3 (split; [try reflexivity; eassumption|]). eapply is2_ext; [exact Hf'|]. intros b i Hb Hi. cbn beta. symmetry. eapply h_at_ext; try eassumption; auto.
Qed.
Theorem C73_lti e e' pr B N M G P (A A' x : ten) (Bt C D Bt' C' D' zi : option ten) oi Af Bm Cm Dm xf z0 :
  1 <= M -> 1 <= N -> sequential e M -> sequentialv e' pr M ->
  sys B M G P A Bt C D oi Af Bm Cm Dm ->
  sysv B N M G P A' Bt' C' D' oi (fun b _ => Af b) (fun b _ => Bm b) (fun b _ => Cm b) (fun b _ => Dm b) -> alike G Bt' C' D' Bt C D ->
  sigv B N G x xf -> init B M zi z0 ->
  same_result B M P N (state_space e A x Bt C D zi (Some 1) oi) (lpv_state_space e' pr A' x Bt' C' D' zi (Some 1) oi).
Proof.
  intros HM HN He He' HS HS' HL Hx Hz.
  destruct (lti_exact R mulC conjK e B N M G P A x Bt C D zi oi _ _ _ _ _ _ HM HN He HS Hx Hz) as (y & zf & E & Hy & Hf).
  destruct (lpv_exact R mulC conjK e' pr B N M G P A' x Bt' C' D' zi oi _ _ _ _ _ _ HM HN He' HS' Hx Hz) as (y' & zf' & E' & Hy' & Hf').
  apply sysv_kinds in HS'. exists y, zf, y', zf'. eexists. split; [exact E|]. split; [exact E'|]. split; [exact Hy|]. split.
  - eapply sigv_ext; [exact Hy'|]. intros b n p Hb Hn Hp. cbn beta. eapply y_at_ext; try eassumption; auto.
  - destruct zi as [zi|]; [|now left]. destruct Hf as (z & -> & Hf), Hf' as (z' & -> & Hf'). right. exists z, z'. eexists.
    do 3 (split; [try reflexivity; eassumption|]). eapply is2_ext; [exact Hf'|]. intros b i Hb Hi. cbn beta. eapply h_at_ext; try eassumption; auto.
Qed.
End Any.
Print Assumptions C73_values.
Print Assumptions C73_stream.
Print Assumptions C73_causal.
Print Assumptions C73_backends.
Print Assumptions C73_lti.

(** ** Examples and counterexamples, 3-bit numbers *)
Definition v_a (n i j : nat) : Qc := nth (n + 2 * i + j) [q 3 4; q (-5) 8; q 1 2; q 7 8; q (-3) 4; q 5 8; q 1 1] (q 0 1).
Definition v_c (n m : nat) : Qc := nth (n + 3 * m) [q 5 4; q (-7) 8; q 3 2; q 1 1; q 5 8; q (-3) 4; q 7 8] (q 0 1).
(** A as (N, 2, 2), C as (N, 2) or as (1, N, 2), both starting at time k. *)
Definition v_A (k N : nat) : ten3 := mkT [N; 2; 2] (fun i => v_a (k + nth 0 i 0) (nth 1 i 0) (nth 2 i 0)).
Definition v_C (k N : nat) : ten3 := mkT [N; 2] (fun i => v_c (k + nth 0 i 0) (nth 1 i 0)).
Definition v_C1 (k N : nat) : ten3 := mkT [1; N; 2] (fun i => v_c (k + nth 1 i 0) (nth 2 i 0)).
Definition v_D : ten3 := mkT [] (fun _ => q 5 8).
Lemma v_sys k N C : C = v_C k N \/ C = v_C1 k N /\ N <> 1 ->
  sysv (R := F3) 1 N 2 None None (v_A k N) None (Some C) (Some v_D) None (fun _ n => v_a (k + n)) (fun b _ => unit3 b) (fun _ n _ => v_c (k + n)) (fun _ _ _ _ => q 5 8).
Proof.
  intro HC. split; [|split; [|split]].
  - apply (matv_s (R := F3) (fun n => v_a (k + n))); [split; reflexivity|reflexivity].
  - apply inv_none2. intros b n i j _ _ _ _. reflexivity.
  - destruct HC as [-> | [-> HN]].
    + apply (outv_NM F3 1 N 2 _ (fun n => v_c (k + n))); [split; reflexivity|]. intros b n i j _ _ _ _. reflexivity.
    + apply (outv_BNM F3 1 N 2 _ (fun _ n => v_c (k + n))); [split; reflexivity|auto|]. intros b n i j _ _ _ _. reflexivity.
  - apply (fdv_2_0 F3 1 N v_D (q 5 8)); [split; reflexivity|]. intros b n i j _ _ _ _. reflexivity.
Qed.
Lemma seqv_env0 M : sequentialv env0 false M.
Proof. split; [reflexivity|]. hnf. discriminate. Qed.
Lemma seqv_ext : sequentialv ext_env false 2.
Proof. split; [reflexivity|]. hnf. intros _. split; [lia|reflexivity]. Qed.
(** The kernel on the CPU; the second chunk passes C in another shape. *)
Example C73_stream_ex : exists y1 z1 y2 z2 y z yf zf,
    lpv_state_space ext_env false (v_A 0 3) (row (firstn 3 c_x)) None (Some (v_C 0 3)) (Some v_D) (Some c_z) (Some 1) None = Ok (y1, Some z1) /\
    lpv_state_space ext_env false (v_A 3 3) (row (skipn 3 c_x)) None (Some (v_C1 3 3)) (Some v_D) (Some z1) (Some 1) None = Ok (y2, Some z2) /\
    lpv_state_space ext_env false (v_A 0 6) (row c_x) None (Some (v_C 0 6)) (Some v_D) (Some c_z) (Some 1) None = Ok (y, Some z) /\
    sigv (R := F3) 1 3 None y1 yf /\ sigv (R := F3) 1 3 None y2 (fun b n => yf b (3 + n)) /\ sigv (R := F3) 1 6 None y yf /\ is2 z2 1 2 zf /\ is2 z 1 2 zf.
Proof.
  eapply (C73_stream F3 mul3_comm (fun _ => eq_refl) ext_env false 1 3 3 2 None None _ _ _ _ _ _ _ None None None _ _ _ _ _ _ None
    (fun _ n => v_a n) (fun b _ => unit3 b) (fun _ n _ => v_c n) (fun _ _ _ _ => q 5 8) (fun _ n _ => nth n c_x (q 0 1)) (fun _ _ => q 0 1)); try lia.
  - exact seqv_ext.
  - apply (v_sys 0 6). now left.
  - apply (v_sys 0 3). now left.
  - apply (v_sys 3 3). right. split; [reflexivity|lia].
  - repeat split.
  - repeat split.
  - apply row_sig; reflexivity.
  - apply row_sig; [reflexivity|]. intros k Hk. destruct k as [|[|[|k]]]; [reflexivity..|lia].
  - apply row_sig; [reflexivity|]. intros k Hk. destruct k as [|[|[|k]]]; [reflexivity..|lia].
  - apply (init_is2 F3), c_z_is.
Qed.
(** lti on the CPU kernel against lpv in Python, constant matrices in two shapes. *)
Definition w_A (N : nat) : ten3 := mkT [N; 2; 2] (fun i => v_a 0 (nth 1 i 0) (nth 2 i 0)).
Definition w_C : ten3 := lst1 (q 0 1) [q 5 4; q 1 1].
Definition w_CN (N : nat) : ten3 := mkT [N; 2] (fun i => v_c 0 (nth 1 i 0)).
Example C73_lti_ex : same_result (R := F3) 1 2 None 6
  (state_space ext_env k_A (row c_x) None (Some w_C) (Some v_D) (Some c_z) (Some 1) None)
  (lpv_state_space env0 false (w_A 6) (row c_x) None (Some (w_CN 6)) (Some v_D) (Some c_z) (Some 1) None).
Proof.
  eapply (C73_lti F3 mul3_comm (fun _ => eq_refl) ext_env env0 false 1 6 2 None None _ _ _ None _ _ None _ _ _ None
    (fun _ => v_a 0) unit3 (fun _ _ => v_c 0) (fun _ _ _ => q 5 8) (fun _ n _ => nth n c_x (q 0 1)) (fun _ _ => q 0 1)); try lia.
  - intros _. reflexivity.
  - apply seqv_env0.
  - split; [|split; [|split]].
    + apply (matc_s (R := F3) (v_a 0)); [|reflexivity]. split; [reflexivity|]. intros [|[|i]] [|[|j]] Hi Hj; try lia; reflexivity.
    + apply in_none2. intros b i j _ _ _. reflexivity.
    + apply (out_M F3 1 2 _ (v_c 0)); [|intros b i j _ _ _; reflexivity]. split; [reflexivity|]. intros [|[|i]] Hi; try lia; reflexivity.
    + apply (fd_2_0 F3 1 v_D (q 5 8)); [split; reflexivity|]. intros b i j _ _ _. reflexivity.
  - split; [|split; [|split]].
    + apply (matv_s (R := F3) (fun n => v_a 0)); [split; reflexivity|reflexivity].
    + apply inv_none2. intros b n i j _ _ _ _. reflexivity.
    + apply (outv_NM F3 1 6 2 _ (fun n => v_c 0)); [split; reflexivity|]. intros b n i j _ _ _ _. reflexivity.
    + apply (fdv_2_0 F3 1 6 v_D (q 5 8)); [split; reflexivity|]. intros b n i j _ _ _ _. reflexivity.
  - repeat split.
  - apply row_sig; reflexivity.
  - apply (init_is2 F3), c_z_is.
Qed.
(** With unrolling (the default, or a factor of 2) other bits come out. *)
Theorem C73_unroll_refuted : forall uf, uf = None \/ uf = Some 2 ->
  ~ same_result (R := F3) 1 2 None 6
      (lpv_state_space env0 false (v_A 0 6) (row c_x) None (Some (v_C 0 6)) (Some v_D) (Some c_z) (Some 1) None)
      (lpv_state_space env0 false (v_A 0 6) (row c_x) None (Some (v_C 0 6)) (Some v_D) (Some c_z) uf None).
Proof.
  intros uf Huf (y & zf & y' & zf' & yf & E & E' & Hy & Hy' & _).
  assert (X : num (lpv_state_space env0 false (v_A 0 6) (row c_x) None (Some (v_C 0 6)) (Some v_D) (Some c_z) (Some 1) None) 5 =
    num (lpv_state_space env0 false (v_A 0 6) (row c_x) None (Some (v_C 0 6)) (Some v_D) (Some c_z) uf None) 5).
  { rewrite E, E'. cbn [num]. do 2 f_equal. transitivity (yf 0 5 0); [|symmetry]; [apply (proj2 Hy)|apply (proj2 Hy')]; lia. }
  clear -X Huf. destruct Huf as [-> | ->]; vm_compute in X; discriminate.
Qed.
Print Assumptions C73_unroll_refuted.
