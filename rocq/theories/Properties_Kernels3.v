(** C52, continued: with a matrix per signal both [state_space] functions read nothing
    outside any of their arguments, whatever the back-end and the unroll factor. *)
From Coq Require Import List Arith Lia ZArith Bool.
From Verif Require Import Scalar Tensor TensorLemmas TensorTac Spec Shapes M_Kernels M_Autograd M_LtiSsm M_LpvSsm
  P_Kernels P_KernelOps P_Scan P_Helion P_Kernels2 P_Autograd3 P_LtiSsm P_LpvSs P_LpvSs2 Properties_LtiSsm Properties_Rel
  Properties_Kernels2.
Import ListNotations.
Local Open Scope nat_scope.

(** Optional arguments that are both absent, or agree inside their shape. *)
Definition sameo {R : cring} (t t' : option (tensor R)) : Prop :=
  match t, t' with
  | None, None => True
  | Some s, Some s' => same s s'
  | _, _ => False
  end.

Lemma same_is0 (R : cring) (t t' : tensor R) v : same t t' -> is0 t v -> is0 t' v.
Proof. intros [Hs H] [S1 V]. split; [congruence|]. rewrite <- H; [exact V|]. rewrite S1. constructor. Qed.
Lemma same_sigv (R : cring) (t t' : tensor R) B N F f : same t t' -> sigv B N F t f -> sigv B N F t' f.
Proof. destruct F; cbn [sigv]; intros H V; [eapply same_is3|eapply same_is2]; eauto. Qed.
Lemma sigv_same (R : cring) (t t' : tensor R) B N F f : sigv B N F t f -> sigv B N F t' f -> same t t'.
Proof. destruct F; cbn [sigv]; intros H V; [eapply is3_same|eapply is2_same]; eauto. Qed.

Lemma same_init (R : cring) (z z' : option (tensor R)) B M f : sameo z z' -> init B M z f -> init B M z' f.
Proof.
  intros H V. destruct V; destruct z'; cbn [sameo] in H; try contradiction.
  - now apply init_0.
  - eapply init_M; [eapply same_is1|]; eassumption.
  - eapply init_BM; [eapply same_is2|]; eassumption.
Qed.
Lemma same_inmat (R : cring) (z z' : option (tensor R)) B M F f : sameo z z' -> inmat B M F z f -> inmat B M F z' f.
Proof.
  intros H V. destruct V; destruct z'; cbn [sameo] in H; try contradiction.
  - now apply in_none2.
  - now apply in_none3.
  - eapply in_M; [eapply same_is1|]; eassumption.
  - eapply in_BM; [eapply same_is2|]; eassumption.
  - eapply in_MF; [eapply same_is2| |]; eassumption.
  - eapply in_BMF; [eapply same_is3|]; eassumption.
Qed.
Lemma same_outmat (R : cring) (z z' : option (tensor R)) B M oi P f : sameo z z' -> outmat B M oi z P f -> outmat B M oi z' P f.
Proof.
  intros H V. destruct V; destruct z'; cbn [sameo] in H; try contradiction.
  - now apply out_none.
  - eapply out_idx; eassumption.
  - eapply out_M; [eapply same_is1|]; eassumption.
  - eapply out_BM; [eapply same_is2|]; eassumption.
  - eapply out_PM; [eapply same_is2| |]; eassumption.
  - eapply out_BPM; [eapply same_is3|]; eassumption.
Qed.
Lemma same_feed (R : cring) (z z' : option (tensor R)) B F P f : sameo z z' -> feed B F P z f -> feed B F P z' f.
Proof.
  intros H V. destruct V; destruct z'; cbn [sameo] in H; try contradiction.
  - now apply fd_none.
  - eapply fd_2_0; [eapply same_is0|]; eassumption.
  - eapply fd_2_1; [eapply same_is1|]; eassumption.
  - eapply fd_2_B; [eapply same_is1|]; eassumption.
  - eapply fd_2_P; [eapply same_is1| | |]; eassumption.
  - eapply fd_2_BP; [eapply same_is2|]; eassumption.
  - eapply fd_3_0; [eapply same_is0|]; eassumption.
  - eapply fd_3_1; [eapply same_is1| | |]; eassumption.
  - eapply fd_3_F; [eapply same_is1|]; eassumption.
  - eapply fd_3_BF; [eapply same_is2|]; eassumption.
  - eapply fd_3_PF; [eapply same_is2| |]; eassumption.
  - eapply fd_3_BPF; [eapply same_is3|]; eassumption.
Qed.
Lemma same_inmatv (R : cring) (z z' : option (tensor R)) B N M F f : sameo z z' -> inmatv B N M F z f -> inmatv B N M F z' f.
Proof.
  intros H V. destruct V; destruct z'; cbn [sameo] in H; try contradiction.
  - now apply inv_none2.
  - now apply inv_none3.
  - eapply inv_M; [eapply same_is1|]; eassumption.
  - eapply inv_NM; [eapply same_is2|]; eassumption.
  - eapply inv_BM; [eapply same_is2| |]; eassumption.
  - eapply inv_BNM; [eapply same_is3|]; eassumption.
  - eapply inv_MF; [eapply same_is2|]; eassumption.
  - eapply inv_NMF; [eapply same_is3|]; eassumption.
  - eapply inv_BMF; [eapply same_is3| | |]; eassumption.
  - eapply inv_BNMF; [eapply same_is4|]; eassumption.
Qed.
Lemma same_outmatv (R : cring) (z z' : option (tensor R)) B N M oi P f :
  sameo z z' -> outmatv B N M oi z P f -> outmatv B N M oi z' P f.
Proof.
  intros H V. destruct V; destruct z'; cbn [sameo] in H; try contradiction.
  - now apply outv_none.
  - eapply outv_idx; eassumption.
  - eapply outv_M; [eapply same_is1|]; eassumption.
  - eapply outv_NM; [eapply same_is2|]; eassumption.
  - eapply outv_BM; [eapply same_is2| |]; eassumption.
  - eapply outv_PM; [eapply same_is2| | |]; eassumption.
  - eapply outv_NPM; [eapply same_is3|]; eassumption.
  - eapply outv_BNM; [eapply same_is3| |]; eassumption.
  - eapply outv_BPM; [eapply same_is3| | |]; eassumption.
  - eapply outv_BNPM; [eapply same_is4|]; eassumption.
Qed.
Lemma same_feedv (R : cring) (z z' : option (tensor R)) B N F P f : sameo z z' -> feedv B N F P z f -> feedv B N F P z' f.
Proof.
  intros H V. destruct V; destruct z'; cbn [sameo] in H; try contradiction.
  - now apply fdv_none.
  - eapply fdv_2_0; [eapply same_is0|]; eassumption.
  - eapply fdv_2_1; [eapply same_is1|]; eassumption.
  - eapply fdv_2_N; [eapply same_is1|]; eassumption.
  - eapply fdv_2_B; [eapply same_is1| |]; eassumption.
  - eapply fdv_2_P; [eapply same_is1| | | |]; eassumption.
  - eapply fdv_2_NP; [eapply same_is2|]; eassumption.
  - eapply fdv_2_BN; [eapply same_is2| |]; eassumption.
  - eapply fdv_2_BP; [eapply same_is2| | |]; eassumption.
  - eapply fdv_2_BNP; [eapply same_is3|]; eassumption.
  - eapply fdv_3_0; [eapply same_is0|]; eassumption.
  - eapply fdv_3_1; [eapply same_is1| | | |]; eassumption.
  - eapply fdv_3_F; [eapply same_is1|]; eassumption.
  - eapply fdv_3_NF; [eapply same_is2|]; eassumption.
  - eapply fdv_3_BF; [eapply same_is2| |]; eassumption.
  - eapply fdv_3_PF; [eapply same_is2| | |]; eassumption.
  - eapply fdv_3_BNF; [eapply same_is3|]; eassumption.
  - eapply fdv_3_NPF; [eapply same_is3| |]; eassumption.
  - eapply fdv_3_BPF; [eapply same_is3| | |]; eassumption.
  - eapply fdv_3_BNPF; [eapply same_is4|]; eassumption.
Qed.

(** ** lti.state_space *)
(** Every argument may be replaced by one that agrees with it inside its shape. *)
Theorem C52_lti_all_arguments :
  forall (R : cring) e B N M F P (A x A' x' : tensor R) Bt C D zi Bt' C' D' zi' uf oi Af xf Bm Cm Dm z0,
  1 <= B -> 1 <= N -> 1 <= M -> backend_ok e M -> unroll_ok uf ->
  sys B M F P A Bt C D oi Af Bm Cm Dm -> sigv B N F x xf -> init B M zi z0 ->
  same A A' -> same x x' -> sameo Bt Bt' -> sameo C C' -> sameo D D' -> sameo zi zi' ->
  exists y zf y' zf', state_space e A x Bt C D zi uf oi = Ok (y, zf) /\
    state_space e A' x' Bt' C' D' zi' uf oi = Ok (y', zf') /\ same y y' /\ sameo zf zf' /\ (zi = None -> zf = None).
Proof.
  intros R e B N M F P A x A' x' Bt C D zi Bt' C' D' zi' uf oi Af xf Bm Cm Dm z0 HB HN HM He Hu (HA & HBm & HC & HD) Hx Hz
    SA Sx SB SC SD Sz.
  destruct (state_space_spec R e B N M F P A x Bt C D zi uf oi Af xf Bm Cm Dm z0) as (y & zf & Ey & Hy & Hf); auto.
  destruct (state_space_spec R e B N M F P A' x' Bt' C' D' zi' uf oi Af xf Bm Cm Dm z0) as (y' & zf' & Ey' & Hy' & Hf');
    eauto using same_matc, same_inmat, same_outmat, same_feed, same_sigv, same_init.
  exists y, zf, y', zf'. split; [exact Ey|]. split; [exact Ey'|]. split; [exact (sigv_same _ _ _ _ _ _ _ Hy Hy')|].
  destruct zi, zi'; cbn [sameo] in Sz; try contradiction;
    [|subst; split; [exact Logic.I|reflexivity]].
  destruct Hf as (z & -> & Hf), Hf' as (z' & -> & Hf'). split; [exact (is2_same _ _ _ _ _ _ Hf Hf')|discriminate].
Qed.
Print Assumptions C52_lti_all_arguments.

(** ** lpv.state_space *)
(** The same, for every unroll factor, also those whose result is wrong (C04). *)
Theorem C52_lpv_all_arguments :
  forall (R : cring) e pr B N M F P (A x A' x' : tensor R) Bt C D zi Bt' C' D' zi' uf oi Af xf Bm Cm Dm z0,
  1 <= B -> 1 <= N -> 1 <= M -> lpv_backend_ok e pr M -> (forall u, uf = Some u -> 1 <= u) ->
  sysv B N M F P A Bt C D oi Af Bm Cm Dm -> sigv B N F x xf -> init B M zi z0 ->
  same A A' -> same x x' -> sameo Bt Bt' -> sameo C C' -> sameo D D' -> sameo zi zi' ->
  exists y zf y' zf', lpv_state_space e pr A x Bt C D zi uf oi = Ok (y, zf) /\
    lpv_state_space e pr A' x' Bt' C' D' zi' uf oi = Ok (y', zf') /\ same y y' /\ sameo zf zf' /\ (zi = None -> zf = None).
Proof.
  intros R e pr B N M F P A x A' x' Bt C D zi Bt' C' D' zi' uf oi Af xf Bm Cm Dm z0 HB HN HM He U (HA & HBm & HC & HD) Hx Hz
    SA Sx SB SC SD Sz.
  pose proof (uf_pos N uf HN U) as Hu.
  destruct (lpv_state_space_any R e pr B N M F P A x Bt C D zi uf oi Af xf Bm Cm Dm z0) as (y & zf & Ey & Hy & Hf); auto.
  destruct (lpv_state_space_any R e pr B N M F P A' x' Bt' C' D' zi' uf oi Af xf Bm Cm Dm z0) as (y' & zf' & Ey' & Hy' & Hf');
    eauto using same_matv, same_inmatv, same_outmatv, same_feedv, same_sigv, same_init.
  exists y, zf, y', zf'. split; [exact Ey|]. split; [exact Ey'|]. split; [exact (sigv_same _ _ _ _ _ _ _ Hy Hy')|].
  destruct zi, zi'; cbn [sameo] in Sz; try contradiction;
    [|subst; split; [exact Logic.I|reflexivity]].
  destruct Hf as (z & -> & Hf), Hf' as (z' & -> & Hf'). split; [exact (is2_same _ _ _ _ _ _ Hf Hf')|discriminate].
Qed.
Print Assumptions C52_lpv_all_arguments.

(** An accepted call stays inside A as soon as a batched A has a trajectory per signal:
    the one comparison the code leaves out. *)
Theorem C52_lpv_state_space :
  forall (R : cring) e pr (A A' x : tensor R) uf r, lpv_backend_ok e pr (sizen A 1) -> (forall u, uf = Some u -> 1 <= u) ->
    lpv_state_space e pr A x None None None None uf None = Ok r ->
    1 <= size x 0 -> 1 <= size x 1 -> 1 <= sizen A 1 -> (rk x = 3 -> size x 2 = sizen A 1) ->
    (rk A = 4 -> size A 0 = size x 0) -> same A A' ->
    exists y y', r = (y, None) /\ lpv_state_space e pr A' x None None None None uf None = Ok (y', None) /\ same y y'.
Proof.
  intros R e pr A A' x uf r He Hu H HB HN HM HF Gb S1.
  assert (G : (rk x = 2 \/ rk x = 3) /\ (rk A = 3 \/ rk A = 4) /\ sizen A 2 = sizen A 1 /\ sizen A 3 = size x 1).
  { unfold lpv_state_space in H.
    destruct ((rk x =? 2) || (rk x =? 3)) eqn:E1; [|discriminate H].
    destruct ((rk A =? 3) || (rk A =? 4)) eqn:E2; [|discriminate H].
    destruct (sizen A 2 =? sizen A 1) eqn:E3; [|discriminate H].
    destruct (sizen A 3 =? size x 1) eqn:E4; [|discriminate H].
    apply orb_prop in E1, E2. rewrite !Nat.eqb_eq in E1, E2. apply Nat.eqb_eq in E3, E4. auto. }
  destruct G as (Gx & GA & Gs & Gn).
  destruct (matv_of_sizes R A (size x 0) (size x 1) (sizen A 1) GA eq_refl Gs Gb Gn) as (Af & HA).
  assert (V : exists F xf, sigv (size x 0) (size x 1) F x xf /\
     inmatv (size x 0) (size x 1) (sizen A 1) F None (fun b _ => @unit3 R b)).
  { destruct Gx as [Gx|Gx].
    - exists None, (fun b n _ => at_ x [b; n]). split; [|apply inv_none2; repeat intro; reflexivity].
      unfold rk, size in *. destruct (shape x) as [|p [|q [|? ?]]] eqn:E; try discriminate Gx. split; [exact E|reflexivity].
    - exists (Some (sizen A 1)), (fun b n m => at_ x [b; n; m]). split; [|apply inv_none3; repeat intro; reflexivity].
      rewrite <- (HF Gx). unfold rk, size in *. destruct (shape x) as [|p [|q [|m [|? ?]]]] eqn:E; try discriminate Gx. split; [exact E|reflexivity]. }
  destruct V as (F & xf & Vx & VB).
  destruct (C52_lpv_all_arguments R e pr _ _ _ F (Some (sizen A 1)) A x A' x None None None None None None None None uf None
     Af xf (fun b _ => @unit3 R b) (fun b _ => @unit3 R b) (fun _ _ _ _ => r0) (fun _ _ => r0) HB HN HM He Hu)
     as (y & zf & y' & zf' & E1 & E2 & S2 & S3 & S4); try exact Logic.I; auto.
  - split; [exact HA|]. split; [exact VB|]. split; [apply outv_none; repeat intro; reflexivity|].
    apply fdv_none. repeat intro; reflexivity.
  - apply init_0. reflexivity.
  - split; [reflexivity|]. reflexivity.
  - rewrite E1 in H. injection H as <-.
    specialize (S4 eq_refl). subst. cbn [sameo] in S3. destruct zf'; [contradiction|]. eauto.
Qed.
Print Assumptions C52_lpv_state_space.

(** ** Example *)
(** A batched trajectory of matrices with every other argument, compiled back-end. *)
Example C52_all_arguments_ex :
  let A v := mkT [2; 3; 2; 2] (fun i => match i with [b; n; k; l] => if (b <? 2) && (n <? 3) then Z.of_nat (b + n + k * l) else v | _ => v end) : tensor Zring in
  let x v := mkT [2; 3] (fun i => match i with [b; n] => if n <? 3 then Z.of_nat (b * n + 1) else v | _ => v end) : tensor Zring in
  let w v := mkT [2] (fun i => match i with [k] => if k <? 2 then Z.of_nat (k + 1) else v | _ => v end) : tensor Zring in
  let run v := match lpv_state_space env_c false (A v) (x v) (Some (w v)) (Some (w v)) None (Some (w v)) (Some 1) None with
     | Ok (y, Some z) => map (fun n => at_ y [1; n]) [0; 1; 2] ++ [at_ z [1; 0]; at_ z [1; 1]] | _ => [] end in
  run 0%Z = [5; 18; 90; 174; 210]%Z /\ run 7%Z = run 0%Z.
Proof. vm_compute. split; reflexivity. Qed.
