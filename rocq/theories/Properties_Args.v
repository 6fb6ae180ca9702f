(** C45: argument checks of the remaining functions.  Each theorem says which shapes a call
    may have; everything else raises the stated exception, whatever the other arguments. *)
From Coq Require Import List Arith Lia ZArith Bool Ring.
From Verif Require Import Scalar Tensor TensorLemmas TensorList TensorTac Spec Shapes SpecFilter SpecLpv Algebra M_Mat M_LtiRecur M_Kernels M_LtiSsm M_LpvSsm
  M_LtiFilter M_Poly M_Diag M_LpvFilter P_LtiSsm P_LpvSs P_LpvSsm P_LtiFilter P_LpvFilter
  Properties_LtiFilter Properties_LtiFilter2 Properties_LpvFilter Properties_Diag.
Import ListNotations.
Open Scope nat_scope.

Lemma rk1_shape {A} (t : tensor A) : rk t = 1 -> exists a, shape t = [a].
Proof. unfold rk. destruct (shape t) as [|a [|]]; try discriminate. eauto. Qed.
Lemma rk2_shape {A} (t : tensor A) : rk t = 2 -> exists a b, shape t = [a; b].
Proof. unfold rk. destruct (shape t) as [|a [|b [|]]]; try discriminate. eauto. Qed.
Lemma rk3_shape {A} (t : tensor A) : rk t = 3 -> exists a b c, shape t = [a; b; c].
Proof. unfold rk. destruct (shape t) as [|a [|b [|c [|]]]]; try discriminate. eauto. Qed.

(** ** lti.fir: b (B, K), x (B, N), zi (B, K - 1). *)
Definition fir_args {R : cring} (b x : tensor R) (zi : option (tensor R)) : Prop :=
  exists B N K, shape b = [B; K] /\ shape x = [B; N] /\ forall z, zi = Some z -> exists k, shape z = [B; k] /\ k + 1 = K.
Theorem C45_fir_args :
  forall (R : cring) (b x : tensor R) zi tr, ~ fir_args b x zi -> fir b x zi tr = Err AssertionError.
Proof.
  intros R b x zi tr H. unfold fir.
  destruct (rk b =? 2) eqn:Eb; [|reflexivity]. apply Nat.eqb_eq in Eb. destruct (rk2_shape _ Eb) as (B & K & Sb).
  destruct (rk x =? 2) eqn:Ex; [|reflexivity]. apply Nat.eqb_eq in Ex. destruct (rk2_shape _ Ex) as (B' & N & Sx).
  destruct (size b 0 =? size x 0) eqn:E; [|reflexivity]. apply Nat.eqb_eq in E. unfold size in E. rewrite Sb, Sx in E. cbn in E. subst B'.
  cbv zeta. match goal with |- context [if ?c then _ else Err AssertionError] => destruct c eqn:Ez end; [|reflexivity].
  exfalso. apply H. exists B, N, K. split; [exact Sb|]. split; [exact Sx|]. intros z ->.
  apply andb_prop in Ez as [Ez E3]. apply andb_prop in Ez as [E1 E2]. apply Nat.eqb_eq in E1, E2. apply Z.eqb_eq in E3.
  destruct (rk2_shape _ E1) as (z0 & z1 & Sz). unfold size in E2, E3. rewrite Sz, ?Sx, ?Sb in *. cbn in E2, E3. exists z1. split; [now rewrite E2|lia].
Qed.
Print Assumptions C45_fir_args.

(** ** lpv.fir: b (B, N, K), x (B, N), zi (B, K - 1). *)
Definition lpv_fir_args {R : cring} (b x : tensor R) (zi : option (tensor R)) : Prop :=
  exists B N K, shape b = [B; N; K] /\ shape x = [B; N] /\ forall z, zi = Some z -> exists k, shape z = [B; k] /\ k + 1 = K.
Theorem C45_lpv_fir_args :
  forall (R : cring) (b x : tensor R) zi tr, ~ lpv_fir_args b x zi -> lpv_fir b x zi tr = Err AssertionError.
Proof.
  intros R b x zi tr H. unfold lpv_fir.
  destruct (rk b =? 3) eqn:Eb; [|reflexivity]. apply Nat.eqb_eq in Eb. destruct (rk3_shape _ Eb) as (B & N & K & Sb).
  destruct (rk x =? 2) eqn:Ex; [|reflexivity]. apply Nat.eqb_eq in Ex. destruct (rk2_shape _ Ex) as (B' & N' & Sx).
  cbv zeta. unfold size. rewrite Sb, Sx. cbn [nth].
  destruct ((B =? B') && (N =? N')) eqn:E; [|reflexivity]. apply andb_prop in E as [E1 E2]. apply Nat.eqb_eq in E1, E2. subst B' N'.
  destruct zi as [z|].
  - match goal with |- context [if ?c then Ok _ else Err AssertionError] => destruct c eqn:Ez end; [|reflexivity].
    exfalso. apply H. exists B, N, K. split; [exact Sb|]. split; [exact Sx|]. intros z' [= <-].
    apply andb_prop in Ez as [Ez E3]. apply andb_prop in Ez as [E1 E2]. apply Nat.eqb_eq in E1, E2, E3.
    destruct (rk2_shape _ E1) as (z0 & z1 & Sz). rewrite Sz in E2, E3. cbn [nth] in E2, E3. exists z1. split; [now rewrite Sz, E2|lia].
  - exfalso. apply H. exists B, N, K. split; [exact Sb|]. split; [exact Sx|]. discriminate.
Qed.
Print Assumptions C45_lpv_fir_args.

(** ** lpv.allpole: a (B, N, M), x (B, N), zi (B, M). *)
Definition lpv_allpole_args {R : cring} (a x : tensor R) (zi : option (tensor R)) : Prop :=
  exists B N M, shape a = [B; N; M] /\ shape x = [B; N] /\ forall z, zi = Some z -> shape z = [B; M].
Theorem C45_lpv_allpole_args :
  forall (R : cring) (a x : tensor R) zi tr, ~ lpv_allpole_args a x zi -> lpv_allpole a x zi tr = Err AssertionError.
Proof.
  intros R b x zi tr H. unfold lpv_allpole.
  destruct (rk b =? 3) eqn:Eb; [|reflexivity]. apply Nat.eqb_eq in Eb. destruct (rk3_shape _ Eb) as (B & N & K & Sb).
  destruct (rk x =? 2) eqn:Ex; [|reflexivity]. apply Nat.eqb_eq in Ex. destruct (rk2_shape _ Ex) as (B' & N' & Sx).
  cbv zeta. unfold size at 1 2 3 4. rewrite Sb, Sx. cbn [nth].
  destruct ((B =? B') && (N =? N')) eqn:E; [|reflexivity]. apply andb_prop in E as [E1 E2]. apply Nat.eqb_eq in E1, E2. subst B' N'.
  destruct zi as [z|].
  - match goal with |- context [if ?c then Ok _ else Err AssertionError] => destruct c eqn:Ez end; [|reflexivity].
    exfalso. apply H. exists B, N, K. split; [exact Sb|]. split; [exact Sx|]. intros z' [= <-].
    apply andb_prop in Ez as [Ez E3]. apply andb_prop in Ez as [E1 E2]. apply Nat.eqb_eq in E1, E2, E3.
    destruct (rk2_shape _ E1) as (z0 & z1 & Sz). unfold size in E2, E3. rewrite Sz in E2, E3. rewrite ?Sb, ?Sx in *. cbn [nth] in E2, E3. congruence.
  - exfalso. apply H. exists B, N, K. split; [exact Sb|]. split; [exact Sx|]. discriminate.
Qed.
Print Assumptions C45_lpv_allpole_args.

(** ** comb_filter: x (B, N), a () or (B,), delay at least one. *)
Definition comb_args {R : cring} (a x : tensor R) : Prop :=
  exists B N, shape x = [B; N] /\ (shape a = [] \/ shape a = [B]).
Theorem C45_comb_filter_args :
  forall (R : cring) e (a x : tensor R) d zi uf, ~ comb_args a x -> comb_filter e a d x zi uf = Err AssertionError.
Proof.
  intros R e a x d zi uf H. unfold comb_filter.
  destruct (rk a <=? 1) eqn:Ea; [|reflexivity]. destruct (rk x =? 2) eqn:Ex; [|reflexivity].
  apply Nat.eqb_eq in Ex. destruct (rk2_shape _ Ex) as (B & N & Sx).
  match goal with |- context [if ?c then _ else Err AssertionError] => destruct c eqn:E end; [|reflexivity].
  exfalso. apply H. exists B, N. split; [exact Sx|]. apply Nat.leb_le in Ea. unfold rk, size in *. rewrite Sx in E. 
  destruct (shape a) as [|n [|]]; [auto| |cbn in Ea; lia]. cbn in E. apply Nat.eqb_eq in E. right. now rewrite E.
Qed.
Print Assumptions C45_comb_filter_args.
Theorem C45_comb_filter_delay_zero :
  forall (R : cring) e (a x : tensor R) zi uf, comb_args a x -> comb_filter e a 0 x zi uf = Err ZeroDivisionError.
Proof.
  intros R e a x zi uf (B & N & Sx & Sa). unfold comb_filter, rk, size. rewrite Sx. destruct Sa as [-> | ->]; cbn; now rewrite ?Nat.eqb_refl.
Qed.
Print Assumptions C45_comb_filter_delay_zero.

(** ** linear_recurrence: x of two dimensions, a and init scalars or one per signal. *)
Theorem C45_linear_recurrence_args :
  forall (R : cring) (a init x : tensor R) uf,
  (rk x <> 2 \/ 2 <= rk a -> linear_recurrence a init x uf = Err AssertionError) /\
  (forall B N P, shape x = [B; N] -> shape a = [P] -> P <> B -> 2 <= P -> linear_recurrence a init x uf = Err ValueError) /\
  (forall B N P, shape x = [B; N] -> rk a = 0 \/ shape a = [1] \/ shape a = [B] -> shape init = [P] -> P <> B -> 2 <= P -> linear_recurrence a init x uf = Err ValueError).
Proof.
  intros R a init x uf. unfold linear_recurrence. cbn [linear_recurrence_fuel]. split; [|split].
  - intros [H|H]; destruct (rk x =? 2) eqn:E; auto; [apply Nat.eqb_eq in E; lia|].
    destruct (rk a) as [|[|k]]; [lia|lia|]. reflexivity.
  - intros B N P Sx Sa HP HP2. unfold rk, size. rewrite Sx, Sa. cbn [length Nat.eqb orb nth andb].
    rewrite (proj2 (Nat.ltb_lt 1 P)) by lia. rewrite (proj2 (Nat.eqb_neq P B)) by lia. reflexivity.
  - intros B N P Sx Sa Si HP HP2.
    assert (rk x = 2 /\ size x 0 = B /\ rk init = 1 /\ size init 0 = P) as (-> & -> & -> & ->) by (unfold rk, size; rewrite Sx, Si; auto).
    assert ((rk a =? 0) || (rk a =? 1) = true /\ negb ((rk a =? 1) && (1 <? size a 0) && negb (size a 0 =? B)) = true /\
      exists a', (if rk a =? 0 then expand [1] a else Ok a) = Ok a') as (-> & -> & a' & ->).
    { destruct Sa as [Sa|[Sa|Sa]].
      - rewrite Sa. cbn [Nat.eqb orb negb andb]. split; [reflexivity|]. split; [reflexivity|]. unfold rk in Sa. apply length_zero_iff_nil in Sa.
        unfold expand. rewrite Sa. eexists. reflexivity.
      - unfold rk, size. rewrite Sa. cbn. eauto.
      - unfold rk, size. rewrite Sa. cbn. rewrite Nat.eqb_refl, Bool.andb_false_r. cbn. eauto. }
    cbn [Nat.eqb orb bind andb]. rewrite (proj2 (Nat.ltb_lt 1 P)) by lia. rewrite (proj2 (Nat.eqb_neq P B)) by lia. reflexivity.
Qed.
Print Assumptions C45_linear_recurrence_args.

(** ** filtfilt: gust is not implemented, the signal must be longer than the padding. *)
Theorem C45_filtfilt_args :
  forall (R : cring) la lf (b a x : tensor R) pm padlen fm,
  filtfilt_wrap la lf b a x pm padlen true fm = Err NotImplementedError /\
  (forall l, sizen x 1 <= l -> pm <> None -> filtfilt_wrap la lf b a x pm (Some l) false fm = Err AssertionError) /\
  (sizen x 1 <= 3 * Nat.max (sizen b 1) (sizen a 1 + 1) -> pm <> None -> filtfilt_wrap la lf b a x pm None false fm = Err AssertionError).
Proof.
  intros R la lf b a x pm padlen fm. split; [reflexivity|]. split.
  - intros l H Hp. unfold filtfilt_wrap. destruct pm; [|congruence]. cbn [negb]. cbv zeta. now rewrite (proj2 (Nat.ltb_ge _ _)) by exact H.
  - intros H Hp. unfold filtfilt_wrap. destruct pm; [|congruence]. cbn [negb]. cbv zeta. now rewrite (proj2 (Nat.ltb_ge _ _)) by exact H.
Qed.
Print Assumptions C45_filtfilt_args.

(** ** lfiltic: coefficient vectors, not scalars. *)
Theorem C45_lfiltic_args :
  forall (R : cring) (b a y : tensor R) x, rk b = 0 \/ rk a = 0 -> lfiltic b a y x = Err AssertionError.
Proof. intros R b a y x H. unfold lfiltic. destruct (rk b); [reflexivity|]. destruct H as [H|H]; [discriminate|]. now rewrite H. Qed.
Print Assumptions C45_lfiltic_args.

(** ** diag_state_space *)
Theorem C45_diag_args :
  forall (F : cfield) e la re (x : tensor F) L V Vinv A B C D zi cc oi uf,
  (rk x <> 2 -> rk x <> 3 -> diag_state_space e la re x L V Vinv A B C D zi cc oi uf = Err AssertionError) /\
  (rk x = 2 \/ rk x = 3 -> C <> None -> oi <> None -> diag_state_space e la re x L V Vinv A B C D zi cc oi uf = Err ValueError) /\
  (rk x = 2 \/ rk x = 3 -> C = None \/ oi = None -> L = None -> A = None ->
     diag_state_space e la re x L V Vinv A B C D zi cc oi uf = Err AssertionError) /\
  (forall t P M, rk x = 2 \/ rk x = 3 -> C = None \/ oi = None -> L = None -> A = Some t -> shape t = [P; M; M] -> P <> size x 0 ->
     diag_state_space e la re x L V Vinv A B C D zi cc oi uf = Err AssertionError) /\
  (forall t P M, rk x = 2 \/ rk x = 3 -> C = None \/ oi = None -> L = Some t -> shape t = [P; M] -> P <> size x 0 ->
     diag_state_space e la re x L V Vinv A B C D zi cc oi uf = Err ValueError) /\
  (forall t B' M M' M'' v, rk x = 2 \/ rk x = 3 -> C = None \/ oi = None -> L = Some t -> V = Some v -> shape t = [B'; M] -> B' = size x 0 ->
     shape v = [B'; M'; M''] -> M' <> M \/ M'' <> M -> diag_state_space e la re x L V Vinv A B C D zi cc oi uf = Err AssertionError).
Proof.
  intros F e la re x L V Vinv A B C D zi cc oi uf.
  assert (X : rk x = 2 \/ rk x = 3 -> (rk x =? 2) || (rk x =? 3) = true) by (intros [-> | ->]; reflexivity).
  assert (Y : C = None \/ oi = None -> match C, oi with Some _, Some _ => false | _, _ => true end = true) by (intros [-> | ->]; [reflexivity|destruct C; reflexivity]).
  split; [|split; [|split; [|split; [|split]]]].
  - intros H2 H3. unfold diag_state_space. now rewrite (proj2 (Nat.eqb_neq _ _) H2), (proj2 (Nat.eqb_neq _ _) H3).
  - intros H Hc Ho. unfold diag_state_space. rewrite (X H). destruct C, oi; congruence || reflexivity.
  - intros H Hc HL HA. unfold diag_state_space. rewrite (X H), (Y Hc). subst. reflexivity.
  - intros t P M H Hc HL HA St HP. unfold diag_state_space. rewrite (X H), (Y Hc). subst L A. cbv zeta. unfold diag_resolve.
    assert (rk t = 3 /\ sizen t 1 = M /\ sizen t 2 = M /\ size t 0 = P) as (-> & -> & -> & ->) by (unfold rk, sizen, size; unfold rk; rewrite St; auto).
    cbn [Nat.eqb orb negb]. rewrite Nat.eqb_refl, (proj2 (Nat.eqb_neq _ _)) by congruence. reflexivity.
  - intros t P M H Hc HL St HP. unfold diag_state_space. rewrite (X H), (Y Hc). subst L. cbv zeta. unfold diag_resolve. rewrite St.
    rewrite (proj2 (Nat.eqb_neq _ _)) by exact HP. reflexivity.
  - intros t B' M M' M'' v H Hc HL HV St -> Sv HM. unfold diag_state_space. rewrite (X H), (Y Hc). subst L V. cbv zeta. unfold diag_resolve. rewrite St, Nat.eqb_refl.
    cbv zeta. unfold check_mat at 1.
    assert (size t 1 = M /\ rk v = 3 /\ size v 0 = size x 0 /\ sizen v 2 = M' /\ sizen v 1 = M'') as (-> & -> & -> & -> & ->)
      by (unfold sizen, rk, size in *; rewrite St, Sv; auto).
    cbn [Nat.eqb orb andb].
    rewrite Nat.eqb_refl. cbn [andb].
    destruct HM as [HM|HM]; rewrite (proj2 (Nat.eqb_neq _ _) HM); [reflexivity|now rewrite Bool.andb_false_r].
Qed.
Print Assumptions C45_diag_args.

(** Calls outside these shapes, and calls inside them. *)
Example C45_args_ex :
  let x := v2 [[1;0;2];[2;3;1]]%Z in
  ~ fir_args (R := Zring) (v2 [[1;2]]%Z) x None /\ fir (v2 [[1;2]]%Z) x None true = Err AssertionError /\
  fir_args (R := Zring) (v2 [[1;2];[3;4]]%Z) x (Some (v2 [[1];[1]]%Z)) /\
  show2' (fir (v2 [[1;2];[3;4]]%Z) x (Some (v2 [[1];[1]]%Z)) true) <> None /\
  fir (v2 [[1;2];[3;4]]%Z) x (Some (v2 [[1;1];[1;1]]%Z)) true = Err AssertionError /\
  lpv_fir (v3 [[[1];[1]]])%Z x None true = Err AssertionError /\
  lpv_allpole (v3 [[[1];[1];[1]]])%Z x None false = Err AssertionError /\
  comb_filter env0 (v1 [1;2;3]%Z) 2 x None None = Err AssertionError /\
  comb_filter env0 (v1 [1;2]%Z) 0 x None None = Err ZeroDivisionError /\
  linear_recurrence (v1 [1;2;3]%Z) (v1 [0]%Z) x 1 = Err ValueError /\
  linear_recurrence (v1 [1;2]%Z) (v1 [0;0;0]%Z) x 1 = Err ValueError.
Proof.
  cbv zeta. split.
  { intros (B & N & K & Sb & Sx & _). cbn in Sb, Sx. congruence. }
  split; [vm_compute; reflexivity|]. split.
  { exists 2, 3, 2. split; [reflexivity|]. split; [reflexivity|]. intros z [= <-]. exists 1. split; reflexivity. }
  split; [vm_compute; discriminate|]. repeat split; vm_compute; reflexivity.
Qed.

(** comb_filter does not check the shape of zi: a state for one signal with four past
    samples is accepted for two signals with delay two, and its entries are dealt out to the
    wrong signals.  Refutes "mismatched batch sizes raise" for zi. *)
Theorem C45_comb_filter_zi_refuted :
  let x := v2 [[0;0];[0;0]]%Z in let a := v1 [-1;-1]%Z in
  show2' (comb_filter env_ext a 2 x (Some (v2 [[1;2;3;4]]%Z)) None) = Some (Some ([2;2], [4;3;2;1]%Z), Some ([2;2], [3;4;1;2]%Z)) /\
  show2' (comb_filter env_ext a 2 x (Some (v2 [[1;2];[3;4]]%Z)) None) = Some (Some ([2;2], [2;1;4;3]%Z), Some ([2;2], [1;2;3;4]%Z)).
Proof. split; vm_compute; reflexivity. Qed.
Print Assumptions C45_comb_filter_zi_refuted.
Example C45_diag_args_ex :
  let q := fun s => mkT s (fun _ => r1) : tensor Qfield in
  let la := laQ (q [2]) in let run := fun x L V A C oi => diag_state_space env0 la (fun z => z) (q x) L V None A None C None None false oi None in
  run [1] (Some (q [2])) None None None None = Err AssertionError /\
  run [2;3] (Some (q [2])) None None (Some (q [2])) (Some 0%Z) = Err ValueError /\
  run [2;3] None None None None None = Err AssertionError /\
  run [2;3] None None (Some (q [3;2;2])) None None = Err AssertionError /\
  run [2;3] (Some (q [3;2])) None None None None = Err ValueError /\
  run [2;3] (Some (q [2;2])) (Some (q [2;2;3])) None None None = Err AssertionError.
Proof. cbv zeta. repeat split; vm_compute; reflexivity. Qed.
Example C45_filtfilt_args_ex :
  let la := la_small Zring (fun _ => None) in let b := v1 [1;1]%Z in let a := v1 [0]%Z in
  filtfilt_ssm env0 la b a (v1 [1;2;3]%Z) (Some Reflect) None true Df2 None = Err NotImplementedError /\
  filtfilt_ssm env0 la b a (v1 [1;2;3]%Z) (Some Reflect) (Some 3) false Df2 None = Err AssertionError /\
  filtfilt_ssm env0 la b a (v1 [1;2;3;4;5;6]%Z) (Some Reflect) None false Df2 None = Err AssertionError /\
  lfiltic (mkT [] (fun _ => 1%Z) : tensor Zring) a (v1 [1]%Z) None = Err AssertionError.
Proof. cbv zeta. repeat split; vm_compute; reflexivity. Qed.

(** ** lpv.state_space: a batch of matrices whose size is not the signal's raises unless the
    compiled kernel is called directly (unroll_factor = 1) ... *)
Theorem C45_lpv_batch_raises :
  forall (R : cring) e pr B P N M F (A x : tensor R) Bt C D zi uf oi Af xf Bm z0,
  1 <= M -> P <> B -> is4 A P N M M Af -> sigv B N F x xf -> inmatv B N M F Bt Bm -> init B M zi z0 ->
  lpv_extension_backend_indicator e pr M = false \/ match uf with Some u => u | None => round_sqrt N end <> 1 ->
  exists er, lpv_state_space e pr A x Bt C D zi uf oi = Err er.
Proof.
  intros R e pr B P N M F A x Bt C D zi uf oi Af xf Bm z0 HM HP HA Hx HBm Hz Hi.
  destruct (sig_size _ _ _ _ _ _ Hx) as (Hs0 & Hs1 & Hrk & Hfe & Hrk2).
  unfold lpv_state_space. rewrite Hs0, Hs1, Hrk.
  assert (rk A = 4 /\ sizen A 1 = M /\ sizen A 2 = M /\ sizen A 3 = N /\ size A 0 = P) as (A1 & A2 & A3 & A4 & A5)
    by (unfold sizen, size, rk; rewrite (proj1 HA); auto).
  rewrite A1, A2, A3, A4, !Nat.eqb_refl. cbn [Nat.eqb orb].
  match goal with |- context [if ?c then _ else Err ValueError] => destruct c end; [|eexists; reflexivity].
  destruct (ss_zi_spec R B M x zi z0 HM Hz) as (z & -> & Hzz). cbn [bind]. cbv zeta.
  destruct (lpv_input_spec R B N M F x xf Bt Bm Hx HBm) as (Bx & -> & HBx). cbn [bind].
  assert (E : lpv_extension_backend_indicator e pr M && (match uf with Some u => u | None => round_sqrt N end =? 1) = false).
  { destruct Hi as [-> | H]; [reflexivity|]. rewrite (proj2 (Nat.eqb_neq _ _) H). apply Bool.andb_false_r. }
  rewrite E.
  assert (Hr : forall u o, lpv_state_space_recursion e pr A z Bx u o = Err AssertionError).
  { intros u o. unfold lpv_state_space_recursion. cbn [lpv_state_space_recursion_fuel]. rewrite A1, A2, A3, A4, A5, Nat.eqb_refl. cbn [Nat.eqb orb negb].
    destruct HBx as [f HBx _|HBx]; unfold sizen, size, rk; rewrite (proj1 HBx); cbn [length Nat.eqb orb nth];
    rewrite ?Nat.eqb_refl, (proj2 (Nat.eqb_neq B P)) by congruence; rewrite ?Nat.eqb_refl; reflexivity. }
  destruct oi; [destruct zi|]; rewrite Hr; eexists; reflexivity.
Qed.
Print Assumptions C45_lpv_batch_raises.
(** ... and there it is not checked: two matrices per step and one signal. *)
Theorem C45_lpv_batch_refuted :
  let A := mkT [2;2;2;2] (fun i => Z.of_nat (nth 0 i 0 + nth 2 i 0 + nth 3 i 0)) : tensor Zring in
  let x := v2 [[1;1]]%Z in
  show2' (lpv_state_space env_ext false A x None None None None (Some 1) None) = Some (Some ([1;2;2], [0;0; 1;0]%Z), None) /\
  show2' (lpv_state_space env_ext false A x None None None None (Some 2) None) = None /\
  show2' (lpv_state_space env0 false A x None None None None (Some 1) None) = None.
Proof. repeat split; vm_compute; reflexivity. Qed.
Print Assumptions C45_lpv_batch_refuted.
