(** Registered operators: contracts of the backward functions, shapes of the results, and
    the fake kernels. *)
From Coq Require Import List Arith Lia ZArith Bool.
From Verif Require Import Scalar Tensor TensorLemmas TensorOps TensorAlg TensorTac TensorList Spec Shapes Algebra
  M_Mat M_Kernels P_KernelOps P_Helion M_LtiSsm P_LtiSsm M_Ext M_LpvSsm P_LpvSsm M_Autograd SpecAutograd P_Autograd P_Autograd2.
Import ListNotations.
Open Scope cr_scope.
Open Scope res_scope.

Section S.
Variable R : cring.
Add Ring Rr : (r_th R).
Notation ten := (tensor (car R)).
Notation D := (dual R).

(** ** The runner chosen by the registered backward functions *)
Lemma pick_lti e f B M (A : ten) Af : matc B M A Af ->
  runs_lti R f B M -> (M = 2%nat -> runs_lti R (op_lti_recur2 e) B M) ->
  runs_lti R (if negb (sizen A 1 =? 2)%nat then f else op_lti_recur2 e) B M.
Proof.
  intros HA Hf H2.
  assert (sizen A 1 = M) as -> by (destruct HA as [g HA _|HA]; unfold sizen, rk; now rewrite (proj1 HA)).
  destruct (M =? 2)%nat eqn:E; cbn [negb]; [|exact Hf]. apply Nat.eqb_eq in E. now apply H2.
Qed.
Lemma pick_lpv e f B M N (A : ten) Af : matv B N M A Af ->
  runs_lpv R f B M -> (M = 2%nat -> runs_lpv R (op_recur2 e) B M) ->
  runs_lpv R (if negb (sizen A 1 =? 2)%nat then f else op_recur2 e) B M.
Proof.
  intros HA Hf H2.
  assert (sizen A 1 = M) as -> by (destruct HA as [g HA _|HA]; unfold sizen, rk; now rewrite (proj1 HA)).
  destruct (M =? 2)%nat eqn:E; cbn [negb]; [|exact Hf]. apply Nat.eqb_eq in E. now apply H2.
Qed.

(** ** What acceptance by an operator says about the shapes *)
Lemma cat_zx (zi x o : ten) : cat 1 [unsqueeze 1 zi; x] = Ok o ->
  exists b n s, shape x = b :: n :: s /\ shape zi = b :: s /\ shape o = b :: S n :: s.
Proof.
  unfold cat. cbn [forallb]. destruct (shape zi) as [|b s] eqn:Ez.
  { unfold rk, unsqueeze. cbn [shape]. rewrite Ez. discriminate. }
  unfold rk, size, unsqueeze. cbn [shape]. rewrite Ez. cbn [ins del length Nat.ltb Nat.leb andb].
  intro H. match type of H with (if ?c then _ else _) = _ => destruct c eqn:E; [|discriminate] end.
  injection H as <-. apply andb_prop in E. destruct E as [E _].
  apply andb_prop in E. destruct E as [E1 E2]. apply Nat.eqb_eq in E1. apply list_eqb_eq in E2.
  destruct (shape x) as [|b' [|n s']] eqn:Ex; cbn in E1; try lia.
  cbn [del] in E2. injection E2 as -> ->. exists b, n, s. split; [reflexivity|]. split; [reflexivity|].
  cbn. unfold size. cbn. rewrite ?Ez, ?Ex. reflexivity.
Qed.
Ltac gd H := repeat match type of H with
  | (if ?c then _ else _) = Ok _ =>
      let E := fresh "G" in destruct c eqn:E; [|discriminate H]
  end.
Ltac bb := repeat match goal with
  | H : (_ && _)%bool = true |- _ => apply andb_prop in H; destruct H
  | H : (_ =? _)%nat = true |- _ => apply Nat.eqb_eq in H
  | H : (_ <=? _)%nat = true |- _ => apply Nat.leb_le in H
  end.
Lemma slice_tail (o : ten) b n s : shape o = b :: S n :: s ->
  shape (slice 1 (Some 1%Z) (Some (Z.of_nat (S n))) o) = b :: n :: s /\
  shape (slice 1 (Some 1%Z) None o) = b :: n :: s.
Proof.
  intro H. unfold slice, size. cbn [shape]. rewrite H. cbn [nth upd].
  assert (E : pybound (S n) 0 (Some 1%Z) = 1%nat) by (unfold pybound; cbn; now destruct n).
  rewrite E.
  assert (E2 : pybound (S n) (S n) (Some (Z.of_nat (S n))) = S n) by (unfold pybound; destruct (Z.of_nat (S n) <? 0)%Z eqn:K; [apply Z.ltb_lt in K; lia|rewrite Nat2Z.id; lia]).
  rewrite E2. cbn [pybound]. split; repeat f_equal; lia.
Qed.

(** The four matrix kernels: the sizes an accepted call has. *)
Definition fits (lo : nat) (A zi x y : ten) : Prop :=
  (rk A = lo \/ rk A = S lo) /\
  exists B N M s, shape x = B :: N :: M :: s /\ shape zi = B :: M :: s /\
    sizen A 1 = M /\ sizen A 2 = M /\ shape y = shape x.
Lemma lti_N_fits (A zi x y : ten) : lti_mat_recur_N_order_cpu A zi x = Ok y -> fits 2 A zi x y.
Proof.
  unfold lti_mat_recur_N_order_cpu. intro H. gd H. 
  destruct (cat 1 [unsqueeze 1 zi; x]) as [o|] eqn:Eo; [|discriminate H]. cbn [bind] in H. injection H as <-.
  destruct (cat_zx _ _ _ Eo) as (b & n & s & Hx & Hz & Ho). bb.
  unfold rk in G0. rewrite Hx in G0. destruct s as [|m s]; [cbn in G0; lia|].
  split. { apply orb_prop in G. destruct G as [G|G]; apply Nat.eqb_eq in G; auto. }
  unfold size in G1. rewrite Hx in G1. cbn [nth] in G1.
  exists b, n, m, s. repeat split; auto; try congruence.
  unfold size. rewrite Hx. cbn [nth]. replace (n + 1)%nat with (S n) by lia.
  apply slice_tail. unfold of_mem. cbn [shape]. exact Ho.
Qed.
Lemma lpv_N_fits (A zi x y : ten) : mat_recur_N_order_cpu_omp A zi x = Ok y -> fits 3 A zi x y.
Proof.
  unfold mat_recur_N_order_cpu_omp. intro H. gd H. 
  destruct (cat 1 [unsqueeze 1 zi; x]) as [o|] eqn:Eo; [|discriminate H]. cbn [bind] in H. injection H as <-.
  destruct (cat_zx _ _ _ Eo) as (b & n & s & Hx & Hz & Ho). bb.
  unfold rk in G0. rewrite Hx in G0. destruct s as [|m s]; [cbn in G0; lia|].
  split. { apply orb_prop in G. destruct G as [G|G]; apply Nat.eqb_eq in G; auto. }
  unfold size in G1. rewrite Hx in G1. cbn [nth] in G1.
  exists b, n, m, s. repeat split; auto; try congruence.
  unfold size. rewrite Hx. cbn [nth]. replace (n + 1)%nat with (S n) by lia.
  apply slice_tail. unfold of_mem. cbn [shape]. exact Ho.
Qed.
Lemma lti_2_fits e (A zi x y : ten) : rk x = 3%nat -> lti_mat_recur_second_order_cuda e A zi x = Ok y -> fits 2 A zi x y.
Proof.
  unfold lti_mat_recur_second_order_cuda. intros Hr H. gd H. 
  destruct (cat 1 [unsqueeze 1 zi; x]) as [o|] eqn:Eo; [|discriminate H]. cbn [bind] in H. injection H as <-.
  destruct (cat_zx _ _ _ Eo) as (b & n & s & Hx & Hz & Ho). bb.
  unfold rk in Hr. rewrite Hx in Hr. destruct s as [|m [|? ?]]; try discriminate Hr.
  split. { apply orb_prop in G. destruct G as [G|G]; apply Nat.eqb_eq in G; auto. }
  unfold size in G1. rewrite Hx in G1. cbn [nth] in G1. subst m.
  exists b, n, 2%nat, (@nil nat). repeat split; auto; try congruence.
  unfold size. rewrite Hx. cbn [nth]. replace (n + 1)%nat with (S n) by lia.
  apply slice_tail. reflexivity.
Qed.
Lemma lpv_2_fits e (A zi x y : ten) : rk x = 3%nat -> mat_recur_second_order_cuda e A zi x = Ok y -> fits 3 A zi x y.
Proof.
  unfold mat_recur_second_order_cuda. intros Hr H. gd H. 
  destruct (cat 1 [unsqueeze 1 zi; x]) as [o|] eqn:Eo; [|discriminate H]. cbn [bind] in H. injection H as <-.
  destruct (cat_zx _ _ _ Eo) as (b & n & s & Hx & Hz & Ho). bb.
  unfold rk in Hr. rewrite Hx in Hr. destruct s as [|m [|? ?]]; try discriminate Hr.
  split. { apply orb_prop in G. destruct G as [G|G]; apply Nat.eqb_eq in G; auto. }
  unfold size in G1. rewrite Hx in G1. cbn [nth] in G1. subst m.
  exists b, n, 2%nat, (@nil nat). repeat split; auto; try congruence.
  unfold size. rewrite Hx. cbn [nth]. replace (n + 1)%nat with (S n) by lia.
  apply slice_tail. reflexivity.
Qed.
Lemma op_lti_recurN_fits e (A zi x y : ten) : op_lti_recurN e A zi x = Ok y -> fits 2 A zi x y.
Proof. unfold op_lti_recurN. intro H. gd H. now apply lti_N_fits. Qed.
Lemma op_recurN_fits e (A zi x y : ten) : op_recurN e A zi x = Ok y -> fits 3 A zi x y.
Proof. unfold op_recurN. intro H. gd H. now apply lpv_N_fits. Qed.
Lemma op_lti_recur2_fits e (A zi x y : ten) : (cuda e = true -> rk x = 3%nat) ->
  op_lti_recur2 e A zi x = Ok y -> fits 2 A zi x y.
Proof.
  unfold op_lti_recur2. intros Hr H. destruct (ext e); [|discriminate H]. destruct (cuda e).
  - gd H. apply (lti_2_fits e); auto.
  - now apply lti_N_fits.
Qed.
Lemma op_recur2_fits e (A zi x y : ten) : (cuda e = true -> rk x = 3%nat) ->
  op_recur2 e A zi x = Ok y -> fits 3 A zi x y.
Proof.
  unfold op_recur2. intros Hr H. destruct (ext e); [|discriminate H]. destruct (cuda e).
  - gd H. apply (lpv_2_fits e); auto.
  - now apply lpv_N_fits.
Qed.

(** ** The fake kernels *)
Lemma fake_accepts lo two (A zi x y : ten) : (2 <= lo)%nat -> fits lo A zi x y ->
  (rk A = S lo -> size A 0 = size x 0) -> (lo = 3%nat -> sizen A 3 = size x 1) ->
  (two = true -> sizen A 1 = 2%nat) ->
  fake_matrix lo two A zi x = Ok tt.
Proof.
  intros Hlo (Hr & B & N & M & s & Hx & Hz & H1 & H2 & Hy) Hb Ht H3.
  unfold fake_matrix, dim_neg, dim_at.
  assert (rk A >= 2)%nat by (destruct Hr; lia).
  assert ((1 <=? rk A)%nat = true) as -> by (apply Nat.leb_le; lia).
  assert ((2 <=? rk A)%nat = true) as -> by (apply Nat.leb_le; lia). cbn [bind].
  rewrite H1, H2, Nat.eqb_refl. unfold rk at 1 3 4 5 6, size at 1 2 3 4.
  assert (two = true -> M = 2%nat) by (intro; rewrite <- H1; auto).
  unfold rk, size in *. rewrite Hx, Hz. cbn [length nth Nat.ltb Nat.leb bind].
  rewrite Hx in Hb, Ht. cbn [nth] in Hb, Ht.
  replace ((length (shape A) =? lo)%nat || (length (shape A) =? lo + 1)%nat) with true.
  2:{ symmetry. apply orb_true_intro. rewrite !Nat.eqb_eq. lia. }
  assert (E : (if (lo =? 3)%nat then (N =? sizen A 3)%nat else true) = true).
  { destruct (lo =? 3)%nat eqn:E; [|reflexivity]. apply Nat.eqb_eq in E. apply Nat.eqb_eq. rewrite Ht; auto. }
  assert (E2 : (if (length (shape A) =? lo + 1)%nat then (nth 0 (shape A) 0 =? B)%nat else true) = true).
  { destruct (length (shape A) =? lo + 1)%nat eqn:E2; [|reflexivity]. apply Nat.eqb_eq in E2. apply Nat.eqb_eq. apply Hb. lia. }
  destruct two; cbn [bind].
  - assert (M = 2%nat) as -> by auto. repeat first [rewrite Nat.eqb_refl|rewrite E|rewrite E2|progress cbn [bind Nat.eqb]]. reflexivity.
  - repeat first [rewrite Nat.eqb_refl|rewrite E|rewrite E2|progress cbn [bind]]. reflexivity.
Qed.
Lemma fake_lti_recur_accepts e (a zi x y : ten) : op_lti_recur e a zi x = Ok y ->
  fake_lti_recur a zi x = Ok (shape y).
Proof.
  assert (K : forall k, (let* o := cat 1 [unsqueeze 1 zi; x] in
     let* m := (if (rk a =? 1)%nat && (numel a =? size x 0)%nat then Ok (fst (k o))
               else if (numel a =? 1)%nat then Ok (snd (k o)) else Err RuntimeError) in
     Ok (slice 1 (Some 1%Z) (Some (Z.of_nat (size o 1))) (of_mem (R := R) (shape o) m))) = Ok y ->
     (rk a <=? 1)%nat = true -> (rk zi =? 1)%nat = true ->
     fake_lti_recur a zi x = Ok (shape y)).
  { intros k H H1 H2. destruct (cat 1 [unsqueeze 1 zi; x]) as [o|] eqn:Eo; [|discriminate H]. cbn [bind] in H.
    destruct (cat_zx _ _ _ Eo) as (b & n & s & Hx & Hz & Ho).
    assert (Ha : (if (rk a =? 1)%nat && negb (size a 0 =? 1)%nat then (size a 0 =? b)%nat else true) = true
                 /\ shape y = b :: n :: s).
    { unfold size at 1 in H. rewrite Hx in H. cbn [nth] in H.
      assert (Hn : rk a = 1%nat -> numel a = size a 0).
      { unfold rk, numel, size. destruct (shape a) as [|q [|? ?]]; try discriminate. reflexivity. }
      destruct (rk a =? 1)%nat eqn:E; cbn [andb] in *.
      - apply Nat.eqb_eq in E. rewrite Hn in H by assumption.
        destruct (size a 0 =? b)%nat; [|destruct (size a 0 =? 1)%nat]; try discriminate H;
          cbn [bind] in H; injection H as <-; (split; [now destruct (size a 0 =? 1)%nat|]);
          unfold size; rewrite Ho; cbn [nth]; apply slice_tail; reflexivity.
      - destruct (numel a =? 1)%nat; [|discriminate H]. cbn [bind] in H. injection H as <-. split; [reflexivity|].
        unfold size; rewrite Ho; cbn [nth]; apply slice_tail; reflexivity. }
    destruct Ha as [Ha Hy]. unfold fake_lti_recur. rewrite H1. unfold dim_at.
    unfold rk at 1 2, size at 1 2. rewrite Hx, Hz. cbn [length nth Nat.ltb Nat.leb bind].
    rewrite Nat.eqb_refl, Ha, Hy. reflexivity. }
  unfold op_lti_recur. intro H. destruct (ext e); [|discriminate H]. destruct (cuda e).
  - destruct (ext_cuda e); [|discriminate H]. unfold lti_recur_cuda in H.
    destruct (rk a <=? 1)%nat eqn:G1; [|discriminate H]. destruct (rk zi =? 1)%nat eqn:G2; [|discriminate H].
    destruct (2 <=? rk x)%nat eqn:G3; [|discriminate H].
    refine (K (fun xc => (_, _)) H eq_refl eq_refl).
  - unfold lti_recur_cpu in H.
    destruct (rk a <=? 1)%nat eqn:G1; [|discriminate H]. destruct (rk zi =? 1)%nat eqn:G2; [|discriminate H].
    destruct (2 <=? rk x)%nat eqn:G3; [|discriminate H].
    refine (K (fun xc => (_, _)) H eq_refl eq_refl).
Qed.

(** Conversely: arguments with the right ranks that the fake kernel accepts. *)
Lemma fake_sizes lo two (A zi x : ten) : fake_matrix lo two A zi x = Ok tt ->
  rk x = 3%nat -> rk zi = 2%nat ->
  exists B N M, shape x = [B; N; M] /\ shape zi = [B; M] /\ sizen A 1 = M /\ sizen A 2 = M /\
    (rk A = lo \/ rk A = S lo) /\ (rk A = S lo -> size A 0 = B) /\
    (lo = 3%nat -> sizen A 3 = N) /\ (two = true -> M = 2%nat).
Proof.
  intros H Hx Hz. unfold fake_matrix, dim_neg, dim_at in H.
  destruct (shape x) as [|B [|N [|M [|? ?]]]] eqn:Ex; try (unfold rk in Hx; rewrite Ex in Hx; discriminate Hx).
  destruct (shape zi) as [|B' [|M' [|? ?]]] eqn:Ez; try (unfold rk in Hz; rewrite Ez in Hz; discriminate Hz).
  exists B, N, M. 
  assert (size x 0 = B /\ size x 1 = N /\ size x 2 = M) as (S0 & S1 & S2) by (unfold size; rewrite Ex; auto).
  assert (size zi 0 = B' /\ size zi 1 = M') as (T0 & T1) by (unfold size; rewrite Ez; auto).
  rewrite Hx, Hz, S0, S1, S2, T0, T1 in H.
  change (2 <? 3)%nat with true in H. change (1 <? 3)%nat with true in H. change (1 <? 2)%nat with true in H.
  destruct (1 <=? rk A)%nat; cbn [bind] in H; [|discriminate H].
  destruct (2 <=? rk A)%nat; cbn [bind] in H; [|discriminate H].
  assert (K : forall m, (two = true -> m = 2%nat) -> (two = false -> m = M) ->
    (if (sizen A 1 =? sizen A 2)%nat then let* m := Ok m in
       if (sizen A 2 =? m)%nat then if ((rk A =? lo) || (rk A =? lo + 1))%nat then
         let* z1 := Ok M' in if (z1 =? m)%nat then let* x2 := Ok M in
         if (if two then (x2 =? 2)%nat else true) then let* x1 := Ok N in
         if (if (lo =? 3)%nat then (x1 =? sizen A 3)%nat else true) then
         if (B =? B')%nat then if (if (rk A =? lo + 1)%nat then (size A 0 =? B)%nat else true) then Ok tt
         else Err RuntimeError else Err RuntimeError else Err RuntimeError else Err RuntimeError else Err RuntimeError
         else Err RuntimeError else Err RuntimeError else Err RuntimeError) = Ok tt ->
    [B'; M'] = [B; M] /\ sizen A 1 = M /\ sizen A 2 = M /\
    (rk A = lo \/ rk A = S lo) /\ (rk A = S lo -> size A 0 = B) /\
    (lo = 3%nat -> sizen A 3 = N) /\ (two = true -> M = 2%nat)).
  { clear H. intros m Hm1 Hm2 H. cbn [bind] in H. gd H. bb.
    assert (M = m). { destruct two; [apply Nat.eqb_eq in G3; rewrite G3, Hm1; auto|symmetry; auto]. }
    apply orb_prop in G1. rewrite !Nat.eqb_eq in G1. clear S0 S1 S2 T0 T1. subst.
    split; [congruence|]. split; [congruence|]. split; [congruence|]. split; [lia|]. split; [|split].
    - intro E. rewrite E in G6. replace (S lo =? lo + 1)%nat with true in G6 by (symmetry; apply Nat.eqb_eq; lia).
      now apply Nat.eqb_eq.
    - intros ->. cbn in G4. apply Nat.eqb_eq in G4. auto.
    - intro Et. specialize (Hm1 Et). congruence. }
  split; [reflexivity|]. destruct two; [apply (K 2%nat)|apply (K M)]; auto; try discriminate; exact H.
Qed.
Lemma matc_of_sizes (A : ten) B M : (rk A = 2 \/ rk A = 3)%nat -> sizen A 1 = M -> sizen A 2 = M ->
  (rk A = 3%nat -> size A 0 = B) -> exists Af, matc B M A Af.
Proof.
  intros Hr H1 H2 H0. unfold rk, sizen, size in *. destruct Hr as [Hr|Hr]; cbn in Hr.
  - destruct (shape A) as [|p [|q [|? ?]]] eqn:E; try discriminate Hr.
    unfold rk in *. rewrite E in *. cbn in H1, H2. subst.
    eexists. apply matc_s with (g := fun i j => at_ A [i; j]); [split; [exact E|reflexivity]|].
    instantiate (1 := fun _ i j => at_ A [i; j]). reflexivity.
  - destruct (shape A) as [|b [|p [|q [|? ?]]]] eqn:E; try discriminate Hr.
    unfold rk in *. rewrite E in *. cbn in H1, H2, H0. rewrite H0 in E by reflexivity. subst.
    exists (fun b i j => at_ A [b; i; j]). apply matc_b. split; [exact E|reflexivity].
Qed.
Lemma matv_of_sizes (A : ten) B N M : (rk A = 3 \/ rk A = 4)%nat -> sizen A 1 = M -> sizen A 2 = M ->
  (rk A = 4%nat -> size A 0 = B) -> sizen A 3 = N -> exists Af, matv B N M A Af.
Proof.
  intros Hr H1 H2 H0 H3. unfold rk, sizen, size in *. destruct Hr as [Hr|Hr]; cbn in Hr.
  - destruct (shape A) as [|r [|p [|q [|? ?]]]] eqn:E; try discriminate Hr.
    unfold rk in *. rewrite E in *. cbn in H1, H2, H3. subst.
    eexists. apply matv_s with (g := fun n i j => at_ A [n; i; j]); [split; [exact E|reflexivity]|].
    instantiate (1 := fun _ n i j => at_ A [n; i; j]). reflexivity.
  - destruct (shape A) as [|b [|r [|p [|q [|? ?]]]]] eqn:E; try discriminate Hr.
    unfold rk in *. rewrite E in *. cbn in H1, H2, H0, H3. rewrite H0 in E by reflexivity. subst.
    exists (fun b n i j => at_ A [b; n; i; j]). apply matv_b. split; [exact E|reflexivity].
Qed.
Lemma fake_lti_views two (A zi x : ten) : fake_matrix 2 two A zi x = Ok tt -> rk x = 3%nat -> rk zi = 2%nat ->
  exists B N M Af zf xf, matc B M A Af /\ is2 zi B M zf /\ is3 x B N M xf /\ (two = true -> M = 2%nat).
Proof.
  intros H Hx Hz. destruct (fake_sizes 2 two A zi x H Hx Hz) as (B & N & M & Sx & Sz & H1 & H2 & Hr & Hb & _ & H3).
  destruct (matc_of_sizes A B M Hr H1 H2 Hb) as (Af & HA).
  exists B, N, M, Af, (fun b m => at_ zi [b; m]), (fun b n m => at_ x [b; n; m]).
  split; [exact HA|]. split; [split; [exact Sz|reflexivity]|]. split; [split; [exact Sx|reflexivity]|]. exact H3.
Qed.
Lemma fake_lpv_views two (A zi x : ten) : fake_matrix 3 two A zi x = Ok tt -> rk x = 3%nat -> rk zi = 2%nat ->
  exists B N M Af zf xf, matv B N M A Af /\ is2 zi B M zf /\ is3 x B N M xf /\ (two = true -> M = 2%nat).
Proof.
  intros H Hx Hz. destruct (fake_sizes 3 two A zi x H Hx Hz) as (B & N & M & Sx & Sz & H1 & H2 & Hr & Hb & Ht & H3).
  destruct (matv_of_sizes A B N M Hr H1 H2 Hb (Ht eq_refl)) as (Af & HA).
  exists B, N, M, Af, (fun b m => at_ zi [b; m]), (fun b n m => at_ x [b; n; m]).
  split; [exact HA|]. split; [split; [exact Sz|reflexivity]|]. split; [split; [exact Sx|reflexivity]|]. exact H3.
Qed.
Lemma matc_fits (A zi x y : ten) B N M Af zf xf yf : matc B M A Af -> is2 zi B M zf -> is3 x B N M xf ->
  is3 y B N M yf -> fits 2 A zi x y /\ (rk A = 3%nat -> size A 0 = size x 0).
Proof.
  intros HA [Hz _] [Hx _] [Hy _]. unfold size at 2. rewrite Hx. cbn [nth].
  destruct HA as [g [HA _] _|[HA _]]; unfold fits, rk, sizen, size, rk; rewrite HA; cbn;
    (split; [split; [auto|]|try discriminate; auto]);
    exists B, N, M, (@nil nat); repeat split; auto; congruence.
Qed.
Lemma matv_fits (A zi x y : ten) B N M Af zf xf yf : matv B N M A Af -> is2 zi B M zf -> is3 x B N M xf ->
  is3 y B N M yf -> fits 3 A zi x y /\ (rk A = 4%nat -> size A 0 = size x 0) /\ sizen A 3 = size x 1.
Proof.
  intros HA [Hz _] [Hx _] [Hy _]. unfold size at 2 3. rewrite Hx. cbn [nth].
  destruct HA as [g [HA _] _|[HA _]]; unfold fits, rk, sizen, size, rk; rewrite HA; cbn;
    (split; [split; [auto|]|split; [try discriminate; auto|reflexivity]]);
    exists B, N, M, (@nil nat); repeat split; auto; congruence.
Qed.
End S.
