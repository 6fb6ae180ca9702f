(** unique_roots, residue and residuez of prototype/signal.py. *)
From Coq Require Import List Arith Lia ZArith Bool Permutation.
From Verif Require Import Scalar Tensor TensorLemmas TensorOps TensorAlg TensorTac TensorList
  SpecPoly SpecPfe M_Poly P_Poly M_ProtoPoly P_ProtoPoly P_ProtoPoly2 P_Formal M_Signal P_Signal.
Import ListNotations.

Lemma filter_split {A} (f g : A -> bool) l :
  Permutation (filter f l) (filter (fun x => f x && g x) l ++ filter (fun x => f x && negb (g x)) l).
Proof.
  induction l as [|x l IH]; [constructor|]. cbn [filter]. destruct (f x) eqn:E; cbn [andb]; [|exact IH].
  destruct (g x); cbn [negb app]; [now constructor|]. now apply Permutation_cons_app.
Qed.
Lemma filter_ext' {A} (f g : A -> bool) l : (forall x, In x l -> f x = g x) -> filter f l = filter g l.
Proof. intro H. induction l as [|x l IH]; [reflexivity|]. cbn [filter]. rewrite H by now left. rewrite IH; [reflexivity|]. intros y Hy. apply H. now right. Qed.
Lemma filter_all {A} (f : A -> bool) l : (forall x, In x l -> f x = true) -> filter f l = l.
Proof. intro H. induction l as [|x l IH]; [reflexivity|]. cbn [filter]. rewrite H by now left. rewrite IH; [reflexivity|]. intros y Hy. apply H. now right. Qed.

Section US.
Variable F : cfield.
Variable close : F -> F -> bool.
Add Ring Rr : (r_th F).
Local Open Scope cr_scope.
Notation gt i p := (nth i p r0).
Variable p : list F.
Variable cx : list bool.
Notation n := (length p).
Notation alike i j := (close (gt i p) (gt j p) && Bool.eqb (nth j cx true) (nth i cx true)).
Definition gres (ig : nat * list nat) : F * nat * bool :=
  (suml F (pick r0 (snd ig) p) * rinv (rnat (length (snd ig))), length (snd ig), nth (fst ig) cx true).
Hypothesis Hrefl : forall i, (i < n)%nat -> close (gt i p) (gt i p) = true.

Lemma unique_loop_spec is : forall used, (forall i, In i is -> (i < n)%nat) ->
  (forall j, (j < n)%nat -> used j = false -> In j is) ->
  exists gs, unique_loop F close RAvg p cx is used = Ok (map gres gs) /\
    Permutation (concat (map snd gs)) (filter (fun j => negb (used j)) (seq 0 n)) /\
    (forall i g, In (i, g) gs -> In i g /\ used i = false /\ forall j, In j g -> alike i j = true) /\
    ForallOrdPairs (fun a b => alike (fst a) (fst b) = false) gs.
Proof.
  induction is as [|i is IH]; intros used Hin Hun; cbn [unique_loop].
  - exists []. split; [reflexivity|]. split; [|split; [intros ? ? []|constructor]].
    cbn [map concat]. assert (filter (fun j => negb (used j)) (seq 0 n) = []) as ->; [|constructor].
    assert (forall l, (forall j, In j l -> (j < n)%nat) -> filter (fun j => negb (used j)) l = []) as G.
    { induction l as [|j l IH]; intro Hl; [reflexivity|]. cbn [filter]. destruct (used j) eqn:E; cbn [negb].
      - apply IH. intros k Hk. apply Hl. now right.
      - destruct (Hun j (Hl j (or_introl eq_refl)) E). }
    apply G. intros j Hj. apply in_seq in Hj. lia.
  - destruct (used i) eqn:Ei.
    + apply IH; [intros; apply Hin; now right|]. intros j Hj Hu. destruct (Hun j Hj Hu) as [->|H]; [congruence|exact H].
    + cbv zeta. set (group := filter _ (seq 0 n)).
      cbn [reduction bind].
      assert (Hg : forall j, In j group <-> (j < n)%nat /\ used j = false /\ alike i j = true).
      { intro j. unfold group. rewrite filter_In, in_seq, !andb_true_iff, negb_true_iff. intuition lia. }
      set (used' := fun j => used j || existsb (Nat.eqb j) group).
      assert (Hex : forall j, existsb (Nat.eqb j) group = true <-> In j group).
      { intro j. rewrite existsb_exists. split; [intros (k & Hk & E); apply Nat.eqb_eq in E; now subst|].
        intro H. exists j. split; [exact H|apply Nat.eqb_refl]. }
      assert (Hi : (i < n)%nat) by (apply Hin; now left).
      assert (Higp : In i group).
      { apply Hg. split; [exact Hi|]. split; [exact Ei|]. rewrite Hrefl by exact Hi. cbn [andb]. apply eqb_reflx. }
      destruct (IH used') as (gs & E & HP & Hm & Ho).
      { intros j Hj. apply Hin. now right. }
      { intros j Hj Hu. unfold used' in Hu. apply orb_false_iff in Hu as [Hu Hn]. destruct (Hun j Hj Hu) as [<-|H]; [|exact H].
        apply Hex in Higp. congruence. }
      rewrite E. cbn [bind]. exists ((i, group) :: gs).
      split; [cbn [map]; unfold gres at 2; cbn [fst snd]; unfold pick at 2; now rewrite map_length|]. split; [|split].
      * cbn [map concat snd]. rewrite HP.
        rewrite (filter_split (fun j => negb (used j)) (fun j => alike i j) (seq 0 n)).
        apply Permutation_app.
        -- unfold group. rewrite (filter_ext' _ (fun j => negb (used j) && alike i j)); [reflexivity|].
           intros j _. destruct (close (gt i p) (gt j p)), (used j), (Bool.eqb (nth j cx true) (nth i cx true)); reflexivity.
        -- rewrite (filter_ext' (fun j => negb (used' j)) (fun j => negb (used j) && negb (alike i j))); [reflexivity|].
           intros j Hj. apply in_seq in Hj. unfold used'. destruct (used j) eqn:Eu; cbn [negb orb andb]; [reflexivity|].
           f_equal. apply eq_true_iff_eq. rewrite Hex, Hg. intuition lia.
      * intros i' g [Eq|H].
        -- injection Eq as <- <-. split; [exact Higp|]. split; [exact Ei|]. intros j Hj. now apply Hg in Hj.
        -- destruct (Hm i' g H) as (H1 & H2 & H3). split; [exact H1|]. split; [|exact H3]. unfold used' in H2. now apply orb_false_iff in H2.
      * constructor; [|exact Ho]. apply Forall_forall. intros [i' g] H. cbn [fst].
        destruct (Hm i' g H) as (H1 & H2 & H3). unfold used' in H2. apply orb_false_iff in H2 as [H2 H4].
        destruct (alike i i') eqn:Ea; [|reflexivity]. exfalso.
        assert (In i' group) as G; [|apply Hex in G; congruence]. apply Hg. split; [|now split].
        assert (In i' (concat (map snd gs))) as Hc.
        { apply in_concat. exists g. split; [|exact H1]. apply in_map_iff. now exists (i', g). }
        apply (Permutation_in _ HP) in Hc. apply filter_In in Hc as [Hc _]. apply in_seq in Hc. lia.
Qed.
Theorem unique_roots_spec oc : p <> [] -> cx = match oc with Some c => c | None => repeat true n end ->
  exists gs, unique_roots F close p true RAvg oc = Ok (map gres gs) /\
    Permutation (concat (map snd gs)) (seq 0 n) /\
    (forall i g, In (i, g) gs -> In i g /\ forall j, In j g -> alike i j = true) /\
    ForallOrdPairs (fun a b => alike (fst a) (fst b) = false) gs.
Proof.
  intros Hne Hcx. destruct (unique_loop_spec (seq 0 n) (fun _ => false)) as (gs & E & HP & Hm & Ho).
  { intros i Hi. apply in_seq in Hi. lia. } { intros j Hj _. apply in_seq. lia. }
  exists gs. rewrite filter_all in HP by reflexivity.
  split; [|split; [exact HP|split; [|exact Ho]]].
  - unfold unique_roots. cbv zeta. rewrite <- Hcx, E. cbn [bind].
    destruct gs as [|g gs]; [|reflexivity]. cbn in HP. apply Permutation_length in HP. rewrite seq_length in HP. cbn in HP.
    destruct p; [congruence|discriminate].
  - intros i g H. destruct (Hm i g H) as (H1 & _ & H3). now split.
Qed.
End US.

Section RES.
Variable F : cfield.
Variable z0 : F -> bool.
Hypothesis Hz0 : forall x, z0 x = true <-> x = r0.
Variable small : F -> bool.
Hypothesis Hsm : forall x, small x = true <-> x = r0.
Variable eigvals : nat -> (nat -> nat -> F) -> list F.
Variable close : F -> F -> bool.
Variable argsort : list F -> list nat.
Hypothesis Hsort : forall l, Permutation (argsort l) (seq 0 (length l)).
Hypothesis Hchar : forall m, (1 <= m)%nat -> rnat m <> r0 :> F.
Add Ring Rr2 : (r_th F).
Local Open Scope cr_scope.
Notation gt i p := (nth i p r0).
Notation ufst u := (map (fun '(p, m, _) => (p, m)) u).

Lemma mean_const (x : F) (l : list F) : l <> [] -> (forall y, In y l -> y = x) -> suml F l * rinv (rnat (length l)) = x.
Proof.
  intros Hne H. assert (suml F l = rnat (length l) * x) as ->.
  { clear Hne. induction l as [|y l IH]; [cbn; ring|]. cbn [suml length]. rewrite IH by (intros; apply H; now right).
    rewrite (H y) by now left. cbn [rnat]. ring. }
  transitivity (x * (rinv (rnat (length l)) * rnat (length l))); [ring|]. rewrite rinv_l; [ring|].
  apply Hchar. destruct l; [congruence|cbn; lia].
Qed.
(** With an exact closeness test the result is the list of distinct roots with multiplicity. *)
Lemma unique_roots_exact_gen v oc p : p <> [] -> (forall x y, In x p -> In y p -> close x y = true <-> x = y) ->
  repeat v (length p) = match oc with Some c => c | None => repeat true (length p) end ->
  exists u, unique_roots F close p true RAvg oc = Ok u /\ NoDup (map fst (ufst u)) /\
    (forall x m, In (x, m) (ufst u) -> (1 <= m)%nat) /\ Permutation (poles_of F (ufst u)) p /\ (forall x, In x u -> snd x = v).
Proof.
  intros Hne Hcl Hoc.
  assert (Hin : forall i, (i < length p)%nat -> In (gt i p) p) by (intros; now apply nth_In).
  destruct (unique_roots_spec F close p (repeat v (length p))) with (oc := oc) as (gs & E & HP & Hm & Ho).
  { intros i Hi. apply Hcl; auto. } { exact Hne. } { exact Hoc. }
  eexists. split; [exact E|].
  assert (Hcx : forall i, (i < length p)%nat -> nth i (repeat v (length p)) true = v).
  { intros i. generalize (length p). intro k. revert i. induction k; intros [|i] Hi; cbn; try lia; auto. apply IHk. lia. }
  assert (Hlt : forall i g j, In (i, g) gs -> In j g -> (j < length p)%nat).
  { intros i g j H Hj. assert (In j (concat (map snd gs))) as G.
    { apply in_concat. exists g. split; [|exact Hj]. apply in_map_iff. now exists (i, g). }
    apply (Permutation_in _ HP) in G. apply in_seq in G. lia. }
  assert (Hmem : forall i g j, In (i, g) gs -> In j g -> gt j p = gt i p).
  { intros i g j H Hj. destruct (Hm i g H) as [Hi Ha]. specialize (Ha j Hj). apply andb_true_iff in Ha as [Ha _].
    symmetry. apply Hcl; [apply Hin; eapply Hlt; eassumption|apply Hin; eapply Hlt; eassumption|exact Ha]. }
  assert (Hval : ufst (map (gres F p (repeat v (length p))) gs) = map (fun ig => (gt (fst ig) p, length (snd ig))) gs).
  { rewrite map_map. apply map_ext_in. intros [i g] H. unfold gres. cbn [fst snd]. f_equal.
    assert (length g = length (pick r0 g p)) as -> by (unfold pick; now rewrite map_length).
    destruct (Hm i g H) as [Hi _]. apply mean_const.
    - destruct g; [destruct Hi|discriminate].
    - intros y Hy. unfold pick in Hy. apply in_map_iff in Hy as (j & <- & Hj). eapply Hmem; eassumption. }
  rewrite Hval. split; [|split; [|split]].
  - rewrite map_map. cbn [fst].
    assert (Hl : forall ig, In ig gs -> (fst ig < length p)%nat).
    { intros [i g] H. destruct (Hm i g H) as [Hi _]. eapply Hlt; eassumption. }
    clear - Ho Hl Hcx Hin Hcl. induction Ho as [|a gs Ha Ho IH]; [constructor|]. cbn [map]. constructor.
    + intro H. apply in_map_iff in H as (b & Eb & Hb). rewrite Forall_forall in Ha. specialize (Ha b Hb).
      rewrite (Hcx (fst a)), (Hcx (fst b)) in Ha by (apply Hl; (now left) || now right). rewrite eqb_reflx, andb_true_r in Ha.
      assert (close (gt (fst a) p) (gt (fst b) p) = true); [|congruence].
      apply Hcl; [apply Hin, Hl; now left|apply Hin, Hl; now right|now symmetry].
    + apply IH. intros ig H. apply Hl. now right.
  - intros x m H. apply in_map_iff in H as ([i g] & Eq & H). injection Eq as <- <-. destruct (Hm i g H) as [Hi _].
    destruct g; [destruct Hi|cbn; lia].
  - assert (poles_of F (map (fun ig => (gt (fst ig) p, length (snd ig))) gs) = map (fun i => gt i p) (concat (map snd gs))) as ->.
    { unfold poles_of. rewrite map_map, concat_map, map_map. f_equal. apply map_ext_in. intros [i g] H. cbn [fst snd].
      assert (forall j, In j g -> gt j p = gt i p) as G by (intros; eapply Hmem; eassumption). clear - G.
      induction g as [|j g IH]; [reflexivity|]. cbn [length repeat map]. rewrite (G j) by now left. f_equal. apply IH. intros; apply G; now right. }
    rewrite (Permutation_map (fun i => gt i p) HP). clear.
    assert (map (fun i => gt i p) (seq 0 (length p)) = p) as ->; [|reflexivity].
    apply (nth_ext _ _ r0 r0); [now rewrite map_length, seq_length|]. intros i Hi. rewrite map_length, seq_length in Hi.
    rewrite (nth_indep _ r0 (gt 0 p)) by (rewrite map_length, seq_length; lia).
    change (gt 0 p) with ((fun i => gt i p) 0%nat). rewrite map_nth, seq_nth by lia. reflexivity.
  - intros x Hx. apply in_map_iff in Hx as ([i g] & <- & H). unfold gres. cbn [fst snd]. apply Hcx.
    destruct (Hm i g H) as [Hi _]. eapply Hlt; eassumption.
Qed.
Lemma unique_roots_exact p : p <> [] -> (forall x y, In x p -> In y p -> close x y = true <-> x = y) ->
  exists u, unique_roots F close p true RAvg None = Ok u /\ NoDup (map fst (ufst u)) /\
    (forall x m, In (x, m) (ufst u) -> (1 <= m)%nat) /\ Permutation (poles_of F (ufst u)) p.
Proof.
  intros Hne Hcl. destruct (unique_roots_exact_gen true None p Hne Hcl eq_refl) as (u & H1 & H2 & H3 & H4 & _). eauto.
Qed.
Lemma pick_perm {A} (d : A) idx (l : list A) : Permutation idx (seq 0 (length l)) -> Permutation (pick d idx l) l.
Proof.
  intro H. unfold pick. rewrite (Permutation_map (fun i => nth i l d) H). clear.
  assert (map (fun i => nth i l d) (seq 0 (length l)) = l) as ->; [|reflexivity].
  apply (nth_ext _ _ d d); [now rewrite map_length, seq_length|]. intros i Hi. rewrite map_length, seq_length in Hi.
  rewrite (nth_indep _ d (nth 0 l d)) by (rewrite map_length, seq_length; lia).
  change (nth 0 l d) with ((fun i => nth i l d) 0%nat). rewrite map_nth, seq_nth by lia. reflexivity.
Qed.
Lemma poles_of_perm l l' : Permutation l l' -> Permutation (poles_of F l) (poles_of F l').
Proof.
  intro H. unfold poles_of. induction H as [|[x m] l l' H IH|[x m] [y k] l|l1 l2 l3 H1 IH1 H2 IH2]; cbn [map concat].
  - constructor.
  - now apply Permutation_app_head.
  - rewrite !app_assoc. apply Permutation_app_tail, Permutation_app_comm.
  - now rewrite IH1.
Qed.
Lemma sorted_poles_exact p : p <> [] -> (forall x y, In x p -> In y p -> close x y = true <-> x = y) ->
  exists l, sorted_poles F close argsort RAvg p = Ok l /\ l <> [] /\ NoDup (map fst l) /\
    (forall x m, In (x, m) l -> (1 <= m)%nat) /\ Permutation (poles_of F l) p.
Proof.
  intros Hne Hcl. destruct (unique_roots_exact p Hne Hcl) as (u & E & Hnd & Hm & HP).
  assert (Hl0 : (length p <> 0)%nat) by (destruct p; [congruence|cbn; lia]).
  unfold sorted_poles. bfalse (length p =? 0)%nat.
  cbn [negb]. rewrite E. cbn [bind]. eexists. split; [reflexivity|].
  set (l := pick (r0, 0%nat) _ _).
  assert (Pl : Permutation l (ufst u)). { apply pick_perm. rewrite map_length, <- (map_length (fun '(p, _, _) => p) u). apply Hsort. }
  split; [|split; [|split]].
  - intro Z. rewrite Z in Pl. apply Permutation_nil in Pl. rewrite Pl in HP. cbn in HP. apply Permutation_nil in HP. congruence.
  - apply (Permutation_NoDup (l := map fst (ufst u))); [|exact Hnd]. apply Permutation_map. now symmetry.
  - intros x m H. apply (Hm x). now apply (Permutation_in _ Pl).
  - now rewrite (poles_of_perm _ _ Pl).
Qed.

(** ** roots with multiplicity *)
Definition eig_exact (P : list F) (l : list F) : Prop :=
  length l = (length P - 1)%nat /\ forall z, leval P z = gt 0 P * rootprod l z.
Lemma rootprod_app L M (z : F) : rootprod (L ++ M) z = rootprod L z * rootprod M z.
Proof. exact (evprod_app F L M z). Qed.
Lemma rootprod_zeros n (z : F) : rootprod (repeat 0 n) z = rpow z n.
Proof. induction n as [|n IH]; [reflexivity|]. cbn [repeat rootprod fold_right rpow]. fold (rootprod (repeat 0 n) z). rewrite IH. ring. Qed.
Lemma roots_factor (a : list F) i j : (i < j < length a)%nat -> gt i a <> 0 -> gt j a <> 0 ->
  (forall k, (k < i \/ j < k)%nat -> gt k a = 0) ->
  (let P := skipn i (firstn (j + 1) a) in eig_exact P (eigvals (j - i)%nat (companion_of P))) ->
  exists rts, roots z0 eigvals a = Ok rts /\ length rts = (length a - 1 - i)%nat /\
    forall z, leval a z = gt i a * rootprod rts z.
Proof.
  intros Hij Hi Hj Hk He. cbv zeta in He.
  destruct (roots_form F z0 Hz0 eigvals a i j Hij Hi Hj Hk) as (E & HPl & HP0 & _ & Hval).
  set (P := skipn i (firstn (j + 1) a)) in *. destruct He as [Hel Hev].
  eexists. split; [exact E|]. split; [rewrite app_length, repeat_length, Hel, HPl; lia|].
  intro z. rewrite Hval, Hev, HP0, rootprod_app, rootprod_zeros. ring.
Qed.

(** ** residue *)
Notation const N := (length (trim_zeros z0 N) =? 1)%nat.
Definition rem_of (b a : list F) : list F * list F :=
  if (length b <? length a)%nat then ([], b) else proto_polydiv z0 small b a.
Lemma rem_of_spec b a : (1 <= length a)%nat -> gt 0 a <> 0 -> exists k N, rem_of b a = (k, N) /\
  deg F (length a - 1) (lcoef N) /\ forall z, leval b z = leval k z * leval a z + leval N z.
Proof.
  intros Hl Ha. unfold rem_of. destruct (length b <? length a)%nat eqn:E.
  - apply Nat.ltb_lt in E. exists [], b. split; [reflexivity|]. split.
    + intros k Hk. apply lcoef_high. lia.
    + intro z. unfold leval at 2. cbn. ring.
  - destruct (proto_polydiv_spec F z0 Hz0 small b a (length a - 1)) as (q & n & ds & Ed & Hds & H1 & H2).
    { now apply Hsm. }
    { rewrite gt_lcoef in Ha by lia. now rewrite Nat.sub_0_r in Ha. }
    { intros k Hk. apply lcoef_high. lia. }
    exists q, n. split; [exact Ed|]. split; [exact H2|]. intro z.
    assert (Hds0 : ds = repeat 0 (length ds)).
    { clear - Hds Hsm. induction Hds as [|x ds Hx _ IH]; [reflexivity|]. cbn. apply Hsm in Hx as ->. now rewrite <- IH. }
    rewrite <- (leval_prod F (polymul z0 q a) q a z (polymul_coef F z0 Hz0 q a)).
    rewrite (leval_ext F b (polyadd (polymul z0 q a) n) z).
    + set (N := (length (polyadd (polymul z0 q a) n) + length (polymul z0 q a) + length n)%nat).
      rewrite (leval_coef F _ N), (leval_coef F (polymul z0 q a) N), (leval_coef F n N) by (unfold N; lia).
      rewrite <- bsum_add. apply bsum_ext. intros i Hi. unfold polyadd. rewrite poly_pw_coef by ring. ring.
    + intro k. unfold polyadd. rewrite poly_pw_coef by ring. rewrite H1, (polymul_coef F z0 Hz0), Hds0, lcoef_zeros. reflexivity.
Qed.
Definition scaleB (c : F) (B : list (F * list F)) : list (F * list F) := map (fun b => (fst b, map (fun x => x * c) (snd b))) B.
Lemma pfe_val_scale c B z : pfe_val (scaleB c B) z = pfe_val B z * c.
Proof.
  induction B as [|[p rs] B IH]; [cbn; ring|]. unfold pfe_val, scaleB. cbn [map fold_right].
  fold (scaleB c B). fold (pfe_val (scaleB c B) z). fold (pfe_val B z). rewrite IH. cbn [fst snd]. rewrite map_length.
  transitivity (bsum (length rs) (fun j => gt j rs * rinv (rpow (z - p) (S j))) * c + pfe_val B z * c); [|ring].
  f_equal. rewrite <- bsum_mul_r. apply bsum_ext. intros j Hj.
  rewrite (nth_indep _ 0 (0 * c)) by (rewrite map_length; lia). rewrite (map_nth (fun x => x * c)). ring.
Qed.
Lemma scaleB_sz c B : map (sz F) (scaleB c B) = map (sz F) B.
Proof. unfold scaleB. rewrite map_map. apply map_ext. intros [p rs]. unfold sz. cbn. now rewrite map_length. Qed.
Lemma scaleB_res c B : pfe_res (scaleB c B) = map (fun x => x * c) (pfe_res B).
Proof. unfold pfe_res, scaleB. rewrite map_map, concat_map, map_map. reflexivity. Qed.
Lemma sz_poles B : poles_of F (map (sz F) B) = pfe_poles B.
Proof. apply poles_of_sz. Qed.

Theorem residue_core b a rts : (1 <= length b)%nat -> (2 <= length a)%nat -> gt 0 a <> 0 ->
  roots z0 eigvals a = Ok rts -> length rts = (length a - 1)%nat -> (forall z, leval a z = gt 0 a * rootprod rts z) ->
  (forall x y, In x rts -> In y rts -> close x y = true <-> x = y) ->
  exists ts B, let '(k, N) := rem_of b a in
    residue F z0 small eigvals close argsort b a RAvg =
      bind (stack 0 ts) (fun y => Ok (tmap (fun x => x * rinv (gt 0 a)) y, pfe_poles B, k)) /\
    ts <> [] /\ NoDup (map fst B) /\ Permutation (pfe_poles B) rts /\ (forall b, In b B -> snd b <> []) /\
    Forall2 (fun t vm => isv F t (vshape F z0 N (length B =? 1)%nat (snd vm)) (fst vm)) ts (tagged F B) /\
    forall z, ~ In z rts -> leval b z = leval a z * (leval k z + pfe_val (scaleB (rinv (gt 0 a)) B) z).
Proof.
  intros Hb Ha Ha0 Er Hlr Hfac Hcl.
  assert (Hr : rts <> []) by (intros ->; cbn in Hlr; lia).
  destruct (sorted_poles_exact rts Hr Hcl) as (l & El & Hne & Hnd & Hm & HP).
  destruct (rem_of_spec b a ltac:(lia) Ha0) as (k & N & EN & HN & Hdiv).
  destruct (compute_residues_spec F z0 Hz0 small Hsm l N Hne Hnd Hm) as (ts & B & Ec & HB & Hv & Hid).
  exists ts, B. rewrite EN.
  assert (HBl : length B = length l) by (rewrite <- HB; now rewrite map_length).
  assert (HBf : map fst B = map fst l) by (rewrite <- HB, map_map; reflexivity).
  assert (HPB : Permutation (pfe_poles B) rts) by (rewrite <- sz_poles, HB; exact HP).
  assert (Hsnd : forall b, In b B -> snd b <> []).
  { intros [p rs] Hin. cbn. intros ->. specialize (Hm p 0%nat). assert (1 <= 0)%nat; [|lia]. apply Hm. rewrite <- HB.
    change (p, 0%nat) with (sz F (p, [])). now apply in_map. }
  split; [|split; [|split; [|split; [|split; [|split]]]]].
  - unfold residue. bfalse (length b =? 0)%nat. bfalse (length a =? 0)%nat. cbn [negb andb]. rewrite Er. cbn [bind].
    change (if (length b <? length a)%nat then ([], b) else proto_polydiv z0 small b a) with (rem_of b a).
    rewrite EN, El. cbn [bind]. rewrite Ec. destruct (stack 0 ts); [|reflexivity]. cbn [bind].
    rewrite <- sz_poles, HB. reflexivity.
  - intros ->. inversion Hv as [Hv'|]. unfold tagged in Hv'. symmetry in Hv'. destruct B as [|[p [|x rs]] B]; [|now apply (Hsnd (p, []) (or_introl eq_refl))|discriminate].
    destruct l; [congruence|discriminate].
  - now rewrite HBf.
  - exact HPB.
  - exact Hsnd.
  - now rewrite HBl.
  - intros z Hz. rewrite Hdiv. rewrite Hid.
    + rewrite pfe_val_scale, Hfac. change (evprod F (pfe_poles B) z) with (rootprod (pfe_poles B) z).
      assert (rootprod (pfe_poles B) z = rootprod rts z) as ->. { exact (evprod_perm F _ _ z HPB). }
      transitivity (leval k z * (gt 0 a * rootprod rts z) + rootprod rts z * pfe_val B z * (rinv (gt 0 a) * gt 0 a)); [|ring].
      rewrite rinv_l by exact Ha0. ring.
    + rewrite (Permutation_length HPB), Hlr. exact HN.
    + intros p Hp ->. apply Hz. apply (Permutation_in _ HPB). rewrite <- HBf in Hp. apply in_map_iff in Hp as ([q rs] & <- & Hin).
      unfold pfe_poles. apply in_concat. exists (repeat q (length rs)). split.
      * apply in_map_iff. now exists (q, rs).
      * specialize (Hsnd _ Hin). cbn in Hsnd. destruct rs; [congruence|]. now left.
Qed.

(** ** Shapes of the residues *)
Lemma pfe_poles_mid (B1 B2 : list (F * list F)) x rs :
  Permutation (pfe_poles (B1 ++ (x, rs) :: B2)) (repeat x (length rs) ++ pfe_poles (B1 ++ B2)).
Proof.
  rewrite <- !sz_poles, !map_app. cbn [map]. unfold sz at 2. cbn [fst snd]. symmetry. apply poles_of_len_mid.
Qed.
Lemma pfe_poles_in (B : list (F * list F)) x : In x (pfe_poles B) -> exists rs, In (x, rs) B /\ rs <> [].
Proof.
  unfold pfe_poles. intro H. apply in_concat in H as (g & Hg & Hx). apply in_map_iff in Hg as ([q rs] & <- & Hin).
  cbn [fst snd] in Hx. pose proof (repeat_spec _ _ _ Hx) as ->. exists rs. split; [exact Hin|]. intros ->. destruct Hx.
Qed.
Lemma nodup_mid (B1 B2 : list (F * list F)) x rs : NoDup (map fst (B1 ++ (x, rs) :: B2)) -> ~ In x (pfe_poles (B1 ++ B2)).
Proof.
  intros Hnd Hx. apply pfe_poles_in in Hx as (rs' & Hin & _). rewrite map_app in Hnd. cbn [map fst] in Hnd.
  apply NoDup_remove_2 in Hnd. apply Hnd. rewrite <- map_app. change x with (fst (x, rs')). now apply in_map.
Qed.
Section Shapes.
Variables (B : list (F * list F)) (rts : list F).
Hypothesis Hnd : NoDup (map fst B).
Hypothesis HP : Permutation (pfe_poles B) rts.
Hypothesis Hsnd : forall b, In b B -> snd b <> [].
Lemma block_one x rs : In (x, rs) B -> length rs = 1%nat -> exists r, Permutation rts (x :: r) /\ ~ In x r.
Proof.
  intros Hin Hl. apply in_split in Hin as (B1 & B2 & EB). rewrite EB in HP, Hnd. exists (pfe_poles (B1 ++ B2)). split.
  - rewrite <- HP, pfe_poles_mid, Hl. reflexivity.
  - now apply nodup_mid in Hnd.
Qed.
Lemma block_more x rs : In (x, rs) B -> (2 <= length rs)%nat -> exists r, Permutation rts (x :: x :: r).
Proof.
  intros Hin Hl. apply in_split in Hin as (B1 & B2 & EB). rewrite EB in HP.
  exists (repeat x (length rs - 2) ++ pfe_poles (B1 ++ B2)). rewrite <- HP, pfe_poles_mid.
  destruct (length rs) as [|[|m]]; [lia|lia|]. cbn [Nat.sub repeat app]. rewrite Nat.sub_0_r. reflexivity.
Qed.
Lemma blocks_repeated : (forall x r, Permutation rts (x :: r) -> In x r) -> forall b, In b B -> (2 <= length (snd b))%nat.
Proof.
  intros H [x rs] Hin. cbn. pose proof (Hsnd _ Hin) as Hn. cbn in Hn. destruct rs as [|v [|v2 rs]]; [congruence| |cbn; lia].
  destruct (block_one x [v] Hin eq_refl) as (r & Hr & Hx). destruct (Hx (H x r Hr)).
Qed.
Lemma blocks_simple : NoDup rts -> forall b, In b B -> length (snd b) = 1%nat.
Proof.
  intros H [x rs] Hin. cbn. pose proof (Hsnd _ Hin) as Hn. cbn in Hn. destruct rs as [|v [|v2 rs]]; [congruence|reflexivity|].
  destruct (block_more x _ Hin) as (r & Hr); [cbn; lia|]. apply (Permutation_NoDup Hr) in H. inversion H as [|? ? Hx _]. destruct Hx. now left.
Qed.
Lemma blocks_two x y : In x rts -> In y rts -> x <> y -> length B <> 1%nat.
Proof.
  intros Hx Hy Hne Hl. symmetry in HP. apply (Permutation_in _ HP) in Hx, Hy.
  apply pfe_poles_in in Hx as (rs & Hx & _), Hy as (rs' & Hy & _).
  destruct B as [|b [|b2 B']]; try discriminate. destruct Hx as [->|[]], Hy as [Hy|[]]. congruence.
Qed.
Lemma block_simple_ex x r : Permutation rts (x :: r) -> ~ In x r -> exists rs, In (x, rs) B /\ length rs = 1%nat.
Proof.
  intros Hr Hx. assert (In x rts) as Hin by (apply (Permutation_in _ (Permutation_sym Hr)); now left).
  apply (Permutation_in _ (Permutation_sym HP)) in Hin. apply pfe_poles_in in Hin as (rs & Hin & Hn). exists rs. split; [exact Hin|].
  destruct rs as [|v [|v2 rs]]; [congruence|reflexivity|]. exfalso.
  destruct (block_more x _ Hin) as (r' & Hr'); [cbn; lia|]. rewrite Hr in Hr'. apply Permutation_cons_inv in Hr'.
  apply Hx, (Permutation_in _ (Permutation_sym Hr')). now left.
Qed.
Lemma block_double_ex x r : Permutation rts (x :: x :: r) -> exists rs, In (x, rs) B /\ (2 <= length rs)%nat.
Proof.
  intros Hr. assert (In x rts) as Hin by (apply (Permutation_in _ (Permutation_sym Hr)); now left).
  apply (Permutation_in _ (Permutation_sym HP)) in Hin. apply pfe_poles_in in Hin as (rs & Hin & Hn). exists rs. split; [exact Hin|].
  destruct rs as [|v [|v2 rs]]; [congruence| |cbn; lia]. exfalso.
  destruct (block_one x _ Hin eq_refl) as (r' & Hr' & Hx). apply Hx. rewrite Hr in Hr'. apply Permutation_cons_inv in Hr'.
  apply (Permutation_in _ Hr'). now left.
Qed.
End Shapes.
Lemma tagged_fst B : map fst (tagged F B) = pfe_res B.
Proof. unfold tagged, pfe_res. rewrite concat_map, map_map. f_equal. apply map_ext. intros [p rs]. cbn. rewrite map_map. cbn. apply map_id. Qed.
Lemma tagged_in B v m : In (v, m) (tagged F B) -> exists b, In b B /\ m = length (snd b).
Proof.
  unfold tagged. intro H. apply in_concat in H as (g & Hg & Hx). apply in_map_iff in Hg as (b & <- & Hin).
  apply in_map_iff in Hx as (v' & E & _). injection E as _ <-. now exists b.
Qed.
Lemma in_tagged B b : In b B -> snd b <> [] -> exists v, In (v, length (snd b)) (tagged F B).
Proof.
  intros Hin Hn. destruct b as [p [|v rs]]; [now destruct Hn|]. exists v. unfold tagged. apply in_concat.
  exists (map (fun x => (x, length (v :: rs))) (v :: rs)). split; [|now left]. apply in_map_iff. now exists (p, v :: rs).
Qed.
Lemma Forall2_shape N single s ts l : Forall2 (fun t vm => isv F t (vshape F z0 N single (snd vm)) (fst vm)) ts l ->
  (forall v m, In (v, m) l -> vshape F z0 N single m = s) -> Forall2 (fun t v => isv F t s v) ts (map fst l).
Proof.
  induction 1 as [|t [v m] ts l Ht H IH]; intro Hs; cbn [map fst]; constructor.
  - cbn [fst snd] in Ht. now rewrite (Hs v m) in Ht by now left.
  - apply IH. intros v' m' Hin. apply (Hs v'). now right.
Qed.
Lemma Forall2_in {A C} (P : A -> C -> Prop) ts l x : Forall2 P ts l -> In x l -> exists t, In t ts /\ P t x.
Proof. induction 1 as [|t y ts l Ht H IH]; intros []; [subst; exists t; split; [now left|exact Ht]|]. destruct (IH H0) as (t' & H1 & H2). exists t'. split; [now right|exact H2]. Qed.
Lemma stack_mixed (ts : list (tensor F)) t u : In t ts -> In u ts -> shape t <> shape u -> stack 0 ts = Err RuntimeError.
Proof.
  intros Ht Hu Hne. destruct ts as [|h ts]; [destruct Ht|]. unfold stack.
  destruct (forallb (fun u => list_eqb (shape u) (shape h)) ts) eqn:E; [|reflexivity]. exfalso. rewrite forallb_forall in E.
  assert (forall x, In x (h :: ts) -> shape x = shape h) as G.
  { intros x [<-|Hx]; [reflexivity|]. apply E in Hx. now apply list_eqb_eq in Hx. }
  apply Hne. now rewrite (G t Ht), (G u Hu).
Qed.
Lemma const_false N : (exists k, (1 <= k)%nat /\ lcoef N k <> 0) -> const N = false.
Proof.
  intros (k & Hk & H). apply Nat.eqb_neq. intro E. apply H. rewrite <- (trim_coef F z0 Hz0). apply lcoef_high. lia.
Qed.
Lemma const_true N : (forall k, (1 <= k)%nat -> lcoef N k = 0) -> const N = true.
Proof.
  intro H. apply Nat.eqb_eq. pose proof (trim_len F z0 Hz0 N) as Hl.
  destruct (trim_lead F z0 Hz0 N) as [[E _]|E]; [now rewrite E|]. destruct (length (trim_zeros z0 N)) as [|[|m]] eqn:El; [lia|reflexivity|].
  exfalso. apply E. rewrite gt_lcoef by lia. rewrite (trim_coef F z0 Hz0). apply H. lia.
Qed.

(** ** residuez *)
Lemma leval_zval (b : list F) w : leval (rev b) w = zval b w.
Proof.
  unfold leval, peval, zval. rewrite rev_length, bsum_rev. apply bsum_ext. intros i Hi. rewrite rev_nth by lia.
  replace (length b - S (length b - 1 - i))%nat with i by lia. do 2 f_equal. lia.
Qed.
Lemma leval_rev (a : list F) w : w <> 0 -> leval (rev a) w = rpow w (length a - 1) * leval a (rinv w).
Proof.
  intro Hw. unfold leval, peval. rewrite rev_length, <- bsum_mul_l, bsum_rev. apply bsum_ext. intros i Hi.
  rewrite rev_nth by lia. replace (length a - S (length a - 1 - i))%nat with i by lia.
  replace (length a - 1 - (length a - 1 - i))%nat with i by lia.
  replace (rpow w (length a - 1)) with (rpow w i * rpow w (length a - 1 - i)) by (rewrite <- rpow_add; f_equal; lia).
  assert (forall n, rpow w n * rpow (rinv w) n = 1) as G.
  { induction n as [|n IH]; cbn [rpow]; [ring|]. transitivity ((rinv w * w) * (rpow w n * rpow (rinv w) n)); [ring|]. rewrite IH, rinv_l by exact Hw. ring. }
  transitivity (gt i a * rpow w i * (rpow w (length a - 1 - i) * rpow (rinv w) (length a - 1 - i))); [rewrite G; ring|ring].
Qed.
Lemma leval_at0 (a : list F) : (1 <= length a)%nat -> leval a 0 = gt (length a - 1) a.
Proof.
  intro H. unfold leval, peval. rewrite (bsum_rev (length a)).
  destruct (length a) as [|m] eqn:E; [lia|]. rewrite bsum_S_l. rewrite bsum_0.
  - replace (S m - 1 - (S m - 1 - 0))%nat with 0%nat by lia. replace (S m - 1 - 0)%nat with (S m - 1)%nat by lia. cbn [rpow]. ring.
  - intros i Hi. replace (S m - 1 - (S m - 1 - S i))%nat with (S i) by lia. cbn [rpow]. ring.
Qed.
Lemma rootprod_rev (rts : list F) w : w <> 0 -> (forall x, In x rts -> x <> 0) ->
  rpow w (length rts) * rootprod rts (rinv w) = rootprod rts 0 * rootprod (map rinv rts) w.
Proof.
  intros Hw. induction rts as [|x rts IH]; intro Hx; [cbn; ring|].
  cbn [length rpow map rootprod fold_right]. fold (rootprod rts (rinv w)). fold (rootprod rts 0). fold (rootprod (map rinv rts) w).
  transitivity ((w * (rinv w - x)) * (rpow w (length rts) * rootprod rts (rinv w))); [ring|].
  rewrite IH by (intros; apply Hx; now right).
  transitivity ((rinv w * w - w * x) * (rootprod rts 0 * rootprod (map rinv rts) w)); [ring|].
  transitivity ((rinv x * x - w * x) * (rootprod rts 0 * rootprod (map rinv rts) w)); [|ring].
  rewrite !rinv_l; [reflexivity|apply Hx; now left|exact Hw].
Qed.
Lemma rev_factor (a rts : list F) : (1 <= length a)%nat -> length rts = (length a - 1)%nat ->
  (forall z, leval a z = gt 0 a * rootprod rts z) -> gt (length a - 1) a <> 0 ->
  (forall x, In x rts -> x <> 0) /\ forall w, leval (rev a) w = gt (length a - 1) a * rootprod (map rinv rts) w.
Proof.
  intros Hl Hr Hf Hn. assert (Hx : forall x, In x rts -> x <> 0).
  { intros x Hin ->. apply Hn. rewrite <- leval_at0 by exact Hl. rewrite Hf.
    apply in_split in Hin as (l1 & l2 & ->). rewrite rootprod_app. cbn [rootprod fold_right]. ring. }
  split; [exact Hx|].
  assert (Hn0 : gt (length a - 1) a = gt 0 a * rootprod rts 0) by now rewrite <- (leval_at0 a Hl).
  assert (H1 : rootprod rts 0 * rootprod (map rinv rts) 0 = 1).
  { clear - Hx. induction rts as [|x l IH]; [cbn; ring|]. cbn [map rootprod fold_right]. fold (rootprod l 0). fold (rootprod (map rinv l) 0).
    transitivity ((rinv x * x) * (rootprod l 0 * rootprod (map rinv l) 0)); [ring|].
    rewrite rinv_l by (apply Hx; now left). rewrite IH by (intros; apply Hx; now right). ring. }
  intro w. destruct (z0 w) eqn:E.
  - apply Hz0 in E as ->. rewrite leval_at0 by (rewrite rev_length; lia). rewrite rev_length, rev_nth by lia.
    replace (length a - S (length a - 1))%nat with 0%nat by lia. rewrite Hn0.
    transitivity (gt 0 a * (rootprod rts 0 * rootprod (map rinv rts) 0)); [rewrite H1; ring|ring].
  - assert (Hw : w <> 0) by (intro Z; apply Hz0 in Z; congruence).
    rewrite leval_rev by exact Hw. rewrite Hf.
    transitivity (gt 0 a * (rpow w (length rts) * rootprod rts (rinv w))); [rewrite Hr; ring|].
    rewrite rootprod_rev by assumption. rewrite Hn0. ring.
Qed.
Lemma rinv_ne0 (x : F) : x <> 0 -> rinv x <> 0.
Proof. intros H E. apply (@r1_neq_r0 F). rewrite <- (rinv_l x H), E. ring. Qed.
Lemma rinv_inv (x : F) : x <> 0 -> rinv (rinv x) = x.
Proof.
  intro H. transitivity (rinv (rinv x) * (rinv x * x)); [rewrite rinv_l by exact H; ring|].
  transitivity ((rinv (rinv x) * rinv x) * x); [ring|]. rewrite rinv_l by now apply rinv_ne0. ring.
Qed.
(** The blocks of residuez, from the blocks (in w, pole 1/p) of _compute_residues. *)
Definition zblock (c : F) (b : F * list F) : F * list F :=
  (rinv (fst b), tab (length (snd b)) (fun j => gt j (snd b) * rpow (- rinv (fst b)) (S j) * c)).
Lemma rpow_inv_mul (x y : F) n : x <> 0 -> y <> 0 -> rinv (rpow (x * y) n) = rpow (rinv x) n * rinv (rpow y n).
Proof.
  intros Hx Hy. assert (rpow (x * y) n = rpow x n * rpow y n) as ->.
  { induction n as [|n IH]; cbn [rpow]; [ring|]. rewrite IH. ring. }
  assert (rpow (rinv x) n * rpow x n = 1) as G.
  { induction n as [|n IH]; cbn [rpow]; [ring|]. transitivity ((rinv x * x) * (rpow (rinv x) n * rpow x n)); [ring|]. rewrite IH, rinv_l by exact Hx. ring. }
  assert (Hxn : rpow x n <> 0) by now apply rpow_ne0. assert (Hyn : rpow y n <> 0) by now apply rpow_ne0.
  assert (Hxy : rpow x n * rpow y n <> 0) by now apply mul_ne0.
  transitivity (rinv (rpow x n * rpow y n) * ((rpow (rinv x) n * rpow x n) * (rinv (rpow y n) * rpow y n))).
  { rewrite G, rinv_l by exact Hyn. ring. }
  transitivity ((rinv (rpow x n * rpow y n) * (rpow x n * rpow y n)) * (rpow (rinv x) n * rinv (rpow y n))); [ring|].
  rewrite rinv_l by exact Hxy. ring.
Qed.
Lemma zblock_val c B w : (forall b, In b B -> fst b <> 0 /\ w <> fst b) ->
  pfez_val (map (zblock c) B) w = pfe_val B w * c.
Proof.
  induction B as [|[q rs] B IH]; intro H; [cbn; ring|]. unfold pfez_val, pfe_val. cbn [map fold_right].
  fold (pfez_val (map (zblock c) B) w). fold (pfe_val B w). rewrite IH by (intros; apply H; now right).
  destruct (H (q, rs) (or_introl eq_refl)) as [Hq Hw]. cbn [fst snd zblock]. cbn [fst] in Hq, Hw. rewrite tab_length.
  transitivity (bsum (length rs) (fun j => gt j rs * rinv (rpow (w - q) (S j))) * c + pfe_val B w * c); [|ring].
  f_equal. rewrite <- bsum_mul_r. apply bsum_ext. intros j Hj. rewrite tab_nth by exact Hj.
  assert (Hiq : rinv q <> 0) by now apply rinv_ne0.
  assert (w - q = rinv (- rinv q) * (1 - rinv q * w)) as Ew.
  { assert (rinv (- rinv q) = - q) as ->.
    { transitivity (rinv (- rinv q) * (rinv q * q)); [rewrite rinv_l by exact Hq; ring|].
      transitivity (- ((rinv (- rinv q) * (- rinv q)) * q)); [ring|]. rewrite rinv_l; [ring|]. intro Z. apply Hiq.
      transitivity (- - rinv q); [ring|]. rewrite Z. ring. }
    transitivity (- q * 1 + (rinv q * q) * w); [rewrite rinv_l by exact Hq; ring|ring]. }
  assert (Hmiq : - rinv q <> 0). { intro Z. apply Hiq. transitivity (- - rinv q); [ring|]. rewrite Z. ring. }
  rewrite Ew, rpow_inv_mul.
  - rewrite rinv_inv by exact Hmiq. ring.
  - now apply rinv_ne0.
  - intro Z. apply (sub_ne0 F w q Hw). rewrite Ew, Z. ring.
Qed.
Definition zfac (l : list (F * nat)) : list F :=
  map (fun '(p, j) => rpow (- p) j) (combine (repeat_poles F l) (concat (map (fun '(_, m) => seq 1 m) l))).
Lemma zblock_res c B l : map (sz F) B = map (fun '(p, m) => (rinv p, m)) l -> (forall p m, In (p, m) l -> p <> 0) ->
  length (zfac l) = length (pfe_res B) /\
  pfe_res (map (zblock c) B) = map (fun '(x, y) => x * y * c) (combine (pfe_res B) (zfac l)).
Proof.
  unfold zfac, repeat_poles, pfe_res. revert B. induction l as [|[p m] l IH]; intros [|[q rs] B] HB Hp; try discriminate.
  - split; reflexivity.
  - cbn [map] in HB. unfold sz at 1 in HB. cbn [fst snd] in HB. injection HB as Hq Hm HB. subst q m.
    destruct (IH B HB) as [H1 H2]; [intros; eapply Hp; right; eassumption|]. clear IH.
    assert (Hpn : p <> 0) by (eapply Hp; now left). cbn [map concat fst snd zblock].
    assert (forall {A C} (a a' : list A) (b b' : list C), length a = length b -> combine (a ++ a') (b ++ b') = combine a b ++ combine a' b') as Hca.
    { clear. induction a as [|x a IH]; intros a' [|y b] b' H; try discriminate; [reflexivity|]. cbn. f_equal. apply IH. now injection H. }
    rewrite (Hca _ _ (repeat p (length rs))) by now rewrite repeat_length, seq_length.
    rewrite map_app. split.
    { rewrite !app_length, H1, map_length, combine_length, repeat_length, seq_length. lia. }
    rewrite H2. rewrite Hca, map_app by (rewrite map_length, combine_length, repeat_length, seq_length; lia).
    f_equal. rewrite rinv_inv by exact Hpn. clear.
    assert (forall k, tab (length rs) (fun j => gt j rs * rpow (- p) (k + j) * c) =
      map (fun '(x, y) => x * y * c) (combine rs (map (fun '(p, j) => rpow (- p) j) (combine (repeat p (length rs)) (seq k (length rs)))))) as G.
    { induction rs as [|x rs IH]; intro k; [reflexivity|]. cbn [length repeat seq combine map].
      unfold tab in *. cbn [seq map]. rewrite <- seq_shift, map_map. f_equal; [cbn [nth]; now rewrite Nat.add_0_r|].
      rewrite <- IH. apply map_ext. intro j. cbn [nth]. do 3 f_equal. lia. }
    exact (G 1%nat).
Qed.
Theorem residuez_core b a rts : (1 <= length b)%nat -> (2 <= length a)%nat -> gt (length a - 1) a <> 0 ->
  roots z0 eigvals a = Ok rts -> length rts = (length a - 1)%nat -> (forall z, leval a z = gt 0 a * rootprod rts z) ->
  (forall x y, In x rts -> In y rts -> close x y = true <-> x = y) ->
  exists ts B fac, let '(k, N) := rem_of (rev b) (rev a) in let E := map (zblock (rinv (gt (length a - 1) a))) B in
    residuez F z0 small eigvals close argsort b a RAvg =
      bind (stack 0 ts) (fun y => bind (tmul y (lst1 r0 fac)) (fun y =>
        Ok (tmap (fun x => x * rinv (gt (length a - 1) a)) y, pfe_poles E, rev k))) /\
    ts <> [] /\ NoDup (map fst E) /\ Permutation (pfe_poles E) rts /\ (forall b, In b E -> snd b <> []) /\
    Forall2 (fun t vm => isv F t (vshape F z0 N (length E =? 1)%nat (snd vm)) (fst vm)) ts (tagged F B) /\
    length fac = length (pfe_res B) /\
    pfe_res E = map (fun '(x, y) => x * y * rinv (gt (length a - 1) a)) (combine (pfe_res B) fac) /\
    map (fun b => length (snd b)) E = map (fun b => length (snd b)) B /\
    forall w, (forall x, In x rts -> x * w <> 1) ->
      leval (rev b) w = leval (rev a) w * (leval k w + pfez_val E w).
Proof.
  intros Hb Ha Han Er Hlr Hfac Hcl. set (an := gt (length a - 1) a) in *.
  assert (Hr : rts <> []) by (intros ->; cbn in Hlr; lia).
  destruct (rev_factor a rts ltac:(lia) Hlr Hfac Han) as [Hnz Hrev]. fold an in Hrev.
  destruct (sorted_poles_exact rts Hr Hcl) as (l & El & Hne & Hnd & Hm & HP).
  assert (Hra : gt 0 (rev a) = an). { unfold an. rewrite rev_nth by lia. reflexivity. }
  destruct (rem_of_spec (rev b) (rev a)) as (k & N & EN & HN & Hdiv); [rewrite rev_length; lia|now rewrite Hra|].
  rewrite rev_length in HN.
  assert (Hlnz : forall p m, In (p, m) l -> p <> 0).
  { intros p m Hin. apply Hnz. apply (Permutation_in _ HP). unfold poles_of. apply in_concat. exists (repeat p m). split.
    - apply in_map_iff. now exists (p, m).
    - specialize (Hm p m Hin). destruct m; [lia|now left]. }
  set (l' := map (fun '(p, m) => (rinv p, m)) l).
  assert (Hf' : map fst l' = map rinv (map fst l)) by (unfold l'; rewrite !map_map; apply map_ext; now intros []).
  destruct (compute_residues_spec F z0 Hz0 small Hsm l' N) as (ts & B & Ec & HB & Hv & Hid).
  { unfold l'. destruct l; [congruence|discriminate]. }
  { rewrite Hf'. assert (Hall : forall x, In x (map fst l) -> x <> 0) by (intros x Hx; apply in_map_iff in Hx as ([p m] & <- & Hin); cbn; eapply Hlnz; eassumption).
    clear - Hnd Hall. induction Hnd as [|x L Hx Hnd IH]; [constructor|]. cbn [map]. constructor; [|apply IH; intros; apply Hall; now right].
    intro H. apply in_map_iff in H as (y & Ey & Hy). apply Hx.
    assert (x = y) as ->; [|exact Hy]. rewrite <- (rinv_inv x), <- (rinv_inv y), Ey; [reflexivity|apply Hall; now right|apply Hall; now left]. }
  { intros p m Hin. unfold l' in Hin. apply in_map_iff in Hin as ([p0 m0] & Eq & Hin). injection Eq as <- <-. eapply Hm; eassumption. }
  exists ts, B, (zfac l). rewrite EN. cbv zeta.
  destruct (zblock_res (rinv an) B l HB Hlnz) as [Hzl Hzr].
  set (E := map (zblock (rinv an)) B) in *.
  assert (HEsz : map (sz F) E = l).
  { unfold E. rewrite map_map.
    transitivity (map (fun pm => (rinv (fst pm), snd pm)) (map (sz F) B)).
    - rewrite map_map. apply map_ext. intros [q rs]. unfold sz, zblock. cbn [fst snd]. now rewrite tab_length.
    - rewrite HB. unfold l'. rewrite map_map. rewrite <- (map_id l) at 2. apply map_ext_in. intros [p m] Hin. cbn. now rewrite (rinv_inv p) by (eapply Hlnz; eassumption). }
  assert (HEl : length E = length l') by (unfold E; rewrite map_length, <- (map_length (sz F) B), HB; reflexivity).
  assert (HEp : pfe_poles E = poles_of F l) by now rewrite <- sz_poles, HEsz.
  assert (Hsnd : forall b, In b E -> snd b <> []).
  { intros [p rs] Hin. cbn. intros ->. specialize (Hm p 0%nat). assert (1 <= 0)%nat; [|lia]. apply Hm. rewrite <- HEsz.
    change (p, 0%nat) with (sz F (p, [])). now apply in_map. }
  split; [|split; [|split; [|split; [|split; [|split; [|split; [|split; [|split]]]]]]]].
  - unfold residuez. bfalse (length b =? 0)%nat. bfalse (length a =? 0)%nat. cbn [negb andb]. rewrite Er. cbn [bind].
    change (if (length (rev b) <? length (rev a))%nat then ([], rev b) else proto_polydiv z0 small (rev b) (rev a)) with (rem_of (rev b) (rev a)).
    rewrite EN, El. cbn [bind]. fold l'. rewrite Ec. destruct (stack 0 ts); [|reflexivity]. cbn [bind].
    rewrite Hra, HEp. reflexivity.
  - intros ->. inversion Hv as [Hv'|]. unfold tagged in Hv'. symmetry in Hv'.
    destruct B as [|[q rs] B]; [destruct l; [congruence|discriminate]|].
    destruct rs as [|x rs]; [|discriminate]. apply (Hsnd (zblock (rinv an) (q, []))); [now left|reflexivity].
  - assert (map fst E = map fst l) as ->; [|exact Hnd]. rewrite <- HEsz, map_map. reflexivity.
  - now rewrite HEp.
  - exact Hsnd.
  - now rewrite HEl.
  - exact Hzl.
  - exact Hzr.
  - unfold E. rewrite map_map. apply map_ext. intros [q rs]. unfold zblock. cbn [fst snd]. apply tab_length.
  - intros w Hwp.
    assert (HBw : forall b, In b B -> fst b <> 0 /\ w <> fst b).
    { intros b' Hin. assert (In (sz F b') l') as Hin' by (rewrite <- HB; now apply in_map).
      unfold l' in Hin'. apply in_map_iff in Hin' as ([p m] & Eq & Hpm). unfold sz in Eq. injection Eq as <- _.
      assert (Hp : p <> 0) by (eapply Hlnz; eassumption). split; [now apply rinv_ne0|]. intros ->.
      apply (Hwp p); [|transitivity (rinv p * p); [ring|now apply rinv_l]].
      apply (Permutation_in _ HP). unfold poles_of. apply in_concat. exists (repeat p m). split; [apply in_map_iff; now exists (p, m)|].
      specialize (Hm p m Hpm). destruct m; [lia|now left]. }
    assert (HBp : pfe_poles B = map rinv (poles_of F l)).
    { rewrite <- sz_poles, HB. unfold l', poles_of. rewrite concat_map, !map_map. f_equal. apply map_ext. intros [p m]. clear. induction m as [|m IH]; cbn; [reflexivity|now rewrite IH]. }
    rewrite Hdiv, Hid.
    + unfold E. rewrite zblock_val by exact HBw. rewrite Hrev.
      change (evprod F (pfe_poles B) w) with (rootprod (pfe_poles B) w).
      assert (rootprod (pfe_poles B) w = rootprod (map rinv rts) w) as ->.
      { apply (evprod_perm F). rewrite HBp. now apply Permutation_map. }
      transitivity (leval k w * (an * rootprod (map rinv rts) w) + rootprod (map rinv rts) w * pfe_val B w * (rinv an * an)); [|ring].
      rewrite rinv_l by exact Han. ring.
    + rewrite HBp, map_length, (Permutation_length HP), Hlr. exact HN.
    + intros p Hp. rewrite <- HB in Hp. rewrite map_map in Hp. apply in_map_iff in Hp as (b' & <- & Hin). now apply HBw.
Qed.
End RES.
