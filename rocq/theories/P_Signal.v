(** The helpers of prototype/signal.py: factors and residues of one pole. *)
From Coq Require Import List Arith Lia ZArith Bool Permutation.
From Verif Require Import Scalar Tensor TensorLemmas TensorOps TensorAlg TensorTac TensorList
  SpecPoly SpecPfe M_Poly P_Poly M_ProtoPoly P_ProtoPoly P_ProtoPoly2 P_Formal M_Signal.
Import ListNotations.

Section PS.
Variable F : cfield.
Variable z0 : F -> bool.
Hypothesis Hz0 : forall x, z0 x = true <-> x = r0.
Variable small : F -> bool.
Hypothesis Hsm : forall x, small x = true <-> x = r0.
Add Ring Rr : (r_th F).
Local Open Scope cr_scope.
Notation gt i p := (nth i p r0).
Notation mlin := (mlin F). Notation mlins := (mlins F). Notation one := (one F). Notation deg := (deg F).
Notation ev := (ev F).

(** [p] is the product of the linear factors of [L]. *)
Definition is_lin (p : list F) (L : list F) : Prop := forall k, lcoef p k = mlins L one k.
Lemma is_lin_perm p L L' : is_lin p L -> Permutation L L' -> is_lin p L'.
Proof. intros H Hp k. rewrite H. now apply mlins_perm. Qed.
Lemma is_lin_one : is_lin [1] [].
Proof. intros [|k]; reflexivity. Qed.
Lemma is_lin_mono r : is_lin (monomial F r) [r].
Proof.
  intros [|[|k]]; unfold lcoef, monomial; cbn; unfold P_Formal.mlin; cbn; [ring|ring|]. ring.
Qed.
Lemma lcoef_deg (p : list F) : deg (length p) (lcoef p).
Proof. intros k Hk. now apply lcoef_high. Qed.
Lemma leval_ev (p : list F) N z : (length p <= N)%nat -> leval p z = ev N (lcoef p) z.
Proof. apply leval_coef. Qed.
Lemma pprod_mlins (p q : list F) L : is_lin p L -> forall k, pprod p q k = mlins L (lcoef q) k.
Proof.
  intros H k. unfold pprod. rewrite (bsum_ext _ _ (fun i => mlins L one i * lcoef q (k - i))) by (intros; now rewrite H).
  clear H. revert k. induction L as [|x L IH]; intro k.
  - rewrite bsum_S_l. cbn [P_Formal.mlins P_Formal.one]. rewrite bsum_0; [rewrite Nat.sub_0_r; ring|]. intros. ring.
  - cbn [P_Formal.mlins]. rewrite (mlin_ext F x _ (fun k => bsum (S k) (fun i => mlins L one i * lcoef q (k - i))) (fun k => eq_sym (IH k))).
    unfold P_Formal.mlin. destruct k as [|k].
    + cbn. ring.
    + rewrite bsum_S_l.
      rewrite (bsum_ext (S k) _ (fun i => mlins L one i * lcoef q (k - i) - x * (mlins L one (S i) * lcoef q (k - i)))).
      2:{ intros i Hi. cbn [Nat.sub]. ring. }
      rewrite bsum_sub, bsum_mul_l.
      rewrite (bsum_S_l (S k) (fun i => mlins L one i * lcoef q (S k - i))). cbn [Nat.sub]. ring.
Qed.
Lemma polymul_lin p q L M : is_lin p L -> is_lin q M -> is_lin (polymul z0 p q) (L ++ M).
Proof.
  intros Hp Hq k. rewrite (polymul_coef F z0 Hz0), (pprod_mlins p q L Hp), mlins_app. now apply mlins_ext.
Qed.
Lemma polysmul_lin ps Ls : Forall2 is_lin ps Ls -> ps <> [] -> exists r, polysmul z0 ps = Ok r /\ is_lin r (concat Ls).
Proof.
  unfold polysmul. assert (length ps < S (length ps))%nat as Hl by lia. revert Hl. generalize (S (length ps)) as fuel.
  intro fuel. revert ps Ls. induction fuel as [|fuel IH]; intros ps Ls Hl H2 Hne; [lia|]. cbn [polysmul_fuel].
  destruct ps as [|p [|p2 ps]]; [congruence| |].
  - inversion H2 as [|a b c d Hp H2']; subst. inversion H2'; subst. exists p. split; [reflexivity|].
    cbn [concat]. now rewrite app_nil_r.
  - set (L := p :: p2 :: ps) in *. assert (HL : (2 <= length L)%nat) by (cbn; lia).
    assert (Hd2 : (1 <= length L / 2)%nat) by (apply Nat.div_le_lower_bound; lia).
    assert (Hd3 : (length L / 2 < length L)%nat) by (apply Nat.div_lt; lia).
    assert (Forall2 is_lin (firstn (length L / 2) L) (firstn (length L / 2) Ls) /\
            Forall2 is_lin (skipn (length L / 2) L) (skipn (length L / 2) Ls)) as [Ha Hb].
    { generalize (length L / 2)%nat. clear - H2. induction H2 as [|a b l l' Hab H IH]; intros [|n]; cbn [firstn skipn]; split; auto;
        try constructor; auto; try apply IH. }
    assert (L1 : (length (firstn (length L / 2) L) < fuel)%nat) by (rewrite firstn_length; lia).
    assert (L2 : (length (skipn (length L / 2) L) < fuel)%nat) by (rewrite skipn_length; lia).
    destruct (IH _ _ L1 Ha) as (a & E1 & Ia).
    { intro E. apply (f_equal (@length _)) in E. rewrite firstn_length in E. change (length (@nil (list F))) with 0%nat in E. lia. }
    destruct (IH _ _ L2 Hb) as (b & E2 & Ib).
    { intro E. apply (f_equal (@length _)) in E. rewrite skipn_length in E. change (length (@nil (list F))) with 0%nat in E. lia. }
    rewrite E1, E2. cbn [bind]. eexists. split; [reflexivity|].
    rewrite <- (firstn_skipn (length L / 2) Ls), concat_app. now apply polymul_lin.
Qed.
Lemma polysmul_mono p L r m : is_lin p L ->
  exists c, polysmul z0 (p :: repeat (monomial F r) m) = Ok c /\ is_lin c (L ++ repeat r m).
Proof.
  intro H. destruct (polysmul_lin (p :: repeat (monomial F r) m) (L :: repeat [r] m)) as (c & E & Hc).
  - constructor; [exact H|]. induction m as [|m IH]; cbn [repeat]; constructor; [apply is_lin_mono|exact IH].
  - discriminate.
  - exists c. split; [exact E|]. cbn [concat] in Hc. replace (repeat r m) with (concat (repeat [r] m)); [exact Hc|].
    clear. induction m as [|m IH]; [reflexivity|]. cbn [repeat concat app]. now rewrite IH.
Qed.

(** Leading coefficient of a product of linear factors. *)
Lemma mlins_lead L : mlins L one (length L) = 1.
Proof.
  induction L as [|x L IH]; [reflexivity|]. cbn [P_Formal.mlins length]. unfold P_Formal.mlin. rewrite IH.
  rewrite (deg_mlins F 1 L one (deg_one F)) by lia. ring.
Qed.
Lemma is_lin_trim p L : is_lin p L -> length (trim_zeros z0 p) = S (length L).
Proof.
  intro H. apply (trim_degree F z0 Hz0 p (length L)).
  - rewrite H, mlins_lead. apply r1_neq_r0.
  - intros k Hk. rewrite H. apply (deg_mlins F 1 L one (deg_one F)). lia.
Qed.
Lemma is_lin_eval p L z : is_lin p L -> leval p z = evprod F L z.
Proof.
  intro H. rewrite (leval_ev p (length p + (length L + 1))) by lia.
  rewrite (ev_ext F _ _ _ z H). rewrite (ev_trunc F (length L + 1)); [|apply deg_mlins, deg_one|lia].
  rewrite ev_mlins by apply deg_one. unfold P_Formal.ev. cbn. ring.
Qed.

(** ** _compute_factors *)
Fixpoint sufs (l : list (F * nat)) : list (list F) :=
  match l with [] => [] | _ :: l' => poles_of F l' :: sufs l' end.
Lemma suffix_loop_snoc a r m c : suffix_loop F z0 (a ++ [(r, m)]) c =
  bind (suffix_loop F z0 a c) (fun s => bind (polysmul z0 (last s c :: repeat (monomial F r) m)) (fun c' => Ok (s ++ [c']))).
Proof.
  revert c. induction a as [|[x k] a IH]; intro c; cbn [app suffix_loop].
  - cbn [bind last]. destruct (polysmul z0 (c :: repeat (monomial F r) m)); reflexivity.
  - destruct (polysmul z0 (c :: repeat (monomial F x) k)) as [c1|e]; [|reflexivity]. cbn [bind]. rewrite IH.
    destruct (suffix_loop F z0 a c1) as [s|e]; [|reflexivity]. cbn [bind].
    replace (last (c1 :: s) c) with (last s c1).
    + destruct (polysmul z0 (last s c1 :: repeat (monomial F r) m)); reflexivity.
    + clear. destruct s as [|x s _] using rev_ind; [reflexivity|]. change (c1 :: s ++ [x]) with ((c1 :: s) ++ [x]).
      now rewrite !last_last.
Qed.
Lemma suffix_loop_spec l0 : exists s, suffix_loop F z0 (rev l0) [1] = Ok s /\
  Forall2 is_lin (rev ([1] :: s)) (poles_of F l0 :: sufs l0).
Proof.
  induction l0 as [|[r m] l1 IH].
  - exists []. split; [reflexivity|]. cbn. constructor; [apply is_lin_one|constructor].
  - destruct IH as (s & E & H). cbn [rev]. rewrite suffix_loop_snoc, E. cbn [bind].
    assert (is_lin (last s [1]) (poles_of F l1)) as Hl.
    { assert (rev ([1] :: s) = last s [1] :: tl (rev ([1] :: s))) as Er.
      { clear. destruct s as [|x s _] using rev_ind; [reflexivity|]. rewrite last_last.
        change ([1] :: s ++ [x]) with (([1] :: s) ++ [x]). now rewrite rev_unit. }
      rewrite Er in H. now inversion H. }
    destruct (polysmul_mono _ _ r m Hl) as (c & Ec & Hc). rewrite Ec. cbn [bind]. eexists. split; [reflexivity|].
    change ([1] :: s ++ [c]) with (([1] :: s) ++ [c]). rewrite rev_unit. constructor; [|exact H].
    apply (is_lin_perm _ _ _ Hc). change (poles_of F ((r, m) :: l1)) with (repeat r m ++ poles_of F l1).
    apply Permutation_app_comm.
Qed.
Lemma suffixes_spec l : l <> [] -> exists s, suffixes F z0 l = Ok s /\ Forall2 is_lin s (sufs l).
Proof.
  destruct l as [|x l]; [congruence|]. intros _. unfold suffixes. cbn [rev]. rewrite removelast_last.
  destruct (suffix_loop_spec l) as (s & E & H). rewrite E. cbn [bind]. eexists. split; [reflexivity|]. exact H.
Qed.
Fixpoint others (pre l : list (F * nat)) : list (list F) :=
  match l with [] => [] | (p, m) :: l' => poles_of F (pre ++ l') :: others (pre ++ [(p, m)]) l' end.
Lemma factor_block_false p suf cnt i cur L : is_lin cur L ->
  exists c, factor_block F z0 false (monomial F p) suf cnt (S i) cur = ([], c) /\ is_lin c (L ++ repeat p cnt).
Proof.
  revert i cur L. induction cnt as [|cnt IH]; intros i cur L H; cbn [factor_block].
  - exists cur. split; [reflexivity|]. cbn [repeat]. now rewrite app_nil_r.
  - destruct (IH (S i) _ _ (polymul_lin _ _ _ _ H (is_lin_mono p))) as (c & E & Hc). rewrite E. cbn.
    exists c. split; [reflexivity|]. rewrite <- app_assoc in Hc. exact Hc.
Qed.
Lemma factor_loop_false l : forall pre S cur, is_lin cur (poles_of F pre) -> Forall2 is_lin S (sufs l) ->
  (forall p m, In (p, m) l -> (1 <= m)%nat) ->
  exists fs c, factor_loop F z0 false (combine l S) cur = (fs, c) /\ Forall2 is_lin fs (others pre l) /\
    is_lin c (poles_of F (pre ++ l)).
Proof.
  induction l as [|[p m] l IH]; intros pre S cur Hc HS Hm.
  - exists [], cur. split; [reflexivity|]. split; [constructor|]. now rewrite app_nil_r.
  - cbn [sufs] in HS. inversion HS as [|s s' S' S'' Hs HS']; subst. cbn [combine factor_loop].
    specialize (Hm p m (or_introl eq_refl)) as Hm1. destruct m as [|m]; [lia|]. cbn [factor_block].
    destruct (factor_block_false p s m 0 _ _ (polymul_lin _ _ _ _ Hc (is_lin_mono p))) as (c & E & Hc').
    rewrite E. cbn [Nat.eqb orb app].
    destruct (IH (pre ++ [(p, Datatypes.S m)]) S' c) as (fs & c' & E' & H1 & H2).
    { rewrite poles_of_app. change (poles_of F [(p, Datatypes.S m)]) with (repeat p (Datatypes.S m) ++ []).
      rewrite app_nil_r. rewrite <- app_assoc in Hc'. exact Hc'. }
    { exact HS'. } { intros q k Hq. apply (Hm q). now right. }
    rewrite E'. eexists _, _. split; [reflexivity|]. split.
    + cbn [others rev app]. constructor; [|exact H1]. rewrite poles_of_app. now apply polymul_lin.
    + rewrite <- app_assoc in H2. exact H2.
Qed.
Theorem compute_factors_spec l : l <> [] -> (forall p m, In (p, m) l -> (1 <= m)%nat) ->
  exists fs c, compute_factors F z0 l false = Ok (fs, c) /\ Forall2 is_lin fs (others [] l) /\ is_lin c (poles_of F l).
Proof.
  intros Hne Hm. unfold compute_factors. destruct (suffixes_spec l Hne) as (s & E & Hs). rewrite E. cbn [bind].
  destruct (factor_loop_false l [] s [1] is_lin_one Hs Hm) as (fs & c & E' & H1 & H2). rewrite E'. eauto.
Qed.

(** With [include_powers] the block of a pole has the products with 1, ..., m copies of its
    factor removed. *)
Fixpoint removed (include_powers : bool) (pre l : list (F * nat)) : list (list F) :=
  match l with
  | [] => []
  | (p, m) :: l' =>
      map (fun e => poles_of F pre ++ repeat p (m - e) ++ poles_of F l') (if include_powers then seq 1 m else [m])
      ++ removed include_powers (pre ++ [(p, m)]) l'
  end.
Lemma factor_block_true p suf S cnt : forall i cur L, is_lin cur L -> is_lin suf S ->
  exists bl c, factor_block F z0 true (monomial F p) suf cnt i cur = (bl, c) /\ is_lin c (L ++ repeat p cnt) /\
    Forall2 is_lin bl (map (fun j => L ++ repeat p j ++ S) (seq 0 cnt)).
Proof.
  induction cnt as [|cnt IH]; intros i cur L H HS; cbn [factor_block].
  - exists [], cur. split; [reflexivity|]. split; [cbn [repeat]; now rewrite app_nil_r|constructor].
  - destruct (IH (Datatypes.S i) _ _ (polymul_lin _ _ _ _ H (is_lin_mono p)) HS) as (bl & c & E & Hc & Hb). rewrite E.
    rewrite orb_true_r. eexists _, c. split; [reflexivity|]. split.
    + rewrite <- app_assoc in Hc. exact Hc.
    + cbn [seq map app]. constructor; [now apply polymul_lin|]. rewrite <- seq_shift, map_map.
      erewrite map_ext; [exact Hb|]. intro j. cbn [repeat]. now rewrite <- app_assoc.
Qed.
Lemma Forall2_rev {X Y} (P : X -> Y -> Prop) l l' : Forall2 P l l' -> Forall2 P (rev l) (rev l').
Proof. induction 1; cbn [rev]; [constructor|]. apply Forall2_app; auto. Qed.
Lemma rev_seq_sub m : rev (seq 0 m) = map (fun e => m - e)%nat (seq 1 m).
Proof.
  induction m as [|m IH]; [reflexivity|]. rewrite seq_S, rev_app_distr. cbn [rev app seq map].
  f_equal; [lia|]. rewrite IH. rewrite <- (seq_shift m 1), map_map. apply map_ext. intro e. lia.
Qed.
Lemma factor_loop_true l : forall pre S cur, is_lin cur (poles_of F pre) -> Forall2 is_lin S (sufs l) ->
  exists fs c, factor_loop F z0 true (combine l S) cur = (fs, c) /\ Forall2 is_lin fs (removed true pre l) /\
    is_lin c (poles_of F (pre ++ l)).
Proof.
  induction l as [|[p m] l IH]; intros pre S cur Hc HS.
  - exists [], cur. split; [reflexivity|]. split; [constructor|]. now rewrite app_nil_r.
  - cbn [sufs] in HS. inversion HS as [|s s' S' S'' Hs HS']; subst. cbn [combine factor_loop].
    destruct (factor_block_true p s (poles_of F l) m 0 _ _ Hc Hs) as (bl & c & E & Hc' & Hb). rewrite E.
    destruct (IH (pre ++ [(p, m)]) S' c) as (fs & c' & E' & H1 & H2).
    { rewrite poles_of_app. change (poles_of F [(p, m)]) with (repeat p m ++ []). now rewrite app_nil_r. }
    { exact HS'. }
    rewrite E'. eexists _, _. split; [reflexivity|]. split.
    + cbn [removed]. apply Forall2_app; [|exact H1]. apply Forall2_rev in Hb.
      rewrite <- map_rev, rev_seq_sub, map_map in Hb. exact Hb.
    + rewrite <- app_assoc in H2. exact H2.
Qed.
Lemma removed_false l : forall pre, removed false pre l = others pre l.
Proof.
  induction l as [|[p m] l IH]; intro pre; [reflexivity|]. cbn [removed others map app]. rewrite IH.
  rewrite Nat.sub_diag. cbn [repeat app]. now rewrite poles_of_app.
Qed.
Theorem compute_factors_all l ip : (ip = false -> forall p m, In (p, m) l -> (1 <= m)%nat) ->
  exists fs c, compute_factors F z0 l ip = Ok (fs, c) /\ Forall2 is_lin fs (removed ip [] l) /\ is_lin c (poles_of F l).
Proof.
  intro Hm. destruct l as [|x l].
  - exists [], [1]. split; [reflexivity|]. split; [constructor|apply is_lin_one].
  - destruct ip.
    + unfold compute_factors. destruct (suffixes_spec (x :: l)) as (s & E & Hs); [discriminate|]. rewrite E. cbn [bind].
      destruct (factor_loop_true (x :: l) [] s [1] is_lin_one Hs) as (fs & c & E' & H1 & H2). rewrite E'. eauto.
    + rewrite removed_false. apply compute_factors_spec; [discriminate|]. now apply Hm.
Qed.

(** ** Division by a monomial *)
Lemma pprod_mono (q : list F) p k : pprod q (monomial F p) k = mlin p (lcoef q) k.
Proof. rewrite pprod_comm. exact (pprod_mlins (monomial F p) q [p] (is_lin_mono p) k). Qed.
Lemma strip_head (r : list F) : r <> [] ->
  length (strip small r) = 1%nat \/ ((2 <= length (strip small r))%nat /\ small (gt 0 (strip small r)) = false).
Proof.
  induction r as [|c r IH]; [congruence|]. intros _. destruct r as [|d r]; [now left|].
  change (strip small (c :: d :: r)) with (if small c then strip small (d :: r) else c :: d :: r).
  destruct (small c) eqn:E; [apply IH; discriminate|]. right. split; [cbn; lia|exact E].
Qed.
Lemma pdiv_loop_len (v : list F) s cnt : forall k q r, length (snd (pdiv_loop v s cnt k q r)) = length r.
Proof.
  induction cnt as [|cnt IH]; intros k q r; [reflexivity|]. cbn [pdiv_loop]. cbv zeta. rewrite IH. now rewrite tab_length.
Qed.
Lemma div_mono (u : list F) p : exists q n, proto_polydiv z0 small u (monomial F p) = (q, n) /\
  forall k, lcoef u k = mlin p (lcoef q) k + (match k with O => gt 0 n | _ => 0 end).
Proof.
  destruct (proto_polydiv_spec F z0 Hz0 small u (monomial F p) 1) as (q & n & ds & E & Hds & H1 & H2).
  { now apply Hsm. } { apply r1_neq_r0. } { intros k Hk. apply lcoef_high. cbn. lia. }
  exists q, n. split; [exact E|].
  assert (Hds0 : ds = repeat 0 (length ds)).
  { clear - Hds Hsm. induction Hds as [|x ds Hx _ IH]; [reflexivity|]. cbn. apply Hsm in Hx as ->. now rewrite <- IH. }
  assert (Hn : length n = 1%nat).
  { assert (exists r, r <> [] /\ n = strip small r) as (r & Hr & ->).
    { unfold proto_polydiv in E. cbv zeta in E.
      match type of E with context [pdiv_loop ?v ?s ?c ?k ?q ?r] => pose proof (pdiv_loop_len v s c k q r) as Hl; destruct (pdiv_loop v s c k q r) as [q' r'] eqn:E1 end.
      injection E as <- <-. exists r'. split; [|reflexivity]. cbn [snd] in Hl. pose proof (trim_len F z0 Hz0 u). intros ->. cbn in Hl. lia. }
    destruct (strip_head r Hr) as [Hs|[Hs Hs']]; [exact Hs|]. exfalso.
    assert (gt 0 (strip small r) = 0) as G; [|apply Hsm in G; congruence].
    rewrite gt_lcoef by lia. apply H2. lia. }
  intro k. rewrite H1, pprod_mono. f_equal. rewrite Hds0, lcoef_zeros. unfold lcoef. rewrite Hn.
  destruct k; reflexivity.
Qed.

(** ** Residues of one pole *)
Lemma rpow_ne0 (x : F) n : x <> 0 -> rpow x n <> 0.
Proof. intro H. induction n as [|n IH]; [apply r1_neq_r0|]. cbn [rpow]. now apply mul_ne0. Qed.
Lemma rinv_r (x : F) : x <> 0 -> x * rinv x = 1.
Proof. intro H. transitivity (rinv x * x); [ring|]. now apply rinv_l. Qed.
Lemma lcoef_scale (r : F) (p : list F) k : lcoef (map (rmul r) p) k = r * lcoef p k.
Proof.
  unfold lcoef. rewrite map_length. destruct (k <? length p)%nat eqn:E; [|ring]. apply Nat.ltb_lt in E.
  rewrite (nth_indep (map (rmul r) p) 0 (r * 0)) by (rewrite map_length; lia). now rewrite map_nth.
Qed.
Lemma lcoef_sub (p q : list F) k : lcoef (polysub p q) k = lcoef p k - lcoef q k.
Proof. apply (poly_pw_coef F). ring. Qed.

Section Block.
Variables (D : list F) (p : F) (fq nd : list F).
Hypothesis HD : proto_polydiv z0 small D (monomial F p) = (fq, nd).
Hypothesis HDp : leval D p <> 0.
Lemma block_D : (forall k, lcoef D k = mlin p (lcoef fq) k + (match k with O => gt 0 nd | _ => 0 end)) /\ gt 0 nd <> 0.
Proof.
  destruct (div_mono D p) as (q & n & E & H). rewrite HD in E. injection E as <- <-. split; [exact H|].
  intro Z. apply HDp. rewrite (leval_ev D (length D + S (length fq))) by lia.
  rewrite (ev_ext F _ _ (mlin p (lcoef fq)) p).
  - rewrite (ev_trunc F (S (length fq))); [|apply deg_mlin, lcoef_deg|lia]. rewrite ev_mlin by apply lcoef_deg. ring.
  - intro k. rewrite H, Z. destruct k; ring.
Qed.
Lemma residue_block_spec cnt : forall N, let rs := residue_block F z0 small (monomial F p) fq (gt 0 nd) cnt N in
  length rs = cnt /\ exists W M, deg M W /\
  forall k, lcoef N k = bsum cnt (fun j => gt j rs * mlins (repeat p j) (lcoef D) k) + mlins (repeat p cnt) W k.
Proof.
  destruct block_D as [HDk Hd]. induction cnt as [|cnt IH]; intro N; cbn [residue_block].
  - split; [reflexivity|]. exists (lcoef N), (length N). split; [apply lcoef_deg|]. intro k. cbn. ring.
  - destruct (div_mono N p) as (Q & n & E & HN). rewrite E. cbv zeta.
    set (r := gt 0 n * rinv (gt 0 nd)).
    destruct (IH (polysub Q (map (rmul r) fq))) as (Hl & W & M & HW & H1).
    set (rs := residue_block F z0 small (monomial F p) fq (gt 0 nd) cnt (polysub Q (map (rmul r) fq))) in *.
    split; [cbn [length]; now rewrite Hl|]. exists W, M. split; [exact HW|]. intro k.
    rewrite bsum_S_l. cbn [nth repeat P_Formal.mlins].
    transitivity (mlin p (lcoef (polysub Q (map (rmul r) fq))) k + r * lcoef D k).
    + rewrite HN, HDk. rewrite (mlin_ext F p (lcoef (polysub Q (map (rmul r) fq))) (fun k => lcoef Q k + (-r) * lcoef fq k)).
      2:{ intro i. rewrite lcoef_sub, lcoef_scale. ring. }
      rewrite mlin_add, mlin_scale. destruct k as [|k]; [|ring].
      transitivity (mlin p (lcoef Q) 0 + gt 0 n * (rinv (gt 0 nd) * gt 0 nd)); [rewrite rinv_l by exact Hd; ring|].
      unfold r. ring.
    + rewrite (mlin_ext F p _ _ H1), mlin_add, mlin_bsum.
      rewrite (bsum_ext cnt _ (fun j => gt j rs * mlin p (mlins (repeat p j) (lcoef D)) k)) by (intros; apply mlin_scale).
      ring.
Qed.
End Block.

(** A value of shape [] or [1]. *)
Definition isv (t : tensor F) (s : list nat) (v : F) : Prop := shape t = s /\ at_ t (repeat 0%nat (length s)) = v.
Lemma polyval_isv (N : list F) p : exists t, polyval z0 N (mk0 p) = Ok t /\
  isv t (if (length (trim_zeros z0 N) =? 1)%nat then [1%nat] else []) (leval N p).
Proof.
  destruct (polyval_spec F z0 Hz0 N (mk0 p)) as (y & E & [[Hl [Hs Hy]]|[Hl [Hs Hy]]]); exists y; (split; [exact E|]).
  - btrue (length (trim_zeros z0 N) =? 1)%nat. split; [exact Hs|]. cbn. rewrite Hy by lia.
    rewrite (leval_coef F N (length N + 1)) by lia.
    rewrite (bsum_trunc 1 (length N + 1)); [cbn; ring|lia|].
    intros i H1 H2. rewrite <- (trim_coef F z0 Hz0), lcoef_high by lia. ring.
  - bfalse (length (trim_zeros z0 N) =? 1)%nat. split; [exact Hs|]. cbn. rewrite Hy; [reflexivity|constructor].
Qed.
Lemma tdiv_isv t u (b c : bool) x y : isv t (if b then [1%nat] else []) x -> isv u (if c then [1%nat] else []) y ->
  exists w, tdiv F t u = Ok w /\ isv w (if b || c then [1%nat] else []) (x * rinv y).
Proof.
  intros [Ht Hx] [Hu Hy]. unfold tdiv, ew. rewrite Ht, Hu.
  destruct b, c; cbn in *; eexists; (split; [reflexivity|]); split; try reflexivity; cbn; rewrite ?Ht, ?Hu; cbn; now rewrite Hx, Hy.
Qed.
Definition vshape (N : list F) (single : bool) (m : nat) : list nat :=
  if ((m =? 1) && ((length (trim_zeros z0 N) =? 1) || single))%nat then [1%nat] else [].
Lemma pole_residues_spec N p m D o : (1 <= m)%nat -> is_lin D o -> ~ In p o ->
  exists ts rs, pole_residues F z0 small N p m D = Ok ts /\ length rs = m /\
    Forall2 (fun t v => isv t (vshape N (length o =? 0)%nat m) v) ts rs /\
    exists W M, deg M W /\ forall k, lcoef N k = pterm F p m (fun j => gt (m - 1 - j) rs) o k + mlins (repeat p m) W k.
Proof.
  intros Hm HD Hp. assert (HDp : leval D p <> 0).
  { rewrite (is_lin_eval D o p HD). apply evprod_ne0. intros q Hq ->. contradiction. }
  unfold pole_residues, vshape. destruct (Nat.eqb_spec m 1) as [->|Hm1].
  - destruct (polyval_isv N p) as (tn & En & Hn). destruct (polyval_isv D p) as (td & Ed & Hd). rewrite En, Ed. cbn [bind].
    rewrite (is_lin_trim D o HD) in Hd. cbn [Nat.eqb] in Hd.
    destruct (tdiv_isv _ _ _ _ _ _ Hn Hd) as (w & Ew & Hw). rewrite Ew. cbn [bind].
    exists [w], [leval N p * rinv (leval D p)]. split; [reflexivity|]. split; [reflexivity|]. split.
    { constructor; [|constructor]. exact Hw. }
    set (r := leval N p * rinv (leval D p)).
    destruct (factor_root F (length N + length D) (fun k => lcoef N k + (-r) * lcoef D k) p) as (W & HW & EW).
    { intros k Hk. rewrite !lcoef_high by lia. ring. }
    { unfold P_Formal.ev. rewrite (bsum_ext _ _ (fun k => lcoef N k * rpow p k + (-r) * (lcoef D k * rpow p k))) by (intros; ring).
      rewrite bsum_add, bsum_mul_l. rewrite <- !leval_coef by lia.
      unfold r. transitivity (leval N p - leval N p * (rinv (leval D p) * leval D p)); [ring|]. rewrite rinv_l by exact HDp. ring. }
    exists W, (length N + length D - 1)%nat. split; [exact HW|]. intro k. unfold pterm. cbn [bsum repeat P_Formal.mlins app nth Nat.sub].
    rewrite <- EW, <- HD. fold r. ring.
  - cbn [andb]. destruct (proto_polydiv z0 small D (monomial F p)) as [fq nd] eqn:E.
    destruct (residue_block_spec D p fq nd E HDp m N) as (Hl & W & M & HW & H).
    set (rs := residue_block F z0 small (monomial F p) fq (gt 0 nd) m N) in *.
    exists (map mk0 (rev rs)), (rev rs). split; [reflexivity|]. rewrite rev_length. split; [exact Hl|]. split.
    { induction (rev rs) as [|x l IH]; cbn [map]; constructor; [split; reflexivity|exact IH]. }
    exists W, M. split; [exact HW|]. intro k. rewrite H. f_equal. unfold pterm. apply bsum_ext. intros j Hj.
    rewrite rev_nth by lia. rewrite Hl. replace (m - S (m - 1 - j))%nat with j by lia. f_equal.
    rewrite mlins_app. apply mlins_ext. exact HD.
Qed.

(** ** _compute_residues *)
Definition sz (b : F * list F) : F * nat := (fst b, length (snd b)).
Definition blk (b : F * list F) : F * nat * (nat -> F) :=
  (fst b, length (snd b), fun j => gt (length (snd b) - 1 - j) (snd b)).
Definition tagged (B : list (F * list F)) : list (F * nat) :=
  concat (map (fun b => map (fun v => (v, length (snd b))) (snd b)) B).
Lemma poles_of_nil l : (forall p m, In (p, m) l -> (1 <= m)%nat) -> (length (poles_of F l) =? 0)%nat = (length l =? 0)%nat.
Proof.
  intro H. destruct l as [|[p m] l]; [reflexivity|]. specialize (H p m (or_introl eq_refl)).
  change (poles_of F ((p, m) :: l)) with (repeat p m ++ poles_of F l). rewrite app_length, repeat_length. cbn [length].
  bfalse (m + length (poles_of F l) =? 0)%nat. reflexivity.
Qed.
Lemma residues_loop N l : forall pre fs, Forall2 is_lin fs (others pre l) -> NoDup (map fst (pre ++ l)) ->
  (forall p m, In (p, m) (pre ++ l) -> (1 <= m)%nat) ->
  exists tss B, mapM (fun '(pole, mult, factor) => pole_residues F z0 small N pole mult factor) (combine l fs) = Ok tss /\
    map sz B = l /\
    Forall2 (fun t vm => isv t (vshape N (length (pre ++ l) =? 1)%nat (snd vm)) (fst vm)) (concat tss) (tagged B) /\
    forall B1 b B2, B = B1 ++ b :: B2 -> exists W M, deg M W /\
      forall k, lcoef N k = pterm F (fst b) (length (snd b)) (fun j => gt (length (snd b) - 1 - j) (snd b))
                                  (poles_of F (pre ++ map sz (B1 ++ B2))) k + mlins (repeat (fst b) (length (snd b))) W k.
Proof.
  induction l as [|[p m] l IH]; intros pre fs Hfs Hnd Hm.
  - exists [], []. split; [reflexivity|]. split; [reflexivity|]. split; [constructor|]. intros [|] b B2 E; discriminate.
  - cbn [others] in Hfs. inversion Hfs as [|f o fs' os Hf Hfs']; subst. cbn [combine mapM].
    assert (Hp : ~ In p (poles_of F (pre ++ l))).
    { intro G. apply poles_of_in in G. rewrite map_app in Hnd. cbn [map fst] in Hnd. apply NoDup_remove_2 in Hnd.
      apply Hnd. now rewrite map_app in G. }
    assert (Hm' : forall q k, In (q, k) (pre ++ l) -> (1 <= k)%nat).
    { intros q k Hq. apply (Hm q). apply in_app_iff in Hq as [Hq|Hq]; apply in_app_iff; [now left|now right; right]. }
    assert (Hm1 : (1 <= m)%nat). { apply (Hm p). apply in_app_iff. right. now left. }
    destruct (pole_residues_spec N p m f _ Hm1 Hf Hp) as (ts & rs & E & Hl & Hv & W & M & HW & H). rewrite E. cbn [bind].
    destruct (IH (pre ++ [(p, m)]) fs' Hfs') as (tss & B & E' & HB & Hv' & H').
    { now rewrite <- app_assoc. } { now rewrite <- app_assoc. }
    rewrite E'. cbn [bind]. exists (ts :: tss), ((p, rs) :: B). split; [reflexivity|].
    split; [cbn [map]; unfold sz at 1; cbn [fst snd]; now rewrite Hl, HB|]. split.
    + cbn [concat]. unfold tagged. cbn [map concat snd]. apply Forall2_app.
      * rewrite poles_of_nil in Hv by exact Hm'.
        replace (length (pre ++ (p, m) :: l) =? 1)%nat with (length (pre ++ l) =? 0)%nat.
        2:{ rewrite !app_length. cbn [length]. destruct (length pre + length l =? 0)%nat eqn:Z.
            - apply Nat.eqb_eq in Z. btrue (length pre + S (length l) =? 1)%nat. reflexivity.
            - apply Nat.eqb_neq in Z. bfalse (length pre + S (length l) =? 1)%nat. reflexivity. }
        rewrite <- Hl in Hv. revert Hv. generalize (length rs). intro m0. clear. induction 1 as [|t v ts0 rs0 Hv0 _ IHv]; cbn [map]; constructor; [exact Hv0|exact IHv].
      * rewrite <- app_assoc in Hv'. exact Hv'.
    + intros B1 b B2 EB. destruct B1 as [|b1 B1]; cbn [app] in EB.
      * injection EB as <- <-. cbn [fst snd app]. rewrite Hl, HB. eauto.
      * injection EB as <- ->. destruct (H' B1 b B2 eq_refl) as (W' & M' & HW' & HH). exists W', M'. split; [exact HW'|].
        intro k. rewrite HH. cbn [app map]. unfold sz at 2. cbn [fst snd]. now rewrite Hl, <- app_assoc.
Qed.
Lemma pfe_sum_val B z : pfe_sum F z (map blk B) = pfe_val B z.
Proof.
  induction B as [|[p rs] B IH]; [reflexivity|]. unfold pfe_sum, pfe_val. cbn [map fold_right].
  fold (pfe_sum F z (map blk B)). fold (pfe_val B z). rewrite IH. f_equal. unfold pfe_at, blk. cbn [fst snd].
  rewrite bsum_rev. apply bsum_ext. intros j Hj.
  replace (length rs - 1 - (length rs - 1 - j))%nat with j by lia.
  replace (length rs - (length rs - 1 - j))%nat with (S j) by lia. reflexivity.
Qed.
Lemma map_sz_blk B : map fst (map blk B) = map sz B.
Proof. rewrite map_map. reflexivity. Qed.
Lemma poles_of_sz B : poles_of F (map sz B) = pfe_poles B.
Proof. unfold poles_of, pfe_poles. rewrite map_map. reflexivity. Qed.
Theorem compute_residues_spec l N : l <> [] -> NoDup (map fst l) -> (forall p m, In (p, m) l -> (1 <= m)%nat) ->
  exists ts B, compute_residues F z0 small l N = stack 0 ts /\ map sz B = l /\
    Forall2 (fun t vm => isv t (vshape N (length l =? 1)%nat (snd vm)) (fst vm)) ts (tagged B) /\
    (deg (length (pfe_poles B)) (lcoef N) -> forall z, (forall p, In p (map fst l) -> z <> p) ->
       leval N z = evprod F (pfe_poles B) z * pfe_val B z).
Proof.
  intros Hne Hnd Hm. destruct (compute_factors_spec l Hne Hm) as (fs & c & E & Hfs & _).
  destruct (residues_loop N l [] fs Hfs Hnd Hm) as (tss & B & E' & HB & Hv & H).
  exists (concat tss), B. unfold compute_residues. rewrite E. cbn [bind]. rewrite E'. cbn [bind].
  split; [reflexivity|]. split; [exact HB|]. split; [exact Hv|].
  intros HN z Hz. rewrite <- poles_of_sz in HN.
  assert (HP : forall k, lcoef N k = ptot F [] (map blk B) k).
  { apply partial_fractions.
    - rewrite map_sz_blk, HB. exact Hnd.
    - rewrite map_sz_blk. exact HN.
    - intros l1 p m r l2 El. apply map_eq_app in El as (B1 & B2' & -> & <- & El).
      apply map_eq_cons in El as (b & B2 & -> & Eb & <-). injection Eb as <- <- <-.
      rewrite <- map_app, map_sz_blk. exact (H B1 b B2 eq_refl). }
  rewrite (leval_ev N (length N + tmult F (map sz B))) by lia.
  rewrite (ev_ext F _ _ _ z HP), ev_ptot.
  - cbn [app]. rewrite map_sz_blk, poles_of_sz, pfe_sum_val. reflexivity.
  - rewrite map_sz_blk, HB. exact Hz.
  - cbn [app]. rewrite map_sz_blk. lia.
Qed.
Lemma isv_stack ts vs : Forall2 (fun t v => isv t [] v) ts vs -> ts <> [] ->
  exists y, stack 0 ts = Ok y /\ is1 y (length vs) (fun i => gt i vs).
Proof.
  intros H Hne. destruct (stack_gen ts [] 0 Hne) as (y & E & Hs & Ha).
  { intros t Ht. induction H as [|t' v ts vs Hv H IH]; [contradiction|]. destruct Ht as [<-|Ht]; [apply Hv|apply IH; [|exact Ht]].
    intros ->. contradiction. }
  exists y. split; [exact E|].
  assert (length ts = length vs) as Hl by (clear - H; induction H; cbn; congruence).
  split; [now rewrite Hs, Hl|].
  intros i Hi. rewrite (Ha [i] y) by (cbn; lia). cbn [nth del].
  clear - H Hi. revert i Hi. induction H as [|t v ts vs Hv H IH]; intros i Hi; [cbn in Hi; lia|].
  destruct i as [|i]; [apply Hv|]. cbn [nth]. apply IH. cbn in Hi. lia.
Qed.
Lemma isv_stack1 ts vs : Forall2 (fun t v => isv t [1%nat] v) ts vs -> ts <> [] ->
  exists y, stack 0 ts = Ok y /\ is2 y (length vs) 1 (fun i _ => gt i vs).
Proof.
  intros H Hne. destruct (stack_gen ts [1%nat] 0 Hne) as (y & E & Hs & Ha).
  { intros t Ht. induction H as [|t' v ts vs Hv H IH]; [contradiction|]. destruct Ht as [<-|Ht]; [apply Hv|apply IH; [|exact Ht]].
    intros ->. contradiction. }
  exists y. split; [exact E|].
  assert (length ts = length vs) as Hl by (clear - H; induction H; cbn; congruence).
  split; [now rewrite Hs, Hl|].
  intros i j Hi Hj. assert (j = 0)%nat as -> by lia. rewrite (Ha [i; 0%nat] y) by (cbn; lia). cbn [nth del].
  clear - H Hi. revert i Hi. induction H as [|t v ts vs Hv H IH]; intros i Hi; [cbn in Hi; lia|].
  destruct i as [|i]; [apply Hv|]. cbn [nth]. apply IH. cbn in Hi. lia.
Qed.
End PS.
