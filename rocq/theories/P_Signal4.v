(** Proofs about prototype/signal.py: sos2pfe for sections that are all of one class. *)
From Coq Require Import List Arith Lia ZArith Bool Permutation Setoid Morphisms Ring.
From Verif Require Import Scalar Tensor TensorLemmas TensorOps TensorAlg TensorTac TensorList
  SpecPoly SpecPfe M_Poly P_Poly M_ProtoPoly P_ProtoPoly P_ProtoPoly2 P_Formal P_Series P_Taylor M_Signal P_Signal P_Signal2 P_Signal3.
Import ListNotations.

Section Sig4.
Variable F : cfield.
Add Ring Rr : (r_th F).
Local Open Scope cr_scope.
Notation P := (nat -> F).
Notation mlin := (mlin F). Notation mlins := (mlins F). Notation one := (one F). Notation deg := (deg F). Notation ev := (ev F).
Notation smul := (smul F). Notation ssub := (ssub F). Notation eqf := (eqf F).
Notation gt i p := (nth i p 0).
Notation sz := (sz F). Notation blk := (blk F).
Variable z0 : F -> bool.
Hypothesis Hz0 : forall x, z0 x = true <-> x = 0.
Hypothesis Hchar : forall m, (1 <= m)%nat -> rnat m <> r0 :> F.
Variable K : F -> Prop.
Hypothesis HK : subfield F K.

(** ** The numerator *)
Definition sprod (ps : list (list F)) : P := fold_right (fun p acc => smul (lcoef p) acc) one ps.
Lemma sprod_app ps qs : eqf (sprod (ps ++ qs)) (smul (sprod ps) (sprod qs)).
Proof.
  induction ps as [|p ps IH]; [intro k; cbn [app sprod fold_right]; symmetry; apply smul_1_l|].
  intro k. cbn [app sprod fold_right]. fold (sprod ps) (sprod (ps ++ qs)).
  rewrite (smul_m F _ _ (reflexivity (lcoef p)) _ _ IH k). apply smul_assoc.
Qed.
Lemma polysmul_sprod ps : ps <> [] -> exists r, polysmul z0 ps = Ok r /\ eqf (lcoef r) (sprod ps).
Proof.
  unfold polysmul. assert (length ps < S (length ps))%nat as Hl by lia. revert Hl. generalize (S (length ps)) as fuel.
  intro fuel. revert ps. induction fuel as [|fuel IH]; intros ps Hl Hne; [lia|]. cbn [polysmul_fuel].
  destruct ps as [|p [|p2 ps]]; [congruence| |].
  - exists p. split; [reflexivity|]. intro k. cbn [sprod fold_right]. rewrite (smul_comm F (lcoef p) one k). symmetry. apply smul_1_l.
  - set (L := p :: p2 :: ps) in *. assert (HL : (2 <= length L)%nat) by (cbn; lia).
    assert (Hd2 : (1 <= length L / 2)%nat) by (apply Nat.div_le_lower_bound; lia).
    assert (Hd3 : (length L / 2 < length L)%nat) by (apply Nat.div_lt; lia).
    destruct (IH (firstn (length L / 2) L)) as (a & E1 & Ia).
    { rewrite firstn_length. lia. }
    { intro E. apply (f_equal (@length _)) in E. rewrite firstn_length in E. change (length (@nil (list F))) with 0%nat in E. lia. }
    destruct (IH (skipn (length L / 2) L)) as (b & E2 & Ib).
    { rewrite skipn_length. lia. }
    { intro E. apply (f_equal (@length _)) in E. rewrite skipn_length in E. change (length (@nil (list F))) with 0%nat in E. lia. }
    rewrite E1, E2. cbn [bind]. eexists. split; [reflexivity|]. intro k.
    rewrite (polymul_coef F z0 Hz0). change (pprod a b k) with (smul (lcoef a) (lcoef b) k).
    rewrite (smul_m F _ _ Ia _ _ Ib k), <- (sprod_app _ _ k), firstn_skipn. reflexivity.
Qed.
Notation quads bb := (map (fun '(b1, b2) => [1; b1; b2]) bb).
Lemma quad_lcoef (b1 b2 : F) k : lcoef [1; b1; b2] k = match k with O => b2 | S O => b1 | S (S O) => 1 | _ => 0 end.
Proof. destruct k as [|[|[|k]]]; reflexivity. Qed.
Lemma sprod_quads bb : deg (S (2 * length bb)) (sprod (quads bb)) /\ sprod (quads bb) (2 * length bb)%nat = 1 /\
  ((forall b1 b2, In (b1, b2) bb -> K b1 /\ K b2) -> forall k, K (sprod (quads bb) k)).
Proof.
  induction bb as [|[b1 b2] bb (IH1 & IH2 & IH3)].
  - split; [apply deg_one|]. split; [reflexivity|]. intros _ [|k]; [apply (K1 F K HK)|apply (K0 F K HK)].
  - cbn [map sprod fold_right]. fold (sprod (quads bb)).
    assert (Hq : deg 3 (lcoef [1; b1; b2])) by (intros k Hk; rewrite quad_lcoef; destruct k as [|[|[|k]]]; lia || reflexivity).
    destruct (smul_lead F 2 (2 * length bb) _ _ Hq IH1) as [H1 H2].
    replace (2 * length ((b1, b2) :: bb))%nat with (2 + 2 * length bb)%nat by (cbn [length]; lia).
    split; [exact H1|]. split; [rewrite H2, IH2, quad_lcoef; ring|].
    intro Hk. apply Ksmul; [exact HK| |apply IH3; intros; apply Hk; now right].
    destruct (Hk b1 b2 (or_introl eq_refl)). intros [|[|[|k]]]; rewrite quad_lcoef; auto using (K1 F K HK), (K0 F K HK).
Qed.
Lemma numerator_ok bb : bb <> [] -> exists num, polysmul z0 (quads bb) = Ok num /\
  deg (S (2 * length bb)) (lcoef num) /\ lcoef num (2 * length bb)%nat = 1 /\
  (forall p, leval num p = prodl F (map (fun '(b1, b2) => p * p + p * b1 + b2) bb)) /\
  ((forall b1 b2, In (b1, b2) bb -> K b1 /\ K b2) -> forall k, K (lcoef num k)).
Proof.
  intro Hne. assert (Hq : quads bb <> []) by (destruct bb; [congruence|discriminate]).
  destruct (polysmul_sprod _ Hq) as (num & E & Hc).
  destruct (polysmul_fuel_spec F z0 Hz0 (S (length (quads bb))) (quads bb) Hq ltac:(lia)) as (num' & E' & Hv).
  change (polysmul_fuel z0 (S (length (quads bb))) (quads bb)) with (polysmul z0 (quads bb)) in E'.
  rewrite E in E'. injection E' as <-. destruct (sprod_quads bb) as (H1 & H2 & H3).
  exists num. split; [exact E|]. split; [intros k Hk; rewrite Hc; now apply H1|]. split; [now rewrite Hc|]. split.
  - intro p. rewrite Hv. clear. induction bb as [|[b1 b2] bb IH]; [reflexivity|]. cbn [map pmany].
    rewrite IH. change (prodl F (?x :: ?l)) with (x * prodl F l). f_equal. unfold leval. cbn. ring.
  - intros Hk k. rewrite Hc. now apply H3.
Qed.

(** ** The expansion *)
Lemma pfe_identity num B : NoDup (map fst B) ->
  deg (S (length (pfe_poles B))) (lcoef num) -> lcoef num (length (pfe_poles B)) = 1 ->
  (forall B1 b B2, B = B1 ++ b :: B2 -> exists W M, deg M W /\ forall k, lcoef num k =
     pterm F (fst b) (length (snd b)) (fun j => gt (length (snd b) - 1 - j) (snd b)) (pfe_poles (B1 ++ B2)) k
     + mlins (repeat (fst b) (length (snd b))) W k) ->
  forall z, ~ In z (map fst B) -> leval num z = rootprod (pfe_poles B) z * (1 + pfe_val B z).
Proof.
  intros Hnd Hdeg Hlead Hb z Hz. set (L := pfe_poles B) in *.
  set (R := fun k => lcoef num k - mlins L one k).
  assert (HL : deg (S (length L)) (mlins L one)) by (rewrite <- Nat.add_1_r; apply deg_mlins, deg_one).
  assert (HR : deg (length L) R).
  { intros k Hk. unfold R. assert (k = length L \/ S (length L) <= k)%nat as [->|H] by lia.
    - rewrite Hlead, mlins_lead. ring.
    - rewrite Hdeg, HL by exact H. ring. }
  assert (HP : forall k, R k = ptot F [] (map blk B) k).
  { apply partial_fractions.
    - rewrite map_sz_blk. replace (map fst (map sz B)) with (map fst B); [exact Hnd|]. rewrite map_map. reflexivity.
    - rewrite map_sz_blk. unfold tmult. rewrite poles_of_sz. exact HR.
    - intros l1 p m r l2 El. apply map_eq_app in El as (B1 & B2' & EB & <- & El).
      apply map_eq_cons in El as (b & B2 & -> & Eb & <-). injection Eb as <- <- <-.
      destruct (Hb B1 b B2 EB) as (W & M & HW & E).
      exists (fun k => W k + - (1) * mlins (pfe_poles (B1 ++ B2)) one k), (M + S (length (pfe_poles (B1 ++ B2))))%nat. split.
      + intros k Hk. rewrite HW by lia. rewrite (deg_mlins F 1 _ _ (deg_one F)) by lia. ring.
      + intro k. rewrite mlins_add, mlins_scale. unfold R. rewrite E, <- map_app, map_sz_blk, poles_of_sz.
        assert (mlins L one k = mlins (repeat (fst b) (length (snd b))) (mlins (pfe_poles (B1 ++ B2)) one) k) as ->; [|unfold P_Signal.sz; cbn [fst snd]; ring].
        rewrite <- mlins_app. apply mlins_perm. unfold L. rewrite EB.
        rewrite <- !poles_of_sz, !map_app. cbn [map]. symmetry. unfold P_Signal.sz at 3. apply poles_of_len_mid. }
  rewrite (leval_ev F num (length num + S (length L))) by lia.
  set (N := (length num + S (length L))%nat).
  transitivity (ev N (fun k => R k + mlins L one k) z); [apply ev_ext; intro k; unfold R; ring|].
  transitivity (ev N R z + ev N (mlins L one) z); [unfold P_Formal.ev; rewrite <- bsum_add; apply bsum_ext; intros; ring|].
  rewrite (ev_trunc F (length L + 1) N (mlins L one)), ev_mlins by (try (unfold N; lia); auto using deg_mlins, deg_one).
  rewrite (ev_ext F _ _ _ z HP), ev_ptot.
  - cbn [app]. rewrite map_sz_blk, poles_of_sz, pfe_sum_val. fold L. change (evprod F L z) with (rootprod L z).
    unfold P_Formal.ev, P_Formal.one. cbn. ring.
  - rewrite map_sz_blk, map_map. intros p Hp ->. contradiction.
  - cbn [app]. rewrite map_sz_blk. unfold tmult. rewrite poles_of_sz. fold L. unfold N. lia.
Qed.

(** ** The common part of sos2pfe *)
Variable close : F -> F -> bool.
Variable argsort : list F -> list nat.
Hypothesis Hsort : forall l, Permutation (argsort l) (seq 0 (length l)).
Variable re : F -> F.
Variable neg : F -> bool.
Variable csqrt : F -> F.

Definition reptB (b : F * list F) : bool := (1 <? length (snd b))%nat.
Definition simpB (b : F * list F) : bool := negb (reptB b).
Definition triple (v : bool) (b : F * list F) : F * nat * bool := (fst b, length (snd b), v).
Lemma rept_sz b : rept F (sz b) = reptB b. Proof. reflexivity. Qed.
Lemma simp_sz b : simp F (sz b) = simpB b. Proof. reflexivity. Qed.
Lemma filter_sz (f : F * nat -> bool) (g : F * list F -> bool) B : (forall b, f (sz b) = g b) -> filter f (map sz B) = map sz (filter g B).
Proof. intro H. induction B as [|b B IH]; [reflexivity|]. cbn [map filter]. rewrite H. destruct (g b); cbn [map]; now rewrite IH. Qed.
Definition bshB (B : list (F * list F)) : list nat := match B with [_] => [1%nat] | _ => [] end.

Lemma sos_prep v bb aa : bb <> [] -> length aa = length bb ->
  (forall a1 a2, In (a1, a2) aa -> neg (a1 * a1 - rnat 4 * a2) = v) ->
  (forall x y, In x (sos_roots F csqrt aa) -> In y (sos_roots F csqrt aa) -> close x y = true <-> x = y) ->
  exists u B num nrd blocks,
    unique_roots F close (sos_roots F csqrt aa) true RAvg (Some (sos_is_complex F neg aa)) = Ok u /\
    pick (0, 0%nat, false) (argsort (map (fun '(p, _, _) => p) u)) u = map (triple v) B /\
    NoDup (map fst B) /\ (forall b, In b B -> snd b <> []) /\ Permutation (pfe_poles B) (sos_roots F csqrt aa) /\
    polysmul z0 (quads bb) = Ok num /\
    match map (monomial F) (map fst (filter simpB B)) with [] => Ok [1] | ps => polysmul z0 ps end = Ok nrd /\
    mapM (repeated_block F z0 num nrd (map sz (filter reptB B))) (seq 0 (length (filter reptB B))) = Ok blocks /\
    Forall2 (fun ts b => Forall2 (fun u w => isv F u (bshB B) w) ts (rev (snd b))) blocks (filter reptB B) /\
    map (simple_residue F bb (map sz B)) (masked (map simpB B) (seq 0 (length B))) = concat (map snd (filter simpB B)) /\
    (forall z, ~ In z (sos_roots F csqrt aa) ->
       prodl F (map (fun '(b1, b2) => z * z + z * b1 + b2) bb) = rootprod (sos_roots F csqrt aa) z * (1 + pfe_val B z)) /\
    ((forall b1 b2, In (b1, b2) bb -> K b1 /\ K b2) -> Forall K (sos_roots F csqrt aa) -> Forall K (pfe_res B)) /\
    (forall B1 p r B2, B = B1 ++ (p, [r]) :: B2 ->
       r * rootprod (pfe_poles (B1 ++ B2)) p = prodl F (map (fun '(b1, b2) => p * p + p * b1 + b2) bb)).
Proof.
  intros Hbb Hlen Hneg Hcl. set (rts := sos_roots F csqrt aa) in *.
  assert (Hrl : length rts = (2 * length bb)%nat).
  { unfold rts. rewrite <- Hlen. clear. unfold sos_roots. induction aa as [|[a1 a2] aa IH]; [reflexivity|]. cbn [map concat app length] in *. rewrite IH. lia. }
  assert (Hr0 : rts <> []) by (intro E; rewrite E in Hrl; destruct bb; [congruence|cbn in Hrl; lia]).
  destruct (unique_roots_exact_gen F close Hchar v (Some (sos_is_complex F neg aa)) rts Hr0 Hcl) as (u & Eu & Hnd & Hm & HP & Hv).
  { unfold sos_is_complex. rewrite Hrl, <- Hlen. replace (2 * length aa)%nat with (length aa + length aa)%nat by lia.
    rewrite repeat_app.
    assert (repeat v (length aa) = map (fun '(a1, a2) => neg (a1 * a1 - rnat 4 * a2)) aa) as E; [|now rewrite <- E].
    clear - Hneg. induction aa as [|[a1 a2] aa IH]; [reflexivity|]. cbn [length repeat map]. rewrite (Hneg a1 a2) by now left. f_equal. apply IH. intros. apply Hneg. now right. }
  set (pk := pick (0, 0%nat, false) (argsort (map (fun '(p, _, _) => p) u)) u).
  assert (Ppk : Permutation pk u). { apply pick_perm. rewrite <- (map_length (fun '(p, _, _) => p) u). apply Hsort. }
  set (ufst := map (fun '(p, m, _) => (p, m)) : list (F * nat * bool) -> list (F * nat)) in *.
  set (l := ufst pk).
  assert (Pl : Permutation l (ufst u)) by (apply Permutation_map; exact Ppk).
  assert (Hndl : NoDup (map fst l)). { eapply Permutation_NoDup; [|exact Hnd]. apply Permutation_map. now symmetry. }
  assert (Hml : forall p m, In (p, m) l -> (1 <= m)%nat). { intros p m H. apply (Hm p m). now apply (Permutation_in _ Pl). }
  assert (HPl : Permutation (poles_of F l) rts). { rewrite <- HP. now apply poles_of_perm. }
  destruct (numerator_ok bb Hbb) as (num & En & Hn1 & Hn2 & Hn3 & Hn4).
  rewrite <- Hrl, <- (Permutation_length HPl) in Hn1, Hn2.
  destruct (polysmul_monos F z0 Hz0 (map fst (filter (simp F) l))) as (nrd & Er & Hr).
  assert (Hlead : lead F (length (poles_of F l)) (lcoef num)). { split; [exact Hn1|]. rewrite Hn2. apply r1_neq_r0. }
  pose proof (block_ex F z0 Hz0 Hchar K HK bb l num nrd Hndl Hml Hlead Hn3 Hr) as Hblk.
  destruct (choose F (fun l1 x l2 rs =>
    (exists W M, deg M W /\ forall k, lcoef num k = pterm F (fst x) (snd x) (fun j => gt (snd x - 1 - j) rs) (poles_of F (l1 ++ l2)) k + mlins (repeat (fst x) (snd x)) W k) /\
    (snd x = 1%nat -> rs = [simple_residue F bb l (length l1)]) /\
    ((1 < snd x)%nat -> exists ts, repeated_block F z0 num nrd (filter (rept F) l) (length (filter (rept F) l1)) = Ok ts /\
       Forall2 (fun u v => isv F u (bshape (length (poles_of F (l1 ++ l2)))) v) ts (rev rs)) /\
    ((forall k, K (lcoef num k)) -> (forall q k, In (q, k) l -> K q) -> Forall K rs)) l []) as (B & EB & HB).
  { intros l1 [p m] l2 El. destruct (Hblk l1 p m l2 El) as (rs & Hl & H). exists rs. split; [exact Hl|exact H]. }
  cbn [app] in HB.
  assert (HBf : map fst B = map fst l) by (rewrite <- EB, map_map; reflexivity).
  assert (HPB : Permutation (pfe_poles B) rts) by (rewrite <- sz_poles, EB; exact HPl).
  assert (Hsnd : forall b, In b B -> snd b <> []).
  { intros [p rs] Hin E. cbn in E. subst rs. specialize (Hml p 0%nat). assert (1 <= 0)%nat; [|lia]. apply Hml. rewrite <- EB.
    change (p, 0%nat) with (sz (p, [])). now apply in_map. }
  assert (Epk : pk = map (triple v) B).
  { assert (Hvp : forall x, In x pk -> snd x = v) by (intros x Hx; apply Hv; now apply (Permutation_in _ Ppk)).
    unfold l in EB. clear - EB Hvp. revert B EB. induction pk as [|[[p m] c] pk IH]; intros [|b B] EB; try discriminate; [reflexivity|].
    cbn [map] in EB |- *. injection EB as E1 E2 E3. f_equal; [|apply IH; [intros; apply Hvp; now right|exact E3]].
    unfold triple. specialize (Hvp _ (or_introl eq_refl)). cbn in Hvp. now rewrite E1, E2, Hvp. }
  rewrite <- EB, (filter_sz _ simpB) in Er by apply simp_sz. rewrite (map_map sz fst) in Er.
  change (map (fun x => fst (sz x)) (filter simpB B)) with (map fst (filter simpB B)) in Er.
  assert (Erept : filter (rept F) l = map sz (filter reptB B)) by (rewrite <- EB; apply filter_sz, rept_sz).
  destruct (mapM_split (repeated_block F z0 num nrd (map sz (filter reptB B)))
    (fun ts b => Forall2 (fun u w => isv F u (bshB B) w) ts (rev (snd b))) (filter reptB B) 0) as (blocks & Eb & Hb).
  { intros c1 b c2 Ec. destruct (filter_split_at _ _ _ _ _ Ec) as (B1 & B2 & E & E1 & E2 & Hb).
    destruct (HB B1 b B2 E) as (_ & _ & H & _). destruct H as (ts & Ets & Hts); [now apply Nat.ltb_lt|].
    exists ts. split.
    - rewrite <- Ets, Erept. f_equal. rewrite (filter_sz _ reptB) by apply rept_sz. now rewrite map_length, E1.
    - rewrite <- map_app, poles_of_sz in Hts. replace (bshB B) with (bshape (length (pfe_poles (B1 ++ B2)))); [exact Hts|].
      unfold bshape. subst B. destruct (B1 ++ B2) as [|b' B'] eqn:E12.
      + apply app_eq_nil in E12 as [-> ->]. reflexivity.
      + assert (In b' (B1 ++ b :: B2)) as Hin.
        { assert (In b' (B1 ++ B2)) as G by (rewrite E12; now left). apply in_app_or in G. apply in_or_app. destruct G; [now left|right; now right]. }
        specialize (Hsnd b' Hin). destruct b' as [p' [|x rs]]; [contradiction|]. cbn [pfe_poles map concat snd length repeat app Nat.eqb].
        destruct B1 as [|? [|? B1]], B2; cbn in E12 |- *; try reflexivity; discriminate. }
  exists u, B, num, nrd, blocks.
  split; [exact Eu|]. split; [exact Epk|]. split; [now rewrite HBf|]. split; [exact Hsnd|]. split; [exact HPB|]. split; [exact En|].
  split; [exact Er|]. split; [exact Eb|]. split; [exact Hb|]. split; [|split; [|split]].
  - rewrite EB. rewrite (masked_seq simpB (fun b => gt 0 (snd b))).
    + clear - Hsnd. induction B as [|b B IH]; [reflexivity|]. cbn [filter]. specialize (IH (fun b H => Hsnd b (or_intror H))).
      destruct (simpB b) eqn:E; [|exact IH]. cbn [map concat]. rewrite IH. specialize (Hsnd b (or_introl eq_refl)).
      unfold simpB, reptB in E. apply negb_true_iff, Nat.ltb_ge in E. destruct (snd b) as [|x [|y r]]; [congruence|reflexivity|cbn in E; lia].
    + intros B1 b B2 E Hs. destruct (HB B1 b B2 E) as (_ & H & _). cbn [Nat.add]. rewrite map_length in H.
      rewrite H; [reflexivity|]. unfold simpB, reptB in Hs. apply negb_true_iff, Nat.ltb_ge in Hs.
      assert (snd b <> []) as Hne by (apply Hsnd; rewrite E; apply in_or_app; right; now left). cbn [P_Signal.sz snd].
      unfold P_Signal.sz. cbn [snd]. destruct (snd b) as [|x [|y r]]; [congruence|reflexivity|cbn in Hs; lia].
  - intros z Hz. rewrite <- Hn3. rewrite (pfe_identity num B).
    + f_equal. exact (evprod_perm F _ _ z HPB).
    + now rewrite HBf.
    + now rewrite <- sz_poles, EB.
    + now rewrite <- sz_poles, EB.
    + intros B1 b B2 E. destruct (HB B1 b B2 E) as (H & _). rewrite <- map_app, poles_of_sz in H. exact H.
    + intro H. apply Hz. apply (Permutation_in _ HPB). apply in_map_iff in H as ([q rs] & <- & Hin).
      unfold pfe_poles. apply in_concat. exists (repeat q (length rs)). split; [apply in_map_iff; now exists (q, rs)|].
      specialize (Hsnd _ Hin). cbn in Hsnd. destruct rs; [congruence|]. now left.
  - intros Kb Kr. assert (forall b, In b B -> Forall K (snd b)) as H.
    { intros b Hin. destruct (in_split _ _ Hin) as (B1 & B2 & E). destruct (HB B1 b B2 E) as (_ & _ & _ & H). apply H; [now apply Hn4|].
      intros q k Hq. rewrite Forall_forall in Kr. apply Kr. apply (Permutation_in _ HPl). unfold poles_of. apply in_concat.
      exists (repeat q k). split; [apply in_map_iff; now exists (q, k)|]. specialize (Hml q k Hq). destruct k; [lia|]. now left. }
    unfold pfe_res. clear - H. induction B as [|b B IH]; [constructor|]. cbn [map concat]. apply Forall_app. split; [apply H; now left|apply IH; intros; apply H; now right].
  - intros B1 p r B2 E. destruct (HB B1 (p, [r]) B2 E) as (_ & H & _). specialize (H eq_refl). cbn [snd] in H. injection H as H.
    rewrite map_length in H. rewrite H. unfold simple_residue.
    assert (El : l = map sz B1 ++ (p, 1%nat) :: map sz B2) by (rewrite <- EB, E, map_app; reflexivity).
    assert (Hnth : nth (length B1) l (0, 0%nat) = (p, 1%nat)) by (rewrite El, <- (map_length sz B1); apply nth_middle).
    rewrite Hnth. cbn [fst]. pose proof (denom_others F (map sz B1) p 1 (map sz B2)) as D. cbv zeta in D. rewrite <- El, map_length in D. rewrite D.
    rewrite <- map_app, poles_of_sz. change (evprod F (pfe_poles (B1 ++ B2)) p) with (rootprod (pfe_poles (B1 ++ B2)) p).
    match goal with |- ?a * rinv ?b * _ = _ => transitivity (a * (rinv b * b)); [ring|]; rewrite rinv_l; [ring|] end.
    apply (evprod_ne0 F). intros q Hq ->. rewrite E in HBf. rewrite <- HBf in Hndl. exact (nodup_mid F _ _ _ _ Hndl Hq).
Qed.
End Sig4.
