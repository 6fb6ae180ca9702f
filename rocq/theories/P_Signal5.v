(** Proofs about prototype/signal.py: the output of sos2pfe. *)
From Coq Require Import List Arith Lia ZArith Bool Permutation Sorted Setoid Morphisms Ring.
From Verif Require Import Scalar Tensor TensorLemmas TensorOps TensorAlg TensorTac TensorList
  SpecPoly SpecPfe M_Poly P_Poly M_ProtoPoly P_ProtoPoly P_ProtoPoly2 P_Formal P_Series P_Taylor M_Signal P_Signal P_Signal2 P_Signal3 P_Signal4.
Import ListNotations.

(** ** Masks *)
Lemma masked_all {A C} (l : list A) : forall (s : list C), length l = length s -> masked (map (fun _ => true) s) l = l.
Proof. unfold masked. induction l as [|x l IH]; intros [|y s] H; try discriminate; [reflexivity|]. cbn [map combine filter fst snd]. f_equal. apply IH. now injection H. Qed.
Lemma masked_none {A C} (l : list A) : forall (s : list C), masked (map (fun _ => false) s) l = [].
Proof. unfold masked. induction l as [|x l IH]; intros [|y s]; try reflexivity. cbn [map combine filter fst snd]. apply IH. Qed.
Lemma masked_map2 {A B} (f : A -> bool) (g : A -> B) (l : list A) (m : list bool) (k : list B) :
  m = map f l -> k = map g l -> masked m k = map g (filter f l).
Proof. intros -> ->. apply masked_map. Qed.

Section Sig5.
Variable F : cfield.
Add Ring Rr : (r_th F).
Local Open Scope cr_scope.
Notation gt i p := (nth i p 0).
Notation sz := (sz F).
Notation sec := (F * F * F * (F * F * F))%type.
Definition vecl (y : tensor F) (l : list F) : Prop := is1 y (length l) (fun i => gt i l).
Definition coll (y : tensor F) (l : list F) : Prop := is2 y (length l) 1 (fun i _ => gt i l).

(** ** The section values *)
Definition gains (sos : list sec) : list F := map (fun '((b0, _, _), (a0, _, _)) => b0 * rinv a0) sos.
Definition bcoefs (sos : list sec) : list (F * F) := map (fun '((b0, b1, b2), _) => (b1 * rinv b0, b2 * rinv b0)) sos.
Definition acoefs (sos : list sec) : list (F * F) := map (fun '(_, (a0, a1, a2)) => (a1 * rinv a0, a2 * rinv a0)) sos.
Definition nz (sos : list sec) : Prop := forall b0 b1 b2 a0 a1 a2, In ((b0, b1, b2), (a0, a1, a2)) sos -> b0 <> 0 /\ a0 <> 0.
Notation mon z := (fun '(c1, c2) => z * z + z * c1 + c2).
Lemma quad_norm (c0 c1 c2 z : F) : c0 <> 0 -> quad (c0, c1, c2) z = c0 * (z * z + z * (c1 * rinv c0) + c2 * rinv c0).
Proof.
  intro H. unfold quad. transitivity (c0 * (z * z) + c1 * z * (rinv c0 * c0) + c2 * (rinv c0 * c0)); [|ring]. rewrite rinv_l by exact H. ring.
Qed.
Lemma prodl_cons x (l : list F) : prodl F (x :: l) = x * prodl F l. Proof. reflexivity. Qed.
Lemma sos_val_eq sos z : nz sos -> ~ sos_pole sos z ->
  sos_val sos z * prodl F (map (mon z) (acoefs sos)) = prodl F (gains sos) * prodl F (map (mon z) (bcoefs sos)).
Proof.
  induction sos as [|[[[b0 b1] b2] [[a0 a1] a2]] sos IH]; intros Hn Hp; [cbn; ring|].
  destruct (Hn b0 b1 b2 a0 a1 a2 (or_introl eq_refl)) as [Hb Ha].
  assert (IH' := IH (fun b0 b1 b2 a0 a1 a2 H => Hn b0 b1 b2 a0 a1 a2 (or_intror H))
                    ltac:(intros (s & H1 & H2); apply Hp; exists s; split; [now right|exact H2])).
  assert (Hq : quad (a0, a1, a2) z <> 0) by (intro E; apply Hp; exists ((b0, b1, b2), (a0, a1, a2)); split; [now left|exact E]).
  unfold gains, bcoefs, acoefs in *. cbn [map]. rewrite !prodl_cons. cbn [sos_val fold_right fst snd]. fold (sos_val sos z).
  set (A := prodl F (map (mon z) (map (fun '(_, (a0, a1, a2)) => (a1 * rinv a0, a2 * rinv a0)) sos))) in *.
  set (Bp := prodl F (map (mon z) (map (fun '(b0, b1, b2, _) => (b1 * rinv b0, b2 * rinv b0)) sos))) in *.
  set (G := prodl F (map (fun '(b0, _, _, (a0, _, _)) => b0 * rinv a0) sos)) in *.
  rewrite (quad_norm b0) by exact Hb.
  assert (E : rinv (quad (a0, a1, a2) z) * (z * z + z * (a1 * rinv a0) + a2 * rinv a0) = rinv a0).
  { transitivity (rinv a0 * (a0 * (z * z + z * (a1 * rinv a0) + a2 * rinv a0) * rinv (quad (a0, a1, a2) z))).
    - transitivity (rinv a0 * a0 * ((z * z + z * (a1 * rinv a0) + a2 * rinv a0) * rinv (quad (a0, a1, a2) z))); [rewrite rinv_l by exact Ha|]; ring.
    - rewrite <- quad_norm by exact Ha. transitivity (rinv a0 * (rinv (quad (a0, a1, a2) z) * quad (a0, a1, a2) z)); [ring|]. rewrite rinv_l by exact Hq. ring. }
  transitivity (b0 * (z * z + z * (b1 * rinv b0) + b2 * rinv b0) * (rinv (quad (a0, a1, a2) z) * (z * z + z * (a1 * rinv a0) + a2 * rinv a0)) * (sos_val sos z * A)); [ring|].
  rewrite E, IH'. ring.
Qed.

(** ** The roots *)
Variable csqrt : F -> F.
Hypothesis Hchar : forall m, (1 <= m)%nat -> rnat m <> r0 :> F.
Notation disc a1 a2 := (a1 * a1 - rnat 4 * a2).
Lemma half_ok : rinv (1 + 1) * (1 + 1) = 1 :> F.
Proof. apply rinv_l. intro H. apply (Hchar 2); [lia|]. transitivity (1 + 1 : F); [cbn [rnat]; ring|exact H]. Qed.
Lemma sos_roots_prod (aa : list (F * F)) z : (forall a1 a2, In (a1, a2) aa -> csqrt (disc a1 a2) * csqrt (disc a1 a2) = disc a1 a2) ->
  rootprod (sos_roots F csqrt aa) z = prodl F (map (mon z) aa).
Proof.
  induction aa as [|[a1 a2] aa IH]; intro H; [reflexivity|]. unfold sos_roots. cbn [map concat app]. fold (sos_roots F csqrt aa).
  rewrite prodl_cons, <- IH by (intros; apply H; now right).
  change (rootprod (?x :: ?y :: ?l) z) with ((z - x) * ((z - y) * rootprod l z)).
  specialize (H a1 a2 (or_introl eq_refl)). set (s := csqrt (disc a1 a2)) in *. set (h := rinv (1 + 1)).
  assert (Hh : h * (1 + 1) = 1) by exact half_ok.
  transitivity ((z * z + z * a1 * (h * (1 + 1)) + (a1 * a1 - s * s) * (h * h)) * rootprod (sos_roots F csqrt aa) z); [ring|].
  rewrite H, Hh. f_equal.
  transitivity (z * z + z * a1 + a2 * ((h * (1 + 1)) * (h * (1 + 1)))); [cbn [rnat]; ring|]. rewrite Hh. ring.
Qed.
Variable z0 : F -> bool.
Hypothesis Hz0 : forall x, z0 x = true <-> x = 0.
Lemma eq_dec (x y : F) : x = y \/ x <> y.
Proof.
  destruct (z0 (x - y)) eqn:E.
  - left. apply Hz0 in E. transitivity (x - y + y); [ring|]. rewrite E. ring.
  - right. intros ->. assert (z0 (y - y) = true) by (apply Hz0; ring). congruence.
Qed.
Lemma In_dec' (x : F) l : In x l \/ ~ In x l.
Proof.
  induction l as [|y l [IH|IH]]; [right; intros []|left; now right|].
  destruct (eq_dec x y) as [->|H]; [left; now left|]. right. intros [E|E]; [now apply H|contradiction].
Qed.
Lemma rootprod_0 (L : list F) z : In z L -> rootprod L z = 0.
Proof.
  induction L as [|p L IH]; [intros []|]. change (rootprod (p :: L) z) with ((z - p) * rootprod L z).
  intros [->|H]; [ring|]. rewrite IH by exact H. ring.
Qed.
Lemma sos_roots_app a b : sos_roots F csqrt (a ++ b) = sos_roots F csqrt a ++ sos_roots F csqrt b.
Proof. unfold sos_roots. now rewrite map_app, concat_app. Qed.
(** The poles are the roots. *)
Lemma sos_pole_iff sos z : nz sos ->
  (forall a1 a2, In (a1, a2) (acoefs sos) -> csqrt (disc a1 a2) * csqrt (disc a1 a2) = disc a1 a2) ->
  In z (sos_roots F csqrt (acoefs sos)) <-> sos_pole sos z.
Proof.
  intros Hn Hs. induction sos as [|[[[b0 b1] b2] [[a0 a1] a2]] sos IH]; [split; [intros []|intros (s & [] & _)]|].
  specialize (IH (fun b0 b1 b2 a0 a1 a2 H => Hn b0 b1 b2 a0 a1 a2 (or_intror H)) (fun a1 a2 H => Hs a1 a2 (or_intror H))).
  destruct (Hn b0 b1 b2 a0 a1 a2 (or_introl eq_refl)) as [_ Ha].
  set (c := (a1 * rinv a0, a2 * rinv a0)) in *.
  change (acoefs ((b0, b1, b2, (a0, a1, a2)) :: sos)) with ([c] ++ acoefs sos) in *. rewrite sos_roots_app.
  assert (E : quad (a0, a1, a2) z = a0 * rootprod (sos_roots F csqrt [c]) z).
  { rewrite sos_roots_prod; [rewrite quad_norm by exact Ha; cbn; ring|]. intros x y [Hx|[]]. apply Hs. now left. }
  split.
  - intro H. apply in_app_or in H as [H|H].
    + eexists. split; [now left|]. cbn [snd]. rewrite E, (rootprod_0 _ z H). ring.
    + apply IH in H as (s & H1 & H2). exists s. split; [now right|exact H2].
  - intros (s & [<-|H1] & H2).
    + cbn [snd] in H2. rewrite E in H2. apply in_or_app. left. destruct (In_dec' z (sos_roots F csqrt [c])) as [H|H]; [exact H|]. exfalso.
      revert H2. apply mul_ne0; [exact Ha|]. apply (evprod_ne0 F). intros p Hp ->. contradiction.
    + apply in_or_app. right. apply IH. now exists s.
Qed.

(** ** Tensors *)
Lemma vecl_lst1 l : vecl (lst1 0 l) l.
Proof. split; [reflexivity|]. intros i Hi. reflexivity. Qed.
Lemma cat0_vec l t l' : vecl t l' -> exists y, cat0 F [lst1 0 l; t] = Ok y /\ vecl y (l ++ l').
Proof.
  intros [Hs Ha]. unfold cat0. cbn [filter]. rewrite Hs. change (shape (lst1 0 l)) with [length l].
  assert (Hz : forall n, list_eqb [n] [0%nat] = (n =? 0)%nat) by (intro n; cbn; now rewrite andb_true_r).
  rewrite !Hz. destruct (Nat.eqb_spec (length l) 0) as [E|E], (Nat.eqb_spec (length l') 0) as [E'|E']; cbn [negb].
  - destruct l, l'; try discriminate. exists (zeros [0%nat]). split; [reflexivity|]. split; [reflexivity|]. intros i Hi. cbn in Hi. lia.
  - destruct l; [|discriminate]. unfold cat. cbn [forallb]. unfold rk. rewrite Hs. cbn [length Nat.ltb Nat.leb andb].
    eexists. split; [reflexivity|]. cbn [app]. split; [cbn; unfold size; now rewrite Hs|]. intros i Hi. cbn [at_ cat_at]. now apply Ha.
  - destruct l'; [|discriminate]. rewrite app_nil_r. unfold cat. cbn [forallb]. eexists. split; [reflexivity|]. apply vecl_lst1.
  - unfold cat. cbn [forallb]. unfold rk. rewrite Hs. change (shape (lst1 0 l)) with [length l]. cbn [length Nat.ltb Nat.leb Nat.eqb andb del list_eqb].
    eexists. split; [reflexivity|]. split.
    + cbn [shape upd cat_size]. unfold size. rewrite Hs, app_length. reflexivity.
    + intros i Hi. rewrite app_length in Hi. cbn [at_ cat_at nth upd]. change (size (lst1 0 l) 0) with (length l).
      destruct (Nat.ltb_spec i (length l)) as [H|H]; [rewrite app_nth1 by exact H; reflexivity|].
      rewrite app_nth2 by exact H. apply Ha. lia.
Qed.
Lemma cat0_col t l' : coll t l' -> exists y, cat0 F [lst1 0 []; t] = Ok y /\ coll y l'.
Proof.
  intros [Hs Ha]. unfold cat0. cbn [filter]. change (shape (lst1 0 [])) with [0%nat]. cbn [list_eqb Nat.eqb andb negb]. rewrite Hs.
  assert (list_eqb [length l'; 1%nat] [0%nat] = false) as -> by (cbn; now rewrite andb_false_r). cbn [negb].
  unfold cat. cbn [forallb]. unfold rk. rewrite Hs. cbn [length Nat.ltb Nat.leb andb].
  eexists. split; [reflexivity|]. split; [cbn; unfold size; now rewrite Hs|]. intros i j Hi Hj. cbn [at_ cat_at]. now apply Ha.
Qed.
Lemma tmap_vec (f : F -> F) t l : vecl t l -> vecl (tmap f t) (map f l).
Proof.
  intros [Hs Ha]. split; [cbn; now rewrite Hs, map_length|]. intros i Hi. rewrite map_length in Hi. cbn. rewrite (Ha i Hi).
  rewrite (nth_indep (map f l) 0 (f 0)) by (rewrite map_length; lia). now rewrite (map_nth f).
Qed.
Lemma tmap_coll (f : F -> F) t l : coll t l -> coll (tmap f t) (map f l).
Proof.
  intros [Hs Ha]. split; [cbn; now rewrite Hs, map_length|]. intros i j Hi Hj. rewrite map_length in Hi. cbn. rewrite (Ha i j Hi Hj).
  rewrite (nth_indep (map f l) 0 (f 0)) by (rewrite map_length; lia). now rewrite (map_nth f).
Qed.

(** ** sos2pfe, for sections of one class *)
Variable K : F -> Prop.
Hypothesis HK : subfield F K.
Variable close : F -> F -> bool.
Variable argsort : list F -> list nat.
Hypothesis Hsort : forall l, Permutation (argsort l) (seq 0 (length l)).
Variable re : F -> F.
Variable neg : F -> bool.
Notation simpB := (simpB F). Notation reptB := (reptB F). Notation triple := (triple F).
Definition Spart (B : list (F * list F)) := filter simpB B.
Definition Rpart (B : list (F * list F)) := filter reptB B.
Definition out_poles B : list F := map fst (Spart B) ++ pfe_poles (Rpart B).
Definition out_powers B : list nat := repeat 1%nat (length (Spart B)) ++ concat (map (fun b => downto (length (snd b))) (Rpart B)).
Definition out_res B : list F := concat (map snd (Spart B)) ++ concat (map (fun b => rev (snd b)) (Rpart B)).

Lemma spart_res B : (forall b, In b B -> snd b <> []) -> length (concat (map snd (Spart B))) = length (Spart B) /\
  map (fun b => [gt 0 (snd b)]) (Spart B) = map snd (Spart B).
Proof.
  intro H. unfold Spart. induction B as [|b B IH]; [split; reflexivity|]. specialize (IH (fun b Hb => H b (or_intror Hb))).
  specialize (H b (or_introl eq_refl)). cbn [filter]. destruct (simpB b) eqn:E; [|exact IH]. destruct IH as [IH1 IH2].
  cbn [map concat length]. rewrite app_length, IH1, IH2. unfold P_Signal4.simpB, P_Signal4.reptB in E. apply negb_true_iff, Nat.ltb_ge in E.
  destruct (snd b) as [|x [|y r]]; [congruence|split; reflexivity|cbn in E; lia].
Qed.
Section Core.
Variables (v : bool) (sos : list sec).
Hypothesis Hne : sos <> [].
Hypothesis Hnz : nz sos.
Hypothesis Hcls : forall a1 a2, In (a1, a2) (acoefs sos) -> neg (disc a1 a2) = v.
Hypothesis Hsq : forall a1 a2, In (a1, a2) (acoefs sos) -> csqrt (disc a1 a2) * csqrt (disc a1 a2) = disc a1 a2.
Hypothesis Hex : forall x y, sos_pole sos x -> sos_pole sos y -> close x y = true <-> x = y.
Notation rts := (sos_roots F csqrt (acoefs sos)).
Notation G0 := (expsumlog_real F neg (gains sos)).
Notation run := (sos2pfe F z0 close argsort re neg csqrt sos RAvg).

Theorem sos_core : exists B blocks,
  NoDup (map fst B) /\ (forall b, In b B -> snd b <> []) /\ Permutation (pfe_poles B) rts /\
  (exists L, Permutation L (map fst B) /\ map fst B = pick 0 (argsort L) L) /\
  Forall2 (fun ts b => Forall2 (fun u w => isv F u (bshB F B) w) ts (rev (snd b))) blocks (Rpart B) /\
  (forall z, ~ sos_pole sos z -> sos_val sos z = prodl F (gains sos) * (1 + pfe_val B z)) /\
  (Forall K (map fst (bcoefs sos)) -> Forall K (map snd (bcoefs sos)) -> Forall K rts -> Forall K (pfe_res B)) /\
  (forall B1 p r B2, B = B1 ++ (p, [r]) :: B2 -> r * rootprod (pfe_poles (B1 ++ B2)) p = prodl F (map (mon p) (bcoefs sos))) /\
  run =
    (let S := Spart B in let R := Rpart B in let sr := concat (map snd S) in
     if v then
       let* ' (cr, cp, cw) := match R with [] => Ok (zeros [0%nat], [], []) | _ => Err RuntimeError end in
       let* real_res := cat0 F [lst1 0 []; zeros [0%nat]] in
       let* cplx_res := cat0 F [lst1 0 sr; cr] in
       guard Nat.even (length (map fst S ++ cp)) else AssertionError in
       Ok (mkPfe F (scale F G0 real_res, [], []) (scale F G0 (every2 F cplx_res), every2l (map fst S ++ cp), every2l (repeat 1%nat (length S) ++ cw)) G0)
     else
       let* ' (rr, rp, rw) := match R with
         | [] => Ok (zeros [0%nat], [], [])
         | _ => let* rr := stack 0 (concat blocks) in Ok (tmap re rr, map re (pfe_poles R), concat (map (fun b => downto (length (snd b))) R)) end in
       let* real_res := cat0 F [lst1 0 (map re sr); rr] in
       let* cplx_res := cat0 F [lst1 0 []; zeros [0%nat]] in
       Ok (mkPfe F (scale F G0 real_res, map re (map fst S) ++ rp, repeat 1%nat (length S) ++ rw) (scale F G0 (every2 F cplx_res), [], []) G0)).
Proof.
  assert (Hbb : bcoefs sos <> []) by (destruct sos as [|s ss]; [congruence|discriminate]).
  assert (Hl : length (acoefs sos) = length (bcoefs sos)) by (unfold acoefs, bcoefs; now rewrite !map_length).
  assert (Hcl : forall x y, In x rts -> In y rts -> close x y = true <-> x = y).
  { intros x y Hx Hy. apply Hex; now apply (sos_pole_iff sos _ Hnz Hsq). }
  destruct (sos_prep F z0 Hz0 Hchar K HK close argsort Hsort neg csqrt v (bcoefs sos) (acoefs sos) Hbb Hl Hcls Hcl)
    as (u & B & num & nrd & blocks & Eu & Epk & Hnd & Hsnd & HP & En & Er & Eb & Hb & Esr & Hid & HKr & Hsf).
  exists B, blocks. split; [exact Hnd|]. split; [exact Hsnd|]. split; [exact HP|]. split; [|split; [exact Hb|split; [|split; [|split; [exact Hsf|]]]]].
  - set (L := map (fun '(p, _, _) => p) u) in *.
    assert (E : map fst B = pick 0 (argsort L) L).
    { transitivity (map (fun '(p, _, _) => p) (map (triple v) B)); [now rewrite map_map|]. rewrite <- Epk. unfold pick. rewrite map_map.
      apply map_ext. intro i. unfold L. change (0 : F) with ((fun '(p, _, _) => p) (0 : F, 0%nat, false)). now rewrite map_nth. }
    exists L. split; [|exact E]. rewrite E. symmetry. apply pick_perm, Hsort.
  - intros z Hz. assert (Hzr : ~ In z rts) by (intro H; apply Hz; now apply (sos_pole_iff sos _ Hnz Hsq)).
    pose proof (sos_val_eq sos z Hnz Hz) as E. rewrite (Hid z Hzr), <- sos_roots_prod in E by exact Hsq.
    apply (cancel_l F (rootprod rts z)); [apply (evprod_ne0 F); intros p Hp ->; contradiction|].
    transitivity (sos_val sos z * rootprod rts z); [ring|]. rewrite E. ring.
  - intros H1 H2 H3. apply HKr; [|exact H3]. intros b1 b2 Hin. rewrite Forall_forall in H1, H2. split; [apply H1|apply H2].
    + apply in_map_iff. now exists (b1, b2).
    + apply in_map_iff. now exists (b1, b2).
  - unfold sos2pfe. cbv zeta. fold (gains sos) (bcoefs sos) (acoefs sos). rewrite Eu. cbn [bind]. rewrite Epk.
    assert (Ep : map (fun '(p, m, _) => (p, m)) (map (triple v) B) = map sz B) by (rewrite map_map; reflexivity).
    assert (Ec : map (fun '(_, _, c) => c) (map (triple v) B) = map (fun _ => v) B) by (rewrite map_map; reflexivity).
    rewrite Ep, Ec, map_length.
    assert (Erep : map (fun '(_, m) => (1 <? m)%nat) (map sz B) = map reptB B) by (rewrite map_map; reflexivity).
    assert (Esim : map negb (map reptB B) = map simpB B) by (rewrite map_map; reflexivity).
    rewrite Erep, Esim, Esr, !masked_map.
    fold (Spart B) (Rpart B). rewrite (map_map sz fst). change (map (fun x => fst (sz x)) (Spart B)) with (map fst (Spart B)).
    destruct (spart_res B Hsnd) as [Hsl _].
    assert (Eneg : forall l : list (F * list F), map negb (map (fun _ => v) l) = map (fun _ => negb v) l) by (intro; rewrite map_map; reflexivity).
    rewrite !Eneg. fold (Spart B) in Er.
    assert (Ern : match map fst (Spart B) with [] => Ok [1] | _ :: _ => polysmul z0 (map (monomial F) (map fst (Spart B))) end = Ok nrd) by (rewrite <- Er; now destruct (map fst (Spart B))).
    assert (Hlb : length blocks = length (Rpart B)) by (clear - Hb; fold (Rpart B) in Hb; induction Hb; cbn; congruence).
    assert (Edn : forall l : list (F * list F), concat (map (fun '(_, m) => downto m) (map sz l)) = concat (map (fun b => downto (length (snd b))) l)) by (intro l; now rewrite map_map).
    assert (Erp : forall l : list (F * list F), repeat_poles F (map sz l) = pfe_poles l) by (intro l; unfold repeat_poles, pfe_poles; now rewrite map_map).
    destruct v; cbn [negb].
    + rewrite !masked_none, !masked_all by (rewrite ?Hsl, ?map_length; reflexivity). cbn [map fst snd]. rewrite ?(map_length re), (map_length fst (Spart B)).
      destruct (Rpart B) as [|b R] eqn:ER; [reflexivity|]. change (map sz (b :: R)) with (sz b :: map sz R). cbv iota. change (sz b :: map sz R) with (map sz (b :: R)).
      rewrite En. cbn [bind]. rewrite Ern. cbn [bind]. rewrite <- ER, map_length. fold (Rpart B) in Eb. rewrite Eb. cbn [bind].
      rewrite masked_none. reflexivity.
    + rewrite !masked_none, !masked_all by (rewrite ?Hsl, ?map_length; reflexivity). cbn [map fst snd]. rewrite ?(map_length re), (map_length fst (Spart B)).
      destruct (Rpart B) as [|b R] eqn:ER; [reflexivity|]. change (map sz (b :: R)) with (sz b :: map sz R). cbv iota. change (sz b :: map sz R) with (map sz (b :: R)).
      rewrite En. cbn [bind]. rewrite Ern. cbn [bind]. rewrite <- ER, map_length. fold (Rpart B) in Eb. rewrite Eb. cbn [bind].
      rewrite <- ER in Hlb. rewrite (masked_all blocks (Rpart B) Hlb), (masked_all (map sz (Rpart B)) (Rpart B)), !masked_none by apply map_length.
  rewrite !Edn, !Erp.
      destruct (stack 0 (concat blocks)); reflexivity.
Qed.

Lemma rts_len : length rts = (2 * length sos)%nat.
Proof. clear. unfold acoefs, sos_roots. induction sos as [|[? [[? ?] ?]] ss IH]; [reflexivity|]. cbn [map concat app length] in *. rewrite IH. lia. Qed.
Lemma simple_rts L : NoDup L -> length L = (2 * length sos)%nat -> (forall x, In x L -> sos_pole sos x) -> NoDup rts.
Proof.
  intros H1 H2 H3. apply (Permutation_NoDup (l := L)); [|exact H1]. apply NoDup_Permutation_bis; [exact H1|rewrite rts_len; lia|].
  intros x Hx. apply (sos_pole_iff sos x Hnz Hsq). auto.
Qed.
Lemma dec_nodup (l : list F) : NoDup l \/ exists x r, Permutation l (x :: x :: r).
Proof.
  induction l as [|x l [IH|(y & r & IH)]]; [left; constructor| |].
  - destruct (In_dec' x l) as [H|H]; [|left; now constructor]. right. apply in_split in H as (l1 & l2 & ->). exists x, (l1 ++ l2).
    constructor. symmetry. apply Permutation_middle.
  - right. exists y, (x :: r). rewrite IH. etransitivity; [apply perm_swap|]. constructor. apply perm_swap.
Qed.
Lemma double_rts : (forall L, NoDup L -> (forall x, In x L -> sos_pole sos x) -> (length L < 2 * length sos)%nat) -> exists x r, Permutation rts (x :: x :: r).
Proof.
  intro H. destruct (dec_nodup rts) as [Hn|Hd]; [|exact Hd]. exfalso. specialize (H rts Hn). rewrite rts_len in H.
  assert (2 * length sos < 2 * length sos)%nat; [|lia]. apply H. intros x Hx. now apply (sos_pole_iff sos x Hnz Hsq).
Qed.

(** All poles real. *)
Lemma pfe_val_cons (b : F * list F) B z : pfe_val (b :: B) z = bsum (length (snd b)) (fun j => gt j (snd b) * rinv (rpow (z - fst b) (S j))) + pfe_val B z.
Proof. reflexivity. Qed.
Lemma pfe_val_parts B z : pfe_val B z = pfe_val (Spart B) z + pfe_val (Rpart B) z.
Proof.
  unfold Spart, Rpart. induction B as [|b B IH]; [cbn; ring|]. cbn [filter]. unfold P_Signal4.simpB at 1.
  destruct (reptB b); cbn [negb]; rewrite !pfe_val_cons, IH; ring.
Qed.
Lemma terms_val_app (rs : list F) : forall ps ws rs' ps' ws' z, length rs = length ps -> length rs = length ws ->
  terms_val (rs ++ rs') (ps ++ ps') (ws ++ ws') z = terms_val rs ps ws z + terms_val rs' ps' ws' z.
Proof.
  induction rs as [|r rs IH]; intros [|p ps] [|w ws] rs' ps' ws' z H1 H2; try discriminate; [cbn; ring|].
  cbn [app terms_val]. rewrite IH by (try now injection H1; try now injection H2). ring.
Qed.
Lemma terms_val_scale (rs : list F) g z : forall ps ws, terms_val (map (fun x => x * g) rs) ps ws z = terms_val rs ps ws z * g.
Proof. induction rs as [|r rs IH]; intros [|p ps] [|w ws]; cbn [map terms_val]; try ring. rewrite IH. ring. Qed.
Lemma downto_S m : downto (S m) = S m :: downto m.
Proof. unfold downto. rewrite seq_S, rev_app_distr. reflexivity. Qed.
Lemma downto_len m : length (downto m) = m.
Proof. unfold downto. now rewrite rev_length, seq_length. Qed.
Lemma repeat_S_app (p : F) n : repeat p (n + 1) = p :: repeat p n.
Proof. now rewrite Nat.add_1_r. Qed.
Lemma terms_block (p : F) rs z : terms_val (rev rs) (repeat p (length rs)) (downto (length rs)) z =
  bsum (length rs) (fun j => gt j rs * rinv (rpow (z - p) (S j))) .
Proof.
  induction rs as [|x rs IH] using rev_ind; [reflexivity|].
  rewrite rev_app_distr, app_length. cbn [length rev app]. rewrite repeat_S_app, Nat.add_1_r, downto_S. cbn [terms_val]. rewrite IH.
  rewrite bsum_S, nth_middle. match goal with |- _ + ?a = ?b + _ => assert (a = b) as -> end; [|ring].
  apply bsum_ext. intros j Hj. now rewrite app_nth1 by exact Hj.
Qed.
Lemma concat_len {A C} (f : A -> list C) (g : A -> nat) l : (forall x, length (f x) = g x) -> length (concat (map f l)) = fold_right (fun x n => (g x + n)%nat) 0%nat l.
Proof. intro H. induction l as [|x l IH]; [reflexivity|]. cbn [map concat fold_right]. now rewrite app_length, IH, H. Qed.
Definition tot (B : list (F * list F)) : nat := fold_right (fun b n => (length (snd b) + n)%nat) 0%nat B.
Lemma out_lens B : (forall b, In b B -> snd b <> []) ->
  length (out_poles B) = (length (Spart B) + tot (Rpart B))%nat /\ length (out_powers B) = (length (Spart B) + tot (Rpart B))%nat /\
  length (out_res B) = (length (Spart B) + tot (Rpart B))%nat.
Proof.
  intro H. destruct (spart_res B H) as [Hl _]. unfold out_poles, out_powers, out_res, pfe_poles, tot.
  rewrite !app_length, Hl, map_length, repeat_length.
  rewrite (concat_len (fun b => repeat (fst b) (length (snd b))) (fun b => length (snd b))) by (intro; apply repeat_length).
  rewrite (concat_len (fun b => downto (length (snd b))) (fun b => length (snd b))) by (intro; apply downto_len).
  rewrite (concat_len (fun b => rev (snd b)) (fun b => length (snd b))) by (intro; apply rev_length). auto.
Qed.
Lemma terms_rept (R : list (F * list F)) z : terms_val (concat (map (fun b => rev (snd b)) R)) (pfe_poles R) (concat (map (fun b => downto (length (snd b))) R)) z = pfe_val R z.
Proof.
  induction R as [|b R IH]; [reflexivity|]. unfold pfe_poles. cbn [map concat]. fold (pfe_poles R).
  rewrite terms_val_app by (now rewrite rev_length, ?repeat_length, ?downto_len). rewrite IH, terms_block. reflexivity.
Qed.
Lemma terms_simp (S : list (F * list F)) z : (forall b, In b S -> exists r, snd b = [r]) -> terms_val (concat (map snd S)) (map fst S) (repeat 1%nat (length S)) z = pfe_val S z.
Proof.
  induction S as [|b S IH]; intro H; [reflexivity|]. destruct (H b (or_introl eq_refl)) as [r E].
  cbn [map concat length repeat]. rewrite E. cbn [app terms_val]. rewrite IH by (intros; apply H; now right).
  unfold pfe_val at 2. cbn [fold_right]. fold (pfe_val S z). rewrite E. cbn [length bsum nth]. ring.
Qed.
Lemma spart_single B b : (forall b, In b B -> snd b <> []) -> In b (Spart B) -> exists r, snd b = [r].
Proof.
  intros H Hb. unfold Spart in Hb. apply filter_In in Hb as [Hb E]. specialize (H b Hb). unfold P_Signal4.simpB, P_Signal4.reptB in E.
  apply negb_true_iff, Nat.ltb_ge in E. destruct (snd b) as [|x [|y r]]; [congruence|now exists x|cbn in E; lia].
Qed.
Lemma terms_out B z : (forall b, In b B -> snd b <> []) -> terms_val (out_res B) (out_poles B) (out_powers B) z = pfe_val B z.
Proof.
  intro H. destruct (spart_res B H) as [Hl _]. unfold out_res, out_poles, out_powers.
  rewrite terms_val_app by (now rewrite Hl, ?map_length, ?repeat_length).
  rewrite terms_rept, terms_simp, <- pfe_val_parts; [reflexivity|]. intros b. now apply spart_single.
Qed.
Lemma pfe_poles_parts B : (forall b, In b B -> snd b <> []) -> Permutation (out_poles B) (pfe_poles B).
Proof.
  intro H. unfold out_poles, Spart, Rpart, pfe_poles. induction B as [|b B IH]; [constructor|].
  specialize (IH (fun b Hb => H b (or_intror Hb))). specialize (H b (or_introl eq_refl)). cbn [filter]. unfold P_Signal4.simpB at 1. destruct (reptB b) eqn:E; cbn [negb map concat].
  - rewrite app_assoc, (Permutation_app_comm (map fst _)), <- app_assoc. now apply Permutation_app_head.
  - unfold P_Signal4.reptB in E. apply Nat.ltb_ge in E. destruct (snd b) as [|x [|y r]]; [congruence| |cbn in E; lia]. cbn [length repeat app]. now constructor.
Qed.
Lemma pfe_res_parts B : (forall b, In b B -> snd b <> []) -> Permutation (out_res B) (pfe_res B).
Proof.
  intro H. unfold out_res, Spart, Rpart, pfe_res. induction B as [|b B IH]; [constructor|].
  specialize (IH (fun b Hb => H b (or_intror Hb))). specialize (H b (or_introl eq_refl)). cbn [filter]. unfold P_Signal4.simpB at 1. destruct (reptB b) eqn:E; cbn [negb map concat].
  - rewrite app_assoc, (Permutation_app_comm (concat (map snd _))), <- app_assoc. apply Permutation_app; [symmetry; apply Permutation_rev|exact IH].
  - rewrite <- app_assoc. now apply Permutation_app_head.
Qed.
Lemma combine_app' {A C} (a a' : list A) (b b' : list C) : length a = length b -> combine (a ++ a') (b ++ b') = combine a b ++ combine a' b'.
Proof. revert b. induction a as [|x a IH]; intros [|y b] H; try discriminate; [reflexivity|]. cbn. f_equal. apply IH. now injection H. Qed.
Lemma combine_fst_in {A C} (a : list A) (b : list C) x : In x (combine a b) -> In (fst x) a.
Proof. destruct x. apply in_combine_l. Qed.
Lemma nodup_app {A} (a b : list A) : NoDup a -> NoDup b -> (forall x, In x a -> ~ In x b) -> NoDup (a ++ b).
Proof.
  intros Ha Hb H. induction Ha as [|x a Hx Ha IH]; [exact Hb|]. cbn. constructor.
  - intro G. apply in_app_or in G as [G|G]; [contradiction|]. apply (H x); [now left|exact G].
  - apply IH. intros y Hy. apply H. now right.
Qed.
Lemma pairs_rept (R : list (F * list F)) : NoDup (map fst R) -> NoDup (combine (pfe_poles R) (concat (map (fun b => downto (length (snd b))) R))).
Proof.
  induction R as [|b R IH]; intro H; [constructor|]. inversion H as [|x y H1 H2]; subst x y.
  unfold pfe_poles. cbn [map concat]. fold (pfe_poles R). rewrite combine_app' by (now rewrite repeat_length, downto_len).
  apply nodup_app; [|now apply IH|].
  - assert (E : forall m, combine (repeat (fst b) m) (downto m) = map (fun j => (fst b, j)) (downto m)).
    { intro m. induction m as [|m IHm]; [reflexivity|]. rewrite downto_S. cbn [repeat combine map]. now rewrite IHm. }
    rewrite E. apply FinFun.Injective_map_NoDup; [intros i j Hij; now injection Hij|]. unfold downto. apply NoDup_rev, seq_NoDup.
  - intros x Hx Hx'. apply combine_fst_in in Hx, Hx'. apply repeat_spec in Hx. rewrite Hx in Hx'. apply H1.
    unfold pfe_poles in Hx'. apply in_concat in Hx' as (l & Hl & Hx'). apply in_map_iff in Hl as (b' & <- & Hb'). apply repeat_spec in Hx'.
    rewrite Hx'. now apply in_map.
Qed.
Lemma filter_nodup (f : F * list F -> bool) B : NoDup (map fst B) -> NoDup (map fst (filter f B)).
Proof.
  induction B as [|b B IH]; intro H; [constructor|]. inversion H as [|x y H1 H2]; subst x y. cbn [filter]. destruct (f b); [|now apply IH].
  cbn [map]. constructor; [|now apply IH]. intro G. apply H1. apply in_map_iff in G as (b' & <- & Hb'). apply filter_In in Hb' as [Hb' _]. now apply in_map.
Qed.
Lemma pairs_out B : NoDup (map fst B) -> NoDup (combine (out_poles B) (out_powers B)).
Proof.
  intro H. unfold out_poles, out_powers. rewrite combine_app' by (now rewrite map_length, repeat_length). apply nodup_app.
  - assert (E : forall S : list (F * list F), combine (map fst S) (repeat 1%nat (length S)) = map (fun b => (fst b, 1%nat)) S) by (induction S; cbn; congruence).
    rewrite E. apply (NoDup_map_inv fst). rewrite map_map. now apply (filter_nodup simpB).
  - apply pairs_rept. now apply filter_nodup.
  - intros x Hx Hx'. apply combine_fst_in in Hx, Hx'. apply in_map_iff in Hx as (b & Eb & Hb).
    unfold pfe_poles in Hx'. apply in_concat in Hx' as (l & Hl & Hx'). apply in_map_iff in Hl as (b' & <- & Hb'). apply repeat_spec in Hx'.
    unfold Spart, Rpart in *. apply filter_In in Hb as [Hb Sb], Hb' as [Hb' Rb'].
    assert (fst b = fst b') as E by congruence. revert Sb Rb' E. clear - H Hb Hb'. intros Sb Rb' E.
    assert (b = b'); [|subst b'; unfold P_Signal4.simpB in Sb; rewrite Rb' in Sb; discriminate].
    revert H Hb Hb' E. clear. induction B as [|c B IH]; intros H Hb Hb' E; [destruct Hb|]. inversion H as [|x y H1 H2]; subst x y.
    destruct Hb as [->|Hb], Hb' as [->|Hb']; auto.
    + exfalso. apply H1. rewrite E. now apply in_map.
    + exfalso. apply H1. rewrite <- E. now apply in_map.
Qed.
Lemma powers_pos B w : In w (out_powers B) -> (1 <= w)%nat.
Proof.
  unfold out_powers. intro H. apply in_app_or in H as [H|H]; [apply repeat_spec in H; lia|].
  apply in_concat in H as (l & Hl & H). apply in_map_iff in Hl as (b & <- & _). unfold downto in H. apply in_rev, in_seq in H. lia.
Qed.
Lemma map_re (Hre : forall x, K x -> re x = x) l : Forall K l -> map re l = l.
Proof. induction 1 as [|x l Hx H IH]; [reflexivity|]. cbn. now rewrite Hre, IH. Qed.
Lemma Forall2_concat2 {A C} (P : A -> C -> Prop) (ls : list (list A)) (B : list (F * list C)) :
  Forall2 (fun ts b => Forall2 P ts (rev (snd b))) ls B -> Forall2 P (concat ls) (concat (map (fun b => rev (snd b)) B)).
Proof. induction 1; [constructor|]. cbn [concat map]. now apply Forall2_app. Qed.

Theorem sos_real : v = false -> (forall x, K x -> re x = x) -> Forall K (map fst (bcoefs sos)) -> Forall K (map snd (bcoefs sos)) -> Forall K rts ->
  existsb neg (gains sos) = false ->
  exists y rs ps ws e, run = Ok (mkPfe F (Some y, ps, ws) (Some e, [], []) (Some (prodl F (gains sos)))) /\
    shape e = [0%nat] /\ length rs = length ps /\ length ws = length ps /\ Permutation ps rts /\ NoDup (combine ps ws) /\
    (forall w, In w ws -> (1 <= w)%nat) /\
    (forall z, ~ sos_pole sos z -> sos_val sos z = prodl F (gains sos) + terms_val rs ps ws z) /\
    ((exists p q, sos_pole sos p /\ sos_pole sos q /\ p <> q) -> vecl y rs) /\
    ((forall p q, sos_pole sos p -> sos_pole sos q -> p = q) -> coll y rs).
Proof.
  intros Hv Hre K1 K2 K3 Hg. destruct sos_core as (B & blocks & Hnd & Hsnd & HP & _ & Hb & Hval & HKr & _ & E). subst v. cbv zeta in E.
  specialize (HKr K1 K2 K3). unfold expsumlog_real in E. rewrite Hg in E.
  assert (HPo : Permutation (out_poles B) rts) by (now rewrite pfe_poles_parts).
  assert (Kp : Forall K (out_poles B)) by (rewrite HPo; exact K3).
  assert (Kr : Forall K (out_res B)) by (now rewrite pfe_res_parts).
  unfold out_poles in Kp. apply Forall_app in Kp as [Kp1 Kp2]. unfold out_res in Kr. apply Forall_app in Kr as [Kr1 Kr2].
  rewrite !(map_re Hre) in E by assumption.
  set (g := prodl F (gains sos)) in *.
  destruct (cat0_vec [] (zeros [0%nat]) []) as (e & Ee & Hee); [split; [reflexivity|intros i Hi; cbn in Hi; lia]|]. cbn [app] in Hee.
  destruct (out_lens B Hsnd) as (L1 & L2 & L3).
  assert (Hgoal : forall y ps ws, run = Ok (mkPfe F (Some (tmap (fun x => x * g) y), ps, ws) (scale F (Some g) (every2 F e), [], []) (Some g)) ->
     ps = out_poles B -> ws = out_powers B ->
     ((exists p q, sos_pole sos p /\ sos_pole sos q /\ p <> q) -> vecl y (out_res B)) ->
     ((forall p q, sos_pole sos p -> sos_pole sos q -> p = q) -> coll y (out_res B)) ->
     exists y rs ps ws e, run = Ok (mkPfe F (Some y, ps, ws) (Some e, [], []) (Some g)) /\
       shape e = [0%nat] /\ length rs = length ps /\ length ws = length ps /\ Permutation ps rts /\ NoDup (combine ps ws) /\
       (forall w, In w ws -> (1 <= w)%nat) /\
       (forall z, ~ sos_pole sos z -> sos_val sos z = g + terms_val rs ps ws z) /\
       ((exists p q, sos_pole sos p /\ sos_pole sos q /\ p <> q) -> vecl y rs) /\
       ((forall p q, sos_pole sos p -> sos_pole sos q -> p = q) -> coll y rs)).
  { intros y ps ws Er -> -> H1 H2. exists (tmap (fun x => x * g) y), (map (fun x => x * g) (out_res B)), (out_poles B), (out_powers B). eexists.
    split; [exact Er|]. split; [cbn; now rewrite (proj1 Hee)|]. split; [rewrite map_length; congruence|]. split; [congruence|]. split; [exact HPo|].
    split; [now apply pairs_out|]. split; [intro; apply powers_pos|]. split; [|split].
    - intros z Hz. rewrite (Hval z Hz), terms_val_scale, terms_out by exact Hsnd. ring.
    - intro H. apply tmap_vec; auto.
    - intro H. apply tmap_coll; auto. }
  assert (Hpole : forall b, In b B -> sos_pole sos (fst b)).
  { intros b Hin. apply (sos_pole_iff sos _ Hnz Hsq). apply (Permutation_in _ HP). unfold pfe_poles. apply in_concat. exists (repeat (fst b) (length (snd b))).
    split; [apply in_map_iff; now exists b|]. specialize (Hsnd b Hin). destruct (snd b); [congruence|now left]. }
  assert (Hin : forall p, sos_pole sos p -> In p (map fst B)).
  { intros p Hp. apply (sos_pole_iff sos _ Hnz Hsq) in Hp. apply (Permutation_in _ (Permutation_sym HP)) in Hp. unfold pfe_poles in Hp. apply in_concat in Hp as (l & Hl & Hp).
    apply in_map_iff in Hl as (b & <- & Hb'). apply repeat_spec in Hp as ->. now apply in_map. }
  assert (Hone : (forall p q, sos_pole sos p -> sos_pole sos q -> p = q) -> exists b, B = [b]).
  { intro H. destruct B as [|b [|b' B']]; [|now exists b|].
    - exfalso. apply Permutation_length in HP. unfold pfe_poles in HP. cbn in HP. destruct sos as [|[? [[? ?] ?]] ss]; [congruence|discriminate].
    - exfalso. inversion Hnd as [|x y H1 H2]; subst x y. apply H1. rewrite (H (fst b) (fst b')); [now left|apply Hpole; now left|apply Hpole; right; now left]. }
  assert (HP2 : (2 <= length rts)%nat).
  { destruct sos as [|[? [[? ?] ?]] ss]; [congruence|]. cbn. lia. }
  destruct (Rpart B) as [|b R] eqn:ER.
  - cbn [bind] in E. destruct (cat0_vec (concat (map snd (Spart B))) (zeros [0%nat]) []) as (y & Ey & Hy); [split; [reflexivity|intros i Hi; cbn in Hi; lia]|].
    rewrite Ey in E. cbn [bind] in E. rewrite Ee in E. cbn [bind scale] in E.
    assert (Eo : out_res B = concat (map snd (Spart B)) ++ []) by (unfold out_res; now rewrite ER).
    apply (Hgoal y _ _ E).
    + unfold out_poles. now rewrite ER.
    + unfold out_powers. now rewrite ER.
    + intros _. now rewrite Eo.
    + intro H. destruct (Hone H) as [b' ->]. exfalso. unfold Rpart in ER. cbn [filter] in ER. destruct (reptB b') eqn:Er; [discriminate|].
      unfold P_Signal4.reptB in Er. apply Nat.ltb_ge in Er. apply Permutation_length in HP. unfold pfe_poles in HP. cbn in HP. rewrite app_nil_r, repeat_length in HP. lia.
  - rewrite <- ER in *.
    assert (Hcat : concat blocks <> []).
    { intro Z. apply Forall2_concat2 in Hb. rewrite Z in Hb. destruct (concat (map (fun b => rev (snd b)) (Rpart B))) eqn:Hb'; [|inversion Hb]. rewrite ER in Hb'. cbn [map concat] in Hb'. apply app_eq_nil in Hb' as [Hb' _].
      assert (In b (Rpart B)) as Hbin by (rewrite ER; now left). unfold Rpart in Hbin. apply filter_In in Hbin as [Hbin _]. apply (Hsnd b Hbin).
      apply (f_equal (@length _)) in Hb'. rewrite rev_length in Hb'. now destruct (snd b). }
    apply Forall2_concat2 in Hb.
    assert (Eps : map fst (Spart B) ++ pfe_poles (Rpart B) = out_poles B) by reflexivity.
    destruct B as [|b1 [|b2 B']] eqn:EB.
    + discriminate.
    + unfold bshB in Hb. destruct (isv_stack1 F _ _ Hb Hcat) as (y & Ey & Hy). rewrite Ey in E. cbn [bind] in E.
      assert (ES : Spart [b1] = []).
      { unfold Rpart in ER. unfold Spart. cbn [filter] in *. unfold P_Signal4.simpB. destruct (reptB b1); [reflexivity|discriminate]. }
      destruct (cat0_col (tmap re y) (concat (map (fun b => rev (snd b)) (Rpart [b1])))) as (y' & Ey' & Hy').
      { rewrite <- (map_re Hre (concat (map (fun b => rev (snd b)) (Rpart [b1])))) by assumption. apply tmap_coll. exact Hy. }
      rewrite ES in E. cbn [map concat] in E. rewrite Ey' in E. cbn [bind] in E. rewrite Ee in E. cbn [bind scale] in E.
      apply (Hgoal y' _ _ E).
      * unfold out_poles. now rewrite ES.
      * unfold out_powers. now rewrite ES.
      * intros (p & q & Hp & Hq & Hpq). exfalso. apply Hpq. apply Hin in Hp, Hq. cbn in Hp, Hq. destruct Hp as [<-|[]], Hq as [<-|[]]. reflexivity.
      * intros _. unfold out_res. rewrite ES. exact Hy'.
    + rewrite <- EB in *. assert (bshB F B = []) as Ebs by (now rewrite EB). rewrite Ebs in Hb.
      destruct (isv_stack F _ _ Hb Hcat) as (y & Ey & Hy). rewrite Ey in E. cbn [bind] in E.
      destruct (cat0_vec (concat (map snd (Spart B))) (tmap re y) (concat (map (fun b => rev (snd b)) (Rpart B)))) as (y' & Ey' & Hy').
      { rewrite <- (map_re Hre (concat (map (fun b => rev (snd b)) (Rpart B)))) by assumption. apply tmap_vec. exact Hy. }
      rewrite Ey' in E. cbn [bind] in E. rewrite Ee in E. cbn [bind scale] in E.
      apply (Hgoal y' _ _ E); auto.
      intro H. destruct (Hone H) as [b' Hb']. rewrite Hb' in EB. discriminate.
Qed.

(** All poles complex. *)
Theorem sos_cplx_repeated x r : v = true -> Permutation rts (x :: x :: r) -> run = Err RuntimeError.
Proof.
  intros Hv Hr. destruct sos_core as (B & blocks & Hnd & Hsnd & HP & _ & Hb & Hval & _ & _ & E). subst v. cbv zeta in E. rewrite E.
  destruct (block_double_ex F B rts Hnd HP x r Hr) as (rs & Hin & Hl).
  assert (G : In (x, rs) (Rpart B)) by (apply filter_In; split; [exact Hin|apply Nat.ltb_lt; exact Hl]).
  destruct (Rpart B); [destruct G|reflexivity].
Qed.
Section Cplx.
Variable cj : F -> F.
Hypothesis Hcadd : forall x y, cj (x + y) = cj x + cj y.
Hypothesis Hcmul : forall x y, cj (x * y) = cj x * cj y.
Hypothesis HcK : forall x, K x -> cj x = x.
Lemma cj_opp x : cj (- x) = - cj x.
Proof.
  assert (H : cj (- x) + cj x = 0) by (rewrite <- Hcadd; transitivity (cj 0); [f_equal; ring|apply HcK, HK]).
  transitivity (cj (- x) + cj x - cj x); [ring|]. rewrite H. ring.
Qed.
Lemma cj_sub x y : cj (x - y) = cj x - cj y.
Proof. transitivity (cj (x + - y)); [f_equal; ring|]. rewrite Hcadd, cj_opp. ring. Qed.
Lemma cj_rootprod L z : cj (rootprod L z) = rootprod (map cj L) (cj z).
Proof.
  induction L as [|p L IH]; [apply HcK, HK|]. cbn [map]. change (rootprod (?x :: ?l) ?y) with ((y - x) * rootprod l y).
  now rewrite Hcmul, cj_sub, IH.
Qed.
Hypothesis KB1 : Forall K (map fst (bcoefs sos)).
Hypothesis KB2 : Forall K (map snd (bcoefs sos)).
Hypothesis KA : Forall K (map fst (acoefs sos)).
Hypothesis KG : Forall K (gains sos).
Hypothesis Hcs : forall a1 a2, In (a1, a2) (acoefs sos) -> cj (csqrt (disc a1 a2)) = - csqrt (disc a1 a2).
Lemma cj_mon p : cj (prodl F (map (mon p) (bcoefs sos))) = prodl F (map (mon (cj p)) (bcoefs sos)).
Proof.
  revert KB1 KB2. generalize (bcoefs sos). induction l as [|[b1 b2] l IH]; intros H1 H2; [apply HcK, HK|].
  inversion H1 as [|? ? G1 G2]; subst. inversion H2 as [|? ? G3 G4]; subst. cbn [fst snd] in *.
  cbn [map]. rewrite !prodl_cons, Hcmul, IH by assumption. now rewrite !Hcadd, !Hcmul, (HcK b1), (HcK b2).
Qed.
Lemma cj_rts : Permutation (map cj rts) rts.
Proof.
  assert (Kh : K (rinv (1 + 1))) by (apply (Kinv F K HK), (Kadd F K HK); apply (K1 F K HK)).
  revert KA Hcs. generalize (acoefs sos). induction l as [|[a1 a2] l IH]; intros H1 H2; [constructor|].
  inversion H1 as [|? ? G1 G2]; subst. cbn [fst] in G1. unfold sos_roots. cbn [map concat app]. fold (sos_roots F csqrt l).
  rewrite !Hcmul, cj_sub, Hcadd, cj_opp, (HcK a1 G1), (HcK _ Kh), (H2 a1 a2) by now left.
  set (s := csqrt (disc a1 a2)). set (h := rinv (1 + 1)).
  replace (- a1 - - s) with (- a1 + s) by ring. replace (- a1 + - s) with (- a1 - s) by ring.
  etransitivity; [apply perm_swap|]. do 2 constructor. apply IH; [exact G2|]. intros. apply H2. now right.
Qed.
Notation pairs_val := (SpecPfe.pairs_val cj).
Notation dup Q := (flat_map (fun p => [p; cj p]) Q).
Lemma dup_blocks B0 : (forall b b', In b B0 -> In b' B0 -> fst b' = cj (fst b) -> forall r r', snd b = [r] -> snd b' = [r'] -> r' = cj r) ->
  (forall b, In b B0 -> length (snd b) = 1%nat) ->
  forall Q B, (forall b, In b B -> In b B0) -> map fst B = dup Q ->
  exists rs, length rs = length Q /\ map fst B = dup Q /\ map snd B = flat_map (fun r => [[r]; [cj r]]) rs.
Proof.
  intros Hc H1. induction Q as [|p Q IH]; intros B HB E.
  - destruct B; [|discriminate]. now exists [].
  - destruct B as [|b [|b' B]]; try discriminate. cbn [flat_map app map] in E. injection E as E1 E2 E3.
    destruct (IH B (fun b Hb => HB b (or_intror (or_intror Hb))) E3) as (rs & L & E4 & E5).
    pose proof (HB b (or_introl eq_refl)) as Hb. pose proof (HB b' (or_intror (or_introl eq_refl))) as Hb'.
    pose proof (H1 _ Hb) as L1. pose proof (H1 _ Hb') as L2.
    destruct (snd b) as [|r [|]] eqn:Er; try discriminate. destruct (snd b') as [|r' [|]] eqn:Er'; try discriminate.
    assert (r' = cj r) as -> by (apply (Hc b b'); auto; congruence).
    exists (r :: rs). split; [cbn; now rewrite L|]. split; [cbn [map flat_map app]; now rewrite E1, E2, E4|].
    cbn [map flat_map app]. now rewrite Er, Er', E5.
Qed.
Lemma dup_val rs : forall Q B z, length rs = length Q -> map fst B = dup Q -> map snd B = flat_map (fun r => [[r]; [cj r]]) rs ->
  pfe_val B z = pairs_val rs Q z.
Proof.
  induction rs as [|r rs IH]; intros [|p Q] B z L E1 E2; try discriminate.
  - destruct B; [reflexivity|discriminate].
  - destruct B as [|b [|b' B]]; try discriminate. cbn [flat_map app map] in E1, E2. injection E1 as A1 A2 A3. injection E2 as D1 D2 D3.
    rewrite !pfe_val_cons, (IH Q B z) by (auto; now injection L). rewrite D1, D2, A1, A2. cbn [length bsum nth SpecPfe.pairs_val].
    assert (forall x, rpow x 1 = x :> F) as Hp by (intro; cbn; ring). rewrite !Hp. ring.
Qed.
Lemma every2l_dup {A} (f : A -> A) l : every2l (flat_map (fun x => [x; f x]) l) = l.
Proof. induction l as [|x l IH]; [reflexivity|]. cbn. now rewrite IH. Qed.
Lemma vec_every2 y rs : vecl y (flat_map (fun r => [r; cj r]) rs) -> vecl (every2 F y) rs.
Proof.
  assert (Hl : length (flat_map (fun r => [r; cj r]) rs) = (2 * length rs)%nat) by (clear; induction rs as [|r rs IH]; [reflexivity|]; cbn [flat_map app length]; rewrite IH; lia).
  assert (Hn : forall i, (i < length rs)%nat -> gt (2 * i) (flat_map (fun r => [r; cj r]) rs) = gt i rs).
  { clear. induction rs as [|r rs IH]; intros i Hi; [cbn in Hi; lia|]. destruct i as [|i]; [reflexivity|].
    replace (2 * S i)%nat with (S (S (2 * i))) by lia. cbn [flat_map app nth]. apply IH. cbn in Hi. lia. }
  intros [Hs Ha]. split.
  - cbn [every2 shape]. rewrite Hs, Hl. cbn [upd]. f_equal. replace (2 * length rs + 1)%nat with (1 + length rs * 2)%nat by lia. now rewrite Nat.div_add.
  - intros i Hi. cbn [every2 at_ upd]. rewrite Ha by lia. now apply Hn.
Qed.
Lemma pairs_val_scale g rs z : cj g = g -> forall ps, pairs_val (map (fun x => x * g) rs) ps z = pairs_val rs ps z * g.
Proof. intro Hg. induction rs as [|r rs IH]; intros [|p ps]; cbn [map SpecPfe.pairs_val]; try ring. rewrite IH, Hcmul, Hg. ring. Qed.

Theorem sos_cplx : v = true -> NoDup rts -> existsb neg (gains sos) = false ->
  (forall L, NoDup L -> (forall x, In x L <-> sos_pole sos x) -> exists Q, pick 0 (argsort L) L = dup Q) ->
  exists y rs ps e, run = Ok (mkPfe F (Some e, [], []) (Some y, ps, repeat 1%nat (length ps)) (Some (prodl F (gains sos)))) /\
    shape e = [0%nat] /\ length rs = length ps /\ vecl y rs /\ Permutation (dup ps) rts /\
    (forall z, ~ sos_pole sos z -> sos_val sos z = prodl F (gains sos) + pairs_val rs ps z).
Proof.
  intros Hv Hnr Hg Hadj. destruct sos_core as (B & blocks & Hnd & Hsnd & HP & (L & HL1 & HL2) & _ & Hval & _ & Hsf & E). subst v. cbv zeta in E.
  assert (Hone := blocks_simple F B rts HP Hsnd Hnr).
  assert (HPf : pfe_poles B = map fst B).
  { unfold pfe_poles. clear - Hone. induction B as [|b B IH]; [reflexivity|]. cbn [map concat]. rewrite (Hone b) by now left. cbn [repeat app]. f_equal. apply IH. intros; apply Hone; now right. }
  assert (ES : Spart B = B). { apply filter_all. intros b Hb. unfold P_Signal4.simpB, P_Signal4.reptB. now rewrite (Hone b Hb). }
  assert (ER : Rpart B = []).
  { unfold Rpart. clear - Hone. induction B as [|b B IH]; [reflexivity|]. cbn [filter]. unfold P_Signal4.reptB at 1. rewrite (Hone b) by now left. cbn. apply IH. intros; apply Hone; now right. }
  destruct (Hadj L) as [Q HQ].
  { apply (Permutation_NoDup (Permutation_sym HL1)). exact Hnd. }
  { intro x. rewrite <- (sos_pole_iff sos x Hnz Hsq). rewrite <- HPf in HL1. split; intro H; eapply Permutation_in; try exact H; [rewrite HL1; exact HP|rewrite HP in HL1; now symmetry]. }
  rewrite HQ in HL2.
  assert (Hconj : forall b b', In b B -> In b' B -> fst b' = cj (fst b) -> forall r r', snd b = [r] -> snd b' = [r'] -> r' = cj r).
  { intros [p rs] [p' rs'] Hb Hb' Ep r r' Er Er'. cbn [fst snd] in *. subst p' rs rs'.
    destruct (in_split _ _ Hb) as (B1 & B2 & E1). destruct (in_split _ _ Hb') as (C1 & C2 & E2).
    pose proof (Hsf _ _ _ _ E1) as F1. pose proof (Hsf _ _ _ _ E2) as F2.
    assert (Perm : Permutation (map cj (pfe_poles (B1 ++ B2))) (pfe_poles (C1 ++ C2))).
    { apply (Permutation_cons_inv (a := cj p)).
      assert (P1 : Permutation (p :: pfe_poles (B1 ++ B2)) rts) by (rewrite <- HP, E1; symmetry; apply (pfe_poles_mid F B1 B2 p [r])).
      assert (P2 : Permutation (cj p :: pfe_poles (C1 ++ C2)) rts) by (rewrite <- HP, E2; symmetry; apply (pfe_poles_mid F C1 C2 (cj p) [r'])).
      rewrite P2. change (cj p :: map cj (pfe_poles (B1 ++ B2))) with (map cj (p :: pfe_poles (B1 ++ B2))). rewrite (Permutation_map cj P1). apply cj_rts. }
    apply (f_equal cj) in F1. rewrite Hcmul, cj_rootprod, cj_mon in F1.
    assert (rootprod (map cj (pfe_poles (B1 ++ B2))) (cj p) = rootprod (pfe_poles (C1 ++ C2)) (cj p)) as G by exact (evprod_perm F _ _ _ Perm).
    rewrite G, <- F2 in F1. apply (cancel_l F (rootprod (pfe_poles (C1 ++ C2)) (cj p))).
    - apply (evprod_ne0 F). intros q Hq <-. rewrite E2 in Hnd. exact (nodup_mid F _ _ _ _ Hnd Hq).
    - transitivity (r' * rootprod (pfe_poles (C1 ++ C2)) (cj p)); [ring|]. rewrite <- F1. ring. }
  destruct (dup_blocks B Hconj Hone Q B (fun _ H => H) HL2) as (rs & Lrs & _ & Ers).
  unfold expsumlog_real in E. rewrite Hg, ER, ES in E. cbn [bind] in E.
  set (g := prodl F (gains sos)) in *.
  destruct (cat0_vec [] (zeros [0%nat]) []) as (e & Ee & Hee); [split; [reflexivity|intros i Hi; cbn in Hi; lia]|]. cbn [app] in Hee.
  destruct (cat0_vec (concat (map snd B)) (zeros [0%nat]) []) as (y & Ey & Hy); [split; [reflexivity|intros i Hi; cbn in Hi; lia]|].
  rewrite app_nil_r in Hy. rewrite Ee in E. cbn [bind] in E. rewrite Ey in E. cbn [bind] in E. rewrite !app_nil_r in E.
  assert (Hlen : length (map fst B) = (2 * length Q)%nat) by (rewrite HL2; clear; induction Q as [|q Q IH]; [reflexivity|]; cbn [flat_map app length]; rewrite IH; lia).
  rewrite Hlen in E. assert (Nat.even (2 * length Q) = true) as Hev by (rewrite Nat.even_mul; reflexivity). rewrite Hev in E.
  assert (Hc : concat (map snd B) = flat_map (fun r => [r; cj r]) rs) by (rewrite Ers; clear; induction rs as [|r rs IH]; [reflexivity|]; cbn [flat_map app concat]; now rewrite IH).
  rewrite Hc in Hy. apply vec_every2 in Hy.
  assert (Kg : cj g = g) by (apply HcK, (Kprodl F K HK); exact KG).
  exists (tmap (fun x => x * g) (every2 F y)), (map (fun x => x * g) rs), Q. eexists. split; [|split; [|split; [|split; [|split]]]].
  - rewrite E. cbn [scale]. rewrite HL2, every2l_dup. do 2 f_equal.
    replace (length B) with (2 * length Q)%nat by (rewrite <- Hlen; apply map_length). f_equal. clear. induction (length Q) as [|n IH]; [reflexivity|].
    replace (2 * S n)%nat with (S (S (2 * n))) by lia. cbn [repeat every2l]. now rewrite IH.
  - cbn. apply Hee.
  - now rewrite map_length.
  - now apply tmap_vec.
  - now rewrite <- HL2, <- HPf.
  - intros z Hz. rewrite (Hval z Hz), pairs_val_scale, (dup_val rs Q B z) by auto. ring.
Qed.
(** The order: by decreasing modulus, conjugates are neighbours. *)
Lemma cj_rts_facts : NoDup rts -> forall x, In x rts -> In (cj x) rts /\ cj x <> x /\ cj (cj x) = x.
Proof.
  assert (Kh : K (rinv (1 + 1))) by (apply (Kinv F K HK), (Kadd F K HK); apply (K1 F K HK)).
  revert KA Hcs. generalize (acoefs sos). induction l as [|[a1 a2] l IH]; intros H1 H2 Hn x Hx; [destruct Hx|].
  inversion H1 as [|? ? G1 G2]; subst. cbn [fst] in G1. unfold sos_roots in Hn, Hx |- *. cbn [map concat app] in Hn, Hx |- *. fold (sos_roots F csqrt l) in *.
  set (s := csqrt (disc a1 a2)) in *. set (h := rinv (1 + 1)) in *.
  assert (E1 : cj ((- a1 + s) * h) = (- a1 - s) * h).
  { rewrite Hcmul, Hcadd, cj_opp, (HcK a1 G1), (HcK _ Kh). unfold s. rewrite (H2 a1 a2) by now left. ring. }
  assert (E2 : cj ((- a1 - s) * h) = (- a1 + s) * h).
  { rewrite Hcmul, cj_sub, cj_opp, (HcK a1 G1), (HcK _ Kh). unfold s. rewrite (H2 a1 a2) by now left. ring. }
  inversion Hn as [|? ? N1 N2]; subst. inversion N2 as [|? ? N3 N4]; subst.
  destruct Hx as [<-|[<-|Hx]].
  - rewrite E1, E2. split; [right; now left|]. split; [|reflexivity]. intro E. apply N1. now left.
  - rewrite E2, E1. split; [now left|]. split; [|reflexivity]. intro E. apply N1. now left.
  - destruct (IH G2 (fun a1 a2 H => H2 a1 a2 (or_intror H)) N4 x Hx) as (I1 & I2 & I3). split; [right; now right|now split].
Qed.
Variable geq : F -> F -> bool.
Hypothesis Hgt : forall x y z, geq x y = true -> geq y z = true -> geq x z = true.
Hypothesis Hgc : forall x, geq (cj x) x = true.
Lemma adjacent n : forall S, (length S <= n)%nat -> NoDup S -> (forall x, In x S -> In (cj x) S /\ cj x <> x /\ cj (cj x) = x) ->
  StronglySorted (fun x y => geq x y = true) S ->
  (forall x y, In x S -> In y S -> geq x y = true -> geq y x = true -> y = x \/ y = cj x) -> exists Q, S = dup Q.
Proof.
  induction n as [|n IH]; intros S Hl Hn Hc Hs Hg.
  - destruct S; [now exists []|cbn in Hl; lia].
  - destruct S as [|x [|y S]]; [now exists []| |].
    + exfalso. destruct (Hc x (or_introl eq_refl)) as ([H|[]] & H2 & _). now symmetry in H.
    + apply StronglySorted_inv in Hs as [Hs Hx]. inversion Hx as [|? ? Hxy Hx']; subst.
      destruct (Hc x (or_introl eq_refl)) as (C1 & C2 & C3).
      assert (y = cj x) as ->.
      { destruct C1 as [C1|[C1|C1]]; [now symmetry in C1|exact C1|].
        apply StronglySorted_inv in Hs as [Hs Hy]. rewrite Forall_forall in Hy. specialize (Hy _ C1).
        assert (geq y x = true) as Hyx by (apply (Hgt y (cj x) x); auto).
        destruct (Hg x y (or_introl eq_refl) (or_intror (or_introl eq_refl)) Hxy Hyx) as [->|H]; [|exact H].
        inversion Hn as [|? ? N1 N2]; subst. exfalso. apply N1. now left. }
      inversion Hn as [|? ? N1 N2]; subst. inversion N2 as [|? ? N3 N4]; subst.
      apply StronglySorted_inv in Hs as [Hs _].
      destruct (IH S) as [Q ->]; auto.
      * cbn in Hl. lia.
      * intros z Hz. destruct (Hc z (or_intror (or_intror Hz))) as (Z1 & Z2 & Z3). split; [|now split].
        destruct Z1 as [Z1|[Z1|Z1]]; [| |exact Z1].
        -- exfalso. apply N3. rewrite Z1, Z3. exact Hz.
        -- exfalso. apply N1. right. rewrite <- C3, Z1, Z3. exact Hz.
      * intros u w Hu Hw. apply Hg; right; now right.
      * now exists (x :: Q).
Qed.
Lemma sorted_adjacent : NoDup rts -> (forall L, StronglySorted (fun x y => geq x y = true) (pick 0 (argsort L) L)) ->
  (forall x y, sos_pole sos x -> sos_pole sos y -> geq x y = true -> geq y x = true -> y = x \/ y = cj x) ->
  forall L, NoDup L -> (forall x, In x L <-> sos_pole sos x) -> exists Q, pick 0 (argsort L) L = dup Q.
Proof.
  intros Hn Hs Hg L HL Hp. assert (P : Permutation (pick 0 (argsort L) L) L) by (apply pick_perm, Hsort).
  assert (Hin : forall x, In x (pick 0 (argsort L) L) <-> sos_pole sos x).
  { intro x. rewrite <- Hp. split; apply Permutation_in; [exact P|now symmetry]. }
  apply (adjacent (length (pick 0 (argsort L) L))); [lia|now apply (Permutation_NoDup (Permutation_sym P))| |apply Hs|].
  - intros x Hx. apply Hin in Hx. apply (sos_pole_iff sos x Hnz Hsq) in Hx. destruct (cj_rts_facts Hn x Hx) as (H1 & H2).
    split; [|exact H2]. apply Hin. now apply (sos_pole_iff sos _ Hnz Hsq).
  - intros x y Hx Hy. apply Hg; now apply Hin.
Qed.
End Cplx.
End Core.
End Sig5.
