(** C51: prototype/signal.py, sos2pfe.  [z0] is x == 0, [close x y] is cdist < tol, [argsort]
    sorts by decreasing modulus, [re] is Tensor.real, [neg] is x < 0, [csqrt] the complex
    square root; [K] holds of the real numbers. *)
From Coq Require Import List Arith Lia ZArith Bool QArith Qcanon Permutation Sorted.
From Verif Require Import Scalar Tensor TensorLemmas TensorOps TensorAlg TensorTac TensorList LinalgEx
  SpecPoly SpecPfe M_Poly P_Poly M_ProtoPoly P_ProtoPoly P_ProtoPoly2 P_Formal M_Signal P_Signal P_Signal2 P_Signal3 P_Signal5
  Properties_Poly Properties_ProtoPoly Properties_Signal Properties_Diag.
Import ListNotations.
Open Scope nat_scope.
Open Scope cr_scope.

Lemma conj' (A B : Prop) : A -> B -> A /\ B. Proof. now split. Qed.
(** The number fields and the filters considered. *)
Definition real_numbers {F : cfield} (K : F -> Prop) : Prop :=
  K 0 /\ K 1 /\ (forall x y, K x -> K y -> K (x + y)) /\ (forall x y, K x -> K y -> K (x * y)) /\
  (forall x, K x -> K (- x)) /\ (forall x, K x -> K (rinv x)).
Notation sect F := (car F * car F * car F * (car F * car F * car F))%type.
(** Real coefficients, b0 and a0 not zero. *)
Definition real_sos {F : cfield} (K : F -> Prop) (sos : list (sect F)) : Prop :=
  forall b0 b1 b2 a0 a1 a2, In ((b0, b1, b2), (a0, a1, a2)) sos ->
    (K b0 /\ K b1 /\ K b2 /\ K a0 /\ K a1 /\ K a2) /\ b0 <> 0 /\ a0 <> 0.
(** The discriminant of the normalised denominator, the gain of a section and their product. *)
Definition sdisc {F : cfield} (s : sect F) : F :=
  let '(_, (a0, a1, a2)) := s in (a1 * rinv a0) * (a1 * rinv a0) - rnat 4 * (a2 * rinv a0).
Definition gain {F : cfield} (s : sect F) : F := let '((b0, _, _), (a0, _, _)) := s in b0 * rinv a0.
Definition gain_all {F : cfield} (sos : list (sect F)) : F := fold_right (fun s g => gain s * g) 1 sos.
(** The denominator of the filter, its leading coefficient. *)
Definition den {F : cfield} (sos : list (sect F)) (z : F) : F := fold_right (fun s g => quad (snd s) z * g) 1 sos.
Definition lead {F : cfield} (sos : list (sect F)) : F := fold_right (fun s g => fst (fst (snd s)) * g) 1 sos.
Definition exact_poles {F : cfield} (close : F -> F -> bool) (sos : list (sect F)) : Prop :=
  forall x y, sos_pole sos x -> sos_pole sos y -> close x y = true <-> x = y.
(** [argsort] sorts in the order [geq]. *)
Definition sorts_by {F : cring} (geq : F -> F -> bool) (argsort : list F -> list nat) : Prop :=
  forall l, StronglySorted (fun x y => geq x y = true) (map (fun i => nth i l 0) (argsort l)).
(** [cj] is the conjugation, fixing [K]. *)
Definition conjugation {F : cfield} (K : F -> Prop) (cj : F -> F) : Prop :=
  (forall x y, cj (x + y) = cj x + cj y) /\ (forall x y, cj (x * y) = cj x * cj y) /\ forall x, K x -> cj x = x.
(** [geq x y] is |x| >= |y|. *)
Definition modulus_order {F : cfield} (cj : F -> F) (geq : F -> F -> bool) : Prop :=
  (forall x y z, geq x y = true -> geq y z = true -> geq x z = true) /\ forall x, geq (cj x) x = true.
(** The 2n poles are distinct. *)
Definition simple_poles {F : cfield} (sos : list (sect F)) : Prop :=
  exists L, NoDup L /\ length L = (2 * length sos)%nat /\ forall x, In x L -> sos_pole sos x.
Definition with_conj {F : cfield} (cj : F -> F) (ps : list F) : list F := flat_map (fun p => [p; cj p]) ps.

Section C51.
Variable F : cfield.
Variable z0 : F -> bool.
Variable close : F -> F -> bool.
Variable argsort : list F -> list nat.
Variables re csqrt : F -> F.
Variable neg : F -> bool.
Variable K : F -> Prop.
Hypothesis Hz0 : zero_test F z0.
Hypothesis Hsort : sorter argsort.
Hypothesis Hch : char0 F.
Hypothesis HK : real_numbers K.
Add Ring Rs51 : (r_th F).
Notation run sos rt := (sos2pfe F z0 close argsort re neg csqrt sos rt).

Lemma gains_all sos : prodl F (gains F sos) = gain_all sos.
Proof. induction sos as [|[[[b0 b1] b2] [[a0 a1] a2]] l IH]; [reflexivity|]. change (b0 * rinv a0 * prodl F (gains F l) = b0 * rinv a0 * gain_all l). now rewrite IH. Qed.
Lemma nz_of sos : real_sos K sos -> nz F sos.
Proof. intros H b0 b1 b2 a0 a1 a2 Hi. destruct (H _ _ _ _ _ _ Hi) as (_ & H1 & H2). now split. Qed.
Lemma acoefs_in sos a1 a2 (P : F -> Prop) : In (a1, a2) (acoefs F sos) -> (forall s, In s sos -> P (sdisc s)) -> P (a1 * a1 - rnat 4 * a2).
Proof.
  intros H1 H2. unfold acoefs in H1. apply in_map_iff in H1 as (s & E & H1). specialize (H2 s H1).
  destruct s as [[[b0 b1] b2] [[c0 c1] c2]]. injection E as <- <-. exact H2.
Qed.
Lemma gains_neg sos : (forall s, In s sos -> neg (gain s) = false) -> existsb neg (gains F sos) = false.
Proof.
  intro H. induction sos as [|[[[b0 b1] b2] [[a0 a1] a2]] l IH]; [reflexivity|]. change (neg (b0 * rinv a0) || existsb neg (gains F l) = false).
  rewrite IH by (intros s Hs; apply H; now right). pose proof (H _ (or_introl eq_refl)) as G. cbn in G. now rewrite G.
Qed.
Lemma coefs_K sos : real_sos K sos -> Forall K (map fst (bcoefs F sos)) /\ Forall K (map snd (bcoefs F sos)) /\
  Forall K (map fst (acoefs F sos)) /\ Forall K (gains F sos).
Proof.
  intro H. assert (G : forall x y, K x -> K y -> K (x * rinv y)) by (intros; now apply HK; [|apply HK]).
  unfold bcoefs, acoefs, gains. rewrite !map_map. repeat split; apply Forall_forall; intros x Hx; apply in_map_iff in Hx as ([[[b0 b1] b2] [[a0 a1] a2]] & <- & Hi);
    destruct (H _ _ _ _ _ _ Hi) as ((? & ? & ? & ? & ? & ?) & _); cbn [fst snd]; now apply G.
Qed.
Lemma roots_K sos : real_sos K sos -> (forall s, In s sos -> K (csqrt (sdisc s))) -> Forall K (sos_roots F csqrt (acoefs F sos)).
Proof.
  intros H Hd. destruct (coefs_K sos H) as (_ & _ & H1 & _). rewrite Forall_forall in H1.
  apply Forall_forall. intros x Hx. unfold sos_roots in Hx. apply in_concat in Hx as (l & Hl & Hx). apply in_map_iff in Hl as ([a1 a2] & <- & Hi).
  assert (K1 : K a1). { apply H1. apply in_map_iff. now exists (a1, a2). }
  pose proof (acoefs_in sos a1 a2 (fun d => K (csqrt d)) Hi Hd) as K2. cbn beta in K2.
  assert (Kh : K (rinv (1 + 1))) by (apply HK, HK; apply HK).
  destruct HK as (_ & _ & Ha & Hm & Ho & _).
  destruct Hx as [<-|[<-|[]]]; (apply Hm; [|exact Kh]); [now apply Ha; [apply Ho|]|].
  replace (- a1 - csqrt (a1 * a1 - rnat 4 * a2)) with (- a1 + - csqrt (a1 * a1 - rnat 4 * a2)) by ring. apply Ha; now apply Ho.
Qed.
Lemma with_conj_len cj (ps : list F) : length (with_conj cj ps) = (2 * length ps)%nat.
Proof. induction ps as [|p l IH]; [reflexivity|]. change (S (S (length (with_conj cj l))) = 2 * S (length l))%nat. rewrite IH. lia. Qed.
Lemma rootprod_perm L M (z : F) : Permutation L M -> rootprod L z = rootprod M z.
Proof.
  induction 1 as [|x L M _ IH|x y L|L M N _ IH1 _ IH2]; [reflexivity| | |now rewrite IH1].
  - change ((z - x) * rootprod L z = (z - x) * rootprod M z). now rewrite IH.
  - change ((z - y) * ((z - x) * rootprod L z) = (z - x) * ((z - y) * rootprod L z)). ring.
Qed.
Lemma den_roots sos z : nz F sos -> (forall s, In s sos -> csqrt (sdisc s) * csqrt (sdisc s) = sdisc s) ->
  den sos z = lead sos * rootprod (sos_roots F csqrt (acoefs F sos)) z.
Proof.
  intros Hn Hd. rewrite (sos_roots_prod F csqrt Hch) by (intros a1 a2 Hi; exact (acoefs_in sos a1 a2 (fun d => csqrt d * csqrt d = d) Hi Hd)).
  clear Hd. induction sos as [|[[[b0 b1] b2] [[a0 a1] a2]] l IH]; [cbn; ring|].
  change (quad (a0, a1, a2) z * den l z = a0 * lead l * ((z * z + z * (a1 * rinv a0) + a2 * rinv a0) * prodl F (map (fun '(c1, c2) => z * z + z * c1 + c2) (acoefs F l)))).
  rewrite IH by (intros ? ? ? ? ? ? Hi; eapply Hn; right; exact Hi). rewrite quad_norm by (eapply Hn; now left). ring.
Qed.

(** All poles real, of any multiplicity: H(z) = G0 + the sum of the r / (z - p)^w.  The
    residues are a vector, but a column if there is only one pole. *)
Theorem C51_real sos : sos <> [] -> real_sos K sos -> (forall x, K x -> re x = x) ->
  (forall s, In s sos -> neg (sdisc s) = false /\ csqrt (sdisc s) * csqrt (sdisc s) = sdisc s /\ K (csqrt (sdisc s))) ->
  (forall s, In s sos -> neg (gain s) = false) -> exact_poles close sos ->
  exists y rs ps ws e,
    run sos RAvg = Ok (mkPfe F (Some y, ps, ws) (Some e, [], []) (Some (gain_all sos))) /\ shape e = [0%nat] /\
    length rs = length ps /\ length ws = length ps /\ (forall z, den sos z = lead sos * rootprod ps z) /\
    NoDup (combine ps ws) /\ (forall w, In w ws -> (1 <= w)%nat) /\
    (forall z, ~ sos_pole sos z -> sos_val sos z = gain_all sos + terms_val rs ps ws z) /\
    ((exists p q, sos_pole sos p /\ sos_pole sos q /\ p <> q) -> vec y rs) /\
    ((forall p q, sos_pole sos p -> sos_pole sos q -> p = q) -> column y rs).
Proof.
  intros Hne Hr Hre Hd Hg Hex. destruct (coefs_K sos Hr) as (H1 & H2 & _).
  destruct (sos_real F csqrt Hch z0 Hz0 K HK close argsort Hsort re neg false sos Hne (nz_of sos Hr)) as (y & rs & ps & ws & e & R); auto.
  - intros a1 a2 Hi. exact (acoefs_in sos a1 a2 (fun d => neg d = false) Hi (fun s Hs => proj1 (Hd s Hs))).
  - intros a1 a2 Hi. exact (acoefs_in sos a1 a2 (fun d => csqrt d * csqrt d = d) Hi (fun s Hs => proj1 (proj2 (Hd s Hs)))).
  - apply roots_K; [exact Hr|]. intros s Hs. apply (Hd s Hs).
  - now apply gains_neg.
  - rewrite gains_all in R. destruct R as (E & Se & L1 & L2 & P & N & W & V & Y1 & Y2).
    exists y, rs, ps, ws, e. do 4 (split; [assumption|]). split; [|now do 4 (split; [assumption|])].
    intro z. rewrite (den_roots sos z (nz_of sos Hr)) by (intros s Hs; apply (Hd s Hs)). f_equal. symmetry. now apply rootprod_perm.
Qed.

(** All poles complex and simple, pairs of different modulus: H(z) = G0 + the sum of the
    r / (z - p) + conj r / (z - conj p); one pole of each pair is given. *)
Theorem C51_complex sos cj geq : sos <> [] -> real_sos K sos -> conjugation K cj ->
  (forall s, In s sos -> neg (sdisc s) = true /\ csqrt (sdisc s) * csqrt (sdisc s) = sdisc s /\ cj (csqrt (sdisc s)) = - csqrt (sdisc s)) ->
  (forall s, In s sos -> neg (gain s) = false) -> exact_poles close sos -> simple_poles sos ->
  modulus_order cj geq -> sorts_by geq argsort ->
  (forall x y, sos_pole sos x -> sos_pole sos y -> geq x y = true -> geq y x = true -> y = x \/ y = cj x) ->
  exists y rs ps e,
    run sos RAvg = Ok (mkPfe F (Some e, [], []) (Some y, ps, repeat 1%nat (length ps)) (Some (gain_all sos))) /\ shape e = [0%nat] /\
    length rs = length ps /\ vec y rs /\ length ps = length sos /\ NoDup (with_conj cj ps) /\
    (forall x, In x (with_conj cj ps) <-> sos_pole sos x) /\
    (forall z, ~ sos_pole sos z -> sos_val sos z = gain_all sos + pairs_val cj rs ps z).
Proof.
  intros Hne Hr (C1 & C2 & C3) Hd Hg Hex (L & L1 & L2 & L3) (G1 & G2) Hs Hp. destruct (coefs_K sos Hr) as (H1 & H2 & H3 & H4).
  pose proof (nz_of sos Hr) as Hn.
  assert (Hsq : forall a1 a2, In (a1, a2) (acoefs F sos) -> csqrt (a1 * a1 - rnat 4 * a2) * csqrt (a1 * a1 - rnat 4 * a2) = a1 * a1 - rnat 4 * a2).
  { intros a1 a2 Hi. exact (acoefs_in sos a1 a2 (fun d => csqrt d * csqrt d = d) Hi (fun s Hs => proj1 (proj2 (Hd s Hs)))). }
  assert (Hcs : forall a1 a2, In (a1, a2) (acoefs F sos) -> cj (csqrt (a1 * a1 - rnat 4 * a2)) = - csqrt (a1 * a1 - rnat 4 * a2)).
  { intros a1 a2 Hi. exact (acoefs_in sos a1 a2 (fun d => cj (csqrt d) = - csqrt d) Hi (fun s Hs => proj2 (proj2 (Hd s Hs)))). }
  pose proof (simple_rts F csqrt Hch z0 Hz0 sos Hn Hsq L L1 L2 L3) as Hnd.
  destruct (sos_cplx F csqrt Hch z0 Hz0 K HK close argsort Hsort re neg true sos Hne Hn) with (cj := cj) as (y & rs & ps & e & R); auto.
  - intros a1 a2 Hi. exact (acoefs_in sos a1 a2 (fun d => neg d = true) Hi (fun s Hs => proj1 (Hd s Hs))).
  - now apply gains_neg.
  - exact (sorted_adjacent F csqrt Hch z0 Hz0 K HK argsort Hsort sos Hn Hsq cj C1 C2 C3 H3 Hcs geq G1 G2 Hnd Hs Hp).
  - rewrite gains_all in R. destruct R as (E & Se & Q1 & Q2 & P & V). exists y, rs, ps, e. repeat split; try assumption; try apply Q2.
    + apply Permutation_length in P. rewrite (rts_len F csqrt sos) in P. change (length (with_conj cj ps) = 2 * length sos)%nat in P. rewrite with_conj_len in P. lia.
    + apply (Permutation_NoDup (Permutation_sym P)). exact Hnd.
    + intro Hx. apply (sos_pole_iff F csqrt Hch z0 Hz0 sos x Hn Hsq). exact (Permutation_in _ P Hx).
    + intro Hx. apply (sos_pole_iff F csqrt Hch z0 Hz0 sos x Hn Hsq) in Hx. exact (Permutation_in _ (Permutation_sym P) Hx).
Qed.

(** A multiple complex pole: the stack of the real residues is empty, and raises. *)
Theorem C51_complex_repeated_refuted sos : sos <> [] -> real_sos K sos ->
  (forall s, In s sos -> neg (sdisc s) = true /\ csqrt (sdisc s) * csqrt (sdisc s) = sdisc s) -> exact_poles close sos ->
  (forall L, NoDup L -> (forall x, In x L -> sos_pole sos x) -> (length L < 2 * length sos)%nat) ->
  run sos RAvg = Err RuntimeError.
Proof.
  intros Hne Hr Hd Hex HL. pose proof (nz_of sos Hr) as Hn.
  assert (Hsq : forall a1 a2, In (a1, a2) (acoefs F sos) -> csqrt (a1 * a1 - rnat 4 * a2) * csqrt (a1 * a1 - rnat 4 * a2) = a1 * a1 - rnat 4 * a2).
  { intros a1 a2 Hi. exact (acoefs_in sos a1 a2 (fun d => csqrt d * csqrt d = d) Hi (fun s Hs => proj2 (Hd s Hs))). }
  destruct (double_rts F csqrt Hch z0 Hz0 sos Hn Hsq HL) as (x & r & P).
  apply (sos_cplx_repeated F csqrt Hch z0 Hz0 K HK close argsort Hsort re neg true sos Hne Hn) with (x := x) (r := r); auto.
  intros a1 a2 Hi. exact (acoefs_in sos a1 a2 (fun d => neg d = true) Hi (fun s Hs => proj1 (Hd s Hs))).
Qed.
End C51.
Print Assumptions C51_real.
Print Assumptions C51_complex.
Print Assumptions C51_complex_repeated_refuted.

(** One negative gain: the logarithm is NaN, so G0 and all residues are. *)
Theorem C51_negative_gain_refuted (F : cfield) z0 close argsort re neg csqrt (sos : list (sect F)) rt r :
  (exists s, In s sos /\ neg (gain s) = true) -> sos2pfe F z0 close argsort re neg csqrt sos rt = Ok r ->
  pfe_G0 F r = None /\ fst (fst (pfe_real F r)) = None /\ fst (fst (pfe_cplx F r)) = None.
Proof.
  intros (s & Hs & Hg) E. unfold sos2pfe in E.
  assert (H : existsb neg (map (fun '((b0, _, _), (a0, _, _)) => b0 * rinv a0) sos) = true).
  { apply existsb_exists. exists (gain s). split; [|exact Hg]. apply in_map_iff. exists s. split; [|exact Hs].
    destruct s as [[[b0 b1] b2] [[a0 a1] a2]]. reflexivity. }
  unfold expsumlog_real in E. rewrite H in E. cbn [scale] in E.
  destruct (unique_roots _ _ _ _ _ _) as [u|]; cbn [bind] in E; [|discriminate].
  match type of E with (bind ?m _) = _ => destruct m as [[[[rr rp] rw] [[cr cp] cw]]|]; cbn [bind] in E; [|discriminate] end.
  destruct (cat0 _ _) as [y1|]; cbn [bind] in E; [|discriminate]. destruct (cat0 _ _) as [y2|]; cbn [bind] in E; [|discriminate].
  destruct (Nat.even _); cbn [negb] in E; [|discriminate]. injection E as <-. repeat split.
Qed.
Print Assumptions C51_negative_gain_refuted.

(** The flags are repeated as [c; c] while the poles come two by two: they are those of the
    poles only if all sections are of the same kind. *)
Theorem C51_flags (F : cfield) (neg : F -> bool) (a : list (F * F)) :
  let kind i := nth i (map (fun '(a1, a2) => neg (a1 * a1 - rnat 4 * a2)) a) false in
  (forall i, (i < 2 * length a)%nat -> nth i (sos_is_complex F neg a) false = kind (i / 2)%nat) <->
  (forall i j, (i < length a)%nat -> (j < length a)%nat -> kind i = kind j).
Proof.
  cbv zeta. unfold sos_is_complex. set (c := map _ a). assert (Hl : length c = length a) by apply map_length.
  rewrite <- Hl. clearbody c. clear a Hl neg. split.
  - intro H. assert (H0 : forall n i, (i <= n)%nat -> (i < length c)%nat -> nth i c false = nth 0 c false).
    { induction n as [|n IH]; intros i Hi Hc; [f_equal; lia|]. destruct (Nat.eq_dec i 0) as [->|Hne]; [reflexivity|].
      rewrite <- (IH (i / 2)%nat).
      - rewrite <- H by lia. now rewrite app_nth1.
      - assert (i / 2 < i)%nat by (apply Nat.div_lt; lia). lia.
      - assert (i / 2 < i)%nat by (apply Nat.div_lt; lia). lia. }
    intros i j Hi Hj. rewrite (H0 i i), (H0 j j); auto.
  - intros H i Hi. assert (i / 2 < length c)%nat by (apply Nat.div_lt_upper_bound; lia).
    destruct (le_lt_dec (length c) i) as [H1|H1].
    + rewrite app_nth2 by exact H1. apply H; lia.
    + rewrite app_nth1 by exact H1. apply H; lia.
Qed.
Print Assumptions C51_flags.

(** ** Complex rationals; stable sort by decreasing modulus. *)
Section Isort.
Context {F : cring}.
Variable geq : F -> F -> bool.
Variable l : list F.
Notation at_l i := (nth i l 0).
Fixpoint ins (i : nat) (js : list nat) : list nat :=
  match js with [] => [i] | j :: js' => if geq (at_l i) (at_l j) then i :: js else j :: ins i js' end.
Definition isort : list nat := fold_right ins [] (seq 0 (length l)).
Lemma ins_perm i js : Permutation (ins i js) (i :: js).
Proof. induction js as [|j js IH]; [reflexivity|]. cbn [ins]. destruct (geq _ _); [reflexivity|]. rewrite IH. apply perm_swap. Qed.
Lemma isort_perm : Permutation isort (seq 0 (length l)).
Proof. unfold isort. generalize (seq 0 (length l)). induction l0 as [|i js IH]; [reflexivity|]. cbn [fold_right]. rewrite ins_perm. now constructor. Qed.
Hypothesis Ht : forall x y z, geq x y = true -> geq y z = true -> geq x z = true.
Hypothesis Hto : forall x y, geq x y = false -> geq y x = true.
Lemma ins_sorted i js : StronglySorted (fun x y => geq x y = true) (map (fun i => at_l i) js) ->
  StronglySorted (fun x y => geq x y = true) (map (fun i => at_l i) (ins i js)).
Proof.
  induction js as [|j js IH]; intro H; [repeat constructor|]. cbn [ins]. destruct (geq (at_l i) (at_l j)) eqn:E; cbn [map] in *.
  - constructor; [exact H|]. apply StronglySorted_inv in H as [H1 H2]. constructor; [exact E|]. revert H2. apply Forall_impl. intros x. now apply Ht.
  - apply StronglySorted_inv in H as [H1 H2]. constructor; [now apply IH|].
    apply Forall_forall. intros x Hx. apply in_map_iff in Hx as (k & <- & Hk). apply (Permutation_in _ (ins_perm i js)) in Hk as [<-|Hk]; [now apply Hto|].
    rewrite Forall_forall in H2. apply H2. apply in_map_iff. now exists k.
Qed.
Lemma isort_sorted : StronglySorted (fun x y => geq x y = true) (map (fun i => at_l i) isort).
Proof. unfold isort. induction (seq 0 (length l)) as [|i js IH]; [constructor|]. cbn [fold_right]. now apply ins_sorted. Qed.
End Isort.

Definition mod2 (x : QI) : Qc := (fst x * fst x + snd x * snd x)%Qc.
Definition geqI (x y : QI) : bool := Qle_bool (this (mod2 y)) (this (mod2 x)).
Definition negI (x : QI) : bool := negb (Qle_bool 0 (this (fst x))).
Definition sqrtq (q : Qc) : Qc := Q2Qc (Z.sqrt (Qnum (this q)) # Pos.sqrt (Qden (this q))).
Definition csqrtI (x : QI) : QI := if negI x then (Q2Qc 0, sqrtq (- fst x)%Qc) else (sqrtq (fst x), Q2Qc 0).
Definition closeI (x y : QI) : bool := iszI (x - y).
Definition cjI (x : QI) : QI := conj x.
Definition realI (x : QI) : Prop := snd x = Q2Qc 0.
Notation runI sos := (sos2pfe QI iszI closeI (isort geqI) reI negI csqrtI sos RAvg).
Lemma geqI_trans x y z : geqI x y = true -> geqI y z = true -> geqI x z = true.
Proof. unfold geqI. rewrite !Qle_bool_iff. intros. eapply Qle_trans; eassumption. Qed.
Lemma geqI_total x y : geqI x y = false -> geqI y x = true.
Proof.
  unfold geqI. intro H. apply Qle_bool_iff. apply Qlt_le_weak. apply Qnot_le_lt. intro G. apply Qle_bool_iff in G. congruence.
Qed.
Lemma geqI_cj x : geqI (cjI x) x = true.
Proof. unfold geqI. apply Qle_bool_iff. replace (mod2 (cjI x)) with (mod2 x); [apply Qle_refl|]. change (fst x * fst x + snd x * snd x = fst x * fst x + - snd x * - snd x)%Qc. ring. Qed.
Lemma modulus_I : modulus_order cjI geqI.
Proof. split; [exact geqI_trans|exact geqI_cj]. Qed.
Lemma isort_I : sorter (isort geqI) /\ sorts_by geqI (isort geqI).
Proof. split; intro l; [apply isort_perm|apply isort_sorted; [exact geqI_trans|exact geqI_total]]. Qed.
Section SubQ.
Add Ring RsQI : (r_th QI).
Lemma closeI_ok x y : closeI x y = true <-> x = y.
Proof.
  unfold closeI. rewrite iszI_spec. split; [|intros ->; ring].
  intro H. transitivity (x - y + y); [ring|]. rewrite H. ring.
Qed.
End SubQ.
Lemma real_I : real_numbers realI.
Proof.
  unfold realI. repeat split; try reflexivity.
  - intros [p q] [r s] H1 H2. cbn in H1, H2. subst q s. change (Q2Qc 0 + Q2Qc 0 = Q2Qc 0)%Qc. ring.
  - intros [p q] [r s] H1 H2. cbn in H1, H2. subst q s. change (p * Q2Qc 0 + Q2Qc 0 * r = Q2Qc 0)%Qc. ring.
  - intros [p q] H1. cbn in H1. subst q. change (- Q2Qc 0 = Q2Qc 0)%Qc. ring.
  - intros [p q] H1. cbn in H1. subst q. change (- (Q2Qc 0 * / (p * p + Q2Qc 0 * Q2Qc 0)) = Q2Qc 0)%Qc. ring.
Qed.
Lemma conj_I : conjugation realI cjI.
Proof.
  split; [exact (@conj_add QI)|]. split; [exact (@conj_mul QI)|]. intros [p q] H. unfold realI in H. cbn in H. subst q.
  change ((p, - Q2Qc 0)%Qc = (p, Q2Qc 0)). reflexivity.
Qed.
Lemma re_I x : realI x -> reI x = x.
Proof. destruct x as [p q]. unfold realI, reI. cbn. now intros ->. Qed.
Lemma char0_I : char0 QI.
Proof.
  intros m Hm H. apply (q_char0 m Hm). assert (G : fst (rnat m : QI) = rnat m :> Qfield).
  { clear. induction m as [|m IH]; [reflexivity|]. cbn [rnat]. change (fst (rnat m : QI) + 1 = rnat m + 1 :> Qfield). now rewrite IH. }
  rewrite <- G, H. reflexivity.
Qed.
Definition qs (b0 b1 b2 a0 a1 a2 : Z) : sect QI := ((qi b0 0, qi b1 0, qi b2 0), (qi a0 0, qi a1 0, qi a2 0)).
Definition showq (l : list QI) : list (Q * Q) := map (fun x => (this (fst x), this (snd x))) l.
Definition showt (t : option (tensor QI)) := match t with
  | Some t => match show (Ok t) with Some (s, l) => Some (s, showq l) | None => None end | None => None end.
Definition showp (r : res (pfe QI)) := match r with
  | Ok r => let '(y, ps, ws) := pfe_real QI r in let '(y', ps', ws') := pfe_cplx QI r in
      Some ((showt y, showq ps, ws), (showt y', showq ps', ws'), match pfe_G0 QI r with Some g => showq [g] | None => [] end)
  | Err _ => None end.
(** Deciding the hypotheses on concrete filters. *)
Fixpoint listeqI (l m : list QI) : bool :=
  match l, m with [], [] => true | x :: l, y :: m => closeI x y && listeqI l m | _, _ => false end.
Lemma listeqI_ok l : forall m, listeqI l m = true -> l = m.
Proof.
  induction l as [|x l IH]; intros [|y m] H; try discriminate; [reflexivity|]. cbn in H. apply andb_prop in H as [H1 H2].
  apply closeI_ok in H1. f_equal; auto.
Qed.
Definition okI (s : sect QI) : bool := let '((b0, b1, b2), (a0, a1, a2)) := s in
  forallb (fun x : QI => iszQ (snd x)) [b0; b1; b2; a0; a1; a2] && negb (iszI b0) && negb (iszI a0).
Lemma okI_ok sos : forallb okI sos = true -> real_sos realI sos.
Proof.
  intros H b0 b1 b2 a0 a1 a2 Hi. rewrite forallb_forall in H. specialize (H _ Hi). unfold okI in H.
  apply andb_prop in H as [H Ha]. apply andb_prop in H as [H Hb]. rewrite forallb_forall in H.
  assert (forall x, In x [b0; b1; b2; a0; a1; a2] -> realI x) as G by (intros x Hx; apply iszQ_spec, (H x Hx)).
  split; [repeat split; apply G; cbn; tauto|]. split; intros ->; [rewrite (proj2 (iszI_spec 0) eq_refl) in Hb|rewrite (proj2 (iszI_spec 0) eq_refl) in Ha]; discriminate.
Qed.
Definition sqI (s : sect QI) : bool := closeI (csqrtI (sdisc s) * csqrtI (sdisc s)) (sdisc s).
Lemma poles_I sos L : forallb okI sos = true -> forallb sqI sos = true -> listeqI (sos_roots QI csqrtI (acoefs QI sos)) L = true ->
  forall x, sos_pole sos x <-> In x L.
Proof.
  intros H1 H2 H3 x. apply listeqI_ok in H3. rewrite <- H3. symmetry.
  apply (sos_pole_iff QI csqrtI char0_I iszI iszI_spec); [exact (nz_of QI realI sos (okI_ok sos H1))|].
  intros a1 a2 Hi. apply (acoefs_in QI sos a1 a2 (fun d => csqrtI d * csqrtI d = d) Hi). intros s Hs.
  rewrite forallb_forall in H2. apply closeI_ok, (H2 s Hs).
Qed.
Lemma exact_I sos : exact_poles closeI sos.
Proof. intros x y _ _. apply closeI_ok. Qed.
Definition memI (x : QI) (l : list QI) : bool := existsb (closeI x) l.
Lemma memI_ok x l : memI x l = true <-> In x l.
Proof.
  unfold memI. rewrite existsb_exists. split; [intros (y & Hy & E); apply closeI_ok in E; now subst|].
  intro Hx. exists x. split; [exact Hx|now apply closeI_ok].
Qed.
Fixpoint nodupI (l : list QI) : bool := match l with [] => true | x :: l => negb (memI x l) && nodupI l end.
Lemma nodupI_ok l : nodupI l = true -> NoDup l.
Proof.
  induction l as [|x l IH]; intro H; constructor; cbn [nodupI] in H; apply andb_prop in H as [H1 H2]; [|now apply IH].
  intro Hx. apply memI_ok in Hx. rewrite Hx in H1. discriminate.
Qed.

(** 3 z^2 / ((z - 1) (z - 2)) times (2 z^2 + 2 z) / (2 (z - 1)^2): a simple and a triple pole. *)
Definition exr : list (sect QI) := [qs 3 0 0 1 (-3) 2; qs 2 2 0 2 (-4) 2].
Example C51_real_ex :
  (exr <> [] /\ real_sos realI exr /\
   (forall s, In s exr -> negI (sdisc s) = false /\ csqrtI (sdisc s) * csqrtI (sdisc s) = sdisc s /\ realI (csqrtI (sdisc s))) /\
   (forall s, In s exr -> negI (gain s) = false) /\ exact_poles closeI exr) /\
  showp (runI exr) = Some ((Some ([4]%nat, [(72, 0); (-6, 0); (-27, 0); (-54, 0)]%Q), [(2, 0); (1, 0); (1, 0); (1, 0)]%Q, [1; 3; 2; 1]%nat),
                           (Some ([0]%nat, []), [], []), [(3, 0)%Q]).
Proof.
  split; [|vm_compute; reflexivity].
  assert (H2 : forallb sqI exr = true) by (vm_compute; reflexivity). rewrite forallb_forall in H2.
  repeat apply conj'; [discriminate|apply okI_ok; vm_compute; reflexivity| |intros s [<-|[<-|[]]]; vm_compute; reflexivity|apply exact_I].
  intros s Hs. pose proof (H2 s Hs) as E. apply closeI_ok in E. destruct Hs as [<-|[<-|[]]]; (split; [vm_compute; reflexivity|]); (split; [exact E|]); apply iszQ_spec; vm_compute; reflexivity.
Qed.
(** One double pole: the residues are a column. *)
Example C51_column_ex : showp (runI [qs 1 0 0 1 (-2) 1]) =
  Some ((Some ([2; 1]%nat, [(1, 0); (2, 0)]%Q), [(1, 0); (1, 0)]%Q, [2; 1]%nat), (Some ([0]%nat, []), [], []), [(1, 0)%Q]).
Proof. vm_compute. reflexivity. Qed.

(** z^2 / (z^2 + 4) times (z^2 + z) / (z^2 + 1) *)
Definition exc2 : list (sect QI) := [qs 1 0 0 1 0 4; qs 1 1 0 1 0 1].
Definition exc2p : list QI := [qi 0 2; qi 0 (-2); qi 0 1; qi 0 (-1)].
Example C51_complex_ex :
  (exc2 <> [] /\ real_sos realI exc2 /\
   (forall s, In s exc2 -> negI (sdisc s) = true /\ csqrtI (sdisc s) * csqrtI (sdisc s) = sdisc s /\ cjI (csqrtI (sdisc s)) = - csqrtI (sdisc s)) /\
   (forall s, In s exc2 -> negI (gain s) = false) /\ exact_poles closeI exc2 /\ simple_poles exc2 /\
   (forall x y, sos_pole exc2 x -> sos_pole exc2 y -> geqI x y = true -> geqI y x = true -> y = x \/ y = cjI x)) /\
  showp (runI exc2) = Some ((Some ([0]%nat, []), [], []),
    (Some ([2]%nat, [(2 # 3, 4 # 3); (-1 # 6, -1 # 6)]%Q), [(0, 2); (0, 1)]%Q, [1; 1]%nat), [(1, 0)%Q]).
Proof.
  split; [|vm_compute; reflexivity].
  assert (H1 : forallb okI exc2 = true) by (vm_compute; reflexivity).
  assert (H2 : forallb sqI exc2 = true) by (vm_compute; reflexivity).
  assert (HP : forall x, sos_pole exc2 x <-> In x exc2p) by (apply poles_I; [exact H1|exact H2|vm_compute; reflexivity]).
  rewrite forallb_forall in H2.
  repeat apply conj'; [discriminate|exact (okI_ok _ H1)| |intros s [<-|[<-|[]]]; vm_compute; reflexivity|apply exact_I| |].
  - intros s Hs. pose proof (H2 s Hs) as E. apply closeI_ok in E. destruct Hs as [<-|[<-|[]]]; (split; [vm_compute; reflexivity|]); (split; [exact E|]); apply closeI_ok; vm_compute; reflexivity.
  - exists exc2p. split; [apply nodupI_ok; vm_compute; reflexivity|]. split; [reflexivity|]. intros x. apply HP.
  - intros x y Hx Hy G1 G2. apply HP in Hx, Hy.
    assert (G : forallb (fun x => forallb (fun y => negb (geqI x y && geqI y x) || closeI y x || closeI y (cjI x)) exc2p) exc2p = true) by (vm_compute; reflexivity).
    rewrite forallb_forall in G. specialize (G x Hx). rewrite forallb_forall in G. specialize (G y Hy). rewrite G1, G2 in G.
    cbn [andb negb orb] in G. apply orb_prop in G as [G|G]; apply closeI_ok in G; auto.
Qed.

(** 1 / (z^2 + 1)^2 *)
Example C51_complex_repeated_ex : match runI [qs 1 0 0 1 0 1; qs 1 0 0 1 0 1] with Err RuntimeError => True | _ => False end.
Proof. vm_compute. exact I. Qed.
Example C51_negative_gain_ex : match runI [qs (-1) 0 0 1 (-3) 2] with Ok r => negI (gain (qs (-1) 0 0 1 (-3) 2)) && match pfe_G0 QI r with None => true | _ => false end | Err _ => false end = true.
Proof. vm_compute. reflexivity. Qed.

(** Real and complex poles: z^4 / ((z - 3) (z - 4) (z^2 + 1)).  The real poles given are 4 and
    0, the complex one is 3: 0 is no pole, and the pole i is missing. *)
Definition exm : list (sect QI) := [qs 1 0 0 1 (-7) 12; qs 1 0 0 1 0 1].
Theorem C51_mixed_refuted :
  real_sos realI exm /\ (forall s, In s exm -> csqrtI (sdisc s) * csqrtI (sdisc s) = sdisc s) /\
  (forall s, In s exm -> negI (gain s) = false) /\ exact_poles closeI exm /\
  (forall x, sos_pole exm x <-> In x [qi 4 0; qi 3 0; qi 0 1; qi 0 (-1)]) /\
  match runI exm with
  | Ok r => let '(_, ps, _) := pfe_real QI r in let '(_, cs, _) := pfe_cplx QI r in
      (exists p, In p ps /\ ~ sos_pole exm p) /\ (exists p, sos_pole exm p /\ ~ In p (ps ++ with_conj cjI cs))
  | Err _ => False end.
Proof.
  assert (H1 : forallb okI exm = true) by (vm_compute; reflexivity).
  assert (H2 : forallb sqI exm = true) by (vm_compute; reflexivity).
  assert (HP : forall x, sos_pole exm x <-> In x [qi 4 0; qi 3 0; qi 0 1; qi 0 (-1)]) by (apply poles_I; [exact H1|exact H2|vm_compute; reflexivity]).
  rewrite forallb_forall in H2.
  split; [exact (okI_ok _ H1)|]. split; [intros s Hs; apply closeI_ok, (H2 s Hs)|].
  split; [intros s [<-|[<-|[]]]; vm_compute; reflexivity|]. split; [apply exact_I|]. split; [exact HP|].
  assert (E : match runI exm with
    | Ok r => let '(_, ps, _) := pfe_real QI r in let '(_, cs, _) := pfe_cplx QI r in
        memI (qi 0 0) ps && negb (memI (qi 0 1) (ps ++ with_conj cjI cs)) | Err _ => false end = true) by (vm_compute; reflexivity).
  destruct (runI exm) as [r|]; [|discriminate].
  destruct (pfe_real QI r) as [[y ps] ws]. destruct (pfe_cplx QI r) as [[y' cs] ws'].
  apply andb_prop in E as [E1 E2]. apply memI_ok in E1. split.
  - exists (qi 0 0). split; [exact E1|]. rewrite HP, <- memI_ok. vm_compute. discriminate.
  - exists (qi 0 1). split; [apply HP; cbn; tauto|]. rewrite <- memI_ok. intro H. rewrite H in E2. discriminate.
Qed.
Print Assumptions C51_mixed_refuted.
Example C51_mixed_ex : showp (runI exm) = Some ((Some ([2]%nat, [(256 # 17, 0); (7 # 340, 0)]%Q), [(4, 0); (0, 0)]%Q, [1; 1]%nat),
  (Some ([1]%nat, [(-81 # 10, 0)]%Q), [(3, 0)]%Q, [1]%nat), [(1, 0)%Q]).
Proof. vm_compute. reflexivity. Qed.

(** Two pairs of the same modulus, i and (3 + 4 i) / 5: a sort by modulus may put the poles in
    the order i, (3 + 4 i) / 5, -i, (3 - 4 i) / 5, and every second one is kept. *)
Definition exe : list (sect QI) := [qs 1 0 0 1 0 1; qs 5 0 0 5 (-6) 5].
Definition tiesort (l : list QI) : list nat :=
  if (length l =? 4)%nat && forallb (fun x => forallb (geqI x) l) l then [0; 2; 1; 3]%nat else isort geqI l.
Definition half (a b : Z) : QI := (Q2Qc (a # 5), Q2Qc (b # 5)).
Lemma tie4 l : (length l =? 4)%nat && forallb (fun x => forallb (geqI x) l) l = true ->
  exists a b c d, l = [a; b; c; d] /\ forall x y, In x l -> In y l -> geqI x y = true.
Proof.
  intro H. apply andb_prop in H as [H3 H4]. apply Nat.eqb_eq in H3. destruct l as [|a [|b [|c [|d [|]]]]]; try discriminate H3.
  exists a, b, c, d. split; [reflexivity|]. intros x y Hx Hy. rewrite forallb_forall in H4. specialize (H4 x Hx). rewrite forallb_forall in H4. now apply H4.
Qed.
Theorem C51_equal_modulus_refuted :
  real_sos realI exe /\ simple_poles exe /\ sorter tiesort /\ sorts_by geqI tiesort /\
  match sos2pfe QI iszI closeI tiesort reI negI csqrtI exe RAvg with
  | Ok r => let '(_, ps, _) := pfe_real QI r in let '(_, cs, _) := pfe_cplx QI r in
      ps = [] /\ cs = [qi 0 1; qi 0 (-1)] /\ exists p, sos_pole exe p /\ ~ In p (with_conj cjI cs)
  | Err _ => False end.
Proof.
  assert (H1 : forallb okI exe = true) by (vm_compute; reflexivity).
  assert (H2 : forallb sqI exe = true) by (vm_compute; reflexivity).
  assert (HP : forall x, sos_pole exe x <-> In x [qi 0 1; qi 0 (-1); half 3 4; half 3 (-4)]) by (apply poles_I; [exact H1|exact H2|vm_compute; reflexivity]).
  pose proof tie4 as Hg.
  destruct isort_I as [I1 I2].
  split; [exact (okI_ok _ H1)|]. split; [|split; [|split]].
  - eexists. split; [|split; [|intros x Hx; apply HP; exact Hx]]; [apply nodupI_ok; vm_compute; reflexivity|reflexivity].
  - intro l. unfold tiesort. destruct (_ && _) eqn:E; [|apply I1]. destruct (Hg l E) as (a & b & c & d & -> & _).
    cbn [length seq]. constructor. apply perm_swap.
  - intro l. unfold tiesort. destruct (_ && _) eqn:E; [|apply I2]. destruct (Hg l E) as (a & b & c & d & -> & G).
    cbn [map nth]. repeat constructor; apply G; cbn; tauto.
  - assert (E : match sos2pfe QI iszI closeI tiesort reI negI csqrtI exe RAvg with
      | Ok r => let '(_, ps, _) := pfe_real QI r in let '(_, cs, _) := pfe_cplx QI r in
          listeqI ps [] && listeqI cs [qi 0 1; qi 0 (-1)] | Err _ => false end = true) by (vm_compute; reflexivity).
    destruct (sos2pfe _ _ _ _ _ _ _ exe RAvg) as [r|]; [|discriminate].
    destruct (pfe_real QI r) as [[y ps] ws]. destruct (pfe_cplx QI r) as [[y' cs] ws'].
    apply andb_prop in E as [E1 E2]. apply listeqI_ok in E1, E2. subst. split; [reflexivity|]. split; [reflexivity|].
    exists (half 3 4). split; [apply HP; cbn; tauto|]. rewrite <- memI_ok. vm_compute. discriminate.
Qed.
Print Assumptions C51_equal_modulus_refuted.

(** No section at all: the product is 1, but sos2pfe raises. *)
Theorem C51_empty_refuted (F : cfield) z0 close argsort re neg csqrt rt :
  sos2pfe F z0 close argsort re neg csqrt [] rt = Err (match rt with ROther => ValueError | _ => RuntimeError end).
Proof. destruct rt; reflexivity. Qed.
Print Assumptions C51_empty_refuted.
(** rtype "min" and "max" raise. *)
Theorem C51_rtype_refuted (F : cfield) z0 close argsort re neg csqrt (sos : list (sect F)) rt :
  rt = RMin \/ rt = RMax -> sos2pfe F z0 close argsort re neg csqrt sos rt = Err RuntimeError.
Proof.
  intro Hrt. destruct sos as [|[[[b0 b1] b2] [[a0 a1] a2]] l]; [rewrite C51_empty_refuted; now destruct Hrt as [->| ->]|].
  unfold sos2pfe. rewrite C50_default_rtype_refuted; [reflexivity|discriminate|exact Hrt].
Qed.
Print Assumptions C51_rtype_refuted.
