(** C48-C50: prototype/signal.py, unique_roots, residue and residuez.  Coefficient lists have
    the highest degree first; [leval p z] is the value.  [z0] is x == 0, [small] is
    |x| < 1e-8, [close x y] is cdist < tol, [argsort] sorts by modulus. *)
From Coq Require Import List Arith Lia ZArith Bool QArith Qcanon Permutation.
From Verif Require Import Scalar Tensor TensorLemmas TensorOps TensorAlg TensorTac TensorList
  SpecPoly SpecPfe M_Poly P_Poly M_ProtoPoly P_ProtoPoly P_ProtoPoly2 P_Formal M_Signal P_Signal P_Signal2
  Properties_Poly Properties_ProtoPoly.
Import ListNotations.
Open Scope nat_scope.
Open Scope cr_scope.

(** What is assumed of the primitives. *)
Definition sorter {F : cring} (argsort : list F -> list nat) : Prop :=
  forall l, Permutation (argsort l) (seq 0 (length l)).
Definition exact_on {F : cring} (close : F -> F -> bool) (L : list F) : Prop :=
  forall x y, In x L -> In y L -> close x y = true <-> x = y.
Definition char0 (F : cring) : Prop := forall m, (1 <= m)%nat -> rnat m <> 0 :> F.
(** [rts] are the roots of [a], with multiplicity. *)
Definition all_roots {F : cfield} (a rts : list F) : Prop :=
  length rts = (length a - 1)%nat /\ forall z, leval a z = nth 0 a 0 * rootprod rts z.
(** Every root is multiple; there are two different roots; [b] is constant modulo [a]. *)
Definition all_multiple {F : cring} (rts : list F) : Prop := forall x r, Permutation rts (x :: r) -> In x r.
Definition two_roots {F : cring} (rts : list F) : Prop := exists x y, In x rts /\ In y rts /\ x <> y.
Definition const_mod {F : cring} (b a : list F) : Prop := exists q c, forall z, leval b z = leval q z * leval a z + c.
Definition vec {F : cring} (y : tensor F) (l : list F) : Prop := is1 y (length l) (fun i => nth i l 0).
Definition column {F : cring} (y : tensor F) (l : list F) : Prop := is2 y (length l) 1 (fun i _ => nth i l 0).

(** ** C50 unique_roots *)
(** The entries are partitioned in groups; every member of a group is within the tolerance
    of the first one and of the same class; the first ones of two groups are not.  The
    result is the mean, the size and the class of each group. *)
Theorem C50_unique_roots (F : cfield) (close : F -> F -> bool) (p : list F) (oc : option (list bool)) :
  p <> [] -> (forall x, In x p -> close x x = true) ->
  let cx i := match oc with Some c => nth i c true | None => true end in
  let alike i j := close (nth i p 0) (nth j p 0) = true /\ cx j = cx i in
  exists gs : list (nat * list nat),
    unique_roots F close p true RAvg oc =
      Ok (map (fun '(i, g) => (suml F (map (fun j => nth j p 0) g) * rinv (rnat (length g)), length g, cx i)) gs) /\
    Permutation (concat (map snd gs)) (seq 0 (length p)) /\
    (forall i g, In (i, g) gs -> In i g /\ forall j, In j g -> alike i j) /\
    ForallOrdPairs (fun a b => ~ alike (fst a) (fst b)) gs.
Proof.
  intros Hne Hr cx alike.
  set (c := match oc with Some c => c | None => repeat true (length p) end).
  assert (Hcx : forall i, nth i c true = cx i).
  { intro i. unfold c, cx. destruct oc; [reflexivity|]. generalize (length p). intro k. revert i. induction k; intros [|i]; cbn; auto. }
  destruct (unique_roots_spec F close p c) with (oc := oc) as (gs & E & HP & Hm & Ho).
  { intros i Hi. apply Hr. now apply nth_In. } { exact Hne. } { reflexivity. }
  assert (Hal : forall i j, close (nth i p 0) (nth j p 0) && Bool.eqb (nth j c true) (nth i c true) = true <-> alike i j).
  { intros i j. rewrite !Hcx, andb_true_iff, eqb_true_iff. reflexivity. }
  exists gs. split; [|split; [exact HP|split]].
  - rewrite E. f_equal. apply map_ext. intros [i g]. unfold gres. cbn [fst snd]. now rewrite Hcx.
  - intros i g H. destruct (Hm i g H) as [H1 H2]. split; [exact H1|]. intros j Hj. apply Hal. now apply H2.
  - clear - Ho Hal. induction Ho as [|a l Ha Ho IH]; constructor; [|exact IH].
    apply Forall_forall. intros b Hb H. rewrite Forall_forall in Ha. specialize (Ha b Hb). apply Hal in H. congruence.
Qed.
Print Assumptions C50_unique_roots.
(** With an exact test: the distinct values and their multiplicities. *)
Theorem C50_unique_roots_exact (F : cfield) (close : F -> F -> bool) (p : list F) :
  p <> [] -> char0 F -> exact_on close p ->
  exists u, unique_roots F close p true RAvg None = Ok u /\
    NoDup (map (fun '(x, _, _) => x) u) /\ (forall x m c, In (x, m, c) u -> (1 <= m)%nat) /\
    Permutation (concat (map (fun '(x, m, _) => repeat x m) u)) p.
Proof.
  intros Hne Hc Hx. destruct (unique_roots_exact F close Hc p Hne Hx) as (u & E & Hnd & Hm & HP).
  exists u. split; [exact E|]. split; [|split].
  - rewrite map_map in Hnd. erewrite map_ext; [exact Hnd|]. now intros [[x m] c].
  - intros x m c Hin. apply (Hm x). apply in_map_iff. now exists (x, m, c).
  - unfold poles_of in HP. rewrite map_map in HP. erewrite map_ext; [exact HP|]. now intros [[x m] c].
Qed.
Print Assumptions C50_unique_roots_exact.
Definition qclose (x y : Qfield) : bool := Qc_eq_bool x y.
Definition qid (l : list Qfield) : list nat := seq 0 (length l).
Lemma qclose_ok L : exact_on qclose L.
Proof. intros x y _ _. unfold qclose. split; [apply Qc_eq_bool_correct|]. intros ->. unfold Qc_eq_bool. destruct (Qc_eq_dec y y); congruence. Qed.
Lemma qid_ok : sorter qid.
Proof. intro l. reflexivity. Qed.
Lemma rnat_q m : (this (rnat m : Qfield) == inject_Z (Z.of_nat m))%Q.
Proof.
  induction m as [|m IH]; [reflexivity|]. cbn [rnat].
  match goal with |- (this (@radd _ ?a ?b) == _)%Q => change (Qred (this a + this b) == inject_Z (Z.of_nat (S m)))%Q end.
  rewrite Qred_correct, IH, Nat2Z.inj_succ. unfold Z.succ. rewrite inject_Z_plus. cbn. ring.
Qed.
Lemma q_char0 : char0 Qfield.
Proof. intros m Hm H. pose proof (rnat_q m) as G. rewrite H in G. unfold Qeq in G. cbn in G. lia. Qed.
Definition qv (l : list Qfield) : list Q := map this l.
Definition qt (t : tensor Qfield) : option (list nat * list Q) :=
  match show (Ok t) with Some (s, l) => Some (s, qv l) | None => None end.
Example C50_ex : match unique_roots Qfield qclose (map qz [2; 3; 2; 5; 3; 2]%Z) true RAvg None with
  | Ok u => map (fun '(x, m, _) => (this x, m)) u = [(2%Q, 3%nat); (3%Q, 2%nat); (5%Q, 1%nat)]
  | Err _ => False end.
Proof. vm_compute. reflexivity. Qed.
Example C50_ex_class : match unique_roots Qfield qclose (map qz [2; 3; 2; 2]%Z) true RAvg (Some [true; false; false; true]) with
  | Ok u => map (fun '(x, m, c) => (this x, m, c)) u = [(2%Q, 2%nat, true); (3%Q, 1%nat, false); (2%Q, 1%nat, false)]
  | Err _ => False end.
Proof. vm_compute. reflexivity. Qed.
(** A tolerance that is not exact: values at distance at most 1. *)
Definition qclose1 (x y : Qfield) : bool := Qle_bool (this (x - y)) 1 && Qle_bool (this (y - x)) 1.
Example C50_ex_mean : match unique_roots Qfield qclose1 (map qz [2; 3; 7; 1; 4]%Z) true RAvg None with
  | Ok u => map (fun '(x, m, _) => (this x, m)) u = [(2%Q, 3%nat); (7%Q, 1%nat); (4%Q, 1%nat)]
  | Err _ => False end.
Proof. vm_compute. reflexivity. Qed.
(** The closeness test must hold on the diagonal: with tol = 0 the group of a root is empty. *)
Theorem C50_zero_tol_refuted : exists (p : list Qfield) u,
  unique_roots Qfield (fun _ _ => false) p true RAvg None = Ok u /\ map (fun '(_, m, _) => m) u = [0%nat].
Proof. exists (map qz [2]%Z). eexists. split; reflexivity. Qed.
Print Assumptions C50_zero_tol_refuted.
(** The documented default rtype = "min" (and "max") cannot work: complex input is required,
    and torch.min / torch.max reject it. *)
Theorem C50_default_rtype_refuted (F : cfield) close (p : list F) oc rt : p <> [] -> rt = RMin \/ rt = RMax ->
  unique_roots F close p true rt oc = Err RuntimeError.
Proof. intros Hne Hrt. destruct p as [|x p]; [congruence|]. destruct Hrt as [-> | ->]; reflexivity. Qed.
Print Assumptions C50_default_rtype_refuted.
Theorem C50_errors (F : cfield) close (p : list F) oc :
  (forall cp, unique_roots F close p cp ROther oc = Err ValueError) /\
  (forall rt, rt <> ROther -> unique_roots F close p false rt oc = Err AssertionError) /\
  (forall rt, rt <> ROther -> unique_roots F close [] true rt oc = Err RuntimeError).
Proof. repeat split; intros; try reflexivity; destruct rt; try reflexivity; congruence. Qed.
Print Assumptions C50_errors.

(** ** C48 residue *)
Section C48.
Variable F : cfield.
Variables z0 small : F -> bool.
Variable eigvals : nat -> (nat -> nat -> F) -> list F.
Variable close : F -> F -> bool.
Variable argsort : list F -> list nat.
Hypothesis Hz0 : zero_test F z0.
Hypothesis Hsm : zero_test F small.
Hypothesis Hsort : sorter argsort.
Hypothesis Hch : char0 F.
Add Ring Rs48 : (r_th F).

Lemma const_leval N : (length (trim_zeros z0 N) =? 1)%nat = true -> forall z, leval N z = lcoef N 0.
Proof.
  intros E z. apply Nat.eqb_eq in E. rewrite (leval_coef F N (length N + 1)) by lia.
  rewrite (bsum_trunc 1 (length N + 1)); [cbn; ring|lia|].
  intros i H1 H2. rewrite <- (trim_coef F z0 Hz0), lcoef_high by lia. ring.
Qed.
Lemma rem_nonconst b a k N : (1 <= length a)%nat -> nth 0 a 0 <> 0 -> rem_of F z0 small b a = (k, N) -> ~ const_mod b a ->
  (length (trim_zeros z0 N) =? 1)%nat = false.
Proof.
  intros Hl Ha E Hc. destruct (length (trim_zeros z0 N) =? 1)%nat eqn:Ec; [|reflexivity]. exfalso. apply Hc.
  destruct (rem_of_spec F z0 Hz0 small Hsm b a Hl Ha) as (k' & N' & E' & _ & H). rewrite E in E'. injection E' as <- <-.
  exists k, (lcoef N 0). intro z. rewrite H. f_equal. now apply const_leval.
Qed.
Lemma stack_vec N B ts : ts <> [] ->
  Forall2 (fun t vm => isv F t (vshape F z0 N (length B =? 1)%nat (snd vm)) (fst vm)) ts (tagged F B) ->
  (forall b, In b B -> (2 <= length (snd b))%nat) \/ ((length (trim_zeros z0 N) =? 1)%nat = false /\ length B <> 1%nat) ->
  exists y, stack 0 ts = Ok y /\ vec y (pfe_res B).
Proof.
  intros Hne Hv Hreg. rewrite <- tagged_fst. apply isv_stack; [|exact Hne]. apply (Forall2_shape F z0 _ _ _ _ _ Hv).
  intros v m Hin. unfold vshape. destruct Hreg as [Hm|[Hc Hb]].
  - apply tagged_in in Hin as (b & Hin & ->). specialize (Hm b Hin). bfalse (length (snd b) =? 1)%nat. reflexivity.
  - rewrite Hc. bfalse (length B =? 1)%nat. cbn. now rewrite andb_false_r.
Qed.
Lemma stack_column N B ts : ts <> [] ->
  Forall2 (fun t vm => isv F t (vshape F z0 N (length B =? 1)%nat (snd vm)) (fst vm)) ts (tagged F B) ->
  (forall b, In b B -> length (snd b) = 1%nat) -> (length (trim_zeros z0 N) =? 1)%nat = true \/ length B = 1%nat ->
  exists y, stack 0 ts = Ok y /\ column y (pfe_res B).
Proof.
  intros Hne Hv Hm Hc. rewrite <- tagged_fst. apply isv_stack1; [|exact Hne]. apply (Forall2_shape F z0 _ _ _ _ _ Hv).
  intros v m Hin. unfold vshape. apply tagged_in in Hin as (b & Hin & ->). rewrite (Hm b Hin). cbn [Nat.eqb andb].
  destruct Hc as [-> | ->]; cbn; [reflexivity|now rewrite orb_true_r].
Qed.
Lemma simple_len (B : list (F * list F)) : (forall b, In b B -> length (snd b) = 1%nat) -> length (pfe_poles B) = length B.
Proof.
  intro H. unfold pfe_poles. induction B as [|b B IH]; [reflexivity|]. cbn [map concat length]. rewrite app_length, repeat_length, IH by (intros; apply H; now right).
  rewrite H by now left. reflexivity.
Qed.
Lemma tmap_vec (y : tensor F) l c : vec y l -> vec (tmap (fun x => x * c) y) (map (fun x => x * c) l).
Proof.
  intros [Hs Hy]. unfold vec. rewrite map_length. split; [exact Hs|]. intros i Hi. cbn. rewrite Hy by exact Hi.
  rewrite (nth_indep (map (fun x => x * c) l) 0 (0 * c)) by (rewrite map_length; lia). now rewrite (map_nth (fun x => x * c)).
Qed.
Lemma tmap_column (y : tensor F) l c : column y l -> column (tmap (fun x => x * c) y) (map (fun x => x * c) l).
Proof.
  intros [Hs Hy]. unfold column. rewrite map_length. split; [exact Hs|]. intros i j Hi Hj. cbn. rewrite (Hy i j) by assumption.
  rewrite (nth_indep (map (fun x => x * c) l) 0 (0 * c)) by (rewrite map_length; lia). now rewrite (map_nth (fun x => x * c)).
Qed.
Lemma rem_of_short b a : (length b < length a)%nat -> rem_of F z0 small b a = ([], b).
Proof. intro H. unfold rem_of. btrue (length b <? length a)%nat. reflexivity. Qed.
Lemma scaleB_poles c B : pfe_poles (scaleB F c B) = pfe_poles B.
Proof. now rewrite <- !poles_of_sz, scaleB_sz. Qed.
Lemma scaleB_fst c (B : list (F * list F)) : map fst (scaleB F c B) = map fst B.
Proof. unfold scaleB. rewrite map_map. reflexivity. Qed.

(** b / a = k + sum of r_j / (z - p)^j, when every root of [a] is multiple, or when [a] has
    two different roots and [b] is not constant modulo [a]. *)
Theorem C48_residue (b a rts : list F) :
  (1 <= length b)%nat -> (2 <= length a)%nat -> nth 0 a 0 <> 0 ->
  roots z0 eigvals a = Ok rts -> all_roots a rts -> exact_on close rts ->
  all_multiple rts \/ (two_roots rts /\ ~ const_mod b a) ->
  exists y E k, residue F z0 small eigvals close argsort b a RAvg = Ok (y, pfe_poles E, k) /\
    vec y (pfe_res E) /\ NoDup (map fst E) /\ Permutation (pfe_poles E) rts /\
    ((length b < length a)%nat -> k = []) /\
    forall z, ~ In z rts -> leval b z = leval a z * (leval k z + pfe_val E z).
Proof.
  intros Hb Ha Ha0 Er [Hlr Hf] Hcl Hreg.
  destruct (residue_core F z0 Hz0 small Hsm eigvals close argsort Hsort Hch b a rts Hb Ha Ha0 Er Hlr Hf Hcl) as (ts & B & H).
  destruct (rem_of F z0 small b a) as [k N] eqn:EN. destruct H as (E & Hne & Hnd & HP & Hsnd & Hv & Hid).
  destruct (stack_vec N B ts Hne Hv) as (y & Es & Hy).
  { destruct Hreg as [Hm|[(x & x' & Hx & Hx' & Hxx) Hc]].
    - left. exact (blocks_repeated F B rts Hnd HP Hsnd Hm).
    - right. split; [now apply (rem_nonconst b a k N ltac:(lia) Ha0 EN)|now apply (blocks_two F B rts Hnd HP Hsnd x x')]. }
  rewrite Es in E. cbn [bind] in E.
  eexists _, (scaleB F (rinv (nth 0 a 0)) B), k. rewrite scaleB_poles, scaleB_fst, scaleB_res.
  split; [exact E|]. split; [now apply tmap_vec|]. split; [exact Hnd|]. split; [exact HP|]. split; [|exact Hid].
  intro Hlt. rewrite rem_of_short in EN by exact Hlt. now injection EN as <- _.
Qed.
(** The remaining cases.  Only simple roots, and a constant numerator or a single root: the
    residues have shape (n, 1) instead of (n,). *)
Theorem C48_residue_column (b a rts : list F) :
  (1 <= length b)%nat -> (2 <= length a)%nat -> nth 0 a 0 <> 0 ->
  roots z0 eigvals a = Ok rts -> all_roots a rts -> exact_on close rts ->
  NoDup rts -> ((length b < length a)%nat /\ forall k, (1 <= k)%nat -> lcoef b k = 0) \/ length a = 2%nat ->
  exists y E k, residue F z0 small eigvals close argsort b a RAvg = Ok (y, pfe_poles E, k) /\
    column y (pfe_res E) /\ NoDup (map fst E) /\ Permutation (pfe_poles E) rts /\
    forall z, ~ In z rts -> leval b z = leval a z * (leval k z + pfe_val E z).
Proof.
  intros Hb Ha Ha0 Er [Hlr Hf] Hcl Hs Hc.
  destruct (residue_core F z0 Hz0 small Hsm eigvals close argsort Hsort Hch b a rts Hb Ha Ha0 Er Hlr Hf Hcl) as (ts & B & H).
  destruct (rem_of F z0 small b a) as [k N] eqn:EN. destruct H as (E & Hne & Hnd & HP & Hsnd & Hv & Hid).
  pose proof (blocks_simple F B rts HP Hsnd Hs) as Hone.
  destruct (stack_column N B ts Hne Hv Hone) as (y & Es & Hy).
  { destruct Hc as [[Hlt Hc]|Hc].
    - left. rewrite rem_of_short in EN by exact Hlt. injection EN as _ <-. now apply const_true.
    - right. rewrite <- (simple_len B Hone), (Permutation_length HP). lia. }
  rewrite Es in E. cbn [bind] in E.
  eexists _, (scaleB F (rinv (nth 0 a 0)) B), k. rewrite scaleB_poles, scaleB_fst, scaleB_res.
  split; [exact E|]. split; [now apply tmap_column|]. now repeat split.
Qed.
(** A constant numerator with a simple and a multiple root raises RuntimeError. *)
Theorem C48_residue_mixed (b a rts : list F) x y r r' :
  (1 <= length b)%nat -> (2 <= length a)%nat -> nth 0 a 0 <> 0 ->
  roots z0 eigvals a = Ok rts -> all_roots a rts -> exact_on close rts ->
  (length b < length a)%nat -> (forall k, (1 <= k)%nat -> lcoef b k = 0) ->
  Permutation rts (x :: r) -> ~ In x r -> Permutation rts (y :: y :: r') ->
  residue F z0 small eigvals close argsort b a RAvg = Err RuntimeError.
Proof.
  intros Hb Ha Ha0 Er [Hlr Hf] Hcl Hlt Hc H1 H2 H3.
  destruct (residue_core F z0 Hz0 small Hsm eigvals close argsort Hsort Hch b a rts Hb Ha Ha0 Er Hlr Hf Hcl) as (ts & B & H).
  destruct (rem_of F z0 small b a) as [k N] eqn:EN. destruct H as (E & Hne & Hnd & HP & Hsnd & Hv & Hid).
  rewrite rem_of_short in EN by exact Hlt. injection EN as _ <-. apply (const_true F z0 Hz0) in Hc.
  destruct (block_simple_ex F B rts HP x r H1 H2) as (rs & Hin & Hl).
  destruct (block_double_ex F B rts Hnd HP y r' H3) as (rs' & Hin' & Hl').
  destruct (in_tagged F B _ Hin (Hsnd _ Hin)) as (v & Hv1). destruct (in_tagged F B _ Hin' (Hsnd _ Hin')) as (v' & Hv2).
  destruct (Forall2_in _ _ _ _ Hv Hv1) as (t & Ht & Hts & _). destruct (Forall2_in _ _ _ _ Hv Hv2) as (t' & Ht' & Hts' & _).
  rewrite E, (stack_mixed F ts t t' Ht Ht'); [reflexivity|]. rewrite Hts, Hts'. cbn [snd]. unfold vshape.
  rewrite Hl, Hc. bfalse (length rs' =? 1)%nat. discriminate.
Qed.
End C48.
Print Assumptions C48_residue.
Print Assumptions C48_residue_column.
Print Assumptions C48_residue_mixed.

(** The roots are those of prototype/poly.py roots, given the eigenvalues with multiplicity. *)
Theorem C48_roots (F : cfield) z0 eigvals (a : list F) i j : zero_test F z0 ->
  (i < j < length a)%nat -> nth i a 0 <> 0 -> nth j a 0 <> 0 -> (forall k, (k < i \/ j < k)%nat -> nth k a 0 = 0) ->
  (let P := skipn i (firstn (j + 1) a) in all_roots P (eigvals (j - i)%nat (companion_of P))) ->
  exists rts, roots z0 eigvals a = Ok rts /\ length rts = (length a - 1 - i)%nat /\
    forall z, leval a z = nth i a 0 * rootprod rts z.
Proof. intro H. exact (roots_factor F z0 H eigvals a i j). Qed.
Print Assumptions C48_roots.

(** z / (2 (z - 1) (z - 2)) and (z^4 + 1) / ((z - 1)^2 (z - 2)). *)
Notation qres l b a := (residue Qfield qq qq (fun _ _ => map qz l%Z) qclose qid (map qz b%Z) (map qz a%Z) RAvg).
Definition q3 (r : res (tensor Qfield * list Qfield * list Qfield)) :=
  match r with Ok (y, p, k) => Some (qt y, qv p, qv k) | Err _ => None end.
Example C48_ex : q3 (qres [2; 1] [1; 0] [2; -6; 4]) = Some (Some ([2%nat], [1; -1 # 2]%Q), [2; 1]%Q, []).
Proof. vm_compute. reflexivity. Qed.
Example C48_ex2 : q3 (qres [2; 1; 1] [1; 0; 0; 0; 1] [1; -4; 5; -2]) =
  Some (Some ([3%nat], [17; -6; -2]%Q), [2; 1; 1]%Q, [1; 4]%Q).
Proof. vm_compute. reflexivity. Qed.
Lemma qz_opp x : (qz (- x) : Qfield) = - (qz x : Qfield).
Proof. apply Qc_is_canon. change (Qred (inject_Z (- x)) == Qred (- Qred (inject_Z x)))%Q. now rewrite !Qred_correct. Qed.
Add Ring RQex : (r_th Qfield).
Example C48_ex_hyps : all_roots (F:=Qfield) (map qz [1; -4; 5; -2]%Z) (map qz [2; 1; 1]%Z) /\
  two_roots (F:=Qfield) (map qz [2; 1; 1]%Z) /\
  ~ const_mod (F:=Qfield) (map qz [1; 0; 0; 0; 1]%Z) (map qz [1; -4; 5; -2]%Z).
Proof.
  assert (H2 : qz 2 = 1 + 1 :> Qfield) by (apply Qc_is_canon; reflexivity).
  assert (H4 : qz 4 = 1 + 1 + 1 + 1 :> Qfield) by (apply Qc_is_canon; reflexivity).
  assert (H5 : qz 5 = 1 + 1 + 1 + 1 + 1 :> Qfield) by (apply Qc_is_canon; reflexivity).
  assert (H1 : qz 1 = 1 :> Qfield) by reflexivity. assert (H0 : qz 0 = 0 :> Qfield) by reflexivity.
  assert (Hf : all_roots (F:=Qfield) (map qz [1; -4; 5; -2]%Z) (map qz [2; 1; 1]%Z)).
  { split; [reflexivity|]. intro z. unfold leval, peval, rootprod. cbn [map length bsum nth Nat.sub rpow fold_right].
    change (-4)%Z with (- (4))%Z. change (-2)%Z with (- (2))%Z. rewrite !qz_opp, H1, H2, H4, H5. ring. }
  split; [exact Hf|]. split.
  - exists (qz 2), (qz 1). split; [now left|]. split; [right; now left|]. discriminate.
  - intros (q & c & H). destruct Hf as [_ Hf].
    pose proof (H (qz 1)) as E1. pose proof (H (qz 2)) as E2. rewrite Hf in E1, E2.
    assert (forall x, In x [qz 2; qz 1; qz 1] -> rootprod (F:=Qfield) (map qz [2; 1; 1]%Z) x = 0) as Z.
    { intros x Hx. cbn [map rootprod fold_right]. destruct Hx as [<-|[<-|[<-|[]]]]; ring. }
    rewrite Z in E1 by (right; now left). rewrite Z in E2 by now left.
    assert (leval (R:=Qfield) (map qz [1; 0; 0; 0; 1]%Z) (qz 1) = leval (R:=Qfield) (map qz [1; 0; 0; 0; 1]%Z) (qz 2)) as G.
    { rewrite E1, E2. ring. }
    apply (f_equal this) in G. vm_compute in G. discriminate.
Qed.
(** 1 / ((z - 1) (z - 2)) and 3 / (z - 2): a column; 1 / ((z - 1)^2 (z - 2)) raises. *)
Theorem C48_residue_shape_refuted :
  q3 (qres [2; 1] [1] [1; -3; 2]) = Some (Some ([2; 1]%nat, [1; -1]%Q), [2; 1]%Q, []) /\
  q3 (qres [2] [3] [1; -2]) = Some (Some ([1; 1]%nat, [3]%Q), [2]%Q, []) /\
  qres [2; 1; 1] [1] [1; -4; 5; -2] = Err RuntimeError.
Proof. repeat split; vm_compute; reflexivity. Qed.
Print Assumptions C48_residue_shape_refuted.
(** Poles only at 0: the roots cannot be computed. *)
Theorem C48_residue_monomial_refuted (F : cfield) z0 small eigvals close argsort (b a : list F) h rt : zero_test F z0 ->
  (1 <= length b)%nat -> (h < length a)%nat -> nth h a 0 <> 0 -> (forall k, k <> h -> nth k a 0 = 0) ->
  residue F z0 small eigvals close argsort b a rt = Err IndexError /\
  residuez F z0 small eigvals close argsort b a rt = Err IndexError.
Proof.
  intros Hz Hb Hh Hn Ho. unfold residue, residuez. bfalse (length b =? 0)%nat. bfalse (length a =? 0)%nat. cbn [negb andb].
  rewrite (roots_monomial F z0 Hz eigvals a h Hh Hn Ho). split; reflexivity.
Qed.
Print Assumptions C48_residue_monomial_refuted.
Example C48_monomial_ex : qres [0; 0] [1; 1] [1; 0; 0] = Err IndexError.
Proof. reflexivity. Qed.
(** rtype other than "avg" raises (RuntimeError for "min" and "max"). *)
Theorem C48_rtype_refuted (F : cfield) z0 small eigvals close argsort (b a rts : list F) rt :
  (1 <= length b)%nat -> (1 <= length a)%nat -> roots z0 eigvals a = Ok rts -> rts <> [] -> rt = RMin \/ rt = RMax ->
  residue F z0 small eigvals close argsort b a rt = Err RuntimeError /\
  residuez F z0 small eigvals close argsort b a rt = Err RuntimeError.
Proof.
  intros Hb Ha Er Hne Hrt. unfold residue, residuez, sorted_poles. bfalse (length b =? 0)%nat. bfalse (length a =? 0)%nat. cbn [negb andb].
  rewrite Er. cbn [bind]. assert (Hl : (length rts <> 0)%nat) by (destruct rts; [congruence|cbn; lia]). bfalse (length rts =? 0)%nat. cbn [negb].
  rewrite (C50_default_rtype_refuted F close rts None rt Hne Hrt). cbn [bind].
  destruct (if (length b <? length a)%nat then _ else _) as [k N]. destruct (if (length (rev b) <? length (rev a))%nat then _ else _) as [k' N'].
  split; reflexivity.
Qed.
Print Assumptions C48_rtype_refuted.
Example C48_rtype_ex : residue Qfield qq qq (fun _ _ => map qz [2; 1]%Z) qclose qid (map qz [1; 0]%Z) (map qz [1; -3; 2]%Z) RMin = Err RuntimeError.
Proof. reflexivity. Qed.

(** ** C49 residuez: in w = 1/z, b / a = k + sum of r_j / (1 - p w)^j. *)
Definition const_modz {F : cfield} (b a : list F) : Prop := exists q c, forall w, zval b w = zval q w * zval a w + c.
Section C49.
Variable F : cfield.
Variables z0 small : F -> bool.
Variable eigvals : nat -> (nat -> nat -> F) -> list F.
Variable close : F -> F -> bool.
Variable argsort : list F -> list nat.
Hypothesis Hz0 : zero_test F z0.
Hypothesis Hsm : zero_test F small.
Hypothesis Hsort : sorter argsort.
Hypothesis Hch : char0 F.
Add Ring Rs49 : (r_th F).
Lemma const_modz_of (b a : list F) : const_mod (rev b) (rev a) -> const_modz b a.
Proof.
  intros (q & c & H). exists (rev q), c. intro w. specialize (H w). rewrite !leval_zval in H. rewrite H.
  rewrite <- (leval_zval F (rev q)), rev_involutive. reflexivity.
Qed.
Lemma tagged_lens (E B : list (F * list F)) : map (fun b => length (snd b)) E = map (fun b => length (snd b)) B ->
  length E = length B /\ (forall m, (forall b, In b E -> length (snd b) = m) -> forall b, In b B -> length (snd b) = m) /\
  ((forall b, In b E -> (2 <= length (snd b))%nat) -> forall b, In b B -> (2 <= length (snd b))%nat).
Proof.
  intro H. split; [apply (f_equal (@length _)) in H; now rewrite !map_length in H|].
  assert (forall b, In b B -> exists e, In e E /\ length (snd e) = length (snd b)) as G.
  { intros b Hb. assert (In (length (snd b)) (map (fun b => length (snd b)) E)) as Hi.
    { rewrite H. apply (in_map (fun b : F * list F => length (snd b))). exact Hb. }
    apply in_map_iff in Hi as (e & He & Hi). now exists e. }
  split; [intros m He b Hb; destruct (G b Hb) as (e & H1 & H2); rewrite <- H2; now apply He|].
  intros He b Hb; destruct (G b Hb) as (e & H1 & H2); rewrite <- H2; now apply He.
Qed.
Lemma tmul_vec (y : tensor F) l fac : vec y l -> length fac = length l ->
  exists w, tmul y (lst1 0 fac) = Ok w /\ vec w (map (fun u => fst u * snd u) (combine l fac)).
Proof.
  intros Hy Hl. unfold vec in *. assert (Hf : is1 (lst1 0 fac) (length l) (fun i => nth i fac 0)).
  { split; [cbn; now rewrite Hl|]. intros i Hi. reflexivity. }
  apply is1_P in Hy. apply is1_P in Hf. destruct (P1_ew_same rmul _ _ _ _ _ _ Hy Hf) as (w & E & Hw). exists w. split; [exact E|].
  apply is1_P. rewrite map_length, combine_length, Hl, Nat.min_id. eapply isP1_ext; [exact Hw|]. intros q i _ Hi. cbn beta.
  rewrite (nth_indep (map (fun u => fst u * snd u) (combine l fac)) 0 ((fun u => fst u * snd u) (0, 0))) by (rewrite map_length, combine_length; lia).
  rewrite (map_nth (fun u => fst u * snd u)), combine_nth by lia. reflexivity.
Qed.
Theorem C49_residuez (b a rts : list F) :
  (1 <= length b)%nat -> (2 <= length a)%nat -> nth (length a - 1) a 0 <> 0 ->
  roots z0 eigvals a = Ok rts -> all_roots a rts -> exact_on close rts ->
  all_multiple rts \/ (two_roots rts /\ ~ const_modz b a) ->
  exists y E k, residuez F z0 small eigvals close argsort b a RAvg = Ok (y, pfe_poles E, k) /\
    vec y (pfe_res E) /\ NoDup (map fst E) /\ Permutation (pfe_poles E) rts /\
    ((length b < length a)%nat -> k = []) /\
    forall w, (forall p, In p rts -> p * w <> 1) -> zval b w = zval a w * (zval k w + pfez_val E w).
Proof.
  intros Hb Ha Ha0 Er [Hlr Hf] Hcl Hreg.
  destruct (residuez_core F z0 Hz0 small Hsm eigvals close argsort Hsort Hch b a rts Hb Ha Ha0 Er Hlr Hf Hcl) as (ts & B & fac & H).
  destruct (rem_of F z0 small (rev b) (rev a)) as [k N] eqn:EN. cbv zeta in H.
  set (an := nth (length a - 1) a 0) in *. set (E := map (zblock F (rinv an)) B) in *.
  destruct H as (Eq & Hne & Hnd & HP & Hsnd & Hv & Hfl & Hres & Hlens & Hid).
  destruct (tagged_lens E B Hlens) as (HEB & _ & Hm2).
  assert (Hra : nth 0 (rev a) 0 <> 0). { rewrite rev_nth by lia. exact Ha0. }
  destruct (stack_vec F z0 N B ts Hne) as (y & Es & Hy).
  { now rewrite <- HEB. }
  { destruct Hreg as [Hm|[(x & x' & Hx & Hx' & Hxx) Hc]].
    - left. apply Hm2. exact (blocks_repeated F E rts Hnd HP Hsnd Hm).
    - right. split.
      + apply (rem_nonconst F z0 small Hz0 Hsm (rev b) (rev a) k N); [rewrite rev_length; lia|exact Hra|exact EN|].
        intro G. apply Hc. now apply const_modz_of.
      + rewrite <- HEB. now apply (blocks_two F E rts Hnd HP Hsnd x x'). }
  rewrite Es in Eq. cbn [bind] in Eq. destruct (tmul_vec y _ fac Hy Hfl) as (w & Ew & Hw). rewrite Ew in Eq. cbn [bind] in Eq.
  eexists _, E, (rev k). split; [exact Eq|]. split.
  - apply (tmap_vec F _ _ (rinv an)) in Hw. rewrite map_map in Hw. rewrite Hres.
    erewrite map_ext; [exact Hw|]. intros [u v]. reflexivity.
  - split; [exact Hnd|]. split; [exact HP|]. split.
    + intro Hlt. rewrite rem_of_short in EN by (rewrite !rev_length; exact Hlt). injection EN as <- _. reflexivity.
    + intros v Hw'. rewrite <- !leval_zval, rev_involutive. now apply Hid.
Qed.
(** Only simple roots, and a constant b or a single root: an n x n matrix. *)
Theorem C49_residuez_matrix (b a rts : list F) :
  (1 <= length b)%nat -> (2 <= length a)%nat -> nth (length a - 1) a 0 <> 0 ->
  roots z0 eigvals a = Ok rts -> all_roots a rts -> exact_on close rts -> NoDup rts ->
  length b = 1%nat \/ length a = 2%nat ->
  exists y ps k, residuez F z0 small eigvals close argsort b a RAvg = Ok (y, ps, k) /\ Permutation ps rts /\
    shape y = [length rts; length rts].
Proof.
  intros Hb Ha Ha0 Er [Hlr Hf] Hcl Hs Hc.
  destruct (residuez_core F z0 Hz0 small Hsm eigvals close argsort Hsort Hch b a rts Hb Ha Ha0 Er Hlr Hf Hcl) as (ts & B & fac & H).
  destruct (rem_of F z0 small (rev b) (rev a)) as [k N] eqn:EN. cbv zeta in H.
  set (an := nth (length a - 1) a 0) in *. set (E := map (zblock F (rinv an)) B) in *.
  destruct H as (Eq & Hne & Hnd & HP & Hsnd & Hv & Hfl & Hres & Hlens & Hid).
  destruct (tagged_lens E B Hlens) as (HEB & Hm1 & _).
  pose proof (blocks_simple F E rts HP Hsnd Hs) as Hone. specialize (Hm1 _ Hone).
  assert (HBr : length B = length rts) by (rewrite <- HEB, <- (simple_len F E Hone), (Permutation_length HP); reflexivity).
  assert (Hrl : length (pfe_res B) = length rts).
  { rewrite <- HBr. clear - Hm1. unfold pfe_res. induction B as [|e B IH]; [reflexivity|]. cbn [map concat length]. rewrite app_length, IH by (intros; apply Hm1; now right).
    rewrite (Hm1 e) by now left. reflexivity. }
  destruct (stack_column F z0 N B ts Hne) as (y & Es & Hy).
  { now rewrite <- HEB. } { exact Hm1. }
  { destruct Hc as [Hc|Hc].
    - left. rewrite rem_of_short in EN by (rewrite !rev_length; lia). injection EN as _ <-. apply (const_true F z0 Hz0).
      intros i Hi. apply lcoef_high. rewrite rev_length. lia.
    - right. lia. }
  rewrite Es in Eq. cbn [bind] in Eq. unfold column in Hy. rewrite Hrl in Hy.
  assert (Hy' : isP1 y [length rts] 1 (fun q _ => nth (nth 0 q 0%nat) (pfe_res B) 0)).
  { destruct Hy as [Hys Hya]. split; [exact Hys|]. intros q i Hq Hi. inversion Hq as [|q0 n0 q1 n1 Hq0 Hq1]; subst. inversion Hq1; subst. cbn. now apply Hya. }
  assert (Hf1 : isP1 (lst1 0 fac) [] (length rts) (fun _ i => nth i fac 0)).
  { split; [cbn; now rewrite Hfl, Hrl|]. intros q i Hq Hi. inversion Hq; subst. reflexivity. }
  destruct (P1_ewl rmul _ _ _ _ _ (length rts) _ _ Hy' Hf1) as (w & Ew & Hw); [apply bdim_1_l|].
  unfold tmul in Eq. rewrite Ew in Eq. cbn [bind] in Eq. eexists _, _, _. split; [exact Eq|]. split; [exact HP|].
  cbn [tmap shape]. apply Hw.
Qed.
End C49.
Print Assumptions C49_residuez.
Print Assumptions C49_residuez_matrix.
Notation qresz l b a := (residuez Qfield qq qq (fun _ _ => map qz l%Z) qclose qid (map qz b%Z) (map qz a%Z) RAvg).
(** (1 + w) / (2 - 6 w + 4 w^2) and (1 + w^4) / ((1 - w)^2 (1 - 2 w)). *)
Example C49_ex : q3 (qresz [2; 1] [1; 1] [2; -6; 4]) = Some (Some ([2%nat], [3 # 2; -1]%Q), [2; 1]%Q, []).
Proof. vm_compute. reflexivity. Qed.
Example C49_ex2 : q3 (qresz [2; 1; 1] [1; 0; 0; 0; 1] [1; -4; 5; -2]) =
  Some (Some ([3%nat], [17 # 4; 0; -2]%Q), [2; 1; 1]%Q, [-5 # 4; -1 # 2]%Q).
Proof. vm_compute. reflexivity. Qed.
(** 1 / ((1 - w) (1 - 2 w)) = 2 / (1 - 2 w) - 1 / (1 - w). *)
Theorem C49_residuez_matrix_refuted :
  q3 (qresz [2; 1] [1] [1; -3; 2]) = Some (Some ([2; 2]%nat, [2; 1; -2; -1]%Q), [2; 1]%Q, []).
Proof. vm_compute. reflexivity. Qed.
Print Assumptions C49_residuez_matrix_refuted.

(** ** C53 _compute_factors *)
(** Position of the first factor of the pole that follows [pre]. *)
Definition factors_before {F : cring} (powers : bool) (pre : list (F * nat)) : nat :=
  fold_right (fun '(_, m) n => ((if powers then m else 1) + n)%nat) 0%nat pre.
Definition roots_of {F : cring} (l : list (F * nat)) : list F := concat (map (fun '(p, m) => repeat p m) l).
(** The last value is the product over all roots; with [include_powers] entry e of the block
    of a pole of multiplicity m is that product divided by (z - p)^(e+1), without it the only
    entry is the product divided by (z - p)^m. *)
Lemma Forall2_len {A B} (R : A -> B -> Prop) l l' : Forall2 R l l' -> length l = length l'.
Proof. induction 1; cbn; congruence. Qed.
Lemma removed_len (F : cfield) (ip : bool) l : forall pre, length (removed F ip pre l) = factors_before ip l.
Proof.
  induction l as [|[p m] l IH]; intro pre; [reflexivity|]. cbn [removed factors_before fold_right].
  rewrite app_length, map_length, IH. unfold factors_before. destruct ip; [now rewrite seq_length|reflexivity].
Qed.
Lemma removed_split (F : cfield) (ip : bool) post (p : F) (m : nat) pre : forall pre0 e, (e < (if ip then m else 1))%nat ->
  nth (factors_before ip pre + e) (removed F ip pre0 (pre ++ (p, m) :: post)) [] =
  poles_of F (pre0 ++ pre) ++ repeat p (m - (if ip then S e else m)) ++ poles_of F post.
Proof.
  induction pre as [|[q k] pre IH]; intros pre0 e He.
  - cbn [app factors_before fold_right plus removed]. rewrite app_nil_r.
    rewrite app_nth1 by (rewrite map_length; destruct ip; rewrite ?seq_length; exact He).
    rewrite (nth_indep _ [] (poles_of F pre0 ++ repeat p (m - 0) ++ poles_of F post)) by (rewrite map_length; destruct ip; rewrite ?seq_length; exact He).
    rewrite (map_nth (fun e => poles_of F pre0 ++ repeat p (m - e) ++ poles_of F post)).
    destruct ip; [rewrite seq_nth by exact He; reflexivity|]. replace e with 0%nat by lia. reflexivity.
  - cbn [app factors_before fold_right removed]. fold (factors_before ip pre).
    rewrite app_nth2; rewrite map_length.
    + replace (length (if ip then seq 1 k else [k])) with (if ip then k else 1%nat) by (destruct ip; now rewrite ?seq_length).
      replace ((if ip then k else 1) + factors_before ip pre + e - (if ip then k else 1))%nat with (factors_before ip pre + e)%nat by lia.
      rewrite IH by exact He. now rewrite <- app_assoc.
    + destruct ip; rewrite ?seq_length; cbn [length]; lia.
Qed.
Theorem C53_compute_factors (F : cfield) (z0 : F -> bool) (l : list (F * nat)) (powers : bool) :
  (forall x, z0 x = true <-> x = 0) -> (powers = false -> forall p m, In (p, m) l -> (1 <= m)%nat) ->
  exists fs all, compute_factors F z0 l powers = Ok (fs, all) /\
    length fs = factors_before powers l /\
    (forall z, leval all z = rootprod (roots_of l) z) /\
    forall pre p m post, l = pre ++ (p, m) :: post ->
      forall e z, (e < (if powers then m else 1))%nat ->
        leval (nth (factors_before powers pre + e) fs []) z =
          rootprod (roots_of pre) z * rpow (z - p) (m - (if powers then S e else m)) * rootprod (roots_of post) z.
Proof.
  intros Hz Hm. destruct (compute_factors_all F z0 Hz l powers Hm) as (fs & c & E & Hf & Hc).
  exists fs, c. split; [exact E|]. split; [|split].
  - rewrite (Forall2_len _ _ _ Hf). apply removed_len.
  - intro z. exact (is_lin_eval F c _ z Hc).
  - intros pre p m post El e z He.
    assert (Hn : (factors_before powers pre + e < length fs)%nat).
    { rewrite (Forall2_len _ _ _ Hf), removed_len, El. clear - He. induction pre as [|[q k] pre IH]; cbn [app factors_before fold_right] in *.
      - destruct powers; lia.
      - fold (factors_before powers pre) (factors_before powers (pre ++ (p, m) :: post)). lia. }
    assert (G : is_lin F (nth (factors_before powers pre + e) fs []) (nth (factors_before powers pre + e) (removed F powers [] l) [])).
    { clear - Hf Hn. revert Hn. generalize (factors_before powers pre + e)%nat. induction Hf as [|x y xs ys H _ IH]; intros [|n] Hn; cbn in *; try lia; auto. apply IH. lia. }
    rewrite El, removed_split in G by exact He. cbn [app] in G.
    rewrite (is_lin_eval F _ _ z G). 
    assert (EA : forall L M, evprod F (L ++ M) z = evprod F L z * evprod F M z).
    { clear. induction L as [|x L IH]; intro M; cbn [app evprod fold_right]; [rewrite (Rmul_1_l (r_th F)); reflexivity|]. fold (evprod F (L ++ M) z) (evprod F L z). rewrite IH. apply (Rmul_assoc (r_th F)). }
    assert (ER : forall k, evprod F (repeat p k) z = rpow (z - p) k).
    { clear. induction k as [|k IH]; [reflexivity|]. cbn [repeat evprod fold_right rpow]. fold (evprod F (repeat p k) z). now rewrite IH. }
    rewrite !EA, ER. apply (Rmul_assoc (r_th F)).
Qed.
Print Assumptions C53_compute_factors.
(** (z - 1)^2 (z - 2): the factors of 1 are (z - 1) (z - 2) and z - 2, that of 2 is (z - 1)^2. *)
Definition qfacs (powers : bool) :=
  match compute_factors Qfield qq [(qz 1, 2%nat); (qz 2, 1%nat)] powers with
  | Ok (fs, c) => Some (map qv fs, qv c) | Err _ => None end.
Example C53_ex : qfacs true = Some ([[1; -3; 2]; [1; -2]; [1; -2; 1]]%Q, [1; -4; 5; -2]%Q).
Proof. vm_compute. reflexivity. Qed.
Example C53_ex2 : qfacs false = Some ([[1; -2]; [1; -2; 1]]%Q, [1; -4; 5; -2]%Q).
Proof. vm_compute. reflexivity. Qed.
(** The multiplicities have to be positive without [include_powers]: a pole of multiplicity 0
    has no factor, so the list is shorter. *)
Example C53_zero_multiplicity : match compute_factors Qfield qq [(qz 1, 0%nat); (qz 2, 1%nat)] false with
  | Ok (fs, _) => length fs | Err _ => 9%nat end = 1%nat.
Proof. vm_compute. reflexivity. Qed.
