(** Proofs about prototype/signal.py: sos2pfe, the residues. *)
From Coq Require Import List Arith Lia ZArith Bool Permutation Setoid Morphisms Ring.
From Verif Require Import Scalar Tensor TensorLemmas TensorOps TensorAlg TensorTac TensorList
  SpecPoly SpecPfe M_Poly P_Poly M_ProtoPoly P_ProtoPoly P_ProtoPoly2 P_Formal P_Series P_Taylor M_Signal P_Signal P_Signal2.
Import ListNotations.

Section Sig3.
Variable F : cfield.
Add Ring Rr : (r_th F).
Local Open Scope cr_scope.
Notation P := (nat -> F).
Notation mlin := (mlin F). Notation mlins := (mlins F). Notation one := (one F). Notation deg := (deg F). Notation ev := (ev F).
Notation smul := (smul F). Notation ssub := (ssub F). Notation sder := (sder F).
Notation gt i p := (nth i p 0).
Notation is_lin := (is_lin F).
Variable z0 : F -> bool.
Hypothesis Hz0 : forall x, z0 x = true <-> x = 0.
Hypothesis Hchar : forall m, (1 <= m)%nat -> rnat m <> r0 :> F.

(** Degrees. *)
Definition lead (n : nat) (c : P) : Prop := deg (S n) c /\ c n <> 0.
Lemma smul_lead a b u v : deg (S a) u -> deg (S b) v -> deg (S (a + b)) (smul u v) /\ smul u v (a + b)%nat = u a * v b.
Proof.
  intros Hu Hv. split.
  - intros k Hk. apply bsum_0. intros i Hi. destruct (Nat.le_gt_cases (S a) i); [rewrite Hu by lia; ring|]. rewrite (Hv (k - i)%nat) by lia. ring.
  - unfold P_Series.smul. rewrite (bsum_one _ _ a); [now replace (a + b - a)%nat with b by lia|lia|].
    intros i Hi Hne. destruct (Nat.le_gt_cases (S a) i); [rewrite Hu by lia; ring|]. rewrite (Hv (a + b - i)%nat) by lia. ring.
Qed.
Lemma lead_smul a b u v : lead a u -> lead b v -> lead (a + b) (smul u v).
Proof. intros [H1 H2] [H3 H4]. destruct (smul_lead a b u v H1 H3) as [H5 H6]. split; [exact H5|]. rewrite H6. now apply mul_ne0. Qed.
Lemma lead_wronskian a b n d : (b < a)%nat -> lead a n -> lead b d -> lead (a + b - 1) (ssub (smul (sder n) d) (smul n (sder d))).
Proof.
  intros Hab [Hn Hn'] [Hd Hd'].
  assert (D1 : deg (S (a - 1)) (sder n)) by (intros k Hk; unfold P_Series.sder; rewrite Hn by lia; ring).
  destruct (smul_lead (a - 1) b _ _ D1 Hd) as [H1 H2]. replace (a - 1 + b)%nat with (a + b - 1)%nat in * by lia.
  assert (V1 : sder n (a - 1)%nat = n a * rnat a) by (unfold P_Series.sder; now replace (S (a - 1)) with a by lia).
  assert (deg (S (a + b - 1)) (smul n (sder d)) /\ smul n (sder d) (a + b - 1)%nat = n a * d b * rnat b) as [H3 H4].
  { destruct b as [|b].
    - assert (Z : forall k, sder d k = 0) by (intro k; unfold P_Series.sder; rewrite Hd by lia; ring).
      assert (Z' : forall k, smul n (sder d) k = 0) by (intro k; apply bsum_0; intros; rewrite Z; ring).
      split; [intros k _; apply Z'|]. rewrite Z'. cbn [rnat]. ring.
    - assert (D2 : deg (S b) (sder d)) by (intros k Hk; unfold P_Series.sder; rewrite Hd by lia; ring).
      destruct (smul_lead a b _ _ Hn D2) as [H3 H4]. replace (a + S b - 1)%nat with (a + b)%nat by lia. split; [exact H3|].
      rewrite H4. unfold P_Series.sder. ring. }
  split.
  - intros k Hk. unfold P_Series.ssub. rewrite H1, H3 by exact Hk. ring.
  - unfold P_Series.ssub. rewrite H2, H4, V1. 
    replace (n a * rnat a * d b - n a * d b * rnat b) with (n a * d b * rnat (a - b)).
    + apply mul_ne0; [now apply mul_ne0|apply Hchar; lia].
    + replace (rnat a) with (rnat (a - b) + rnat b : F) by (rewrite <- (rnat_add F); f_equal; lia). ring.
Qed.
Lemma lead_trim l n : lead n (lcoef l) -> length (trim_zeros z0 l) = S n.
Proof. intros [H1 H2]. apply (trim_degree F z0 Hz0 l n); [exact H2|]. intros k Hk. apply H1. lia. Qed.
Lemma leval_at l N p : (length l <= N)%nat -> leval l p = ev N (lcoef l) p.
Proof. apply leval_ev. Qed.

(** The factorial. *)
Fixpoint rfact (n : nat) : F := match n with O => 1 | S n => rnat (S n) * rfact n end.
Lemma rfact_ne0 n : rfact n <> 0.
Proof. induction n as [|n IH]; [apply r1_neq_r0|]. cbn [rfact]. apply mul_ne0; [apply Hchar; lia|exact IH]. Qed.
Lemma cancel_l (x y z : F) : x <> 0 -> x * y = x * z -> y = z.
Proof. intros Hx H. transitivity (rinv x * (x * y)); [transitivity (rinv x * x * y); [rewrite rinv_l by exact Hx|]; ring|]. rewrite H. transitivity (rinv x * x * z); [ring|]. rewrite rinv_l by exact Hx. ring. Qed.
Lemma lcoef_scale_r (r : F) (p : list F) k : lcoef (map (fun c => c * r) p) k = lcoef p k * r.
Proof. rewrite (map_ext (fun c => c * r) (rmul r)) by (intro; ring). rewrite lcoef_scale. ring. Qed.
Definition bshape (dd : nat) : list nat := if (dd =? 0)%nat then [1%nat] else [].

(** A subfield: the real numbers. *)
Definition subfield (K : F -> Prop) : Prop :=
  K 0 /\ K 1 /\ (forall x y, K x -> K y -> K (x + y)) /\ (forall x y, K x -> K y -> K (x * y)) /\
  (forall x, K x -> K (- x)) /\ (forall x, K x -> K (rinv x)).
Variable K : F -> Prop.
Hypothesis HK : subfield K.
Lemma K0 : K 0. Proof. apply HK. Qed.
Lemma K1 : K 1. Proof. apply HK. Qed.
Lemma Kadd x y : K x -> K y -> K (x + y). Proof. apply HK. Qed.
Lemma Kmul x y : K x -> K y -> K (x * y). Proof. apply HK. Qed.
Lemma Kopp x : K x -> K (- x). Proof. apply HK. Qed.
Lemma Kinv x : K x -> K (rinv x). Proof. apply HK. Qed.
Lemma Ksub x y : K x -> K y -> K (x - y).
Proof. intros Hx Hy. replace (x - y) with (x + - y) by ring. apply Kadd; [exact Hx|now apply Kopp]. Qed.
Lemma Knat n : K (rnat n).
Proof. induction n as [|n IH]; [apply K0|]. cbn [rnat]. apply Kadd; [exact IH|apply K1]. Qed.
Lemma Kpow x n : K x -> K (rpow x n).
Proof. intro H. induction n as [|n IH]; [apply K1|]. cbn [rpow]. now apply Kmul. Qed.
Lemma Kbsum n (f : nat -> F) : (forall i, (i < n)%nat -> K (f i)) -> K (bsum n f).
Proof. induction n as [|n IH]; intro H; [apply K0|]. cbn [bsum]. apply Kadd; [apply IH; intros; apply H; lia|apply H; lia]. Qed.
Lemma Kleval l p : (forall k, K (lcoef l k)) -> K p -> K (leval l p).
Proof. intros H Hp. rewrite (leval_at l (length l) p) by lia. apply Kbsum. intros i _. apply Kmul; [apply H|now apply Kpow]. Qed.
Lemma Ksmul a b : (forall k, K (a k)) -> (forall k, K (b k)) -> forall k, K (smul a b k).
Proof. intros Ha Hb k. apply Kbsum. intros i _. now apply Kmul. Qed.
Lemma Ksder a : (forall k, K (a k)) -> forall k, K (sder a k).
Proof. intros Ha k. apply Kmul; [apply Ha|apply Knat]. Qed.
Lemma Kmlins L c : Forall K L -> (forall k, K (c k)) -> forall k, K (mlins L c k).
Proof.
  intros HL Hc. induction HL as [|p L Hp HL IH]; [exact Hc|]. cbn [P_Formal.mlins]. intros [|k]; unfold P_Formal.mlin; apply Ksub; auto using K0, Kmul.
Qed.
Lemma Kprodl L : Forall K L -> K (prodl F L).
Proof. induction 1; [apply K1|]. now apply Kmul. Qed.

Lemma deriv_block_spec p t cnt : forall j1 n d s dd, (1 <= j1)%nat ->
  lead dd (lcoef d) -> lead (dd + S cnt) (lcoef n) -> leval d p <> 0 ->
  approx F p (S cnt) (lcoef n) (lcoef d) s ->
  (forall j, (j <= cnt)%nat -> s j * rfact (j1 - 1) * rfact j = rfact (j1 - 1 + j) * t (j1 - 1 + j)%nat) ->
  exists ts, deriv_block F z0 n d p cnt j1 = Ok ts /\
    Forall2 (fun u v => isv F u (bshape dd) v) ts (map t (seq j1 cnt)) /\
    (K p -> (forall k, K (lcoef n k)) -> (forall k, K (lcoef d k)) -> Forall K (map t (seq j1 cnt))).
Proof.
  induction cnt as [|cnt IH]; intros j1 n d s dd Hj Hd Hn Hp Ha Hs.
  - exists []. split; [reflexivity|split; constructor].
  - cbn [deriv_block]. unfold polyder. cbn [Z.leb Z.compare bind]. change (Z.to_nat 1) with 1%nat.
    set (n1 := polysub (polymul z0 (polyder_nat z0 n 1) d) (polymul z0 n (polyder_nat z0 d 1))).
    set (d1 := map (fun c => c * rnat j1) (polymul z0 d d)).
    assert (Hc : rnat j1 <> 0 :> F) by (apply Hchar; lia).
    assert (En : forall k, lcoef n1 k = ssub (smul (sder (lcoef n)) (lcoef d)) (smul (lcoef n) (sder (lcoef d))) k).
    { intro k. unfold n1. rewrite lcoef_sub, !(polymul_coef F z0 Hz0). unfold P_Series.ssub. f_equal.
      - unfold pprod, P_Series.smul. apply bsum_ext. intros i Hi. now rewrite (polyder_coef F z0 Hz0).
      - unfold pprod, P_Series.smul. apply bsum_ext. intros i Hi. now rewrite (polyder_coef F z0 Hz0). }
    assert (Ed : forall k, lcoef d1 k = smul (lcoef d) (lcoef d) k * rnat j1).
    { intro k. unfold d1. rewrite lcoef_scale_r, (polymul_coef F z0 Hz0). reflexivity. }
    assert (Ln : lead (dd + dd + S cnt) (lcoef n1)).
    { destruct (lead_wronskian (dd + S (S cnt)) dd (lcoef n) (lcoef d) ltac:(lia) Hn Hd) as [H1 H2].
      replace (dd + S (S cnt) + dd - 1)%nat with (dd + dd + S cnt)%nat in * by lia. split; [intros k Hk; rewrite En; now apply H1|now rewrite En]. }
    assert (Ld : lead (dd + dd) (lcoef d1)).
    { destruct (lead_smul dd dd _ _ Hd Hd) as [H1 H2]. split; [intros k Hk; rewrite Ed, H1 by exact Hk; ring|]. rewrite Ed. now apply mul_ne0. }
    assert (Vd : leval d1 p = leval d p * leval d p * rnat j1).
    { unfold d1. rewrite (leval_at _ (length (map (fun c => c * rnat j1) (polymul z0 d d))) p) by lia. rewrite map_length.
      unfold P_Formal.ev. rewrite (bsum_ext _ _ (fun k => lcoef (polymul z0 d d) k * rpow p k * rnat j1)) by (intros; rewrite lcoef_scale_r; ring).
      rewrite bsum_mul_r. change (bsum _ _) with (ev (length (polymul z0 d d)) (lcoef (polymul z0 d d)) p). rewrite <- leval_at by lia.
      rewrite (leval_prod F (polymul z0 d d) d d p (fun k => polymul_coef F z0 Hz0 d d k)). ring. }
    assert (Hp1 : leval d1 p <> 0) by (rewrite Vd; repeat apply mul_ne0; auto).
    set (s1 := fun j => s (S j) * rnat (S j) * rinv (rnat j1)).
    assert (Ha1 : approx F p (S cnt) (lcoef n1) (lcoef d1) s1).
    { pose proof (approx_der F p (S cnt) _ _ s _ Ha (lcoef_deg F d)) as A.
      pose proof (approx_scale F p (S cnt) _ _ _ (rnat j1) Hc A) as A'.
      eapply approx_ext; [| | |exact A']; [intro k; now rewrite En|intro k; now rewrite Ed|reflexivity]. }
    assert (Hs1 : forall j, (j <= cnt)%nat -> s1 j * rfact (S j1 - 1) * rfact j = rfact (S j1 - 1 + j) * t (S j1 - 1 + j)%nat).
    { intros j Hjc. unfold s1. replace (S j1 - 1)%nat with (S (j1 - 1)) by lia. 
      specialize (Hs (S j) ltac:(lia)). replace (S (j1 - 1) + j)%nat with (j1 - 1 + S j)%nat by lia. rewrite <- Hs.
      change (rfact (S (j1 - 1))) with (rnat (S (j1 - 1)) * rfact (j1 - 1)). replace (S (j1 - 1)) with j1 by lia.
      change (rfact (S j)) with (rnat (S j) * rfact j).
      transitivity (s (S j) * rnat (S j) * (rinv (rnat j1) * rnat j1) * rfact (j1 - 1) * rfact j); [ring|]. rewrite rinv_l by exact Hc. ring. }
    destruct (IH (S j1) n1 d1 s1 (dd + dd)%nat ltac:(lia) Ld Ln Hp1 Ha1 Hs1) as (ts & E & Hts & HKs).
    destruct (polyval_isv F z0 Hz0 n1 p) as (nv & -> & Hnv). destruct (polyval_isv F z0 Hz0 d1 p) as (dv & -> & Hdv).
    rewrite (lead_trim _ _ Ln) in Hnv. rewrite (lead_trim _ _ Ld) in Hdv. cbn [bind].
    destruct (tdiv_isv F _ _ _ _ _ _ Hnv Hdv) as (w & -> & Hw). cbn [bind]. rewrite E. cbn [bind]. exists (w :: ts). split; [reflexivity|].
    assert (Es : leval n1 p * rinv (leval d1 p) = t j1).
    { rewrite (leval_at n1 (length n1 + length d1) p), (leval_at d1 (length n1 + length d1) p) in * by lia.
      rewrite (approx_val F p cnt _ _ s1 (length d1) (length n1) (length n1 + length d1) Ha1 (lcoef_deg F d1) (lcoef_deg F n1) ltac:(lia) ltac:(lia)).
      transitivity (s1 0%nat * (rinv (ev (length n1 + length d1) (lcoef d1) p) * ev (length n1 + length d1) (lcoef d1) p)); [ring|].
      rewrite rinv_l by exact Hp1. specialize (Hs1 0%nat ltac:(lia)). rewrite Nat.add_0_r in Hs1. replace (S j1 - 1)%nat with j1 in Hs1 by lia.
      apply (cancel_l (rfact j1)); [apply rfact_ne0|]. rewrite <- Hs1. cbn [rfact]. ring. }
    cbn [seq map]. split; [constructor|].
    + rewrite Es in Hw. unfold isv in *. revert Hw. unfold bshape.
      assert (S (dd + dd + S cnt) =? 1 = false)%nat as -> by (apply Nat.eqb_neq; lia). cbn [orb].
      destruct dd as [|dd]; cbn [Nat.add Nat.eqb]; auto.
    + assert (Eb : bshape (dd + dd) = bshape dd) by (unfold bshape; destruct dd; reflexivity). rewrite Eb in Hts. exact Hts.
    + intros Kp Kn Kd.
      assert (Kn1 : forall k, K (lcoef n1 k)) by (intro k; rewrite En; apply Ksub; apply Ksmul; auto using Ksder).
      assert (Kd1 : forall k, K (lcoef d1 k)) by (intro k; rewrite Ed; apply Kmul; [now apply Ksmul|apply Knat]).
      constructor; [|now apply HKs]. rewrite <- Es. apply Kmul; [|apply Kinv]; now apply Kleval.
Qed.

(** ** Lists *)
Lemma masked_map {A B} (f : A -> bool) (g : A -> B) l : masked (map f l) (map g l) = map g (filter f l).
Proof. unfold masked. induction l as [|x l IH]; [reflexivity|]. cbn [map combine filter fst]. destruct (f x); cbn [map snd]; now rewrite IH. Qed.
Lemma masked_seq {A B} (f : A -> bool) (g : A -> B) (h : nat -> B) l : forall a,
  (forall l1 x l2, l = l1 ++ x :: l2 -> f x = true -> h (a + length l1)%nat = g x) ->
  map h (masked (map f l) (seq a (length l))) = map g (filter f l).
Proof.
  unfold masked. induction l as [|x l IH]; intros a H; [reflexivity|]. cbn [map length seq combine filter fst].
  assert (map h (map snd (filter fst (combine (map f l) (seq (S a) (length l))))) = map g (filter f l)) as E.
  { apply IH. intros l1 y l2 -> Hy. rewrite <- (H (x :: l1) y l2 eq_refl Hy). f_equal. cbn. lia. }
  destruct (f x) eqn:Ef; [|exact E]. cbn [map snd]. rewrite E. f_equal.
  rewrite <- (H [] x l eq_refl Ef). f_equal. cbn. lia.
Qed.
Lemma filter_split_at {A} (f : A -> bool) l : forall c1 x c2, filter f l = c1 ++ x :: c2 ->
  exists l1 l2, l = l1 ++ x :: l2 /\ filter f l1 = c1 /\ filter f l2 = c2 /\ f x = true.
Proof.
  induction l as [|y l IH]; intros c1 x c2 H; [destruct c1; discriminate|]. cbn [filter] in H. destruct (f y) eqn:E.
  - destruct c1 as [|c c1]; cbn [app] in H.
    + injection H as -> H. exists [], l. now repeat split.
    + injection H as -> H. destruct (IH c1 x c2 H) as (l1 & l2 & -> & H1 & H2 & H3). exists (c :: l1), l2. cbn [filter app]. rewrite E, H1. now repeat split.
  - destruct (IH c1 x c2 H) as (l1 & l2 & -> & H1 & H2 & H3). exists (y :: l1), l2. cbn [filter app]. rewrite E. now repeat split.
Qed.
Lemma mapM_split {A B} (f : nat -> res A) (R : A -> B -> Prop) (c : list B) : forall a,
  (forall c1 x c2, c = c1 ++ x :: c2 -> exists y, f (a + length c1)%nat = Ok y /\ R y x) ->
  exists ys, mapM f (seq a (length c)) = Ok ys /\ Forall2 R ys c.
Proof.
  induction c as [|x c IH]; intros a H; [exists []; split; [reflexivity|constructor]|]. cbn [length seq mapM].
  destruct (H [] x c eq_refl) as (y & Ey & Hy). cbn [length] in Ey. rewrite Nat.add_0_r in Ey. rewrite Ey. cbn [bind].
  destruct (IH (S a)) as (ys & E & Hys).
  { intros c1 z c2 ->. destruct (H (x :: c1) z c2 eq_refl) as (w & Ew & Hw). exists w. split; [|exact Hw]. rewrite <- Ew. f_equal. cbn. lia. }
  rewrite E. cbn [bind]. exists (y :: ys). split; [reflexivity|]. now constructor.
Qed.
Lemma choose (R : list (F * nat) -> F * nat -> list (F * nat) -> list F -> Prop) l : forall pre,
  (forall l1 x l2, l = l1 ++ x :: l2 -> exists rs, length rs = snd x /\ R (pre ++ l1) x l2 rs) ->
  exists B, map (sz F) B = l /\ forall B1 b B2, B = B1 ++ b :: B2 -> R (pre ++ map (sz F) B1) (sz F b) (map (sz F) B2) (snd b).
Proof.
  induction l as [|x l IH]; intros pre H; [exists []; split; [reflexivity|intros B1 b B2 E; destruct B1; discriminate]|].
  destruct (H [] x l eq_refl) as (rs & Hl & Hr). rewrite app_nil_r in Hr.
  destruct (IH (pre ++ [x])) as (B & EB & HB).
  { intros l1 y l2 ->. destruct (H (x :: l1) y l2 eq_refl) as (ys & H1 & H2). exists ys. split; [exact H1|]. now rewrite <- app_assoc. }
  assert (Ex : sz F (fst x, rs) = x) by (unfold sz; cbn [fst snd]; rewrite Hl; now destruct x).
  exists ((fst x, rs) :: B). split; [cbn [map]; now rewrite Ex, EB|].
  intros [|b0 B1] b B2 E; injection E as <- E'.
  - subst B. cbn [map snd]. rewrite app_nil_r, Ex, EB. exact Hr.
  - specialize (HB _ _ _ E'). cbn [map]. rewrite Ex. now rewrite <- app_assoc in HB.
Qed.

(** The poles other than the [i]-th one. *)
Lemma idx_skip {A} (g : F -> nat -> list A) l a i : (i < a \/ a + length l <= i)%nat ->
  concat (map (fun '(j, (q, m)) => g q (if (j =? i)%nat then 0%nat else m)) (combine (seq a (length l)) l))
  = concat (map (fun '(q, m) => g q m) l).
Proof.
  revert a. induction l as [|[q m] l IH]; intros a H; [reflexivity|]. cbn [length seq combine map concat].
  cbn [length] in H. rewrite IH by lia. bfalse (a =? i)%nat. reflexivity.
Qed.
Lemma combine_mid {A B} (s1 : list A) x s2 (l1 : list B) y l2 : length s1 = length l1 ->
  combine (s1 ++ x :: s2) (l1 ++ y :: l2) = combine s1 l1 ++ (x, y) :: combine s2 l2.
Proof. revert l1. induction s1 as [|a s1 IH]; intros [|b l1] H; try discriminate; [reflexivity|]. cbn. f_equal. apply IH. now injection H. Qed.
Lemma idx_others {A} (g : F -> nat -> list A) l1 p m l2 : g p 0%nat = [] -> let l := l1 ++ (p, m) :: l2 in
  concat (map (fun '(j, (q, m)) => g q (if (j =? length l1)%nat then 0%nat else m)) (combine (seq 0 (length l)) l))
  = concat (map (fun '(q, m) => g q m) (l1 ++ l2)).
Proof.
  intros Hg l. unfold l. rewrite app_length, seq_app. cbn [length seq Nat.add].
  assert (C : combine (seq 0 (length l1) ++ length l1 :: seq (S (length l1)) (length l2)) (l1 ++ (p, m) :: l2)
    = combine (seq 0 (length l1)) l1 ++ (length l1, (p, m)) :: combine (seq (S (length l1)) (length l2)) l2).
  { apply combine_mid. now rewrite seq_length. }
  rewrite C, map_app, concat_app. cbn [map concat]. rewrite Nat.eqb_refl, Hg. cbn [app].
  rewrite !idx_skip by lia. now rewrite <- concat_app, <- map_app.
Qed.
Lemma prodl_app (a b : list F) : prodl F (a ++ b) = prodl F a * prodl F b.
Proof.
  induction a as [|x a IH]; cbn [app]; [change (prodl F []) with (1 : F); ring|].
  change (prodl F (x :: a ++ b)) with (x * prodl F (a ++ b)). change (prodl F (x :: a)) with (x * prodl F a). rewrite IH. ring.
Qed.
Lemma prodl_concat (ls : list (list F)) : prodl F (map (prodl F) ls) = prodl F (concat ls).
Proof.
  induction ls as [|l ls IH]; [reflexivity|]. cbn [map concat]. rewrite prodl_app, <- IH. reflexivity.
Qed.
Lemma prodl_repeat (x : F) m : prodl F (repeat x m) = rpow x m.
Proof. induction m as [|m IH]; [reflexivity|]. change (prodl F (repeat x (S m))) with (x * prodl F (repeat x m)). cbn [rpow]. rewrite IH. ring. Qed.
Lemma denom_others l1 p m l2 : let l := l1 ++ (p, m) :: l2 in
  prodl F (map (fun '(j, (q, m)) => rpow (p - q) (if (j =? length l1)%nat then 0%nat else m)) (combine (seq 0 (length l)) l))
  = evprod F (poles_of F (l1 ++ l2)) p.
Proof.
  intro l. transitivity (prodl F (map (prodl F) (map (fun '(j, (q, m)) => repeat (p - q) (if (j =? length l1)%nat then 0%nat else m)) (combine (seq 0 (length l)) l)))).
  { rewrite map_map. f_equal. apply map_ext. intros [j [q k]]. now rewrite prodl_repeat. }
  rewrite prodl_concat. unfold l. rewrite (idx_others (fun q m => repeat (p - q) m)) by reflexivity.
  unfold poles_of. induction (l1 ++ l2) as [|[q k] l3 IH]; [reflexivity|]. cbn [map concat].
  now rewrite evprod_app, <- IH, evprod_repeat, <- prodl_repeat, prodl_app.
Qed.

(** ** The residues of one pole *)
Definition rept (x : F * nat) : bool := let '(_, m) := x in (1 <? m)%nat.
Definition simp (x : F * nat) : bool := negb (rept x).
Lemma poles_split l : (forall p m, In (p, m) l -> (1 <= m)%nat) ->
  Permutation (poles_of F l) (map fst (filter simp l) ++ poles_of F (filter rept l)).
Proof.
  induction l as [|[p m] l IH]; intro H; [constructor|].
  change (poles_of F ((p, m) :: l)) with (repeat p m ++ poles_of F l). cbn [filter]. unfold simp at 1. cbn [rept].
  specialize (IH ltac:(intros q k Hq; apply (H q k); now right)). pose proof (H p m (or_introl eq_refl)) as Hm.
  destruct (1 <? m)%nat eqn:E; cbn [negb].
  - change (poles_of F ((p, m) :: filter rept l)) with (repeat p m ++ poles_of F (filter rept l)). rewrite IH.
    rewrite !app_assoc. apply Permutation_app_tail, Permutation_app_comm.
  - apply Nat.ltb_ge in E. replace m with 1%nat by lia. cbn [repeat app map fst]. now constructor.
Qed.
Lemma mono_lins (L : list F) : Forall2 is_lin (map (monomial F) L) (map (fun q => [q]) L).
Proof. induction L as [|q L IH]; constructor; [apply is_lin_mono|exact IH]. Qed.
Lemma concat_single (L : list F) : concat (map (fun q => [q]) L) = L.
Proof. induction L as [|q L IH]; [reflexivity|]. cbn. now rewrite IH. Qed.
Lemma polysmul_monos (L : list F) : exists r, match map (monomial F) L with [] => Ok [1] | ps => polysmul z0 ps end = Ok r /\ is_lin r L.
Proof.
  destruct L as [|q L]; [exists [1]; split; [reflexivity|apply is_lin_one]|].
  destruct (polysmul_lin F z0 Hz0 (map (monomial F) (q :: L)) _ (mono_lins (q :: L))) as (r & E & Hr); [discriminate|].
  exists r. rewrite concat_single in Hr. now split.
Qed.
Lemma lin_lead d o : is_lin d o -> lead (length o) (lcoef d).
Proof.
  intro H. split; [intros k Hk; rewrite H; apply (deg_mlins F 1 o one (deg_one F)); lia|]. rewrite H, mlins_lead. apply r1_neq_r0.
Qed.
Lemma approx_pterm p m (n t : P) o : approx F p m n (mlins o one) t ->
  exists W M, deg M W /\ forall k, n k = pterm F p m t o k + mlins (repeat p m) W k.
Proof.
  intros (M & W & HW & H). exists W, M. split; [exact HW|]. intro k. rewrite H. unfold P_Series.sadd. f_equal.
  rewrite (smul_comm F). unfold pterm.
  transitivity (bsum m (fun j => t j * smul (mlins (repeat p j) one) (mlins o one) k)).
  - clear. unfold P_Series.smul at 1. unfold TT.
    transitivity (bsum (S k) (fun i => bsum m (fun j => t j * mlins (repeat p j) one i * mlins o one (k - i)%nat))).
    { apply bsum_ext. intros i Hi. rewrite <- bsum_mul_r. reflexivity. }
    rewrite bsum_swap. apply bsum_ext. intros j Hj. unfold P_Series.smul. rewrite <- bsum_mul_l. apply bsum_ext. intros. ring.
  - apply bsum_ext. intros j Hj. f_equal. rewrite <- (mlins_one F (repeat p j)). now rewrite mlins_app.
Qed.

Section Blocks.
Variables (bb : list (F * F)) (l : list (F * nat)) (num nrd : list F).
Hypothesis Hnd : NoDup (map fst l).
Hypothesis Hm : forall p m, In (p, m) l -> (1 <= m)%nat.
Hypothesis Hnum : lead (length (poles_of F l)) (lcoef num).
Hypothesis Hval : forall p, leval num p = prodl F (map (fun '(b1, b2) => p * p + p * b1 + b2) bb).
Hypothesis Hnrd : is_lin nrd (map fst (filter simp l)).
Notation rp := (filter rept l).

Lemma block_ex l1 p m l2 : l = l1 ++ (p, m) :: l2 -> exists rs, length rs = m /\
  (exists W M, deg M W /\ forall k, lcoef num k = pterm F p m (fun j => gt (m - 1 - j) rs) (poles_of F (l1 ++ l2)) k + mlins (repeat p m) W k) /\
  (m = 1%nat -> rs = [simple_residue F bb l (length l1)]) /\
  ((1 < m)%nat -> exists ts, repeated_block F z0 num nrd rp (length (filter rept l1)) = Ok ts /\
     Forall2 (fun u v => isv F u (bshape (length (poles_of F (l1 ++ l2)))) v) ts (rev rs)) /\
  ((forall k, K (lcoef num k)) -> (forall q k, In (q, k) l -> K q) -> Forall K rs).
Proof.
  intro El. set (o := poles_of F (l1 ++ l2)). set (D := mlins o one).
  assert (HD : deg (S (length o)) D) by (unfold D; rewrite <- Nat.add_1_r; apply deg_mlins, deg_one).
  assert (Hpo : ~ In p o).
  { intro H. apply poles_of_in in H. rewrite El, map_app in Hnd. cbn [map fst] in Hnd. apply NoDup_remove_2 in Hnd. apply Hnd. now rewrite <- map_app. }
  assert (Hev : ev (S (length o)) D p = evprod F o p).
  { unfold D. rewrite <- Nat.add_1_r, ev_mlins by apply deg_one. unfold P_Formal.ev, P_Formal.one. cbn. ring. }
  assert (Hne : evprod F o p <> 0) by (apply evprod_ne0; intros q Hq ->; contradiction).
  assert (Hmp : (1 <= m)%nat) by (apply (Hm p); rewrite El; apply in_or_app; right; now left).
  destruct (approx_ex F p m (lcoef num) D (S (length o)) (length num) HD (lcoef_deg F num)) as (t & Ht); [now rewrite Hev|].
  set (rs := rev (map t (seq 0 m))).
  assert (Hlen : length rs = m) by (unfold rs; now rewrite rev_length, map_length, seq_length).
  assert (Hrs : forall j, (j < m)%nat -> gt (m - 1 - j) rs = t j).
  { intros j Hj. unfold rs. rewrite rev_nth by (rewrite map_length, seq_length; lia). rewrite map_length, seq_length.
    replace (m - S (m - 1 - j))%nat with j by lia.
    rewrite (nth_indep (map t (seq 0 m)) 0 (t 0%nat)) by (rewrite map_length, seq_length; lia). rewrite map_nth, seq_nth by lia. reflexivity. }
  assert (Hdeg : (length o + m = length (poles_of F l))%nat).
  { rewrite El, poles_of_app. change (poles_of F ((p, m) :: l2)) with (repeat p m ++ poles_of F l2). unfold o. rewrite poles_of_app, !app_length, repeat_length. lia. }
  assert (Ht0 : leval num p = t 0%nat * evprod F o p).
  { set (N := (length num + S (length o))%nat). rewrite (leval_at num N p) by (unfold N; lia).
    destruct m as [|m']; [lia|].
    rewrite (approx_val F p m' _ _ t (S (length o)) (length num) N Ht HD (lcoef_deg F num)) by (unfold N; lia).
    rewrite (ev_trunc F (S (length o)) N D) by (auto; unfold N; lia). now rewrite Hev. }
  assert (Eo : forall q, In q o -> In q (map fst l)).
  { intros q Hq. apply poles_of_in in Hq. rewrite El, map_app in *. cbn [map fst]. apply in_app_or in Hq. apply in_or_app. destruct Hq; [now left|right; now right]. }
  assert (Hinv : t 0%nat = leval num p * rinv (evprod F o p)).
  { rewrite Ht0. transitivity (t 0%nat * (rinv (evprod F o p) * evprod F o p)); [rewrite rinv_l by exact Hne|]; ring. }
  assert (Kt0 : (forall k, K (lcoef num k)) -> (forall q k, In (q, k) l -> K q) -> Forall K (p :: o) /\ K (t 0%nat)).
  { intros Kn Kl. assert (KL : forall q, In q (map fst l) -> K q) by (intros q Hq; apply in_map_iff in Hq as ([q' k] & <- & Hq); now apply (Kl q' k)).
    assert (Kp : K p) by (apply KL; rewrite El, map_app; apply in_or_app; right; now left).
    assert (Ko : Forall K o) by (apply Forall_forall; intros q Hq; apply KL; now apply Eo).
    split; [now constructor|]. rewrite Hinv. apply Kmul; [now apply Kleval|apply Kinv].
    clear - HK Kp Ko. induction Ko as [|q L Hq HL IH]; [apply K1|]. change (evprod F (q :: L) p) with ((p - q) * evprod F L p). apply Kmul; [now apply Ksub|exact IH]. }
  exists rs. split; [exact Hlen|]. split; [|split].
  - destruct (approx_pterm p m (lcoef num) t o Ht) as (W & M & HW & E). exists W, M. split; [exact HW|]. intro k. rewrite E. f_equal.
    unfold pterm. apply bsum_ext. intros j Hj. now rewrite Hrs.
  - intros ->. unfold rs. cbn [seq map rev app]. f_equal. unfold simple_residue.
    rewrite El, nth_middle. cbn [fst]. rewrite <- El, <- Hval. rewrite El, (denom_others l1 p 1 l2). fold o. exact Hinv.
  - assert (m = 1 \/ 1 < m)%nat as [->|Hm1] by lia.
    { split; [lia|]. intros Kn Kl. unfold rs. cbn [seq map rev app]. constructor; [|constructor]. now apply Kt0. }
    assert (Hrept : rept (p, m) = true) by (apply Nat.ltb_lt; exact Hm1).
    assert (Erp : rp = filter rept l1 ++ (p, m) :: filter rept l2) by (rewrite El, filter_app; cbn [filter]; now rewrite Hrept).
    unfold repeated_block. rewrite Erp, nth_middle.
    rewrite (idx_others (fun q m => repeat (monomial F q) m)) by reflexivity.
    set (ro := poles_of F (filter rept l1 ++ filter rept l2)).
    assert (Ec : concat (map (fun '(q, m0) => repeat (monomial F q) m0) (filter rept l1 ++ filter rept l2)) = map (monomial F) ro).
    { unfold ro, poles_of. rewrite concat_map, map_map. f_equal. apply map_ext. intros [q k]. clear. induction k; cbn; congruence. }
    rewrite Ec. destruct (polysmul_monos ro) as (dd & Ed & Hdd).
    assert (match map (monomial F) ro with [] => Ok [1] | _ :: _ => polysmul z0 (map (monomial F) ro) end = Ok dd) as -> by (rewrite <- Ed; now destruct (map (monomial F) ro)).
    cbn [bind]. set (d := polymul z0 nrd dd).
    assert (Hd : is_lin d o).
    { eapply is_lin_perm; [apply (polymul_lin F z0 Hz0); eassumption|]. unfold o, ro.
      assert (Es : filter simp l = filter simp (l1 ++ l2)).
      { rewrite El, !filter_app. cbn [filter]. unfold simp at 2. now rewrite Hrept. }
      rewrite Es, <- filter_app. symmetry. apply poles_split. intros q k Hq. apply (Hm q). rewrite El. apply in_app_or in Hq. apply in_or_app. destruct Hq; [now left|right; now right]. }
    destruct (polyval_isv F z0 Hz0 num p) as (nv & -> & Hnv). destruct (polyval_isv F z0 Hz0 d p) as (dv & -> & Hdv).
    rewrite (lead_trim _ _ Hnum) in Hnv. rewrite (lead_trim _ _ (lin_lead _ _ Hd)) in Hdv. cbn [bind].
    destruct (tdiv_isv F _ _ _ _ _ _ Hnv Hdv) as (w & -> & Hw). cbn [bind].
    rewrite (is_lin_eval F d o p Hd) in Hw.
    destruct (deriv_block_spec p t (m - 1) 1 num d t (length o)) as (ts & E & Hts & HKs); [lia|now apply lin_lead| |now rewrite (is_lin_eval F d o p Hd)| | |].
    { now replace (length o + S (m - 1))%nat with (length (poles_of F l)) by lia. }
    { replace (S (m - 1)) with m by lia. eapply approx_ext; [| | |exact Ht]; [reflexivity|intro k; symmetry; apply Hd|reflexivity]. }
    { intros j Hj. cbn [Nat.sub rfact Nat.add]. ring. }
    split.
    + intros _. rewrite E. cbn [bind]. exists (w :: ts). split; [reflexivity|]. unfold rs. rewrite rev_involutive.
      replace m with (S (m - 1)) by lia. cbn [seq map]. constructor; [|exact Hts].
      rewrite <- Hinv in Hw. unfold isv in *. revert Hw. unfold bshape.
      assert (S (length (poles_of F l)) =? 1 = false)%nat as -> by (apply Nat.eqb_neq; lia). cbn [orb Nat.eqb]. auto.
    + intros Kn Kl. destruct (Kt0 Kn Kl) as [Kp Kt]. inversion Kp as [|x y Kp1 Ko]; subst x y.
      unfold rs. apply Forall_rev. replace m with (S (m - 1)) by lia. cbn [seq map]. constructor; [exact Kt|]. apply HKs; auto.
      intro k. rewrite (Hd k). apply Kmlins; [exact Ko|]. intros [|i]; [apply K1|apply K0].
Qed.
End Blocks.
End Sig3.
