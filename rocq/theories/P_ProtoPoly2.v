(** The prototype polydiv and roots. *)
From Coq Require Import List Arith Lia ZArith Bool.
From Verif Require Import Scalar Tensor TensorLemmas TensorOps TensorAlg TensorTac TensorList
  SpecPoly M_Poly P_Poly M_ProtoPoly P_ProtoPoly.
Import ListNotations.

Section PP2.
Variable F : cfield.
Variable z0 : F -> bool.
Hypothesis Hz0 : forall x, z0 x = true <-> x = r0.
Variable small : F -> bool.
Add Ring Rr : (r_th F).
Open Scope cr_scope.
Notation gt i p := (nth i p r0).

Lemma pprod_pmulc (q v : list F) k : (k < length q + length v - 1)%nat ->
  pprod q v k = pmulc (length q) (length v) (fun i => gt i q) (fun i => gt i v) (length q + length v - 1 - 1 - k).
Proof.
  intro Hk. set (a := length q). set (b := length v).
  set (g := fun i j => if (i + j =? k)%nat then lcoef q i * lcoef v j else 0).
  transitivity (bsum a (fun i => bsum b (fun j => g i j))).
  - unfold pprod. set (f := fun i => if (i <=? k)%nat then lcoef q i * lcoef v (k - i) else 0).
    transitivity (bsum (S k + a) f).
    + rewrite (bsum_trunc (S k) (S k + a)); [|lia|intros i H1 H2; unfold f; bfalse (i <=? k)%nat; reflexivity].
      apply bsum_ext. intros i Hi. unfold f. btrue (i <=? k)%nat. reflexivity.
    + rewrite (bsum_trunc a (S k + a)); [|lia|intros i H1 H2; unfold f; rewrite (lcoef_high F q) by exact H1; destruct (i <=? k)%nat; [ring|reflexivity]].
      apply bsum_ext. intros i Hi. unfold f, g. destruct (i <=? k)%nat eqn:E.
      * apply Nat.leb_le in E. destruct (Nat.lt_ge_cases (k - i) b) as [Hb|Hb].
        -- rewrite (bsum_one b _ (k - i)%nat); [btrue (i + (k - i) =? k)%nat; reflexivity|exact Hb|].
           intros j Hj Hn. bfalse (i + j =? k)%nat. reflexivity.
        -- rewrite (lcoef_high F v) by (fold b; lia). rewrite bsum_0; [ring|].
           intros j Hj. bfalse (i + j =? k)%nat. reflexivity.
      * apply Nat.leb_gt in E. rewrite bsum_0; [reflexivity|]. intros j Hj. bfalse (i + j =? k)%nat. reflexivity.
  - unfold pmulc. rewrite bsum_rev. apply bsum_ext. intros i Hi. rewrite bsum_rev. apply bsum_ext. intros j Hj.
    unfold g. rewrite (gt_lcoef F q), (gt_lcoef F v) by assumption. fold a b.
    destruct (a - 1 - i + (b - 1 - j) =? k)%nat eqn:E.
    + apply Nat.eqb_eq in E. btrue (i + j =? a + b - 1 - 1 - k)%nat. reflexivity.
    + apply Nat.eqb_neq in E. bfalse (i + j =? a + b - 1 - 1 - k)%nat. reflexivity.
Qed.

Lemma pdiv_loop_spec (u v : list F) s n cnt k (q r : list F) : length v = S n ->
  (k + cnt <= length q)%nat ->
  (forall j, gt j q = if (j <? k)%nat then pquo F n s (fun i => gt i u) (fun i => gt i v) j else 0) ->
  length r = length u -> (forall i, (i < length u)%nat -> gt i r = prem F n s (fun i => gt i u) (fun i => gt i v) k i) ->
  (k + cnt <= length u)%nat ->
  exists q' r', pdiv_loop v s cnt k q r = (q', r') /\ length q' = length q /\ length r' = length u /\
    (forall j, gt j q' = if (j <? k + cnt)%nat then pquo F n s (fun i => gt i u) (fun i => gt i v) j else 0) /\
    (forall i, (i < length u)%nat -> gt i r' = prem F n s (fun i => gt i u) (fun i => gt i v) (k + cnt) i).
Proof.
  intros Hv. revert k q r. induction cnt as [|cnt IH]; intros k q r Hk Hq Hl Hr Hku.
  - rewrite Nat.add_0_r. exists q, r. auto.
  - cbn [pdiv_loop]. cbv zeta.
    match goal with |- context [pdiv_loop v s cnt (S k) ?a ?b] => destruct (IH (S k) a b) as (q' & r' & E & H1 & H2 & H3 & H4) end.
    + rewrite tab_length. lia.
    + intro j. destruct (Nat.lt_ge_cases j (length q)) as [Hj|Hj].
      * rewrite tab_nth by exact Hj. destruct (Nat.eqb_spec j k) as [->|Hn].
        -- btrue (k <? S k)%nat. unfold pquo. now rewrite Hr by lia.
        -- rewrite Hq. destruct (j <? k)%nat eqn:E; [apply Nat.ltb_lt in E; btrue (j <? S k)%nat|apply Nat.ltb_ge in E; bfalse (j <? S k)%nat]; reflexivity.
      * rewrite nth_overflow by (rewrite tab_length; lia). bfalse (j <? S k)%nat. reflexivity.
    + now rewrite tab_length.
    + intros i Hi. rewrite tab_nth by lia. cbn [prem]. rewrite Hv, !Hr by lia. reflexivity.
    + lia.
    + exists q', r'. rewrite E. rewrite tab_length in H1. replace (k + S cnt)%nat with (S k + cnt)%nat by lia. auto.
Qed.

Lemma strip_spec (r : list F) : exists ds, r = (ds ++ strip small r)%list /\ Forall (fun x => small x = true) ds.
Proof.
  induction r as [|c r IH]; [exists []; now split|]. destruct r as [|d r]; [exists []; now split|].
  change (strip small (c :: d :: r)) with (if small c then strip small (d :: r) else c :: d :: r).
  destruct (small c) eqn:E; [|exists []; now split].
  destruct IH as (ds & E1 & H). exists (c :: ds). split; [cbn [app]; now rewrite <- E1|]. now constructor.
Qed.
Lemma strip_len (r : list F) c : small 0 = true -> (c <= length r)%nat -> (forall i, (i < c)%nat -> gt i r = 0) ->
  (length (strip small r) <= Nat.max 1 (length r - c))%nat.
Proof.
  intro H0. revert c. induction r as [|x r IH]; intros c Hc Hz; [cbn [strip length]; lia|]. destruct r as [|y r]; [cbn [strip length]; lia|].
  change (strip small (x :: y :: r)) with (if small x then strip small (y :: r) else x :: y :: r).
  destruct c as [|c].
  - destruct (small x); [|cbn [length]; lia]. specialize (IH 0%nat ltac:(lia) ltac:(intros; lia)). cbn [length] in *. lia.
  - assert (x = 0) as -> by (apply (Hz 0%nat); lia). rewrite H0.
    specialize (IH c ltac:(cbn [length] in *; lia) ltac:(intros i Hi; apply (Hz (S i)); lia)). cbn [length] in *. lia.
Qed.

(** Degree of the divisor from its trimmed form. *)
Lemma trim_degree (v : list F) d : lcoef v d <> 0 -> (forall k, (d < k)%nat -> lcoef v k = 0) ->
  length (trim_zeros z0 v) = S d /\ gt 0 (trim_zeros z0 v) <> 0.
Proof.
  intros Hd Hh. destruct (trim_lead F z0 Hz0 v) as [[_ H]|H]; [congruence|]. split; [|exact H].
  pose proof (trim_len F z0 Hz0 v) as Hl. pose proof (trim_coef F z0 Hz0 v) as Hc.
  set (t := trim_zeros z0 v) in *.
  destruct (Nat.lt_trichotomy (length t) (S d)) as [E|[E|E]]; [|exact E|].
  - exfalso. apply Hd. rewrite <- Hc. apply lcoef_high. lia.
  - exfalso. apply H. rewrite gt_lcoef by lia. rewrite Hc. apply Hh. lia.
Qed.

Theorem proto_polydiv_spec (u v : list F) d : small 0 = true ->
  lcoef v d <> 0 -> (forall k, (d < k)%nat -> lcoef v k = 0) ->
  exists q r ds, proto_polydiv z0 small u v = (q, r) /\ Forall (fun x => small x = true) ds /\
    (forall k, lcoef u k = pprod q v k + lcoef (ds ++ r) k) /\
    (forall k, (d <= k)%nat -> lcoef r k = 0).
Proof.
  intros Hs0 Hd Hh. destruct (trim_degree v d Hd Hh) as [Hlv Hv0].
  unfold proto_polydiv. pose proof (trim_len F z0 Hz0 u) as Hlu.
  pose proof (trim_coef F z0 Hz0 u) as Hcu. pose proof (trim_coef F z0 Hz0 v) as Hcv.
  set (U := trim_zeros z0 u) in *. set (V := trim_zeros z0 v) in *. cbv zeta. rewrite Hlv.
  replace (length U - 1 + 1 - (S d - 1))%nat with (length U - d)%nat by lia.
  set (s := rinv (gt 0 V)). set (cnt := (length U - d)%nat).
  assert (Hs : s * gt 0 V = 1) by (now apply (rinv_l (c:=F))).
  destruct (pdiv_loop_spec U V s d cnt 0 (repeat 0 (Nat.max cnt 1)) U Hlv) as (q & r & E & Hq & Hr & Hqv & Hrv).
  { rewrite repeat_length. lia. } { intro j. apply nth_repeat_same. } { reflexivity. } { reflexivity. } { unfold cnt. lia. }
  rewrite E. rewrite repeat_length in Hq. cbn [Nat.add] in *.
  destruct (strip_spec r) as (ds & Eds & Hds). exists q, (strip small r), ds.
  split; [reflexivity|]. split; [exact Hds|]. rewrite <- Eds. split.
  - intro k. rewrite <- Hcu. rewrite (pprod_ext F q q v V) by (auto; intro; symmetry; apply Hcv).
    destruct (Nat.le_gt_cases (length U) d) as [Hcase|Hcase].
    + (* short dividend *)
      assert (Hc0 : cnt = 0%nat) by (unfold cnt; lia). rewrite Hc0 in *.
      assert (forall k, lcoef q k = 0) as Hq0.
      { intro j. unfold lcoef. destruct (j <? length q)%nat; [|reflexivity]. rewrite Hqv. reflexivity. }
      unfold pprod. rewrite bsum_0 by (intros; rewrite Hq0; ring).
      assert (lcoef r k = lcoef U k) as ->; [|ring]. unfold lcoef. rewrite Hr.
      destruct (k <? length U)%nat eqn:Ek; [|reflexivity]. apply Nat.ltb_lt in Ek. now rewrite Hrv by lia.
    + assert (Hql : length q = cnt) by (unfold cnt in *; lia).
      assert (HT : (length q + length V - 1 = length U)%nat) by (rewrite Hql, Hlv; unfold cnt; lia).
      destruct (Nat.lt_ge_cases k (length U)) as [Hk|Hk].
      * rewrite pprod_pmulc by lia. rewrite HT, Hlv, Hql.
        unfold lcoef. rewrite Hr. btrue (k <? length U)%nat. rewrite Hrv by lia.
        rewrite <- (prem_inv F d s (fun i => gt i U) (fun i => gt i V) cnt (length U - 1 - k)). f_equal.
        apply pmulc_ext; [|reflexivity]. intros j Hj. rewrite Hqv. btrue (j <? cnt)%nat. reflexivity.
      * rewrite (lcoef_high F U), (lcoef_high F r) by lia.
        unfold pprod. rewrite bsum_0; [ring|]. intros i Hi.
        destruct (Nat.lt_ge_cases i (length q)); [rewrite (lcoef_high F V) by lia|rewrite (lcoef_high F q) by lia]; ring.
  - intros k Hk.
    assert (Hz : forall i, (i < cnt)%nat -> gt i r = 0).
    { intros i Hi. rewrite Hrv by (unfold cnt in Hi; lia). apply prem_zero; [exact Hs|exact Hi]. }
    pose proof (strip_len r cnt Hs0 ltac:(rewrite Hr; unfold cnt; lia) Hz) as Hsl.
    destruct (Nat.lt_ge_cases k (length (strip small r))) as [Hk2|Hk2]; [|now apply lcoef_high].
    assert (d = 0%nat /\ k = 0%nat /\ length (strip small r) = 1%nat) as (-> & -> & Hl1).
    { rewrite Hr in Hsl. unfold cnt in Hsl. lia. }
    unfold lcoef. rewrite Hl1. cbn [Nat.ltb Nat.leb Nat.sub].
    assert (Hg : gt (length ds) r = gt 0 (strip small r)) by (rewrite Eds at 1; rewrite app_nth2, Nat.sub_diag by lia; reflexivity).
    rewrite <- Hg. apply Hz. assert (length r = (length ds + 1)%nat) by (rewrite Eds at 1; rewrite app_length; lia).
    unfold cnt. lia.
Qed.

(** ** roots *)
Lemma filter_seq_sorted f a n : forall l, filter f (seq a n) = l ->
  (forall j, In j l <-> (a <= j < a + n)%nat /\ f j = true) /\
  (forall h t, l = h :: t -> (forall j, In j t -> (h < j)%nat) /\ forall j, In j l -> (j <= last l 0)%nat).
Proof.
  revert a. induction n as [|n IH]; intros a l E; cbn in E.
  - subst l. split; [intro j; cbn; lia|intros; discriminate].
  - destruct (IH (S a) _ eq_refl) as [H1 H2]. set (l' := filter f (seq (S a) n)) in *.
    assert (Hin : forall j, In j l <-> (a <= j < a + S n)%nat /\ f j = true).
    { intro j. destruct (f a) eqn:Ef; subst l.
      - cbn [In]. rewrite H1. split; [intros [<-|[? ?]]; split; auto; lia|].
        intros [Hj Hf]. destruct (Nat.eq_dec a j) as [->|]; [now left|right; split; [lia|exact Hf]].
      - rewrite H1. split; intros [Hj Hf]; split; auto; [lia|].
        destruct (Nat.eq_dec a j) as [->|]; [congruence|lia]. }
    split; [exact Hin|]. intros h t El. destruct (f a) eqn:Ef; subst l.
    + injection El as <- <-. split.
      * intros j Hj. apply H1 in Hj. lia.
      * clearbody l'. destruct l' as [|b l2]; [cbn; lia|]. destruct (H2 b l2 eq_refl) as [_ H4].
        intros j [<-|Hj].
        -- assert (In b (b :: l2)) as Hb by now left. specialize (H4 b Hb). apply H1 in Hb. cbn [last] in *. lia.
        -- now apply H4.
    + exact (H2 h t El).
Qed.

Lemma eigen_companion (P : list F) n (lam : F) (w : nat -> F) :
  length P = S n -> (1 <= n)%nat -> gt 0 P <> 0 ->
  (exists i, (i < n)%nat /\ w i <> 0) ->
  (forall i, (i < n)%nat -> bsum n (fun j => companion_of P i j * w j) = lam * w i) ->
  leval P lam = 0.
Proof.
  intros HP Hn H0 (i0 & Hi0 & Hw0) He.
  assert (Hrow : forall i, (S i < n)%nat -> w i = lam * w (S i)).
  { intros i Hi. rewrite <- He by exact Hi. rewrite (bsum_one n _ i).
    - unfold companion_of. cbn [Nat.eqb]. rewrite Nat.eqb_refl. ring.
    - lia.
    - intros j Hj Hne. unfold companion_of. cbn [Nat.eqb]. bfalse (i =? j)%nat. ring. }
  assert (Hpow : forall k, (k < n)%nat -> w (n - 1 - k)%nat = rpow lam k * w (n - 1)%nat).
  { induction k as [|k IH]; intro Hk; [rewrite Nat.sub_0_r; cbn; ring|].
    rewrite (Hrow (n - 1 - S k)%nat) by lia. replace (S (n - 1 - S k)) with (n - 1 - k)%nat by lia.
    rewrite IH by lia. cbn [rpow]. ring. }
  assert (Hlast : w (n - 1)%nat <> 0).
  { intro E. apply Hw0. replace i0 with (n - 1 - (n - 1 - i0))%nat by lia. rewrite Hpow by lia. rewrite E. ring. }
  assert (Hmul : leval P lam * w (n - 1)%nat = 0).
  { unfold leval, peval. rewrite HP, bsum_S_l.
    pose proof (He 0%nat ltac:(lia)) as E0.
    assert (Hw00 : w 0%nat = rpow lam (n - 1) * w (n - 1)%nat).
    { replace 0%nat with (n - 1 - (n - 1))%nat at 1 by lia. apply Hpow. lia. }
    rewrite Hw00 in E0.
    replace (S n - 1 - 0)%nat with (S (n - 1)) by lia. cbn [rpow].
    replace (lam * (rpow lam (n - 1) * w (n - 1)%nat)) with (lam * rpow lam (n - 1) * w (n - 1)%nat) in E0 by ring.
    transitivity (gt 0 P * (lam * rpow lam (n - 1) * w (n - 1)%nat) + bsum n (fun i => gt (S i) P * rpow lam (S n - 1 - S i)) * w (n - 1)%nat); [ring|].
    rewrite <- E0. rewrite <- bsum_mul_l, <- bsum_mul_r, <- bsum_add. apply bsum_0. intros j Hj.
    unfold companion_of. cbn [Nat.eqb].
    assert (w j = rpow lam (S n - 1 - S j) * w (n - 1)%nat) as ->.
    { replace j with (n - 1 - (n - 1 - j))%nat at 1 by lia. rewrite Hpow by lia. do 2 f_equal. lia. }
    pose proof (rinv_l (c:=F) _ H0) as Hi. set (x := rpow lam (S n - 1 - S j)). set (g := gt (S j) P). set (W := w (n - 1)%nat).
    transitivity (g * x * W * (1 - rinv (gt 0 P) * gt 0 P)); [ring|]. rewrite Hi. ring. }
  pose proof (rinv_l (c:=F) _ Hlast) as Hi.
  transitivity (leval P lam * w (n - 1)%nat * rinv (w (n - 1)%nat)); [|rewrite Hmul; ring].
  transitivity (leval P lam * (rinv (w (n - 1)%nat) * w (n - 1)%nat)); [rewrite Hi; ring|ring].
Qed.

(** Contract of torch.linalg.eigvals used here: [l] has n entries, each an eigenvalue of A. *)
Definition eig_ok (n : nat) (A : nat -> nat -> F) (l : list F) : Prop :=
  length l = n /\
  forall lam, In lam l -> exists w, (exists i, (i < n)%nat /\ w i <> 0) /\
    forall i, (i < n)%nat -> bsum n (fun j => A i j * w j) = lam * w i.

Variable eigvals : nat -> (nat -> nat -> F) -> list F.
(** Without assumption on [eigvals]: the eigenvalues of the companion matrix of the stripped
    polynomial, followed by the zero roots. *)
Lemma roots_form (p : list F) i j : let P := skipn i (firstn (j + 1) p) in
  (i < j < length p)%nat -> gt i p <> 0 -> gt j p <> 0 ->
  (forall k, (k < i \/ j < k)%nat -> gt k p = 0) ->
  roots z0 eigvals p = Ok (eigvals (j - i)%nat (companion_of P) ++ repeat 0 (length p - 1 - j)) /\
  length P = S (j - i) /\ gt 0 P = gt i p /\ length (trim_zeros z0 p) = (length p - i)%nat /\
  forall z, leval p z = leval P z * rpow z (length p - 1 - j).
Proof.
  intros P Hij Hpi Hpj Hzero. unfold roots.
  remember (nonzero z0 p) as nz eqn:Enz. symmetry in Enz.
  destruct (filter_seq_sorted (fun i => negb (z0 (gt i p))) 0 (length p) nz Enz) as [Hin Hsort].
  assert (Hnz : forall k, gt k p <> 0 -> negb (z0 (gt k p)) = true).
  { intros k Hk. apply negb_true_iff. destruct (z0 (gt k p)) eqn:E; [apply Hz0 in E; contradiction|reflexivity]. }
  assert (Hi : In i nz) by (apply Hin; split; [lia|now apply Hnz]).
  assert (Hj : In j nz) by (apply Hin; split; [lia|now apply Hnz]).
  destruct nz as [|h [|h2 rest]]; [destruct Hi|destruct Hi as [|[]]; destruct Hj as [|[]]; subst; lia|].
  destruct (Hsort h (h2 :: rest) eq_refl) as [Hhd Hlast]. change (last (h :: h2 :: rest) 0%nat) with (last (h2 :: rest) 0%nat) in Hlast.
  assert (Hl : In (last (h2 :: rest) 0%nat) (h2 :: rest)) by (destruct (exists_last (l:=h2 :: rest) ltac:(discriminate)) as (a & b & ->); rewrite last_last; apply in_or_app; right; now left).
  set (L := last (h2 :: rest) 0%nat) in *. cbv zeta.
  assert (HhL : (h < L)%nat) by now apply Hhd.
  assert (HLn : (L < length p)%nat) by (apply Hin; now right).
  assert (Hhn : gt h p <> 0).
  { assert (In h (h :: h2 :: rest)) as Hh by now left. apply Hin in Hh as [_ Hh]. intros E. apply Hz0 in E. rewrite E in Hh. discriminate. }
  assert (HLnz : gt L p <> 0).
  { assert (In L (h :: h2 :: rest)) as Hh by now right. apply Hin in Hh as [_ Hh]. intros E. apply Hz0 in E. rewrite E in Hh. discriminate. }
  assert (i = h).
  { destruct (Nat.lt_trichotomy i h) as [E|[E|E]]; [|exact E|exfalso; apply Hhn, Hzero; now left].
    destruct Hi as [->|Hi]; [reflexivity|]. specialize (Hhd i Hi). lia. }
  assert (j = L).
  { pose proof (Hlast j Hj). destruct (Nat.eq_dec j L); [assumption|]. exfalso. apply HLnz, Hzero. right. lia. }
  subst i j.
  assert (Hout : forall k, (k < h \/ L < k)%nat -> gt k p = 0).
  { intros k Hk. destruct (Nat.lt_ge_cases k (length p)) as [Hk1|Hk1]; [|now apply nth_overflow].
    destruct (z0 (gt k p)) eqn:E; [now apply Hz0|]. exfalso.
    assert (In k (h :: h2 :: rest)) as Hkin by (apply Hin; split; [lia|now rewrite E]).
    pose proof (Hlast k Hkin). destruct Hkin as [->|Hkin]; [lia|]. specialize (Hhd k Hkin). lia. }
  assert (HPl : length P = S (L - h)) by (unfold P; rewrite skipn_length, firstn_length; lia).
  assert (HPn : forall k, (k < length P)%nat -> gt k P = gt (h + k) p).
  { intros k Hk. unfold P.
    assert (forall (l : list F) a b, nth b (skipn a l) 0 = nth (a + b) l 0) as Hsk.
    { clear. induction l as [|x l IH]; intros [|a] b; cbn; try reflexivity; [now destruct b|apply IH]. }
    rewrite Hsk. rewrite <- (firstn_skipn (L + 1) p) at 2. rewrite app_nth1; [reflexivity|]. rewrite firstn_length. lia. }
  assert (Hval : forall z, leval p z = leval P z * rpow z (length p - 1 - L)).
  { intro z. unfold leval, peval. rewrite HPl.
    replace (length p) with (h + (S (L - h) + (length p - 1 - L)))%nat at 1 by lia. rewrite bsum_split.
    rewrite bsum_0 by (intros k Hk; rewrite Hout by lia; ring). rewrite bsum_split.
    rewrite (bsum_0 (length p - 1 - L)) by (intros k Hk; rewrite Hout by lia; ring).
    rewrite <- bsum_mul_r.
    rewrite (bsum_ext (S (L - h)) (fun i0 => nth i0 P 0 * rpow z (S (L - h) - 1 - i0) * rpow z (length p - 1 - L))
       (fun i0 => nth (h + i0) p 0 * rpow z (length p - 1 - (h + i0)))); [ring|].
    intros k Hk. rewrite HPn by lia.
    replace (length p - 1 - (h + k))%nat with ((S (L - h) - 1 - k) + (length p - 1 - L))%nat by lia. rewrite rpow_add. ring. }
  assert (Htl : length (trim_zeros z0 p) = (length p - h)%nat).
  { unfold trim_zeros. bfalse (length p =? 1)%nat. rewrite Enz. apply skipn_length. }
  split; [|split; [exact HPl|split; [rewrite HPn by lia; now rewrite Nat.add_0_r|now split]]].
  fold P. rewrite HPl. btrue (1 <? S (L - h))%nat. replace (S (L - h) - 1)%nat with (L - h)%nat by lia.
  replace (length p - L - 1)%nat with (length p - 1 - L)%nat by lia.
  destruct (length p - 1 - L)%nat eqn:Et; cbn [Nat.ltb Nat.leb repeat]; [now rewrite app_nil_r|reflexivity].
Qed.
Theorem roots_spec (p : list F) i j :
  (i < j < length p)%nat -> gt i p <> 0 -> gt j p <> 0 ->
  (forall k, (k < i \/ j < k)%nat -> gt k p = 0) ->
  (let A := companion_of (skipn i (firstn (j + 1) p)) in eig_ok (j - i) A (eigvals (j - i)%nat A)) ->
  exists rs, roots z0 eigvals p = Ok rs /\ length rs = (length (trim_zeros z0 p) - 1)%nat /\
    forall z, In z rs -> leval p z = 0.
Proof.
  intros Hij Hpi Hpj Hzero Heig. cbv zeta in Heig.
  destruct (roots_form p i j Hij Hpi Hpj Hzero) as (E & HPl & HP0 & Htl & Hval).
  set (P := skipn i (firstn (j + 1) p)) in *. destruct Heig as [Hel Hev].
  eexists. split; [exact E|]. split; [rewrite app_length, repeat_length, Hel, Htl; lia|].
  intros z Hz. rewrite Hval. apply in_app_or in Hz as [Hz|Hz].
  - destruct (Hev z Hz) as (w & Hw & Hweq).
    rewrite (eigen_companion P (j - i) z w HPl ltac:(lia)); [ring| |exact Hw|exact Hweq]. now rewrite HP0.
  - pose proof (repeat_spec _ _ _ Hz) as ->. destruct (length p - 1 - j)%nat eqn:Eq; [destruct Hz|]. cbn [rpow]. ring.
Qed.

(** A single non-zero coefficient: [non_zero] is squeezed to a 0-d tensor, which cannot be
    indexed. *)
Lemma roots_monomial (p : list F) h : (h < length p)%nat -> gt h p <> 0 ->
  (forall k, k <> h -> gt k p = 0) -> roots z0 eigvals p = Err IndexError.
Proof.
  intros Hh Hn Ho. unfold roots. remember (nonzero z0 p) as nz eqn:Enz. symmetry in Enz.
  destruct (filter_seq_sorted (fun i => negb (z0 (gt i p))) 0 (length p) nz Enz) as [Hin Hsort].
  assert (forall k, In k nz -> k = h) as Hu.
  { intros k Hk. apply Hin in Hk as [_ Hk]. destruct (Nat.eq_dec k h); [assumption|].
    rewrite Ho in Hk by assumption. rewrite (proj2 (Hz0 0) eq_refl) in Hk. discriminate. }
  assert (In h nz) as Hhin.
  { apply Hin. split; [lia|]. apply negb_true_iff. destruct (z0 (gt h p)) eqn:E; [apply Hz0 in E; contradiction|reflexivity]. }
  destruct nz as [|a [|b l]]; [destruct Hhin|reflexivity|].
  destruct (Hsort a (b :: l) eq_refl) as [H1 _]. specialize (H1 b (or_introl eq_refl)).
  rewrite (Hu a) in H1 by now left. rewrite (Hu b) in H1 by (right; now left). lia.
Qed.
End PP2.
Arguments eig_ok {F}.
