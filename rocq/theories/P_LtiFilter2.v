(** lti/filtering.py: lfiltic, lfilter_zi, comb_filter. *)
From Coq Require Import List Arith Lia ZArith Bool Ring.
From Verif Require Import Scalar Tensor TensorLemmas TensorOps TensorAlg TensorTac TensorList
  Spec Shapes SpecFilter Algebra M_Mat P_Mat M_Kernels M_LtiRecur M_LtiSsm P_LtiRecur P_LtiSsm P_Filter M_LtiFilter P_LtiFilter.
Import ListNotations.

Section S.
Variable R : cring.
Add Ring Rr : (r_th R).
Notation ten := (tensor (car R)).
Open Scope cr_scope.

Lemma length_upd d f (l : list nat) : length (upd d f l) = length l.
Proof. revert d. induction l as [|x l IH]; intros [|d]; cbn; auto. Qed.
Lemma fcoef_rk B n (t : ten) f pre g : (pre = [] \/ pre = [B]) -> isP1 t pre n g -> fcoef B n t f -> rk t = (length pre + 1)%nat.
Proof. intros _ H _. exact (P1_rk _ _ _ _ H). Qed.
Lemma fcoef_tail B M (b : ten) bf : fcoef B (S M) b bf ->
  fcoef B M (slice (rk b - 1) (Some 1%Z) None b) (fun i k => bf i (S k)).
Proof.
  intros Hb. apply fcoef_P in Hb as (pb & gb & Hpb & Hb & Hfb). pose proof (P1_rk _ _ _ _ Hb).
  nm (slice (rk b - 1) (Some 1%Z) None b). match type of H0 with isP1 _ _ ?n _ => replace n with M in H0 by lia end.
  apply (P_fcoef R _ _ _ _ pb _ Hpb H0). intros i k Hi Hk. now apply Hfb; lia.
Qed.
Lemma fcoef_sub B n (s t : ten) f g : fcoef B n s f -> fcoef B n t g ->
  exists y, tsub s t = Ok y /\ fcoef B n y (fun i k => f i k - g i k).
Proof.
  intros Hs Ht. apply fcoef_P in Hs as (p & sg & Hp & Hs & Hf). apply fcoef_P in Ht as (q & tg & Hq & Ht & Hg).
  destruct Hp as [->| ->], Hq as [->| ->]; ew2; (eexists; split; [reflexivity|]);
    (eapply P_fcoef; [|eassumption|]; [auto|]); intros i k Hi Hk; rewrite Hf, Hg by lia; reflexivity.
Qed.
Lemma fcoef_mul1 B n (s t : ten) f g : fcoef B n s f -> fcoef B 1 t g ->
  exists y, tmul s t = Ok y /\ fcoef B n y (fun i k => f i k * g i 0%nat).
Proof.
  intros Hs Ht. apply fcoef_P in Hs as (p & sg & Hp & Hs & Hf). apply fcoef_P in Ht as (q & tg & Hq & Ht & Hg).
  destruct Hp as [->| ->], Hq as [->| ->]; ew2; (eexists; split; [reflexivity|]);
    (eapply P_fcoef; [|eassumption|]; [auto|]); intros i k Hi Hk; rewrite Hf, Hg by lia; rewrite ?(bi_lt n) by lia; reflexivity.
Qed.
(** pad (m - 1) zeros, unfold windows of m, multiply by the past. *)
Lemma lfiltic_half B m (c p : ten) cf pf : (1 <= m)%nat -> fcoef B m c cf -> fcoef B m p pf ->
  exists cp mat zb, padZ (rk c - 1) 0 (Z.of_nat m - 1) 0 c = Ok cp /\ unfold (rk cp - 1) m cp = Ok mat /\
    matmul mat (unsqueeze (rk p) p) = Ok zb /\
    fcoef B m (squeeze (rk zb - 1) zb) (fun i r => bsum m (fun k => padz m (cf i) (r + k) * pf i k)).
Proof.
  intros Hm Hc Hp. apply fcoef_P in Hc as (qc & gc & Hqc & Hc & Hfc). apply fcoef_P in Hp as (qp & gp & Hqp & Hp & Hfp).
  pose proof (P1_rk _ _ _ _ Hc) as Hrc. pose proof (P1_rk _ _ _ _ Hp) as Hrp.
  destruct (padZ_view R c qc m gc (rk c - 1) 0 (m - 1) Hc ltac:(lia)) as (cp & E & Hcp).
  replace (Z.of_nat (m - 1)) with (Z.of_nat m - 1)%Z in E by lia. cbn [Z.of_nat] in E.
  exists cp. pose proof (P1_rk _ _ _ _ Hcp) as Hrcp.
  assert (exists mat, unfold (rk cp - 1) m cp = Ok mat /\ isP2 mat qc m m (fun q r k => padz m (gc q) (r + k))) as (mat & EM & Hmat).
  { destruct (P1_unfold0 cp qc _ _ (rk cp - 1)%nat m Hcp ltac:(lia) ltac:(lia)) as (mat & EM & Hmat). exists mat. split; [exact EM|].
    fin Hmat; [lia|auto|]. intros q r k Hq Hr Hk. unfold padz. cbn [Nat.leb andb Nat.add].
    rewrite Nat.sub_0_r. reflexivity. }
  exists mat. clear Hcp. nm (unsqueeze (rk p) p).
  assert (exists pre zb, matmul mat v = Ok zb /\ (pre = [] \/ pre = [B]) /\
    isP2 zb pre m 1 (fun q r _ => bsum m (fun k => padz m (gc (match qc with [] => [] | _ => q end)) (r + k) * gp (match qp with [] => [] | _ => q end) k))
    /\ (qc = [] \/ qc = pre) /\ (qp = [] \/ qp = pre))
    as (pre & zb & EZ & Hpre & HZ & Hc1 & Hp1).
  { destruct Hqc as [->| ->], Hqp as [->| ->]; mm;
      match goal with H : isP2 ?w0 ?pre m 1 (fun _ _ _ => bsum _ _) |- _ => exists pre, w0; split; [reflexivity|]; split; [auto|]; split; [|auto];
        fin H; auto; intros q r k Hq Hr Hk; first [apply vld_nil_inv in Hq as ->|idtac]; reflexivity end. }
  exists zb. split; [exact E|]. split; [exact EM|]. split; [exact EZ|].
  pose proof (P2_rk _ _ _ _ _ HZ) as Hrz.
  assert (Hsz : size zb (rk zb - 1) = 1%nat) by (unfold size; rewrite (proj1 HZ), (nth_pre pre [m; 1%nat] _ 1) by lia; reflexivity).
  rewrite squeeze_sel by exact Hsz. nm (sel (rk zb - 1) 0 zb).
  eapply P_fcoef; [exact Hpre|eassumption|]. intros i r Hi Hr. cbn beta. apply bsum_ext. intros k Hk. f_equal.
  - unfold padz. destruct (r + k <? m)%nat eqn:Er; b2p; [|reflexivity]. rewrite Hfc by lia.
    destruct Hc1 as [->| ->]; [reflexivity|]. now destruct pre.
  - rewrite Hfp by lia. destruct Hp1 as [->| ->]; [reflexivity|]. now destruct pre.
Qed.

Lemma fcoef_padk B n k (t : ten) f : fcoef B n t f -> (n <= k)%nat ->
  fcoef B k (if (sizen t 1 <? k)%nat then pad (rk t - 1) 0 (k - sizen t 1) 0 t else t) (fun i => padz n (f i)).
Proof.
  intros H Hn. rewrite (proj1 (fcoef_size _ _ _ _ _ H)). destruct (n <? k)%nat eqn:E; b2p.
  - replace k with (n + (k - n))%nat at 1 by lia. now apply fcoef_pad.
  - replace k with n by lia. now apply fcoef_padz.
Qed.
Definition past (B m : nat) (x : option ten) (xf : nat -> nat -> R) : Prop :=
  match x with Some t => fcoef B m t xf | None => forall i k, (i < B)%nat -> (k < m)%nat -> xf i k = 0 end.

Theorem lfiltic_spec B m n (b a y : ten) x bf af yf xf : (1 <= m)%nat -> (1 <= n)%nat ->
  fcoef B (S m) b bf -> fcoef B n a af -> fcoef B n y yf -> past B m x xf ->
  exists z, lfiltic b a y x = Ok z /\
    fcoef B (Nat.max n m) z (fun i r =>
      bsum m (fun k => padz (S m) (bf i) (S (r + k)) * xf i k) - bsum n (fun k => padz n (af i) (r + k) * yf i k)).
Proof.
  intros Hm Hn Hb Ha Hy Hx. unfold lfiltic.
  destruct (fcoef_size _ _ _ _ _ Hb) as (Sb & _ & Rb). destruct (fcoef_size _ _ _ _ _ Ha) as (Sa & _ & Ra).
  btrue (1 <=? rk b)%nat. btrue (1 <=? rk a)%nat. rewrite Sb, Sa. replace (S m - 1)%nat with m by lia.
  assert (Hx' : fcoef B m (match x with Some x => x | None => zeros [m] end) xf).
  { destruct x as [t|]; [exact Hx|]. apply (fc_s (fun _ => 0)); [|exact Hx]. split; [reflexivity|]. intros; reflexivity. }
  set (x' := match x with Some x => x | None => _ end) in *. clearbody x'.
  pose proof (fcoef_tail _ _ _ _ Hb) as Ht. set (bt := slice (rk b - 1) _ _ b) in *.
  assert (rk b - 1 = rk bt - 1)%nat as -> by (subst bt; unfold slice, rk at 2; cbn [shape]; now rewrite length_upd).
  destruct (lfiltic_half B m bt x' _ xf Hm Ht Hx') as (bp & bm & zb & E1 & E2 & E3 & Hzb). clearbody bt.
  destruct (lfiltic_half B n a y _ yf Hn Ha Hy) as (ap & am & za & E4 & E5 & E6 & Hza).
  rewrite E1. cbn [bind]. rewrite E2. cbn [bind]. rewrite E4. cbn [bind]. rewrite E5. cbn [bind]. rewrite E3. cbn [bind]. rewrite E6. cbn [bind].
  destruct (fcoef_sub _ _ _ _ _ _ (fcoef_padk _ _ (Nat.max n m) _ _ Hzb ltac:(lia)) (fcoef_padk _ _ (Nat.max n m) _ _ Hza ltac:(lia))) as (z & Ez & Hz).
  exists z. split; [exact Ez|]. eapply fcoef_ext; [exact Hz|]. intros i r Hi Hr. cbn beta. f_equal.
  - unfold padz at 1. destruct (r <? m)%nat eqn:E; b2p; [apply bsum_ext; intros; unfold padz; reflexivity|].
    symmetry. apply bsum_0. intros k Hk. unfold padz. bfalse (S (r + k) <? S m)%nat. ring.
  - unfold padz at 1. destruct (r <? n)%nat eqn:E; b2p; [reflexivity|].
    symmetry. apply bsum_0. intros k Hk. unfold padz. bfalse (r + k <? n)%nat. ring.
Qed.

(** ** lfilter_zi *)
(** What torch.linalg.solve(A, v) guarantees when it succeeds on a square matrix (or a
    batch of them) and a vector (or one per matrix). *)
Definition solve_vec (la : linalg R) : Prop :=
  forall pa pv M (A v s : ten) f g, (pv = [] \/ pv = pa) ->
    isP2 A pa M M f -> isP1 v pv M g -> l_solve la A v = Ok s ->
    exists h, isP1 s pa M h /\
      forall q i, vld pa q -> (i < M)%nat -> bsum M (fun k => f q i k * h q k) = g (match pv with [] => [] | _ => q end) i.

Lemma lfilter_zi_tail (la : linalg R) B M (A Bv : ten) Af vf s : solve_vec la ->
  matc B M A Af -> fcoef B M Bv vf ->
  (let* IminusA := tsub (eye M) A in
   let* IminusA :=
     if ((rk IminusA =? 2) && (1 <? rk Bv))%nat
     then expand (firstn (rk Bv - 1) (shape Bv) ++ [M; M]) IminusA else Ok IminusA in
   l_solve la IminusA Bv)%res = Ok s ->
  exists sf, fcoef B M s sf /\
    forall i r, (i < B)%nat -> (r < M)%nat -> sf i r = mvec M (Af i) (sf i) r + vf i r.
Proof.
  intros Hla HA Hv E.
  assert (exists pa g, (pa = [] \/ pa = [B]) /\ isP2 A pa M M g /\
    forall b i j, (b < B)%nat -> (i < M)%nat -> (j < M)%nat -> Af b i j = g (match pa with [] => [] | _ => [b] end) i j)
    as (pa & g & Hpa & HA' & Hg).
  { destruct HA as [g HA Hg|HA].
    - exists [], (fun _ => g). split; [auto|]. split; [now apply is2_P|]. exact Hg.
    - exists [B], (fun q => Af (nth 0 q 0%nat)). split; [auto|]. split; [now apply is3_P2|]. reflexivity. }
  apply fcoef_P in Hv as (pv & gv & Hpv & Hv & Hgv). pose proof (P1_rk _ _ _ _ Hv) as Hrv.
  pose proof (P2_eye R [] M eq_refl) as Heye. set (I := eye M) in *. clearbody I.
  assert (exists IA, tsub I A = Ok IA /\ isP2 IA pa M M (fun q i j => (if (i =? j)%nat then 1 else 0) - g q i j)) as (IA & EI & HI).
  { destruct Hpa as [->| ->]; ew2; eexists; (split; [reflexivity|]); match goal with |- isP2 ?w0 _ _ _ _ => match goal with H : isP2 w0 _ _ _ _ |- _ => fin H; auto end end. }
  rewrite EI in E. cbn [bind] in E.
  assert (forall sf, (forall i r, (i < B)%nat -> (r < M)%nat ->
     bsum M (fun k => ((if (r =? k)%nat then 1 else 0) - Af i r k) * sf i k) = vf i r) ->
     forall i r, (i < B)%nat -> (r < M)%nat -> sf i r = mvec M (Af i) (sf i) r + vf i r) as Hfin.
  { intros sf H i r Hi Hr. rewrite <- H by assumption. unfold mvec.
    rewrite (bsum_ext M (fun k => ((if (r =? k)%nat then 1 else 0) - Af i r k) * sf i k)
       (fun k => (if (r =? k)%nat then 1 else 0) * sf i k - Af i r k * sf i k)) by (intros; ring).
    rewrite bsum_sub, (bsum_diag R M 1 (sf i) r Hr). ring. }
  assert (exists pa2 IA2, (pv = [] \/ pv = pa2) /\ (pa2 = [] \/ pa2 = [B]) /\ (pa = [] \/ pa = pa2) /\
     l_solve la IA2 Bv = Ok s /\ isP2 IA2 pa2 M M (fun q i j => (if (i =? j)%nat then 1 else 0) - g (match pa with [] => [] | _ => q end) i j))
     as (pa2 & IA2 & Hv2 & Hp2 & Hpp & E2 & HI2).
  { pose proof (P2_rk _ _ _ _ _ HI) as Hri. pose proof (proj1 Hv) as Hsv.
    destruct Hpa as [->| ->], Hpv as [->| ->]; cbn [length Nat.add] in *; rewrite Hri, Hrv in E; cbn [Nat.eqb Nat.ltb Nat.leb andb bind Nat.sub] in E.
    - exists [], IA. do 3 (split; [auto; fail|]). split; [exact E|]. fin HI; auto. intros q i j Hq Hi Hj. now apply vld_nil_inv in Hq as ->.
    - rewrite Hsv in E. cbn [firstn app] in E. apply P2_nil in HI.
      destruct (expand_pre2 IA [B] M M _ HI) as (y & Ey & Hy). cbn [app] in Ey. rewrite Ey in E. cbn [bind] in E.
      exists [B], y. do 3 (split; [auto; fail|]). split; [exact E|]. fin Hy; auto.
    - exists [B], IA. do 3 (split; [auto; fail|]). split; [exact E|]. fin HI; auto.
    - exists [B], IA. do 3 (split; [auto; fail|]). split; [exact E|]. fin HI; auto. }
  destruct (Hla pa2 pv M IA2 Bv s _ _ Hv2 HI2 Hv E2) as (h & Hs & Hh).
  exists (fun i k => h (match pa2 with [] => [] | _ => [i] end) k). split.
  - apply (P_fcoef R _ _ _ _ pa2 _ Hp2 Hs). intros; reflexivity.
  - apply Hfin. intros i r Hi Hr. rewrite Hgv by assumption.
    assert (Hq : vld pa2 (match pa2 with [] => [] | _ => [i] end)) by (destruct Hp2 as [->| ->]; repeat constructor; exact Hi).
    specialize (Hh _ r Hq Hr). 
    assert (Eg : forall k, (k < M)%nat -> Af i r k = g (match pa with [] => [] | _ => match pa2 with [] => [] | _ => [i] end end) r k).
    { intros k Hk. rewrite Hg by assumption. destruct Hpp as [->| ->]; [reflexivity|]. destruct pa2; reflexivity. }
    rewrite (bsum_ext M _ _ (fun k Hk => f_equal (fun t => (_ - t) * _) (Eg k Hk))). rewrite Hh.
    destruct Hv2 as [->| ->]; [reflexivity|]. destruct pa2; reflexivity.
Qed.

Theorem lfilter_zi_tdf2_spec la B nb na M (b a : ten) bf af s : solve_vec la ->
  (1 <= nb)%nat -> M = Nat.max na (nb - 1) -> (1 <= M)%nat -> fcoef B nb b bf -> fcoef B na a af ->
  lfilter_zi la a (Some b) true = Ok s ->
  exists sf, fcoef B M s sf /\ forall i r, (i < B)%nat -> (r < M)%nat ->
    sf i r = mvec M (comph R (fun k => conj (padz na (af i) k))) (sf i) r
             + (padz nb (bf i) (S r) - padz nb (bf i) 0 * padz na (af i) r).
Proof.
  intros Hla Hnb EM HM Hb Ha E. unfold lfilter_zi in E.
  destruct (fcoef_size _ _ _ _ _ Hb) as (Sb & _ & Rb). destruct (fcoef_size _ _ _ _ _ Ha) as (Sa & _ & Ra).
  revert E. btrue (1 <=? rk a)%nat. btrue (1 <=? rk b)%nat. cbn [negb]. rewrite Sb, Sa.
  replace (Nat.max nb (na + 1)) with (S M) by lia. replace (S M - 1)%nat with M by lia.
  assert (Hb' : fcoef B (S M) (if (nb <? S M)%nat then pad (rk b - 1) 0 (S M - nb) 0 b else b) (fun i => padz nb (bf i))).
  { destruct (nb <? S M)%nat eqn:E; b2p.
    - replace (S M) with (nb + (S M - nb))%nat at 1 by lia. now apply fcoef_pad.
    - replace (S M) with nb by lia. now apply fcoef_padz. }
  assert (Ha' : fcoef B M (if (na <? M)%nat then pad (rk a - 1) 0 (M - na) 0 a else a) (fun i => padz na (af i))).
  { destruct (na <? M)%nat eqn:E; b2p.
    - replace M with (na + (M - na))%nat at 1 by lia. now apply fcoef_pad.
    - replace M with na by lia. now apply fcoef_padz. }
  set (b' := if (nb <? S M)%nat then _ else b) in *. set (a' := if (na <? M)%nat then _ else a) in *. clearbody a' b'.
  destruct (companion_mat R B M a' _ Ha') as (A & -> & _ & _ & HA). cbn [bind].
  destruct (fcoef_diff R B M b' a' _ _ Hb' Ha') as (C & EC & HC).
  unfold bind in EC. unfold bind at 1 2 3. destruct (tmul _ a') as [t|]; [|discriminate]. rewrite EC. intro E.
  destruct (lfilter_zi_tail la B M (tconj (mT A)) C _ _ s Hla HA HC) as (sf & Hs & Hf); [|now exists sf].
  replace (S M - 1)%nat with M in E by lia. exact E.
Qed.
Theorem lfilter_zi_df2_spec la B na (a : ten) bo af s : solve_vec la -> (1 <= na)%nat -> fcoef B na a af ->
  lfilter_zi la a bo false = Ok s ->
  exists sf, fcoef B na s sf /\ forall i r, (i < B)%nat -> (r < na)%nat ->
    sf i r = mvec na (compm R (af i)) (sf i) r + (if (r =? 0)%nat then 1 else 0).
Proof.
  intros Hla Hna Ha E. unfold lfilter_zi in E.
  destruct (fcoef_size _ _ _ _ _ Ha) as (Sa & _ & Ra).
  revert E. btrue (1 <=? rk a)%nat. cbn [negb]. rewrite Sa. replace (na + 1 - 1)%nat with na by lia.
  destruct (companion_mat R B na a _ Ha) as (A & -> & _ & HA & _). cbn [bind]. btrue (1 <=? na)%nat. cbn [bind].
  intro E. replace (na + 1 - 1)%nat with na in E by lia.
  refine ((fun HB => _) _).
  { destruct (lfilter_zi_tail la B na A _ _ (fun _ r => if (r =? 0)%nat then 1 else 0) s Hla HA HB E) as (sf & Hs & Hf). now exists sf. }
  eapply fc_s with (g := fun r => if (r =? 0)%nat then 1 else 0); [|reflexivity]. split; reflexivity.
Qed.

(** Steady states. *)
Lemma tdf2_steady M (b a z : nat -> R) c n : (1 <= M)%nat ->
  (forall r, (r < M)%nat -> z r = mvec M (comph R a) z r + (b (S r) - b 0%nat * a r)) ->
  forall r, (r < M)%nat -> tdf2_z M b a (fun k => z k * c) (fun _ => c) n r = z r * c.
Proof.
  intros HM Hz. induction n as [|n IH]; intros r Hr; [reflexivity|]. cbn [tdf2_z]. rewrite (IH 0%nat) by lia.
  rewrite (Hz r Hr), mvec_comph by exact Hr. destruct (S r <? M)%nat eqn:E; b2p; [rewrite IH by exact E|]; ring.
Qed.
Lemma df2_steady M (a z : nat -> R) c n : (1 <= M)%nat ->
  (forall r, (r < M)%nat -> z r = mvec M (compm R a) z r + (if (r =? 0)%nat then 1 else 0)) ->
  forall r, (r < M)%nat -> df2_z M a (fun k => z k * c) (fun _ => c) n r = z r * c.
Proof.
  intros HM Hz. induction n as [|n IH]; intros r Hr; [reflexivity|]. cbn [df2_z]. rewrite (Hz r Hr), mvec_compm by exact Hr.
  destruct r as [|r]; cbn [Nat.eqb].
  - rewrite (bsum_ext M (fun j => a j * df2_z M a (fun k => z k * c) (fun _ => c) n j) (fun j => a j * z j * c)) by (intros; rewrite IH by assumption; ring).
    rewrite bsum_mul_r. ring.
  - rewrite IH by lia. ring.
Qed.
(** The steady output is the gain at frequency zero: y (1 + sum a) = c sum b. *)
Lemma comph_sum M (a z : nat -> R) v : (1 <= M)%nat -> (forall r, (r < M)%nat -> z r = mvec M (comph R a) z r + v r) ->
  z 0%nat = bsum M v - bsum M a * z 0%nat.
Proof.
  intros HM Hz.
  assert (H : bsum M z = bsum M z - z 0%nat - bsum M a * z 0%nat + bsum M v).
  { rewrite (bsum_ext M z _ Hz) at 1. rewrite bsum_add. f_equal.
    rewrite (bsum_ext M _ (fun r => (if (S r <? M)%nat then z (S r) else 0) - a r * z 0%nat)) by (intros; now apply mvec_comph).
    rewrite bsum_sub, bsum_mul_r. f_equal. destruct M as [|M]; [lia|]. rewrite (bsum_S_l M z). cbn [bsum].
    bfalse (S M <? S M)%nat. rewrite (bsum_ext M _ (fun r => z (S r))) by (intros; btrue (S i <? S M)%nat; reflexivity). ring. }
  transitivity (z 0%nat + ((bsum M z - z 0%nat - bsum M a * z 0%nat + bsum M v) - bsum M z)); [|ring].
  rewrite <- H. ring.
Qed.
End S.
