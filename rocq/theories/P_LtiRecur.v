(** lti.linear_recurrence computes the scalar recurrence. *)
From Coq Require Import List Arith Lia ZArith Bool Ring.
From Verif Require Import Scalar Tensor TensorLemmas TensorOps TensorAlg TensorTac TensorList
  Spec Shapes Algebra M_LtiRecur.
Import ListNotations.

(** ** Over any operations *)
Section Raw.
Variable R : cops.
Notation ten := (tensor (car R)).
Open Scope cr_scope.

Lemma step_ok B (a h xn : ten) na nh af hf xf :
  is1 a na af -> is1 h nh hf -> is1 xn B xf -> na = 1%nat \/ na = B -> nh = 1%nat \/ nh = B ->
  exists h', (let* p := tmul a h in tadd p xn)%res = Ok h' /\
    is1 h' B (fun b => af (bi na b) * hf (bi nh b) + xf b).
Proof.
  intros Ha Hh Hx H1 H2. apply is1_P in Ha, Hh, Hx.
  assert (exists n, bdim na nh = Some n /\ (n = 1%nat \/ n = B) /\
            (forall b, (b < B)%nat -> bi na (bi n b) = bi na b /\ bi nh (bi n b) = bi nh b)) as (n & Hn & Hn' & Hbi).
  { assert (forall m b, (b < m)%nat -> bi m b = b) by (intros; now apply bi_lt).
    destruct H1 as [->| ->], H2 as [->| ->].
    - exists 1%nat. split; [apply bdim_refl|]. auto.
    - exists B. split; [apply bdim_1_l|]. split; [auto|]. intros. rewrite (H B b) by lia. auto.
    - exists B. split; [apply bdim_1_r|]. split; [auto|]. intros. rewrite (H B b) by lia. auto.
    - exists B. split; [apply bdim_refl|]. split; [auto|]. intros. rewrite (H B b) by lia. auto. }
  unfold tmul. destruct (P1_ew rmul a h [] na nh n _ _ Ha Hh Hn) as (p & -> & Hp). cbn [bind].
  assert (bdim n B = Some B) as HB by (destruct Hn' as [->| ->]; [apply bdim_1_l|apply bdim_refl]).
  unfold tadd. destruct (P1_ew radd p xn [] n B B _ _ Hp Hx HB) as (h' & -> & Hh').
  exists h'. split; [reflexivity|]. apply is1_P. fin Hh'; auto. intros q b Hq Hb.
  destruct (Hbi b Hb) as [-> ->]. now rewrite (bi_lt B b) by assumption.
Qed.

Lemma loop_ok B N (a init x : ten) na ni af hf xf :
  is1 a na af -> is1 init ni hf -> is2 x B N xf -> na = 1%nat \/ na = B -> ni = 1%nat \/ ni = B ->
  (1 <= N)%nat ->
  exists y, scalar_recursion_loop a init x = Ok y /\
    is2 y B N (fun b n => lin_rec (fun _ => af (bi na b)) (hf (bi ni b)) (xf b) (S n)).
Proof.
  intros Ha Hi Hx H1 H2 HN. unfold scalar_recursion_loop.
  assert (Hs1 : size x 1 = N) by (unfold size; now rewrite (proj1 Hx)).
  destruct (loopM_spec
    (fun k (h : ten) => exists nh g, is1 h nh g /\ (nh = 1%nat \/ nh = B) /\
       forall b, (b < B)%nat -> g (bi nh b) = lin_rec (fun _ => af (bi na b)) (hf (bi ni b)) (xf b) k)
    (fun k (t : ten) => isP0 t [B] (fun q => lin_rec (fun _ => af (bi na (nth 0 q 0%nat)))
                            (hf (bi ni (nth 0 q 0%nat))) (xf (nth 0 q 0%nat)) (S k)))
    (fun h xn => let* p := tmul a h in tadd p xn)%res (fun h => Ok h) (unbind 1 x) 0 init)
    as (r & -> & Hl & Hr).
  - exists ni, hf. repeat split; auto; apply Hi.
  - intros k h xn Hk (nh & g & Hh & Hnh & Hg). apply nth_error_unbind in Hk as [Hk ->].
    rewrite Hs1 in Hk. apply is2_P1 in Hx.
    assert (Hxn : is1 (sel 1 k x) B (fun b => xf b k)).
    { destruct Hx as [Hs Hf]. split.
      - unfold sel. rewrite Hs. reflexivity.
      - intros i Hi'. unfold sel. cbn. apply (Hf [i]); [now apply vld_1|assumption]. }
    destruct (step_ok B a h (sel 1 k x) na nh af g _ Ha Hh Hxn H1 Hnh) as (h' & E & Hh').
    exists h'. split; [exact E|]. split.
    + exists B, (fun b => lin_rec (fun _ => af (bi na b)) (hf (bi ni b)) (xf b) (S (0 + k))).
      split; [|split; [auto|]].
      * eapply is1_ext; [exact Hh'|]. intros b Hb. cbn beta. rewrite Hg by assumption. reflexivity.
      * intros b Hb. now rewrite (bi_lt B b).
    + exists h'. split; [reflexivity|]. split; [apply Hh'|]. intros q Hq.
      apply vld_1_inv in Hq as (b & -> & Hb). destruct Hh' as [_ Hf]. rewrite Hf by assumption.
      cbn [nth]. rewrite Hg by assumption. reflexivity.
  - cbn [bind]. rewrite unbind_length, Hs1 in Hl, Hr.
    destruct (stack_P0 r [B] (fun j q => lin_rec (fun _ => af (bi na (nth 0 q 0%nat)))
                            (hf (bi ni (nth 0 q 0%nat))) (xf (nth 0 q 0%nat)) (S j)) 1)
      as (y & E & Hy).
    { destruct r; cbn in Hl; [lia|congruence]. }
    { reflexivity. }
    { intros d j Hj. apply (Hr j d). lia. }
    exists y. split; [exact E|]. apply is2_P1. rewrite Hl in Hy. exact Hy.
Qed.

Lemma bprod_ext n (f g : nat -> R) : (forall i, (i < n)%nat -> f i = g i) -> bprod n f = bprod n g.
Proof.
  induction n as [|n IH]; intros H; [reflexivity|]. cbn [bprod].
  rewrite IH by (intros; apply H; lia). now rewrite H by lia.
Qed.


(** The expanded coefficient and the checks that precede it. *)
Lemma coef_expand B (t : ten) f : coef B t f ->
  ((rk t =? 0) || (rk t =? 1))%bool = true /\
  negb ((rk t =? 1) && (1 <? size t 0) && negb (size t 0 =? B)) = true /\
  exists t' n g, (if rk t =? 0 then expand [1%nat] t else Ok t) = Ok t' /\ is1 t' n g /\
    (n = 1%nat \/ n = B) /\ forall b, (b < B)%nat -> g (bi n b) = f b.
Proof.
  intros [v H Hv|g H Hv|H]; pose proof H as [Hs _]; unfold size, rk; rewrite Hs; cbn [length Nat.eqb orb andb negb nth].
  - split; [reflexivity|]. split; [reflexivity|].
    destruct (expand_0 t v 1 H) as (t' & E & H'). exists t', 1%nat, (fun _ => v).
    split; [exact E|]. split; [exact H'|]. split; [auto|]. intros. now rewrite Hv.
  - split; [reflexivity|]. split; [reflexivity|]. exists t, 1%nat, g.
    split; [reflexivity|]. split; [exact H|]. split; [auto|]. intros. now rewrite Hv.
  - split; [reflexivity|]. split; [rewrite Nat.eqb_refl; cbn; now rewrite andb_false_r|].
    exists t, B, f. split; [reflexivity|]. split; [assumption|]. split; [auto|].
    intros b Hb. now rewrite bi_lt.
Qed.

(** Number of blocks after padding. *)
Lemma blocks N bs : (2 <= bs)%nat -> (bs < N)%nat ->
  exists k, (N mod bs = 0 -> k * bs = N)%nat /\ (N mod bs <> 0 -> k * bs = N + (bs - N mod bs))%nat /\
    (1 <= k)%nat /\ (k < N)%nat.
Proof.
  intros H1 H2. pose proof (Nat.div_mod N bs ltac:(lia)) as E.
  pose proof (Nat.mod_upper_bound N bs ltac:(lia)) as Hm.
  destruct (Nat.eq_dec (N mod bs) 0) as [H0|H0].
  - exists (N / bs)%nat. repeat split; intros; try lia; nia.
  - exists (S (N / bs))%nat. repeat split; intros; try lia; try nia.
Qed.

End Raw.

Section S.
Variable R : cring.
Add Ring Rr : (r_th R).
Notation ten := (tensor (car R)).
Open Scope cr_scope.

Lemma bprod_const (a : R) n : bprod n (fun _ => a) = rpow a n.
Proof. induction n as [|n IH]; [reflexivity|]. cbn [bprod]. rewrite IH, <- rpow_S_r. reflexivity. Qed.

Lemma lr_fuel_spec fuel : forall B N (a init x : ten) af hf xf u,
  (N < fuel)%nat -> (1 <= B)%nat -> (1 <= N)%nat -> (1 <= u)%nat ->
  coef B a af -> coef B init hf -> is2 x B N xf ->
  exists y, linear_recurrence_fuel fuel a init x u = Ok y /\
    is2 y B N (fun b n => lin_rec (fun _ => af b) (hf b) (xf b) (S n)).
Proof.
  induction fuel as [|fuel IH]; intros B N a init x af hf xf u Hf HB HN Hu Ha Hi Hx; [lia|].
  cbn [linear_recurrence_fuel].
  assert (size x 0 = B) as -> by (unfold size; now rewrite (proj1 Hx)).
  assert (size x 1 = N) as -> by (unfold size; now rewrite (proj1 Hx)).
  rewrite (i2_rk _ _ _ _ Hx). cbn [Nat.eqb].
  destruct (coef_expand R B a af Ha) as (-> & -> & a' & na & ag & -> & Ha' & Hna & Hag). cbn [bind].
  destruct (coef_expand R B init hf Hi) as (-> & -> & i' & ni & ig & -> & Hi' & Hni & Hig). cbn [bind].
  bfalse (u <? 1)%nat. cbn [negb].
  destruct ((u =? 1) || (N <=? u))%bool eqn:Eb.
  { destruct (loop_ok R B N a' i' x na ni ag ig xf Ha' Hi' Hx Hna Hni HN) as (y & E & Hy).
    exists y. split; [exact E|]. eapply is2_ext; [exact Hy|]. intros b n Hb Hn. cbn beta.
    now rewrite Hag, Hig by assumption. }
  b2p. rename u into bs.
  (* padding to k blocks *)
  set (xp := if negb (N mod bs =? 0) then pad 1 0 (bs - N mod bs) r0 x else x).
  destruct (blocks N bs) as (k & Hk1 & Hk2 & Hk0 & HkN); [lia|lia|].
  assert (Hxp : isP1 xp [B] (k * bs) (fun q n => if n <? N then xf (nth 0 q 0%nat) n else 0)).
  { apply is2_P1 in Hx. unfold xp. destruct (N mod bs =? 0) eqn:Er; b2p; cbn [negb].
    - fin Hx; [lia|]. intros q n Hq Hn. bdec. reflexivity.
    - eassert (isP1 (pad 1 0 (bs - N mod bs) r0 x) _ _ _) as Hp by vsolve.
      fin Hp; [lia|]. intros q n Hq Hn. cbn [Nat.leb Nat.add andb]. now rewrite Nat.sub_0_r. }
  clearbody xp. set (X := fun b n => if n <? N then xf b n else 0).
  rewrite (unflatten_m1_ok xp 1 bs k) by (try lia; unfold size; now rewrite (proj1 Hxp)).
  mstep. rename w into ux. rename H1 into Hux.
  (* the coefficient as a shared or per-batch row of bs copies *)
  assert (exists ae pa al,
    (if numel a' =? 1 then expand [bs] a' else expand [size a' 0; bs] (unsqueeze 1 a')) = Ok ae /\
    isP1 ae pa bs (fun q _ => al q) /\
    (pa = [] \/ pa = [B]) /\
    (forall b, (b < B)%nat -> al (match pa with [] => [] | _ => [b] end) = af b))
    as (ae & pa & al & -> & Hae & Hpa & Hal).
  { unfold numel. rewrite (proj1 Ha'). cbn [prod]. destruct (na =? 1) eqn:En; b2p.
    - subst na. destruct (expand_1 a' 1 bs ag Ha' ltac:(lia)) as (ae & -> & Hae).
      exists ae, [], (fun _ => ag 0%nat). split; [reflexivity|]. split.
      + apply is1_P in Hae. fin Hae; auto.
      + split; [auto|]. intros b Hb. rewrite <- Hag by assumption. reflexivity.
    - destruct Hna as [Hna|Hna]; [congruence|]. subst na.
      assert (size a' 0 = B) as -> by (unfold size; now rewrite (proj1 Ha')).
      assert (Hu2 : is2 (unsqueeze 1 a') B 1 (fun b _ => ag b)).
      { apply is2_P. pose proof Ha' as Ha2. apply is1_P in Ha2. eapply P1_unsq1 in Ha2; [exact Ha2|reflexivity]. }
      destruct (expand_2 _ B 1 B bs _ Hu2 ltac:(auto) ltac:(auto)) as (ae & -> & Hae).
      exists ae, [B], (fun q => ag (nth 0 q 0%nat)). split; [reflexivity|]. split.
      + apply is2_P1 in Hae. fin Hae; auto. intros q i Hq Hi0. apply vld_1_inv in Hq as (b & -> & Hb).
        cbn [nth]. now rewrite bi_lt.
      + split; [auto|]. intros b Hb. cbn [nth]. rewrite <- Hag by assumption. now rewrite (bi_lt B b). }
  cbn [bind]. nm (cumprod (rk ae - 1) ae). rename v into ap. rename H1 into Hap.
  rewrite (select_ok ap (rk ap - 1) (-1)%Z (bs - 1)).
  2: { unfold size. rewrite (proj1 Hap), (nth_pre _ _ _ 0) by dimt. cbn [nth]. apply pyidx_m1. lia. }
  cbn [bind].
  pose proof (P1_sel0 ap pa bs _ (rk ap - 1) (bs - 1) Hap ltac:(dimt) ltac:(lia)) as Hsel.
  cbv beta in Hsel. set (apd := sel (rk ap - 1) (bs - 1) ap) in *. clearbody apd.
  nm (slice (rk ap - 1) None (Some (-1)%Z) ap). nm (flip (rk v - 1) v).
  nm (pad (rk v0 - 1) 0 1 r1 v0). rename v1 into aI.
  (* a_powers_plus_I: a^(bs-1), ..., a, 1 *)
  assert (HaI : isP1 aI pa bs (fun q i => rpow (al q) (bs - 1 - i))).
  { fin H3; [lia|]. intros q i Hq Hi0. cbn [Nat.leb andb]. destruct (i <? 0 + (bs - 1))%nat eqn:E; b2p.
    - rewrite bprod_const. f_equal. lia.
    - replace (bs - 1 - i)%nat with 0%nat by lia. reflexivity. }
  assert (Hapd : isP0 apd pa (fun q => rpow (al q) bs)).
  { fin Hsel. intros q Hq. rewrite bprod_const. f_equal. lia. }
  clear H1 H2 H3 v v0 Hsel Hap ap Hae ae.
  (* block sums *)
  assert (exists z, (if rk aI =? 1 then matmul ux aI else vecdot (tconj ux) (unsqueeze 1 aI)) = Ok z /\
    is2 z B k (fun b c => bsum bs (fun j => rpow (af b) (bs - 1 - j) * X b (c * bs + j)%nat)))
    as (z & -> & Hz).
  { rkt. destruct Hpa as [->| ->]; cbn [length Nat.add Nat.eqb].
    - apply P1_nil in HaI. mm. eexists; split; [reflexivity|]. apply is2_P1. fin H1; auto.
      intros q c Hq Hc. apply vld_1_inv in Hq as (b & -> & Hb). cbn [nth] in *.
      apply bsum_ext. intros j Hj. rewrite <- (Hal b Hb). unfold X. ring.
    - nm (tconj ux). nm (unsqueeze 1 aI). vdot. eexists; split; [reflexivity|]. apply is2_P1. fin H3; auto.
      intros q c Hq Hc. apply vld_1_inv in Hq as (b & -> & Hb). cbn [nth] in *.
      apply bsum_ext. intros j Hj. rewrite conj_conj. rewrite <- (Hal b Hb). unfold X, bi.
      destruct (k =? 1)%nat eqn:E; b2p; [replace c with 0%nat by lia|]; cbn [Nat.mul Nat.add]; ring. }
  cbn [bind].
  (* initial state of every block *)
  assert (Hiu : is2 (unsqueeze 1 i') ni 1 (fun b _ => ig b)).
  { apply is2_P. pose proof Hi' as Hi2. apply is1_P in Hi2. eapply P1_unsq1 in Hi2; [exact Hi2|reflexivity]. }
  destruct (expand_2 _ ni 1 B 1 _ Hiu ltac:(lia) ltac:(lia)) as (i0 & -> & Hi0). cbn [bind].
  destruct (IH B k apd i' z (fun b => rpow (af b) bs) hf
              (fun b c => bsum bs (fun j => rpow (af b) (bs - 1 - j) * X b (c * bs + j)%nat)) bs)
    as (rest & -> & Hrest); try lia; auto.
  { destruct Hpa as [->| ->].
    - apply coef_0 with (v := rpow (al []) bs).
      + apply is0_P0. fin Hapd. intros q Hq. now apply vld_nil_inv in Hq as ->.
      + intros b Hb. now rewrite <- (Hal b Hb).
    - apply coef_B. apply is1_P0. fin Hapd. intros q Hq. apply vld_1_inv in Hq as (b & -> & Hb).
      cbn [nth]. now rewrite <- (Hal b Hb). }
  { destruct Hni as [->| ->].
    - apply coef_1 with (g := ig); [assumption|]. intros b Hb. now rewrite <- Hig.
    - apply coef_B. eapply is1_ext; [exact Hi'|]. intros b Hb. rewrite <- Hig by assumption. now rewrite bi_lt. }
  cbn [bind].
  set (L := fun b n => lin_rec (fun _ => af b) (hf b) (X b) n).
  apply is2_P1 in Hi0, Hrest.
  cat2. rename w into ini.
  assert (Hini : isP1 ini [B] (S k) (fun q c => L (nth 0 q 0%nat) (c * bs)%nat)).
  { fin H1; auto. intros q c Hq Hc. apply vld_1_inv in Hq as (b & -> & Hb). cbn [nth].
    destruct (c <? 1)%nat eqn:E; b2p.
    - replace c with 0%nat by lia. unfold L. cbn [Nat.mul lin_rec]. now apply Hig.
    - replace (S (c - 1))%nat with c by lia. clear E Hc. induction c as [|c IHc]; [reflexivity|].
      cbn [lin_rec]. rewrite IHc. unfold L. replace (S c * bs)%nat with (c * bs + bs)%nat by lia.
      rewrite lin_rec_closed. reflexivity. }
  clear H1 Hrest Hi0 Hz z rest i0 Hiu.
  nm (slice 1 None (Some (-1)%Z) ini). nm (slice 2 None (Some (-1)%Z) ux).
  nm (unsqueeze 2 v). cat2. rename w into augx.
  nm (pad (rk aI - 1) 0 (bs - 2) r0 aI). unfold1. nm (flip (rk w - 2) w). nm (mT v3).
  assert (Hax : isP2 augx [B] k bs (fun q c j =>
     if j =? 0 then L (nth 0 q 0%nat) (c * bs)%nat else X (nth 0 q 0%nat) (c * bs + (j - 1))%nat)).
  { fin H4; [reflexivity|lia|]. intros q c j Hq Hc Hj. cbn [Nat.add].
    destruct (j <? 1)%nat eqn:E; b2p; bdec; reflexivity. }
  assert (Hv4 : isP2 v4 pa bs (bs - 1) (fun q j i =>
     if j <=? S i then rpow (al q) (S i - j) else 0)).
  { fin H8; [lia|lia|]. intros q j i Hq Hj Hi1. cbn [Nat.leb andb]. 
    match goal with |- context [if (?a <? ?b)%nat then _ else _] => destruct (a <? b)%nat eqn:E end; b2p; bdec;
    [f_equal; lia|reflexivity]. }
  clear H1 H2 H3 H4 H5 H6 H7 H8.
  assert (exists o, matmul augx v4 = Ok o /\
    isP2 o [B] k (bs - 1) (fun q c i => L (nth 0 q 0%nat) (c * bs + S i)%nat))
    as (o & -> & Ho).
  { assert (Hsum : forall b c i, (b < B)%nat -> (c < k)%nat -> (i < bs - 1)%nat ->
      bsum bs (fun j => (if j =? 0 then L b (c * bs)%nat else X b (c * bs + (j - 1))%nat) *
                        (if j <=? S i then rpow (af b) (S i - j) else 0)) = L b (c * bs + S i)%nat).
    { intros b c i Hb Hc Hi1. unfold L. rewrite lin_rec_closed.
      rewrite (bsum_trunc (S (S i)) bs) by (try lia; intros j Hj1 Hj2; bdec; ring).
      rewrite bsum_S_l. cbn [Nat.eqb Nat.leb Nat.sub]. f_equal; [ring|].
      apply bsum_ext. intros j Hj. cbn [Nat.eqb Nat.sub]. rewrite !Nat.sub_0_r. bdec. ring. }
    destruct Hpa as [->| ->]; mm; (eexists; split; [reflexivity|]); fin H1; auto;
      intros q c i Hq Hc Hi1; apply vld_1_inv in Hq as (b & -> & Hb); cbn [nth] in *;
      rewrite <- Hsum by assumption; apply bsum_ext; intros j Hj; rewrite <- (Hal b Hb); reflexivity. }
  cbn [bind]. clear Hax Hv4 augx v4.
  nm (slice 1 (Some 1%Z) None ini). nm (unsqueeze 2 v4). cat2. nm (flatten 1 2 w0).
  assert (Hout : isP1 v6 [B] (k * bs) (fun q n => L (nth 0 q 0%nat) (S n))).
  { fin H4; [nia|]. intros q n Hq Hn. replace (bs - 1 + 1)%nat with bs by lia.
    pose proof (Nat.div_mod n bs ltac:(lia)) as Edm. pose proof (Nat.mod_upper_bound n bs ltac:(lia)).
    destruct (n mod bs <? bs - 1)%nat eqn:E; b2p; f_equal; nia. }
  clear H1 H2 H3 H4. 
  assert (HL : forall b n, (b < B)%nat -> (n < N)%nat ->
     L b (S n) = lin_rec (fun _ => af b) (hf b) (xf b) (S n)).
  { intros b n Hb Hn. apply lin_rec_ext; auto. intros j Hj. unfold X. bdec. reflexivity. }
  destruct (N mod bs =? 0)%nat eqn:Er; b2p; cbn [negb].
  - eexists; split; [reflexivity|]. apply is2_P1. fin Hout; [lia|]. intros q n Hq Hn.
    apply vld_1_inv in Hq as (b & -> & Hb). now apply HL.
  - nm (slice 1 None (Some (- Z.of_nat (bs - N mod bs))%Z) v6).
    eexists; split; [reflexivity|]. apply is2_P1. fin H1; [specialize (Hk2 Er); pose proof (Nat.mod_upper_bound N bs ltac:(lia)); rewrite pyb_neg by lia; lia|]. intros q n Hq Hn.
    apply vld_1_inv in Hq as (b & -> & Hb). now apply HL.
Qed.

Theorem linear_recurrence_spec B N (a init x : ten) af hf xf u :
  (1 <= B)%nat -> (1 <= N)%nat -> (1 <= u)%nat ->
  coef B a af -> coef B init hf -> is2 x B N xf ->
  exists y, linear_recurrence a init x u = Ok y /\
    is2 y B N (fun b n => lin_rec (fun _ => af b) (hf b) (xf b) (S n)).
Proof.
  intros. unfold linear_recurrence. apply lr_fuel_spec; auto.
  match goal with H : is2 x _ _ _ |- _ => unfold size; rewrite (proj1 H) end. cbn. lia.
Qed.
End S.
