(** Rounding errors of lti.linear_recurrence and lpv.linear_recurrence: the blocked
    recursions, for any relation
    that behaves like an error count. *)
From Coq Require Import List Arith Lia ZArith Bool Ring.
From Verif Require Import Scalar Tensor TensorLemmas TensorOps TensorAlg TensorTac TensorList
  Spec Shapes Algebra M_LtiRecur M_LpvRecur P_LtiRecur P_LpvRecur.
Import ListNotations.

Section Rel.
Variable R : cops.
Variable E : cring.
Add Ring Er : (r_th E).
(** [rel k v e m]: [v] stands for the exact [e] of magnitude [m], [k] roundings deep. *)
Variable rel : nat -> R -> E -> E -> Prop.
Open Scope cr_scope.
Hypothesis rmono : forall k l v e m, (k <= l)%nat -> rel k v e m -> rel l v e m.
Hypothesis radd' : forall k v e m v' e' m', rel k v e m -> rel k v' e' m' -> rel (S k) (v + v') (e + e') (m + m').
Hypothesis rmul' : forall k l v e m v' e' m', rel k v e m -> rel l v' e' m' -> rel (S (k + l))%nat (v * v') (e * e') (m * m').
Hypothesis r_0 : forall k, rel k r0 r0 r0.
Hypothesis r_1 : forall k, rel k r1 r1 r1.
Hypothesis mul_0r : forall x : R, x * 0 = 0.
Hypothesis add_0l : forall x : R, 0 + x = x.
Hypothesis add_0r : forall x : R, x + 0 = x.
Hypothesis mul_1l : forall x : R, 1 * x = x.
Hypothesis mul_1r : forall x : R, x * 1 = x.
Hypothesis conj_id : forall x : R, conj x = x.
Notation ten := (tensor (car R)).

Lemma rel_sum n k (v : nat -> R) (e m : nat -> E) : (forall i, (i < n)%nat -> rel k (v i) (e i) (m i)) ->
  rel (k + (n - 1)) (bsum n v) (bsum n e) (bsum n m).
Proof.
  destruct n as [|n]; [intros _; apply r_0|]. intro H. replace (k + (S n - 1))%nat with (k + n)%nat by lia.
  induction n as [|n IH].
  - cbn [bsum]. rewrite add_0l. replace (0 + e 0%nat) with (e 0%nat) by ring. replace (0 + m 0%nat) with (m 0%nat) by ring.
    apply (rmono k); [lia|apply H; lia].
  - remember (S n) as n1. cbn [bsum]. subst n1. rewrite Nat.add_succ_r. apply radd'.
    + apply IH. intros i Hi. apply H. lia.
    + apply (rmono k); [lia|apply H; lia].
Qed.
Lemma trunc_raw n n' (v : nat -> R) : (n <= n')%nat -> (forall i, (n <= i)%nat -> (i < n')%nat -> v i = 0) -> bsum n' v = bsum n v.
Proof.
  intro H. induction n' as [|n' IH]; intro Hv.
  - now replace n with 0%nat by lia.
  - destruct (Nat.eq_dec n (S n')) as [->|]; [reflexivity|]. cbn [bsum]. rewrite Hv by lia. rewrite add_0r. apply IH; [lia|].
    intros i H1 H2. apply Hv; lia.
Qed.
Notation pw a n := (bprod n (fun _ => a)).
Lemma rel_pw w n (a : R) (e m : E) : (1 <= w)%nat -> rel (w - 1) a e m -> rel (n * w - 1) (pw a n) (rpow e n) (rpow m n).
Proof.
  intros Hw H. destruct n as [|n]; [apply r_1|]. induction n as [|n IH].
  - cbn [bprod rpow]. rewrite mul_1l. replace (e * 1) with e by ring. replace (m * 1) with m by ring.
    now replace (1 * w - 1)%nat with (w - 1)%nat by lia.
  - remember (S n) as n1. cbn [bprod]. rewrite !rpow_S_r. subst n1.
    replace (S (S n) * w - 1)%nat with (S ((S n * w - 1) + (w - 1))) by lia. now apply rmul'.
Qed.
Lemma rel_mul_pw w n k (x a : R) (ex mx e m : E) : (1 <= w)%nat -> rel k x ex mx -> rel (w - 1) a e m ->
  rel (k + n * w) (x * pw a n) (ex * rpow e n) (mx * rpow m n).
Proof.
  intros Hw Hx Ha. destruct n as [|n].
  - cbn [bprod rpow]. rewrite mul_1r. replace (ex * 1) with ex by ring. replace (mx * 1) with mx by ring.
    now replace (k + 0 * w)%nat with k by lia.
  - replace (k + S n * w)%nat with (S (k + (S n * w - 1))) by lia. apply rmul'; [assumption|]. now apply rel_pw.
Qed.

Lemma rel_lin w c (av : nat -> R) (ae am : nat -> E) hv he hm (xv : nat -> R) (xe xm : nat -> E) n : (1 <= w)%nat ->
  (forall k, (k < n)%nat -> rel (w - 1) (av k) (ae k) (am k)) -> rel c hv he hm ->
  (forall k, (k < n)%nat -> rel (c + 2 * w - 2) (xv k) (xe k) (xm k)) ->
  rel (c + 2 * w * n) (lin_rec av hv xv n) (lin_rec ae he xe n) (lin_rec am hm xm n).
Proof.
  intros Hw Ha Hh Hx. induction n as [|n IH].
  - cbn [lin_rec]. now replace (c + 2 * w * 0)%nat with c by lia.
  - cbn [lin_rec]. replace (c + 2 * w * S n)%nat with (S (c + 2 * w * S n - 1)) by lia.
    apply radd'.
    + apply (rmono (S ((w - 1) + (c + 2 * w * n)))%nat); [lia|]. apply rmul'; [apply Ha; lia|].
      apply IH; intros; [apply Ha|apply Hx]; lia.
    + apply (rmono (c + 2 * w - 2)%nat); [lia|apply Hx; lia].
Qed.

(** The outputs of a block, from its initial state. *)
Lemma rel_block bs w c0 c i (Lf : R) (Le Lm : E) (X : nat -> R) (Xe Xm : nat -> E) (a : R) (ae am : E) : (1 <= w)%nat -> (i < bs - 1)%nat ->
  rel (w - 1) a ae am -> rel (c0 + 2 * (bs * w) * c) Lf Le Lm ->
  (forall n, rel (c0 + 2 * w - 2) (X n) (Xe n) (Xm n)) ->
  rel (c0 + 2 * w * S (c * bs + i))
    (bsum bs (fun j => (if j =? 0 then Lf else X (c * bs + (j - 1))%nat) * (if j <=? S i then pw a (S i - j) else 0)))
    (rpow ae (S i) * Le + bsum (S i) (fun j => rpow ae (S i - 1 - j) * Xe (c * bs + j)%nat))
    (rpow am (S i) * Lm + bsum (S i) (fun j => rpow am (S i - 1 - j) * Xm (c * bs + j)%nat)).
Proof.
  intros Hw Hi Ha HL HX.
  assert (G : forall (g : E) (h : nat -> E), bsum (S (S i)) (fun j => if j =? 0 then g else h (j - 1)%nat) = g + bsum (S i) h).
  { intros g h. rewrite bsum_S_l. cbn [Nat.eqb]. f_equal. apply bsum_ext. intros j Hj. f_equal. lia. }
  rewrite <- (G (rpow ae (S i) * Le)), <- (G (rpow am (S i) * Lm)).
  rewrite (trunc_raw (S (S i)) bs) by (try lia; intros j H1 H2; bdec; apply mul_0r).
  apply (rmono ((c0 + 2 * (bs * w) * c + (2 * w * S i - S i)) + (S (S i) - 1))%nat); [nia|].
  apply rel_sum. intros j Hj. destruct j as [|j].
  - cbn [Nat.eqb Nat.leb]. replace (S i - 0)%nat with (S i) by lia.
    replace (rpow ae (S i) * Le) with (Le * rpow ae (S i)) by ring. replace (rpow am (S i) * Lm) with (Lm * rpow am (S i)) by ring.
    apply (rmono (c0 + 2 * (bs * w) * c + S i * w)%nat); [nia|]. now apply rel_mul_pw.
  - cbn [Nat.eqb]. bdec. replace (S j - 1)%nat with j by lia. replace (S i - 1 - j)%nat with (S i - S j)%nat by lia.
    assert (C : forall x y : E, x * y = y * x) by (intros; ring). rewrite (C (rpow ae _)), (C (rpow am _)).
    apply (rmono (c0 + 2 * w - 2 + (S i - S j) * w)%nat); [nia|]. apply rel_mul_pw; auto.
Qed.
(** The sum a block hands to the recursion over blocks. *)
Lemma rel_zsum bs w c0 (X : nat -> R) (Xe Xm : nat -> E) (a : R) (ae am : E) : (1 <= w)%nat -> (1 <= bs)%nat ->
  rel (w - 1) a ae am -> (forall n, rel (c0 + 2 * w - 2) (X n) (Xe n) (Xm n)) ->
  rel (c0 + 2 * (bs * w) - 2) (bsum bs (fun j => X j * pw a (bs - 1 - j)))
    (bsum bs (fun j => rpow ae (bs - 1 - j) * Xe j)) (bsum bs (fun j => rpow am (bs - 1 - j) * Xm j)).
Proof.
  intros Hw Hb Ha HX.
  apply (rmono ((c0 + 2 * w - 2 + (bs - 1) * w) + (bs - 1))%nat); [nia|].
  apply rel_sum. intros j Hj.
  assert (C : forall x y : E, x * y = y * x) by (intros; ring). rewrite (C (rpow ae _)), (C (rpow am _)).
  apply (rmono (c0 + 2 * w - 2 + (bs - 1 - j) * w)%nat); [nia|]. apply rel_mul_pw; auto.
Qed.

Lemma lr_fuel_rel fuel : forall B N (a init x : ten) af hf xf (ae am he hm : nat -> E) (xe xm : nat -> nat -> E) u w0 c0,
  (N < fuel)%nat -> (1 <= B)%nat -> (1 <= N)%nat -> (1 <= u)%nat -> (1 <= w0)%nat ->
  coef B a af -> coef B init hf -> is2 x B N xf ->
  (forall b, (b < B)%nat -> rel (w0 - 1) (af b) (ae b) (am b)) ->
  (forall b, (b < B)%nat -> rel c0 (hf b) (he b) (hm b)) ->
  (forall b n, (b < B)%nat -> (n < N)%nat -> rel (c0 + 2 * w0 - 2) (xf b n) (xe b n) (xm b n)) ->
  exists y yf, linear_recurrence_fuel fuel a init x u = Ok y /\ is2 y B N yf /\
    forall b n, (b < B)%nat -> (n < N)%nat -> rel (c0 + 2 * w0 * S n) (yf b n)
      (lin_rec (fun _ => ae b) (he b) (xe b) (S n)) (lin_rec (fun _ => am b) (hm b) (xm b) (S n)).
Proof.
  induction fuel as [|fuel IH]; intros B N a init x af hf xf ae am he hm xe xm u w0 c0 Hf HB HN Hu Hw Ha Hi Hx Ra Rh Rx; [lia|].
  cbn [linear_recurrence_fuel].
  assert (size x 0 = B) as -> by (unfold size; now rewrite (proj1 Hx)).
  assert (size x 1 = N) as -> by (unfold size; now rewrite (proj1 Hx)).
  rewrite (i2_rk _ _ _ _ Hx). cbn [Nat.eqb].
  destruct (coef_expand R B a af Ha) as (-> & -> & a' & na & ag & -> & Ha' & Hna & Hag). cbn [bind].
  destruct (coef_expand R B init hf Hi) as (-> & -> & i' & ni & ig & -> & Hi' & Hni & Hig). cbn [bind].
  bfalse (u <? 1)%nat. cbn [negb].
  destruct ((u =? 1) || (N <=? u))%bool eqn:Eb.
  { destruct (loop_ok R B N a' i' x na ni ag ig xf Ha' Hi' Hx Hna Hni HN) as (y & E0 & Hy).
    exists y. eexists. split; [exact E0|]. split; [exact Hy|]. intros b n Hb Hn. cbn beta.
    rewrite Hag, Hig by assumption. apply rel_lin; auto. intros k Hk. apply Rx; lia. }
  b2p. rename u into bs.
  (* padding to k blocks *)
  set (xp := if negb (N mod bs =? 0) then pad 1 0 (bs - N mod bs) r0 x else x).
  destruct (blocks N bs) as (k & Hk1 & Hk2 & Hk0 & HkN); [lia|lia|].
  assert (Hxp : isP1 xp [B] (k * bs) (fun q n => if n <? N then xf (nth 0 q 0%nat) n else 0)).
  { apply is2_P1 in Hx. unfold xp. destruct (N mod bs =? 0) eqn:Er; b2p; cbn [negb].
    - fin Hx; [lia|]. intros q n Hq Hn. bdec. reflexivity.
    - eassert (isP1 (pad 1 0 (bs - N mod bs) r0 x) _ _ _) as Hp by vsolve.
      fin Hp; [lia|]. intros q n Hq Hn. cbn [Nat.leb Nat.add andb]. now rewrite Nat.sub_0_r. }
  clearbody xp. set (X := fun b n => if n <? N then xf b n else 0).
  set (Xe := fun b n => if n <? N then xe b n else 0). set (Xm := fun b n => if n <? N then xm b n else 0).
  assert (RX : forall b n, (b < B)%nat -> rel (c0 + 2 * w0 - 2) (X b n) (Xe b n) (Xm b n)).
  { intros b n Hb. unfold X, Xe, Xm. destruct (n <? N)%nat eqn:En; b2p; [apply Rx; lia|apply r_0]. }
  rewrite (unflatten_m1_ok xp 1 bs k) by (try lia; unfold size; now rewrite (proj1 Hxp)).
  mstep. rename w into ux. rename H1 into Hux.
  (* the coefficient as a shared or per-batch row of bs copies *)
  assert (exists ax pa al,
    (if numel a' =? 1 then expand [bs] a' else expand [size a' 0; bs] (unsqueeze 1 a')) = Ok ax /\
    isP1 ax pa bs (fun q _ => al q) /\
    (pa = [] \/ pa = [B]) /\
    (forall b, (b < B)%nat -> al (match pa with [] => [] | _ => [b] end) = af b))
    as (ax & pa & al & -> & Hae & Hpa & Hal).
  { unfold numel. rewrite (proj1 Ha'). cbn [prod]. destruct (na =? 1) eqn:En; b2p.
    - subst na. destruct (expand_1 a' 1 bs ag Ha' ltac:(lia)) as (ax & -> & Hae).
      exists ax, [], (fun _ => ag 0%nat). split; [reflexivity|]. split.
      + apply is1_P in Hae. fin Hae; auto.
      + split; [auto|]. intros b Hb. rewrite <- Hag by assumption. reflexivity.
    - destruct Hna as [Hna|Hna]; [congruence|]. subst na.
      assert (size a' 0 = B) as -> by (unfold size; now rewrite (proj1 Ha')).
      assert (Hu2 : is2 (unsqueeze 1 a') B 1 (fun b _ => ag b)).
      { apply is2_P. pose proof Ha' as Ha2. apply is1_P in Ha2. eapply P1_unsq1 in Ha2; [exact Ha2|reflexivity]. }
      destruct (expand_2 _ B 1 B bs _ Hu2 ltac:(auto) ltac:(auto)) as (ax & -> & Hae).
      exists ax, [B], (fun q => ag (nth 0 q 0%nat)). split; [reflexivity|]. split.
      + apply is2_P1 in Hae. fin Hae; auto. intros q i Hq Hi0. apply vld_1_inv in Hq as (b & -> & Hb).
        cbn [nth]. now rewrite bi_lt.
      + split; [auto|]. intros b Hb. cbn [nth]. rewrite <- Hag by assumption. now rewrite (bi_lt B b). }
  cbn [bind]. nm (cumprod (rk ax - 1) ax). rename v into ap. rename H1 into Hap.
  rewrite (select_ok ap (rk ap - 1) (-1)%Z (bs - 1)).
  2: { unfold size. rewrite (proj1 Hap), (nth_pre _ _ _ 0) by dimt. cbn [nth]. apply pyidx_m1. lia. }
  cbn [bind].
  pose proof (P1_sel0 ap pa bs _ (rk ap - 1) (bs - 1) Hap ltac:(dimt) ltac:(lia)) as Hsel.
  cbv beta in Hsel. set (apd := sel (rk ap - 1) (bs - 1) ap) in *. clearbody apd.
  nm (slice (rk ap - 1) None (Some (-1)%Z) ap). nm (flip (rk v - 1) v).
  nm (pad (rk v0 - 1) 0 1 r1 v0). rename v1 into aI.
  (* a_powers_plus_I: a^(bs-1), ..., a, 1 *)
  assert (HaI : isP1 aI pa bs (fun q i => pw (al q) (bs - 1 - i))).
  { fin H3; [lia|]. intros q i Hq Hi0. cbn [Nat.leb andb]. destruct (i <? 0 + (bs - 1))%nat eqn:E0; b2p.
    - cbn beta. f_equal. lia.
    - replace (bs - 1 - i)%nat with 0%nat by lia. reflexivity. }
  assert (Hapd : isP0 apd pa (fun q => pw (al q) bs)).
  { fin Hsel. intros q Hq. cbn beta. f_equal. lia. }
  clear H1 H2 H3 v v0 Hsel Hap ap Hae ax.
  (* block sums *)
  assert (exists z, (if rk aI =? 1 then matmul ux aI else vecdot (tconj ux) (unsqueeze 1 aI)) = Ok z /\
    is2 z B k (fun b c => bsum bs (fun j => X b (c * bs + j)%nat * pw (af b) (bs - 1 - j))))
    as (z & -> & Hz).
  { rkt. destruct Hpa as [->| ->]; cbn [length Nat.add Nat.eqb].
    - apply P1_nil in HaI. mm. eexists; split; [reflexivity|]. apply is2_P1. fin H1; auto.
      intros q c Hq Hc. apply vld_1_inv in Hq as (b & -> & Hb). cbn [nth] in *.
      apply bsum_ext. intros j Hj. rewrite <- (Hal b Hb). reflexivity.
    - nm (tconj ux). nm (unsqueeze 1 aI). vdot. eexists; split; [reflexivity|]. apply is2_P1. fin H3; auto.
      intros q c Hq Hc. apply vld_1_inv in Hq as (b & -> & Hb). cbn [nth] in *.
      apply bsum_ext. intros j Hj. rewrite !conj_id. rewrite <- (Hal b Hb). unfold X, bi.
      destruct (k =? 1)%nat eqn:E0; b2p; [replace c with 0%nat by lia|]; cbn [Nat.mul Nat.add]; reflexivity. }
  cbn [bind].
  (* initial state of every block *)
  assert (Hiu : is2 (unsqueeze 1 i') ni 1 (fun b _ => ig b)).
  { apply is2_P. pose proof Hi' as Hi2. apply is1_P in Hi2. eapply P1_unsq1 in Hi2; [exact Hi2|reflexivity]. }
  destruct (expand_2 _ ni 1 B 1 _ Hiu ltac:(lia) ltac:(lia)) as (i0 & -> & Hi0). cbn [bind].
  destruct (IH B k apd i' z (fun b => pw (af b) bs) hf
              (fun b c => bsum bs (fun j => X b (c * bs + j)%nat * pw (af b) (bs - 1 - j)))
              (fun b => rpow (ae b) bs) (fun b => rpow (am b) bs) he hm
              (fun b c => bsum bs (fun j => rpow (ae b) (bs - 1 - j) * Xe b (c * bs + j)%nat))
              (fun b c => bsum bs (fun j => rpow (am b) (bs - 1 - j) * Xm b (c * bs + j)%nat)) bs (bs * w0)%nat c0)
    as (rest & rf & -> & Hrest & Rrest); try lia; auto.
  { destruct Hpa as [->| ->].
    - apply coef_0 with (v := pw (al []) bs).
      + apply is0_P0. fin Hapd. intros q Hq. now apply vld_nil_inv in Hq as ->.
      + intros b Hb. now rewrite <- (Hal b Hb).
    - apply coef_B. apply is1_P0. fin Hapd. intros q Hq. apply vld_1_inv in Hq as (b & -> & Hb).
      cbn [nth]. now rewrite <- (Hal b Hb). }
  { destruct Hni as [->| ->].
    - apply coef_1 with (g := ig); [assumption|]. intros b Hb. now rewrite <- Hig.
    - apply coef_B. eapply is1_ext; [exact Hi'|]. intros b Hb. rewrite <- Hig by assumption. now rewrite bi_lt. }
  { intros b Hb. now apply rel_pw; auto. }
  { intros b c Hb Hc. apply (rel_zsum bs w0 c0 (fun j => X b (c * bs + j)%nat)); auto; lia. }
  cbn [bind].
  set (Le := fun b n => lin_rec (fun _ => ae b) (he b) (Xe b) n).
  set (Lm := fun b n => lin_rec (fun _ => am b) (hm b) (Xm b) n).
  apply is2_P1 in Hi0, Hrest.
  cat2. rename w into ini.
  set (L := fun b c => if (c =? 0)%nat then hf b else rf b (c - 1)%nat).
  assert (Hini : isP1 ini [B] (S k) (fun q c => L (nth 0 q 0%nat) c)).
  { fin H1; auto. intros q c Hq Hc. apply vld_1_inv in Hq as (b & -> & Hb). cbn [nth]. unfold L.
    destruct (c <? 1)%nat eqn:E0; b2p; bdec; [now apply Hig|reflexivity]. }
  assert (RL : forall b c, (b < B)%nat -> (c < S k)%nat -> rel (c0 + 2 * (bs * w0) * c) (L b c) (Le b (c * bs)%nat) (Lm b (c * bs)%nat)).
  { intros b c Hb Hc. unfold L. destruct c as [|c].
    - unfold Le, Lm. rewrite Nat.mul_0_r, Nat.add_0_r. cbn [Nat.eqb Nat.mul lin_rec]. auto.
    - cbn [Nat.eqb]. replace (S c - 1)%nat with c by lia. specialize (Rrest b c Hb ltac:(lia)).
      assert (G : forall (a h : E) (x : nat -> E) m, lin_rec (fun _ => rpow a bs) h (fun c => bsum bs (fun j => rpow a (bs - 1 - j) * x (c * bs + j)%nat)) m
                = lin_rec (fun _ => a) h x (m * bs)).
      { clear. intros a h x m. induction m as [|m IHm]; [reflexivity|]. cbn [lin_rec]. rewrite IHm.
        replace (S m * bs)%nat with (m * bs + bs)%nat by lia. rewrite lin_rec_closed. reflexivity. }
      rewrite !G in Rrest. exact Rrest. }
  clear H1 Hrest Hi0 Hz z rest i0 Hiu.
  nm (slice 1 None (Some (-1)%Z) ini). nm (slice 2 None (Some (-1)%Z) ux).
  nm (unsqueeze 2 v). cat2. rename w into augx.
  nm (pad (rk aI - 1) 0 (bs - 2) r0 aI). unfold1. nm (flip (rk w - 2) w). nm (mT v3).
  assert (Hax : isP2 augx [B] k bs (fun q c j =>
     if j =? 0 then L (nth 0 q 0%nat) c else X (nth 0 q 0%nat) (c * bs + (j - 1))%nat)).
  { fin H4; [reflexivity|lia|]. intros q c j Hq Hc Hj. cbn [Nat.add].
    destruct (j <? 1)%nat eqn:E0; b2p; bdec; reflexivity. }
  assert (Hv4 : isP2 v4 pa bs (bs - 1) (fun q j i =>
     if j <=? S i then pw (al q) (S i - j) else 0)).
  { fin H8; [lia|lia|]. intros q j i Hq Hj Hi1. cbn [Nat.leb andb]. 
    match goal with |- context [if (?a <? ?b)%nat then _ else _] => destruct (a <? b)%nat eqn:E0 end; b2p; bdec;
    [f_equal; lia|reflexivity]. }
  clear H1 H2 H3 H4 H5 H6 H7 H8.
  set (of := fun b c i => bsum bs (fun j => (if j =? 0 then L b c else X b (c * bs + (j - 1))%nat) *
                        (if j <=? S i then pw (af b) (S i - j) else 0))).
  assert (exists o, matmul augx v4 = Ok o /\ isP2 o [B] k (bs - 1) (fun q c i => of (nth 0 q 0%nat) c i)) as (o & -> & Ho).
  { destruct Hpa as [->| ->]; mm; (eexists; split; [reflexivity|]); fin H1; auto;
      intros q c i Hq Hc Hi1; apply vld_1_inv in Hq as (b & -> & Hb); cbn [nth] in *; unfold of;
      apply bsum_ext; intros j Hj; rewrite <- (Hal b Hb); reflexivity. }
  cbn [bind]. clear Hax Hv4 augx v4.
  nm (slice 1 (Some 1%Z) None ini). nm (unsqueeze 2 v4). cat2. nm (flatten 1 2 w1).
  set (yf := fun b n => if (n mod bs <? bs - 1)%nat then of b (n / bs)%nat (n mod bs) else L b (S (n / bs))).
  assert (Hout : isP1 v6 [B] (k * bs) (fun q n => yf (nth 0 q 0%nat) n)).
  { fin H4; [nia|]. intros q n Hq Hn. replace (bs - 1 + 1)%nat with bs by lia. unfold yf.
    destruct (n mod bs <? bs - 1)%nat eqn:E0; reflexivity. }
  clear H1 H2 H3 H4.
  assert (HL : forall b n, (b < B)%nat -> (n < N)%nat -> rel (c0 + 2 * w0 * S n) (yf b n)
      (lin_rec (fun _ => ae b) (he b) (xe b) (S n)) (lin_rec (fun _ => am b) (hm b) (xm b) (S n))).
  { intros b n Hb Hn.
    pose proof (Nat.div_mod n bs ltac:(lia)) as Edm. pose proof (Nat.mod_upper_bound n bs ltac:(lia)).
    replace (lin_rec (fun _ => ae b) (he b) (xe b) (S n)) with (Le b (S n))
      by (apply lin_rec_ext; auto; intros j Hj; unfold Xe; bdec; reflexivity).
    replace (lin_rec (fun _ => am b) (hm b) (xm b) (S n)) with (Lm b (S n))
      by (apply lin_rec_ext; auto; intros j Hj; unfold Xm; bdec; reflexivity).
    assert (n < k * bs)%nat by (destruct (Nat.eq_dec (N mod bs) 0); lia).
    assert (n / bs < k)%nat by (apply Nat.div_lt_upper_bound; lia).
    unfold yf. destruct (n mod bs <? bs - 1)%nat eqn:E0; b2p.
    - unfold of. replace (S n) with (S (n / bs * bs + n mod bs))%nat by lia.
      assert (G : forall (a h : E) (x : nat -> E) c i, lin_rec (fun _ => a) h x (S (c * bs + i)) =
                 rpow a (S i) * lin_rec (fun _ => a) h x (c * bs) + bsum (S i) (fun j => rpow a (S i - 1 - j) * x (c * bs + j)%nat)).
      { clear. intros a h x c i. rewrite <- lin_rec_closed. f_equal. lia. }
      unfold Le, Lm. rewrite !G. apply rel_block; auto. apply RL; lia.
    - replace (S n) with (S (n / bs) * bs)%nat by lia. apply (rmono (c0 + 2 * (bs * w0) * S (n / bs))%nat); [nia|].
      apply RL; lia. }
  destruct (N mod bs =? 0)%nat eqn:Er; b2p; cbn [negb].
  - eexists; exists yf. split; [reflexivity|]. split; [|exact HL]. apply is2_P1. fin Hout; [lia|]. reflexivity.
  - nm (slice 1 None (Some (- Z.of_nat (bs - N mod bs))%Z) v6).
    eexists; exists yf. split; [reflexivity|]. split; [|exact HL]. apply is2_P1. fin H1; [specialize (Hk2 Er); pose proof (Nat.mod_upper_bound N bs ltac:(lia)); rewrite pyb_neg by lia; lia|]. reflexivity.
Qed.

(** ** The time-varying recursion *)
Lemma rel_alin w c (av : nat -> R) (ae am : nat -> E) hv he hm (xv : nat -> R) (xe xm : nat -> E) n : (1 <= w)%nat ->
  (forall k, (k < n)%nat -> rel (w - 1) (av k) (ae k) (am k)) -> rel c hv he hm ->
  (forall k, (k < n)%nat -> rel (c + 2 * w - 2) (xv k) (xe k) (xm k)) ->
  rel (c + 2 * w * n) (alin av hv xv n) (lin_rec ae he xe n) (lin_rec am hm xm n).
Proof.
  intros Hw Ha Hh Hx. induction n as [|n IH].
  - cbn [lin_rec alin]. now replace (c + 2 * w * 0)%nat with c by lia.
  - cbn [lin_rec alin]. replace (c + 2 * w * S n)%nat with (S (c + 2 * w * S n - 1)) by lia.
    assert (C : forall x y z : E, x * y + z = z + y * x) by (intros; ring). rewrite !C. apply radd'.
    + apply (rmono (c + 2 * w - 2)%nat); [lia|apply Hx; lia].
    + apply (rmono (S ((c + 2 * w * n) + (w - 1)))%nat); [lia|]. apply rmul'; [|apply Ha; lia].
      apply IH; intros; [apply Ha|apply Hx]; lia.
Qed.
Lemma rel_prodv w n (a : nat -> R) (e m : nat -> E) : (1 <= w)%nat -> (forall t, rel (w - 1) (a t) (e t) (m t)) ->
  rel (n * w - 1) (bprod n a) (bprod n e) (bprod n m).
Proof.
  intros Hw H. destruct n as [|n]; [apply r_1|]. induction n as [|n IH].
  - cbn [bprod]. rewrite mul_1l. replace (1 * e 0%nat) with (e 0%nat) by ring. replace (1 * m 0%nat) with (m 0%nat) by ring.
    now replace (1 * w - 1)%nat with (w - 1)%nat by lia.
  - remember (S n) as n1. cbn [bprod]. subst n1.
    replace (S (S n) * w - 1)%nat with (S ((S n * w - 1) + (w - 1))) by lia. now apply rmul'.
Qed.
Lemma rel_zsumv bs w c0 (X : nat -> R) (Xe Xm : nat -> E) (a : nat -> R) (ae am : nat -> E) : (1 <= w)%nat -> (1 <= bs)%nat ->
  (forall t, rel (w - 1) (a t) (ae t) (am t)) -> (forall n, rel (c0 + 2 * w - 2) (X n) (Xe n) (Xm n)) ->
  rel (c0 + 2 * (bs * w) - 2) (bsum bs (fun j => X j * bprod (bs - 1 - j) a))
    (bsum bs (fun j => bprod (bs - 1 - j) ae * Xe j)) (bsum bs (fun j => bprod (bs - 1 - j) am * Xm j)).
Proof.
  intros Hw Hb Ha HX.
  apply (rmono ((c0 + 2 * w - 2 + (bs - 1) * w) + (bs - 1))%nat); [nia|].
  apply rel_sum. intros j Hj.
  assert (C : forall x y : E, x * y = y * x) by (intros; ring). rewrite (C (bprod _ ae)), (C (bprod _ am)).
  destruct (bs - 1 - j)%nat as [|n] eqn:En.
  - cbn [bprod]. rewrite mul_1r. replace (Xe j * 1) with (Xe j) by ring. replace (Xm j * 1) with (Xm j) by ring.
    apply (rmono (c0 + 2 * w - 2)%nat); [nia|auto].
  - apply (rmono (S ((c0 + 2 * w - 2) + (S n * w - 1)))%nat); [nia|]. apply rmul'; [auto|]. now apply rel_prodv.
Qed.

Lemma lpv_lr_fuel_rel fuel : forall B N (a init x : ten) af hf xf (ae am : nat -> nat -> E) (he hm : nat -> E) (xe xm : nat -> nat -> E) u w0 c0,
  (N < fuel)%nat -> (1 <= B)%nat -> (1 <= N)%nat -> (1 <= u)%nat -> (1 <= w0)%nat ->
  coefv B N a af -> coef B init hf -> is2 x B N xf ->
  (forall b n, (b < B)%nat -> (n < N)%nat -> rel (w0 - 1) (af b n) (ae b n) (am b n)) ->
  (forall b, (b < B)%nat -> rel c0 (hf b) (he b) (hm b)) ->
  (forall b n, (b < B)%nat -> (n < N)%nat -> rel (c0 + 2 * w0 - 2) (xf b n) (xe b n) (xm b n)) ->
  exists y yf, lpv_linear_recurrence_fuel fuel a init x u = Ok y /\ is2 y B N yf /\
    forall b n, (b < B)%nat -> (n < N)%nat -> rel (c0 + 2 * w0 * S n) (yf b n)
      (lin_rec (ae b) (he b) (xe b) (S n)) (lin_rec (am b) (hm b) (xm b) (S n)).
Proof.
  induction fuel as [|fuel IH]; intros B N a init x af hf xf ae am he hm xe xm u w0 c0 Hf HB HN Hu Hw Ha Hi Hx Ra Rh Rx; [lia|].
  cbn [lpv_linear_recurrence_fuel].
  assert (size x 0 = B) as -> by (unfold size; now rewrite (proj1 Hx)).
  assert (size x 1 = N) as -> by (unfold size; now rewrite (proj1 Hx)).
  rewrite (i2_rk _ _ _ _ Hx). cbn [Nat.eqb].
  assert (((rk a =? 1) || (rk a =? 2))%bool = true /\ negb ((rk a =? 1) && negb (size a 0 =? N)) = true) as (-> & ->).
  { destruct Ha as [g Ha _|Ha]; unfold rk, size; rewrite (proj1 Ha); cbn; rewrite ?Nat.eqb_refl; auto. }
  destruct (coef_expand R B init hf Hi) as (-> & -> & i' & ni & ig & -> & Hi' & Hni & Hig). cbn [bind].
  bfalse (u <? 1)%nat. cbn [negb].
  destruct ((u =? 1) || (N <=? u))%bool eqn:Eb.
  { destruct (lpv_loop2_raw R B N a i' x ni af ig xf Ha Hi' Hx Hni HN) as (y & E0 & Hy).
    exists y. eexists. split; [exact E0|]. split; [exact Hy|]. intros b n Hb Hn. cbn beta.
    rewrite Hig by assumption. apply rel_alin; auto; intros k Hk; [apply Ra|apply Rx]; lia. }
  b2p. rename u into bs.
  destruct (blocks N bs) as (k & Hk1 & Hk2 & Hk0 & HkN); [lia|lia|].
  set (xp := if negb (N mod bs =? 0) then pad 1 0 (bs - N mod bs) r0 x else x).
  assert (Hxp : isP1 xp [B] (k * bs) (fun q n => if n <? N then xf (nth 0 q 0%nat) n else 0)).
  { apply is2_P1 in Hx. unfold xp. destruct (N mod bs =? 0) eqn:Er; b2p; cbn [negb].
    - fin Hx; [lia|]. intros q n Hq Hn. bdec. reflexivity.
    - eassert (isP1 (pad 1 0 (bs - N mod bs) r0 x) _ _ _) as Hp by vsolve.
      fin Hp; [lia|]. intros q n Hq Hn. cbn [Nat.leb Nat.add andb]. now rewrite Nat.sub_0_r. }
  clearbody xp. set (X := fun b n => if n <? N then xf b n else 0).
  set (Xe := fun b n => if n <? N then xe b n else 0). set (Xm := fun b n => if n <? N then xm b n else 0).
  assert (RX : forall b n, (b < B)%nat -> rel (c0 + 2 * w0 - 2) (X b n) (Xe b n) (Xm b n)).
  { intros b n Hb. unfold X, Xe, Xm. destruct (n <? N)%nat eqn:En; b2p; [apply Rx; lia|apply r_0]. }
  assert (exists pa al, isP1 a pa N al /\ (pa = [] \/ pa = [B]) /\
     forall b n, (b < B)%nat -> (n < N)%nat -> al (match pa with [] => [] | _ => [b] end) n = af b n)
    as (pa & al & Ha1 & Hpa & Hal).
  { destruct Ha as [g Ha Hg|Ha].
    - exists [], (fun _ => g). split; [now apply is1_P|]. split; [auto|]. intros. symmetry. now apply Hg.
    - exists [B], (fun q => af (nth 0 q 0%nat)). split; [now apply is2_P1|]. auto. }
  set (ap := if negb (N mod bs =? 0) then pad (rk a - 1) 0 (bs - N mod bs) r0 a else a).
  assert (Hap : isP1 ap pa (k * bs) (fun q n => if n <? N then al q n else 0)).
  { unfold ap. destruct (N mod bs =? 0) eqn:Er; b2p; cbn [negb].
    - fin Ha1; [lia|]. intros q n Hq Hn. bdec. reflexivity.
    - eassert (isP1 (pad (rk a - 1) 0 (bs - N mod bs) r0 a) _ _ _) as Hp by vsolve.
      fin Hp; [lia|]. intros q n Hq Hn. cbn [Nat.leb Nat.add andb]. now rewrite Nat.sub_0_r. }
  clearbody ap. set (AL := fun q n => if n <? N then al q n else 0) in Hap.
  change (isP1 ap pa (k * bs) AL) in Hap.
  set (AF := fun b n => AL (match pa with [] => [] | _ => [b] end) n).
  set (Ae := fun b n => if n <? N then ae b n else 0). set (Am := fun b n => if n <? N then am b n else 0).
  assert (RA : forall b n, (b < B)%nat -> rel (w0 - 1) (AF b n) (Ae b n) (Am b n)).
  { intros b n Hb. unfold AF, AL, Ae, Am. destruct (n <? N)%nat eqn:En; b2p; [rewrite Hal by lia; apply Ra; lia|apply r_0]. }
  rewrite (unflatten_m1_ok xp 1 bs k) by (try lia; unfold size; now rewrite (proj1 Hxp)).
  mstep. rename w into ux. rename H1 into Hux.
  rewrite (unflatten_m1_ok ap (rk ap - 1) bs k).
  2: lia. 2: { unfold size, rk. rewrite (proj1 Hap). destruct Hpa as [->| ->]; reflexivity. }
  mstep. rename w into ua. rename H1 into Hua. cbv zeta.
  nm (slice (rk ua - 1) (Some 1%Z) None ua). nm (flip (rk v - 1) v). nm (cumprod (rk v0 - 1) v0).
  nm (flip (rk v1 - 1) v1).
  assert (Hv2 : isP2 v2 pa k (bs - 1) (fun q c i => bprod (bs - 1 - i) (fun t => AL q (c * bs + (bs - 1 - t))%nat))).
  { fin H4; [reflexivity|lia|]. intros q c i Hq Hc Hi0. 
    match goal with |- bprod ?m _ = bprod ?m' _ => replace m with m' by lia end.
    apply bprod_ext. intros t Ht. f_equal. lia. }
  clear H1 H2 H3 H4 v v0 v1.
  rewrite (select_ok v2 (rk v2 - 1) 0%Z 0) by (unfold size, rk; rewrite (proj1 Hv2); destruct Hpa as [->| ->]; cbn [app nth length Nat.add Nat.sub]; apply (pyidx_nat _ 0); lia).
  cbn [bind].
  rewrite (select_ok ua (rk ua - 1) 0%Z 0) by (unfold size, rk; rewrite (proj1 Hua); destruct Hpa as [->| ->]; cbn [app nth length Nat.add Nat.sub]; apply (pyidx_nat _ 0); lia).
  cbn [bind].
  pose proof (P2_sel1 v2 pa k _ _ (rk v2 - 1) 0 Hv2 ltac:(dimt) ltac:(lia)) as Hs1. cbv beta in Hs1.
  pose proof (P2_sel1 ua pa k _ _ (rk ua - 1) 0 Hua ltac:(dimt) ltac:(lia)) as Hs2. cbv beta in Hs2.
  unfold tmul. destruct (P1_ew_same rmul _ _ pa k _ _ Hs1 Hs2) as (apd & -> & Hapd). cbn [bind].
  assert (Hapd' : isP1 apd pa k (fun q c => bprod bs (fun t => AL q (c * bs + (bs - 1 - t))%nat))).
  { fin Hapd; auto. intros q c Hq Hc. rewrite Nat.sub_0_r. 
    transitivity (bprod (S (bs - 1)) (fun t => AL q (c * bs + (bs - 1 - t))%nat)); [|f_equal; lia].
    cbn [bprod]. rewrite Nat.sub_diag. reflexivity. }
  clear Hapd Hs1 Hs2.
  nm (pad (rk v2 - 1) 0 1 r1 v2). rename v into aI.
  assert (HaI : isP2 aI pa k bs (fun q c i => bprod (bs - 1 - i) (fun t => AL q (c * bs + (bs - 1 - t))%nat))).
  { fin H1; [reflexivity|lia|]. intros q c i Hq Hc Hi0. cbn [Nat.leb andb].
    destruct (i <? 0 + (bs - 1))%nat eqn:E0; b2p; [now rewrite Nat.sub_0_r|].
    replace (bs - 1 - i)%nat with 0%nat by lia. reflexivity. }
  clear H1 Hv2 v2.
  nm (tconj ux). rename v into cx.
  assert (exists z, vecdot cx aI = Ok z /\
    is2 z B k (fun b c => bsum bs (fun j => X b (c * bs + j)%nat * bprod (bs - 1 - j) (fun t => AF b (c * bs + (bs - 1 - t))%nat))))
    as (z & -> & Hz).
  { clear Hux. destruct Hpa as [->| ->].
    - vdot. eexists; split; [reflexivity|]. apply is2_P1. fin H2; auto.
      intros q c Hq Hc. apply vld_1_inv in Hq as (b & -> & Hb). cbn [nth] in *.
      apply bsum_ext. intros j Hj. rewrite !conj_id, !bi_lt by assumption. unfold X, AF. reflexivity.
    - vdot. eexists; split; [reflexivity|]. apply is2_P1. fin H2; auto.
      intros q c Hq Hc. apply vld_1_inv in Hq as (b & -> & Hb). cbn [nth] in *.
      apply bsum_ext. intros j Hj. rewrite !conj_id, !bi_lt by assumption. unfold X, AF. reflexivity. }
  cbn [bind].
  assert (Hiu : is2 (unsqueeze 1 i') ni 1 (fun b _ => ig b)).
  { apply is2_P. pose proof Hi' as Hi2. apply is1_P in Hi2. eapply P1_unsq1 in Hi2; [exact Hi2|reflexivity]. }
  destruct (expand_2 _ ni 1 B 1 _ Hiu ltac:(lia) ltac:(lia)) as (i0 & -> & Hi0). cbn [bind].
  destruct (IH B k apd i' z (fun b c => bprod bs (fun t => AF b (c * bs + (bs - 1 - t))%nat)) hf
              (fun b c => bsum bs (fun j => X b (c * bs + j)%nat * bprod (bs - 1 - j) (fun t => AF b (c * bs + (bs - 1 - t))%nat)))
              (fun b c => bprod bs (fun t => Ae b (c * bs + (bs - 1 - t))%nat)) (fun b c => bprod bs (fun t => Am b (c * bs + (bs - 1 - t))%nat)) he hm
              (fun b c => bsum bs (fun j => bprod (bs - 1 - j) (fun t => Ae b (c * bs + (bs - 1 - t))%nat) * Xe b (c * bs + j)%nat))
              (fun b c => bsum bs (fun j => bprod (bs - 1 - j) (fun t => Am b (c * bs + (bs - 1 - t))%nat) * Xm b (c * bs + j)%nat)) bs (bs * w0)%nat c0)
    as (rest & rf & -> & Hrest & Rrest); try lia; auto.
  { destruct Hpa as [->| ->].
    - apply coefv_s with (g := fun c => bprod bs (fun t => AL [] (c * bs + (bs - 1 - t))%nat)); [|reflexivity].
      apply is1_P. fin Hapd'; auto. intros q c Hq Hc. now apply vld_nil_inv in Hq as ->.
    - apply coefv_b. apply is2_P1. fin Hapd'; auto. intros q c Hq Hc. apply vld_1_inv in Hq as (b & -> & Hb). reflexivity. }
  { destruct Hni as [->| ->].
    - apply coef_1 with (g := ig); [assumption|]. intros b Hb. now rewrite <- Hig.
    - apply coef_B. eapply is1_ext; [exact Hi'|]. intros b Hb. rewrite <- Hig by assumption. now rewrite bi_lt. }
  { intros b c Hb Hc. apply rel_prodv; auto. }
  { intros b c Hb Hc. apply (rel_zsumv bs w0 c0 (fun j => X b (c * bs + j)%nat)); auto; lia. }
  cbn [bind].
  set (Le := fun b n => lin_rec (Ae b) (he b) (Xe b) n).
  set (Lm := fun b n => lin_rec (Am b) (hm b) (Xm b) n).
  apply is2_P1 in Hi0, Hrest.
  cat2. rename w into ini.
  set (L := fun b c => if (c =? 0)%nat then hf b else rf b (c - 1)%nat).
  assert (Hini : isP1 ini [B] (S k) (fun q c => L (nth 0 q 0%nat) c)).
  { fin H2; auto. intros q c Hq Hc. apply vld_1_inv in Hq as (b & -> & Hb). cbn [nth]. unfold L.
    destruct (c <? 1)%nat eqn:E0; b2p; bdec; [now apply Hig|reflexivity]. }
  assert (RL : forall b c, (b < B)%nat -> (c < S k)%nat -> rel (c0 + 2 * (bs * w0) * c) (L b c) (Le b (c * bs)%nat) (Lm b (c * bs)%nat)).
  { intros b c Hb Hc. unfold L. destruct c as [|c].
    - unfold Le, Lm. rewrite Nat.mul_0_r, Nat.add_0_r. cbn [Nat.eqb Nat.mul lin_rec]. auto.
    - cbn [Nat.eqb]. replace (S c - 1)%nat with c by lia. specialize (Rrest b c Hb ltac:(lia)).
      assert (G : forall (a : nat -> E) h (x : nat -> E) m,
                lin_rec (fun c => bprod bs (fun t => a (c * bs + (bs - 1 - t))%nat)) h
                  (fun c => bsum bs (fun j => bprod (bs - 1 - j) (fun t => a (c * bs + (bs - 1 - t))%nat) * x (c * bs + j)%nat)) m
                = lin_rec a h x (m * bs)).
      { clear. intros a h x m. induction m as [|m IHm]; [reflexivity|]. cbn [lin_rec]. rewrite IHm.
        replace (S m * bs)%nat with (m * bs + bs)%nat by lia. rewrite lin_rec_tv.
        f_equal; [f_equal|]; [|apply bsum_ext; intros j Hj; f_equal]; apply bprod_ext; intros t Ht; f_equal; lia. }
      rewrite !G in Rrest. exact Rrest. }
  clear H1 H2 Hrest Hi0 Hz z rest i0 Hiu HaI aI Hapd' apd.
  nm (slice (rk ua - 1) None (Some (-1)%Z) ua). rename v into ua'.
  nm (slice 1 None (Some (-1)%Z) ini). nm (slice 2 None (Some (-1)%Z) ux).
  destruct (lpv_loop3_raw R pa B k (bs - 1) ua' v v0 (fun q c i => AL q (c * bs + i)%nat)
     L (fun b c i => X b (c * bs + i)%nat)) as (o & -> & Ho).
  { fin H1; [lia|lia|]. intros q c i Hq Hc Hi0. first [reflexivity | f_equal; lia]. }
  { exact Hpa. }
  { apply is2_P1. fin H2; [lia|]. reflexivity. }
  { apply is3_P2. fin H3; [lia|lia|]. intros q c i Hq Hc Hi0. unfold X; reflexivity. }
  { lia. }
  cbn [bind]. apply is3_P2 in Ho.
  clear H1 H2 H3.
  nm (slice 1 (Some 1%Z) None ini). nm (unsqueeze 2 v1). cat2. nm (flatten 1 2 w).
  set (yf := fun b n => if (n mod bs <? bs - 1)%nat then alin (fun i => AF b (n / bs * bs + i)%nat) (L b (n / bs)%nat) (fun i => X b (n / bs * bs + i)%nat) (S (n mod bs))
                        else L b (S (n / bs))).
  assert (Hout : isP1 v3 [B] (k * bs) (fun q n => yf (nth 0 q 0%nat) n)).
  { fin H4; [nia|]. intros q n Hq Hn. replace (bs - 1 + 1)%nat with bs by lia. unfold yf, AF.
    destruct (n mod bs <? bs - 1)%nat eqn:E0; reflexivity. }
  clear H1 H2 H3 H4.
  assert (HL : forall b n, (b < B)%nat -> (n < N)%nat -> rel (c0 + 2 * w0 * S n) (yf b n)
      (lin_rec (ae b) (he b) (xe b) (S n)) (lin_rec (am b) (hm b) (xm b) (S n))).
  { intros b n Hb Hn.
    pose proof (Nat.div_mod n bs ltac:(lia)) as Edm. pose proof (Nat.mod_upper_bound n bs ltac:(lia)).
    replace (lin_rec (ae b) (he b) (xe b) (S n)) with (Le b (S n))
      by (apply lin_rec_ext; auto; intros j Hj; unfold Xe, Ae; bdec; reflexivity).
    replace (lin_rec (am b) (hm b) (xm b) (S n)) with (Lm b (S n))
      by (apply lin_rec_ext; auto; intros j Hj; unfold Xm, Am; bdec; reflexivity).
    assert (n < k * bs)%nat by (destruct (Nat.eq_dec (N mod bs) 0); lia).
    assert (n / bs < k)%nat by (apply Nat.div_lt_upper_bound; lia).
    unfold yf. destruct (n mod bs <? bs - 1)%nat eqn:E0; b2p.
    - replace (S n) with (n / bs * bs + S (n mod bs))%nat by lia.
      assert (G : forall (a : nat -> E) h (x : nat -> E) c i, lin_rec a h x (c * bs + i) =
                 lin_rec (fun t => a (c * bs + t)%nat) (lin_rec a h x (c * bs)) (fun t => x (c * bs + t)%nat) i).
      { clear. intros a h x c i. induction i as [|i IHi]; [now rewrite Nat.add_0_r|]. rewrite Nat.add_succ_r. cbn [lin_rec]. now rewrite IHi. }
      unfold Le, Lm. rewrite !G.
      apply (rmono ((c0 + 2 * (bs * w0) * (n / bs)) + 2 * w0 * S (n mod bs))%nat); [nia|].
      apply rel_alin; auto.
      + apply RL; lia.
      + intros t Ht. apply (rmono (c0 + 2 * w0 - 2)%nat); [nia|]. auto.
    - replace (S n) with (S (n / bs) * bs)%nat by lia. apply (rmono (c0 + 2 * (bs * w0) * S (n / bs))%nat); [nia|].
      apply RL; lia. }
  destruct (N mod bs =? 0)%nat eqn:Er; b2p; cbn [negb].
  - eexists; exists yf. split; [reflexivity|]. split; [|exact HL]. apply is2_P1. fin Hout; [lia|]. reflexivity.
  - nm (slice 1 None (Some (- Z.of_nat (bs - N mod bs))%Z) v3).
    eexists; exists yf. split; [reflexivity|]. split; [|exact HL]. apply is2_P1. fin H1; [specialize (Hk2 Er); pose proof (Nat.mod_upper_bound N bs ltac:(lia)); rewrite pyb_neg by lia; lia|]. reflexivity.
Qed.
End Rel.
