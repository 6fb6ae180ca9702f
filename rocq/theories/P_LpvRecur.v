(** lpv.linear_recurrence computes the time-varying scalar recurrence. *)
From Coq Require Import List Arith Lia ZArith Bool Ring.
From Verif Require Import Scalar Tensor TensorLemmas TensorOps TensorAlg TensorTac TensorList
  Spec Shapes Algebra M_LpvRecur P_LtiRecur.
Import ListNotations.

(** ** Over any operations *)
Section Raw.
Variable R : cops.
Notation ten := (tensor (car R)).
Open Scope cr_scope.

(** The recursion with the operands in the order of torch.addcmul(x, h, a). *)
Fixpoint alin (a : nat -> R) (h : R) (x : nat -> R) (n : nat) : R :=
  match n with O => h | S n => x n + alin a h x n * a n end.

Lemma nth_error_combine {X Y} (l : list X) (l' : list Y) k p :
  nth_error (combine l l') k = Some p -> nth_error l k = Some (fst p) /\ nth_error l' k = Some (snd p).
Proof.
  revert l' k. induction l as [|x l IH]; intros [|y l'] [|k] H; try discriminate.
  - now injection H as <-.
  - exact (IH l' k H).
Qed.

(** The loop on (batch, time) signals. *)
Lemma lpv_loop2_raw B N (a init x : ten) ni af hf xf :
  coefv B N a af -> is1 init ni hf -> is2 x B N xf -> ni = 1%nat \/ ni = B -> (1 <= N)%nat ->
  exists y, lpv_scalar_loop a init x = Ok y /\
    is2 y B N (fun b n => alin (af b) (hf (bi ni b)) (xf b) (S n)).
Proof.
  intros Ha Hi Hx H2 HN. unfold lpv_scalar_loop.
  assert (rk x = 2%nat) as Hrx by (unfold rk; now rewrite (proj1 Hx)). rewrite Hrx.
  assert (Hs1 : size x (2 - 1) = N) by (unfold size; now rewrite (proj1 Hx)).
  assert (Hsa : size a (rk a - 1) = N) by (destruct Ha as [g Ha _|Ha]; unfold size, rk; now rewrite (proj1 Ha)).
  destruct (loopM_spec
    (fun k (h : ten) => exists nh g, is1 h nh g /\ (nh = 1%nat \/ nh = B) /\
       forall b, (b < B)%nat -> g (bi nh b) = alin (af b) (hf (bi ni b)) (xf b) k)
    (fun k (t : ten) => isP0 t [B] (fun q => alin (af (nth 0 q 0%nat))
                            (hf (bi ni (nth 0 q 0%nat))) (xf (nth 0 q 0%nat)) (S k)))
    (fun h ax => addcmul (snd ax) h (fst ax)) (fun h => Ok h)
    (combine (unbind (rk a - 1) a) (unbind (2 - 1) x)) 0 init)
    as (r & -> & Hl & Hr).
  - exists ni, hf. repeat split; auto; apply Hi.
  - intros k h [an xn] Hk (nh & g & Hh & Hnh & Hg). apply nth_error_combine in Hk as [Hk1 Hk2]. cbn [fst snd] in *.
    apply nth_error_unbind in Hk1 as [Hk1 ->]. apply nth_error_unbind in Hk2 as [Hk2 ->].
    rewrite Hs1 in Hk2. rewrite Hsa in Hk1. 
    assert (Hxn : is1 (sel (2 - 1) k x) B (fun b => xf b k)).
    { destruct Hx as [Hs Hf]. split; unfold sel; cbn; [now rewrite Hs|]. intros i Hi'. now apply Hf. }
    assert (exists m na ag, tmul h (sel (rk a - 1) k a) = Ok m /\ is1 m na ag /\ (na = 1%nat \/ na = B) /\
      forall b, (b < B)%nat -> ag (bi na b) = g (bi nh b) * af b k) as (m & na & ag & Em & Hm & Hna & Hag).
    { destruct Ha as [ga Ha Haf|Ha].
      - assert (is0 (sel (rk a - 1) k a) (ga k)) as Hs.
        { destruct Ha as [Hs Hf]. split; unfold rk, sel; rewrite Hs; cbn; [reflexivity|]. now apply Hf. }
        pose proof Hh as Hh1. apply is1_P in Hh1.
        unfold tmul. destruct (P1_ews rmul h (sel (rk a - 1) k a) [] nh _ _ Hh1 Hs) as (m & -> & Hm).
        exists m, nh, (fun b => g b * ga k). apply is1_P in Hm. split; [reflexivity|]. split; [exact Hm|]. split; [exact Hnh|].
        intros b Hb. now rewrite Haf.
      - assert (is1 (sel (rk a - 1) k a) B (fun b => af b k)) as Hs.
        { destruct Ha as [Hs Hf]. split; unfold rk, sel; rewrite Hs; cbn; [reflexivity|]. intros. now apply Hf. }
        pose proof Hh as Hh1. apply is1_P in Hh1. apply is1_P in Hs.
        assert (bdim nh B = Some B) as HB by (destruct Hnh as [->| ->]; [apply bdim_1_l|apply bdim_refl]).
        unfold tmul. destruct (P1_ew rmul h (sel (rk a - 1) k a) [] nh B B _ _ Hh1 Hs HB) as (m & -> & Hm).
        exists m, B, (fun b => g (bi nh b) * af b k). split; [reflexivity|]. split.
        + apply is1_P. fin Hm; auto. intros q b Hq Hb. now rewrite (bi_lt B b).
        + split; [auto|]. intros b Hb. now rewrite (bi_lt B b). }
    unfold addcmul. rewrite Em. cbn [bind].
    assert (bdim B na = Some B) as HB by (destruct Hna as [->| ->]; [apply bdim_1_r|apply bdim_refl]).
    pose proof Hxn as Hxn1. apply is1_P in Hxn1. apply is1_P in Hm.
    unfold tadd. destruct (P1_ew radd (sel (2 - 1) k x) m [] B na B _ _ Hxn1 Hm HB) as (h' & E & Hh'0).
    assert (Hh' : is1 h' B (fun b => alin (af b) (hf (bi ni b)) (xf b) (S k))).
    { apply is1_P. fin Hh'0; auto. intros q b Hq Hb. rewrite Hag, Hg, (bi_lt B b) by assumption. reflexivity. }
    exists h'. split; [exact E|]. cbn [Nat.add]. split.
    + exists B, (fun b => alin (af b) (hf (bi ni b)) (xf b) (S k)).
      split; [exact Hh'|split; [auto|]]. intros b Hb. now rewrite (bi_lt B b).
    + exists h'. split; [reflexivity|]. split; [apply Hh'|]. intros q Hq.
      apply vld_1_inv in Hq as (b & -> & Hb). destruct Hh' as [_ Hf]. now rewrite Hf.
  - cbn [bind]. rewrite combine_length, !unbind_length, Hs1, Hsa, Nat.min_id in Hl, Hr.
    destruct r as [|r0 r]; [cbn in Hl; lia|].
    assert (rk r0 = 1%nat) as ->.
    { specialize (Hr 0%nat r0 ltac:(lia)). cbn [nth] in Hr. unfold rk. now rewrite (proj1 Hr). }
    destruct (stack_P0 (r0 :: r) [B] (fun j q => alin (af (nth 0 q 0%nat))
                            (hf (bi ni (nth 0 q 0%nat))) (xf (nth 0 q 0%nat)) (S j)) 1)
      as (y & E & Hy).
    { discriminate. }
    { reflexivity. }
    { intros d j Hj. apply (Hr j d). lia. }
    exists y. split; [exact E|]. apply is2_P1. rewrite Hl in Hy. exact Hy.
Qed.

(** The loop on (batch, block, time) signals, run for all blocks at once. *)
Lemma lpv_loop3_raw pa B K N (a init x : ten) al hf xf :
  isP2 a pa K N al -> pa = [] \/ pa = [B] -> is2 init B K hf -> is3 x B K N xf -> (1 <= N)%nat ->
  exists y, lpv_scalar_loop a init x = Ok y /\
    is3 y B K N (fun b c n => alin (al (match pa with [] => [] | _ => [b] end) c) (hf b c) (xf b c) (S n)).
Proof.
  intros Ha Hpa Hi Hx HN. unfold lpv_scalar_loop.
  assert (rk x = 3%nat) as Hrx by (unfold rk; now rewrite (proj1 Hx)). rewrite Hrx.
  assert (Hs1 : size x (3 - 1) = N) by (unfold size; now rewrite (proj1 Hx)).
  assert (Hsa : size a (rk a - 1) = N).
  { unfold size, rk. rewrite (proj1 Ha). destruct Hpa as [->| ->]; reflexivity. }
  set (L := fun b c n => alin (al (match pa with [] => [] | _ => [b] end) c) (hf b c) (xf b c) n).
  destruct (loopM_spec
    (fun k (h : ten) => is2 h B K (fun b c => L b c k))
    (fun k (t : ten) => isP0 t [B; K] (fun q => L (nth 0 q 0%nat) (nth 1 q 0%nat) (S k)))
    (fun h ax => addcmul (snd ax) h (fst ax)) (fun h => Ok h)
    (combine (unbind (rk a - 1) a) (unbind (3 - 1) x)) 0 init)
    as (r & -> & Hl & Hr).
  - exact Hi.
  - intros k h [an xn] Hk Hh. cbn [Nat.add] in *. apply nth_error_combine in Hk as [Hk1 Hk2]. cbn [fst snd] in *.
    apply nth_error_unbind in Hk1 as [Hk1 ->]. apply nth_error_unbind in Hk2 as [Hk2 ->].
    rewrite Hs1 in Hk2. rewrite Hsa in Hk1. 
    assert (Hxn : is2 (sel (3 - 1) k x) B K (fun b c => xf b c k)).
    { destruct Hx as [Hs Hf]. split; unfold sel; cbn; [now rewrite Hs|]. intros i j Hi' Hj. now apply Hf. }
    assert (exists m, tmul h (sel (rk a - 1) k a) = Ok m /\
      is2 m B K (fun b c => L b c k * al (match pa with [] => [] | _ => [b] end) c k)) as (m & Em & Hm).
    { pose proof (P2_sel1 a pa K N _ (rk a - 1) k Ha ltac:(dimt) ltac:(lia)) as Hs. cbv beta in Hs.
      unfold tmul. destruct Hpa as [->| ->].
      - apply is2_P1 in Hh. 
        destruct (P1_ewl_same rmul h (sel (rk a - 1) k a) [B] K _ _ Hh Hs) as (m & -> & Hm).
        exists m. split; [reflexivity|]. apply is2_P1. fin Hm; auto.
      - apply is2_P1 in Hh. 
        destruct (P1_ew_same rmul h (sel (rk a - 1) k a) [B] K _ _ Hh Hs) as (m & -> & Hm).
        exists m. split; [reflexivity|]. apply is2_P1. fin Hm; auto. intros q i Hq Hi0.
        apply vld_1_inv in Hq as (b & -> & Hb). reflexivity. }
    unfold addcmul. rewrite Em. cbn [bind]. apply is2_P1 in Hxn, Hm.
    unfold tadd. destruct (P1_ew_same radd _ m [B] K _ _ Hxn Hm) as (h' & E & Hh'0).
    assert (Hh' : is2 h' B K (fun b c => L b c (S k))).
    { apply is2_P1. fin Hh'0; auto. }
    exists h'. split; [exact E|]. split; [exact Hh'|].
    exists h'. split; [reflexivity|]. apply (proj1 (is2_PP0 _ _ _ _) Hh').
  - cbn [bind]. rewrite combine_length, !unbind_length, Hs1, Hsa, Nat.min_id in Hl, Hr.
    destruct r as [|r0 r]; [cbn in Hl; lia|].
    assert (rk r0 = 2%nat) as ->.
    { specialize (Hr 0%nat r0 ltac:(lia)). cbn [nth] in Hr. unfold rk. now rewrite (proj1 Hr). }
    destruct (stack_P0 (r0 :: r) [B; K] (fun j q => L (nth 0 q 0%nat) (nth 1 q 0%nat) (S j)) 2)
      as (y & E & Hy).
    { discriminate. }
    { reflexivity. }
    { intros d j Hj. apply (Hr j d). lia. }
    exists y. split; [exact E|]. apply is3_PP1. rewrite Hl in Hy. exact Hy.
Qed.

End Raw.
Arguments alin {R}.

Section S.
Variable R : cring.
Add Ring Rr : (r_th R).
Notation ten := (tensor (car R)).
Open Scope cr_scope.

Lemma bprod_S_l n (f : nat -> R) : bprod (S n) f = f 0%nat * bprod n (fun i => f (S i)).
Proof.
  induction n as [|n IH]; [cbn; ring|]. cbn [bprod] in *. rewrite IH. ring.
Qed.

(** Closed form over k steps. *)
Lemma lin_rec_tv (a : nat -> R) h x n k :
  lin_rec a h x (n + k) = bprod k (fun t => a (n + k - 1 - t)%nat) * lin_rec a h x n
    + bsum k (fun j => bprod (k - 1 - j) (fun t => a (n + k - 1 - t)%nat) * x (n + j)%nat).
Proof.
  induction k as [|k IH].
  - rewrite Nat.add_0_r. cbn. ring.
  - rewrite Nat.add_succ_r. cbn [lin_rec]. rewrite IH. rewrite bprod_S_l. cbn [bsum].
    replace (S k - 1 - k)%nat with 0%nat by lia. replace (S (n + k) - 1 - 0)%nat with (n + k)%nat by lia. cbn [bprod].
    rewrite (bsum_ext k (fun j => bprod (S k - 1 - j) _ * _) (fun j => a (n + k)%nat * (bprod (k - 1 - j) (fun t => a (n + k - 1 - t)%nat) * x (n + j)%nat))).
    2: { intros j Hj. cbv beta. replace (S k - 1 - j)%nat with (S (k - 1 - j)) by lia. rewrite bprod_S_l.
         rewrite (bprod_ext R _ _ (fun t => a (n + k - 1 - t)%nat)) by (intros; f_equal; lia).
         replace (S (n + k) - 1 - 0)%nat with (n + k)%nat by lia. ring. }
    rewrite bsum_mul_l.
    rewrite (bprod_ext R k (fun i => a (S (n + k) - 1 - S i)%nat) (fun t => a (n + k - 1 - t)%nat)) by (intros; f_equal; lia).
    replace (n + S k - 1 - 0)%nat with (n + k)%nat by lia. ring.
Qed.

Lemma alin_lin_rec (a : nat -> R) h x n : alin a h x n = lin_rec a h x n.
Proof. induction n as [|n IH]; [reflexivity|]. cbn [alin lin_rec]. rewrite IH. ring. Qed.
Lemma lpv_loop2 B N (a init x : ten) ni af hf xf :
  coefv B N a af -> is1 init ni hf -> is2 x B N xf -> ni = 1%nat \/ ni = B -> (1 <= N)%nat ->
  exists y, lpv_scalar_loop a init x = Ok y /\
    is2 y B N (fun b n => lin_rec (af b) (hf (bi ni b)) (xf b) (S n)).
Proof.
  intros Ha Hi Hx H2 HN. destruct (lpv_loop2_raw R B N a init x ni af hf xf Ha Hi Hx H2 HN) as (y & E & Hy).
  exists y. split; [exact E|]. eapply is2_ext; [exact Hy|]. intros. apply alin_lin_rec.
Qed.
Lemma lpv_loop3 pa B K N (a init x : ten) al hf xf :
  isP2 a pa K N al -> pa = [] \/ pa = [B] -> is2 init B K hf -> is3 x B K N xf -> (1 <= N)%nat ->
  exists y, lpv_scalar_loop a init x = Ok y /\
    is3 y B K N (fun b c n => lin_rec (al (match pa with [] => [] | _ => [b] end) c) (hf b c) (xf b c) (S n)).
Proof.
  intros Ha Hpa Hi Hx HN. destruct (lpv_loop3_raw R pa B K N a init x al hf xf Ha Hpa Hi Hx HN) as (y & E & Hy).
  exists y. split; [exact E|]. eapply is3_ext; [exact Hy|]. intros. apply alin_lin_rec.
Qed.

Lemma lpv_lr_fuel_spec fuel : forall B N (a init x : ten) af hf xf u,
  (N < fuel)%nat -> (1 <= B)%nat -> (1 <= N)%nat -> (1 <= u)%nat ->
  coefv B N a af -> coef B init hf -> is2 x B N xf ->
  exists y, lpv_linear_recurrence_fuel fuel a init x u = Ok y /\
    is2 y B N (fun b n => lin_rec (af b) (hf b) (xf b) (S n)).
Proof.
  induction fuel as [|fuel IH]; intros B N a init x af hf xf u Hf HB HN Hu Ha Hi Hx; [lia|].
  cbn [lpv_linear_recurrence_fuel].
  assert (size x 0 = B) as -> by (unfold size; now rewrite (proj1 Hx)).
  assert (size x 1 = N) as -> by (unfold size; now rewrite (proj1 Hx)).
  rewrite (i2_rk _ _ _ _ Hx). cbn [Nat.eqb].
  assert (((rk a =? 1) || (rk a =? 2))%bool = true /\ negb ((rk a =? 1) && negb (size a 0 =? N)) = true) as (-> & ->).
  { destruct Ha as [g Ha _|Ha]; unfold rk, size; rewrite (proj1 Ha); cbn; rewrite ?Nat.eqb_refl; auto. }
  destruct (coef_expand R B init hf Hi) as (-> & -> & i' & ni & ig & -> & Hi' & Hni & Hig). cbn [bind].
  bfalse (u <? 1)%nat. cbn [negb].
  destruct ((u =? 1) || (N <=? u))%bool eqn:Eb.
  { destruct (lpv_loop2 B N a i' x ni af ig xf Ha Hi' Hx Hni HN) as (y & E & Hy).
    exists y. split; [exact E|]. eapply is2_ext; [exact Hy|]. intros b n Hb Hn. cbn beta.
    now rewrite Hig by assumption. }
  b2p. rename u into bs.
  destruct (blocks N bs) as (k & Hk1 & Hk2 & Hk0 & HkN); [lia|lia|].
  set (xp := if negb (N mod bs =? 0) then pad 1 0 (bs - N mod bs) r0 x else x).
  assert (Hxp : isP1 xp [B] (k * bs) (fun q n => if n <? N then xf (nth 0 q 0%nat) n else 0)).
  { apply is2_P1 in Hx. unfold xp. destruct (N mod bs =? 0) eqn:Er; b2p; cbn [negb].
    - fin Hx; [lia|]. intros q n Hq Hn. bdec. reflexivity.
    - eassert (isP1 (pad 1 0 (bs - N mod bs) r0 x) _ _ _) as Hp by vsolve.
      fin Hp; [lia|]. intros q n Hq Hn. cbn [Nat.leb Nat.add andb]. now rewrite Nat.sub_0_r. }
  clearbody xp. set (X := fun b n => if n <? N then xf b n else 0).
  assert (exists pa al, isP1 a pa N al /\ (pa = [] \/ pa = [B]) /\
     forall b n, (b < B)%nat -> (n < N)%nat -> al (match pa with [] => [] | _ => [b] end) n = af b n)
    as (pa & al & Ha1 & Hpa & Hal).
  { destruct Ha as [g Ha Hg|Ha].
    - exists [], (fun _ => g). split; [now apply is1_P|]. split; [auto|]. intros. symmetry. now apply Hg.
    - exists [B], (fun q => af (nth 0 q 0%nat)). split; [now apply is2_P1|]. auto. }
  set (ap := if negb (N mod bs =? 0) then pad (rk a - 1) 0 (bs - N mod bs) r0 a else a).
  assert (Hap : isP1 ap pa (k * bs) (fun q n => if n <? N then al q n else 0)).
  { unfold ap. destruct (N mod bs =? 0) eqn:Er; b2p; cbn [negb].
    - fin Ha1; [lia|]. intros q n Hq Hn. bdec. reflexivity.
    - eassert (isP1 (pad (rk a - 1) 0 (bs - N mod bs) r0 a) _ _ _) as Hp by vsolve.
      fin Hp; [lia|]. intros q n Hq Hn. cbn [Nat.leb Nat.add andb]. now rewrite Nat.sub_0_r. }
  clearbody ap. set (AL := fun q n => if n <? N then al q n else 0) in Hap.
  change (isP1 ap pa (k * bs) AL) in Hap.
  set (AF := fun b n => AL (match pa with [] => [] | _ => [b] end) n).
  rewrite (unflatten_m1_ok xp 1 bs k) by (try lia; unfold size; now rewrite (proj1 Hxp)).
  mstep. rename w into ux. rename H1 into Hux.
  rewrite (unflatten_m1_ok ap (rk ap - 1) bs k).
  2: lia. 2: { unfold size, rk. rewrite (proj1 Hap). destruct Hpa as [->| ->]; reflexivity. }
  mstep. rename w into ua. rename H1 into Hua. cbv zeta.
  nm (slice (rk ua - 1) (Some 1%Z) None ua). nm (flip (rk v - 1) v). nm (cumprod (rk v0 - 1) v0).
  nm (flip (rk v1 - 1) v1).
  assert (Hv2 : isP2 v2 pa k (bs - 1) (fun q c i => bprod (bs - 1 - i) (fun t => AL q (c * bs + (bs - 1 - t))%nat))).
  { fin H4; [reflexivity|lia|]. intros q c i Hq Hc Hi0. 
    match goal with |- bprod ?m _ = bprod ?m' _ => replace m with m' by lia end.
    apply bprod_ext. intros t Ht. f_equal. lia. }
  clear H1 H2 H3 H4 v v0 v1.
  rewrite (select_ok v2 (rk v2 - 1) 0%Z 0) by (unfold size, rk; rewrite (proj1 Hv2); destruct Hpa as [->| ->]; cbn [app nth length Nat.add Nat.sub]; apply (pyidx_nat _ 0); lia).
  cbn [bind].
  rewrite (select_ok ua (rk ua - 1) 0%Z 0) by (unfold size, rk; rewrite (proj1 Hua); destruct Hpa as [->| ->]; cbn [app nth length Nat.add Nat.sub]; apply (pyidx_nat _ 0); lia).
  cbn [bind].
  pose proof (P2_sel1 v2 pa k _ _ (rk v2 - 1) 0 Hv2 ltac:(dimt) ltac:(lia)) as Hs1. cbv beta in Hs1.
  pose proof (P2_sel1 ua pa k _ _ (rk ua - 1) 0 Hua ltac:(dimt) ltac:(lia)) as Hs2. cbv beta in Hs2.
  unfold tmul. destruct (P1_ew_same rmul _ _ pa k _ _ Hs1 Hs2) as (apd & -> & Hapd). cbn [bind].
  assert (Hapd' : isP1 apd pa k (fun q c => bprod bs (fun t => AL q (c * bs + (bs - 1 - t))%nat))).
  { fin Hapd; auto. intros q c Hq Hc. rewrite Nat.sub_0_r. 
    transitivity (bprod (S (bs - 1)) (fun t => AL q (c * bs + (bs - 1 - t))%nat)); [|f_equal; lia].
    cbn [bprod]. rewrite Nat.sub_diag. reflexivity. }
  clear Hapd Hs1 Hs2.
  nm (pad (rk v2 - 1) 0 1 r1 v2). rename v into aI.
  assert (HaI : isP2 aI pa k bs (fun q c i => bprod (bs - 1 - i) (fun t => AL q (c * bs + (bs - 1 - t))%nat))).
  { fin H1; [reflexivity|lia|]. intros q c i Hq Hc Hi0. cbn [Nat.leb andb].
    destruct (i <? 0 + (bs - 1))%nat eqn:E; b2p; [now rewrite Nat.sub_0_r|].
    replace (bs - 1 - i)%nat with 0%nat by lia. reflexivity. }
  clear H1 Hv2 v2.
  nm (tconj ux). rename v into cx.
  assert (exists z, vecdot cx aI = Ok z /\
    is2 z B k (fun b c => bsum bs (fun j => bprod (bs - 1 - j) (fun t => AF b (c * bs + (bs - 1 - t))%nat) * X b (c * bs + j)%nat)))
    as (z & -> & Hz).
  { clear Hux. destruct Hpa as [->| ->].
    - vdot. eexists; split; [reflexivity|]. apply is2_P1. fin H2; auto.
      intros q c Hq Hc. apply vld_1_inv in Hq as (b & -> & Hb). cbn [nth] in *.
      apply bsum_ext. intros j Hj. rewrite conj_conj, !bi_lt by assumption. unfold X, AF. ring.
    - vdot. eexists; split; [reflexivity|]. apply is2_P1. fin H2; auto.
      intros q c Hq Hc. apply vld_1_inv in Hq as (b & -> & Hb). cbn [nth] in *.
      apply bsum_ext. intros j Hj. rewrite conj_conj, !bi_lt by assumption. unfold X, AF. ring. }
  cbn [bind].
  assert (Hiu : is2 (unsqueeze 1 i') ni 1 (fun b _ => ig b)).
  { apply is2_P. pose proof Hi' as Hi2. apply is1_P in Hi2. eapply P1_unsq1 in Hi2; [exact Hi2|reflexivity]. }
  destruct (expand_2 _ ni 1 B 1 _ Hiu ltac:(lia) ltac:(lia)) as (i0 & -> & Hi0). cbn [bind].
  destruct (IH B k apd i' z (fun b c => bprod bs (fun t => AF b (c * bs + (bs - 1 - t))%nat)) hf
              (fun b c => bsum bs (fun j => bprod (bs - 1 - j) (fun t => AF b (c * bs + (bs - 1 - t))%nat) * X b (c * bs + j)%nat)) bs)
    as (rest & -> & Hrest); try lia; auto.
  { destruct Hpa as [->| ->].
    - apply coefv_s with (g := fun c => bprod bs (fun t => AL [] (c * bs + (bs - 1 - t))%nat)); [|reflexivity].
      apply is1_P. fin Hapd'; auto. intros q c Hq Hc. now apply vld_nil_inv in Hq as ->.
    - apply coefv_b. apply is2_P1. fin Hapd'; auto. intros q c Hq Hc. apply vld_1_inv in Hq as (b & -> & Hb). reflexivity. }
  { destruct Hni as [->| ->].
    - apply coef_1 with (g := ig); [assumption|]. intros b Hb. now rewrite <- Hig.
    - apply coef_B. eapply is1_ext; [exact Hi'|]. intros b Hb. rewrite <- Hig by assumption. now rewrite bi_lt. }
  cbn [bind].
  set (L := fun b n => lin_rec (AF b) (hf b) (X b) n).
  apply is2_P1 in Hi0, Hrest.
  cat2. rename w into ini.
  assert (Hini : isP1 ini [B] (S k) (fun q c => L (nth 0 q 0%nat) (c * bs)%nat)).
  { fin H2; auto. intros q c Hq Hc. apply vld_1_inv in Hq as (b & -> & Hb). cbn [nth].
    destruct (c <? 1)%nat eqn:E; b2p.
    - replace c with 0%nat by lia. unfold L. cbn [Nat.mul lin_rec]. now apply Hig.
    - replace (S (c - 1))%nat with c by lia. clear E Hc. induction c as [|c IHc]; [reflexivity|].
      cbn [lin_rec]. rewrite IHc. unfold L. replace (S c * bs)%nat with (c * bs + bs)%nat by lia.
      rewrite lin_rec_tv. f_equal; [f_equal|]; [|apply bsum_ext; intros j Hj; f_equal];
      apply bprod_ext; intros t Ht; f_equal; lia. }
  clear H1 H2 Hrest Hi0 Hz z rest i0 Hiu HaI aI Hapd' apd.
  nm (slice (rk ua - 1) None (Some (-1)%Z) ua). rename v into ua'.
  nm (slice 1 None (Some (-1)%Z) ini). nm (slice 2 None (Some (-1)%Z) ux).
  destruct (lpv_loop3 pa B k (bs - 1) ua' v v0 (fun q c i => AL q (c * bs + i)%nat)
     (fun b c => L b (c * bs)%nat) (fun b c i => X b (c * bs + i)%nat)) as (o & -> & Ho).
  { fin H1; [lia|lia|]. intros q c i Hq Hc Hi0. first [reflexivity | f_equal; lia]. }
  { exact Hpa. }
  { apply is2_P1. fin H2; [lia|]. reflexivity. }
  { apply is3_P2. fin H3; [lia|lia|]. intros q c i Hq Hc Hi0. unfold X; reflexivity. }
  { lia. }
  cbn [bind]. apply is3_P2 in Ho.
  assert (Ho' : isP2 o [B] k (bs - 1) (fun q c i => L (nth 0 q 0%nat) (c * bs + S i)%nat)).
  { fin Ho; auto. intros q c i Hq Hc Hi0. unfold L, AF.
    generalize (match pa with [] => [] | _ => [nth 0 q 0%nat] end). intros q'.
    rewrite (lin_rec_tv _ _ _ (c * bs) (S i)).
    rewrite (lin_rec_tv _ _ _ 0 (S i)). cbn [lin_rec].
    f_equal; [f_equal|]; [|apply bsum_ext; intros j Hj; f_equal];
      apply bprod_ext; intros t Ht; f_equal; lia. }
  clear Ho H1 H2 H3.
  nm (slice 1 (Some 1%Z) None ini). nm (unsqueeze 2 v1). cat2. nm (flatten 1 2 w).
  assert (Hout : isP1 v3 [B] (k * bs) (fun q n => L (nth 0 q 0%nat) (S n))).
  { fin H4; [nia|]. intros q n Hq Hn. replace (bs - 1 + 1)%nat with bs by lia.
    pose proof (Nat.div_mod n bs ltac:(lia)) as Edm. pose proof (Nat.mod_upper_bound n bs ltac:(lia)).
    destruct (n mod bs <? bs - 1)%nat eqn:E; b2p; f_equal; nia. }
  clear H1 H2 H3 H4. 
  assert (HL : forall b n, (b < B)%nat -> (n < N)%nat ->
     L b (S n) = lin_rec (af b) (hf b) (xf b) (S n)).
  { intros b n Hb Hn. apply lin_rec_ext; auto; intros j Hj; unfold X, AF, AL; bdec; auto. apply Hal; lia. }
  destruct (N mod bs =? 0)%nat eqn:Er; b2p; cbn [negb].
  - eexists; split; [reflexivity|]. apply is2_P1. fin Hout; [lia|]. intros q n Hq Hn.
    apply vld_1_inv in Hq as (b & -> & Hb). cbn [nth]. now apply HL.
  - nm (slice 1 None (Some (- Z.of_nat (bs - N mod bs))%Z) v3).
    eexists; split; [reflexivity|]. apply is2_P1. fin H1; [specialize (Hk2 Er); pose proof (Nat.mod_upper_bound N bs ltac:(lia)); rewrite pyb_neg by lia; lia|]. intros q n Hq Hn.
    apply vld_1_inv in Hq as (b & -> & Hb). cbn [nth]. now apply HL.
Qed.

Theorem lpv_linear_recurrence_spec B N (a init x : ten) af hf xf u :
  (1 <= B)%nat -> (1 <= N)%nat -> (1 <= u)%nat ->
  coefv B N a af -> coef B init hf -> is2 x B N xf ->
  exists y, lpv_linear_recurrence a init x u = Ok y /\
    is2 y B N (fun b n => lin_rec (af b) (hf b) (xf b) (S n)).
Proof.
  intros. unfold lpv_linear_recurrence. apply lpv_lr_fuel_spec; auto.
  match goal with H : is2 x _ _ _ |- _ => unfold size; rewrite (proj1 H) end. cbn. lia.
Qed.
End S.
