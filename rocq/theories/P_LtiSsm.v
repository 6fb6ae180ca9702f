(** lti.state_space_recursion computes the state recurrence. *)
From Coq Require Import List Arith Lia ZArith Bool Ring.
From Verif Require Import Scalar Tensor TensorLemmas TensorOps TensorAlg TensorTac TensorList
  Spec Shapes Algebra M_Mat P_Mat M_Kernels P_KernelOps P_Helion M_LtiSsm P_LtiRecur.
Import ListNotations.

(** ** Over any operations *)
Section Raw.
Variable R : cops.
Notation ten := (tensor (car R)).
Open Scope cr_scope.

Lemma pad_features_spec (x : ten) B N M f : (1 <= M)%nat -> is2 x B N f ->
  exists y, pad_features x M = Ok y /\ is3 y B N M (fun b n m => if m =? 0 then f b n else 0).
Proof.
  intros HM Hx. unfold pad_features. btrue (1 <=? M)%nat.
  pose proof Hx as Hx'. apply is2_P1 in Hx'.
  assert (Hz : isP2 (zeros (shape x ++ [M - 1]%nat)) [B] N (M - 1) (fun _ _ _ => 0 : R)).
  { rewrite (proj1 Hx). apply (P2_full [B] N (M - 1)). }
  set (zz := zeros _) in *. clearbody zz. nm (unsqueeze 2 x). cat2.
  exists w. split; [reflexivity|]. apply is3_P2. fin H0; [reflexivity|lia|].
  intros q n m Hq Hn Hm. destruct (m <? 1)%nat eqn:E; b2p; bdec; reflexivity.
Qed.

Lemma sel_13 (x : ten) B N M f k : is3 x B N M f -> (k < N)%nat -> is2 (sel 1 k x) B M (fun b m => f b k m).
Proof.
  intros Hx Hk. apply is2_P1. apply is3_P2 in Hx.
  eassert (isP1 (sel 1 k x) _ _ _) as H by vsolve. exact H.
Qed.
Lemma expand_self2 (t : ten) n m f : is2 t n m f -> exists y, expand [n; m] t = Ok y /\ is2 y n m f.
Proof.
  intro H. destruct (expand_2 t n m n m f H) as (y & E & Hy); auto.
  exists y. split; [exact E|]. eapply is2_ext; [exact Hy|]. intros i j Hi Hj. cbn beta. now rewrite !bi_lt.
Qed.
Lemma expand_self3 (t : ten) n m p f : is3 t n m p f -> exists y, expand [n; m; p] t = Ok y /\ is3 y n m p f.
Proof.
  intros [Hs Hf]. destruct (expand_same t) as (y & E & Hy1 & Hy2). rewrite Hs in E. exists y. split; [exact E|].
  split; [congruence|]. intros i j k Hi Hj Hk. rewrite Hy2; [auto|]. rewrite Hs. repeat constructor; auto.
Qed.

(** One step of the loops. *)
Lemma addmm_step (xn h AT : ten) B M xf hf g :
  is2 xn B M xf -> is2 h B M hf -> is2 AT M M g ->
  exists y, addmm xn h AT = Ok y /\ is2 y B M (fun b i => xf b i + bsum M (fun k => hf b k * g k i)).
Proof.
  intros Hx Hh HA. unfold addmm. rkt. cbn [Nat.eqb andb].
  rewrite <- matmul_22 by (rkt; lia).
  pose proof Hh as Hh'. pose proof HA as HA'. apply is2_P in Hh', HA'. 
  mm. pose proof H as [Hs _]. cbn [app] in Hs. rewrite Hs.
  destruct (expand_self2 xn B M xf Hx) as (c & -> & Hc). cbn [bind].
  apply is2_P in Hc. unfold tadd. eat @P2_ew_same; [exact Hc|exact H|].
  exists w0. split; [reflexivity|]. apply is2_P. exact H0.
Qed.
Lemma baddbmm_step (xn h AT : ten) B M xf hf g :
  is2 xn B M xf -> is3 h B 1 M hf -> is3 AT B M M g ->
  exists y, baddbmm (unsqueeze 1 xn) h AT = Ok y /\
    is3 y B 1 M (fun b _ i => xf b i + bsum M (fun k => hf b 0%nat k * g b k i)).
Proof.
  intros Hx Hh HA. unfold baddbmm. rkt.
  assert (size h 0 = B) as -> by (unfold size; now rewrite (proj1 Hh)).
  assert (size AT 0 = B) as -> by (unfold size; now rewrite (proj1 HA)).
  rewrite !Nat.eqb_refl. cbn [Nat.eqb andb].
  rewrite <- matmul_22 by (rkt; lia).
  pose proof Hh as Hh'. pose proof HA as HA'. apply is3_P2 in Hh', HA'.
  mm. pose proof H as [Hs _]. cbn [app] in Hs. rewrite Hs.
  apply is2_P1 in Hx. eassert (isP2 (unsqueeze 1 xn) _ _ _ _) as Hu by vsolve.
  assert (Hu3 : is3 (unsqueeze 1 xn) B 1 M (fun b _ m => xf b m)) by (apply is3_P2; exact Hu).
  destruct (expand_self3 _ B 1 M _ Hu3) as (c & -> & Hc). cbn [bind].
  apply is3_P2 in Hc. unfold tadd. eat @P2_ew_same; [exact Hc|exact H|].
  exists w0. split; [reflexivity|]. apply is3_P2. fin H0; auto. intros q i j Hq Hi Hj.
  replace i with 0%nat by lia. reflexivity.
Qed.

Lemma loop_raw B N M (A zi x : ten) Af zf u oi :
  (1 <= N)%nat -> (1 <= M)%nat -> matc B M A Af -> is2 zi B M zf -> drive B N M x u -> idx_ok M oi ->
  exists y, recursion_loop A zi x oi = Ok y /\
    picks B N M oi y (fun b n m => hstate M (fun _ => Af b) (zf b) (u b) (S n) m).
Proof.
  intros HN HM HA Hz Hx Hi. unfold recursion_loop.
  assert (exists x', (if rk x =? 2 then pad_features x (sizen A 1) else Ok x) = Ok x' /\ is3 x' B N M u)
    as (x' & -> & Hx').
  { assert (sizen A 1 = M) as -> by (destruct HA as [g HA _|HA]; unfold sizen, rk; now rewrite (proj1 HA)).
    destruct Hx as [f Hx Hu|Hx]; rkt; cbn [Nat.eqb].
    - destruct (pad_features_spec x B N M f HM Hx) as (y & -> & Hy). exists y. split; [reflexivity|].
      eapply is3_ext; [exact Hy|]. intros. cbn beta. now rewrite Hu.
    - eauto. }
  cbn [bind]. clear Hx x.
  assert (Hs1 : size x' 1 = N) by (unfold size; now rewrite (proj1 Hx')).
  set (L := fun b n m => hstate M (fun _ => Af b) (zf b) (u b) n m).
  destruct HA as [g HA HAg|HA]; rkt; cbn [Nat.eqb].
  - assert (HAT : is2 (mT A) M M (fun i j => g j i)).
    { apply is2_P. apply is2_P in HA. eassert (isP2 (mT A) _ _ _ _) as H by vsolve. exact H. }
    set (AT := mT A) in *. clearbody AT.
    destruct (loopM_spec (fun k (h : ten) => is2 h B M (fun b m => L b k m))
      (fun k (t : ten) => match oi with None => isP1 t [B] M (fun q m => L (nth 0 q 0%nat) (S k) m)
         | Some i => forall c, pyidx M i = Some c -> isP0 t [B] (fun q => L (nth 0 q 0%nat) (S k) c) end)
      (fun h xn => addmm xn h AT)
      (fun h => match oi with None => Ok h | Some i => select 1 i h end) (unbind 1 x') 0 zi)
      as (r & -> & Hl & Hr).
    + exact Hz.
    + intros k h xn Hk Hh. apply nth_error_unbind in Hk as [Hk ->]. rewrite Hs1 in Hk.
      destruct (addmm_step (sel 1 k x') h AT B M _ _ _ (sel_13 x' B N M u k Hx' Hk) Hh HAT) as (h' & E & Hh').
      assert (Hh2 : is2 h' B M (fun b m => L b (S k) m)).
      { eapply is2_ext; [exact Hh'|]. intros b i Hb Hi0. cbn beta. unfold L. cbn [hstate]. f_equal. apply bsum_ext.
        intros j Hj. now rewrite HAg by assumption. }
      exists h'. split; [exact E|]. split; [exact Hh2|]. cbn [Nat.add]. destruct oi as [i|].
      * destruct Hi as (c & Hc). pose proof (pyidx_lt _ _ _ Hc).
        rewrite (select_ok h' 1 i c) by (unfold size; rewrite (proj1 Hh2); exact Hc).
        eexists; split; [reflexivity|]. intros c' Hc'. rewrite Hc in Hc'. injection Hc' as <-.
        apply is2_P1 in Hh2. pose proof (P1_sel0 h' [B] M _ 1 c Hh2 eq_refl H) as H'. exact H'.
      * exists h'. split; [reflexivity|]. now apply is2_P1 in Hh2.
    + cbn [bind]. rewrite unbind_length, Hs1 in Hl, Hr. cbn [Nat.add] in Hr.
      assert (Hr0 : r <> []) by (destruct r; cbn in Hl; [lia|congruence]).
      unfold picks. destruct oi as [i|].
      * destruct Hi as (c & Hc).
        destruct (stack_P0 r [B] (fun k q => L (nth 0 q 0%nat) (S k) c) 1 Hr0 eq_refl) as (y & E & Hy).
        { intros d j Hj. apply (Hr j d ltac:(lia) c Hc). }
        exists y. split; [exact E|]. intros c' Hc'. rewrite Hc in Hc'. injection Hc' as <-.
        apply is2_P1. rewrite Hl in Hy. exact Hy.
      * destruct (stack_P1 r [B] M (fun k q m => L (nth 0 q 0%nat) (S k) m) 1 Hr0 eq_refl) as (y & E & Hy).
        { intros d j Hj. apply (Hr j d). lia. }
        exists y. split; [exact E|]. apply is3_P2. rewrite Hl in Hy. exact Hy.
  - assert (HAT : is3 (mT A) B M M (fun b i j => Af b j i)).
    { apply is3_P2. apply is3_P2 in HA. eassert (isP2 (mT A) _ _ _ _) as H by vsolve. exact H. }
    set (AT := mT A) in *. clearbody AT.
    assert (Hz3 : is3 (unsqueeze 1 zi) B 1 M (fun b _ m => zf b m)).
    { apply is3_P2. apply is2_P1 in Hz. eassert (isP2 (unsqueeze 1 zi) _ _ _ _) as Hu by vsolve. exact Hu. }
    destruct (loopM_spec (fun k (h : ten) => is3 h B 1 M (fun b _ m => L b k m))
      (fun k (t : ten) => match oi with None => isP2 t [B] 1 M (fun q _ m => L (nth 0 q 0%nat) (S k) m)
         | Some i => forall c, pyidx M i = Some c -> isP1 t [B] 1 (fun q _ => L (nth 0 q 0%nat) (S k) c) end)
      (fun h xn => baddbmm (unsqueeze 1 xn) h AT)
      (fun h => match oi with None => Ok h | Some i => select 2 i h end) (unbind 1 x') 0 (unsqueeze 1 zi))
      as (r & -> & Hl & Hr).
    + exact Hz3.
    + intros k h xn Hk Hh. apply nth_error_unbind in Hk as [Hk ->]. rewrite Hs1 in Hk.
      destruct (baddbmm_step (sel 1 k x') h AT B M _ _ _ (sel_13 x' B N M u k Hx' Hk) Hh HAT) as (h' & E & Hh').
      assert (Hh2 : is3 h' B 1 M (fun b _ m => L b (S k) m)).
      { eapply is3_ext; [exact Hh'|]. intros b o i Hb Ho Hi0. cbn beta. unfold L. cbn [hstate]. reflexivity. }
      exists h'. split; [exact E|]. split; [exact Hh2|]. cbn [Nat.add]. destruct oi as [i|].
      * destruct Hi as (c & Hc). pose proof (pyidx_lt _ _ _ Hc).
        rewrite (select_ok h' 2 i c) by (unfold size; rewrite (proj1 Hh2); exact Hc).
        eexists; split; [reflexivity|]. intros c' Hc'. rewrite Hc in Hc'. injection Hc' as <-.
        apply is3_P2 in Hh2. pose proof (P2_sel1 h' [B] 1 M _ 2 c Hh2 eq_refl H) as H'. exact H'.
      * exists h'. split; [reflexivity|]. now apply is3_P2 in Hh2.
    + cbn [bind]. rewrite unbind_length, Hs1 in Hl, Hr. cbn [Nat.add] in Hr.
      assert (Hr0 : r <> []) by (destruct r; cbn in Hl; [lia|congruence]).
      unfold picks. destruct oi as [i|].
      * destruct Hi as (c & Hc).
        destruct (cat1_P1 r [B] (fun k q => L (nth 0 q 0%nat) (S k) c) 1 Hr0 eq_refl) as (y & E & Hy).
        { intros d j Hj. eapply isP1_ext; [apply (Hr j d ltac:(lia) c Hc)|]. reflexivity. }
        exists y. split; [exact E|]. intros c' Hc'. rewrite Hc in Hc'. injection Hc' as <-.
        apply is2_P1. rewrite Hl in Hy. exact Hy.
      * destruct (cat1_P2 r [B] M (fun k q m => L (nth 0 q 0%nat) (S k) m) 1 Hr0 eq_refl) as (y & E & Hy).
        { intros d j Hj. apply (Hr j d). lia. }
        exists y. split; [exact E|]. apply is3_P2. rewrite Hl in Hy. exact Hy.
Qed.

Lemma dm_1 n : (n / 1 = n)%nat /\ (n mod 1 = 0)%nat.
Proof. split; [apply Nat.div_1_r|apply Nat.mod_1_r]. Qed.

Definition nfeat (x3 : bool) (M : nat) : nat := if x3 then M else 1%nat.
Definition nout (oi : option Z) (M : nat) : nat := match oi with None => M | Some _ => 1%nat end.
Definition orow (oi : option Z) (M i : nat) : nat :=
  match oi with None => i | Some z => match pyidx M z with Some c => c | None => 0%nat end end.

Lemma aug_raw pa bs M x3 (Ap AI : ten) (pf : list nat -> nat -> nat -> nat -> R) oi :
  (2 <= bs)%nat -> (1 <= M)%nat -> idx_ok M oi ->
  isP3 Ap pa bs M M (fun q k => pf q (S k)) ->
  isP3 AI pa bs M M (fun q k => pf q (bs - 1 - k)%nat) ->
  exists m2 m3, aug_mats x3 Ap AI bs M oi = Ok (m2, m3) /\
    isP2 m2 pa ((bs - 1) * nout oi M) M
      (fun q r m => pf q (S (r / nout oi M)) (orow oi M (r mod nout oi M)) m) /\
    isP2 m3 pa ((bs - 1) * nout oi M) ((bs - 1) * nfeat x3 M)
      (fun q r s => if s / nfeat x3 M <=? r / nout oi M
         then pf q (r / nout oi M - s / nfeat x3 M)%nat (orow oi M (r mod nout oi M)) (s mod nfeat x3 M)
         else 0).
Proof.
  intros Hbs HM Hi HAp HAI. unfold aug_mats. rkt. replace (length pa + 3 - 3)%nat with (length pa) by lia.
  assert (firstn (length pa) (shape AI) = pa) as ->.
  { rewrite (proj1 HAI), firstn_app, Nat.sub_diag, firstn_all. cbn. apply app_nil_r. }
  nm (slice (length pa) None (Some (-1)%Z) Ap). nm (slice (length pa) (Some 1%Z) None AI).
  clear HAp HAI Ap AI. rename v into Ap. rename v0 into AI.
  assert (Hc : forall w l, (w < bs - 1)%nat -> (l < bs - 1)%nat ->
     (bs - 1 - 1 - w + l <? bs - 1 = (l <=? w))%nat).
  { intros w l Hw Hl. destruct (l <=? w)%nat eqn:E; b2p.
    - apply Nat.ltb_lt. lia.
    - apply Nat.ltb_ge. lia. }
  assert (Hrow : forall r G, (1 <= G)%nat -> (r < (bs - 1) * G -> r / G < bs - 1)%nat).
  { intros r G HG Hr. apply Nat.div_lt_upper_bound; lia. }
  destruct oi as [z|]; [destruct Hi as (c & Ec); pose proof (pyidx_lt _ _ _ Ec) as Hc'|]; unfold orow, nout.
  - rewrite (select_ok Ap _ z c) by (unfold size; rewrite (proj1 H), (nth_pre _ _ _ 1) by lia; exact Ec).
    rewrite (select_ok AI _ z c) by (unfold size; rewrite (proj1 H0), (nth_pre _ _ _ 1) by lia; exact Ec).
    cbn [bind]. nm (sel (length pa + 1) c Ap). nm (sel (length pa + 1) c AI). rewrite Ec.
    assert (Hm2 : isP2 v pa ((bs - 1) * 1) M (fun q r m => pf q (S (r / 1)) c m)).
    { fin H1; [lia|reflexivity|]. intros q i j Hq Hi Hj. now rewrite Nat.div_1_r. }
    destruct x3; unfold nfeat.
    + pose proof (P2_full pa (bs - 2) M (@r0 R)) as Hf. unfold zeros. set (zz := full _ _) in *. clearbody zz.
      cat2. unfold1. nm (transpose (rk w0 - 2) (rk w0 - 1) w0). nm (flip (rk v1 - 3) v1).
      nm (flatten (rk v2 - 2) (rk v2 - 1) v2).
      eexists _, _. split; [reflexivity|]. split; [exact Hm2|]. fin H7; [lia|reflexivity|].
      intros q r s Hq Hr Hs. rewrite (Nat.div_1_r r).
      assert (s / M < bs - 1)%nat by (apply Hrow; lia).
      replace (bs - 1 + (bs - 2) - (bs - 1) + 1 - 1 - r)%nat with (bs - 1 - 1 - r)%nat by lia.
      rewrite Hc by lia. destruct (s / M <=? r) eqn:E; b2p; [|reflexivity]. f_equal. lia.
    + assert (Hs0 : isP1 (sel (rk v0 - 1) 0 v0) pa (bs - 1) (fun q i => pf q (bs - 1 - S i)%nat c 0%nat)).
      { nm (sel (rk v0 - 1) 0 v0). exact H3. }
      rewrite (select_ok v0 _ 0%Z 0%nat) by (unfold size; rewrite (proj1 H2), (nth_pre _ _ _ 1) by dimt; cbn [nth]; apply (pyidx_nat M 0); lia).
      cbn [bind]. set (v1 := sel _ _ _) in *. clearbody v1.
      pose proof (P1_full pa (bs - 2) (@r0 R)) as Hf. unfold zeros. set (zz := full _ _) in *. clearbody zz.
      cat2. unfold1. nm (flip (rk w0 - 2) w0).
      eexists _, _. split; [reflexivity|]. split; [exact Hm2|]. fin H5; [lia|lia|].
      intros q r s Hq Hr Hs. rewrite (Nat.div_1_r r). destruct (dm_1 s) as [-> ->].
      replace (bs - 1 + (bs - 2) - (bs - 1) + 1 - 1 - r)%nat with (bs - 1 - 1 - r)%nat by lia.
      rewrite Hc by lia. destruct (s <=? r) eqn:E; b2p; [|reflexivity]. f_equal. lia.
  - nm (flatten (length pa) (length pa + 1) Ap).
    assert (Hm2 : isP2 v pa ((bs - 1) * M) M (fun q r m => pf q (S (r / M)) (r mod M) m)).
    { fin H1; auto. }
    destruct x3; unfold nfeat.
    + pose proof (P3_full pa (bs - 2) M M (@r0 R)) as Hf. unfold zeros. set (zz := full _ _) in *. clearbody zz.
      cat2. unfold1. nm (transpose (rk w0 - 2) (rk w0 - 1) w0). nm (flip (rk v0 - 4) v0).
      nm (flatten (rk v1 - 4) (rk v1 - 3) v1). nm (flatten (rk v2 - 2) (rk v2 - 1) v2).
      eexists _, _. split; [reflexivity|]. split; [exact Hm2|]. fin H7; [nia|reflexivity|].
      intros q r s Hq Hr Hs.
      assert (s / M < bs - 1)%nat by (apply Hrow; lia). assert (r / M < bs - 1)%nat by (apply Hrow; lia).
      replace (bs - 1 + (bs - 2) - (bs - 1) + 1 - 1 - r / M)%nat with (bs - 1 - 1 - r / M)%nat by lia.
      rewrite Hc by lia. destruct (s / M <=? r / M) eqn:E; b2p; [|reflexivity]. f_equal. lia.
    + assert (Hs0 : isP2 (sel (rk AI - 1) 0 AI) pa (bs - 1) M (fun q i j => pf q (bs - 1 - S i)%nat j 0%nat)).
      { nm (sel (rk AI - 1) 0 AI). exact H2. }
      rewrite (select_ok AI _ 0%Z 0%nat) by (unfold size; rewrite (proj1 H0), (nth_pre _ _ _ 2) by dimt; cbn [nth]; apply (pyidx_nat M 0); lia).
      cbn [bind]. set (v1 := sel _ _ _) in *. clearbody v1.
      pose proof (P2_full pa (bs - 2) M (@r0 R)) as Hf. unfold zeros. set (zz := full _ _) in *. clearbody zz.
      cat2. unfold1. nm (flip (rk w0 - 3) w0). nm (flatten (rk v0 - 3) (rk v0 - 2) v0).
      eexists _, _. split; [reflexivity|]. split; [exact Hm2|]. fin H5; [nia|lia|].
      intros q r s Hq Hr Hs. destruct (dm_1 s) as [-> ->].
      assert (r / M < bs - 1)%nat by (apply Hrow; lia).
      replace (bs - 1 + (bs - 2) - (bs - 1) + 1 - 1 - r / M)%nat with (bs - 1 - 1 - r / M)%nat by lia.
      rewrite Hc by lia. destruct (s <=? r / M) eqn:E; b2p; [|reflexivity]. f_equal. lia.
Qed.

Lemma flat_same (t : ten) pre n m f : isP2 t pre n m f ->
  isP2 (flatten (length pre + 1) (length pre + 1) t) pre n m f.
Proof.
  intros [Hs Hf]. unfold flatten. rewrite Hs.
  replace (S (length pre + 1) - (length pre + 1))%nat with 1%nat by lia.
  assert (skipn (length pre + 1) (pre ++ [n; m]) = [m]) as ->.
  { rewrite skipn_app, skipn_all2 by lia. replace (length pre + 1 - length pre)%nat with 1%nat by lia. reflexivity. }
  assert (skipn (S (length pre + 1)) (pre ++ [n; m]) = []) as -> by (apply skipn_all2; rewrite app_length; cbn; lia).
  assert (firstn (length pre + 1) (pre ++ [n; m]) = pre ++ [n]) as ->.
  { rewrite firstn_app, firstn_all2 by lia. replace (length pre + 1 - length pre)%nat with 1%nat by lia. reflexivity. }
  cbn [firstn prod]. split.
  - cbn [shape]. now rewrite <- app_assoc.
  - intros q i j Hq Hi Hj. cbn [at_].
    assert (length q = length pre) as Hlq by (apply (vld_len _ _ Hq)).
    assert (skipn (S (length pre + 1)) (q ++ [i; j]) = []) as -> by (apply skipn_all2; rewrite app_length; cbn; lia).
    assert (firstn (length pre + 1) (q ++ [i; j]) = q ++ [i]) as ->.
    { rewrite firstn_app, firstn_all2 by lia. replace (length pre + 1 - length q)%nat with 1%nat by lia. reflexivity. }
    rewrite (nth_pre q [i; j] _ 1) by lia. cbn [nth unravel prod]. rewrite ?Nat.div_1_r, ?app_nil_r, <- app_assoc.
    cbn [app]. apply Hf; auto; lia.
Qed.

Lemma sig_size B N F (x : ten) xf : sigv B N F x xf ->
  size x 0 = B /\ size x 1 = N /\ ((rk x =? 2) || (rk x =? 3))%bool = true /\
  features x = F /\ (rk x =? 2 = match F with None => true | Some _ => false end)%nat.
Proof.
  unfold sigv, features, sizen, size. destruct F as [K|]; intros [Hs _]; unfold rk; rewrite Hs; cbn; auto.
Qed.

Lemma ss_zi_spec B M (x : ten) zi z0 : (1 <= M)%nat -> init B M zi z0 ->
  exists z, ss_zi x zi B M = Ok z /\ is2 z B M z0.
Proof.
  intros HM [f Hf|t g f Ht Hf|t g f Ht Hf]; unfold ss_zi.
  - eexists; split; [reflexivity|]. pose proof (P1_full [B] M (@r0 R)) as H. apply is2_P1. fin H; auto.
    intros q m Hq Hm. apply vld_1_inv in Hq as (b & -> & Hb). cbn [nth]. now rewrite Hf.
  - rkt. cbn [Nat.eqb]. replace (size t 0) with M by (unfold size; now rewrite (proj1 Ht)).
    assert (Hu : is2 (unsqueeze 0 t) 1 M (fun _ m => g m)).
    { apply is1_P in Ht. nm (unsqueeze 0 t). apply is2_P. exact H. }
    destruct (expand_2 _ 1 M B M _ Hu ltac:(auto) ltac:(auto)) as (y & E & Hy). exists y. split; [exact E|].
    eapply is2_ext; [exact Hy|]. intros b m Hb Hm. cbn beta. rewrite bi_lt by assumption. now rewrite Hf.
  - rkt. cbn [Nat.eqb]. exists t. split; [reflexivity|]. eapply is2_ext; [exact Ht|]. intros. now rewrite Hf.
Qed.

(** The states before each step, and the final state, from one run of the recursion. *)
Lemma ss_states B N M (z : ten) (zi : option ten) z0 (oi : option Z) (run : option Z -> res ten) (h : nat -> nat -> nat -> R) yr :
  (1 <= N)%nat -> (1 <= M)%nat -> is2 z B M z0 -> idx_ok M oi -> (forall b m, h b 0%nat m = z0 b m) ->
  (let oi' := match zi with None => oi | Some _ => None end in run oi' = Ok yr /\ picks B N M oi' yr (fun b n m => h b (S n) m)) ->
  exists hh zf,
    match oi with
    | None =>
        let* h := run None in
        let* zf := if match zi with Some _ => true | None => false end
                   then let* z := select 1 (-1) h in Ok (Some z) else Ok None in
        let* h := cat 1 [unsqueeze 1 z; slice 1 None (Some (-1)%Z) h] in
        Ok (h, zf)
    | Some i =>
        if match zi with Some _ => true | None => false end then
          let* h := run None in
          let* zf := select 1 (-1) h in
          let* z0 := select 1 i z in
          let* h1 := select 2 i (slice 1 None (Some (-1)%Z) h) in
          let* h := cat 1 [unsqueeze 1 z0; h1] in
          Ok (h, Some zf)
        else
          let* h := run (Some i) in
          let* z0 := select 1 i z in
          let* h := cat 1 [unsqueeze 1 z0; slice 1 None (Some (-1)%Z) h] in
          Ok (h, None)
    end%res = Ok (hh, zf) /\ picks B N M oi hh (fun b n m => h b n m) /\
    match zi with
    | None => zf = None
    | Some _ => exists z, zf = Some z /\ is2 z B M (fun b m => h b N m)
    end.
Proof.
  intros HN HM Hzz Hoi Hh0 [Erun Hy].
  pose proof Hzz as Hz1. apply is2_P1 in Hz1.
  assert (Hsl : forall (t : ten) g, is3 t B N M g ->
       select 1 (-1) t = Ok (sel 1 (N - 1) t) /\ is2 (sel 1 (N - 1) t) B M (fun b m => g b (N - 1)%nat m)).
    { intros t g Ht. split.
      - apply select_ok. unfold size. rewrite (proj1 Ht). cbn [nth]. apply pyidx_m1. lia.
      - apply sel_13 with (N := N); [exact Ht|lia]. }
    destruct oi as [i|].
    - destruct Hoi as (k & Hk).
      pose proof (pyidx_lt _ _ _ Hk) as Hkl.
      assert (Hz0 : select 1 i z = Ok (sel 1 k z)) by (apply select_ok; unfold size; rewrite (proj1 Hzz); exact Hk).
      assert (Hz0v : isP0 (sel 1 k z) [B] (fun q => z0 (nth 0 q 0%nat) k)).
      { pose proof (P1_sel0 z [B] M _ 1 k Hz1 ltac:(reflexivity) Hkl) as H. exact H. }
      set (z00 := sel 1 k z) in *. clearbody z00.
      assert (Hz0u : isP1 (unsqueeze 1 z00) [B] 1 (fun q _ => z0 (nth 0 q 0%nat) k)) by (eapply P0_unsq0; [exact Hz0v|reflexivity]).
      destruct zi as [zi|].
      + rewrite Erun. cbn [bind picks] in *.
        destruct (Hsl yr _ Hy) as [-> Hzfv]. cbn [bind]. rewrite Hz0. cbn [bind].
        apply is3_P2 in Hy. nm (slice 1 None (Some (-1)%Z) yr).
        rewrite (select_ok v 2 i k) by (unfold size; rewrite (proj1 H); exact Hk). cbn [bind].
        nm (sel 2 k v). set (zu := unsqueeze 1 z00) in *. clearbody zu. cat2.
        eexists _, _. split; [reflexivity|]. split.
        * intros k' Hk'. rewrite Hk in Hk'. injection Hk' as <-. apply is2_P1. fin H1; [lia|].
          intros q n Hq Hn. destruct (n <? 1)%nat eqn:E; b2p.
          -- replace n with 0%nat by lia. now rewrite Hh0.
          -- replace (S (0 + (n - 1))) with n by lia. reflexivity.
        * eexists. split; [reflexivity|]. eapply is2_ext; [exact Hzfv|]. intros b m Hb Hm. cbn beta.
          now replace (S (N - 1)) with N by lia.
      + rewrite Erun. cbn [bind picks] in *. rewrite Hz0. cbn [bind].
        specialize (Hy k Hk). apply is2_P1 in Hy. nm (slice 1 None (Some (-1)%Z) yr).
        set (zu := unsqueeze 1 z00) in *. clearbody zu. cat2.
        eexists _, _. split; [reflexivity|]. split; [|reflexivity].
        intros k' Hk'. rewrite Hk in Hk'. injection Hk' as <-. apply is2_P1. fin H0; [lia|].
        intros q n Hq Hn. destruct (n <? 1)%nat eqn:E; b2p.
        -- replace n with 0%nat by lia. now rewrite Hh0.
        -- replace (S (0 + (n - 1))) with n by lia. reflexivity.
    - assert (Erun' : run None = Ok yr) by (destruct zi; exact Erun).
      assert (Hy' : picks B N M None yr (fun b n m => h b (S n) m)) by (destruct zi; exact Hy). clear Erun Hy. rename Hy' into Hy.
      rewrite Erun'. cbn [bind picks] in *.
      destruct (Hsl yr _ Hy) as [Es Hzfv]. apply is3_P2 in Hy. nm (slice 1 None (Some (-1)%Z) yr). nm (unsqueeze 1 z).
      assert (Hfin : forall w, isP2 w [B] (1 + (N - 1)) M (fun q n m => if n <? 1 then z0 (nth 0 q 0%nat) m else h (nth 0 q 0%nat) (S (0 + (n - 1))) m) ->
          is3 w B N M (fun b n m => h b n m)).
      { intros w Hw. apply is3_P2. fin Hw; [lia|auto|].
        intros q n m Hq Hn Hm. destruct (n <? 1)%nat eqn:E; b2p.
        -- replace n with 0%nat by lia. now rewrite Hh0.
        -- replace (S (0 + (n - 1))) with n by lia. reflexivity. }
      destruct zi as [zi|].
      + rewrite Es. cbn [bind]. cat2. eexists _, _. split; [reflexivity|]. split; [apply Hfin; exact H1|].
        eexists. split; [reflexivity|]. eapply is2_ext; [exact Hzfv|]. intros b m Hb Hm. cbn beta.
        now replace (S (N - 1)) with N by lia.
      + cbn [bind]. cat2. eexists _, _. split; [reflexivity|]. split; [apply Hfin; exact H1|reflexivity].
Qed.

End Raw.

Section S.
Variable R : cring.
Add Ring Rr : (r_th R).
Notation ten := (tensor (car R)).
Open Scope cr_scope.

Lemma loop_spec B N M (A zi x : ten) Af zf u oi :
  (1 <= N)%nat -> (1 <= M)%nat -> matc B M A Af -> is2 zi B M zf -> drive B N M x u -> idx_ok M oi ->
  exists y, recursion_loop A zi x oi = Ok y /\
    picks B N M oi y (fun b n m => state M (fun _ => Af b) (zf b) (u b) (S n) m).
Proof.
  intros HN HM HA Hz Hx Hi. destruct (loop_raw R B N M A zi x Af zf u oi HN HM HA Hz Hx Hi) as (y & E & Hy).
  exists y. split; [exact E|]. unfold picks in *. destruct oi as [i|].
  - intros c Hc. eapply is2_ext; [exact (Hy c Hc)|]. intros b n Hb Hn. apply hstate_state.
  - eapply is3_ext; [exact Hy|]. intros b n m Hb Hn Hm. now apply hstate_state.
Qed.

(** ** The compiled paths *)
(** The back-ends [_ext_ss_recur] needs for M states. *)
Definition ext_avail (e : env) (M : nat) : Prop :=
  env_ok e /\
  ((M <= 2)%nat -> ext e = true /\ (cuda e = true -> ext_cuda e = true)) /\
  ((3 <= M)%nat -> helion_backend_indicator e = true \/ (ext e = true /\ cuda e = false)).

Lemma squeeze_sel (t : ten) d : size t d = 1%nat -> squeeze d t = sel d 0 t.
Proof. intro H. unfold squeeze. now rewrite H. Qed.

Lemma lin_rec_state1 (A : nat -> nat -> R) z u n :
  state 1 (fun _ => A) z u n 0 = lin_rec (fun _ => A 0%nat 0%nat) (z 0%nat) (fun k => u k 0%nat) n.
Proof.
  induction n as [|n IH]; [reflexivity|]. cbn [state lin_rec]. rewrite <- IH. unfold mvec. cbn [bsum]. ring.
Qed.

Lemma ext_spec e B N M (A zi x : ten) Af zf u oi :
  ext_avail e M -> (1 <= B)%nat -> (1 <= M)%nat ->
  matc B M A Af -> is2 zi B M zf -> drive B N M x u -> idx_ok M oi ->
  exists y, ext_ss_recur e A zi x oi = Ok y /\
    picks B N M oi y (fun b n m => state M (fun _ => Af b) (zf b) (u b) (S n) m).
Proof.
  intros (He & He2 & He3) HB HM HA Hz Hx Hi. unfold ext_ss_recur.
  assert (ext e || helion e = true)%bool as ->.
  { destruct (le_lt_dec M 2) as [H|H]; [destruct (He2 H) as [-> _]; reflexivity|].
    unfold helion_backend_indicator in He3. destruct (He3 ltac:(lia)) as [E|[-> _]]; [|reflexivity].
    apply andb_true_iff in E as [E _]. apply andb_true_iff in E as [-> _]. apply orb_true_r. }
  assert (sizen A 1 = M) as -> by (destruct HA as [g HA _|HA]; unfold sizen, rk; now rewrite (proj1 HA)).
  match goal with |- context [bind ?t _] =>
    assert (exists y, t = Ok y /\ is3 y B N M (fun b n m => state M (fun _ => Af b) (zf b) (u b) (S n) m))
      as (y & -> & Hy) end.
  { destruct (Nat.eq_dec M 1) as [E1|E1].
    - subst M. destruct (He2 ltac:(lia)) as [X1 X2]. cbn [Nat.eqb].
      assert (exists a, (let* a0 := select (rk A - 1) 0 A in select (rk a0 - 1) 0 a0)%res = Ok a /\
                coef B a (fun b => Af b 0%nat 0%nat)) as (a & Ea & Ha).
      { destruct HA as [g HA HAg|HA].
        - rewrite (select_ok A _ 0%Z 0%nat) by (rkt; unfold size; rewrite (proj1 HA); reflexivity). cbn [bind].
          apply is2_P in HA. nm (sel (rk A - 1) 0 A).
          rewrite (select_ok v _ 0%Z 0%nat) by (unfold size; rkt; rewrite (proj1 H); reflexivity).
          eexists; split; [reflexivity|]. pose proof (P1_sel0 v [] 1 _ (rk v - 1) 0 H ltac:(dimt) ltac:(lia)) as H'.
          apply coef_0 with (v := g 0%nat 0%nat); [apply is0_P0; exact H'|]. intros. now rewrite HAg by lia.
        - rewrite (select_ok A _ 0%Z 0%nat) by (rkt; unfold size; rewrite (proj1 HA); reflexivity). cbn [bind].
          apply is3_P2 in HA. nm (sel (rk A - 1) 0 A).
          rewrite (select_ok v _ 0%Z 0%nat) by (unfold size; rkt; rewrite (proj1 H); reflexivity).
          eexists; split; [reflexivity|]. pose proof (P1_sel0 v [B] 1 _ (rk v - 1) 0 H ltac:(dimt) ltac:(lia)) as H'.
          apply coef_B. apply is1_P0. exact H'. }
      assert (Hzz : is1 (squeeze (rk zi - 1) zi) B (fun b => zf b 0%nat)).
      { rewrite squeeze_sel by (rkt; unfold size; now rewrite (proj1 Hz)).
        apply is2_P1 in Hz. pose proof (P1_sel0 zi [B] 1 _ (rk zi - 1) 0 Hz ltac:(dimt) ltac:(lia)) as H'.
        apply is1_P0. exact H'. }
      set (zz := squeeze _ _) in *. clearbody zz. 
      assert (Hfin : forall x1, is2 x1 B N (fun b n => u b n 0%nat) ->
         exists y, (let* y := LTIRecurrence_forward e a zz x1 in Ok (unsqueeze (rk y) y))%res = Ok y /\
            is3 y B N 1 (fun b n m => state 1 (fun _ => Af b) (zf b) (u b) (S n) m)).
      { intros x1 Hx1. unfold LTIRecurrence_forward.
        destruct (op_lti_recur_spec R e B N a zz x1 _ _ _ He X1 X2 HB Ha Hzz Hx1) as (y & -> & Hy). cbn [bind].
        eexists; split; [reflexivity|]. apply is2_P1 in Hy. nm (unsqueeze (rk y) y). apply is3_P2. fin H; auto.
        intros q n m Hq Hn Hm. replace m with 0%nat by lia. now rewrite lin_rec_state1. }
      assert (Hbind : forall {X} (r : res ten) (k1 : ten -> res ten) (k2 : ten -> res X),
                bind r (fun a0 => bind (k1 a0) k2) = bind (bind r k1) k2).
      { intros X [t|er]; reflexivity. }
      destruct Hx as [f Hx Hu|Hx]; rkt; cbn [Nat.eqb andb]; rewrite Hbind, Ea; cbn [bind].
      + apply Hfin. eapply is2_ext; [exact Hx|]. intros b n Hb Hn. now rewrite Hu by lia.
      + apply Hfin. rewrite squeeze_sel by (rkt; unfold size; now rewrite (proj1 Hx)).
        apply is3_P2 in Hx. apply is2_P1. cbn [Nat.sub]. nm (sel 2 0 x). exact H.
    - bfalse (M =? 1)%nat. rewrite andb_false_r.
      assert (exists x', (if rk x =? 2 then pad_features x M else Ok x) = Ok x' /\ is3 x' B N M u)
        as (x' & -> & Hx').
      { destruct Hx as [f Hx Hu|Hx]; rkt; cbn [Nat.eqb].
        - destruct (pad_features_spec R x B N M f HM Hx) as (y & -> & Hy). exists y. split; [reflexivity|].
          eapply is3_ext; [exact Hy|]. intros. cbn beta. now rewrite Hu.
        - eauto. }
      cbn [bind]. unfold LTIMatrixRecurrence_forward.
      assert (sizen x' 1 = M) as -> by (unfold sizen, rk; now rewrite (proj1 Hx')).
      destruct (Nat.eq_dec M 2) as [E2|E2].
      + subst M. destruct (He2 ltac:(lia)) as [X1 X2]. cbn [Nat.eqb].
        now apply op_lti_recur2_spec.
      + bfalse (M =? 2)%nat. destruct (helion_backend_indicator e) eqn:Eh.
        * now apply hl_lti_spec.
        * destruct (He3 ltac:(lia)) as [?|[X1 X2]]; [discriminate|]. now apply op_lti_recurN_spec. }
  cbn [bind]. destruct oi as [i|]; cbn [picks].
  - rkt. cbn [Nat.eqb]. destruct Hi as (c & Hc). pose proof (pyidx_lt _ _ _ Hc).
    rewrite (select_ok y 2 i c) by (unfold size; rewrite (proj1 Hy); exact Hc).
    eexists; split; [reflexivity|]. intros c' Hc'. rewrite Hc in Hc'. injection Hc' as <-.
    apply is3_P2 in Hy. apply is2_P1. nm (sel 2 c y). exact H0.
  - eauto.
Qed.

(** ** The augmented matrix of one block *)
Lemma aug_spec pa bs M x3 (Ap AI : ten) (al : list nat -> nat -> nat -> R) oi :
  (2 <= bs)%nat -> (1 <= M)%nat -> idx_ok M oi ->
  isP3 Ap pa bs M M (fun q k => mpow M (al q) (S k)) ->
  isP3 AI pa bs M M (fun q k => mpow M (al q) (bs - 1 - k)) ->
  exists m2 m3, aug_mats x3 Ap AI bs M oi = Ok (m2, m3) /\
    isP2 m2 pa ((bs - 1) * nout oi M) M
      (fun q r m => mpow M (al q) (S (r / nout oi M)) (orow oi M (r mod nout oi M)) m) /\
    isP2 m3 pa ((bs - 1) * nout oi M) ((bs - 1) * nfeat x3 M)
      (fun q r s => if s / nfeat x3 M <=? r / nout oi M
         then mpow M (al q) (r / nout oi M - s / nfeat x3 M) (orow oi M (r mod nout oi M)) (s mod nfeat x3 M)
         else 0).
Proof. intros. now apply (aug_raw R pa bs M x3 Ap AI (fun q => mpow M (al q)) oi). Qed.

Lemma bsum_feat M F (f g : nat -> R) : (F = 1%nat \/ F = M) -> (1 <= M)%nat ->
  (forall m, (m < M)%nat -> g m = if m <? F then f m else 0) ->
  forall h : nat -> R, bsum F (fun m => f m * h m) = bsum M (fun m => g m * h m).
Proof.
  intros HF HM Hg h. rewrite (bsum_trunc F M (fun m => g m * h m)).
  - apply bsum_ext. intros m Hm. rewrite Hg by lia. now bdec.
  - destruct HF; lia.
  - intros m H1 H2. rewrite Hg by lia. bdec. ring.
Qed.

Lemma ssr_fuel_spec e fuel : forall B N M (A zi x : ten) Af zf u bs oi,
  (N < fuel)%nat -> (1 <= B)%nat -> (1 <= N)%nat -> (1 <= M)%nat -> (1 <= bs)%nat ->
  (helion_backend_indicator e = true -> ext_avail e M) ->
  matc B M A Af -> is2 zi B M zf -> drive B N M x u -> idx_ok M oi ->
  exists y, state_space_recursion_fuel e fuel A zi x bs oi = Ok y /\
    picks B N M oi y (fun b n m => state M (fun _ => Af b) (zf b) (u b) (S n) m).
Proof.
  induction fuel as [|fuel IH]; intros B N M A zi x Af zf u bs oi Hf HB HN HM Hbs He HA Hz Hx Hi; [lia|].
  cbn [state_space_recursion_fuel].
  assert (size x 0 = B) as -> by (destruct Hx as [f Hx _|Hx]; unfold size; now rewrite (proj1 Hx)).
  assert (size x 1 = N) as -> by (destruct Hx as [f Hx _|Hx]; unfold size; now rewrite (proj1 Hx)).
  assert (((rk x =? 2) || (rk x =? 3))%bool = true) as ->
    by (destruct Hx as [f Hx _|Hx]; rkt; reflexivity).
  assert (((rk A =? 2) || (rk A =? 3))%bool = true) as ->
    by (destruct HA as [g HA _|HA]; rkt; reflexivity).
  assert (sizen A 1 = M) as -> by (destruct HA as [g HA _|HA]; unfold sizen, rk; now rewrite (proj1 HA)).
  assert (sizen A 2 = M) as -> by (destruct HA as [g HA _|HA]; unfold sizen, rk; now rewrite (proj1 HA)).
  assert ((negb (rk A =? 3) || (B =? size A 0))%bool = true) as ->.
  { destruct HA as [g HA _|HA]; rkt; [reflexivity|]. unfold size. rewrite (proj1 HA). cbn [nth]. now rewrite !Nat.eqb_refl. }
  assert ((negb (rk x =? 3) || (M =? sizen x 1))%bool = true) as ->.
  { destruct Hx as [f Hx _|Hx]; rkt; [reflexivity|]. unfold sizen, rk. rewrite (proj1 Hx). cbn [length Nat.sub nth]. now rewrite !Nat.eqb_refl. }
  assert (size zi 0 = B) as -> by (unfold size; now rewrite (proj1 Hz)).
  assert (size zi 1 = M) as -> by (unfold size; now rewrite (proj1 Hz)).
  rewrite (i2_rk _ _ _ _ Hz), !Nat.eqb_refl. cbn [Nat.eqb]. bfalse (bs <? 1)%nat. cbn [negb].
  destruct ((bs =? 1) || (N <=? bs))%bool eqn:Eb.
  { destruct (helion_backend_indicator e) eqn:Eh.
    - apply ext_spec; auto.
    - apply loop_spec; auto. }
  b2p.
  (* padding *)
  destruct (blocks N bs) as (k & Hk1 & Hk2 & Hk0 & HkN); [lia|lia|].
  set (xp := if negb (N mod bs =? 0) then pad 1 0 (bs - N mod bs) r0 x else x).
  set (X := fun b n m => if n <? N then u b n m else 0).
  assert (exists (x3 : bool) (Xf : nat -> nat -> nat -> R) (ux : ten), rk xp = (if x3 then 3 else 2)%nat /\
     (let* ux0 := unflatten_m1 1 bs xp in Ok (flatten 2 (rk ux0 - 1) ux0))%res = Ok ux /\
     isP2 ux [B] k (bs * nfeat x3 M) (fun q c j => Xf (nth 0 q 0%nat) (c * bs + j / nfeat x3 M)%nat (j mod nfeat x3 M)) /\
     (forall b n m, (b < B)%nat -> (n < k * bs)%nat -> (m < M)%nat -> X b n m = if m <? nfeat x3 M then Xf b n m else 0))
    as (x3 & Xf & ux & Hrk & Eux & Hux & HX).
  { destruct Hx as [f Hx Hu|Hx].
    - exists false, (fun b n _ => if n <? N then f b n else 0).
      apply is2_P1 in Hx.
      assert (Hxp : isP1 xp [B] (k * bs) (fun q n => if n <? N then f (nth 0 q 0%nat) n else 0)).
      { unfold xp. destruct (N mod bs =? 0) eqn:Er; b2p; cbn [negb].
        - fin Hx; [lia|]. intros q n Hq Hn. bdec. reflexivity.
        - eassert (isP1 (pad 1 0 (bs - N mod bs) r0 x) _ _ _) as Hp by vsolve.
          fin Hp; [lia|]. intros q n Hq Hn. cbn [Nat.leb Nat.add andb]. now rewrite Nat.sub_0_r. }
      clearbody xp.
      rewrite (unflatten_m1_ok xp 1 bs k) by (try lia; unfold size; now rewrite (proj1 Hxp)).
      mstep. pose proof (flat_same R w [B] k bs _ H1) as H2. replace (rk w - 1)%nat with 2%nat by dimt.
      eexists. split; [dimt|]. split; [reflexivity|]. split.
      + unfold nfeat. fin H2; [auto|lia|]. intros q c j Hq Hc Hj. now rewrite Nat.div_1_r.
      + intros b n m Hb Hn Hm. unfold X, nfeat. destruct (n <? N) eqn:E; b2p.
        * rewrite Hu by lia. destruct m; reflexivity.
        * destruct (m <? 1)%nat; reflexivity.
    - exists true, X. apply is3_P2 in Hx.
      assert (Hxp : isP2 xp [B] (k * bs) M (fun q n => X (nth 0 q 0%nat) n)).
      { unfold xp. destruct (N mod bs =? 0) eqn:Er; b2p; cbn [negb].
        - fin Hx; [lia|auto|]. intros q n m Hq Hn Hm. unfold X. bdec. reflexivity.
        - eassert (isP2 (pad 1 0 (bs - N mod bs) r0 x) _ _ _ _) as Hp by vsolve.
          fin Hp; [lia|auto|]. intros q n m Hq Hn Hm. cbn [Nat.leb Nat.add andb]. now rewrite Nat.sub_0_r. }
      clearbody xp.
      rewrite (unflatten_m1_ok xp 1 bs k) by (try lia; unfold size; now rewrite (proj1 Hxp)).
      mstep. replace (rk w - 1)%nat with 3%nat by dimt. nm (flatten 2 3 w).
      eexists. split; [dimt|]. split; [reflexivity|]. split.
      + unfold nfeat. fin H2; auto.
      + intros b n m Hb Hn Hm. unfold nfeat. bdec. reflexivity. }
  rewrite Eux. cbn [bind]. clear Eux. clearbody xp. set (F := nfeat x3 M) in *.
  assert (HF : F = 1%nat \/ F = M) by (unfold F, nfeat; destruct x3; auto).
  (* A: shared or per batch *)
  assert (exists pa al, isP2 A pa M M al /\ (pa = [] \/ pa = [B]) /\ shape A = pa ++ [M; M] /\
    (forall b i j, (b < B)%nat -> (i < M)%nat -> (j < M)%nat ->
       al (match pa with [] => [] | _ => [b] end) i j = Af b i j))
    as (pa & al & HAp & Hpa & HAs & Hal).
  { destruct HA as [g HA HAg|HA].
    - exists [], (fun _ => g). apply is2_P in HA. split; [exact HA|]. split; [auto|]. split; [apply HA|]. intros. now rewrite HAg.
    - exists [B], (fun q => Af (nth 0 q 0%nat)). apply is3_P2 in HA. split; [exact HA|]. split; [auto|]. split; [apply HA|]. reflexivity. }
  assert (Halp : forall b n i j, (b < B)%nat -> (i < M)%nat -> (j < M)%nat ->
       mpow M (al (match pa with [] => [] | _ => [b] end)) n i j = mpow M (Af b) n i j).
  { intros b n i j Hb Hi0 Hj0. apply mpow_ext; auto. }
  destruct (mpa_nat_spec R A pa M al bs HAp ltac:(lia)) as (ap & -> & Hap). cbn [bind].
  rewrite (select_ok ap (rk ap - 3) (-1)%Z (bs - 1)).
  2: { unfold size. rewrite (proj1 Hap), (nth_pre _ _ _ 0) by dimt. cbn [nth]. apply pyidx_m1. lia. }
  cbn [bind].
  assert (Hapd : isP2 (sel (rk ap - 3) (bs - 1) ap) pa M M (fun q => mpow M (al q) bs)).
  { nm (sel (rk ap - 3) (bs - 1) ap). fin H1; auto. intros. now replace (S (bs - 1)) with bs by lia. }
  set (apd := sel (rk ap - 3) (bs - 1) ap) in *. clearbody apd.
  rewrite HAs.
  assert (HI : is2 (@eye R M) M M mid) by (apply is2_P; apply P2_eye; reflexivity).
  destruct (expand_pre2 (@eye R M) pa M M mid HI) as (I & -> & HIe). cbn [bind].
  nm (slice (rk ap - 3) None (Some (-1)%Z) ap). nm (flip (rk v - 3) v). nm (unsqueeze (rk I - 2) I).
  cat2. rename w into aI.
  assert (HaI : isP3 aI pa bs M M (fun q k0 => mpow M (al q) (bs - 1 - k0))).
  { fin H4; [lia|auto|auto|]. intros q c i j Hq Hc Hi0 Hj.
    destruct (c <? bs - 1)%nat eqn:E; b2p.
    - replace (S (0 + (bs - 1 - 1 - c))) with (bs - 1 - c)%nat by lia. reflexivity.
    - replace (bs - 1 - c)%nat with 0%nat by lia. reflexivity. }
  clear H1 H2 H3 H4 v v0 v1 HIe I.
  (* mat1 *)
  assert (exists m1,
    (if rk xp =? 3 then
        Ok (flatten (rk (transpose (rk aI - 2) (rk aI - 1) aI) - 3)
              (rk (transpose (rk aI - 2) (rk aI - 1) aI) - 2) (transpose (rk aI - 2) (rk aI - 1) aI))
      else select (rk aI - 1) 0 aI) = Ok m1 /\
    isP2 m1 pa (bs * F) M (fun q r i => mpow M (al q) (bs - 1 - r / F) i (r mod F))) as (m1 & -> & Hm1).
  { rewrite Hrk. unfold F, nfeat. destruct x3; cbn [Nat.eqb].
    - nm (transpose (rk aI - 2) (rk aI - 1) aI). cbv zeta. nm (flatten (rk v - 3) (rk v - 2) v).
      eexists; split; [reflexivity|]. fin H2; auto.
    - rewrite (select_ok aI _ 0%Z 0%nat) by (unfold size; rewrite (proj1 HaI), (nth_pre _ _ _ 2) by dimt; cbn [nth]; apply (pyidx_nat M 0); lia).
      eexists; split; [reflexivity|]. nm (sel (rk aI - 1) 0 aI). fin H1; [lia|auto|].
      intros q r i Hq Hr Hi0. destruct (dm_1 r) as [-> ->]. reflexivity. }
  cbn [bind].
  set (L := fun b n m => state M (fun _ => Af b) (zf b) (X b) n m).
  set (Z := fun b c i => bsum bs (fun j => mvec M (mpow M (Af b) (bs - 1 - j)) (X b (c * bs + j)%nat) i)).
  assert (exists z, matmul ux m1 = Ok z /\ is3 z B k M Z) as (z & -> & Hzz).
  { assert (Hsum : forall b c i, (b < B)%nat -> (c < k)%nat -> (i < M)%nat ->
      bsum (bs * F) (fun l => Xf b (c * bs + l / F)%nat (l mod F) * mpow M (Af b) (bs - 1 - l / F) i (l mod F)) = Z b c i).
    { intros b c i Hb Hc Hi0. rewrite (bsum_flat_dm bs F (fun s m => Xf b (c * bs + s)%nat m * mpow M (Af b) (bs - 1 - s) i m)).
      unfold Z. apply bsum_ext. intros j Hj. unfold mvec.
      rewrite (bsum_feat M F (Xf b (c * bs + j)%nat) (X b (c * bs + j)%nat) HF HM).
      - apply bsum_ext. intros. ring.
      - intros m Hm. apply HX; auto. nia. }
    assert (HFl : forall l, (l < bs * F -> l mod F < M)%nat).
    { intros l Hl. assert (F <> 0)%nat by (intro E; rewrite E in Hl; lia).
      pose proof (Nat.mod_upper_bound l F ltac:(assumption)). destruct HF; lia. }
    destruct Hpa as [->| ->]; mm; (eexists; split; [reflexivity|]); apply is3_P2; fin H1; auto;
      intros q c i Hq Hc Hi0; apply vld_1_inv in Hq as (b & -> & Hb); cbn [nth] in *;
      rewrite <- Hsum by assumption; apply bsum_ext; intros l Hl; rewrite <- Halp by (auto; lia); reflexivity. }
  cbn [bind].
  destruct (IH B k M apd zi z (fun b => mpow M (Af b) bs) zf Z bs None)
    as (rest & -> & Hrest); try lia; auto.
  { destruct Hpa as [->| ->].
    - apply matc_s with (g := mpow M (al []) bs).
      + apply is2_P. exact (isP2_ext _ _ _ _ _ _ Hapd (fun q i j Hq _ _ => f_equal (fun q => mpow M (al q) bs i j) (vld_nil_inv q Hq))).
      + intros b i j Hb Hi0 Hj. symmetry. now apply (Halp b).
    - apply matc_b. apply is3_P2. fin Hapd; auto. intros q i j Hq Hi0 Hj. apply vld_1_inv in Hq as (b & -> & Hb).
      now apply (Halp b). }
  { now apply drive_3. }
  { exact Logic.I. }
  cbn [bind]. cbn [picks] in Hrest. pose proof Hz as Hz1. apply is2_P1 in Hz1. apply is3_P2 in Hrest.
  nm (unsqueeze 1 zi). cat2. rename w into ini.
  assert (Hini : isP2 ini [B] (S k) M (fun q c i => L (nth 0 q 0%nat) (c * bs)%nat i)).
  { fin H2; auto. intros q c i Hq Hc Hi0. apply vld_1_inv in Hq as (b & -> & Hb). cbn [nth].
    destruct (c <? 1)%nat eqn:E; b2p.
    - replace c with 0%nat by lia. reflexivity.
    - replace (S (c - 1))%nat with c by lia. clear E Hc. revert i Hi0. induction c as [|c IHc]; intros i Hi0; [reflexivity|].
      cbn [state]. unfold L. replace (S c * bs)%nat with (c * bs + bs)%nat by lia.
      rewrite state_lti_closed by assumption. unfold Z at 2. f_equal.
      apply mvec_ext; [reflexivity|]. intros j Hj. apply IHc. exact Hj. }
  clear H1 H2 Hz1 Hrest v Hzz z rest.
  nm (slice 1 None (Some (-1)%Z) ini).
  assert (Hux2 : isP2 (slice 2 None (Some (- Z.of_nat (if (rk xp =? 2)%nat then 1%nat else M))%Z) ux) [B] k ((bs - 1) * F)
            (fun q c j => Xf (nth 0 q 0%nat) (c * bs + j / F)%nat (j mod F))).
  { assert ((if (rk xp =? 2)%nat then 1%nat else M) = F) as -> by (rewrite Hrk; unfold F, nfeat; now destruct x3).
    assert (0 < F)%nat by (destruct HF; lia).
    nm (slice 2 None (Some (- Z.of_nat F)%Z) ux). fin H3; [auto|rewrite ?pyb_neg by lia; nia|]. intros. reflexivity. }
  set (ux2 := slice 2 _ _ ux) in *. clearbody ux2.
  cat2. rename w into augx.
  assert ((rk xp =? 3)%nat = x3) as -> by (rewrite Hrk; now destruct x3).
  destruct (aug_spec pa bs M x3 ap aI al oi ltac:(lia) HM Hi Hap HaI) as (m2 & m3 & -> & Hm2 & Hm3).
  cbn [bind]. fold F in Hm3. set (G := nout oi M) in *.
  nm (mT m2). nm (mT m3). cat2. rename w into augA.
  assert (Hoi : forall r, (r < (bs - 1) * G)%nat -> (orow oi M (r mod G) < M)%nat).
  { intros r Hr. unfold orow, G, nout in *. destruct oi as [c|]; [|apply Nat.mod_upper_bound; lia].
    destruct Hi as (c0 & Ec). rewrite Ec. now apply pyidx_lt in Ec. }
  assert (HG : (1 <= G)%nat) by (unfold G, nout; destruct oi; lia).
  assert (exists o, matmul augx augA = Ok o /\
    isP2 o [B] k ((bs - 1) * G) (fun q c r => L (nth 0 q 0%nat) (c * bs + S (r / G))%nat (orow oi M (r mod G))))
    as (o & -> & Ho).
  { assert (Hsum : forall b c r, (b < B)%nat -> (c < k)%nat -> (r < (bs - 1) * G)%nat ->
      bsum (M + (bs - 1) * F) (fun l =>
        (if l <? M then L b (c * bs)%nat l else Xf b (c * bs + (l - M) / F)%nat ((l - M) mod F)) *
        (if l <? M then mpow M (Af b) (S (r / G)) (orow oi M (r mod G)) l
         else if (l - M) / F <=? r / G then mpow M (Af b) (r / G - (l - M) / F) (orow oi M (r mod G)) ((l - M) mod F) else 0))
      = L b (c * bs + S (r / G))%nat (orow oi M (r mod G))).
    { intros b c r Hb Hc Hr. pose proof (Hoi r Hr) as Ho. set (i := orow oi M (r mod G)) in *.
      assert (r / G < bs - 1)%nat as Hw by (apply Nat.div_lt_upper_bound; lia). set (w := (r / G)%nat) in *.
      unfold L. rewrite state_lti_closed by assumption. rewrite bsum_split. f_equal.
      - unfold mvec. apply bsum_ext. intros l Hl. bdec. ring.
      - rewrite (bsum_ext _ _ (fun l => Xf b (c * bs + l / F)%nat (l mod F) *
           (if l / F <=? w then mpow M (Af b) (w - l / F) i (l mod F) else 0))).
        2: { intros l Hl. bdec. replace (M + l - M)%nat with l by lia. reflexivity. }
        rewrite (bsum_flat_dm (bs - 1) F (fun s m => Xf b (c * bs + s)%nat m * (if s <=? w then mpow M (Af b) (w - s) i m else 0))).
        rewrite (bsum_trunc (S w) (bs - 1)).
        + apply bsum_ext. intros s Hs. bdec. unfold mvec.
          rewrite (bsum_feat M F (Xf b (c * bs + s)%nat) (X b (c * bs + s)%nat) HF HM).
          * apply bsum_ext. intros m Hm. replace (S w - 1 - s)%nat with (w - s)%nat by lia. ring.
          * intros m Hm. apply HX; auto. nia.
        + lia.
        + intros s Hs1 Hs2. apply bsum_0. intros m Hm. bdec. ring. }
    assert (HFl : forall l, (l < (bs - 1) * F -> l mod F < M)%nat).
    { intros l Hl. assert (F <> 0)%nat by (intro E; rewrite E in Hl; lia).
      pose proof (Nat.mod_upper_bound l F ltac:(assumption)). destruct HF; lia. }
    assert (Hent : forall b r l, (b < B)%nat -> (r < (bs - 1) * G)%nat -> (l < M + (bs - 1) * F)%nat ->
      let q := match pa with [] => [] | _ => [b] end in
      (if l <? M then mpow M (al q) (S (r / G)) (orow oi M (r mod G)) l
       else if (l - M) / F <=? r / G then mpow M (al q) (r / G - (l - M) / F) (orow oi M (r mod G)) ((l - M) mod F) else 0)
      = (if l <? M then mpow M (Af b) (S (r / G)) (orow oi M (r mod G)) l
       else if (l - M) / F <=? r / G then mpow M (Af b) (r / G - (l - M) / F) (orow oi M (r mod G)) ((l - M) mod F) else 0)).
    { intros b r l Hb Hr Hl. cbv zeta. destruct (l <? M)%nat eqn:El; b2p; [now apply Halp; auto|].
      destruct ((l - M) / F <=? r / G)%nat; [|reflexivity]. apply Halp; auto. apply HFl. lia. }
    destruct Hpa as [->| ->]; mm; (eexists; split; [reflexivity|]);
      match goal with H : isP2 _ [B] k ((bs - 1) * G) _ |- _ => fin H end; auto;
      intros q c r Hq Hc Hr; apply vld_1_inv in Hq as (b & -> & Hb); cbn [nth] in *;
      rewrite <- Hsum by assumption; apply bsum_ext; intros l Hl;
      rewrite <- (Hent b r l Hb Hr Hl); cbv zeta; reflexivity. }
  cbn [bind].
  clear - Ho Hini HM Hk1 Hk2 Hk0 HkN HG Hi Hbs H H0 HN L HX.
  nm (slice 1 (Some 1%Z) None ini). 
  assert (exists out, match oi with
      | None => (let* c := cat 2 [o; v] in let* u := unflatten_m1 2 M c in Ok (flatten 1 2 u))%res
      | Some i => (let* s := select 2 i v in let* c := cat 2 [o; unsqueeze 2 s] in Ok (flatten 1 2 c))%res
      end = Ok out /\ picks B (k * bs) M oi out (fun b n m => L b (S n) m)) as (out & -> & Hout).
  { unfold picks. destruct oi as [i|]; unfold G, nout, orow in Ho.
    - destruct Hi as (c & Hc). pose proof (pyidx_lt _ _ _ Hc) as Hcl. rewrite Hc in Ho.
      rewrite (select_ok v 2 i c) by (unfold size; rewrite (proj1 H1); exact Hc). cbn [bind].
      nm (sel 2 c v). nm (unsqueeze 2 v0). cat2. nm (flatten 1 2 w).
      eexists; split; [reflexivity|]. intros c' Hc'. rewrite Hc in Hc'. injection Hc' as <-.
      apply is2_P1. fin H5; [nia|]. intros q n Hq Hn.
      replace ((bs - 1) * 1 + 1)%nat with bs by lia. rewrite !Nat.div_1_r, Nat.mul_1_r.
      pose proof (Nat.div_mod n bs ltac:(lia)) as Edm. pose proof (Nat.mod_upper_bound n bs ltac:(lia)).
      destruct (n mod bs <? bs - 1)%nat eqn:E; b2p; f_equal; nia.
    - cat2. rewrite (unflatten_m1_ok w 2 M bs) by (try lia; unfold size; rewrite (proj1 H2); cbn [nth app]; nia).
      unflat2. nm (flatten 1 2 w0). eexists; split; [reflexivity|]. apply is3_P2. fin H4; auto.
      intros q n m Hq Hn Hm.
      pose proof (Nat.div_mod n bs ltac:(lia)) as Edm. pose proof (Nat.mod_upper_bound n bs ltac:(lia)).
      set (r := (n mod bs)%nat) in *. set (c := (n / bs)%nat) in *.
      destruct (r * M + m <? (bs - 1) * M)%nat eqn:E; b2p.
      + assert ((r * M + m) / M = r)%nat as -> by (rewrite Nat.div_add_l by lia; rewrite Nat.div_small by lia; lia).
        assert ((r * M + m) mod M = m)%nat as -> by (rewrite Nat.add_comm, Nat.mod_add by lia; apply Nat.mod_small; lia).
        f_equal. nia.
      + assert (r = bs - 1)%nat by nia. f_equal; [nia|]. subst r. nia. }
  cbn [bind]. cbv zeta.
  assert (HL : forall b n m, (n < N)%nat -> (m < M)%nat ->
     L b (S n) m = state M (fun _ => Af b) (zf b) (u b) (S n) m).
  { intros b n m Hn Hm. apply state_ext; auto. intros j i Hj Hi0. unfold X. bdec. reflexivity. }
  destruct (N mod bs =? 0)%nat eqn:Er; b2p; cbn [negb].
  - rewrite (Hk1 Er) in Hout. eexists; split; [reflexivity|]. unfold picks in *. destruct oi as [i|].
    + intros c Hc. eapply is2_ext; [exact (Hout c Hc)|]. intros b n Hb Hn. apply HL; auto. now apply pyidx_lt in Hc.
    + eapply is3_ext; [exact Hout|]. intros b n m Hb Hn Hm. now apply HL.
  - eexists; split; [reflexivity|]. specialize (Hk2 Er). pose proof (Nat.mod_upper_bound N bs ltac:(lia)).
    unfold picks in *. destruct oi as [i|].
    + intros c Hc. specialize (Hout c Hc). apply is2_P1 in Hout.
      nm (slice 1 None (Some (- Z.of_nat (bs - N mod bs))%Z) out). apply is2_P1. fin H3; [rewrite ?pyb_neg by lia; lia|].
      intros q n Hq Hn. apply HL; auto. now apply pyidx_lt in Hc.
    + apply is3_P2 in Hout. nm (slice 1 None (Some (- Z.of_nat (bs - N mod bs))%Z) out).
      apply is3_P2. fin H3; [rewrite ?pyb_neg by lia; lia|auto|].
      intros q n m Hq Hn Hm. now apply HL.
Qed.

Theorem state_space_recursion_spec e B N M (A zi x : ten) Af zf u bs oi :
  (1 <= B)%nat -> (1 <= N)%nat -> (1 <= M)%nat -> (1 <= bs)%nat ->
  (helion_backend_indicator e = true -> ext_avail e M) ->
  matc B M A Af -> is2 zi B M zf -> drive B N M x u -> idx_ok M oi ->
  exists y, state_space_recursion e A zi x bs oi = Ok y /\
    picks B N M oi y (fun b n m => state M (fun _ => Af b) (zf b) (u b) (S n) m).
Proof.
  intros. unfold state_space_recursion. apply ssr_fuel_spec; auto.
  match goal with H : drive _ _ _ x _ |- _ => destruct H as [f Hx _|Hx]; unfold size; rewrite (proj1 Hx) end; cbn; lia.
Qed.

(** ** state_space *)
Lemma mid_unit3 b i j : @unit3 R b i j = mid i j.
Proof. reflexivity. Qed.

Lemma ss_input_spec B N M F (x : ten) xf Bt Bm :
  sigv B N F x xf -> inmat B M F Bt Bm ->
  exists y, ss_input x Bt B M = Ok y /\
    drive B N M y (fun b n m => bsum (width F) (fun k => Bm b m k * xf b n k)).
Proof.
  intros Hx HB. destruct (sig_size R _ _ _ _ _ Hx) as (_ & _ & _ & Hfe & Hrk). unfold ss_input.
  destruct HB as [f Hf|f Hf|t g f Ht Hf|t g f Ht Hf|K t g f Ht Hne Hf|K t g f Ht Hf]; cbn [width] in *.
  - exists x. split; [reflexivity|]. unfold sigv in Hx. eapply drive_2; [exact Hx|].
    intros b n m Hb Hn Hm. cbn [bsum]. rewrite (Hf b m 0%nat) by lia. unfold unit3. destruct (m =? 0)%nat; ring.
  - exists x. split; [reflexivity|]. unfold sigv in Hx. apply drive_3. eapply is3_ext; [exact Hx|].
    intros b n m Hb Hn Hm. cbn beta. rewrite (bsum_one M _ m Hm).
    + rewrite Hf by lia. rewrite mid_unit3, mid_refl. ring.
    + intros k Hk Hkm. rewrite Hf by lia. rewrite mid_unit3, mid_neq by auto. ring.
  - cbn [sigv] in Hx. rewrite (proj1 Ht), Nat.eqb_refl. rkt. cbn [Nat.eqb].
    assert (Hu : is3 (unsqueeze 2 x) B N 1 (fun b n _ => xf b n 0%nat)).
    { apply is2_P1 in Hx. nm (unsqueeze 2 x). apply is3_P2. exact H. }
    set (v := unsqueeze 2 x) in *. clearbody v. apply is3_PP1 in Hu. apply is1_P in Ht. unfold tmul.
    eat @P1_ewl; [exact Hu|exact Ht|bdt|]. exists w. split; [reflexivity|]. apply drive_3. apply is3_PP1. fin H; auto.
    intros q m Hq Hm. apply vld_2_inv in Hq as (b & n & -> & Hb & Hn). cbn [nth bsum]. rewrite Hf by lia.
    rewrite (bi_lt M) by lia. ring.
  - cbn [sigv] in Hx. rewrite (proj1 Ht), !Nat.eqb_refl. rkt. cbn [Nat.eqb andb]. apply is2_P1 in Hx, Ht.
    nm (unsqueeze 2 x). nm (unsqueeze 1 t). unfold tmul. eat @P2_ew; [exact H|exact H0|bdt|bdt|].
    exists w. split; [reflexivity|]. apply drive_3. apply is3_P2. fin H1; auto.
    intros q n m Hq Hn Hm. apply vld_1_inv in Hq as (b & -> & Hb). cbn [nth bsum]. rewrite Hf by lia.
    rewrite !(bi_lt M), (bi_lt N) by lia. ring.
  - cbn [sigv] in Hx. rewrite (proj1 Ht), Hfe. cbn [feq]. rewrite !Nat.eqb_refl. cbn [andb].
    replace ((M =? B) && (K =? M))%nat with false by (symmetry; apply andb_false_iff; destruct Hne; [left|right]; now apply Nat.eqb_neq).
    apply is3_P2 in Hx. apply is2_P in Ht. nm (mT t). mm. exists w. split; [reflexivity|]. apply drive_3. apply is3_P2.
    fin H0; auto. intros q n m Hq Hn Hm. apply vld_1_inv in Hq as (b & -> & Hb). cbn [nth]. apply bsum_ext.
    intros k Hk. rewrite Hf by lia. ring.
  - cbn [sigv] in Hx. rewrite (proj1 Ht), Hfe. cbn [feq]. rewrite !Nat.eqb_refl. cbn [andb].
    apply is3_P2 in Hx, Ht. nm (unsqueeze 1 t). nm (tconj v). replace (rk x - 1)%nat with 2%nat by dimt.
    nm (unsqueeze 2 x). vdot. exists w. split; [reflexivity|]. apply drive_3. apply is3_P2.
    fin H2; auto. intros q n m Hq Hn Hm. apply vld_1_inv in Hq as (b & -> & Hb). cbn [nth]. apply bsum_ext.
    intros k Hk. rewrite conj_conj. rewrite (bi_lt N), (bi_lt M) by lia. rewrite Hf by lia. reflexivity.
Qed.

Lemma ssm_Ch_spec B N M P (h C : ten) (hf : nat -> nat -> nat -> R) Cm :
  is3 h B N M hf -> outmat B M None (Some C) P Cm ->
  exists y, ssm_Ch h C B M = Ok y /\ sigv B N P y (fun b n p => bsum M (fun m => Cm b p m * hf b n m)).
Proof.
  intros Hh HC. unfold ssm_Ch.
  remember (@None Z) as oi eqn:Eo. remember (Some C) as C' eqn:EC.
  destruct HC as [f Hf|i k f Hk Hf|t g f Ht Hf|t g f Ht Hf|K t g f Ht Hne Hf|K t g f Ht Hf]; try discriminate;
    injection EC as ->; unfold sigv; apply is3_P2 in Hh; rewrite (proj1 Ht), ?Nat.eqb_refl.
  - mm. exists w. split; [reflexivity|]. apply is2_P1. fin H; auto. intros q n Hq Hn.
    apply vld_1_inv in Hq as (b & -> & Hb). cbn [nth]. apply bsum_ext. intros m Hm. rewrite Hf by lia. ring.
  - cbn [andb]. apply is2_P1 in Ht. nm (unsqueeze 1 C). nm (tconj v). vdot. exists w. split; [reflexivity|].
    apply is2_P1. fin H1; auto. intros q n Hq Hn. apply vld_1_inv in Hq as (b & -> & Hb). cbn [nth].
    apply bsum_ext. intros m Hm. rewrite conj_conj, (bi_lt N) by lia. rewrite Hf by lia. reflexivity.
  - bfalse (K =? B)%nat. cbn [andb]. apply is2_P in Ht. nm (mT C). mm. exists w. split; [reflexivity|].
    apply is3_P2. fin H0; auto. intros q n p Hq Hn Hp. apply vld_1_inv in Hq as (b & -> & Hb). cbn [nth].
    apply bsum_ext. intros m Hm. rewrite Hf by lia. ring.
  - cbn [andb]. apply is3_P2 in Ht. nm (mT C). mm. exists w. split; [reflexivity|].
    apply is3_P2. fin H0; auto. intros q n p Hq Hn Hp. apply vld_1_inv in Hq as (b & -> & Hb). cbn [nth].
    apply bsum_ext. intros m Hm. rewrite Hf by lia. ring.
Qed.

Lemma bsum_diag K (v : R) (f : nat -> R) p : (p < K)%nat ->
  bsum K (fun k => (if p =? k then v else 0) * f k) = v * f p.
Proof.
  intro Hp. rewrite (bsum_one K _ p Hp).
  - now rewrite Nat.eqb_refl.
  - intros k Hk Hne. bdec. ring.
Qed.

Lemma ssm_Dx_spec B N F P (x D : ten) xf Dm :
  sigv B N F x xf -> feed B F P (Some D) Dm ->
  exists y, ssm_Dx x D B = Ok y /\ sigv B N P y (fun b n p => bsum (width F) (fun k => Dm b p k * xf b n k)).
Proof.
  intros Hx HD. destruct (sig_size R _ _ _ _ _ Hx) as (_ & _ & _ & Hfe & Hrk). unfold ssm_Dx. rewrite Hfe.
  remember (Some D) as D' eqn:ED.
  destruct HD as [F P f Hf|t v f Ht Hf|t g f Ht Hf|t g f Ht Hf|P t g f Ht H1 H2 Hf|P t g f Ht Hf
    |K t v f Ht Hf|K t g f Ht H1 H2 Hf|K t g f Ht Hf|K t g f Ht Hf|K P t g f Ht Hne Hf|K P t g f Ht Hf];
    try discriminate; injection ED as ->; rewrite (proj1 Ht), ?Hrk; cbn [feq width]; rewrite ?Nat.eqb_refl;
    unfold sigv in *; cbn [bsum].
  - apply is2_P1 in Hx. ew2. exists w. split; [reflexivity|]. apply is2_P1. fin H; auto.
    intros q n Hq Hn. apply vld_1_inv in Hq as (b & -> & Hb). cbn [nth]. rewrite Hf by lia. ring.
  - destruct (1 =? B)%nat eqn:E; b2p; [subst B|cbn [Nat.eqb]].
    + apply is1_P0 in Ht. assert (Hu : isP1 (unsqueeze 1 D) [1%nat] 1 (fun q _ => g (nth 0 q 0%nat))) by (eapply P0_unsq0; [exact Ht|reflexivity] || (eapply P0_unsq0 with (d := 1%nat) in Ht; [exact Ht|reflexivity])).
      apply is2_P1 in Hx. unfold tmul. eat @P1_ew; [exact Hu|exact Hx|bdt|].
      exists w. split; [reflexivity|]. apply is2_P1. fin H; auto.
      intros q n Hq Hn. apply vld_1_inv in Hq as (b & -> & Hb). cbn [nth]. rewrite Hf by lia.
      rewrite (bi_lt N) by lia. replace b with 0%nat by lia. ring.
    + apply is2_P1 in Hx. apply is1_P in Ht. unfold tmul. eat @P1_ewl; [exact Hx|exact Ht|bdt|].
      exists w. split; [reflexivity|]. apply is2_P1. fin H; auto.
      intros q n Hq Hn. apply vld_1_inv in Hq as (b & -> & Hb). cbn [nth]. rewrite Hf by lia.
      rewrite (bi_lt N) by lia. rewrite ?bi_1. ring.
  - apply is1_P0 in Ht. assert (Hu : isP1 (unsqueeze 1 D) [B] 1 (fun q _ => g (nth 0 q 0%nat))) by (eapply P0_unsq0; [exact Ht|reflexivity]).
    apply is2_P1 in Hx. unfold tmul. eat @P1_ew; [exact Hu|exact Hx|bdt|].
    exists w. split; [reflexivity|]. apply is2_P1. fin H; auto.
    intros q n Hq Hn. apply vld_1_inv in Hq as (b & -> & Hb). cbn [nth]. rewrite Hf by lia.
    rewrite (bi_lt N) by lia. ring.
  - bfalse (P =? B)%nat. bfalse (P =? 1)%nat. rkt.
    assert (Hu : is3 (unsqueeze 2 x) B N 1 (fun b n _ => xf b n 0%nat)).
    { apply is2_P1 in Hx. nm (unsqueeze 2 x). apply is3_P2. exact H. }
    set (v := unsqueeze 2 x) in *. clearbody v. apply is3_PP1 in Hu. apply is1_P in Ht. unfold tmul.
    eat @P1_ewr; [exact Ht|exact Hu|bdt|]. exists w. split; [reflexivity|]. apply is3_PP1. fin H; auto.
    intros q m Hq Hm. apply vld_2_inv in Hq as (b & n & -> & Hb & Hn). cbn [nth]. rewrite Hf by lia.
    rewrite (bi_lt P) by lia. rewrite ?bi_1. ring.
  - rewrite andb_false_r. rkt. apply is2_P1 in Hx, Ht. nm (unsqueeze 2 x). nm (unsqueeze 1 D). unfold tmul.
    eat @P2_ew; [exact H0|exact H|bdt|bdt|]. exists w. split; [reflexivity|]. apply is3_P2. fin H1; auto.
    intros q n p Hq Hn Hp. apply vld_1_inv in Hq as (b & -> & Hb). cbn [nth]. rewrite Hf by lia.
    rewrite (bi_lt N), (bi_lt P) by lia. rewrite ?bi_1. ring.
  - apply is3_P2 in Hx. ew2. exists w. split; [reflexivity|]. apply is3_P2. fin H; auto.
    intros q n p Hq Hn Hp. apply vld_1_inv in Hq as (b & -> & Hb). cbn [nth].
    rewrite (bsum_ext K _ (fun k => (if p =? k then v else 0) * xf b n k)) by (intros; now rewrite Hf by lia).
    rewrite bsum_diag by lia. ring.
  - bfalse (1 =? K)%nat. bfalse (1 =? B)%nat. cbn [Nat.eqb]. apply is3_PP1 in Hx. apply is1_P in Ht. unfold tmul.
    eat @P1_ewl; [exact Hx|exact Ht|bdt|]. exists w. split; [reflexivity|]. apply is3_PP1. fin H; auto.
    intros q p Hq Hp. apply vld_2_inv in Hq as (b & n & -> & Hb & Hn). cbn [nth].
    rewrite (bsum_ext K _ (fun k => (if p =? k then g 0%nat else 0) * xf b n k)) by (intros; now rewrite Hf by lia).
    rewrite bsum_diag by lia. rewrite (bi_lt K) by lia. rewrite ?bi_1. ring.
  - apply is3_P2 in Hx. mm. exists w. split; [reflexivity|]. apply is2_P1. fin H; auto. intros q n Hq Hn.
    apply vld_1_inv in Hq as (b & -> & Hb). cbn [nth]. apply bsum_ext. intros m Hm. rewrite Hf by lia. ring.
  - cbn [andb]. apply is2_P1 in Ht. apply is3_P2 in Hx. nm (unsqueeze 1 D). nm (tconj v). vdot. exists w. split; [reflexivity|].
    apply is2_P1. fin H1; auto. intros q n Hq Hn. apply vld_1_inv in Hq as (b & -> & Hb). cbn [nth].
    apply bsum_ext. intros m Hm. rewrite conj_conj, (bi_lt N) by lia. rewrite Hf by lia. reflexivity.
  - bfalse (P =? B)%nat. cbn [andb]. apply is3_P2 in Hx. apply is2_P in Ht. nm (mT D). mm. exists w. split; [reflexivity|].
    apply is3_P2. fin H0; auto. intros q n p Hq Hn Hp. apply vld_1_inv in Hq as (b & -> & Hb). cbn [nth].
    apply bsum_ext. intros m Hm. rewrite Hf by lia. ring.
  - cbn [andb]. apply is3_P2 in Hx, Ht. nm (unsqueeze 1 D). nm (tconj v). replace (rk x - 1)%nat with 2%nat by dimt.
    nm (unsqueeze 2 x). vdot. exists w. split; [reflexivity|]. apply is3_P2.
    fin H2; auto. intros q n m Hq Hn Hm. apply vld_1_inv in Hq as (b & -> & Hb). cbn [nth]. apply bsum_ext.
    intros k Hk. rewrite conj_conj. rewrite (bi_lt N), (bi_lt P) by lia. rewrite Hf by lia. reflexivity.
Qed.

Lemma round_sqrt_pos N : (1 <= N)%nat -> (1 <= round_sqrt N)%nat.
Proof.
  intro H. unfold round_sqrt. destruct (Nat.sqrt_spec N ltac:(lia)) as [H1 H2].
  destruct (N <=? Nat.sqrt N * Nat.sqrt N + Nat.sqrt N)%nat eqn:E; b2p; nia.
Qed.

(** The installed back-ends are complete: a compiled extension was built for the
    device, and when Helion is used for a real CUDA tensor with M <= 2 the compiled
    extension is there too. *)
Definition backend_ok (e : env) (M : nat) : Prop :=
  env_ok e /\ (ext e = true -> cuda e = true -> ext_cuda e = true) /\
  (helion_backend_indicator e = true -> (M <= 2)%nat -> ext e = true).
Lemma backend_helion e M : backend_ok e M -> helion_backend_indicator e = true -> ext_avail e M.
Proof.
  intros (H1 & H2 & H3) Hh. split; [exact H1|]. split; [|auto]. intro HM. split; [auto|]. intro. now apply H2; auto.
Qed.
Lemma backend_ext e M : backend_ok e M -> extension_backend_indicator e M = true -> ext_avail e M /\ (2 <= M)%nat.
Proof.
  intros (H1 & H2 & H3) He. unfold extension_backend_indicator in He. apply andb_true_iff in He as [E1 E2].
  split; [split; [exact H1|split]|].
  - intro. split; [exact E1|]. auto.
  - intro HM. right. split; [exact E1|]. assert (M =? 2 = false)%nat as Em by (apply Nat.eqb_neq; lia). rewrite Em in E2. cbn [orb] in E2. apply andb_true_iff in E2 as [E2 _].
    now apply negb_true_iff in E2.
  - apply orb_true_iff in E2 as [E2|E2]; [apply Nat.eqb_eq in E2; lia|]. apply andb_true_iff in E2 as [_ E2]. now apply Nat.leb_le in E2.
Qed.

Lemma backend_env0 M : backend_ok env0 M.
Proof.
  split; [|split; discriminate]. split; [|split; cbn; lia].
  intro k. cbn. induction k as [|k IH]; [reflexivity|]. cbn. rewrite IH. lia.
Qed.
Definition unroll_ok (u : option nat) : Prop := match u with Some k => (1 <= k)%nat | None => True end.

Theorem state_space_spec e B N M F P (A x : ten) Bt C D zi uf oi Af xf Bm Cm Dm z0 :
  (1 <= B)%nat -> (1 <= N)%nat -> (1 <= M)%nat -> backend_ok e M -> unroll_ok uf ->
  matc B M A Af -> sigv B N F x xf ->
  inmat B M F Bt Bm -> outmat B M oi C P Cm -> feed B F P D Dm -> init B M zi z0 ->
  exists y zf, state_space e A x Bt C D zi uf oi = Ok (y, zf) /\
    sigv B N P y (fun b => ss_y M (width F) (fun _ => Af b) (fun _ => Bm b) (fun _ => Cm b) (fun _ => Dm b)
                             (z0 b) (xf b)) /\
    match zi with
    | None => zf = None
    | Some _ => exists z, zf = Some z /\
        is2 z B M (fun b => ss_h M (width F) (fun _ => Af b) (fun _ => Bm b) (z0 b) (xf b) N)
    end.
Proof.
  intros HB HN HM He Hu HA Hx HBm HC HD Hz. unfold ss_y, ss_h.
  set (h := fun b n => state M (fun _ => Af b) (z0 b) (fun n m => bsum (width F) (fun k => Bm b m k * xf b n k)) n).
  destruct (sig_size R _ _ _ _ _ Hx) as (Hs0 & Hs1 & Hrk & Hfe & Hrk2).
  unfold state_space. rewrite Hs0, Hs1, Hrk.
  assert (((rk A =? 2) || (rk A =? 3))%bool = true) as ->
    by (destruct HA as [g HA _|HA]; rkt; reflexivity).
  assert (sizen A 1 = M) as -> by (destruct HA as [g HA _|HA]; unfold sizen, rk; now rewrite (proj1 HA)).
  assert (sizen A 2 = M) as -> by (destruct HA as [g HA _|HA]; unfold sizen, rk; now rewrite (proj1 HA)).
  assert ((negb (rk A =? 3) || (B =? size A 0))%bool = true) as ->.
  { destruct HA as [g HA _|HA]; rkt; [reflexivity|]. unfold size. rewrite (proj1 HA). cbn [nth]. now rewrite !Nat.eqb_refl. }
  rewrite Nat.eqb_refl.
  assert (match C, oi with Some _, Some _ => false | _, _ => true end = true) as -> by (destruct HC; reflexivity).
  destruct (ss_zi_spec R B M x zi z0 HM Hz) as (z & -> & Hzz). cbn [bind]. cbv zeta.
  set (u := match uf with Some k => k | None => round_sqrt N end).
  assert (1 <= u)%nat as Hu1 by (unfold u; destruct uf; [exact Hu|now apply round_sqrt_pos]).
  destruct (ss_input_spec B N M F x xf Bt Bm Hx HBm) as (Bx & -> & HBx). cbn [bind].
  assert (Hrun : forall oi', idx_ok M oi' -> exists y,
    (if extension_backend_indicator e M && (u =? 1) then ext_ss_recur e A z Bx oi'
     else state_space_recursion e A z Bx u oi') = Ok y /\ picks B N M oi' y (fun b n m => h b (S n) m)).
  { intros oi' Hoi'. destruct (extension_backend_indicator e M && (u =? 1))%bool eqn:Ee.
    - apply andb_true_iff in Ee as [Ee _]. destruct (backend_ext e M He Ee). now apply ext_spec.
    - apply state_space_recursion_spec; auto. intro. now apply backend_helion. }
  clearbody u. clear HBx.
  assert (Hoi : idx_ok M oi) by (destruct HC; cbn [idx_ok]; eauto).
  destruct (Hrun (match zi with None => oi | Some _ => None end)) as (yr & Er & Hr); [destruct zi; [exact I|exact Hoi]|].
  destruct (ss_states R B N M z zi z0 oi (fun oi' => if extension_backend_indicator e M && (u =? 1) then ext_ss_recur e A z Bx oi'
     else state_space_recursion e A z Bx u oi') h yr HN HM Hzz Hoi (fun _ _ => eq_refl) (Logic.conj Er Hr)) as (hh & zf & -> & Hhh & Hzf).
  cbn [bind].
  assert (exists y, ssm_C_D hh x C D B M = Ok y /\
    sigv B N P y (fun b n p => bsum M (fun m => Cm b p m * h b n m)
                             + bsum (width F) (fun k => Dm b p k * xf b n k))) as (y & -> & Hy).
  2: { eexists _, _. split; [reflexivity|]. auto. }
  unfold ssm_C_D.
  assert (exists Ch, match C with Some C => ssm_Ch hh C B M | None => Ok hh end = Ok Ch /\
    sigv B N P Ch (fun b n p => bsum M (fun m => Cm b p m * h b n m))) as (Ch & ECh & HCh).
  { destruct C as [C|].
    - assert (oi = None) as -> by (remember (Some C) as C' eqn:E; destruct HC; auto; discriminate).
      now apply ssm_Ch_spec.
    - exists hh. split; [reflexivity|]. 
      remember (@None ten) as C' eqn:E in HC. destruct HC as [f Hf|i k f Hk Hf| | | | ]; try discriminate; unfold sigv, picks in *.
      + eapply is3_ext; [exact Hhh|]. intros b n m Hb Hn Hm. cbn beta.
        rewrite (bsum_ext M _ (fun k => (if m =? k then 1 else 0) * h b n k)) by (intros; now rewrite Hf by lia).
        rewrite bsum_diag by lia. ring.
      + eapply is2_ext; [exact (Hhh k Hk)|]. intros b n Hb Hn. cbn beta. apply pyidx_lt in Hk.
        rewrite (bsum_ext M _ (fun j => (if k =? j then 1 else 0) * h b n j)) by (intros; now rewrite Hf by lia).
        rewrite bsum_diag by lia. ring. }
  destruct D as [D|].
  - destruct (ssm_Dx_spec B N F P x D xf Dm Hx HD) as (Dx & -> & HDx). cbn [bind]. rewrite ECh. cbn [bind].
    unfold tadd, sigv in *. destruct P as [P|].
    + apply is3_P2 in HCh, HDx. eat @P2_ew_same; [exact HCh|exact HDx|]. exists w. split; [reflexivity|].
      apply is3_P2. exact H.
    + apply is2_P1 in HCh, HDx. eat @P1_ew_same; [exact HCh|exact HDx|]. exists w. split; [reflexivity|].
      apply is2_P1. exact H.
  - cbn [bind]. rewrite ECh. cbn [bind]. exists Ch. split; [reflexivity|].
    remember (@None ten) as D' eqn:E in HD. destruct HD as [F P f Hf| | | | | | | | | | | ]; try discriminate.
    assert (Hz0 : forall b n p, (b < B)%nat -> (p < width P)%nat -> bsum (width F) (fun k => f b p k * xf b n k) = 0).
    { intros b n p Hb Hp. apply bsum_0. intros k Hk. rewrite Hf by assumption. ring. }
    unfold sigv in *. destruct P as [P|]; cbn [width] in Hz0.
    + eapply is3_ext; [exact HCh|]. intros b n p Hb Hn Hp. cbn beta. rewrite Hz0 by assumption. ring.
    + eapply is2_ext; [exact HCh|]. intros b n Hb Hn. cbn beta. rewrite Hz0 by (auto; lia). ring.
Qed.
End S.
