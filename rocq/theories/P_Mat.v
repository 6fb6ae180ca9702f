(** Proofs about mat.py: powers, cumulative products, companion matrices. *)
From Coq Require Import List Arith Lia ZArith Bool Ring.
From Verif Require Import Scalar Tensor TensorLemmas TensorOps TensorAlg TensorTac TensorList Spec Algebra M_Mat.
Import ListNotations.

(** ** factorint *)
Definition lprod (l : list nat) : nat := fold_right Nat.mul 1 l.

Lemma fact_aux_prod fuel d n : 1 <= n -> lprod (fact_aux fuel d n) = n.
Proof.
  revert d n. induction fuel as [|f IH]; intros d n Hn; cbn [fact_aux lprod fold_right]; [lia|].
  destruct (n <? 2) eqn:E1; b2p; [cbn; lia|].
  destruct (n <? d * d) eqn:E2; b2p; [cbn; lia|].
  destruct (n mod d =? 0) eqn:E3; b2p.
  - cbn [fold_right]. fold (lprod (fact_aux f d (n / d))). destruct d as [|d]; [cbn in E3; lia|].
    assert (n = S d * (n / S d)) by (apply Nat.div_exact; lia).
    rewrite IH; [lia|]. nia.
  - apply IH. lia.
Qed.
Lemma factorint_prod n : 1 <= n -> lprod (factorint n) = n.
Proof. apply fact_aux_prod. Qed.

Lemma fact_aux_ge fuel d n : 2 <= d -> 1 <= n -> Forall (fun x => 1 <= x) (fact_aux fuel d n).
Proof.
  revert d n. induction fuel as [|f IH]; intros d n Hd Hn; cbn [fact_aux]; [repeat constructor; lia|].
  destruct (n <? 2) eqn:E1; b2p; [constructor|].
  destruct (n <? d * d) eqn:E2; b2p; [repeat constructor; lia|].
  destruct (n mod d =? 0) eqn:E3; b2p; [|apply IH; lia].
  constructor; [lia|]. apply IH; [lia|].
  apply Nat.div_le_lower_bound; nia.
Qed.
Lemma factorint_ge n : 1 <= n -> Forall (fun x => 1 <= x) (factorint n).
Proof. apply fact_aux_ge; lia. Qed.

Lemma fact_aux_prime fuel d n : is_prime n -> 2 <= d -> fact_aux fuel d n = [n].
Proof.
  intros [H2 Hp]. revert d. induction fuel as [|f IH]; intros d Hd; cbn [fact_aux]; [reflexivity|].
  bfalse (n <? 2). destruct (n <? d * d) eqn:E; b2p; [reflexivity|].
  destruct (n mod d =? 0) eqn:E3; b2p; [|apply IH; lia].
  exfalso. apply (Hp d); [nia|assumption].
Qed.
Lemma factorint_prime n : is_prime n -> factorint n = [n].
Proof. intro. now apply fact_aux_prime. Qed.

Lemma factorint_nonempty n : 2 <= n -> factorint n <> [].
Proof. intros H E. pose proof (factorint_prod n ltac:(lia)) as P. rewrite E in P. cbn in P. lia. Qed.

Section Pow.
Variable R : cring.
Add Ring Rr : (r_th R).
Notation ten := (tensor (car R)).
Implicit Types (A : ten).
Open Scope cr_scope.

(** The list [acc, acc A, acc A A, ...]. *)
Lemma accum_matmul A acc pre M (f g : list nat -> nat -> nat -> R) k :
  isP2 A pre M M f -> isP2 acc pre M M g ->
  exists l, accumM matmul acc (repeat A k) = Ok l /\ length l = S k /\
    forall d j, (j < S k)%nat ->
      isP2 (nth j l d) pre M M (fun q => mmul M (g q) (mpow M (f q) j)).
Proof.
  revert acc g. induction k as [|k IH]; intros acc g HA Hacc; cbn [repeat accumM].
  - exists [acc]. repeat split; auto; intros; destruct j; try lia; cbn [nth].
    + apply Hacc.
    + destruct Hacc as [_ Ha]. rewrite Ha by auto. cbn [mpow]. now rewrite mmul_id_r.
  - mstep. destruct (IH w _ HA H) as (l & -> & Hl & Hn). cbn [bind].
    exists (acc :: l). split; [reflexivity|]. split; [cbn; lia|].
    intros d [|j] Hj; cbn [nth].
    + fin Hacc; auto. intros. cbn [mpow]. now rewrite mmul_id_r.
    + eapply isP2_ext; [apply Hn; lia|]. intros q i c Hq Hi Hc. cbn beta. cbn [mpow].
      change (fun i j => bsum M (fun l => g q i l * f q l j)) with (mmul M (g q) (f q)).
      apply mmul_assoc.
Qed.

Lemma runner_spec factors : forall A pre M f,
  factors <> [] -> Forall (fun x => (1 <= x)%nat) factors -> isP2 A pre M M f ->
  exists y, mat_pwr_accum_runner A factors = Ok y /\
    isP3 y pre (lprod factors) M M (fun q k => mpow M (f q) (S k)).
Proof.
  induction factors as [|fac factors IH]; intros A pre M f Hne HF HA; [congruence|].
  inversion_clear HF as [|? ? Hfac HF']. clear Hne.
  cbn [mat_pwr_accum_runner]. destruct fac as [|fac]; [lia|].
  cbn [repeat accumulate].
  destruct (accum_matmul A A pre M f f fac HA HA) as (l & -> & Hl & Hn). cbn [bind].
  destruct (stack_P2 l pre M M (fun j q => mpow M (f q) (S j)) (rk A - 2)) as (acc & -> & Hacc).
  { now destruct l. }
  { dimt. }
  { intros d j Hj. rewrite Hl in Hj. apply (Hn d j Hj). }
  cbn [bind]. rewrite Hl in Hacc.
  destruct factors as [|fac2 factors].
  { exists acc. split; [reflexivity|]. cbn [lprod fold_right]. now rewrite Nat.mul_1_r. }
  set (fs := fac2 :: factors) in *.
  rewrite (select_ok acc (rk acc - 3) (-1)%Z fac).
  2: { unfold size. rewrite (proj1 Hacc), (nth_pre _ _ _ 0) by dimt. cbn [nth].
       rewrite pyidx_m1 by lia. f_equal. lia. }
  cbn [bind]. nm (sel (rk acc - 3) fac acc).
  destruct (IH v pre M (fun q => mpow M (f q) (S fac))) as (hi & -> & Hhi); auto.
  { now subst fs. }
  cbn [bind].
  assert (Hp : (1 <= lprod fs)%nat).
  { clear -HF'. induction HF' as [|x l Hx _ IHl]; cbn [lprod fold_right]; [lia|].
    fold (lprod l). nia. }
  set (P := lprod fs) in *.
  change (lprod (S fac :: fs)) with (S fac * P)%nat.
  sx.
  eexists; split; [reflexivity|].
  match goal with H : isP3 w1 _ _ _ _ _ |- _ => fin H end; [nia|reflexivity|reflexivity|].
  intros q i j k Hq Hi Hj Hk. cbn [Nat.sub Nat.add]. rewrite ?Nat.sub_0_r.
  replace (fac + 1)%nat with (S fac) by lia.
  destruct (i <? S fac) eqn:E1; b2p; [reflexivity|].
  set (r := (i - S fac)%nat) in *.
  assert (Hr : (r < (P - 1) * S fac)%nat) by (subst r; nia).
  assert (Hd : (r / S fac < P - 1)%nat) by (apply Nat.div_lt_upper_bound; lia).
  assert (Hm : (r mod S fac < S fac)%nat) by (apply Nat.mod_upper_bound; lia).
  pose proof (Nat.div_mod r (S fac) ltac:(lia)) as Hdm.
  destruct (r mod S fac <? fac) eqn:E2; b2p.
  - rewrite !bi_lt by lia.
    transitivity (mmul M (mpow M (f q) (S (r mod S fac)))
                         (mpow M (f q) (S fac * S (r / S fac))) j k).
    { apply mmul_ext; intros; [reflexivity|]. now rewrite mpow_mul. }
    rewrite <- mpow_add by assumption. f_equal. lia.
  - rewrite mpow_mul by assumption. f_equal. lia.
Qed.

(** mat.py matrix_power_accumulate, non-negative exponent. *)
Lemma mpa_nat_spec A pre M f n :
  isP2 A pre M M f -> (1 <= n)%nat ->
  exists y, matrix_power_accumulate_nat A n = Ok y /\ isP3 y pre n M M (fun q k => mpow M (f q) (S k)).
Proof.
  intros HA Hn. unfold matrix_power_accumulate_nat, sizen.
  assert (Hrk := P2_rk _ _ _ _ _ HA). pose proof HA as [Hs _].
  rewrite Hs, Hrk. btrue (2 <=? length pre + 2).
  rewrite !(nth_pre _ _ (length pre + 2 - 2) 0), !(nth_pre _ _ (length pre + 2 - 1) 1) by lia.
  cbn [nth]. rewrite Nat.eqb_refl. bfalse (n =? 0).
  destruct (n =? 1) eqn:E; b2p.
  - subst n. rewrite <- Hrk. pstep. eexists; split; [reflexivity|].
    fin H; auto. intros q i j k Hq Hi Hj Hk. replace i with 0%nat by lia. now rewrite mpow_1.
  - destruct (runner_spec (factorint n) A pre M f) as (y & Ey & Hy); auto.
    { apply factorint_nonempty. lia. }
    { now apply factorint_ge. }
    exists y. split; [exact Ey|]. now rewrite factorint_prod in Hy by lia.
Qed.

Lemma mpa_zero_spec A pre M f :
  isP2 A pre M M f ->
  exists y, matrix_power_accumulate_nat A 0 = Ok y /\ isP3 y pre 1 M M (fun q _ => mid).
Proof.
  intros HA. unfold matrix_power_accumulate_nat, sizen.
  assert (Hrk := P2_rk _ _ _ _ _ HA). pose proof HA as [Hs _].
  rewrite Hs, Hrk. btrue (2 <=? length pre + 2).
  rewrite !(nth_pre _ _ (length pre + 2 - 2) 0), !(nth_pre _ _ (length pre + 2 - 1) 1) by lia.
  cbn [nth]. rewrite Nat.eqb_refl. cbn [Nat.eqb].
  edestruct (expand_pre2 (@eye R M) pre M M) as (y & -> & Hy).
  { apply is2_P. now apply P2_eye. }
  cbn [bind]. pstep. eexists; split; [reflexivity|]. exact H.
Qed.

Lemma mpa_neg_spec (la : linalg R) A Ai pre M f g n :
  isP2 A pre M M f -> l_inv la A = Ok Ai -> isP2 Ai pre M M g -> (1 <= n)%nat ->
  exists y, matrix_power_accumulate la A (- Z.of_nat n) = Ok y /\
    isP3 y pre n M M (fun q k => mpow M (g q) (S k)).
Proof.
  intros HA Hi HAi Hn. unfold matrix_power_accumulate.
  destruct (- Z.of_nat n <? 0)%Z eqn:E; [|apply Z.ltb_ge in E; lia].
  unfold sizen.
  assert (Hrk := P2_rk _ _ _ _ _ HA). pose proof HA as [Hs _].
  rewrite Hs, Hrk. btrue (2 <=? length pre + 2).
  rewrite !(nth_pre _ _ (length pre + 2 - 2) 0), !(nth_pre _ _ (length pre + 2 - 1) 1) by lia.
  cbn [nth]. rewrite Nat.eqb_refl, Hi. cbn [bind].
  replace (Z.to_nat (- - Z.of_nat n)) with n by lia. now apply mpa_nat_spec.
Qed.

(** ** matrices_cumdot *)
Lemma accum_list (l : list ten) acc pre M (f : nat -> list nat -> nat -> nat -> R) g :
  (forall d j, (j < length l)%nat -> isP2 (nth j l d) pre M M (f j)) -> isP2 acc pre M M g ->
  exists r, accumM matmul acc l = Ok r /\ length r = S (length l) /\
    forall d j, (j < S (length l))%nat ->
      isP2 (nth j r d) pre M M (fun q => mmul M (g q) (mprod M (fun k => f k q) j)).
Proof.
  revert acc f g. induction l as [|A l IH]; intros acc f g Hl Hacc; cbn [accumM].
  - exists [acc]. repeat split; auto; intros; destruct j; try (cbn in *; lia); cbn [nth].
    + apply Hacc.
    + destruct Hacc as [_ Ha]. rewrite Ha by auto. cbn [mprod]. now rewrite mmul_id_r.
  - pose proof (Hl acc 0%nat ltac:(cbn; lia)) as HA. cbn [nth] in HA.
    mstep. destruct (IH w (fun j => f (S j)) _ (fun d j Hj => Hl d (S j) ltac:(cbn; lia)) H)
      as (r & -> & Hr & Hn). cbn [bind].
    exists (acc :: r). split; [reflexivity|]. split; [cbn; lia|].
    intros d [|j] Hj; cbn [nth].
    + fin Hacc; auto. intros. cbn [mprod]. now rewrite mmul_id_r.
    + eapply isP2_ext; [apply Hn; cbn in Hj; lia|]. intros q i c Hq Hi Hc. cbn beta.
      change (fun i j => bsum M (fun l => g q i l * f 0%nat q l j)) with (mmul M (g q) (f 0%nat q)).
      rewrite mmul_assoc. apply mmul_ext; [reflexivity|]. intros k Hk.
      clear - Hk Hc. revert c Hc. induction j as [|j IHj]; intros c Hc; cbn [mprod].
      * rewrite mmul_id_r by assumption. symmetry. now apply mmul_id_l.
      * change (mmul M (f 0%nat q) (mmul M (mprod M (fun k => f (S k) q) j) (f (S j) q)) k c
                = mmul M (mprod M (fun k => f k q) (S j)) (f (S j) q) k c).
        rewrite <- mmul_assoc. apply mmul_ext; intros; auto.
Qed.

(** The running products of the third-from-last dimension. *)
Lemma accum_unbind (A : ten) pre n M (f : list nat -> nat -> nat -> nat -> R) d :
  isP3 A pre n M M f -> d = (length pre + 0)%nat -> (1 <= n)%nat ->
  exists l, accumulate matmul (unbind d A) = Ok l /\ length l = n /\
    forall dd j, (j < n)%nat -> isP2 (nth j l dd) pre M M (fun q => mprod M (f q) (S j)).
Proof.
  intros HA Hd Hn. pose proof HA as [Hs _].
  assert (Hsz : size A d = n) by (unfold size; rewrite Hs; subst d; now rewrite nth_app).
  assert (Hv : forall dd j, (j < n)%nat -> isP2 (nth j (unbind d A) dd) pre M M (fun q => f q j)).
  { intros dd j Hj. rewrite nth_unbind by lia. eapply P3_sel0; eauto. }
  pose proof (unbind_length A d) as Hl. rewrite Hsz in Hl.
  destruct (unbind d A) as [|a l] eqn:El; [cbn in Hl; lia|]. cbn [accumulate].
  destruct (accum_list l a pre M (fun j q => f q (S j)) (fun q => f q 0%nat)) as (r & E & Hr & Hn').
  { intros dd j Hj. apply (Hv dd (S j)). cbn in Hl. lia. }
  { apply (Hv a 0%nat). lia. }
  exists r. split; [exact E|]. cbn in Hl. split; [lia|].
  intros dd j Hj. eapply isP2_ext; [apply Hn'; lia|]. intros q i c Hq Hi Hc. cbn beta.
  clear - Hi Hc. revert c Hc. induction j as [|j IHj]; intros c Hc.
  - cbn [mprod]. rewrite mmul_id_r by assumption. symmetry. now apply mmul_id_l.
  - cbn [mprod]. rewrite <- mmul_assoc. apply mmul_ext; intros; [|reflexivity]. now apply IHj.
Qed.

Lemma unflatten1_P3 (A : ten) pre n m p f d :
  isP3 A pre n m p f -> d = (length pre + 0)%nat ->
  exists y, unflatten d [n] A = Ok y /\ isP3 y pre n m p f.
Proof.
  intros [Hs Hf] ->. unfold unflatten, size. rewrite Hs.
  replace (S (length pre + 0)) with (length pre + 1)%nat by lia.
  applen. tred. rewrite Nat.eqb_refl. eexists; split; [reflexivity|].
  split; cbn [shape at_].
  - now rewrite <- ?app_assoc.
  - intros. replace (length pre + 0 + 1)%nat with (length pre + 1)%nat by lia. lenfix. applen. tred.
    rewrite <- ?app_assoc. cbn [app]. now apply Hf.
Qed.
Lemma flatten1_P3 (A : ten) pre n m p f d :
  isP3 A pre n m p f -> d = (length pre + 0)%nat -> isP3 (flatten d d A) pre n m p f.
Proof.
  intros [Hs Hf] ->. unfold flatten. rewrite Hs.
  replace (S (length pre + 0) - (length pre + 0))%nat with 1%nat by lia.
  replace (S (length pre + 0))%nat with (length pre + 1)%nat by lia.
  applen. tred. split; cbn [shape at_]; [now rewrite <- app_assoc|].
  intros. lenfix. applen. tred. rewrite <- ?app_assoc. cbn [app]. now apply Hf.
Qed.

(** What "matrices_cumdot is right on n matrices of size M" means. *)
Definition cumdot_ok (A : ten) : Prop :=
  forall pre n M f, isP3 A pre n M M f -> (1 <= n)%nat ->
  exists y, matrices_cumdot A = Ok y /\ isP3 y pre n M M (fun q k => mprod M (f q) (S k)).

Lemma cumdot_prime_spec (A : ten) pre n M f :
  isP3 A pre n M M f -> n = 1%nat \/ is_prime n ->
  exists y, matrices_cumdot A = Ok y /\ isP3 y pre n M M (fun q k => mprod M (f q) (S k)).
Proof.
  intros HA Hn. unfold matrices_cumdot, sizen.
  assert (Hrk := P3_rk _ _ _ _ _ _ HA). pose proof HA as [Hs _].
  rewrite Hs, Hrk. btrue (3 <=? length pre + 3).
  rewrite !(nth_pre _ _ (length pre + 3 - 2) 1), !(nth_pre _ _ (length pre + 3 - 1) 2),
    !(nth_pre _ _ (length pre + 3 - 3) 0) by lia.
  cbn [nth]. rewrite Nat.eqb_refl.
  destruct (n =? 1) eqn:E; b2p.
  - subst n. eexists; split; [reflexivity|]. fin HA; auto. intros q i j k Hq Hi Hj Hk.
    replace i with 0%nat by lia. cbn [mprod]. symmetry. now apply mmul_id_l.
  - destruct Hn as [->|Hp]; [congruence|]. rewrite (factorint_prime n Hp). cbn [rev app].
    destruct (unflatten1_P3 A pre n M M f (length pre + 3 - 3) HA ltac:(lia)) as (u & -> & Hu).
    cbn [bind]. rewrite (P3_rk _ _ _ _ _ _ Hu).
    rewrite (Nat.add_comm (length pre) 3). cbn [Nat.add mat_cumdot_runner].
    destruct Hp as [Hp _].
    rewrite (P3_rk _ _ _ _ _ _ Hu).
    destruct (accum_unbind u pre n M f (length pre + 3 - 3) Hu ltac:(lia) ltac:(lia))
      as (l & -> & Hl & Hv). cbn [bind].
    destruct (stack_P2 l pre M M (fun j q => mprod M (f q) (S j)) (length pre + 3 - 3))
      as (acc & -> & Hacc).
    { destruct l; cbn in Hl; [lia|congruence]. }
    { lia. }
    { intros dd j Hj. apply Hv. lia. }
    cbn [bind].
    match goal with |- context [(?a =? ?b)%nat] => btrue (a =? b)%nat end. cbn [bind].
    eexists; split; [reflexivity|]. rewrite (P3_rk _ _ _ _ _ _ Hacc). rewrite Hl in Hacc.
    replace (length pre + 3 - 3)%nat with (S (S (S (length pre))) - 3)%nat by lia.
    eapply flatten1_P3; [exact Hacc|lia].
Qed.

(** ** companion and vandermonde *)
Lemma companion_view (a : ten) pre M f :
  isP1 a pre M f ->
  exists y, companion a = Ok y /\
    isP2 y pre M M (fun q i j => if i =? S j then 1 else if i =? 0 then - f q j else 0).
Proof.
  intros Ha. unfold companion. pose proof Ha as [Hs _]. pose proof (P1_rk _ _ _ _ Ha) as Hrk.
  unfold sizen. rewrite Hs, Hrk. btrue (1 <=? length pre + 1).
  rewrite (nth_pre _ _ (length pre + 1 - 1) 0) by lia. cbn [nth].
  replace (length pre + 1 - 1)%nat with (length pre + 0)%nat by lia. rewrite firstn_app'.
  cbn [firstn]. rewrite app_nil_r.
  pose proof (P1_full pre (M * (M - 1)) (r0 : R)) as Hz. unfold zeros.
  set (z := full (pre ++ [(M * (M - 1))%nat]) r0) in *. clearbody z.
  pstep. mstep. rkt. replace (length pre + 1 - 1)%nat with (length pre + 0)%nat by lia.
  mstep. eexists; split; [reflexivity|].
  match goal with H : isP2 w0 _ _ _ _ |- _ => destruct H as [Ws Wf] end.
  split; cbn [shape at_]; [exact Ws|]. intros q i j Hq Hi Hj.
  assert (Hr : rk w0 = (length pre + 2)%nat) by (unfold rk; rewrite Ws, app_length; reflexivity).
  rewrite Hr. replace (length pre + 2 - 2)%nat with (length pre + 0)%nat by lia.
  replace (length pre + 2 - 1)%nat with (length pre + 1)%nat by lia.
  rewrite <- (vld_len _ _ Hq), !nth_app. cbn [nth].
  destruct (i =? S j)%nat eqn:E1; [reflexivity|].
  rewrite Wf by assumption. destruct (i =? 0)%nat eqn:E2; b2p.
  - subst i. cbn [Nat.mul Nat.add]. now btrue (j <? M)%nat.
  - assert (M <= i * M)%nat by nia. bfalse (i * M + j <? M)%nat. reflexivity.
Qed.

Lemma vander_view (p : ten) M f :
  is1 p M f ->
  exists y, vandermonde p = Ok y /\ is2 y M M (fun i j => rpow (f j) (M - 1 - i)).
Proof.
  intros [Hs Hf]. unfold vandermonde, sizen, rk. rewrite Hs. cbn [length Nat.sub nth].
  destruct (M =? 1)%nat eqn:E; b2p.
  - subst M. eexists; split; [reflexivity|]. split; [reflexivity|].
    intros i j Hi Hj. replace i with 0%nat by lia. reflexivity.
  - unfold torch_vander, rk, size. rewrite Hs. cbn [length Nat.eqb nth bind].
    eexists; split; [reflexivity|]. split; [reflexivity|].
    intros i j Hi Hj. cbn. rewrite Hf by assumption. reflexivity.
Qed.

(** A root of the characteristic polynomial, [a] indexed from 0 as in the code. *)
Definition char_root (M : nat) (a : nat -> R) (z : R) : Prop :=
  rpow z M + bsum M (fun k => a k * rpow z (M - 1 - k)) = 0.

Lemma companion_vander_spec (a p : ten) M f g :
  is1 a M f -> is1 p M g -> (forall j, (j < M)%nat -> char_root M f (g j)) ->
  exists C V CV, companion a = Ok C /\ vandermonde p = Ok V /\ matmul C V = Ok CV /\
    is2 V M M (fun i j => rpow (g j) (M - 1 - i)) /\
    is2 CV M M (fun i j => rpow (g j) (M - 1 - i) * g j).
Proof.
  intros Ha Hp Hroot. apply is1_P in Ha.
  destruct (companion_view a [] M _ Ha) as (C & EC & HC).
  destruct (vander_view p M g Hp) as (V & EV & HV).
  pose proof HV as HV2. apply is2_P in HV2.
  destruct (mm2 _ C V [] M M M _ _ HC HV2) as (CV & ECV & HCV).
  exists C, V, CV. repeat split; auto; try apply HV.
  { apply HCV. }
  apply (is2_P CV M M). fin HCV; auto. intros q i j Hq Hi Hj.
  destruct i as [|i].
  - cbn [Nat.eqb]. specialize (Hroot j Hj). unfold char_root in Hroot.
    transitivity (- bsum M (fun k => f k * rpow (g j) (M - 1 - k))).
    + rewrite <- bsum_opp. apply bsum_ext. intros k Hk. ring.
    + replace (rpow (g j) (M - 1 - 0) * g j) with (rpow (g j) M).
      2: { replace M with (S (M - 1)) at 1 by lia. rewrite rpow_S_r. f_equal. f_equal. lia. }
      transitivity (rpow (g j) M - (rpow (g j) M + bsum M (fun k => f k * rpow (g j) (M - 1 - k))));
        [ring|]. rewrite Hroot. ring.
  - rewrite (bsum_one M _ i ltac:(lia)).
    + rewrite Nat.eqb_refl. replace (M - 1 - i)%nat with (S (M - 1 - S i)) by lia. cbn [rpow]. ring.
    + intros k Hk Hn. bfalse (S i =? S k)%nat. cbn [Nat.eqb]. ring.
Qed.
End Pow.
