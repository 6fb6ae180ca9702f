(** Correctness of polydiv. *)
From Coq Require Import List Arith Lia ZArith Bool.
From Verif Require Import Scalar Tensor TensorLemmas TensorOps TensorAlg TensorTac TensorList
  SpecPoly M_Poly.
Import ListNotations.

(** Element-wise operations on views without trailing dimensions. *)
Section EW0.
Context {A B C : Type} (h : A -> B -> C).
Lemma P0_ew_same (t : tensor A) (u : tensor B) pre f g :
  isP0 t pre f -> isP0 u pre g ->
  exists y, ew h t u = Ok y /\ isP0 y pre (fun q => h (f q) (g q)).
Proof.
  intros [Hs Hf] [Us Uf]. unfold ew. rewrite Hs, Us, bshape_pre.
  eexists; split; [reflexivity|]. split; [reflexivity|]. intros. cbn [at_].
  rewrite bix_pre by auto. f_equal; auto.
Qed.
Lemma P0_sew (t : tensor A) (u : tensor B) pre v g :
  is0 t v -> isP0 u pre g ->
  exists y, ew h t u = Ok y /\ isP0 y pre (fun q => h v (g q)).
Proof.
  intros [Hs Hf] [Us Uf]. unfold ew. rewrite Hs, Us, bshape_nil_l.
  eexists; split; [reflexivity|]. split; [reflexivity|]. intros. cbn [at_].
  rewrite bix_nil, bix_pre by auto. f_equal; auto.
Qed.
End EW0.

(** Coefficient rows shared over the batch, or one per batch element. *)
Inductive rowc {A} (pre : list nat) (n : nat) (t : tensor A) : (list nat -> nat -> A) -> Prop :=
| rowc_own f : isP1 t pre n f -> rowc pre n t f
| rowc_shared f : is1 t n f -> rowc pre n t (fun _ => f).

Section PolyP.
Variable F : cfield.
Notation ten := (tensor (car F)).
Add Ring Rr : (r_th F).
Open Scope cr_scope.

Lemma pmulc_S k l (q v : nat -> F) i :
  pmulc (S k) l q v i = pmulc k l q v i +
    (if (k <=? i)%nat && (i <? k + l)%nat then q k * v (i - k)%nat else 0).
Proof.
  unfold pmulc. rewrite bsum_S. f_equal.
  destruct (k <=? i)%nat eqn:E1; [destruct (i <? k + l)%nat eqn:E2|]; cbn [andb].
  - apply Nat.leb_le in E1. apply Nat.ltb_lt in E2. rewrite (bsum_one l _ (i - k)).
    + btrue (k + (i - k) =? i)%nat. reflexivity.
    + lia.
    + intros t Ht Hn. bfalse (k + t =? i)%nat. reflexivity.
  - apply Nat.ltb_ge in E2. apply bsum_0. intros t Ht. bfalse (k + t =? i)%nat. reflexivity.
  - apply Nat.leb_gt in E1. apply bsum_0. intros t Ht. bfalse (k + t =? i)%nat. reflexivity.
Qed.
Lemma pmulc_ext k l (q q' v v' : nat -> F) i :
  (forall j, (j < k)%nat -> q j = q' j) -> (forall j, (j < l)%nat -> v j = v' j) ->
  pmulc k l q v i = pmulc k l q' v' i.
Proof.
  intros H1 H2. unfold pmulc. apply bsum_ext. intros j Hj. apply bsum_ext. intros t Ht.
  now rewrite H1, H2.
Qed.

(** The remainder after [k] steps, and the quotient coefficients. *)
Fixpoint prem (n : nat) (s : F) (u v : nat -> F) (k i : nat) : F :=
  match k with
  | O => u i
  | S k' => if (k' <=? i)%nat && (i <? k' + S n)%nat
            then prem n s u v k' i - s * prem n s u v k' k' * v (i - k')%nat
            else prem n s u v k' i
  end.
Definition pquo (n : nat) (s : F) (u v : nat -> F) (k : nat) : F := s * prem n s u v k k.

Lemma prem_inv n s u v k i : pmulc k (S n) (pquo n s u v) v i + prem n s u v k i = u i.
Proof.
  induction k as [|k IH]; [cbn; unfold pmulc; cbn; ring|].
  rewrite pmulc_S. cbn [prem]. etransitivity; [|exact IH]. clear IH.
  change (s * prem n s u v k k) with (pquo n s u v k).
  destruct ((k <=? i)%nat && (i <? k + S n)%nat)%bool; ring.
Qed.
Lemma prem_zero n s u v k i : s * v 0%nat = 1 -> (i < k)%nat -> prem n s u v k i = 0.
Proof.
  intros Hs. induction k as [|k IH]; intro Hi; [lia|]. cbn [prem].
  destruct (Nat.eq_dec i k) as [->|Hn].
  - rewrite Nat.leb_refl. btrue (k <? k + S n)%nat. cbn [andb]. rewrite Nat.sub_diag.
    transitivity (prem n s u v k k - prem n s u v k k * (s * v 0%nat)); [ring|]. rewrite Hs. ring.
  - bfalse (k <=? i)%nat. cbn [andb]. apply IH. lia.
Qed.
Lemma prem_high n s u v k i : (k + n <= i)%nat -> prem n s u v k i = u i.
Proof.
  induction k as [|k IH]; intro Hi; [reflexivity|]. cbn [prem].
  bfalse (i <? k + S n)%nat. rewrite andb_false_r. apply IH. lia.
Qed.

Lemma isub_slice_spec pre m (t w : ten) f g lo len :
  isP1 t pre m f -> isP1 w pre len g -> (lo + len <= m)%nat ->
  exists y, isub_slice (rk t - 1) (Z.of_nat lo) (Z.of_nat lo + Z.of_nat len) t w = Ok y /\
    isP1 y pre m (fun q i => if (lo <=? i)%nat && (i <? lo + len)%nat then f q i - g q (i - lo)%nat else f q i).
Proof.
  intros Ht Hw Hle. unfold isub_slice.
  assert (Hs : isP1 (slice (rk t - 1) (Some (Z.of_nat lo)) (Some (Z.of_nat lo + Z.of_nat len)%Z) t)
                 pre len (fun q i => f q (lo + i)%nat)).
  { eapply P1_slice0; [exact Ht|dimt| |].
    - rewrite pyb_le by lia. reflexivity.
    - rewrite <- Nat2Z.inj_add, pyb_le by lia. lia. }
  destruct (P1_ew_same rsub _ _ _ _ _ _ Hs Hw) as (d & E & Hd). unfold tsub. rewrite E. cbn [bind].
  rewrite (proj1 Hd), (proj1 Hs), list_eqb_refl.
  assert (Hrk : (rk t - 1 = length pre + 0)%nat) by dimt.
  assert (Hsz : size t (rk t - 1) = m).
  { unfold size. rewrite Hrk, (proj1 Ht), nth_app. reflexivity. }
  assert (Hsd : size d (rk t - 1) = len).
  { unfold size. rewrite Hrk, (proj1 Hd), nth_app. reflexivity. }
  rewrite Hsz, Hsd, Nat2Z.id, Nat.min_l by lia.
  eexists. split; [reflexivity|]. split; cbn [shape at_]; [apply (proj1 Ht)|].
  intros q i Hq Hi. rewrite Hrk, <- (vld_len _ _ Hq), nth_app, upd_app. cbn [nth upd].
  destruct ((lo <=? i)%nat && (i <? lo + len)%nat)%bool eqn:Eb.
  - b2p. rewrite (proj2 Hd) by (auto; lia). do 2 f_equal. lia.
  - now apply (proj2 Ht).
Qed.

Section Loop.
Variables (pre : list nat) (m n : nat) (v scale : ten).
Variables (vf : list nat -> nat -> F) (s : list nat -> F).
Hypothesis Hv : rowc pre (S n) v vf.
Hypothesis Hsc : (isP0 scale pre s \/ exists s0, is0 scale s0 /\ s = fun _ => s0).

Lemma polydiv_step (r : ten) (rf : list nat -> nat -> F) k :
  isP1 r pre (S m) rf -> (k + n <= m)%nat ->
  exists d dv r', select (rk r - 1) (Z.of_nat k) r = Ok (sel (rk r - 1) k r) /\
    tmul scale (sel (rk r - 1) k r) = Ok d /\ isP0 d pre (fun q => s q * rf q k) /\
    tmul (unsqueeze (rk d) d) v = Ok dv /\
    isub_slice (rk r - 1) (Z.of_nat k) (Z.of_nat k + Z.of_nat n + 1) r dv = Ok r' /\
    isP1 r' pre (S m) (fun q i => if (k <=? i)%nat && (i <? k + S n)%nat
                                 then rf q i - s q * rf q k * vf q (i - k)%nat else rf q i).
Proof.
  intros Hr Hk.
  assert (Hrk : (rk r - 1 = length pre + 0)%nat) by dimt.
  assert (Hsel : isP0 (sel (rk r - 1) k r) pre (fun q => rf q k)) by (eapply P1_sel0; [exact Hr|exact Hrk|lia]).
  assert (exists d, tmul scale (sel (rk r - 1) k r) = Ok d /\ isP0 d pre (fun q => s q * rf q k)) as (d & Ed & Hd).
  { destruct Hsc as [H|(s0 & H & ->)].
    - apply (P0_ew_same rmul _ _ _ _ _ H Hsel).
    - apply (P0_sew rmul _ _ _ _ _ H Hsel). }
  assert (Hdu : isP1 (unsqueeze (rk d) d) pre 1 (fun q _ => s q * rf q k)).
  { eapply (P0_unsq0 d pre _ _ Hd). dimt. }
  assert (exists dv, tmul (unsqueeze (rk d) d) v = Ok dv /\ isP1 dv pre (S n) (fun q i => s q * rf q k * vf q i)) as (dv & Edv & Hdv).
  { destruct Hv as [f H|f H].
    - destruct (P1_ew rmul _ _ _ _ _ (S n) _ _ Hdu H) as (y & E & Hy); [apply bdim_1_l|].
      exists y. split; [exact E|]. eapply isP1_ext; [exact Hy|]. intros. cbn beta. rewrite bi_lt by assumption. reflexivity.
    - apply is1_P in H. destruct (P1_ewl rmul _ _ _ _ _ (S n) _ _ Hdu H) as (y & E & Hy); [apply bdim_1_l|].
      exists y. split; [exact E|]. eapply isP1_ext; [exact Hy|]. intros. cbn beta. rewrite bi_lt by assumption. reflexivity. }
  destruct (isub_slice_spec pre (S m) r dv _ _ k (S n) Hr Hdv) as (r' & E & Hr'); [lia|].
  exists d, dv, r'. split; [apply select_ok, pyidx_nat; unfold size; rewrite Hrk, (proj1 Hr), nth_app; cbn; lia|].
  do 3 (split; [assumption|]).
  split; [|exact Hr'].
  replace (Z.of_nat k + Z.of_nat n + 1)%Z with (Z.of_nat k + Z.of_nat (S n))%Z by lia. exact E.
Qed.

Variable uf : list nat -> nat -> F.
Lemma polydiv_loop_spec cnt k (qs : list ten) (r : ten) :
  (k + cnt + n <= S m)%nat -> length qs = k ->
  (forall dflt j, (j < k)%nat -> isP0 (nth j qs dflt) pre (fun q => pquo n (s q) (uf q) (vf q) j)) ->
  isP1 r pre (S m) (fun q => prem n (s q) (uf q) (vf q) k) ->
  exists qs' r', polydiv_loop v scale (Z.of_nat n) cnt k qs r = Ok (qs', r') /\
    length qs' = (k + cnt)%nat /\
    (forall dflt j, (j < k + cnt)%nat -> isP0 (nth j qs' dflt) pre (fun q => pquo n (s q) (uf q) (vf q) j)) /\
    isP1 r' pre (S m) (fun q => prem n (s q) (uf q) (vf q) (k + cnt)).
Proof.
  revert k qs r. induction cnt as [|cnt IH]; intros k qs r Hk Hl Hq Hr.
  - rewrite Nat.add_0_r. exists qs, r. auto.
  - cbn [polydiv_loop].
    destruct (polydiv_step r _ k Hr) as (d & dv & r' & E1 & E2 & Hd & E3 & E4 & Hr'); [lia|].
    rewrite E1. cbn [bind]. rewrite E2. cbn [bind]. rewrite E3. cbn [bind]. rewrite E4. cbn [bind].
    destruct (IH (S k) (qs ++ [d]) r') as (qs' & r'' & E & Hl' & Hq' & Hr''); [lia|rewrite app_length; cbn; lia| |exact Hr'|].
    + intros dflt j Hj. destruct (Nat.eq_dec j k) as [->|Hn].
      * rewrite app_nth2 by lia. rewrite Hl, Nat.sub_diag. exact Hd.
      * rewrite app_nth1 by lia. apply Hq. lia.
    + exists qs', r''. replace (k + S cnt)%nat with (S k + cnt)%nat by lia. auto.
Qed.
End Loop.

Theorem polydiv_spec_l pre m n (u v : ten) uf vf :
  isP1 u pre (S m) uf -> rowc pre (S n) v vf -> (n <= m)%nat ->
  (forall q, vld pre q -> vf q 0%nat <> 0) ->
  exists q r qf rf, polydiv u v = Ok (q, r) /\
    isP1 q pre (m - n + 1) qf /\ isP1 r pre n rf /\
    forall b i, vld pre b -> (i <= m)%nat ->
      uf b i = pmulc (m - n + 1) (S n) (qf b) (vf b) i
               + (if (m - n + 1 <=? i)%nat then rf b (i - (m - n + 1))%nat else 0).
Proof.
  intros Hu Hv Hnm H0. unfold polydiv.
  assert (Hrk : (rk u = length pre + 1)%nat) by dimt.
  assert (Hvs : exists pv, shape v = (pv ++ [S n])%list).
  { destruct Hv as [f [H _]|f [H _]]; [now exists pre|now exists []]. }
  destruct Hvs as [pv Hvs].
  assert (Hvr : (rk v = length pv + 1)%nat) by (unfold rk; rewrite Hvs, app_length; reflexivity).
  btrue (1 <=? rk u)%nat. btrue (1 <=? rk v)%nat. cbn [andb].
  assert (sizen u 1 = S m) as ->.
  { unfold sizen. rewrite Hrk, (proj1 Hu). apply (nth_pre pre [S m] _ 0). lia. }
  assert (sizen v 1 = S n) as ->.
  { unfold sizen. rewrite Hvr, Hvs. apply (nth_pre pv [S n] _ 0). lia. }
  assert (select (rk v - 1) 0 v = Ok (sel (rk v - 1) 0 v)) as ->.
  { apply select_ok. change 0%Z with (Z.of_nat 0). apply pyidx_nat. unfold size. rewrite Hvr, Hvs.
    rewrite (nth_pre pv [S n] _ 0) by lia. cbn. lia. }
  cbn [bind].
  assert (Hsc : isP0 (tmap rinv (sel (rk v - 1) 0 v)) pre (fun q => rinv (vf q 0%nat)) \/
     exists s0, is0 (tmap rinv (sel (rk v - 1) 0 v)) s0 /\ (fun q => rinv (vf q 0%nat)) = fun _ => s0).
  { destruct Hv as [f H|f H].
    - left. assert (Hs : isP0 (sel (rk v - 1) 0 v) pre (fun q => f q 0%nat)) by (eapply P1_sel0; [exact H|dimt|lia]).
      destruct Hs as [A1 A2]. split; cbn [tmap shape at_]; [exact A1|]. intros q Hq. now rewrite A2.
    - right. exists (rinv (f 0%nat)). split; [|reflexivity]. apply is1_P in H.
      assert (Hs : isP0 (sel (rk v - 1) 0 v) [] (fun q => f 0%nat)) by (eapply (P1_sel0 v [] _ _ _ 0 H); [dimt|lia]).
      destruct Hs as [A1 A2]. split; cbn [tmap shape at_]; [exact A1|]. now rewrite A2 by apply vld_nil. }
  assert (Z.to_nat (Z.of_nat (S m) - 1 - (Z.of_nat (S n) - 1) + 1) = (m - n + 1)%nat) as -> by lia.
  replace (Z.of_nat (S n) - 1)%Z with (Z.of_nat n) by lia.
  destruct (polydiv_loop_spec pre m n v _ vf _ Hv Hsc uf (m - n + 1) 0 [] u) as (qs & r & E & Hl & Hq & Hr);
    [lia|reflexivity|intros; lia|exact Hu|].
  rewrite E. cbn [bind]. rewrite Nat.add_0_l in *.
  set (sq := fun q => rinv (vf q 0%nat)) in *.
  assert (Hrr : isP1 (slice (rk r - 1) (Some (Z.of_nat (S m) - 1 - Z.of_nat n + 1)%Z) None r) pre n
     (fun q i => prem n (sq q) (uf q) (vf q) (m - n + 1) (m - n + 1 + i))).
  { refine (P1_slice0 r pre (S m) _ _ _ _ (m - n + 1)%nat n Hr _ _ _); [dimt| |rewrite pyb_none; lia].
    replace (Z.of_nat (S m) - 1 - Z.of_nat n + 1)%Z with (Z.of_nat (m - n + 1)) by lia.
    rewrite pyb_le by lia. reflexivity. }
  assert (Hd : match qs with [] => 0 | d :: _ => rk d end%nat = (length pre + 0)%nat).
  { destruct qs as [|d qs]; [cbn in Hl; lia|]. specialize (Hq d 0%nat ltac:(lia)). cbn in Hq.
    unfold rk. rewrite (proj1 Hq). lia. }
  rewrite Hd.
  destruct (stack_P0 qs pre (fun j q => pquo n (sq q) (uf q) (vf q) j) (length pre + 0)) as (qt & Eq & Hqt).
  { intros ->. cbn in Hl. lia. }
  { reflexivity. }
  { rewrite Hl. exact Hq. }
  rewrite Eq. cbn [bind]. rewrite Hl in Hqt.
  eexists qt, _, _, _. split; [reflexivity|]. split; [exact Hqt|]. split; [exact Hrr|].
  intros b i Hb Hi. cbn beta.
  assert (Hs1 : sq b * vf b 0%nat = 1) by (apply (rinv_l (c:=F)); auto).
  rewrite <- (prem_inv n (sq b) (uf b) (vf b) (m - n + 1) i). f_equal.
  destruct (m - n + 1 <=? i)%nat eqn:Ei.
  - apply Nat.leb_le in Ei. f_equal. lia.
  - apply Nat.leb_gt in Ei. apply prem_zero; assumption.
Qed.

(** Values: the coefficient identity gives u(z) = q(z) v(z) + r(z) at every z. *)
Lemma peval_pmulc k l (q v : nat -> F) z : (1 <= k)%nat -> (1 <= l)%nat ->
  peval (k + l - 1) (pmulc k l q v) z = peval k q z * peval l v z.
Proof.
  intros Hk Hl. unfold peval, pmulc.
  rewrite (bsum_ext _ _ (fun i => bsum k (fun j => bsum l (fun t => if (j + t =? i)%nat then q j * v t * rpow z (k + l - 1 - 1 - i) else 0)))).
  2:{ intros i Hi. rewrite <- bsum_mul_r. apply bsum_ext. intros j Hj. rewrite <- bsum_mul_r.
      apply bsum_ext. intros t Ht. destruct (j + t =? i)%nat; ring. }
  rewrite bsum_swap. rewrite <- bsum_mul_r. apply bsum_ext. intros j Hj.
  rewrite bsum_swap. rewrite <- bsum_mul_l. apply bsum_ext. intros t Ht.
  rewrite (bsum_one _ _ (j + t)%nat).
  - rewrite Nat.eqb_refl. replace (k + l - 1 - 1 - (j + t))%nat with ((k - 1 - j) + (l - 1 - t))%nat by lia.
    rewrite rpow_add. ring.
  - lia.
  - intros i Hi Hn. bfalse (j + t =? i)%nat. reflexivity.
Qed.
Lemma peval_shift a n (r : nat -> F) z :
  peval (a + n) (fun i => if (a <=? i)%nat then r (i - a)%nat else 0) z = peval n r z.
Proof.
  unfold peval. rewrite bsum_split. rewrite bsum_0.
  - rewrite (bsum_ext n _ (fun i => r i * rpow z (n - 1 - i))); [ring|].
    intros i Hi. btrue (a <=? a + i)%nat. replace (a + i - a)%nat with i by lia.
    replace (a + n - 1 - (a + i))%nat with (n - 1 - i)%nat by lia. reflexivity.
  - intros i Hi. bfalse (a <=? i)%nat. ring.
Qed.
End PolyP.
