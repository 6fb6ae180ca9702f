(** The diagonal back-end of lfilter. *)
From Coq Require Import List Arith Lia ZArith Bool Ring.
From Verif Require Import Scalar Tensor TensorLemmas TensorOps TensorAlg TensorTac TensorList
  Spec Shapes SpecFilter SpecPoly Algebra M_Mat P_Mat M_Kernels P_KernelOps P_Helion M_LtiRecur P_LtiRecur M_LtiSsm P_LtiSsm
  M_LtiFilter P_Filter P_LtiFilter M_Poly P_Poly M_Diag SpecDiag P_Diag P_Diag2 P_Diag3.
Import ListNotations.

(** ** Polynomial division as a parallel decomposition of the filter *)
Section Alg.
Variable R : cring.
Add Ring Rr : (r_th R).
Open Scope cr_scope.

(** 1, a_0, a_1, ... *)
Definition monic1 (a : nat -> R) (k : nat) : R := match k with O => 1 | S j => a j end.

Lemma solves_conv P Q (b a x y : nat -> R) n : solves_filter P Q b a x y n <-> conv Q (monic1 a) y n = conv P b x n.
Proof.
  unfold solves_filter, conv. rewrite (bsum_S_l Q (fun k => monic1 a k * dly y k n)). cbn [monic1]. rewrite dly_0.
  replace (1 * y n) with (y n) by ring. reflexivity.
Qed.
Lemma conv_add P (b x y : nat -> R) n : conv P b (fun n => x n + y n) n = conv P b x n + conv P b y n.
Proof.
  unfold conv. rewrite <- bsum_add. apply bsum_ext. intros k Hk. unfold dly. destruct (k <=? n)%nat; ring.
Qed.
Lemma conv_ext P (b x y : nat -> R) n : (forall j, (j <= n)%nat -> x j = y j) -> conv P b x n = conv P b y n.
Proof. intro H. unfold conv. apply bsum_ext. intros k Hk. f_equal. now apply dly_ext. Qed.
Lemma conv_dly P (b x : nat -> R) d n : conv P b (dly x d) n = dly (conv P b x) d n.
Proof.
  unfold conv. rewrite dly_bsum. apply bsum_ext. intros k Hk. rewrite dly_scale, !dly_dly. now rewrite Nat.add_comm.
Qed.
(** The product of two polynomials is the composition of the two FIR filters. *)
Lemma conv_conv k l (q v x : nat -> R) n :
  conv l v (conv k q x) n = conv (k + l) (pmulc (S k) (S l) q v) x n.
Proof.
  unfold conv at 1.
  rewrite (bsum_ext (S l) _ (fun t => bsum (S k) (fun j => v t * (q j * dly x (j + t) n)))).
  2:{ intros t Ht. unfold conv. rewrite dly_bsum, <- bsum_mul_l. apply bsum_ext. intros j Hj. now rewrite dly_scale, dly_dly. }
  rewrite bsum_swap. unfold conv, pmulc.
  rewrite (bsum_ext (S (k + l)) _ (fun i => bsum (S k) (fun j => bsum (S l) (fun t => if (j + t =? i)%nat then q j * v t * dly x i n else 0)))).
  2:{ intros i Hi. rewrite <- bsum_mul_r. apply bsum_ext. intros j Hj. rewrite <- bsum_mul_r. apply bsum_ext. intros t Ht.
      destruct (j + t =? i)%nat; ring. }
  rewrite (bsum_swap (S (k + l))). apply bsum_ext. intros j Hj. rewrite (bsum_swap (S (k + l)) (S l)). apply bsum_ext. intros t Ht.
  rewrite (bsum_one (S (k + l)) _ (j + t)%nat).
  - rewrite Nat.eqb_refl. ring.
  - lia.
  - intros i Hi Hne. now bfalse (j + t =? i)%nat.
Qed.

(** B = Q A + z^-d R. *)
Definition splits (nb na d : nat) (b a q r : nat -> R) : Prop :=
  forall i, (i < nb)%nat ->
    b i = pmulc (nb - na) (S na) q (monic1 a) i + (if (d <=? i)%nat && (i <? d + na)%nat then r (i - d)%nat else 0).
Lemma conv_shift m n d (r x : nat -> R) t : (1 <= n)%nat -> (d + n <= S m)%nat ->
  conv m (fun i => if (d <=? i)%nat && (i <? d + n)%nat then r (i - d)%nat else 0) x t = dly (conv (n - 1) r x) d t.
Proof.
  intros Hn Hm. unfold conv. rewrite dly_bsum. replace (S (n - 1)) with n by lia.
  replace (S m) with (d + (n + (S m - n - d)))%nat by lia. rewrite bsum_split, bsum_split.
  rewrite (bsum_0 d), (bsum_0 (S m - n - d)).
  - rewrite (bsum_ext n _ (fun k => r k * dly x (d + k) t)).
    + rewrite (bsum_ext n (fun i => dly (fun m => r i * dly x i m) d t) (fun k => r k * dly x (d + k) t)); [ring|].
      intros k Hk. rewrite dly_scale, dly_dly. now rewrite Nat.add_comm.
    + intros k Hk. btrue (d <=? d + k)%nat. btrue (d + k <? d + n)%nat. cbn [andb]. now replace (d + k - d)%nat with k by lia.
  - intros i Hi. bfalse (d + (n + i) <? d + n)%nat. rewrite andb_false_r. ring.
  - intros i Hi. bfalse (d <=? i)%nat. cbn [andb]. ring.
Qed.
Theorem parallel_filter nb na d (b a q r x w y : nat -> R) n :
  (1 <= na)%nat -> (na < nb)%nat -> (d + na <= nb)%nat -> splits nb na d b a q r ->
  (forall m, (m <= n)%nat -> solves_filter (na - 1) na r a x w m) ->
  (forall m, (m <= n)%nat -> y m = dly w d m + conv (nb - na - 1) q x m) ->
  solves_filter (nb - 1) na b a x y n.
Proof.
  intros Hna Hnb Hd Hs Hw Hy. apply solves_conv.
  rewrite (conv_ext na (monic1 a) y (fun m => dly w d m + conv (nb - na - 1) q x m) n Hy), conv_add, conv_dly, conv_conv.
  replace (nb - na - 1 + na)%nat with (nb - 1)%nat by lia. replace (S (nb - na - 1)) with (nb - na)%nat by lia.
  assert (E : dly (conv na (monic1 a) w) d n = dly (conv (na - 1) r x) d n).
  { apply dly_ext. intros j Hj. apply solves_conv. now apply Hw. }
  rewrite E. rewrite <- (conv_shift (nb - 1) na d r x n Hna) by lia.
  unfold conv. rewrite <- bsum_add. apply bsum_ext. intros i Hi. rewrite Hs by lia. ring.
Qed.
End Alg.
Arguments monic1 {R}. Arguments splits {R}.

Section D.
Variable F : cfield.
Add Ring Rf : (r_th F).
Notation ten := (tensor (car F)).
Open Scope cr_scope.

Lemma comp_args la B M (a : ten) f : (1 <= B)%nat -> (1 <= M)%nat -> fcoef B M a f ->
  exists A, companion a = Ok A /\
    (distinct_eigs la M A -> (forall b, (b < B)%nat -> f b (M - 1)%nat <> 0) ->
     diag_args la B M None None None (Some A) (fun b => compm F (f b))) /\
    (distinct_eigs la M (tconj (mT A)) ->
     diag_args la B M None None None (Some (tconj (mT A))) (fun b => comph F (fun k => conj (f b k)))).
Proof.
  intros HB HM H. apply fcoef_P in H as (pre & g & Hp & Ht & Hf).
  destruct (companion_view F a pre M g Ht) as (A & E & HA). exists A. split; [exact E|].
  assert (Hpre : batch_pre B pre) by (destruct Hp; [now left|now right]). split.
  - intros Hd Hl. destruct (Hd pre _ HA) as (L & l & EL & HL & He).
    apply (da_A F la B M pre A L (fun q => comp_mat F (g q)) l); auto.
    intros b Hb. pose proof (vld_bpre B pre b Hpre Hb) as Hq. destruct (He _ Hq) as [H1 H2]. split.
    + split; [exact H1|]. intros k Hk. split; [now apply H2|].
      intros v Hv H0. apply (comp_first F M (g (bpre pre b)) (l (bpre pre b) k)); auto.
      intro E0. destruct (H2 k Hk) as (w & Hw & i & Hi & Hwi). apply Hwi. rewrite E0 in Hw.
      apply (comp_nonzero F M (g (bpre pre b)) w HM); [|exact Hw|exact Hi].
      specialize (Hl b Hb). rewrite Hf in Hl by lia. destruct Hp as [->| ->]; exact Hl.
    + intros i j Hi Hj. unfold compm, comp_mat. rewrite Hf by assumption. destruct Hp as [->| ->]; reflexivity.
  - intros Hd. nm (mT A). nm (tconj v). destruct (Hd pre _ H0) as (L & l & EL & HL & He).
    apply (da_A F la B M pre v0 L (fun q i j => conj (comp_mat F (g q) j i)) l); auto.
    intros b Hb. pose proof (vld_bpre B pre b Hpre Hb) as Hq. destruct (He _ Hq) as [H1 H2]. split.
    + split; [exact H1|]. intros k Hk. split; [now apply H2|].
      intros w Hw Hw0. now apply (compT_first F M (g (bpre pre b)) (l (bpre pre b) k)).
    + intros i j Hi Hj. unfold comph, comp_mat. rewrite Hf by assumption.
      assert (Eb : bpre pre b = match pre with [] => [] | _ :: _ => [b] end) by (destruct Hp as [->| ->]; reflexivity).
      rewrite <- Eb. destruct (j =? S i)%nat; [now rewrite conj_1|]. destruct (j =? 0)%nat; [now rewrite conj_opp|now rewrite conj_0].
Qed.

(** ** The state-space part, for a numerator with M + 1 coefficients *)
Section Inner.
Variables (e : env) (la : linalg F) (re : F -> F) (B N M : nat) (b a x : ten) (bf af xf : nat -> nat -> F)
  (zi : option ten) (z0 : nat -> nat -> F) (cc : bool) (uf : option nat) (A : ten).
Hypotheses (HB : (1 <= B)%nat) (HN : (1 <= N)%nat) (HM : (1 <= M)%nat) (He : backend_ok e M) (Hu : unroll_ok uf)
  (Hla : linalg_ok la M) (Hb : fcoef B (S M) b bf) (Ha : fcoef B M a af) (Hx : is2 x B N xf) (Hz : init B M zi z0)
  (EA : companion a = Ok A).

Lemma inner_df2 : distinct_eigs la M A -> (forall i, (i < B)%nat -> af i (M - 1)%nat <> 0) ->
  (cc = false -> forall i n m, (i < B)%nat -> (n <= N)%nat -> (m < M)%nat ->
     let h := df2_z M (af i) (z0 i) (xf i) n m in re h = h) ->
  exists y zf,
    (let* b0a := tmul (slice (rk b - 1) None (Some 1%Z) b) a in
     let* C := tsub (slice (rk b - 1) (Some 1%Z) None b) b0a in
     let* D := select (rk b - 1) 0 b in
     diag_state_space e la re x None None None (Some A) None (Some C) (Some D) zi cc None uf)%res = Ok (y, zf) /\
    is2 y B N (fun i => df2_y M (bf i) (af i) (z0 i) (xf i)) /\
    match zi with
    | None => zf = None
    | Some _ => exists z, zf = Some z /\ is2 z B M (fun i => df2_z M (af i) (z0 i) (xf i) N)
    end.
Proof.
  intros Hd Hl Hre.
  destruct (comp_args la B M a af HB HM Ha) as (A' & EA' & HA & _). rewrite EA in EA'. injection EA' as <-.
  specialize (HA Hd Hl).
  destruct (fcoef_diff F B M b a bf af Hb Ha) as (C & EC & HC).
  unfold bind in EC |- *. destruct (tmul _ a) as [t|]; [|discriminate]. rewrite EC.
  destruct (fcoef_head F B M b bf Hb) as (D & -> & HD & _).
  destruct (diag_spec F e la re B N M None None x None None None (Some A) None (Some C) (Some D) zi cc uf None
    (fun i => compm F (af i)) (fun i n _ => xf i n) (fun _ i _ => if (i =? 0)%nat then 1 else 0)
    (fun i _ m => bf i (S m) - bf i 0%nat * af i m) (fun i _ _ => bf i 0%nat) z0) as (y & zf & E & Hy & Hzf); auto.
  { apply in_none2. intros i m k Hi Hm Hk. unfold unit3. now replace k with 0%nat by lia. }
  { now apply (fcoef_out F B M C (fun i m => bf i (S m) - bf i 0%nat * af i m)). }
  { intros _ Hcc i n m Hi Hn Hm. cbv zeta. cbn [width]. rewrite ss_df2_h by auto. now apply Hre. }
  exists y, zf. split; [exact E|]. split.
  - cbn [sigv] in Hy. eapply is2_ext; [exact Hy|]. intros i n Hi Hn. cbn beta. now apply (ss_df2_y F M (bf i)).
  - destruct zi; [|exact Hzf]. destruct Hzf as (z & -> & Hzf). exists z. split; [reflexivity|].
    eapply is2_ext; [exact Hzf|]. intros i k Hi Hk. cbn beta. now apply ss_df2_h.
Qed.

Let bc i k := conj (bf i k).
Let ac i k := conj (af i k).
Lemma inner_tdf2 : distinct_eigs la M (tconj (mT A)) ->
  exists y zf,
    (let* b0a := tmul (slice (rk b - 1) None (Some 1%Z) b) a in
     let* Bt := tsub (slice (rk b - 1) (Some 1%Z) None b) b0a in
     let* D := select (rk b - 1) 0 b in
     diag_state_space e la re x None None None (Some (tconj (mT A))) (Some (tconj Bt)) None (Some (tconj D)) zi cc
       (Some 0%Z) uf)%res = Ok (y, zf) /\
    is2 y B N (fun i => tdf2_y M (bc i) (ac i) (z0 i) (xf i)) /\
    match zi with
    | None => zf = None
    | Some _ => exists z, zf = Some z /\ is2 z B M (fun i => tdf2_z M (bc i) (ac i) (z0 i) (xf i) N)
    end.
Proof.
  intros Hd.
  destruct (comp_args la B M a af HB HM Ha) as (A' & EA' & _ & HA). rewrite EA in EA'. injection EA' as <-.
  specialize (HA Hd).
  destruct (fcoef_diff F B M b a bf af Hb Ha) as (C & EC & HC).
  unfold bind in EC |- *. destruct (tmul _ a) as [t|]; [|discriminate]. rewrite EC.
  destruct (fcoef_head F B M b bf Hb) as (D & -> & _ & HD).
  destruct (diag_spec F e la re B N M None None x None None None (Some (tconj (mT A))) (Some (tconj C)) None (Some (tconj D)) zi cc uf (Some 0%Z)
    (fun i => comph F (ac i)) (fun i n _ => xf i n) (fun i m _ => bc i (S m) - bc i 0%nat * ac i m) (fun i _ m => unit3 0 0 m)
    (fun i _ _ => bc i 0%nat) z0) as (y & zf & E & Hy & Hzf); auto.
  { apply (fcoef_in F B M (tconj C) (fun i m => bc i (S m) - bc i 0%nat * ac i m)).
    eapply fcoef_ext; [apply fcoef_conj; exact HC|]. intros i k Hi Hk. unfold bc, ac. cbn beta.
    now rewrite conj_sub, conj_mul. }
  { apply (out_idx F B M 0%Z 0%nat); [now apply (pyidx_nat M 0)|]. intros i p m Hi Hp Hm. reflexivity. }
  { intro H. now destruct H. }
  exists y, zf. split; [exact E|]. split.
  - cbn [sigv] in Hy. eapply is2_ext; [exact Hy|]. intros i n Hi Hn. cbn beta. now apply (ss_tdf2_y F M (bc i)).
  - destruct zi; [|exact Hzf]. destruct Hzf as (z & -> & Hzf). exists z. split; [reflexivity|].
    eapply is2_ext; [exact Hzf|]. intros i k Hi Hk. cbn beta. now apply ss_tdf2_h.
Qed.
End Inner.
End D.
