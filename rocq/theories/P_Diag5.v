(** The diagonal back-end of lfilter: polynomial division and the complete function. *)
From Coq Require Import List Arith Lia ZArith Bool Ring.
From Verif Require Import Scalar Tensor TensorLemmas TensorOps TensorAlg TensorTac TensorList
  Spec Shapes SpecFilter SpecPoly Algebra M_Mat P_Mat M_Kernels P_KernelOps P_Helion M_LtiRecur P_LtiRecur M_LtiSsm P_LtiSsm
  M_LtiFilter P_Filter P_LtiFilter M_Poly P_Poly M_Diag SpecDiag P_Diag P_Diag2 P_Diag3 P_Diag4.
Import ListNotations.

Section Alg.
Variable F : cfield.
Add Ring Rr : (r_th F).
Open Scope cr_scope.

Lemma pmulc_conj k l (q v : nat -> F) i :
  conj (pmulc k l q v i) = pmulc k l (fun j => conj (q j)) (fun j => conj (v j)) i.
Proof.
  unfold pmulc. rewrite bsum_conj. apply bsum_ext. intros j Hj. rewrite bsum_conj. apply bsum_ext. intros t Ht.
  destruct (j + t =? i)%nat; [apply conj_mul|apply conj_0].
Qed.
Lemma pmulc_low k l (q v : nat -> F) i : (i < k)%nat -> (1 <= l)%nat ->
  pmulc k l q v i = q i * v 0%nat + bsum i (fun j => bsum l (fun t => if (j + t =? i)%nat then q j * v t else 0)).
Proof.
  intros Hi Hl. unfold pmulc. replace k with (i + (1 + (k - i - 1)))%nat by lia. rewrite bsum_split, bsum_split.
  rewrite (bsum_0 (k - i - 1)).
  - rewrite bsum_S. cbn [bsum]. rewrite (bsum_one l _ 0%nat).
    + btrue (i + 0 + 0 =? i)%nat. replace (i + 0)%nat with i by lia. ring.
    + lia.
    + intros t Ht Hne. now bfalse (i + 0 + t =? i)%nat.
  - intros j Hj. apply bsum_0. intros t Ht. now bfalse (i + (1 + j) + t =? i)%nat.
Qed.
(** The quotient is determined by the low coefficients of the product. *)
Lemma quot_unique k l (q q' v : nat -> F) : (1 <= l)%nat -> v 0%nat <> 0 ->
  (forall i, (i < k)%nat -> pmulc k l q v i = pmulc k l q' v i) -> forall i, (i < k)%nat -> q i = q' i.
Proof.
  intros Hl H0 H. induction i as [i IH] using lt_wf_ind. intro Hi.
  specialize (H i Hi). rewrite !pmulc_low in H by assumption.
  assert (E : q i * v 0%nat = q' i * v 0%nat).
  { assert (E : forall a b c d : F, a + c = b + d -> c = d -> a = b).
    { intros a b c d H1 H2. subst d. transitivity (a + c - c); [ring|]. rewrite H1. ring. }
    apply (E _ _ _ _ H). apply bsum_ext. intros j Hj. apply bsum_ext. intros t Ht.
    rewrite IH by lia. reflexivity. }
  transitivity (q i * (rinv (v 0%nat) * v 0%nat)).
  - rewrite (rinv_l _ H0). ring.
  - transitivity (rinv (v 0%nat) * (q i * v 0%nat)); [ring|]. rewrite E.
    transitivity (q' i * (rinv (v 0%nat) * v 0%nat)); [ring|]. rewrite (rinv_l _ H0). ring.
Qed.
Lemma quot_real k l (q v u : nat -> F) : (1 <= l)%nat -> v 0%nat <> 0 ->
  (forall i, (i < k)%nat -> u i = pmulc k l q v i) -> (forall i, (i < k)%nat -> conj (u i) = u i) ->
  (forall i, (i < l)%nat -> conj (v i) = v i) -> forall i, (i < k)%nat -> conj (q i) = q i.
Proof.
  intros Hl H0 H Hu Hv i Hi. symmetry. apply (quot_unique k l q (fun i => conj (q i)) v Hl H0); [|exact Hi].
  intros j Hj. rewrite <- H, <- Hu, H, pmulc_conj by exact Hj. apply pmulc_ext; auto.
Qed.
Lemma pmulc_rev k l (q v : nat -> F) i j : (1 <= k)%nat -> (1 <= l)%nat -> (i + j = k + l - 2)%nat ->
  pmulc k l q v j = pmulc k l (fun s => q (k - 1 - s)%nat) (fun s => v (l - 1 - s)%nat) i.
Proof.
  intros Hk Hl Hij. unfold pmulc. rewrite (bsum_rev k). apply bsum_ext. intros s Hs. rewrite (bsum_rev l). apply bsum_ext. intros t Ht.
  replace (k - 1 - s + (l - 1 - t) =? j)%nat with (s + t =? i)%nat; [reflexivity|].
  destruct (s + t =? i)%nat eqn:E; symmetry; [apply Nat.eqb_eq|apply Nat.eqb_neq]; b2p; lia.
Qed.
Lemma monic1_conj (a : nat -> F) k : conj (monic1 a k) = monic1 (fun k => conj (a k)) k.
Proof. destruct k; [apply conj_1|reflexivity]. Qed.
Lemma splits_conj nb na d (b a q r : nat -> F) : splits nb na d b a q r ->
  splits nb na d (fun k => conj (b k)) (fun k => conj (a k)) (fun k => conj (q k)) (fun k => conj (r k)).
Proof.
  intros H i Hi. cbn beta. rewrite (H i Hi), conj_add, pmulc_conj. f_equal.
  - apply pmulc_ext; auto. intros. apply monic1_conj.
  - destruct ((d <=? i)%nat && (i <? d + na)%nat); [reflexivity|apply conj_0].
Qed.
Lemma splits_ext nb na d (b a q r b' a' q' r' : nat -> F) :
  (forall i, (i < nb)%nat -> b i = b' i) -> (forall i, (i < na)%nat -> a i = a' i) ->
  (forall i, (i < nb - na)%nat -> q i = q' i) -> (forall i, (i < na)%nat -> r i = r' i) ->
  splits nb na d b a q r -> splits nb na d b' a' q' r'.
Proof.
  intros Hb Ha Hq Hr H i Hi. rewrite <- Hb, (H i Hi) by exact Hi. f_equal.
  - apply pmulc_ext; auto. intros [|j] Hj; cbn [monic1]; [reflexivity|apply Ha; lia].
  - destruct ((d <=? i)%nat && (i <? d + na)%nat) eqn:E; [|reflexivity]. apply andb_true_iff in E as [E1 E2]. b2p.
    apply Hr. lia.
Qed.
End Alg.

Section D.
Variable F : cfield.
Add Ring Rf : (r_th F).
Notation ten := (tensor (car F)).
Open Scope cr_scope.

(** ** The divisor [1, a] as a row *)
Lemma fcoef_rowc B n (t : ten) f : fcoef B n t f -> exists g, rowc [B] n t g /\
  forall b k, (b < B)%nat -> (k < n)%nat -> g [b] k = f b k.
Proof.
  intro H. apply fcoef_P in H as (pre & g & [->| ->] & Ht & Hf).
  - exists (fun _ => g []). split; [apply rowc_shared; now apply P1_nil|]. intros b k Hb Hk. now rewrite (Hf b k Hb Hk).
  - exists g. split; [now apply rowc_own|]. intros b k Hb Hk. now rewrite (Hf b k Hb Hk).
Qed.
Lemma fcoef_pad1 B n (t : ten) f : fcoef B n t f ->
  fcoef B (S n) (pad (rk t - 1) 1 0 1 t) (fun b => monic1 (f b)).
Proof.
  intro H. apply fcoef_P in H as (pre & g & Hp & Ht & Hf).
  pose proof (P1_rk _ _ _ _ Ht) as Hr. nm (pad (rk t - 1) 1 0 1 t). replace (1 + n + 0)%nat with (S n) in H by lia.
  apply (P_fcoef F _ _ _ _ pre _ Hp H). intros b [|k] Hb Hk; cbn [Nat.leb andb monic1]; [reflexivity|].
  btrue (S k <? 1 + n)%nat. replace (S k - 1)%nat with k by lia. apply Hf; lia.
Qed.
Lemma fcoef_flip B n (t : ten) f : fcoef B n t f -> fcoef B n (flip (rk t - 1) t) (fun b k => f b (n - 1 - k)%nat).
Proof.
  intro H. apply fcoef_P in H as (pre & g & Hp & Ht & Hf).
  pose proof (P1_rk _ _ _ _ Ht) as Hr. nm (flip (rk t - 1) t).
  apply (P_fcoef F _ _ _ _ pre _ Hp H). intros b k Hb Hk. apply Hf; lia.
Qed.
Lemma fcoef_padr B n (t : ten) f : fcoef B n t f ->
  fcoef B (S n) (pad (rk t - 1) 0 1 1 t) (fun b k => if (k <? n)%nat then f b k else 1).
Proof.
  intro H. apply fcoef_P in H as (pre & g & Hp & Ht & Hf).
  pose proof (P1_rk _ _ _ _ Ht) as Hr. nm (pad (rk t - 1) 0 1 1 t). replace (0 + n + 1)%nat with (S n) in H by lia.
  apply (P_fcoef F _ _ _ _ pre _ Hp H). intros b k Hb Hk. cbn [Nat.leb andb]. rewrite Nat.sub_0_r, Nat.add_0_l.
  destruct (k <? n)%nat eqn:E; b2p; [now apply Hf|reflexivity].
Qed.

(** What the division gives: tensors q, r with b = q [1, a] + z^-d r; real if b and a are. *)
Definition division_of (B nb na d : nat) (q r : ten) (bf af : nat -> nat -> F) : Prop :=
  exists qf rf, is2 q B (nb - na) qf /\ is2 r B na rf /\
    (forall i, (i < B)%nat -> splits nb na d (bf i) (af i) (qf i) (rf i)) /\
    ((forall i k, (i < B)%nat -> (k < nb)%nat -> conj (bf i k) = bf i k) ->
     (forall i k, (i < B)%nat -> (k < na)%nat -> conj (af i k) = af i k) ->
     forall i k, (i < B)%nat -> (k < nb - na)%nat -> conj (qf i k) = qf i k).

Lemma divide_delayed B nb na (b a : ten) bf af : (na < nb)%nat -> is2 b B nb bf -> fcoef B na a af ->
  exists q r, polydiv b (pad (rk a - 1) 1 0 1 a) = Ok (q, r) /\ division_of B nb na (nb - na) q r bf af.
Proof.
  intros Hn Hb Ha. destruct (fcoef_rowc _ _ _ _ (fcoef_pad1 _ _ _ _ Ha)) as (g & Hg & Hgf).
  apply is2_P1 in Hb. replace nb with (S (nb - 1)) in Hb by lia.
  destruct (polydiv_spec_l F [B] (nb - 1) na b _ _ g Hb Hg) as (q & r & qf & rf & E & Hq & Hr & Hs).
  { lia. }
  { intros p Hp. inversion Hp as [|x y l l' Hx Hl]; subst. inversion Hl; subst. rewrite Hgf by lia.
    cbn [monic1]. apply (r1_neq_r0 F). }
  exists q, r. split; [exact E|]. replace (nb - 1 - na + 1)%nat with (nb - na)%nat in * by lia.
  exists (fun i => qf [i]), (fun i => rf [i]). split; [now apply P1_cons|]. split; [now apply P1_cons|].
  assert (Hs' : forall i, (i < B)%nat -> splits nb na (nb - na) (bf i) (af i) (qf [i]) (rf [i])).
  { intros i Hi k Hk. specialize (Hs [i] k). cbn beta in Hs. cbn [hd nth] in Hs. rewrite Hs.
    - f_equal.
      + apply pmulc_ext; auto.
      + destruct (nb - na <=? k)%nat eqn:Ek; [|reflexivity]. now btrue (k <? nb - na + na)%nat.
    - constructor; [exact Hi|constructor].
    - lia. }
  split; [exact Hs'|].
  intros Hrb Hra i k Hi Hk. apply (quot_real F (nb - na) (S na) (qf [i]) (monic1 (af i)) (bf i)); auto; try lia.
  - apply (r1_neq_r0 F).
  - intros j Hj. rewrite (Hs' i Hi j) by lia. bfalse (nb - na <=? j)%nat. cbn [andb]. ring.
  - intros j Hj. apply Hrb; lia.
  - intros [|j] Hj; cbn [monic1]; [apply conj_1|apply Hra; lia].
Qed.

Lemma divide_plain B nb na (b a : ten) bf af : (1 <= na)%nat -> (na < nb)%nat -> is2 b B nb bf -> fcoef B na a af ->
  (forall i, (i < B)%nat -> af i (na - 1)%nat <> 0) ->
  exists q r, polydiv (flip (rk b - 1) b) (pad (rk a - 1) 0 1 1 (flip (rk a - 1) a)) = Ok (q, r) /\
    division_of B nb na 0 (flip (rk q - 1) q) (flip (rk r - 1) r) bf af.
Proof.
  intros Hn1 Hn Hb Ha H0.
  assert (Hrf : rk (flip (rk a - 1) a) = rk a) by reflexivity.
  pose proof (fcoef_padr _ _ _ _ (fcoef_flip _ _ _ _ Ha)) as Ha'. rewrite Hrf in Ha'.
  destruct (fcoef_rowc _ _ _ _ Ha') as (g & Hg & Hgf).
  assert (Hgm : forall i k, (i < B)%nat -> (k < S na)%nat -> g [i] k = monic1 (af i) (na - k)%nat).
  { intros i k Hi Hk. rewrite Hgf by lia. destruct (k <? na)%nat eqn:E; b2p.
    - destruct (na - k)%nat eqn:E'; [lia|]. cbn [monic1]. f_equal. lia.
    - replace (na - k)%nat with 0%nat by lia. reflexivity. }
  apply is2_P1 in Hb. pose proof (P1_flip0 b [B] nb _ (rk b - 1) Hb ltac:(rewrite (P1_rk _ _ _ _ Hb); cbn; lia)) as Hb'.
  replace nb with (S (nb - 1)) in Hb' at 1 by lia.
  destruct (polydiv_spec_l F [B] (nb - 1) na _ _ _ g Hb' Hg) as (q & r & qf & rf & E & Hq & Hr & Hs).
  { lia. }
  { intros p Hp. inversion Hp as [|x y l l' Hx Hl]; subst. inversion Hl; subst. rewrite Hgm by lia.
    replace (na - 0)%nat with (S (na - 1)) by lia. cbn [monic1]. now apply H0. }
  exists q, r. split; [exact E|]. replace (nb - 1 - na + 1)%nat with (nb - na)%nat in * by lia.
  pose proof (P1_flip0 q [B] _ _ (rk q - 1) Hq ltac:(rewrite (P1_rk _ _ _ _ Hq); cbn; lia)) as Hq'.
  pose proof (P1_flip0 r [B] _ _ (rk r - 1) Hr ltac:(rewrite (P1_rk _ _ _ _ Hr); cbn; lia)) as Hr'.
  exists (fun i k => qf [i] (nb - na - 1 - k)%nat), (fun i k => rf [i] (na - 1 - k)%nat).
  split; [now apply P1_cons in Hq'|]. split; [now apply P1_cons in Hr'|]. split.
  - intros i Hi k Hk. specialize (Hs [i] (nb - 1 - k)%nat). cbn beta in Hs. cbn [hd nth] in Hs.
    replace (nb - 1 - (nb - 1 - k))%nat with k in Hs by lia. rewrite Hs.
    + f_equal.
      * rewrite (pmulc_rev F (nb - na) (S na) (qf [i]) (g [i]) k) by lia. apply pmulc_ext; auto.
        intros j Hj. rewrite Hgm by lia. f_equal. lia.
      * destruct (nb - na <=? nb - 1 - k)%nat eqn:Ek; b2p.
        -- btrue (0 <=? k)%nat. btrue (k <? 0 + na)%nat. cbn [andb]. f_equal. lia.
        -- btrue (0 <=? k)%nat. bfalse (k <? 0 + na)%nat. reflexivity.
    + constructor; [exact Hi|constructor].
    + lia.
  - intros Hrb Hra i k Hi Hk.
    apply (quot_real F (nb - na) (S na) (qf [i]) (g [i]) (fun k => bf i (nb - 1 - k)%nat)); try lia.
    + rewrite Hgm by lia. replace (na - 0)%nat with (S (na - 1)) by lia. cbn [monic1]. now apply H0.
    + intros j Hj. specialize (Hs [i] j). cbn beta in Hs. cbn [hd nth] in Hs. rewrite Hs.
      * bfalse (nb - na <=? j)%nat. ring.
      * constructor; [exact Hi|constructor].
      * lia.
    + intros j Hj. apply Hrb; lia.
    + intros j Hj. rewrite Hgm by lia. destruct (na - j)%nat eqn:Ej; cbn [monic1]; [apply conj_1|apply Hra; lia].
Qed.

(** ** The state-space stage of both forms *)
Definition diag_stage (e : env) (la : linalg F) (re : F -> F) (fm : form) (cc : bool) (uf : option nat) (A b a x : ten) (zi : option ten)
  : res (ten * option ten) :=
  (match fm with
   | Df2 =>
       let* b0a := tmul (slice (rk b - 1) None (Some 1%Z) b) a in
       let* C := tsub (slice (rk b - 1) (Some 1%Z) None b) b0a in
       let* D := select (rk b - 1) 0 b in
       diag_state_space e la re x None None None (Some A) None (Some C) (Some D) zi cc None uf
   | Tdf2 =>
       let* b0a := tmul (slice (rk b - 1) None (Some 1%Z) b) a in
       let* Bt := tsub (slice (rk b - 1) (Some 1%Z) None b) b0a in
       let* D := select (rk b - 1) 0 b in
       diag_state_space e la re x None None None (Some (tconj (mT A))) (Some (tconj Bt)) None (Some (tconj D)) zi cc
         (Some 0%Z) uf
   | _ => Err ValueError
   end)%res.
Definition diag_finish (x : ten) (direct : option ten) (delay : nat) (y : ten) (zf : option ten) : res (ten * option ten) :=
  match zf with
  | Some _ => Ok (y, zf)
  | None =>
      let y := if (0 <? delay)%nat then pad 1 delay 0 0 (slice 1 None (Some (- Z.of_nat delay)%Z) y) else y in
      match direct with
      | None => Ok (y, None)
      | Some q => (let* ' (d, _) := fir q x None true in let* y := tadd y d in Ok (y, None))%res
      end
  end.
Definition diag_tail (e : env) (la : linalg F) (re : F -> F) (fm : form) (cc : bool) (uf : option nat) (a x b : ten) (zi direct : option ten) (delay : nat)
  : res (ten * option ten) :=
  (let b := if (sizen b 1 <? sizen a 1 + 1)%nat then pad (rk b - 1) 0 (sizen a 1 + 1 - sizen b 1) 0 b else b in
   let* A := companion a in
   let* ' (y, zf) := diag_stage e la re fm cc uf A b a x zi in
   diag_finish x direct delay y zf)%res.
Lemma diag_unfold e la re fm dl cc uf (b a x : ten) zi :
  diag_ssm_lfilter e la re fm dl cc uf b a x zi =
  (let* ' (b, zi, direct, delay) :=
    if (sizen a 1 + 1 <? sizen b 1)%nat then
      if dl then
        let* ' (q, r) := polydiv b (pad (rk a - 1) 1 0 r1 a) in
        Ok (r, None, Some q, (sizen b 1 - sizen a 1)%nat)
      else
        let* ' (q, r) := polydiv (flip (rk b - 1) b) (pad (rk a - 1) 0 1 r1 (flip (rk a - 1) a)) in
        Ok (flip (rk r - 1) r, None, Some (flip (rk q - 1) q), 0%nat)
    else Ok (b, zi, None, 0%nat) in
   diag_tail e la re fm cc uf a x b zi direct delay)%res.
Proof. reflexivity. Qed.

(** What the stage needs of the eigenvalues and of [re]. *)
Definition diag_cond (la : linalg F) (re : F -> F) (B N M : nat) (fm : form) (cc : bool) (a : ten)
  (af z0 xf : nat -> nat -> F) : Prop :=
  forall A, companion a = Ok A ->
  match fm with
  | Df2 => distinct_eigs la M A /\ (forall i, (i < B)%nat -> af i (M - 1)%nat <> 0) /\
      (cc = false -> forall i n m, (i < B)%nat -> (n <= N)%nat -> (m < M)%nat ->
        re (df2_z M (af i) (z0 i) (xf i) n m) = df2_z M (af i) (z0 i) (xf i) n m)
  | Tdf2 => distinct_eigs la M (tconj (mT A))
  | _ => False
  end.

Lemma lf_pad fm nb (f : nat -> F) k : lf_num fm (padz nb f) k = padz nb (lf_num fm f) k.
Proof. destruct fm; cbn [lf_num]; try reflexivity; apply padz_conj. Qed.

Section Full.
Variables (e : env) (la : linalg F) (re : F -> F) (B N na : nat) (a x : ten) (af xf : nat -> nat -> F)
  (cc : bool) (uf : option nat) (fm : form).
Hypotheses (HB : (1 <= B)%nat) (HN : (1 <= N)%nat) (Hna : (1 <= na)%nat) (He : backend_ok e na) (Hu : unroll_ok uf)
  (Hla : linalg_ok la na) (Ha : fcoef B na a af) (Hx : is2 x B N xf).

(** A numerator with at most na + 1 coefficients. *)
Lemma diag_tail_spec nb (b : ten) bf zi z0 : (1 <= nb)%nat -> (nb <= na + 1)%nat -> fcoef B nb b bf -> init B na zi z0 ->
  diag_cond la re B N na fm cc a af z0 xf ->
  exists y zf, is2 y B N (fun i => lf_y fm na (padz nb (lf_num fm (bf i))) (padz na (lf_den fm (af i))) (z0 i) (xf i)) /\
    (forall direct delay, diag_tail e la re fm cc uf a x b zi direct delay = diag_finish x direct delay y zf) /\
    match zi with
    | None => zf = None
    | Some _ => exists z, zf = Some z /\
        is2 z B na (fun i => lf_z fm na (padz nb (lf_num fm (bf i))) (padz na (lf_den fm (af i))) (z0 i) (xf i) N)
    end.
Proof.
  intros Hnb1 Hnb Hb Hz Hc. unfold diag_tail.
  rewrite (proj1 (fcoef_size _ _ _ _ _ Hb)), (proj1 (fcoef_size _ _ _ _ _ Ha)).
  destruct (pad_b F B N nb na na b bf) as (b' & -> & Hb'); auto; try lia.
  destruct (comp_args F la B na a af HB Hna Ha) as (A & EA & _). rewrite EA. cbn [bind].
  specialize (Hc A EA). destruct fm; try contradiction.
  - destruct Hc as (Hd & Hl & Hre).
    destruct (inner_df2 F e la re B N na b' a x _ af xf zi z0 cc uf A HB HN Hna He Hu Hla Hb' Ha Hx Hz EA Hd Hl Hre) as (y & zf & E & Hy & Hzf).
    exists y, zf. split; [|split].
    + eapply is2_ext; [exact Hy|]. intros i n Hi Hn. cbn beta. cbn [lf_y lf_num lf_den]. apply df2_y_ext; auto.
      intros k Hk. unfold padz. now btrue (k <? na)%nat.
    + intros. unfold diag_stage. rewrite E. reflexivity.
    + destruct zi; [|exact Hzf]. destruct Hzf as (z & -> & Hzf). exists z. split; [reflexivity|].
      eapply is2_ext; [exact Hzf|]. intros i k Hi Hk. cbn beta. cbn [lf_z lf_num lf_den]. apply df2_z_ext; auto.
      intros j Hj. unfold padz. now btrue (j <? na)%nat.
  - destruct (inner_tdf2 F e la re B N na b' a x _ af xf zi z0 cc uf A HB HN Hna He Hu Hla Hb' Ha Hx Hz EA Hc) as (y & zf & E & Hy & Hzf).
    exists y, zf. split; [|split].
    + eapply is2_ext; [exact Hy|]. intros i n Hi Hn. cbn beta. cbn [lf_y lf_num lf_den]. apply tdf2_y_ext; auto.
      * intros k Hk. apply padz_conj.
      * intros k Hk. unfold padz. now btrue (k <? na)%nat.
    + intros. unfold diag_stage. rewrite E. reflexivity.
    + destruct zi; [|exact Hzf]. destruct Hzf as (z & -> & Hzf). exists z. split; [reflexivity|].
      eapply is2_ext; [exact Hzf|]. intros i k Hi Hk. cbn beta. cbn [lf_z lf_num lf_den]. apply tdf2_z_ext; auto.
      * intros j Hj. apply padz_conj.
      * intros j Hj. unfold padz. now btrue (j <? na)%nat.
Qed.

Lemma diag_2d dl nb (b : ten) bf zi : fcoef B nb b bf ->
  lfilter_diag e la re b a x zi fm dl cc uf = diag_ssm_lfilter e la re fm dl cc uf b a x zi.
Proof.
  intro Hb. unfold lfilter_diag, lfilter_wrap. rkt. cbn [Nat.eqb Nat.ltb Nat.leb andb bind].
  destruct (fcoef_size _ _ _ _ _ Hb) as (_ & -> & _). destruct (fcoef_size _ _ _ _ _ Ha) as (_ & -> & _).
  destruct (diag_ssm_lfilter e la re fm dl cc uf b a x zi) as [(y & zf)|]; reflexivity.
Qed.

Theorem diag_short dl nb (b : ten) bf zi z0 : (1 <= nb)%nat -> (nb <= na + 1)%nat -> fcoef B nb b bf -> init B na zi z0 ->
  diag_cond la re B N na fm cc a af z0 xf ->
  exists y zf, lfilter_diag e la re b a x zi fm dl cc uf = Ok (y, zf) /\
    is2 y B N (fun i => lf_y fm na (padz nb (lf_num fm (bf i))) (padz na (lf_den fm (af i))) (z0 i) (xf i)) /\
    match zi with
    | None => zf = None
    | Some _ => exists z, zf = Some z /\
        is2 z B na (fun i => lf_z fm na (padz nb (lf_num fm (bf i))) (padz na (lf_den fm (af i))) (z0 i) (xf i) N)
    end.
Proof.
  intros Hnb1 Hnb Hb Hz Hc. rewrite (diag_2d dl nb b bf zi Hb), diag_unfold.
  rewrite (proj1 (fcoef_size _ _ _ _ _ Hb)), (proj1 (fcoef_size _ _ _ _ _ Ha)).
  bfalse (na + 1 <? nb)%nat. cbn [bind].
  destruct (diag_tail_spec nb b bf zi z0 Hnb1 Hnb Hb Hz Hc) as (y & zf & Hy & E & Hzf).
  exists y, zf. split; [rewrite E|now split]. destruct zi.
  - destruct Hzf as (z & -> & _). reflexivity.
  - subst zf. reflexivity.
Qed.

(** More coefficients than that: the quotient runs as an FIR filter in parallel; zi is
    ignored. *)
Lemma diag_long_run nb d (q r : ten) bf : (na + 1 < nb)%nat -> (d = 0 \/ d = nb - na)%nat -> (d <= N)%nat ->
  division_of B nb na d q r bf af ->
  (fm = Df2 -> (forall i k, (i < B)%nat -> (k < nb)%nat -> conj (bf i k) = bf i k) /\
               (forall i k, (i < B)%nat -> (k < na)%nat -> conj (af i k) = af i k)) ->
  diag_cond la re B N na fm cc a af (fun _ _ => 0) xf ->
  exists y, diag_tail e la re fm cc uf a x r None (Some q) d = Ok (y, None) /\
    exists yf, is2 y B N yf /\ forall i n, (i < B)%nat -> (n < N)%nat ->
      solves_filter (nb - 1) na (lf_num fm (bf i)) (lf_den fm (af i)) (xf i) (yf i) n.
Proof.
  intros Hnb Hd HdN (qf & rf & Hq & Hr & Hs & Hreal) Hre Hc.
  destruct (diag_tail_spec na r rf None (fun _ _ => 0)) as (w & zf & Hw & E & ->); auto; try lia.
  { now apply fc_b. }
  { now constructor. }
  rewrite E. unfold diag_finish.
  assert (Hdl : is2 (if (0 <? d)%nat then pad 1 d 0 0 (slice 1 None (Some (- Z.of_nat d)%Z) w) else w) B N
    (fun i => dly (lf_y fm na (padz na (lf_num fm (rf i))) (padz na (lf_den fm (af i))) (fun _ => 0) (xf i)) d)).
  { destruct (0 <? d)%nat eqn:E0; b2p.
    - apply is2_P1 in Hw.
      pose proof (P1_slice0 w [B] N _ 1%nat None (Some (- Z.of_nat d)%Z) 0%nat (N - d)%nat Hw eq_refl eq_refl) as H1.
      assert (Hb : (pybound N N (Some (- Z.of_nat d)%Z) - 0 = N - d)%nat).
      { rewrite pyb_neg by lia. lia. }
      specialize (H1 Hb).
      pose proof (P1_pad0 _ [B] _ _ 1%nat d 0%nat (@r0 F) H1 eq_refl) as H2.
      replace (d + (N - d) + 0)%nat with N in H2 by lia. apply P1_cons in H2.
      eapply is2_ext; [exact H2|]. intros i n Hi Hn. cbn beta. cbn [nth]. unfold dly.
      destruct (d <=? n)%nat eqn:En; b2p; cbn [andb]; [|reflexivity]. btrue (n <? d + (N - d))%nat. reflexivity.
    - replace d with 0%nat by lia. eapply is2_ext; [exact Hw|]. intros i n Hi Hn. cbn beta. now rewrite dly_0. }
  set (w' := if (0 <? d)%nat then _ else _) in *.
  replace (nb - na)%nat with (S (nb - na - 1)) in Hq by lia.
  destruct (fir_transposed_none F B N (nb - na - 1) q x qf xf Hq Hx) as (dd & -> & Hdd); [lia|]. cbn [bind].
  apply is2_P1 in Hdl, Hdd. destruct (P1_ew_same (@radd F) _ _ _ _ _ _ Hdl Hdd) as (y & Ey & Hy).
  unfold tadd. rewrite Ey. cbn [bind]. apply P1_cons in Hy. cbn [nth] in Hy.
  exists y. split; [reflexivity|]. eexists. split; [exact Hy|]. intros i n Hi Hn. cbn beta.
  apply (parallel_filter F nb na d _ _ (fun k => conj (qf i k)) (lf_num fm (rf i)) (xf i)
    (lf_y fm na (padz na (lf_num fm (rf i))) (padz na (lf_den fm (af i))) (fun _ => 0) (xf i))); try lia.
  - destruct (comp_args F la B na a af HB Hna Ha) as (A & EA & _). specialize (Hc A EA).
    assert (Hd' : (fm = Df2 -> forall k, (k < nb - na)%nat -> conj (qf i k) = qf i k)).
    { intros Hf k Hk. destruct (Hre Hf). now apply Hreal. }
    destruct fm; cbn [lf_num lf_den]; try contradiction.
    + eapply splits_ext; [| | | |exact (Hs i Hi)]; auto. intros k Hk. symmetry. now apply Hd'.
    + now apply splits_conj, Hs.
  - intros m Hm. apply lf_y_solves; auto; lia.
  - intros m Hm. reflexivity.
Qed.

Theorem diag_long dl nb (b : ten) bf zi : (na + 1 < nb)%nat -> is2 b B nb bf ->
  (dl = true -> (nb - na <= N)%nat) ->
  (dl = false -> forall i, (i < B)%nat -> af i (na - 1)%nat <> 0) ->
  (fm = Df2 -> (forall i k, (i < B)%nat -> (k < nb)%nat -> conj (bf i k) = bf i k) /\
               (forall i k, (i < B)%nat -> (k < na)%nat -> conj (af i k) = af i k)) ->
  diag_cond la re B N na fm cc a af (fun _ _ => 0) xf ->
  exists y, lfilter_diag e la re b a x zi fm dl cc uf = Ok (y, None) /\
    is2 y B N (fun i => lf_y fm (nb - 1) (padz nb (lf_num fm (bf i))) (padz na (lf_den fm (af i))) (fun _ => 0) (xf i)).
Proof.
  intros Hnb Hb HdN Hl Hre Hc. assert (Hb' : fcoef B nb b bf) by now apply fc_b.
  rewrite (diag_2d dl nb b bf zi Hb'), diag_unfold.
  rewrite (proj1 (fcoef_size _ _ _ _ _ Hb')), (proj1 (fcoef_size _ _ _ _ _ Ha)).
  btrue (na + 1 <? nb)%nat.
  assert (Hfin : forall y, (exists yf, is2 y B N yf /\ forall i n, (i < B)%nat -> (n < N)%nat ->
      solves_filter (nb - 1) na (lf_num fm (bf i)) (lf_den fm (af i)) (xf i) (yf i) n) ->
    is2 y B N (fun i => lf_y fm (nb - 1) (padz nb (lf_num fm (bf i))) (padz na (lf_den fm (af i))) (fun _ => 0) (xf i))).
  { intros y (yf & Hy & Hs). eapply is2_ext; [exact Hy|]. intros i n Hi Hn. cbn beta.
    apply (solves_filter_unique F (nb - 1) na (lf_num fm (bf i)) (lf_den fm (af i)) (xf i) _ _ N); auto.
    intros m Hm. apply lf_y_solves; auto; lia. }
  destruct dl.
  - destruct (divide_delayed B nb na b a bf af) as (q & r & -> & Hdiv); auto; [lia|]. cbn [bind].
    destruct (diag_long_run nb (nb - na) q r bf) as (y & E & Hy); auto.
    exists y. split; [exact E|]. now apply Hfin.
  - destruct (divide_plain B nb na b a bf af) as (q & r & -> & Hdiv); auto; [lia|]. cbn [bind].
    destruct (diag_long_run nb 0 (flip (rk q - 1) q) (flip (rk r - 1) r) bf) as (y & E & Hy); auto; [lia|].
    exists y. split; [exact E|]. now apply Hfin.
Qed.
End Full.
End D.
