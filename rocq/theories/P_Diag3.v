(** Which decomposition diag_state_space uses; the full theorem; companion matrices. *)
From Coq Require Import List Arith Lia ZArith Bool Ring.
From Verif Require Import Scalar Tensor TensorLemmas TensorOps TensorAlg TensorTac TensorList
  Spec Shapes Algebra M_Mat P_Mat M_Kernels P_KernelOps P_Helion M_LtiRecur P_LtiRecur M_LtiSsm P_LtiSsm M_Diag
  SpecDiag P_Diag P_Diag2.
Import ListNotations.

Section D.
Variable F : cfield.
Add Ring Rr : (r_th F).
Notation ten := (tensor (car F)).
Open Scope cr_scope.

Lemma vld_bpre B pa b : batch_pre B pa -> (b < B)%nat -> vld pa (bpre pa b).
Proof. intros [->| ->] Hb; [apply vld_nil|now apply vld_1]. Qed.
Lemma vld_bpre_inv B pa q : batch_pre B pa -> (1 <= B)%nat -> vld pa q -> exists b, (b < B)%nat /\ q = bpre pa b.
Proof.
  intros [->| ->] HB Hq; [apply vld_nil_inv in Hq as ->; now exists 0%nat|].
  apply vld_1_inv in Hq as (b & -> & Hb). eauto.
Qed.

Lemma dec_P B M pa (L V W : ten) l v w : batch_pre B pa ->
  isP1 L pa M l -> isP2 V pa M M v -> isP2 W pa M M w ->
  dec F B M L V W (fun b => l (bpre pa b)) (fun b => v (bpre pa b)) (fun b => w (bpre pa b)).
Proof.
  intros [->| ->] H1 H2 H3.
  - apply dec_s with (l []) (v []) (w []); auto.
    + apply is1_P. fin H1; auto. intros q i Hq _. now apply vld_nil_inv in Hq as ->.
    + apply is2_P. fin H2; auto. intros q i j Hq _ _. now apply vld_nil_inv in Hq as ->.
    + apply is2_P. fin H3; auto. intros q i j Hq _ _. now apply vld_nil_inv in Hq as ->.
  - apply dec_b.
    + apply is2_P1. fin H1; auto. intros q i Hq _. now apply vld_1_inv in Hq as (b & -> & Hb).
    + apply is3_P2. fin H2; auto. intros q i j Hq _ _. now apply vld_1_inv in Hq as (b & -> & Hb).
    + apply is3_P2. fin H3; auto. intros q i j Hq _ _. now apply vld_1_inv in Hq as (b & -> & Hb).
Qed.

Lemma check_mat_ok B M pa (A : option ten) : opt_mat pa M A ->
  (pa = [] -> check_mat B M 2 A = true) /\ (pa = [B] -> check_mat B M 3 A = true).
Proof.
  destruct A as [A|]; [|now split]. intros (f & H). unfold check_mat, sizen, size, rk. rewrite (proj1 H).
  split; intros ->; cbn; now rewrite !Nat.eqb_refl.
Qed.

Lemma resolve_tail (L : ten) V W A B M pa l : batch_pre B pa -> isP1 L pa M l ->
  opt_mat pa M V -> opt_mat pa M W -> opt_mat pa M A ->
  (pa <> [] -> V <> None \/ W <> None) ->
  forall la, diag_resolve la (Some L) V W A B =
    match V, W, A with
    | None, None, None => Ok (L, eye M, eye M, M)
    | None, None, Some A =>
        let* V := find_eigenvectors la A L in let* Vinv := l_inv la V in Ok (L, V, Vinv, M)
    | None, Some Vinv, _ => let* V := l_inv la Vinv in Ok (L, V, Vinv, M)
    | Some V, None, _ => let* Vinv := l_inv la V in Ok (L, V, Vinv, M)
    | Some V, Some Vinv, _ => Ok (L, V, Vinv, M)
    end%res.
Proof.
  intros Hpa HL HV HW HA Hne la. unfold diag_resolve. rewrite (proj1 HL).
  destruct (check_mat_ok B M pa V HV) as [V1 V2]. destruct (check_mat_ok B M pa W HW) as [W1 W2].
  destruct (check_mat_ok B M pa A HA) as [A1 A2]. destruct Hpa as [->| ->]; cbn [app].
  - assert (size L 0 = M) as -> by (unfold size; now rewrite (proj1 HL)). rewrite V1, W1, A1 by reflexivity. reflexivity.
  - rewrite Nat.eqb_refl. assert (size L 1 = M) as -> by (unfold size; now rewrite (proj1 HL)).
    assert (match V, W with None, None => false | _, _ => true end = true) as ->
      by (destruct (Hne ltac:(discriminate)); destruct V, W; congruence).
    rewrite V2, W2, A2 by reflexivity. reflexivity.
Qed.

(** V from find_eigenvectors, W its inverse. *)
Lemma eig_pair la M pa (A L : ten) a l : (1 <= M)%nat -> linalg_ok la M ->
  isP2 A pa M M a -> isP1 L pa M l -> (forall q, vld pa q -> simple_eigs M (a q) (l q)) ->
  exists V W v w, find_eigenvectors la A L = Ok V /\ l_inv la V = Ok W /\
    isP2 V pa M M v /\ isP2 W pa M M w /\
    forall q, vld pa q -> right_eig M (a q) (v q) (l q) /\
      forall i j, (i < M)%nat -> (j < M)%nat -> mmul M (v q) (w q) i j = mid i j.
Proof.
  intros HM (HD & Hs & Hst & Hi & Hit & Hno) HA HL He.
  assert (Hone : forall q k, vld pa q -> (k < M)%nat -> exists v, v 0%nat = 1 /\ eigvec M (a q) (l q k) v).
  { intros q k Hq Hk. destruct (He q Hq) as [_ H]. destruct (H k Hk) as [(v & Hv & i & Hi0 & Hvi) H0].
    assert (Hv0 : v 0%nat <> 0) by (intro E; apply Hvi; now apply (H0 v Hv E)).
    exists (fun i => rinv (v 0%nat) * v i). split; [now apply rinv_l|]. intros j Hj. unfold mvec.
    rewrite (bsum_ext M _ (fun k => rinv (v 0%nat) * (a q j k * v k))) by (intros; ring).
    rewrite bsum_mul_l. pose proof (Hv j Hj) as E. unfold mvec in E. rewrite E. ring. }
  destruct (find_eig_total F la pa M A L a l HM HD Hs Hst Hno HA HL) as (V & EV).
  { intros q k v Hq Hk Hv. destruct (He q Hq) as [_ H]. now apply (H k Hk). }
  destruct (find_eig_sound F la pa M A L V a l HM HD Hs Hno HA HL Hone EV) as (v & HV & Hv).
  assert (Hnz : forall q k, vld pa q -> (k < M)%nat -> v q k 0%nat * rinv (l_norm la (v q k) M) <> 0).
  { intros q k Hq Hk E. destruct (Hv q k Hq Hk) as [H1 _]. rewrite H1 in E.
    pose proof (proj2 Hno M (v q k) HM H1) as Hn. apply (r1_neq_r0 F).
    rewrite <- (rinv_l _ Hn). replace (rinv (l_norm la (v q k) M)) with (1 * rinv (l_norm la (v q k) M)) by ring.
    rewrite E. ring. }
  assert (Heig : forall q k, vld pa q -> (k < M)%nat -> eigvec M (a q) (l q k) (fun i => v q k i * rinv (l_norm la (v q k) M))).
  { intros q k Hq Hk i Hi0. destruct (Hv q k Hq Hk) as [_ H2]. unfold mvec.
    rewrite (bsum_ext M _ (fun k0 => a q i k0 * v q k k0 * rinv (l_norm la (v q k) M))) by (intros; ring).
    rewrite bsum_mul_r. pose proof (H2 i Hi0) as E. unfold mvec in E. rewrite E. ring. }
  destruct (Hit pa V _ HV) as (W & EW).
  { intros q Hq c Hc. apply (eig_indep F M (a q) (l q) (fun k i => v q k i * rinv (l_norm la (v q k) M)) M c).
    - intros. now apply Heig.
    - intros k Hk. exists 0%nat. split; [lia|now apply Hnz].
    - apply (He q Hq).
    - exact Hc. }
  destruct (Hi _ _ _ _ _ HV EW) as (w & HW & Hw).
  exists V, W. eexists. exists w. split; [exact EV|]. split; [exact EW|]. split; [exact HV|]. split; [exact HW|].
  intros q Hq. split.
  - intros i j Hi0 Hj. pose proof (Heig q j Hq Hj i Hi0) as E. unfold mvec in E. unfold mmul. rewrite E. ring.
  - intros i j Hi0 Hj. now apply Hw.
Qed.

Lemma resolve_spec la B M L V W A Af : (1 <= B)%nat -> (1 <= M)%nat -> linalg_ok la M -> diag_args la B M L V W A Af ->
  exists Lt Vt Wt lf vf wf, diag_resolve la L V W A B = Ok (Lt, Vt, Wt, M) /\ dec F B M Lt Vt Wt lf vf wf /\
    (forall b i j, (b < B)%nat -> (i < M)%nat -> (j < M)%nat -> mmul M (vf b) (wf b) i j = mid i j) /\
    (forall b i j, (b < B)%nat -> (i < M)%nat -> (j < M)%nat -> mmul M (Af b) (vf b) i j = vf b i j * lf b j).
Proof.
  intros HB HM Hla Ha. pose proof Hla as (HD & Hs & Hst & Hi & Hit & Hno).
  destruct Ha as [pa L V W A l v w Af Hpa HL HV HW HA H|pa L V A l v Af Hpa HL HV HA H|pa L W A l w Af Hpa HL HW HA H
    |pa A L a l Af Hpa HA EL HL H|L A l a Af HL HA He Haf|L l Af HL Haf].
  - rewrite (resolve_tail L (Some V) (Some W) A B M pa l) by (first [assumption | now exists v | now exists w | intros; left; discriminate]).
    exists L, V, W. do 3 eexists. split; [reflexivity|]. split; [eapply dec_P; eassumption|]. cbv beta.
    split; intros b i j Hb Hi0 Hj; destruct (H b Hb) as [H1 H2]; auto.
  - rewrite (resolve_tail L (Some V) None A B M pa l) by (first [assumption | exact I | now exists v | intros; left; discriminate]).
    destruct (Hit pa V v HV) as (W & EW).
    { intros q Hq. destruct (vld_bpre_inv _ _ _ Hpa HB Hq) as (b & Hb & ->). now apply H. }
    destruct (Hi _ _ _ _ _ HV EW) as (w & HW & Hw). rewrite EW. cbn [bind].
    exists L, V, W. do 3 eexists. split; [reflexivity|]. split; [eapply dec_P; eassumption|]. cbv beta.
    split; intros b i j Hb Hi0 Hj.
    + apply Hw; auto. eapply vld_bpre; eauto.
    + destruct (H b Hb) as [H1 _]. now apply H1.
  - rewrite (resolve_tail L None (Some W) A B M pa l) by (first [assumption | exact I | now exists w | intros; right; discriminate]).
    destruct (Hit pa W w HW) as (V & EV).
    { intros q Hq. destruct (vld_bpre_inv _ _ _ Hpa HB Hq) as (b & Hb & ->). now apply H. }
    destruct (Hi _ _ _ _ _ HW EV) as (v & HV & Hv). rewrite EV. cbn [bind].
    exists L, V, W. do 3 eexists. split; [reflexivity|]. split; [eapply dec_P; eassumption|]. cbv beta.
    assert (HVW : forall b i j, (b < B)%nat -> (i < M)%nat -> (j < M)%nat ->
       mmul M (v (bpre pa b)) (w (bpre pa b)) i j = mid i j /\ mmul M (w (bpre pa b)) (v (bpre pa b)) i j = mid i j).
    { intros b i j Hb Hi0 Hj. destruct (Hv (bpre pa b) i j) as [E1 E2]; auto. eapply vld_bpre; eauto. }
    split; intros b i j Hb Hi0 Hj; [now apply HVW|].
    destruct (H b Hb) as [H1 _]. set (q := bpre pa b) in *.
    (* A V = V W A V = V L W V = V L *)
    transitivity (mmul M (v q) (mmul M (w q) (mmul M (Af b) (v q))) i j).
    { rewrite <- mmul_assoc. symmetry.
      rewrite (mmul_ext M (mmul M (v q) (w q)) mid (mmul M (Af b) (v q)) (mmul M (Af b) (v q))).
      - now rewrite mmul_id_l.
      - intros k Hk. now apply HVW.
      - reflexivity. }
    unfold mmul at 1. rewrite (bsum_ext M _ (fun k => v q i k * (l q k * mid k j))).
    2:{ intros k Hk. f_equal. rewrite <- mmul_assoc. unfold mmul at 1.
        rewrite (bsum_ext M _ (fun p => l q k * (w q k p * v q p j))).
        2:{ intros p Hp. rewrite H1 by auto. ring. }
        rewrite bsum_mul_l. f_equal. now apply HVW. }
    rewrite (bsum_one M _ j Hj).
    + rewrite mid_refl. ring.
    + intros k Hk Hne. rewrite mid_neq by auto. ring.
  - destruct (eig_pair la M pa A L a l HM Hla HA HL) as (V & W & v & w & EV & EW & HV & HW & Hvw).
    { intros q Hq. destruct (vld_bpre_inv _ _ _ Hpa HB Hq) as (b & Hb & ->). now apply H. }
    exists L, V, W. do 3 eexists. split.
    + unfold diag_resolve.
      assert (Hr : rk A = (length pa + 2)%nat) by (eapply P2_rk; exact HA).
      assert (sizen A 1 = M /\ sizen A 2 = M) as [-> ->].
      { unfold sizen. rewrite Hr, (proj1 HA). destruct Hpa as [->| ->]; split; reflexivity. }
      assert (((rk A =? 2) || (rk A =? 3))%nat = true) as -> by (rewrite Hr; destruct Hpa as [->| ->]; reflexivity).
      rewrite Nat.eqb_refl.
      assert ((negb (rk A =? 3) || (B =? size A 0))%nat = true) as ->.
      { rewrite Hr. unfold size. rewrite (proj1 HA). destruct Hpa as [->| ->]; cbn; [reflexivity|apply Nat.eqb_refl]. }
      rewrite EL. cbn [bind]. rewrite EV. cbn [bind]. rewrite EW. reflexivity.
    + split; [eapply dec_P; eassumption|]. cbv beta.
      assert (Hvl := vld_bpre B pa). split; intros b i j Hb Hi0 Hj.
      * apply Hvw; auto.
      * destruct (H b Hb) as [_ H2]. rewrite <- (proj1 (Hvw _ (Hvl b Hpa Hb))) by auto.
        unfold mmul. apply bsum_ext. intros k Hk. now rewrite H2.
  - apply is1_P in HL. apply is2_P in HA.
    rewrite (resolve_tail L None None (Some A) B M [] (fun _ => l)) by (first [assumption | exact I | now left | congruence | cbn; eauto]).
    destruct (eig_pair la M [] A L _ _ HM Hla HA HL) as (V & W & v & w & EV & EW & HV & HW & Hvw).
    { intros q Hq. exact He. }
    rewrite EV. cbn [bind]. rewrite EW. cbn [bind]. exists L, V, W. do 3 eexists. split; [reflexivity|].
    split; [apply (dec_P B M [] L V W (fun _ => l) v w (or_introl eq_refl) HL HV HW)|]. cbv beta. cbn [bpre].
    split; intros b i j Hb Hi0 Hj.
    + apply (Hvw [] vld_nil); auto.
    + rewrite <- (proj1 (Hvw [] vld_nil)) by auto. unfold mmul. apply bsum_ext. intros k Hk. now rewrite Haf.
  - apply is1_P in HL.
    rewrite (resolve_tail L None None None B M [] (fun _ => l)) by (first [assumption | exact I | now left | congruence | cbn; eauto]).
    exists L, (eye M), (eye M). do 3 eexists. split; [reflexivity|].
    split; [apply (dec_P B M [] L (eye M) (eye M) (fun _ => l) _ _ (or_introl eq_refl) HL (P2_eye F [] M eq_refl) (P2_eye F [] M eq_refl))|].
    cbv beta. split; intros b i j Hb Hi0 Hj.
    + change (mmul M mid mid i j = @mid F i j). now rewrite mmul_id_l.
    + change (mmul M (Af b) mid i j = @mid F i j * l j). rewrite mmul_id_r by auto. rewrite Haf by auto. unfold mid.
      destruct (i =? j)%nat eqn:E; [|ring]. apply Nat.eqb_eq in E as ->. ring.
Qed.

Theorem diag_spec e la re B N M K P (x : ten) L V W A Bt C D zi cc uf oi Af xf Bm Cm Dm z0 :
  (1 <= B)%nat -> (1 <= N)%nat -> (1 <= M)%nat -> backend_ok e M -> unroll_ok uf -> linalg_ok la M ->
  diag_args la B M L V W A Af ->
  sigv B N K x xf -> inmat B M K Bt Bm -> outmat B M oi C P Cm -> feed B K P D Dm -> init B M zi z0 ->
  (C <> None -> cc = false -> forall b n m, (b < B)%nat -> (n <= N)%nat -> (m < M)%nat ->
     let h := ss_h M (width K) (fun _ => Af b) (fun _ => Bm b) (z0 b) (xf b) n m in re h = h) ->
  exists y zf, diag_state_space e la re x L V W A Bt C D zi cc oi uf = Ok (y, zf) /\
    sigv B N P y (fun b => ss_y M (width K) (fun _ => Af b) (fun _ => Bm b) (fun _ => Cm b) (fun _ => Dm b)
                             (z0 b) (xf b)) /\
    match zi with
    | None => zf = None
    | Some _ => exists z, zf = Some z /\
        is2 z B M (fun b => ss_h M (width K) (fun _ => Af b) (fun _ => Bm b) (z0 b) (xf b) N)
    end.
Proof.
  intros HB HN HM (He & Hc & _) Hu Hla Ha Hx HBm HC HD Hz Hre.
  destruct (resolve_spec la B M L V W A Af HB HM Hla Ha) as (Lt & Vt & Wt & lf & vf & wf & HR & Hd & HVW & HAV).
  exact (diag_core F e la re B N M K P x L V W A Lt Vt Wt Bt C D zi cc uf oi Af lf vf wf xf Bm Cm Dm z0 HB HN HM He Hc Hu HR Hd HVW HAV Hx HBm HC HD Hz Hre).
Qed.

(** ** Companion matrices *)
Definition comp_mat (a : nat -> F) (i j : nat) : F := if i =? S j then 1 else if i =? 0 then - a j else 0.

(** An eigenvector of the companion matrix that starts with 0 is 0, if the eigenvalue is not 0. *)
Lemma comp_first M a l v : l <> 0 -> eigvec M (comp_mat a) l v -> v 0%nat = 0 -> forall i, (i < M)%nat -> v i = 0.
Proof.
  intros Hl He H0. induction i as [|i IH]; intros Hi; [exact H0|].
  apply fmul_0 with l; [|exact Hl]. transitivity (l * v (S i)); [ring|]. rewrite <- He by auto. unfold mvec.
  rewrite (bsum_one M _ i) by (lia || (intros k Hk Hne; unfold comp_mat; bdec; try ring; lia)).
  rewrite IH by lia. ring.
Qed.
(** All eigenvalues are different from 0 if the last coefficient is. *)
Lemma comp_nonzero M a v : (1 <= M)%nat -> a (M - 1)%nat <> 0 -> eigvec M (comp_mat a) 0 v ->
  forall i, (i < M)%nat -> v i = 0.
Proof.
  intros HM Ha He.
  assert (Hlow : forall i, (S i < M)%nat -> v i = 0).
  { intros i Hi. pose proof (He (S i) Hi) as E. unfold mvec in E.
    rewrite (bsum_one M _ i) in E by (lia || (intros k Hk Hne; unfold comp_mat; bdec; try ring; lia)).
    unfold comp_mat in E. rewrite Nat.eqb_refl in E. transitivity (1 * v i); [ring|]. rewrite E. ring. }
  intros i Hi. destruct (Nat.eq_dec i (M - 1)) as [->|Hne]; [|apply Hlow; lia].
  apply fmul_0 with (- a (M - 1)%nat).
  - pose proof (He 0%nat ltac:(lia)) as E. unfold mvec in E.
    rewrite (bsum_one M _ (M - 1)%nat) in E by (lia || (intros k Hk Hn; rewrite Hlow by lia; ring)).
    unfold comp_mat in E. cbn [Nat.eqb] in E. transitivity (- a (M - 1)%nat * v (M - 1)%nat); [ring|]. rewrite E. ring.
  - intro E. apply Ha. transitivity (- (- a (M - 1)%nat)); [ring|]. rewrite E. ring.
Qed.
(** The conjugate transpose: no condition. *)
Lemma compT_first M a l v : eigvec M (fun i j => conj (comp_mat a j i)) l v -> v 0%nat = 0 -> forall i, (i < M)%nat -> v i = 0.
Proof.
  intros He H0. induction i as [|i IH]; intros Hi; [exact H0|].
  pose proof (He i ltac:(lia)) as E. rewrite IH in E by lia. unfold mvec in E.
  rewrite (bsum_one M _ (S i)) in E.
  - unfold comp_mat in E. rewrite Nat.eqb_refl, conj_1 in E. transitivity (1 * v (S i)); [ring|]. rewrite E. ring.
  - lia.
  - intros k Hk Hne. unfold comp_mat. destruct k as [|k]; [rewrite H0; ring|]. bdec; try lia. rewrite conj_0. ring.
Qed.
(** With the last coefficient 0 (and order at least 2), 0 is an eigenvalue and all its
    eigenvectors start with 0. *)
Lemma comp_zero_first M a v : (2 <= M)%nat -> eigvec M (comp_mat a) 0 v -> v 0%nat = 0.
Proof.
  intros HM He. pose proof (He 1%nat ltac:(lia)) as E. unfold mvec in E.
  rewrite (bsum_one M _ 0%nat) in E by (lia || (intros k Hk Hne; unfold comp_mat; bdec; try ring; lia)).
  unfold comp_mat in E. cbn [Nat.eqb] in E. transitivity (1 * v 0%nat); [ring|]. rewrite E. ring.
Qed.
End D.
