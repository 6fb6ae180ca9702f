(** find_eigenvectors. *)
From Coq Require Import List Arith Lia ZArith Bool Ring.
From Verif Require Import Scalar Tensor TensorLemmas TensorOps TensorAlg TensorTac TensorList
  Spec Shapes Algebra M_Mat P_Mat SpecDiag.
Import ListNotations.

(** ** Regrouping index prefixes, and the reshape that drops a trailing 1 *)
Section Pre.
Context {A : Type}.
Implicit Type t : tensor A.
Lemma vld_snoc pre q n i : vld pre q -> i < n -> vld (pre ++ [n]) (q ++ [i]).
Proof. intros H Hi. induction H; cbn; [now apply vld_1|]. constructor; auto. Qed.
Lemma vld_snoc_inv pre n q : vld (pre ++ [n]) q -> exists q' i, q = q' ++ [i] /\ vld pre q' /\ i < n.
Proof.
  revert q. induction pre as [|p pre IH]; intros q H; cbn in H.
  - apply vld_1_inv in H as (i & -> & Hi). exists [], i. repeat split; auto. constructor.
  - inversion H; subst. destruct (IH _ H4) as (q' & i & -> & Hq & Hi). exists (x :: q'), i.
    repeat split; auto. now constructor.
Qed.
Lemma P3_of_P2 t pre a b c f : isP2 t (pre ++ [a]) b c f -> isP3 t pre a b c (fun q i => f (q ++ [i])).
Proof.
  intros [H1 H2]. split; [rewrite H1, <- app_assoc; reflexivity|]. intros q i j k Hq Hi Hj Hk.
  rewrite <- H2 by (auto; now apply vld_snoc). now rewrite <- app_assoc.
Qed.
Lemma P2_of_P3 t pre a b c f : isP3 t pre a b c f ->
  isP2 t (pre ++ [a]) b c (fun q => f (firstn (length pre) q) (nth (length pre) q 0)).
Proof.
  intros [H1 H2]. split; [rewrite H1, <- app_assoc; reflexivity|]. intros q j k Hq Hj Hk.
  apply vld_snoc_inv in Hq as (q' & i & -> & Hq & Hi). pose proof (vld_len _ _ Hq) as Hl.
  rewrite <- Hl, firstn_app, firstn_all, Nat.sub_diag. cbn [firstn]. rewrite app_nil_r.
  rewrite app_nth2, Nat.sub_diag by lia. cbn [nth]. rewrite <- H2 by auto. now rewrite <- app_assoc.
Qed.

Lemma prod_cons x l : prod (x :: l) = x * prod l.
Proof. destruct l; cbn; lia. Qed.
Lemma ravel_cons x s i idx : length idx = length s -> ravel (x :: s) (i :: idx) = i * prod s + ravel s idx.
Proof. destruct s; destruct idx; cbn; try discriminate; intros; try lia. Qed.
Lemma ravel_lt s idx : vld s idx -> ravel s idx < prod s.
Proof.
  induction 1 as [|x n idx s Hx H IH]; [cbn; lia|]. rewrite ravel_cons by (now apply vld_len).
  rewrite prod_cons. nia.
Qed.
Lemma unravel_ravel s idx : vld s idx -> unravel s (ravel s idx) = idx.
Proof.
  induction 1 as [|x n idx s Hx H IH]; [reflexivity|]. pose proof (vld_len _ _ H) as Hl.
  rewrite ravel_cons by auto. pose proof (ravel_lt _ _ H) as Hr.
  destruct s as [|m s].
  - destruct idx; [|discriminate]. cbn. f_equal. lia.
  - change (unravel (n :: m :: s) (x * prod (m :: s) + ravel (m :: s) idx))
      with ((x * prod (m :: s) + ravel (m :: s) idx) / prod (m :: s) :: unravel (m :: s) ((x * prod (m :: s) + ravel (m :: s) idx) mod prod (m :: s))).
    rewrite Nat.div_add_l, Nat.div_small, Nat.add_0_r by lia.
    rewrite Nat.add_comm, Nat.mod_add, Nat.mod_small by lia. now rewrite IH.
Qed.
Lemma prod_snoc1 s : prod (s ++ [1]) = prod s.
Proof.
  induction s as [|x s IH]; [reflexivity|]. cbn [app]. rewrite !prod_cons. now rewrite IH.
Qed.
Lemma ravel_snoc1 s idx : vld s idx -> ravel (s ++ [1]) (idx ++ [0]) = ravel s idx.
Proof.
  induction 1 as [|x n idx s Hx H IH]; [reflexivity|]. pose proof (vld_len _ _ H) as Hl. cbn [app].
  rewrite !ravel_cons by (rewrite ?app_length; cbn; lia). now rewrite IH, prod_snoc1.
Qed.
Lemma reshape_drop1 t pre n m f : isP3 t pre n m 1 f ->
  isP2 (mkT (pre ++ [n; m]) (fun idx => at_ t (unravel (shape t) (ravel (pre ++ [n; m]) idx)))) pre n m
       (fun q i j => f q i j 0).
Proof.
  intros [H1 H2]. split; [reflexivity|]. intros q i j Hq Hi Hj. cbn [at_]. rewrite <- H2 by (auto; lia). f_equal.
  assert (Hv : vld (pre ++ [n; m]) (q ++ [i; j])).
  { change [n; m] with ([n] ++ [m]). change [i; j] with ([i] ++ [j]). rewrite !app_assoc.
    apply vld_snoc; auto. now apply vld_snoc. }
  rewrite H1. rewrite <- (ravel_snoc1 _ _ Hv). rewrite <- !app_assoc. cbn [app].
  apply (unravel_ravel (pre ++ [n; m; 1])).
  change [n; m; 1] with ([n; m] ++ [1]). change [i; j; 0] with ([i; j] ++ [0]). rewrite !app_assoc.
  apply vld_snoc; auto.
Qed.
End Pre.

(** ** Linear algebra *)
Section Math.
Variable R : cring.
Add Ring Rr : (r_th R).
Open Scope cr_scope.

(** Over a definite ring, W^H W d = 0 implies W d = 0 (W has n rows and m columns). *)
Lemma gram_kernel n m (W : nat -> nat -> R) d : definite R ->
  (forall j, (j < m)%nat -> bsum m (fun k => bsum n (fun i => conj (W i j) * W i k) * d k) = 0) ->
  forall i, (i < n)%nat -> bsum m (fun k => W i k * d k) = 0.
Proof.
  intros HD H. apply (HD n (fun i => bsum m (fun k => W i k * d k))).
  transitivity (bsum m (fun j => conj (d j) * bsum m (fun k => bsum n (fun i => conj (W i j) * W i k) * d k))).
  2:{ apply bsum_0. intros j Hj. rewrite H by auto. ring. }
  rewrite (bsum_ext n _ (fun i => bsum m (fun j => conj (d j) * (conj (W i j) * bsum m (fun k => W i k * d k))))).
  2:{ intros i Hi. rewrite bsum_conj, <- bsum_mul_r. apply bsum_ext. intros j Hj. rewrite conj_mul. ring. }
  rewrite bsum_swap. apply bsum_ext. intros j Hj. rewrite bsum_mul_l. f_equal.
  rewrite (bsum_ext n _ (fun i => bsum m (fun k => conj (W i j) * W i k * d k))).
  2:{ intros i Hi. rewrite <- bsum_mul_l. apply bsum_ext. intros. ring. }
  rewrite bsum_swap. apply bsum_ext. intros k Hk. now rewrite bsum_mul_r.
Qed.

(** (A - l I) v, split into the first column and the others. *)
Lemma shifted_split n (A : nat -> nat -> R) l (v : nat -> R) i : (1 <= n)%nat -> (i < n)%nat ->
  (A i 0%nat - l * (if i =? 0 then 1 else 0)) * v 0%nat
  + bsum (n - 1) (fun k => (A i (S k) - l * (if i =? S k then 1 else 0)) * v (S k))
  = mvec n A v i - l * v i.
Proof.
  intros Hn Hi. destruct n as [|n]; [lia|]. rewrite Nat.sub_succ, Nat.sub_0_r.
  rewrite <- (bsum_S_l n (fun k => (A i k - l * (if i =? k then 1 else 0)) * v k)).
  rewrite (bsum_ext (S n) _ (fun k => A i k * v k - (if i =? k then l else 0) * v k)).
  2:{ intros k Hk. destruct (i =? k)%nat; ring. }
  rewrite bsum_sub. unfold mvec. f_equal. rewrite (bsum_one (S n) _ i Hi).
  - now rewrite Nat.eqb_refl.
  - intros k Hk Hne. bdec. ring.
Qed.
End Math.

(** Eigenvectors of distinct eigenvalues are independent. *)
Section Indep.
Variable F : cfield.
Add Ring Rr : (r_th F).
Open Scope cr_scope.
Lemma fmul_0 (x y : F) : x * y = 0 -> y <> 0 -> x = 0.
Proof.
  intros H Hy. transitivity (x * (rinv y * y)); [rewrite rinv_l by auto; ring|].
  transitivity (x * y * rinv y); [ring|]. rewrite H. ring.
Qed.
Lemma eig_indep n (A : nat -> nat -> F) (l : nat -> F) (v : nat -> nat -> F) m (c : nat -> F) :
  (forall k, (k < m)%nat -> eigvec n A (l k) (v k)) ->
  (forall k, (k < m)%nat -> exists i, (i < n)%nat /\ v k i <> 0) ->
  (forall j k, (j < m)%nat -> (k < m)%nat -> j <> k -> l j <> l k) ->
  (forall i, (i < n)%nat -> bsum m (fun k => v k i * c k) = 0) -> forall k, (k < m)%nat -> c k = 0.
Proof.
  revert c. induction m as [|m IH]; intros c He Hn Hl H k Hk; [lia|].
  assert (Hlow : forall k, (k < m)%nat -> c k = 0).
  { intros j Hj. apply fmul_0 with (l j - l m).
    2:{ intro E. apply (Hl j m); try lia. transitivity (l j - l m + l m); [ring|]. rewrite E. ring. }
    apply (IH (fun k => c k * (l k - l m))); auto.
    - intros i Hi.
      transitivity (mvec n A (fun i => bsum (S m) (fun k => v k i * c k)) i - l m * bsum (S m) (fun k => v k i * c k)).
      2:{ unfold mvec. rewrite H by auto. rewrite bsum_0; [ring|]. intros p Hp. rewrite H by auto. ring. }
      unfold mvec. rewrite (bsum_ext n _ (fun p => bsum (S m) (fun k => A i p * v k p * c k))).
      2:{ intros p Hp. rewrite <- bsum_mul_l. apply bsum_ext. intros. ring. }
      rewrite bsum_swap. rewrite <- bsum_mul_l, <- bsum_sub.
      rewrite (bsum_ext (S m) _ (fun k => v k i * (c k * (l k - l m)))).
      2:{ intros q Hq. rewrite bsum_mul_r. pose proof (He q Hq i Hi) as E. unfold mvec in E. rewrite E. ring. }
      cbn [bsum]. ring. }
  destruct (Nat.eq_dec k m) as [->|Hne]; [|apply Hlow; lia].
  destruct (Hn m ltac:(lia)) as (i & Hi & Hv). apply fmul_0 with (v m i); [|exact Hv].
  rewrite <- (H i Hi). cbn [bsum]. rewrite (bsum_0 m); [ring|]. intros j Hj. rewrite Hlow by auto. ring.
Qed.
End Indep.

(** ** find_eigenvectors *)
Section E.
Variable F : cfield.
Add Ring Rr : (r_th F).
Notation ten := (tensor (car F)).
Open Scope cr_scope.

(** The linear systems the code hands to torch.linalg.solve. *)
Lemma find_eig_run la pre n (A L : ten) Af lf : (1 <= n)%nat ->
  isP2 A pre n n Af -> isP1 L pre n lf ->
  exists G r : ten,
    let W := fun q k i j => Af q i (S j) - lf q k * (if i =? S j then 1 else 0) in
    let b := fun q k i => Af q i 0%nat - lf q k * (if i =? 0 then 1 else 0) in
    isP3 G pre n (n - 1) (n - 1) (fun q k j j' => bsum n (fun i => conj (W q k i j) * W q k i j')) /\
    isP3 r pre n (n - 1) 1 (fun q k j _ => bsum n (fun i => conj (W q k i j) * - b q k i)) /\
    find_eigenvectors la A L =
      (let* X := l_solve la G r in
       guard (prod (shape X) =? prod (pre ++ [n; n - 1]))%nat else RuntimeError in
       let Xr := mkT (pre ++ [n; n - 1]%nat)
                     (fun idx => at_ X (unravel (shape X) (ravel (pre ++ [n; n - 1]%nat) idx))) in
       let* X1 := cat (rk Xr - 1) [ones (firstn (rk Xr - 1) (shape Xr) ++ [1%nat]); Xr] in
       let X2 := mkT (shape X1) (fun idx =>
                   rmul (at_ X1 idx)
                        (rinv (l_norm la (fun j => at_ X1 (upd (rk X1 - 1) (fun _ => j) idx)) n))) in
       Ok (mT X2))%res.
Proof.
  intros Hn HA HL. unfold find_eigenvectors.
  replace (rk A) with (length pre + 2)%nat by (symmetry; eapply P2_rk; exact HA).
  replace (rk L) with (length pre + 1)%nat by (symmetry; eapply P1_rk; exact HL).
  btrue (2 <=? length pre + 2)%nat. btrue (1 <=? length pre + 1)%nat.
  assert (sizen A 1 = n) as -> by (unfold sizen; rkt; rewrite (proj1 HA), app_nth2 by lia;
    replace (length pre + 2 - 1 - length pre)%nat with 1%nat by lia; reflexivity).
  assert (sizen A 2 = n) as -> by (unfold sizen; rkt; rewrite (proj1 HA), app_nth2 by lia;
    replace (length pre + 2 - 2 - length pre)%nat with 0%nat by lia; reflexivity).
  assert (sizen L 1 = n) as -> by (unfold sizen; rkt; rewrite (proj1 HL), app_nth2 by lia;
    replace (length pre + 1 - 1 - length pre)%nat with 0%nat by lia; reflexivity).
  rewrite Nat.eqb_refl. cbv zeta. btrue (1 <=? n)%nat.
  assert (firstn (length pre + 2 - 2) (shape A) = pre) as ->.
  { rewrite (proj1 HA). replace (length pre + 2 - 2)%nat with (length pre) by lia. now rewrite firstn_app, firstn_all, Nat.sub_diag, app_nil_r. }
  eassert (H1 : isP2 (unsqueeze (length pre + 1) L) pre n 1 _) by (eapply P1_unsq1; [exact HL|lia]).
  eassert (H2 : isP3 (unsqueeze (S (length pre + 1)) (unsqueeze (length pre + 1) L)) pre n 1 1 _) by (eapply P2_unsq2; [exact H1|lia]).
  cbv beta in H2. set (ev := unsqueeze (S _) _) in *. clearbody ev. clear H1.
  apply P2_of_P3 in H2. unfold tmul. eat @P2_ewl; [exact H2|exact (P2_eye F [] n eq_refl)|bdt|bdt|].
  apply P3_of_P2 in H. cbv beta in H.
  assert (HE : isP3 w pre n n n (fun q k i j => lf q k * (if i =? j then 1 else 0))).
  { fin H; auto. intros q k i j Hq Hk Hi Hj. pose proof (vld_len _ _ Hq) as Hl.
    rewrite <- Hl, firstn_app, firstn_all, Nat.sub_diag. cbn [firstn]. rewrite app_nil_r.
    rewrite app_nth2, Nat.sub_diag by lia. cbn [nth]. rewrite !(bi_lt n) by lia. reflexivity. }
  clear H H2.
  eassert (HU : isP3 (unsqueeze (length pre + 2 - 2) A) pre 1 n n _) by (eapply P2_unsq0; [exact HA|lia]).
  cbv beta in HU. set (Au := unsqueeze _ A) in *. clearbody Au. unfold tsub.
  eat @P3_ew; [exact HU|exact HE|bdt|bdt|bdt|].
  assert (HW0 : isP3 w0 pre n n n (fun q k i j => Af q i j - lf q k * (if i =? j then 1 else 0))).
  { fin H; auto. intros q k i j Hq Hk Hi Hj. rewrite !(bi_lt n) by lia. reflexivity. }
  clear H HU HE. replace (rk w0 - 1)%nat with (length pre + 2)%nat by (rkt; lia).
  eassert (HWs : isP3 (slice (length pre + 2) (Some 1%Z) None w0) pre n n (n - 1) _)
    by (eapply P3_slice2; [exact HW0|reflexivity|slt|slt]).
  eassert (HBs : isP3 (slice (length pre + 2) None (Some 1%Z) w0) pre n n 1 _).
  { eapply P3_slice2; [exact HW0|reflexivity|slt|]. rewrite pyb_1 by lia. slt. }
  cbv beta in HWs, HBs. set (W := slice _ (Some _) None w0) in *. clearbody W.
  set (Bt := slice _ None _ w0) in *. clearbody Bt. nm (mT W). nm (tconj v). nm (tneg Bt).
  eat @mm3; [exact H0|exact HWs|bdt|]. eat @mm3; [exact H0|exact H1|bdt|].
  exists w1, w2. split; [|split].
  - fin H2; auto. intros q k i j Hq Hk Hi Hj. rewrite !(bi_lt n) by lia. reflexivity.
  - fin H3; auto. intros q k i j Hq Hk Hi Hj. rewrite !(bi_lt n) by lia. replace j with 0%nat by lia. reflexivity.
  - destruct (l_solve la w1 w2); reflexivity.
Qed.

(** The part after the solve. *)
Lemma find_eig_tail (la : linalg F) pre n (X : ten) xf : norm_ok la -> (1 <= n)%nat ->
  isP3 X pre n (n - 1) 1 xf ->
  let v := fun q k i => match i with O => 1 | S j => xf q k j 0%nat end in
  exists V,
    (guard (prod (shape X) =? prod (pre ++ [n; n - 1]))%nat else RuntimeError in
       let Xr := mkT (pre ++ [n; n - 1]%nat)
                     (fun idx => at_ X (unravel (shape X) (ravel (pre ++ [n; n - 1]%nat) idx))) in
       let* X1 := cat (rk Xr - 1) [ones (firstn (rk Xr - 1) (shape Xr) ++ [1%nat]); Xr] in
       let X2 := mkT (shape X1) (fun idx =>
                   rmul (at_ X1 idx)
                        (rinv (l_norm la (fun j => at_ X1 (upd (rk X1 - 1) (fun _ => j) idx)) n))) in
       Ok (mT X2))%res = Ok V /\
    isP2 V pre n n (fun q i k => v q k i * rinv (l_norm la (v q k) n)).
Proof.
  intros [Hne _] Hn HX v.
  assert (prod (shape X) = prod (pre ++ [n; n - 1]%nat)) as ->.
  { rewrite (proj1 HX). change [n; (n - 1)%nat; 1%nat] with ([n; (n - 1)%nat] ++ [1%nat]). rewrite app_assoc. apply prod_snoc1. }
  rewrite Nat.eqb_refl. apply reshape_drop1 in HX. cbv zeta. set (Xr := mkT _ _) in *.
  assert (Eo : (rk Xr - 1)%nat = (length pre + 1)%nat) by (rkt; lia).
  assert (Es : firstn (rk Xr - 1) (shape Xr) ++ [1%nat] = pre ++ [n; 1%nat]).
  { rewrite Eo, (proj1 HX). rewrite firstn_app, firstn_all2 by lia. replace (length pre + 1 - length pre)%nat with 1%nat by lia.
    cbn [firstn]. now rewrite <- app_assoc. }
  rewrite Es, Eo. clearbody Xr.
  assert (Ho : isP2 (ones (pre ++ [n; 1%nat])) pre n 1 (fun _ _ _ => 1 : F)) by (apply (P2_full pre n 1)).
  set (o := ones _) in *. clearbody o. eat @P2_cat1; [exact Ho|exact HX|reflexivity|].
  assert (H1 : isP2 w pre n n (fun q k i => v q k i)).
  { fin H; [auto|lia|]. intros q k i Hq Hk Hi. unfold v. destruct i as [|i]; cbn [Nat.ltb Nat.leb]; [reflexivity|].
    now replace (S i - 1)%nat with i by lia. }
  clear H. assert (Ew : (rk w - 1)%nat = (length pre + 1)%nat) by (rkt; lia). rewrite Ew.
  assert (H2 : isP2 (mkT (shape w) (fun idx => at_ w idx * rinv (l_norm la (fun j => at_ w (upd (length pre + 1) (fun _ => j) idx)) n)))
     pre n n (fun q k i => v q k i * rinv (l_norm la (v q k) n))).
  { destruct H1 as [S1 S2]. split; [exact S1|]. intros q k i Hq Hk Hi. cbn [at_]. rewrite S2 by auto. f_equal. f_equal.
    apply Hne. intros j Hj. rewrite <- S2 by auto. f_equal. rewrite <- (vld_len _ _ Hq). rewrite upd_app. reflexivity. }
  set (X2 := mkT (shape w) _) in *. clearbody X2. eexists. split; [reflexivity|].
  pose proof (P2_mT _ _ _ _ _ H2) as H3. exact H3.
Qed.

(** If every eigenvalue has an eigenvector with first component 1, what find_eigenvectors
    returns are eigenvectors: column k is v_k / |v_k| with v_k(0) = 1 and A v_k = l_k v_k. *)
Theorem find_eig_sound la pre n (A L V : ten) Af lf : (1 <= n)%nat -> definite F -> solve_mat la -> norm_ok la ->
  isP2 A pre n n Af -> isP1 L pre n lf ->
  (forall q k, vld pre q -> (k < n)%nat -> exists v, v 0%nat = 1 /\ eigvec n (Af q) (lf q k) v) ->
  find_eigenvectors la A L = Ok V ->
  exists v, isP2 V pre n n (fun q i k => v q k i * rinv (l_norm la (v q k) n)) /\
    forall q k, vld pre q -> (k < n)%nat -> v q k 0%nat = 1 /\ eigvec n (Af q) (lf q k) (v q k).
Proof.
  intros Hn HD Hs Hno HA HL He HV.
  destruct (find_eig_run la pre n A L Af lf Hn HA HL) as (G & r & HG & Hr & E). rewrite E in HV. clear E.
  apply P2_of_P3 in HG, Hr. destruct (l_solve la G r) as [X|] eqn:EX; [|discriminate]. cbn [bind] in HV.
  destruct (Hs _ _ _ _ _ _ _ _ HG Hr EX) as (h & HX & Hh). apply P3_of_P2 in HX.
  destruct (find_eig_tail la pre n X _ Hno Hn HX) as (V' & EV & HV'). pose proof (eq_trans (eq_sym EV) HV) as E'. injection E' as ->. clear HV EV.
  eexists. split; [exact HV'|]. cbv beta. intros q k Hq Hk. split; [reflexivity|].
  destruct (He q k Hq Hk) as (w & Hw0 & Hw).
  set (W := fun i j => Af q i (S j) - lf q k * (if i =? S j then 1 else 0)).
  set (b := fun i => Af q i 0%nat - lf q k * (if i =? 0 then 1 else 0)).
  set (x := fun j => h (q ++ [k]) j 0%nat).
  assert (HWw : forall i, (i < n)%nat -> bsum (n - 1) (fun j => W i j * w (S j)) = - b i).
  { intros i Hi. pose proof (shifted_split F n (Af q) (lf q k) w i Hn Hi) as E. rewrite (Hw i Hi), Hw0 in E.
    fold (b i) in E. transitivity (b i * 1 + bsum (n - 1) (fun j => W i j * w (S j)) - b i); [ring|].
    unfold W at 1. rewrite E. ring. }
  assert (Hgx : forall j, (j < n - 1)%nat ->
    bsum (n - 1) (fun j' => bsum n (fun i => conj (W i j) * W i j') * x j') = bsum n (fun i => conj (W i j) * - b i)).
  { intros j Hj. specialize (Hh (q ++ [k]) j 0%nat (vld_snoc _ _ _ _ Hq Hk) Hj ltac:(lia)).
    pose proof (vld_len _ _ Hq) as Hl.
    rewrite <- Hl, firstn_app, firstn_all, Nat.sub_diag in Hh. cbn [firstn] in Hh. rewrite app_nil_r in Hh.
    rewrite app_nth2, Nat.sub_diag in Hh by lia. cbn [nth] in Hh. exact Hh. }
  assert (HWx : forall i, (i < n)%nat -> bsum (n - 1) (fun j => W i j * x j) = - b i).
  { intros i Hi. rewrite <- HWw by auto.
    pose proof (gram_kernel F n (n - 1) W (fun j => x j - w (S j)) HD) as Hk0.
    assert (E : bsum (n - 1) (fun j => W i j * (x j - w (S j))) = 0).
    { apply Hk0; auto. intros j Hj.
      rewrite (bsum_ext (n - 1) _ (fun j' => bsum n (fun i => conj (W i j) * W i j') * x j' - bsum n (fun i => conj (W i j) * W i j') * w (S j'))) by (intros; ring).
      rewrite bsum_sub, Hgx by auto.
      rewrite (bsum_ext (n - 1) _ (fun j' => bsum n (fun i => conj (W i j) * (W i j' * w (S j'))))).
      2:{ intros j' Hj'. rewrite <- bsum_mul_r. apply bsum_ext. intros. ring. }
      rewrite bsum_swap. rewrite (bsum_ext n (fun i => bsum (n - 1) _) (fun i => conj (W i j) * - b i)).
      - ring.
      - intros p Hp. rewrite bsum_mul_l. now rewrite HWw. }
    rewrite (bsum_ext (n - 1) _ (fun j => W i j * x j - W i j * w (S j))) in E by (intros; ring).
    rewrite bsum_sub in E. transitivity (bsum (n - 1) (fun j => W i j * w (S j)) + 0); [|ring]. rewrite <- E. ring. }
  intros i Hi. set (vv := fun i => match i with O => 1 | S j => h (q ++ [k]) j 0%nat end).
  pose proof (shifted_split F n (Af q) (lf q k) vv i Hn Hi) as E.
  change (b i * 1 + bsum (n - 1) (fun j => W i j * x j) = mvec n (Af q) vv i - lf q k * vv i) in E.
  rewrite HWx in E by auto. change (mvec n (Af q) vv i = lf q k * vv i).
  transitivity (mvec n (Af q) vv i - lf q k * vv i + lf q k * vv i); [ring|]. rewrite <- E. ring.
Qed.

(** It succeeds when moreover no non-zero eigenvector starts with 0. *)
Theorem find_eig_total la pre n (A L : ten) Af lf : (1 <= n)%nat -> definite F -> solve_mat la -> solve_tot la (n - 1) ->
  norm_ok la -> isP2 A pre n n Af -> isP1 L pre n lf ->
  (forall q k v, vld pre q -> (k < n)%nat -> eigvec n (Af q) (lf q k) v -> v 0%nat = 0 ->
     forall i, (i < n)%nat -> v i = 0) ->
  exists V, find_eigenvectors la A L = Ok V.
Proof.
  intros Hn HD Hs Ht Hno HA HL He.
  destruct (find_eig_run la pre n A L Af lf Hn HA HL) as (G & r & HG & Hr & E). rewrite E. clear E.
  apply P2_of_P3 in HG, Hr.
  destruct (Ht _ _ _ _ _ _ HG Hr) as (X & EX).
  { intros q' Hq'. apply vld_snoc_inv in Hq' as (q & k & -> & Hq & Hk). pose proof (vld_len _ _ Hq) as Hl.
    rewrite <- Hl, firstn_app, firstn_all, Nat.sub_diag. cbn [firstn]. rewrite app_nil_r.
    rewrite app_nth2, Nat.sub_diag by lia. cbn [nth]. intros d Hd.
    set (W := fun i j => Af q i (S j) - lf q k * (if i =? S j then 1 else 0)).
    assert (HW : forall i, (i < n)%nat -> bsum (n - 1) (fun j => W i j * d j) = 0).
    { apply gram_kernel; [exact HD|]. intros j Hj. exact (Hd j Hj). }
    set (v := fun i => match i with O => 0 | S j => d j end).
    assert (Hv : eigvec n (Af q) (lf q k) v).
    { intros i Hi. pose proof (shifted_split F n (Af q) (lf q k) v i Hn Hi) as E.
      assert (E2 : bsum (n - 1) (fun j => W i j * d j) = mvec n (Af q) v i - lf q k * v i).
      { rewrite <- E. unfold v at 1. change (fun j => W i j * d j) with (fun j => (Af q i (S j) - lf q k * (if i =? S j then 1 else 0)) * v (S j)). ring. }
      rewrite HW in E2 by auto. transitivity (mvec n (Af q) v i - lf q k * v i + lf q k * v i); [ring|]. rewrite <- E2. ring. }
    intros j Hj. apply (He q k v Hq Hk Hv eq_refl (S j)). lia. }
  rewrite EX. cbn [bind]. destruct (Hs _ _ _ _ _ _ _ _ HG Hr EX) as (h & HX & _). apply P3_of_P2 in HX.
  destruct (find_eig_tail la pre n X _ Hno Hn HX) as (V' & EV & _). eauto.
Qed.
End E.
