(** Theorems about mat.find_eigenvectors (C32) and lti/ssm.diag_state_space (C33).

    torch.linalg.{solve, inv, eigvals, vector_norm} are the fields of [la]; what is assumed
    of them is [linalg_ok] (SpecDiag), which the concrete [la2] of LinalgEx satisfies. *)
From Coq Require Import List Arith Lia ZArith Bool Ring QArith Qcanon.
From Verif Require Import Scalar Ordered Tensor TensorLemmas TensorOps TensorAlg TensorTac Spec Shapes Algebra
  M_Mat P_Mat M_Kernels P_KernelOps M_LtiRecur M_LtiSsm P_LtiSsm M_Diag SpecDiag P_Diag P_Diag2 P_Diag3 LinalgEx.
Import ListNotations.
Local Open Scope nat_scope.
Local Open Scope cr_scope.

(** ** C32 *)
Section C32.
Variable F : cfield.
Add Ring Rr : (r_th F).
Notation ten := (tensor (car F)).

(** What find_eigenvectors should return for matrices A and eigenvalues l: the columns are
    eigenvectors, scaled from first component 1 to norm 1. *)
Definition eig_result (la : linalg F) (pre : list nat) (n : nat) (V : ten)
  (A : list nat -> nat -> nat -> F) (l : list nat -> nat -> F) : Prop :=
  exists v : list nat -> nat -> nat -> F,
    isP2 V pre n n (fun q i k => v q k i * rinv (l_norm la (v q k) n)) /\
    forall q k, vld pre q -> (k < n)%nat ->
      v q k 0%nat = 1 /\ eigvec n (A q) (l q k) (v q k) /\ l_norm la (v q k) n <> 0.

(** A V = V diag(l) follows, and the first row of V has no zero. *)
Theorem C32_result_diagonalises la pre n (V : ten) A l :
  eig_result la pre n V A l -> (1 <= n)%nat ->
  exists v, isP2 V pre n n v /\
    forall q, vld pre q -> right_eig n (A q) (v q) (l q) /\ forall k, (k < n)%nat -> v q 0%nat k <> 0.
Proof.
  intros (v & HV & H) Hn. eexists. split; [exact HV|]. intros q Hq. cbv beta. split.
  - intros i k Hi Hk. destruct (H q k Hq Hk) as (_ & He & _). unfold mmul.
    rewrite (bsum_ext n _ (fun j => (A q i j * v q k j) * rinv (l_norm la (v q k) n))) by (intros; ring).
    rewrite bsum_mul_r. change (bsum n (fun j => A q i j * v q k j)) with (mvec n (A q) (v q k) i).
    rewrite He by exact Hi. ring.
  - intros k Hk E. destruct (H q k Hq Hk) as (H0 & _ & Hn0). rewrite H0 in E. apply (r1_neq_r0 F).
    rewrite <- (rinv_l _ Hn0). transitivity (1 * rinv (l_norm la (v q k) n) * l_norm la (v q k) n); [ring|]. rewrite E. ring.
Qed.

(** Every eigenvalue has an eigenvector with first component 1: a returned V is right. *)
Theorem C32_find_eigenvectors_sound la pre n (A L V : ten) Af lf :
  (1 <= n)%nat -> definite F -> solve_mat la -> norm_ok la ->
  isP2 A pre n n Af -> isP1 L pre n lf ->
  (forall q k, vld pre q -> (k < n)%nat -> exists v, v 0%nat = 1 /\ eigvec n (Af q) (lf q k) v) ->
  find_eigenvectors la A L = Ok V -> eig_result la pre n V Af lf.
Proof.
  intros Hn HD Hs Hno HA HL He HV.
  destruct (find_eig_sound F la pre n A L V Af lf Hn HD Hs Hno HA HL He HV) as (v & H1 & H2).
  exists v. split; [exact H1|]. intros q k Hq Hk. destruct (H2 q k Hq Hk) as [H3 H4].
  split; [exact H3|]. split; [exact H4|]. now apply Hno.
Qed.

(** No eigenvector starts with 0, repeated eigenvalues allowed: it succeeds as well. *)
Theorem C32_find_eigenvectors_total la pre n (A L : ten) Af lf :
  (1 <= n)%nat -> definite F -> solve_mat la -> solve_tot la (n - 1) -> norm_ok la ->
  isP2 A pre n n Af -> isP1 L pre n lf ->
  (forall q k, vld pre q -> (k < n)%nat ->
     (exists v, eigvec n (Af q) (lf q k) v /\ exists i, (i < n)%nat /\ v i <> 0) /\
     forall v, eigvec n (Af q) (lf q k) v -> v 0%nat = 0 -> forall i, (i < n)%nat -> v i = 0) ->
  exists V, find_eigenvectors la A L = Ok V /\ eig_result la pre n V Af lf.
Proof.
  intros Hn HD Hs Ht Hno HA HL He.
  destruct (find_eig_total F la pre n A L Af lf Hn HD Hs Ht Hno HA HL) as (V & EV).
  { intros q k v Hq Hk. now apply He. }
  exists V. split; [exact EV|]. apply (C32_find_eigenvectors_sound la pre n A L V Af lf); auto.
  intros q k Hq Hk. destruct (He q k Hq Hk) as [(v & Hv & i & Hi & Hvi) H0].
  assert (Hv0 : v 0%nat <> 0) by (intro E; apply Hvi; now apply (H0 v Hv E)).
  exists (fun i => rinv (v 0%nat) * v i). split; [now apply rinv_l|]. intros j Hj. unfold mvec.
  rewrite (bsum_ext n _ (fun k => rinv (v 0%nat) * (Af q j k * v k))) by (intros; ring).
  rewrite bsum_mul_l. change (bsum n (fun k => Af q j k * v k)) with (mvec n (Af q) v j). rewrite Hv by exact Hj. ring.
Qed.

Section Comp.
Variables (la : linalg F) (pre : list nat) (n : nat) (a A L : ten) (af lf : list nat -> nat -> F).
Hypotheses (Hn : (1 <= n)%nat) (HD : definite F) (Hs : solve_mat la) (Ht : solve_tot la (n - 1)) (Hno : norm_ok la)
  (Ha : isP1 a pre n af) (EA : companion a = Ok A) (HL : isP1 L pre n lf).
Lemma comp_view : isP2 A pre n n (fun q => comp_mat F (af q)).
Proof.
  destruct (companion_view F a pre n af Ha) as (A' & E & H). rewrite EA in E. injection E as <-. fin H; auto.
Qed.
(** Companion matrices with a non-zero last coefficient: any eigenvalues will do. *)
Lemma comp_total :
  (forall q, vld pre q -> af q (n - 1)%nat <> 0) ->
  (forall q k, vld pre q -> (k < n)%nat ->
     exists v, eigvec n (comp_mat F (af q)) (lf q k) v /\ exists i, (i < n)%nat /\ v i <> 0) ->
  exists V, find_eigenvectors la A L = Ok V /\ eig_result la pre n V (fun q => comp_mat F (af q)) lf.
Proof.
  intros Hl He. apply C32_find_eigenvectors_total; auto using comp_view.
  intros q k Hq Hk. split; [now apply He|]. intros v Hv H0. apply (comp_first F n (af q) (lf q k)); auto.
  intro El. destruct (He q k Hq Hk) as (w & Hw & i & Hi & Hwi). apply Hwi. rewrite El in Hw.
  now apply (comp_nonzero F n (af q)); auto.
Qed.
(** Conjugate transposes of companion matrices (tdf2): no condition on the coefficients. *)
Lemma compT_total :
  (forall q k, vld pre q -> (k < n)%nat ->
     exists v, eigvec n (fun i j => conj (comp_mat F (af q) j i)) (lf q k) v /\ exists i, (i < n)%nat /\ v i <> 0) ->
  exists V, find_eigenvectors la (tconj (mT A)) L = Ok V /\
    eig_result la pre n V (fun q i j => conj (comp_mat F (af q) j i)) lf.
Proof.
  intros He. pose proof comp_view as HA. nm (mT A). nm (tconj v).
  apply C32_find_eigenvectors_total; auto.
  intros q k Hq Hk. split; [now apply He|]. intros w Hw H0'. now apply (compT_first F n (af q) (lf q k)).
Qed.
End Comp.
Lemma neg_row (u v l : F) : 0 + u * 0 + - (1) * v = l * 0 -> v = 0.
Proof. intro E. transitivity (- (0 + u * 0 + - (1) * v)); [ring|]. rewrite E. ring. Qed.
Lemma zero_first_wrong (la : linalg F) pre n (A L V : ten) Af lf q k :
  (1 <= n)%nat -> solve_mat la -> norm_ok la -> isP2 A pre n n Af -> isP1 L pre n lf ->
  vld pre q -> (k < n)%nat -> (forall v, eigvec n (Af q) (lf q k) v -> v 0%nat = 0) ->
  find_eigenvectors la A L = Ok V ->
  forall v, isP2 V pre n n v -> ~ right_eig n (Af q) (v q) (lf q).
Proof.
  intros Hn Hs Hno HA HL Hq Hk H0 HV v Hv HR.
  destruct (find_eig_run F la pre n A L Af lf Hn HA HL) as (G & r & HG & Hr & E).
  pose proof (eq_trans (eq_sym E) HV) as HV'. clear E HV.
  apply P2_of_P3 in HG, Hr. destruct (l_solve la G r) as [X|] eqn:EX; [|discriminate]. cbn [bind] in HV'.
  destruct (Hs _ _ _ _ _ _ _ _ HG Hr EX) as (h & HX & _). apply P3_of_P2 in HX.
  destruct (find_eig_tail F la pre n X _ Hno Hn HX) as (V' & E & HV2).
  pose proof (eq_trans (eq_sym E) HV') as HV3. injection HV3 as ->.
  assert (Ev : v q 0%nat k = 0).
  { apply (H0 (fun i => v q i k)). intros i Hi. unfold mvec. pose proof (HR i k Hi Hk) as H. unfold mmul in H.
    rewrite H. ring. }
  pose proof (proj2 Hv q 0%nat k Hq ltac:(lia) Hk) as E1. pose proof (proj2 HV2 q 0%nat k Hq ltac:(lia) Hk) as E2.
  rewrite E1 in E2. rewrite Ev in E2. cbv beta iota zeta in E2.
  match type of E2 with _ = rmul _ (rinv ?N) => assert (HN : N <> 0) by (now apply Hno); pose proof (rinv_l _ HN) as E3; set (m := N) in * end.
  apply (r1_neq_r0 F). rewrite <- E3. transitivity (1 * rinv m * m); [ring|]. rewrite <- E2. ring.
Qed.
End C32.
Arguments eig_result {F}.
Print Assumptions C32_result_diagonalises.
Print Assumptions C32_find_eigenvectors_sound.
Print Assumptions C32_find_eigenvectors_total.

Theorem C32_companion_nonzero :
  forall (F : cfield) (la : linalg F) pre n (a A L : tensor F) af lf,
  (1 <= n)%nat -> definite F -> solve_mat la -> solve_tot la (n - 1) -> norm_ok la ->
  isP1 a pre n af -> companion a = Ok A -> isP1 L pre n lf ->
  (forall q, vld pre q -> af q (n - 1)%nat <> 0) ->
  (forall q k, vld pre q -> (k < n)%nat ->
     exists v, eigvec n (comp_mat F (af q)) (lf q k) v /\ exists i, (i < n)%nat /\ v i <> 0) ->
  exists V, find_eigenvectors la A L = Ok V /\ eig_result la pre n V (fun q => comp_mat F (af q)) lf.
Proof. exact comp_total. Qed.
Print Assumptions C32_companion_nonzero.

Theorem C32_companion_transposed :
  forall (F : cfield) (la : linalg F) pre n (a A L : tensor F) af lf,
  (1 <= n)%nat -> definite F -> solve_mat la -> solve_tot la (n - 1) -> norm_ok la ->
  isP1 a pre n af -> companion a = Ok A -> isP1 L pre n lf ->
  (forall q k, vld pre q -> (k < n)%nat ->
     exists v, eigvec n (fun i j => conj (comp_mat F (af q) j i)) (lf q k) v /\ exists i, (i < n)%nat /\ v i <> 0) ->
  exists V, find_eigenvectors la (tconj (mT A)) L = Ok V /\
    eig_result la pre n V (fun q i j => conj (comp_mat F (af q) j i)) lf.
Proof. exact compT_total. Qed.
Print Assumptions C32_companion_transposed.

(** If all eigenvectors of some l_k start with 0, the result is never a diagonalisation,
    whatever solve returns. *)
Theorem C32_zero_first_component_wrong :
  forall (F : cfield) (la : linalg F) pre n (A L V : tensor F) Af lf q k,
  (1 <= n)%nat -> solve_mat la -> norm_ok la -> isP2 A pre n n Af -> isP1 L pre n lf ->
  vld pre q -> (k < n)%nat -> (forall v, eigvec n (Af q) (lf q k) v -> v 0%nat = 0) ->
  find_eigenvectors la A L = Ok V ->
  forall v, isP2 V pre n n v -> ~ right_eig n (Af q) (v q) (lf q).
Proof. exact zero_first_wrong. Qed.
Print Assumptions C32_zero_first_component_wrong.

(** So it does not work for companion matrices with a zero pole (a_{n-1} = 0, n >= 2). *)
Theorem C32_companion_zero_pole_wrong :
  forall (F : cfield) (la : linalg F) pre n (a A L V : tensor F) af lf q k,
  (2 <= n)%nat -> solve_mat la -> norm_ok la -> isP1 a pre n af -> companion a = Ok A -> isP1 L pre n lf ->
  vld pre q -> (k < n)%nat -> lf q k = 0 ->
  find_eigenvectors la A L = Ok V ->
  forall v, isP2 V pre n n v -> ~ right_eig n (comp_mat F (af q)) (v q) (lf q).
Proof.
  intros F la pre n a A L V af lf q k Hn Hs Hno Ha EA HL Hq Hk H0 HV.
  pose proof (comp_view F pre n a A af Ha EA) as HA.
  apply (C32_zero_first_component_wrong F la pre n A L V (fun q => comp_mat F (af q)) lf q k); auto; [lia|].
  intros v Hv. rewrite H0 in Hv. now apply (comp_zero_first F n (af q)).
Qed.
Print Assumptions C32_companion_zero_pole_wrong.

(** Concrete scalars and routines: rationals, complex rationals. *)
Definition qz (z : Z) : Qc := Q2Qc (inject_Z z).
Definition QI : cfield := cplxf Qofield.
Definition qi (p q : Z) : QI := (qz p, qz q).
Definition iszQ (x : Qfield) : bool := if Qc_eq_dec x (Q2Qc 0) then true else false.
Definition iszI (x : QI) : bool := iszQ (fst x) && iszQ (snd x).
Lemma iszQ_spec x : iszQ x = true <-> x = 0.
Proof. unfold iszQ. destruct (Qc_eq_dec x (Q2Qc 0)) as [->|H]; split; try easy. Qed.
Lemma iszI_spec x : iszI x = true <-> x = 0.
Proof.
  destruct x as [p q]. unfold iszI. rewrite andb_true_iff, !iszQ_spec. cbn [fst snd].
  split; [intros [-> ->]; reflexivity|intro H; injection H; auto].
Qed.
Definition laQ (L : tensor Qfield) : linalg Qfield := la2 iszQ (fun _ => Ok L).
Definition laI (L : tensor QI) : linalg QI := la2 iszI (fun _ => Ok L).
Lemma laQ_ok L : linalg_ok (laQ L) 2.
Proof. apply la2_ok; [exact iszQ_spec|]. apply (real_definite Qofield). intro; reflexivity. Qed.
Lemma laI_ok L : linalg_ok (laI L) 2.
Proof. apply la2_ok; [exact iszI_spec|]. apply (cplx_definite Qofield). intro; reflexivity. Qed.

(** y[n] = x[n] + y[n-1]: with a = [-1, 0], poles 1 and 0, the hypotheses of the previous
    theorem hold. *)
Theorem C32_companion_refuted :
  ~ (forall (F : cfield) (la : linalg F) n (a A L : tensor F) af lf,
       (1 <= n)%nat -> linalg_ok la n -> is1 a n af -> companion a = Ok A -> is1 L n lf ->
       (forall j k, (j < n)%nat -> (k < n)%nat -> j <> k -> lf j <> lf k) ->
       (forall k, (k < n)%nat -> exists v, eigvec n (comp_mat F af) (lf k) v /\ exists i, (i < n)%nat /\ v i <> 0) ->
       exists V v, find_eigenvectors la A L = Ok V /\ is2 V n n v /\ right_eig n (comp_mat F af) v lf).
Proof.
  intro H.
  set (lf := fun k => match k with O => qz 1 | _ => qz 0 end : Qfield).
  set (af := fun k => match k with O => qz (-1) | _ => qz 0 end : Qfield).
  set (L := mk1 2 lf). set (a := mk1 2 af).
  destruct (companion_view Qfield a [] 2 (fun _ => af)) as (A & EA & _); [apply is1_P; apply is1_mk|].
  destruct (H Qfield (laQ L) 2%nat a A L af lf) as (V & v & EV & HV & HR); auto.
  - apply laQ_ok.
  - apply is1_mk.
  - apply is1_mk.
  - intros [|[|]] [|[|]]; try lia; intros _ _ _; discriminate.
  - intros k Hk. exists (fun i => if k =? 0 then 1 else if i =? 0 then 0 else 1). split.
    + intros i Hi. destruct k as [|[|]]; [| |lia]; (destruct i as [|[|]]; [| |lia]); apply Qc_is_canon; reflexivity.
    + exists 1%nat. split; [lia|]. destruct (k =? 0); discriminate.
  - destruct (laQ_ok L) as (HD & Hs & _ & _ & _ & Hno).
    apply (C32_companion_zero_pole_wrong Qfield (laQ L) [] 2 a A L V (fun _ => af) (fun _ => lf) [] 1) with (v := fun _ => v); auto.
    + apply is1_P. apply is1_mk.
    + apply is1_P. apply is1_mk.
    + apply vld_nil.
    + now apply is2_P.
Qed.
Print Assumptions C32_companion_refuted.

Definition showQ (r : res (tensor Qfield)) :=
  match show r with Some (s, l) => Some (s, map this l) | None => None end.
Definition showI (r : res (tensor QI)) :=
  match show r with Some (s, l) => Some (s, map (fun z => (this (fst z), this (snd z))) l) | None => None end.
(** Poles 1 and 2 of z^2 - 3 z + 2, and i, -i of z^2 + 1 (the example norm is the squared
    norm). *)
Example C32_ex :
  let a := mk1 2 (fun k => match k with O => qz (-3) | _ => qz 2 end) : tensor Qfield in
  let lf := fun k => match k with O => qz 1 | _ => qz 2 end : Qfield in
  let ai := mk1 2 (fun k => match k with O => qi 0 0 | _ => qi 1 0 end) : tensor QI in
  let li := fun k => match k with O => qi 0 1 | _ => qi 0 (-1) end : QI in
  (forall q k, vld [] q -> (k < 2)%nat ->
     exists v, eigvec 2 (comp_mat Qfield (fun k => match k with O => qz (-3) | _ => qz 2 end)) (lf k) v /\
       exists i, (i < 2)%nat /\ v i <> 0) /\
  (qz 2 : Qfield) <> 0 /\
  showQ (bind (companion a) (fun A => find_eigenvectors (laQ (mk1 2 lf)) A (mk1 2 lf)))
    = Some ([2;2]%nat, [1#2; 4#5; 1#2; 2#5]) /\
  showI (bind (companion ai) (fun A => find_eigenvectors (laI (mk1 2 li)) A (mk1 2 li)))
    = Some ([2;2]%nat, [(1#2, 0#1); (1#2, 0#1); (0#1, -1#2); (0#1, 1#2)]) /\
  showI (bind (companion ai) (fun A => find_eigenvectors (laI (mk1 2 li)) (tconj (mT A)) (mk1 2 li)))
    = Some ([2;2]%nat, [(1#2, 0#1); (1#2, 0#1); (0#1, 1#2); (0#1, -1#2)]).
Proof.
  cbv zeta. split; [|split; [discriminate|split; [|split]; vm_compute; reflexivity]].
  intros q k _ Hk. exists (fun i => match k, i with S _, O => qz 2 | _, _ => qz 1 end). split.
  - intros i Hi. destruct k as [|[|]]; [| |lia]; (destruct i as [|[|]]; [| |lia]); apply Qc_is_canon; reflexivity.
  - exists 1%nat. split; [lia|]. destruct k; discriminate.
Qed.

(** ** C33.  Every way of giving the diagonalisation ([diag_args]): L with V and Vinv, with
    one of them, with A, alone (diagonal A), or A alone with distinct eigenvalues none of
    which has an eigenvector starting with 0; shared or per batch; every documented shape
    of x, B, C, D, zi; compiled or Python recurrence.

    When C is given and is a real tensor, the code keeps only the real part of the states,
    hence the hypothesis on [re]. *)
Theorem C33_diag_state_space :
  forall (F : cfield) e (la : linalg F) re B N M K P (x : tensor F) L V W A Bt C D zi cc uf oi Af xf Bm Cm Dm z0,
  (1 <= B)%nat -> (1 <= N)%nat -> (1 <= M)%nat -> backend_ok e M -> unroll_ok uf -> linalg_ok la M ->
  diag_args la B M L V W A Af ->
  sigv B N K x xf -> inmat B M K Bt Bm -> outmat B M oi C P Cm -> feed B K P D Dm -> init B M zi z0 ->
  (C <> None -> cc = false -> forall b n m, (b < B)%nat -> (n <= N)%nat -> (m < M)%nat ->
     let h := ss_h M (width K) (fun _ => Af b) (fun _ => Bm b) (z0 b) (xf b) n m in re h = h) ->
  exists y zf, diag_state_space e la re x L V W A Bt C D zi cc oi uf = Ok (y, zf) /\
    sigv B N P y (fun b => ss_y M (width K) (fun _ => Af b) (fun _ => Bm b) (fun _ => Cm b) (fun _ => Dm b)
                             (z0 b) (xf b)) /\
    match zi with
    | None => zf = None
    | Some _ => exists z, zf = Some z /\
        is2 z B M (fun b => ss_h M (width K) (fun _ => Af b) (fun _ => Bm b) (z0 b) (xf b) N)
    end.
Proof. exact diag_spec. Qed.
Print Assumptions C33_diag_state_space.

(** Equality with state_space on the same system. *)
Theorem C33_equals_state_space :
  forall (F : cfield) e (la : linalg F) re B N M K P (x At : tensor F) L V W A Bt C D zi cc uf uf' oi Af xf Bm Cm Dm z0,
  (1 <= B)%nat -> (1 <= N)%nat -> (1 <= M)%nat -> backend_ok e M -> unroll_ok uf -> unroll_ok uf' -> linalg_ok la M ->
  diag_args la B M L V W A Af -> matc B M At Af ->
  sigv B N K x xf -> inmat B M K Bt Bm -> outmat B M oi C P Cm -> feed B K P D Dm -> init B M zi z0 ->
  (C <> None -> cc = false -> forall b n m, (b < B)%nat -> (n <= N)%nat -> (m < M)%nat ->
     let h := ss_h M (width K) (fun _ => Af b) (fun _ => Bm b) (z0 b) (xf b) n m in re h = h) ->
  exists y zf y' zf' g h,
    diag_state_space e la re x L V W A Bt C D zi cc oi uf = Ok (y, zf) /\
    state_space e At x Bt C D zi uf' oi = Ok (y', zf') /\
    sigv B N P y g /\ sigv B N P y' g /\
    match zi with
    | None => zf = None /\ zf' = None
    | Some _ => exists z z', zf = Some z /\ zf' = Some z' /\ is2 z B M h /\ is2 z' B M h
    end.
Proof.
  intros F e la re B N M K P x At L V W A Bt C D zi cc uf uf' oi Af xf Bm Cm Dm z0 HB HN HM He Hu Hu' Hla Hd HA Hx HBt HC HDm Hz Hre.
  destruct (C33_diag_state_space F e la re B N M K P x L V W A Bt C D zi cc uf oi Af xf Bm Cm Dm z0) as (y & zf & E & Hy & Hzf); auto.
  destruct (state_space_spec F e B N M K P At x Bt C D zi uf' oi Af xf Bm Cm Dm z0) as (y' & zf' & E' & Hy' & Hzf'); auto.
  exists y, zf, y', zf'. do 2 eexists. split; [exact E|]. split; [exact E'|]. split; [exact Hy|]. split; [exact Hy'|].
  destruct zi; [|now split]. destruct Hzf as (z & -> & Hz1). destruct Hzf' as (z' & -> & Hz2). eauto 8.
Qed.
Print Assumptions C33_equals_state_space.

(** The hypothesis on [re] holds for real systems: if the entries fixed by [re] are closed
    under + and *, and A, B, x and zi are made of such entries. *)
Definition real_closed {F : cfield} (re : F -> F) : Prop :=
  re 0 = 0 /\ (forall x y, re x = x -> re y = y -> re (x + y) = x + y /\ re (x * y) = x * y).
Lemma re_bsum {F : cfield} (re : F -> F) n (f : nat -> F) : real_closed re -> (forall k, (k < n)%nat -> re (f k) = f k) ->
  re (bsum n f) = bsum n f.
Proof.
  intros [H0 Hc]. induction n as [|n IH]; intro H; [exact H0|]. rewrite bsum_S. apply Hc; auto.
Qed.
Lemma re_state {F : cfield} (re : F -> F) M K N (A Bm : nat -> nat -> F) z (x : nat -> nat -> F) : real_closed re ->
  (forall i j, (i < M)%nat -> (j < M)%nat -> re (A i j) = A i j) ->
  (forall i j, (i < M)%nat -> (j < K)%nat -> re (Bm i j) = Bm i j) ->
  (forall i, (i < M)%nat -> re (z i) = z i) -> (forall n k, (n < N)%nat -> (k < K)%nat -> re (x n k) = x n k) ->
  forall n m, (n <= N)%nat -> (m < M)%nat -> re (ss_h M K (fun _ => A) (fun _ => Bm) z x n m) = ss_h M K (fun _ => A) (fun _ => Bm) z x n m.
Proof.
  intros Hr HA HB Hz Hx. unfold ss_h. induction n as [|n IH]; intros m Hn Hm; [now apply Hz|]. cbn [state].
  pose proof Hr as [_ Hc]. apply Hc.
  - unfold mvec. apply re_bsum; [exact Hr|]. intros k Hk. apply Hc; [now apply HA|]. apply IH; [lia|exact Hk].
  - apply re_bsum; [exact Hr|]. intros k Hk. apply Hc; [now apply HB|]. apply Hx; [lia|exact Hk].
Qed.
Theorem C33_real_system :
  forall (F : cfield) e (la : linalg F) re B N M K P (x : tensor F) L V W A Bt C D zi cc uf oi Af xf Bm Cm Dm z0,
  (1 <= B)%nat -> (1 <= N)%nat -> (1 <= M)%nat -> backend_ok e M -> unroll_ok uf -> linalg_ok la M ->
  diag_args la B M L V W A Af ->
  sigv B N K x xf -> inmat B M K Bt Bm -> outmat B M oi C P Cm -> feed B K P D Dm -> init B M zi z0 ->
  real_closed re ->
  (forall b i j, (b < B)%nat -> (i < M)%nat -> (j < M)%nat -> re (Af b i j) = Af b i j) ->
  (forall b i j, (b < B)%nat -> (i < M)%nat -> (j < width K)%nat -> re (Bm b i j) = Bm b i j) ->
  (forall b n k, (b < B)%nat -> (n < N)%nat -> (k < width K)%nat -> re (xf b n k) = xf b n k) ->
  (forall b m, (b < B)%nat -> (m < M)%nat -> re (z0 b m) = z0 b m) ->
  exists y zf, diag_state_space e la re x L V W A Bt C D zi cc oi uf = Ok (y, zf) /\
    sigv B N P y (fun b => ss_y M (width K) (fun _ => Af b) (fun _ => Bm b) (fun _ => Cm b) (fun _ => Dm b)
                             (z0 b) (xf b)) /\
    match zi with
    | None => zf = None
    | Some _ => exists z, zf = Some z /\
        is2 z B M (fun b => ss_h M (width K) (fun _ => Af b) (fun _ => Bm b) (z0 b) (xf b) N)
    end.
Proof.
  intros F e la re B N M K P x L V W A Bt C D zi cc uf oi Af xf Bm Cm Dm z0 HB HN HM He Hu Hla Hd Hx HBt HC HDm Hz Hr HrA HrB Hrx Hrz.
  apply C33_diag_state_space; auto. intros _ _ b n m Hb Hn Hm. cbv zeta. apply (re_state re M (width K) N); auto.
Qed.
Print Assumptions C33_real_system.

(** The rotation by 90 degrees, eigenvalues i and -i, from A alone, from (L, V), from
    (L, Vinv); real output vector, initial state. *)
Definition reI (z : QI) : QI := (fst z, Q2Qc 0).
Lemma reI_closed : real_closed reI.
Proof.
  split; [reflexivity|]. intros [p q] [r s] H1 H2. 
  assert (q = Q2Qc 0) by (now injection H1). assert (s = Q2Qc 0) by (now injection H2). subst q s.
  split; apply injective_projections; try reflexivity.
  - change (Q2Qc 0 = (p * Q2Qc 0 + Q2Qc 0 * r)%Qc). ring.
Qed.
Definition rot : tensor QI := mk2 2 2 (fun i j => match i, j with O, S O => qi (-1) 0 | S O, O => qi 1 0 | _, _ => qi 0 0 end).
Definition rotL : tensor QI := mk1 2 (fun k => match k with O => qi 0 1 | _ => qi 0 (-1) end).
Definition rotV : tensor QI := mk2 2 2 (fun i j => match i, j with O, _ => qi 1 0 | S O, O => qi 0 (-1) | _, _ => qi 0 1 end).
Definition sigI (l : list Z) : tensor QI := mk2 1 (length l) (fun _ n => qi (nth n l 0%Z) 0).
Definition showI2 (r : res (tensor QI * option (tensor QI))) :=
  match r with Ok (y, z) => Some (showI (Ok y), match z with Some z => showI (Ok z) | None => None end) | Err _ => None end.
Lemma rot_simple : simple_eigs 2 (fun i j => at_ rot [i; j]) (fun k => at_ rotL [k]).
Proof.
  split.
  - intros [|[|]] [|[|]]; try lia; intros _ _ _; discriminate.
  - intros k Hk. split.
    + exists (fun i => at_ rotV [i; k]). split.
      * intros i Hi. destruct k as [|[|]]; [| |lia]; (destruct i as [|[|]]; [| |lia]); vm_compute; reflexivity.
      * exists 0%nat. split; [lia|]. discriminate.
    + intros v Hv H0 i Hi. destruct i as [|[|]]; [exact H0| |lia].
      pose proof (Hv 0%nat ltac:(lia)) as E. rewrite H0 in E. unfold mvec in E. cbn [bsum] in E. rewrite H0 in E.
      assert (E1 : at_ rot [0; 1]%nat = - (1 : QI)) by (vm_compute; reflexivity). rewrite E1 in E.
      exact (neg_row QI _ _ _ E).
Qed.

Example C33_ex :
  let C := mk1 2 (fun m => match m with O => qi 2 0 | _ => qi 1 0 end) : tensor QI in
  let x := sigI [1; 2; 0; 1]%Z in let zi := mk1 2 (fun m => match m with O => qi 3 0 | _ => qi 0 0 end) : tensor QI in
  let want := Some (Some ([1;4]%nat, [(6#1, 0#1); (5#1, 0#1); (-1#1, 0#1); (-3#1, 0#1)]),
                    Some ([1;2]%nat, [(2#1, 0#1); (-1#1, 0#1)])) in
  linalg_ok (laI rotL) 2 /\ backend_ok env0 2 /\
  diag_args (laI rotL) 1 2 None None None (Some rot) (fun _ i j => at_ rot [i; j]) /\
  diag_args (laI rotL) 1 2 (Some rotL) (Some rotV) None None (fun _ i j => at_ rot [i; j]) /\
  showI2 (diag_state_space env0 (laI rotL) reI x None None None (Some rot) None (Some C) None (Some zi) false None None) = want /\
  showI2 (diag_state_space env0 (laI rotL) reI x (Some rotL) (Some rotV) None None None (Some C) None (Some zi) false None (Some 3%nat)) = want /\
  showI2 (state_space env0 rot x None (Some C) None (Some zi) None None) = want.
Proof.
  cbv zeta. split; [apply laI_ok|]. split; [apply backend_env0|]. split; [|split].
  - eapply (da_A QI _ 1 2 [] rot rotL (fun _ i j => at_ rot [i; j]) (fun _ k => at_ rotL [k])); try reflexivity.
    + now left.
    + apply is2_P. apply is2_mk.
    + apply is1_P. apply is1_mk.
    + intros b Hb. split; [exact rot_simple|reflexivity].
  - eapply (da_V QI _ 1 2 [] rotL rotV None (fun _ k => at_ rotL [k]) (fun _ i j => at_ rotV [i; j])).
    + now left.
    + apply is1_P. apply is1_mk.
    + apply is2_P. apply is2_mk.
    + exact I.
    + intros b Hb. split.
      * intros i j Hi Hj. destruct i as [|[|]]; [| |lia]; (destruct j as [|[|]]; [| |lia]); vm_compute; reflexivity.
      * intros v Hv. apply (eig_indep QI 2 (fun i j => at_ rot [i; j]) (fun k => at_ rotL [k]) (fun k i => at_ rotV [i; k]) 2).
        -- intros k Hk i Hi. destruct k as [|[|]]; [| |lia]; (destruct i as [|[|]]; [| |lia]); vm_compute; reflexivity.
        -- intros k Hk. exists 0%nat. split; [lia|]. discriminate.
        -- apply rot_simple.
        -- intros i Hi. exact (Hv i Hi).
  - split; [|split]; vm_compute; reflexivity.
Qed.

Definition is_ok {A} (r : res A) : bool := match r with Ok _ => true | Err _ => false end.
Definition at2 (r : res (tensor QI * option (tensor QI))) : QI := match r with Ok (y, _) => at_ y [0; 2]%nat | Err _ => qi 7 7 end.
Lemma is_ok_pair {A B} (r : res (A * B)) : is_ok r = true -> exists y z, r = Ok (y, z).
Proof. destruct r as [[y z]|]; [eauto|discriminate]. Qed.
Definition exl (k : nat) : QI := match k with O => qi 0 1 | _ => qi 1 0 end.
Definition exA (i j : nat) : QI := if (i =? j)%nat then exl i else 0.
Definition exc (k : nat) : QI := match k with O => qi 1 0 | _ => qi 0 0 end.
Notation ex1 := (diag_state_space env0 (laI rotL) reI (sigI [1; 0; 0]%Z) (Some (mk1 2 exl)) None None None None
  (Some (mk1 2 exc)) None None false None None).
Notation ex2 := (state_space env0 (mk2 2 2 exA) (sigI [1; 0; 0]%Z) None (Some (mk1 2 exc)) None None None None).
Lemma ex_values : is_ok ex1 = true /\ is_ok ex2 = true /\ at2 ex1 = qi 0 0 /\ at2 ex2 = qi 0 1.
Proof. split; [|split; [|split]]; vm_compute; reflexivity. Qed.
(** With a real output vector C and a complex system the states lose their imaginary part:
    L = [i], x = 1, 0, 0 gives 0, 1, 0 where state_space gives 0, 1, i. *)
Theorem C33_complex_system_real_C_refuted :
  ~ (forall (F : cfield) e (la : linalg F) re B N M (x At L C : tensor F) Af xf cf y z y' z',
       (1 <= B)%nat -> (1 <= N)%nat -> (1 <= M)%nat -> backend_ok e M -> linalg_ok la M -> real_closed re ->
       diag_args la B M (Some L) None None None Af -> matc B M At Af -> is2 x B N xf -> is1 C M cf ->
       (forall m, (m < M)%nat -> re (cf m) = cf m) ->
       diag_state_space e la re x (Some L) None None None None (Some C) None None false None None = Ok (y, z) ->
       state_space e At x None (Some C) None None None None = Ok (y', z') ->
       forall idx, at_ y idx = at_ y' idx).
Proof.
  intro H. destruct ex_values as (O1 & O2 & G1 & G2).
  destruct (is_ok_pair _ O1) as (y & z & E1). destruct (is_ok_pair _ O2) as (y' & z' & E2).
  rewrite E1 in G1. rewrite E2 in G2. unfold at2 in G1, G2.
  assert (D : diag_args (laI rotL) 1 2 (Some (mk1 2 exl)) None None None (fun _ => exA)).
  { apply (da_L QI _ 1 2 (mk1 2 exl) exl); [apply is1_mk|reflexivity]. }
  assert (HA : matc 1 2 (mk2 2 2 exA) (fun _ => exA)) by (eapply matc_s; [apply is2_mk|reflexivity]).
  assert (Hc : forall m, (m < 2)%nat -> reI (exc m) = exc m) by (intros [|[|]] Hm; try lia; reflexivity).
  assert (Hx : is2 (sigI [1; 0; 0]%Z) 1 3 (fun _ n => qi (nth n [1; 0; 0]%Z 0%Z) 0)) by apply is2_mk.
  specialize (H QI env0 (laI rotL) reI 1%nat 3%nat 2%nat).
  specialize (H (sigI [1; 0; 0]%Z) (mk2 2 2 exA) (mk1 2 exl) (mk1 2 exc) (fun _ => exA)
    (fun _ n => qi (nth n [1; 0; 0]%Z 0%Z) 0) exc y z y' z' (le_n 1)).
  specialize (H ltac:(lia) ltac:(lia) (backend_env0 2) (laI_ok rotL) reI_closed D HA Hx (is1_mk _ _) Hc).
  pose proof (H E1 E2 [0; 2]%nat) as E.
  rewrite G1, G2 in E. discriminate.
Qed.
Print Assumptions C33_complex_system_real_C_refuted.

(** Eigenvalues per batch together with A (and neither V nor Vinv) are rejected, although A
    alone and shared eigenvalues with A are accepted. *)
Theorem C33_batched_eigenvalues_with_A_raise :
  forall (F : cfield) e (la : linalg F) re N M (x L : tensor F) A Bt D zi cc uf oi xf lf B,
  is2 x B N xf -> is2 L B M lf ->
  diag_state_space e la re x (Some L) None None A Bt None D zi cc oi uf = Err AssertionError.
Proof.
  intros F e la re N M x L A Bt D zi cc uf oi xf lf B [Hx _] [HL _]. unfold diag_state_space, diag_resolve.
  unfold rk, size. rewrite Hx, HL. cbn. now rewrite Nat.eqb_refl.
Qed.
Print Assumptions C33_batched_eigenvalues_with_A_raise.
