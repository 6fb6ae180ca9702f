(** C42: prototype/poly.py.  Coefficient lists, highest degree first; [lcoef p k] is the
    coefficient of z^k, [leval p z] the value.  [z0] is the exact test x == 0. *)
From Coq Require Import List Arith Lia ZArith Bool QArith Qcanon.
From Verif Require Import Scalar Tensor TensorLemmas SpecPoly M_Poly P_Poly M_ProtoPoly P_ProtoPoly
  P_ProtoPoly2 Properties_Poly.
Import ListNotations.
Open Scope nat_scope.
Open Scope cr_scope.

Definition zero_test (R : cring) (z0 : R -> bool) : Prop := forall x, z0 x = true <-> x = 0.
Definition zz : Zring -> bool := Z.eqb 0.
Lemma zz_ok : zero_test Zring zz.
Proof. intro x. unfold zz. rewrite Z.eqb_eq. cbn. split; congruence. Qed.

(** trim_zeros does not change the polynomial, and leaves a non-zero leading coefficient
    unless the polynomial is zero. *)
Theorem C42_trim_zeros (R : cring) z0 (p : list R) : zero_test R z0 ->
  (forall k, lcoef (trim_zeros z0 p) k = lcoef p k) /\
  (trim_zeros z0 p = [0] \/ nth 0 (trim_zeros z0 p) 0 <> 0).
Proof.
  intro H. split; [now apply trim_coef|]. destruct (trim_lead R z0 H p) as [[E _]|E]; auto.
Qed.
Print Assumptions C42_trim_zeros.
Example C42_trim_ex : trim_zeros zz [0; 0; 3; 0; 5]%Z = [3; 0; 5]%Z /\ trim_zeros zz [0; 0]%Z = [0]%Z.
Proof. split; reflexivity. Qed.

(** polymul is the product: coefficient k is sum_{i+j=k} p_i q_j. *)
Theorem C42_polymul (R : cring) z0 (p q : list R) : zero_test R z0 ->
  (forall k, lcoef (polymul z0 p q) k = bsum (S k) (fun i => lcoef p i * lcoef q (k - i))) /\
  (forall z, leval (polymul z0 p q) z = leval p z * leval q z).
Proof.
  intro H. split; [intro; now apply polymul_coef|]. intro z. apply leval_prod. intro. now apply polymul_coef.
Qed.
Print Assumptions C42_polymul.
Example C42_polymul_ex : polymul zz [0; 2; 1]%Z [1; 0; -3; 4]%Z = [2; 1; -6; 5; 4]%Z.
Proof. reflexivity. Qed.

(** polysmul is the product of all its arguments; with none it recurses without end. *)
Theorem C42_polysmul (R : cring) z0 (ps : list (list R)) : zero_test R z0 -> ps <> [] ->
  exists r, polysmul z0 ps = Ok r /\
    forall z, leval r z = fold_right (fun p acc => leval p z * acc) 1 ps.
Proof.
  intros H Hne. destruct (polysmul_fuel_spec R z0 H (S (length ps)) ps Hne ltac:(lia)) as (r & E & Hr).
  exists r. split; [exact E|]. intro z. rewrite Hr. clear. induction ps as [|p ps IH]; [reflexivity|].
  cbn [pmany fold_right]. now rewrite IH.
Qed.
Print Assumptions C42_polysmul.
Theorem C42_polysmul_empty (R : cring) z0 fuel : polysmul_fuel (R:=R) z0 fuel [] = Err RuntimeError.
Proof. induction fuel as [|fuel IH]; [reflexivity|]. cbn. now rewrite IH. Qed.
Print Assumptions C42_polysmul_empty.
Example C42_polysmul_ex : polysmul zz [[1; 1]; [1; -1]; [2; 0; 1]]%Z = Ok [2; 0; -1; 0; -1]%Z.
Proof. reflexivity. Qed.

(** polyadd, polysub *)
Theorem C42_polyadd (R : cring) (p q : list R) :
  (forall k, lcoef (polyadd p q) k = lcoef p k + lcoef q k).
Proof. intro k. apply poly_pw_coef. apply (Radd_0_l (r_th R)). Qed.
Print Assumptions C42_polyadd.
Theorem C42_polysub (R : cring) (p q : list R) :
  (forall k, lcoef (polysub p q) k = lcoef p k - lcoef q k).
Proof. intro k. apply poly_pw_coef. apply (Ropp_def (r_th R)) || (rewrite (Rsub_def (r_th R)); apply (Ropp_def (r_th R))). Qed.
Print Assumptions C42_polysub.
Example C42_polysub_ex : polysub (R:=Zring) [5; 1]%Z [3; 2; 1; 7]%Z = [-3; -2; 4; -6]%Z
  /\ polyadd (R:=Zring) [3; 2; 1; 7]%Z [5; 1]%Z = [3; 2; 6; 8]%Z.
Proof. split; reflexivity. Qed.

(** polyval evaluates at every entry of x.  A constant polynomial (after trimming) gives a
    tensor of shape (1,) whatever the shape of x. *)
Theorem C42_polyval (R : cring) z0 (p : list R) (x : tensor R) : zero_test R z0 ->
  exists y, polyval z0 p x = Ok y /\
  ((length (trim_zeros z0 p) = 1%nat /\ is1 y 1 (fun _ => lcoef p 0)) \/
   ((1 < length (trim_zeros z0 p))%nat /\ isP0 y (shape x) (fun q => leval p (at_ x q)))).
Proof. intro H. now apply polyval_spec. Qed.
Print Assumptions C42_polyval.
Example C42_polyval_ex :
  show (polyval zz [1; 0; -3; 4]%Z (lst1 0%Z [0; 1; 2; 3; -1]%Z)) = Some ([5]%nat, [4; 2; 6; 22; 6]%Z).
Proof. reflexivity. Qed.
(** So the result does not always have the shape of x. *)
Theorem C42_polyval_shape_refuted :
  ~ (forall (R : cring) z0 (p : list R) (x : tensor R), zero_test R z0 -> p <> [] ->
       exists y, polyval z0 p x = Ok y /\ isP0 y (shape x) (fun q => leval p (at_ x q))).
Proof.
  intro H. destruct (H Zring zz [7]%Z (mk1 3 (fun _ => 1%Z)) zz_ok ltac:(discriminate)) as (y & E & Hs & _).
  injection E as <-. discriminate.
Qed.
Print Assumptions C42_polyval_shape_refuted.

(** The multiplicativity in C42, on scalars. *)
Theorem C42_polyval_mul (R : cring) z0 (p q : list R) (z : R) : zero_test R z0 ->
  (1 < length (trim_zeros z0 p))%nat -> (1 < length (trim_zeros z0 q))%nat ->
  (1 < length (trim_zeros z0 (polymul z0 p q)))%nat ->
  exists a b c, polyval z0 p (mk0 z) = Ok a /\ polyval z0 q (mk0 z) = Ok b /\
    polyval z0 (polymul z0 p q) (mk0 z) = Ok c /\ at_ c [] = at_ a [] * at_ b [].
Proof.
  intros H Hp Hq Hm.
  destruct (polyval_spec R z0 H p (mk0 z)) as (a & Ea & [[? _]|[_ Ha]]); [lia|].
  destruct (polyval_spec R z0 H q (mk0 z)) as (b & Eb & [[? _]|[_ Hb]]); [lia|].
  destruct (polyval_spec R z0 H (polymul z0 p q) (mk0 z)) as (c & Ec & [[? _]|[_ Hc]]); [lia|].
  exists a, b, c. do 3 (split; [assumption|]).
  rewrite (proj2 Ha), (proj2 Hb), (proj2 Hc) by apply vld_nil. cbn [at_ mk0]. now apply C42_polymul.
Qed.
Print Assumptions C42_polyval_mul.

Lemma iter_swap m (A : Type) (f : A -> A) x : Nat.iter m f (f x) = f (Nat.iter m f x).
Proof. induction m as [|m IH]; [reflexivity|]. exact (f_equal f IH). Qed.
(** polyder: the m-th formal derivative; d/dz sends coefficients c_k to (k+1) c_{k+1}. *)
Theorem C42_polyder (R : cring) z0 (p : list R) (m : nat) : zero_test R z0 ->
  exists d, polyder z0 p (Z.of_nat m) = Ok d /\
    forall k, lcoef d k = Nat.iter m (fun c k => c (S k) * rnat (S k)) (lcoef p) k.
Proof.
  intro H. unfold polyder. destruct (0 <=? Z.of_nat m)%Z eqn:E; [|apply Z.leb_gt in E; lia].
  eexists. split; [reflexivity|]. intro k. rewrite Nat2Z.id, (polyder_coef R z0 H). clear.
  assert (forall m (c : nat -> R) k, dcoef c m k = Nat.iter m (fun c k => c (S k) * rnat (S k)) c k) as ->; [|reflexivity].
  clear. intros m. induction m as [|m IH]; intros c k; [reflexivity|]. cbn [dcoef]. rewrite IH.
  exact (f_equal (fun g => g k) (iter_swap m (nat -> R) (fun c k => c (S k) * rnat (S k)) c)).
Qed.
Print Assumptions C42_polyder.
Theorem C42_polyder_neg (R : cring) z0 (p : list R) (m : Z) : (m < 0)%Z -> polyder z0 p m = Err ValueError.
Proof. intro H. unfold polyder. destruct (0 <=? m)%Z eqn:E; [apply Z.leb_le in E; lia|reflexivity]. Qed.
Print Assumptions C42_polyder_neg.
Example C42_polyder_ex : polyder zz [0; 2; 0; 5; 7]%Z 2 = Ok [12; 0]%Z.
Proof. reflexivity. Qed.

(** Division: u = q v + r up to the coefficients the code drops as smaller than 1e-8, with
    deg r < deg v.  A short dividend gives q = 0, r = u. *)
Theorem C42_polydiv (F : cfield) z0 small (u v : list F) d : zero_test F z0 -> small 0 = true ->
  lcoef v d <> 0 -> (forall k, (d < k)%nat -> lcoef v k = 0) ->
  exists q r ds, proto_polydiv z0 small u v = (q, r) /\ Forall (fun x => small x = true) ds /\
    (forall k, lcoef u k = bsum (S k) (fun i => lcoef q i * lcoef v (k - i)) + lcoef (ds ++ r) k) /\
    (forall k, (d <= k)%nat -> lcoef r k = 0).
Proof. intro H. now apply proto_polydiv_spec. Qed.
Print Assumptions C42_polydiv.
(** With an exact zero test in place of the tolerance the identity is exact. *)
Theorem C42_polydiv_exact (F : cfield) z0 (u v : list F) d : zero_test F z0 ->
  lcoef v d <> 0 -> (forall k, (d < k)%nat -> lcoef v k = 0) ->
  exists q r, proto_polydiv z0 z0 u v = (q, r) /\
    (forall k, lcoef u k = bsum (S k) (fun i => lcoef q i * lcoef v (k - i)) + lcoef r k) /\
    (forall k, (d <= k)%nat -> lcoef r k = 0).
Proof.
  intros H Hd Hh. destruct (proto_polydiv_spec F z0 H z0 u v d) as (q & r & ds & E & Hds & H1 & H2);
    [now apply H|assumption|assumption|].
  exists q, r. split; [exact E|]. split; [|exact H2]. intro k. rewrite H1. unfold pprod. f_equal.
  assert (ds = repeat 0 (length ds)) as ->; [|apply lcoef_zeros].
  clear - Hds H. induction Hds as [|x ds Hx _ IH]; [reflexivity|]. cbn. apply H in Hx as ->. now rewrite <- IH.
Qed.
Print Assumptions C42_polydiv_exact.

Definition qq (x : Qfield) : bool := if Qc_eq_dec x 0%Qc then true else false.
Lemma qq_ok : zero_test Qfield qq.
Proof. intro x. unfold qq. destruct (Qc_eq_dec x 0%Qc); split; intro; auto; discriminate || contradiction. Qed.
Example C42_polydiv_ex :
  let '(q, r) := proto_polydiv qq qq (map qz [2; 3; -1; 5]%Z) (map qz [0; 2; 1]%Z) in
  (map this q, map this r) = ([1; 1; -1]%Q, [6]%Q).
Proof. vm_compute. reflexivity. Qed.

(** roots: for a polynomial with at least two non-zero coefficients (the first at i, the
    last at j), the right number of roots, each a root, given what torch.linalg.eigvals
    promises about the companion matrix. *)
Theorem C42_roots (F : cfield) z0 eigvals (p : list F) i j : zero_test F z0 ->
  (i < j < length p)%nat -> nth i p 0 <> 0 -> nth j p 0 <> 0 ->
  (forall k, (k < i \/ j < k)%nat -> nth k p 0 = 0) ->
  (let A := companion_of (skipn i (firstn (j + 1) p)) in eig_ok (j - i) A (eigvals (j - i)%nat A)) ->
  exists rs, roots z0 eigvals p = Ok rs /\ length rs = (length (trim_zeros z0 p) - 1)%nat /\
    forall z, In z rs -> leval p z = 0.
Proof. intro H. now apply roots_spec. Qed.
Print Assumptions C42_roots.
(** (2z + 4) z^2 : companion [[-2]], eigenvalue -2. *)
Example C42_roots_ex : exists rs, roots qq (fun n A => [A 0%nat 0%nat]) (map qz [0; 2; 4; 0; 0]%Z) = Ok rs
  /\ map this rs = [-2; 0; 0]%Q.
Proof. eexists. split; [vm_compute; reflexivity|]. reflexivity. Qed.
Example C42_roots_ex_eig : eig_ok (F:=Qfield) 1 (companion_of (F:=Qfield) (map qz [2; 4]%Z)) [companion_of (F:=Qfield) (map qz [2; 4]%Z) 0%nat 0%nat].
Proof.
  split; [reflexivity|]. intros lam [<-|[]]. exists (fun _ => 1). split; [exists 0%nat; split; [lia|discriminate]|].
  intros i Hi. assert (i = 0%nat) as -> by lia. vm_compute. reflexivity.
Qed.

(** A polynomial with exactly one non-zero coefficient raises instead. *)
Theorem C42_roots_monomial_raises (F : cfield) z0 eigvals (p : list F) h : zero_test F z0 ->
  (h < length p)%nat -> nth h p 0 <> 0 -> (forall k, k <> h -> nth k p 0 = 0) ->
  roots z0 eigvals p = Err IndexError.
Proof. intro H. now apply roots_monomial. Qed.
Print Assumptions C42_roots_monomial_raises.
(** z itself (root 0) is such a polynomial. *)
Theorem C42_roots_refuted : exists p : list Qfield,
  length p = 2%nat /\ nth 0 p 0 <> 0 /\ leval p 0 = 0 /\
  forall eigvals, roots qq eigvals p = Err IndexError.
Proof.
  exists (map qz [1; 0]%Z). split; [reflexivity|]. split; [discriminate|]. split; [vm_compute; reflexivity|].
  intro eigvals. reflexivity.
Qed.
Print Assumptions C42_roots_refuted.
