(** Derivatives of time-varying direct form II filters, comb filters and scalar recurrences
    over dual numbers. *)
From Coq Require Import List Arith Lia ZArith Bool Ring.
From Verif Require Import Scalar Tensor TensorLemmas TensorTac Spec Shapes SpecFilter SpecLpv SpecAutograd SpecSystem SpecDeriv Algebra P_SsSpec P_Filter P_LpvAlg
  P_Autograd P_System P_Adjoint P_Deriv P_Deriv2 Properties_Adjoint.
Import ListNotations.

Section Deriv3.
Variable R : cring.
Add Ring Rr : (r_th R).
Notation D := (dual R).
Open Scope cr_scope.

Definition pair2 (f df : nat -> nat -> R) : nat -> nat -> D := fun n k => (f n k, df n k).
Definition pair1 (f df : nat -> R) : nat -> D := fun n => (f n, df n).

(** The input seen by the linearised filter. *)
Definition dual_in (M : nat) (a da : nat -> nat -> R) (z x dx : nat -> R) (n : nat) : R :=
  dx n - bsum M (fun j => da n j * vdf2_z M a z x n j).

Lemma vdf2_z_dual M (a da : nat -> nat -> R) (z dz x dx : nat -> R) n : forall i,
  vdf2_z (R := D) M (pair2 a da) (pair1 z dz) (pair1 x dx) n i = (vdf2_z M a z x n i, vdf2_z M a dz (dual_in M a da z x dx) n i).
Proof.
  induction n as [|n IH]; intro i; [reflexivity|]. cbn [vdf2_z]. destruct i as [|i]; [|apply IH].
  rewrite (bsum_ext (R := D) M _ (fun j => rmul (c := D) (a n j, da n j) (vdf2_z M a z x n j, vdf2_z M a dz (dual_in M a da z x dx) n j)))
    by (intros; now rewrite IH).
  rewrite bsum_mul_dual. unfold pair1. cbn [rsub dual fst snd r_ops]. f_equal. unfold dual_in. ring.
Qed.
Lemma vdf2_y_dual M (b db a da : nat -> nat -> R) (z dz x dx : nat -> R) n :
  vdf2_y (R := D) M (pair2 b db) (pair2 a da) (pair1 z dz) (pair1 x dx) n
  = (vdf2_y M b a z x n, vdf2_y M b a dz (dual_in M a da z x dx) n + vdf2_y M db a z x n).
Proof.
  unfold vdf2_y. rewrite vdf2_z_dual.
  rewrite (bsum_ext (R := D) M _ (fun k => rmul (c := D) (b n (S k), db n (S k)) (vdf2_z M a z x n k, vdf2_z M a dz (dual_in M a da z x dx) n k)))
    by (intros; now rewrite vdf2_z_dual).
  rewrite bsum_mul_dual. unfold pair2. cbn [rmul radd dual fst snd r_ops]. f_equal. ring.
Qed.
Lemma padz_pair nb (b db : nat -> nat -> R) n k : padz (R := D) nb (pair2 b db n) k = pair2 (fun n => padz nb (b n)) (fun n => padz nb (db n)) n k.
Proof. unfold padz, pair2. now destruct (k <? nb)%nat. Qed.

Lemma vdf2_z_sub M (a : nat -> nat -> R) (z x e : nat -> R) n i : (i < M)%nat ->
  vdf2_z M a z (fun k => x k - e k) n i = vdf2_z M a z x n i - vdf2_z M a (fun _ => 0) e n i.
Proof.
  intro Hi. transitivity (1 * vdf2_z M a z x n i + - (1) * vdf2_z M a (fun _ => 0) e n i); [|ring].
  rewrite <- vdf2_z_lin. apply vdf2_z_ext; intros; auto; ring.
Qed.
Lemma vdf2_y_sub M (b a : nat -> nat -> R) (z x e : nat -> R) n : (1 <= M)%nat ->
  vdf2_y M b a z (fun k => x k - e k) n = vdf2_y M b a z x n - vdf2_y M b a (fun _ => 0) e n.
Proof.
  intro HM. transitivity (1 * vdf2_y M b a z x n + - (1) * vdf2_y M b a (fun _ => 0) e n); [|ring].
  rewrite <- vdf2_y_lin. apply vdf2_y_ext; intros; auto; ring.
Qed.
Lemma vdf2_y_shift1 M K (c a : nat -> nat -> R) (z x : nat -> R) n : (K <= M)%nat ->
  vdf2_y M (fun n => padz (S K) (shift1 R (c n))) a z x n = bsum M (fun j => padz K (c n) j * vdf2_z M a z x n j).
Proof.
  intro H. unfold vdf2_y. replace (padz (S K) (shift1 R (c n)) 0) with (0 : R) by reflexivity.
  rewrite (bsum_ext M _ (fun j => padz K (c n) j * vdf2_z M a z x n j)); [ring|].
  intros k Hk. reflexivity.
Qed.

Lemma reorder (p q r : R) : p - q + r = p + r - q.
Proof. ring. Qed.
Lemma dot_sub n (f g h : nat -> R) : dot n f (fun i => g i - h i) = dot n f g - dot n f h.
Proof. unfold dot. rewrite <- bsum_sub. apply bsum_ext. intros. ring. Qed.
(** Pairing with a sum of products gives the outer product with the other factor. *)
Lemma dot_corr N K (u : nat -> R) (c h : nat -> nat -> R) :
  dot N u (fun n => bsum K (fun k => c n k * h n k)) = dotc N K (fun n k => u n * conj (h n k)) c.
Proof.
  unfold dot, dotc. apply bsum_ext. intros n Hn. rewrite <- bsum_mul_l. unfold dot. apply bsum_ext. intros k Hk.
  rewrite conj_mul, conj_conj. ring.
Qed.
Lemma bsum_padz K M (c h : nat -> R) : (K <= M)%nat -> bsum M (fun k => padz K c k * h k) = bsum K (fun k => c k * h k).
Proof.
  intro H. rewrite (bsum_trunc K M _ H).
  - apply bsum_ext. intros k Hk. unfold padz. now btrue (k <? K)%nat.
  - intros k Hk Hk'. unfold padz. bfalse (k <? K)%nat. ring.
Qed.
(** The inner signal w of a direct form II filter. *)
Definition inner (M : nat) (a : nat -> nat -> R) (z x : nat -> R) (n : nat) : R := vdf2_z M a z x (S n) 0%nat.
Lemma vdf2_y_hist M nb (b a : nat -> nat -> R) (z x : nat -> R) n : (1 <= nb)%nat -> (nb <= S M)%nat ->
  vdf2_y M (fun n => padz nb (b n)) a z x n = bsum nb (fun k => b n k * hist (inner M a z x) z (S n) k).
Proof.
  intros H1 H2. rewrite <- (bsum_padz nb (S M)) by lia. rewrite bsum_S_l. unfold vdf2_y. f_equal; [f_equal; unfold hist, inner; btrue (0 <? S n)%nat; do 2 f_equal; lia|].
  apply bsum_ext. intros k Hk. f_equal. rewrite vdf2_hist. unfold hist, inner. destruct (k <? n)%nat eqn:E; b2p.
  - btrue (S k <? S n)%nat. do 2 f_equal; lia.
  - bfalse (S k <? S n)%nat. do 1 f_equal; lia.
Qed.

Lemma grad_vdf2 M nb na (b db a da : nat -> nat -> R) (z dz gz x dx g : nat -> R) N : (1 <= M)%nat -> (1 <= nb)%nat -> (nb <= S M)%nat -> (na <= M)%nat ->
  let bp := fun n => padz nb (b n) in let ap := fun n => padz na (a n) in
  let dx1 := dual_in M ap (fun n => padz na (da n)) z x dx in
  let w := inner M ap z x in
  let gx := backwards N (vtdf2_y M (fun n k => conj (bp (N - 1 - n)%nat k)) (fun n k => conj (ap (N - 1 - n)%nat k)) gz (backwards N g)) in
  let gz0 := vtdf2_z M (fun n k => conj (bp (N - 1 - n)%nat k)) (fun n k => conj (ap (N - 1 - n)%nat k)) gz (backwards N g) N in
  dot N g (fun n => vdf2_y M bp ap dz dx1 n + vdf2_y M (fun n => padz nb (db n)) ap z x n) + dot M gz (vdf2_z M ap dz dx1 N)
  = dot N gx dx + dot M gz0 dz
    + dotc N nb (fun n k => g n * conj (hist w z (S n) k)) db - dotc N na (fun n k => gx n * conj (hist w z n k)) da.
Proof.
  intros HM H1 H2 H3 bp ap dx1 w gx gz0.
  rewrite dot_add.
  assert (E : dot N g (vdf2_y M bp ap dz dx1) + dot M gz (vdf2_z M ap dz dx1 N) = dot N gx dx1 + dot M gz0 dz)
    by exact (vdf2_adjoint R M bp ap dz gz dx1 g N HM).
  assert (E1 : dot N gx dx1 = dot N gx dx - dotc N na (fun n k => gx n * conj (hist w z n k)) da).
  { rewrite <- dot_corr, <- dot_sub. apply dot_ext; [reflexivity|]. intros n Hn. unfold dx1, dual_in. f_equal.
    rewrite bsum_padz by lia. apply bsum_ext. intros k Hk. f_equal. unfold w, inner. apply vdf2_hist. }
  assert (E2 : dot N g (vdf2_y M (fun n => padz nb (db n)) ap z x) = dotc N nb (fun n k => g n * conj (hist w z (S n) k)) db).
  { rewrite <- dot_corr. apply dot_ext; [reflexivity|]. intros n Hn. now apply vdf2_y_hist. }
  change (dot N g (fun i => vdf2_y M bp ap dz dx1 i)) with (dot N g (vdf2_y M bp ap dz dx1)).
  change (dot N g (fun i => vdf2_y M (fun n => padz nb (db n)) ap z x i)) with (dot N g (vdf2_y M (fun n => padz nb (db n)) ap z x)).
  rewrite E2. transitivity (dot N g (vdf2_y M bp ap dz dx1) + dot M gz (vdf2_z M ap dz dx1 N) + dotc N nb (fun n k => g n * conj (hist w z (S n) k)) db); [ring|].
  rewrite E, E1. ring.
Qed.

Lemma dotc_opp N K (f c : nat -> nat -> R) : dotc N K (fun n k => - f n k) c = - dotc N K f c.
Proof.
  unfold dotc, dot. rewrite <- bsum_opp. apply bsum_ext. intros n Hn. rewrite <- bsum_opp. apply bsum_ext. intros k Hk. rewrite conj_opp. ring.
Qed.
Lemma dotc_ext N K (f f' c : nat -> nat -> R) : (forall n k, (n < N)%nat -> (k < K)%nat -> f n k = f' n k) -> dotc N K f c = dotc N K f' c.
Proof. intro H. unfold dotc, dot. apply bsum_ext. intros n Hn. apply bsum_ext. intros k Hk. now rewrite H. Qed.
Lemma hist_rest (x : nat -> R) n k : hist x (fun _ => 0) n k = dly x (S k) n.
Proof. unfold hist, dly. destruct (k <? n)%nat eqn:E; b2p; [btrue (S k <=? n)%nat; f_equal; lia|now bfalse (S k <=? n)%nat]. Qed.
Lemma hist_rest0 (x : nat -> R) n k : hist x (fun _ => 0) (S n) k = dly x k n.
Proof. unfold hist, dly. destruct (k <=? n)%nat eqn:E; b2p; [btrue (k <? S n)%nat; f_equal; lia|now bfalse (k <? S n)%nat]. Qed.
Lemma sub_opp (p q : R) : p - q = p + - q.
Proof. ring. Qed.
(** Constant coefficients. *)
Lemma dotc_sum N K (f : nat -> nat -> R) (c : nat -> R) : dotc N K f (fun _ => c) = dot K (fun k => bsum N (fun n => f n k)) c.
Proof.
  unfold dotc, dot. rewrite bsum_swap. apply bsum_ext. intros k Hk. rewrite bsum_conj, <- bsum_mul_r. reflexivity.
Qed.

(** ** Finite impulse responses: w = x. *)
Lemma vconv_with_dual M (b db : nat -> nat -> R) (x dx z dz : nat -> R) n :
  vconv_with (R := D) M (pair2 b db) (pair1 x dx) (pair1 z dz) n = (vconv_with M b x z n, vconv_with M b dx dz n + vconv_with M db x z n).
Proof.
  unfold vconv_with.
  rewrite (bsum_ext (R := D) M _ (fun k => rmul (c := D) (b n (S k), db n (S k)) (hist x z n k, hist dx dz n k)))
    by (intros; unfold pair2; f_equal; unfold hist, pair1; now destruct (_ <? n)%nat).
  rewrite bsum_mul_dual. unfold pair2, pair1. cbn [rmul radd dual fst snd r_ops]. f_equal. ring.
Qed.
Lemma vconv_with_hist M (b : nat -> nat -> R) (x z : nat -> R) n : vconv_with M b x z n = bsum (S M) (fun k => b n k * hist x z (S n) k).
Proof.
  rewrite bsum_S_l. unfold vconv_with. f_equal.
  - f_equal. unfold hist. btrue (0 <? S n)%nat. f_equal. lia.
  - apply bsum_ext. intros k Hk. f_equal. unfold hist. destruct (k <? n)%nat eqn:E; b2p.
    + btrue (S k <? S n)%nat. f_equal; lia.
    + bfalse (S k <? S n)%nat. f_equal; lia.
Qed.
Lemma grad_fir M (b db : nat -> nat -> R) (z dz gz x dx g : nat -> R) N : (1 <= M)%nat ->
  let bH := fun n k => conj (b (N - 1 - n)%nat k) in
  dot N g (fun n => vconv_with M b dx dz n + vconv_with M db x z n) + dot M gz (hist dx dz N)
  = dot N (backwards N (vtdf2_y M bH (fun _ _ => 0) gz (backwards N g))) dx + dot M (vtdf2_z M bH (fun _ _ => 0) gz (backwards N g) N) dz
    + dotc N (S M) (fun n k => g n * conj (hist x z (S n) k)) db.
Proof.
  intros HM bH. rewrite dot_add. pose proof (fir_adjoint R M b dz gz dx g N HM) as E. fold bH in E.
  assert (E2 : dot N g (vconv_with M db x z) = dotc N (S M) (fun n k => g n * conj (hist x z (S n) k)) db).
  { rewrite <- dot_corr. apply dot_ext; [reflexivity|]. intros n Hn. apply vconv_with_hist. }
  rewrite E2, <- E. ring.
Qed.

(** ** All-pole filters: w = y. *)
Lemma grad_pole M (a da : nat -> nat -> R) (z dz gz x dx g : nat -> R) N : (1 <= M)%nat ->
  let dx1 := dual_in M a da z x dx in let y := inner M a z x in
  let one := fun _ k => match k with O => 1 | S _ => 0 end in let aH := fun n k => conj (a (N - 1 - n)%nat k) in
  let gx := backwards N (vtdf2_y M one aH gz (backwards N g)) in
  dot N g (fun n => vdf2_z M a dz dx1 (S n) 0%nat) + dot M gz (vdf2_z M a dz dx1 N)
  = dot N gx dx + dot M (vtdf2_z M one aH gz (backwards N g) N) dz - dotc N M (fun n k => gx n * conj (hist y z n k)) da.
Proof.
  intros HM dx1 y one' aH gx. pose proof (pole_adjoint R M a dz gz dx1 g N HM) as E. fold aH one' in E. fold gx in E. rewrite E.
  assert (E1 : dot N gx dx1 = dot N gx dx - dotc N M (fun n k => gx n * conj (hist y z n k)) da).
  { rewrite <- dot_corr, <- dot_sub. apply dot_ext; [reflexivity|]. intros n Hn. unfold dx1, dual_in. f_equal.
    apply bsum_ext. intros k Hk. f_equal. unfold y, inner. apply vdf2_hist. }
  rewrite E1. ring.
Qed.

(** ** Comb filter. *)
Lemma hist_dual (y dy z dz : nat -> R) n k : hist (R := D) (pair1 y dy) (pair1 z dz) n k = (hist y z n k, hist dy dz n k).
Proof. unfold hist, pair1. now destruct (k <? n)%nat. Qed.
Lemma comb_dual d (a da : R) (x dx y dy z dz : nat -> R) n :
  solves_comb (R := D) d (a, da) (pair1 x dx) (pair1 y dy) (pair1 z dz) n <->
  solves_comb d a x y z n /\ solves_comb d a (fun n => dx n - da * hist y z n (d - 1)) dy dz n.
Proof.
  unfold solves_comb. rewrite hist_dual. unfold pair1. cbn [rsub rmul dual fst snd r_ops]. split.
  - intro H. injection H as H1 H2. split; [exact H1|]. rewrite H2. ring.
  - intros [-> ->]. f_equal. ring.
Qed.
(** The input and the initial past are paired with one filter run backwards. *)
Lemma comb_grad d (a : R) (x y z g v : nat -> R) N : (1 <= d)%nat ->
  (forall n, (n < N)%nat -> solves_comb d a x y z n) ->
  (forall n, (n < N)%nat -> solves_comb d (conj a) (backwards N g) v (fun _ => 0) n) ->
  dot N g y = dot N (backwards N v) x - a * bsum d (fun k => if (d - 1 - k <? N)%nat then conj (backwards N v (d - 1 - k)%nat) * z k else 0).
Proof.
  intros Hd Hy Hv.
  (* the past as an additional input *)
  set (x' := fun n => x n - a * (if (n <? d)%nat then z (d - 1 - n)%nat else 0)).
  assert (Hy' : forall n, (n < N)%nat -> solves_comb d a x' y (fun _ => 0) n).
  { intros n Hn. specialize (Hy n Hn). unfold solves_comb in *. rewrite Hy. unfold x', hist. destruct (d - 1 <? n)%nat eqn:E1; b2p.
    - bfalse (n <? d)%nat. ring.
    - btrue (n <? d)%nat. ring. }
  assert (G : dot N g y = dot N (backwards N v) x').
  { apply (adjoint_filter R 0 d (fun _ => 1) (fun j => if (j =? d - 1)%nat then a else 0)).
    - intros n Hn. apply comb_filter_form; [lia|]. now apply Hy'.
    - intros n Hn. specialize (Hv n Hn). apply comb_filter_form in Hv; [|lia].
      eapply (solves_filter_ext R) with (5 := Hv); auto.
      + intros. symmetry. apply conj_1.
      + intros j Hj. destruct (j =? d - 1)%nat; [reflexivity|symmetry; apply conj_0]. }
  rewrite G. unfold x'. rewrite dot_sub. f_equal.
  set (V := backwards N v).
  transitivity (a * dot N V (fun n => if (n <? d)%nat then z (d - 1 - n)%nat else 0)).
  { unfold dot. rewrite <- bsum_mul_l. apply bsum_ext. intros. ring. }
  f_equal. unfold dot.
  transitivity (bsum (Nat.min N d) (fun n => conj (V n) * z (d - 1 - n)%nat)).
  { rewrite (bsum_ext N _ (fun n => if (n <? Nat.min N d)%nat then conj (V n) * z (d - 1 - n)%nat else 0)).
    - rewrite (bsum_trunc (Nat.min N d) N) by (try lia; intros n Hn Hn'; now bfalse (n <? Nat.min N d)%nat).
      apply bsum_ext. intros n Hn. now btrue (n <? Nat.min N d)%nat.
    - intros n Hn. destruct (n <? d)%nat eqn:E; b2p.
      + now btrue (n <? Nat.min N d)%nat.
      + bfalse (n <? Nat.min N d)%nat. ring. }
  rewrite (bsum_rev d). 
  rewrite (bsum_trunc (Nat.min N d) d) by (try lia; intros n Hn Hn'; bfalse (d - 1 - (d - 1 - n) <? N)%nat; reflexivity).
  apply bsum_ext. intros n Hn. replace (d - 1 - (d - 1 - n))%nat with n by lia. now btrue (n <? N)%nat.
Qed.

(** ** Scalar recurrence. *)
Lemma lin_rec_dual (a da : R) (h dh : R) (x dx : nat -> R) n :
  lin_rec (R := D) (fun _ => (a, da)) (h, dh) (pair1 x dx) n
  = (lin_rec (fun _ => a) h x n, lin_rec (fun _ => a) dh (fun k => dx k + da * lin_rec (fun _ => a) h x k) n).
Proof.
  induction n as [|n IH]; [reflexivity|]. cbn [lin_rec]. rewrite IH. unfold pair1. cbn [radd rmul dual fst snd r_ops]. f_equal. ring.
Qed.
Lemma lin_rec_grad (a h : R) (x g : nat -> R) N :
  let v := backwards N (fun n => lin_rec (fun _ => conj a) 0 (backwards N g) (S n)) in
  dot N g (fun n => lin_rec (fun _ => a) h x (S n)) = dot N v x + conj (conj a * (if (N =? 0)%nat then 0 else v 0%nat)) * h.
Proof.
  intro v. set (x' := fun n => x n + (if (n =? 0)%nat then a * h else 0)).
  assert (E : forall n, lin_rec (fun _ => a) h x (S n) = lin_rec (fun _ => a) 0 x' (S n)).
  { induction n as [|n IH]; [cbn [lin_rec]; unfold x'; cbn [Nat.eqb]; ring|].
    change (a * lin_rec (fun _ => a) h x (S n) + x (S n) = a * lin_rec (fun _ => a) 0 x' (S n) + x' (S n)). rewrite IH. unfold x'. cbn [Nat.eqb]. ring. }
  transitivity (dot N v x').
  { rewrite (dot_ext R N g g _ (fun n => lin_rec (fun _ => a) 0 x' (S n))) by auto.
    apply (adjoint_filter R 0 1 (fun _ => r1) (fun _ => - a) x' (fun n => lin_rec (fun _ => a) 0 x' (S n)) g
      (fun n => lin_rec (fun _ => conj a) 0 (backwards N g) (S n)) N).
    - intros n Hn. apply lin_filter_form.
    - intros n Hn. eapply (solves_filter_ext R) with (5 := lin_filter_form R (conj a) (backwards N g) n); auto; intros; symmetry; [apply conj_1|apply conj_opp]. }
  unfold x'. rewrite dot_add. f_equal. destruct N as [|N]; [cbn [Nat.eqb]; unfold dot; cbn [bsum]; rewrite conj_mul, conj_0; ring|].
  unfold dot. rewrite bsum_S_l. cbn [Nat.eqb]. rewrite (bsum_0 N) by (intros; ring). rewrite conj_mul, conj_conj. ring.
Qed.
Lemma dot_mul_r N (u h : nat -> R) c : dot N u (fun n => c * h n) = conj (bsum N (fun n => u n * conj (h n))) * c.
Proof.
  unfold dot. rewrite bsum_conj, <- bsum_mul_r. apply bsum_ext. intros. rewrite conj_mul, conj_conj. ring.
Qed.
Lemma comb_pairing d N (a da : R) (gx dx h dz : nat -> R) :
  dot N gx (fun n => dx n - da * h n) - a * bsum d (fun k => if (d - 1 - k <? N)%nat then conj (gx (d - 1 - k)%nat) * dz k else 0)
  = dot N gx dx + dot d (fun k => if (d - 1 - k <? N)%nat then - (conj a * gx (d - 1 - k)%nat) else 0) dz
    + conj (- bsum N (fun n => gx n * conj (h n))) * da.
Proof.
  rewrite dot_sub, dot_mul_r, conj_opp.
  assert (E : dot d (fun k => if (d - 1 - k <? N)%nat then - (conj a * gx (d - 1 - k)%nat) else 0) dz
    = - (a * bsum d (fun k => if (d - 1 - k <? N)%nat then conj (gx (d - 1 - k)%nat) * dz k else 0))).
  { rewrite <- bsum_mul_l, <- bsum_opp. unfold dot. apply bsum_ext. intros k Hk. destruct (d - 1 - k <? N)%nat.
    - rewrite conj_opp, conj_mul, conj_conj. ring.
    - rewrite conj_0. ring. }
  rewrite E. ring.
Qed.
Lemma rec_pairing N (q da : R) (gx dx h : nat -> R) :
  dot N gx dx + q + conj (bsum N (fun n => gx n * conj (h n))) * da = dot N gx (fun k => dx k + da * h k) + q.
Proof. rewrite dot_add, dot_mul_r. ring. Qed.
End Deriv3.
