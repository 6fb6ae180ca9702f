(** Unified results about lpv.lfilter: all forms, wrapper, extensionality. *)
From Coq Require Import List Arith Lia ZArith Bool Ring.
From Verif Require Import Scalar Tensor TensorLemmas TensorList TensorTac Spec Shapes SpecFilter SpecLpv Algebra M_Mat M_Kernels M_LtiSsm M_LpvSsm M_LtiFilter
  M_LpvFilter P_LtiSsm P_LpvSs P_LpvSsm P_Filter P_LtiFilter P_LpvAlg P_LpvFilter.
Import ListNotations.

Section S.
Variable R : cring.
Notation ten := (tensor (car R)).
Add Ring Rr : (r_th R).
Open Scope cr_scope.

(** What each form of the state-space back-end computes; [b], [a] padded to the order. *)
Definition lpv_sol (fm : form) (M N : nat) (b a : nat -> nat -> R) (z x y : nat -> R) : Prop :=
  match fm with
  | Df2 => forall n, (n < N)%nat -> y n = vdf2_y M b a z x n
  | Tdf2 => forall n, (n < N)%nat -> y n = vtdf2_y M (fun n k => conj (b n k)) (fun n k => conj (a n k)) z x n
  | Df1 => forall n, (n < N)%nat -> vpole M a (vconv M b x) y (fun _ => 0) n
  | Tdf1 => exists w, forall n, (n < N)%nat -> vpolet M (late R (fun n k => conj (a n k))) x w n /\ y n = vconvt M b w n
  | OtherForm => False
  end.
Lemma dly_ext (f g : nat -> R) k n : (forall m, (m + k <= n)%nat -> f m = g m) -> dly f k n = dly g k n.
Proof. intro H. unfold dly. destruct (k <=? n)%nat eqn:E; b2p; [apply H; lia|reflexivity]. Qed.
Lemma vpole_ext M a a' (x x' y y' z z' : nat -> R) n : (forall k, (k < M)%nat -> a n k = a' n k) -> x n = x' n ->
  (forall m, (m <= n)%nat -> y m = y' m) -> (forall k, (k < M)%nat -> z k = z' k) -> vpole M a x y z n -> vpole M a' x' y' z' n.
Proof.
  intros Ha Hx Hy Hz. unfold vpole. rewrite <- Hx, <- Hy by lia. intros <-. f_equal. apply bsum_ext. intros k Hk. rewrite Ha by exact Hk. f_equal.
  unfold hist. destruct (k <? n)%nat eqn:E; b2p; [symmetry; apply Hy; lia|]. symmetry. apply Hz. lia.
Qed.
Lemma vpolet_ext M a a' (x x' y : nat -> R) n : (forall m k, (m < n)%nat -> (k < M)%nat -> a m k = a' m k) -> x n = x' n ->
  vpolet M a x y n -> vpolet M a' x' y n.
Proof.
  intros Ha Hx. unfold vpolet. rewrite <- Hx. intros <-. f_equal. apply bsum_ext. intros k Hk. apply dly_ext. intros m Hm. rewrite Ha by lia. reflexivity.
Qed.
Lemma lpv_sol_ext fm M N N' b b' a a' (z z' x x' y y' : nat -> R) n : (1 <= M)%nat -> (n < N)%nat -> (n < N')%nat ->
  (forall m k, (m <= n)%nat -> (k <= M)%nat -> b m k = b' m k) -> (forall m k, (m <= n)%nat -> (k < M)%nat -> a m k = a' m k) ->
  (forall k, (k < M)%nat -> z k = z' k) -> (forall m, (m <= n)%nat -> x m = x' m) ->
  lpv_sol fm M N b a z x y -> lpv_sol fm M N' b' a' z' x' y' -> y n = y' n.
Proof.
  intros HM Hn Hn' Hb Ha Hz Hx. destruct fm; cbn [lpv_sol].
  - intros H H'. rewrite H, H' by assumption. apply vdf2_y_ext; auto.
  - intros H H'. rewrite H, H' by assumption. apply vtdf2_y_ext; auto; intros; f_equal; auto.
  - intros H H'. apply (vpole_unique R M a (vconv M b x) y y' (fun _ => 0) (S n)); [intros; apply H; lia| |lia].
    intros m Hm. eapply vpole_ext; [| | | |apply (H' m); lia]; auto; [intros; symmetry; apply Ha; lia|].
    apply vconv_ext; intros; symmetry; [apply Hb|apply Hx]; lia.
  - intros [w H] [w' H']. rewrite (proj2 (H n Hn)), (proj2 (H' n Hn')). apply vconvt_ext; auto. intros m Hm.
    apply (vpolet_unique R M (late R (fun n k => conj (a n k))) x w w' (S n)); [intros; apply H; lia| |lia].
    intros j Hj. eapply vpolet_ext; [| |apply (proj1 (H' j ltac:(lia)))].
    + intros l k Hl Hk. unfold late. f_equal. symmetry. apply Ha; lia.
    + symmetry. apply Hx. lia.
  - contradiction.
Qed.
Lemma unroll_good_1 N uf : unroll_good N uf -> unroll_good1 N uf.
Proof. unfold unroll_good1. destruct uf; auto. Qed.

(** The wrapper does nothing on a batched signal. *)
Lemma lpv_wrap B N nb na (b a x : ten) core bf af xf zi : vcoef B N nb b bf -> vcoef B N na a af -> is2 x B N xf ->
  lpv_lfilter_wrap core b a x zi = core b a x zi.
Proof.
  intros Hb Ha Hx. unfold lpv_lfilter_wrap. destruct (vcoef_size _ _ _ _ _ _ Hb) as (_ & Rb & _), (vcoef_size _ _ _ _ _ _ Ha) as (_ & Ra & _).
  rewrite Rb, Ra. assert (rk x = 2%nat) as -> by (unfold rk; now rewrite (proj1 Hx)). cbn [Nat.eqb andb]. change (2 <? 2)%nat with false. cbn [bind].
  destruct (core b a x zi) as [[y z]|]; reflexivity.
Qed.

Section Forms.
Variables (e : env) (pr : bool) (B N nb na M : nat) (b a x : ten) (bf af : nat -> nat -> nat -> R) (xf : nat -> nat -> R) (uf : option nat).
Hypotheses (HB : (1 <= B)%nat) (HN : (1 <= N)%nat) (Hnb : (1 <= nb)%nat) (EM : M = Nat.max na (nb - 1)) (HM : (1 <= M)%nat)
  (He : lpv_backend_ok e pr M)
  (Hb : vcoef B N nb b bf) (Ha : vcoef B N na a af) (Hx : is2 x B N xf) (Hu : unroll_good N uf).

Lemma lpv_lfilter_ssm_spec fm zi z0 : init B M zi z0 -> fm <> OtherForm ->
  (has_state fm = true -> rk b = 2 /\ rk a = 2 \/ B <> N)%nat ->
  exists y zf yf, lpv_lfilter e pr b a x zi fm Ssm uf = Ok (y, zf) /\ is2 y B N yf /\
    forall i, (i < B)%nat -> lpv_sol fm M N (fun n => padz nb (bf i n)) (fun n => padz na (af i n)) (z0 i) (xf i) (yf i).
Proof.
  intros Hz Hfm HBN. unfold lpv_lfilter. rewrite (lpv_wrap B N nb na b a x _ bf af xf zi Hb Ha Hx).
  destruct fm; [..|congruence].
  - destruct (lpv_ssm_df2_spec R e pr B N nb na M b a x bf af xf uf HB HN Hnb EM HM He Hb Ha Hx zi z0 Hz Hu (HBN eq_refl)) as (y & zf & E & Hy & _).
    do 3 eexists. split; [exact E|]. split; [exact Hy|]. intros i Hi n Hn. reflexivity.
  - destruct (lpv_ssm_tdf2_spec R e pr B N nb na M b a x bf af xf uf HB HN Hnb EM HM He Hb Ha Hx zi z0 Hz Hu) as (y & zf & E & Hy & _).
    { destruct (HBN eq_refl) as [[? ?]|?]; auto. }
    do 3 eexists. split; [exact E|]. split; [exact Hy|]. intros i Hi n Hn.
    reflexivity.
  - destruct (lpv_ssm_df1_spec R e pr B N nb na M b a x bf af xf uf HB HN Hnb EM HM He Hb Ha Hx zi (unroll_good_1 _ _ Hu)) as (y & E & yf & Hy & H).
    exists y, None, yf. split; [exact E|]. split; [exact Hy|]. intros i Hi n Hn. now apply H.
  - destruct (lpv_ssm_tdf1_spec R e pr B N nb na M b a x bf af xf uf HB HN Hnb EM HM He Hb Ha Hx zi (unroll_good_1 _ _ Hu)) as (y & E & yf & wf & Hy & H).
    exists y, None, yf. split; [exact E|]. split; [exact Hy|]. intros i Hi. exists (wf i). intros n Hn.
    exact (H i n Hi Hn).
Qed.
End Forms.
End S.
