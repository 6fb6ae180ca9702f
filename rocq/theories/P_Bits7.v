(** The second direct forms of lpv.lfilter and lti.lfilter without unrolling, operation by
    operation (philtorch/lpv/filtering.py:288-332, philtorch/lti/filtering.py:229-333). *)
From Coq Require Import List Arith Lia ZArith Bool.
From Verif Require Import Scalar Ordered Spec SpecRound SpecFilter SpecLpv Tensor TensorLemmas TensorOps TensorAlg TensorTac TensorList Shapes SpecBits SpecBits2 SpecBits3
  Algebra M_Mat P_Mat M_Kernels M_LtiSsm P_Kernels P_LtiSsm P_Filter M_LtiFilter P_LtiFilter M_Ext M_LpvSsm P_LpvSsm P_LpvSs M_LpvFilter P_LpvFilter
  P_Round P_Round5 P_Round6 P_Round7 P_Round8 P_Round9 P_Round10 P_Round11 P_Bits P_Bits2 P_Bits3 P_Bits4 P_Bits5 P_Bits6.
Import ListNotations.
Open Scope cr_scope.
Open Scope nat_scope.

Section S.
Variable F : ofield.
Variables (fadd fmul fsub : F -> F -> F).
Hypothesis mulC : forall u v : F, fmul u v = fmul v u.
Notation Fl := (flops F fadd fmul fsub).
Notation ten := (tensor (car Fl)).
Notation fh := (form_h F fadd fmul fsub).
Notation fy := (form_y F fadd fmul fsub).

(** ** The operations *)
Lemma fh_ext fm M (b b' a a' : nat -> nat -> F) (z z' x x' : nat -> F) n :
  (forall m k, m < n -> b m k = b' m k) -> (forall m k, m < n -> a m k = a' m k) ->
  (forall i, i < M -> z i = z' i) -> (forall m, m < n -> x m = x' m) ->
  forall i, i < M -> fh fm M b a z x n i = fh fm M b' a' z' x' n i.
Proof.
  intros Hb Ha Hz. induction n as [|n IH]; intros Hx i Hi; cbn [form_h]; [auto|]. f_equal.
  - unfold form_u. destruct fm; rewrite ?Hx, ?Ha, ?Hb by lia; reflexivity.
  - apply (bsum_ext (R := Fl)). intros j Hj. f_equal.
    + unfold form_a. destruct fm; rewrite Ha by lia; reflexivity.
    + apply IH; auto.
Qed.
Lemma fy_ext fm M (b b' a a' : nat -> nat -> F) (z z' x x' : nat -> F) n : 1 <= M ->
  (forall m k, m <= n -> b m k = b' m k) -> (forall m k, m <= n -> a m k = a' m k) ->
  (forall i, i < M -> z i = z' i) -> (forall m, m <= n -> x m = x' m) ->
  fy fm M b a z x n = fy fm M b' a' z' x' n.
Proof.
  intros HM Hb Ha Hz Hx. unfold form_y. rewrite Hb, Hx by lia. f_equal.
  assert (H : forall i, i < M -> fh fm M b a z x n i = fh fm M b' a' z' x' n i) by (apply fh_ext; auto with arith).
  destruct fm; auto; apply (bsum_ext (R := Fl)); intros j Hj; now rewrite H, !Hb, Ha by lia.
Qed.
Lemma fh_add fm M (b a : nat -> nat -> F) (z x : nat -> F) m n :
  fh fm M b a z x (m + n) = fh fm M (fun k => b (m + k)) (fun k => a (m + k)) (fh fm M b a z x m) (fun k => x (m + k)) n.
Proof. induction n as [|n IH]; [now rewrite Nat.add_0_r|]. rewrite Nat.add_succ_r. cbn [form_h]. now rewrite IH. Qed.
Lemma fy_add fm M (b a : nat -> nat -> F) (z x : nat -> F) m n :
  fy fm M b a z x (m + n) = fy fm M (fun k => b (m + k)) (fun k => a (m + k)) (fh fm M b a z x m) (fun k => x (m + k)) n.
Proof. unfold form_y. now rewrite fh_add. Qed.

(** They are those of the state-space models. *)
Lemma fh_df2 M (b a : nat -> nat -> F) (z x : nat -> F) n :
  fh Df2 M b a z x n = vstate (R := Fl) M (fun n => compm F (a n)) z (fun n m => if m =? 0 then x n else 0%cr) n.
Proof. induction n as [|n IH]; [reflexivity|]. cbn [form_h vstate]. now rewrite IH. Qed.
Lemma fh_tdf2 M (b a : nat -> nat -> F) (z x : nat -> F) n :
  fh Tdf2 M b a z x n = vstate (R := Fl) M (fun n => comph F (a n)) z (fun n m => fmul (fsub (b n (S m)) (fmul (b n 0) (a n m))) (x n)) n.
Proof. induction n as [|n IH]; [reflexivity|]. cbn [form_h vstate]. now rewrite IH. Qed.

Section Forms.
Variables (B N nb na M : nat) (x : ten) (xf : nat -> nat -> F).
Hypotheses (HB : 1 <= B) (HN : 1 <= N) (Hnb : 1 <= nb) (EM : M = Nat.max na (nb - 1)) (HM : 1 <= M) (Hx : is2 x B N xf).
Let P1 (i n k : nat) (f : nat -> nat -> nat -> F) := padz nb (f i n) k.

(** ** lpv.lfilter *)
Lemma vform_exact e pr (b a : ten) (bf af : nat -> nat -> nat -> F) fm zi (z0 : nat -> nat -> F) :
  sequentialv e pr M -> vcoef (R := F) B N nb b bf -> vcoef (R := F) B N na a af ->
  init (R := Fl) B M zi z0 -> second_form fm -> shapes_ok fm B N (rk b) (rk a) ->
  exists y zf, lpv_lfilter e pr b a x zi fm Ssm (Some 1) = Ok (y, zf) /\
    is2 y B N (fun i => fy fm M (fun n => padz nb (bf i n)) (fun n => padz na (af i n)) (z0 i) (xf i)) /\
    match zi with
    | None => zf = None
    | Some _ => exists z, zf = Some z /\ is2 z B M (fun i => fh fm M (fun n => padz nb (bf i n)) (fun n => padz na (af i n)) (z0 i) (xf i) N)
    end.
Proof.
  intros He Hb Ha Hz Hfm HBN.
  rewrite (fv_lfilter_2d F fadd fmul fsub e pr B N nb na b a x bf af xf (Some 1) Hb Ha Hx fm zi). unfold lpv_ssm_lfilter.
  rewrite (fv_size_b F fadd fmul fsub B N nb b bf Hb), (fv_size_a F fadd fmul fsub B N na a af Ha).
  destruct (fv_pad_b F fadd fmul fsub B N nb na M b bf HB HN Hnb EM HM Hb) as (b' & -> & Hb' & Rkb).
  destruct (fv_pad_a F fadd fmul fsub B N nb na M a af HB HN Hnb EM HM Ha) as (a' & -> & Ha' & Rka).
  destruct (fv_companion F fadd fmul fsub B N M a' _ Ha') as (A & -> & _ & HA & HAt). cbn [bind].
  destruct (fv_diff F fadd fmul fsub B N M b' a' _ _ Hb' Ha') as (C & EC & HC & RC).
  unfold bind in EC |- *. destruct (tmul _ a') as [t|]; [|discriminate].
  destruct Hfm as [-> | ->]; rewrite EC; cbn [shapes_ok] in HBN.
  - destruct (fv_head F fadd fmul fsub B N M b' _ Hb') as (D & -> & HD & _); [lia|].
    destruct (lpv_exact Fl mulC (fun _ => eq_refl) e pr B N M None None A x None (Some C) (Some D) zi None
      (fun i n => compm F (padz na (af i n))) (fun b _ => unit3 (R := Fl) b)
      (fun i n _ m => fsub (padz nb (bf i n) (S m)) (fmul (padz nb (bf i n) 0) (padz na (af i n) m))) (fun i n _ _ => padz nb (bf i n) 0)
      (fun i n _ => xf i n) z0 HM HN He) as (y & zf & E & Hy & Hf).
    { split; [exact HA|]. split; [apply inv_none2; repeat intro; reflexivity|]. split; [|exact HD].
      apply (fv_out F fadd fmul fsub B N M C (fun i n m => fsub (padz nb (bf i n) (S m)) (fmul (padz nb (bf i n) 0) (padz na (af i n) m))) HC). lia. }
    { exact Hx. } { exact Hz. }
    exists y, zf. split; [exact E|]. split.
    + cbn [sigv] in Hy. eapply is2_ext; [exact Hy|]. intros i n Hi Hn. unfold form_y. rewrite fh_df2. reflexivity.
    + destruct zi; [|exact Hf]. destruct Hf as (z & -> & Hf). exists z. split; [reflexivity|]. eapply is2_ext; [exact Hf|].
      intros i k Hi Hk. cbn beta. rewrite fh_df2. reflexivity.
  - destruct (fv_head F fadd fmul fsub B N M b' _ Hb') as (D & -> & _ & HD); [lia|].
    destruct (lpv_exact Fl mulC (fun _ => eq_refl) e pr B N M None None (tconj (R := Fl) (mT A)) x (Some (tconj (R := Fl) C)) None (Some (tconj (R := Fl) D)) zi (Some 0%Z)
      (fun i n => comph F (padz na (af i n))) (fun i n m _ => fsub (padz nb (bf i n) (S m)) (fmul (padz nb (bf i n) 0) (padz na (af i n) m)))
      (fun i _ _ m => unit3 (R := Fl) 0 0 m) (fun i n _ _ => padz nb (bf i n) 0)
      (fun i n _ => xf i n) z0 HM HN He) as (y & zf & E & Hy & Hf).
    { split; [exact HAt|]. split; [|split; [|exact HD]].
      - apply (fv_in F fadd fmul fsub B N M (tconj (R := Fl) C) (fun i n m => fsub (padz nb (bf i n) (S m)) (fmul (padz nb (bf i n) 0) (padz na (af i n) m)))).
        now apply fv_conj.
      - apply (outv_idx Fl B N M 0%Z 0); [now apply (pyidx_nat M 0)|]. repeat intro; reflexivity. }
    { exact Hx. } { exact Hz. }
    exists y, zf. split; [exact E|]. split.
    + cbn [sigv] in Hy. eapply is2_ext; [exact Hy|]. intros i n Hi Hn. unfold form_y. rewrite fh_tdf2. cbn beta.
      unfold y_at, out_at. cbn [hasb]. rewrite (pyidx_nat M 0 ltac:(lia) : pyidx M 0 = Some 0). reflexivity.
    + destruct zi; [|exact Hf]. destruct Hf as (z & -> & Hf). exists z. split; [reflexivity|]. eapply is2_ext; [exact Hf|].
      intros i k Hi Hk. cbn beta. rewrite fh_tdf2. reflexivity.
Qed.

(** ** lti.lfilter *)
Lemma form_exact e (b a : ten) (bf af : nat -> nat -> F) fm zi (z0 : nat -> nat -> F) :
  sequential e M -> fcoef (R := F) B nb b bf -> fcoef (R := F) B na a af ->
  init (R := Fl) B M zi z0 -> second_form fm ->
  exists y zf, lfilter_ssm e b a x zi fm (Some 1) = Ok (y, zf) /\
    is2 y B N (fun i => fy fm M (fun n => padz nb (bf i)) (fun n => padz na (af i)) (z0 i) (xf i)) /\
    match zi with
    | None => zf = None
    | Some _ => exists z, zf = Some z /\ is2 z B M (fun i => fh fm M (fun n => padz nb (bf i)) (fun n => padz na (af i)) (z0 i) (xf i) N)
    end.
Proof.
  intros He Hb Ha Hz Hfm.
  assert (EQ : lfilter_ssm e b a x zi fm (Some 1) = ssm_lfilter e fm (Some 1) b a x zi)
    by exact (f_lfilter_2d F fadd fmul fsub e B N nb na b a x bf af xf (Some 1) Hb Ha Hx fm zi).
  rewrite EQ. clear EQ.
  unfold ssm_lfilter. rewrite (f_size_b F fadd fmul fsub B nb b bf Hb), (f_size_a F fadd fmul fsub B na a af Ha).
  destruct (f_pad_b F fadd fmul fsub B 1 nb na M b bf HB (le_n 1) Hnb EM HM Hb) as (b' & -> & Hb').
  destruct (f_pad_a F fadd fmul fsub B 1 nb na M a af HB (le_n 1) Hnb EM HM Ha) as (a' & -> & Ha').
  destruct (f_companion F fadd fmul fsub B M a' _ Ha') as (A & -> & _ & HA & HAt). cbn [bind].
  destruct (f_diff F fadd fmul fsub B M b' a' _ _ Hb' Ha') as (C & EC & HC).
  unfold bind in EC |- *. destruct (tmul _ a') as [t|]; [|discriminate].
  destruct (f_head F fadd fmul fsub B M b' _ Hb') as (D & ED & HD & HDt).
  destruct Hfm as [-> | ->]; rewrite EC, ED.
  - destruct (lti_exact Fl mulC (fun _ => eq_refl) e B N M None None A x None (Some C) (Some D) zi None
      (fun i => compm F (padz na (af i))) (fun b => unit3 (R := Fl) b)
      (fun i _ m => fsub (padz nb (bf i) (S m)) (fmul (padz nb (bf i) 0) (padz na (af i) m))) (fun i _ _ => padz nb (bf i) 0)
      (fun i n _ => xf i n) z0 HM HN He) as (y & zf & E & Hy & Hf).
    { split; [exact HA|]. split; [apply in_none2; repeat intro; reflexivity|]. split; [|exact HD].
      exact (f_out F fadd fmul fsub B M C _ HC). }
    { exact Hx. } { exact Hz. }
    exists y, zf. split; [exact E|]. split.
    + cbn [sigv] in Hy. eapply is2_ext; [exact Hy|]. intros i n Hi Hn. unfold form_y. rewrite fh_df2. reflexivity.
    + destruct zi; [|exact Hf]. destruct Hf as (z & -> & Hf). exists z. split; [reflexivity|]. eapply is2_ext; [exact Hf|].
      intros i k Hi Hk. cbn beta. rewrite fh_df2. reflexivity.
  - destruct (lti_exact Fl mulC (fun _ => eq_refl) e B N M None None (tconj (R := Fl) (mT A)) x (Some (tconj (R := Fl) C)) None (Some (tconj (R := Fl) D)) zi (Some 0%Z)
      (fun i => comph F (padz na (af i))) (fun i m _ => fsub (padz nb (bf i) (S m)) (fmul (padz nb (bf i) 0) (padz na (af i) m)))
      (fun i _ m => unit3 (R := Fl) 0 0 m) (fun i _ _ => padz nb (bf i) 0)
      (fun i n _ => xf i n) z0 HM HN He) as (y & zf & E & Hy & Hf).
    { split; [exact HAt|]. split; [|split; [|exact HDt]].
      - exact (f_in F fadd fmul fsub B M (tconj (R := Fl) C) _ (f_conj F fadd fmul fsub B M C _ HC)).
      - apply (out_idx Fl B M 0%Z 0); [now apply (pyidx_nat M 0)|]. repeat intro; reflexivity. }
    { exact Hx. } { exact Hz. }
    exists y, zf. split; [exact E|]. split.
    + cbn [sigv] in Hy. eapply is2_ext; [exact Hy|]. intros i n Hi Hn. unfold form_y. rewrite fh_tdf2. cbn beta.
      unfold y_at, out_at. cbn [hasb]. rewrite (pyidx_nat M 0 ltac:(lia) : pyidx M 0 = Some 0). reflexivity.
    + destruct zi; [|exact Hf]. destruct Hf as (z & -> & Hf). exists z. split; [reflexivity|]. eapply is2_ext; [exact Hf|].
      intros i k Hi Hk. cbn beta. rewrite fh_tdf2. reflexivity.
Qed.
End Forms.
End S.
