(** Rounding errors of the direct forms of lfilter (philtorch/lti/filtering.py:211-333). *)
From Coq Require Import List Arith Lia ZArith Bool Ring.
From Verif Require Import Scalar Ordered Spec SpecRound SpecFilter Tensor TensorLemmas TensorOps TensorAlg TensorTac TensorList Shapes Algebra M_Mat P_Mat
  M_Kernels M_LtiRecur M_LtiSsm P_Kernels P_LtiSsm P_SsSpec P_Filter M_LtiFilter P_LtiFilter P_Round P_Round5 P_Round6.
Import ListNotations.
Open Scope cr_scope.

Section S.
Variable F : ofield.
Add Ring Rr7 : (r_th F).
Variables (u : F) (fadd fmul fsub : F -> F -> F).
Hypothesis HR : rounds u fadd fmul fsub.
Notation Fl := (flops F fadd fmul fsub).
Notation ten := (tensor (car Fl)).
Notation bnd := (bnd F u).
Let Hu : ole (0 : F) u = true := rd_u _ _ _ _ HR.
Let bmono := bnd_mono F u Hu.
Let bcomp := bnd_comp F u fadd fmul fsub HR.
Notation ab f := (fun k => oabs (f k)).
Notation nab f := (fun k => - oabs (f k)).

Section Forms.
Variables (e : env) (B N nb na M : nat) (b a x : ten) (bf af xf : nat -> nat -> F) (uf : option nat).
Hypotheses (HB : (1 <= B)%nat) (HN : (1 <= N)%nat) (Hnb : (1 <= nb)%nat) (EM : M = Nat.max na (nb - 1)) (HM : (1 <= M)%nat)
  (He : backend_ok e M) (Huf : unroll_ok uf)
  (Hb : fcoef (R := F) B nb b bf) (Ha : fcoef (R := F) B na a af) (Hx : is2 x B N xf).
Let bp i := padz nb (bf i).
Let ap i := padz na (af i).

Lemma f_pad_b : exists b' : ten, (if (nb <? na + 1)%nat then pad (rk b - 1) 0 (na + 1 - nb) (@r0 Fl) b else b) = b' /\ fcoef (R := F) B (S M) b' bp.
Proof. exact (pad_b F B N nb na M b bf HB HN Hnb EM HM Hb). Qed.
Lemma f_pad_a : exists a' : ten, (if (na + 1 <? nb)%nat then pad (rk a - 1) 0 (nb - na - 1) (@r0 Fl) a else a) = a' /\ fcoef (R := F) B M a' ap.
Proof. exact (pad_a F B N nb na M a af HB HN Hnb EM HM Ha). Qed.

Lemma f_size_b : sizen b 1 = nb. Proof. exact (proj1 (fcoef_size F _ _ _ _ Hb)). Qed.
Lemma f_size_a : sizen a 1 = na. Proof. exact (proj1 (fcoef_size F _ _ _ _ Ha)). Qed.

Lemma df2_bnd zi (z0 : nat -> nat -> F) : init (R := Fl) B M zi z0 ->
  exists (y : ten) zf (yv : nat -> nat -> F), ssm_lfilter e Df2 uf b a x zi = Ok (y, zf) /\ is2 y B N yv /\
    (forall i n, (i < B)%nat -> (n < N)%nat ->
      bnd (2 * M * n + M + 4) (yv i n) (df2_y M (bp i) (ap i) (z0 i) (xf i) n) (df2_y M (ab (bp i)) (nab (ap i)) (ab (z0 i)) (ab (xf i)) n)) /\
    match zi with
    | None => zf = None
    | Some _ => exists (z : ten) (zv : nat -> nat -> F), zf = Some z /\ is2 z B M zv /\
        forall i k, (i < B)%nat -> (k < M)%nat -> bnd (2 * M * N + 3) (zv i k) (df2_z M (ap i) (z0 i) (xf i) N k) (df2_z M (nab (ap i)) (ab (z0 i)) (ab (xf i)) N k)
    end.
Proof.
  intro Hz. unfold ssm_lfilter.
  rewrite f_size_b, f_size_a.
  destruct f_pad_b as (b' & -> & Hb'). destruct f_pad_a as (a' & -> & Ha').
  destruct (f_companion F fadd fmul fsub B M a' ap Ha') as (A & -> & _ & HA & _). cbn [bind].
  destruct (f_diff F fadd fmul fsub B M b' a' bp ap Hb' Ha') as (C & EC & HC).
  unfold bind in EC |- *. destruct (tmul _ a') as [t|]; [|discriminate]. rewrite EC.
  destruct (f_head F fadd fmul fsub B M b' bp Hb') as (D & -> & HD & _).
  destruct (state_space_bnd F u fadd fmul fsub HR e B N M None None A x None (Some C) (Some D) zi uf None (fun i => compm F (ap i))
    (fun i n _ => xf i n) (fun _ i _ => if (i =? 0)%nat then 1 else 0) (fun i _ m => fsub (bp i (S m)) (fmul (bp i 0%nat) (ap i m)))
    (fun i _ _ => bp i 0%nat) z0) as (y & zf & yv & E & Hy & Rb & Hzf); auto.
  { apply in_none2. intros i m k Hi Hm Hk. unfold unit3. now replace k with 0%nat by lia. }
  { now apply (f_out F fadd fmul fsub B M C (fun i m => fsub (bp i (S m)) (fmul (bp i 0%nat) (ap i m)))). }
  exists y, zf, (fun i n => yv i n 0%nat). split; [exact E|]. split; [exact Hy|]. split.
  - intros i n Hi Hn. apply (bmono (2 * M * n + M + 1 + 1 + 2)%nat); [lia|].
    apply (df2_y_bnd F u fadd fmul fsub HR M _ _ (bp i) (ap i) (z0 i) (xf i) n HM). exact (Rb i n 0%nat Hi Hn (le_n 1)).
  - destruct zi; [|exact Hzf]. destruct Hzf as (z & zv & -> & Hzz & Rz). exists z, zv. split; [reflexivity|]. split; [exact Hzz|].
    intros i k Hi Hk. apply (bmono (2 * M * N + 1)%nat); [lia|]. apply df2_z_bnd; [exact Hk|]. exact (Rz i k Hi Hk).
Qed.
Lemma tdf2_bnd zi (z0 : nat -> nat -> F) : init (R := Fl) B M zi z0 ->
  exists (y : ten) zf (yv : nat -> nat -> F), ssm_lfilter e Tdf2 uf b a x zi = Ok (y, zf) /\ is2 y B N yv /\
    (forall i n, (i < B)%nat -> (n < N)%nat ->
      bnd (2 * M * n + M + 4) (yv i n) (tdf2_y M (bp i) (ap i) (z0 i) (xf i) n) (tdf2_y M (ab (bp i)) (nab (ap i)) (ab (z0 i)) (ab (xf i)) n)) /\
    match zi with
    | None => zf = None
    | Some _ => exists (z : ten) (zv : nat -> nat -> F), zf = Some z /\ is2 z B M zv /\
        forall i k, (i < B)%nat -> (k < M)%nat -> bnd (2 * M * N + 3) (zv i k) (tdf2_z M (bp i) (ap i) (z0 i) (xf i) N k) (tdf2_z M (ab (bp i)) (nab (ap i)) (ab (z0 i)) (ab (xf i)) N k)
    end.
Proof.
  intro Hz. unfold ssm_lfilter.
  rewrite f_size_b, f_size_a.
  destruct f_pad_b as (b' & -> & Hb'). destruct f_pad_a as (a' & -> & Ha').
  destruct (f_companion F fadd fmul fsub B M a' ap Ha') as (A & -> & _ & _ & HA). cbn [bind].
  destruct (f_diff F fadd fmul fsub B M b' a' bp ap Hb' Ha') as (C & EC & HC).
  unfold bind in EC |- *. destruct (tmul _ a') as [t|]; [|discriminate]. rewrite EC.
  destruct (f_head F fadd fmul fsub B M b' bp Hb') as (D & -> & _ & HD).
  destruct (state_space_bnd F u fadd fmul fsub HR e B N M None None (tconj (mT A)) x (Some (tconj C)) None (Some (tconj D)) zi uf (Some 0%Z) (fun i => comph F (ap i))
    (fun i n _ => xf i n) (fun i m _ => fsub (bp i (S m)) (fmul (bp i 0%nat) (ap i m))) (fun i _ m => unit3 0 0 m)
    (fun i _ _ => bp i 0%nat) z0) as (y & zf & yv & E & Hy & Rb & Hzf); auto.
  { apply (f_in F fadd fmul fsub B M (tconj C) (fun i m => fsub (bp i (S m)) (fmul (bp i 0%nat) (ap i m)))). now apply f_conj. }
  { apply (out_idx Fl B M 0%Z 0%nat); [now apply (pyidx_nat M 0)|]. intros i p m Hi Hp Hm. reflexivity. }
  exists y, zf, (fun i n => yv i n 0%nat). split; [exact E|]. split; [exact Hy|]. split.
  - intros i n Hi Hn. apply (bmono (2 * M * n + M + 1 + 1 + 2)%nat); [lia|].
    apply (tdf2_y_bnd F u fadd fmul fsub HR M _ _ (bp i) (ap i) (z0 i) (xf i) n HM). exact (Rb i n 0%nat Hi Hn (le_n 1)).
  - destruct zi; [|exact Hzf]. destruct Hzf as (z & zv & -> & Hzz & Rz). exists z, zv. split; [reflexivity|]. split; [exact Hzz|].
    intros i k Hi Hk. apply (bmono (2 * M * N + 1 + 2)%nat); [lia|]. apply (tdf2_z_bnd F u fadd fmul fsub HR); [exact Hk|]. exact (Rz i k Hi Hk).
Qed.

(** The all-pole recursion on a drive that carries [c] roundings. *)
Definition imp0 (w : nat -> F) (n m : nat) : F := if (m =? 0)%nat then w n else 0.
Lemma rec_bnd c k v (A : nat -> nat -> F) (wv we wm : nat -> F) n i : (i < M)%nat ->
  (forall m, (m < n)%nat -> bnd c (wv m) (we m) (wm m)) ->
  bnd k v (state M (fun _ => A) (fun _ => 0) (imp0 wv) n i) (state_abs M (fun _ => A) (fun _ => 0) (imp0 wv) n i) ->
  bnd (k + c) v (state M (fun _ => A) (fun _ => 0) (imp0 we) n i) (state M (fun _ i j => oabs (A i j)) (fun _ => 0) (imp0 wm) n i).
Proof.
  intros Hi Hw H.
  assert (X1 : forall k i j, (k < n)%nat -> (i < M)%nat -> (j < M)%nat -> bnd 0 (A i j) (A i j) (oabs (A i j))) by (intros; apply bnd_leaf).
  assert (X2 : forall i, (i < M)%nat -> bnd c 0 0 0) by (intros; apply bnd_0).
  assert (X3 : forall k i, (k < n)%nat -> (i < M)%nat -> bnd c (imp0 wv k i) (imp0 we k i) (imp0 wm k i)).
  { intros k' i' Hk' Hi'. unfold imp0. destruct (i' =? 0)%nat; [now apply Hw|apply bnd_0]. }
  pose proof (state_pert F u fadd fmul fsub HR M 0 c c (fun _ => A) (fun _ => A) (fun _ i j => oabs (A i j)) (fun _ => 0) (fun _ => 0) (fun _ => 0) _ _ _ n ltac:(lia) X1 X2 X3 i Hi) as Y1.
  destruct (state_mag F u fadd fmul fsub HR M 0 c c (fun _ => A) (fun _ => A) (fun _ i j => oabs (A i j)) (fun _ => 0) (fun _ => 0) (fun _ => 0) _ _ _ n ltac:(lia) X1 X2 X3 i Hi) as [_ Y2].
  cbn [Nat.mul] in Y1, Y2. rewrite Nat.add_0_r in Y1, Y2. eapply bcomp; [exact H|exact Y1|exact Y2].
Qed.
Lemma state_mat_ext (A A' : nat -> nat -> F) h x' n i : (forall i j, A i j = A' i j) -> (i < M)%nat ->
  state M (fun _ => A) h x' n i = state M (fun _ => A') h x' n i.
Proof. intros H Hi. apply state_ext; auto. Qed.

Lemma df1_bnd zi :
  exists (y : ten) (yv ye ym : nat -> nat -> F), ssm_lfilter e Df1 uf b a x zi = Ok (y, None) /\ is2 y B N yv /\
    forall i, (i < B)%nat -> (forall n, (n < N)%nat -> bnd (2 * M * S n + S M) (yv i n) (ye i n) (ym i n)) /\
      (forall n, solves_filter M M (bp i) (ap i) (xf i) (ye i) n) /\
      (forall n, solves_filter M M (ab (bp i)) (nab (ap i)) (ab (xf i)) (ym i) n).
Proof.
  unfold ssm_lfilter.
  rewrite f_size_b, f_size_a.
  destruct f_pad_b as (b' & -> & Hb'). destruct f_pad_a as (a' & -> & Ha').
  destruct (f_companion F fadd fmul fsub B M a' ap Ha') as (A & -> & ES & HA & _). cbn [bind].
  rewrite ES. assert (sizen b' 1 = S M) as -> by exact (proj1 (fcoef_size F _ _ _ _ Hb')).
  replace (size x 0) with B by (unfold size; now rewrite (proj1 Hx)).
  assert (exists bb : ten, expand [B; S M] b' = Ok bb /\ is2 bb B (S M) bp) as (bb & -> & Hbb) by exact (fcoef_expand F _ _ _ _ Hb'). cbn [bind].
  destruct (fir_none_bnd F u fadd fmul fsub HR B N M bb x bp xf true Hbb Hx HN (fun _ => HM)) as (w & wv & -> & Hw & Rw). cbn [bind].
  destruct (ssr_bnd F u fadd fmul fsub HR e B N M A (zeros [B; M]) w (fun i => compm F (ap i)) (fun _ _ => 0) (fun i => imp0 (wv i))
    (match uf with Some k => k | None => 1%nat end) (Some 0%Z)) as (y & yf & E & Hy & Ry); auto.
  { now apply backend_helion. }
  { unfold unroll_ok in Huf. destruct uf; auto. }
  { pose proof (P1_full [B] M (@r0 Fl)) as H. apply is2_P1. fin H; auto. }
  { eapply drive_2; [exact Hw|]. intros. reflexivity. }
  { exists 0%nat. now apply (pyidx_nat M 0). }
  rewrite E. cbn [bind]. specialize (Hy 0%nat (pyidx_nat M 0 ltac:(lia))).
  exists y, (fun i n => yf i n 0%nat), (fun i n => state M (fun _ => compm F (ap i)) (fun _ => 0) (imp0 (conv M (bp i) (xf i))) (S n) 0%nat),
    (fun i n => state M (fun _ => compm F (nab (ap i))) (fun _ => 0) (imp0 (conv M (ab (bp i)) (ab (xf i)))) (S n) 0%nat).
  split; [reflexivity|]. split; [exact Hy|]. intros i Hi. split; [|split].
  - intros n Hn. rewrite <- (state_mat_ext (fun i' j => oabs (compm F (ap i) i' j)) (compm F (nab (ap i)))) by (auto; apply compm_abs).
    apply (rec_bnd (S M) _ _ _ (wv i)); [lia| |now apply Ry]. intros m Hm. apply Rw; lia.
  - intro n. exact (allpole_df1 F M (ap i) (conv M (bp i) (xf i)) (fun _ => 0) (imp0 (conv M (bp i) (xf i))) n HM (fun _ _ _ => eq_refl) (fun _ _ => eq_refl)).
  - intro n. exact (allpole_df1 F M (nab (ap i)) (conv M (ab (bp i)) (ab (xf i))) (fun _ => 0) (imp0 (conv M (ab (bp i)) (ab (xf i)))) n HM (fun _ _ _ => eq_refl) (fun _ _ => eq_refl)).
Qed.
Lemma tdf1_bnd zi :
  exists (y : ten) (yv ye ym : nat -> nat -> F), ssm_lfilter e Tdf1 uf b a x zi = Ok (y, None) /\ is2 y B N yv /\
    forall i, (i < B)%nat -> (forall n, (n < N)%nat -> bnd (2 * M * S n + S M) (yv i n) (ye i n) (ym i n)) /\
      (forall n, solves_filter M M (bp i) (ap i) (xf i) (ye i) n) /\
      (forall n, solves_filter M M (ab (bp i)) (nab (ap i)) (ab (xf i)) (ym i) n).
Proof.
  unfold ssm_lfilter.
  rewrite f_size_b, f_size_a.
  destruct f_pad_b as (b' & -> & Hb'). destruct f_pad_a as (a' & -> & Ha').
  destruct (f_companion F fadd fmul fsub B M a' ap Ha') as (A & -> & ES & _ & HA). cbn [bind].
  rewrite ES. assert (sizen b' 1 = S M) as -> by exact (proj1 (fcoef_size F _ _ _ _ Hb')).
  replace (size x 0) with B by (unfold size; now rewrite (proj1 Hx)).
  assert (exists bb : ten, expand [B; S M] (tconj b') = Ok bb /\ is2 bb B (S M) bp) as (bb & -> & Hbb)
    by exact (fcoef_expand F _ _ _ _ (f_conj F fadd fmul fsub _ _ _ _ Hb')). cbn [bind].
  destruct (ssr_bnd F u fadd fmul fsub HR e B N M (tconj (mT A)) (zeros [B; M]) x (fun i => comph F (ap i)) (fun _ _ => 0) (fun i => imp0 (xf i))
    (match uf with Some k => k | None => 1%nat end) (Some 0%Z)) as (w & wf & E & Hw & Rw); auto.
  { now apply backend_helion. }
  { unfold unroll_ok in Huf. destruct uf; auto. }
  { pose proof (P1_full [B] M (@r0 Fl)) as H. apply is2_P1. fin H; auto. }
  { eapply drive_2; [exact Hx|]. intros. reflexivity. }
  { exists 0%nat. now apply (pyidx_nat M 0). }
  rewrite E. cbn [bind]. specialize (Hw 0%nat (pyidx_nat M 0 ltac:(lia))).
  destruct (r_fir_transposed_none Fl B N M bb w bp _ Hbb Hw HM) as (y & -> & Hy).
  set (W := fun (a x : nat -> F) n => state M (fun _ => comph F a) (fun _ => 0) (imp0 x) (S n) 0%nat).
  eexists y, _, (fun i n => conv M (bp i) (W (ap i) (xf i)) n), (fun i n => conv M (ab (bp i)) (W (nab (ap i)) (ab (xf i))) n).
  split; [reflexivity|]. split; [exact Hy|]. intros i Hi.
  assert (HW : forall a x n, W a x n + bsum M (fun k => a k * dly (W a x) (S k) n) = x n).
  { intros a0 x0 n. exact (allpole_tdf1 F M a0 x0 (fun _ => 0) (imp0 x0) n HM (fun _ _ _ => eq_refl) (fun _ _ => eq_refl)). }
  split; [|split].
  - intros n Hn. cbn beta. rewrite <- !(rconvt_head F M N) by exact Hn.
    apply (rconvt_bnd F u fadd fmul fsub HR M N (2 * M * S n)). intros m Hm Hm'. unfold W.
    rewrite <- (state_mat_ext (fun i' j => oabs (comph F (ap i) i' j)) (comph F (nab (ap i)))) by (auto; apply comph_abs).
    apply (bmono (2 * M * S m + 0)%nat); [nia|].
    apply (rec_bnd 0 _ _ _ (xf i)); [lia| |now apply Rw]. intros. apply bnd_leaf.
  - intro n. apply (fir_of_allpole F M M (bp i) (ap i) (xf i) (W (ap i) (xf i)) _ (S n)); [intros; apply HW|intros; reflexivity|lia].
  - intro n. apply (fir_of_allpole F M M (ab (bp i)) (nab (ap i)) (ab (xf i)) (W (nab (ap i)) (ab (xf i))) _ (S n)); [intros; apply HW|intros; reflexivity|lia].
Qed.
Lemma f_lfilter_2d fm zi : lfilter_ssm e b a x zi fm uf = ssm_lfilter e fm uf b a x zi.
Proof.
  unfold lfilter_ssm, lfilter_wrap. rkt. cbn [Nat.eqb Nat.ltb Nat.leb andb bind].
  assert ((rk b =? 1) || (rk b =? 2) = true)%nat as -> by exact (proj1 (proj2 (fcoef_size F _ _ _ _ Hb))).
  assert ((rk a =? 1) || (rk a =? 2) = true)%nat as -> by exact (proj1 (proj2 (fcoef_size F _ _ _ _ Ha))).
  destruct (ssm_lfilter e fm uf b a x zi) as [(y & zf)|]; reflexivity.
Qed.
End Forms.
End S.
