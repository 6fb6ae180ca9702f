(** C70: rounding errors of lpv.fir and lpv.lfilter. *)
From Coq Require Import List Arith Lia ZArith Bool Ring QArith Qcanon.
From Verif Require Import Scalar Ordered Spec SpecRound SpecFilter SpecLpv Tensor TensorLemmas Shapes Algebra M_Kernels M_LtiSsm M_LtiFilter M_Ext M_LpvSsm M_LpvFilter
  P_Kernels P_LtiSsm P_Filter P_LtiFilter P_LpvSsm P_LpvSs P_LpvAlg P_LpvFilter P_LpvFilter2 P_Round P_Round5 P_Round9 P_Round10 P_Round11 FloatQ Properties_Round Properties_Round4.
Import ListNotations.
Close Scope Qc_scope. Close Scope Q_scope. Open Scope nat_scope.

(** Output of a form of order M from rest, n < N.  Direct form I: the difference equation;
    transposed direct form I, as the state-space back-end computes it (C24): coefficient
    a[n-k,k] on w[n-1-k]. *)
Definition solves_form {R : cring} (fm : form) (M N : nat) (b a : nat -> nat -> R) (x y : nat -> R) : Prop :=
  match fm with
  | Df2 => forall n, n < N -> y n = vdf2_y M b a (fun _ => r0) x n
  | Tdf2 => forall n, n < N -> y n = vtdf2_y M b a (fun _ => r0) x n
  | Df1 => forall n, n < N -> vpole M a (vconv M b x) y (fun _ => r0) n
  | Tdf1 => exists w, forall n, n < N -> vpolet M (fun m => a (S m)) x w n /\ y n = vconvt M b w n
  | OtherForm => False
  end.
Lemma solves_form_unique (R : cring) fm M N (b a : nat -> nat -> R) x y y' : solves_form fm M N b a x y -> solves_form fm M N b a x y' ->
  forall n, n < N -> y n = y' n.
Proof.
  destruct fm; cbn [solves_form]; intros H H' n Hn.
  - now rewrite H, H'.
  - now rewrite H, H'.
  - now apply (vpole_unique R M a (vconv M b x) y y' (fun _ => r0) N).
  - destruct H as [w H], H' as [w' H']. rewrite (proj2 (H n Hn)), (proj2 (H' n Hn)). apply vconvt_ext; auto. intros m Hm.
    apply (vpolet_unique R M (fun m => a (S m)) x w w' N); try lia; intros j Hj; [apply H|apply H']; exact Hj.
  - contradiction.
Qed.
Lemma solves_form_exists (R : cring) fm M N (b a : nat -> nat -> R) x : fm <> OtherForm -> 1 <= M -> exists y, solves_form fm M N b a x y.
Proof.
  intros Hf HM. destruct fm; cbn [solves_form]; [eexists; reflexivity|eexists; reflexivity| | |now destruct Hf].
  - eexists. intros n _. exact (vpole_df1 R M a (vconv M b x) (fun _ => r0) (fun n i => if i =? 0 then vconv M b x n else r0) n HM (fun _ _ _ => eq_refl)).
  - eexists. eexists. intros n _. split; [|reflexivity].
    exact (vpolet_late R M a x (fun _ => r0) (fun n i => if i =? 0 then x n else r0) n HM (fun _ _ _ => eq_refl) (fun _ _ => eq_refl)).
Qed.

Section S.
Variable F : ofield.
Add Ring Rr70 : (r_th F).
Variables (u : F) (fadd fmul fsub : F -> F -> F).
Hypothesis HR : rounds u fadd fmul fsub.
Notation Fl := (flops F fadd fmul fsub).
Notation ten := (tensor (car Fl)).
Notation ab f := (fun k => oabs (f k : F)).
Notation ab2 f := (fun n k => oabs (f n k : F)).
Notation nab2 f := (fun n k => ropp (oabs (f n k : F))).

(** fir without a state: M + 1 roundings, one per tap. *)
Theorem C70_fir B N M (b x : ten) (bf : nat -> nat -> nat -> F) (xf : nat -> nat -> F) tr :
  is3 b B N (S M) bf -> is2 x B N xf -> 1 <= N -> (tr = true -> 1 <= M) ->
  exists y (yv : nat -> nat -> F), lpv_fir b x None tr = Ok (y, None) /\ is2 y B N yv /\
    forall i n, i < B -> n < N -> within u (S M) (yv i n)
      (if tr then vconvt (R := F) M (bf i) (xf i) n else vconv (R := F) M (bf i) (xf i) n)
      (if tr then vconvt (R := F) M (ab2 (bf i)) (ab (xf i)) n else vconv (R := F) M (ab2 (bf i)) (ab (xf i)) n).
Proof.
  intros Hb Hx HN HM. destruct tr.
  - destruct (vfirt_none_bnd F u fadd fmul fsub HR B N M (fun _ => 0) b x bf xf xf (fun i => ab (xf i)) Hb Hx HN (HM eq_refl)) as (y & yv & E & Hy & G).
    { intros. apply bnd_leaf. } { auto. }
    exists y, yv. split; [exact E|]. split; [exact Hy|]. intros i n Hi Hn. apply bnd_within, (G i n Hi Hn).
  - destruct (vfir_none_bnd F u fadd fmul fsub HR B N M b x bf xf Hb Hx HN) as (y & yv & E & Hy & G).
    exists y, yv. split; [exact E|]. split; [exact Hy|]. intros i n Hi Hn. apply bnd_within, (G i n Hi Hn).
Qed.
(** With past inputs: as many roundings; the new state is exact. *)
Theorem C70_fir_state B N M (b x zi : ten) (bf : nat -> nat -> nat -> F) (xf zf : nat -> nat -> F) :
  is3 b B N (S M) bf -> is2 x B N xf -> is2 zi B M zf -> 1 <= N ->
  exists y z (yv : nat -> nat -> F), lpv_fir b x (Some zi) false = Ok (y, Some z) /\ is2 y B N yv /\
    (forall i n, i < B -> n < N -> within u (S M) (yv i n)
      (vconv_with (R := F) M (bf i) (xf i) (zf i) n) (vconv_with (R := F) M (ab2 (bf i)) (ab (xf i)) (ab (zf i)) n)) /\
    is2 z B M (fun i k => hist (R := F) (xf i) (zf i) N k).
Proof.
  intros Hb Hx Hz HN. destruct (vfir_some_bnd F u fadd fmul fsub HR B N M b x zi bf xf zf Hb Hx Hz HN) as (y & z & yv & E & Hy & G & Hz').
  exists y, z, yv. split; [exact E|]. split; [exact Hy|]. split; [|exact Hz']. intros i n Hi Hn. apply bnd_within, (G i n Hi Hn).
Qed.
(** Transposed form with a state: one rounding more for adding the state. *)
Theorem C70_firt_state B N M (b x zi : ten) (bf : nat -> nat -> nat -> F) (xf zf : nat -> nat -> F) :
  is3 b B N (S M) bf -> is2 x B N xf -> is2 zi B M zf -> 1 <= N -> M <= N ->
  exists y z (yv zv : nat -> nat -> F), lpv_fir b x (Some zi) true = Ok (y, Some z) /\ is2 y B N yv /\ is2 z B M zv /\
    (forall i n, i < B -> n < N -> within u (S (S M)) (yv i n)
      (radd (vconvt (R := F) M (bf i) (xf i) n) (padz (R := F) M (zf i) n)) (radd (vconvt (R := F) M (ab2 (bf i)) (ab (xf i)) n) (padz (R := F) M (ab (zf i)) n))) /\
    (forall i k, i < B -> k < M -> within u (S M) (zv i k)
      (vtdf2_z (R := F) M (bf i) (fun _ _ => r0) (zf i) (xf i) N k) (vtdf2_z (R := F) M (ab2 (bf i)) (fun _ _ => r0) (ab (zf i)) (ab (xf i)) N k)).
Proof.
  intros Hb Hx Hz HN HMN. destruct (vfirt_some_bnd F u fadd fmul fsub HR B N M b x zi bf xf zf Hb Hx Hz HN HMN) as (y & z & yv & zv & E & Hy & Hz' & G & H).
  exists y, z, yv, zv. split; [exact E|]. split; [exact Hy|]. split; [exact Hz'|]. split; intros i n Hi Hn; apply bnd_within; [exact (G i n Hi Hn)|exact (H i n Hi Hn)].
Qed.

(** lfilter from rest, any form.  [ye]: the exact output of the form; [ym]: its output with
    coefficients |b|, -|a| on |x|. *)
Definition vform_ok (fm : form) (B N : nat) (b a : ten) uf : Prop :=
  match fm with
  | Df2 => unroll_good N uf /\ (rk b = 2 /\ rk a = 2 \/ B <> N)
  | Tdf2 => unroll_good N uf /\ (rk b = 2 \/ B <> N)
  | Df1 | Tdf1 => uf = None \/ unroll_good N uf
  | OtherForm => False
  end.
Theorem C70_lfilter e pr B N nb na M (b a x : ten) (bf af : nat -> nat -> nat -> F) (xf : nat -> nat -> F) zi uf fm :
  1 <= B -> 1 <= N -> 1 <= nb -> M = Nat.max na (nb - 1) -> 1 <= M -> lpv_backend_ok e pr M -> lpv_own e pr M -> vform_ok fm B N b a uf ->
  vcoef (R := F) B N nb b bf -> vcoef (R := F) B N na a af -> is2 x B N xf ->
  (has_state fm = true -> init (R := Fl) B M zi (fun _ _ => r0)) ->
  exists y zf (yv : nat -> nat -> F), lpv_lfilter e pr b a x zi fm Ssm uf = Ok (y, zf) /\ is2 y B N yv /\
    forall i (ye ym : nat -> F), i < B ->
      solves_form (R := F) fm M N (fun n => padz nb (bf i n)) (fun n => padz na (af i n)) (xf i) ye ->
      solves_form (R := F) fm M N (ab2 (fun n => padz (R := F) nb (bf i n))) (nab2 (fun n => padz (R := F) na (af i n))) (ab (xf i)) ym ->
      forall n, n < N -> within u (2 * M * S n + M + 2) (yv i n) (ye n) (ym n).
Proof.
  intros HB HN Hnb EM HM He Ho Hf Hb Ha Hx Hz.
  set (bp := fun i n => padz (R := F) nb (bf i n)). set (ap := fun i n => padz (R := F) na (af i n)).
  assert (K : exists y zf (yv ye0 ym0 : nat -> nat -> F), lpv_ssm_lfilter e pr fm uf b a x zi = Ok (y, zf) /\ is2 y B N yv /\
    forall i, i < B -> (forall n, n < N -> within u (2 * M * S n + M + 2) (yv i n) (ye0 i n) (ym0 i n)) /\
      solves_form (R := F) fm M N (bp i) (ap i) (xf i) (ye0 i) /\ solves_form (R := F) fm M N (ab2 (bp i)) (nab2 (ap i)) (ab (xf i)) (ym0 i)).
  { assert (Hm : forall k l v e' m', k <= l -> bnd F u k v e' m' -> within u l v e' m').
    { intros k l v e' m' Hk H. apply bnd_within. now apply (bnd_mono F u (rd_u _ _ _ _ HR) k l). }
    assert (U1 : uf = None \/ unroll_good N uf -> unroll_good1 N uf) by (intros [->|H]; [exact I|now apply unroll_good_1]).
    destruct fm; cbn [has_state vform_ok] in Hz, Hf; [| | | |contradiction]; try specialize (Hz eq_refl).
    - destruct Hf as [Hg Hbn].
      destruct (vdf2_bnd F u fadd fmul fsub HR e pr B N nb na M b a x bf af xf uf HB HN Hnb EM HM He Ho Hb Ha Hx zi _ Hz Hg Hbn) as (y & zf & yv & E & Hy & G & _).
      exists y, zf, yv, (fun i => vdf2_y (R := F) M (bp i) (ap i) (fun _ => r0) (xf i)), (fun i => vdf2_y (R := F) M (ab2 (bp i)) (nab2 (ap i)) (fun _ => r0) (ab (xf i))).
      split; [exact E|]. split; [exact Hy|]. intros i Hi. split; [|split; intros n Hn; reflexivity].
      intros n Hn. pose proof (G i n Hi Hn) as G'. cbv beta in G'. rewrite abs_0 in G'. eapply Hm; [|exact G']. nia.
    - destruct Hf as [Hg Hbn].
      destruct (vtdf2_bnd F u fadd fmul fsub HR e pr B N nb na M b a x bf af xf uf HB HN Hnb EM HM He Ho Hb Ha Hx zi _ Hz Hg Hbn) as (y & zf & yv & E & Hy & G & _).
      exists y, zf, yv, (fun i => vtdf2_y (R := F) M (bp i) (ap i) (fun _ => r0) (xf i)), (fun i => vtdf2_y (R := F) M (ab2 (bp i)) (nab2 (ap i)) (fun _ => r0) (ab (xf i))).
      split; [exact E|]. split; [exact Hy|]. intros i Hi. split; [|split; intros n Hn; reflexivity].
      intros n Hn. pose proof (G i n Hi Hn) as G'. cbv beta in G'. rewrite abs_0 in G'. eapply Hm; [|exact G']. nia.
    - destruct (vdf1_bnd F u fadd fmul fsub HR e pr B N nb na M b a x bf af xf uf HB HN Hnb EM HM He Ho Hb Ha Hx zi (U1 Hf)) as (y & yv & ye & ym & E & Hy & G).
      exists y, None, yv, ye, ym. split; [exact E|]. split; [exact Hy|]. intros i Hi. destruct (G i Hi) as (G1 & G2 & G3).
      split; [|split; intros n Hn; [apply G2|apply G3]]. intros n Hn. eapply Hm; [|apply (G1 n Hn)]. lia.
    - destruct (vtdf1_bnd F u fadd fmul fsub HR e pr B N nb na M b a x bf af xf uf HB HN Hnb EM HM He Ho Hb Ha Hx zi (U1 Hf)) as (y & yv & we & wm & E & Hy & G).
      exists y, None, yv, (fun i => vconvt (R := F) M (bp i) (we i)), (fun i => vconvt (R := F) M (ab2 (bp i)) (wm i)). split; [exact E|]. split; [exact Hy|]. intros i Hi. destruct (G i Hi) as (G1 & G2 & G3).
      split; [|split; [exists (we i)|exists (wm i)]; intros n Hn; (split; [|reflexivity]); [apply G2|apply G3]]. intros n Hn. eapply Hm; [|apply (G1 n Hn)]. lia. }
  destruct K as (y & zf & yv & ye0 & ym0 & E & Hy & G).
  exists y, zf, yv. split.
  { etransitivity; [|exact E]. apply (fv_lfilter_2d F fadd fmul fsub e pr B N nb na b a x bf af xf uf Hb Ha Hx). }
  split; [exact Hy|]. intros i ye ym Hi He' Hm' n Hn. destruct (G i Hi) as (G1 & G2 & G3).
  rewrite (solves_form_unique F fm M N _ _ _ ye (ye0 i) He' G2 n Hn), (solves_form_unique F fm M N _ _ _ ym (ym0 i) Hm' G3 n Hn). now apply G1.
Qed.
(** With an initial state: direct form II and its transpose, output and final state. *)
Theorem C70_lfilter_df2 e pr B N nb na M (b a x : ten) (bf af : nat -> nat -> nat -> F) (xf : nat -> nat -> F) zi (z0 : nat -> nat -> F) uf :
  1 <= B -> 1 <= N -> 1 <= nb -> M = Nat.max na (nb - 1) -> 1 <= M -> lpv_backend_ok e pr M -> lpv_own e pr M -> vform_ok Df2 B N b a uf ->
  vcoef (R := F) B N nb b bf -> vcoef (R := F) B N na a af -> is2 x B N xf -> init (R := Fl) B M (Some zi) z0 ->
  exists y z (yv zv : nat -> nat -> F), lpv_lfilter e pr b a x (Some zi) Df2 Ssm uf = Ok (y, Some z) /\ is2 y B N yv /\ is2 z B M zv /\
    (forall i n, i < B -> n < N -> within u (2 * M * n + M + 4) (yv i n)
       (vdf2_y (R := F) M (fun n => padz nb (bf i n)) (fun n => padz na (af i n)) (z0 i) (xf i) n)
       (vdf2_y (R := F) M (ab2 (fun n => padz (R := F) nb (bf i n))) (nab2 (fun n => padz (R := F) na (af i n))) (ab (z0 i)) (ab (xf i)) n)) /\
    (forall i k, i < B -> k < M -> within u (2 * M * N + 3) (zv i k)
       (vdf2_z (R := F) M (fun n => padz na (af i n)) (z0 i) (xf i) N k) (vdf2_z (R := F) M (nab2 (fun n => padz (R := F) na (af i n))) (ab (z0 i)) (ab (xf i)) N k)).
Proof.
  intros HB HN Hnb EM HM He Ho [Hg Hbn] Hb Ha Hx Hz.
  destruct (vdf2_bnd F u fadd fmul fsub HR e pr B N nb na M b a x bf af xf uf HB HN Hnb EM HM He Ho Hb Ha Hx (Some zi) _ Hz Hg Hbn) as (y & zf & yv & E & Hy & G & z & zv & -> & Hz' & H).
  exists y, z, yv, zv. split; [etransitivity; [apply (fv_lfilter_2d F fadd fmul fsub e pr B N nb na b a x bf af xf uf Hb Ha Hx)|exact E]|].
  split; [exact Hy|]. split; [exact Hz'|]. split; intros i k Hi Hk; apply bnd_within; [exact (G i k Hi Hk)|exact (H i k Hi Hk)].
Qed.
Theorem C70_lfilter_tdf2 e pr B N nb na M (b a x : ten) (bf af : nat -> nat -> nat -> F) (xf : nat -> nat -> F) zi (z0 : nat -> nat -> F) uf :
  1 <= B -> 1 <= N -> 1 <= nb -> M = Nat.max na (nb - 1) -> 1 <= M -> lpv_backend_ok e pr M -> lpv_own e pr M -> vform_ok Tdf2 B N b a uf ->
  vcoef (R := F) B N nb b bf -> vcoef (R := F) B N na a af -> is2 x B N xf -> init (R := Fl) B M (Some zi) z0 ->
  exists y z (yv zv : nat -> nat -> F), lpv_lfilter e pr b a x (Some zi) Tdf2 Ssm uf = Ok (y, Some z) /\ is2 y B N yv /\ is2 z B M zv /\
    (forall i n, i < B -> n < N -> within u (2 * M * n + M + 4) (yv i n)
       (vtdf2_y (R := F) M (fun n => padz nb (bf i n)) (fun n => padz na (af i n)) (z0 i) (xf i) n)
       (vtdf2_y (R := F) M (ab2 (fun n => padz (R := F) nb (bf i n))) (nab2 (fun n => padz (R := F) na (af i n))) (ab (z0 i)) (ab (xf i)) n)) /\
    (forall i k, i < B -> k < M -> within u (2 * M * N + 3) (zv i k)
       (vtdf2_z (R := F) M (fun n => padz nb (bf i n)) (fun n => padz na (af i n)) (z0 i) (xf i) N k)
       (vtdf2_z (R := F) M (ab2 (fun n => padz (R := F) nb (bf i n))) (nab2 (fun n => padz (R := F) na (af i n))) (ab (z0 i)) (ab (xf i)) N k)).
Proof.
  intros HB HN Hnb EM HM He Ho [Hg Hbn] Hb Ha Hx Hz.
  destruct (vtdf2_bnd F u fadd fmul fsub HR e pr B N nb na M b a x bf af xf uf HB HN Hnb EM HM He Ho Hb Ha Hx (Some zi) _ Hz Hg Hbn) as (y & zf & yv & E & Hy & G & z & zv & -> & Hz' & H).
  exists y, z, yv, zv. split; [etransitivity; [apply (fv_lfilter_2d F fadd fmul fsub e pr B N nb na b a x bf af xf uf Hb Ha Hx)|exact E]|].
  split; [exact Hy|]. split; [exact Hz'|]. split; intros i k Hi Hk; apply bnd_within; [exact (G i k Hi Hk)|exact (H i k Hi Hk)].
Qed.
(** One form, two configurations, two unroll factors. *)
Theorem C70_agree e pr e' pr' B N nb na M (b a x : ten) (bf af : nat -> nat -> nat -> F) (xf : nat -> nat -> F) uf uf' fm :
  1 <= B -> 1 <= N -> 1 <= nb -> M = Nat.max na (nb - 1) -> 1 <= M -> lpv_backend_ok e pr M -> lpv_own e pr M -> lpv_backend_ok e' pr' M -> lpv_own e' pr' M ->
  vform_ok fm B N b a uf -> vform_ok fm B N b a uf' ->
  vcoef (R := F) B N nb b bf -> vcoef (R := F) B N na a af -> is2 x B N xf ->
  exists y zf y' zf' (yv yv' : nat -> nat -> F),
    lpv_lfilter e pr b a x None fm Ssm uf = Ok (y, zf) /\ lpv_lfilter e' pr' b a x None fm Ssm uf' = Ok (y', zf') /\ is2 y B N yv /\ is2 y' B N yv' /\
    forall i (ye ym : nat -> F), i < B ->
      solves_form (R := F) fm M N (fun n => padz nb (bf i n)) (fun n => padz na (af i n)) (xf i) ye ->
      solves_form (R := F) fm M N (ab2 (fun n => padz (R := F) nb (bf i n))) (nab2 (fun n => padz (R := F) na (af i n))) (ab (xf i)) ym ->
      forall n, n < N -> ole (oabs (rsub (yv i n) (yv' i n)))
        (rmul (radd r1 r1) (rmul (rsub (rpow (radd r1 u) (2 * M * S n + M + 2)) r1) (ym n))) = true.
Proof.
  intros HB HN Hnb EM HM He Ho He' Ho' Hf Hf' Hb Ha Hx.
  assert (Z : has_state fm = true -> init (R := Fl) B M None (fun _ _ => r0)) by (intros; apply init_0; reflexivity).
  destruct (C70_lfilter e pr B N nb na M b a x bf af xf None uf fm) as (y & zf & yv & E & Hy & G); auto.
  destruct (C70_lfilter e' pr' B N nb na M b a x bf af xf None uf' fm) as (y' & zf' & yv' & E' & Hy' & G'); auto.
  exists y, zf, y', zf', yv, yv'. do 4 (split; [assumption|]). intros i ye ym Hi Hye Hym n Hn.
  eapply within_agree; [now apply (G i ye ym)|now apply (G' i ye ym)].
Qed.
End S.

Print Assumptions C70_fir.
Print Assumptions C70_fir_state.
Print Assumptions C70_firt_state.
Print Assumptions C70_lfilter.
Print Assumptions C70_lfilter_df2.
Print Assumptions C70_lfilter_tdf2.
Print Assumptions C70_agree.

(** ** Example: 3-bit numbers, second order, coefficients per sample *)
Definition vbL : list (list Qc) := [[q 3 2; q (-7) 8; q 5 8]; [q 1 1; q 3 4; q (-1) 2]; [q 5 4; q (-3) 8; q 7 8]; [q 7 8; q 1 2; q (-5) 8]].
Definition vaL : list (list Qc) := [[q (-5) 4; q 3 4]; [q (-7) 8; q 5 8]; [q (-3) 2; q 7 8]; [q (-1) 1; q 3 8]].
Definition v_b : tensor (car F3) := lst2 (q 0 1) vbL.
Definition v_a : tensor (car F3) := lst2 (q 0 1) vaL.
Definition vrun fm uf := outs (lpv_lfilter env0 false v_b v_a v_x None fm Ssm (Some uf)).
Example C70_ex :
  vrun Df2 1 = Some ([1; 4], [2%Q; 3%Q; 4%Q; (3 # 2)%Q]) /\ vrun Tdf2 1 = Some ([1; 4], [2%Q; (5 # 2)%Q; 3%Q; (3 # 2)%Q]) /\
  vrun Df1 1 = Some ([1; 4], [2%Q; 4%Q; 6%Q; (7 # 2)%Q]) /\ vrun Tdf1 1 = Some ([1; 4], [2%Q; (3 # 4)%Q; 6%Q; (-3 # 2)%Q]) /\
  vrun Tdf1 3 = Some ([1; 4], [2%Q; (3 # 4)%Q; 6%Q; (-1)%Q]).
Proof. repeat split; vm_compute; reflexivity. Qed.
Definition v_b3 : tensor (car F3) := mkT [1; 4; 3] (fun i => nth (nth 2 i 0) (nth (nth 1 i 0) vbL []) (q 0 1)).
Example C70_fir_ex :
  outs (lpv_fir v_b3 v_x None false) = Some ([1; 4], [2%Q; 2%Q; 2%Q; (-5 # 8)%Q]) /\
  outs (lpv_fir v_b3 v_x None true) = Some ([1; 4], [2%Q; (-1 # 4)%Q; 3%Q; (-5 # 4)%Q]).
Proof. split; vm_compute; reflexivity. Qed.
(** The unroll factor is not bit for bit irrelevant. *)
Theorem C70_bitwise_refuted :
  ~ (forall uf uf' fm (b a x : tensor (car F3)), unroll_good (size x 1) (Some uf) -> unroll_good (size x 1) (Some uf') ->
       outs (lpv_lfilter env0 false b a x None fm Ssm (Some uf)) = outs (lpv_lfilter env0 false b a x None fm Ssm (Some uf'))).
Proof.
  intro H. specialize (H 1 3 Tdf1 v_b v_a v_x). assert (X : forall k, k = 1 \/ k = 3 -> unroll_good (size v_x 1) (Some k)).
  { intros k Hk. unfold unroll_good. cbv zeta. split; [lia|]. destruct Hk as [-> | ->]; [now left|]. right. right. right. split; [lia|]. intros d Hd. lia. }
  specialize (H (X 1 ltac:(lia)) (X 3 ltac:(lia))). revert H. vm_compute. discriminate.
Qed.
Print Assumptions C70_bitwise_refuted.
(** The hypotheses at this instance, for each form. *)
Definition gB (n k : nat) : Qofield := nth k (nth n vbL []) (q 0 1).
Definition gC (n k : nat) : Qofield := nth k (nth n vaL []) (q 0 1).
Definition gX (n : nat) : Qofield := nth n vX (q 0 1).
Example C70_agree_ex fm : fm <> OtherForm ->
  exists y zf y' zf' (yv yv' : nat -> nat -> Qofield),
    lpv_lfilter env0 false v_b v_a v_x None fm Ssm (Some 1) = Ok (y, zf) /\ lpv_lfilter env0 false v_b v_a v_x None fm Ssm (Some 3) = Ok (y', zf') /\
    is2 y 1 4 yv /\ is2 y' 1 4 yv' /\
    forall i (ye ym : nat -> Qofield), i < 1 ->
      solves_form (R := Qofield) fm 2 4 (fun n => padz 3 (gB n)) (fun n => padz 2 (gC n)) gX ye ->
      solves_form (R := Qofield) fm 2 4 (fun n k => oabs (padz (R := Qofield) 3 (gB n) k)) (fun n k => ropp (oabs (padz (R := Qofield) 2 (gC n) k))) (fun n => oabs (gX n)) ym ->
      forall n, n < 4 -> ole (oabs (rsub (yv i n) (yv' i n)))
        (rmul (radd r1 r1) (rmul (rsub (rpow (radd r1 (unit_roundoff 3)) (2 * 2 * S n + 2 + 2)) r1) (ym n))) = true.
Proof.
  intro Hfm. assert (HB0 : lpv_backend_ok env0 false 2) by apply lpv_backend_env0.
  assert (HO : lpv_own env0 false 2) by (split; [reflexivity|left; lia]).
  assert (X : forall k, k = 1 \/ k = 3 -> vform_ok Qofield _ _ _ fm 1 4 v_b v_a (Some k)).
  { intros k Hk. assert (G : unroll_good 4 (Some k)).
    { unfold unroll_good. cbv zeta. split; [lia|]. destruct Hk as [-> | ->]; [now left|]. right. right. right. split; [lia|]. intros d Hd. lia. }
    destruct fm; cbn [vform_ok]; [split; [exact G|right; lia]|split; [exact G|right; lia]|now right|now right|now apply Hfm]. }
  apply (C70_agree Qofield (unit_roundoff 3) _ _ _ (float_rounds 3) env0 false env0 false 1 4 3 2 2 v_b v_a v_x (fun _ => gB) (fun _ => gC) (fun _ => gX) (Some 1) (Some 3) fm);
    try lia; try exact HB0; try exact HO; try (apply X; lia).
  - apply vc_s with (g := gB); [|reflexivity]. split; reflexivity.
  - apply vc_s with (g := gC); [|reflexivity]. split; reflexivity.
  - split; [reflexivity|]. intros [|b] n Hb Hn; [reflexivity|lia].
Qed.
