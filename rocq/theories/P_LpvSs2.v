(** lpv.state_space for every unroll factor: what the blocked recursion computes is
    still causal, linear and independent per batch. *)
From Coq Require Import List Arith Lia ZArith Bool Ring.
From Verif Require Import Scalar Tensor TensorLemmas TensorOps TensorAlg TensorTac TensorList
  Spec Shapes Algebra M_Mat P_Mat M_Kernels P_KernelOps M_LtiSsm P_LtiRecur P_LtiSsm P_SsSpec M_Ext M_LpvSsm P_LpvRecur
  P_LpvSsm P_LpvBlk P_LpvSs P_Cumdot P_Unroll.
Import ListNotations.

(** The unroll factor in force (ssm.py:388-389). *)
Definition lpv_uf (N : nat) (uf : option nat) : nat := match uf with Some u => u | None => round_sqrt N end.

Section S.
Variable R : cring.
Add Ring Rr : (r_th R).
Notation ten := (tensor (car R)).
Open Scope cr_scope.
Notation mats := (nat -> nat -> nat -> R).

(** ** The pure description is causal and linear *)
Lemma blk_causal M bs G fuel : (bs = 1%nat \/ (2 <= bs)%nat /\ cumdot_is R (bs - 1) M G) -> forall N (A A' : mats) h h' u u' n m,
  (forall k i j, (k <= n)%nat -> (i < M)%nat -> (j < M)%nat -> A k i j = A' k i j) ->
  (forall i, (i < M)%nat -> h i = h' i) ->
  (forall k i, (k <= n)%nat -> (i < M)%nat -> u k i = u' k i) -> (m < M)%nat ->
  blk R M bs G fuel N A h u n m = blk R M bs G fuel N A' h' u' n m.
Proof.
  intro HG. induction fuel as [|fuel IH]; intros N A A' h h' u u' n m HA Hh Hu Hm; [reflexivity|]. cbn [blk].
  destruct ((bs =? 1) || (N <=? bs))%bool%nat eqn:E.
  { apply state_ext; auto; intros; [apply HA|apply Hu]; auto; lia. }
  b2p. destruct HG as [?|[Hb HG]]; [lia|].
  set (k := ((N + bs - 1) / bs)%nat).
  assert (HA' : forall k i j, (k <= n)%nat -> (i < M)%nat -> (j < M)%nat -> uptoA R N A k i j = uptoA R N A' k i j).
  { intros t i j Ht Hi Hj. unfold uptoA. destruct (t <? N)%nat eqn:Et; b2p; auto. }
  assert (Hu' : forall k i, (k <= n)%nat -> (i < M)%nat -> uptoX R N u k i = uptoX R N u' k i).
  { intros t i Ht Hi. unfold uptoX. destruct (t <? N)%nat eqn:Et; b2p; auto. }
  set (B := uptoA R N A) in *. set (B' := uptoA R N A') in *. set (X := uptoX R N u) in *. set (X' := uptoX R N u') in *.
  assert (HR : forall c m, (c * bs + (bs - 1) <= n)%nat -> (m < M)%nat ->
    blk R M bs G fuel k (blast R M bs G B) h (bin R M bs G B X) c m = blk R M bs G fuel k (blast R M bs G B') h' (bin R M bs G B' X') c m).
  { intros c m' Hc Hm'. apply IH; auto.
    - intros t i j Ht Hi Hj. unfold blast. assert (t * bs <= c * bs)%nat by now apply Nat.mul_le_mono_r.
      apply mmul_ext; intros; [|apply HA'; auto; lia].
      apply (bprod_ext R M); auto; [lia|]. intros. apply HA'; auto. lia.
    - intros t i Ht Hi. unfold bin. assert (t * bs <= c * bs)%nat by now apply Nat.mul_le_mono_r.
      apply bsum_ext. intros j Hj. apply mvec_ext; intros; [|apply Hu'; auto; lia].
      apply (bprod_ext R M); auto; [lia|]. intros. apply HA'; auto. lia. }
  pose proof (Nat.div_mod n bs ltac:(lia)) as En. pose proof (Nat.mod_upper_bound n bs ltac:(lia)) as Hr.
  rewrite (Nat.mul_comm bs) in En. set (c := (n / bs)%nat) in *. set (r := (n mod bs)%nat) in *.
  destruct (r =? bs - 1)%nat eqn:Er; b2p; [apply HR; auto; lia|].
  apply state_ext; auto.
  - intros t i j Ht Hi Hj. apply HA'; auto. lia.
  - intros i Hi. destruct c as [|c']; [auto|]. apply HR; auto. lia.
  - intros t i Ht Hi. apply Hu'; auto. lia.
Qed.

Lemma mvec_lin M (A : nat -> nat -> R) c1 c2 v1 v2 i :
  mvec M A (fun j => c1 * v1 j + c2 * v2 j) i = c1 * mvec M A v1 i + c2 * mvec M A v2 i.
Proof.
  unfold mvec. rewrite <- !bsum_mul_l, <- bsum_add. apply bsum_ext. intros. ring.
Qed.

Lemma blk_lin M bs G fuel : forall N (A : mats) c1 c2 h h1 h2 u u1 u2 n m,
  (forall i, h i = c1 * h1 i + c2 * h2 i) -> (forall k i, u k i = c1 * u1 k i + c2 * u2 k i) ->
  blk R M bs G fuel N A h u n m = c1 * blk R M bs G fuel N A h1 u1 n m + c2 * blk R M bs G fuel N A h2 u2 n m.
Proof.
  assert (HS : forall (A : mats) c1 c2 h h1 h2 u u1 u2 n m,
    (forall i, h i = c1 * h1 i + c2 * h2 i) -> (forall k i, u k i = c1 * u1 k i + c2 * u2 k i) ->
    state M A h u n m = c1 * state M A h1 u1 n m + c2 * state M A h2 u2 n m).
  { intros A c1 c2 h h1 h2 u u1 u2 n m Hh Hu. revert m. induction n as [|n IH]; intro m; cbn [state]; [auto|].
    rewrite Hu. rewrite (mvec_ext M _ (A n) _ (fun j => c1 * state M A h1 u1 n j + c2 * state M A h2 u2 n j)) by auto.
    rewrite mvec_lin. ring. }
  induction fuel as [|fuel IH]; intros N A c1 c2 h h1 h2 u u1 u2 n m Hh Hu; cbn [blk]; [ring|].
  destruct ((bs =? 1) || (N <=? bs))%bool%nat; [now apply HS|].
  assert (HX : forall k i, uptoX R N u k i = c1 * uptoX R N u1 k i + c2 * uptoX R N u2 k i).
  { intros k i. unfold uptoX. destruct (k <? N)%nat; [apply Hu|ring]. }
  assert (HB : forall k i, bin R M bs G (uptoA R N A) (uptoX R N u) k i =
     c1 * bin R M bs G (uptoA R N A) (uptoX R N u1) k i + c2 * bin R M bs G (uptoA R N A) (uptoX R N u2) k i).
  { intros k i. unfold bin. rewrite <- !bsum_mul_l, <- bsum_add. apply bsum_ext. intros j Hj.
    rewrite <- mvec_lin. apply mvec_ext; auto. }
  destruct (n mod bs =? bs - 1)%nat; [now apply IH|].
  apply HS; [|auto]. intro i. destruct (n / bs)%nat; [auto|]. now apply IH.
Qed.

(** ** The state of the blocked recursion, before sample n *)
Definition lpv_in (K : nat) (Bm : mats) (x : nat -> nat -> R) (n m : nat) : R := bsum K (fun k => Bm n m k * x n k).
Definition lpv_h (M u N : nat) (A : mats) (h : nat -> R) (w : nat -> nat -> R) (n : nat) : nat -> R :=
  match n with O => h | S k => blk R M u (cdf R M (u - 1)) (S N) N A h w k end.

Lemma lpv_h_causal M u N (A A' : mats) h h' w w' n m : (1 <= u)%nat ->
  (forall k i j, (k < n)%nat -> (i < M)%nat -> (j < M)%nat -> A k i j = A' k i j) ->
  (forall i, (i < M)%nat -> h i = h' i) ->
  (forall k i, (k < n)%nat -> (i < M)%nat -> w k i = w' k i) -> (m < M)%nat ->
  lpv_h M u N A h w n m = lpv_h M u N A' h' w' n m.
Proof.
  intros Hu HA Hh Hw Hm. destruct n as [|n]; [now apply Hh|]. apply blk_causal; auto.
  - destruct (Nat.eq_dec u 1); [auto|]. right. split; [lia|]. apply cdf_is. lia.
  - intros. apply HA; auto. lia.
  - intros. apply Hw; auto. lia.
Qed.
Lemma lpv_h_lin M u N (A : mats) c1 c2 h h1 h2 w w1 w2 n m :
  (forall i, h i = c1 * h1 i + c2 * h2 i) -> (forall k i, w k i = c1 * w1 k i + c2 * w2 k i) ->
  lpv_h M u N A h w n m = c1 * lpv_h M u N A h1 w1 n m + c2 * lpv_h M u N A h2 w2 n m.
Proof. intros Hh Hw. destruct n as [|n]; [apply Hh|]. now apply blk_lin. Qed.

(** ** The recursion and state_space *)
Lemma lpv_any_spec e pr B N M (A zi x : ten) Af zf u bs oi :
  (1 <= B)%nat -> (1 <= N)%nat -> (1 <= M)%nat -> (1 <= bs)%nat -> lpv_backend_ok e pr M ->
  matv B N M A Af -> is2 zi B M zf -> drive B N M x u -> idx_ok M oi ->
  exists y, lpv_state_space_recursion e pr A zi x bs oi = Ok y /\
    picks B N M oi y (fun b n m => lpv_h M bs N (Af b) (zf b) (u b) (S n) m).
Proof.
  intros HB HN HM Hbs He HA Hz Hx Hi. unfold lpv_state_space_recursion, lpv_h.
  assert (Es : size x 1 = N) by (destruct Hx as [f Hx _|Hx]; unfold size; now rewrite (proj1 Hx)). rewrite Es.
  apply lpv_blk_spec; auto.
  - destruct (Nat.eq_dec bs 1); [auto|]. right. apply cdf_is. lia.
  - intro. now apply lpv_backend_helion.
Qed.

Lemma lpv_state_space_any e pr B N M F P (A x : ten) Bt C D zi uf oi Af xf Bm Cm Dm z0 :
  (1 <= B)%nat -> (1 <= N)%nat -> (1 <= M)%nat -> lpv_backend_ok e pr M -> (1 <= lpv_uf N uf)%nat ->
  matv B N M A Af -> sigv B N F x xf ->
  inmatv B N M F Bt Bm -> outmatv B N M oi C P Cm -> feedv B N F P D Dm -> init B M zi z0 ->
  exists y zf, lpv_state_space e pr A x Bt C D zi uf oi = Ok (y, zf) /\
    sigv B N P y (fun b n p => bsum M (fun m => Cm b n p m * lpv_h M (lpv_uf N uf) N (Af b) (z0 b) (lpv_in (width F) (Bm b) (xf b)) n m)
                             + bsum (width F) (fun k => Dm b n p k * xf b n k)) /\
    match zi with
    | None => zf = None
    | Some _ => exists z, zf = Some z /\
        is2 z B M (fun b => lpv_h M (lpv_uf N uf) N (Af b) (z0 b) (lpv_in (width F) (Bm b) (xf b)) N)
    end.
Proof.
  intros HB HN HM He Hu HA Hx HBm HC HD Hz.
  set (h := fun b n => lpv_h M (lpv_uf N uf) N (Af b) (z0 b) (lpv_in (width F) (Bm b) (xf b)) n).
  destruct (sig_size _ _ _ _ _ _ Hx) as (Hs0 & Hs1 & Hrk & Hfe & Hrk2).
  unfold lpv_state_space. rewrite Hs0, Hs1, Hrk.
  assert (((rk A =? 3) || (rk A =? 4))%bool = true) as ->
    by (destruct HA as [g HA _|HA]; rkt; reflexivity).
  assert (sizen A 1 = M) as -> by (destruct HA as [g HA _|HA]; unfold sizen, rk; now rewrite (proj1 HA)).
  assert (sizen A 2 = M) as -> by (destruct HA as [g HA _|HA]; unfold sizen, rk; now rewrite (proj1 HA)).
  assert (sizen A 3 = N) as -> by (destruct HA as [g HA _|HA]; unfold sizen, rk; now rewrite (proj1 HA)).
  rewrite !Nat.eqb_refl.
  assert (match C, oi with Some _, Some _ => false | _, _ => true end = true) as -> by (destruct HC; reflexivity).
  destruct (ss_zi_spec R B M x zi z0 HM Hz) as (z & -> & Hzz). cbn [bind]. cbv zeta.
  unfold lpv_uf in *. set (u := match uf with Some k => k | None => round_sqrt N end) in *.
  clearbody u.
  destruct (lpv_input_spec R B N M F x xf Bt Bm Hx HBm) as (Bx & -> & HBx). cbn [bind].
  set (run := fun oi' => if lpv_extension_backend_indicator e pr M && (u =? 1) then lpv_ext_ss_recur e pr A z Bx oi'
     else lpv_state_space_recursion e pr A z Bx u oi').
  assert (Hrun : forall oi', idx_ok M oi' -> exists y, run oi' = Ok y /\ picks B N M oi' y (fun b n m => h b (S n) m)).
  { intros oi' Hoi'. unfold run. destruct (lpv_extension_backend_indicator e pr M && (u =? 1))%bool eqn:Ee.
    - apply andb_true_iff in Ee as [Ee Eu]. b2p. subst u.
      destruct (lpv_ext_spec R e pr B N M A z Bx Af z0 (fun b => lpv_in (width F) (Bm b) (xf b)) oi') as (y & E & Hy); auto; [now apply lpv_backend_ext|].
      exists y. split; [exact E|]. exact Hy.
    - destruct (lpv_any_spec e pr B N M A z Bx Af z0 (fun b => lpv_in (width F) (Bm b) (xf b)) u oi') as (y & E & Hy); auto.
      exists y. split; [exact E|]. exact Hy. }
  assert (Hoi : idx_ok M oi) by (destruct HC; try exact Logic.I; now exists k).
  destruct (ss_states R B N M z z0 zi oi run h HN Hzz ltac:(reflexivity) Hoi Hrun) as (hh & zf & E & Hhh & Hzf).
  unfold run in E. rewrite E. cbn [bind]. clear E Hrun run HBx.
  assert (exists Ch, match C with Some C => lpv_Ch hh C B N M | None => Ok hh end = Ok Ch /\
    sigv B N P Ch (fun b n p => bsum M (fun m => Cm b n p m * h b n m))) as (Ch & ECh & HCh).
  { destruct C as [C|].
    - assert (oi = None) as -> by (remember (Some C) as C' eqn:E; destruct HC; auto; discriminate).
      now apply (lpv_Ch_spec R).
    - exists hh. split; [reflexivity|]. 
      remember (@None ten) as C' eqn:E in HC. destruct HC as [f Hf|i k f Hk Hf| | | | | | | | ]; try discriminate; unfold sigv, picks in *.
      + eapply is3_ext; [exact Hhh|]. intros b n m Hb Hn Hm. cbn beta.
        rewrite (bsum_ext M _ (fun k => (if m =? k then 1 else 0) * h b n k)) by (intros; now rewrite Hf by lia).
        rewrite bsum_diag by lia. ring.
      + eapply is2_ext; [exact (Hhh k Hk)|]. intros b n Hb Hn. cbn beta. apply pyidx_lt in Hk.
        rewrite (bsum_ext M _ (fun j => (if k =? j then 1 else 0) * h b n j)) by (intros; now rewrite Hf by lia).
        rewrite bsum_diag by lia. ring. }
  assert (exists y, (let* Dx := match D with Some D => let* d := lpv_Dx x D B N in Ok (Some d) | None => Ok None end in
     let* Ch := match C with Some C => lpv_Ch hh C B N M | None => Ok hh end in
     match Dx with Some d => tadd Ch d | None => Ok Ch end)%res = Ok y /\
    sigv B N P y (fun b n p => bsum M (fun m => Cm b n p m * h b n m)
                             + bsum (width F) (fun k => Dm b n p k * xf b n k))) as (y & Ey & Hy).
  { rewrite ECh. destruct D as [D|].
    - destruct (lpv_Dx_spec R B N F P x D xf Dm Hx HD) as (Dx & -> & HDx). cbn [bind].
      unfold tadd, sigv in *. destruct P as [P|].
      + apply is3_P2 in HCh, HDx. eat @P2_ew_same; [exact HCh|exact HDx|]. exists w. split; [reflexivity|].
        apply is3_P2. exact H.
      + apply is2_P1 in HCh, HDx. eat @P1_ew_same; [exact HCh|exact HDx|]. exists w. split; [reflexivity|].
        apply is2_P1. exact H.
    - cbn [bind]. exists Ch. split; [reflexivity|].
      remember (@None ten) as D' eqn:E in HD. destruct HD as [F P f Hf| | | | | | | | | | | | | | | | | | | ]; try discriminate.
      assert (Hz0 : forall b n p, (b < B)%nat -> (n < N)%nat -> (p < width P)%nat -> bsum (width F) (fun k => f b n p k * xf b n k) = 0).
      { intros b n p Hb Hn Hp. apply bsum_0. intros k Hk. rewrite Hf by assumption. ring. }
      unfold sigv in *. destruct P as [P|]; cbn [width] in Hz0.
      + eapply is3_ext; [exact HCh|]. intros b n p Hb Hn Hp. cbn beta. rewrite Hz0 by assumption. ring.
      + eapply is2_ext; [exact HCh|]. intros b n Hb Hn. cbn beta. rewrite Hz0 by (auto; lia). ring. }
  destruct (match D with Some D => let* d := lpv_Dx x D B N in Ok (Some d) | None => Ok None end) as [Dx|er];
    cbn [bind] in *; [|discriminate].
  rewrite ECh in *. cbn [bind] in *. rewrite Ey. cbn [bind]. eexists _, _. split; [reflexivity|]. auto.
Qed.

End S.
