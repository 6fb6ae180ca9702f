(** Theorems about lti/filtering.py: initial states, filtfilt, comb filter, argument
    errors, unbatched signals (C26-C29, C45, C46). *)
From Coq Require Import List Arith Lia ZArith Bool Ring.
From Verif Require Import Scalar Tensor TensorLemmas TensorList TensorTac Spec Shapes SpecFilter Algebra M_Mat M_Kernels M_LtiSsm M_LtiFilter
  P_LtiSsm P_Filter P_LtiFilter P_LtiFilter2 P_LtiFilter3 P_LtiFilter4 Properties_LtiFilter.
Import ListNotations.

(** ** C26: lfiltic.  Orders >= 1 on both sides, real coefficients. *)
Theorem lfiltic_continues_partial :
  forall (R : cring) e B N m n (b a x yp : tensor R) xp bf af xf ypf xpf uf,
  1 <= B -> 1 <= N -> 1 <= m -> 1 <= n -> backend_ok e (Nat.max n m) -> unroll_ok uf ->
  fcoef B (S m) b bf -> fcoef B n a af -> realc (S m) bf -> realc n af -> is2 x B N xf ->
  fcoef B n yp ypf -> past R B m xp xpf ->
  exists zi y zf yf, lfiltic b a yp xp = Ok zi /\ lfilter_ssm e b a x (Some zi) Tdf2 uf = Ok (y, Some zf) /\ is2 y B N yf /\
    forall i t, i < B -> t < N -> solves_with m n (bf i) (af i) (xf i) (xpf i) (yf i) (ypf i) t.
Proof.
  intros R e B N m n b a x yp xp bf af xf ypf xpf uf HB HN Hm Hn He Hu Hb Ha Hrb Hra Hx Hy Hxp.
  destruct (lfiltic_spec R B m n b a yp xp bf af ypf xpf Hm Hn Hb Ha Hy Hxp) as (zi & E & Hz).
  assert (Hi : init B (Nat.max n m) (Some zi) (fun i r =>
      rsub (bsum m (fun k => rmul (padz (S m) (bf i) (S (r + k))) (xpf i k))) (bsum n (fun k => rmul (padz n (af i) (r + k)) (ypf i k))))).
  { destruct Hz as [g H1 Hg|H2]; [eapply init_M; [exact H1|exact Hg]|eapply init_BM; [exact H2|auto]]. }
  destruct (lfilter_state R e B N (S m) n (Nat.max n m) b a x bf af xf zi _ uf HB HN ltac:(lia) ltac:(lia) ltac:(lia) He Hu Hb Ha Hx Hi)
    as (_ & y & zf & E2 & HY & _).
  exists zi, y, zf. exists (fun i => tdf2_y (Nat.max n m) (padz (S m) (bf i)) (padz n (af i)) (fun r =>
      rsub (bsum m (fun k => rmul (padz (S m) (bf i) (S (r + k))) (xpf i k))) (bsum n (fun k => rmul (padz n (af i) (r + k)) (ypf i k)))) (xf i)).
  do 2 (split; [eassumption|]). split.
  - eapply is2_ext; [exact HY|]. intros i t Hi' Ht. cbv beta.
    apply tdf2_y_ext; auto; [lia| |]; intros k _; apply padz_ext; intros j Hj; [now apply Hrb|now apply Hra].
  - intros i t Hi' Ht. cbv beta. apply tdf2_continues; auto.
Qed.
Print Assumptions lfiltic_continues_partial.

(** The state is the same as running the filter from the start: past input 1,2,3,4 with
    output 1,5,14,25, then the continuation. *)
Example lfiltic_ex :
  let b := v1 [1;2;3]%Z in let a := v1 [-1;1]%Z in
  let whole := lfilter_ssm env0 b a (v2 [[1;2;3;4;5;6]]%Z) None Tdf2 None in
  show2' whole = Some (Some ([1;6], [1;5;14;25;33;36]%Z), None) /\
  show (lfiltic b a (v1 [25;14]%Z) (Some (v1 [4;3]%Z))) = Some ([2], [28;-13]%Z) /\
  show2' (let* zi := lfiltic b a (v1 [25;14]%Z) (Some (v1 [4;3]%Z)) in
          lfilter_ssm env0 b a (v2 [[5;6]]%Z) (Some zi) Tdf2 None) = Some (Some ([1;2], [33;36]%Z), Some ([1;2], [30;-18]%Z)) /\
  fcoef 1 3 b (fun _ k => nth k [1;2;3]%Z 0%Z) /\ past Zring 1 2 (Some (v1 [4;3]%Z)) (fun _ k => nth k [4;3]%Z 0%Z).
Proof.
  cbv zeta. do 3 (split; [vm_compute; reflexivity|]). split.
  - apply (fc_s (R := Zring) (fun k => nth k [1;2;3]%Z 0%Z)); [split; reflexivity|reflexivity].
  - apply (fc_s (R := Zring) (fun k => nth k [4;3]%Z 0%Z)); [split; reflexivity|reflexivity].
Qed.

(** A single feed-forward tap (an all-pole filter) raises instead of giving the state. *)
Theorem lfiltic_one_tap_refuted :
  let b := v1 [1]%Z in let a := v1 [-1]%Z in let yp := v1 [2]%Z in
  fcoef 1 1 b (fun _ _ => 1%Z) /\ fcoef 1 1 a (fun _ _ => (-1)%Z) /\ fcoef 1 1 yp (fun _ _ => 2%Z) /\
  forall xp, xp = None \/ xp = Some (v1 []) -> lfiltic b a yp xp = Err RuntimeError.
Proof.
  cbv zeta. assert (H : forall c, fcoef 1 1 (v1 [c]) (fun _ _ => c)).
  { intro c. apply (fc_s (R := Zring) (fun _ => c)); [|reflexivity]. split; [reflexivity|]. intros k Hk. now replace k with 0 by lia. }
  do 3 (split; [apply H|]).
  intros xp [-> | ->]; vm_compute; reflexivity.
Qed.
Print Assumptions lfiltic_one_tap_refuted.

(** ** C27: steady state.  torch.linalg.solve is a parameter [la] of which only the
    contract [solve_vec] is used: a returned vector solves the system. *)
Lemma gain_sums (R : cring) fm nb na M (b a s : nat -> R) : 1 <= nb -> M = Nat.max na (nb - 1) -> 1 <= M ->
  (fm = Tdf2 -> (forall k, k < nb -> conj (b k) = b k) /\ (forall k, k < na -> conj (a k) = a k)) -> fm = Df2 \/ fm = Tdf2 ->
  steady fm M (padz nb (lf_num fm b)) (padz na (lf_den fm a)) s ->
  rmul (ss_gain fm M (padz nb (lf_num fm b)) s) (radd r1 (bsum na a)) = bsum nb b.
Proof.
  intros Hnb EM HM Hre Hfm Hs. pose proof (ss_gain_dc R _ _ _ _ _ HM Hs) as H.
  assert (P : forall n K (f : nat -> R), n <= K -> bsum K (padz n f) = bsum n f).
  { intros n K f HK. rewrite (bsum_trunc n K) by (exact HK || (intros i Hi Hi2; unfold padz; bfalse (i <? n); reflexivity)).
    apply bsum_ext. intros i Hi. unfold padz. now btrue (i <? n). }
  rewrite !P in H by lia. rewrite <- (bsum_ext nb (lf_num fm b) b), <- (bsum_ext na (lf_den fm a) a); [exact H| |].
  - intros k Hk. destruct Hfm; subst fm; cbn; [reflexivity|]. destruct (Hre eq_refl). auto.
  - intros k Hk. destruct Hfm; subst fm; cbn; [reflexivity|]. destruct (Hre eq_refl). auto.
Qed.
Theorem lfilter_zi_steady_partial :
  forall (R : cring) la e B N nb na M (b a s : tensor R) bf af uf fm,
  solve_vec R la -> 1 <= B -> 1 <= N -> 1 <= nb -> M = Nat.max na (nb - 1) -> 1 <= M -> backend_ok e M -> unroll_ok uf ->
  fm = Df2 \/ fm = Tdf2 -> (fm = Tdf2 -> realc nb bf /\ realc na af) -> (fm = Df2 -> nb <= na + 1) ->
  fcoef B nb b bf -> fcoef B na a af -> lfilter_zi la a (Some b) (is_tdf2 fm) = Ok s ->
  exists sf g, fcoef B M s sf /\ (forall i, i < B -> rmul (g i) (radd r1 (bsum na (af i))) = bsum nb (bf i)) /\
    forall x c zi, is2 x B N (fun i _ => c i) -> init B M (Some zi) (fun i k => rmul (sf i k) (c i)) ->
    exists y zf, lfilter_ssm e b a x (Some zi) fm uf = Ok (y, Some zf) /\
      is2 y B N (fun i _ => rmul (g i) (c i)) /\ is2 zf B M (fun i k => rmul (sf i k) (c i)).
Proof.
  intros R la e B N nb na M b a s bf af uf fm Hla HB HN Hnb EM HM He Hu Hfm Hre Hlen Hb Ha E.
  assert (Hst : has_state fm = true) by (destruct Hfm; subst; reflexivity).
  assert (Hof : fm <> OtherForm) by (intros ->; discriminate).
  destruct (zi_steady R la fm B nb na M b a s bf af Hla Hst Hnb EM HM Hre Hlen Hb Ha E) as (sf & Hs & Hst').
  exists sf, (fun i => ss_gain fm M (padz nb (lf_num fm (bf i))) (sf i)). split; [exact Hs|]. split.
  - intros i Hi. apply (gain_sums R fm nb na M (bf i) (af i) (sf i)); auto. intros ->. destruct (Hre eq_refl) as [H1 H2]. split; intros; auto.
  - intros x c zi Hx Hz.
    destruct (lfilter_spec R e B N nb na M b a x bf af _ (Some zi) _ uf fm HB HN Hnb EM HM He Hu Hof Hb Ha Hx (fun _ => Hz))
      as (y & zo & Q & Y & Z). rewrite Hst in Z. destruct Z as (z & -> & Z). exists y, z. split; [exact Q|]. split.
    + eapply is2_ext; [exact Y|]. intros i n Hi Hn. cbv beta. apply (lf_const R fm M _ (padz na (lf_den fm (af i)))); auto.
    + eapply is2_ext; [exact Z|]. intros i k Hi Hk. cbv beta. apply lf_z_const; auto.
Qed.
Print Assumptions lfilter_zi_steady_partial.

(** A solver for 1x1 and 2x2 systems with invertible determinant, meeting the contract. *)
Definition la_small (R : cring) (inv : R -> option R) : linalg R :=
  mkLinalg R (fun _ => Err RuntimeError)
    (fun A v => match shape A, shape v with
      | [1;1], [1] => match inv (at_ A [0;0]) with
          | Some u => Ok (mk1 1 (fun _ => rmul u (at_ v [0]))) | None => Err RuntimeError end
      | [2;2], [2] => match inv (rsub (rmul (at_ A [0;0]) (at_ A [1;1])) (rmul (at_ A [0;1]) (at_ A [1;0]))) with
          | Some u => Ok (mk1 2 (fun i => if i =? 0
              then rmul u (rsub (rmul (at_ A [1;1]) (at_ v [0])) (rmul (at_ A [0;1]) (at_ v [1])))
              else rmul u (rsub (rmul (at_ A [0;0]) (at_ v [1])) (rmul (at_ A [1;0]) (at_ v [0])))))
          | None => Err RuntimeError end
      | _, _ => Err RuntimeError
      end) (fun _ => Err RuntimeError) (fun _ _ => r0).
Section LaSmall.
Variable R : cring.
Add Ring Rloc : (r_th R).
Lemma la_small_solves inv : (forall u v, inv u = Some v -> rmul u v = r1) -> solve_vec R (la_small R inv).
Proof.
  intros Hinv pa pv M A v s f g Hp [HA Hf] [Hv Hg] E. cbn in E. rewrite HA, Hv in E.
  assert (EE : pa = [] /\ (M = 1 \/ M = 2)).
  { destruct pa as [|? [|? ?]].
    - split; [reflexivity|]. cbn in E. destruct M as [|[|[|M]]]; cbn in E; auto; discriminate.
    - exfalso. cbn in E. destruct n as [|[|[|?]]]; cbn in E; try discriminate;
        destruct M as [|[|[|M]]]; cbn in E; discriminate.
    - exfalso. cbn in E. destruct n as [|[|[|?]]]; cbn in E; try discriminate;
        destruct n0 as [|[|[|?]]]; cbn in E; try discriminate; destruct l; discriminate. }
  destruct EE as [-> HM]. assert (pv = []) by (destruct Hp; auto). subst pv. cbn [app] in *.
  assert (Fa : forall i j, i < M -> j < M -> at_ A [i;j] = f [] i j) by (intros; apply (Hf []); auto using vld_nil).
  assert (Fv : forall i, i < M -> at_ v [i] = g [] i) by (intros; apply (Hg []); auto using vld_nil).
  destruct HM as [-> | ->].
  - destruct (inv (at_ A [0;0])) as [u|] eqn:Eu; [|discriminate]. apply Hinv in Eu. injection E as <-.
    exists (fun _ _ => rmul u (at_ v [0])). split; [split; [reflexivity|]; intros; reflexivity|].
    intros q i Hq Hi. assert (q = []) by (now apply vld_nil_inv in Hq). subst q. replace i with 0 by lia.
    cbn [bsum]. rewrite <- Fa, <- Fv by lia. transitivity (rmul (at_ v [0]) r1); [|ring]. rewrite <- Eu. ring.
  - destruct (inv _) as [u|] eqn:Eu; [|discriminate]. apply Hinv in Eu. injection E as <-.
    exists (fun _ i => if i =? 0
        then rmul u (rsub (rmul (at_ A [1;1]) (at_ v [0])) (rmul (at_ A [0;1]) (at_ v [1])))
        else rmul u (rsub (rmul (at_ A [0;0]) (at_ v [1])) (rmul (at_ A [1;0]) (at_ v [0])))).
    split; [split; [reflexivity|]; intros q i Hq Hi; apply vld_nil_inv in Hq; subst q; reflexivity|].
    intros q i Hq Hi. assert (q = []) by (now apply vld_nil_inv in Hq). subst q.
    cbn [bsum]. rewrite <- !Fa, <- !Fv by lia.
    transitivity (rmul (at_ v [i]) r1); [|ring]. rewrite <- Eu. destruct i as [|[|i]]; [| |lia]; cbn; ring.
Qed.
End LaSmall.

Definition invZ (u : Z) : option Z := if (u * u =? 1)%Z then Some u else None.
Definition invG (u : Gauss) : option Gauss :=
  if (fst u * fst u + snd u * snd u =? 1)%Z then Some (conj u) else None.
Definition laZ := la_small Zring invZ.
Definition laG := la_small Gauss invG.
Lemma laZ_solves : solve_vec Zring laZ.
Proof.
  apply la_small_solves. intros u v E. unfold invZ in E. destruct (u * u =? 1)%Z eqn:Q; [|discriminate]. injection E as <-.
  now apply Z.eqb_eq in Q.
Qed.
Lemma laG_solves : solve_vec Gauss laG.
Proof.
  apply la_small_solves. intros [p q] v E. unfold invG in E. cbn [fst snd] in E.
  destruct (p * p + q * q =? 1)%Z eqn:Q; [|discriminate]. injection E as <-. apply Z.eqb_eq in Q. cbn. f_equal; nia.
Qed.

(** Second-order filter, steady state for the constant 5 in both forms: gain 6, output 30. *)
Example lfilter_zi_ex :
  let b := v1 [1;2;3]%Z in let a := v1 [1;-1]%Z in let x := v2 [[5;5;5;5]]%Z in
  show (lfilter_zi laZ a (Some b) true) = Some ([2], [5;9]%Z) /\
  show (lfilter_zi laZ a (Some b) false) = Some ([2], [1;1]%Z) /\
  show2' (lfilter_ssm env0 b a x (Some (v1 [25;45]%Z)) Tdf2 None) = Some (Some ([1;4], [30;30;30;30]%Z), Some ([1;2], [25;45]%Z)) /\
  show2' (lfilter_ssm env0 b a x (Some (v1 [5;5]%Z)) Df2 None) = Some (Some ([1;4], [30;30;30;30]%Z), Some ([1;2], [5;5]%Z)).
Proof. cbv zeta. repeat split; vm_compute; reflexivity. Qed.

(** Numerator longer than the denominator, direct form II: lfilter_zi returns a state of
    the wrong size, which lfilter then rejects. *)
Theorem lfilter_zi_df2_refuted :
  let b := v1 [1;1;1]%Z in let a := v1 [-2]%Z in
  exists s, solve_vec Zring laZ /\ lfilter_zi laZ a (Some b) false = Ok s /\ shape s = [1] /\
    lfilter_ssm env0 b a (v2 [[1;1;1]]%Z) (Some s) Df2 None = Err AssertionError.
Proof.
  cbv zeta. eexists. split; [exact laZ_solves|]. split; [vm_compute; reflexivity|]. split; [reflexivity|]. vm_compute. reflexivity.
Qed.
Print Assumptions lfilter_zi_df2_refuted.

(** Complex coefficients, tdf2: the returned state is not a steady state (the matrix is
    conjugated, the right-hand side is not). *)
Theorem lfilter_zi_tdf2_complex_refuted :
  let b := lst1 (r0 (c := Gauss)) [(1, 0)%Z] : tensor Gauss in
  let a := lst1 (r0 (c := Gauss)) [(-1, 1)%Z] : tensor Gauss in
  let x := lst2 (r0 (c := Gauss)) [[(1, 0); (1, 0)]%Z] : tensor Gauss in
  solve_vec Gauss laG /\
  show (lfilter_zi laG a (Some b) true) = Some ([1], [(1, 1)%Z]) /\
  show2' (let* s := lfilter_zi laG a (Some b) true in lfilter_ssm env0 b a x (Some s) Tdf2 None)
    = Some (Some ([1;2], [(2, 1); (2, 3)]%Z), Some ([1;1], [(-1, 5)]%Z)).
Proof. cbv zeta. split; [exact laG_solves|]. split; vm_compute; reflexivity. Qed.
Print Assumptions lfilter_zi_tdf2_complex_refuted.

(** ** C28: filtfilt.  df2 and tdf2, every padding mode, default or given pad length
    smaller than the signal.  The result has the shape of x; it is the forward-backward
    filtering of the extended signal from steady states; constants come back as the
    squared gain times the constant. *)
Definition pad_edge (pm : option padmode) (padlen : option nat) (nb na : nat) : nat :=
  match pm, padlen with None, _ => 0 | Some _, Some l => l | Some _, None => 3 * Nat.max nb (na + 1) end.
Definition extended {R : cring} (pm : option padmode) (N edge : nat) (x : nat -> R) : nat -> R :=
  match pm with
  | None => x
  | Some Replicate => ext_replicate N edge x
  | Some Reflect => ext_reflect N edge x
  | Some Circular => ext_circular N edge x
  | Some Constant => ext_zero N edge x
  end.
(** One direction, started from the steady state [s] scaled by the first sample. *)
Definition pass {R : cring} (fm : form) (M : nat) (b a s x : nat -> R) (n : nat) : R :=
  match fm with
  | Tdf2 => tdf2_y M (fun k => conj (b k)) (fun k => conj (a k)) (fun k => rmul (s k) (x 0)) x n
  | _ => df2_y M b a (fun k => rmul (s k) (x 0)) x n
  end.
Lemma pass_fwd (R : cring) fm nb na M (b a s x : nat -> R) n : fm = Df2 \/ fm = Tdf2 -> 1 <= M ->
  fwd fm M (padz nb (lf_num fm b)) (padz na (lf_den fm a)) s x n = pass fm M (padz nb b) (padz na a) s x n.
Proof.
  intros [-> | ->] HM; cbn; [reflexivity|]. unfold fwd, pass. cbn. apply tdf2_y_ext; auto; intros; symmetry; now rewrite padz_conj.
Qed.
Lemma pass_ext (R : cring) fm M (b a s x x' : nat -> R) n : fm = Df2 \/ fm = Tdf2 -> 1 <= M -> (forall k, k <= n -> x k = x' k) ->
  pass fm M b a s x n = pass fm M b a s x' n.
Proof.
  intros [-> | ->] HM Hx; unfold pass.
  - apply df2_y_ext; auto. intros. now rewrite Hx by lia.
  - apply tdf2_y_ext; auto. intros. now rewrite Hx by lia.
Qed.
Lemma pass_fbwd (R : cring) fm nb na M (b a s x : nat -> R) L e n : fm = Df2 \/ fm = Tdf2 -> 1 <= M ->
  fbwd fm M (padz nb (lf_num fm b)) (padz na (lf_den fm a)) s x L e n
  = pass fm M (padz nb b) (padz na a) s (fun m => pass fm M (padz nb b) (padz na a) s x (L - 1 - m)) (L - 1 - e - n).
Proof.
  intros Hfm HM. unfold fbwd. rewrite pass_fwd by auto. apply pass_ext; auto. intros. now apply pass_fwd.
Qed.

Theorem filtfilt_partial :
  forall (R : cring) la e B N nb na M edge (b a x s : tensor R) bf af xf pm padlen uf fm,
  solve_vec R la -> 1 <= B -> 1 <= nb -> M = Nat.max na (nb - 1) -> 1 <= M -> backend_ok e M -> unroll_ok uf ->
  fm = Df2 \/ fm = Tdf2 -> (fm = Tdf2 -> realc nb bf /\ realc na af) -> (fm = Df2 -> nb <= na + 1) ->
  fcoef B nb b bf -> fcoef B na a af -> is2 x B N xf -> edge = pad_edge pm padlen nb na -> edge < N ->
  lfilter_zi la a (Some b) (is_tdf2 fm) = Ok s ->
  exists y sf yf, filtfilt_ssm e la b a x pm padlen false fm uf = Ok y /\ fcoef B M s sf /\ is2 y B N yf /\
    (forall i n, i < B -> n < N ->
       let L := N + 2 * edge in let F := pass fm M (padz nb (bf i)) (padz na (af i)) (sf i) in
       yf i n = F (fun m => F (extended pm N edge (xf i)) (L - 1 - m)) (L - 1 - edge - n)) /\
    (pm <> Some Constant -> forall i c, i < B -> (forall n, n < N -> xf i n = c) ->
     exists g, rmul g (radd r1 (bsum na (af i))) = bsum nb (bf i) /\ forall n, n < N -> yf i n = rmul g (rmul g c)).
Proof.
  intros R la e B N nb na M edge b a x s bf af xf pm padlen uf fm Hla HB Hnb EM HM He Hu Hfm Hre Hlen Hb Ha Hx Hedge HN E.
  assert (Hst : has_state fm = true) by (destruct Hfm; subst; reflexivity).
  destruct (zi_steady R la fm B nb na M b a s bf af Hla Hst Hnb EM HM Hre Hlen Hb Ha E) as (sf & Hs & Hst').
  assert (Hx' : sigx [B] N x xf).
  { now apply (proj1 (is2_P1 _ _ _ _)). }
  destruct (filtfilt_spec R e la [B] B N nb na M edge b a x s bf af xf sf pm padlen uf fm) as (y & Q & Y); auto.
  { now left. } { discriminate. }
  exists y, sf, (fun i n => fbwd fm M (padz nb (lf_num fm (bf i))) (padz na (lf_den fm (af i))) (sf i)
                                 (ext_sig pm N edge (xf i)) (N + 2 * edge) edge n).
  split; [exact Q|]. split; [exact Hs|]. split; [|split].
  - now apply (proj2 (is2_P1 _ _ _ _)).
  - intros i n Hi Hn. cbv beta zeta. now rewrite pass_fbwd by auto.
  - intros Hpm i c Hi Hc. exists (ss_gain fm M (padz nb (lf_num fm (bf i))) (sf i)). split.
    + apply (gain_sums R fm nb na M (bf i) (af i) (sf i)); auto. intros ->. destruct (Hre eq_refl) as [H1 H2]. split; intros; auto.
    + intros n Hn. cbv beta. apply fbwd_const; auto; [lia|]. intros k Hk. apply ext_sig_const; auto.
      intros ->. now rewrite Hedge.
Qed.
Print Assumptions filtfilt_partial.

Example filtfilt_ex :
  let b := v1 [1;2]%Z in let a := v1 [-2]%Z in
  show (lfilter_zi laZ a (Some b) true) = Some ([1], [-4]%Z) /\
  show (filtfilt_ssm env0 laZ b a (v2 [[5;5;5];[1;1;1]]%Z) (Some Reflect) (Some 2) false Tdf2 None)
    = Some ([2;3], [45;45;45;9;9;9]%Z) /\
  show (filtfilt_ssm env0 laZ b a (v2 [[5;5;5]]%Z) (Some Replicate) (Some 1) false Df2 None) = Some ([1;3], [45;45;45]%Z) /\
  show (filtfilt_ssm env0 laZ b a (v1 [1;0;2]%Z) None None false Df2 None) = Some ([3], [29;20;18]%Z) /\
  show (filtfilt_ssm env0 laZ b a (v1 [1;0;2]%Z) None None false Tdf2 None) = Some ([3], [29;20;18]%Z).
Proof. cbv zeta. repeat split; vm_compute; reflexivity. Qed.

(** Whatever the back-end, if it returns no final state for the first pass, then
    filtfilt raises ValueError unless the returned tensor happens to have two rows; then the
    second row of the batch is dropped and the second pass raises unless its output has
    two rows again. *)
Theorem filtfilt_no_state :
  forall (R : cring) la lf (b a x s zx y : tensor R) padlen fm,
  0 < sizen x 1 ->
  lfilter_zi la a (Some b) (match fm with Tdf2 => true | _ => false end) = Ok s ->
  tmul s (slice (rk x - 1) None (Some 1%Z) x) = Ok zx -> lf b a x (Some zx) fm = Ok (y, None) ->
  (size y 0 <> 2 -> filtfilt_wrap la lf b a x None padlen false fm = Err ValueError) /\
  (forall zy y', size y 0 = 2 -> rk y = 2 ->
     tmul s (slice 0 (Some (-1)%Z) None (sel 0 0 y)) = Ok zy ->
     lf b a (flip 0 (sel 0 0 y)) (Some zy) fm = Ok (y', None) -> size y' 0 <> 2 ->
     filtfilt_wrap la lf b a x None padlen false fm = Err ValueError).
Proof.
  intros R la lf b a x s zx y padlen fm HN Es Ez El. unfold filtfilt_wrap. cbn [negb].
  rewrite (proj2 (Nat.ltb_lt 0 (sizen x 1)) HN), Es. cbn [bind]. rewrite Ez. cbn [bind]. rewrite El. cbn [bind unpack2]. split.
  - intro H. now rewrite (proj2 (Nat.eqb_neq _ _) H).
  - intros zy y' H Hr Ey El' H'. rewrite H. cbn [Nat.eqb bind].
    assert (E : rk (sel 0 0 y) - 1 = 0).
    { unfold rk, sel in *. cbn [shape]. destruct (shape y) as [|p [|q [|]]]; try discriminate. reflexivity. }
    rewrite E, Ey. cbn [bind]. rewrite El'. cbn [bind unpack2]. now rewrite (proj2 (Nat.eqb_neq _ _) H').
Qed.
Print Assumptions filtfilt_no_state.

(** Direct form I and its transpose: lfilter returns a bare tensor, which filtfilt unpacks
    as if it were a pair. *)
Theorem filtfilt_df1_refuted :
  let b := v1 [1;2]%Z in let a := v1 [-2]%Z in
  forall fm x, fm = Df1 \/ fm = Tdf1 -> In x [v2 [[5;5;5]]%Z; v2 [[5;5;5];[1;1;1]]%Z; v1 [5;5;5]%Z] ->
    filtfilt_ssm env0 laZ b a x None None false fm None = Err ValueError.
Proof.
  cbv zeta. intros fm x Hf Hx. cbn [In] in Hx. decompose [or] Hf; decompose [or False] Hx; subst; try contradiction; vm_compute; reflexivity.
Qed.
Print Assumptions filtfilt_df1_refuted.

(** Direct form II (the default) with a numerator longer than the denominator raises. *)
Theorem filtfilt_long_numerator_refuted :
  filtfilt_ssm env0 laZ (v1 [1;1;1]%Z) (v1 [-2]%Z) (v2 [[1;1;1]]%Z) None None false Df2 None = Err AssertionError.
Proof. vm_compute. reflexivity. Qed.
Print Assumptions filtfilt_long_numerator_refuted.

(** ** C46: unbatched signals. *)
(** For every back-end function: 1-D arguments give the squeezed result of the one-row
    batch (errors included). *)
Theorem lfilter_unbatched :
  forall (R : cring) core (b a x : tensor R) zi,
  rk x = 1 -> rk b = 1 -> rk a = 1 -> (forall z, zi = Some z -> rk z = 1) ->
  lfilter_wrap core b a x zi =
  match lfilter_wrap core b a (unsqueeze 0 x) zi with
  | Ok (y, z) => Ok (squeeze 0 y, match z with Some z => Some (squeeze 0 z) | None => None end)
  | Err e => Err e
  end.
Proof.
  intros R core b a x zi Hx Hb Ha Hz. unfold lfilter_wrap.
  assert (Hu : rk (unsqueeze 0 x) = 2) by (unfold unsqueeze, rk; cbn; unfold rk in Hx; now rewrite Hx).
  assert (Hz' : match zi with None => true | Some z => rk z =? 1 end = true).
  { destruct zi as [z|]; [|reflexivity]. now rewrite (Hz z eq_refl). }
  rewrite Hu, Hx, Hb, Ha, Hz'. cbn [Nat.eqb Nat.ltb Nat.leb andb orb bind].
  destruct (core b a (unsqueeze 0 x) zi) as [[y z]|]; reflexivity.
Qed.
Print Assumptions lfilter_unbatched.
(** As soon as one of the filters or the initial state has a batch dimension, a 1-D signal
    is filtered as a one-row batch and the result keeps the batch dimension. *)
Theorem lfilter_not_squeezed :
  forall (R : cring) core (b a x : tensor R) zi,
  rk x = 1 -> rk b = 1 \/ rk b = 2 -> rk a = 1 \/ rk a = 2 ->
  rk b = 2 \/ rk a = 2 \/ (exists z, zi = Some z /\ rk z <> 1) ->
  lfilter_wrap core b a x zi = core b a (unsqueeze 0 x) zi.
Proof.
  intros R core b a x zi Hx Hb Ha H. unfold lfilter_wrap. rewrite Hx. cbn [Nat.eqb bind].
  assert (E : true && (rk b =? 1) && (rk a =? 1) && match zi with None => true | Some z => rk z =? 1 end = false).
  { destruct H as [E|[E|(z & -> & E)]]; [rewrite E; reflexivity|rewrite E; now rewrite Bool.andb_false_r|].
    apply Nat.eqb_neq in E. rewrite E. apply Bool.andb_false_r. }
  rewrite E.
  assert ((rk b =? 1) || (rk b =? 2) = true) as -> by (destruct Hb as [-> | ->]; reflexivity).
  assert ((rk a =? 1) || (rk a =? 2) = true) as -> by (destruct Ha as [-> | ->]; reflexivity).
  destruct (core b a (unsqueeze 0 x) zi) as [[y z]|]; reflexivity.
Qed.
Print Assumptions lfilter_not_squeezed.
Example lfilter_not_squeezed_ex :
  show2' (lfilter_ssm env0 (v1 [1;2]%Z) (v2 [[-1]]%Z) (v1 [1;0;0]%Z) None Df2 None) = Some (Some ([1;3], [1;3;3]%Z), None) /\
  show2' (lfilter_ssm env0 (v2 [[1;2]]%Z) (v1 [-1]%Z) (v1 [1;0;0]%Z) None Df2 None) = Some (Some ([1;3], [1;3;3]%Z), None) /\
  show2' (lfilter_ssm env0 (v1 [1;2]%Z) (v1 [-1]%Z) (v1 [1;0;0]%Z) (Some (v2 [[1]]%Z)) Tdf2 None) = Some (Some ([1;3], [2;4;4]%Z), Some ([1;1], [4]%Z)).
Proof. repeat split; vm_compute; reflexivity. Qed.

Theorem lfilter_unbatched_values :
  forall (R : cring) e N nb na M (b a x x' : tensor R) bf af xf uf fm,
  1 <= N -> 1 <= nb -> M = Nat.max na (nb - 1) -> 1 <= M -> backend_ok e M -> unroll_ok uf -> fm <> OtherForm ->
  is1 b nb bf -> is1 a na af -> is1 x N xf -> is2 x' 1 N (fun _ => xf) ->
  exists y y' f, lfilter_ssm e b a x None fm uf = Ok (y, None) /\ lfilter_ssm e b a x' None fm uf = Ok (y', None) /\
    is1 y N f /\ is2 y' 1 N (fun _ => f).
Proof.
  intros R e N nb na M b a x x' bf af xf uf fm HN Hnb EM HM He Hu Hfm Hb Ha Hx Hx'.
  assert (Fb : fcoef 1 nb b (fun _ => bf)) by (eapply fc_s; [exact Hb|reflexivity]).
  assert (Fa : fcoef 1 na a (fun _ => af)) by (eapply fc_s; [exact Ha|reflexivity]).
  assert (Hux : is2 (unsqueeze 0 x) 1 N (fun _ => xf)).
  { destruct Hx as [Hs Hf]. split; [unfold unsqueeze; cbn; now rewrite Hs|]. intros i k Hi Hk. cbn. now rewrite <- Hf. }
  destruct (lfilter_spec R e 1 N nb na M b a _ _ _ _ None (fun _ _ => r0) uf fm ltac:(lia) HN Hnb EM HM He Hu Hfm Fb Fa Hux)
    as (y & zf & E & Y & Z); [intros _; now apply init_0|].
  destruct (lfilter_spec R e 1 N nb na M b a x' _ _ _ None (fun _ _ => r0) uf fm ltac:(lia) HN Hnb EM HM He Hu Hfm Fb Fa Hx')
    as (y' & zf' & E' & Y' & Z'); [intros _; now apply init_0|].
  assert (zf = None) by (destruct (has_state fm); exact Z). assert (zf' = None) by (destruct (has_state fm); exact Z'). subst zf zf'.
  exists (squeeze 0 y), y'. eexists. split.
  - unfold lfilter_ssm. rewrite lfilter_unbatched;
      [|unfold rk; now rewrite (proj1 Hx)|unfold rk; now rewrite (proj1 Hb)|unfold rk; now rewrite (proj1 Ha)|discriminate].
    unfold lfilter_ssm in E. now rewrite E.
  - split; [exact E'|]. split; [exact (squeeze0_2 R y N _ Y)|]. exact Y'.
Qed.
Print Assumptions lfilter_unbatched_values.

Theorem filtfilt_unbatched_partial :
  forall (R : cring) la e N nb na M (b a x x' s : tensor R) bf af xf pm padlen uf fm,
  solve_vec R la -> 1 <= nb -> M = Nat.max na (nb - 1) -> 1 <= M -> backend_ok e M -> unroll_ok uf ->
  fm = Df2 \/ fm = Tdf2 -> (fm = Tdf2 -> realc nb (fun _ => bf) /\ realc na (fun _ => af)) -> (fm = Df2 -> nb <= na + 1) ->
  is1 b nb bf -> is1 a na af -> is1 x N xf -> is2 x' 1 N (fun _ => xf) ->
  pad_edge pm padlen nb na < N -> lfilter_zi la a (Some b) (is_tdf2 fm) = Ok s ->
  exists y y' f, filtfilt_ssm e la b a x pm padlen false fm uf = Ok y /\
    filtfilt_ssm e la b a x' pm padlen false fm uf = Ok y' /\ is1 y N f /\ is2 y' 1 N (fun _ => f).
Proof.
  intros R la e N nb na M b a x x' s bf af xf pm padlen uf fm Hla Hnb EM HM He Hu Hfm Hre Hlen Hb Ha Hx Hx' HN E.
  assert (Hst : has_state fm = true) by (destruct Hfm; subst; reflexivity).
  assert (Fb : forall B, fcoef B nb b (fun _ => bf)) by (intro; eapply fc_s; [exact Hb|reflexivity]).
  assert (Fa : forall B, fcoef B na a (fun _ => af)) by (intro; eapply fc_s; [exact Ha|reflexivity]).
  destruct (zi_steady R la fm 1 nb na M b a s _ _ Hla Hst Hnb EM HM Hre Hlen (Fb 1) (Fa 1) E) as (sf & Hs & _).
  destruct (zi_steady R la fm 2 nb na M b a s _ _ Hla Hst Hnb EM HM Hre Hlen (Fb 2) (Fa 2) E) as (sf2 & Hs2 & _).
  assert (S1 : is1 s M (sf 0)) by (destruct (fcoef_shared R 1 M s sf sf2 ltac:(lia) Hs Hs2); [assumption|lia]).
  assert (X1 : sigx [] N x (fun _ => xf)).
  { unfold sigx. exact (proj2 (P1_nil _ _ (fun q => xf)) Hx). }
  assert (X2 : sigx [1] N x' (fun _ => xf)).
  { unfold sigx. exact (proj1 (is2_P1 _ _ _ (fun _ => xf)) Hx'). }
  assert (K : sig_ok [] 1 b a).
  { right. repeat split; unfold rk; [now rewrite (proj1 Hb)|now rewrite (proj1 Ha)]. }
  destruct (filtfilt_spec R e la [] 1 N nb na M (pad_edge pm padlen nb na) b a x s _ _ _ sf pm padlen uf fm ltac:(lia) Hnb EM HM He Hu Hst
    K (Fb 1) (Fa 1) X1 eq_refl HN E Hs (fun _ => S1)) as (y & Q & Y).
  destruct (filtfilt_spec R e la [1] 1 N nb na M (pad_edge pm padlen nb na) b a x' s _ _ _ sf pm padlen uf fm ltac:(lia) Hnb EM HM He Hu Hst
    (or_introl eq_refl) (Fb 1) (Fa 1) X2 eq_refl HN E Hs) as (y' & Q' & Y'); [discriminate|].
  exists y, y'. eexists. split; [exact Q|]. split; [exact Q'|]. split.
  - unfold sigx in Y. cbn [nth] in Y. exact (proj1 (P1_nil _ _ (fun q n => _)) Y).
  - apply (proj2 (is2_P1 _ _ _ _)). eapply isP1_ext; [exact Y'|]. intros q k Hq Hk.
    apply vld_1_inv in Hq as (i & -> & Hi). replace i with 0 by lia. reflexivity.
Qed.
Print Assumptions filtfilt_unbatched_partial.

Example unbatched_ex :
  let b := v1 [1;2;3]%Z in let a := v1 [-1]%Z in
  show2' (lfilter_ssm env0 b a (v1 [1;0;0;1]%Z) None Df2 None) = Some (Some ([4], [1;3;6;7]%Z), None) /\
  show2' (lfilter_ssm env0 b a (v2 [[1;0;0;1]]%Z) None Df2 None) = Some (Some ([1;4], [1;3;6;7]%Z), None) /\
  show2' (lfilter_ssm env0 b a (v1 [1;0]%Z) (Some (v1 [1;1]%Z)) Tdf2 None) = Some (Some ([2], [2;5]%Z), Some ([2], [8;0]%Z)).
Proof. cbv zeta. repeat split; vm_compute; reflexivity. Qed.

(** ** C45: argument errors of lfilter. *)
Theorem lfilter_rank_error :
  forall (R : cring) core (b a x : tensor R) zi, 3 <= rk x -> lfilter_wrap core b a x zi = Err ValueError.
Proof.
  intros. unfold lfilter_wrap. 
  rewrite (proj2 (Nat.eqb_neq (rk x) 1)) by lia. rewrite (proj2 (Nat.ltb_lt 2 (rk x))) by lia. reflexivity.
Qed.
Print Assumptions lfilter_rank_error.
Theorem lfilter_form_error :
  forall (R : cring) e B N nb na (b a x : tensor R) bf af xf zi uf,
  fcoef B nb b bf -> fcoef B na a af -> is2 x B N xf \/ is1 x N (xf 0) ->
  lfilter_ssm e b a x zi OtherForm uf = Err ValueError.
Proof.
  intros R e B N nb na b a x bf af xf zi uf Hb Ha Hx.
  destruct (fcoef_size R _ _ _ _ Hb) as (Sb & Rb & _). destruct (fcoef_size R _ _ _ _ Ha) as (Sa & Ra & _).
  unfold lfilter_ssm, lfilter_wrap. rewrite Rb, Ra.
  assert (C : forall x', ssm_lfilter e OtherForm uf b a x' zi = Err ValueError).
  { intro x'. unfold ssm_lfilter. rewrite Sb, Sa.
    assert (H : exists k f, fcoef B k (if na + 1 <? nb then pad (rk a - 1) 0 (nb - na - 1) r0 a else a) f).
    { destruct (na + 1 <? nb); do 2 eexists; [eapply fcoef_pad; exact Ha|exact Ha]. }
    destruct H as (k & f & H). destruct (companion_mat R B k _ f H) as (A & -> & _). reflexivity. }
  destruct Hx as [[Hs _]|[Hs _]]; unfold rk; rewrite Hs; cbn [length Nat.eqb Nat.ltb Nat.leb bind andb orb]; now rewrite C.
Qed.
Print Assumptions lfilter_form_error.
Example lfilter_form_ex :
  fcoef 2 3 (v1 [1;2;3]%Z) (fun _ k => nth k [1;2;3]%Z 0%Z) /\
  lfilter_ssm env0 (v1 [1;2;3]%Z) (v1 [-1]%Z) (v2 [[1;0];[2;3]]%Z) None OtherForm None = Err ValueError /\
  lfilter_ssm env0 (v1 [1;2;3]%Z) (v1 [-1]%Z) (mk3 1 1 2 (fun _ _ _ => 0%Z) : tensor Zring) None Df2 None = Err ValueError.
Proof.
  split; [|split; vm_compute; reflexivity].
  apply (fc_s (R := Zring) (fun k => nth k [1;2;3]%Z 0%Z)); [split; reflexivity|reflexivity].
Qed.

(** ** C29: comb filter.  With the compiled extension, every delay >= 2 and every length:
    the recurrence holds and the next state is the last outputs, newest first.  Partial:
    without the extension, for delay one with state, and for signals shorter than the
    delay the claim fails (below). *)
Theorem comb_filter_partial :
  forall (R : cring) e B N d (a x : tensor R) zi af xf z0 uf,
  ext e = true -> unroll_ok uf -> 1 <= B -> 1 <= N -> 2 <= d -> ccoef B a af -> is2 x B N xf -> cpast B d zi z0 ->
  exists y zf yf, comb_filter e a d x zi uf = Ok (y, zf) /\ is2 y B N yf /\
    (forall i n, i < B -> n < N -> solves_comb d (af i) (xf i) (yf i) (z0 i) n) /\
    match zi with
    | None => zf = None
    | Some _ => exists z, zf = Some z /\ is2 z B (Nat.min d N) (fun i k => hist (yf i) (z0 i) N k)
    end.
Proof.
  intros R e B N d a x zi af xf z0 uf He Hu HB HN Hd Ha Hx Hz.
  destruct (comb_filter_spec R e B N d a x zi af xf z0 uf He Hu HB HN Hd Ha Hx Hz) as (y & zf & E & Y & Z).
  exists y, zf. eexists. split; [exact E|]. split; [exact Y|]. split.
  - intros i n Hi Hn. cbv beta. apply comb_y_solves. lia.
  - destruct zi as [zi|]; [|exact Z]. destruct Z as (z & -> & Z). exists z. split; [reflexivity|].
    eapply is2_ext; [exact Z|]. intros i k Hi Hk. cbv beta. unfold hist. now btrue (k <? N).
Qed.
Print Assumptions comb_filter_partial.

Theorem comb_filter_delay_one_partial :
  forall (R : cring) e B N (a x : tensor R) zi af xf z0 uf,
  unroll_ok uf -> 1 <= B -> 1 <= N -> ccoef B a af -> is2 x B N xf -> cpast B 1 zi z0 ->
  exists y yf, comb_filter e a 1 x zi uf = Ok (y, None) /\ is2 y B N yf /\
    (forall i n, i < B -> n < N -> solves_comb 1 (af i) (xf i) (yf i) (z0 i) n).
Proof.
  intros R e B N a x zi af xf z0 uf Hu HB HN Ha Hx Hz.
  destruct (comb_filter_1_spec R e B N a x zi af xf z0 uf Hu HB HN Ha Hx Hz) as (y & E & Y).
  exists y. eexists. split; [exact E|]. split; [exact Y|]. intros i n Hi Hn. cbv beta. now apply comb_y_solves.
Qed.
Print Assumptions comb_filter_delay_one_partial.

(** Streaming when the first block is at least as long as the delay. *)
Theorem comb_filter_streaming_partial :
  forall (R : cring) e B N1 N2 d (a x x1 x2 zi : tensor R) af xf xf1 xf2 z0 uf,
  ext e = true -> unroll_ok uf -> 1 <= B -> 2 <= d -> d <= N1 -> 1 <= N2 -> ccoef B a af ->
  is2 x B (N1 + N2) xf -> is2 x1 B N1 xf1 -> is2 x2 B N2 xf2 -> cpast B d (Some zi) z0 ->
  (forall i n, i < B -> n < N1 -> xf i n = xf1 i n) -> (forall i n, i < B -> n < N2 -> xf i (N1 + n) = xf2 i n) ->
  exists y z y1 z1 y2 z2 f,
    comb_filter e a d x (Some zi) uf = Ok (y, Some z) /\ comb_filter e a d x1 (Some zi) uf = Ok (y1, Some z1) /\
    comb_filter e a d x2 (Some z1) uf = Ok (y2, Some z2) /\
    is2 y B (N1 + N2) f /\ is2 y1 B N1 f /\ is2 y2 B N2 (fun i n => f i (N1 + n)).
Proof.
  intros R e B N1 N2 d a x x1 x2 zi af xf xf1 xf2 z0 uf He Hu HB Hd H1 H2 Ha Hx Hx1 Hx2 Hz X1 X2.
  destruct (comb_filter_partial R e B (N1 + N2) d a x (Some zi) af xf z0 uf) as (y & zf & yf & E & Y & S & z & -> & Z); auto; [lia|].
  destruct (comb_filter_partial R e B N1 d a x1 (Some zi) af xf1 z0 uf) as (y1 & zf1 & yf1 & E1 & Y1 & S1 & z1 & -> & Z1); auto; [lia|].
  rewrite Nat.min_l in Z1 by lia.
  destruct (comb_filter_partial R e B N2 d a x2 (Some z1) af xf2 _ uf He Hu HB H2 Hd Ha Hx2 (cp_Bd _ _ Z1))
    as (y2 & zf2 & yf2 & E2 & Y2 & S2 & z2 & -> & Z2).
  assert (A1 : forall i n, i < B -> n < N1 -> yf1 i n = yf i n).
  { intros i n Hi. apply (solves_comb_unique R d (af i) (xf i) (yf1 i) (yf i) (z0 i) N1); [lia| |].
    - intros k Hk. pose proof (S1 i k Hi Hk) as H. unfold solves_comb in *. now rewrite X1.
    - intros k Hk. apply S; lia. }
  exists y, z, y1, z1, y2, z2, yf. do 3 (split; [assumption|]). split; [exact Y|]. split.
  - eapply is2_ext; [exact Y1|]. exact A1.
  - eapply is2_ext; [exact Y2|]. intros i n Hi. revert n.
    apply (solves_comb_unique R d (af i) (xf2 i) (yf2 i) (fun n => yf i (N1 + n)) (fun k => hist (yf1 i) (z0 i) N1 k) N2); [lia|auto|].
    intros k Hk. pose proof (S i (N1 + k) Hi ltac:(lia)) as H. unfold solves_comb in *. rewrite H, X2 by lia. do 2 f_equal.
    unfold hist. destruct (d - 1 <? k) eqn:Q; b2p.
    + btrue (d - 1 <? N1 + k). f_equal. lia.
    + btrue (d - 1 - k <? N1). btrue (d - 1 <? N1 + k). rewrite A1 by lia. f_equal. lia.
Qed.
Print Assumptions comb_filter_streaming_partial.

Definition env_ext := mkEnv true false false false false seqtree 1 1.
Example comb_ex :
  let x := v2 [[1;0;0;0;1];[1;2;3;4;5]]%Z in let zi := v2 [[7;8];[0;1]]%Z in
  ccoef 2 (v1 [2;-1]%Z) (fun i => nth i [2;-1]%Z 0%Z) /\ cpast 2 2 (Some zi) (fun i k => at_ zi [i;k]) /\
  show2' (comb_filter env_ext (v1 [2;-1]%Z) 2 x None None) = Some (Some ([2;5], [1;0;-2;0;5; 1;2;4;6;9]%Z), None) /\
  show2' (comb_filter env_ext (v1 [2;-1]%Z) 2 x (Some zi) None)
    = Some (Some ([2;5], [-15;-14;30;28;-59; 2;2;5;6;10]%Z), Some ([2;2], [-59;28;10;6]%Z)) /\
  show2' (comb_filter env0 (v1 [2;-1]%Z) 1 x None None) = Some (Some ([2;5], [1;-2;4;-8;17; 1;3;6;10;15]%Z), None).
Proof.
  cbv zeta. split; [|split; [|repeat split; vm_compute; reflexivity]].
  - apply cc_B. split; reflexivity.
  - apply cp_Bd. split; reflexivity.
Qed.

(** Failures: without the extension delay 2 raises; delay 1 returns no next state;
    a signal shorter than the delay returns a state too short for the next call. *)
Theorem comb_filter_refuted :
  comb_filter env0 (v1 [2]%Z) 2 (v2 [[1;2;3;4]]%Z) None None = Err AttributeError /\
  show2' (comb_filter env_ext (v1 [2]%Z) 1 (v2 [[1;2;3]]%Z) (Some (v2 [[1]]%Z)) None) = Some (Some ([1;3], [-1;4;-5]%Z), None) /\
  show2' (comb_filter env_ext (v1 [2]%Z) 3 (v2 [[1;2]]%Z) (Some (v2 [[7;8;9]]%Z)) None)
    = Some (Some ([1;2], [-17;-14]%Z), Some ([1;2], [-14;-17]%Z)).
Proof. repeat split; vm_compute; reflexivity. Qed.
Print Assumptions comb_filter_refuted.
(** Without the compiled extension every admissible call with a delay of at least two
    raises: the test of EXTENSION_LOADED is the wrong way round. *)
Theorem comb_filter_no_extension_refuted :
  forall (R : cring) e B N d (a x : tensor R) zi af xf uf,
  ext e = false -> 1 <= N -> 2 <= d -> ccoef B a af -> is2 x B N xf ->
  comb_filter e a d x zi uf = Err AttributeError.
Proof.
  intros R e B N d a x zi af xf uf He HN Hd Ha Hx. unfold comb_filter.
  assert (Hrx : rk x = 2) by (unfold rk; now rewrite (proj1 Hx)).
  assert (Hs0 : size x 0 = B) by (unfold size; now rewrite (proj1 Hx)).
  assert (Hs1 : size x 1 = N) by (unfold size; now rewrite (proj1 Hx)). rewrite Hrx, Hs0, Hs1. cbn [Nat.eqb].
  assert (Hra : (rk a <=? 1) && (negb (rk a =? 1) || (size a 0 =? B)) = true).
  { destruct Ha as [v [H _] _|[H _]]; unfold rk, size; rewrite H; cbn; [reflexivity|apply Nat.eqb_refl]. }
  apply Bool.andb_true_iff in Hra as [-> ->]. bfalse (d =? 1). bfalse (d =? 0). cbn [negb].
  pose proof (Nat.div_mod N d ltac:(lia)) as HNd. pose proof (Nat.mod_upper_bound N d ltac:(lia)) as Hr.
  set (r := N mod d) in *.
  assert (exists K, K * d = N + if r =? 0 then 0 else d - r) as (K & EK).
  { destruct (r =? 0) eqn:E; b2p; [exists (N / d)|exists (S (N / d))]; lia. }
  set (x' := if negb (r =? 0) then _ else x).
  assert (Hx' : rk x' = 2 /\ size x' 1 = K * d).
  { unfold x'. destruct (r =? 0) eqn:E; cbn [negb]; [split; [exact Hrx|lia]|].
    unfold pad, size, rk in *. cbn [shape]. destruct Hx as [Hs _]. rewrite Hs. cbn. split; [reflexivity|lia]. }
  clearbody x'. destruct Hx' as [Hrx' Hsx'].
  assert (E : exists x3, unflatten_m1 1 d x' = Ok x3).
  { unfold unflatten_m1, unflatten. bfalse (d =? 0). rewrite Hsx', Nat.mod_mul, Nat.div_mul by lia.
    cbn [Nat.eqb]. rewrite (proj2 (Nat.eqb_eq (prod [K; d]) (K * d))) by (cbn; lia). eauto. }
  destruct E as (x3 & ->). cbn [bind]. rewrite He. unfold LTIRecurrence_forward, op_lti_recur. rewrite He. reflexivity.
Qed.
Print Assumptions comb_filter_no_extension_refuted.

