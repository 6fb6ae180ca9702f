(** C80: filtfilt (philtorch/lti/filtering.py) bit for bit, over any operations with commuting products. *)
From Coq Require Import List Arith Lia ZArith Bool QArith Qcanon.
From Verif Require Import Scalar Ordered FloatQ Spec SpecRound SpecFilter SpecLpv Tensor TensorLemmas TensorOps TensorAlg TensorTac TensorList Shapes SpecBits SpecBits2 SpecBits3 SpecScale
  Algebra M_Mat M_Kernels M_LtiSsm P_Kernels P_LtiSsm M_LtiFilter P_LtiFilter P_LtiFilter3 M_Ext M_LpvSsm M_LpvFilter P_Filter P_Round P_Round6 P_Round7 P_Round10 P_Bits P_Bits2 P_Bits7 P_Scale
  Properties_Round Properties_Bits Properties_Bits2 Properties_Bits3 Properties_Bits4 Properties_Bits5 Properties_Scale.
Import ListNotations.
Close Scope Qc_scope. Close Scope Q_scope. Open Scope nat_scope.

Section S.
Variable F : ofield.
Variables (fadd fmul fsub : F -> F -> F).
Hypothesis mulC : forall u v : F, fmul u v = fmul v u.
Notation Fl := (flops F fadd fmul fsub).
Notation ten := (tensor (car Fl)).
Notation fy := (form_y F fadd fmul fsub).

(** ** The operations *)
(** One pass: the steady state [s] times the first sample is the initial state. *)
Definition one_pass (fm : form) (M : nat) (b a s x : nat -> F) : nat -> F :=
  fy fm M (fun _ => b) (fun _ => a) (fun k => fmul (s k) (x 0)) x.
(** Forward over the L samples of the extended signal, backward over the reversed result; [e] samples are cut off at both ends. *)
Definition both_passes (fm : form) (M : nat) (b a s x : nat -> F) (L e n : nat) : F :=
  one_pass fm M b a s (fun m => one_pass fm M b a s x (L - 1 - m)) (L - 1 - e - n).

Lemma f_zx B M (s t : ten) (sf f : nat -> nat -> F) : fcoef (R := F) B M s sf -> is2 t B 1 f ->
  exists y, tmul (R := Fl) s t = Ok y /\ is2 y B M (fun i k => fmul (sf i k) (f i 0)).
Proof.
  intros Hs Ht. apply is2_P1 in Ht. destruct Hs as [g Hs Hf|Hs]; [apply is1_P in Hs|apply is2_P1 in Hs]; ew2; (eexists; split; [reflexivity|]); apply is2_P1;
    match goal with |- isP1 ?w0 _ _ _ => match goal with H : isP1 w0 _ _ _ |- _ => fin H; auto end end;
    intros q i Hq Hi; apply vld_1_inv in Hq as (z & -> & Hz); cbn [nth]; rewrite ?Hf by assumption; rewrite ?bi_lt by lia; reflexivity.
Qed.
Theorem C80_filtfilt e la B N nb na M edge (b a x s : ten) (bf af xf sf : nat -> nat -> F) pm padlen fm :
  1 <= B -> 1 <= nb -> M = Nat.max na (nb - 1) -> 1 <= M -> sequential e M -> second_form fm ->
  fcoef (R := F) B nb b bf -> fcoef (R := F) B na a af -> is2 x B N xf ->
  edge = ff_edge pm padlen nb na -> edge < N ->
  lfilter_zi (R := Fl) la a (Some b) (match fm with Tdf2 => true | _ => false end) = Ok s -> fcoef (R := F) B M s sf ->
  exists y, filtfilt_ssm (R := Fl) e la b a x pm padlen false fm (Some 1) = Ok y /\
    is2 y B N (fun i n => both_passes fm M (padz nb (bf i)) (padz na (af i)) (sf i) (ext_sig pm N edge (xf i)) (N + 2 * edge) edge n).
Proof.
  intros HB Hnb EM HM He Hfm Hb Ha Hx Eedge Hedge Es Hs.
  unfold filtfilt_ssm, filtfilt_wrap. cbn [negb].
  rewrite (f_size_b F fadd fmul fsub B nb b bf Hb), (f_size_a F fadd fmul fsub B na a af Ha).
  assert (Ee : match (match pm with Some _ => padlen | None => Some 0%nat end) with Some l => l | None => (3 * Nat.max nb (na + 1))%nat end = edge).
  { subst edge. unfold ff_edge. destruct pm, padlen; reflexivity. }
  rewrite Ee. clear Ee. 
  assert (Hrx : rk x = 2) by (destruct Hx as [Hsx _]; unfold rk; now rewrite Hsx).
  assert (Hsz : sizen x 1 = N) by (destruct Hx as [Hsx _]; unfold sizen, size; rewrite Hrx, Hsx; reflexivity).
  rewrite Hsz, Hrx. btrue (edge <? N). set (L := N + 2 * edge).
  assert (exists xe : ten, (match pm with
      | Some pm0 => if (0 <? edge)%nat then let v := if (2 =? 1)%nat then unsqueeze 0 x else flatten 0 (2 - 2) x in
                      let p := pad_mode (R := Fl) pm0 edge v in if (2 =? 1)%nat then squeeze 0 p else p else x
      | None => x end) = xe /\ is2 xe B L (fun i => ext_sig pm N edge (xf i))) as (xe & Exe & Hxe).
  { eexists; split; [reflexivity|].
    assert (Hno : edge = 0 -> is2 x B L (fun i => ext_sig pm N edge (xf i))).
    { unfold L. intros ->. replace (N + 2 * 0) with N by lia. eapply is2_ext; [exact Hx|]. intros i n Hi Hn. symmetry. now apply ext_sig_0. }
    destruct pm as [pm|]; [|apply Hno; exact Eedge].
    destruct (0 <? edge) eqn:E0; b2p; [|apply Hno; lia]. cbv zeta. cbn [Nat.eqb Nat.sub].
    replace L with (edge + N + edge) by (unfold L; lia). apply (pad_mode_view F); [exact Hedge|].
    destruct Hx as [Hsx Hfx]. unfold flatten. rewrite Hsx. split; [cbn; f_equal; lia|].
    intros i n Hi Hn. cbn. rewrite <- Hfx by assumption. f_equal. }
  cbv zeta in Exe |- *. rewrite Exe. clear Exe. rewrite Es. cbn [bind].
  set (bt := fun i => padz nb (bf i)). set (at' := fun i => padz na (af i)).
  set (X := fun i => ext_sig pm N edge (xf i)) in *.
  assert (HL : 1 <= L) by (unfold L; lia).
  assert (Hrk : forall (t : ten) n f, is2 t B n f -> rk t - 1 = length [B] + 0) by (intros t n f [Ht _]; unfold rk; rewrite Ht; reflexivity).
  assert (Hstep : forall (t : ten) (f : nat -> nat -> F) n (t0 : ten), 1 <= n -> is2 t B n f -> is2 t0 B 1 (fun i _ => f i 0) ->
     exists zx y zf, tmul (R := Fl) s t0 = Ok zx /\ lfilter_ssm (R := Fl) e b a t (Some zx) fm (Some 1) = Ok (y, Some zf) /\
       is2 y B n (fun i => one_pass fm M (bt i) (at' i) (sf i) (f i))).
  { intros t f n t0 Hn Ht Ht0.
    destruct (f_zx B M s t0 sf _ Hs Ht0) as (zx & Ez & Hz).
    destruct (C75_lti F fadd fmul fsub mulC e B n nb na M b a t bf af f _ (Some zx) fm HB Hn Hnb EM HM Ht He Hb Ha (init_BM Fl B M zx _ _ Hz (fun _ _ _ _ => eq_refl)) Hfm) as (y & zf & E & Hy & z & -> & _).
    exists zx, y, z. auto. }
  assert (Hx0 : is2 (slice (rk xe - 1) None (Some 1%Z) xe) B 1 (fun i _ => X i 0)).
  { apply is2_P1. pose proof (proj1 (is2_P1 _ _ _ _) Hxe) as Ht. eapply isP1_ext'; [eapply P1_slice0; [exact Ht|exact (Hrk _ _ _ Hxe)|apply pyb_none|rewrite pyb_1 by lia; reflexivity]|reflexivity|].
    intros q i _ Hi. cbv beta. now replace i with 0 by lia. }
  destruct (Hstep xe X L _ HL Hxe Hx0) as (zx1 & y1 & zf1 & E1 & E2 & Hy1). rewrite E1. cbn [bind]. rewrite E2. cbn [bind unpack2]. clear E1 E2.
  assert (Hfl : is2 (flip (rk y1 - 1) y1) B L (fun i n => one_pass fm M (bt i) (at' i) (sf i) (X i) (L - 1 - n))).
  { apply is2_P1. pose proof (proj1 (is2_P1 _ _ _ _) Hy1) as Ht. eapply isP1_ext'; [eapply P1_flip0; [exact Ht|exact (Hrk _ _ _ Hy1)]|reflexivity|]. reflexivity. }
  assert (Hy0 : is2 (slice (rk y1 - 1) (Some (-1)%Z) None y1) B 1 (fun i _ => one_pass fm M (bt i) (at' i) (sf i) (X i) (L - 1 - 0))).
  { apply is2_P1. pose proof (proj1 (is2_P1 _ _ _ _) Hy1) as Ht. eapply isP1_ext'; [eapply P1_slice0; [exact Ht|exact (Hrk _ _ _ Hy1)|apply pyb_m1|rewrite pyb_none; reflexivity]|lia|].
    intros q i _ Hi. cbv beta. f_equal. lia. }
  destruct (Hstep _ _ L _ HL Hfl Hy0) as (zx2 & y2 & zf2 & E1 & E2 & Hy2). rewrite E1. cbn [bind]. rewrite E2. cbn [bind unpack2]. clear E1 E2.
  set (y3 := if 0 <? edge then _ else y2).
  assert (Hy3 : is2 y3 B N (fun i n => one_pass fm M (bt i) (at' i) (sf i) (fun m => one_pass fm M (bt i) (at' i) (sf i) (X i) (L - 1 - m)) (edge + n))).
  { unfold y3. pose proof (proj1 (is2_P1 _ _ _ _) Hy2) as Ht. apply is2_P1. destruct (0 <? edge) eqn:E; b2p.
    - eapply isP1_ext'; [eapply P1_slice0; [exact Ht|exact (Hrk _ _ _ Hy2)|apply pyb_le; unfold L; lia|rewrite pyb_neg by lia; reflexivity]|unfold L; lia|].
      intros q i _ Hi. reflexivity.
    - fin Ht; [unfold L; lia|]. intros q i _ Hi. replace edge with 0 by lia. reflexivity. }
  clearbody y3. eexists; split; [reflexivity|]. apply is2_P1. pose proof (proj1 (is2_P1 _ _ _ _) Hy3) as Ht.
  eapply isP1_ext'; [eapply P1_flip0; [exact Ht|exact (Hrk _ _ _ Hy3)]|reflexivity|].
  intros q i _ Hi. cbv beta. unfold both_passes. fold (bt (nth 0 q 0)) (at' (nth 0 q 0)). f_equal. fold L. unfold L. lia.
Qed.

Lemma f_zx1 M (s t : ten) (sf f : nat -> F) : is1 s M sf -> is1 t 1 f ->
  exists y, tmul (R := Fl) s t = Ok y /\ is1 y M (fun k => fmul (sf k) (f 0)).
Proof.
  intros Hs Ht. apply is1_P in Hs. apply is1_P in Ht. ew2. eexists; split; [reflexivity|]. apply is1_P.
  match goal with |- isP1 ?w0 _ _ _ => match goal with H : isP1 w0 _ _ _ |- _ => fin H; auto end end.
  intros q i Hq Hi. apply vld_nil_inv in Hq as ->. cbn [nth]. rewrite ?bi_lt by lia. reflexivity.
Qed.
(** ** One signal without a batch dimension *)
Theorem C80_lfilter1 e N nb na M (b a x zx : ten) (bf af xf z0 : nat -> F) fm :
  1 <= N -> 1 <= nb -> M = Nat.max na (nb - 1) -> 1 <= M -> sequential e M -> second_form fm ->
  is1 b nb bf -> is1 a na af -> is1 x N xf -> is1 zx M z0 ->
  exists y zf, lfilter_ssm (R := Fl) e b a x (Some zx) fm (Some 1) = Ok (y, Some zf) /\
    is1 y N (fy fm M (fun _ => padz nb bf) (fun _ => padz na af) z0 xf) /\
    is1 zf M (form_h F fadd fmul fsub fm M (fun _ => padz nb bf) (fun _ => padz na af) z0 xf N).
Proof.
  intros HN Hnb EM HM He Hfm Hb Ha Hx Hz.
  assert (C : forall n (t : ten) f, is1 t n f -> fcoef (R := F) 1 n t (fun _ => f)) by (intros n t f Ht; now apply (fc_s f)).
  assert (Hx2 : is2 (unsqueeze 0 x) 1 N (fun _ => xf)).
  { destruct Hx as [Hs Hf]. split; [unfold unsqueeze; cbn [shape]; now rewrite Hs|]. intros i n Hi Hn. cbn. now rewrite Hf by exact Hn. }
  destruct (C75_lti F fadd fmul fsub mulC e 1 N nb na M b a _ _ _ _ (fun _ => z0) (Some zx) fm (le_n 1) HN Hnb EM HM Hx2 He (C _ _ _ Hb) (C _ _ _ Ha)
    (init_M Fl 1 M zx z0 (fun _ => z0) Hz (fun _ _ _ _ => eq_refl)) Hfm) as (y & zf & E & Hy & z & -> & Hzf).
  exists (squeeze 0 y), (squeeze 0 z). split; [|split; [exact (squeeze0_2 F y N _ Hy)|exact (squeeze0_2 F z M _ Hzf)]].
  revert E. unfold lfilter_ssm, lfilter_wrap.
  assert (R2 : rk (unsqueeze 0 x) = 2) by (destruct Hx2 as [Hsx _]; unfold rk; now rewrite Hsx). rewrite R2. clear R2. rkt. cbn [Nat.eqb Nat.ltb Nat.leb andb orb bind].
  destruct (ssm_lfilter e fm (Some 1) b a (unsqueeze 0 x) (Some zx)) as [[y' zf']|er]; cbn [bind]; [|discriminate].
  intro E. injection E as -> ->. reflexivity.
Qed.
Theorem C80_filtfilt1 e la N nb na M edge (b a x s : ten) (bf af xf sf : nat -> F) pm padlen fm :
  1 <= nb -> M = Nat.max na (nb - 1) -> 1 <= M -> sequential e M -> second_form fm ->
  is1 b nb bf -> is1 a na af -> is1 x N xf ->
  edge = ff_edge pm padlen nb na -> edge < N ->
  lfilter_zi (R := Fl) la a (Some b) (match fm with Tdf2 => true | _ => false end) = Ok s -> is1 s M sf ->
  exists y, filtfilt_ssm (R := Fl) e la b a x pm padlen false fm (Some 1) = Ok y /\
    is1 y N (both_passes fm M (padz nb bf) (padz na af) sf (ext_sig pm N edge xf) (N + 2 * edge) edge).
Proof.
  intros Hnb EM HM He Hfm Hb Ha Hx Eedge Hedge Es Hs.
  assert (C : forall n (t : ten) f, is1 t n f -> fcoef (R := F) 1 n t (fun _ => f)) by (intros n t f Ht; now apply (fc_s f)).
  unfold filtfilt_ssm, filtfilt_wrap. cbn [negb].
  rewrite (f_size_b F fadd fmul fsub 1 nb b _ (C _ _ _ Hb)), (f_size_a F fadd fmul fsub 1 na a _ (C _ _ _ Ha)).
  assert (Ee : match (match pm with Some _ => padlen | None => Some 0%nat end) with Some l => l | None => (3 * Nat.max nb (na + 1))%nat end = edge).
  { subst edge. unfold ff_edge. destruct pm, padlen; reflexivity. }
  rewrite Ee. clear Ee.
  assert (Hrx : rk x = 1) by (destruct Hx as [Hsx _]; unfold rk; now rewrite Hsx).
  assert (Hsz : sizen x 1 = N) by (destruct Hx as [Hsx _]; unfold sizen, size; rewrite Hrx, Hsx; reflexivity).
  rewrite Hsz, Hrx. btrue (edge <? N). set (L := N + 2 * edge).
  assert (exists xe : ten, (match pm with
      | Some pm0 => if (0 <? edge)%nat then let v := if (1 =? 1)%nat then unsqueeze 0 x else flatten 0 (1 - 2) x in
                      let p := pad_mode (R := Fl) pm0 edge v in if (1 =? 1)%nat then squeeze 0 p else p else x
      | None => x end) = xe /\ is1 xe L (ext_sig pm N edge xf)) as (xe & Exe & Hxe).
  { eexists; split; [reflexivity|].
    assert (Hno : edge = 0 -> is1 x L (ext_sig pm N edge xf)).
    { unfold L. intros ->. replace (N + 2 * 0) with N by lia. destruct Hx as [Hsx Hfx]. split; [exact Hsx|]. intros n Hn. rewrite Hfx by exact Hn. symmetry. now apply ext_sig_0. }
    destruct pm as [pm|]; [|apply Hno; exact Eedge].
    destruct (0 <? edge) eqn:E0; b2p; [|apply Hno; lia]. cbv zeta. cbn [Nat.eqb Nat.sub].
    replace L with (edge + N + edge) by (unfold L; lia).
    refine (squeeze0_2 F _ _ (fun _ => ext_sig (Some pm) N edge xf) _). apply (pad_mode_view F pm edge 1 N _ (fun _ => xf)); [exact Hedge|].
    destruct Hx as [Hsx Hfx]. split; [unfold unsqueeze; cbn [shape]; now rewrite Hsx|]. intros i n Hi Hn. cbn. now rewrite Hfx by exact Hn. }
  cbv zeta in Exe |- *. rewrite Exe. clear Exe. rewrite Es. cbn [bind].
  set (X := ext_sig pm N edge xf) in *. set (bt := padz nb bf). set (at' := padz na af).
  assert (HL : 1 <= L) by (unfold L; lia).
  assert (Hrk : forall (t : ten) n f, is1 t n f -> rk t - 1 = length (@nil nat) + 0) by (intros t n f [Ht _]; unfold rk; rewrite Ht; reflexivity).
  assert (P : forall (t : ten) n f, is1 t n f -> isP1 t [] n (fun _ => f)) by (intros t n f Ht; exact (proj2 (P1_nil t n (fun _ => f)) Ht)).
  assert (P' : forall (t : ten) n f, isP1 t [] n (fun _ => f) -> is1 t n f) by (intros t n f Ht; exact (proj1 (P1_nil t n (fun _ => f)) Ht)).
  assert (Hstep : forall (t : ten) (f : nat -> F) n (t0 : ten), 1 <= n -> is1 t n f -> is1 t0 1 (fun _ => f 0) ->
     exists zx y zf, tmul (R := Fl) s t0 = Ok zx /\ lfilter_ssm (R := Fl) e b a t (Some zx) fm (Some 1) = Ok (y, Some zf) /\
       is1 y n (one_pass fm M bt at' sf f)).
  { intros t f n t0 Hn Ht Ht0. destruct (f_zx1 M s t0 sf _ Hs Ht0) as (zx & Ez & Hz).
    destruct (C80_lfilter1 e n nb na M b a t zx bf af f _ fm Hn Hnb EM HM He Hfm Hb Ha Ht Hz) as (y & zf & E & Hy & _).
    exists zx, y, zf. auto. }
  assert (Hx0 : is1 (slice (rk xe - 1) None (Some 1%Z) xe) 1 (fun _ => X 0)).
  { apply P'. eapply isP1_ext'; [eapply P1_slice0; [exact (P _ _ _ Hxe)|exact (Hrk _ _ _ Hxe)|apply pyb_none|rewrite pyb_1 by lia; reflexivity]|reflexivity|].
    intros q i _ Hi. cbv beta. now replace i with 0 by lia. }
  destruct (Hstep xe X L _ HL Hxe Hx0) as (zx1 & y1 & zf1 & E1 & E2 & Hy1). rewrite E1. cbn [bind]. rewrite E2. cbn [bind unpack2]. clear E1 E2.
  assert (Hfl : is1 (flip (rk y1 - 1) y1) L (fun n => one_pass fm M bt at' sf X (L - 1 - n))).
  { apply P'. eapply isP1_ext'; [eapply P1_flip0; [exact (P _ _ _ Hy1)|exact (Hrk _ _ _ Hy1)]|reflexivity|]. reflexivity. }
  assert (Hy0 : is1 (slice (rk y1 - 1) (Some (-1)%Z) None y1) 1 (fun _ => one_pass fm M bt at' sf X (L - 1 - 0))).
  { apply P'. eapply isP1_ext'; [eapply P1_slice0; [exact (P _ _ _ Hy1)|exact (Hrk _ _ _ Hy1)|apply pyb_m1|rewrite pyb_none; reflexivity]|lia|].
    intros q i _ Hi. cbv beta. f_equal. lia. }
  destruct (Hstep _ _ L _ HL Hfl Hy0) as (zx2 & y2 & zf2 & E1 & E2 & Hy2). rewrite E1. cbn [bind]. rewrite E2. cbn [bind unpack2]. clear E1 E2.
  set (y3 := if 0 <? edge then _ else y2).
  assert (Hy3 : is1 y3 N (fun n => one_pass fm M bt at' sf (fun m => one_pass fm M bt at' sf X (L - 1 - m)) (edge + n))).
  { unfold y3. pose proof (P _ _ _ Hy2) as Ht. apply P'. destruct (0 <? edge) eqn:E; b2p.
    - eapply isP1_ext'; [eapply P1_slice0; [exact Ht|exact (Hrk _ _ _ Hy2)|apply pyb_le; unfold L; lia|rewrite pyb_neg by lia; reflexivity]|unfold L; lia|].
      intros q i _ Hi. reflexivity.
    - fin Ht; [unfold L; lia|]. intros q i _ Hi. replace edge with 0 by lia. reflexivity. }
  clearbody y3. eexists; split; [reflexivity|]. apply P'.
  eapply isP1_ext'; [eapply P1_flip0; [exact (P _ _ _ Hy3)|exact (Hrk _ _ _ Hy3)]|reflexivity|].
  intros q i _ Hi. cbv beta. unfold both_passes. fold bt at'. f_equal. fold L. unfold L. lia.
Qed.
Lemma pass_ext fm M b a s (x x' : nat -> F) n : 1 <= M -> (forall m, m <= n -> x m = x' m) -> one_pass fm M b a s x n = one_pass fm M b a s x' n.
Proof. intros HM H. unfold one_pass. apply fy_ext; auto. intros. rewrite H by lia. reflexivity. Qed.
Lemma both_ext fm M b a s (x x' : nat -> F) L e n : 1 <= M -> 1 <= L -> (forall m, m < L -> x m = x' m) ->
  both_passes fm M b a s x L e n = both_passes fm M b a s x' L e n.
Proof. intros HM HL H. unfold both_passes. apply pass_ext; [exact HM|]. intros m _. apply pass_ext; [exact HM|]. intros k Hk. apply H. lia. Qed.
Lemma both_scale sc (HS : scales Fl sc) fm M b a s (x : nat -> F) L e n : 1 <= M ->
  both_passes fm M b a s (fun m => sc (x m)) L e n = sc (both_passes fm M b a s x L e n).
Proof.
  intro HM. assert (P : forall y k, one_pass fm M b a s (fun m => sc (y m)) k = sc (one_pass fm M b a s y k)).
  { intros y k. unfold one_pass. rewrite <- (fy_scale F fadd fmul fsub sc HS). apply fy_ext; auto. intros. symmetry. apply HS. }
  unfold both_passes. rewrite <- P. apply pass_ext; [exact HM|]. intros. apply P.
Qed.
Lemma ext_same pm N e (x x' : nat -> F) n : e < N -> n < N + 2 * e -> (pm = None -> e = 0) -> (forall k, k < N -> x k = x' k) -> ext_sig pm N e x n = ext_sig pm N e x' n.
Proof.
  intros He Hn H0 H. destruct pm as [[]|]; cbn [ext_sig]; [| | | |apply H; rewrite H0 in Hn by reflexivity; lia];
    unfold ext_replicate, ext_reflect, ext_circular, ext_zero, extend; destruct (Nat.ltb_spec n e); try (destruct (Nat.ltb_spec (n - e) N)); try reflexivity; apply H; lia.
Qed.
Lemma ext_scale (sc : F -> F) (S0 : sc (@r0 F) = @r0 F) pm N e (x : nat -> F) n : ext_sig pm N e (fun k => sc (x k)) n = sc (ext_sig pm N e x n).
Proof.
  destruct pm as [[]|]; cbn [ext_sig]; try reflexivity;
    unfold ext_replicate, ext_reflect, ext_circular, ext_zero, extend; destruct (Nat.ltb_spec n e); try (destruct (Nat.ltb_spec (n - e) N)); now rewrite ?S0.
Qed.

(** ** Consequences *)
(** Two runs, on two rows of possibly different signals and back-ends: same coefficients and samples of the rows, same outputs. *)
Theorem C80_rows e e' la B B' N nb na M edge (b a x x' s : ten) (bf af sf : nat -> F) (xf xf' : nat -> nat -> F) pm padlen fm :
  1 <= B -> 1 <= B' -> 1 <= nb -> M = Nat.max na (nb - 1) -> 1 <= M -> sequential e M -> sequential e' M -> second_form fm ->
  is1 b nb bf -> is1 a na af -> is2 x B N xf -> is2 x' B' N xf' ->
  edge = ff_edge pm padlen nb na -> edge < N ->
  lfilter_zi (R := Fl) la a (Some b) (match fm with Tdf2 => true | _ => false end) = Ok s -> is1 s M sf ->
  exists y y', filtfilt_ssm (R := Fl) e la b a x pm padlen false fm (Some 1) = Ok y /\
    filtfilt_ssm (R := Fl) e' la b a x' pm padlen false fm (Some 1) = Ok y' /\ shape y = [B; N] /\ shape y' = [B'; N] /\
    forall i i', i < B -> i' < B' -> (forall n, n < N -> xf i n = xf' i' n) -> forall n, n < N -> at_ y [i; n] = at_ y' [i'; n].
Proof.
  intros HB HB' Hnb EM HM He He' Hfm Hb Ha Hx Hx' Ee Hedge Es Hs.
  assert (C : forall B n (t : ten) f, is1 t n f -> fcoef (R := F) B n t (fun _ => f)) by (intros B0 n t f Ht; now apply (fc_s f)).
  destruct (C80_filtfilt e la B N nb na M edge b a x s _ _ xf _ pm padlen fm HB Hnb EM HM He Hfm (C _ _ _ _ Hb) (C _ _ _ _ Ha) Hx Ee Hedge Es (C _ _ _ _ Hs)) as (y & E & Hy).
  destruct (C80_filtfilt e' la B' N nb na M edge b a x' s _ _ xf' _ pm padlen fm HB' Hnb EM HM He' Hfm (C _ _ _ _ Hb) (C _ _ _ _ Ha) Hx' Ee Hedge Es (C _ _ _ _ Hs)) as (y' & E' & Hy').
  exists y, y'. split; [exact E|]. split; [exact E'|]. split; [exact (proj1 Hy)|]. split; [exact (proj1 Hy')|].
  intros i i' Hi Hi' Hr n Hn. rewrite (proj2 Hy i n Hi Hn), (proj2 Hy' i' n Hi' Hn).
  apply both_ext; [exact HM|lia|]. intros m Hm. apply ext_same; try assumption. intros ->. exact Ee.
Qed.
(** A signal on its own and as a row of a batch. *)
Theorem C80_one e e' la B N nb na M edge (b a x x' s : ten) (bf af sf xf : nat -> F) (xf' : nat -> nat -> F) pm padlen fm :
  1 <= B -> 1 <= nb -> M = Nat.max na (nb - 1) -> 1 <= M -> sequential e M -> sequential e' M -> second_form fm ->
  is1 b nb bf -> is1 a na af -> is1 x N xf -> is2 x' B N xf' ->
  edge = ff_edge pm padlen nb na -> edge < N ->
  lfilter_zi (R := Fl) la a (Some b) (match fm with Tdf2 => true | _ => false end) = Ok s -> is1 s M sf ->
  exists y y', filtfilt_ssm (R := Fl) e la b a x pm padlen false fm (Some 1) = Ok y /\
    filtfilt_ssm (R := Fl) e' la b a x' pm padlen false fm (Some 1) = Ok y' /\ shape y = [N] /\ shape y' = [B; N] /\
    forall i, i < B -> (forall n, n < N -> xf n = xf' i n) -> forall n, n < N -> at_ y [n] = at_ y' [i; n].
Proof.
  intros HB Hnb EM HM He He' Hfm Hb Ha Hx Hx' Ee Hedge Es Hs.
  assert (C : forall B n (t : ten) f, is1 t n f -> fcoef (R := F) B n t (fun _ => f)) by (intros B0 n t f Ht; now apply (fc_s f)).
  destruct (C80_filtfilt1 e la N nb na M edge b a x s _ _ xf _ pm padlen fm Hnb EM HM He Hfm Hb Ha Hx Ee Hedge Es Hs) as (y & E & Hy).
  destruct (C80_filtfilt e' la B N nb na M edge b a x' s _ _ xf' _ pm padlen fm HB Hnb EM HM He' Hfm (C _ _ _ _ Hb) (C _ _ _ _ Ha) Hx' Ee Hedge Es (C _ _ _ _ Hs)) as (y' & E' & Hy').
  exists y, y'. split; [exact E|]. split; [exact E'|]. split; [exact (proj1 Hy)|]. split; [exact (proj1 Hy')|].
  intros i Hi Hr n Hn. rewrite (proj2 Hy n Hn), (proj2 Hy' i n Hi Hn).
  apply both_ext; [exact HM|lia|]. intros m Hm. apply ext_same; try assumption. intros ->. exact Ee.
Qed.
(** Maps of the numbers that commute with the operations pass through, also through the choice of the initial states and the extension. *)
Theorem C80_scale sc e la B N nb na M edge (b a x x' s : ten) (bf af xf sf : nat -> nat -> F) pm padlen fm :
  scales Fl sc -> 1 <= B -> 1 <= nb -> M = Nat.max na (nb - 1) -> 1 <= M -> sequential e M -> second_form fm ->
  fcoef (R := F) B nb b bf -> fcoef (R := F) B na a af -> is2 x B N xf -> is2 x' B N (fun i n => sc (xf i n)) ->
  edge = ff_edge pm padlen nb na -> edge < N ->
  lfilter_zi (R := Fl) la a (Some b) (match fm with Tdf2 => true | _ => false end) = Ok s -> fcoef (R := F) B M s sf ->
  exists y y' yf, filtfilt_ssm (R := Fl) e la b a x pm padlen false fm (Some 1) = Ok y /\
    filtfilt_ssm (R := Fl) e la b a x' pm padlen false fm (Some 1) = Ok y' /\
    is2 y B N yf /\ is2 y' B N (fun i n => sc (yf i n)).
Proof.
  intros HS HB Hnb EM HM He Hfm Hb Ha Hx Hx' Ee Hedge Es Hs.
  destruct (C80_filtfilt e la B N nb na M edge b a x s _ _ xf _ pm padlen fm HB Hnb EM HM He Hfm Hb Ha Hx Ee Hedge Es Hs) as (y & E & Hy).
  destruct (C80_filtfilt e la B N nb na M edge b a x' s _ _ _ _ pm padlen fm HB Hnb EM HM He Hfm Hb Ha Hx' Ee Hedge Es Hs) as (y' & E' & Hy').
  exists y, y'. eexists. split; [exact E|]. split; [exact E'|]. split; [exact Hy|]. eapply is2_ext; [exact Hy'|]. intros i n Hi Hn. cbv beta.
  rewrite <- (both_scale sc HS). 2: exact HM. apply both_ext; [exact HM|lia|]. intros m Hm. apply ext_scale. apply HS.
Qed.
Theorem C80_scale1 sc e la N nb na M edge (b a x x' s : ten) (bf af xf sf : nat -> F) pm padlen fm :
  scales Fl sc -> 1 <= nb -> M = Nat.max na (nb - 1) -> 1 <= M -> sequential e M -> second_form fm ->
  is1 b nb bf -> is1 a na af -> is1 x N xf -> is1 x' N (fun n => sc (xf n)) ->
  edge = ff_edge pm padlen nb na -> edge < N ->
  lfilter_zi (R := Fl) la a (Some b) (match fm with Tdf2 => true | _ => false end) = Ok s -> is1 s M sf ->
  exists y y' yf, filtfilt_ssm (R := Fl) e la b a x pm padlen false fm (Some 1) = Ok y /\
    filtfilt_ssm (R := Fl) e la b a x' pm padlen false fm (Some 1) = Ok y' /\
    is1 y N yf /\ is1 y' N (fun n => sc (yf n)).
Proof.
  intros HS Hnb EM HM He Hfm Hb Ha Hx Hx' Ee Hedge Es Hs.
  destruct (C80_filtfilt1 e la N nb na M edge b a x s _ _ xf _ pm padlen fm Hnb EM HM He Hfm Hb Ha Hx Ee Hedge Es Hs) as (y & E & Hy).
  destruct (C80_filtfilt1 e la N nb na M edge b a x' s _ _ _ _ pm padlen fm Hnb EM HM He Hfm Hb Ha Hx' Ee Hedge Es Hs) as (y' & E' & Hy').
  exists y, y'. eexists. split; [exact E|]. split; [exact E'|]. split; [exact Hy|]. split; [exact (proj1 Hy')|]. intros n Hn. rewrite (proj2 Hy' n Hn).
  rewrite <- (both_scale sc HS). 2: exact HM. apply both_ext; [exact HM|lia|]. intros m Hm. apply ext_scale. apply HS.
Qed.
End S.
Print Assumptions C80_filtfilt.
Print Assumptions C80_lfilter1.
Print Assumptions C80_filtfilt1.
Print Assumptions C80_rows.
Print Assumptions C80_one.
Print Assumptions C80_scale.
Print Assumptions C80_scale1.

(** ** Examples, 3-bit numbers *)
(** The steady state of 1/(1 - 5/4 z^-1 + 3/4 z^-2) is (2, 2), the solution of (I - A) s = (1, 0). *)
Definition k_s : ten3 := lst1 (q 0 1) [q 2 1; q 2 1].
Definition k_la : linalg F3 := mkLinalg F3 (fun _ => Err RuntimeError) (fun _ _ => Ok k_s) (fun _ => Err RuntimeError) (fun _ _ => q 0 1).
Definition k_x : list Qc := [q 1 2; q (-3) 4; q 7 4; q 1 1; q 5 8; q 1 1].
Definition k_X : ten3 := lst2 (q 0 1) [k_x; c_x].
Definition ff_val (r : res ten3) (i n : nat) : option Q := match r with Ok y => Some (this (at_ y [i; n])) | _ => None end.
Lemma k_zi : lfilter_zi (R := F3) k_la c_a (Some c_b) false = Ok k_s.
Proof. reflexivity. Qed.
(** The second of two rows, and that row alone. *)
Example C80_ex : exists y y', filtfilt_ssm (R := F3) env0 k_la c_b c_a k_X (Some Reflect) (Some 4) false Df2 (Some 1) = Ok y /\
    filtfilt_ssm (R := F3) env0 k_la c_b c_a (row c_x) (Some Reflect) (Some 4) false Df2 (Some 1) = Ok y' /\ shape y = [2; 6] /\
    forall n, n < 6 -> at_ y [1; n] = at_ y' [0; n].
Proof.
  destruct (C80_rows Qofield _ _ _ mul3_comm env0 env0 k_la 2 1 6 3 2 2 4 c_b c_a k_X (row c_x) k_s
    (fun k => nth k [q 3 2; q (-7) 8; q 5 8] (q 0 1)) (fun k => nth k [q (-5) 4; q 3 4] (q 0 1)) (fun k => nth k [q 2 1; q 2 1] (q 0 1))
    (fun i n => nth n (nth i [k_x; c_x] []) (q 0 1)) (fun _ n => nth n c_x (q 0 1)) (Some Reflect) (Some 4) Df2) as (y & y' & E & E' & Hs & _ & H); try lia.
  - apply seq_env0.
  - apply seq_env0.
  - left; reflexivity.
  - split; reflexivity.
  - split; reflexivity.
  - split; reflexivity.
  - apply row_is; reflexivity.
  - reflexivity.
  - exact k_zi.
  - split; reflexivity.
  - exists y, y'. split; [exact E|]. split; [exact E'|]. split; [exact Hs|]. intros n Hn. apply H; try lia. reflexivity.
Qed.
(** The same row as a signal without a batch dimension. *)
Definition k_1 : ten3 := lst1 (q 0 1) c_x.
Example C80_one_ex : exists y y', filtfilt_ssm (R := F3) env0 k_la c_b c_a k_1 (Some Replicate) (Some 2) false Df2 (Some 1) = Ok y /\
    filtfilt_ssm (R := F3) env0 k_la c_b c_a k_X (Some Replicate) (Some 2) false Df2 (Some 1) = Ok y' /\ shape y = [6] /\ shape y' = [2; 6] /\
    forall n, n < 6 -> at_ y [n] = at_ y' [1; n].
Proof.
  destruct (C80_one Qofield _ _ _ mul3_comm env0 env0 k_la 2 6 3 2 2 2 c_b c_a k_1 k_X k_s
    (fun k => nth k [q 3 2; q (-7) 8; q 5 8] (q 0 1)) (fun k => nth k [q (-5) 4; q 3 4] (q 0 1)) (fun k => nth k [q 2 1; q 2 1] (q 0 1))
    (fun n => nth n c_x (q 0 1)) (fun i n => nth n (nth i [k_x; c_x] []) (q 0 1)) (Some Replicate) (Some 2) Df2) as (y & y' & E & E' & Hs & Hs' & H); try lia.
  - apply seq_env0.
  - apply seq_env0.
  - left; reflexivity.
  - split; reflexivity.
  - split; reflexivity.
  - split; reflexivity.
  - split; reflexivity.
  - reflexivity.
  - exact k_zi.
  - split; reflexivity.
  - exists y, y'. split; [exact E|]. split; [exact E'|]. split; [exact Hs|]. split; [exact Hs'|]. intros n Hn. apply H; try lia. reflexivity.
Qed.
(** The signal times any power of two, with either sign. *)
Example C80_scale_ex neg k : exists y y' yf, filtfilt_ssm (R := F3) env0 k_la c_b c_a (row c_x) (Some Circular) (Some 5) false Df2 (Some 1) = Ok y /\
    filtfilt_ssm (R := F3) env0 k_la c_b c_a (row (map (scale2 neg k) c_x)) (Some Circular) (Some 5) false Df2 (Some 1) = Ok y' /\
    is2 y 1 6 yf /\ is2 y' 1 6 (fun i n => scale2 neg k (yf i n)).
Proof.
  apply (C80_scale Qofield _ _ _ mul3_comm (scale2 neg k) env0 k_la 1 6 3 2 2 5 c_b c_a (row c_x) _ k_s
    (fun _ k => nth k [q 3 2; q (-7) 8; q 5 8] (q 0 1)) (fun _ k => nth k [q (-5) 4; q 3 4] (q 0 1)) (fun _ n => nth n c_x (q 0 1))
    (fun _ k => nth k [q 2 1; q 2 1] (q 0 1))); try lia.
  - apply float_scales.
  - apply seq_env0.
  - left; reflexivity.
  - exact c_b_is.
  - apply (fc_s (fun k => nth k [q (-5) 4; q 3 4] (q 0 1) : Qofield)); [split; reflexivity|reflexivity].
  - apply row_is; reflexivity.
  - apply row_is; [reflexivity|]. intros j Hj. do 6 (destruct j as [|j]; [reflexivity|]). lia.
  - reflexivity.
  - exact k_zi.
  - apply (fc_s (fun k => nth k [q 2 1; q 2 1] (q 0 1) : Qofield)); [split; reflexivity|reflexivity].
Qed.
Definition k_1s (neg : bool) (k : Z) : ten3 := lst1 (q 0 1) (map (scale2 neg k) c_x).
Example C80_scale1_ex neg k : exists y y' yf, filtfilt_ssm (R := F3) env0 k_la c_b c_a k_1 (Some Constant) (Some 5) false Df2 (Some 1) = Ok y /\
    filtfilt_ssm (R := F3) env0 k_la c_b c_a (k_1s neg k) (Some Constant) (Some 5) false Df2 (Some 1) = Ok y' /\
    is1 y 6 yf /\ is1 y' 6 (fun n => scale2 neg k (yf n)).
Proof.
  apply (C80_scale1 Qofield _ _ _ mul3_comm (scale2 neg k) env0 k_la 6 3 2 2 5 c_b c_a k_1 _ k_s
    (fun k => nth k [q 3 2; q (-7) 8; q 5 8] (q 0 1)) (fun k => nth k [q (-5) 4; q 3 4] (q 0 1)) (fun n => nth n c_x (q 0 1))
    (fun k => nth k [q 2 1; q 2 1] (q 0 1))); try lia.
  - apply float_scales.
  - apply seq_env0.
  - left; reflexivity.
  - split; reflexivity.
  - split; reflexivity.
  - split; reflexivity.
  - split; [reflexivity|]. intros j Hj. do 6 (destruct j as [|j]; [reflexivity|]). lia.
  - reflexivity.
  - exact k_zi.
  - split; reflexivity.
Qed.
(** The signal times -8. *)
Definition ff_outs (x : list Qc) : list (option Q) := map (ff_val (filtfilt_ssm (R := F3) env0 k_la c_b c_a (row x) (Some Reflect) (Some 1) false Df2 (Some 1)) 0) (seq 0 (length x)).
Example C80_values :
  ff_outs (firstn 3 c_x) = map Some [6 # 1; 4 # 1; 7 # 8]%Q /\
  ff_outs (map (scale2 true 3) (firstn 3 c_x)) = map Some [-48 # 1; -32 # 1; -7 # 1]%Q.
Proof. split; vm_compute; reflexivity. Qed.
