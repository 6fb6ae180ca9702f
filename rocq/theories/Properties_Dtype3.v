(** Element types of filters with states and of the parameter-varying filters (C68). *)
From Coq Require Import List Arith Lia Bool.
From Verif Require Import Tensor M_LtiSsm M_LtiFilter M_Dtype M_Dtype2 M_Dtype3 SpecDtype Properties_Dtype Properties_Dtype2.
Import ListNotations.
Open Scope res_scope.

(** The smallest type that includes both. *)
Definition least (a b d : dtype) : Prop := sub a d /\ sub b d /\ forall c, sub a c -> sub b c -> sub d c.
Lemma promote_least a b d : promote a b = d <-> least a b d.
Proof.
  destruct (C60_promote_lub a b) as (H1 & H2 & H3). split; [intros <-; now split|].
  intros (H4 & H5 & H6). apply sub_antisym; auto.
Qed.
Lemma promote_into a b d : sub a d -> sub b d -> sub (promote a b) d.
Proof. apply (C60_promote_lub a b). Qed.

Lemma promote_twice r z : promote (promote r z) r = promote z r.
Proof. now destruct r, z. Qed.

(** ** fir *)
Theorem C68_fir : forall transpose b x zi y zf,
  fir_d transpose b x zi = Ok (y, zf) <->
  if transpose then x = b /\ match zi with None => y = b /\ zf = None | Some z => least z b y /\ zf = Some b end
  else y = b /\ match zi with None => x = b /\ zf = None | Some z => least z x b /\ zf = Some b end.
Proof.
  intros tr b x zi y zf. destruct tr; cbn [fir_d].
  - split.
    + destruct (mm_d x b) as [r|] eqn:E; [|discriminate]. apply mm_ok in E as [-> ->]. cbn [bind]. split; [reflexivity|].
      destruct zi as [z|]; injection H as <- <-; [split; [now apply promote_least|]|]; auto.
    + intros [-> H]. rewrite (proj2 (mm_ok b b b)) by auto. cbn [bind].
      destruct zi as [z|]; destruct H as [H ->]; [apply promote_least in H|]; congruence.
  - split.
    + destruct (mm_d _ b) as [r|] eqn:E; [|discriminate]. apply mm_ok in E as [E ->]. cbn [bind]. intro H. injection H as <- <-.
      split; [reflexivity|]. destruct zi as [z|]; [|auto]. split; [now apply promote_least|congruence].
    + intros [-> H]. destruct zi as [z|]; destruct H as [H ->].
      * apply promote_least in H. rewrite H. now rewrite (proj2 (mm_ok b b b)).
      * rewrite H. now rewrite (proj2 (mm_ok b b b)).
Qed.
Print Assumptions C68_fir.
(** lpv.fir accepts the same types, except integers. *)
Theorem C68_lpv_fir : forall transpose b x zi y zf,
  lpv_fir_d transpose b x zi = Ok (y, zf) <-> b <> I64 /\ fir_d transpose b x zi = Ok (y, zf).
Proof.
  intros tr b x zi y zf. destruct tr; cbn [fir_d lpv_fir_d].
  - split.
    + destruct (vecdot_d b x) as [r|] eqn:E; [|discriminate]. apply vecdot_ok in E as (-> & -> & Hi). cbn [bind].
      rewrite (proj2 (mm_ok r r r)) by auto. cbn [bind]. intro H. split; [exact Hi|]. destruct zi as [z|]; [|exact H].
      rewrite <- H. do 2 f_equal. now rewrite promote_twice.
    + intros [Hi H]. destruct (mm_d x b) as [r|] eqn:E; [|discriminate]. apply mm_ok in E as [-> ->]. cbn [bind] in H.
      rewrite (proj2 (vecdot_ok r r r)) by auto. cbn [bind]. destruct zi as [z|]; [|exact H]. rewrite <- H.
      do 2 f_equal. now rewrite promote_twice.
  - assert (E0 : promote (match zi with None => x | Some z => z end) x = match zi with None => x | Some z => promote z x end)
      by (destruct zi; [reflexivity|apply promote_idem]). rewrite E0.
    set (p := match zi with None => x | Some z => promote z x end).
    assert (E1 : match zi with None => None | Some _ => Some p end = match zi with None => None | Some _ => Some p end) by reflexivity.
    split.
    + destruct (vecdot_d p b) as [r|] eqn:E; [|discriminate]. apply vecdot_ok in E as (Ep & -> & Hi). rewrite Ep.
      rewrite (proj2 (mm_ok r r r)) by auto. auto.
    + intros [Hi H]. destruct (mm_d p b) as [r|] eqn:E; [|discriminate]. apply mm_ok in E as [Ep ->]. rewrite Ep in *.
      now rewrite (proj2 (vecdot_ok r r r)).
Qed.
Print Assumptions C68_lpv_fir.
(** The direct and the transposed implementation agree without a state; with a state
    neither accepts all that the other accepts. *)
Theorem C68_fir_rest : forall b x, fir_d true b x None = fir_d false b x None.
Proof. intros b x. cbn. now destruct (mm_d x b). Qed.
Print Assumptions C68_fir_rest.
Theorem C68_fir_forms_refuted : forall d e, sub e d -> e <> d ->
  fir_d false d e (Some d) = Ok (d, Some d) /\ (forall r, fir_d true d e (Some d) <> Ok r) /\
  fir_d true e e (Some d) = Ok (d, Some e) /\ (forall r, fir_d false e e (Some d) <> Ok r).
Proof.
  intros d e Hs Hn. assert (L : least d e d) by (split; [apply sub_refl|split; [exact Hs|auto]]).
  split; [apply C68_fir; auto|]. split.
  { intros [y zf] H. apply C68_fir in H as [H _]. auto. }
  split; [apply C68_fir; auto|].
  intros [y zf] H. apply C68_fir in H as (_ & (H & _) & _). apply Hn. now apply sub_antisym.
Qed.
Print Assumptions C68_fir_forms_refuted.
(** The next call with the state of this one: the direct form returns the same types; the
    transposed form returns the type of b, which may not be the type it returned first. *)
Theorem C68_fir_next : forall transpose b x z y zf, fir_d transpose b x (Some z) = Ok (y, zf) ->
  zf = Some b /\ fir_d transpose b x zf = Ok (b, Some b) /\ (transpose = false -> y = b) /\ (y = b <-> sub z b).
Proof.
  intros tr b x z y zf H. apply C68_fir in H. destruct tr.
  - destruct H as (-> & L & ->). split; [reflexivity|]. split.
    { apply C68_fir. split; [reflexivity|]. split; [|reflexivity]. split; [apply sub_refl|split; [apply sub_refl|auto]]. }
    split; [discriminate|]. apply promote_least in L. rewrite <- L. apply promote_sub.
  - destruct H as (-> & (L1 & L2 & L3) & ->). split; [reflexivity|]. split.
    { apply C68_fir. split; [reflexivity|]. split; [|reflexivity]. split; [apply sub_refl|split; [exact L2|auto]]. }
    split; [reflexivity|]. split; auto.
Qed.
Print Assumptions C68_fir_next.
Example C68_fir_ex : sub F32 C64 /\
  fir_d false C64 F32 (Some C64) = Ok (C64, Some C64) /\ fir_d true C64 F32 (Some C64) = Err RuntimeError /\
  fir_d true F32 F32 (Some F64) = Ok (F64, Some F32) /\ fir_d false F32 F32 (Some F64) = Err RuntimeError /\
  fir_d false I64 I64 None = Ok (I64, None) /\ lpv_fir_d false I64 I64 None = Err RuntimeError /\
  lpv_fir_d false C128 F64 (Some C64) = Ok (C128, Some C128) /\ lpv_fir_d true F32 F32 (Some F64) = Ok (F64, Some F32).
Proof. split; [repeat split; cbn; lia|]. repeat split. Qed.

(** ** lfilter with states *)
Lemma promote0_into x b d : sub x d -> sub b d -> sub (promote0 x b) d.
Proof. intros (H1 & H2 & H3) (H4 & H5 & H6). destruct x, b, d; cbn in *; try lia; repeat split; cbn; lia. Qed.
Lemma how_D_into (bb : bool) bs x b d : sub x d -> sub b d -> exists r, sub r d /\
  (let* k := how_D (if bb then [bs] else []) bs None in let* r := mult_d k x b in Ok (Some r)) = Ok (Some r).
Proof.
  intros Hx Hb. destruct bb; cbn [how_D].
  - cbn [feq]. rewrite Nat.eqb_refl. cbn [negb bind mult_d]. eexists. split; [|reflexivity]. now apply promote_into.
  - cbn [bind mult_d]. eexists. split; [|reflexivity]. now apply promote0_into.
Qed.
Lemma promote_r d r : sub r d -> promote d r = d.
Proof. intro H. rewrite promote_comm. now apply promote_sub. Qed.
Definition states (zi zf : option dtype) (x d : dtype) : Prop :=
  match zi with None => x = d /\ zf = None | Some z => z = d /\ zf = Some d end.
Lemma states_z zi zf x d : states zi zf x d <-> match zi with None => x | Some z => z end = d /\ (if if zi then true else false then Some d else None) = zf.
Proof. destruct zi; cbn; split; intros [-> H]; split; congruence. Qed.

Theorem C68_lfilter : forall ext cuda fm bs N M ba bb b a x zi uf d zf,
  1 <= bs -> 1 <= N -> 1 <= M -> uf_ok uf -> (ext = false \/ supported d) -> fm <> OtherForm ->
  lfilter_state_d ext cuda fm bs N M ba bb b a x zi uf = Ok (d, zf) <->
  a = d /\
  match fm with
  | Df2 => x = d /\ states zi zf x d /\ sub b d /\ (ba || bb = true -> d <> I64)
  | Tdf2 => sub x d /\ states zi zf x d /\ sub b d
  | _ => x = d /\ b = d /\ zf = None
  end.
Proof.
  intros ext cuda fm bs N M ba bb b a x zi uf d zf Hbs HN HM Hu Hs Hf.
  assert (F1 : fm = Df1 \/ fm = Tdf1 -> (let* y := lfilter_d ext cuda fm bs N M ba bb b a x uf in Ok (y, None)) = Ok (d, zf) <->
    a = d /\ x = d /\ b = d /\ zf = None).
  { intros Hd. pose proof (C60_lfilter ext cuda fm bs N M ba bb b a x uf d Hbs HN HM Hu Hs Hf) as L. split.
    - destruct (lfilter_d _ _ _ _ _ _ _ _ _ _ _ _) as [y|] eqn:E; [|discriminate]. cbn [bind]. intro H. injection H as -> <-.
      destruct (proj1 L eq_refl) as (-> & -> & H). destruct Hd as [-> | ->]; auto.
    - intros (Ea & Ex & Eb & ->). rewrite (proj2 L); [reflexivity|]. split; [exact Ea|]. split; [exact Ex|]. destruct Hd as [-> | ->]; exact Eb. }
  pose proof (uf_pos N uf HN Hu) as Hu'.
  destruct fm; [| |apply F1; auto|apply F1; auto|congruence]; clear F1; unfold lfilter_state_d, state_space_d;
    set (u := match uf with Some u => u | None => round_sqrt N end) in *; set (z := match zi with None => x | Some z => z end).
  - cbn [bind]. fold (runner ext cuda N M u a z x). split.
    + destruct (runner ext cuda N M u a z x) as [h|] eqn:Eh; [|discriminate]. apply runner_ok in Eh as (-> & Ez & ->); [|exact Hu']. cbn [bind].
      rewrite Ez, promote_idem.
      match goal with |- bind ?e _ = _ -> _ => destruct e as [Dx|] eqn:ED; [|discriminate] end. cbn [bind].
      match goal with |- bind ?e _ = _ -> _ => destruct e as [Ch|] eqn:EC; [|discriminate] end. cbn [bind]. intro E.
      assert (EC' : Ch = h /\ sub b h /\ (ba || bb = true -> h <> I64)).
      { destruct (ba || bb) eqn:Eb; cbn [how_C] in EC; rewrite !Nat.eqb_refl in EC; cbn [andb bind mult_d] in EC.
        - apply vecdot_ok in EC as (E1 & E2 & E3). split; [congruence|]. split; [apply promote_sub; congruence|congruence].
        - apply mm_ok in EC as (E1 & E2). split; [congruence|]. split; [apply promote_sub; congruence|discriminate]. }
      destruct EC' as (-> & Hb & Hi). destruct (how_D_into bb bs h b h (sub_refl h) Hb) as (r & Hr & ED'). rewrite ED' in ED. injection ED as <-.
      rewrite promote_r in E by exact Hr. injection E as <- <-. split; [reflexivity|]. split; [reflexivity|]. split; [now apply states_z|]. auto.
    + intros (-> & -> & Hz & Hb & Hi). apply states_z in Hz as [Hz Hzf]. fold z in Hz. rewrite Hz, runner_run by assumption. cbn [bind].
      rewrite promote_idem. destruct (how_D_into bb bs d b d (sub_refl d) Hb) as (r & Hr & ED'). rewrite ED'. cbn [bind].
      pose proof (proj2 (promote_sub b d) Hb) as Eb. rewrite Eb.
      destruct (ba || bb); cbn [how_C]; rewrite !Nat.eqb_refl; cbn [andb bind mult_d].
      * rewrite (proj2 (vecdot_ok d d d)) by auto. cbn [bind]. rewrite promote_r by exact Hr. now rewrite Hzf.
      * rewrite (proj2 (mm_ok d d d)) by auto. cbn [bind]. rewrite promote_r by exact Hr. now rewrite Hzf.
  - assert (EB : forall y, (let* k := how_B (if ba || bb then [bs; M] else [M]) bs M None in mult_d k x y) = Ok (promote x y)).
    { intro y. destruct (ba || bb); cbn [how_B]; rewrite !Nat.eqb_refl; reflexivity. }
    rewrite EB. cbn [bind]. fold (runner ext cuda N M u a z (promote x (promote b a))). split.
    + destruct (runner ext cuda N M u a z (promote x (promote b a))) as [h|] eqn:Eh; [|discriminate]. apply runner_ok in Eh as (-> & Ez & Ep); [|exact Hu']. cbn [bind].
      rewrite Ez, promote_idem. apply promote_least in Ep as (Hx & Hp & _). destruct (C60_promote_lub b h) as (Hb & _).
      apply (fun H => sub_trans _ _ _ H Hp) in Hb.
      destruct (how_D_into bb bs x b h Hx Hb) as (r & Hr & ED'). rewrite ED'. cbn [bind]. rewrite promote_r by exact Hr.
      intro E. injection E as <- <-. split; [reflexivity|]. split; [exact Hx|]. split; [now apply states_z|exact Hb].
    + intros (-> & Hx & Hz & Hb). apply states_z in Hz as [Hz Hzf]. fold z in Hz. rewrite Hz, (proj2 (promote_sub b d) Hb), (proj2 (promote_sub x d) Hx), runner_run by assumption.
      cbn [bind]. rewrite promote_idem. destruct (how_D_into bb bs x b d Hx Hb) as (r & Hr & ED'). rewrite ED'. cbn [bind]. rewrite promote_r by exact Hr. now rewrite Hzf.
Qed.
Print Assumptions C68_lfilter.
(** With a state of the filter's type, tdf2 filters a signal of a smaller type and df2 does
    not; without a state neither does: zeros must be passed. *)
Theorem C68_lfilter_zeros_refuted : forall ext cuda bs N M ba bb b x d uf,
  1 <= bs -> 1 <= N -> 1 <= M -> uf_ok uf -> supported d -> sub b d -> sub x d -> x <> d ->
  lfilter_state_d ext cuda Tdf2 bs N M ba bb b d x (Some d) uf = Ok (d, Some d) /\
  (forall r, lfilter_state_d ext cuda Tdf2 bs N M ba bb b d x None uf <> Ok r) /\
  (forall zi r, lfilter_state_d ext cuda Df2 bs N M ba bb b d x zi uf <> Ok r).
Proof.
  intros ext cuda bs N M ba bb b x d uf Hbs HN HM Hu Hd Hb Hx Hn.
  assert (G : forall fm zi r, fm = Df2 \/ fm = Tdf2 -> lfilter_state_d ext cuda fm bs N M ba bb b d x zi uf = Ok r -> fst r = d).
  { intros fm zi [y zf] Hf E. cbn [fst]. destruct Hf as [-> | ->]; unfold lfilter_state_d in E.
    - pose proof (C60_state_space_accepted _ _ _ _ _ _ _ _ _ _ _ _ _ _ _ HN Hu E) as (_ & E1 & _). cbv beta iota in E1. congruence.
    - pose proof (C60_state_space_accepted _ _ _ _ _ _ _ _ _ _ _ _ _ _ _ HN Hu E) as (_ & E1 & _ & c & -> & k & r & Hk & Hr & ->).
      assert (ED : exists r', sub r' d /\ (let* k := how_D (if bb then [bs] else []) bs None in let* r := mult_d k x b in Ok (Some r)) = Ok (Some r')) by now apply how_D_into.
      destruct ED as (r' & Hr' & ED). rewrite Hk in ED. cbn [bind] in ED. rewrite Hr in ED. injection ED as ->. now apply promote_r. }
  split; [|split].
  - apply C68_lfilter; auto; [discriminate|]. split; [reflexivity|]. split; [exact Hx|]. split; [cbn; auto|exact Hb].
  - intros [y zf] E. pose proof (G Tdf2 None _ (or_intror eq_refl) E) as Ey. cbn [fst] in Ey. subst y.
    apply C68_lfilter in E; auto; [|discriminate]. destruct E as (_ & _ & (E & _) & _). auto.
  - intros zi [y zf] E. pose proof (G Df2 zi _ (or_introl eq_refl) E) as Ey. cbn [fst] in Ey. subst y.
    apply C68_lfilter in E; auto; [|discriminate]. destruct E as (_ & E & _). auto.
Qed.
Print Assumptions C68_lfilter_zeros_refuted.
(** The state of one call is accepted by the next one. *)
Theorem C68_lfilter_next : forall ext cuda fm bs N N' M ba bb b a x z uf d zf,
  1 <= bs -> 1 <= N -> 1 <= N' -> 1 <= M -> uf_ok uf -> (ext = false \/ supported d) -> fm = Df2 \/ fm = Tdf2 ->
  lfilter_state_d ext cuda fm bs N M ba bb b a x (Some z) uf = Ok (d, zf) ->
  zf = Some z /\ lfilter_state_d ext cuda fm bs N' M ba bb b a x zf uf = Ok (d, zf).
Proof.
  intros ext cuda fm bs N N' M ba bb b a x z uf d zf Hbs HN HN' HM Hu Hs Hf E.
  apply C68_lfilter in E; auto; [|destruct Hf as [-> | ->]; discriminate]. destruct E as [Ea H].
  assert (Ez : z = d /\ zf = Some d) by (destruct Hf as [-> | ->]; destruct H as (_ & H & _); exact H). destruct Ez as [-> ->].
  split; [reflexivity|]. apply C68_lfilter; auto. destruct Hf as [-> | ->]; discriminate.
Qed.
Print Assumptions C68_lfilter_next.
Example C68_lfilter_ex : sub F32 F64 /\ supported F64 /\
  lfilter_state_d true false Tdf2 2 9 3 true false F32 F64 F32 (Some F64) (Some 1) = Ok (F64, Some F64) /\
  lfilter_state_d true false Tdf2 2 9 3 true false F32 F64 F32 None (Some 1) = Err RuntimeError /\
  lfilter_state_d true false Df2 2 9 3 true false F32 F64 F32 (Some F64) (Some 1) = Err RuntimeError /\
  lfilter_state_d false false Df2 2 9 3 true false F32 F64 F64 (Some F64) None = Ok (F64, Some F64) /\
  lfilter_state_d false true Df1 2 9 3 true true C64 C64 C64 (Some F16) None = Ok (C64, None).
Proof. split; [repeat split; cbn; lia|]. split; [discriminate|]. repeat split. Qed.

(** ** lfiltic, lfilter_zi, filtfilt *)
Theorem C68_lfiltic : forall b a y x d,
  lfiltic_d b a y x = Ok d <-> match x with None => True | Some x => x = b end /\ y = a /\ least b a d.
Proof.
  intros b a y x d. unfold lfiltic_d. split.
  - destruct (mm_d b _) as [p|] eqn:E1; [|discriminate]. apply mm_ok in E1 as [-> E1]. cbn [bind].
    destruct (mm_d a y) as [q|] eqn:E2; [|discriminate]. apply mm_ok in E2 as [-> ->]. cbn [bind]. intro H. injection H as <-.
    split; [destruct x; auto|]. split; [reflexivity|now apply promote_least].
  - intros (H1 & -> & H2). replace (match x with None => b | Some x => x end) with b by (destruct x; auto).
    rewrite (proj2 (mm_ok b b b)), (proj2 (mm_ok a a a)) by auto. cbn [bind]. f_equal. now apply promote_least.
Qed.
Print Assumptions C68_lfiltic.
Lemma linalg_ok d e : linalg_d d = Ok e <-> d = e /\ linear e.
Proof.
  unfold linear, linalg_d. split; [destruct d; intro H; try discriminate H; injection H as <-; auto 6|].
  intros [-> H]. destruct H as [-> |[-> |[-> | ->]]]; reflexivity.
Qed.
Theorem C68_lfilter_zi : forall a b transpose d,
  lfilter_zi_d a b transpose = Ok d <->
  a = d /\ linear d /\ (transpose = true -> exists b', b = Some b' /\ sub b' d).
Proof.
  intros a b tr d. unfold lfilter_zi_d. split.
  - destruct tr; cbn [negb].
    + destruct b as [b|]; [|discriminate]. cbn [bind]. destruct (mm_d a _) as [s|] eqn:E; [|discriminate]. apply mm_ok in E as [-> E]. cbn [bind].
      rewrite linalg_ok. intros [-> L]. split; [reflexivity|]. split; [exact L|]. intros _. exists b. split; [reflexivity|now apply promote_sub].
    + cbn [bind]. destruct (mm_d a a) as [s|] eqn:E; [|discriminate]. apply mm_ok in E as [-> _]. cbn [bind].
      rewrite linalg_ok. intros [-> L]. split; [reflexivity|]. split; [exact L|discriminate].
  - intros (-> & L & H). destruct tr; cbn [negb].
    + destruct (H eq_refl) as (b' & -> & Hb). cbn [bind]. rewrite (proj2 (promote_sub b' d) Hb), (proj2 (mm_ok d d d)) by auto. now apply linalg_ok.
    + cbn [bind]. rewrite (proj2 (mm_ok d d d)) by auto. now apply linalg_ok.
Qed.
Print Assumptions C68_lfilter_zi.
Lemma linear_supported d : linear d -> supported d.
Proof. intros [-> |[-> |[-> | ->]]]; discriminate. Qed.
Lemma linear_I64 d : linear d -> d <> I64.
Proof. intros [-> |[-> |[-> | ->]]]; discriminate. Qed.
(** The type of the result of an accepted call is that of a. *)
Lemma lfilter_type ext cuda fm bs N M ba bb b a x z uf y zf : 1 <= bs -> 1 <= N -> 1 <= M -> uf_ok uf -> linear a -> fm = Df2 \/ fm = Tdf2 ->
  lfilter_state_d ext cuda fm bs N M ba bb b a x (Some z) uf = Ok (y, zf) -> y = a.
Proof.
  intros Hbs HN HM Hu La Hf E. destruct (dtype_eqb y C32) eqn:E32.
  - apply dtype_eqb_eq in E32. subst y. destruct Hf as [-> | ->]; unfold lfilter_state_d in E;
      pose proof (C60_state_space_accepted _ _ _ _ _ _ _ _ _ _ _ _ _ _ _ HN Hu E) as (E1 & E2 & _ & c & E3 & k & r & Hk & Hr & Ey).
    + destruct E3 as (k' & Hk' & E3). assert (c = a).
      { destruct (ba || bb); cbn [how_C] in Hk'; rewrite !Nat.eqb_refl in Hk'; injection Hk' as <-; cbn [mult_d] in E3;
          [apply vecdot_ok in E3 as (_ & E3 & _)|apply mm_ok in E3 as (E3 & _)]; congruence. }
      subst c. destruct (C60_promote_lub a r) as (H & _). rewrite <- Ey in H. destruct H as (H1 & H2 & H3).
      destruct La as [-> |[-> |[-> | ->]]]; cbn in H1, H2, H3; lia.
    + subst c. destruct (C60_promote_lub a r) as (H & _). rewrite <- Ey in H. destruct H as (H1 & H2 & H3).
      destruct La as [-> |[-> |[-> | ->]]]; cbn in H1, H2, H3; lia.
  - assert (Hs : supported y) by (intro H; subst y; discriminate E32).
    apply C68_lfilter in E; auto; [|destruct Hf as [-> | ->]; discriminate]. destruct E as [E _]. auto.
Qed.
Theorem C68_filtfilt : forall ext cuda fm bs N M ba bb b a x uf d,
  1 <= bs -> 1 <= N -> 1 <= M -> uf_ok uf -> fm = Df2 \/ fm = Tdf2 ->
  filtfilt_d ext cuda fm bs N M ba bb b a x uf = Ok d <->
  linear d /\ a = d /\ sub b d /\ (if match fm with Tdf2 => true | _ => false end then sub x d else x = d).
Proof.
  intros ext cuda fm bs N M ba bb b a x uf d Hbs HN HM Hu Hf.
  assert (F : fm <> OtherForm) by (destruct Hf as [-> | ->]; discriminate).
  assert (E0 : filtfilt_d ext cuda fm bs N M ba bb b a x uf =
    let* zi := lfilter_zi_d a (Some b) (match fm with Tdf2 => true | _ => false end) in
    let* r := lfilter_state_d ext cuda fm bs N M ba bb b a x (Some (promote zi x)) uf in
    let* r := lfilter_state_d ext cuda fm bs N M ba bb b a (fst r) (Some (promote zi (fst r))) uf in Ok (fst r)).
  { destruct Hf as [-> | ->]; reflexivity. }
  rewrite E0. clear E0. split.
  - destruct (lfilter_zi_d a (Some b) _) as [zi|] eqn:Ez; [|discriminate]. apply C68_lfilter_zi in Ez as (-> & L & _). cbn [bind].
    destruct (lfilter_state_d ext cuda fm bs N M ba bb b zi x (Some (promote zi x)) uf) as [[y zf]|] eqn:E1; [|discriminate]. cbn [bind fst].
    pose proof (lfilter_type _ _ _ _ _ _ _ _ _ _ _ _ _ _ _ Hbs HN HM Hu L Hf E1) as ->.
    apply C68_lfilter in E1; auto using linear_supported. destruct E1 as (_ & E1).
    destruct (lfilter_state_d ext cuda fm bs N M ba bb b zi zi (Some (promote zi zi)) uf) as [[y zf']|] eqn:E2; [|discriminate]. cbn [bind fst].
    pose proof (lfilter_type _ _ _ _ _ _ _ _ _ _ _ _ _ _ _ Hbs HN HM Hu L Hf E2) as ->. intro H. injection H as <-.
    split; [exact L|]. split; [reflexivity|]. destruct Hf as [-> | ->]; [destruct E1 as (H1 & _ & H2 & _)|destruct E1 as (H1 & _ & H2)]; auto.
  - intros (L & -> & Hb & Hx). rewrite (proj2 (C68_lfilter_zi d (Some b) _ d)) by (split; [reflexivity|split; [exact L|eauto]]). cbn [bind].
    assert (Hx' : sub x d) by (destruct Hf as [-> | ->]; [subst x; apply sub_refl|exact Hx]).
    rewrite (promote_r d x Hx'). assert (A : forall x, (if match fm with Tdf2 => true | _ => false end then sub x d else x = d) ->
      lfilter_state_d ext cuda fm bs N M ba bb b d x (Some d) uf = Ok (d, Some d)).
    { intros x0 H0. apply C68_lfilter; auto using linear_supported. split; [reflexivity|].
      destruct Hf as [-> | ->]; [split; [exact H0|split; [cbn; auto|split; [exact Hb|intros _; now apply linear_I64]]]|].
      split; [exact H0|]. split; [cbn; auto|exact Hb]. }
    rewrite (A x Hx). cbn [bind fst]. rewrite promote_idem, (A d); [reflexivity|]. destruct Hf as [-> | ->]; [reflexivity|apply sub_refl].
Qed.
Print Assumptions C68_filtfilt.
Example C68_filtfilt_ex : linear F64 /\
  filtfilt_d false false Tdf2 1 30 2 false false F32 F64 F32 None = Ok F64 /\
  filtfilt_d false false Df2 1 30 2 false false F32 F64 F32 None = Err RuntimeError /\
  filtfilt_d true false Df2 3 30 2 true true C64 C64 C64 (Some 1) = Ok C64 /\
  filtfilt_d false false Tdf2 1 30 2 false false F16 F16 F16 None = Err RuntimeError /\
  lfiltic_d F32 F64 F64 None = Ok F64 /\ lfiltic_d F32 F64 F32 None = Err RuntimeError /\
  lfilter_zi_d F32 (Some F64) true = Err RuntimeError /\ lfilter_zi_d F32 (Some F64) false = Ok F32.
Proof. split; [right; left; reflexivity|]. repeat split. Qed.

(** ** comb_filter *)
Theorem C68_comb_filter : forall ext bs delay N a x zi uf y zf, 1 <= delay -> uf_ok uf ->
  let init := match zi with None => a | Some z => z end in
  let u := match uf with None => 1 | Some u => u end in
  let rows := bs * delay in let steps := N / delay in
  comb_filter_d ext bs delay N a x zi uf = Ok (y, zf) <->
  (delay <> 1 -> ext = true) /\ zf = (if delay =? 1 then None else match zi with None => None | Some _ => Some y end) /\
  if (u =? 1) || (steps <=? u) then exists i, least a init i /\ least i x y
  else a = y /\ x = y /\ sub init y /\ (1 < rows -> y <> I64).
Proof.
  intros ext bs delay N a x zi uf y zf Hd Hu init u rows steps.
  assert (Hu1 : 1 <= u) by (subst u; destruct uf; [exact Hu|lia]).
  assert (G : linear_recurrence_d (S steps) (1 <? rows) a init x steps u = Ok y <->
    if (u =? 1) || (steps <=? u) then exists i, least a init i /\ least i x y else a = y /\ x = y /\ sub init y /\ (1 < rows -> y <> I64)).
  { rewrite C60_linear_recurrence by exact Hu1. destruct ((u =? 1) || (steps <=? u)).
    - split; [intros ->; exists (promote a init); split; now apply promote_least|].
      intros (i & H1 & H2). apply promote_least in H1, H2. congruence.
    - split; intros (H1 & H2 & H3 & H4); (split; [exact H1|]); (split; [exact H2|]); (split; [exact H3|]); intro H; apply H4; apply Nat.ltb_lt; exact H. }
  unfold comb_filter_d. fold init. replace (match uf with Some u => u | None => 1 end) with u by reflexivity.
  destruct (Nat.eq_dec delay 1) as [-> | Hn].
  - rewrite Nat.eqb_refl. replace steps with N in * by (subst steps; now rewrite Nat.div_1_r).
    replace rows with bs in * by (subst rows; lia). rewrite <- G. split.
    + destruct (linear_recurrence_d _ _ _ _ _ _ _) as [r|]; [|discriminate]. cbn [bind]. intro H. injection H as <- <-.
      split; [congruence|]. auto.
    + intros (_ & -> & ->). reflexivity.
  - apply Nat.eqb_neq in Hn as Hn'. rewrite Hn'. replace (delay =? 0) with false by (symmetry; apply Nat.eqb_neq; lia). cbn [negb]. fold steps rows. rewrite <- G. split.
    + destruct ext; [|discriminate]. destruct (linear_recurrence_d _ _ _ _ _ _ _) as [r|]; [|discriminate]. cbn [bind]. intro H. injection H as <- <-. auto.
    + intros (He & -> & E). rewrite (He Hn), E. reflexivity.
Qed.
Print Assumptions C68_comb_filter.
Example C68_comb_ex : 
  comb_filter_d true 2 3 9 F32 F32 (Some F64) None = Ok (F64, Some F64) /\ comb_filter_d true 2 3 9 F32 F32 (Some F64) (Some 2) = Err RuntimeError /\
  comb_filter_d true 2 3 9 F32 C64 None None = Ok (C64, None) /\ comb_filter_d false 2 3 9 F32 F32 None None = Err AttributeError /\
  comb_filter_d false 2 1 9 F32 F32 (Some F32) (Some 3) = Ok (F32, None).
Proof. repeat split. Qed.

(** ** The parameter-varying filters *)
Section Lpv.
Variable lpc_d : dtype -> dtype -> option dtype -> res (dtype * dtype).
Notation lpv_lf := (lpv_lfilter_d lpc_d). Notation tlpc := (torchlpc_lfilter_d lpc_d).
(** torchlpc and the unchecked recur2.cu are not reached. *)
Definition plain (ext cuda : bool) (M : nat) : Prop := ext = false \/ (M <> 1 /\ (cuda = false \/ M <> 2)).

Lemma how_lpv_C (bt : bool) bs N M : lpv_how_C (if bt then [bs; N; M] else [N; M]) bs N M = Ok Vec.
Proof. destruct bt; cbn [lpv_how_C]; rewrite !Nat.eqb_refl; cbn [andb]; [|reflexivity]. now destruct ((bs =? N) && true). Qed.
Lemma how_lpv_B (bt : bool) bs N M : lpv_how_B (if bt then [bs; N; M] else [N; M]) bs N M None = Ok Elem.
Proof.
  destruct bt; cbn [lpv_how_B feq]; rewrite !Nat.eqb_refl, !andb_false_r; reflexivity.
Qed.
Lemma how_lpv_D (bt : bool) bs N : lpv_how_D (if bt then [bs; N] else [N]) bs N None = Ok Elem.
Proof.
  destruct bt; cbn [lpv_how_D feq]; rewrite ?andb_false_r, !Nat.eqb_refl; [|reflexivity]. cbn [negb]. now destruct (bs =? N).
Qed.
Lemma recur_ok ext cuda N M A z x uf d : 1 <= M -> uf_ok uf -> (ext = false \/ supported d) -> plain ext cuda M ->
  lpv_recur_d lpc_d ext cuda N M A z x uf = Ok d <-> A = d /\ z = d /\ x = d.
Proof.
  intros HM Hu Hs Hp. unfold lpv_recur_d.
  assert (Hu1 : 1 <= match uf with Some u => u | None => 1 end) by (destruct uf; [exact Hu|lia]).
  destruct (ext && (negb cuda || (M <=? 2))) eqn:E; [|apply (proj2 (C60_recursion A z x N _ d Hu1))].
  apply andb_true_iff in E as [-> E]. destruct Hp as [Hp|[H1 H2]]; [discriminate|]. destruct Hs as [Hs|Hs]; [discriminate|].
  apply Nat.eqb_neq in H1 as H1'. rewrite H1'.
  rewrite C60_operators_partial.
  - split; [tauto|]. intros (-> & -> & ->). repeat split; auto.
    + intro Ho. destruct cuda; [|reflexivity]. cbn [negb orb] in E. apply Nat.leb_le in E.
      assert (M = 2) by lia. destruct H2; [discriminate|contradiction].
    + destruct (M =? 2); discriminate.
  - intro E'. injection E' as -> E'. destruct H2 as [H2|H2]; [discriminate|]. apply Nat.eqb_neq in H2. rewrite H2 in E'. discriminate.
Qed.

Theorem C68_lpv_lfilter : forall ext cuda fm bs N M ba bb b a x zi uf d zf,
  1 <= N -> 1 <= M -> uf_ok uf -> (ext = false \/ supported d) -> plain ext cuda M -> fm <> OtherForm ->
  lpv_lf ext cuda fm bs N M ba bb b a x zi uf = Ok (d, zf) <->
  a = d /\
  match fm with
  | Df2 => x = d /\ states zi zf x d /\ sub b d /\ d <> I64
  | Tdf2 => sub x d /\ states zi zf x d /\ sub b d
  | _ => x = d /\ b = d /\ d <> I64 /\ zf = None
  end.
Proof.
  intros ext cuda fm bs N M ba bb b a x zi uf d zf HN HM Hu Hs Hp Hf.
  pose proof (uf_pos N uf HN Hu) as Hu'. destruct fm; [| | | |congruence]; unfold lpv_lfilter_d.
  - unfold lpv_state_space_d.
    set (u := match uf with Some u => u | None => round_sqrt N end) in *; set (z := match zi with None => x | Some z => z end).
    rewrite how_lpv_C, how_lpv_D. cbn [bind mult_d]. fold (lrunner (lpc_y lpc_d) ext cuda N M u a z x). split.
    + destruct (lrunner (lpc_y lpc_d) ext cuda N M u a z x) as [h|] eqn:Eh; [|discriminate]. apply lrunner_ok in Eh as (-> & Ez & ->); [|exact Hu'|unfold plain in Hp; tauto|].
      2:{ destruct Hp as [-> | (_ & [-> | H])]; [reflexivity|now rewrite andb_false_r|]. apply Nat.eqb_neq in H. rewrite H. now rewrite andb_false_r. }
      cbn [bind]. rewrite Ez, promote_idem. destruct (vecdot_d (promote b h) h) as [c|] eqn:Ec; [|discriminate]. apply vecdot_ok in Ec as (Eb & -> & Hi). cbn [bind].
      intro E. apply promote_sub in Eb as Hb. rewrite (promote_r c (promote c b)) in E by (apply promote_into; [apply sub_refl|exact Hb]).
      injection E as <- <-. split; [reflexivity|]. split; [reflexivity|]. split; [now apply states_z|]. auto.
    + intros (-> & -> & Hz & Hb & Hi). apply states_z in Hz as [Hz Hzf]. fold z in Hz. rewrite Hz, lrunner_run; auto.
      2:{ unfold lpc_ok. unfold plain in Hp. tauto. }
      cbn [bind]. rewrite promote_idem, (proj2 (promote_sub b d) Hb), (proj2 (vecdot_ok d d d)) by auto. cbn [bind].
      rewrite (promote_r d (promote d b)) by (apply promote_into; [apply sub_refl|exact Hb]). now rewrite Hzf.
  - unfold lpv_state_space_d.
    set (u := match uf with Some u => u | None => round_sqrt N end) in *; set (z := match zi with None => x | Some z => z end).
    rewrite how_lpv_B, how_lpv_D. cbn [bind mult_d]. fold (lrunner (lpc_y lpc_d) ext cuda N M u a z (promote x (promote b a))). split.
    + destruct (lrunner (lpc_y lpc_d) ext cuda N M u a z (promote x (promote b a))) as [h|] eqn:Eh; [|discriminate]. apply lrunner_ok in Eh as (-> & Ez & Ep); [|exact Hu'|unfold plain in Hp; tauto|].
      2:{ destruct Hp as [-> | (_ & [-> | H])]; [reflexivity|now rewrite andb_false_r|]. apply Nat.eqb_neq in H. rewrite H. now rewrite andb_false_r. }
      cbn [bind]. rewrite Ez, promote_idem. apply promote_least in Ep as (Hx & Hpb & _). destruct (C60_promote_lub b h) as (Hb & _).
      apply (fun H => sub_trans _ _ _ H Hpb) in Hb. rewrite (promote_r h (promote x b)) by now apply promote_into.
      intro E. injection E as <- <-. split; [reflexivity|]. split; [exact Hx|]. split; [now apply states_z|exact Hb].
    + intros (-> & Hx & Hz & Hb). apply states_z in Hz as [Hz Hzf]. fold z in Hz. rewrite Hz, (proj2 (promote_sub b d) Hb), (proj2 (promote_sub x d) Hx), lrunner_run; auto.
      2:{ unfold lpc_ok. unfold plain in Hp. tauto. }
      cbn [bind]. rewrite promote_idem, (promote_r d (promote x b)) by now apply promote_into. now rewrite Hzf.
  - split.
    + destruct (lpv_fir_d false b x None) as [[v vz]|] eqn:E; [|discriminate]. apply C68_lpv_fir in E as (Hi & E). apply C68_fir in E as (-> & -> & ->). cbn [bind fst].
      destruct (lpv_recur_d lpc_d ext cuda N M a b b uf) as [y|] eqn:Er; [|discriminate]. cbn [bind]. intro H. injection H as -> <-.
      apply recur_ok in Er as (-> & -> & _); auto.
    + intros (-> & -> & -> & Hi & ->). rewrite (proj2 (C68_lpv_fir false d d None d None)) by (split; [exact Hi|apply C68_fir; auto]). cbn [bind fst].
      rewrite (proj2 (recur_ok ext cuda N M d d d uf d HM Hu Hs Hp)) by auto. reflexivity.
  - split.
    + destruct (lpv_recur_d lpc_d ext cuda N M a x x uf) as [v|] eqn:Er; [|discriminate]. cbn [bind]. intro E.
      apply C68_lpv_fir in E as (Hi & E). apply C68_fir in E as (-> & -> & ->). apply recur_ok in Er as (-> & -> & _); auto.
    + intros (-> & -> & -> & Hi & ->). rewrite (proj2 (recur_ok ext cuda N M d d d uf d HM Hu Hs Hp)) by auto. cbn [bind].
      apply C68_lpv_fir. split; [exact Hi|]. apply C68_fir. auto.
Qed.
(** Constant coefficients repeated in time: lpv.lfilter accepts what lfilter accepts, but
    integers only in tdf2. *)
Theorem C68_lpv_as_lti : forall ext cuda fm bs N M ba bb b a x zi uf d zf,
  1 <= bs -> 1 <= N -> 1 <= M -> uf_ok uf -> (ext = false \/ supported d) -> plain ext cuda M -> fm <> OtherForm ->
  lpv_lf ext cuda fm bs N M ba bb b a x zi uf = Ok (d, zf) <->
  lfilter_state_d ext cuda fm bs N M ba bb b a x zi uf = Ok (d, zf) /\ (fm <> Tdf2 -> d <> I64).
Proof.
  intros ext cuda fm bs N M ba bb b a x zi uf d zf Hbs HN HM Hu Hs Hp Hf. rewrite C68_lpv_lfilter, C68_lfilter by assumption.
  destruct fm; [| | | |congruence].
  - split; [intros (H1 & H2 & H3 & H4 & H5); auto 8|]. intros ((H1 & H2 & H3 & H4 & _) & H5). repeat (split; [assumption|]). apply H5; discriminate.
  - split; [|intros (H & _); exact H]. intro H. split; [exact H|]. congruence.
  - split; [intros (H1 & H2 & H3 & H4 & H5); auto 8|]. intros ((H1 & H2 & H3 & H4) & H5). repeat (split; [assumption|]). split; [apply H5; discriminate|exact H4].
  - split; [intros (H1 & H2 & H3 & H4 & H5); auto 8|]. intros ((H1 & H2 & H3 & H4) & H5). repeat (split; [assumption|]). split; [apply H5; discriminate|exact H4].
Qed.

(** The torchlpc back-end with arguments of one type that torchlpc passes through. *)
Theorem C68_torchlpc_uniform : forall fm b_longer d zi, fm <> OtherForm -> fm <> Tdf2 -> d <> I64 ->
  (forall z, z = None \/ z = Some d -> lpc_d d d z = Ok (d, d)) -> zi = None \/ zi = Some d ->
  tlpc fm b_longer d d d zi = Ok (d, match fm with Df2 => zi | _ => None end).
Proof.
  intros fm bl d zi H1 H2 Hi L Hz. unfold torchlpc_lfilter_d.
  assert (F : forall tr z, z = None \/ z = Some d -> lpv_fir_d tr d d z = Ok (d, z)).
  { intros tr z Hz0. apply C68_lpv_fir. split; [exact Hi|]. apply C68_fir. assert (l : least d d d) by (split; [apply sub_refl|split; [apply sub_refl|auto]]).
    destruct tr, Hz0 as [-> | ->]; auto. }
  assert (Ez : match zi with None => d | Some z => z end = d) by (destruct Hz as [-> | ->]; reflexivity). rewrite Ez.
  destruct fm; try congruence; unfold lpv_allpole_d; rewrite ?promote_idem.
  - rewrite L by auto. cbn [bind fst snd]. rewrite F by auto. cbn [bind fst snd]. destruct Hz as [-> | ->]; [reflexivity|now destruct bl].
  - rewrite F by auto. cbn [bind fst]. rewrite L by auto. reflexivity.
  - rewrite L by auto. cbn [bind fst]. now rewrite F by auto.
Qed.
(** Unlike the ssm back-end it does not accept a numerator of a smaller type. *)
Theorem C68_torchlpc_refuted : forall cuda bs N M ba bb b d uf b_longer, 1 <= N -> 1 <= M -> uf_ok uf ->
  d <> I64 -> sub b d -> b <> d -> (forall r, lpc_d d d (Some d) = Ok r -> sub d (fst r)) ->
  lpv_lf false cuda Df2 bs N M ba bb b d d None uf = Ok (d, None) /\
  forall r, tlpc Df2 b_longer b d d None <> Ok r.
Proof.
  intros cuda bs N M ba bb b d uf bl HN HM Hu Hi Hb Hn L. split.
  - apply C68_lpv_lfilter; auto; [left; reflexivity|discriminate|]. split; [reflexivity|]. split; [reflexivity|]. split; [cbn; auto|auto].
  - intros r. cbn [torchlpc_lfilter_d]. unfold lpv_allpole_d. destruct (lpc_d d d (Some d)) as [[p q]|]; [|discriminate]. cbn [bind fst snd].
    destruct (lpv_fir_d false b p (Some d)) as [[y zf]|] eqn:E; [|discriminate]. apply C68_lpv_fir in E as (_ & E). apply C68_fir in E as (_ & (H & _) & _).
    intros _. apply Hn. now apply sub_antisym.
Qed.
End Lpv.
Arguments plain _ _ _ : clear implicits.
Print Assumptions C68_lpv_lfilter.
Print Assumptions C68_lpv_as_lti.
Print Assumptions C68_torchlpc_uniform.
Print Assumptions C68_torchlpc_refuted.
Example C68_lpv_ex : let lpc := fun x a (z : option dtype) => if dtype_eqb x a then Ok (x, x) else Err RuntimeError in
  plain true false 3 /\ plain false true 1 /\ sub F32 F64 /\
  lpv_lfilter_d lpc true false Tdf2 2 9 3 true false F32 F64 F32 (Some F64) (Some 1) = Ok (F64, Some F64) /\
  lpv_lfilter_d lpc true false Df2 2 9 3 true false F32 F64 F32 (Some F64) (Some 1) = Err RuntimeError /\
  lpv_lfilter_d lpc true false Df2 2 9 3 false true F32 F64 F64 None None = Ok (F64, None) /\
  lpv_lfilter_d lpc true false Df1 2 9 3 false true F32 F64 F64 None None = Err RuntimeError /\
  lpv_lfilter_d lpc true false Tdf1 9 9 3 false true C64 C64 C64 None None = Ok (C64, None) /\
  lpv_lfilter_d lpc true false Tdf2 2 9 3 false false I64 I64 I64 None (Some 1) = Ok (I64, None) /\
  lpv_lfilter_d lpc true false Df2 2 9 3 false false I64 I64 I64 None (Some 1) = Err RuntimeError /\
  torchlpc_lfilter_d lpc Df2 false F64 F64 F64 (Some F64) = Ok (F64, Some F64) /\
  torchlpc_lfilter_d lpc Df2 false F32 F64 F64 None = Err RuntimeError.
Proof. split; [right; split; [discriminate|left; reflexivity]|]. split; [left; reflexivity|]. split; [repeat split; cbn; lia|]. repeat split. Qed.
