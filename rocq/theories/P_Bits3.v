(** The first direct forms of lfilter over any operations, and agreement of the back-ends. *)
From Coq Require Import List Arith Lia ZArith Bool.
From Verif Require Import Scalar Ordered Spec SpecRound SpecFilter Tensor TensorLemmas TensorOps TensorAlg TensorTac TensorList Shapes SpecBits Algebra M_Mat P_Mat M_Kernels
  M_LtiRecur M_LtiSsm P_Kernels P_KernelOps P_Helion P_LtiSsm P_Filter M_LtiFilter P_LtiFilter P_Round P_Round5 P_Round6 P_Round7 P_Bits P_Bits2.
Import ListNotations.
Open Scope cr_scope.
Open Scope nat_scope.

Section Agree.
Variable R : cops.
Notation ten := (tensor (car R)).
Lemma ss_agree e e' B N M G P (A x : ten) (Bt C D zi : option ten) oi Af Bm Cm Dm xf z0 :
  1 <= M -> 1 <= N -> sequential e M -> sequential e' M ->
  extension_backend_indicator e M = extension_backend_indicator e' M \/ (forall a b : R, rmul a b = rmul b a) ->
  sys B M G P A Bt C D oi Af Bm Cm Dm -> sigv B N G x xf -> init B M zi z0 ->
  same_result B M P N (state_space e A x Bt C D zi (Some 1) oi) (state_space e' A x Bt C D zi (Some 1) oi).
Proof.
  intros HM HN He He' Hc (HA & HB & HC & HD) Hx Hz.
  destruct (ss_machines R B M G P A Bt C D oi Af Bm Cm Dm HM HA HB HC HD) as (g & out & Hl & H).
  destruct (H e N x xf zi z0 He HN Hx Hz) as (y & zf & E & Hy & Hzf).
  destruct (H e' N x xf zi z0 He' HN Hx Hz) as (y' & zf' & E' & Hy' & Hzf').
  assert (X : forall b n i, b < B -> i < M -> machine (fun h v => step R e M (Af b) h (g b v)) (z0 b) (xf b) n i = machine (fun h v => step R e' M (Af b) h (g b v)) (z0 b) (xf b) n i).
  { intros b n i Hb Hi. apply (machine_comm R _ _ M (width G)); [now apply Hl| |exact Hi]. intros h u j.
    destruct Hc as [Hc|Hc]; [unfold step; now rewrite Hc|now apply step_comm]. }
  exists y, zf, y', zf'. eexists. split; [exact E|]. split; [exact E'|]. split; [exact Hy|]. split.
  - eapply sigv_ext; [exact Hy'|]. intros b n p Hb Hn Hp. cbn beta. apply (proj2 (Hl e b Hb)); auto. intros i Hi. symmetry. now apply X.
  - destruct zi as [zi|]; [|now left]. destruct Hzf as (z & -> & Hz1), Hzf' as (z' & -> & Hz1'). right. exists z, z'. eexists.
    split; [reflexivity|]. split; [reflexivity|]. split; [exact Hz1|]. eapply is2_ext; [exact Hz1'|]. intros b i Hb Hi. symmetry. now apply X.
Qed.
End Agree.

Section Forms.
Variable F : ofield.
Variables (fadd fmul fsub : F -> F -> F).
Notation Fl := (flops F fadd fmul fsub).
Notation ten := (tensor (car Fl)).
Definition impulse (w : nat -> Fl) (n m : nat) : Fl := if m =? 0 then w n else r0.
Definition df1_run (M N : nat) (A : nat -> nat -> Fl) (b x : nat -> Fl) (n : nat) : Fl :=
  hstate M (fun _ => A) (fun _ => r0) (impulse (rconvt Fl M N b x)) (S n) 0.
Definition tdf1_run (M N : nat) (A : nat -> nat -> Fl) (b x : nat -> Fl) (n : nat) : Fl :=
  rconvt Fl M N b (fun n => hstate M (fun _ => A) (fun _ => r0) (impulse x) (S n) 0) n.
Lemma rconvt_loc M N N' (b x x' : nat -> Fl) n : n < N -> n < N' -> (forall m, m <= n -> x m = x' m) -> rconvt Fl M N b x n = rconvt Fl M N' b x' n.
Proof.
  intros Hn Hn' Hx. unfold rconvt. apply bsum_ext. intros k Hk.
  destruct (k <=? n) eqn:E1; cbn [andb]; [|reflexivity]. b2p. btrue (n - k <? N). btrue (n - k <? N'). f_equal. apply Hx. lia.
Qed.
Lemma df1_loc M N N' A b x x' n : 1 <= M -> n < N -> n < N' -> (forall m, m <= n -> x m = x' m) -> df1_run M N A b x n = df1_run M N' A b x' n.
Proof.
  intros HM Hn Hn' Hx. unfold df1_run. apply hstate_ext; auto. intros k i Hk Hi. unfold impulse. destruct (i =? 0); [|reflexivity].
  apply rconvt_loc; try lia. intros. apply Hx. lia.
Qed.
Lemma tdf1_loc M N N' A b x x' n : 1 <= M -> n < N -> n < N' -> (forall m, m <= n -> x m = x' m) -> tdf1_run M N A b x n = tdf1_run M N' A b x' n.
Proof.
  intros HM Hn Hn' Hx. unfold tdf1_run. apply rconvt_loc; auto. intros m Hm. apply hstate_ext; auto. intros k i Hk Hi. unfold impulse.
  destruct (i =? 0); [|reflexivity]. apply Hx. lia.
Qed.
Variables (B nb na M : nat) (b a : ten) (bf af : nat -> nat -> F).
Hypotheses (HB : 1 <= B) (Hnb : 1 <= nb) (EM : M = Nat.max na (nb - 1)) (HM : 1 <= M)
  (Hb : fcoef (R := F) B nb b bf) (Ha : fcoef (R := F) B na a af).
Definition rec_seq (e : env) := helion_backend_indicator e = true -> 3 <= M /\ env_ok e.
Let bp i := padz nb (bf i).
Let ap i := padz na (af i).
Lemma zeros_is : is2 (zeros (R := Fl) [B; M]) B M (fun _ _ => r0).
Proof. pose proof (P1_full [B] M (@r0 Fl)) as H. apply is2_P1. fin H; auto. Qed.
Lemma df1_view e N (x : ten) xf zi uf : rec_seq e -> 1 <= N -> is2 x B N xf -> uf = None \/ uf = Some 1 ->
  exists y, lfilter_ssm e b a x zi Df1 uf = Ok (y, None) /\ is2 y B N (fun i n => df1_run M N (compm F (ap i)) (bp i) (xf i) n).
Proof.
  intros He HN Hx Huf. rewrite (f_lfilter_2d F fadd fmul fsub e B N nb na b a x bf af xf uf Hb Ha Hx Df1 zi).
  unfold ssm_lfilter. rewrite (f_size_b F fadd fmul fsub B nb b bf Hb), (f_size_a F fadd fmul fsub B na a af Ha).
  destruct (f_pad_b F fadd fmul fsub B 1 nb na M b bf HB (le_n 1) Hnb EM HM Hb) as (b' & -> & Hb').
  destruct (f_pad_a F fadd fmul fsub B 1 nb na M a af HB (le_n 1) Hnb EM HM Ha) as (a' & -> & Ha').
  destruct (f_companion F fadd fmul fsub B M a' ap Ha') as (A & -> & ES & HA & _). cbn [bind].
  rewrite ES. assert (sizen b' 1 = S M) as -> by exact (proj1 (fcoef_size F _ _ _ _ Hb')).
  replace (size x 0) with B by (unfold size; now rewrite (proj1 Hx)).
  assert (exists bb : ten, expand [B; S M] b' = Ok bb /\ is2 bb B (S M) bp) as (bb & -> & Hbb) by exact (fcoef_expand F _ _ _ _ Hb'). cbn [bind].
  destruct (r_fir_transposed_none Fl B N M bb x bp xf Hbb Hx HM) as (w & -> & Hw). cbn [bind].
  destruct (rec_raw Fl e B N M A (zeros [B; M]) w (fun i => compm F (ap i)) (fun _ _ => r0)
    (fun i => impulse (fun n => rconvt Fl M N (fun k => bp i k) (xf i) n)) (Some 0%Z)) as (y & E & Hy); auto.
  { apply zeros_is. }
  { eapply drive_2; [exact Hw|]. intros. reflexivity. }
  { exists 0. now apply (pyidx_nat M 0). }
  replace (match uf with Some k => k | None => 1 end) with 1 by (destruct Huf as [-> | ->]; reflexivity).
  rewrite E. cbn [bind]. specialize (Hy 0 (pyidx_nat M 0 ltac:(lia))).
  exists y. split; [reflexivity|]. exact Hy.
Qed.
Lemma tdf1_view e N (x : ten) xf zi uf : rec_seq e -> 1 <= N -> is2 x B N xf -> uf = None \/ uf = Some 1 ->
  exists y, lfilter_ssm e b a x zi Tdf1 uf = Ok (y, None) /\ is2 y B N (fun i n => tdf1_run M N (comph F (ap i)) (bp i) (xf i) n).
Proof.
  intros He HN Hx Huf. rewrite (f_lfilter_2d F fadd fmul fsub e B N nb na b a x bf af xf uf Hb Ha Hx Tdf1 zi).
  unfold ssm_lfilter. rewrite (f_size_b F fadd fmul fsub B nb b bf Hb), (f_size_a F fadd fmul fsub B na a af Ha).
  destruct (f_pad_b F fadd fmul fsub B 1 nb na M b bf HB (le_n 1) Hnb EM HM Hb) as (b' & -> & Hb').
  destruct (f_pad_a F fadd fmul fsub B 1 nb na M a af HB (le_n 1) Hnb EM HM Ha) as (a' & -> & Ha').
  destruct (f_companion F fadd fmul fsub B M a' ap Ha') as (A & -> & ES & _ & HA). cbn [bind].
  rewrite ES. assert (sizen b' 1 = S M) as -> by exact (proj1 (fcoef_size F _ _ _ _ Hb')).
  replace (size x 0) with B by (unfold size; now rewrite (proj1 Hx)).
  assert (exists bb : ten, expand [B; S M] (tconj b') = Ok bb /\ is2 bb B (S M) bp) as (bb & -> & Hbb)
    by exact (fcoef_expand F _ _ _ _ (f_conj F fadd fmul fsub _ _ _ _ Hb')). cbn [bind].
  destruct (rec_raw Fl e B N M (tconj (mT A)) (zeros [B; M]) x (fun i => comph F (ap i)) (fun _ _ => r0) (fun i => impulse (xf i)) (Some 0%Z)) as (w & E & Hw); auto.
  { apply zeros_is. }
  { eapply drive_2; [exact Hx|]. intros. reflexivity. }
  { exists 0. now apply (pyidx_nat M 0). }
  replace (match uf with Some k => k | None => 1 end) with 1 by (destruct Huf as [-> | ->]; reflexivity).
  rewrite E. cbn [bind]. specialize (Hw 0 (pyidx_nat M 0 ltac:(lia))).
  destruct (r_fir_transposed_none Fl B N M bb w bp _ Hbb Hw HM) as (y & -> & Hy).
  exists y. split; [reflexivity|]. exact Hy.
Qed.
Lemma form1_view fm uf : fm = Df1 \/ fm = Tdf1 -> uf = None \/ uf = Some 1 -> exists run : nat -> nat -> (nat -> Fl) -> nat -> Fl,
  (forall i N N' x x' n, n < N -> n < N' -> (forall m, m <= n -> x m = x' m) -> run i N x n = run i N' x' n) /\
  forall e N (x : ten) xf zi, rec_seq e -> 1 <= N -> is2 x B N xf -> exists y, lfilter_ssm e b a x zi fm uf = Ok (y, None) /\ is2 y B N (fun i n => run i N (xf i) n).
Proof.
  intros [-> | ->] Huf.
  - exists (fun i N x n => df1_run M N (compm F (ap i)) (bp i) x n). split; [intros; now apply df1_loc|]. intros. now apply df1_view.
  - exists (fun i N x n => tdf1_run M N (comph F (ap i)) (bp i) x n). split; [intros; now apply tdf1_loc|]. intros. now apply tdf1_view.
Qed.
Lemma form1_causal e fm uf : rec_seq e -> fm = Df1 \/ fm = Tdf1 -> uf = None \/ uf = Some 1 ->
  causal_rows (R := Fl) B M None None (fun _ _ => True) (fun x zi => lfilter_ssm e b a x zi fm uf).
Proof.
  intros He Hfm Huf. destruct (form1_view fm uf Hfm Huf) as (run & Hl & H).
  intros N N' x x' xf xf' zi zi' z0 z0' HN HN' Hx Hx' _ _.
  destruct (H e N x _ zi He HN Hx) as (y & E & Hy). destruct (H e N' x' _ zi' He HN' Hx') as (y' & E' & Hy').
  exists y, None, y', None, (fun i n _ => run i N (fun n => xf i n 0) n), (fun i n _ => run i N' (fun n => xf' i n 0) n).
  do 4 (split; [assumption|]). intros i n Hi Hn Hn' _ Hxx p Hp. apply Hl; auto.
Qed.
Lemma form1_agree e e' N (x : ten) xf zi fm uf : rec_seq e -> rec_seq e' -> 1 <= N -> is2 x B N xf -> fm = Df1 \/ fm = Tdf1 -> uf = None \/ uf = Some 1 ->
  same_result (R := Fl) B M None N (lfilter_ssm e b a x zi fm uf) (lfilter_ssm e' b a x zi fm uf).
Proof.
  intros He He' HN Hx Hfm Huf. destruct (form1_view fm uf Hfm Huf) as (run & Hl & H).
  destruct (H e N x _ zi He HN Hx) as (y & E & Hy). destruct (H e' N x _ zi He' HN Hx) as (y' & E' & Hy').
  exists y, None, y', None, (fun i n _ => run i N (xf i) n). do 4 (split; [assumption|]). now left.
Qed.
Lemma form2_agree e e' N (x : ten) xf zi z0 fm : sequential e M -> sequential e' M ->
  extension_backend_indicator e M = extension_backend_indicator e' M \/ (forall a b : F, fmul a b = fmul b a) ->
  1 <= N -> is2 x B N xf -> init (R := Fl) B M zi z0 -> fm = Df2 \/ fm = Tdf2 ->
  same_result (R := Fl) B M None N (lfilter_ssm e b a x zi fm (Some 1)) (lfilter_ssm e' b a x zi fm (Some 1)).
Proof.
  intros He He' Hc HN Hx Hz Hfm. rewrite !(fun e => f_lfilter_2d F fadd fmul fsub e B N nb na b a x bf af xf (Some 1) Hb Ha Hx fm zi).
  unfold ssm_lfilter. rewrite (f_size_b F fadd fmul fsub B nb b bf Hb), (f_size_a F fadd fmul fsub B na a af Ha).
  destruct (f_pad_b F fadd fmul fsub B 1 nb na M b bf HB (le_n 1) Hnb EM HM Hb) as (b' & -> & Hb').
  destruct (f_pad_a F fadd fmul fsub B 1 nb na M a af HB (le_n 1) Hnb EM HM Ha) as (a' & -> & Ha').
  destruct (f_companion F fadd fmul fsub B M a' _ Ha') as (A & -> & _ & HA & HAt). cbn [bind].
  destruct (f_diff F fadd fmul fsub B M b' a' _ _ Hb' Ha') as (C & EC & HC).
  unfold bind in EC |- *. destruct (tmul _ a') as [t|]; [|discriminate].
  destruct (f_head F fadd fmul fsub B M b' _ Hb') as (D & ED & HD & HDt).
  destruct Hfm as [-> | ->]; rewrite EC, ED.
  - eapply (ss_agree Fl e e' B N M None None A x None (Some C) (Some D) zi None _ unit3 _ _ (fun i n _ => xf i n) z0); auto.
    split; [exact HA|]. split; [apply in_none2; intros i m k _ _ _; reflexivity|]. split; [exact (f_out F fadd fmul fsub B M C _ HC)|exact HD].
  - eapply (ss_agree Fl e e' B N M None None (tconj (mT A)) x (Some (tconj C)) None (Some (tconj D)) zi (Some 0%Z) _ _ (fun _ _ m => unit3 0 0 m) _ (fun i n _ => xf i n) z0); auto.
    split; [exact HAt|]. split; [exact (f_in F fadd fmul fsub B M (tconj C) _ (f_conj F fadd fmul fsub B M C _ HC))|]. split; [|exact HDt].
    apply (out_idx Fl B M 0%Z 0); [now apply (pyidx_nat M 0)|]. intros i p m Hi Hp Hm. reflexivity.
Qed.
End Forms.
