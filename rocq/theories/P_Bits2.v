(** State machines stream and are causal row by row; fir and the second direct forms of
    lfilter are state machines (philtorch/lti/filtering.py:145-333). *)
From Coq Require Import List Arith Lia ZArith Bool.
From Verif Require Import Scalar Ordered Spec SpecRound SpecFilter Tensor TensorLemmas TensorOps TensorAlg TensorTac TensorList Shapes SpecBits Algebra M_Mat P_Mat M_Kernels
  M_LtiRecur M_LtiSsm P_Kernels P_LtiSsm P_Filter M_LtiFilter P_LtiFilter P_Round P_Round5 P_Round6 P_Round7 P_Bits.
Import ListNotations.
Open Scope cr_scope.
Open Scope nat_scope.

Section Gen.
Variable R : cops.
Notation ten := (tensor (car R)).
Variables (B M : nat) (G P : option nat) (ini : option ten -> (nat -> nat -> R) -> Prop) (run : ten -> option ten -> res (ten * option ten)).
Lemma sigv_ext N F (t : ten) f g : sigv B N F t f -> (forall b n k, b < B -> n < N -> k < width F -> f b n k = g b n k) -> sigv B N F t g.
Proof.
  unfold sigv. destruct F as [K|]; cbn [width]; intros H E.
  - eapply is3_ext; [exact H|]. intros. now apply E.
  - eapply is2_ext; [exact H|]. intros. apply E; lia.
Qed.
Lemma machine_streams : (forall z g, is2 z B M g -> ini (Some z) g) -> is_machine B M G P ini run -> streams B M G P ini run 1.
Proof.
  intros Hi (stp & out & Hl & H) N1 N2 x1 x2 x xf zi z0 H1 H2 Hx1 Hx2 Hx Hz.
  destruct (H N1 x1 xf (Some zi) z0 H1 Hx1 Hz) as (y1 & zf1 & E1 & Hy1 & z1 & -> & Hz1).
  destruct (H N2 x2 _ (Some z1) _ H2 Hx2 (Hi _ _ Hz1)) as (y2 & zf2 & E2 & Hy2 & z2 & -> & Hz2).
  destruct (H (N1 + N2) x xf (Some zi) z0 ltac:(lia) Hx Hz) as (y & zf & E & Hy & z & -> & Hz').
  exists y1, z1, y2, z2, y, z. eexists. eexists. split; [exact E1|]. split; [exact E2|]. split; [exact E|].
  split; [exact Hy1|]. split; [|split; [exact Hy|]; split; [|exact Hz']].
  - eapply sigv_ext; [exact Hy2|]. intros b n p Hb Hn Hp. cbn beta. now rewrite machine_add.
  - eapply is2_ext; [exact Hz2|]. intros b i Hb Hi'. cbn beta. now rewrite machine_add.
Qed.
Lemma machine_causal : is_machine B M G P ini run -> causal_rows B M G P ini run.
Proof.
  intros (stp & out & Hl & H) N N' x x' xf xf' zi zi' z0 z0' H1 H1' Hx Hx' Hz Hz'.
  destruct (H N x xf zi z0 H1 Hx Hz) as (y & zf & E & Hy & _). destruct (H N' x' xf' zi' z0' H1' Hx' Hz') as (y' & zf' & E' & Hy' & _).
  exists y, zf, y', zf'. do 2 eexists. do 4 (split; [eassumption|]). intros b n Hb Hn Hn' Hh Hxx p Hp. cbn beta.
  destruct (Hl b Hb) as [Ls Lo]. apply Lo; auto. apply (machine_local R M (width G)); auto. intros k j Hk Hj. apply Hxx; lia.
Qed.
End Gen.

(** ** fir *)
Section Fir.
Variable R : cops.
Notation ten := (tensor (car R)).
Definition shift_in (h v : nat -> R) (i : nat) : R := match i with O => v 0 | S i => h i end.
Lemma shift_machine h (x : nat -> nat -> R) n i : machine shift_in h x n i = if i <? n then x (n - 1 - i) 0 else h (i - n).
Proof.
  revert i. induction n as [|n IH]; intro i; cbn [machine].
  - now rewrite Nat.sub_0_r.
  - destruct i as [|i]; cbn [shift_in]; [btrue (0 <? S n); f_equal; lia|]. rewrite IH. destruct (i <? n) eqn:E; b2p.
    + btrue (S i <? S n). f_equal. lia.
    + bfalse (S i <? S n). f_equal.
Qed.
(** The states fir accepts. *)
Definition init2 (B M : nat) (zi : option ten) (f : nat -> nat -> R) : Prop :=
  match zi with None => forall b m, b < B -> m < M -> f b m = r0 | Some z => is2 z B M f end.
Lemma fir_machine B M (bt : ten) bf : 1 <= M -> is2 bt B (S M) bf -> is_machine B M None None (init2 B M) (fun x zi => fir bt x zi false).
Proof.
  intros HM Hb. exists (fun _ => shift_in), (fun b h v _ => bsum (S M) (fun k => rmul (bf b (M - k)) (if k <? M then h (M - 1 - k) else v 0))). split.
  - intros b Hb'. split.
    + intros h h' v v' Hh Hv [|i] Hi; cbn [shift_in]; [apply Hv; cbn [width]; lia|apply Hh; lia].
    + intros h h' v v' Hh Hv p Hp. apply bsum_ext. intros k Hk. f_equal. destruct (k <? M) eqn:E; b2p; [apply Hh; lia|apply Hv; cbn [width]; lia].
  - intros N x xf zi z0 HN Hx Hz. cbn [sigv] in Hx |- *.
    assert (W : forall b n k z, k < S M -> (if k <? M then machine shift_in z (xf b) n (M - 1 - k) else xf b n 0)
      = if n + k <? M then z (M - 1 - (n + k)) else xf b (n + k - M) 0).
    { intros b n k z Hk. destruct (k <? M) eqn:E; b2p.
      - rewrite shift_machine. destruct (n + k <? M) eqn:E'; b2p.
        + bfalse (M - 1 - k <? n). f_equal. lia.
        + btrue (M - 1 - k <? n). f_equal. lia.
      - bfalse (n + k <? M). f_equal. lia. }
    destruct zi as [zi|].
    + destruct (r_fir_direct_some R B N M bt x zi bf _ z0 Hb Hx Hz HN HM) as (y & z & E & Hy & Hzf).
      exists y, (Some z). split; [exact E|]. split.
      * eapply is2_ext; [exact Hy|]. intros b n Hb' Hn. cbn beta. apply bsum_ext. intros k Hk. f_equal. symmetry. now apply (W b n k (z0 b)).
      * exists z. split; [reflexivity|]. eapply is2_ext; [exact Hzf|]. intros b k Hb' Hk. cbn beta. rewrite shift_machine.
        destruct (k <? N) eqn:E'; b2p.
        { bfalse (N + (M - 1 - k) <? M). f_equal. lia. }
        { btrue (N + (M - 1 - k) <? M). f_equal. lia. }
    + destruct (r_fir_direct_none R B N M bt x bf _ Hb Hx HN) as (y & E & Hy).
      exists y, None. split; [exact E|]. split; [|reflexivity].
      eapply is2_ext; [exact Hy|]. intros b n Hb' Hn. cbn beta. apply bsum_ext. intros k Hk. f_equal. rewrite (W b n k (z0 b) Hk).
      destruct (M <=? n + k) eqn:E'; b2p.
      * now bfalse (n + k <? M).
      * btrue (n + k <? M). symmetry. apply Hz; lia.
Qed.
(** The transposed form is causal row by row, too. *)
Lemma firt_causal B M (bt : ten) bf : 1 <= M -> is2 bt B (S M) bf ->
  causal_rows B M None None (fun zi _ => zi = None) (fun x zi => fir bt x zi true).
Proof.
  intros HM Hb N N' x x' xf xf' zi zi' z0 z0' HN HN' Hx Hx' -> ->.
  cbn [sigv] in Hx, Hx' |- *.
  destruct (r_fir_transposed_none R B N M bt x bf _ Hb Hx HM) as (y & E & Hy).
  destruct (r_fir_transposed_none R B N' M bt x' bf _ Hb Hx' HM) as (y' & E' & Hy').
  exists y, None, y', None. exists (fun b n _ => rconvt R M N (fun k => conj (bf b k)) (fun n => xf b n 0) n), (fun b n _ => rconvt R M N' (fun k => conj (bf b k)) (fun n => xf' b n 0) n).
  do 4 (split; [assumption|]). intros b n Hb' Hn Hn' _ Hxx p Hp. unfold rconvt. apply bsum_ext. intros k Hk.
  destruct (k <=? n) eqn:E1; cbn [andb]; [|reflexivity]. b2p. btrue (n - k <? N). btrue (n - k <? N'). f_equal. apply Hxx; cbn [width]; lia.
Qed.
End Fir.

(** ** The second direct forms of lfilter *)
Section Forms.
Variable F : ofield.
Variables (fadd fmul fsub : F -> F -> F).
Notation Fl := (flops F fadd fmul fsub).
Notation ten := (tensor (car Fl)).
Variables (e : env) (B nb na M : nat) (b a : ten) (bf af : nat -> nat -> F).
Hypotheses (HB : 1 <= B) (Hnb : 1 <= nb) (EM : M = Nat.max na (nb - 1)) (HM : 1 <= M) (He : sequential e M)
  (Hb : fcoef (R := F) B nb b bf) (Ha : fcoef (R := F) B na a af).
Lemma lfilter_machine fm : fm = Df2 \/ fm = Tdf2 ->
  is_machine (R := Fl) B M None None (init (R := Fl) B M) (fun x zi => lfilter_ssm e b a x zi fm (Some 1)).
Proof.
  intro Hfm.
  assert (X : exists stp out : nat -> (nat -> Fl) -> (nat -> Fl) -> nat -> Fl,
    (forall b, b < B -> reads M 1 M (stp b) /\ reads M 1 1 (out b)) /\
    forall N (x : ten) xf zi z0, 1 <= N -> sigv (R := Fl) B N None x xf -> init (R := Fl) B M zi z0 ->
      exists y zf, ssm_lfilter e fm (Some 1) b a x zi = Ok (y, zf) /\
        sigv (R := Fl) B N None y (fun b n p => out b (machine (stp b) (z0 b) (xf b) n) (xf b n) p) /\
        match zi with None => zf = None | Some _ => exists z, zf = Some z /\ is2 z B M (fun b => machine (stp b) (z0 b) (xf b) N) end).
  2:{ destruct X as (stp & out & Hl & H). exists stp, out. split; [exact Hl|]. intros N x xf zi z0 HN Hx Hz.
      destruct (H N x xf zi z0 HN Hx Hz) as (y & zf & E & Hy). exists y, zf. split; [|exact Hy].
      rewrite <- E. exact (f_lfilter_2d F fadd fmul fsub e B N nb na b a x bf af (fun b n => xf b n 0) (Some 1) Hb Ha Hx fm zi). }
  unfold ssm_lfilter. rewrite (f_size_b F fadd fmul fsub B nb b bf Hb), (f_size_a F fadd fmul fsub B na a af Ha).
  destruct (f_pad_b F fadd fmul fsub B 1 nb na M b bf HB (le_n 1) Hnb EM HM Hb) as (b' & -> & Hb').
  destruct (f_pad_a F fadd fmul fsub B 1 nb na M a af HB (le_n 1) Hnb EM HM Ha) as (a' & -> & Ha').
  destruct (f_companion F fadd fmul fsub B M a' _ Ha') as (A & -> & _ & HA & HAt). cbn [bind].
  destruct (f_diff F fadd fmul fsub B M b' a' _ _ Hb' Ha') as (C & EC & HC).
  unfold bind in EC |- *. destruct (tmul _ a') as [t|]; [|discriminate].
  destruct (f_head F fadd fmul fsub B M b' _ Hb') as (D & ED & HD & HDt).
  destruct Hfm as [-> | ->]; rewrite EC, ED.
  - eapply (ss_machine Fl e B M None None A None (Some C) (Some D) None); try eassumption.
    + apply in_none2. intros i m k Hi Hm Hk. reflexivity.
    + exact (f_out F fadd fmul fsub B M C _ HC).
  - eapply (ss_machine Fl e B M None None (tconj (mT A)) (Some (tconj C)) None (Some (tconj D)) (Some 0%Z)); try eassumption.
    + exact (f_in F fadd fmul fsub B M (tconj C) _ (f_conj F fadd fmul fsub B M C _ HC)).
    + apply (out_idx Fl B M 0%Z 0%nat); [now apply (pyidx_nat M 0)|]. intros i p m Hi Hp Hm. reflexivity.
Qed.
End Forms.
