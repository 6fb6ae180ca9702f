(** Comb filter and forward-backward filtering. *)
From Coq Require Import List Arith Lia ZArith Bool Ring.
From Verif Require Import Scalar Tensor TensorLemmas TensorOps TensorAlg TensorTac TensorList
  Spec Shapes SpecFilter Algebra M_Mat P_Mat M_Kernels M_LtiRecur M_LtiSsm P_LtiRecur P_LtiSsm P_Filter M_LtiFilter P_LtiFilter P_LtiFilter2.
Import ListNotations.

Section S.
Variable R : cring.
Notation ten := (tensor (car R)).
Add Ring Rr : (r_th R).
Open Scope nat_scope.
Open Scope cr_scope.

(** The output, one recurrence per residue class. *)
Definition comb_y (d : nat) (a : R) (z x : nat -> R) (n : nat) : R :=
  lin_rec (fun _ => - a) (z (d - 1 - n mod d)%nat) (fun m => x (n mod d + m * d)%nat) (S (n / d)).
Lemma comb_y_solves d a z x n : (1 <= d)%nat -> solves_comb d a x (comb_y d a z x) z n.
Proof.
  intro Hd. unfold solves_comb, hist. pose proof (Nat.div_mod n d ltac:(lia)) as Hn.
  pose proof (Nat.mod_upper_bound n d ltac:(lia)) as Hr.
  unfold comb_y at 1. cbn [lin_rec]. replace (n mod d + n / d * d)%nat with n by lia.
  destruct (d - 1 <? n)%nat eqn:E; b2p.
  - destruct (n / d)%nat as [|m] eqn:Em; [rewrite Nat.mul_0_r in Hn; lia|].
    assert (E1 : ((n - 1 - (d - 1)) mod d = n mod d)%nat).
    { replace (n - 1 - (d - 1))%nat with (n mod d + m * d)%nat by nia. rewrite Nat.mod_add by lia. apply Nat.mod_small; lia. }
    assert (E2 : ((n - 1 - (d - 1)) / d = m)%nat).
    { replace (n - 1 - (d - 1))%nat with (n mod d + m * d)%nat by nia. rewrite Nat.div_add by lia. rewrite Nat.div_small by lia. lia. }
    unfold comb_y. rewrite E1, E2. ring.
  - rewrite Nat.div_small by lia. rewrite Nat.mod_small by lia. cbn [lin_rec]. ring.
Qed.
Lemma solves_comb_unique d a x y y' z N : (1 <= d)%nat ->
  (forall n, (n < N)%nat -> solves_comb d a x y z n) -> (forall n, (n < N)%nat -> solves_comb d a x y' z n) ->
  forall n, (n < N)%nat -> y n = y' n :> R.
Proof.
  intros Hd H H' n. induction n as [n IH] using lt_wf_ind. intro Hn. rewrite H, H' by exact Hn. f_equal. f_equal.
  unfold hist. destruct (d - 1 <? n)%nat eqn:E; b2p; [apply IH; lia|reflexivity].
Qed.

Theorem comb_filter_spec e B N d (a x : ten) zi af xf z0 uf : ext e = true -> unroll_ok uf ->
  (1 <= B)%nat -> (1 <= N)%nat -> (2 <= d)%nat -> ccoef B a af -> is2 x B N xf -> cpast B d zi z0 ->
  exists y zf, comb_filter e a d x zi uf = Ok (y, zf) /\
    is2 y B N (fun i => comb_y d (af i) (z0 i) (xf i)) /\
    match zi with
    | None => zf = None
    | Some _ => exists z, zf = Some z /\ is2 z B (Nat.min d N) (fun i k => comb_y d (af i) (z0 i) (xf i) (N - 1 - k))
    end.
Proof.
  intros He Hu HB HN Hd Ha Hx Hz. unfold comb_filter. rkt. cbn [Nat.eqb].
  assert (Hra : (rk a <=? 1)%nat = true) by (destruct Ha; rkt; reflexivity). rewrite Hra.
  assert (Hsx0 : size x 0 = B) by (unfold size; now rewrite (proj1 Hx)). 
  assert (Hsx1 : size x 1 = N) by (unfold size; now rewrite (proj1 Hx)). rewrite Hsx0, Hsx1.
  assert (negb (rk a =? 1)%nat || (size a 0 =? B)%nat = true) as ->.
  { destruct Ha; rkt; [reflexivity|]. unfold size. szt. cbn [nth]. now rewrite !Nat.eqb_refl. }
  bfalse (d =? 1)%nat. bfalse (d =? 0)%nat. cbn [negb].
  set (u := match uf with Some u => u | None => 1%nat end).
  assert (Hu1 : (1 <= u)%nat) by (destruct uf; [exact Hu|exact (le_n 1)]). clearbody u.
  pose proof (Nat.div_mod N d ltac:(lia)) as HNd. pose proof (Nat.mod_upper_bound N d ltac:(lia)) as Hr.
  set (r := (N mod d)%nat) in *.
  assert (exists K, (1 <= K)%nat /\ (K * d = N + if (r =? 0)%nat then 0 else d - r)%nat) as (K & HK & EK).
  { destruct (r =? 0)%nat eqn:E; b2p.
    - exists (N / d)%nat. split; [|lia]. destruct (N / d)%nat; lia.
    - exists (S (N / d)). nia. }
  assert (exists x', (if negb (r =? 0)%nat then pad 1 0 (d - r) r0 x else x) = x' /\
     isP2 x' [] B (K * d) (fun _ i n => if (n <? N)%nat then xf i n else 0)) as (x' & -> & Hx').
  { eexists; split; [reflexivity|]. destruct (r =? 0)%nat eqn:E; cbn [negb]; b2p.
    - apply P2_nil. rewrite EK, Nat.add_0_r. destruct Hx as [Hs Hf]. split; [exact Hs|]. intros i n Hi Hn. now btrue (n <? N)%nat; apply Hf.
    - apply is2_P in Hx. nm (pad 1 0 (d - r) 0 x). fin H; [reflexivity|cbn [Nat.add]; lia|]. intros. cbn [Nat.leb andb Nat.add]. rewrite Nat.sub_0_r. reflexivity. }
  assert (Hsz : size x' 1 = (K * d)%nat) by (unfold size; rewrite (proj1 Hx'); reflexivity).
  rewrite (unflatten_m1_ok x' 1 d K) by (auto; lia).
  eat (P2_unflat1 x' [] B (K * d) _ 1 K d Hx'); [reflexivity|reflexivity|].
  nm (mT w). nm (flatten 0 1 v).
  assert (Hf1 : isP2 v0 [] (B * d) K (fun _ i m => if ((i mod d) + m * d <? N)%nat then xf (i / d)%nat (i mod d + m * d)%nat else 0)).
  { fin H1; auto. intros. rewrite (Nat.add_comm (j * d)). reflexivity. }
  apply P2_nil in Hf1. cbv beta in Hf1.
  set (a' := if (rk a =? 1)%nat then repeat_interleave d a else a).
  assert (Ha' : coef (B * d) (tneg a') (fun i => - af (i / d)%nat)).
  { destruct Ha as [v' Hv Hf|Hv].
    - unfold a'. rkt. cbn [Nat.eqb]. eapply (coef_0 (- v')).
      + destruct Hv as [Hs Hv]. split; [exact Hs|]. cbn. now rewrite Hv.
      + intros i Hi. rewrite Hf; [reflexivity|]. apply Nat.div_lt_upper_bound; lia.
    - unfold a'. rkt. cbn [Nat.eqb]. apply coef_B. destruct Hv as [Hs Hv]. split.
      + cbn. unfold size. now rewrite Hs.
      + intros i Hi. cbn. rewrite Hv; [reflexivity|]. apply Nat.div_lt_upper_bound; lia. }
  set (zz := match zi with Some z => _ | None => zeros_like a' end).
  assert (Hzz : coef (B * d) zz (fun i => z0 (i / d)%nat (d - 1 - i mod d)%nat)).
  { unfold zz. destruct Hz as [f Hf|t g f Ht Hf|t f Ht].
    - assert (forall i, (i < B * d)%nat -> f (i / d)%nat (d - 1 - i mod d)%nat = 0).
      { intros i Hi. apply Hf; [apply Nat.div_lt_upper_bound; lia|]. pose proof (Nat.mod_upper_bound i d ltac:(lia)). lia. }
      destruct Ha as [v' Hv _|Hv]; unfold a'; rkt; cbn [Nat.eqb].
      + eapply (coef_0 0); [|assumption]. split; [exact (proj1 Hv)|reflexivity].
      + apply coef_B. destruct Hv as [Hs Hv]. split; [cbn; unfold size; now rewrite Hs|]. intros i Hi. cbn. symmetry; auto.
    - rkt. cbn [Nat.eqb]. apply coef_B. destruct Ht as [Hs Ht].
      assert (Hsx : size x' 0 = B) by (unfold size; rewrite (proj1 Hx'); reflexivity).
      assert (Hfl : size (flip 0 t) 0 = d) by (unfold size, flip; cbn [shape]; rewrite Hs; reflexivity).
      split; [unfold repeat1; cbn [shape]; now rewrite Hsx, Hfl|]. intros i Hi. unfold repeat1. cbn [at_ nth]. rewrite Hfl.
      pose proof (Nat.mod_upper_bound i d ltac:(lia)).
      rewrite Hf by (try apply Nat.div_lt_upper_bound; lia). unfold flip. cbn [at_ upd]. unfold size. rewrite Hs. cbn [nth].
      apply Ht. lia.
    - rkt. cbn [Nat.eqb Nat.sub]. apply coef_B. apply is2_P in Ht. nm (flip 1 t). nm (flatten 0 1 v1). apply P1_nil in H3. exact H3. }
  destruct (linear_recurrence_spec R (B * d) K (tneg a') zz v0 _ _ _ u ltac:(nia) HK Hu1 Ha' Hzz Hf1) as (y2 & E2 & Hy2).
  rewrite He, E2. cbn [bind]. clear E2. apply is2_P in Hy2.
  assert (Hsz2 : size y2 0 = (B * d)%nat) by (unfold size; rewrite (proj1 Hy2); reflexivity).
  rewrite (unflatten_m1_ok y2 0 d B) by (auto; lia).
  eat (P2_unflat0 y2 [] (B * d) K _ 0 B d Hy2); [reflexivity|reflexivity|].
  nm (mT w0). nm (flatten 1 2 v1).
  assert (Hmain : isP2 v2 [] B (K * d) (fun _ i n => comb_y d (af i) (z0 i) (fun n => if (n <? N)%nat then xf i n else 0) n)).
  { fin H4; auto. intros q i j _ Hi Hj. pose proof (Nat.mod_upper_bound j d ltac:(lia)) as Hm.
    assert (E1 : ((i * d + j mod d) / d = i)%nat) by (rewrite Nat.div_add_l, Nat.div_small by lia; lia).
    assert (E2 : ((i * d + j mod d) mod d = j mod d)%nat) by (rewrite Nat.add_comm, Nat.mod_add by lia; apply Nat.mod_small; lia).
    unfold comb_y. rewrite E1, E2. reflexivity. }
  clear H4 H3 H2 Hy2. 
  assert (exists y, (if negb (r =? 0)%nat then slice 1 None (Some (- Z.of_nat (d - r))%Z) v2 else v2) = y /\
     isP2 y [] B N (fun _ i => comb_y d (af i) (z0 i) (xf i))) as (y & -> & Hy).
  { eexists; split; [reflexivity|].
    assert (Hc : forall i n, (n < N)%nat -> comb_y d (af i) (z0 i) (fun n => if (n <? N)%nat then xf i n else 0) n = comb_y d (af i) (z0 i) (xf i) n).
    { intros i n Hn. unfold comb_y. apply lin_rec_ext; auto. intros k Hk. pose proof (Nat.div_mod n d ltac:(lia)).
      assert (k * d <= n / d * d)%nat by (apply Nat.mul_le_mono_r; lia).
      btrue (n mod d + k * d <? N)%nat. reflexivity. }
    destruct (r =? 0)%nat eqn:E; cbn [negb]; b2p.
    - fin Hmain; auto. lia.
    - eapply isP2_ext'; [eapply P2_slice1; [exact Hmain|reflexivity|slt|rewrite pyb_neg by lia; reflexivity]|reflexivity|lia|].
      intros. cbn [Nat.add]. now apply Hc. }
  eexists _, _. split; [reflexivity|]. split; [apply P2_nil in Hy; exact Hy|].
  destruct zi as [zi|]; [|reflexivity]. eexists; split; [reflexivity|].
  eassert (Hs : isP2 (slice 1 (Some (- Z.of_nat d)%Z) None y) [] B (Nat.min d N) _).
  { eapply isP2_ext'; [eapply P2_slice1; [exact Hy|reflexivity|rewrite pyb_neg by lia; reflexivity|rewrite pyb_none; reflexivity]|reflexivity|lia|]. intros; reflexivity. }
  set (ys := slice _ _ _ y) in *. clearbody ys. nm (flip 1 ys).
  assert (Hfl : isP2 v3 [] B (Nat.min d N) (fun _ i k => comb_y d (af i) (z0 i) (xf i) (N - 1 - k)%nat)).
  { match goal with H : isP2 v3 _ _ _ _ |- _ => fin H; auto end. intros q i j _ Hi Hj. f_equal. lia. }
  apply P2_nil in Hfl. exact Hfl.
Qed.

Theorem comb_filter_1_spec e B N (a x : ten) zi af xf z0 uf : unroll_ok uf ->
  (1 <= B)%nat -> (1 <= N)%nat -> ccoef B a af -> is2 x B N xf -> cpast B 1 zi z0 ->
  exists y, comb_filter e a 1 x zi uf = Ok (y, None) /\ is2 y B N (fun i => comb_y 1 (af i) (z0 i) (xf i)).
Proof.
  intros Hu HB HN Ha Hx Hz. unfold comb_filter. rkt. cbn [Nat.eqb].
  assert (Hra : (rk a <=? 1)%nat = true) by (destruct Ha; rkt; reflexivity). rewrite Hra.
  assert (Hsx0 : size x 0 = B) by (unfold size; now rewrite (proj1 Hx)). rewrite Hsx0.
  assert (negb (rk a =? 1)%nat || (size a 0 =? B)%nat = true) as ->.
  { destruct Ha; rkt; [reflexivity|]. unfold size. szt. cbn [nth]. now rewrite !Nat.eqb_refl. }
  set (u := match uf with Some u => u | None => 1%nat end).
  assert (Hu1 : (1 <= u)%nat) by (destruct uf; [exact Hu|exact (le_n 1)]). clearbody u.
  assert (Ha' : coef B (tneg a) (fun i => - af i)).
  { destruct Ha as [v Hv Hf|Hv].
    - apply (coef_0 (- v)); [|intros; now rewrite Hf]. destruct Hv as [Hs Hv]. split; [exact Hs|]. cbn. now rewrite Hv.
    - apply coef_B. destruct Hv as [Hs Hv]. split; [exact Hs|]. intros i Hi. cbn. now rewrite Hv. }
  set (zz := match zi with Some z => _ | None => _ end).
  assert (Hzz : coef B zz (fun i => z0 i 0%nat)).
  { unfold zz. destruct Hz as [f Hf|t g f Ht Hf|t f Ht].
    - assert (forall i, (i < B)%nat -> f i 0%nat = 0) by (intros; apply Hf; lia).
      destruct Ha as [v' Hv _|Hv].
      + apply (coef_0 0); [|assumption]. split; [exact (proj1 Hv)|reflexivity].
      + apply coef_B. split; [exact (proj1 Hv)|]. intros i Hi. cbn. symmetry; auto.
    - rkt. cbn [Nat.sub]. apply (coef_0 (g 0%nat)); [|intros; apply Hf; lia]. destruct Ht as [Hs Ht].
      rewrite squeeze_sel by (unfold size; now rewrite Hs). split; [unfold sel; cbn [shape]; now rewrite Hs|].
      unfold sel. cbn. apply Ht; lia.
    - rkt. cbn [Nat.sub]. apply coef_B. destruct Ht as [Hs Ht].
      rewrite squeeze_sel by (unfold size; now rewrite Hs). split; [unfold sel; cbn [shape]; now rewrite Hs|].
      intros i Hi. unfold sel. cbn. apply Ht; lia. }
  destruct (linear_recurrence_spec R B N (tneg a) zz x _ _ _ u HB HN Hu1 Ha' Hzz Hx) as (y & E & Hy).
  rewrite E. cbn [bind]. exists y. split; [reflexivity|].
  eapply is2_ext; [exact Hy|]. intros i n Hi Hn. unfold comb_y. rewrite Nat.mod_1_r, Nat.div_1_r.
  cbn [Nat.sub]. apply lin_rec_ext; auto. intros k Hk. f_equal. lia.
Qed.

(** ** filtfilt *)
Definition ext_sig (pm : option padmode) (N e : nat) (x : nat -> R) : nat -> R :=
  match pm with
  | None => x
  | Some Replicate => ext_replicate N e x
  | Some Reflect => ext_reflect N e x
  | Some Circular => ext_circular N e x
  | Some Constant => ext_zero N e x
  end.
Lemma pad_mode_view pm e B N (v : ten) f : (e < N)%nat -> is2 v B N f ->
  is2 (pad_mode pm e v) B (e + N + e) (fun i => ext_sig (Some pm) N e (f i)).
Proof.
  intros He [Hs Hf]. split; [unfold pad_mode, rk; rewrite Hs; reflexivity|].
  intros i n Hi Hn. unfold pad_mode, rk. rewrite Hs. cbn [length Nat.sub at_ nth upd]. unfold size. rewrite Hs. cbn [nth].
  destruct pm; cbn [pad_index ext_sig]; unfold ext_replicate, ext_reflect, ext_circular, ext_zero, extend.
  - destruct (n <? e)%nat eqn:E1; b2p; [apply Hf; lia|]. destruct (n - e <? N)%nat eqn:E2; b2p; apply Hf; lia.
  - destruct (n <? e)%nat eqn:E1; b2p; [rewrite Hf by lia; f_equal; lia|].
    destruct (n - e <? N)%nat eqn:E2; b2p; rewrite Hf by lia; f_equal; lia.
  - destruct (n <? e)%nat eqn:E1; b2p; [rewrite Hf by lia; f_equal; lia|].
    destruct (n - e <? N)%nat eqn:E2; b2p; rewrite Hf by lia; f_equal; lia.
  - destruct (n <? e)%nat eqn:E1; b2p; cbn [orb]; [reflexivity|].
    destruct (n - e <? N)%nat eqn:E2; b2p; [bfalse (N <=? n - e)%nat; apply Hf; lia|btrue (N <=? n - e)%nat; reflexivity].
Qed.
Lemma ext_sig_0 pm N (x : nat -> R) n : (n < N)%nat -> ext_sig pm N 0 x n = x n.
Proof.
  intro Hn. destruct pm as [[]|]; cbn [ext_sig]; try reflexivity;
    unfold ext_replicate, ext_reflect, ext_circular, ext_zero, extend; bfalse (n <? 0)%nat;
    rewrite Nat.sub_0_r; now btrue (n <? N)%nat.
Qed.
Lemma ext_sig_const pm N e (x : nat -> R) c n : pm <> Some Constant -> (e < N)%nat -> (n < N + 2 * e)%nat ->
  (pm = None -> e = 0%nat) -> (forall k, (k < N)%nat -> x k = c) -> ext_sig pm N e x n = c.
Proof.
  intros Hpm He Hn H0 Hx. destruct pm as [[]|]; cbn [ext_sig]; [| | |congruence|apply Hx; rewrite H0 in Hn by reflexivity; lia];
    unfold ext_replicate, ext_reflect, ext_circular, extend;
    destruct (n <? e)%nat eqn:E1; b2p; try (apply Hx; lia); destruct (n - e <? N)%nat eqn:E2; b2p; apply Hx; lia.
Qed.

(** Signals: (B, N), or (N) together with 1-D coefficients. *)
Definition sig_ok (px : list nat) (B : nat) (b a : ten) : Prop :=
  px = [B] \/ (px = [] /\ B = 1%nat /\ rk b = 1%nat /\ rk a = 1%nat).
Definition sigx (px : list nat) (N : nat) (x : ten) (f : nat -> nat -> R) : Prop := isP1 x px N (fun q => f (nth 0 q 0%nat)).

Lemma lfilter_sig e px B N nb na M (b a x zx : ten) bf af xf z0 uf fm :
  (1 <= B)%nat -> (1 <= N)%nat -> (1 <= nb)%nat -> M = Nat.max na (nb - 1) -> (1 <= M)%nat ->
  backend_ok e M -> unroll_ok uf -> has_state fm = true -> sig_ok px B b a ->
  fcoef B nb b bf -> fcoef B na a af -> sigx px N x xf -> sigx px M zx z0 ->
  exists y zf, lfilter_ssm e b a x (Some zx) fm uf = Ok (y, Some zf) /\
    sigx px N y (fun i => lf_y fm M (padz nb (lf_num fm (bf i))) (padz na (lf_den fm (af i))) (z0 i) (xf i)) /\
    sigx px M zf (fun i => lf_z fm M (padz nb (lf_num fm (bf i))) (padz na (lf_den fm (af i))) (z0 i) (xf i) N).
Proof.
  intros HB HN Hnb EM HM Hbe Hu Hst Hpx Hb Ha Hx Hz.
  assert (Hfm : fm <> OtherForm) by (intros ->; discriminate). unfold sigx in *.
  destruct Hpx as [->|(-> & -> & Rb & Ra)].
  - apply is2_P1 in Hx. apply is2_P1 in Hz.
    destruct (lfilter_spec R e B N nb na M b a x bf af xf (Some zx) z0 uf fm HB HN Hnb EM HM Hbe Hu Hfm Hb Ha Hx) as (y & zf & E & Hy & Hzf).
    { intros _. now apply (init_BM R B M zx z0 z0). }
    rewrite Hst in Hzf. destruct Hzf as (z & -> & Hzf). exists y, z. split; [exact E|]. split; [exact (proj1 (is2_P1 _ _ _ _) Hy)|exact (proj1 (is2_P1 _ _ _ _) Hzf)].
  - apply P1_nil in Hx. apply P1_nil in Hz. cbn [nth] in Hx, Hz.
    assert (Hx2 : is2 (unsqueeze 0 x) 1 N xf).
    { destruct Hx as [Hs Hf]. split; [unfold unsqueeze; cbn [shape]; now rewrite Hs|]. intros i n Hi Hn. cbn. rewrite Hf by exact Hn. now replace i with 0%nat by lia. }
    assert (Hi : has_state fm = true -> init 1 M (Some zx) z0).
    { intros _. apply (init_M R 1 M zx (z0 0%nat) z0); [exact Hz|]. intros i m Hi Hm. now replace i with 0%nat by lia. }
    destruct (lfilter_spec R e 1 N nb na M b a (unsqueeze 0 x) bf af xf (Some zx) z0 uf fm HB HN Hnb EM HM Hbe Hu Hfm Hb Ha Hx2 Hi) as (y & zf & E & Hy & Hzf).
    rewrite Hst in Hzf. destruct Hzf as (z & -> & Hzf). rewrite (lfilter_2d R _ _ _ _ _ _ _ _ _ _ _ _ _ _ Hx2 Hb Ha) in E.
    exists (squeeze 0 y), (squeeze 0 z). split.
    + unfold lfilter_ssm, lfilter_wrap. rewrite Rb, Ra. rkt. cbn [Nat.eqb andb bind orb]. rewrite E. reflexivity.
    + split.
      * exact (proj2 (P1_nil _ _ (fun q => (fun i => lf_y fm M (padz nb (lf_num fm (bf i))) (padz na (lf_den fm (af i))) (z0 i) (xf i)) (nth 0 q 0%nat))) (squeeze0_2 R y N _ Hy)).
      * exact (proj2 (P1_nil _ _ (fun q => (fun i => lf_z fm M (padz nb (lf_num fm (bf i))) (padz na (lf_den fm (af i))) (z0 i) (xf i) N) (nth 0 q 0%nat))) (squeeze0_2 R z M _ Hzf)).
Qed.

(** A result shared by two batch sizes has one row. *)
Lemma fcoef_shared B n (t : ten) f g : B <> 2%nat -> fcoef B n t f -> fcoef 2 n t g -> is1 t n (f 0%nat) \/ B = 0%nat.
Proof.
  intros HB [h H Hf|H] H2.
  - destruct B; [auto|]. left. eapply is1_ext; [exact H|]. intros. symmetry. apply Hf; lia.
  - destruct H as [Hs _]. destruct H2 as [h [Hs2 _] _|[Hs2 _]]; rewrite Hs in Hs2; [discriminate|]. congruence.
Qed.
Lemma tmul_sig px B M (s t : ten) sf (g : nat -> R) : (px = [B] \/ (px = [] /\ is1 s M (sf 0%nat))) ->
  fcoef B M s sf -> sigx px 1 t (fun i _ => g i) -> exists y, tmul s t = Ok y /\ sigx px M y (fun i k => sf i k * g i).
Proof.
  intros Hp Hs Ht. unfold sigx in *. destruct Hp as [->|[-> Hs1]].
  - apply fcoef_P in Hs as (p & sg & Hp & Hs & Hf). destruct Hp as [->| ->]; ew2; (eexists; split; [reflexivity|]).
    + match goal with |- isP1 ?w0 _ _ _ => match goal with H : isP1 w0 _ _ _ |- _ => fin H; auto end end.
      intros q i Hq Hi. apply vld_1_inv in Hq as (z & -> & Hz). cbn [nth]. rewrite Hf by assumption. rewrite ?bi_lt by lia. reflexivity.
    + match goal with |- isP1 ?w0 _ _ _ => match goal with H : isP1 w0 _ _ _ |- _ => fin H; auto end end.
      intros q i Hq Hi. apply vld_1_inv in Hq as (z & -> & Hz). cbn [nth]. rewrite Hf by assumption. rewrite ?bi_lt by lia. reflexivity.
  - apply is1_P in Hs1. ew2. eexists; split; [reflexivity|].
    match goal with |- isP1 ?w0 _ _ _ => match goal with H : isP1 w0 _ _ _ |- _ => fin H; auto end end.
    intros q i Hq Hi. apply vld_nil_inv in Hq as ->. cbn [nth]. rewrite ?bi_lt by lia. reflexivity.
Qed.

(** Forward then backward pass with steady-state initial conditions [s]. *)
Definition fwd (fm : form) (M : nat) (b a s xe : nat -> R) : nat -> R :=
  lf_y fm M b a (fun k => s k * xe 0%nat) xe.
Definition fbwd (fm : form) (M : nat) (b a s xe : nat -> R) (L e n : nat) : R :=
  fwd fm M b a s (fun m => fwd fm M b a s xe (L - 1 - m)%nat) (L - 1 - e - n)%nat.
Definition ff_edge (pm : option padmode) (padlen : option nat) (nb na : nat) : nat :=
  match pm, padlen with None, _ => 0 | _, Some l => l | _, None => 3 * Nat.max nb (na + 1) end%nat.

Theorem filtfilt_spec e la px B N nb na M edge (b a x s : ten) bf af xf sf pm padlen uf fm :
  (1 <= B)%nat -> (1 <= nb)%nat -> M = Nat.max na (nb - 1) -> (1 <= M)%nat ->
  backend_ok e M -> unroll_ok uf -> has_state fm = true -> sig_ok px B b a ->
  fcoef B nb b bf -> fcoef B na a af -> sigx px N x xf ->
  edge = ff_edge pm padlen nb na -> (edge < N)%nat ->
  lfilter_zi la a (Some b) (match fm with Tdf2 => true | _ => false end) = Ok s -> fcoef B M s sf -> 
  (px = [] -> is1 s M (sf 0%nat)) ->
  exists y, filtfilt_ssm e la b a x pm padlen false fm uf = Ok y /\
    sigx px N y (fun i n => fbwd fm M (padz nb (lf_num fm (bf i))) (padz na (lf_den fm (af i))) (sf i)
                                 (ext_sig pm N edge (xf i)) (N + 2 * edge) edge n).
Proof.
  intros HB Hnb EM HM Hbe Hu Hst Hpx Hb Ha Hx Eedge Hedge Es Hs Hs1.
  assert (Hpx' : px = [B] \/ px = [] /\ is1 s M (sf 0%nat)) by (destruct Hpx as [->|(-> & _)]; auto).
  assert (Hpl : length px = 0%nat \/ length px = 1%nat) by (destruct Hpx as [->|(-> & _)]; auto).
  unfold filtfilt_ssm, filtfilt_wrap. cbn [negb].
  destruct (fcoef_size _ _ _ _ _ Hb) as (-> & _ & _). destruct (fcoef_size _ _ _ _ _ Ha) as (-> & _ & _).
  assert (Ee : match (match pm with Some _ => padlen | None => Some 0%nat end) with Some l => l | None => (3 * Nat.max nb (na + 1))%nat end = edge).
  { subst edge. unfold ff_edge. destruct pm, padlen; reflexivity. }
  rewrite Ee. clear Ee.
  assert (Hrx : rk x = (length px + 1)%nat) by exact (P1_rk _ _ _ _ Hx).
  assert (Hsz : sizen x 1 = N).
  { unfold sizen. rewrite Hrx. unfold size. rewrite (proj1 Hx). destruct Hpx as [->|(-> & _)]; reflexivity. }
  rewrite Hsz. btrue (edge <? N)%nat. set (L := (N + 2 * edge)%nat).
  assert (exists xe, (match pm with
      | Some pm0 => if (0 <? edge)%nat then let v := if (rk x =? 1)%nat then unsqueeze 0 x else flatten 0 (rk x - 2) x in
                      let p := pad_mode pm0 edge v in if (rk x =? 1)%nat then squeeze 0 p else p else x
      | None => x end) = xe /\ sigx px L xe (fun i => ext_sig pm N edge (xf i))) as (xe & Exe & Hxe).
  { eexists; split; [reflexivity|].
    assert (Hno : edge = 0%nat -> sigx px L x (fun i => ext_sig pm N edge (xf i))).
    { unfold L. intros ->. unfold sigx in *. fin Hx; [lia|]. intros q i _ Hi. symmetry. apply ext_sig_0. lia. }
    destruct pm as [pm|]; [|apply Hno; exact Eedge].
    destruct (0 <? edge)%nat eqn:E0; b2p; [|apply Hno; lia]. cbv zeta. rewrite Hrx. unfold sigx in *.
    destruct Hpx as [->|(-> & -> & _)]; cbn [length Nat.add Nat.eqb Nat.sub].
    - apply is2_P1 in Hx. refine (proj1 (is2_P1 _ _ _ (fun i => ext_sig (Some pm) N edge (xf i))) _). replace L with (edge + N + edge)%nat by (unfold L; lia). apply pad_mode_view; [exact Hedge|].
      destruct Hx as [Hsx Hfx]. unfold flatten. rewrite Hsx. split; [cbn; f_equal; lia|].
      intros i n Hi Hn. cbn. rewrite <- Hfx by assumption. f_equal.
    - apply P1_nil in Hx. cbn [nth] in Hx. refine (proj2 (P1_nil _ _ (fun q => ext_sig (Some pm) N edge (xf (nth 0 q 0%nat)))) _). cbn [nth]. replace L with (edge + N + edge)%nat by (unfold L; lia).
      refine (squeeze0_2 R _ _ (fun i => ext_sig (Some pm) N edge (xf i)) _). apply pad_mode_view; [exact Hedge|].
      destruct Hx as [Hsx Hfx]. split; [unfold unsqueeze; cbn [shape]; now rewrite Hsx|]. intros i n Hi Hn. cbn. rewrite Hfx by exact Hn. now replace i with 0%nat by lia. }
  cbv zeta in Exe |- *. rewrite Exe. clear Exe. rewrite Es. cbn [bind].
  set (bt := fun i => padz nb (lf_num fm (bf i))). set (at' := fun i => padz na (lf_den fm (af i))).
  set (X := fun i => ext_sig pm N edge (xf i)) in *.
  assert (HL : (1 <= L)%nat) by (unfold L; lia).
  assert (Hrk : forall (t : ten) n f, isP1 t px n f -> (rk t - 1 = length px + 0)%nat) by (intros t n f Ht; rewrite (P1_rk _ _ _ _ Ht); lia).
  assert (forall t f n, (1 <= n)%nat -> sigx px n t f -> exists y zf zx, tmul s (slice (rk t - 1) None (Some 1%Z) t) = Ok zx /\
     lfilter_ssm e b a t (Some zx) fm uf = Ok (y, Some zf) /\ sigx px n y (fun i => fwd fm M (bt i) (at' i) (sf i) (f i))) as Hstep.
  { intros t f n Hn Ht.
    assert (Ht0 : sigx px 1 (slice (rk t - 1) None (Some 1%Z) t) (fun i _ => f i 0%nat)).
    { unfold sigx. eapply isP1_ext'; [eapply P1_slice0; [exact Ht|exact (Hrk _ _ _ Ht)|apply pyb_none|rewrite pyb_1 by lia; reflexivity]|reflexivity|].
      intros q i _ Hi. cbv beta. now replace i with 0%nat by lia. }
    destruct (tmul_sig px B M s _ sf _ Hpx' Hs Ht0) as (zx & Ez & Hz).
    destruct (lfilter_sig e px B n nb na M b a t zx bf af f _ uf fm HB Hn Hnb EM HM Hbe Hu Hst Hpx Hb Ha Ht Hz) as (y & zf & E & Hy & _).
    exists y, zf, zx. split; [exact Ez|]. split; [exact E|]. exact Hy. }
  destruct (Hstep xe X L HL Hxe) as (y1 & zf1 & zx1 & E1 & E2 & Hy1). rewrite E1. cbn [bind]. rewrite E2. cbn [bind unpack2]. clear E1 E2.
  assert (Hfl : sigx px L (flip (rk y1 - 1) y1) (fun i n => fwd fm M (bt i) (at' i) (sf i) (X i) (L - 1 - n)%nat)).
  { unfold sigx. eapply isP1_ext'; [eapply P1_flip0; [exact Hy1|exact (Hrk _ _ _ Hy1)]|reflexivity|]. reflexivity. }
  assert (Hy0 : sigx px 1 (slice (rk y1 - 1) (Some (-1)%Z) None y1) (fun i _ => fwd fm M (bt i) (at' i) (sf i) (X i) (L - 1)%nat)).
  { unfold sigx. eapply isP1_ext'; [eapply P1_slice0; [exact Hy1|exact (Hrk _ _ _ Hy1)|apply pyb_m1|rewrite pyb_none; reflexivity]|lia|].
    intros q i _ Hi. cbv beta. f_equal. lia. }
  destruct (tmul_sig px B M s _ sf _ Hpx' Hs Hy0) as (zy & Ez & Hz). rewrite Ez. cbn [bind]. clear Ez.
  destruct (lfilter_sig e px B L nb na M b a _ zy bf af _ _ uf fm HB HL Hnb EM HM Hbe Hu Hst Hpx Hb Ha Hfl Hz) as (y2 & zf2 & E2 & Hy2 & _).
  rewrite E2. cbn [bind unpack2]. clear E2.
  assert (Hy2' : sigx px L y2 (fun i => fwd fm M (bt i) (at' i) (sf i) (fun m => fwd fm M (bt i) (at' i) (sf i) (X i) (L - 1 - m)%nat))).
  { unfold sigx in *. fin Hy2; [reflexivity|]. intros q i _ Hi. unfold fwd at 3. rewrite Nat.sub_0_r. reflexivity. }
  set (y3 := if (0 <? edge)%nat then _ else y2).
  assert (Hy3 : sigx px N y3 (fun i n => fwd fm M (bt i) (at' i) (sf i) (fun m => fwd fm M (bt i) (at' i) (sf i) (X i) (L - 1 - m)%nat) (edge + n)%nat)).
  { unfold y3, sigx in *. destruct (0 <? edge)%nat eqn:E; b2p.
    - eapply isP1_ext'; [eapply P1_slice0; [exact Hy2'|exact (Hrk _ _ _ Hy2')|apply pyb_le; unfold L; lia|rewrite pyb_neg by lia; reflexivity]|unfold L; lia|].
      intros q i _ Hi. reflexivity.
    - fin Hy2'; [unfold L; lia|]. intros q i _ Hi. replace edge with 0%nat by lia. reflexivity. }
  clearbody y3. eexists; split; [reflexivity|]. unfold sigx in *.
  eapply isP1_ext'; [eapply P1_flip0; [exact Hy3|exact (Hrk _ _ _ Hy3)]|reflexivity|].
  intros q i _ Hi. cbv beta. unfold fbwd. fold (bt (nth 0 q 0%nat)) (at' (nth 0 q 0%nat)). f_equal. fold L. unfold L. lia.
Qed.
End S.
Arguments comb_y {R}. Arguments fwd {R}. Arguments fbwd {R}. Arguments ext_sig {R}. Arguments sigx {R}. Arguments sig_ok {R}.
