(** Loops over tensors: [unbind], [stack], [cat] of lists, and loop invariants. *)
From Coq Require Import List Arith Lia ZArith Bool.
From Verif Require Import Scalar Tensor TensorLemmas TensorOps TensorAlg TensorTac.
Import ListNotations.

Section L.
Context {A : Type}.
Implicit Type t : tensor A.

Lemma nth_unbind t d j dflt : j < size t d -> nth j (unbind d t) dflt = sel d j t.
Proof.
  intro H. unfold unbind. rewrite nth_indep with (d' := (fun i => sel d i t) 0).
  - rewrite map_nth with (f := fun i => sel d i t). now rewrite seq_nth.
  - now rewrite map_length, seq_length.
Qed.
Lemma unbind_length t d : length (unbind d t) = size t d.
Proof. unfold unbind. now rewrite map_length, seq_length. Qed.
Lemma nth_error_unbind t d j u : nth_error (unbind d t) j = Some u -> j < size t d /\ u = sel d j t.
Proof.
  intro H. assert (j < size t d) by (rewrite <- unbind_length; apply nth_error_Some; congruence).
  split; [assumption|]. apply nth_error_nth with (d := u) in H. now rewrite nth_unbind in H.
Qed.

Lemma P1_sel0 t pre n f d x : isP1 t pre n f -> d = length pre + 0 -> x < n ->
  isP0 (sel d x t) pre (fun q => f q x).
Proof.
  intros [Hs Hf] -> Hx. split; cbn [sel shape at_].
  - rewrite Hs, del_app. cbn. apply app_nil_r.
  - intros q Hq. rewrite <- (vld_len _ _ Hq). rewrite <- (app_nil_r q) at 2.
    rewrite ins_app. cbn [ins]. now apply Hf.
Qed.
Lemma P0_unsq0 t pre f d : isP0 t pre f -> d = length pre + 0 ->
  isP1 (unsqueeze d t) pre 1 (fun q _ => f q).
Proof.
  intros [Hs Hf] ->. split; cbn [unsqueeze shape at_].
  - rewrite Hs. rewrite <- (app_nil_r pre) at 2. rewrite ins_app. reflexivity.
  - intros q i Hq Hi. rewrite <- (vld_len _ _ Hq), del_app. cbn [del]. rewrite app_nil_r. now apply Hf.
Qed.
Lemma is0_P0 t v : is0 t v <-> isP0 t [] (fun _ => v).
Proof.
  split; intros [H1 H2]; split; auto. intros q Hq. now apply vld_nil_inv in Hq as ->.
  apply (H2 []), vld_nil.
Qed.
Lemma is1_P0 t n f : is1 t n f <-> isP0 t [n] (fun q => f (nth 0 q 0)).
Proof.
  split; intros [H1 H2]; split; auto.
  - intros q Hq. apply vld_1_inv in Hq as (x & -> & Hx). cbn. auto.
  - intros i Hi. apply (H2 [i]). now apply vld_1.
Qed.

Lemma P1_nil t n f : isP1 t [] n f <-> is1 t n (f []).
Proof. rewrite is1_P. split; intro H; eapply isP1_ext; eauto; intros q; intros; now apply vld_nil_inv in H0 as ->. Qed.
Lemma P2_nil t n m f : isP2 t [] n m f <-> is2 t n m (f []).
Proof. rewrite is2_P. split; intro H; eapply isP2_ext; eauto; intros q; intros; now apply vld_nil_inv in H0 as ->. Qed.
Lemma P3_nil t n m p f : isP3 t [] n m p f <-> is3 t n m p (f []).
Proof. rewrite is3_P. split; intro H; eapply isP3_ext; eauto; intros q; intros; now apply vld_nil_inv in H0 as ->. Qed.
Lemma P4_nil t n m p r f : isP4 t [] n m p r f <-> is4 t n m p r (f []).
Proof. rewrite is4_P. split; intro H; eapply isP4_ext; eauto; intros q; intros; now apply vld_nil_inv in H0 as ->. Qed.
Lemma P1_cons t b n f : isP1 t [b] n f <-> is2 t b n (fun z => f [z]).
Proof. rewrite is2_P1. split; intro H; eapply isP1_ext; eauto; intros q; intros; apply vld_1_inv in H0 as (x & -> & Hx); reflexivity. Qed.
Lemma P2_cons t b n m f : isP2 t [b] n m f <-> is3 t b n m (fun z => f [z]).
Proof. rewrite is3_P2. split; intro H; eapply isP2_ext; eauto; intros q; intros; apply vld_1_inv in H0 as (x & -> & Hx); reflexivity. Qed.
Lemma P3_cons t b n m p f : isP3 t [b] n m p f <-> is4 t b n m p (fun z => f [z]).
Proof. rewrite is4_P3. split; intro H; eapply isP3_ext; eauto; intros q; intros; apply vld_1_inv in H0 as (x & -> & Hx); reflexivity. Qed.

Lemma is2_PP0 t a n f : is2 t a n f <-> isP0 t [a; n] (fun q => f (nth 0 q 0) (nth 1 q 0)).
Proof.
  split; intros [H1 H2]; split; auto.
  - intros q Hq. apply vld_2_inv in Hq as (x & y & -> & Hx & Hy). cbn. auto.
  - intros i j Hi Hj. apply (H2 [i; j]). now apply vld_2.
Qed.
Lemma is3_PP1 t a n m f : is3 t a n m f <-> isP1 t [a; n] m (fun q => f (nth 0 q 0) (nth 1 q 0)).
Proof.
  split; intros [H1 H2]; split; auto.
  - intros q k Hq Hk. apply vld_2_inv in Hq as (x & y & -> & Hx & Hy). cbn. auto.
  - intros i j k Hi Hj Hk. apply (H2 [i; j]); auto. now apply vld_2.
Qed.
Lemma bi_1 i : bi 1 i = 0.
Proof. reflexivity. Qed.

(** ** stack and cat of lists of views *)
Lemma stack_P0 (l : list (tensor A)) pre (g : nat -> list nat -> A) d :
  l <> [] -> d = length pre + 0 ->
  (forall dflt j, j < length l -> isP0 (nth j l dflt) pre (g j)) ->
  exists y, stack d l = Ok y /\ isP1 y pre (length l) (fun q j => g j q).
Proof.
  intros Hne -> Hv.
  destruct (stack_gen l (pre) (length pre + 0) Hne) as (y & E & Hs & Ha).
  { intros t Ht. destruct (In_nth _ _ t Ht) as (j & Hj & <-). apply (Hv t j Hj). }
  assert (Hd : exists t0 : tensor A, True) by (destruct l as [|t0 l]; [congruence|now exists t0]).
  destruct Hd as [t0 _].
  exists y. split; [exact E|]. split.
  - rewrite Hs. rewrite <- (app_nil_r pre) at 2. rewrite ins_app. reflexivity.
  - intros q z Hq Hz. rewrite <- (vld_len _ _ Hq) in Ha.
    rewrite (Ha _ t0) by (rewrite nth_app; exact Hz).
    rewrite nth_app, del_app. cbn [nth del]. rewrite app_nil_r. destruct (Hv t0 z Hz) as [_ Hx]. now apply Hx.
Qed.
Lemma cat1_P1 (l : list (tensor A)) pre (g : nat -> list nat -> A) d :
  l <> [] -> d = length pre + 0 ->
  (forall dflt j, j < length l -> isP1 (nth j l dflt) pre 1 (fun q _ => g j q)) ->
  exists y, cat d l = Ok y /\ isP1 y pre (length l) (fun q j => g j q).
Proof.
  intros Hne -> Hv.
  assert (Hd : exists t0 : tensor A, True) by (destruct l as [|t0 l]; [congruence|now exists t0]).
  destruct Hd as [t0 _].
  destruct (cat1_gen l pre [] (length pre + 0) ltac:(lia) Hne) as (y & E & Hs & Ha).
  { intros t Ht. destruct (In_nth _ _ t Ht) as (j & Hj & <-). apply (Hv t j Hj). }
  exists y. split; [exact E|]. split; [exact Hs|].
  intros q z Hq Hz.
  rewrite (Ha q z _ t0 (vld_len _ _ Hq) Hz).
  destruct (Hv t0 z Hz) as [_ Hx]. apply Hx; auto.
Qed.
Lemma stack_P1 (l : list (tensor A)) pre n (g : nat -> list nat -> nat -> A) d :
  l <> [] -> d = length pre + 0 ->
  (forall dflt j, j < length l -> isP1 (nth j l dflt) pre n (g j)) ->
  exists y, stack d l = Ok y /\ isP2 y pre (length l) n (fun q j => g j q).
Proof.
  intros Hne -> Hv.
  destruct (stack_gen l (pre ++ [n]) (length pre + 0) Hne) as (y & E & Hs & Ha).
  { intros t Ht. destruct (In_nth _ _ t Ht) as (j & Hj & <-). apply (Hv t j Hj). }
  assert (Hd : exists t0 : tensor A, True) by (destruct l as [|t0 l]; [congruence|now exists t0]).
  destruct Hd as [t0 _].
  exists y. split; [exact E|]. split.
  - rewrite Hs.  rewrite ins_app. reflexivity.
  - intros q z i Hq Hz Hi. rewrite <- (vld_len _ _ Hq) in Ha.
    rewrite (Ha _ t0) by (rewrite nth_app; exact Hz).
    rewrite nth_app, del_app. cbn [nth del]. destruct (Hv t0 z Hz) as [_ Hx]. now apply Hx.
Qed.
Lemma cat1_P2 (l : list (tensor A)) pre n (g : nat -> list nat -> nat -> A) d :
  l <> [] -> d = length pre + 0 ->
  (forall dflt j, j < length l -> isP2 (nth j l dflt) pre 1 n (fun q _ => g j q)) ->
  exists y, cat d l = Ok y /\ isP2 y pre (length l) n (fun q j => g j q).
Proof.
  intros Hne -> Hv.
  assert (Hd : exists t0 : tensor A, True) by (destruct l as [|t0 l]; [congruence|now exists t0]).
  destruct Hd as [t0 _].
  destruct (cat1_gen l pre [n] (length pre + 0) ltac:(lia) Hne) as (y & E & Hs & Ha).
  { intros t Ht. destruct (In_nth _ _ t Ht) as (j & Hj & <-). apply (Hv t j Hj). }
  exists y. split; [exact E|]. split; [exact Hs|].
  intros q z i Hq Hz Hi.
  rewrite (Ha q z _ t0 (vld_len _ _ Hq) Hz).
  destruct (Hv t0 z Hz) as [_ Hx]. apply Hx; auto.
Qed.
Lemma stack_P2 (l : list (tensor A)) pre n m (g : nat -> list nat -> nat -> nat -> A) d :
  l <> [] -> d = length pre + 0 ->
  (forall dflt j, j < length l -> isP2 (nth j l dflt) pre n m (g j)) ->
  exists y, stack d l = Ok y /\ isP3 y pre (length l) n m (fun q j => g j q).
Proof.
  intros Hne -> Hv.
  destruct (stack_gen l (pre ++ [n; m]) (length pre + 0) Hne) as (y & E & Hs & Ha).
  { intros t Ht. destruct (In_nth _ _ t Ht) as (j & Hj & <-). apply (Hv t j Hj). }
  assert (Hd : exists t0 : tensor A, True) by (destruct l as [|t0 l]; [congruence|now exists t0]).
  destruct Hd as [t0 _].
  exists y. split; [exact E|]. split.
  - rewrite Hs.  rewrite ins_app. reflexivity.
  - intros q z i j Hq Hz Hi Hj. rewrite <- (vld_len _ _ Hq) in Ha.
    rewrite (Ha _ t0) by (rewrite nth_app; exact Hz).
    rewrite nth_app, del_app. cbn [nth del]. destruct (Hv t0 z Hz) as [_ Hx]. now apply Hx.
Qed.
Lemma cat1_P3 (l : list (tensor A)) pre n m (g : nat -> list nat -> nat -> nat -> A) d :
  l <> [] -> d = length pre + 0 ->
  (forall dflt j, j < length l -> isP3 (nth j l dflt) pre 1 n m (fun q _ => g j q)) ->
  exists y, cat d l = Ok y /\ isP3 y pre (length l) n m (fun q j => g j q).
Proof.
  intros Hne -> Hv.
  assert (Hd : exists t0 : tensor A, True) by (destruct l as [|t0 l]; [congruence|now exists t0]).
  destruct Hd as [t0 _].
  destruct (cat1_gen l pre [n; m] (length pre + 0) ltac:(lia) Hne) as (y & E & Hs & Ha).
  { intros t Ht. destruct (In_nth _ _ t Ht) as (j & Hj & <-). apply (Hv t j Hj). }
  exists y. split; [exact E|]. split; [exact Hs|].
  intros q z i j Hq Hz Hi Hj.
  rewrite (Ha q z _ t0 (vld_len _ _ Hq) Hz).
  destruct (Hv t0 z Hz) as [_ Hx]. apply Hx; auto.
Qed.
End L.

(** ** Loop invariant for [loopM] *)
Lemma loopM_spec {H A B} (Inv : nat -> H -> Prop) (Out : nat -> B -> Prop)
  (step : H -> A -> res H) (g : H -> res B) :
  forall (l : list A) s h,
  Inv s h ->
  (forall k h a, nth_error l k = Some a -> Inv (s + k) h ->
     exists h', step h a = Ok h' /\ Inv (S (s + k)) h' /\ exists b, g h' = Ok b /\ Out (s + k) b) ->
  exists r, loopM step g h l = Ok r /\ length r = length l /\
    forall k d, k < length l -> Out (s + k) (nth k r d).
Proof.
  induction l as [|a l IH]; intros s h H0 Hst; cbn [loopM].
  - exists []. repeat split. cbn. lia.
  - destruct (Hst 0 h a eq_refl) as (h' & -> & HI & b & Eb & Ho); [now rewrite Nat.add_0_r|].
    cbn [bind]. rewrite Eb. cbn [bind].
    destruct (IH (S s) h') as (r & -> & Hl & Hr).
    { now rewrite Nat.add_0_r in HI. }
    { intros k h2 a2 Ha HI2. destruct (Hst (S k) h2 a2 Ha) as (h3 & E3 & HI3 & b3 & E4 & Ho3).
      - now rewrite Nat.add_succ_r.
      - exists h3. rewrite Nat.add_succ_r in HI3, Ho3. split; [assumption|]. split; [assumption|]. now exists b3. }
    cbn [bind]. exists (b :: r). split; [reflexivity|]. split; [cbn; lia|].
    intros [|k] d Hk; cbn [nth].
    + exact Ho.
    + replace (s + S k) with (S s + k) by lia. apply Hr. cbn in Hk. lia.
Qed.

(** ** Moving a dimension into or out of the prefix *)
Section Push.
Context {A : Type}.
Implicit Type t : tensor A.
Lemma vld_snoc_inv pre n q : vld (pre ++ [n]) q ->
  exists q' c, q = q' ++ [c] /\ vld pre q' /\ c < n /\ firstn (length pre) q = q' /\ nth (length pre) q 0 = c.
Proof.
  unfold vld. intro H. apply Forall2_app_inv_r in H as (q' & l & H1 & H2 & ->).
  inversion H2 as [|c ? l' ? Hc Hl]; subst. inversion Hl; subst.
  pose proof (vld_len _ _ H1) as E.
  exists q', c. repeat split; auto.
  - rewrite firstn_app, <- E, Nat.sub_diag, firstn_all. cbn. apply app_nil_r.
  - rewrite app_nth2 by lia. now rewrite <- E, Nat.sub_diag.
Qed.
Lemma vld_snoc pre n q c : vld pre q -> c < n -> vld (pre ++ [n]) (q ++ [c]).
Proof. intros H Hc. apply Forall2_app; [exact H|]. now repeat constructor. Qed.

Lemma push0 t pre n f : isP1 t pre n f ->
  isP0 t (pre ++ [n]) (fun q => f (firstn (length pre) q) (nth (length pre) q 0)).
Proof.
  intros [Hs Hf]. split; [now rewrite Hs, <- ?app_assoc|].
  intros q Hq. apply vld_snoc_inv in Hq as (q' & c & -> & Hq & Hc & -> & ->). rewrite <- ?app_assoc. now apply Hf.
Qed.
Lemma push1 t pre n m f : isP2 t pre n m f ->
  isP1 t (pre ++ [n]) m (fun q => f (firstn (length pre) q) (nth (length pre) q 0)).
Proof.
  intros [Hs Hf]. split; [now rewrite Hs, <- app_assoc|].
  intros q i Hq. apply vld_snoc_inv in Hq as (q' & c & -> & Hq & Hc & -> & ->). rewrite <- app_assoc. now apply Hf.
Qed.
Lemma push2 t pre n m p f : isP3 t pre n m p f ->
  isP2 t (pre ++ [n]) m p (fun q => f (firstn (length pre) q) (nth (length pre) q 0)).
Proof.
  intros [Hs Hf]. split; [now rewrite Hs, <- app_assoc|].
  intros q i j Hq. apply vld_snoc_inv in Hq as (q' & c & -> & Hq & Hc & -> & ->). rewrite <- app_assoc. now apply Hf.
Qed.
Lemma push3 t pre n m p r f : isP4 t pre n m p r f ->
  isP3 t (pre ++ [n]) m p r (fun q => f (firstn (length pre) q) (nth (length pre) q 0)).
Proof.
  intros [Hs Hf]. split; [now rewrite Hs, <- app_assoc|].
  intros q i j k Hq. apply vld_snoc_inv in Hq as (q' & c & -> & Hq & Hc & -> & ->). rewrite <- app_assoc. now apply Hf.
Qed.
Lemma push4 t pre n m p r s f : isP5 t pre n m p r s f ->
  isP4 t (pre ++ [n]) m p r s (fun q => f (firstn (length pre) q) (nth (length pre) q 0)).
Proof.
  intros [Hs Hf]. split; [now rewrite Hs, <- app_assoc|].
  intros q i j k l Hq. apply vld_snoc_inv in Hq as (q' & c & -> & Hq & Hc & -> & ->). rewrite <- app_assoc. now apply Hf.
Qed.
Lemma pop0 t pre n g : isP0 t (pre ++ [n]) g -> isP1 t pre n (fun q c => g (q ++ [c])).
Proof. intros [Hs Hf]. split; [exact Hs|]. intros. apply Hf. now apply vld_snoc. Qed.
Lemma pop1 t pre n m g : isP1 t (pre ++ [n]) m g -> isP2 t pre n m (fun q c => g (q ++ [c])).
Proof.
  intros [Hs Hf]. split; [now rewrite Hs, <- app_assoc|]. intros q c i Hq Hc Hi.
  rewrite <- Hf by (auto; now apply vld_snoc). now rewrite <- app_assoc.
Qed.
Lemma pop2 t pre n m p g : isP2 t (pre ++ [n]) m p g -> isP3 t pre n m p (fun q c => g (q ++ [c])).
Proof.
  intros [Hs Hf]. split; [now rewrite Hs, <- app_assoc|]. intros q c i j Hq Hc Hi Hj.
  rewrite <- Hf by (auto; now apply vld_snoc). now rewrite <- app_assoc.
Qed.
Lemma pop3 t pre n m p r g : isP3 t (pre ++ [n]) m p r g -> isP4 t pre n m p r (fun q c => g (q ++ [c])).
Proof.
  intros [Hs Hf]. split; [now rewrite Hs, <- app_assoc|]. intros q c i j k Hq Hc Hi Hj Hk.
  rewrite <- Hf by (auto; now apply vld_snoc). now rewrite <- app_assoc.
Qed.
Lemma pop4 t pre n m p r s g : isP4 t (pre ++ [n]) m p r s g -> isP5 t pre n m p r s (fun q c => g (q ++ [c])).
Proof.
  intros [Hs Hf]. split; [now rewrite Hs, <- app_assoc|]. intros q c i j k l Hq Hc Hi Hj Hk Hl.
  rewrite <- Hf by (auto; now apply vld_snoc). now rewrite <- app_assoc.
Qed.
End Push.
