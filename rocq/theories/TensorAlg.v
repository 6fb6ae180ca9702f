(** Broadcasting, products and list operations: shape-and-entries lemmas. *)
From Coq Require Import List Arith Lia ZArith Bool.
From Verif Require Import Scalar Tensor TensorLemmas TensorOps.
Import ListNotations.

Lemma bshape_rev_nil_r a : bshape_rev a [] = Some a.
Proof. destruct a; reflexivity. Qed.
Lemma bshape_rev_nil_l a : bshape_rev [] a = Some a.
Proof. destruct a; reflexivity. Qed.

Lemma bshape_rev_app_l a b c l :
  length a = length b -> bshape_rev a b = Some c -> bshape_rev (a ++ l) b = Some (c ++ l).
Proof.
  revert b c; induction a as [|x a IH]; intros [|y b] c Hl H; cbn in *; try discriminate.
  - injection H as <-. apply bshape_rev_nil_r.
  - destruct (bdim x y); [|discriminate].
    destruct (bshape_rev a b) eqn:E; [|discriminate]. injection H as <-.
    rewrite (IH b l0); auto.
Qed.
Lemma bshape_rev_app_r a b c l :
  length a = length b -> bshape_rev a b = Some c -> bshape_rev a (b ++ l) = Some (c ++ l).
Proof.
  revert b c; induction a as [|x a IH]; intros [|y b] c Hl H; cbn in *; try discriminate.
  - injection H as <-. reflexivity.
  - destruct (bdim x y); [|discriminate].
    destruct (bshape_rev a b) eqn:E; [|discriminate]. injection H as <-.
    rewrite (IH b l0); auto.
Qed.
Lemma bshape_app_l pre a b c :
  length a = length b -> bshape a b = Some c -> bshape (pre ++ a) b = Some (pre ++ c).
Proof.
  unfold bshape. intros Hl H. rewrite !rev_app_distr.
  destruct (bshape_rev (rev a) (rev b)) eqn:E; [|discriminate]. injection H as <-.
  erewrite bshape_rev_app_l; eauto; [|now rewrite !rev_length].
  rewrite rev_app_distr, rev_involutive. reflexivity.
Qed.
Lemma bshape_app_r pre a b c :
  length a = length b -> bshape a b = Some c -> bshape a (pre ++ b) = Some (pre ++ c).
Proof.
  unfold bshape. intros Hl H. rewrite !rev_app_distr.
  destruct (bshape_rev (rev a) (rev b)) eqn:E; [|discriminate]. injection H as <-.
  erewrite bshape_rev_app_r; eauto; [|now rewrite !rev_length].
  rewrite rev_app_distr, rev_involutive. reflexivity.
Qed.
Lemma bix_app_nil q s i : length s = length i -> bix s (q ++ i) = bixz s i.
Proof.
  intro H. unfold bix. rewrite app_length, H.
  replace (length q + length i - length i) with (length q + 0) by lia.
  rewrite skipn_app'. reflexivity.
Qed.
Lemma bshape_nil_r s : bshape s [] = Some s.
Proof. unfold bshape. cbn. rewrite bshape_rev_nil_r, rev_involutive. reflexivity. Qed.
Lemma bshape_nil_l s : bshape [] s = Some s.
Proof. unfold bshape. cbn. now rewrite rev_involutive. Qed.
Lemma bix_nil idx : bix [] idx = [].
Proof. reflexivity. Qed.

Ltac bsh := unfold bshape; cbn [rev app bshape_rev];
  repeat match goal with H : bdim _ _ = Some _ |- _ => rewrite H; clear H end; reflexivity.
Ltac bbd := match goal with
  | |- vld [] [] => apply vld_nil
  | _ => first [ assumption | eapply bdim_lt_l; eassumption | eapply bdim_lt_r; eassumption | lia ] end.

Section EW.
Context {A B C : Type} (h : A -> B -> C).
Implicit Types (t : tensor A) (u : tensor B).

Lemma P1_ew t u pre n1 n2 n f g :
  isP1 t pre n1 f -> isP1 u pre n2 g -> bdim n1 n2 = Some n ->
  exists y, ew h t u = Ok y /\
    isP1 y pre n (fun q i => h (f q (bi n1 i)) (g q (bi n2 i))).
Proof.
  intros [Hs Hf] [Us Uf] B0. unfold ew. rewrite Hs, Us. cbn [app].
  rewrite (bshape_app pre [n1] [n2] [n]) by (reflexivity || bsh).
  eexists; split; [reflexivity|]. split; [reflexivity|]. intros. cbn [at_].
  rewrite bix_app, bix_app by auto. cbn [bixz]. f_equal.
  - apply Hf; bbd.
  - apply Uf; bbd.
Qed.
Lemma P1_ewl t u pre n1 n2 n f g :
  isP1 t pre n1 f -> isP1 u [] n2 g -> bdim n1 n2 = Some n ->
  exists y, ew h t u = Ok y /\
    isP1 y pre n (fun q i => h (f q (bi n1 i)) (g [] (bi n2 i))).
Proof.
  intros [Hs Hf] [Us Uf] B0. unfold ew. rewrite Hs, Us. cbn [app].
  rewrite (bshape_app_l pre [n1] [n2] [n]) by (reflexivity || bsh).
  eexists; split; [reflexivity|]. split; [reflexivity|]. intros. cbn [at_].
  rewrite bix_app, bix_app_nil by auto. cbn [bixz]. f_equal.
  - apply Hf; bbd.
  - apply (Uf []); bbd.
Qed.
Lemma P1_ewr t u pre n1 n2 n f g :
  isP1 t [] n1 f -> isP1 u pre n2 g -> bdim n1 n2 = Some n ->
  exists y, ew h t u = Ok y /\
    isP1 y pre n (fun q i => h (f [] (bi n1 i)) (g q (bi n2 i))).
Proof.
  intros [Hs Hf] [Us Uf] B0. unfold ew. rewrite Hs, Us. cbn [app].
  rewrite (bshape_app_r pre [n1] [n2] [n]) by (reflexivity || bsh).
  eexists; split; [reflexivity|]. split; [reflexivity|]. intros. cbn [at_].
  rewrite bix_app_nil, bix_app by auto. cbn [bixz]. f_equal.
  - apply (Hf []); bbd.
  - apply Uf; bbd.
Qed.
Lemma P1_ew_same t u pre n f g :
  isP1 t pre n f -> isP1 u pre n g ->
  exists y, ew h t u = Ok y /\ isP1 y pre n (fun q i => h (f q i) (g q i)).
Proof.
  intros H1 H2. destruct (P1_ew t u pre n n n f g H1 H2) as (y & E & Hy); try apply bdim_refl.
  exists y. split; [exact E|]. eapply isP1_ext; [exact Hy|]. intros. cbn beta. now rewrite !bi_lt.
Qed.
Lemma P1_ewl_same t u pre n f g :
  isP1 t pre n f -> isP1 u [] n g ->
  exists y, ew h t u = Ok y /\ isP1 y pre n (fun q i => h (f q i) (g [] i)).
Proof.
  intros H1 H2. destruct (P1_ewl t u pre n n n f g H1 H2) as (y & E & Hy); try apply bdim_refl.
  exists y. split; [exact E|]. eapply isP1_ext; [exact Hy|]. intros. cbn beta. now rewrite !bi_lt.
Qed.
Lemma P1_ewr_same t u pre n f g :
  isP1 t [] n f -> isP1 u pre n g ->
  exists y, ew h t u = Ok y /\ isP1 y pre n (fun q i => h (f [] i) (g q i)).
Proof.
  intros H1 H2. destruct (P1_ewr t u pre n n n f g H1 H2) as (y & E & Hy); try apply bdim_refl.
  exists y. split; [exact E|]. eapply isP1_ext; [exact Hy|]. intros. cbn beta. now rewrite !bi_lt.
Qed.
Lemma P1_ews t u pre n f v : isP1 t pre n f -> is0 u v ->
  exists y, ew h t u = Ok y /\ isP1 y pre n (fun q i => h (f q i) v).
Proof.
  intros [Hs Hf] [Us Uf]. unfold ew. rewrite Hs, Us, bshape_nil_r.
  eexists; split; [reflexivity|]. split; [reflexivity|]. intros. cbn [at_].
  rewrite bix_nil, Uf. rewrite bix_app by auto. cbn [bixz]. rewrite !bi_lt by auto. f_equal. auto.
Qed.
Lemma P1_sew t u pre n f v : isP1 u pre n f -> is0 t v ->
  exists y, ew h t u = Ok y /\ isP1 y pre n (fun q i => h v (f q i)).
Proof.
  intros [Hs Hf] [Us Uf]. unfold ew. rewrite Hs, Us, bshape_nil_l.
  eexists; split; [reflexivity|]. split; [reflexivity|]. intros. cbn [at_].
  rewrite bix_nil, Uf. rewrite bix_app by auto. cbn [bixz]. rewrite !bi_lt by auto. f_equal. auto.
Qed.
Lemma P2_ew t u pre n1 m1 n2 m2 n m f g :
  isP2 t pre n1 m1 f -> isP2 u pre n2 m2 g -> bdim n1 n2 = Some n -> bdim m1 m2 = Some m ->
  exists y, ew h t u = Ok y /\
    isP2 y pre n m (fun q i j => h (f q (bi n1 i) (bi m1 j)) (g q (bi n2 i) (bi m2 j))).
Proof.
  intros [Hs Hf] [Us Uf] B0 B1. unfold ew. rewrite Hs, Us. cbn [app].
  rewrite (bshape_app pre [n1; m1] [n2; m2] [n; m]) by (reflexivity || bsh).
  eexists; split; [reflexivity|]. split; [reflexivity|]. intros. cbn [at_].
  rewrite bix_app, bix_app by auto. cbn [bixz]. f_equal.
  - apply Hf; bbd.
  - apply Uf; bbd.
Qed.
Lemma P2_ewl t u pre n1 m1 n2 m2 n m f g :
  isP2 t pre n1 m1 f -> isP2 u [] n2 m2 g -> bdim n1 n2 = Some n -> bdim m1 m2 = Some m ->
  exists y, ew h t u = Ok y /\
    isP2 y pre n m (fun q i j => h (f q (bi n1 i) (bi m1 j)) (g [] (bi n2 i) (bi m2 j))).
Proof.
  intros [Hs Hf] [Us Uf] B0 B1. unfold ew. rewrite Hs, Us. cbn [app].
  rewrite (bshape_app_l pre [n1; m1] [n2; m2] [n; m]) by (reflexivity || bsh).
  eexists; split; [reflexivity|]. split; [reflexivity|]. intros. cbn [at_].
  rewrite bix_app, bix_app_nil by auto. cbn [bixz]. f_equal.
  - apply Hf; bbd.
  - apply (Uf []); bbd.
Qed.
Lemma P2_ewr t u pre n1 m1 n2 m2 n m f g :
  isP2 t [] n1 m1 f -> isP2 u pre n2 m2 g -> bdim n1 n2 = Some n -> bdim m1 m2 = Some m ->
  exists y, ew h t u = Ok y /\
    isP2 y pre n m (fun q i j => h (f [] (bi n1 i) (bi m1 j)) (g q (bi n2 i) (bi m2 j))).
Proof.
  intros [Hs Hf] [Us Uf] B0 B1. unfold ew. rewrite Hs, Us. cbn [app].
  rewrite (bshape_app_r pre [n1; m1] [n2; m2] [n; m]) by (reflexivity || bsh).
  eexists; split; [reflexivity|]. split; [reflexivity|]. intros. cbn [at_].
  rewrite bix_app_nil, bix_app by auto. cbn [bixz]. f_equal.
  - apply (Hf []); bbd.
  - apply Uf; bbd.
Qed.
Lemma P2_ew_same t u pre n m f g :
  isP2 t pre n m f -> isP2 u pre n m g ->
  exists y, ew h t u = Ok y /\ isP2 y pre n m (fun q i j => h (f q i j) (g q i j)).
Proof.
  intros H1 H2. destruct (P2_ew t u pre n m n m n m f g H1 H2) as (y & E & Hy); try apply bdim_refl.
  exists y. split; [exact E|]. eapply isP2_ext; [exact Hy|]. intros. cbn beta. now rewrite !bi_lt.
Qed.
Lemma P2_ewl_same t u pre n m f g :
  isP2 t pre n m f -> isP2 u [] n m g ->
  exists y, ew h t u = Ok y /\ isP2 y pre n m (fun q i j => h (f q i j) (g [] i j)).
Proof.
  intros H1 H2. destruct (P2_ewl t u pre n m n m n m f g H1 H2) as (y & E & Hy); try apply bdim_refl.
  exists y. split; [exact E|]. eapply isP2_ext; [exact Hy|]. intros. cbn beta. now rewrite !bi_lt.
Qed.
Lemma P2_ewr_same t u pre n m f g :
  isP2 t [] n m f -> isP2 u pre n m g ->
  exists y, ew h t u = Ok y /\ isP2 y pre n m (fun q i j => h (f [] i j) (g q i j)).
Proof.
  intros H1 H2. destruct (P2_ewr t u pre n m n m n m f g H1 H2) as (y & E & Hy); try apply bdim_refl.
  exists y. split; [exact E|]. eapply isP2_ext; [exact Hy|]. intros. cbn beta. now rewrite !bi_lt.
Qed.
Lemma P2_ews t u pre n m f v : isP2 t pre n m f -> is0 u v ->
  exists y, ew h t u = Ok y /\ isP2 y pre n m (fun q i j => h (f q i j) v).
Proof.
  intros [Hs Hf] [Us Uf]. unfold ew. rewrite Hs, Us, bshape_nil_r.
  eexists; split; [reflexivity|]. split; [reflexivity|]. intros. cbn [at_].
  rewrite bix_nil, Uf. rewrite bix_app by auto. cbn [bixz]. rewrite !bi_lt by auto. f_equal. auto.
Qed.
Lemma P2_sew t u pre n m f v : isP2 u pre n m f -> is0 t v ->
  exists y, ew h t u = Ok y /\ isP2 y pre n m (fun q i j => h v (f q i j)).
Proof.
  intros [Hs Hf] [Us Uf]. unfold ew. rewrite Hs, Us, bshape_nil_l.
  eexists; split; [reflexivity|]. split; [reflexivity|]. intros. cbn [at_].
  rewrite bix_nil, Uf. rewrite bix_app by auto. cbn [bixz]. rewrite !bi_lt by auto. f_equal. auto.
Qed.
Lemma P3_ew t u pre n1 m1 p1 n2 m2 p2 n m p f g :
  isP3 t pre n1 m1 p1 f -> isP3 u pre n2 m2 p2 g -> bdim n1 n2 = Some n -> bdim m1 m2 = Some m -> bdim p1 p2 = Some p ->
  exists y, ew h t u = Ok y /\
    isP3 y pre n m p (fun q i j k => h (f q (bi n1 i) (bi m1 j) (bi p1 k)) (g q (bi n2 i) (bi m2 j) (bi p2 k))).
Proof.
  intros [Hs Hf] [Us Uf] B0 B1 B2. unfold ew. rewrite Hs, Us. cbn [app].
  rewrite (bshape_app pre [n1; m1; p1] [n2; m2; p2] [n; m; p]) by (reflexivity || bsh).
  eexists; split; [reflexivity|]. split; [reflexivity|]. intros. cbn [at_].
  rewrite bix_app, bix_app by auto. cbn [bixz]. f_equal.
  - apply Hf; bbd.
  - apply Uf; bbd.
Qed.
Lemma P3_ewl t u pre n1 m1 p1 n2 m2 p2 n m p f g :
  isP3 t pre n1 m1 p1 f -> isP3 u [] n2 m2 p2 g -> bdim n1 n2 = Some n -> bdim m1 m2 = Some m -> bdim p1 p2 = Some p ->
  exists y, ew h t u = Ok y /\
    isP3 y pre n m p (fun q i j k => h (f q (bi n1 i) (bi m1 j) (bi p1 k)) (g [] (bi n2 i) (bi m2 j) (bi p2 k))).
Proof.
  intros [Hs Hf] [Us Uf] B0 B1 B2. unfold ew. rewrite Hs, Us. cbn [app].
  rewrite (bshape_app_l pre [n1; m1; p1] [n2; m2; p2] [n; m; p]) by (reflexivity || bsh).
  eexists; split; [reflexivity|]. split; [reflexivity|]. intros. cbn [at_].
  rewrite bix_app, bix_app_nil by auto. cbn [bixz]. f_equal.
  - apply Hf; bbd.
  - apply (Uf []); bbd.
Qed.
Lemma P3_ewr t u pre n1 m1 p1 n2 m2 p2 n m p f g :
  isP3 t [] n1 m1 p1 f -> isP3 u pre n2 m2 p2 g -> bdim n1 n2 = Some n -> bdim m1 m2 = Some m -> bdim p1 p2 = Some p ->
  exists y, ew h t u = Ok y /\
    isP3 y pre n m p (fun q i j k => h (f [] (bi n1 i) (bi m1 j) (bi p1 k)) (g q (bi n2 i) (bi m2 j) (bi p2 k))).
Proof.
  intros [Hs Hf] [Us Uf] B0 B1 B2. unfold ew. rewrite Hs, Us. cbn [app].
  rewrite (bshape_app_r pre [n1; m1; p1] [n2; m2; p2] [n; m; p]) by (reflexivity || bsh).
  eexists; split; [reflexivity|]. split; [reflexivity|]. intros. cbn [at_].
  rewrite bix_app_nil, bix_app by auto. cbn [bixz]. f_equal.
  - apply (Hf []); bbd.
  - apply Uf; bbd.
Qed.
Lemma P3_ew_same t u pre n m p f g :
  isP3 t pre n m p f -> isP3 u pre n m p g ->
  exists y, ew h t u = Ok y /\ isP3 y pre n m p (fun q i j k => h (f q i j k) (g q i j k)).
Proof.
  intros H1 H2. destruct (P3_ew t u pre n m p n m p n m p f g H1 H2) as (y & E & Hy); try apply bdim_refl.
  exists y. split; [exact E|]. eapply isP3_ext; [exact Hy|]. intros. cbn beta. now rewrite !bi_lt.
Qed.
Lemma P3_ewl_same t u pre n m p f g :
  isP3 t pre n m p f -> isP3 u [] n m p g ->
  exists y, ew h t u = Ok y /\ isP3 y pre n m p (fun q i j k => h (f q i j k) (g [] i j k)).
Proof.
  intros H1 H2. destruct (P3_ewl t u pre n m p n m p n m p f g H1 H2) as (y & E & Hy); try apply bdim_refl.
  exists y. split; [exact E|]. eapply isP3_ext; [exact Hy|]. intros. cbn beta. now rewrite !bi_lt.
Qed.
Lemma P3_ewr_same t u pre n m p f g :
  isP3 t [] n m p f -> isP3 u pre n m p g ->
  exists y, ew h t u = Ok y /\ isP3 y pre n m p (fun q i j k => h (f [] i j k) (g q i j k)).
Proof.
  intros H1 H2. destruct (P3_ewr t u pre n m p n m p n m p f g H1 H2) as (y & E & Hy); try apply bdim_refl.
  exists y. split; [exact E|]. eapply isP3_ext; [exact Hy|]. intros. cbn beta. now rewrite !bi_lt.
Qed.
Lemma P3_ews t u pre n m p f v : isP3 t pre n m p f -> is0 u v ->
  exists y, ew h t u = Ok y /\ isP3 y pre n m p (fun q i j k => h (f q i j k) v).
Proof.
  intros [Hs Hf] [Us Uf]. unfold ew. rewrite Hs, Us, bshape_nil_r.
  eexists; split; [reflexivity|]. split; [reflexivity|]. intros. cbn [at_].
  rewrite bix_nil, Uf. rewrite bix_app by auto. cbn [bixz]. rewrite !bi_lt by auto. f_equal. auto.
Qed.
Lemma P3_sew t u pre n m p f v : isP3 u pre n m p f -> is0 t v ->
  exists y, ew h t u = Ok y /\ isP3 y pre n m p (fun q i j k => h v (f q i j k)).
Proof.
  intros [Hs Hf] [Us Uf]. unfold ew. rewrite Hs, Us, bshape_nil_l.
  eexists; split; [reflexivity|]. split; [reflexivity|]. intros. cbn [at_].
  rewrite bix_nil, Uf. rewrite bix_app by auto. cbn [bixz]. rewrite !bi_lt by auto. f_equal. auto.
Qed.
Lemma P4_ew t u pre n1 m1 p1 r1 n2 m2 p2 r2 n m p r f g :
  isP4 t pre n1 m1 p1 r1 f -> isP4 u pre n2 m2 p2 r2 g -> bdim n1 n2 = Some n -> bdim m1 m2 = Some m -> bdim p1 p2 = Some p -> bdim r1 r2 = Some r ->
  exists y, ew h t u = Ok y /\
    isP4 y pre n m p r (fun q i j k l => h (f q (bi n1 i) (bi m1 j) (bi p1 k) (bi r1 l)) (g q (bi n2 i) (bi m2 j) (bi p2 k) (bi r2 l))).
Proof.
  intros [Hs Hf] [Us Uf] B0 B1 B2 B3. unfold ew. rewrite Hs, Us. cbn [app].
  rewrite (bshape_app pre [n1; m1; p1; r1] [n2; m2; p2; r2] [n; m; p; r]) by (reflexivity || bsh).
  eexists; split; [reflexivity|]. split; [reflexivity|]. intros. cbn [at_].
  rewrite bix_app, bix_app by auto. cbn [bixz]. f_equal.
  - apply Hf; bbd.
  - apply Uf; bbd.
Qed.
Lemma P4_ewl t u pre n1 m1 p1 r1 n2 m2 p2 r2 n m p r f g :
  isP4 t pre n1 m1 p1 r1 f -> isP4 u [] n2 m2 p2 r2 g -> bdim n1 n2 = Some n -> bdim m1 m2 = Some m -> bdim p1 p2 = Some p -> bdim r1 r2 = Some r ->
  exists y, ew h t u = Ok y /\
    isP4 y pre n m p r (fun q i j k l => h (f q (bi n1 i) (bi m1 j) (bi p1 k) (bi r1 l)) (g [] (bi n2 i) (bi m2 j) (bi p2 k) (bi r2 l))).
Proof.
  intros [Hs Hf] [Us Uf] B0 B1 B2 B3. unfold ew. rewrite Hs, Us. cbn [app].
  rewrite (bshape_app_l pre [n1; m1; p1; r1] [n2; m2; p2; r2] [n; m; p; r]) by (reflexivity || bsh).
  eexists; split; [reflexivity|]. split; [reflexivity|]. intros. cbn [at_].
  rewrite bix_app, bix_app_nil by auto. cbn [bixz]. f_equal.
  - apply Hf; bbd.
  - apply (Uf []); bbd.
Qed.
Lemma P4_ewr t u pre n1 m1 p1 r1 n2 m2 p2 r2 n m p r f g :
  isP4 t [] n1 m1 p1 r1 f -> isP4 u pre n2 m2 p2 r2 g -> bdim n1 n2 = Some n -> bdim m1 m2 = Some m -> bdim p1 p2 = Some p -> bdim r1 r2 = Some r ->
  exists y, ew h t u = Ok y /\
    isP4 y pre n m p r (fun q i j k l => h (f [] (bi n1 i) (bi m1 j) (bi p1 k) (bi r1 l)) (g q (bi n2 i) (bi m2 j) (bi p2 k) (bi r2 l))).
Proof.
  intros [Hs Hf] [Us Uf] B0 B1 B2 B3. unfold ew. rewrite Hs, Us. cbn [app].
  rewrite (bshape_app_r pre [n1; m1; p1; r1] [n2; m2; p2; r2] [n; m; p; r]) by (reflexivity || bsh).
  eexists; split; [reflexivity|]. split; [reflexivity|]. intros. cbn [at_].
  rewrite bix_app_nil, bix_app by auto. cbn [bixz]. f_equal.
  - apply (Hf []); bbd.
  - apply Uf; bbd.
Qed.
Lemma P4_ew_same t u pre n m p r f g :
  isP4 t pre n m p r f -> isP4 u pre n m p r g ->
  exists y, ew h t u = Ok y /\ isP4 y pre n m p r (fun q i j k l => h (f q i j k l) (g q i j k l)).
Proof.
  intros H1 H2. destruct (P4_ew t u pre n m p r n m p r n m p r f g H1 H2) as (y & E & Hy); try apply bdim_refl.
  exists y. split; [exact E|]. eapply isP4_ext; [exact Hy|]. intros. cbn beta. now rewrite !bi_lt.
Qed.
Lemma P4_ewl_same t u pre n m p r f g :
  isP4 t pre n m p r f -> isP4 u [] n m p r g ->
  exists y, ew h t u = Ok y /\ isP4 y pre n m p r (fun q i j k l => h (f q i j k l) (g [] i j k l)).
Proof.
  intros H1 H2. destruct (P4_ewl t u pre n m p r n m p r n m p r f g H1 H2) as (y & E & Hy); try apply bdim_refl.
  exists y. split; [exact E|]. eapply isP4_ext; [exact Hy|]. intros. cbn beta. now rewrite !bi_lt.
Qed.
Lemma P4_ewr_same t u pre n m p r f g :
  isP4 t [] n m p r f -> isP4 u pre n m p r g ->
  exists y, ew h t u = Ok y /\ isP4 y pre n m p r (fun q i j k l => h (f [] i j k l) (g q i j k l)).
Proof.
  intros H1 H2. destruct (P4_ewr t u pre n m p r n m p r n m p r f g H1 H2) as (y & E & Hy); try apply bdim_refl.
  exists y. split; [exact E|]. eapply isP4_ext; [exact Hy|]. intros. cbn beta. now rewrite !bi_lt.
Qed.
Lemma P4_ews t u pre n m p r f v : isP4 t pre n m p r f -> is0 u v ->
  exists y, ew h t u = Ok y /\ isP4 y pre n m p r (fun q i j k l => h (f q i j k l) v).
Proof.
  intros [Hs Hf] [Us Uf]. unfold ew. rewrite Hs, Us, bshape_nil_r.
  eexists; split; [reflexivity|]. split; [reflexivity|]. intros. cbn [at_].
  rewrite bix_nil, Uf. rewrite bix_app by auto. cbn [bixz]. rewrite !bi_lt by auto. f_equal. auto.
Qed.
Lemma P4_sew t u pre n m p r f v : isP4 u pre n m p r f -> is0 t v ->
  exists y, ew h t u = Ok y /\ isP4 y pre n m p r (fun q i j k l => h v (f q i j k l)).
Proof.
  intros [Hs Hf] [Us Uf]. unfold ew. rewrite Hs, Us, bshape_nil_l.
  eexists; split; [reflexivity|]. split; [reflexivity|]. intros. cbn [at_].
  rewrite bix_nil, Uf. rewrite bix_app by auto. cbn [bixz]. rewrite !bi_lt by auto. f_equal. auto.
Qed.
End EW.

Section Alg.
Variable R : cops.
Notation ten := (tensor (car R)).
Implicit Types t u : ten.

Lemma matmul_22 t u : 2 <= rk t -> 2 <= rk u -> matmul t u = matmul2 t u.
Proof.
  unfold matmul. destruct (rk t) as [|[|x]]; [lia|lia|]. destruct (rk u) as [|[|y]]; [lia|lia|].
  reflexivity.
Qed.

Lemma mm2 t u pre n c m f g :
  isP2 t pre n c f -> isP2 u pre c m g -> 
  exists y, matmul t u = Ok y /\
    isP2 y pre n m (fun q i j => bsum c (fun l => rmul (f q i l) (g q l j))).
Proof.
  intros [Hs Hf] [Us Uf] .
  rewrite matmul_22 by (unfold rk; rewrite ?Hs, ?Us, ?app_length; cbn; lia).
  unfold matmul2, rk, size. rewrite Hs, Us. rewrite !app_length. cbn [length].
  repeat match goal with |- context [length ?p + ?a - ?b] =>
    first [ replace (length p + a - b) with (length p + (a - b)) by lia ] end. cbn [Nat.sub Nat.add length].
  rewrite ?(nth_app []), ?(firstn_app' []), ?nth_app, ?firstn_app'. cbn [nth firstn app].
  rewrite Nat.eqb_refl.
  rewrite (bshape_app pre [] [] []) by (reflexivity || bsh).
  eexists; split; [reflexivity|]. split; cbn [shape at_].
  - rewrite <- app_assoc. reflexivity.
  - intros. rewrite !app_length. cbn [length].
    replace (S (length pre + 0)) with (length pre + 1) by lia.
    lenfix. rewrite ?nth_app, ?firstn_app'. cbn [nth firstn].
    apply bsum_ext. intros z Hz. rewrite ?bix_app, ?bix_app_nil by auto. cbn [bixz]. rewrite <- ?app_assoc. cbn [app].
    f_equal.
    + apply Hf; bbd.
    + apply Uf; bbd.
Qed.
Lemma mm2l t u pre n c m f g :
  isP2 t pre n c f -> isP2 u [] c m g -> 
  exists y, matmul t u = Ok y /\
    isP2 y pre n m (fun q i j => bsum c (fun l => rmul (f q i l) (g [] l j))).
Proof.
  intros [Hs Hf] [Us Uf] .
  rewrite matmul_22 by (unfold rk; rewrite ?Hs, ?Us, ?app_length; cbn; lia).
  unfold matmul2, rk, size. rewrite Hs, Us. rewrite !app_length. cbn [length].
  repeat match goal with |- context [length ?p + ?a - ?b] =>
    first [ replace (length p + a - b) with (length p + (a - b)) by lia ] end. cbn [Nat.sub Nat.add length].
  rewrite ?(nth_app []), ?(firstn_app' []), ?nth_app, ?firstn_app'. cbn [nth firstn app].
  rewrite Nat.eqb_refl.
  rewrite (bshape_app_l pre [] [] []) by (reflexivity || bsh).
  eexists; split; [reflexivity|]. split; cbn [shape at_].
  - rewrite <- app_assoc. reflexivity.
  - intros. rewrite !app_length. cbn [length].
    replace (S (length pre + 0)) with (length pre + 1) by lia.
    lenfix. rewrite ?nth_app, ?firstn_app'. cbn [nth firstn].
    apply bsum_ext. intros z Hz. rewrite ?bix_app, ?bix_app_nil by auto. cbn [bixz]. rewrite <- ?app_assoc. cbn [app].
    f_equal.
    + apply Hf; bbd.
    + apply (Uf []); bbd.
Qed.
Lemma mm2r t u pre n c m f g :
  isP2 t [] n c f -> isP2 u pre c m g -> 
  exists y, matmul t u = Ok y /\
    isP2 y pre n m (fun q i j => bsum c (fun l => rmul (f [] i l) (g q l j))).
Proof.
  intros [Hs Hf] [Us Uf] .
  rewrite matmul_22 by (unfold rk; rewrite ?Hs, ?Us, ?app_length; cbn; lia).
  unfold matmul2, rk, size. rewrite Hs, Us. rewrite !app_length. cbn [length].
  repeat match goal with |- context [length ?p + ?a - ?b] =>
    first [ replace (length p + a - b) with (length p + (a - b)) by lia ] end. cbn [Nat.sub Nat.add length].
  rewrite ?(nth_app []), ?(firstn_app' []), ?nth_app, ?firstn_app'. cbn [nth firstn app].
  rewrite Nat.eqb_refl.
  rewrite (bshape_app_r pre [] [] []) by (reflexivity || bsh).
  eexists; split; [reflexivity|]. split; cbn [shape at_].
  - rewrite <- app_assoc. reflexivity.
  - intros. rewrite !app_length. cbn [length].
    replace (S (length pre + 0)) with (length pre + 1) by lia.
    lenfix. rewrite ?nth_app, ?firstn_app'. cbn [nth firstn].
    apply bsum_ext. intros z Hz. rewrite ?bix_app, ?bix_app_nil by auto. cbn [bixz]. rewrite <- ?app_assoc. cbn [app].
    f_equal.
    + apply (Hf []); bbd.
    + apply Uf; bbd.
Qed.
Lemma mm3 t u pre a1 a2 a n c m f g :
  isP3 t pre a1 n c f -> isP3 u pre a2 c m g -> bdim a1 a2 = Some a -> 
  exists y, matmul t u = Ok y /\
    isP3 y pre a n m (fun q x i j => bsum c (fun l => rmul (f q (bi a1 x) i l) (g q (bi a2 x) l j))).
Proof.
  intros [Hs Hf] [Us Uf] B0.
  rewrite matmul_22 by (unfold rk; rewrite ?Hs, ?Us, ?app_length; cbn; lia).
  unfold matmul2, rk, size. rewrite Hs, Us. rewrite !app_length. cbn [length].
  repeat match goal with |- context [length ?p + ?a - ?b] =>
    first [ replace (length p + a - b) with (length p + (a - b)) by lia ] end. cbn [Nat.sub Nat.add length].
  rewrite ?(nth_app []), ?(firstn_app' []), ?nth_app, ?firstn_app'. cbn [nth firstn app].
  rewrite Nat.eqb_refl.
  rewrite (bshape_app pre [a1] [a2] [a]) by (reflexivity || bsh).
  eexists; split; [reflexivity|]. split; cbn [shape at_].
  - rewrite <- app_assoc. reflexivity.
  - intros. rewrite !app_length. cbn [length].
    replace (S (length pre + 1)) with (length pre + 2) by lia.
    lenfix. rewrite ?nth_app, ?firstn_app'. cbn [nth firstn].
    apply bsum_ext. intros z Hz. rewrite ?bix_app, ?bix_app_nil by auto. cbn [bixz]. rewrite <- ?app_assoc. cbn [app].
    f_equal.
    + apply Hf; bbd.
    + apply Uf; bbd.
Qed.
Lemma mm3l t u pre a1 a2 a n c m f g :
  isP3 t pre a1 n c f -> isP3 u [] a2 c m g -> bdim a1 a2 = Some a -> 
  exists y, matmul t u = Ok y /\
    isP3 y pre a n m (fun q x i j => bsum c (fun l => rmul (f q (bi a1 x) i l) (g [] (bi a2 x) l j))).
Proof.
  intros [Hs Hf] [Us Uf] B0.
  rewrite matmul_22 by (unfold rk; rewrite ?Hs, ?Us, ?app_length; cbn; lia).
  unfold matmul2, rk, size. rewrite Hs, Us. rewrite !app_length. cbn [length].
  repeat match goal with |- context [length ?p + ?a - ?b] =>
    first [ replace (length p + a - b) with (length p + (a - b)) by lia ] end. cbn [Nat.sub Nat.add length].
  rewrite ?(nth_app []), ?(firstn_app' []), ?nth_app, ?firstn_app'. cbn [nth firstn app].
  rewrite Nat.eqb_refl.
  rewrite (bshape_app_l pre [a1] [a2] [a]) by (reflexivity || bsh).
  eexists; split; [reflexivity|]. split; cbn [shape at_].
  - rewrite <- app_assoc. reflexivity.
  - intros. rewrite !app_length. cbn [length].
    replace (S (length pre + 1)) with (length pre + 2) by lia.
    lenfix. rewrite ?nth_app, ?firstn_app'. cbn [nth firstn].
    apply bsum_ext. intros z Hz. rewrite ?bix_app, ?bix_app_nil by auto. cbn [bixz]. rewrite <- ?app_assoc. cbn [app].
    f_equal.
    + apply Hf; bbd.
    + apply (Uf []); bbd.
Qed.
Lemma mm3r t u pre a1 a2 a n c m f g :
  isP3 t [] a1 n c f -> isP3 u pre a2 c m g -> bdim a1 a2 = Some a -> 
  exists y, matmul t u = Ok y /\
    isP3 y pre a n m (fun q x i j => bsum c (fun l => rmul (f [] (bi a1 x) i l) (g q (bi a2 x) l j))).
Proof.
  intros [Hs Hf] [Us Uf] B0.
  rewrite matmul_22 by (unfold rk; rewrite ?Hs, ?Us, ?app_length; cbn; lia).
  unfold matmul2, rk, size. rewrite Hs, Us. rewrite !app_length. cbn [length].
  repeat match goal with |- context [length ?p + ?a - ?b] =>
    first [ replace (length p + a - b) with (length p + (a - b)) by lia ] end. cbn [Nat.sub Nat.add length].
  rewrite ?(nth_app []), ?(firstn_app' []), ?nth_app, ?firstn_app'. cbn [nth firstn app].
  rewrite Nat.eqb_refl.
  rewrite (bshape_app_r pre [a1] [a2] [a]) by (reflexivity || bsh).
  eexists; split; [reflexivity|]. split; cbn [shape at_].
  - rewrite <- app_assoc. reflexivity.
  - intros. rewrite !app_length. cbn [length].
    replace (S (length pre + 1)) with (length pre + 2) by lia.
    lenfix. rewrite ?nth_app, ?firstn_app'. cbn [nth firstn].
    apply bsum_ext. intros z Hz. rewrite ?bix_app, ?bix_app_nil by auto. cbn [bixz]. rewrite <- ?app_assoc. cbn [app].
    f_equal.
    + apply (Hf []); bbd.
    + apply Uf; bbd.
Qed.
Lemma mm4 t u pre a1 b1 a2 b2 a b n c m f g :
  isP4 t pre a1 b1 n c f -> isP4 u pre a2 b2 c m g -> bdim a1 a2 = Some a -> bdim b1 b2 = Some b -> 
  exists y, matmul t u = Ok y /\
    isP4 y pre a b n m (fun q x y i j => bsum c (fun l => rmul (f q (bi a1 x) (bi b1 y) i l) (g q (bi a2 x) (bi b2 y) l j))).
Proof.
  intros [Hs Hf] [Us Uf] B0 B1.
  rewrite matmul_22 by (unfold rk; rewrite ?Hs, ?Us, ?app_length; cbn; lia).
  unfold matmul2, rk, size. rewrite Hs, Us. rewrite !app_length. cbn [length].
  repeat match goal with |- context [length ?p + ?a - ?b] =>
    first [ replace (length p + a - b) with (length p + (a - b)) by lia ] end. cbn [Nat.sub Nat.add length].
  rewrite ?(nth_app []), ?(firstn_app' []), ?nth_app, ?firstn_app'. cbn [nth firstn app].
  rewrite Nat.eqb_refl.
  rewrite (bshape_app pre [a1; b1] [a2; b2] [a; b]) by (reflexivity || bsh).
  eexists; split; [reflexivity|]. split; cbn [shape at_].
  - rewrite <- app_assoc. reflexivity.
  - intros. rewrite !app_length. cbn [length].
    replace (S (length pre + 2)) with (length pre + 3) by lia.
    lenfix. rewrite ?nth_app, ?firstn_app'. cbn [nth firstn].
    apply bsum_ext. intros z Hz. rewrite ?bix_app, ?bix_app_nil by auto. cbn [bixz]. rewrite <- ?app_assoc. cbn [app].
    f_equal.
    + apply Hf; bbd.
    + apply Uf; bbd.
Qed.
Lemma mm4l t u pre a1 b1 a2 b2 a b n c m f g :
  isP4 t pre a1 b1 n c f -> isP4 u [] a2 b2 c m g -> bdim a1 a2 = Some a -> bdim b1 b2 = Some b -> 
  exists y, matmul t u = Ok y /\
    isP4 y pre a b n m (fun q x y i j => bsum c (fun l => rmul (f q (bi a1 x) (bi b1 y) i l) (g [] (bi a2 x) (bi b2 y) l j))).
Proof.
  intros [Hs Hf] [Us Uf] B0 B1.
  rewrite matmul_22 by (unfold rk; rewrite ?Hs, ?Us, ?app_length; cbn; lia).
  unfold matmul2, rk, size. rewrite Hs, Us. rewrite !app_length. cbn [length].
  repeat match goal with |- context [length ?p + ?a - ?b] =>
    first [ replace (length p + a - b) with (length p + (a - b)) by lia ] end. cbn [Nat.sub Nat.add length].
  rewrite ?(nth_app []), ?(firstn_app' []), ?nth_app, ?firstn_app'. cbn [nth firstn app].
  rewrite Nat.eqb_refl.
  rewrite (bshape_app_l pre [a1; b1] [a2; b2] [a; b]) by (reflexivity || bsh).
  eexists; split; [reflexivity|]. split; cbn [shape at_].
  - rewrite <- app_assoc. reflexivity.
  - intros. rewrite !app_length. cbn [length].
    replace (S (length pre + 2)) with (length pre + 3) by lia.
    lenfix. rewrite ?nth_app, ?firstn_app'. cbn [nth firstn].
    apply bsum_ext. intros z Hz. rewrite ?bix_app, ?bix_app_nil by auto. cbn [bixz]. rewrite <- ?app_assoc. cbn [app].
    f_equal.
    + apply Hf; bbd.
    + apply (Uf []); bbd.
Qed.
Lemma mm4r t u pre a1 b1 a2 b2 a b n c m f g :
  isP4 t [] a1 b1 n c f -> isP4 u pre a2 b2 c m g -> bdim a1 a2 = Some a -> bdim b1 b2 = Some b -> 
  exists y, matmul t u = Ok y /\
    isP4 y pre a b n m (fun q x y i j => bsum c (fun l => rmul (f [] (bi a1 x) (bi b1 y) i l) (g q (bi a2 x) (bi b2 y) l j))).
Proof.
  intros [Hs Hf] [Us Uf] B0 B1.
  rewrite matmul_22 by (unfold rk; rewrite ?Hs, ?Us, ?app_length; cbn; lia).
  unfold matmul2, rk, size. rewrite Hs, Us. rewrite !app_length. cbn [length].
  repeat match goal with |- context [length ?p + ?a - ?b] =>
    first [ replace (length p + a - b) with (length p + (a - b)) by lia ] end. cbn [Nat.sub Nat.add length].
  rewrite ?(nth_app []), ?(firstn_app' []), ?nth_app, ?firstn_app'. cbn [nth firstn app].
  rewrite Nat.eqb_refl.
  rewrite (bshape_app_r pre [a1; b1] [a2; b2] [a; b]) by (reflexivity || bsh).
  eexists; split; [reflexivity|]. split; cbn [shape at_].
  - rewrite <- app_assoc. reflexivity.
  - intros. rewrite !app_length. cbn [length].
    replace (S (length pre + 2)) with (length pre + 3) by lia.
    lenfix. rewrite ?nth_app, ?firstn_app'. cbn [nth firstn].
    apply bsum_ext. intros z Hz. rewrite ?bix_app, ?bix_app_nil by auto. cbn [bixz]. rewrite <- ?app_assoc. cbn [app].
    f_equal.
    + apply (Hf []); bbd.
    + apply Uf; bbd.
Qed.

(** Matrix times vector. *)
Lemma mmv t u pre n c f g :
  isP2 t pre n c f -> is1 u c g ->
  exists y, matmul t u = Ok y /\
    isP1 y pre n (fun q i => bsum c (fun l => rmul (f q i l) (g l))).
Proof.
  intros Ht Hu. pose proof Ht as [Hs _]. pose proof Hu as [Us _].
  apply is1_P in Hu. apply (P1_unsq1 u [] c _ 1) in Hu; [|reflexivity].
  destruct (mm2l t (unsqueeze 1 u) pre n c 1 _ _ Ht Hu) as (y & E & Hy).
  rewrite matmul_22 in E.
  2: unfold rk; rewrite Hs, app_length; cbn; lia.
  2: unfold rk; cbn; rewrite Us; cbn; lia.
  exists (sel (rk y - 1) 0 y). split.
  - unfold matmul. assert (rk u = 1) as -> by (unfold rk; now rewrite Us).
    assert (rk t = length pre + 2) as -> by (unfold rk; now rewrite Hs, app_length).
    rewrite Nat.add_comm. cbn [Nat.add]. rewrite E. reflexivity.
  - pose proof Hy as [Ys _].
    eapply isP1_ext; [eapply P2_sel1; [exact Hy| |lia]|].
    + unfold rk. rewrite Ys, app_length. cbn. lia.
    + intros. reflexivity.
Qed.

(** ** vecdot *)

Lemma P2_vecdot t u pre n1 n2 n c f g :
  isP2 t pre n1 c f -> isP2 u pre n2 c g -> bdim n1 n2 = Some n -> 
  exists y, vecdot t u = Ok y /\
    isP1 y pre n (fun q i => bsum c (fun z => rmul (conj (f q (bi n1 i) z)) (g q (bi n2 i) z))).
Proof.
  intros H1 H2 B0. unfold vecdot.
  destruct (P2_ew (fun a b : R => rmul (conj a) b) t u pre n1 c n2 c n c f g H1 H2) as (y & E & Hy); try assumption; try apply bdim_refl.
  rewrite E. cbn [bind]. eexists; split; [reflexivity|].
  destruct Hy as [Ys Yf]. unfold tsum, rk, size. rewrite Ys, app_length. cbn [length].
  replace (length pre + 2 - 1) with (length pre + 1) by lia.
  split; cbn [shape at_].
  - rewrite del_app. reflexivity.
  - intros. rewrite nth_app. cbn [nth]. apply bsum_ext. intros z Hz. lenfix. rewrite ins_app. cbn [ins].
    rewrite Yf by assumption. now rewrite (bi_lt c z) by assumption.
Qed.
Lemma P2_vecdotl t u pre n1 n2 n c f g :
  isP2 t pre n1 c f -> isP2 u [] n2 c g -> bdim n1 n2 = Some n -> 
  exists y, vecdot t u = Ok y /\
    isP1 y pre n (fun q i => bsum c (fun z => rmul (conj (f q (bi n1 i) z)) (g [] (bi n2 i) z))).
Proof.
  intros H1 H2 B0. unfold vecdot.
  destruct (P2_ewl (fun a b : R => rmul (conj a) b) t u pre n1 c n2 c n c f g H1 H2) as (y & E & Hy); try assumption; try apply bdim_refl.
  rewrite E. cbn [bind]. eexists; split; [reflexivity|].
  destruct Hy as [Ys Yf]. unfold tsum, rk, size. rewrite Ys, app_length. cbn [length].
  replace (length pre + 2 - 1) with (length pre + 1) by lia.
  split; cbn [shape at_].
  - rewrite del_app. reflexivity.
  - intros. rewrite nth_app. cbn [nth]. apply bsum_ext. intros z Hz. lenfix. rewrite ins_app. cbn [ins].
    rewrite Yf by assumption. now rewrite (bi_lt c z) by assumption.
Qed.
Lemma P2_vecdotr t u pre n1 n2 n c f g :
  isP2 t [] n1 c f -> isP2 u pre n2 c g -> bdim n1 n2 = Some n -> 
  exists y, vecdot t u = Ok y /\
    isP1 y pre n (fun q i => bsum c (fun z => rmul (conj (f [] (bi n1 i) z)) (g q (bi n2 i) z))).
Proof.
  intros H1 H2 B0. unfold vecdot.
  destruct (P2_ewr (fun a b : R => rmul (conj a) b) t u pre n1 c n2 c n c f g H1 H2) as (y & E & Hy); try assumption; try apply bdim_refl.
  rewrite E. cbn [bind]. eexists; split; [reflexivity|].
  destruct Hy as [Ys Yf]. unfold tsum, rk, size. rewrite Ys, app_length. cbn [length].
  replace (length pre + 2 - 1) with (length pre + 1) by lia.
  split; cbn [shape at_].
  - rewrite del_app. reflexivity.
  - intros. rewrite nth_app. cbn [nth]. apply bsum_ext. intros z Hz. lenfix. rewrite ins_app. cbn [ins].
    rewrite Yf by assumption. now rewrite (bi_lt c z) by assumption.
Qed.
Lemma P3_vecdot t u pre n1 m1 n2 m2 n m c f g :
  isP3 t pre n1 m1 c f -> isP3 u pre n2 m2 c g -> bdim n1 n2 = Some n -> bdim m1 m2 = Some m -> 
  exists y, vecdot t u = Ok y /\
    isP2 y pre n m (fun q i j => bsum c (fun z => rmul (conj (f q (bi n1 i) (bi m1 j) z)) (g q (bi n2 i) (bi m2 j) z))).
Proof.
  intros H1 H2 B0 B1. unfold vecdot.
  destruct (P3_ew (fun a b : R => rmul (conj a) b) t u pre n1  m1 c n2 m2 c n m c f g H1 H2) as (y & E & Hy); try assumption; try apply bdim_refl.
  rewrite E. cbn [bind]. eexists; split; [reflexivity|].
  destruct Hy as [Ys Yf]. unfold tsum, rk, size. rewrite Ys, app_length. cbn [length].
  replace (length pre + 3 - 1) with (length pre + 2) by lia.
  split; cbn [shape at_].
  - rewrite del_app. reflexivity.
  - intros. rewrite nth_app. cbn [nth]. apply bsum_ext. intros z Hz. lenfix. rewrite ins_app. cbn [ins].
    rewrite Yf by assumption. now rewrite (bi_lt c z) by assumption.
Qed.
Lemma P3_vecdotr t u pre n1 m1 n2 m2 n m c f g :
  isP3 t [] n1 m1 c f -> isP3 u pre n2 m2 c g -> bdim n1 n2 = Some n -> bdim m1 m2 = Some m -> 
  exists y, vecdot t u = Ok y /\
    isP2 y pre n m (fun q i j => bsum c (fun z => rmul (conj (f [] (bi n1 i) (bi m1 j) z)) (g q (bi n2 i) (bi m2 j) z))).
Proof.
  intros H1 H2 B0 B1. unfold vecdot.
  destruct (P3_ewr (fun a b : R => rmul (conj a) b) t u pre n1  m1 c n2 m2 c n m c f g H1 H2) as (y & E & Hy); try assumption; try apply bdim_refl.
  rewrite E. cbn [bind]. eexists; split; [reflexivity|].
  destruct Hy as [Ys Yf]. unfold tsum, rk, size. rewrite Ys, app_length. cbn [length].
  replace (length pre + 3 - 1) with (length pre + 2) by lia.
  split; cbn [shape at_].
  - rewrite del_app. reflexivity.
  - intros. rewrite nth_app. cbn [nth]. apply bsum_ext. intros z Hz. lenfix. rewrite ins_app. cbn [ins].
    rewrite Yf by assumption. now rewrite (bi_lt c z) by assumption.
Qed.
Lemma P3_vecdotl t u pre n1 m1 n2 m2 n m c f g :
  isP3 t pre n1 m1 c f -> isP3 u [] n2 m2 c g -> bdim n1 n2 = Some n -> bdim m1 m2 = Some m -> 
  exists y, vecdot t u = Ok y /\
    isP2 y pre n m (fun q i j => bsum c (fun z => rmul (conj (f q (bi n1 i) (bi m1 j) z)) (g [] (bi n2 i) (bi m2 j) z))).
Proof.
  intros H1 H2 B0 B1. unfold vecdot.
  destruct (P3_ewl (fun a b : R => rmul (conj a) b) t u pre n1  m1 c n2 m2 c n m c f g H1 H2) as (y & E & Hy); try assumption; try apply bdim_refl.
  rewrite E. cbn [bind]. eexists; split; [reflexivity|].
  destruct Hy as [Ys Yf]. unfold tsum, rk, size. rewrite Ys, app_length. cbn [length].
  replace (length pre + 3 - 1) with (length pre + 2) by lia.
  split; cbn [shape at_].
  - rewrite del_app. reflexivity.
  - intros. rewrite nth_app. cbn [nth]. apply bsum_ext. intros z Hz. lenfix. rewrite ins_app. cbn [ins].
    rewrite Yf by assumption. now rewrite (bi_lt c z) by assumption.
Qed.
Lemma P4_vecdot t u pre n1 m1 p1 n2 m2 p2 n m p c f g :
  isP4 t pre n1 m1 p1 c f -> isP4 u pre n2 m2 p2 c g -> bdim n1 n2 = Some n -> bdim m1 m2 = Some m -> bdim p1 p2 = Some p -> 
  exists y, vecdot t u = Ok y /\
    isP3 y pre n m p (fun q i j k => bsum c (fun z => rmul (conj (f q (bi n1 i) (bi m1 j) (bi p1 k) z)) (g q (bi n2 i) (bi m2 j) (bi p2 k) z))).
Proof.
  intros H1 H2 B0 B1 B2. unfold vecdot.
  destruct (P4_ew (fun a b : R => rmul (conj a) b) t u pre n1  m1  p1 c n2 m2 p2 c n m p c f g H1 H2) as (y & E & Hy); try assumption; try apply bdim_refl.
  rewrite E. cbn [bind]. eexists; split; [reflexivity|].
  destruct Hy as [Ys Yf]. unfold tsum, rk, size. rewrite Ys, app_length. cbn [length].
  replace (length pre + 4 - 1) with (length pre + 3) by lia.
  split; cbn [shape at_].
  - rewrite del_app. reflexivity.
  - intros. rewrite nth_app. cbn [nth]. apply bsum_ext. intros z Hz. lenfix. rewrite ins_app. cbn [ins].
    rewrite Yf by assumption. now rewrite (bi_lt c z) by assumption.
Qed.

(** ** Cumulative products along the last dimension *)
Lemma P1_cumprod t pre n f d : isP1 t pre n f -> d = length pre + 0 ->
  isP1 (cumprod d t) pre n (fun q i => bprod (S i) (fun j => f q j)).
Proof.
  intros [Hs Hf] ->. split; cbn [shape at_ cumprod]; [exact Hs|].
  intros q i Hq Hi. lenfix. rewrite nth_app. cbn [nth].
  assert (H : forall k, k <= S i -> bprod k (fun j => at_ t (upd (length q + 0) (fun _ => j) (q ++ [i])))
                       = bprod k (fun j => f q j)).
  { induction k as [|k IH]; intros Hk; [reflexivity|]. cbn [bprod].
    rewrite IH by lia. rewrite upd_app. cbn [upd]. rewrite Hf by (auto; lia). reflexivity. }
  apply H. lia.
Qed.

Lemma P2_cumprod1 t pre n m f d : isP2 t pre n m f -> d = length pre + 1 ->
  isP2 (cumprod d t) pre n m (fun q i j => bprod (S j) (fun k => f q i k)).
Proof.
  intros [Hs Hf] ->. split; cbn [shape at_ cumprod]; [exact Hs|].
  intros q i j Hq Hi Hj. lenfix. rewrite nth_app. cbn [nth].
  assert (H : forall k, k <= S j -> bprod k (fun z => at_ t (upd (length q + 1) (fun _ => z) (q ++ [i; j])))
                       = bprod k (fun z => f q i z)).
  { induction k as [|k IH]; intros Hk; [reflexivity|]. cbn [bprod].
    rewrite IH by lia. rewrite upd_app. cbn [upd]. rewrite Hf by (auto; lia). reflexivity. }
  apply H. lia.
Qed.

Lemma P2_eye pre n : pre = [] -> isP2 (@eye R n) pre n n (fun q i j => if i =? j then r1 else r0).
Proof. intros ->. split; [reflexivity|]. intros q i j Hq Hi Hj. apply vld_nil_inv in Hq as ->. reflexivity. Qed.
End Alg.

(** ** Selection, stacking, concatenation of lists, expansion *)
Section Lists.
Context {A : Type}.
Implicit Type t : tensor A.

Lemma select_ok t d i k : pyidx (size t d) i = Some k -> select d i t = Ok (sel d k t).
Proof. unfold select. now intros ->. Qed.

Lemma forallb_shape (ts : list (tensor A)) s :
  (forall t, In t ts -> shape t = s) -> forallb (fun u => list_eqb (shape u) s) ts = true.
Proof.
  induction ts as [|t ts IH]; intros H; cbn; [reflexivity|].
  rewrite (H t) by now left. rewrite list_eqb_refl. apply IH. intros; apply H; now right.
Qed.

Lemma stack_gen (ts : list (tensor A)) s d :
  ts <> [] -> (forall t, In t ts -> shape t = s) ->
  exists y, stack d ts = Ok y /\ shape y = ins d (length ts) s /\
    forall idx dflt, nth d idx 0 < length ts ->
      at_ y idx = at_ (nth (nth d idx 0) ts dflt) (del d idx).
Proof.
  destruct ts as [|t ts]; [congruence|]. intros _ H. unfold stack.
  rewrite (H t) by now left. rewrite forallb_shape.
  - eexists; split; [reflexivity|]. split; [reflexivity|].
    intros idx dflt Hi. cbn [at_]. f_equal. now apply nth_indep.
  - intros u Hu. apply H. now right.
Qed.

Lemma cat1_gen (ts : list (tensor A)) pre suf d :
  d = length pre -> ts <> [] -> (forall t, In t ts -> shape t = pre ++ 1 :: suf) ->
  exists y, cat d ts = Ok y /\ shape y = pre ++ length ts :: suf /\
    forall q k i dflt, length q = length pre -> k < length ts ->
      at_ y (q ++ k :: i) = at_ (nth k ts dflt) (q ++ 0 :: i).
Proof.
  intros -> Hne H. destruct ts as [|t ts]; [congruence|].
  assert (Hcs : forall l, (forall t, In t l -> shape t = pre ++ 1 :: suf) ->
                cat_size (length pre) l = length l).
  { induction l as [|u l IH]; intros Hl; [reflexivity|]. cbn [cat_size length].
    assert (size u (length pre) = 1) as ->.
    { unfold size. rewrite (Hl u) by now left. rewrite <- (Nat.add_0_r (length pre)) at 1.
      rewrite nth_app. reflexivity. }
    destruct l as [|v l]; [reflexivity|]. rewrite IH by (intros; apply Hl; now right). reflexivity. }
  unfold cat. unfold rk. rewrite (H t) by now left.
  rewrite app_length. cbn [length]. btrue (length pre <? length pre + S (length suf)).
  assert (forallb (fun u => (length (shape u) =? length pre + S (length suf)) &&
            list_eqb (del (length pre) (shape u)) (del (length pre) (pre ++ 1 :: suf))) ts = true) as ->.
  { apply forallb_forall. intros u Hu. rewrite (H u) by now right.
    rewrite app_length. cbn [length]. rewrite Nat.eqb_refl, list_eqb_refl. reflexivity. }
  cbn [andb]. eexists; split; [reflexivity|]. split.
  - cbn [shape]. rewrite <- (Nat.add_0_r (length pre)) at 1. rewrite upd_app. cbn [upd].
    rewrite (Hcs (t :: ts)) by exact H. reflexivity.
  - cbn [at_]. intros q k i dflt Hq. clear Hcs Hne.
    revert t H k. induction ts as [|u ts IH]; intros t H k Hk.
    + cbn in Hk. replace k with 0 by lia. reflexivity.
    + cbn [cat_at]. unfold size. rewrite (H t) by now left.
      rewrite <- (Nat.add_0_r (length pre)). rewrite nth_app. rewrite <- Hq.
      rewrite nth_app, upd_app. cbn [nth upd].
      destruct k as [|k]; [reflexivity|]. cbn [Nat.ltb Nat.leb].
      replace (S k - 1) with k by lia.
      rewrite Nat.add_0_r, Hq. rewrite IH; [reflexivity| |cbn in *; lia].
      intros v Hv. apply H. now right.
Qed.

Lemma expandable_rev_refl l : expandable_rev l l = true.
Proof. induction l as [|x l IH]; cbn; [reflexivity|]. now rewrite Nat.eqb_refl, IH. Qed.
Lemma expandable_rev_app a l : expandable_rev a (a ++ l) = true.
Proof. induction a as [|x a IH]; cbn; [reflexivity|]. now rewrite Nat.eqb_refl, IH. Qed.

(** Adding batch dimensions in front. *)
Lemma expand_pre1 t pre n f : is1 t n f ->
  exists y, expand (pre ++ [n]) t = Ok y /\ isP1 y pre n (fun _ => f).
Proof.
  intros [Hs Hf]. unfold expand. rewrite Hs, rev_app_distr, expandable_rev_app.
  eexists; split; [reflexivity|]. split; [reflexivity|]. intros. cbn [at_].
  rewrite bix_app_nil by auto. cbn. rewrite !bi_lt by auto. auto.
Qed.
Lemma expand_pre2 t pre n m f : is2 t n m f ->
  exists y, expand (pre ++ [n; m]) t = Ok y /\ isP2 y pre n m (fun _ => f).
Proof.
  intros [Hs Hf]. unfold expand. rewrite Hs, rev_app_distr, expandable_rev_app.
  eexists; split; [reflexivity|]. split; [reflexivity|]. intros. cbn [at_].
  rewrite bix_app_nil by auto. cbn. rewrite !bi_lt by auto. auto.
Qed.
Lemma expand_0 t v n : is0 t v -> exists y, expand [n] t = Ok y /\ is1 y n (fun _ => v).
Proof.
  intros [Hs Hf]. unfold expand. rewrite Hs. cbn.
  eexists; split; [reflexivity|]. split; [reflexivity|]. intros. cbn. exact Hf.
Qed.
Lemma expand_1 t a n f : is1 t a f -> a = n \/ a = 1 ->
  exists y, expand [n] t = Ok y /\ is1 y n (fun i => f (bi a i)).
Proof.
  intros [Hs Hf] H. unfold expand. rewrite Hs. cbn [rev app expandable_rev].
  assert (((a =? n) || (a =? 1)) && true = true) as ->.
  { destruct H as [->| ->]; rewrite Nat.eqb_refl; [reflexivity|]. now rewrite orb_true_r. }
  eexists; split; [reflexivity|]. split; [reflexivity|]. intros i Hi. cbn.
  apply Hf. unfold bi. destruct (a =? 1) eqn:E; b2p; lia.
Qed.
Lemma expand_2 t a c n m f : is2 t a c f -> a = n \/ a = 1 -> c = m \/ c = 1 ->
  exists y, expand [n; m] t = Ok y /\ is2 y n m (fun i j => f (bi a i) (bi c j)).
Proof.
  intros [Hs Hf] H1 H2. unfold expand. rewrite Hs. cbn [rev app expandable_rev].
  assert (((c =? m) || (c =? 1)) && (((a =? n) || (a =? 1)) && true) = true) as ->.
  { destruct H1 as [->| ->], H2 as [->| ->]; rewrite !Nat.eqb_refl, ?orb_true_r; reflexivity. }
  eexists; split; [reflexivity|]. split; [reflexivity|]. intros i j Hi Hj. cbn.
  apply Hf; unfold bi; [destruct (a =? 1) eqn:E | destruct (c =? 1) eqn:E]; b2p; lia.
Qed.
Lemma expand_same t : exists y, expand (shape t) t = Ok y /\ shape y = shape t /\
  forall idx, vld (shape t) idx -> at_ y idx = at_ t idx.
Proof.
  unfold expand. rewrite expandable_rev_refl. eexists; split; [reflexivity|].
  split; [reflexivity|]. intros. cbn. now rewrite bix_pre.
Qed.
End Lists.

Lemma unflatten_m1_ok {A} (t : tensor A) d s k : s <> 0 -> size t d = k * s ->
  unflatten_m1 d s t = unflatten d [k; s] t.
Proof.
  intros Hs E. unfold unflatten_m1. rewrite E. bfalse (s =? 0).
  rewrite Nat.mod_mul, Nat.div_mul by assumption. reflexivity.
Qed.
Lemma unflatten_1m_ok {A} (t : tensor A) d s k : s <> 0 -> size t d = s * k ->
  unflatten_1m d s t = unflatten d [s; k] t.
Proof.
  intros Hs E. unfold unflatten_1m. rewrite E, (Nat.mul_comm s k). bfalse (s =? 0).
  rewrite Nat.mod_mul, Nat.div_mul by assumption. reflexivity.
Qed.
