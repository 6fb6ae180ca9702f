(** Rank-by-rank shape-and-entries lemmas for the operations of [Tensor.v].
    [Pk_op d]: operation [op] at the d-th trailing dimension of a tensor with k
    trailing dimensions after the batch prefix [pre].  All are instances of one
    tactic; the file is a table. *)
From Coq Require Import List Arith Lia ZArith Bool.
From Verif Require Import Scalar Tensor TensorLemmas.
Import ListNotations.

Lemma pybound_le n b : pybound n n b <= n.
Proof.
  unfold pybound. destruct b as [z|]; [|lia]. destruct (z <? 0)%Z eqn:E; [|lia].
  apply Z.ltb_lt in E. lia.
Qed.

Ltac lenfix := repeat match goal with H : vld ?pre ?q |- _ =>
  rewrite <- ?(vld_len _ _ H); revert H end; intros.
Ltac splitview :=
  match goal with
  | |- isP0 _ _ _ => split
  | |- isP1 _ _ _ _ => split
  | |- isP2 _ _ _ _ _ => split
  | |- isP3 _ _ _ _ _ _ => split
  | |- isP4 _ _ _ _ _ _ _ => split
  | |- isP5 _ _ _ _ _ _ _ _ => split
  end.
Ltac inb := first
  [ assumption | lia
  | match goal with H : _ < _ * _ |- _ => apply Nat.div_lt_upper_bound; nia end
  | match goal with H : _ < _ * _ |- _ => apply Nat.mod_upper_bound; nia end
  | nia ].
Ltac useat := match goal with H : forall q : list nat, _ |- _ => apply H; inb end.
Ltac feq := repeat (reflexivity || lia || f_equal).
Ltac optac :=
  intros; subst; unview;
  unfold flip, slice, pad, sel, unsqueeze, transpose, flatten, tmap, full, rk, size;
  splitview; cbn [shape at_];
  [ rwshape; applen; tred; feq
  | intros; rwshape; rewrite ?nth_app; lenfix; applen; tred; try reflexivity;
    try match goal with |- (if ?b then _ else _) = (if ?b then _ else _) =>
      let E := fresh "E" in destruct b eqn:E; [b2p | reflexivity] end;
    try useat ].

Ltac cattac :=
  intros; subst; unview; unfold cat, rk, size;
  rwshape; rewrite ?app_length; cbn [length forallb cat_size]; unfold rk, size;
  rwshape; applen; rewrite ?app_length; tred;
  rewrite ?Nat.eqb_refl, ?list_eqb_refl;
  match goal with |- context [?a <? ?b] => btrue (a <? b) end; cbn [andb];
  eexists; split; [reflexivity|];
  splitview; cbn [shape at_];
  [ reflexivity
  | intros; cbn [cat_at]; unfold size; rwshape; rewrite ?nth_app; lenfix; applen; tred;
    match goal with |- (if ?b then _ else _) = (if ?b then _ else _) =>
      let E := fresh "E" in destruct b eqn:E; b2p end;
    match goal with
    | H1 : forall q : list nat, _, H2 : forall q : list nat, _ |- _ =>
        first [ apply H1; first [assumption|lia] | apply H2; first [assumption|lia] ]
    end ].

Section Ops.
Context {A : Type}.
Implicit Type t u : tensor A.

Lemma P1_flip0 t pre n f d : isP1 t pre n f -> d = length pre + 0 ->
  isP1 (flip d t) pre n (fun q i => f q (n - 1 - i)).
Proof. optac. Qed.
Lemma P1_slice0 t pre n f d lo hi a len : isP1 t pre n f -> d = length pre + 0 ->
  pybound n 0 lo = a -> pybound n n hi - a = len ->
  isP1 (slice d lo hi t) pre len (fun q i => f q (a + i)).
Proof. pose proof (pybound_le n hi). optac. Qed.
Lemma P1_pad0 t pre n f d a c v : isP1 t pre n f -> d = length pre + 0 ->
  isP1 (pad d a c v t) pre (a + n + c) (fun q i => if (a <=? i) && (i <? a + n) then f q (i - a) else v).
Proof. optac. Qed.
Lemma P1_map t pre n f (g : A -> A) : isP1 t pre n f ->
  isP1 (tmap g t) pre n (fun q i => g (f q i)).
Proof. optac. f_equal. useat. Qed.
Lemma P1_full pre n (v : A) : isP1 (full (pre ++ [n]) v) pre n (fun q i => v).
Proof. optac. Qed.
Lemma P1_unsq0 t pre n f d : isP1 t pre n f -> d = length pre + 0 ->
  isP2 (unsqueeze d t) pre 1 n (fun q z i => f q i).
Proof. optac. Qed.
Lemma P1_unsq1 t pre n f d : isP1 t pre n f -> d = length pre + 1 ->
  isP2 (unsqueeze d t) pre n 1 (fun q i z => f q i).
Proof. optac. Qed.
Lemma P1_unflat0 t pre w f d a c : isP1 t pre w f -> d = length pre + 0 -> w = a * c ->
  exists y, unflatten d [a; c] t = Ok y /\ isP2 y pre a c (fun q i j => f q (i * c + j)).
Proof.
  intros H -> ->. destruct H as [Hs Hf]. unfold unflatten, size. rewrite Hs.
  replace (S (length pre + 0)) with (length pre + 1) by lia.
  applen. tred. rewrite Nat.eqb_refl. eexists; split; [reflexivity|].
  split; cbn [shape at_].
  - now rewrite <- ?app_assoc.
  - intros. replace (length pre + 0 + 2) with (length pre + 2) by lia. lenfix. applen. tred.
    rewrite <- ?app_assoc. cbn [app]. useat.
Qed.
Lemma P1_cat0 t u pre a c  f g d : isP1 t pre a f -> isP1 u pre c g -> d = length pre + 0 ->
  exists y, cat d [t; u] = Ok y /\ isP1 y pre (a + c) (fun q i => if i <? a then f q i else g q (i - a)).
Proof. cattac. Qed.
Lemma P1_unfold0 t pre n f d sz : isP1 t pre n f -> d = length pre + 0 -> sz <= n ->
  exists y, unfold d sz t = Ok y /\ isP2 y pre (n - sz + 1) sz (fun q i j => f q (i + j)).
Proof.
  intros H -> Hsz. destruct H as [Hs Hf]. unfold unfold, size, rk. rewrite Hs.
  applen. tred. btrue (sz <=? n). eexists; split; [reflexivity|].
  split; cbn [shape at_].
  - applen. tred. now rewrite <- ?app_assoc.
  - intros. rewrite app_length. lenfix. applen. tred. useat.
Qed.
Lemma P2_flip0 t pre n m f d : isP2 t pre n m f -> d = length pre + 0 ->
  isP2 (flip d t) pre n m (fun q i j => f q (n - 1 - i) j).
Proof. optac. Qed.
Lemma P2_sel0 t pre n m f d x : isP2 t pre n m f -> d = length pre + 0 -> x < n ->
  isP1 (sel d x t) pre m (fun q j => f q x j).
Proof. optac.  Qed.
Lemma P2_slice0 t pre n m f d lo hi a len : isP2 t pre n m f -> d = length pre + 0 ->
  pybound n 0 lo = a -> pybound n n hi - a = len ->
  isP2 (slice d lo hi t) pre len m (fun q i j => f q (a + i) j).
Proof. pose proof (pybound_le n hi). optac. Qed.
Lemma P2_pad0 t pre n m f d a c v : isP2 t pre n m f -> d = length pre + 0 ->
  isP2 (pad d a c v t) pre (a + n + c) m (fun q i j => if (a <=? i) && (i <? a + n) then f q (i - a) j else v).
Proof. optac. Qed.
Lemma P2_flip1 t pre n m f d : isP2 t pre n m f -> d = length pre + 1 ->
  isP2 (flip d t) pre n m (fun q i j => f q i (m - 1 - j)).
Proof. optac. Qed.
Lemma P2_sel1 t pre n m f d x : isP2 t pre n m f -> d = length pre + 1 -> x < m ->
  isP1 (sel d x t) pre n (fun q i => f q i x).
Proof. optac.  Qed.
Lemma P2_slice1 t pre n m f d lo hi a len : isP2 t pre n m f -> d = length pre + 1 ->
  pybound m 0 lo = a -> pybound m m hi - a = len ->
  isP2 (slice d lo hi t) pre n len (fun q i j => f q i (a + j)).
Proof. pose proof (pybound_le m hi). optac. Qed.
Lemma P2_pad1 t pre n m f d a c v : isP2 t pre n m f -> d = length pre + 1 ->
  isP2 (pad d a c v t) pre n (a + m + c) (fun q i j => if (a <=? j) && (j <? a + m) then f q i (j - a) else v).
Proof. optac. Qed.
Lemma P2_map t pre n m f (g : A -> A) : isP2 t pre n m f ->
  isP2 (tmap g t) pre n m (fun q i j => g (f q i j)).
Proof. optac. f_equal. useat. Qed.
Lemma P2_full pre n m (v : A) : isP2 (full (pre ++ [n; m]) v) pre n m (fun q i j => v).
Proof. optac. Qed.
Lemma P2_tr01 t pre n m f d e : isP2 t pre n m f -> d = length pre + 0 -> e = length pre + 1 ->
  isP2 (transpose d e t) pre m n (fun q i j => f q j i).
Proof. unfold transpose, swapl. optac. Qed.
Lemma P2_mT t pre n m f : isP2 t pre n m f ->
  isP2 (mT t) pre m n (fun q i j => f q j i).
Proof. intro H. pose proof H as [Hs _]. unfold mT, rk. rewrite Hs. apply P2_tr01; auto; rewrite app_length; cbn; lia. Qed.
Lemma P2_unsq0 t pre n m f d : isP2 t pre n m f -> d = length pre + 0 ->
  isP3 (unsqueeze d t) pre 1 n m (fun q z i j => f q i j).
Proof. optac. Qed.
Lemma P2_unsq1 t pre n m f d : isP2 t pre n m f -> d = length pre + 1 ->
  isP3 (unsqueeze d t) pre n 1 m (fun q i z j => f q i j).
Proof. optac. Qed.
Lemma P2_unsq2 t pre n m f d : isP2 t pre n m f -> d = length pre + 2 ->
  isP3 (unsqueeze d t) pre n m 1 (fun q i j z => f q i j).
Proof. optac. Qed.
Lemma P2_flat0 t pre n m f d e : isP2 t pre n m f -> d = length pre + 0 -> e = length pre + 1 ->
  isP1 (flatten d e t) pre (n * m) (fun q i => f q (i / m) (i mod m)).
Proof.
  intros H -> ->. destruct H as [Hs Hf]. unfold flatten. rewrite Hs.
  replace (S (length pre + 1) - (length pre + 0)) with 2 by lia.
  replace (S (length pre + 1)) with (length pre + 2) by lia.
  replace (S (length pre + 0)) with (length pre + 1) by lia.
  applen. tred. split; cbn [shape at_]; [now rewrite <- app_assoc|].
  intros. lenfix. applen. tred. rewrite <- ?app_assoc. cbn [app]. useat.
Qed.
Lemma P2_unflat0 t pre w m f d a c : isP2 t pre w m f -> d = length pre + 0 -> w = a * c ->
  exists y, unflatten d [a; c] t = Ok y /\ isP3 y pre a c m (fun q i j k => f q (i * c + j) k).
Proof.
  intros H -> ->. destruct H as [Hs Hf]. unfold unflatten, size. rewrite Hs.
  replace (S (length pre + 0)) with (length pre + 1) by lia.
  applen. tred. rewrite Nat.eqb_refl. eexists; split; [reflexivity|].
  split; cbn [shape at_].
  - now rewrite <- ?app_assoc.
  - intros. replace (length pre + 0 + 2) with (length pre + 2) by lia. lenfix. applen. tred.
    rewrite <- ?app_assoc. cbn [app]. useat.
Qed.
Lemma P2_unflat1 t pre n w f d a c : isP2 t pre n w f -> d = length pre + 1 -> w = a * c ->
  exists y, unflatten d [a; c] t = Ok y /\ isP3 y pre n a c (fun q i j k => f q i (j * c + k)).
Proof.
  intros H -> ->. destruct H as [Hs Hf]. unfold unflatten, size. rewrite Hs.
  replace (S (length pre + 1)) with (length pre + 2) by lia.
  applen. tred. rewrite Nat.eqb_refl. eexists; split; [reflexivity|].
  split; cbn [shape at_].
  - now rewrite <- ?app_assoc.
  - intros. replace (length pre + 1 + 2) with (length pre + 3) by lia. lenfix. applen. tred.
    rewrite <- ?app_assoc. cbn [app]. useat.
Qed.
Lemma P2_cat0 t u pre a c m f g d : isP2 t pre a m f -> isP2 u pre c m g -> d = length pre + 0 ->
  exists y, cat d [t; u] = Ok y /\ isP2 y pre (a + c) m (fun q i j => if i <? a then f q i j else g q (i - a) j).
Proof. cattac. Qed.
Lemma P2_cat1 t u pre a c n f g d : isP2 t pre n a f -> isP2 u pre n c g -> d = length pre + 1 ->
  exists y, cat d [t; u] = Ok y /\ isP2 y pre n (a + c) (fun q i j => if j <? a then f q i j else g q i (j - a)).
Proof. cattac. Qed.
Lemma P2_unfold0 t pre n m f d sz : isP2 t pre n m f -> d = length pre + 0 -> sz <= n ->
  exists y, unfold d sz t = Ok y /\ isP3 y pre (n - sz + 1) m sz (fun q i j k => f q (i + k) j).
Proof.
  intros H -> Hsz. destruct H as [Hs Hf]. unfold unfold, size, rk. rewrite Hs.
  applen. tred. btrue (sz <=? n). eexists; split; [reflexivity|].
  split; cbn [shape at_].
  - applen. tred. now rewrite <- ?app_assoc.
  - intros. rewrite app_length. lenfix. applen. tred. useat.
Qed.
Lemma P2_unfold1 t pre n m f d sz : isP2 t pre n m f -> d = length pre + 1 -> sz <= m ->
  exists y, unfold d sz t = Ok y /\ isP3 y pre n (m - sz + 1) sz (fun q i j k => f q i (j + k)).
Proof.
  intros H -> Hsz. destruct H as [Hs Hf]. unfold unfold, size, rk. rewrite Hs.
  applen. tred. btrue (sz <=? m). eexists; split; [reflexivity|].
  split; cbn [shape at_].
  - applen. tred. now rewrite <- ?app_assoc.
  - intros. rewrite app_length. lenfix. applen. tred. useat.
Qed.
Lemma P3_flip0 t pre n m p f d : isP3 t pre n m p f -> d = length pre + 0 ->
  isP3 (flip d t) pre n m p (fun q i j k => f q (n - 1 - i) j k).
Proof. optac. Qed.
Lemma P3_sel0 t pre n m p f d x : isP3 t pre n m p f -> d = length pre + 0 -> x < n ->
  isP2 (sel d x t) pre m p (fun q j k => f q x j k).
Proof. optac.  Qed.
Lemma P3_slice0 t pre n m p f d lo hi a len : isP3 t pre n m p f -> d = length pre + 0 ->
  pybound n 0 lo = a -> pybound n n hi - a = len ->
  isP3 (slice d lo hi t) pre len m p (fun q i j k => f q (a + i) j k).
Proof. pose proof (pybound_le n hi). optac. Qed.
Lemma P3_pad0 t pre n m p f d a c v : isP3 t pre n m p f -> d = length pre + 0 ->
  isP3 (pad d a c v t) pre (a + n + c) m p (fun q i j k => if (a <=? i) && (i <? a + n) then f q (i - a) j k else v).
Proof. optac. Qed.
Lemma P3_flip1 t pre n m p f d : isP3 t pre n m p f -> d = length pre + 1 ->
  isP3 (flip d t) pre n m p (fun q i j k => f q i (m - 1 - j) k).
Proof. optac. Qed.
Lemma P3_sel1 t pre n m p f d x : isP3 t pre n m p f -> d = length pre + 1 -> x < m ->
  isP2 (sel d x t) pre n p (fun q i k => f q i x k).
Proof. optac.  Qed.
Lemma P3_slice1 t pre n m p f d lo hi a len : isP3 t pre n m p f -> d = length pre + 1 ->
  pybound m 0 lo = a -> pybound m m hi - a = len ->
  isP3 (slice d lo hi t) pre n len p (fun q i j k => f q i (a + j) k).
Proof. pose proof (pybound_le m hi). optac. Qed.
Lemma P3_pad1 t pre n m p f d a c v : isP3 t pre n m p f -> d = length pre + 1 ->
  isP3 (pad d a c v t) pre n (a + m + c) p (fun q i j k => if (a <=? j) && (j <? a + m) then f q i (j - a) k else v).
Proof. optac. Qed.
Lemma P3_flip2 t pre n m p f d : isP3 t pre n m p f -> d = length pre + 2 ->
  isP3 (flip d t) pre n m p (fun q i j k => f q i j (p - 1 - k)).
Proof. optac. Qed.
Lemma P3_sel2 t pre n m p f d x : isP3 t pre n m p f -> d = length pre + 2 -> x < p ->
  isP2 (sel d x t) pre n m (fun q i j => f q i j x).
Proof. optac.  Qed.
Lemma P3_slice2 t pre n m p f d lo hi a len : isP3 t pre n m p f -> d = length pre + 2 ->
  pybound p 0 lo = a -> pybound p p hi - a = len ->
  isP3 (slice d lo hi t) pre n m len (fun q i j k => f q i j (a + k)).
Proof. pose proof (pybound_le p hi). optac. Qed.
Lemma P3_pad2 t pre n m p f d a c v : isP3 t pre n m p f -> d = length pre + 2 ->
  isP3 (pad d a c v t) pre n m (a + p + c) (fun q i j k => if (a <=? k) && (k <? a + p) then f q i j (k - a) else v).
Proof. optac. Qed.
Lemma P3_map t pre n m p f (g : A -> A) : isP3 t pre n m p f ->
  isP3 (tmap g t) pre n m p (fun q i j k => g (f q i j k)).
Proof. optac. f_equal. useat. Qed.
Lemma P3_full pre n m p (v : A) : isP3 (full (pre ++ [n; m; p]) v) pre n m p (fun q i j k => v).
Proof. optac. Qed.
Lemma P3_tr01 t pre n m p f d e : isP3 t pre n m p f -> d = length pre + 0 -> e = length pre + 1 ->
  isP3 (transpose d e t) pre m n p (fun q i j k => f q j i k).
Proof. unfold transpose, swapl. optac. Qed.
Lemma P3_tr02 t pre n m p f d e : isP3 t pre n m p f -> d = length pre + 0 -> e = length pre + 2 ->
  isP3 (transpose d e t) pre p m n (fun q i j k => f q k j i).
Proof. unfold transpose, swapl. optac. Qed.
Lemma P3_tr12 t pre n m p f d e : isP3 t pre n m p f -> d = length pre + 1 -> e = length pre + 2 ->
  isP3 (transpose d e t) pre n p m (fun q i j k => f q i k j).
Proof. unfold transpose, swapl. optac. Qed.
Lemma P3_mT t pre n m p f : isP3 t pre n m p f ->
  isP3 (mT t) pre n p m (fun q i j k => f q i k j).
Proof. intro H. pose proof H as [Hs _]. unfold mT, rk. rewrite Hs. apply P3_tr12; auto; rewrite app_length; cbn; lia. Qed.
Lemma P3_unsq0 t pre n m p f d : isP3 t pre n m p f -> d = length pre + 0 ->
  isP4 (unsqueeze d t) pre 1 n m p (fun q z i j k => f q i j k).
Proof. optac. Qed.
Lemma P3_unsq1 t pre n m p f d : isP3 t pre n m p f -> d = length pre + 1 ->
  isP4 (unsqueeze d t) pre n 1 m p (fun q i z j k => f q i j k).
Proof. optac. Qed.
Lemma P3_unsq2 t pre n m p f d : isP3 t pre n m p f -> d = length pre + 2 ->
  isP4 (unsqueeze d t) pre n m 1 p (fun q i j z k => f q i j k).
Proof. optac. Qed.
Lemma P3_unsq3 t pre n m p f d : isP3 t pre n m p f -> d = length pre + 3 ->
  isP4 (unsqueeze d t) pre n m p 1 (fun q i j k z => f q i j k).
Proof. optac. Qed.
Lemma P3_flat0 t pre n m p f d e : isP3 t pre n m p f -> d = length pre + 0 -> e = length pre + 1 ->
  isP2 (flatten d e t) pre (n * m) p (fun q i j => f q (i / m) (i mod m) j).
Proof.
  intros H -> ->. destruct H as [Hs Hf]. unfold flatten. rewrite Hs.
  replace (S (length pre + 1) - (length pre + 0)) with 2 by lia.
  replace (S (length pre + 1)) with (length pre + 2) by lia.
  replace (S (length pre + 0)) with (length pre + 1) by lia.
  applen. tred. split; cbn [shape at_]; [now rewrite <- app_assoc|].
  intros. lenfix. applen. tred. rewrite <- ?app_assoc. cbn [app]. useat.
Qed.
Lemma P3_flat1 t pre n m p f d e : isP3 t pre n m p f -> d = length pre + 1 -> e = length pre + 2 ->
  isP2 (flatten d e t) pre n (m * p) (fun q i j => f q i (j / p) (j mod p)).
Proof.
  intros H -> ->. destruct H as [Hs Hf]. unfold flatten. rewrite Hs.
  replace (S (length pre + 2) - (length pre + 1)) with 2 by lia.
  replace (S (length pre + 2)) with (length pre + 3) by lia.
  replace (S (length pre + 1)) with (length pre + 2) by lia.
  applen. tred. split; cbn [shape at_]; [now rewrite <- app_assoc|].
  intros. lenfix. applen. tred. rewrite <- ?app_assoc. cbn [app]. useat.
Qed.
Lemma P3_unflat0 t pre w m p f d a c : isP3 t pre w m p f -> d = length pre + 0 -> w = a * c ->
  exists y, unflatten d [a; c] t = Ok y /\ isP4 y pre a c m p (fun q i j k l => f q (i * c + j) k l).
Proof.
  intros H -> ->. destruct H as [Hs Hf]. unfold unflatten, size. rewrite Hs.
  replace (S (length pre + 0)) with (length pre + 1) by lia.
  applen. tred. rewrite Nat.eqb_refl. eexists; split; [reflexivity|].
  split; cbn [shape at_].
  - now rewrite <- ?app_assoc.
  - intros. replace (length pre + 0 + 2) with (length pre + 2) by lia. lenfix. applen. tred.
    rewrite <- ?app_assoc. cbn [app]. useat.
Qed.
Lemma P3_unflat1 t pre n w p f d a c : isP3 t pre n w p f -> d = length pre + 1 -> w = a * c ->
  exists y, unflatten d [a; c] t = Ok y /\ isP4 y pre n a c p (fun q i j k l => f q i (j * c + k) l).
Proof.
  intros H -> ->. destruct H as [Hs Hf]. unfold unflatten, size. rewrite Hs.
  replace (S (length pre + 1)) with (length pre + 2) by lia.
  applen. tred. rewrite Nat.eqb_refl. eexists; split; [reflexivity|].
  split; cbn [shape at_].
  - now rewrite <- ?app_assoc.
  - intros. replace (length pre + 1 + 2) with (length pre + 3) by lia. lenfix. applen. tred.
    rewrite <- ?app_assoc. cbn [app]. useat.
Qed.
Lemma P3_unflat2 t pre n m w f d a c : isP3 t pre n m w f -> d = length pre + 2 -> w = a * c ->
  exists y, unflatten d [a; c] t = Ok y /\ isP4 y pre n m a c (fun q i j k l => f q i j (k * c + l)).
Proof.
  intros H -> ->. destruct H as [Hs Hf]. unfold unflatten, size. rewrite Hs.
  replace (S (length pre + 2)) with (length pre + 3) by lia.
  applen. tred. rewrite Nat.eqb_refl. eexists; split; [reflexivity|].
  split; cbn [shape at_].
  - now rewrite <- ?app_assoc.
  - intros. replace (length pre + 2 + 2) with (length pre + 4) by lia. lenfix. applen. tred.
    rewrite <- ?app_assoc. cbn [app]. useat.
Qed.
Lemma P3_cat0 t u pre a c m p f g d : isP3 t pre a m p f -> isP3 u pre c m p g -> d = length pre + 0 ->
  exists y, cat d [t; u] = Ok y /\ isP3 y pre (a + c) m p (fun q i j k => if i <? a then f q i j k else g q (i - a) j k).
Proof. cattac. Qed.
Lemma P3_cat1 t u pre a c n p f g d : isP3 t pre n a p f -> isP3 u pre n c p g -> d = length pre + 1 ->
  exists y, cat d [t; u] = Ok y /\ isP3 y pre n (a + c) p (fun q i j k => if j <? a then f q i j k else g q i (j - a) k).
Proof. cattac. Qed.
Lemma P3_cat2 t u pre a c n m f g d : isP3 t pre n m a f -> isP3 u pre n m c g -> d = length pre + 2 ->
  exists y, cat d [t; u] = Ok y /\ isP3 y pre n m (a + c) (fun q i j k => if k <? a then f q i j k else g q i j (k - a)).
Proof. cattac. Qed.
Lemma P3_unfold0 t pre n m p f d sz : isP3 t pre n m p f -> d = length pre + 0 -> sz <= n ->
  exists y, unfold d sz t = Ok y /\ isP4 y pre (n - sz + 1) m p sz (fun q i j k l => f q (i + l) j k).
Proof.
  intros H -> Hsz. destruct H as [Hs Hf]. unfold unfold, size, rk. rewrite Hs.
  applen. tred. btrue (sz <=? n). eexists; split; [reflexivity|].
  split; cbn [shape at_].
  - applen. tred. now rewrite <- ?app_assoc.
  - intros. rewrite app_length. lenfix. applen. tred. useat.
Qed.
Lemma P3_unfold1 t pre n m p f d sz : isP3 t pre n m p f -> d = length pre + 1 -> sz <= m ->
  exists y, unfold d sz t = Ok y /\ isP4 y pre n (m - sz + 1) p sz (fun q i j k l => f q i (j + l) k).
Proof.
  intros H -> Hsz. destruct H as [Hs Hf]. unfold unfold, size, rk. rewrite Hs.
  applen. tred. btrue (sz <=? m). eexists; split; [reflexivity|].
  split; cbn [shape at_].
  - applen. tred. now rewrite <- ?app_assoc.
  - intros. rewrite app_length. lenfix. applen. tred. useat.
Qed.
Lemma P3_unfold2 t pre n m p f d sz : isP3 t pre n m p f -> d = length pre + 2 -> sz <= p ->
  exists y, unfold d sz t = Ok y /\ isP4 y pre n m (p - sz + 1) sz (fun q i j k l => f q i j (k + l)).
Proof.
  intros H -> Hsz. destruct H as [Hs Hf]. unfold unfold, size, rk. rewrite Hs.
  applen. tred. btrue (sz <=? p). eexists; split; [reflexivity|].
  split; cbn [shape at_].
  - applen. tred. now rewrite <- ?app_assoc.
  - intros. rewrite app_length. lenfix. applen. tred. useat.
Qed.
Lemma P4_flip0 t pre n m p r f d : isP4 t pre n m p r f -> d = length pre + 0 ->
  isP4 (flip d t) pre n m p r (fun q i j k l => f q (n - 1 - i) j k l).
Proof. optac. Qed.
Lemma P4_sel0 t pre n m p r f d x : isP4 t pre n m p r f -> d = length pre + 0 -> x < n ->
  isP3 (sel d x t) pre m p r (fun q j k l => f q x j k l).
Proof. optac.  Qed.
Lemma P4_slice0 t pre n m p r f d lo hi a len : isP4 t pre n m p r f -> d = length pre + 0 ->
  pybound n 0 lo = a -> pybound n n hi - a = len ->
  isP4 (slice d lo hi t) pre len m p r (fun q i j k l => f q (a + i) j k l).
Proof. pose proof (pybound_le n hi). optac. Qed.
Lemma P4_pad0 t pre n m p r f d a c v : isP4 t pre n m p r f -> d = length pre + 0 ->
  isP4 (pad d a c v t) pre (a + n + c) m p r (fun q i j k l => if (a <=? i) && (i <? a + n) then f q (i - a) j k l else v).
Proof. optac. Qed.
Lemma P4_flip1 t pre n m p r f d : isP4 t pre n m p r f -> d = length pre + 1 ->
  isP4 (flip d t) pre n m p r (fun q i j k l => f q i (m - 1 - j) k l).
Proof. optac. Qed.
Lemma P4_sel1 t pre n m p r f d x : isP4 t pre n m p r f -> d = length pre + 1 -> x < m ->
  isP3 (sel d x t) pre n p r (fun q i k l => f q i x k l).
Proof. optac.  Qed.
Lemma P4_slice1 t pre n m p r f d lo hi a len : isP4 t pre n m p r f -> d = length pre + 1 ->
  pybound m 0 lo = a -> pybound m m hi - a = len ->
  isP4 (slice d lo hi t) pre n len p r (fun q i j k l => f q i (a + j) k l).
Proof. pose proof (pybound_le m hi). optac. Qed.
Lemma P4_pad1 t pre n m p r f d a c v : isP4 t pre n m p r f -> d = length pre + 1 ->
  isP4 (pad d a c v t) pre n (a + m + c) p r (fun q i j k l => if (a <=? j) && (j <? a + m) then f q i (j - a) k l else v).
Proof. optac. Qed.
Lemma P4_flip2 t pre n m p r f d : isP4 t pre n m p r f -> d = length pre + 2 ->
  isP4 (flip d t) pre n m p r (fun q i j k l => f q i j (p - 1 - k) l).
Proof. optac. Qed.
Lemma P4_sel2 t pre n m p r f d x : isP4 t pre n m p r f -> d = length pre + 2 -> x < p ->
  isP3 (sel d x t) pre n m r (fun q i j l => f q i j x l).
Proof. optac.  Qed.
Lemma P4_slice2 t pre n m p r f d lo hi a len : isP4 t pre n m p r f -> d = length pre + 2 ->
  pybound p 0 lo = a -> pybound p p hi - a = len ->
  isP4 (slice d lo hi t) pre n m len r (fun q i j k l => f q i j (a + k) l).
Proof. pose proof (pybound_le p hi). optac. Qed.
Lemma P4_pad2 t pre n m p r f d a c v : isP4 t pre n m p r f -> d = length pre + 2 ->
  isP4 (pad d a c v t) pre n m (a + p + c) r (fun q i j k l => if (a <=? k) && (k <? a + p) then f q i j (k - a) l else v).
Proof. optac. Qed.
Lemma P4_flip3 t pre n m p r f d : isP4 t pre n m p r f -> d = length pre + 3 ->
  isP4 (flip d t) pre n m p r (fun q i j k l => f q i j k (r - 1 - l)).
Proof. optac. Qed.
Lemma P4_sel3 t pre n m p r f d x : isP4 t pre n m p r f -> d = length pre + 3 -> x < r ->
  isP3 (sel d x t) pre n m p (fun q i j k => f q i j k x).
Proof. optac.  Qed.
Lemma P4_slice3 t pre n m p r f d lo hi a len : isP4 t pre n m p r f -> d = length pre + 3 ->
  pybound r 0 lo = a -> pybound r r hi - a = len ->
  isP4 (slice d lo hi t) pre n m p len (fun q i j k l => f q i j k (a + l)).
Proof. pose proof (pybound_le r hi). optac. Qed.
Lemma P4_pad3 t pre n m p r f d a c v : isP4 t pre n m p r f -> d = length pre + 3 ->
  isP4 (pad d a c v t) pre n m p (a + r + c) (fun q i j k l => if (a <=? l) && (l <? a + r) then f q i j k (l - a) else v).
Proof. optac. Qed.
Lemma P4_map t pre n m p r f (g : A -> A) : isP4 t pre n m p r f ->
  isP4 (tmap g t) pre n m p r (fun q i j k l => g (f q i j k l)).
Proof. optac. f_equal. useat. Qed.
Lemma P4_full pre n m p r (v : A) : isP4 (full (pre ++ [n; m; p; r]) v) pre n m p r (fun q i j k l => v).
Proof. optac. Qed.
Lemma P4_tr01 t pre n m p r f d e : isP4 t pre n m p r f -> d = length pre + 0 -> e = length pre + 1 ->
  isP4 (transpose d e t) pre m n p r (fun q i j k l => f q j i k l).
Proof. unfold transpose, swapl. optac. Qed.
Lemma P4_tr02 t pre n m p r f d e : isP4 t pre n m p r f -> d = length pre + 0 -> e = length pre + 2 ->
  isP4 (transpose d e t) pre p m n r (fun q i j k l => f q k j i l).
Proof. unfold transpose, swapl. optac. Qed.
Lemma P4_tr03 t pre n m p r f d e : isP4 t pre n m p r f -> d = length pre + 0 -> e = length pre + 3 ->
  isP4 (transpose d e t) pre r m p n (fun q i j k l => f q l j k i).
Proof. unfold transpose, swapl. optac. Qed.
Lemma P4_tr12 t pre n m p r f d e : isP4 t pre n m p r f -> d = length pre + 1 -> e = length pre + 2 ->
  isP4 (transpose d e t) pre n p m r (fun q i j k l => f q i k j l).
Proof. unfold transpose, swapl. optac. Qed.
Lemma P4_tr13 t pre n m p r f d e : isP4 t pre n m p r f -> d = length pre + 1 -> e = length pre + 3 ->
  isP4 (transpose d e t) pre n r p m (fun q i j k l => f q i l k j).
Proof. unfold transpose, swapl. optac. Qed.
Lemma P4_tr23 t pre n m p r f d e : isP4 t pre n m p r f -> d = length pre + 2 -> e = length pre + 3 ->
  isP4 (transpose d e t) pre n m r p (fun q i j k l => f q i j l k).
Proof. unfold transpose, swapl. optac. Qed.
Lemma P4_mT t pre n m p r f : isP4 t pre n m p r f ->
  isP4 (mT t) pre n m r p (fun q i j k l => f q i j l k).
Proof. intro H. pose proof H as [Hs _]. unfold mT, rk. rewrite Hs. apply P4_tr23; auto; rewrite app_length; cbn; lia. Qed.
Lemma P4_unsq0 t pre n m p r f d : isP4 t pre n m p r f -> d = length pre + 0 ->
  isP5 (unsqueeze d t) pre 1 n m p r (fun q z i j k l => f q i j k l).
Proof. optac. Qed.
Lemma P4_unsq1 t pre n m p r f d : isP4 t pre n m p r f -> d = length pre + 1 ->
  isP5 (unsqueeze d t) pre n 1 m p r (fun q i z j k l => f q i j k l).
Proof. optac. Qed.
Lemma P4_unsq2 t pre n m p r f d : isP4 t pre n m p r f -> d = length pre + 2 ->
  isP5 (unsqueeze d t) pre n m 1 p r (fun q i j z k l => f q i j k l).
Proof. optac. Qed.
Lemma P4_unsq3 t pre n m p r f d : isP4 t pre n m p r f -> d = length pre + 3 ->
  isP5 (unsqueeze d t) pre n m p 1 r (fun q i j k z l => f q i j k l).
Proof. optac. Qed.
Lemma P4_unsq4 t pre n m p r f d : isP4 t pre n m p r f -> d = length pre + 4 ->
  isP5 (unsqueeze d t) pre n m p r 1 (fun q i j k l z => f q i j k l).
Proof. optac. Qed.
Lemma P4_flat0 t pre n m p r f d e : isP4 t pre n m p r f -> d = length pre + 0 -> e = length pre + 1 ->
  isP3 (flatten d e t) pre (n * m) p r (fun q i j k => f q (i / m) (i mod m) j k).
Proof.
  intros H -> ->. destruct H as [Hs Hf]. unfold flatten. rewrite Hs.
  replace (S (length pre + 1) - (length pre + 0)) with 2 by lia.
  replace (S (length pre + 1)) with (length pre + 2) by lia.
  replace (S (length pre + 0)) with (length pre + 1) by lia.
  applen. tred. split; cbn [shape at_]; [now rewrite <- app_assoc|].
  intros. lenfix. applen. tred. rewrite <- ?app_assoc. cbn [app]. useat.
Qed.
Lemma P4_flat1 t pre n m p r f d e : isP4 t pre n m p r f -> d = length pre + 1 -> e = length pre + 2 ->
  isP3 (flatten d e t) pre n (m * p) r (fun q i j k => f q i (j / p) (j mod p) k).
Proof.
  intros H -> ->. destruct H as [Hs Hf]. unfold flatten. rewrite Hs.
  replace (S (length pre + 2) - (length pre + 1)) with 2 by lia.
  replace (S (length pre + 2)) with (length pre + 3) by lia.
  replace (S (length pre + 1)) with (length pre + 2) by lia.
  applen. tred. split; cbn [shape at_]; [now rewrite <- app_assoc|].
  intros. lenfix. applen. tred. rewrite <- ?app_assoc. cbn [app]. useat.
Qed.
Lemma P4_flat2 t pre n m p r f d e : isP4 t pre n m p r f -> d = length pre + 2 -> e = length pre + 3 ->
  isP3 (flatten d e t) pre n m (p * r) (fun q i j k => f q i j (k / r) (k mod r)).
Proof.
  intros H -> ->. destruct H as [Hs Hf]. unfold flatten. rewrite Hs.
  replace (S (length pre + 3) - (length pre + 2)) with 2 by lia.
  replace (S (length pre + 3)) with (length pre + 4) by lia.
  replace (S (length pre + 2)) with (length pre + 3) by lia.
  applen. tred. split; cbn [shape at_]; [now rewrite <- app_assoc|].
  intros. lenfix. applen. tred. rewrite <- ?app_assoc. cbn [app]. useat.
Qed.
Lemma P4_unflat0 t pre w m p r f d a c : isP4 t pre w m p r f -> d = length pre + 0 -> w = a * c ->
  exists y, unflatten d [a; c] t = Ok y /\ isP5 y pre a c m p r (fun q i j k l o => f q (i * c + j) k l o).
Proof.
  intros H -> ->. destruct H as [Hs Hf]. unfold unflatten, size. rewrite Hs.
  replace (S (length pre + 0)) with (length pre + 1) by lia.
  applen. tred. rewrite Nat.eqb_refl. eexists; split; [reflexivity|].
  split; cbn [shape at_].
  - now rewrite <- ?app_assoc.
  - intros. replace (length pre + 0 + 2) with (length pre + 2) by lia. lenfix. applen. tred.
    rewrite <- ?app_assoc. cbn [app]. useat.
Qed.
Lemma P4_unflat1 t pre n w p r f d a c : isP4 t pre n w p r f -> d = length pre + 1 -> w = a * c ->
  exists y, unflatten d [a; c] t = Ok y /\ isP5 y pre n a c p r (fun q i j k l o => f q i (j * c + k) l o).
Proof.
  intros H -> ->. destruct H as [Hs Hf]. unfold unflatten, size. rewrite Hs.
  replace (S (length pre + 1)) with (length pre + 2) by lia.
  applen. tred. rewrite Nat.eqb_refl. eexists; split; [reflexivity|].
  split; cbn [shape at_].
  - now rewrite <- ?app_assoc.
  - intros. replace (length pre + 1 + 2) with (length pre + 3) by lia. lenfix. applen. tred.
    rewrite <- ?app_assoc. cbn [app]. useat.
Qed.
Lemma P4_unflat2 t pre n m w r f d a c : isP4 t pre n m w r f -> d = length pre + 2 -> w = a * c ->
  exists y, unflatten d [a; c] t = Ok y /\ isP5 y pre n m a c r (fun q i j k l o => f q i j (k * c + l) o).
Proof.
  intros H -> ->. destruct H as [Hs Hf]. unfold unflatten, size. rewrite Hs.
  replace (S (length pre + 2)) with (length pre + 3) by lia.
  applen. tred. rewrite Nat.eqb_refl. eexists; split; [reflexivity|].
  split; cbn [shape at_].
  - now rewrite <- ?app_assoc.
  - intros. replace (length pre + 2 + 2) with (length pre + 4) by lia. lenfix. applen. tred.
    rewrite <- ?app_assoc. cbn [app]. useat.
Qed.
Lemma P4_unflat3 t pre n m p w f d a c : isP4 t pre n m p w f -> d = length pre + 3 -> w = a * c ->
  exists y, unflatten d [a; c] t = Ok y /\ isP5 y pre n m p a c (fun q i j k l o => f q i j k (l * c + o)).
Proof.
  intros H -> ->. destruct H as [Hs Hf]. unfold unflatten, size. rewrite Hs.
  replace (S (length pre + 3)) with (length pre + 4) by lia.
  applen. tred. rewrite Nat.eqb_refl. eexists; split; [reflexivity|].
  split; cbn [shape at_].
  - now rewrite <- ?app_assoc.
  - intros. replace (length pre + 3 + 2) with (length pre + 5) by lia. lenfix. applen. tred.
    rewrite <- ?app_assoc. cbn [app]. useat.
Qed.
Lemma P4_cat0 t u pre a c m p r f g d : isP4 t pre a m p r f -> isP4 u pre c m p r g -> d = length pre + 0 ->
  exists y, cat d [t; u] = Ok y /\ isP4 y pre (a + c) m p r (fun q i j k l => if i <? a then f q i j k l else g q (i - a) j k l).
Proof. cattac. Qed.
Lemma P4_cat1 t u pre a c n p r f g d : isP4 t pre n a p r f -> isP4 u pre n c p r g -> d = length pre + 1 ->
  exists y, cat d [t; u] = Ok y /\ isP4 y pre n (a + c) p r (fun q i j k l => if j <? a then f q i j k l else g q i (j - a) k l).
Proof. cattac. Qed.
Lemma P4_cat2 t u pre a c n m r f g d : isP4 t pre n m a r f -> isP4 u pre n m c r g -> d = length pre + 2 ->
  exists y, cat d [t; u] = Ok y /\ isP4 y pre n m (a + c) r (fun q i j k l => if k <? a then f q i j k l else g q i j (k - a) l).
Proof. cattac. Qed.
Lemma P4_cat3 t u pre a c n m p f g d : isP4 t pre n m p a f -> isP4 u pre n m p c g -> d = length pre + 3 ->
  exists y, cat d [t; u] = Ok y /\ isP4 y pre n m p (a + c) (fun q i j k l => if l <? a then f q i j k l else g q i j k (l - a)).
Proof. cattac. Qed.
Lemma P4_unfold0 t pre n m p r f d sz : isP4 t pre n m p r f -> d = length pre + 0 -> sz <= n ->
  exists y, unfold d sz t = Ok y /\ isP5 y pre (n - sz + 1) m p r sz (fun q i j k l o => f q (i + o) j k l).
Proof.
  intros H -> Hsz. destruct H as [Hs Hf]. unfold unfold, size, rk. rewrite Hs.
  applen. tred. btrue (sz <=? n). eexists; split; [reflexivity|].
  split; cbn [shape at_].
  - applen. tred. now rewrite <- ?app_assoc.
  - intros. rewrite app_length. lenfix. applen. tred. useat.
Qed.
Lemma P4_unfold1 t pre n m p r f d sz : isP4 t pre n m p r f -> d = length pre + 1 -> sz <= m ->
  exists y, unfold d sz t = Ok y /\ isP5 y pre n (m - sz + 1) p r sz (fun q i j k l o => f q i (j + o) k l).
Proof.
  intros H -> Hsz. destruct H as [Hs Hf]. unfold unfold, size, rk. rewrite Hs.
  applen. tred. btrue (sz <=? m). eexists; split; [reflexivity|].
  split; cbn [shape at_].
  - applen. tred. now rewrite <- ?app_assoc.
  - intros. rewrite app_length. lenfix. applen. tred. useat.
Qed.
Lemma P4_unfold2 t pre n m p r f d sz : isP4 t pre n m p r f -> d = length pre + 2 -> sz <= p ->
  exists y, unfold d sz t = Ok y /\ isP5 y pre n m (p - sz + 1) r sz (fun q i j k l o => f q i j (k + o) l).
Proof.
  intros H -> Hsz. destruct H as [Hs Hf]. unfold unfold, size, rk. rewrite Hs.
  applen. tred. btrue (sz <=? p). eexists; split; [reflexivity|].
  split; cbn [shape at_].
  - applen. tred. now rewrite <- ?app_assoc.
  - intros. rewrite app_length. lenfix. applen. tred. useat.
Qed.
Lemma P4_unfold3 t pre n m p r f d sz : isP4 t pre n m p r f -> d = length pre + 3 -> sz <= r ->
  exists y, unfold d sz t = Ok y /\ isP5 y pre n m p (r - sz + 1) sz (fun q i j k l o => f q i j k (l + o)).
Proof.
  intros H -> Hsz. destruct H as [Hs Hf]. unfold unfold, size, rk. rewrite Hs.
  applen. tred. btrue (sz <=? r). eexists; split; [reflexivity|].
  split; cbn [shape at_].
  - applen. tred. now rewrite <- ?app_assoc.
  - intros. rewrite app_length. lenfix. applen. tred. useat.
Qed.
Lemma P5_flip0 t pre n m p r s f d : isP5 t pre n m p r s f -> d = length pre + 0 ->
  isP5 (flip d t) pre n m p r s (fun q i j k l o => f q (n - 1 - i) j k l o).
Proof. optac. Qed.
Lemma P5_sel0 t pre n m p r s f d x : isP5 t pre n m p r s f -> d = length pre + 0 -> x < n ->
  isP4 (sel d x t) pre m p r s (fun q j k l o => f q x j k l o).
Proof. optac.  Qed.
Lemma P5_slice0 t pre n m p r s f d lo hi a len : isP5 t pre n m p r s f -> d = length pre + 0 ->
  pybound n 0 lo = a -> pybound n n hi - a = len ->
  isP5 (slice d lo hi t) pre len m p r s (fun q i j k l o => f q (a + i) j k l o).
Proof. pose proof (pybound_le n hi). optac. Qed.
Lemma P5_pad0 t pre n m p r s f d a c v : isP5 t pre n m p r s f -> d = length pre + 0 ->
  isP5 (pad d a c v t) pre (a + n + c) m p r s (fun q i j k l o => if (a <=? i) && (i <? a + n) then f q (i - a) j k l o else v).
Proof. optac. Qed.
Lemma P5_flip1 t pre n m p r s f d : isP5 t pre n m p r s f -> d = length pre + 1 ->
  isP5 (flip d t) pre n m p r s (fun q i j k l o => f q i (m - 1 - j) k l o).
Proof. optac. Qed.
Lemma P5_sel1 t pre n m p r s f d x : isP5 t pre n m p r s f -> d = length pre + 1 -> x < m ->
  isP4 (sel d x t) pre n p r s (fun q i k l o => f q i x k l o).
Proof. optac.  Qed.
Lemma P5_slice1 t pre n m p r s f d lo hi a len : isP5 t pre n m p r s f -> d = length pre + 1 ->
  pybound m 0 lo = a -> pybound m m hi - a = len ->
  isP5 (slice d lo hi t) pre n len p r s (fun q i j k l o => f q i (a + j) k l o).
Proof. pose proof (pybound_le m hi). optac. Qed.
Lemma P5_pad1 t pre n m p r s f d a c v : isP5 t pre n m p r s f -> d = length pre + 1 ->
  isP5 (pad d a c v t) pre n (a + m + c) p r s (fun q i j k l o => if (a <=? j) && (j <? a + m) then f q i (j - a) k l o else v).
Proof. optac. Qed.
Lemma P5_flip2 t pre n m p r s f d : isP5 t pre n m p r s f -> d = length pre + 2 ->
  isP5 (flip d t) pre n m p r s (fun q i j k l o => f q i j (p - 1 - k) l o).
Proof. optac. Qed.
Lemma P5_sel2 t pre n m p r s f d x : isP5 t pre n m p r s f -> d = length pre + 2 -> x < p ->
  isP4 (sel d x t) pre n m r s (fun q i j l o => f q i j x l o).
Proof. optac.  Qed.
Lemma P5_slice2 t pre n m p r s f d lo hi a len : isP5 t pre n m p r s f -> d = length pre + 2 ->
  pybound p 0 lo = a -> pybound p p hi - a = len ->
  isP5 (slice d lo hi t) pre n m len r s (fun q i j k l o => f q i j (a + k) l o).
Proof. pose proof (pybound_le p hi). optac. Qed.
Lemma P5_pad2 t pre n m p r s f d a c v : isP5 t pre n m p r s f -> d = length pre + 2 ->
  isP5 (pad d a c v t) pre n m (a + p + c) r s (fun q i j k l o => if (a <=? k) && (k <? a + p) then f q i j (k - a) l o else v).
Proof. optac. Qed.
Lemma P5_flip3 t pre n m p r s f d : isP5 t pre n m p r s f -> d = length pre + 3 ->
  isP5 (flip d t) pre n m p r s (fun q i j k l o => f q i j k (r - 1 - l) o).
Proof. optac. Qed.
Lemma P5_sel3 t pre n m p r s f d x : isP5 t pre n m p r s f -> d = length pre + 3 -> x < r ->
  isP4 (sel d x t) pre n m p s (fun q i j k o => f q i j k x o).
Proof. optac.  Qed.
Lemma P5_slice3 t pre n m p r s f d lo hi a len : isP5 t pre n m p r s f -> d = length pre + 3 ->
  pybound r 0 lo = a -> pybound r r hi - a = len ->
  isP5 (slice d lo hi t) pre n m p len s (fun q i j k l o => f q i j k (a + l) o).
Proof. pose proof (pybound_le r hi). optac. Qed.
Lemma P5_pad3 t pre n m p r s f d a c v : isP5 t pre n m p r s f -> d = length pre + 3 ->
  isP5 (pad d a c v t) pre n m p (a + r + c) s (fun q i j k l o => if (a <=? l) && (l <? a + r) then f q i j k (l - a) o else v).
Proof. optac. Qed.
Lemma P5_flip4 t pre n m p r s f d : isP5 t pre n m p r s f -> d = length pre + 4 ->
  isP5 (flip d t) pre n m p r s (fun q i j k l o => f q i j k l (s - 1 - o)).
Proof. optac. Qed.
Lemma P5_sel4 t pre n m p r s f d x : isP5 t pre n m p r s f -> d = length pre + 4 -> x < s ->
  isP4 (sel d x t) pre n m p r (fun q i j k l => f q i j k l x).
Proof. optac.  Qed.
Lemma P5_slice4 t pre n m p r s f d lo hi a len : isP5 t pre n m p r s f -> d = length pre + 4 ->
  pybound s 0 lo = a -> pybound s s hi - a = len ->
  isP5 (slice d lo hi t) pre n m p r len (fun q i j k l o => f q i j k l (a + o)).
Proof. pose proof (pybound_le s hi). optac. Qed.
Lemma P5_pad4 t pre n m p r s f d a c v : isP5 t pre n m p r s f -> d = length pre + 4 ->
  isP5 (pad d a c v t) pre n m p r (a + s + c) (fun q i j k l o => if (a <=? o) && (o <? a + s) then f q i j k l (o - a) else v).
Proof. optac. Qed.
Lemma P5_map t pre n m p r s f (g : A -> A) : isP5 t pre n m p r s f ->
  isP5 (tmap g t) pre n m p r s (fun q i j k l o => g (f q i j k l o)).
Proof. optac. f_equal. useat. Qed.
Lemma P5_full pre n m p r s (v : A) : isP5 (full (pre ++ [n; m; p; r; s]) v) pre n m p r s (fun q i j k l o => v).
Proof. optac. Qed.
Lemma P5_tr01 t pre n m p r s f d e : isP5 t pre n m p r s f -> d = length pre + 0 -> e = length pre + 1 ->
  isP5 (transpose d e t) pre m n p r s (fun q i j k l o => f q j i k l o).
Proof. unfold transpose, swapl. optac. Qed.
Lemma P5_tr02 t pre n m p r s f d e : isP5 t pre n m p r s f -> d = length pre + 0 -> e = length pre + 2 ->
  isP5 (transpose d e t) pre p m n r s (fun q i j k l o => f q k j i l o).
Proof. unfold transpose, swapl. optac. Qed.
Lemma P5_tr03 t pre n m p r s f d e : isP5 t pre n m p r s f -> d = length pre + 0 -> e = length pre + 3 ->
  isP5 (transpose d e t) pre r m p n s (fun q i j k l o => f q l j k i o).
Proof. unfold transpose, swapl. optac. Qed.
Lemma P5_tr04 t pre n m p r s f d e : isP5 t pre n m p r s f -> d = length pre + 0 -> e = length pre + 4 ->
  isP5 (transpose d e t) pre s m p r n (fun q i j k l o => f q o j k l i).
Proof. unfold transpose, swapl. optac. Qed.
Lemma P5_tr12 t pre n m p r s f d e : isP5 t pre n m p r s f -> d = length pre + 1 -> e = length pre + 2 ->
  isP5 (transpose d e t) pre n p m r s (fun q i j k l o => f q i k j l o).
Proof. unfold transpose, swapl. optac. Qed.
Lemma P5_tr13 t pre n m p r s f d e : isP5 t pre n m p r s f -> d = length pre + 1 -> e = length pre + 3 ->
  isP5 (transpose d e t) pre n r p m s (fun q i j k l o => f q i l k j o).
Proof. unfold transpose, swapl. optac. Qed.
Lemma P5_tr14 t pre n m p r s f d e : isP5 t pre n m p r s f -> d = length pre + 1 -> e = length pre + 4 ->
  isP5 (transpose d e t) pre n s p r m (fun q i j k l o => f q i o k l j).
Proof. unfold transpose, swapl. optac. Qed.
Lemma P5_tr23 t pre n m p r s f d e : isP5 t pre n m p r s f -> d = length pre + 2 -> e = length pre + 3 ->
  isP5 (transpose d e t) pre n m r p s (fun q i j k l o => f q i j l k o).
Proof. unfold transpose, swapl. optac. Qed.
Lemma P5_tr24 t pre n m p r s f d e : isP5 t pre n m p r s f -> d = length pre + 2 -> e = length pre + 4 ->
  isP5 (transpose d e t) pre n m s r p (fun q i j k l o => f q i j o l k).
Proof. unfold transpose, swapl. optac. Qed.
Lemma P5_tr34 t pre n m p r s f d e : isP5 t pre n m p r s f -> d = length pre + 3 -> e = length pre + 4 ->
  isP5 (transpose d e t) pre n m p s r (fun q i j k l o => f q i j k o l).
Proof. unfold transpose, swapl. optac. Qed.
Lemma P5_mT t pre n m p r s f : isP5 t pre n m p r s f ->
  isP5 (mT t) pre n m p s r (fun q i j k l o => f q i j k o l).
Proof. intro H. pose proof H as [Hs _]. unfold mT, rk. rewrite Hs. apply P5_tr34; auto; rewrite app_length; cbn; lia. Qed.
Lemma P5_flat0 t pre n m p r s f d e : isP5 t pre n m p r s f -> d = length pre + 0 -> e = length pre + 1 ->
  isP4 (flatten d e t) pre (n * m) p r s (fun q i j k l => f q (i / m) (i mod m) j k l).
Proof.
  intros H -> ->. destruct H as [Hs Hf]. unfold flatten. rewrite Hs.
  replace (S (length pre + 1) - (length pre + 0)) with 2 by lia.
  replace (S (length pre + 1)) with (length pre + 2) by lia.
  replace (S (length pre + 0)) with (length pre + 1) by lia.
  applen. tred. split; cbn [shape at_]; [now rewrite <- app_assoc|].
  intros. lenfix. applen. tred. rewrite <- ?app_assoc. cbn [app]. useat.
Qed.
Lemma P5_flat1 t pre n m p r s f d e : isP5 t pre n m p r s f -> d = length pre + 1 -> e = length pre + 2 ->
  isP4 (flatten d e t) pre n (m * p) r s (fun q i j k l => f q i (j / p) (j mod p) k l).
Proof.
  intros H -> ->. destruct H as [Hs Hf]. unfold flatten. rewrite Hs.
  replace (S (length pre + 2) - (length pre + 1)) with 2 by lia.
  replace (S (length pre + 2)) with (length pre + 3) by lia.
  replace (S (length pre + 1)) with (length pre + 2) by lia.
  applen. tred. split; cbn [shape at_]; [now rewrite <- app_assoc|].
  intros. lenfix. applen. tred. rewrite <- ?app_assoc. cbn [app]. useat.
Qed.
Lemma P5_flat2 t pre n m p r s f d e : isP5 t pre n m p r s f -> d = length pre + 2 -> e = length pre + 3 ->
  isP4 (flatten d e t) pre n m (p * r) s (fun q i j k l => f q i j (k / r) (k mod r) l).
Proof.
  intros H -> ->. destruct H as [Hs Hf]. unfold flatten. rewrite Hs.
  replace (S (length pre + 3) - (length pre + 2)) with 2 by lia.
  replace (S (length pre + 3)) with (length pre + 4) by lia.
  replace (S (length pre + 2)) with (length pre + 3) by lia.
  applen. tred. split; cbn [shape at_]; [now rewrite <- app_assoc|].
  intros. lenfix. applen. tred. rewrite <- ?app_assoc. cbn [app]. useat.
Qed.
Lemma P5_flat3 t pre n m p r s f d e : isP5 t pre n m p r s f -> d = length pre + 3 -> e = length pre + 4 ->
  isP4 (flatten d e t) pre n m p (r * s) (fun q i j k l => f q i j k (l / s) (l mod s)).
Proof.
  intros H -> ->. destruct H as [Hs Hf]. unfold flatten. rewrite Hs.
  replace (S (length pre + 4) - (length pre + 3)) with 2 by lia.
  replace (S (length pre + 4)) with (length pre + 5) by lia.
  replace (S (length pre + 3)) with (length pre + 4) by lia.
  applen. tred. split; cbn [shape at_]; [now rewrite <- app_assoc|].
  intros. lenfix. applen. tred. rewrite <- ?app_assoc. cbn [app]. useat.
Qed.
Lemma P5_cat0 t u pre a c m p r s f g d : isP5 t pre a m p r s f -> isP5 u pre c m p r s g -> d = length pre + 0 ->
  exists y, cat d [t; u] = Ok y /\ isP5 y pre (a + c) m p r s (fun q i j k l o => if i <? a then f q i j k l o else g q (i - a) j k l o).
Proof. cattac. Qed.
Lemma P5_cat1 t u pre a c n p r s f g d : isP5 t pre n a p r s f -> isP5 u pre n c p r s g -> d = length pre + 1 ->
  exists y, cat d [t; u] = Ok y /\ isP5 y pre n (a + c) p r s (fun q i j k l o => if j <? a then f q i j k l o else g q i (j - a) k l o).
Proof. cattac. Qed.
Lemma P5_cat2 t u pre a c n m r s f g d : isP5 t pre n m a r s f -> isP5 u pre n m c r s g -> d = length pre + 2 ->
  exists y, cat d [t; u] = Ok y /\ isP5 y pre n m (a + c) r s (fun q i j k l o => if k <? a then f q i j k l o else g q i j (k - a) l o).
Proof. cattac. Qed.
Lemma P5_cat3 t u pre a c n m p s f g d : isP5 t pre n m p a s f -> isP5 u pre n m p c s g -> d = length pre + 3 ->
  exists y, cat d [t; u] = Ok y /\ isP5 y pre n m p (a + c) s (fun q i j k l o => if l <? a then f q i j k l o else g q i j k (l - a) o).
Proof. cattac. Qed.
Lemma P5_cat4 t u pre a c n m p r f g d : isP5 t pre n m p r a f -> isP5 u pre n m p r c g -> d = length pre + 4 ->
  exists y, cat d [t; u] = Ok y /\ isP5 y pre n m p r (a + c) (fun q i j k l o => if o <? a then f q i j k l o else g q i j k l (o - a)).
Proof. cattac. Qed.
End Ops.
