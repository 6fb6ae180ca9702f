(** Consequences of the exact values of P_Bits4.v and P_Bits5.v. *)
From Coq Require Import List Arith Lia ZArith Bool.
From Verif Require Import Scalar Tensor TensorLemmas TensorOps TensorAlg TensorTac TensorList Spec Shapes SpecBits SpecBits2 Algebra M_Mat P_Mat M_Kernels M_LtiSsm M_LpvSsm P_Kernels P_KernelOps P_Helion P_LtiSsm P_Bits P_Bits4 P_Bits5.
Import ListNotations.
Open Scope cr_scope.
Open Scope nat_scope.

Section S.
Variable R : cops.
Notation ten := (tensor (car R)).
(** The shapes say which of the formulas of SpecBits2.v can occur. *)
Definition kinds (M : nat) (G P : option nat) (Bt C D : option ten) (oi : option Z) : Prop :=
  (Bt = None -> G = None \/ G = Some M) /\ (C = None -> (oi = None -> P = Some M) /\ idx_ok M oi) /\
  (forall K D', G = Some K -> D = Some D' -> single G D' = true -> P = Some K).
Lemma single_2 G (t : ten) a b l : shape t = a :: b :: l -> single G t = false.
Proof. intro H. unfold single. now rewrite H. Qed.
Lemma sysv_kinds B N M G P A Bt C D oi Af Bm Cm Dm : sysv (R := R) B N M G P A Bt C D oi Af Bm Cm Dm -> kinds M G P Bt C D oi.
Proof.
  intros (_ & HB & HC & HD). split; [|split].
  - intros ->. remember (@None ten) as t eqn:E in HB. destruct HB; try discriminate; auto.
  - intros ->. remember (@None ten) as t eqn:E in HC. destruct HC; try discriminate; split; auto; try discriminate; cbn [idx_ok]; eauto.
  - intros K D' -> -> Hs. remember (Some D') as t eqn:E in HD. remember (Some K) as G eqn:EG in HD.
    destruct HD; try discriminate; injection EG as ->; injection E as ->; try reflexivity; exfalso;
      match goal with H : is1 _ _ _ |- _ => rewrite (single_true R _ _ _ H) in Hs | H : _ |- _ => rewrite (single_2 _ _ _ _ _ (proj1 H)) in Hs end; discriminate.
Qed.
Lemma h_at_ext M G P (Bt C D Bt' C' D' : option ten) oi a bm z x a' bm' z' x' n i : kinds M G P Bt C D oi -> alike G Bt C D Bt' C' D' -> i < M ->
  (forall k i j, k < n -> i < M -> j < M -> a k i j = a' k i j) -> (forall k i j, k < n -> i < M -> j < width G -> bm k i j = bm' k i j) ->
  (forall i, i < M -> z i = z' i) -> (forall k j, k < n -> j < width G -> x k j = x' k j) ->
  h_at M G Bt a bm z x n i = h_at M G Bt' a' bm' z' x' n i.
Proof.
  intros (KB & _) (EB & _) Hi Ha Hb Hz Hx. unfold h_at. apply vstate_ext; auto. rewrite <- EB. intros k m Hk Hm. unfold in_at.
  destruct Bt as [Bt|]; cbn [hasb].
  - destruct G as [K|]; cbn [width] in *.
    + apply bsum_ext. intros j Hj. f_equal; auto.
    + f_equal; auto.
  - destruct (KB eq_refl) as [-> | ->]; cbn [width] in *; [destruct (m =? 0)|]; auto.
Qed.
Lemma y_at_ext M G P (Bt C D Bt' C' D' : option ten) oi a bm c d z x a' bm' c' d' z' x' n p : kinds M G P Bt C D oi -> alike G Bt C D Bt' C' D' -> p < width P ->
  (forall k i j, k < n -> i < M -> j < M -> a k i j = a' k i j) -> (forall k i j, k < n -> i < M -> j < width G -> bm k i j = bm' k i j) ->
  (forall i j, i < width P -> j < M -> c n i j = c' n i j) -> (forall i j, i < width P -> j < width G -> d n i j = d' n i j) ->
  (forall i, i < M -> z i = z' i) -> (forall k j, k <= n -> j < width G -> x k j = x' k j) ->
  y_at M G Bt C D oi a bm c d z x n p = y_at M G Bt' C' D' oi a' bm' c' d' z' x' n p.
Proof.
  intros HK HL Hp Ha Hb Hc Hd Hz Hx.
  assert (E1 : out_at M oi (hasb C) (c n) (h_at M G Bt a bm z x n) p = out_at M oi (hasb C') (c' n) (h_at M G Bt' a' bm' z' x' n) p).
  { assert (Hh : forall i, i < M -> h_at M G Bt a bm z x n i = h_at M G Bt' a' bm' z' x' n i).
    { intros i Hi. eapply h_at_ext; try eassumption. intros. apply Hx; auto. lia. }
    destruct HK as (_ & KC & _), HL as (_ & EC & _). rewrite <- EC. unfold out_at. destruct C as [C|]; cbn [hasb].
    - apply bsum_ext. intros j Hj. f_equal; auto.
    - destruct (KC eq_refl) as [KC1 KC2]. destruct oi as [i|].
      + destruct KC2 as (k & Hk). rewrite Hk. apply Hh. now apply pyidx_lt in Hk.
      + specialize (KC1 eq_refl). subst P. apply Hh. exact Hp. }
  unfold y_at. rewrite E1. destruct HK as (_ & _ & KD), HL as (_ & _ & ED). destruct D as [D|], D' as [D'|]; try contradiction; [|reflexivity].
  f_equal. rewrite <- ED. unfold feed_at. destruct G as [K|]; cbn [width] in *.
  - destruct (single (Some K) D) eqn:Es.
    + specialize (KD K D eq_refl eq_refl Es). subst P. cbn [width] in *. f_equal; auto.
    + apply bsum_ext. intros k Hk. f_equal; auto.
  - f_equal; auto.
Qed.
Lemma y_at_add M G (Bt C D : option ten) oi a bm c d z x m n p :
  y_at M G Bt C D oi a bm c d z x (m + n) p =
  y_at M G Bt C D oi (fun k => a (m + k)) (fun k => bm (m + k)) (fun k => c (m + k)) (fun k => d (m + k)) (h_at M G Bt a bm z x m) (fun k => x (m + k)) n p.
Proof. unfold y_at, h_at. now rewrite vstate_add. Qed.
Lemma h_at_add M G (Bt : option ten) a bm z x m n :
  h_at M G Bt a bm z x (m + n) = h_at M G Bt (fun k => a (m + k)) (fun k => bm (m + k)) (h_at M G Bt a bm z x m) (fun k => x (m + k)) n.
Proof. unfold h_at. now rewrite vstate_add. Qed.
End S.
