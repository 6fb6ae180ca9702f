(** Exactly what matrices_cumdot computes, for every length. *)
From Coq Require Import List Arith Lia ZArith Bool Ring.
From Verif Require Import Scalar Tensor TensorLemmas TensorOps TensorAlg TensorTac TensorList Spec Algebra M_Mat P_Mat.
Import ListNotations.

Lemma removelast_snoc {A} (l : list A) x : removelast (l ++ [x]) = l.
Proof. now rewrite removelast_app, app_nil_r by discriminate. Qed.

Lemma prod_cons x l : prod (x :: l) = x * prod l.
Proof. cbn [prod]. destruct l; cbn [prod]; lia. Qed.
Lemma ravel_cons x s i idx : length idx = length s -> ravel (x :: s) (i :: idx) = i * prod s + ravel s idx.
Proof. destruct s, idx; cbn [length]; intro; try lia; cbn [ravel prod]; lia. Qed.
Lemma prod_app l l' : prod (l ++ l') = prod l * prod l'.
Proof. induction l as [|x l IH]; cbn [app]; [cbn; lia|]. rewrite !prod_cons, IH. lia. Qed.
Lemma ravel_snoc l a : forall i c, length i = length l -> ravel (l ++ [a]) (i ++ [c]) = ravel l i * a + c.
Proof.
  induction l as [|x l IH]; intros [|y i] c H; try discriminate; [reflexivity|].
  cbn [app]. cbn [length] in H. rewrite !ravel_cons by (rewrite ?app_length; cbn [length]; lia).
  rewrite IH, prod_app by lia. rewrite !prod_cons. cbn [prod]. lia.
Qed.
Lemma unravel_len s : forall k, length (unravel s k) = length s.
Proof.
  induction s as [|x s IH]; intro k; [reflexivity|]. cbn [unravel]. destruct s; [reflexivity|]. cbn [length]. now rewrite IH.
Qed.
Lemma ravel_unravel s : s <> [] -> forall k, ravel s (unravel s k) = k.
Proof.
  induction s as [|x s IH]; intros Hs k; [congruence|]. cbn [unravel]. destruct s as [|y s]; [reflexivity|].
  rewrite ravel_cons by apply unravel_len. rewrite IH by discriminate.
  destruct (Nat.eq_dec (prod (y :: s)) 0) as [E|E].
  - rewrite E. cbn. lia.
  - pose proof (Nat.div_mod k (prod (y :: s)) E). lia.
Qed.
Lemma vld_unravel s : forall k, (k < prod s) -> vld s (unravel s k).
Proof.
  induction s as [|x s IH]; intros k Hk; [constructor|]. cbn [unravel]. destruct s as [|y s].
  - constructor; [cbn in Hk; lia|constructor].
  - rewrite prod_cons in Hk.
    assert (prod (y :: s) <> 0) by (intro E; rewrite E in Hk; lia).
    constructor; [apply Nat.div_lt_upper_bound; lia|]. apply IH. now apply Nat.mod_upper_bound.
Qed.

(** ** Trial division *)
Lemma fact_aux_ge2 fuel d n : 2 <= d -> 1 <= n -> (fuel = 0 -> 2 <= n) -> Forall (fun x => 2 <= x) (fact_aux fuel d n).
Proof.
  revert d n. induction fuel as [|f IH]; intros d n Hd Hn H0; cbn [fact_aux]; [repeat constructor; lia|].
  destruct (n <? 2) eqn:E1; b2p; [constructor|].
  destruct (n <? d * d) eqn:E2; b2p; [repeat constructor; lia|].
  destruct (n mod d =? 0) eqn:E3; b2p; [|apply IH; lia].
  assert (d <= n / d) by (apply Nat.div_le_lower_bound; nia).
  constructor; [lia|]. apply IH; lia.
Qed.
Lemma factorint_ge2 n : 2 <= n -> Forall (fun x => 2 <= x) (factorint n).
Proof. intro. apply fact_aux_ge2; lia. Qed.
Lemma mod_0_div a b : b <> 0 -> a mod b = 0 -> exists c, a = b * c.
Proof. intros H E. exists (a / b). now apply Nat.div_exact. Qed.
Lemma fact_aux_primes fuel : forall d n, 2 <= d -> 2 <= n -> n + 2 <= fuel + d ->
  (forall e, 2 <= e < d -> n mod e <> 0) -> Forall is_prime (fact_aux fuel d n).
Proof.
  assert (Hsq : forall d n, 2 <= n -> n < d * d -> (forall e, 2 <= e < d -> n mod e <> 0) -> is_prime n).
  { intros d n Hn Hd He. split; [exact Hn|]. intros e Hen E.
    destruct (Nat.lt_ge_cases e d) as [H|H]; [apply (He e); [lia|exact E]|].
    destruct (mod_0_div n e ltac:(lia) E) as (c & Ec).
    apply (He c); [split; [|nia]; destruct c as [|[|c]]; [lia|nia|lia]|]. rewrite Ec. apply Nat.mod_mul. destruct c; lia. }
  induction fuel as [|f IH]; intros d n Hd Hn Hf He; cbn [fact_aux].
  - constructor; [|constructor]. apply (Hsq d); auto. nia.
  - bfalse (n <? 2). destruct (n <? d * d) eqn:E2; b2p; [constructor; [|constructor]; now apply (Hsq d)|].
    destruct (n mod d =? 0) eqn:E3; b2p.
    + destruct (mod_0_div n d ltac:(lia) E3) as (c & Ec).
      assert (n / d = c) as -> by (rewrite Ec, Nat.mul_comm; apply Nat.div_mul; lia).
      constructor.
      * split; [lia|]. intros e Hed E. destruct (mod_0_div d e ltac:(lia) E) as (c' & Ec').
        apply (He e); [lia|]. rewrite Ec, Ec', <- Nat.mul_assoc, Nat.mul_comm. apply Nat.mod_mul. lia.
      * apply IH; [lia|nia|nia|]. intros e Hed E. destruct (mod_0_div c e ltac:(lia) E) as (c' & Ec').
        apply (He e); [lia|]. rewrite Ec, Ec', Nat.mul_comm, <- Nat.mul_assoc, Nat.mul_comm. apply Nat.mod_mul. lia.
    + apply IH; [lia|lia|lia|]. intros e Hed. destruct (Nat.eq_dec e d) as [->|]; [exact E3|]. apply He. lia.
Qed.
Lemma factorint_primes n : 2 <= n -> Forall is_prime (factorint n).
Proof. intro H. apply fact_aux_primes; try lia. Qed.
(** Composite lengths have at least two factors. *)
Lemma factorint_composite n : 2 <= n -> ~ is_prime n -> exists p g ds, factorint n = p :: g :: ds.
Proof.
  intros H Hp. pose proof (factorint_prod n ltac:(lia)) as HP. pose proof (factorint_primes n H) as HF.
  destruct (factorint n) as [|p [|g ds]]; cbn [lprod fold_right] in HP; [lia| |eauto].
  exfalso. apply Hp. rewrite Nat.mul_1_r in HP. subst n. now inversion HF.
Qed.
Lemma prime_div_mul p a b : is_prime p -> (a * b) mod p = 0 -> a mod p = 0 \/ b mod p = 0.
Proof.
  intros [H2 Hp] E. destruct (Nat.eq_dec (a mod p) 0) as [|Ha]; [auto|right].
  apply Nat.mod_divide; [lia|]. apply (Nat.gauss p a).
  - apply Nat.mod_divide; [lia|exact E].
  - pose proof (Nat.gcd_divide_l p a) as Hl. pose proof (Nat.gcd_divide_r p a) as Hr.
    set (d := Nat.gcd p a) in *. destruct (Nat.eq_dec d 1) as [|Hd]; [assumption|exfalso].
    destruct Hl as (c & Hc). assert (d <> 0) by (intros ->; lia).
    destruct (Nat.eq_dec d p) as [Edp|Hdp].
    + apply Ha. apply Nat.mod_divide; [lia|]. now rewrite <- Edp.
    + apply (Hp d); [split; [lia|]; assert (c <> 0) by (intros ->; lia); nia|].
      rewrite Hc. apply Nat.mod_mul. assumption.
Qed.
(** With at most two prime factors n is not a product of three numbers above 1. *)
Lemma two_primes_no_three p q a b c : is_prime p -> is_prime q -> p * q = a * b * c -> 2 <= a -> 2 <= b -> 2 <= c -> False.
Proof.
  intros Hp Hq E Ha Hb Hc. pose proof Hp as [P2 _]. pose proof Hq as [Q2 Hqd].
  assert (G : forall x y z, p * q = x * y * z -> 2 <= x -> 2 <= y -> 2 <= z -> x mod p = 0 -> False).
  { intros x y z Exyz Hx Hy Hz Em. destruct (mod_0_div x p ltac:(lia) Em) as (w & ->).
    assert (Eq : q = w * y * z) by (apply (Nat.mul_cancel_l _ _ p); [lia|]; rewrite Exyz; ring). assert (w <> 0) by (intros ->; lia).
    apply (Hqd y); [split; [lia|]; rewrite Eq; assert (1 * y * 2 <= w * y * z) by (repeat apply Nat.mul_le_mono; lia); lia|]. rewrite Eq. replace (w * y * z) with (w * z * y) by lia. apply Nat.mod_mul. lia. }
  assert (E0 : (a * b * c) mod p = 0) by (rewrite <- E, Nat.mul_comm; apply Nat.mod_mul; lia).
  apply (prime_div_mul p) in E0 as [E0|E0]; [apply (prime_div_mul p) in E0 as [E0|E0]| |]; auto.
  - now apply (G a b c).
  - apply (G b a c); auto. lia.
  - apply (G c b a); auto. lia.
Qed.

Section S.
Variable R : cring.
Add Ring Rr : (r_th R).
Notation ten := (tensor (car R)).
Open Scope cr_scope.

(** The runner on a tensor whose product dimensions are [rev ds ++ [n]]. *)
Fixpoint rc (M : nat) (ds : list nat) (n : nat) (F : list nat -> nat -> nat -> nat -> R) (q : list nat) (r : nat)
  : nat -> nat -> R :=
  match ds with
  | [] => mprod M (F q) (S r)
  | g :: ds' =>
      let H := rc M ds' g (fun q' c' => mprod M (F (q' ++ [c'])) n) (removelast q) in
      let c := last q 0%nat in
      if (c =? 0)%nat then mprod M (F q) (S r)
      else if (r =? n - 1)%nat then H c else mmul M (mprod M (F q) (S r)) (H (c - 1)%nat)
  end.

Lemma runner_exact ds : forall fuel lead n M (A : ten) F,
  (length ds < fuel)%nat -> Forall (fun x => (1 <= x)%nat) ds -> (1 <= n)%nat ->
  isP3 A (lead ++ rev ds) n M M F ->
  exists y, mat_cumdot_runner fuel A (length lead) = Ok y /\ isP3 y (lead ++ rev ds) n M M (rc M ds n F).
Proof.
  induction ds as [|g ds IH]; intros fuel lead n M A F Hf HF Hn HA; (destruct fuel as [|fuel]; [cbn in Hf; lia|]).
  - cbn [mat_cumdot_runner rev] in *. rewrite app_nil_r in *. rewrite (P3_rk _ _ _ _ _ _ HA).
    destruct (accum_unbind R A lead n M F (length lead + 3 - 3) HA ltac:(lia) Hn) as (l & -> & Hl & Hv). cbn [bind].
    destruct (stack_P2 l lead M M (fun j q => mprod M (F q) (S j)) (length lead + 3 - 3)) as (acc & -> & Hacc).
    { destruct l; cbn in Hl; [lia|congruence]. }
    { lia. }
    { intros dd j Hj. apply Hv. lia. }
    cbn [bind]. rewrite Nat.eqb_refl. exists acc. split; [reflexivity|]. rewrite Hl in Hacc. exact Hacc.
  - cbn [rev] in *. rewrite app_assoc in *. set (pre := lead ++ rev ds) in *.
    apply Forall_cons_iff in HF as [Hg HF].
    cbn [mat_cumdot_runner].
    destruct (accum_unbind R A (pre ++ [g]) n M F (rk A - 3) HA ltac:(rewrite (P3_rk _ _ _ _ _ _ HA); lia) Hn) as (l & -> & Hl & Hv). cbn [bind].
    destruct (stack_P2 l (pre ++ [g]) M M (fun j q => mprod M (F q) (S j)) (rk A - 3)) as (acc & -> & Hacc).
    { destruct l; cbn in Hl; [lia|congruence]. }
    { rewrite (P3_rk _ _ _ _ _ _ HA). lia. }
    { intros dd j Hj. apply Hv. lia. }
    cbn [bind]. rewrite Hl in Hacc.
    assert ((rk A =? length lead + 3)%nat = false) as ->.
    { apply Nat.eqb_neq. rewrite (P3_rk _ _ _ _ _ _ HA). unfold pre. rewrite !app_length. cbn [length]. lia. }
    apply pop3 in Hacc. clear Hv Hl l HA A.
    rewrite (select_ok acc (rk acc - 3) (-1)%Z (n - 1)).
    2: { unfold size. rewrite (proj1 Hacc), (nth_pre _ _ _ 1) by dimt. cbn [nth]. rewrite pyidx_m1 by lia. reflexivity. }
    cbn [bind]. nm (sel (rk acc - 3) (n - 1) acc).
    destruct (IH fuel lead g M v _ ltac:(cbn in Hf; lia) HF Hg H) as (hi & -> & Hhi). cbn [bind]. fold pre in Hhi.
    sx. replace (n - 1 + 1)%nat with n in H8 by lia. cat2.
    eexists; split; [reflexivity|].
    match goal with H : isP4 w1 _ _ _ _ _ _ |- _ => rename H into HW end.
    assert (HW' : isP4 w1 pre g n M M (fun q c r => rc M (g :: ds) n F (q ++ [c]) r)).
    { fin HW; [lia|lia|reflexivity|reflexivity|]. intros q c r i j Hq Hc Hr Hi Hj.
      cbn [rc]. rewrite last_last, removelast_snoc.
      destruct (c <? 1)%nat eqn:E1; b2p.
      - replace c with 0%nat by lia. reflexivity.
      - bfalse (c =? 0)%nat. destruct (r <? n - 1)%nat eqn:E2; b2p.
        + bfalse (r =? n - 1)%nat. unfold mmul. rewrite ?bi_lt by lia. apply bsum_ext. intros l Hl.
          replace (1 + (c - 1))%nat with c by lia. rewrite ?Nat.add_0_l.
          replace (S (n - 1)) with n by lia. reflexivity.
        + btrue (r =? n - 1)%nat. replace (1 + (c - 1))%nat with c by lia. replace (S (n - 1)) with n by lia. reflexivity. }
    apply push3 in HW'. eapply isP3_ext; [exact HW'|].
    intros q r i j Hq Hr Hi Hj. apply vld_snoc_inv in Hq as (q' & c & -> & Hq & Hc & E1 & E2). cbv beta. now rewrite E1, E2.
Qed.

Lemma mprod_ext M (f g : nat -> nat -> nat -> R) n i j :
  (forall k i j, (k < n)%nat -> (i < M)%nat -> (j < M)%nat -> f k i j = g k i j) ->
  (i < M)%nat -> (j < M)%nat -> mprod M f n i j = mprod M g n i j.
Proof.
  revert i j. induction n as [|n IH]; intros i j H Hi Hj; [reflexivity|]. cbn [mprod].
  apply mmul_ext; intros; [apply IH; auto|apply H; auto].
Qed.

(** The same on positions: [n] is the innermost (smallest) factor, [ds] the others. *)
Fixpoint cumd (M n : nat) (ds : list nat) (f : nat -> nat -> nat -> R) (k : nat) : nat -> nat -> R :=
  match ds with
  | [] => mprod M f (S k)
  | g :: ds' =>
      let q := (k / n)%nat in let r := (k mod n)%nat in
      let H := cumd M g ds' (fun q => mprod M (fun j => f (q * n + j)%nat) n) in
      let acc := mprod M (fun j => f (q * n + j)%nat) (S r) in
      if (q mod g =? 0)%nat then acc
      else if (r =? n - 1)%nat then H q else mmul M acc (H (q - 1)%nat)
  end.
Lemma rc_flat M ds : forall n (f : nat -> nat -> nat -> R) q0 F,
  (forall q r i j, length q = length ds -> (i < M)%nat -> (j < M)%nat -> F (q0 ++ q) r i j = f (ravel (rev ds) q * n + r)%nat i j) ->
  forall q r i j, vld (rev ds) q -> (r < n)%nat -> (i < M)%nat -> (j < M)%nat ->
  rc M ds n F (q0 ++ q) r i j = cumd M n ds f (ravel (rev ds) q * n + r)%nat i j.
Proof.
  induction ds as [|g ds IH]; intros n f q0 F HF q r i j Hq Hr Hi Hj.
  - cbn [rc cumd rev] in *. apply vld_nil_inv in Hq as ->. cbn [ravel Nat.mul Nat.add].
    apply mprod_ext; auto. intros k a b Hk Ha Hb. now rewrite HF.
  - cbn [rev] in *. apply vld_snoc_inv in Hq as (q' & c & -> & Hq & Hc & E1 & E2).
    pose proof (vld_len _ _ Hq) as Hl. rewrite rev_length in Hl.
    cbn [rc cumd]. rewrite app_assoc, last_last, removelast_snoc.
    rewrite ravel_snoc by (now apply vld_len). set (Q := ravel (rev ds) q') in *.
    assert (((Q * g + c) * n + r) / n = Q * g + c)%nat as -> by (rewrite Nat.div_add_l, (Nat.div_small r) by lia; lia).
    assert (((Q * g + c) * n + r) mod n = r)%nat as -> by (rewrite Nat.add_comm, Nat.mod_add, Nat.mod_small by lia; reflexivity).
    assert ((Q * g + c) mod g = c)%nat as -> by (rewrite Nat.add_comm, Nat.mod_add, Nat.mod_small by lia; reflexivity).
    assert (Hacc : forall s a b, (a < M)%nat -> (b < M)%nat ->
      mprod M (F ((q0 ++ q') ++ [c])) s a b = mprod M (fun j0 => f ((Q * g + c) * n + j0)%nat) s a b).
    { intros s a b Ha Hb. apply mprod_ext; auto. intros k a' b' Hk Ha' Hb'.
      rewrite <- app_assoc, HF by (auto; rewrite app_length; cbn [length]; lia).
      now rewrite ravel_snoc by (now rewrite rev_length). }
    assert (HH : forall c' a b, (c' < g)%nat -> (a < M)%nat -> (b < M)%nat ->
      rc M ds g (fun q'0 c'0 => mprod M (F (q'0 ++ [c'0])) n) (q0 ++ q') c' a b =
      cumd M g ds (fun q => mprod M (fun j0 => f (q * n + j0)%nat) n) (Q * g + c')%nat a b).
    { intros c' a b Hc' Ha Hb. apply IH; auto. intros q s a' b' Hlq Ha' Hb'. apply mprod_ext; auto.
      intros k a1 b1 Hk Ha1 Hb1. rewrite <- app_assoc, HF by (auto; rewrite app_length; cbn [length]; lia).
      now rewrite ravel_snoc by (now rewrite rev_length). }
    destruct (c =? 0)%nat eqn:Ec; [now apply Hacc|]. b2p.
    destruct (r =? n - 1)%nat; [now apply HH|]. apply mmul_ext; intros; [now apply Hacc|].
    rewrite HH by lia. f_equal. lia.
Qed.

Lemma lprod_prod_rev l : prod (rev l) = lprod l.
Proof. induction l as [|x l IH]; [reflexivity|]. cbn [rev]. rewrite prod_app, IH. cbn [prod lprod fold_right]. fold (lprod l). lia. Qed.

Theorem cumdot_exact (A : ten) pre n M f p ds :
  isP3 A pre n M M f -> (2 <= n)%nat -> factorint n = p :: ds ->
  exists y, matrices_cumdot A = Ok y /\ isP3 y pre n M M (fun q k => cumd M p ds (f q) k).
Proof.
  intros HA Hn Hfac. unfold matrices_cumdot, sizen.
  assert (Hrk := P3_rk _ _ _ _ _ _ HA). pose proof HA as [Hs Hv].
  rewrite Hs, Hrk. btrue (3 <=? length pre + 3).
  rewrite !(nth_pre _ _ (length pre + 3 - 2) 1), !(nth_pre _ _ (length pre + 3 - 1) 2),
    !(nth_pre _ _ (length pre + 3 - 3) 0) by lia.
  cbn [nth]. rewrite Nat.eqb_refl. bfalse (n =? 1)%nat. rewrite Hfac. cbn [rev].
  pose proof (factorint_ge n ltac:(lia)) as HG. rewrite Hfac in HG. apply Forall_cons_iff in HG as [Hp HG].
  pose proof (factorint_prod n ltac:(lia)) as HP. rewrite Hfac in HP. cbn [lprod fold_right] in HP. fold (lprod ds) in HP.
  set (sz := rev ds ++ [p]).
  assert (Hsz : prod sz = n) by (unfold sz; rewrite prod_app, lprod_prod_rev; cbn [prod]; lia).
  assert (Hlen : length sz = S (length ds)) by (unfold sz; rewrite app_length, rev_length; cbn [length]; lia).
  replace (length pre + 3 - 3)%nat with (length pre) by lia.
  unfold unflatten, size. rewrite Hs, (nth_pre _ _ (length pre) 0) by lia. cbn [nth]. rewrite Hsz, Nat.eqb_refl. cbn [bind].
  set (u := mkT _ _).
  set (F := fun (Q : list nat) (r : nat) => f (firstn (length pre) Q) (ravel (rev ds) (skipn (length pre) Q) * p + r)%nat).
  assert (Hu : isP3 u (pre ++ rev ds) p M M F).
  { split; cbn [u shape at_].
    - rewrite firstn_app, Nat.sub_diag, firstn_all, firstn_O, app_nil_r.
      replace (S (length pre)) with (length pre + 1)%nat by lia. rewrite skipn_app, (skipn_all2 pre) by lia.
      replace (length pre + 1 - length pre)%nat with 1%nat by lia. cbn [app skipn]. unfold sz. now rewrite <- !app_assoc.
    - intros q r i j Hq Hr Hi Hj. apply Forall2_app_inv_r in Hq as (q1 & q2 & Hq1 & Hq2 & ->).
      pose proof (vld_len _ _ Hq1) as L1. pose proof (vld_len _ _ Hq2) as L2. rewrite rev_length in L2.
      unfold F. rewrite <- L1, <- !app_assoc. rewrite !firstn_app, !Nat.sub_diag, !firstn_all, !firstn_O, !app_nil_r.
      rewrite !skipn_app, !skipn_all, !Nat.sub_diag. cbn [app]. rewrite !skipn_O.
      rewrite Hlen. rewrite firstn_app, (firstn_all2 q2) by lia. replace (S (length ds) - length q2)%nat with 1%nat by lia.
      cbn [firstn]. rewrite skipn_all2 by lia.
      replace (length q1 + S (length ds) - length q1 )%nat with (length q2 + 1)%nat by lia.
      rewrite (skipn_all2 q2) by lia. replace (length q2 + 1 - length q2)%nat with 1%nat by lia. cbn [skipn app].
      unfold sz. rewrite ravel_snoc by (rewrite rev_length; lia). apply Hv; auto.
      assert (ravel (rev ds) q2 < lprod ds)%nat; [|nia].
      rewrite <- lprod_prod_rev. clear - Hq2. induction Hq2 as [|x m xs ms Hx H IH]; [cbn; lia|].
      rewrite ravel_cons by (now apply vld_len). rewrite prod_cons. nia. }
  assert (Hur : rk u = (S (length ds) + length pre + 2)%nat).
  { rewrite (P3_rk _ _ _ _ _ _ Hu), app_length, rev_length. lia. }
  destruct (runner_exact ds (rk u) pre p M u F ltac:(lia) HG Hp Hu) as (y & -> & Hy). cbn [bind].
  eexists; split; [reflexivity|].
  assert (rk y - 3 = length pre + length ds)%nat as -> by (rewrite (P3_rk _ _ _ _ _ _ Hy), app_length, rev_length; lia).
  clearbody u. destruct Hy as [Ys Yv]. unfold flatten. rewrite Ys. rewrite <- app_assoc.
  rewrite firstn_app, Nat.sub_diag, firstn_all, firstn_O, app_nil_r.
  rewrite skipn_app, skipn_all, Nat.sub_diag, skipn_O. cbn [app].
  assert (EM : firstn (S (length pre + length ds) - length pre) (rev ds ++ [p; M; M]) = sz).
  { replace (S (length pre + length ds) - length pre)%nat with (S (length ds)) by lia. 
    change [p; M; M] with ([p] ++ [M; M]). rewrite app_assoc. fold sz. rewrite <- Hlen, firstn_app, Nat.sub_diag, firstn_all. apply app_nil_r. }
  rewrite EM, Hsz.
  assert (ES : skipn (S (length pre + length ds)) (pre ++ rev ds ++ [p; M; M]) = [M; M]).
  { change [p; M; M] with ([p] ++ [M; M]). rewrite (app_assoc (rev ds)). fold sz. rewrite app_assoc.
    replace (S (length pre + length ds)) with (length (pre ++ sz)) by (rewrite app_length; lia).
    now rewrite skipn_app, skipn_all, Nat.sub_diag. }
  rewrite ES. split; cbn [shape at_]; [reflexivity|]. intros q k i j Hq Hk Hi Hj.
  pose proof (vld_len _ _ Hq) as L1. rewrite <- L1.
  rewrite firstn_app, Nat.sub_diag, firstn_all, firstn_O, app_nil_r.
  rewrite app_nth2, Nat.sub_diag by lia. cbn [nth].
  replace (S (length q)) with (length q + 1)%nat by lia. rewrite skipn_app, (skipn_all2 q) by lia.
  replace (length q + 1 - length q)%nat with 1%nat by lia. cbn [skipn app].
  assert (HU : vld sz (unravel sz k)) by (apply vld_unravel; lia).
  unfold sz in HU. apply vld_snoc_inv in HU as (q2 & r & EU & Hq2 & Hr & _ & _).
  fold sz in EU. rewrite EU.
  assert (EK : k = (ravel (rev ds) q2 * p + r)%nat).
  { rewrite <- (ravel_unravel sz) with (k := k) by (destruct sz; [cbn in Hlen; lia|discriminate]).
    rewrite EU. unfold sz. apply ravel_snoc. now apply vld_len. }
  transitivity (rc M ds p F (q ++ q2) r i j).
  - rewrite <- Yv by (auto; now apply Forall2_app). now rewrite <- !app_assoc.
  - rewrite EK. apply rc_flat; auto. intros q' r' a b Hl Ha Hb. unfold F.
    rewrite <- L1, firstn_app, Nat.sub_diag, firstn_all, firstn_O, app_nil_r, skipn_app, skipn_all, Nat.sub_diag. reflexivity.
Qed.

(** ** Consequences *)
Lemma mprod_add M (f : nat -> nat -> nat -> R) a b i j : (i < M)%nat -> (j < M)%nat ->
  mprod M f (a + b) i j = mmul M (mprod M f a) (mprod M (fun k => f (a + k)%nat) b) i j.
Proof.
  revert i j. induction b as [|b IH]; intros i j Hi Hj.
  - rewrite Nat.add_0_r. cbn [mprod]. now rewrite mmul_id_r.
  - rewrite Nat.add_succ_r. change (mmul M (mprod M f (a + b)) (f (a + b)%nat) i j =
      mmul M (mprod M f a) (mmul M (mprod M (fun k => f (a + k)%nat) b) (f (a + b)%nat)) i j).
    rewrite <- mmul_assoc. apply mmul_ext; intros; auto.
Qed.
Lemma mprod_1 M (f : nat -> nat -> nat -> R) i j : (i < M)%nat -> (j < M)%nat -> mprod M f 1 i j = f 0%nat i j.
Proof. intros. cbn [mprod]. now apply mmul_id_l. Qed.
Lemma cumd_0 M n ds (f : nat -> nat -> nat -> R) i j : (1 <= n)%nat -> Forall (fun x => (1 <= x)%nat) ds ->
  (i < M)%nat -> (j < M)%nat -> cumd M n ds f 0 i j = f 0%nat i j.
Proof.
  intros Hn Hds Hi Hj. destruct ds as [|g ds]; cbn [cumd]; [now apply mprod_1|].
  apply Forall_cons_iff in Hds as [Hg _]. rewrite Nat.div_0_l, Nat.mod_0_l, Nat.mod_0_l by lia. cbn [Nat.eqb].
  now rewrite mprod_1.
Qed.
(** Position p, the smallest factor: the new matrix is multiplied on the wrong side. *)
Lemma cumd_at_p M p g ds (f : nat -> nat -> nat -> R) i j : (2 <= p)%nat -> (2 <= g)%nat -> Forall (fun x => (1 <= x)%nat) ds ->
  (i < M)%nat -> (j < M)%nat -> cumd M p (g :: ds) f p i j = mmul M (f p) (mprod M f p) i j.
Proof.
  intros Hp Hg Hds Hi Hj. cbn [cumd]. rewrite Nat.div_same, Nat.mod_same by lia.
  rewrite (Nat.mod_small 1 g) by lia. change (1 =? 0)%nat with false. bfalse (0 =? p - 1)%nat.
  apply mmul_ext; intros.
  - rewrite mprod_1 by assumption. f_equal. lia.
  - rewrite cumd_0 by (auto; lia). reflexivity.
Qed.
(** Position p g with three or more factors: the earlier matrices are dropped. *)
Lemma cumd_at_pg M p g g' ds (f : nat -> nat -> nat -> R) i j : (2 <= p)%nat -> (2 <= g)%nat ->
  (i < M)%nat -> (j < M)%nat -> cumd M p (g :: g' :: ds) f (p * g) i j = f (p * g)%nat i j.
Proof.
  intros Hp Hg Hi Hj. cbn [cumd]. rewrite (Nat.mul_comm p g), Nat.div_mul, Nat.mod_mul, Nat.mod_same by lia. cbn [Nat.eqb].
  rewrite mprod_1 by assumption. f_equal. lia.
Qed.
(** Two factors and matrices that commute: the right products. *)
Definition commuting (M n : nat) (f : nat -> nat -> nat -> R) : Prop :=
  forall a b i j, (a < n)%nat -> (b < n)%nat -> (i < M)%nat -> (j < M)%nat -> mmul M (f a) (f b) i j = mmul M (f b) (f a) i j.
Lemma mprod_comm1 M (f : nat -> nat -> nat -> R) X b i j :
  (forall k i j, (k < b)%nat -> (i < M)%nat -> (j < M)%nat -> mmul M X (f k) i j = mmul M (f k) X i j) ->
  (i < M)%nat -> (j < M)%nat -> mmul M X (mprod M f b) i j = mmul M (mprod M f b) X i j.
Proof.
  intro H. revert i j. induction b as [|b IH]; intros i j Hi Hj; cbn [mprod].
  - now rewrite mmul_id_r, mmul_id_l.
  - rewrite <- mmul_assoc. rewrite (mmul_ext M _ (mmul M (mprod M f b) X) _ (f b)) by (intros; auto).
    rewrite !mmul_assoc. apply mmul_ext; auto.
Qed.
Lemma cumd_two M p g (f : nat -> nat -> nat -> R) k i j : (1 <= p)%nat -> commuting M (p * g) f -> (k < p * g)%nat ->
  (i < M)%nat -> (j < M)%nat -> cumd M p [g] f k i j = mprod M f (S k) i j.
Proof.
  intros Hp HC Hk Hi Hj. cbn [cumd].
  pose proof (Nat.div_mod k p ltac:(lia)) as Edm. pose proof (Nat.mod_upper_bound k p ltac:(lia)) as Hr.
  assert (Hq : (k / p < g)%nat) by (apply Nat.div_lt_upper_bound; lia).
  set (q := (k / p)%nat) in *. set (r := (k mod p)%nat) in *. rewrite (Nat.mod_small q g) by lia.
  assert (HB : forall s i j, (i < M)%nat -> (j < M)%nat ->
    mprod M (fun q => mprod M (fun j0 => f (q * p + j0)%nat) p) s i j = mprod M f (s * p) i j).
  { induction s as [|s IH]; intros a b Ha Hb; [reflexivity|]. cbn [mprod]. replace (S s * p)%nat with (s * p + p)%nat by lia.
    rewrite mprod_add by assumption. apply mmul_ext; intros; auto. }
  destruct (q =? 0)%nat eqn:E; b2p.
  - rewrite E in *. replace (S k) with (S r) by lia. apply mprod_ext; auto.
  - destruct (r =? p - 1)%nat eqn:E2; b2p.
    + rewrite HB by assumption. f_equal. nia.
    + replace (S k) with (q * p + S r)%nat by lia. rewrite mprod_add by assumption.
      transitivity (mmul M (mprod M (fun j0 => f (q * p + j0)%nat) (S r)) (mprod M f (q * p)) i j).
      { apply mmul_ext; intros; [reflexivity|]. rewrite HB by assumption. f_equal. nia. }
      apply mprod_comm1; auto. intros a i' j' Ha Hi' Hj'. symmetry. apply mprod_comm1; auto.
      intros b i2 j2 Hb Hi2 Hj2. apply HC; auto; nia.
Qed.
End S.
