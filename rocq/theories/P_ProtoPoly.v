(** The prototype polynomial helpers: coefficients and values. *)
From Coq Require Import List Arith Lia ZArith Bool.
From Verif Require Import Scalar Tensor TensorLemmas TensorOps TensorAlg TensorTac TensorList
  SpecPoly M_Poly P_Poly M_ProtoPoly.
Import ListNotations.

Lemma tab_length {A} n (f : nat -> A) : length (tab n f) = n.
Proof. unfold tab. now rewrite map_length, seq_length. Qed.
Lemma tab_nth {A} n (f : nat -> A) i d : i < n -> nth i (tab n f) d = f i.
Proof.
  intro H. unfold tab. rewrite (nth_indep _ d (f 0)) by now rewrite map_length, seq_length.
  rewrite map_nth, seq_nth by assumption. reflexivity.
Qed.
Lemma nth_repeat_same {A} (x : A) n i : nth i (repeat x n) x = x.
Proof. revert i. induction n as [|n IH]; intros [|i]; cbn; auto. Qed.

Section PP.
Variable R : cring.
Variable z0 : R -> bool.
Hypothesis Hz0 : forall x, z0 x = true <-> x = r0.
Add Ring Rr : (r_th R).
Open Scope cr_scope.
Notation gt i p := (nth i p r0).

Lemma lcoef_cons (c : R) p k :
  lcoef (c :: p) k = if (k =? length p)%nat then c else lcoef p k.
Proof.
  unfold lcoef. cbn [length].
  destruct (Nat.eqb_spec k (length p)) as [->|Hn].
  - btrue (length p <? S (length p))%nat.
    replace (S (length p) - 1 - length p)%nat with 0%nat by lia. reflexivity.
  - destruct (k <? length p)%nat eqn:E.
    + apply Nat.ltb_lt in E. btrue (k <? S (length p))%nat.
      replace (S (length p) - 1 - k)%nat with (S (length p - 1 - k)) by lia. reflexivity.
    + apply Nat.ltb_ge in E. bfalse (k <? S (length p))%nat. reflexivity.
Qed.
Lemma lcoef_high (p : list R) k : (length p <= k)%nat -> lcoef p k = 0.
Proof. intro H. unfold lcoef. bfalse (k <? length p)%nat. reflexivity. Qed.
Lemma lcoef_0 (p : list R) k : lcoef (0 :: p) k = lcoef p k.
Proof.
  rewrite lcoef_cons. destruct (Nat.eqb_spec k (length p)); [|reflexivity].
  now rewrite lcoef_high by lia.
Qed.
Lemma lcoef_zeros n (p : list R) k : lcoef (repeat 0 n ++ p) k = lcoef p k.
Proof. induction n as [|n IH]; [reflexivity|]. cbn [repeat app]. now rewrite lcoef_0. Qed.
Lemma gt_lcoef (p : list R) i : (i < length p)%nat -> gt i p = lcoef p (length p - 1 - i).
Proof.
  intro H. unfold lcoef. btrue (length p - 1 - i <? length p)%nat.
  f_equal. lia.
Qed.

(** Evaluation from the coefficients. *)
Lemma leval_coef (p : list R) N z : (length p <= N)%nat ->
  leval p z = bsum N (fun k => lcoef p k * rpow z k).
Proof.
  intro H. rewrite (bsum_trunc (length p) N) by (lia || (intros; rewrite lcoef_high by lia; ring)).
  unfold leval, peval. rewrite bsum_rev. apply bsum_ext. intros i Hi.
  rewrite gt_lcoef by lia. f_equal; [f_equal; lia|]. f_equal. lia.
Qed.
Lemma leval_ext (p q : list R) z : (forall k, lcoef p k = lcoef q k) -> leval p z = leval q z.
Proof.
  intro H. rewrite (leval_coef p (length p + length q)), (leval_coef q (length p + length q)) by lia.
  apply bsum_ext. intros. now rewrite H.
Qed.
Lemma leval_cons (c : R) p z : leval (c :: p) z = c * rpow z (length p) + leval p z.
Proof.
  unfold leval, peval. cbn [length]. rewrite bsum_S_l. cbn [nth].
  replace (S (length p) - 1 - 0)%nat with (length p) by lia. f_equal.
  apply bsum_ext. intros i Hi. do 2 f_equal. lia.
Qed.

(** ** trim_zeros *)
Lemma nonzero_cons c (p : list R) :
  nonzero z0 (c :: p) = if z0 c then map S (nonzero z0 p) else 0%nat :: map S (nonzero z0 p).
Proof.
  unfold nonzero. cbn [length seq]. cbn [filter]. change (gt 0 (c :: p)) with c.
  assert (filter (fun i => negb (z0 (gt i (c :: p)))) (seq 1 (length p))
          = map S (filter (fun i => negb (z0 (gt i p))) (seq 0 (length p)))) as ->.
  { rewrite <- seq_shift. generalize (seq 0 (length p)). intro l.
    induction l as [|i l IH]; [reflexivity|]. cbn [map filter]. rewrite IH. change (gt (S i) (c :: p)) with (gt i p).
    destruct (negb (z0 (gt i p))); reflexivity. }
  destruct (z0 c); reflexivity.
Qed.
Lemma z0_0 : z0 0 = true.
Proof. now apply Hz0. Qed.

(** What trimming gives, without the single-coefficient shortcut. *)
Lemma trim_zeros_rec c (p : list R) : p <> [] ->
  trim_zeros z0 (c :: p) = if z0 c then (if (length p =? 1)%nat then
     (match nonzero z0 p with [] => [0] | _ => p end) else trim_zeros z0 p) else c :: p.
Proof.
  intro Hp. unfold trim_zeros. destruct p as [|d p]; [congruence|]. cbn [length].
  change (S (S (length p)) =? 1)%nat with false. rewrite nonzero_cons.
  destruct (z0 c) eqn:Ec; [|reflexivity].
  destruct (nonzero z0 (d :: p)) as [|i l] eqn:E.
  - cbn [map]. destruct (S (length p) =? 1)%nat; reflexivity.
  - cbn [map skipn]. destruct (S (length p) =? 1)%nat eqn:El; [|reflexivity].
    destruct p; [|discriminate]. rewrite nonzero_cons in E. cbn in E. destruct (z0 d); [discriminate|].
    injection E as <- _. reflexivity.
Qed.
Lemma trim_cases (p : list R) :
  (exists n, p = repeat 0 n /\ trim_zeros z0 p = [0]) \/
  (exists n c l, p = repeat 0 n ++ c :: l /\ c <> 0 /\ trim_zeros z0 p = c :: l).
Proof.
  induction p as [|c p IH].
  - left. now exists 0%nat.
  - destruct (z0 c) eqn:Ec.
    + apply Hz0 in Ec as ->. destruct p as [|d p].
      * left. exists 1%nat. split; reflexivity.
      * destruct IH as [(n & E1 & E2)|(n & c' & l & E1 & Hc & E2)].
        -- left. exists (S n). split; [cbn; now rewrite <- E1|].
           rewrite trim_zeros_rec by discriminate. rewrite z0_0.
           destruct (length (d :: p) =? 1)%nat eqn:El; [|exact E2].
           destruct p; [|discriminate]. rewrite nonzero_cons. cbn [nonzero].
           assert (d = 0) as -> by (destruct n as [|[|n]]; now inversion E1). rewrite z0_0. reflexivity.
        -- right. exists (S n), c', l. split; [cbn; now rewrite <- E1|]. split; [exact Hc|].
           rewrite trim_zeros_rec by discriminate. rewrite z0_0.
           destruct (length (d :: p) =? 1)%nat eqn:El; [|exact E2].
           destruct p; [|discriminate]. unfold trim_zeros in E2. cbn in E2.
           injection E2 as -> <-. rewrite nonzero_cons.
           destruct (z0 c') eqn:E; [apply Hz0 in E; contradiction|]. reflexivity.
    + right. exists 0%nat, c, p. split; [reflexivity|]. split; [intros ->; now rewrite z0_0 in Ec|].
      destruct p as [|d p]; [reflexivity|]. rewrite trim_zeros_rec by discriminate. now rewrite Ec.
Qed.
Lemma lcoef_single0 k : lcoef ([0] : list R) k = 0.
Proof. rewrite lcoef_0. apply lcoef_high. cbn. lia. Qed.
Lemma trim_coef (p : list R) k : lcoef (trim_zeros z0 p) k = lcoef p k.
Proof.
  destruct (trim_cases p) as [(n & -> & ->)|(n & c & l & -> & Hc & ->)].
  - rewrite lcoef_single0. rewrite <- (app_nil_r (repeat 0 n)), lcoef_zeros. symmetry. apply lcoef_high. cbn. lia.
  - now rewrite lcoef_zeros.
Qed.
Lemma trim_len (p : list R) : (1 <= length (trim_zeros z0 p))%nat.
Proof. destruct (trim_cases p) as [(n & _ & ->)|(n & c & l & _ & _ & ->)]; cbn; lia. Qed.
(** The leading coefficient of a trimmed polynomial is non-zero unless it is the zero
    polynomial. *)
Lemma trim_lead (p : list R) : trim_zeros z0 p = [0] /\ (forall k, lcoef p k = 0) \/ gt 0 (trim_zeros z0 p) <> 0.
Proof.
  destruct (trim_cases p) as [(n & -> & ->)|(n & c & l & -> & Hc & ->)].
  - left. split; [reflexivity|]. intro k. rewrite <- (app_nil_r (repeat 0 n)), lcoef_zeros. apply lcoef_high. cbn. lia.
  - right. exact Hc.
Qed.

(** ** polymul *)
Definition pprod (p q : list R) (k : nat) : R := bsum (S k) (fun i => lcoef p i * lcoef q (k - i)).
Lemma pprod_comm (p q : list R) k : pprod p q k = pprod q p k.
Proof.
  unfold pprod. rewrite bsum_rev. apply bsum_ext. intros i Hi.
  replace (S k - 1 - i)%nat with (k - i)%nat by lia. replace (k - (k - i))%nat with i by lia. ring.
Qed.
Lemma pprod_ext (p p' q q' : list R) k : (forall i, lcoef p i = lcoef p' i) -> (forall i, lcoef q i = lcoef q' i) ->
  pprod p q k = pprod p' q' k.
Proof. intros H1 H2. apply bsum_ext. intros. now rewrite H1, H2. Qed.

Lemma conv1d_mul (a b : list R) : (1 <= length a)%nat -> (1 <= length b)%nat -> forall k,
  lcoef (conv1d b (rev a) (length (rev a) - 1)) k = pprod a b k.
Proof.
  intros Ha Hb k. unfold conv1d. rewrite rev_length.
  set (P := repeat 0 (length a - 1) ++ b ++ repeat 0 (length a - 1)).
  assert (HP : length P = (length b + 2 * (length a - 1))%nat) by (unfold P; rewrite !app_length, !repeat_length; lia).
  rewrite HP. set (T := (length b + 2 * (length a - 1) - length a + 1)%nat).
  assert (HT : T = (length a + length b - 1)%nat) by (unfold T; lia).
  unfold lcoef at 1. rewrite tab_length.
  destruct (k <? T)%nat eqn:Ek.
  2:{ apply Nat.ltb_ge in Ek. symmetry. apply bsum_0. intros i Hi.
      destruct (Nat.lt_ge_cases i (length a)); [rewrite (lcoef_high b) by lia|rewrite lcoef_high by lia]; ring. }
  apply Nat.ltb_lt in Ek. rewrite tab_nth by lia.
  assert (HPn : forall j, gt j P = if (length a - 1 <=? j)%nat then gt (j - (length a - 1)) b else 0).
  { intro j. unfold P. destruct (length a - 1 <=? j)%nat eqn:E.
    - apply Nat.leb_le in E. rewrite app_nth2; rewrite repeat_length; [|lia].
      destruct (Nat.lt_ge_cases (j - (length a - 1)) (length b)) as [Hj|Hj].
      + now rewrite app_nth1.
      + rewrite app_nth2 by lia. rewrite (nth_overflow b) by lia. apply nth_repeat_same.
    - apply Nat.leb_gt in E. rewrite app_nth1 by (rewrite repeat_length; lia). apply nth_repeat_same. }
  (* both sides as sums over the degree d < length a *)
  transitivity (bsum (length a) (fun d => if (d <=? k)%nat then lcoef a d * lcoef b (k - d) else 0)).
  - apply bsum_ext. intros d Hd. rewrite rev_nth by lia. rewrite (gt_lcoef a) by lia.
    replace (length a - 1 - (length a - S d))%nat with d by lia. rewrite HPn.
    destruct (d <=? k)%nat eqn:E.
    + apply Nat.leb_le in E. destruct (length a - 1 <=? T - 1 - k + d)%nat eqn:E2.
      * apply Nat.leb_le in E2. f_equal. rewrite gt_lcoef by lia. f_equal. lia.
      * apply Nat.leb_gt in E2. rewrite (lcoef_high b) by lia. reflexivity.
    + apply Nat.leb_gt in E. destruct (length a - 1 <=? T - 1 - k + d)%nat eqn:E2; [|ring].
      apply Nat.leb_le in E2. rewrite (nth_overflow b) by lia. ring.
  - unfold pprod. destruct (Nat.le_gt_cases (length a) (S k)) as [Hle|Hgt].
    + rewrite (bsum_trunc (length a) (S k)); [|lia|intros; rewrite lcoef_high by lia; ring].
      apply bsum_ext. intros d Hd. btrue (d <=? k)%nat. reflexivity.
    + rewrite (bsum_trunc (S k) (length a)); [|lia|intros; bfalse (i <=? k)%nat; reflexivity].
      apply bsum_ext. intros d Hd. btrue (d <=? k)%nat. reflexivity.
Qed.
Lemma polymul_coef (p q : list R) k : lcoef (polymul z0 p q) k = pprod p q k.
Proof.
  unfold polymul. pose proof (trim_len p). pose proof (trim_len q).
  destruct (length (trim_zeros z0 q) <? length (trim_zeros z0 p))%nat; rewrite conv1d_mul by assumption.
  - rewrite pprod_comm. apply pprod_ext; apply trim_coef.
  - apply pprod_ext; apply trim_coef.
Qed.
Lemma leval_prod (r p q : list R) z : (forall k, lcoef r k = pprod p q k) -> leval r z = leval p z * leval q z.
Proof.
  intro H. set (a := length p). set (b := length q). set (N := (length r + a + b)%nat).
  rewrite (leval_coef r (length r + a + b)), (leval_coef p a), (leval_coef q b) by (unfold a, b; lia).
  fold N. rewrite (bsum_ext N _ (fun k => bsum a (fun i => bsum b (fun j => if (i + j =? k)%nat then lcoef p i * rpow z i * (lcoef q j * rpow z j) else 0)))).
  - rewrite bsum_swap. rewrite <- bsum_mul_r. apply bsum_ext. intros i Hi. rewrite bsum_swap.
    rewrite <- bsum_mul_l. apply bsum_ext. intros j Hj. rewrite (bsum_one _ _ (i + j)%nat).
    + now rewrite Nat.eqb_refl.
    + unfold N. lia.
    + intros l Hl Hn. bfalse (i + j =? l)%nat. reflexivity.
  - intros k Hk. rewrite H. unfold pprod. rewrite <- bsum_mul_r.
    set (f := fun i => if (i <=? k)%nat then lcoef p i * rpow z i * (lcoef q (k - i) * rpow z (k - i)) else 0).
    transitivity (bsum (S k + a) f).
    + rewrite (bsum_trunc (S k) (S k + a)); [|lia|].
      * apply bsum_ext. intros i Hi. unfold f. btrue (i <=? k)%nat.
        replace (rpow z k) with (rpow z i * rpow z (k - i)); [ring|]. rewrite <- rpow_add. f_equal. lia.
      * intros i H1 H2. unfold f. bfalse (i <=? k)%nat. reflexivity.
    + rewrite (bsum_trunc a (S k + a)); [|lia|].
      * apply bsum_ext. intros i Hi. unfold f. destruct (i <=? k)%nat eqn:E.
        -- apply Nat.leb_le in E. destruct (Nat.lt_ge_cases (k - i) b) as [Hb|Hb].
           ++ rewrite (bsum_one b _ (k - i)%nat); [btrue (i + (k - i) =? k)%nat; reflexivity|exact Hb|].
              intros j Hj Hn. bfalse (i + j =? k)%nat. reflexivity.
           ++ rewrite (lcoef_high q) by (fold b; lia). rewrite bsum_0; [ring|].
              intros j Hj. bfalse (i + j =? k)%nat. reflexivity.
        -- apply Nat.leb_gt in E. rewrite bsum_0; [reflexivity|]. intros j Hj. bfalse (i + j =? k)%nat. reflexivity.
      * intros i H1 H2. unfold f. rewrite (lcoef_high p) by exact H1. destruct (i <=? k)%nat; [ring|reflexivity].
Qed.

(** ** polysmul *)
Fixpoint pmany (ps : list (list R)) (z : R) : R :=
  match ps with [] => 1 | p :: ps' => leval p z * pmany ps' z end.
Lemma pmany_app ps qs z : pmany (ps ++ qs) z = pmany ps z * pmany qs z.
Proof. induction ps as [|p ps IH]; cbn; [ring|]. rewrite IH. ring. Qed.
Lemma polysmul_fuel_spec fuel (ps : list (list R)) : ps <> [] -> (length ps < fuel)%nat ->
  exists r, polysmul_fuel z0 fuel ps = Ok r /\ forall z, leval r z = pmany ps z.
Proof.
  revert ps. induction fuel as [|fuel IH]; intros ps Hne Hl; [lia|]. cbn [polysmul_fuel].
  destruct ps as [|p [|p2 ps]]; [congruence| |].
  - exists p. split; [reflexivity|]. intro z. cbn. ring.
  - set (L := p :: p2 :: ps) in *. assert (HL : (2 <= length L)%nat) by (cbn; lia).
    assert (H2 : (1 <= length L / 2)%nat) by (apply Nat.div_le_lower_bound; lia).
    assert (H3 : (length L / 2 < length L)%nat) by (apply Nat.div_lt; lia).
    destruct (IH (firstn (length L / 2) L)) as (a & E1 & Ha).
    { intro E. apply (f_equal (@length _)) in E. rewrite firstn_length in E. cbn [length] in E. lia. }
    { rewrite firstn_length. lia. }
    destruct (IH (skipn (length L / 2) L)) as (b & E2 & Hb).
    { intro E. apply (f_equal (@length _)) in E. rewrite skipn_length in E. cbn [length] in E. lia. }
    { rewrite skipn_length. lia. }
    rewrite E1, E2. cbn [bind]. eexists. split; [reflexivity|]. intro z.
    rewrite (leval_prod _ a b) by apply polymul_coef. rewrite Ha, Hb, <- pmany_app, firstn_skipn. reflexivity.
Qed.

(** ** polyadd / polysub *)
Lemma zipw_coef (f : R -> R -> R) (a b : list R) k : f 0 0 = 0 -> length a = length b ->
  lcoef (zipw f a b) k = f (lcoef a k) (lcoef b k).
Proof.
  intros Hf Hl. unfold lcoef, zipw. rewrite tab_length, <- Hl.
  destruct (k <? length a)%nat eqn:E; [|now rewrite Hf].
  apply Nat.ltb_lt in E. now rewrite tab_nth by lia.
Qed.
Lemma poly_pw_coef (f : R -> R -> R) (a b : list R) k : f 0 0 = 0 ->
  lcoef (poly_pw f a b) k = f (lcoef a k) (lcoef b k).
Proof.
  intro Hf. unfold poly_pw.
  destruct (Z.eqb_spec (Z.of_nat (length b) - Z.of_nat (length a)) 0) as [E|E].
  - apply zipw_coef; [exact Hf|lia].
  - destruct (Z.ltb_spec 0 (Z.of_nat (length b) - Z.of_nat (length a))) as [E2|E2].
    + rewrite zipw_coef; [now rewrite lcoef_zeros|exact Hf|]. rewrite app_length, repeat_length. lia.
    + rewrite zipw_coef; [now rewrite lcoef_zeros|exact Hf|]. rewrite app_length, repeat_length. lia.
Qed.

(** ** polyval *)
Lemma polyval_spec (p : list R) (x : tensor R) : exists y, polyval z0 p x = Ok y /\
  ((length (trim_zeros z0 p) = 1%nat /\ is1 y 1 (fun _ => lcoef p 0)) \/
   ((1 < length (trim_zeros z0 p))%nat /\ isP0 y (shape x) (fun q => leval p (at_ x q)))).
Proof.
  unfold polyval. pose proof (trim_len p) as Hl.
  destruct (length (trim_zeros z0 p) =? 1)%nat eqn:E1.
  - apply Nat.eqb_eq in E1. eexists. split; [reflexivity|]. left. split; [exact E1|].
    split; [cbn; now rewrite E1|]. intros i Hi. assert (i = 0%nat) as -> by lia. cbn.
    rewrite gt_lcoef, E1 by lia. cbn. apply trim_coef.
  - apply Nat.eqb_neq in E1. destruct (trim_zeros z0 p) as [|c cs] eqn:Et; [cbn in Hl; lia|].
    assert (forall cs (acc : tensor R) (g : list nat -> R), isP0 acc (shape x) g ->
      exists y, fold_left (fun acc pv => bind acc (fun y => bind (tmul y x) (fun yx => tadd yx (mk0 pv)))) cs (Ok acc) = Ok y /\
        isP0 y (shape x) (fun q => g q * rpow (at_ x q) (length cs) + leval cs (at_ x q))) as Hf.
    { clear. induction cs as [|c cs IH]; intros acc g Ha.
      - exists acc. split; [reflexivity|]. destruct Ha as [A1 A2]. split; [exact A1|]. intros q Hq. rewrite A2 by exact Hq.
        unfold leval, peval. cbn. ring.
      - cbn [fold_left bind]. assert (Hx : isP0 x (shape x) (at_ x)) by (split; auto).
        destruct (P0_ew_same rmul acc x _ _ _ Ha Hx) as (y1 & E & Hy1). unfold tmul. rewrite E. cbn [bind].
        assert (exists y2, tadd y1 (mk0 c) = Ok y2 /\ isP0 y2 (shape x) (fun q => g q * at_ x q + c)) as (y2 & E2 & Hy2).
        { destruct Hy1 as [A1 A2]. unfold tadd, ew. rewrite A1. cbn [mk0 shape]. rewrite bshape_nil_r.
          eexists. split; [reflexivity|]. split; [reflexivity|]. intros q Hq. cbn [at_ mk0].
          rewrite bix_pre by exact Hq. now rewrite A2. }
        rewrite E2. destruct (IH y2 _ Hy2) as (y & E3 & Hy). exists y. split; [exact E3|].
        destruct Hy as [A1 A2]. split; [exact A1|]. intros q Hq. rewrite A2 by exact Hq. rewrite leval_cons. cbn [length rpow]. ring. }
    destruct cs as [|c2 cs]; [cbn in E1; congruence|]. cbn [fold_left bind].
    assert (exists y1, tmul (mk0 c) x = Ok y1 /\ isP0 y1 (shape x) (fun q => c * at_ x q)) as (y1 & E & Hy1).
    { apply (P0_sew rmul (mk0 c) x (shape x) c (at_ x)); [apply is0_mk|split; auto]. }
    rewrite E. cbn [bind].
    assert (exists y2, tadd y1 (mk0 c2) = Ok y2 /\ isP0 y2 (shape x) (fun q => c * at_ x q + c2)) as (y2 & E2 & Hy2).
    { destruct Hy1 as [A1 A2]. unfold tadd, ew. rewrite A1. cbn [mk0 shape]. rewrite bshape_nil_r.
      eexists. split; [reflexivity|]. split; [reflexivity|]. intros q Hq. cbn [at_ mk0].
      rewrite bix_pre by exact Hq. now rewrite A2. }
    rewrite E2. destruct (Hf cs y2 _ Hy2) as (y & E3 & Hy). exists y. split; [exact E3|]. right.
    split; [cbn; lia|]. destruct Hy as [A1 A2]. split; [exact A1|]. intros q Hq. rewrite A2 by exact Hq.
    rewrite <- (leval_ext (c :: c2 :: cs) p) by (intro; rewrite <- Et; apply trim_coef).
    rewrite !leval_cons. cbn [length rpow]. ring.
Qed.

(** ** polyder *)
Fixpoint dcoef (c : nat -> R) (m : nat) (k : nat) : R :=
  match m with O => c k | S m' => dcoef (fun k => c (S k) * rnat (S k)) m' k end.
Lemma dcoef_ext c d m k : (forall k, c k = d k) -> dcoef c m k = dcoef d m k.
Proof. revert c d k. induction m as [|m IH]; intros c d k H; cbn [dcoef]; [apply H|]. apply IH. intro. now rewrite H. Qed.
Lemma dcoef_zero m k : dcoef (fun _ => 0) m k = 0.
Proof.
  revert k. induction m as [|m IH]; intro k; [reflexivity|]. cbn [dcoef].
  transitivity (dcoef (fun _ => 0) m k); [|apply IH]. apply dcoef_ext. intro. ring.
Qed.
Lemma polyder_coef (p : list R) m k : lcoef (polyder_nat z0 p m) k = dcoef (lcoef p) m k.
Proof.
  revert p k. induction m as [|m IH]; intros p k; [reflexivity|]. cbn [polyder_nat dcoef].
  pose proof (trim_len p) as Hl. pose proof (trim_coef p) as Hc.
  destruct (length (trim_zeros z0 p) =? 1)%nat eqn:E1.
  - apply Nat.eqb_eq in E1. rewrite lcoef_single0. rewrite <- (dcoef_zero m k). apply dcoef_ext. intro j.
    rewrite <- Hc, lcoef_high by lia. ring.
  - apply Nat.eqb_neq in E1. rewrite IH. apply dcoef_ext. intro j. rewrite <- Hc.
    set (t := trim_zeros z0 p) in *. unfold lcoef. rewrite tab_length.
    destruct (j <? length t - 1)%nat eqn:E.
    + apply Nat.ltb_lt in E. btrue (S j <? length t)%nat. rewrite tab_nth by lia. f_equal; f_equal; lia.
    + apply Nat.ltb_ge in E. bfalse (S j <? length t)%nat. ring.
Qed.
End PP.
Arguments pprod {R}. Arguments pmany {R}. Arguments dcoef {R}.
