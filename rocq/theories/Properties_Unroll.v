(** Exactly which lengths matrices_cumdot and which unroll factors
    lpv.state_space_recursion get right (C05, C04). *)
From Coq Require Import List Arith Lia ZArith Bool.
From Verif Require Import Scalar Tensor TensorLemmas TensorTac Spec Shapes M_Mat P_Mat P_Cumdot M_Kernels M_Ext M_LpvSsm
  P_LpvSsm P_LpvBlk P_LpvSs P_Unroll.
Import ListNotations.

(** The n matrices commute pairwise. *)
Definition pairwise_commute {R : cring} (M n : nat) (f : nat -> nat -> nat -> R) : Prop :=
  forall a b i j, a < n -> b < n -> i < M -> j < M ->
  mmul M (f a) (f b) i j = mmul M (f b) (f a) i j.

(** C05, wrong positions: a composite length has a divisor p such that entry p is always
    A_p (A_0 ... A_(p-1)), the last factor on the wrong side. *)
Theorem C05_composite_position :
  forall (R : cring) n M, 2 <= n -> ~ is_prime n ->
  exists p, 2 <= p < n /\ n mod p = 0 /\
  forall (A : tensor R) pre f, isP3 A pre n M M f ->
  exists y g, matrices_cumdot A = Ok y /\ isP3 y pre n M M g /\
    forall q i j, i < M -> j < M -> g q p i j = mmul M (f q p) (mprod M (f q) p) i j.
Proof.
  intros R n M Hn Hc. destruct (cdf_composite R M n Hn Hc) as (p & Hp & Hd & H). exists p. split; [exact Hp|]. split; [exact Hd|].
  intros A pre f HA. destruct (cdf_is R M n ltac:(lia) A pre f HA) as (y & E & Hy).
  exists y, (fun q => cdf R M n (f q)). split; [exact E|]. split; [exact Hy|]. intros. now apply H.
Qed.
Print Assumptions C05_composite_position.

Example C05_composite_position_ex :
  2 <= 4 /\ ~ is_prime 4 /\
  let A := mk3 4 2 2 (fun k i j => Z.of_nat (1 + j + 2 * i + 4 * k)) : tensor Zring in
  match matrices_cumdot A with
  | Ok y => map (fun ij => at_ y (2 :: ij)) [[0;0];[0;1];[1;0];[1;1]] =
            map (fun ij => mmul (R := Zring) 2 (fun i j => at_ A [2;i;j]) (mprod (R := Zring) 2 (fun k i j => at_ A [k;i;j]) 2)
                             (nth 0 ij 0) (nth 1 ij 0)) [[0;0];[0;1];[1;0];[1;1]]
  | Err _ => False
  end.
Proof. split; [lia|]. split; [intros [_ H]; apply (H 2); [lia|reflexivity]|]. vm_compute. reflexivity. Qed.

(** C05, lengths: for matrices of size at least 2 over any ring with 1 <> 0, right on all
    inputs exactly when the length is 1 or prime. *)
Theorem C05_lengths :
  forall (R : cring) n M, r1 (c := R) <> r0 -> 1 <= n -> 2 <= M ->
  (forall (A : tensor R) pre f, isP3 A pre n M M f ->
     exists y, matrices_cumdot A = Ok y /\ isP3 y pre n M M (fun q k => mprod M (f q) (S k)))
  <-> (n = 1 \/ is_prime n).
Proof.
  intros R n M H10 Hn HM. split.
  - intro H. destruct (Nat.eq_dec n 1) as [->|H1]; [auto|]. right.
    assert (D : is_prime n \/ ~ is_prime n).
    { destruct (factorint_cases n ltac:(lia)) as [?|[(p & g & _ & Hp & Hg & E)|(p & g & g' & ds & _ & Hp & Hg & Hg' & _ & E & Hl)]]; [auto|right|right].
      - intro Q. destruct Hp, Hg. now apply (prime_not_mul n p g).
      - intro Q. apply (prime_not_mul n p (g * (g' * lprod ds))); auto; [|lia].
        assert (2 * 1 <= g * (g' * lprod ds)) by (apply Nat.mul_le_mono; nia). lia. }
    destruct D as [D|D]; [exact D|exfalso].
    destruct (cdf_composite R M n ltac:(lia) D) as (p & Hp & _ & Hcd).
    set (A := mk3 n M M (wit1 R p)).
    assert (HA : isP3 A [] n M M (fun _ => wit1 R p)) by (apply is3_P; split; [reflexivity|intros; reflexivity]).
    destruct (H A [] _ HA) as (y & E & [_ Hy]). destruct (cdf_is R M n Hn A [] _ HA) as (y' & E' & [_ Hy']).
    rewrite E in E'. injection E' as <-. apply H10.
    rewrite <- (wit1_right R M p HM) by lia. rewrite <- (wit1_wrong R M p HM) by lia.
    rewrite <- (Hcd (wit1 R p) 1 0) by lia. rewrite <- (Hy [] p 1 0) by (try lia; constructor). apply Hy'; try lia. constructor.
  - intros H A pre f HA. now apply cumdot_prime_spec.
Qed.
Print Assumptions C05_lengths.

Example C05_lengths_ex : r1 (c := Zring) <> r0 /\ (15 = 1 \/ is_prime 15 -> False) /\ is_prime 7.
Proof.
  split; [discriminate|]. split.
  - intros [H|[_ H]]; [discriminate|]. apply (H 3); [lia|reflexivity].
  - split; [lia|]. intros d Hd. destruct d as [|[|[|[|[|[|[|d]]]]]]]; try lia; discriminate.
Qed.

(** C05, commuting matrices (1 x 1 in particular): right on all inputs exactly when the
    length is not a product of three numbers that are at least 2. *)
Theorem C05_commuting :
  forall (R : cring) n M, r1 (c := R) <> r0 -> 1 <= n -> 1 <= M ->
  (forall (A : tensor R) pre f, isP3 A pre n M M f -> (forall q, pairwise_commute M n (f q)) ->
     exists y, matrices_cumdot A = Ok y /\ isP3 y pre n M M (fun q k => mprod M (f q) (S k)))
  <-> ~ (exists a b c, 2 <= a /\ 2 <= b /\ 2 <= c /\ n = a * b * c).
Proof.
  intros R n M H10 Hn HM. split.
  - intros H H3. destruct (cdf_three R M n H3) as (k & Hk & Hcd).
    set (A := mk3 n M M (wit2 R)).
    assert (HA : isP3 A [] n M M (fun _ => wit2 R)) by (apply is3_P; split; [reflexivity|intros; reflexivity]).
    destruct (H A [] _ HA (fun _ => wit2_comm R M n)) as (y & E & [_ Hy]). destruct (cdf_is R M n Hn A [] _ HA) as (y' & E' & [_ Hy']).
    rewrite E in E'. injection E' as <-. apply H10.
    transitivity (wit2 R k 0 0). { unfold wit2. bfalse (k =? 0). reflexivity. }
    rewrite <- Hcd by lia. rewrite <- (wit2_right R M k 0 0) by lia.
    rewrite <- (Hy [] k 0 0) by (try lia; constructor). symmetry. apply Hy'; try lia. constructor.
  - intros H3 A pre f HA HC. destruct (cdf_is R M n Hn A pre f HA) as (y & E & Hy). exists y. split; [exact E|].
    eapply isP3_ext; [exact Hy|]. intros q k i j Hq Hk Hi Hj. apply cdf_comm; auto. apply HC.
Qed.
Print Assumptions C05_commuting.

(** Length 4 = 2 2 with commuting matrices, right; length 8 is excluded. *)
Example C05_commuting_ex :
  pairwise_commute (R := Zring) 1 4 (fun k _ _ => Z.of_nat (k + 2)) /\
  (exists a b c, 2 <= a /\ 2 <= b /\ 2 <= c /\ 8 = a * b * c) /\
  show (matrices_cumdot (mk3 4 1 1 (fun k _ _ => Z.of_nat (k + 2)) : tensor Zring)) = Some ([4;1;1], [2;6;24;120]%Z) /\
  show (matrices_cumdot (mk3 4 2 2 (fun k i j => if i =? j then 1%Z else if i =? 0 then Z.of_nat k else 0%Z) : tensor Zring))
  = Some ([4;2;2], [1;0;0;1; 1;1;0;1; 1;3;0;1; 1;6;0;1]%Z).
Proof.
  split; [|split; [|split]].
  - intros a b i j Ha Hb Hi Hj. unfold mmul. apply bsum_ext. intros. apply Z.mul_comm.
  - exists 2, 2, 2. lia.
  - vm_compute. reflexivity.
  - vm_compute. reflexivity.
Qed.

(** C04, unroll factors: for order at least 2 over any ring with 1 <> 0, on any installed
    back-end, the recursion is right on all inputs exactly when the unroll factor is 1,
    at least N, 2, or one more than a prime. *)
Theorem C04_unroll_factors :
  forall (R : cring) e pr N M bs, r1 (c := R) <> r0 -> 1 <= N -> 2 <= M -> 1 <= bs -> lpv_backend_ok e pr M ->
  (forall B (A zi x : tensor R) Af zf u oi, 1 <= B ->
     matv B N M A Af -> is2 zi B M zf -> drive B N M x u -> idx_ok M oi ->
     exists y, lpv_state_space_recursion e pr A zi x bs oi = Ok y /\
       picks B N M oi y (fun b n m => state M (Af b) (zf b) (u b) (S n) m))
  <-> (bs = 1 \/ N <= bs \/ bs = 2 \/ is_prime (bs - 1)).
Proof.
  intros R e pr N M bs H10 HN HM Hbs He. split.
  - intro H. destruct (Nat.eq_dec bs 1) as [?|H1]; [auto|]. destruct (le_lt_dec N bs) as [?|HNb]; [auto|].
    destruct (Nat.eq_dec bs 2) as [?|H2]; [auto|]. right. right. right.
    assert (D : is_prime (bs - 1) \/ ~ is_prime (bs - 1)).
    { destruct (factorint_cases (bs - 1) ltac:(lia)) as [?|[(p & g & _ & Hp & Hg & E)|(p & g & g' & ds & _ & Hp & Hg & Hg' & _ & E & Hl)]]; [auto|right|right].
      - intro Q. destruct Hp, Hg. now apply (prime_not_mul (bs - 1) p g).
      - intro Q. apply (prime_not_mul (bs - 1) p (g * (g' * lprod ds))); auto; [|lia].
        assert (2 * 1 <= g * (g' * lprod ds)) by (apply Nat.mul_le_mono; nia). lia. }
    destruct D as [D|D]; [exact D|exfalso].
    destruct (cdf_composite R M (bs - 1) ltac:(lia) D) as (p & Hp & _ & Hcd).
    pose proof (cdf_is R M (bs - 1) ltac:(lia)) as HG.
    set (Af := impA R bs (wit1 R p)). set (u := impX R bs p).
    set (A := mk3 N M M Af). set (zi := mk2 1 M (fun _ _ => r0) : tensor R).
    set (x := mk2 1 N (fun _ n => if n =? bs - 2 - p then r1 else r0) : tensor R).
    assert (HA : matv 1 N M A (fun _ => Af)) by (apply matv_s with (g := Af); [split; [reflexivity|intros; reflexivity]|reflexivity]).
    assert (Hz : is2 zi 1 M (fun _ _ => r0)) by (split; [reflexivity|intros; reflexivity]).
    assert (Hx : drive 1 N M x (fun _ => u)).
    { apply (drive_2 (R := R) (fun _ n => if n =? bs - 2 - p then r1 else r0)); [split; [reflexivity|intros; reflexivity]|]. intros. reflexivity. }
    destruct (H 1 A zi x _ _ _ None ltac:(lia) HA Hz Hx I) as (y & E & Hy).
    unfold lpv_state_space_recursion in E. change (size x 1) with N in E.
    destruct (lpv_blk_spec R e pr (cdf R M (bs - 1)) bs (S N) 1 N M A zi x (fun _ => Af) (fun _ _ => r0) (fun _ => u) None)
      as (y' & E' & Hy'); try lia; auto; [intro; now apply lpv_backend_helion|exact I|].
    rewrite E in E'. injection E' as <-. cbn [picks] in Hy, Hy'. destruct Hy as [_ Hy], Hy' as [_ Hy'].
    apply H10. rewrite <- (wit1_right R M p HM) by lia. rewrite <- (wit1_wrong R M p HM) by lia.
    rewrite <- (Hcd (wit1 R p) 1 0) by lia.
    transitivity (at_ y [0; bs - 1; 1]).
    + rewrite Hy by lia. symmetry. apply (imp_right R M N bs p); lia.
    + rewrite Hy' by lia. destruct N as [|N']; [lia|]. apply imp_blk; auto; lia.
  - intros Hu B A zi x Af zf u oi HB HA Hz Hx Hi. apply lpv_ssr_spec; auto; try lia. split; auto.
Qed.
Print Assumptions C04_unroll_factors.

(** Factors 8 (fine) and 16 (not), which the README recommends for CPU and GPU. *)
Example C04_unroll_factors_ex :
  r1 (c := Zring) <> r0 /\ lpv_backend_ok env0 false 2 /\
  (8 = 1 \/ 100 <= 8 \/ 8 = 2 \/ is_prime (8 - 1)) /\ ~ (16 = 1 \/ 100 <= 16 \/ 16 = 2 \/ is_prime (16 - 1)).
Proof.
  split; [discriminate|]. split; [apply lpv_backend_env0|]. split.
  - right. right. right. split; [lia|]. intros d Hd. destruct d as [|[|[|[|[|[|[|d]]]]]]]; try (cbn in Hd; lia); discriminate.
  - intros [H|[H|[H|[_ H]]]]; try lia. apply (H 3); [cbn; lia|reflexivity].
Qed.

(** C04, matrices that commute along each trajectory (order 1, or a constant matrix): right
    on all inputs exactly when the factor is 1, at least N, or one more than a number that is
    not a product of three numbers that are at least 2. *)
Theorem C04_unroll_commuting :
  forall (R : cring) e pr N M bs, r1 (c := R) <> r0 -> 1 <= N -> 1 <= M -> 1 <= bs -> lpv_backend_ok e pr M ->
  (forall B (A zi x : tensor R) Af zf u oi, 1 <= B ->
     matv B N M A Af -> is2 zi B M zf -> drive B N M x u -> idx_ok M oi ->
     (forall b, b < B -> pairwise_commute M N (Af b)) ->
     exists y, lpv_state_space_recursion e pr A zi x bs oi = Ok y /\
       picks B N M oi y (fun b n m => state M (Af b) (zf b) (u b) (S n) m))
  <-> (bs = 1 \/ N <= bs \/ ~ (exists a b c, 2 <= a /\ 2 <= b /\ 2 <= c /\ bs = a * b * c + 1)).
Proof.
  intros R e pr N M bs H10 HN HM Hbs He.
  assert (T3 : (exists a b c, 2 <= a /\ 2 <= b /\ 2 <= c /\ bs = a * b * c + 1) <-> three_factors (bs - 1)).
  { split; intros (a & b & c & Ha & Hb & Hc & E); exists a, b, c; repeat (split; [assumption|]); [lia|].
    assert (2 * 2 <= a * b) by now apply Nat.mul_le_mono. assert (4 * 2 <= a * b * c) by (apply Nat.mul_le_mono; lia). lia. }
  split.
  - intro H. destruct (Nat.eq_dec bs 1) as [?|H1]; [auto|]. destruct (le_lt_dec N bs) as [?|HNb]; [auto|].
    right. right. rewrite T3. intro H3.
    destruct (cdf_three R M (bs - 1) H3) as (p & Hp & Hcd).
    pose proof (cdf_is R M (bs - 1) ltac:(lia)) as HG.
    set (Af := impA R bs (wit2 R)). set (u := impX R bs p).
    set (A := mk3 N M M Af). set (zi := mk2 1 M (fun _ _ => r0) : tensor R).
    set (x := mk2 1 N (fun _ n => if n =? bs - 2 - p then r1 else r0) : tensor R).
    assert (HA : matv 1 N M A (fun _ => Af)) by (apply matv_s with (g := Af); [split; [reflexivity|intros; reflexivity]|reflexivity]).
    assert (Hz : is2 zi 1 M (fun _ _ => r0)) by (split; [reflexivity|intros; reflexivity]).
    assert (Hx : drive 1 N M x (fun _ => u)).
    { apply (drive_2 (R := R) (fun _ n => if n =? bs - 2 - p then r1 else r0)); [split; [reflexivity|intros; reflexivity]|]. intros. reflexivity. }
    destruct (H 1 A zi x _ _ _ None ltac:(lia) HA Hz Hx I) as (y & E & Hy).
    { intros b _. apply (imp_comm R M N bs p); try lia. apply wit2_comm. }
    unfold lpv_state_space_recursion in E. change (size x 1) with N in E.
    destruct (lpv_blk_spec R e pr (cdf R M (bs - 1)) bs (S N) 1 N M A zi x (fun _ => Af) (fun _ _ => r0) (fun _ => u) None)
      as (y' & E' & Hy'); try lia; auto; [intro; now apply lpv_backend_helion|exact I|].
    rewrite E in E'. injection E' as <-. cbn [picks] in Hy, Hy'. destruct Hy as [_ Hy], Hy' as [_ Hy'].
    apply H10. transitivity (wit2 R p 0 0). { unfold wit2. bfalse (p =? 0). reflexivity. }
    rewrite <- (wit2_right R M p 0 0) by lia. rewrite <- Hcd by lia.
    symmetry.
    transitivity (at_ y [0; bs - 1; 0]).
    + rewrite Hy by lia. symmetry. apply (imp_right R M N bs p); lia.
    + rewrite Hy' by lia. destruct N as [|N']; [lia|]. apply imp_blk; auto; lia.
  - intros Hu B A zi x Af zf u oi HB HA Hz Hx Hi HC.
    destruct (Nat.eq_dec bs 1) as [->|H1]; [apply lpv_ssr_spec; auto; split; auto|].
    destruct (le_lt_dec N bs) as [HNb|HNb]; [apply lpv_ssr_spec; auto; split; auto|].
    assert (H3 : ~ three_factors (bs - 1)) by (rewrite <- T3; destruct Hu as [?|[?|?]]; [lia|lia|assumption]).
    assert (Es : size x 1 = N) by (destruct Hx as [f Hx _|Hx]; unfold size; now rewrite (proj1 Hx)).
    unfold lpv_state_space_recursion. rewrite Es.
    destruct (lpv_blk_spec R e pr (cdf R M (bs - 1)) bs (S N) B N M A zi x Af zf u oi)
      as (y & E & Hy); try lia; auto; [right; apply cdf_is; lia|intro; now apply lpv_backend_helion|].
    exists y. split; [exact E|].
    assert (Q : forall b n m, b < B -> n < N -> m < M ->
      blk R M bs (cdf R M (bs - 1)) (S N) N (Af b) (zf b) (u b) n m = state M (Af b) (zf b) (u b) (S n) m).
    { intros b n m Hb Hn Hm. apply blk_right; auto; try lia.
      - intros f k i j Hf Hk Hi' Hj. apply cdf_comm; auto. lia.
      - apply HC. exact Hb. }
    unfold picks in *. destruct oi as [i|].
    + intros c Hc. eapply is2_ext; [exact (Hy c Hc)|]. intros b n Hb Hn. apply Q; auto. now apply pyidx_lt in Hc.
    + eapply is3_ext; [exact Hy|]. intros. now apply Q.
Qed.
Print Assumptions C04_unroll_commuting.

(** Order 1 with factor 5 (4 = 2 2), right and equal to the plain loop; factor 9 (8 = 2 2 2) is excluded. *)
Example C04_unroll_commuting_ex :
  let A := mk3 7 1 1 (fun k _ _ => Z.of_nat (k + 2)) : tensor Zring in
  let x := mk2 1 7 (fun _ n => Z.of_nat (n + 1)) : tensor Zring in
  let zi := mk2 1 1 (fun _ _ => 3%Z) : tensor Zring in
  ~ (exists a b c, 2 <= a /\ 2 <= b /\ 2 <= c /\ 5 = a * b * c + 1) /\
  (exists a b c, 2 <= a /\ 2 <= b /\ 2 <= c /\ 9 = a * b * c + 1) /\
  pairwise_commute (R := Zring) 1 7 (fun k _ _ => Z.of_nat (k + 2)) /\
  show (lpv_state_space_recursion env0 false A zi x 5 (Some 0%Z)) = Some ([1;7], [7;23;95;479;2879;20159;161279]%Z).
Proof.
  cbv zeta. split; [|split; [|split]].
  - intros (a & b & c & Ha & Hb & Hc & E). assert (2 * 2 <= a * b) by now apply Nat.mul_le_mono.
    assert (4 * 2 <= a * b * c) by (apply Nat.mul_le_mono; lia). lia.
  - exists 2, 2, 2. lia.
  - intros a b i j Ha Hb Hi Hj. unfold mmul. apply bsum_ext. intros. apply Z.mul_comm.
  - vm_compute. reflexivity.
Qed.
