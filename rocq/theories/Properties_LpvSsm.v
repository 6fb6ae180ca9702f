(** Theorems about lpv/ssm.py: state_space_recursion and state_space
    (C04, C10, C13, C14, and the time-varying part of C15-C18). *)
From Coq Require Import List Arith Lia ZArith Bool.
From Verif Require Import Scalar Tensor TensorLemmas Spec Shapes Algebra M_Kernels M_LtiSsm M_LpvSsm P_SsSpec P_LtiSsm P_LpvSsm P_LpvSs.
Import ListNotations.

(** C04, for the unroll factors 1, 2, any factor not below the length, and any factor u
    with u - 1 prime ([unroll_good]).  Every ring, batch size, order, length, shared or
    per-batch A, 2-D or 3-D input, output index or none; every back-end that is
    installed consistently ([lpv_backend_ok], see C10 below). *)
Theorem lpv_state_space_recursion_partial :
  forall (R : cring) e pr B N M (A zi x : tensor R) Af zf u bs oi,
  1 <= B -> 1 <= N -> 1 <= M -> unroll_good N (Some bs) -> lpv_backend_ok e pr M ->
  matv B N M A Af -> is2 zi B M zf -> drive B N M x u -> idx_ok M oi ->
  exists y, lpv_state_space_recursion e pr A zi x bs oi = Ok y /\
    picks B N M oi y (fun b n m => state M (Af b) (zf b) (u b) (S n) m).
Proof. intros. now apply lpv_ssr_spec. Qed.
Print Assumptions lpv_state_space_recursion_partial.

Lemma prime3 : is_prime 3.
Proof. split; [lia|]. intros d Hd. replace d with 2 by lia. discriminate. Qed.

(** Two batches with different trajectories, seven samples, blocks of 4, last component. *)
Example lpv_state_space_recursion_ex :
  let A := ofl 0%Z [2;7;2;2] [1;1;1;0; 0;2;1;1; 1;0;3;1; 2;1;0;1; 1;1;1;1; 0;1;1;0; 1;2;1;1;
                              0;1;1;0; 1;1;0;1; 2;0;1;1; 1;0;0;1; 0;1;1;1; 1;1;1;0; 2;1;1;1]%Z : tensor Zring in
  let zi := lst2 0%Z [[1;0];[0;1]]%Z : tensor Zring in
  let x := lst2 0%Z [[0;1;0;0;2;0;0];[1;2;3;4;5;6;7]]%Z : tensor Zring in
  unroll_good 7 (Some 4) /\ lpv_backend_ok env0 false 2 /\ matv 2 7 2 A (fun b n i j => at_ A [b;n;i;j]) /\
  drive 2 7 2 x (fun b n m => if m =? 0 then at_ x [b;n] else 0%Z) /\ idx_ok 2 (Some (-1)%Z) /\
  show (lpv_state_space_recursion env0 false A zi x 4 (Some (-1)%Z))
  = show (lpv_state_space_recursion env0 false A zi x 1 (Some (-1)%Z)) /\
  show (lpv_state_space_recursion env0 false A zi x 4 (Some (-1)%Z))
  = Some ([2;7], [1;2;11;11;28;30;58; 0;0;4;4;19;9;43]%Z).
Proof.
  cbv zeta. split; [split; [lia|right; right; right; exact prime3]|]. split; [apply lpv_backend_env0|].
  split; [|split; [|split; [|split]]].
  - apply matv_b. split; [reflexivity|]. intros. reflexivity.
  - apply (drive_2 (R := Zring) (fun b n => at_ (lst2 0%Z [[0;1;0;0;2;0;0];[1;2;3;4;5;6;7]]%Z) [b;n])); [split; reflexivity|].
    intros; reflexivity.
  - now exists 1.
  - vm_compute. reflexivity.
  - vm_compute. reflexivity.
Qed.

(** The default unroll factor round(sqrt(N)) is one of these for every N <= 20. *)
Theorem lpv_default_unroll_good : forall N, 1 <= N <= 20 -> unroll_good N None.
Proof.
  intros N HN. unfold unroll_good.
  assert (H : let u := round_sqrt N in u = 1 \/ u = 2 \/ u = 3 \/ u = 4).
  { assert (HL : In N (seq 1 20)) by (apply in_seq; lia).
    assert (HF : forallb (fun n => existsb (Nat.eqb (round_sqrt n)) [1;2;3;4]) (seq 1 20) = true) by (vm_compute; reflexivity).
    rewrite forallb_forall in HF. specialize (HF N HL). apply existsb_exists in HF as (k & Hk & E).
    apply Nat.eqb_eq in E. cbv zeta. rewrite E. cbn in Hk. intuition. }
  cbv zeta in *. destruct H as [-> | [-> | [-> | ->]]]; (split; [lia|]); auto.
  - right; right; right. split; [lia|]. intros d Hd. lia.
  - right; right; right. exact prime3.
Qed.
Print Assumptions lpv_default_unroll_good.

(** C04 is false in general: unroll factor 5 (and also, already for 1x1 matrices, 9)
    gives wrong values on the pure Python path.  The inputs are well formed and factor 1
    gives the specified values. *)
Definition seqA (n N : nat) : tensor Zring :=
  mkT [N; n; n] (fun idx => Z.of_nat (1 + nth 0 idx 0 * nth 0 idx 0 + 2 * nth 1 idx 0 + nth 2 idx 0 * (nth 0 idx 0 + 1))).
Definition seqx (N : nat) : tensor Zring := mkT [1; N] (fun idx => Z.of_nat (nth 1 idx 0)).
Definition zeros_zi (M : nat) : tensor Zring := mkT [1; M] (fun _ => 0%Z).
Theorem lpv_state_space_recursion_refuted :
  exists N M bs (A zi x : tensor Zring) Af zf u y,
    1 <= N /\ 1 <= M /\ 1 <= bs /\ lpv_backend_ok env0 false M /\
    matv 1 N M A Af /\ is2 zi 1 M zf /\ drive 1 N M x u /\
    lpv_state_space_recursion env0 false A zi x bs None = Ok y /\
    ~ picks 1 N M None y (fun b n m => state M (Af b) (zf b) (u b) (S n) m).
Proof.
  exists 10, 2, 5, (seqA 2 10), (zeros_zi 2), (seqx 10),
    (fun _ n i j => at_ (seqA 2 10) [n;i;j]), (fun _ _ => 0%Z), (fun b n m => if m =? 0 then at_ (seqx 10) [b;n] else 0%Z).
  destruct (okb_ex (lpv_state_space_recursion env0 false (seqA 2 10) (zeros_zi 2) (seqx 10) 5 None)
     (fun y => negb (Z.eqb (at_ y [0;5;0]) (state (R := Zring) 2 (fun n i j => at_ (seqA 2 10) [n;i;j]) (fun _ => 0%Z)
                      (fun n m => if m =? 0 then at_ (seqx 10) [0;n] else 0%Z) 6 0)))) as (y & Ey & H); [vm_compute; reflexivity|].
  exists y. split; [lia|]. split; [lia|]. split; [lia|]. split; [apply lpv_backend_env0|].
  split; [|split; [split; reflexivity|split; [|split; [exact Ey|]]]].
  - eapply matv_s; [split; [reflexivity|intros; reflexivity]|]. reflexivity.
  - apply (drive_2 (R := Zring) (fun b n => at_ (seqx 10) [b;n])); [split; reflexivity|]. intros; reflexivity.
  - intro Hp. cbn [picks] in Hp. apply negb_true_iff, Z.eqb_neq in H. apply H.
    apply (proj2 Hp); lia.
Qed.
Print Assumptions lpv_state_space_recursion_refuted.

(** More failing factors and sizes, by computation: scalars with factor 9; factor 7;
    and the default factor from N = 21 on. *)
Definition differs (n : nat) (r1 r2 : res (tensor Zring)) : bool :=
  match r1, r2 with
  | Ok y1, Ok y2 => negb (Z.eqb (at_ y1 [0;n;0]) (at_ y2 [0;n;0]))
  | _, _ => false
  end.
Example lpv_unroll_counterexamples :
  let run M N bs := lpv_state_space_recursion env0 false (seqA M N) (zeros_zi M) (seqx N) bs None in
  differs 9 (run 1 18 9) (run 1 18 1) = true /\
  differs 7 (run 2 14 7) (run 2 14 1) = true /\
  round_sqrt 21 = 5 /\ differs 5 (run 2 21 5) (run 2 21 1) = true /\
  differs 5 (run 2 21 4) (run 2 21 1) = false.
Proof. cbv zeta. repeat split; vm_compute; reflexivity. Qed.

(** C13.  Every documented combination of shapes (with the size conditions listed in
    Shapes.v, whose necessity is C14); unroll factors as for C04. *)
Theorem lpv_state_space_partial :
  forall (R : cring) e pr B N M F P (A x : tensor R) Bt C D zi uf oi Af xf Bm Cm Dm z0,
  1 <= B -> 1 <= N -> 1 <= M -> lpv_backend_ok e pr M -> unroll_good N uf ->
  sysv B N M F P A Bt C D oi Af Bm Cm Dm -> sigv B N F x xf -> init B M zi z0 ->
  exists y zf, lpv_state_space e pr A x Bt C D zi uf oi = Ok (y, zf) /\
    sigv B N P y (fun b => ss_y M (width F) (Af b) (Bm b) (Cm b) (Dm b) (z0 b) (xf b)) /\
    match zi with
    | None => zf = None
    | Some _ => exists z, zf = Some z /\
        is2 z B M (fun b => ss_h M (width F) (Af b) (Bm b) (z0 b) (xf b) N)
    end.
Proof. intros R e pr B N M F P A x Bt C D zi uf oi Af xf Bm Cm Dm z0 ? ? ? ? ? (? & ? & ? & ?) ? ?. now apply lpv_state_space_spec. Qed.
Print Assumptions lpv_state_space_partial.

(** One batch with two inputs, time-varying A, B and C, fixed D. *)
Example lpv_state_space_ex :
  let A := ofl 0%Z [3;2;2] [1;1;1;0; 0;2;1;1; 1;0;3;1]%Z : tensor Zring in
  let Bt := ofl 0%Z [3;2;2] [1;0;0;1; 2;1;1;1; 1;1;0;2]%Z : tensor Zring in
  let C := ofl 0%Z [3;2] [1;2; 0;1; 1;1]%Z : tensor Zring in
  let D := lst1 0%Z [5;7]%Z : tensor Zring in
  let x := ofl 0%Z [1;3;2] [1;0; 0;1; 2;2]%Z : tensor Zring in
  let zi := lst1 0%Z [1;-1]%Z : tensor Zring in
  unroll_good 3 None /\
  sysv 1 3 2 (Some 2) None A (Some Bt) (Some C) (Some D) None (fun _ n i j => at_ A [n;i;j])
    (fun _ n m k => at_ Bt [n;m;k]) (fun _ n _ m => at_ C [n;m]) (fun _ _ _ k => at_ D [k]) /\
  sigv 1 3 (Some 2) x (fun b n k => at_ x [b;n;k]) /\
  init 1 2 (Some zi) (fun _ m => at_ zi [m]) /\
  show2 (lpv_state_space env0 false A x (Some Bt) (Some C) (Some D) (Some zi) None None)
  = Some ([1;3], [4;8;30]%Z, Some ([1;2], [7;16]%Z)).
Proof.
  cbv zeta. split; [apply lpv_default_unroll_good; lia|]. split; [|split; [|split]].
  - split; [|split; [|split]].
    + eapply matv_s; [split; [reflexivity|]; intros; reflexivity|]. reflexivity.
    + eapply inv_NMF; [split; [reflexivity|intros; reflexivity]|intros ? ? ? ? ? ? ? ?; reflexivity].
    + eapply outv_NM; [split; [reflexivity|intros; reflexivity]|intros ? ? ? ? ? ? ? ?; reflexivity].
    + eapply fdv_3_F; [split; [reflexivity|intros; reflexivity]|intros ? ? ? ? ? ? ? ?; reflexivity].
  - split; [reflexivity|intros; reflexivity].
  - eapply init_M; [split; [reflexivity|intros; reflexivity]|intros; reflexivity].
  - vm_compute. reflexivity.
Qed.

(** ** C10: back-ends. *)
Theorem lpv_state_space_recursion_backends_partial :
  forall (R : cring) e1 e2 p1 p2 B N M (A zi x : tensor R) Af zf u bs1 bs2 oi,
  1 <= B -> 1 <= N -> 1 <= M -> unroll_good N (Some bs1) -> unroll_good N (Some bs2) ->
  lpv_backend_ok e1 p1 M -> lpv_backend_ok e2 p2 M ->
  matv B N M A Af -> is2 zi B M zf -> drive B N M x u -> idx_ok M oi ->
  exists y1 y2 h, lpv_state_space_recursion e1 p1 A zi x bs1 oi = Ok y1 /\
    lpv_state_space_recursion e2 p2 A zi x bs2 oi = Ok y2 /\
    picks B N M oi y1 h /\ picks B N M oi y2 h.
Proof.
  intros R e1 e2 p1 p2 B N M A zi x Af zf u bs1 bs2 oi HB HN HM H1 H2 E1 E2 HA Hz Hx Ho.
  destruct (lpv_state_space_recursion_partial R e1 p1 B N M A zi x Af zf u bs1 oi) as (y1 & Q1 & Y1); auto.
  destruct (lpv_state_space_recursion_partial R e2 p2 B N M A zi x Af zf u bs2 oi) as (y2 & Q2 & Y2); auto.
  exists y1, y2. eexists. split; [exact Q1|]. split; [exact Q2|]. split; [exact Y1|exact Y2].
Qed.
Print Assumptions lpv_state_space_recursion_backends_partial.

Theorem lpv_state_space_backends_partial :
  forall (R : cring) e1 e2 p1 p2 B N M F P (A x : tensor R) Bt C D zi uf1 uf2 oi Af xf Bm Cm Dm z0,
  1 <= B -> 1 <= N -> 1 <= M -> lpv_backend_ok e1 p1 M -> lpv_backend_ok e2 p2 M ->
  unroll_good N uf1 -> unroll_good N uf2 ->
  sysv B N M F P A Bt C D oi Af Bm Cm Dm -> sigv B N F x xf -> init B M zi z0 ->
  exists y1 z1 y2 z2 f g,
    lpv_state_space e1 p1 A x Bt C D zi uf1 oi = Ok (y1, z1) /\
    lpv_state_space e2 p2 A x Bt C D zi uf2 oi = Ok (y2, z2) /\
    sigv B N P y1 f /\ sigv B N P y2 f /\
    (zi = None -> z1 = None /\ z2 = None) /\
    (zi <> None -> exists w1 w2, z1 = Some w1 /\ z2 = Some w2 /\ is2 w1 B M g /\ is2 w2 B M g).
Proof.
  intros R e1 e2 p1 p2 B N M F P A x Bt C D zi uf1 uf2 oi Af xf Bm Cm Dm z0 HB HN HM E1 E2 U1 U2 HS Hx Hz.
  destruct (lpv_state_space_partial R e1 p1 B N M F P A x Bt C D zi uf1 oi Af xf Bm Cm Dm z0) as (y1 & z1 & Q1 & Y1 & Z1); auto.
  destruct (lpv_state_space_partial R e2 p2 B N M F P A x Bt C D zi uf2 oi Af xf Bm Cm Dm z0) as (y2 & z2 & Q2 & Y2 & Z2); auto.
  exists y1, z1, y2, z2. do 2 eexists. split; [exact Q1|]. split; [exact Q2|]. split; [exact Y1|]. split; [exact Y2|].
  split.
  - intros ->. auto.
  - intro Hn. destruct zi as [t|]; [|congruence]. destruct Z1 as (w1 & -> & W1), Z2 as (w2 & -> & W2). eauto 8.
Qed.
Print Assumptions lpv_state_space_backends_partial.

(** The ParaRNN route, the compiled CPU kernel and the plain loop on one system. *)
Example lpv_backends_ex :
  let ep := mkEnv true true false true false seqtree 1 1 in
  let ee := mkEnv true false false false false seqtree 1 1 in
  let A := ofl 0%Z [3;2;2] [1;1;1;0; 0;2;1;1; 1;0;3;1]%Z : tensor Zring in
  let zi := lst2 0%Z [[1;0];[2;1]]%Z : tensor Zring in
  let x := lst2 0%Z [[1;2;3];[0;1;0]]%Z : tensor Zring in
  lpv_backend_ok ep true 2 /\ pararnn_applicable ep true 2 = true /\ lpv_backend_ok ee false 2 /\
  lpv_extension_backend_indicator ee false 2 = true /\
  show2 (lpv_state_space ep true A x None None None (Some zi) (Some 1) None)
  = show2 (lpv_state_space env0 false A x None None None (Some zi) (Some 2) None) /\
  show2 (lpv_state_space ee false A x None None None (Some zi) (Some 1) None)
  = show2 (lpv_state_space env0 false A x None None None (Some zi) (Some 2) None) /\
  show2 (lpv_state_space ep true A x None None None (Some zi) (Some 1) None)
  = Some ([2;3;2], [1;0; 2;1; 4;3;  2;1; 3;2; 5;5]%Z, Some ([2;2], [7;15; 5;20]%Z)).
Proof.
  cbv zeta. split; [|split; [reflexivity|split; [|split; [reflexivity|repeat split; vm_compute; reflexivity]]]];
    (destruct (backend_env0 2) as [H _]; split; [exact H|]); repeat split; try reflexivity; discriminate.
Qed.

(** C10 is false in general: with the ParaRNN package available but neither the C++
    extension nor Helion, every CUDA call of order 2 or 3 with real data and unroll
    factor 1 fails, whatever the data. *)
Theorem pararnn_without_extension_refuted :
  forall (R : cring) e B N M F (A x : tensor R) Bt C D zi oi Af xf Bm z0,
  cuda e = true -> cplx e = false -> ext e = false -> helion e = false -> (M = 2 \/ M = 3) ->
  ~ (C <> None /\ oi <> None) ->
  matv B N M A Af -> sigv B N F x xf -> inmatv B N M F Bt Bm -> init B M zi z0 ->
  lpv_state_space e true A x Bt C D zi (Some 1) oi = Err AssertionError.
Proof.
  intros R e B N M F A x Bt C D zi oi Af xf Bm z0 Hc Hr Hx Hh HM HC HA Hsx HBm Hz.
  destruct (sig_size _ _ _ _ _ _ Hsx) as (Hs0 & Hs1 & Hrk & Hfe & Hrk2).
  unfold lpv_state_space. rewrite Hs0, Hs1, Hrk.
  assert (((rk A =? 3) || (rk A =? 4))%bool = true) as ->
    by (destruct HA as [g HA _|HA]; unfold rk; now rewrite (proj1 HA)).
  assert (sizen A 1 = M) as -> by (destruct HA as [g HA _|HA]; unfold sizen, rk; now rewrite (proj1 HA)).
  assert (sizen A 2 = M) as -> by (destruct HA as [g HA _|HA]; unfold sizen, rk; now rewrite (proj1 HA)).
  assert (sizen A 3 = N) as -> by (destruct HA as [g HA _|HA]; unfold sizen, rk; now rewrite (proj1 HA)).
  rewrite !Nat.eqb_refl.
  assert (match C, oi with Some _, Some _ => false | _, _ => true end = true) as ->.
  { destruct C, oi; auto. exfalso. apply HC. split; discriminate. }
  destruct (ss_zi_spec R B M x zi z0 ltac:(lia) Hz) as (z & -> & _). cbn [bind]. cbv zeta.
  destruct (lpv_input_spec R B N M F x xf Bt Bm Hsx HBm) as (Bx & -> & HBx). cbn [bind].
  assert (lpv_extension_backend_indicator e true M = true) as ->.
  { unfold lpv_extension_backend_indicator, pararnn_applicable. rewrite Hc, Hr, Hx. now destruct HM as [-> | ->]. }
  cbn [Nat.eqb andb]. unfold lpv_ext_ss_recur. rewrite Hx, Hh. cbn [orb].
  destruct oi as [i|]; [destruct zi|]; reflexivity.
Qed.
Print Assumptions pararnn_without_extension_refuted.

(** Helion without the C++ extension and without ParaRNN, real CUDA data of order 2. *)
Theorem lpv_helion_without_extension_refuted :
  forall (R : cring) e B N (A zi x : tensor R) Af zf u bs,
  helion e = true -> cuda e = true -> cplx e = false -> ext e = false ->
  (bs = 1 \/ N <= bs /\ 1 <= bs) ->
  matv B N 2 A Af -> is2 zi B 2 zf -> is3 x B N 2 u ->
  lpv_state_space_recursion e false A zi x bs None = Err AttributeError.
Proof.
  intros R e B N A zi x Af zf u bs He Hc Hr Hx Hb HA Hz Hu.
  unfold lpv_state_space_recursion. cbn [lpv_state_space_recursion_fuel].
  assert (size x 0 = B /\ size x 1 = N /\ rk x = 3 /\ sizen x 1 = 2) as (E1 & E2 & E3 & E4)
    by (unfold sizen, size, rk; rewrite (proj1 Hu); auto).
  assert (size zi 0 = B /\ size zi 1 = 2 /\ rk zi = 2) as (-> & -> & ->)
    by (unfold size, rk; rewrite (proj1 Hz); auto).
  assert ((rk A =? 3) || (rk A =? 4) = true /\ sizen A 1 = 2 /\ sizen A 2 = 2 /\ sizen A 3 = N /\
          negb (rk A =? 4) || (B =? size A 0) = true) as (H1 & H2 & H3 & H4 & H5).
  { destruct HA as [g HA _|HA]; unfold sizen, size, rk; rewrite (proj1 HA); cbn; rewrite ?Nat.eqb_refl; auto. }
  rewrite E1, E2, E3, E4, H1, H2, H3, H4, H5.
  cbn [Nat.eqb orb negb]. rewrite !Nat.eqb_refl.
  assert (bs <? 1 = false) as -> by (apply Nat.ltb_ge; lia). cbn [negb].
  assert ((bs =? 1) || (N <=? bs) = true) as ->.
  { destruct Hb as [->|[Hb _]]; [reflexivity|]. apply Nat.leb_le in Hb. rewrite Hb. apply orb_true_r. }
  unfold helion_backend_indicator. rewrite He, Hc, Hr. cbn [negb andb].
  unfold lpv_ext_ss_recur. rewrite He, Hx. cbn [orb]. rewrite E3, H2.
  cbn [Nat.eqb andb]. cbn [bind]. unfold MatrixRecurrence_forward. rewrite E4.
  unfold pararnn_applicable. cbn [andb Nat.eqb]. unfold op_recur2. rewrite Hx. reflexivity.
Qed.
Print Assumptions lpv_helion_without_extension_refuted.

Example lpv_backends_refuted_ex :
  let ep := mkEnv false false false true false seqtree 1 1 in
  let eh := mkEnv false false true true false seqtree 1 1 in
  let A := ofl 0%Z [2;2;2] [1;1;1;0; 0;2;1;1]%Z : tensor Zring in
  let zi := lst2 0%Z [[1;0]]%Z : tensor Zring in
  let x := ofl 0%Z [1;2;2] [0;0;0;0]%Z : tensor Zring in
  lpv_state_space ep true A x None None None (Some zi) (Some 1) None = Err AssertionError /\
  lpv_state_space_recursion eh false A zi x 1 None = Err AttributeError /\
  show2 (lpv_state_space ep false A x None None None (Some zi) (Some 1) None)
    = Some ([1;2;2], [1;0;1;1]%Z, Some ([1;2], [2;2]%Z)) /\
  show2 (lpv_state_space ep true A x None None None (Some zi) (Some 2) None)
    = Some ([1;2;2], [1;0;1;1]%Z, Some ([1;2], [2;2]%Z)).
Proof. cbv zeta. repeat split; vm_compute; reflexivity. Qed.

(** ** C14: shape dispatch when the batch size equals the signal length.

    A documented (batch, N, M) output matrix is read as (N, P, M) with P = N: the result
    is 3-D, and uses row n (not row b) of C. *)
Theorem lpv_C_dispatch_refuted :
  forall (R : cring) e pr N M F (A x C : tensor R) Bt zi uf Af xf Bm Cg z0,
  1 <= N -> 1 <= M -> lpv_backend_ok e pr M -> unroll_good N uf ->
  matv N N M A Af -> sigv N N F x xf -> inmatv N N M F Bt Bm -> is3 C N N M Cg -> init N M zi z0 ->
  exists y zf, lpv_state_space e pr A x Bt (Some C) None zi uf None = Ok (y, zf) /\
    is3 y N N N (fun b n p => ss_y M (width F) (Af b) (Bm b) (fun n p m => Cg n p m) (fun _ _ _ => r0)
                             (z0 b) (xf b) n p).
Proof.
  intros R e pr N M F A x C Bt zi uf Af xf Bm Cg z0 HN HM He Hu HA Hx HBm HC Hz.
  destruct (lpv_state_space_partial R e pr N N M F (Some N) A x Bt (Some C) None zi uf None Af xf Bm
             (fun _ n p m => Cg n p m) (fun _ _ _ _ => r0) z0) as (y & zf & Hy & Hs & _); auto.
  - split; [exact HA|]. split; [exact HBm|]. split.
    + eapply outv_NPM; [exact HC|]. intros ? ? ? ? ? ? ? ?. reflexivity.
    + apply fdv_none. intros ? ? ? ? ? ? ? ?. reflexivity.
  - exists y, zf. split; [exact Hy|exact Hs].
Qed.
Print Assumptions lpv_C_dispatch_refuted.

(** A documented (batch, M) input matrix is read as (N, M), so row b uses entry n. *)
Theorem lpv_B_dispatch_refuted :
  forall (R : cring) e pr N M (A x Bt : tensor R) zi uf Af xf Bg z0,
  1 <= N -> 1 <= M -> lpv_backend_ok e pr M -> unroll_good N uf ->
  matv N N M A Af -> is2 x N N xf -> is2 Bt N M Bg -> init N M zi z0 ->
  exists y zf, lpv_state_space e pr A x (Some Bt) None None zi uf None = Ok (y, zf) /\
    is3 y N N M (fun b n m => ss_h M 1 (Af b) (fun n m _ => Bg n m) (z0 b) (fun n _ => xf b n) n m).
Proof.
  intros R e pr N M A x Bt zi uf Af xf Bg z0 HN HM He Hu HA Hx HBt Hz.
  destruct (lpv_state_space_partial R e pr N N M None (Some M) A x (Some Bt) None None zi uf None Af (fun b n _ => xf b n)
             (fun _ n m _ => Bg n m) (fun b _ => unit3 b) (fun _ _ _ _ => r0) z0) as (y & zf & Hy & Hs & _); auto.
  - split; [exact HA|]. split; [|split].
    + eapply inv_NM; [exact HBt|]. intros ? ? ? ? ? ? ? ?. reflexivity.
    + apply outv_none. intros ? ? ? ? ? ? ? ?. reflexivity.
    + apply fdv_none. intros ? ? ? ? ? ? ? ?. reflexivity.
  - exists y, zf. split; [exact Hy|]. eapply is3_ext; [exact Hs|]. intros b n m Hb Hn Hm. cbv beta.
    now apply ss_y_states.
Qed.
Print Assumptions lpv_B_dispatch_refuted.

(** Batch 2: the documented 2-D result for N = 3 becomes 3-D for N = 2; D of shape
    (batch, N) fails to add; a per-batch (M, F) matrix with M = N = F is rejected. *)
Example lpv_dispatch_ex :
  let A N := mkT [N;2;2] (fun _ => 1%Z) : tensor Zring in
  let C N := mkT [2;N;2] (fun _ => 1%Z) : tensor Zring in
  let x N := mkT [2;N] (fun _ => 1%Z) : tensor Zring in
  let D N := mkT [2;N] (fun _ => 1%Z) : tensor Zring in
  let shp (r : res (tensor Zring * option (tensor Zring))) :=
    match r with Ok (y, _) => Some (shape y) | Err _ => None end in
  shp (lpv_state_space env0 false (A 3) (x 3) None (Some (C 3)) None None None None) = Some [2;3] /\
  shp (lpv_state_space env0 false (A 2) (x 2) None (Some (C 2)) None None None None) = Some [2;2;2] /\
  shp (lpv_state_space env0 false (A 3) (x 3) None (Some (C 3)) (Some (D 3)) None None None) = Some [2;3] /\
  shp (lpv_state_space env0 false (A 3) (x 3) None (Some (mkT [2] (fun _ => 1%Z))) (Some (D 3)) None None None) = Some [2;3] /\
  shp (lpv_state_space env0 false (A 2) (x 2) None (Some (mkT [2] (fun _ => 1%Z))) (Some (D 2)) None None None) = Some [2;2;2] /\
  lpv_state_space env0 false (A 2) (mkT [3;2;2] (fun _ => 1%Z)) (Some (mkT [3;2;2] (fun _ => 1%Z))) None None None None None
    = Err AssertionError /\
  shp (lpv_state_space env0 false (A 4) (mkT [3;4;2] (fun _ => 1%Z)) (Some (mkT [3;2;2] (fun _ => 1%Z))) None None None None None)
    = Some [3;4;2].
Proof. cbv zeta. repeat split; vm_compute; reflexivity. Qed.

(** ** C15: streaming.  Two chunks with the matching parts of the coefficient
    trajectories, the final state of the first starting the second. *)
Theorem lpv_state_space_streaming_partial :
  forall (R : cring) e e1 e2 p p1 p2 B N1 N2 M F P (A A1 A2 x x1 x2 zi : tensor R) Bt C D Bt1 C1 D1 Bt2 C2 D2
    uf uf1 uf2 oi Af xf Bm Cm Dm Af1 xf1 Bm1 Cm1 Dm1 Af2 xf2 Bm2 Cm2 Dm2 z0,
  1 <= B -> 1 <= N1 -> 1 <= N2 -> 1 <= M ->
  lpv_backend_ok e p M -> lpv_backend_ok e1 p1 M -> lpv_backend_ok e2 p2 M ->
  unroll_good (N1 + N2) uf -> unroll_good N1 uf1 -> unroll_good N2 uf2 ->
  sysv B (N1 + N2) M F P A Bt C D oi Af Bm Cm Dm ->
  sysv B N1 M F P A1 Bt1 C1 D1 oi Af1 Bm1 Cm1 Dm1 -> sysv B N2 M F P A2 Bt2 C2 D2 oi Af2 Bm2 Cm2 Dm2 ->
  sigv B (N1 + N2) F x xf -> sigv B N1 F x1 xf1 -> sigv B N2 F x2 xf2 ->
  same4 B N1 M M Af1 Af -> same4 B N2 M M Af2 (fun b n => Af b (N1 + n)) ->
  same4 B N1 M (width F) Bm1 Bm -> same4 B N2 M (width F) Bm2 (fun b n => Bm b (N1 + n)) ->
  same4 B N1 (width P) M Cm1 Cm -> same4 B N2 (width P) M Cm2 (fun b n => Cm b (N1 + n)) ->
  same4 B N1 (width P) (width F) Dm1 Dm -> same4 B N2 (width P) (width F) Dm2 (fun b n => Dm b (N1 + n)) ->
  (forall b n k, b < B -> n < N1 -> k < width F -> xf1 b n k = xf b n k) ->
  (forall b n k, b < B -> n < N2 -> k < width F -> xf2 b n k = xf b (N1 + n) k) ->
  init B M (Some zi) z0 ->
  exists y z y1 z1 y2 z2 f g,
    lpv_state_space e p A x Bt C D (Some zi) uf oi = Ok (y, Some z) /\
    lpv_state_space e1 p1 A1 x1 Bt1 C1 D1 (Some zi) uf1 oi = Ok (y1, Some z1) /\
    lpv_state_space e2 p2 A2 x2 Bt2 C2 D2 (Some z1) uf2 oi = Ok (y2, Some z2) /\
    sigv B (N1 + N2) P y f /\ sigv B N1 P y1 f /\ sigv B N2 P y2 (fun b n => f b (N1 + n)) /\
    is2 z B M g /\ is2 z2 B M g.
Proof.
  intros R e e1 e2 p p1 p2 B N1 N2 M F P A A1 A2 x x1 x2 zi Bt C D Bt1 C1 D1 Bt2 C2 D2
    uf uf1 uf2 oi Af xf Bm Cm Dm Af1 xf1 Bm1 Cm1 Dm1 Af2 xf2 Bm2 Cm2 Dm2 z0
    HB H1 H2 HM E E1 E2 U U1 U2 HS HS1 HS2 Hx Hx1 Hx2 SA1 SA2 SB1 SB2 SC1 SC2 SD1 SD2 X1 X2 Hz.
  destruct (lpv_state_space_partial R e p B (N1 + N2) M F P A x Bt C D (Some zi) uf oi Af xf Bm Cm Dm z0)
    as (y & zo & Q & Y & z & -> & HZ); auto; [lia|].
  destruct (lpv_state_space_partial R e1 p1 B N1 M F P A1 x1 Bt1 C1 D1 (Some zi) uf1 oi Af1 xf1 Bm1 Cm1 Dm1 z0)
    as (y1 & zo & Q1 & Y1 & z1 & -> & HZ1); auto.
  destruct (lpv_state_space_partial R e2 p2 B N2 M F P A2 x2 Bt2 C2 D2 (Some z1) uf2 oi Af2 xf2 Bm2 Cm2 Dm2
    (fun b => ss_h M (width F) (Af1 b) (Bm1 b) (z0 b) (xf1 b) N1))
    as (y2 & zo & Q2 & Y2 & z2 & -> & HZ2); auto.
  { eapply init_BM; [exact HZ1|]. reflexivity. }
  assert (Hmid : forall b i, b < B -> i < M ->
    ss_h M (width F) (Af1 b) (Bm1 b) (z0 b) (xf1 b) N1 i
    = ss_h M (width F) (Af b) (Bm b) (z0 b) (xf b) N1 i).
  { intros b i Hb Hi. apply ss_h_ext; auto. }
  exists y, z, y1, z1, y2, z2. do 2 eexists. repeat (split; [eassumption|]).
  split; [|split; [|split; [exact HZ|]]].
  - destruct P; [eapply is3_ext|eapply is2_ext]; try exact Y1; intros; cbv beta;
      apply ss_y_ext; intros; (apply SA1 || apply SB1 || apply SC1 || apply SD1 || apply X1 || auto); auto; lia.
  - destruct P; [eapply is3_ext|eapply is2_ext]; try exact Y2; intros; cbv beta;
      rewrite ss_y_shift; apply ss_y_ext; intros; (apply SA2 || apply SB2 || apply SC2 || apply SD2 || apply X2 || auto); auto; lia.
  - eapply is2_ext; [exact HZ2|]. intros. cbv beta. rewrite ss_h_shift. apply ss_h_ext; intros;
      (apply SA2 || apply SB2 || apply X2 || auto); auto; lia.
Qed.
Print Assumptions lpv_state_space_streaming_partial.

Example lpv_streaming_ex :
  let A := mkT [1;5;2;2] (fun i => nth (nth 1 i 0 * 4 + nth 2 i 0 * 2 + nth 3 i 0) [1;1;1;0; 0;2;1;1; 1;0;3;1; 1;1;0;1; 2;0;0;1]%Z 0%Z) : tensor Zring in
  let zi := lst1 0%Z [1;0]%Z : tensor Zring in
  let x := lst2 0%Z [[1;2;3;4;5]]%Z : tensor Zring in
  let x1 := lst2 0%Z [[1;2]]%Z : tensor Zring in
  let x2 := lst2 0%Z [[3;4;5]]%Z : tensor Zring in
  show2 (lpv_state_space env0 false A x None None None (Some zi) (Some 2) (Some 0%Z))
    = Some ([1;5], [1;2;4;7;26]%Z, Some ([1;2], [57;15]%Z)) /\
  show2 (lpv_state_space env0 false (slice 1 None (Some 2%Z) A) x1 None None None (Some zi) (Some 1) (Some 0%Z))
    = Some ([1;2], [1;2]%Z, Some ([1;2], [4;3]%Z)) /\
  show2 (lpv_state_space env0 false (slice 1 (Some 2%Z) None A) x2 None None None (Some (lst2 0%Z [[4;3]]%Z)) (Some 2) (Some 0%Z))
    = Some ([1;3], [4;7;26]%Z, Some ([1;2], [57;15]%Z)).
Proof. repeat split; vm_compute; reflexivity. Qed.

(** ** C16: batch row b of one call equals row b' of any other call whose row b' has the
    same data. *)
Theorem lpv_state_space_batch_independent_partial :
  forall (R : cring) e e' p p' B B' b b' N M F P (A x A' x' : tensor R) Bt C D zi uf oi Bt' C' D' zi' uf' oi'
    Af xf Bm Cm Dm z0 Af' xf' Bm' Cm' Dm' z0',
  b < B -> b' < B' -> 1 <= N -> 1 <= M -> lpv_backend_ok e p M -> lpv_backend_ok e' p' M ->
  unroll_good N uf -> unroll_good N uf' ->
  sysv B N M F P A Bt C D oi Af Bm Cm Dm -> sysv B' N M F P A' Bt' C' D' oi' Af' Bm' Cm' Dm' ->
  sigv B N F x xf -> sigv B' N F x' xf' -> init B M zi z0 -> init B' M zi' z0' ->
  (forall n i j, n < N -> i < M -> j < M -> Af b n i j = Af' b' n i j) ->
  (forall n i j, n < N -> i < M -> j < width F -> Bm b n i j = Bm' b' n i j) ->
  (forall n i j, n < N -> i < width P -> j < M -> Cm b n i j = Cm' b' n i j) ->
  (forall n i j, n < N -> i < width P -> j < width F -> Dm b n i j = Dm' b' n i j) ->
  (forall i, i < M -> z0 b i = z0' b' i) -> (forall n k, n < N -> k < width F -> xf b n k = xf' b' n k) ->
  exists y z y' z' f f' g g',
    lpv_state_space e p A x Bt C D zi uf oi = Ok (y, z) /\
    lpv_state_space e' p' A' x' Bt' C' D' zi' uf' oi' = Ok (y', z') /\
    sigv B N P y f /\ sigv B' N P y' f' /\
    (forall n p, n < N -> p < width P -> f b n p = f' b' n p) /\
    (forall w, z = Some w -> is2 w B M g) /\ (forall w, z' = Some w -> is2 w B' M g') /\
    (forall m, m < M -> g b m = g' b' m).
Proof.
  intros R e e' p p' B B' b b' N M F P A x A' x' Bt C D zi uf oi Bt' C' D' zi' uf' oi'
    Af xf Bm Cm Dm z0 Af' xf' Bm' Cm' Dm' z0' Hb Hb' HN HM E E' U U' HS HS' Hx Hx' Hz Hz' XA XB XC XD Xz Xx.
  destruct (lpv_state_space_partial R e p B N M F P A x Bt C D zi uf oi Af xf Bm Cm Dm z0)
    as (y & z & Q & Y & HZ); auto; [lia|].
  destruct (lpv_state_space_partial R e' p' B' N M F P A' x' Bt' C' D' zi' uf' oi' Af' xf' Bm' Cm' Dm' z0')
    as (y' & z' & Q' & Y' & HZ'); auto; [lia|].
  exists y, z, y', z'. do 4 eexists. repeat (split; [eassumption|]). split; [|split; [|split]].
  - intros n q Hn Hp. cbv beta. apply ss_y_ext; intros; (apply XA || apply XB || apply XC || apply XD || apply Xx || auto); auto; lia.
  - intros w ->. destruct zi; [|discriminate]. destruct HZ as (w' & [= <-] & HZ). exact HZ.
  - intros w ->. destruct zi'; [|discriminate]. destruct HZ' as (w' & [= <-] & HZ'). exact HZ'.
  - intros m Hm. cbv beta. apply ss_h_ext; auto.
Qed.
Print Assumptions lpv_state_space_batch_independent_partial.

(** ** C17: causality in the input and in the coefficients: the state matrices and input
    matrices before n, the output matrices up to n and the input up to n determine the
    output up to n. *)
Theorem lpv_state_space_causal_partial :
  forall (R : cring) e e' p p' B N N' M F P (A x A' x' : tensor R) Bt C D Bt' C' D' zi uf uf' oi
    Af xf Bm Cm Dm Af' xf' Bm' Cm' Dm' z0 n,
  1 <= B -> 1 <= N -> 1 <= N' -> 1 <= M -> lpv_backend_ok e p M -> lpv_backend_ok e' p' M ->
  unroll_good N uf -> unroll_good N' uf' ->
  sysv B N M F P A Bt C D oi Af Bm Cm Dm -> sysv B N' M F P A' Bt' C' D' oi Af' Bm' Cm' Dm' ->
  sigv B N F x xf -> sigv B N' F x' xf' -> init B M zi z0 ->
  same4 B n M M Af Af' -> same4 B n M (width F) Bm Bm' ->
  same4 B (S n) (width P) M Cm Cm' -> same4 B (S n) (width P) (width F) Dm Dm' ->
  (forall b k j, b < B -> k <= n -> j < width F -> xf b k j = xf' b k j) ->
  exists y z y' z' f f',
    lpv_state_space e p A x Bt C D zi uf oi = Ok (y, z) /\ lpv_state_space e' p' A' x' Bt' C' D' zi uf' oi = Ok (y', z') /\
    sigv B N P y f /\ sigv B N' P y' f' /\
    (forall b k p, b < B -> k <= n -> p < width P -> f b k p = f' b k p).
Proof.
  intros R e e' p p' B N N' M F P A x A' x' Bt C D Bt' C' D' zi uf uf' oi Af xf Bm Cm Dm Af' xf' Bm' Cm' Dm' z0 n
    HB HN HN' HM E E' U U' HS HS' Hx Hx' Hz SA SB SC SD Xx.
  destruct (lpv_state_space_partial R e p B N M F P A x Bt C D zi uf oi Af xf Bm Cm Dm z0) as (y & z & Q & Y & _); auto.
  destruct (lpv_state_space_partial R e' p' B N' M F P A' x' Bt' C' D' zi uf' oi Af' xf' Bm' Cm' Dm' z0) as (y' & z' & Q' & Y' & _); auto.
  exists y, z, y', z'. do 2 eexists. repeat (split; [eassumption|]).
  intros b k q Hb Hk Hp. cbv beta. apply ss_y_ext; intros;
    (apply SA || apply SB || apply SC || apply SD || apply Xx || auto); auto; lia.
Qed.
Print Assumptions lpv_state_space_causal_partial.

(** ** C18: output and final state are linear in (input, initial state). *)
Theorem lpv_state_space_linear_partial :
  forall (R : cring) e pr B N M F P (A x x1 x2 zi zi1 zi2 : tensor R) Bt C D uf oi Af xf1 xf2 Bm Cm Dm z1 z2 c1 c2,
  1 <= B -> 1 <= N -> 1 <= M -> lpv_backend_ok e pr M -> unroll_good N uf ->
  sysv B N M F P A Bt C D oi Af Bm Cm Dm ->
  sigv B N F x1 xf1 -> sigv B N F x2 xf2 -> init B M (Some zi1) z1 -> init B M (Some zi2) z2 ->
  sigv B N F x (fun b n k => radd (rmul c1 (xf1 b n k)) (rmul c2 (xf2 b n k))) ->
  init B M (Some zi) (fun b m => radd (rmul c1 (z1 b m)) (rmul c2 (z2 b m))) ->
  exists y w y1 w1 y2 w2 f1 f2 g1 g2,
    lpv_state_space e pr A x Bt C D (Some zi) uf oi = Ok (y, Some w) /\
    lpv_state_space e pr A x1 Bt C D (Some zi1) uf oi = Ok (y1, Some w1) /\
    lpv_state_space e pr A x2 Bt C D (Some zi2) uf oi = Ok (y2, Some w2) /\
    sigv B N P y1 f1 /\ sigv B N P y2 f2 /\ is2 w1 B M g1 /\ is2 w2 B M g2 /\
    sigv B N P y (fun b n p => radd (rmul c1 (f1 b n p)) (rmul c2 (f2 b n p))) /\
    is2 w B M (fun b m => radd (rmul c1 (g1 b m)) (rmul c2 (g2 b m))).
Proof.
  intros R e pr B N M F P A x x1 x2 zi zi1 zi2 Bt C D uf oi Af xf1 xf2 Bm Cm Dm z1 z2 c1 c2
    HB HN HM E U HS Hx1 Hx2 Hz1 Hz2 Hx Hz.
  destruct (lpv_state_space_partial R e pr B N M F P A x Bt C D (Some zi) uf oi Af _ Bm Cm Dm _ HB HN HM E U HS Hx Hz)
    as (y & ? & Q & Y & w & -> & W).
  destruct (lpv_state_space_partial R e pr B N M F P A x1 Bt C D (Some zi1) uf oi Af _ Bm Cm Dm _ HB HN HM E U HS Hx1 Hz1)
    as (y1 & ? & Q1 & Y1 & w1 & -> & W1).
  destruct (lpv_state_space_partial R e pr B N M F P A x2 Bt C D (Some zi2) uf oi Af _ Bm Cm Dm _ HB HN HM E U HS Hx2 Hz2)
    as (y2 & ? & Q2 & Y2 & w2 & -> & W2).
  exists y, w, y1, w1, y2, w2. do 4 eexists. repeat (split; [eassumption|]). split.
  - destruct P; [eapply is3_ext|eapply is2_ext]; try exact Y; intros; cbv beta; apply ss_y_lin.
  - eapply is2_ext; [exact W|]. intros. cbv beta. apply ss_h_lin.
Qed.
Print Assumptions lpv_state_space_linear_partial.

(** ** C45: argument errors. *)
Theorem lpv_unroll_zero_error :
  forall (R : cring) e pr B N M (A zi x : tensor R) Af zf u oi,
  matv B N M A Af -> is2 zi B M zf -> drive B N M x u ->
  lpv_state_space_recursion e pr A zi x 0 oi = Err ValueError.
Proof.
  intros R e pr B N M A zi x Af zf u oi HA Hz Hu.
  unfold lpv_state_space_recursion. cbn [lpv_state_space_recursion_fuel].
  assert (((rk x =? 2) || (rk x =? 3)) = true /\ size x 0 = B /\ size x 1 = N /\ negb (rk x =? 3) || (M =? sizen x 1) = true) as (-> & -> & -> & E4).
  { destruct Hu as [f Hu _|Hu]; unfold sizen, size, rk; rewrite (proj1 Hu); cbn; rewrite ?Nat.eqb_refl; auto. }
  assert (size zi 0 = B /\ size zi 1 = M /\ rk zi = 2) as (-> & -> & ->)
    by (unfold size, rk; rewrite (proj1 Hz); auto).
  assert ((rk A =? 3) || (rk A =? 4) = true /\ sizen A 1 = M /\ sizen A 2 = M /\ sizen A 3 = N /\
          negb (rk A =? 4) || (B =? size A 0) = true) as (H1 & H2 & H3 & H4 & H5).
  { destruct HA as [g HA _|HA]; unfold sizen, size, rk; rewrite (proj1 HA); cbn; rewrite ?Nat.eqb_refl; auto. }
  rewrite H1, H2, H3, H4, H5, E4, !Nat.eqb_refl. reflexivity.
Qed.
Print Assumptions lpv_unroll_zero_error.

Theorem lpv_length_error :
  forall (R : cring) e pr (A x : tensor R) Bt C D zi uf oi,
  (rk x = 2 \/ rk x = 3) -> (rk A = 3 \/ rk A = 4) -> sizen A 2 = sizen A 1 -> sizen A 3 <> size x 1 ->
  lpv_state_space e pr A x Bt C D zi uf oi = Err AssertionError.
Proof.
  intros R e pr A x Bt C D zi uf oi Hx HA HM HN. unfold lpv_state_space.
  assert ((rk x =? 2) || (rk x =? 3) = true) as -> by (destruct Hx as [-> | ->]; reflexivity).
  assert ((rk A =? 3) || (rk A =? 4) = true) as -> by (destruct HA as [-> | ->]; reflexivity).
  rewrite HM, Nat.eqb_refl. apply Nat.eqb_neq in HN. now rewrite HN.
Qed.
Print Assumptions lpv_length_error.

Theorem lpv_C_and_out_idx_error :
  forall (R : cring) e pr (A x C : tensor R) Bt D zi uf i,
  (rk x = 2 \/ rk x = 3) -> (rk A = 3 \/ rk A = 4) -> sizen A 2 = sizen A 1 -> sizen A 3 = size x 1 ->
  lpv_state_space e pr A x Bt (Some C) D zi uf (Some i) = Err ValueError.
Proof.
  intros R e pr A x C Bt D zi uf i Hx HA HM HN. unfold lpv_state_space.
  assert ((rk x =? 2) || (rk x =? 3) = true) as -> by (destruct Hx as [-> | ->]; reflexivity).
  assert ((rk A =? 3) || (rk A =? 4) = true) as -> by (destruct HA as [-> | ->]; reflexivity).
  now rewrite HM, HN, !Nat.eqb_refl.
Qed.
Print Assumptions lpv_C_and_out_idx_error.

Example lpv_errors_ex :
  let A := mkT [3;2;2] (fun _ => 1%Z) : tensor Zring in
  let x := mkT [1;3] (fun _ => 1%Z) : tensor Zring in
  lpv_state_space_recursion env0 false A (mkT [1;2] (fun _ => 0%Z)) x 0 None = Err ValueError /\
  lpv_state_space env0 false A (mkT [1;4] (fun _ => 1%Z)) None None None None None None = Err AssertionError /\
  lpv_state_space env0 false A x None (Some (mkT [2] (fun _ => 1%Z))) None None None (Some 0%Z) = Err ValueError.
Proof. cbv zeta. repeat split; vm_compute; reflexivity. Qed.
