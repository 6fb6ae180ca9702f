(** Theorems about lti/ssm.py: state_space_recursion and state_space
    (C03, C09, C11, C12, C15-C18, C43, C45). *)
From Coq Require Import List Arith Lia ZArith Bool.
From Verif Require Import Scalar Tensor TensorLemmas Spec Shapes Algebra M_Kernels M_LtiSsm P_SsSpec P_LtiSsm.
Import ListNotations.

(** C03.  Every ring, batch size, order, length, unroll factor, shared or per-batch A,
    2-D or 3-D input, output index or none; every back-end that is installed
    consistently ([backend_ok], see P_LtiSsm and C09 below). *)
Theorem state_space_recursion_correct :
  forall (R : cring) e B N M (A zi x : tensor R) Af zf u bs oi,
  1 <= B -> 1 <= N -> 1 <= M -> 1 <= bs -> backend_ok e M ->
  matc B M A Af -> is2 zi B M zf -> drive B N M x u -> idx_ok M oi ->
  exists y, state_space_recursion e A zi x bs oi = Ok y /\
    picks B N M oi y (fun b n m => state M (fun _ => Af b) (zf b) (u b) (S n) m).
Proof.
  intros. apply state_space_recursion_spec; auto. intro. now apply backend_helion.
Qed.
Print Assumptions state_space_recursion_correct.

(** Two batches with different matrices, five samples, blocks of 3, last component. *)
Example state_space_recursion_ex :
  let A := ofl 0%Z [2;2;2] [1;1;1;0; 0;2;1;1]%Z : tensor Zring in
  let zi := lst2 0%Z [[1;0];[0;1]]%Z : tensor Zring in
  let x := lst2 0%Z [[0;0;0;0;0];[1;2;3;4;5]]%Z : tensor Zring in
  backend_ok env0 2 /\ matc 2 2 A (fun b i j => at_ A [b;i;j]) /\
  drive 2 5 2 x (fun b n m => if m =? 0 then at_ x [b;n] else 0%Z) /\ idx_ok 2 (Some (-1)%Z) /\
  show (state_space_recursion env0 A zi x 3 (Some (-1)%Z)) = Some ([2;5], [1;1;2;3;5; 1;4;8;19;39]%Z).
Proof.
  cbv zeta. split; [apply backend_env0|]. split; [|split; [|split]].
  - apply matc_b. split; [reflexivity|]. intros. reflexivity.
  - apply (drive_2 (R := Zring) (fun b n => at_ (lst2 0%Z [[0;0;0;0;0];[1;2;3;4;5]]%Z) [b;n])); [split; reflexivity|].
    intros; reflexivity.
  - now exists 1.
  - vm_compute. reflexivity.
Qed.

(** C11.  Every documented combination of shapes (with the size conditions listed in
    Shapes.v, whose necessity is C12), default or given unroll factor. *)
Theorem state_space_correct :
  forall (R : cring) e B N M F P (A x : tensor R) Bt C D zi uf oi Af xf Bm Cm Dm z0,
  1 <= B -> 1 <= N -> 1 <= M -> backend_ok e M -> unroll_ok uf ->
  sys B M F P A Bt C D oi Af Bm Cm Dm -> sigv B N F x xf -> init B M zi z0 ->
  exists y zf, state_space e A x Bt C D zi uf oi = Ok (y, zf) /\
    sigv B N P y (fun b => ss_y M (width F) (fun _ => Af b) (fun _ => Bm b) (fun _ => Cm b) (fun _ => Dm b)
                             (z0 b) (xf b)) /\
    match zi with
    | None => zf = None
    | Some _ => exists z, zf = Some z /\
        is2 z B M (fun b => ss_h M (width F) (fun _ => Af b) (fun _ => Bm b) (z0 b) (xf b) N)
    end.
Proof. intros ? ? ? ? ? ? ? ? ? ? ? ? ? ? ? ? ? ? ? ? ? ? ? ? ? ? (? & ? & ? & ?) ? ?. now apply state_space_spec. Qed.
Print Assumptions state_space_correct.

(** Two batches, two inputs, three states, one shared output row, direct feed-through
    and an initial state. *)
Example state_space_ex :
  let A := ofl 0%Z [3;3] [0;1;0; 0;0;1; 1;-1;2]%Z : tensor Zring in
  let Bt := ofl 0%Z [3;2] [1;0; 0;1; 2;-1]%Z : tensor Zring in
  let C := lst1 0%Z [1;2;3]%Z : tensor Zring in
  let D := lst1 0%Z [5;7]%Z : tensor Zring in
  let x := ofl 0%Z [2;4;2] [1;0; 0;1; 2;2; -1;3;  0;0; 1;1; 0;0; 0;1]%Z : tensor Zring in
  let zi := lst1 0%Z [1;-1;1]%Z : tensor Zring in
  sys 2 3 (Some 2) None A (Some Bt) (Some C) (Some D) None (fun _ i j => at_ A [i;j])
    (fun _ m k => at_ Bt [m;k]) (fun _ _ m => at_ C [m]) (fun _ _ k => at_ D [k]) /\
  sigv 2 4 (Some 2) x (fun b n k => at_ x [b;n;k]) /\
  init 2 3 (Some zi) (fun _ m => at_ zi [m]) /\
  show2 (state_space env0 A x (Some Bt) (Some C) (Some D) (Some zi) (Some 3) None)
  = Some ([2;4], [7;27;69;97; 2;25;33;59]%Z, Some ([2;3], [11;19;24; 7;12;19]%Z)).
Proof.
  cbv zeta. split; [|split; [|split]].
  - split; [|split; [|split]].
    + eapply matc_s; [split; [reflexivity|]; intros; reflexivity|]. reflexivity.
    + eapply in_MF; [split; [reflexivity|intros; reflexivity]|left; lia|intros ? ? ? ? ? ?; reflexivity].
    + eapply out_M; [split; [reflexivity|intros; reflexivity]|intros ? ? ? ? ? ?; reflexivity].
    + eapply fd_3_F; [split; [reflexivity|intros; reflexivity]|intros ? ? ? ? ? ?; reflexivity].
  - split; [reflexivity|intros; reflexivity].
  - eapply init_M; [split; [reflexivity|intros; reflexivity]|intros; reflexivity].
  - vm_compute. reflexivity.
Qed.

(** ** C09: back-ends.

    Two consistently installed back-ends and two unroll factors give the same values. *)
Theorem state_space_recursion_backends_partial :
  forall (R : cring) e1 e2 B N M (A zi x : tensor R) Af zf u bs1 bs2 oi,
  1 <= B -> 1 <= N -> 1 <= M -> 1 <= bs1 -> 1 <= bs2 -> backend_ok e1 M -> backend_ok e2 M ->
  matc B M A Af -> is2 zi B M zf -> drive B N M x u -> idx_ok M oi ->
  exists y1 y2 h, state_space_recursion e1 A zi x bs1 oi = Ok y1 /\
    state_space_recursion e2 A zi x bs2 oi = Ok y2 /\
    picks B N M oi y1 h /\ picks B N M oi y2 h.
Proof.
  intros R e1 e2 B N M A zi x Af zf u bs1 bs2 oi HB HN HM H1 H2 E1 E2 HA Hz Hx Ho.
  destruct (state_space_recursion_correct R e1 B N M A zi x Af zf u bs1 oi) as (y1 & ? & ?); auto.
  destruct (state_space_recursion_correct R e2 B N M A zi x Af zf u bs2 oi) as (y2 & ? & ?); auto.
  eauto 8.
Qed.
Print Assumptions state_space_recursion_backends_partial.

Theorem state_space_backends_partial :
  forall (R : cring) e1 e2 B N M F P (A x : tensor R) Bt C D zi uf1 uf2 oi Af xf Bm Cm Dm z0,
  1 <= B -> 1 <= N -> 1 <= M -> backend_ok e1 M -> backend_ok e2 M -> unroll_ok uf1 -> unroll_ok uf2 ->
  sys B M F P A Bt C D oi Af Bm Cm Dm -> sigv B N F x xf -> init B M zi z0 ->
  exists y1 z1 y2 z2 f g,
    state_space e1 A x Bt C D zi uf1 oi = Ok (y1, z1) /\
    state_space e2 A x Bt C D zi uf2 oi = Ok (y2, z2) /\
    sigv B N P y1 f /\ sigv B N P y2 f /\
    (zi = None -> z1 = None /\ z2 = None) /\
    (zi <> None -> exists w1 w2, z1 = Some w1 /\ z2 = Some w2 /\ is2 w1 B M g /\ is2 w2 B M g).
Proof.
  intros R e1 e2 B N M F P A x Bt C D zi uf1 uf2 oi Af xf Bm Cm Dm z0 HB HN HM E1 E2 U1 U2 HS Hx Hz.
  destruct (state_space_correct R e1 B N M F P A x Bt C D zi uf1 oi Af xf Bm Cm Dm z0) as (y1 & z1 & Q1 & Y1 & Z1); auto.
  destruct (state_space_correct R e2 B N M F P A x Bt C D zi uf2 oi Af xf Bm Cm Dm z0) as (y2 & z2 & Q2 & Y2 & Z2); auto.
  exists y1, z1, y2, z2. do 2 eexists. split; [exact Q1|]. split; [exact Q2|]. split; [exact Y1|]. split; [exact Y2|].
  split.
  - intros ->. auto.
  - intro Hn. destruct zi as [t|]; [|congruence]. destruct Z1 as (w1 & -> & W1), Z2 as (w2 & -> & W2). eauto 8.
Qed.
Print Assumptions state_space_backends_partial.

(** A machine with a compiled CPU extension: the compiled second-order kernel and the
    plain loop agree. *)
Example backends_ex :
  let ee := mkEnv true false false false false seqtree 1 1 in
  let A := ofl 0%Z [2;2] [1;1;1;0]%Z : tensor Zring in
  let zi := lst2 0%Z [[1;0]]%Z : tensor Zring in
  let x := lst2 0%Z [[1;2;3;4]]%Z : tensor Zring in
  backend_ok ee 2 /\ extension_backend_indicator ee 2 = true /\
  show2 (state_space ee A x None None None (Some zi) (Some 1) None)
  = show2 (state_space env0 A x None None None (Some zi) (Some 3) None) /\
  show2 (state_space ee A x None None None (Some zi) (Some 1) None)
  = Some ([1;4;2], [1;0; 2;1; 5;2; 10;5]%Z, Some ([1;2], [19;10]%Z)).
Proof.
  cbv zeta. split; [|repeat split; vm_compute; reflexivity].
  destruct (backend_env0 2) as [H _]. split; [exact H|]. split; [discriminate|reflexivity].
Qed.

(** C09 is false in general.  Helion installed, tensors on CUDA, real data, the C++
    extension not installed: first- and second-order recursions always fail, for every
    input, although the pure Python path would have worked. *)
Theorem helion_without_extension_refuted :
  forall (R : cring) e B N M (A zi x : tensor R) Af zf u bs,
  helion e = true -> cuda e = true -> cplx e = false -> ext e = false ->
  (M = 1 \/ M = 2) -> (bs = 1 \/ N <= bs /\ 1 <= bs) ->
  matc B M A Af -> is2 zi B M zf -> is3 x B N M u ->
  state_space_recursion e A zi x bs None = Err AttributeError.
Proof.
  intros R e B N M A zi x Af zf u bs He Hc Hr Hx HM Hb HA Hz Hu.
  unfold state_space_recursion. cbn [state_space_recursion_fuel].
  assert (size x 0 = B /\ size x 1 = N /\ rk x = 3 /\ sizen x 1 = M) as (-> & -> & -> & ->)
    by (unfold sizen, size, rk; rewrite (proj1 Hu); auto).
  assert (size zi 0 = B /\ size zi 1 = M /\ rk zi = 2) as (-> & -> & ->)
    by (unfold size, rk; rewrite (proj1 Hz); auto).
  assert ((rk A =? 2) || (rk A =? 3) = true /\ sizen A 1 = M /\ sizen A 2 = M /\
          negb (rk A =? 3) || (B =? size A 0) = true) as (-> & -> & -> & ->).
  { destruct HA as [g HA _|HA]; unfold sizen, size, rk; rewrite (proj1 HA); cbn; rewrite ?Nat.eqb_refl; auto. }
  cbn [Nat.eqb orb negb]. rewrite !Nat.eqb_refl.
  assert (bs <? 1 = false) as -> by (apply Nat.ltb_ge; lia). cbn [negb].
  assert ((bs =? 1) || (N <=? bs) = true) as ->.
  { destruct Hb as [->|[Hb _]]; [reflexivity|]. apply Nat.leb_le in Hb. rewrite Hb. apply orb_true_r. }
  unfold helion_backend_indicator. rewrite He, Hc, Hr. cbn [negb andb].
  unfold ext_ss_recur. rewrite He, Hx. cbn [orb].
  assert (rk x = 3) as -> by (unfold rk; now rewrite (proj1 Hu)).
  assert (sizen A 1 = M) as -> by (destruct HA as [g HA _|HA]; unfold sizen, rk; rewrite (proj1 HA); reflexivity).
  cbn [Nat.eqb andb].
  destruct HM as [-> | ->]; cbn [Nat.eqb].
  - assert (exists a0, select (rk A - 1) 0 A = Ok a0 /\ exists a, select (rk a0 - 1) 0 a0 = Ok a) as (a0 & -> & a & Ea).
    { unfold select, rk, size. destruct HA as [g HA _|HA]; rewrite (proj1 HA); cbn; eexists; (split; [reflexivity|]);
      unfold sel; cbn; rewrite ?(proj1 HA); cbn; eauto. }
    cbn [bind]. rewrite Ea. cbn [bind]. unfold LTIRecurrence_forward, op_lti_recur. rewrite Hx. reflexivity.
  - cbn [bind]. unfold LTIMatrixRecurrence_forward. assert (sizen x 1 = 2) as -> by (unfold sizen, rk; now rewrite (proj1 Hu)).
    cbn [Nat.eqb]. unfold op_lti_recur2. rewrite Hx. reflexivity.
Qed.
Print Assumptions helion_without_extension_refuted.

(** The hypotheses can be met, and the same call without Helion succeeds. *)
Example helion_without_extension_ex :
  let eh := mkEnv false false true true false seqtree 1 1 in
  let A := ofl 0%Z [2;2] [1;1;1;0]%Z : tensor Zring in
  let zi := lst2 0%Z [[1;0]]%Z : tensor Zring in
  let x := ofl 0%Z [1;2;2] [0;0;0;0]%Z : tensor Zring in
  state_space_recursion eh A zi x 1 None = Err AttributeError /\
  show (state_space_recursion env0 A zi x 1 None) = Some ([1;2;2], [1;1;2;1]%Z).
Proof. split; vm_compute; reflexivity. Qed.

(** ** C12: shape dispatch.

    With batch = M = F the documented (M, F) input matrix is taken for a per-batch
    vector and rejected, whatever the data. *)
Theorem state_space_B_dispatch_refuted :
  forall (R : cring) e M N (A x Bt : tensor R) C D zi uf oi Af xf Bg z0,
  1 <= M -> ~ (C <> None /\ oi <> None) -> unroll_ok uf ->
  matc M M A Af -> is3 x M N M xf -> is2 Bt M M Bg -> init M M zi z0 ->
  state_space e A x (Some Bt) C D zi uf oi = Err AssertionError.
Proof.
  intros R e M N A x Bt C D zi uf oi Af xf Bg z0 HM HC Hu HA Hx HBt Hz.
  unfold state_space.
  assert (size x 0 = M /\ size x 1 = N /\ rk x = 3) as (-> & -> & ->)
    by (unfold size, rk; rewrite (proj1 Hx); auto).
  assert ((rk A =? 2) || (rk A =? 3) = true /\ sizen A 1 = M /\ sizen A 2 = M /\
          negb (rk A =? 3) || (M =? size A 0) = true) as (-> & -> & -> & ->).
  { destruct HA as [g HA _|HA]; unfold sizen, size, rk; rewrite (proj1 HA); cbn; rewrite ?Nat.eqb_refl; auto. }
  cbn [Nat.eqb orb]. rewrite Nat.eqb_refl.
  assert (match C, oi with Some _, Some _ => false | _, _ => true end = true) as ->.
  { destruct C, oi; auto. exfalso. apply HC. split; discriminate. }
  destruct (ss_zi_spec R M M x zi z0 HM Hz) as (z & -> & _). cbn [bind]. cbv zeta.
  unfold ss_input. rewrite (proj1 HBt), !Nat.eqb_refl. cbn [andb].
  unfold rk. rewrite (proj1 Hx). reflexivity.
Qed.
Print Assumptions state_space_B_dispatch_refuted.

(** With P = batch the documented (P, M) output matrix is taken for one row per batch:
    the result is 2-D and row b uses row b of C. *)
Theorem state_space_C_dispatch_refuted :
  forall (R : cring) e B N M F (A x C : tensor R) Bt zi uf Af xf Bm Cg z0,
  1 <= B -> 1 <= N -> 1 <= M -> backend_ok e M -> unroll_ok uf ->
  matc B M A Af -> sigv B N F x xf -> inmat B M F Bt Bm -> is2 C B M Cg -> init B M zi z0 ->
  exists y zf, state_space e A x Bt (Some C) None zi uf None = Ok (y, zf) /\
    shape y = [B; N] /\
    is2 y B N (fun b n => ss_y M (width F) (fun _ => Af b) (fun _ => Bm b) (fun _ _ m => Cg b m) (fun _ _ _ => r0)
                             (z0 b) (xf b) n 0).
Proof.
  intros R e B N M F A x C Bt zi uf Af xf Bm Cg z0 HB HN HM He Hu HA Hx HBm HC Hz.
  destruct (state_space_correct R e B N M F None A x Bt (Some C) None zi uf None Af xf Bm
             (fun b _ m => Cg b m) (fun _ _ _ => r0) z0) as (y & zf & Hy & Hs & _); auto.
  - split; [exact HA|]. split; [exact HBm|]. split.
    + eapply out_BM; [exact HC|]. intros ? ? ? ? ? ?. reflexivity.
    + apply fd_none. intros ? ? ? ? ? ?. reflexivity.
  - exists y, zf. split; [exact Hy|]. split; [exact (proj1 Hs)|exact Hs].
Qed.
Print Assumptions state_space_C_dispatch_refuted.

(** The same 2x2 matrix C: with three batches the output has P = 2 components, with two
    batches it loses them.  And a one-entry D with a single multi-feature signal. *)
Example state_space_dispatch_ex :
  let A := ofl 0%Z [2;2] [1;1;1;0]%Z : tensor Zring in
  let C := ofl 0%Z [2;2] [1;0;0;1]%Z : tensor Zring in
  let x3 := ofl 0%Z [3;1] [0;0;0]%Z : tensor Zring in
  let x2 := ofl 0%Z [2;1] [0;0]%Z : tensor Zring in
  let zi := lst1 0%Z [4;7]%Z : tensor Zring in
  show2 (state_space env0 A x3 None (Some C) None (Some zi) None None)
  = Some ([3;1;2], [4;7;4;7;4;7]%Z, Some ([3;2], [11;4;11;4;11;4]%Z)) /\
  show2 (state_space env0 A x2 None (Some C) None (Some zi) None None)
  = Some ([2;1], [4;7]%Z, Some ([2;2], [11;4;11;4]%Z)) /\
  state_space env0 A (ofl 0%Z [1;1;2] [1;1]%Z) None None (Some (lst1 0%Z [3]%Z)) None None None
  = Err AssertionError /\
  (forall b, b = 1 \/ b = 3 -> state_space env0 A (ofl 0%Z [b;1;2] [1;1;1;1;1;1]%Z) (Some C) None None None None None
     <> Err AssertionError) /\
  state_space env0 A (ofl 0%Z [2;1;2] [1;1;1;1]%Z) (Some C) None None None None None = Err AssertionError.
Proof.
  repeat split; try (vm_compute; reflexivity).
  intros b [-> | ->]; vm_compute; discriminate.
Qed.

(** ** C15: streaming.  Two chunks, the final state of the first starting the second,
    against one call; back-ends and unroll factors may all differ. *)
Theorem state_space_streaming :
  forall (R : cring) e e1 e2 B N1 N2 M F P (A x x1 x2 zi : tensor R) Bt C D uf uf1 uf2 oi
    Af xf xf1 xf2 Bm Cm Dm z0,
  1 <= B -> 1 <= N1 -> 1 <= N2 -> 1 <= M ->
  backend_ok e M -> backend_ok e1 M -> backend_ok e2 M -> unroll_ok uf -> unroll_ok uf1 -> unroll_ok uf2 ->
  sys B M F P A Bt C D oi Af Bm Cm Dm ->
  sigv B (N1 + N2) F x xf -> sigv B N1 F x1 xf1 -> sigv B N2 F x2 xf2 ->
  (forall b n k, b < B -> n < N1 -> k < width F -> xf b n k = xf1 b n k) ->
  (forall b n k, b < B -> n < N2 -> k < width F -> xf b (N1 + n) k = xf2 b n k) ->
  init B M (Some zi) z0 ->
  exists y z y1 z1 y2 z2 f g,
    state_space e A x Bt C D (Some zi) uf oi = Ok (y, Some z) /\
    state_space e1 A x1 Bt C D (Some zi) uf1 oi = Ok (y1, Some z1) /\
    state_space e2 A x2 Bt C D (Some z1) uf2 oi = Ok (y2, Some z2) /\
    sigv B (N1 + N2) P y f /\ sigv B N1 P y1 f /\ sigv B N2 P y2 (fun b n => f b (N1 + n)) /\
    is2 z B M g /\ is2 z2 B M g.
Proof.
  intros R e e1 e2 B N1 N2 M F P A x x1 x2 zi Bt C D uf uf1 uf2 oi Af xf xf1 xf2 Bm Cm Dm z0
    HB H1 H2 HM E E1 E2 U U1 U2 HS Hx Hx1 Hx2 X1 X2 Hz.
  destruct (state_space_correct R e B (N1 + N2) M F P A x Bt C D (Some zi) uf oi Af xf Bm Cm Dm z0)
    as (y & zo & Q & Y & z & -> & HZ); auto; [lia|].
  destruct (state_space_correct R e1 B N1 M F P A x1 Bt C D (Some zi) uf1 oi Af xf1 Bm Cm Dm z0)
    as (y1 & zo & Q1 & Y1 & z1 & -> & HZ1); auto.
  destruct (state_space_correct R e2 B N2 M F P A x2 Bt C D (Some z1) uf2 oi Af xf2 Bm Cm Dm
    (fun b => ss_h M (width F) (fun _ => Af b) (fun _ => Bm b) (z0 b) (xf1 b) N1))
    as (y2 & zo & Q2 & Y2 & z2 & -> & HZ2); auto.
  { eapply init_BM; [exact HZ1|]. reflexivity. }
  assert (Hmid : forall b i, b < B -> i < M ->
    ss_h M (width F) (fun _ => Af b) (fun _ => Bm b) (z0 b) (xf1 b) N1 i
    = ss_h M (width F) (fun _ => Af b) (fun _ => Bm b) (z0 b) (xf b) N1 i).
  { intros b i Hb Hi. apply ss_h_ext; auto. intros. symmetry. auto. }
  exists y, z, y1, z1, y2, z2. do 2 eexists. repeat (split; [eassumption|]).
  split; [|split; [|split; [exact HZ|]]].
  - destruct P; [eapply is3_ext|eapply is2_ext]; try exact Y1; intros; cbv beta;
      apply ss_y_ext; auto; intros; symmetry; apply X1; auto; lia.
  - destruct P; [eapply is3_ext|eapply is2_ext]; try exact Y2; intros; cbv beta;
      rewrite ss_y_shift; apply ss_y_ext; auto; intros; symmetry; apply X2; auto; lia.
  - eapply is2_ext; [exact HZ2|]. intros. cbv beta. rewrite ss_h_shift. apply ss_h_ext; auto.
    intros. symmetry. apply X2; auto.
Qed.
Print Assumptions state_space_streaming.

Example state_space_streaming_ex :
  let A := ofl 0%Z [2;2] [1;1;1;0]%Z : tensor Zring in
  let zi := lst1 0%Z [1;0]%Z : tensor Zring in
  let x := lst2 0%Z [[1;2;3;4;5]]%Z : tensor Zring in
  let x1 := lst2 0%Z [[1;2]]%Z : tensor Zring in
  let x2 := lst2 0%Z [[3;4;5]]%Z : tensor Zring in
  show2 (state_space env0 A x None None None (Some zi) (Some 2) (Some 0%Z))
    = Some ([1;5], [1;2;5;10;19]%Z, Some ([1;2], [34;19]%Z)) /\
  show2 (state_space env0 A x1 None None None (Some zi) (Some 3) (Some 0%Z))
    = Some ([1;2], [1;2]%Z, Some ([1;2], [5;2]%Z)) /\
  show2 (state_space env0 A x2 None None None (Some (lst2 0%Z [[5;2]]%Z)) None (Some 0%Z))
    = Some ([1;3], [5;10;19]%Z, Some ([1;2], [34;19]%Z)).
Proof. repeat split; vm_compute; reflexivity. Qed.

(** ** C16: batch row b of one call equals row b' of any other call (of any batch size)
    whose row b' has the same data; in particular a row alone. *)
Theorem state_space_batch_independent :
  forall (R : cring) e e' B B' b b' N M F P (A x A' x' : tensor R) Bt C D zi uf oi Bt' C' D' zi' uf' oi'
    Af xf Bm Cm Dm z0 Af' xf' Bm' Cm' Dm' z0',
  b < B -> b' < B' -> 1 <= N -> 1 <= M -> backend_ok e M -> backend_ok e' M -> unroll_ok uf -> unroll_ok uf' ->
  sys B M F P A Bt C D oi Af Bm Cm Dm -> sys B' M F P A' Bt' C' D' oi' Af' Bm' Cm' Dm' ->
  sigv B N F x xf -> sigv B' N F x' xf' -> init B M zi z0 -> init B' M zi' z0' ->
  (forall i j, i < M -> j < M -> Af b i j = Af' b' i j) ->
  (forall i j, i < M -> j < width F -> Bm b i j = Bm' b' i j) ->
  (forall i j, i < width P -> j < M -> Cm b i j = Cm' b' i j) ->
  (forall i j, i < width P -> j < width F -> Dm b i j = Dm' b' i j) ->
  (forall i, i < M -> z0 b i = z0' b' i) -> (forall n k, n < N -> k < width F -> xf b n k = xf' b' n k) ->
  exists y z y' z' f f' g g',
    state_space e A x Bt C D zi uf oi = Ok (y, z) /\ state_space e' A' x' Bt' C' D' zi' uf' oi' = Ok (y', z') /\
    sigv B N P y f /\ sigv B' N P y' f' /\
    (forall n p, n < N -> p < width P -> f b n p = f' b' n p) /\
    (forall w, z = Some w -> is2 w B M g) /\ (forall w, z' = Some w -> is2 w B' M g') /\
    (forall m, m < M -> g b m = g' b' m).
Proof.
  intros R e e' B B' b b' N M F P A x A' x' Bt C D zi uf oi Bt' C' D' zi' uf' oi'
    Af xf Bm Cm Dm z0 Af' xf' Bm' Cm' Dm' z0' Hb Hb' HN HM E E' U U' HS HS' Hx Hx' Hz Hz' XA XB XC XD Xz Xx.
  destruct (state_space_correct R e B N M F P A x Bt C D zi uf oi Af xf Bm Cm Dm z0)
    as (y & z & Q & Y & HZ); auto; [lia|].
  destruct (state_space_correct R e' B' N M F P A' x' Bt' C' D' zi' uf' oi' Af' xf' Bm' Cm' Dm' z0')
    as (y' & z' & Q' & Y' & HZ'); auto; [lia|].
  exists y, z, y', z'. do 4 eexists. repeat (split; [eassumption|]). split; [|split; [|split]].
  - intros n p Hn Hp. cbv beta. apply ss_y_ext; auto. intros. apply Xx; [lia|assumption].
  - intros w ->. destruct zi; [|discriminate]. destruct HZ as (w' & [= <-] & HZ). exact HZ.
  - intros w ->. destruct zi'; [|discriminate]. destruct HZ' as (w' & [= <-] & HZ'). exact HZ'.
  - intros m Hm. cbv beta. apply ss_h_ext; auto.
Qed.
Print Assumptions state_space_batch_independent.

(** ** C17: causality.  Two inputs (of possibly different lengths) that agree up to time
    n give outputs that agree up to time n. *)
Theorem state_space_causal :
  forall (R : cring) e e' B N N' M F P (A x x' : tensor R) Bt C D zi uf uf' oi Af xf xf' Bm Cm Dm z0 n,
  1 <= B -> 1 <= N -> 1 <= N' -> 1 <= M -> backend_ok e M -> backend_ok e' M -> unroll_ok uf -> unroll_ok uf' ->
  sys B M F P A Bt C D oi Af Bm Cm Dm -> sigv B N F x xf -> sigv B N' F x' xf' -> init B M zi z0 ->
  (forall b k j, b < B -> k <= n -> j < width F -> xf b k j = xf' b k j) ->
  exists y z y' z' f f',
    state_space e A x Bt C D zi uf oi = Ok (y, z) /\ state_space e' A x' Bt C D zi uf' oi = Ok (y', z') /\
    sigv B N P y f /\ sigv B N' P y' f' /\
    (forall b k p, b < B -> k <= n -> p < width P -> f b k p = f' b k p).
Proof.
  intros R e e' B N N' M F P A x x' Bt C D zi uf uf' oi Af xf xf' Bm Cm Dm z0 n
    HB HN HN' HM E E' U U' HS Hx Hx' Hz Xx.
  destruct (state_space_correct R e B N M F P A x Bt C D zi uf oi Af xf Bm Cm Dm z0) as (y & z & Q & Y & _); auto.
  destruct (state_space_correct R e' B N' M F P A x' Bt C D zi uf' oi Af xf' Bm Cm Dm z0) as (y' & z' & Q' & Y' & _); auto.
  exists y, z, y', z'. do 2 eexists. repeat (split; [eassumption|]).
  intros b k p Hb Hk Hp. cbv beta. apply ss_y_ext; auto. intros. apply Xx; auto; lia.
Qed.
Print Assumptions state_space_causal.

(** ** C18: output and final state are linear in (input, initial state). *)
Theorem state_space_linear :
  forall (R : cring) e B N M F P (A x x1 x2 zi zi1 zi2 : tensor R) Bt C D uf oi Af xf1 xf2 Bm Cm Dm z1 z2 c1 c2,
  1 <= B -> 1 <= N -> 1 <= M -> backend_ok e M -> unroll_ok uf ->
  sys B M F P A Bt C D oi Af Bm Cm Dm ->
  sigv B N F x1 xf1 -> sigv B N F x2 xf2 -> init B M (Some zi1) z1 -> init B M (Some zi2) z2 ->
  sigv B N F x (fun b n k => radd (rmul c1 (xf1 b n k)) (rmul c2 (xf2 b n k))) ->
  init B M (Some zi) (fun b m => radd (rmul c1 (z1 b m)) (rmul c2 (z2 b m))) ->
  exists y w y1 w1 y2 w2 f1 f2 g1 g2,
    state_space e A x Bt C D (Some zi) uf oi = Ok (y, Some w) /\
    state_space e A x1 Bt C D (Some zi1) uf oi = Ok (y1, Some w1) /\
    state_space e A x2 Bt C D (Some zi2) uf oi = Ok (y2, Some w2) /\
    sigv B N P y1 f1 /\ sigv B N P y2 f2 /\ is2 w1 B M g1 /\ is2 w2 B M g2 /\
    sigv B N P y (fun b n p => radd (rmul c1 (f1 b n p)) (rmul c2 (f2 b n p))) /\
    is2 w B M (fun b m => radd (rmul c1 (g1 b m)) (rmul c2 (g2 b m))).
Proof.
  intros R e B N M F P A x x1 x2 zi zi1 zi2 Bt C D uf oi Af xf1 xf2 Bm Cm Dm z1 z2 c1 c2
    HB HN HM E U HS Hx1 Hx2 Hz1 Hz2 Hx Hz.
  destruct (state_space_correct R e B N M F P A x Bt C D (Some zi) uf oi Af _ Bm Cm Dm _ HB HN HM E U HS Hx Hz)
    as (y & ? & Q & Y & w & -> & W).
  destruct (state_space_correct R e B N M F P A x1 Bt C D (Some zi1) uf oi Af _ Bm Cm Dm _ HB HN HM E U HS Hx1 Hz1)
    as (y1 & ? & Q1 & Y1 & w1 & -> & W1).
  destruct (state_space_correct R e B N M F P A x2 Bt C D (Some zi2) uf oi Af _ Bm Cm Dm _ HB HN HM E U HS Hx2 Hz2)
    as (y2 & ? & Q2 & Y2 & w2 & -> & W2).
  exists y, w, y1, w1, y2, w2. do 4 eexists. repeat (split; [eassumption|]). split.
  - destruct P; [eapply is3_ext|eapply is2_ext]; try exact Y; intros; cbv beta; apply ss_y_lin.
  - eapply is2_ext; [exact W|]. intros. cbv beta. apply ss_h_lin.
Qed.
Print Assumptions state_space_linear.

(** ** C43: the README's Fibonacci example, for every length and unroll factor, on every
    consistent back-end. *)
Lemma fib_state n m :
  m < 2 ->
  ss_h (R := Zring) 2 1 (fun _ i j => if (i =? 1) && (j =? 1) then 0%Z else 1%Z) (fun _ i _ => unit3 (R := Zring) 0 i 0)
    (fun m => if m =? 0 then 1%Z else 0%Z) (fun _ _ => 0%Z) n m
  = if m =? 0 then Z.of_nat (fib n) else match n with 0 => 0%Z | S k => Z.of_nat (fib k) end.
Proof.
  revert m. induction n as [|n IH]; intros m Hm; [reflexivity|].
  unfold ss_h. cbn [state]. unfold mvec. cbn [bsum].
  change (state 2 _ _ _ n) with (ss_h (R := Zring) 2 1 (fun _ i j => if (i =? 1) && (j =? 1) then 0%Z else 1%Z) (fun _ i _ => unit3 (R := Zring) 0 i 0)
    (fun m => if m =? 0 then 1%Z else 0%Z) (fun _ _ => 0%Z) n).
  rewrite !IH by lia. destruct m as [|[|m]]; [| |lia]; destruct n as [|n]; cbn -[Z.of_nat fib Z.add Z.mul]; try reflexivity;
   change (fib (S (S n))) with (fib (S n) + fib n) || idtac; rewrite ?Nat2Z.inj_add; ring_simplify; try ring; lia.
Qed.

Theorem fibonacci_correct :
  forall e N uf, 1 <= N -> unroll_ok uf -> backend_ok e 2 ->
  let A := lst2 0%Z [[1;1];[1;0]]%Z : tensor Zring in
  let C := lst1 0%Z [1;0]%Z : tensor Zring in
  let x := mk2 1 N (fun _ _ => 0%Z) : tensor Zring in
  let h0 := lst1 0%Z [1;0]%Z : tensor Zring in
  exists y zf, state_space e A x None (Some C) None (Some h0) uf None = Ok (y, zf) /\
    is2 y 1 N (fun _ n => Z.of_nat (fib n)).
Proof.
  intros e N uf HN Hu He A C x h0.
  destruct (state_space_correct Zring e 1 N 2 None None A x None (Some C) None (Some h0) uf None
    (fun _ i j => if (i =? 1) && (j =? 1) then 0%Z else 1%Z) (fun _ _ _ => 0%Z) (fun _ i _ => unit3 (R := Zring) 0 i 0)
    (fun _ _ m => if m =? 0 then 1%Z else 0%Z) (fun _ _ _ => 0%Z) (fun _ m => if m =? 0 then 1%Z else 0%Z))
    as (y & zf & Q & Y & _); auto.
  - split; [|split; [|split]].
    + apply (matc_s (R := Zring) (fun i j => if (i =? 1) && (j =? 1) then 0%Z else 1%Z)); [|reflexivity].
      split; [reflexivity|]. intros [|[|i]] [|[|j]] Hi Hj; try lia; reflexivity.
    + apply in_none2. intros ? ? ? ? ? Hj. assert (j = 0) as -> by lia. reflexivity.
    + apply (out_M Zring _ _ _ (fun m => if m =? 0 then 1%Z else 0%Z)); [|intros ? ? ? ? ? ?; reflexivity].
      split; [reflexivity|]. intros [|[|i]] Hi; try lia; reflexivity.
    + apply fd_none. intros ? ? ? ? ? ?. reflexivity.
  - split; [reflexivity|]. intros. reflexivity.
  - apply (init_M Zring _ _ _ (fun m => if m =? 0 then 1%Z else 0%Z)); [|reflexivity].
    split; [reflexivity|]. intros [|[|i]] Hi; try lia; reflexivity.
  - exists y, zf. split; [exact Q|]. eapply is2_ext; [exact Y|]. intros b n Hb Hn. cbv beta. unfold ss_y. cbn [bsum width].
    rewrite !fib_state by lia. cbn -[Z.of_nat fib Z.add Z.mul]. ring_simplify. destruct n; lia.
Qed.
Print Assumptions fibonacci_correct.

Example fibonacci_ex :
  show2 (state_space env0 (lst2 0%Z [[1;1];[1;0]]%Z : tensor Zring) (mk2 1 10 (fun _ _ => 0%Z)) None
    (Some (lst1 0%Z [1;0]%Z)) None (Some (lst1 0%Z [1;0]%Z)) None None)
  = Some ([1;10], [1;1;2;3;5;8;13;21;34;55]%Z, Some ([1;2], [89;55]%Z)).
Proof. vm_compute. reflexivity. Qed.

(** ** C45 (state_space part): argument errors. *)
Theorem state_space_recursion_unroll_zero :
  forall (R : cring) e (A zi x : tensor R) oi,
  exists er, state_space_recursion e A zi x 0 oi = Err er /\ (er = AssertionError \/ er = ValueError).
Proof.
  intros. unfold state_space_recursion. cbn [state_space_recursion_fuel].
  repeat match goal with |- context [if ?b then _ else Err AssertionError] =>
    destruct b; [|eexists; split; [reflexivity|auto]] end.
  eexists; split; [reflexivity|auto].
Qed.
Print Assumptions state_space_recursion_unroll_zero.
Theorem state_space_unroll_error :
  forall (R : cring) e B N M F (A x : tensor R) Bt C D zi oi Af xf Bm z0,
  1 <= B -> 1 <= M -> ~ (C <> None /\ oi <> None) ->
  matc B M A Af -> sigv B N F x xf -> inmat B M F Bt Bm -> init B M zi z0 ->
  state_space e A x Bt C D zi (Some 0) oi = Err ValueError.
Proof.
  intros R e B N M F A x Bt C D zi oi Af xf Bm z0 HB HM HC HA Hx HBm Hz.
  destruct (sig_size _ _ _ _ _ _ Hx) as (Hs0 & Hs1 & Hrk & Hfe & Hrk2).
  unfold state_space. rewrite Hs0, Hrk.
  assert ((rk A =? 2) || (rk A =? 3) = true /\ sizen A 1 = M /\ sizen A 2 = M /\
          negb (rk A =? 3) || (B =? size A 0) = true) as (HA1 & HA2 & HA3 & HA4).
  { destruct HA as [g HA _|HA]; unfold sizen, size, rk; rewrite (proj1 HA); cbn; rewrite ?Nat.eqb_refl; auto. }
  rewrite HA1, HA2, HA3, HA4, Nat.eqb_refl.
  assert (match C, oi with Some _, Some _ => false | _, _ => true end = true) as ->.
  { destruct C, oi; auto. exfalso. apply HC. split; discriminate. }
  destruct (ss_zi_spec R B M x zi z0 HM Hz) as (z & -> & Hzz). cbn [bind]. cbv zeta.
  destruct (ss_input_spec R B N M F x xf Bt Bm Hx HBm) as (Bx & -> & HBx). cbn [bind].
  assert (Hss : forall o, state_space_recursion e A z Bx 0 o = Err ValueError).
  { intro o. unfold state_space_recursion. cbn [state_space_recursion_fuel].
    assert (rk z = 2 /\ size z 0 = B /\ size z 1 = M) as (-> & -> & ->)
      by (unfold rk, size; rewrite (proj1 Hzz); auto).
    rewrite HA1, HA2, HA3.
    destruct HBx as [f HBx _|HBx]; unfold sizen, size, rk; rewrite !(proj1 HBx); cbn [length Nat.eqb nth orb negb];
      unfold size, rk in HA4; rewrite HA4; cbn; rewrite !Nat.eqb_refl; reflexivity. }
  rewrite andb_false_r. destruct oi; [destruct zi|]; cbn [bind]; rewrite Hss; reflexivity.
Qed.
Print Assumptions state_space_unroll_error.
Theorem state_space_C_and_out_idx_error :
  forall (R : cring) e (A x : tensor R) Bt C D zi uf i,
  exists er, state_space e A x Bt (Some C) D zi uf (Some i) = Err er /\ (er = AssertionError \/ er = ValueError).
Proof.
  intros. unfold state_space.
  repeat match goal with |- context [if ?b then _ else Err AssertionError] =>
    destruct b; [|eexists; split; [reflexivity|auto]] end.
  eexists; split; [reflexivity|auto].
Qed.
Print Assumptions state_space_C_and_out_idx_error.
Theorem state_space_batch_error :
  forall (R : cring) e B B' N M F (A x : tensor R) Bt C D zi uf oi Af xf,
  B <> B' -> is3 A B' M M Af -> sigv B N F x xf ->
  state_space e A x Bt C D zi uf oi = Err AssertionError.
Proof.
  intros R e B B' N M F A x Bt C D zi uf oi Af xf HB HA Hx.
  destruct (sig_size _ _ _ _ _ _ Hx) as (Hs0 & Hs1 & Hrk & Hfe & Hrk2).
  unfold state_space. rewrite Hs0, Hrk. unfold sizen, size, rk. rewrite (proj1 HA). cbn.
  rewrite Nat.eqb_refl. apply Nat.eqb_neq in HB. now rewrite HB.
Qed.
Print Assumptions state_space_batch_error.
