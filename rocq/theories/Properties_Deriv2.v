(** Theorems about the derivatives of whole state_space calls (C59). *)
From Coq Require Import List Arith Lia ZArith Bool.
From Verif Require Import Scalar Tensor TensorLemmas TensorTac Spec Shapes SpecAutograd SpecSystem SpecDeriv Algebra M_Mat M_Kernels M_LtiSsm M_LpvSsm
  P_SsSpec P_LtiSsm P_LpvSsm P_LpvSs P_Autograd P_Deriv P_Deriv2 Properties_LtiSsm Properties_LpvSsm Properties_LtiFilter.
Import ListNotations.

Lemma sigv_ext' {R : cring} B N F (t : tensor R) f g : (forall b n k, f b n k = g b n k) -> sigv B N F t f -> sigv B N F t g.
Proof. intros H. destruct F; cbn; intros [S V]; (split; [exact S|]; intros; rewrite V by assumption; apply H). Qed.

Lemma sum_dotc {R : cring} N n m (X : nat -> nat -> nat -> R) Y :
  bsum N (fun t => dotc n m (X t) Y) = dotc n m (fun i j => bsum N (fun t => X t i j)) Y.
Proof.
  unfold dotc, dot. rewrite bsum_swap. apply bsum_ext. intros i Hi. rewrite bsum_swap. apply bsum_ext. intros j Hj.
  rewrite bsum_conj. now rewrite <- bsum_mul_r.
Qed.

Theorem C59_state_space_tangent :
  forall (R : cring) e B N M F P (A x : tensor (dual R)) Bt C D zi uf oi Af dA Bm dB Cm dC Dm dD xf dx z0 dz,
  1 <= B -> 1 <= N -> 1 <= M -> backend_ok e M -> unroll_ok uf ->
  sys (R := dual R) B M F P A Bt C D oi (with_tan Af dA) (with_tan Bm dB) (with_tan Cm dC) (with_tan Dm dD) ->
  sigv B N F x (with_tan xf dx) -> init (R := dual R) B M zi (fun i m => (z0 i m, dz i m)) ->
  exists Y Z, state_space (R := dual R) e A x Bt C D zi uf oi = Ok (Y, Z) /\
    sigv B N P Y (fun i n p => (ss_y M (width F) (fun _ => Af i) (fun _ => Bm i) (fun _ => Cm i) (fun _ => Dm i) (z0 i) (xf i) n p,
      tan_y M (width F) (fun _ => Af i) (fun _ => dA i) (fun _ => Bm i) (fun _ => dB i) (fun _ => Cm i) (fun _ => dC i) (fun _ => Dm i) (fun _ => dD i) (z0 i) (dz i) (xf i) (dx i) n p)) /\
    match zi with
    | None => Z = None
    | Some _ => exists z, Z = Some z /\
        is2 z B M (fun i m => (ss_h M (width F) (fun _ => Af i) (fun _ => Bm i) (z0 i) (xf i) N m,
          tan_h M (width F) (fun _ => Af i) (fun _ => dA i) (fun _ => Bm i) (fun _ => dB i) (z0 i) (dz i) (xf i) (dx i) N m))
    end.
Proof.
  intros R e B N M F P A x Bt C D zi uf oi Af dA Bm dB Cm dC Dm dD xf dx z0 dz HB HN HM He Hu Hs Hx Hz.
  destruct (state_space_correct (dual R) e B N M F P A x Bt C D zi uf oi _ _ _ _ _ _ HB HN HM He Hu Hs Hx Hz) as (Y & Z & E & HY & HZ).
  exists Y, Z. split; [exact E|]. split.
  - eapply sigv_ext'; [|exact HY]. intros i n p. apply (ss_y_dual R M (width F)).
  - destruct zi; [|exact HZ]. destruct HZ as (z & -> & S & V). exists z. split; [reflexivity|]. split; [exact S|].
    intros i m Hi Hm. rewrite V by assumption. now apply (ss_h_dual R M (width F)).
Qed.
Print Assumptions C59_state_space_tangent.

Theorem C59_state_space_gradient :
  forall (R : cring) e B N M F P (A x : tensor (dual R)) Bt C D zi uf oi Af dA Bm dB Cm dC Dm dD xf dx z0 dz (g : nat -> nat -> nat -> R) (gh : nat -> nat -> R),
  1 <= B -> 1 <= N -> 1 <= M -> backend_ok e M -> unroll_ok uf ->
  sys (R := dual R) B M F P A Bt C D oi (with_tan Af dA) (with_tan Bm dB) (with_tan Cm dC) (with_tan Dm dD) ->
  sigv B N F x (with_tan xf dx) -> init (R := dual R) B M zi (fun i m => (z0 i m, dz i m)) ->
  exists Y Z dy dhN, state_space (R := dual R) e A x Bt C D zi uf oi = Ok (Y, Z) /\
    sigv B N P Y (fun i n p => (ss_y M (width F) (fun _ => Af i) (fun _ => Bm i) (fun _ => Cm i) (fun _ => Dm i) (z0 i) (xf i) n p, dy i n p)) /\
    match zi with
    | None => Z = None
    | Some _ => exists z, Z = Some z /\ is2 z B M (fun i m => (ss_h M (width F) (fun _ => Af i) (fun _ => Bm i) (z0 i) (xf i) N m, dhN i m))
    end /\
    forall i, i < B ->
      let K := width F in let Q := width P in
      let h := ss_h M (width F) (fun _ => Af i) (fun _ => Bm i) (z0 i) (xf i) in
      let l := back_h M (width P) N (fun _ => Af i) (fun _ => Cm i) (g i) (gh i) in
      let gx := fun n j => radd (bsum M (fun m => rmul (conj (Bm i m j)) (l (S n) m))) (bsum Q (fun p => rmul (conj (Dm i p j)) (g i n p))) in
      let gA := fun m j => bsum N (fun n => outer (l (S n)) (h n) m j) in
      let gB := fun m j => bsum N (fun n => outer (l (S n)) (xf i n) m j) in
      let gC := fun p j => bsum N (fun n => outer (g i n) (h n) p j) in
      let gD := fun p j => bsum N (fun n => outer (g i n) (xf i n) p j) in
      radd (dotc N Q (g i) (dy i)) (dot M (gh i) (dhN i)) =
        radd (radd (radd (radd (radd (dot M (l 0%nat) (dz i)) (dotc M M gA (dA i))) (dotc M K gB (dB i))) (dotc Q M gC (dC i))) (dotc Q K gD (dD i)))
          (dotc N K gx (dx i)).
Proof.
  intros R e B N M F P A x Bt C D zi uf oi Af dA Bm dB Cm dC Dm dD xf dx z0 dz g gh HB HN HM He Hu Hs Hx Hz.
  destruct (C59_state_space_tangent R e B N M F P A x Bt C D zi uf oi Af dA Bm dB Cm dC Dm dD xf dx z0 dz HB HN HM He Hu Hs Hx Hz) as (Y & Z & E & HY & HZ).
  exists Y, Z, (fun i => tan_y M (width F) (fun _ => Af i) (fun _ => dA i) (fun _ => Bm i) (fun _ => dB i) (fun _ => Cm i) (fun _ => dC i) (fun _ => Dm i) (fun _ => dD i) (z0 i) (dz i) (xf i) (dx i)), (fun i => tan_h M (width F) (fun _ => Af i) (fun _ => dA i) (fun _ => Bm i) (fun _ => dB i) (z0 i) (dz i) (xf i) (dx i) N).
  split; [exact E|]. split; [exact HY|]. split; [exact HZ|]. intros i Hi. cbv zeta.
  pose proof (duality R M (width F) (fun _ => Af i) (fun _ => dA i) (fun _ => Bm i) (fun _ => dB i) (fun _ => Cm i) (fun _ => dC i) (fun _ => Dm i) (fun _ => dD i) (z0 i) (dz i) (xf i) (dx i) (width P) N (g i) (gh i) N (le_n N)) as G.
  assert (EN : back_h M (width P) N (fun _ => Af i) (fun _ => Cm i) (g i) (gh i) N = gh i) by (unfold back_h; now rewrite Nat.sub_diag).
  rewrite EN in G.
  unfold dotc at 1. rewrite G. clear G. rewrite !bsum_add, !sum_dotc. unfold dotc at 5.
  rewrite !(Radd_assoc (r_th R)). reflexivity.
Qed.
Print Assumptions C59_state_space_gradient.

Theorem C59_lpv_state_space_tangent :
  forall (R : cring) e pr B N M F P (A x : tensor (dual R)) Bt C D zi uf oi Af dA Bm dB Cm dC Dm dD xf dx z0 dz,
  1 <= B -> 1 <= N -> 1 <= M -> lpv_backend_ok e pr M -> unroll_good N uf ->
  sysv (R := dual R) B N M F P A Bt C D oi (with_tan4 Af dA) (with_tan4 Bm dB) (with_tan4 Cm dC) (with_tan4 Dm dD) ->
  sigv B N F x (with_tan xf dx) -> init (R := dual R) B M zi (fun i m => (z0 i m, dz i m)) ->
  exists Y Z, lpv_state_space (R := dual R) e pr A x Bt C D zi uf oi = Ok (Y, Z) /\
    sigv B N P Y (fun i n p => (ss_y M (width F) (Af i) (Bm i) (Cm i) (Dm i) (z0 i) (xf i) n p,
      tan_y M (width F) (Af i) (dA i) (Bm i) (dB i) (Cm i) (dC i) (Dm i) (dD i) (z0 i) (dz i) (xf i) (dx i) n p)) /\
    match zi with
    | None => Z = None
    | Some _ => exists z, Z = Some z /\
        is2 z B M (fun i m => (ss_h M (width F) (Af i) (Bm i) (z0 i) (xf i) N m,
          tan_h M (width F) (Af i) (dA i) (Bm i) (dB i) (z0 i) (dz i) (xf i) (dx i) N m))
    end.
Proof.
  intros R e pr B N M F P A x Bt C D zi uf oi Af dA Bm dB Cm dC Dm dD xf dx z0 dz HB HN HM He Hu Hs Hx Hz.
  destruct (lpv_state_space_partial (dual R) e pr B N M F P A x Bt C D zi uf oi _ _ _ _ _ _ HB HN HM He Hu Hs Hx Hz) as (Y & Z & E & HY & HZ).
  exists Y, Z. split; [exact E|]. split.
  - eapply sigv_ext'; [|exact HY]. intros i n p. apply (ss_y_dual R M (width F)).
  - destruct zi; [|exact HZ]. destruct HZ as (z & -> & S & V). exists z. split; [reflexivity|]. split; [exact S|].
    intros i m Hi Hm. rewrite V by assumption. now apply (ss_h_dual R M (width F)).
Qed.
Print Assumptions C59_lpv_state_space_tangent.

Theorem C59_lpv_state_space_gradient :
  forall (R : cring) e pr B N M F P (A x : tensor (dual R)) Bt C D zi uf oi Af dA Bm dB Cm dC Dm dD xf dx z0 dz (g : nat -> nat -> nat -> R) (gh : nat -> nat -> R),
  1 <= B -> 1 <= N -> 1 <= M -> lpv_backend_ok e pr M -> unroll_good N uf ->
  sysv (R := dual R) B N M F P A Bt C D oi (with_tan4 Af dA) (with_tan4 Bm dB) (with_tan4 Cm dC) (with_tan4 Dm dD) ->
  sigv B N F x (with_tan xf dx) -> init (R := dual R) B M zi (fun i m => (z0 i m, dz i m)) ->
  exists Y Z dy dhN, lpv_state_space (R := dual R) e pr A x Bt C D zi uf oi = Ok (Y, Z) /\
    sigv B N P Y (fun i n p => (ss_y M (width F) (Af i) (Bm i) (Cm i) (Dm i) (z0 i) (xf i) n p, dy i n p)) /\
    match zi with
    | None => Z = None
    | Some _ => exists z, Z = Some z /\ is2 z B M (fun i m => (ss_h M (width F) (Af i) (Bm i) (z0 i) (xf i) N m, dhN i m))
    end /\
    forall i, i < B ->
      let K := width F in let Q := width P in
      let h := ss_h M (width F) (Af i) (Bm i) (z0 i) (xf i) in
      let l := back_h M (width P) N (Af i) (Cm i) (g i) (gh i) in
      let gx := fun n j => radd (bsum M (fun m => rmul (conj (Bm i n m j)) (l (S n) m))) (bsum Q (fun p => rmul (conj (Dm i n p j)) (g i n p))) in
      radd (dotc N Q (g i) (dy i)) (dot M (gh i) (dhN i)) =
        radd (dot M (l 0%nat) (dz i))
          (bsum N (fun n =>
             radd (radd (radd (radd (dotc M M (outer (l (S n)) (h n)) (dA i n)) (dotc M K (outer (l (S n)) (xf i n)) (dB i n)))
               (dotc Q M (outer (g i n) (h n)) (dC i n))) (dotc Q K (outer (g i n) (xf i n)) (dD i n)))
               (dot K (gx n) (dx i n)))).
Proof.
  intros R e pr B N M F P A x Bt C D zi uf oi Af dA Bm dB Cm dC Dm dD xf dx z0 dz g gh HB HN HM He Hu Hs Hx Hz.
  destruct (C59_lpv_state_space_tangent R e pr B N M F P A x Bt C D zi uf oi Af dA Bm dB Cm dC Dm dD xf dx z0 dz HB HN HM He Hu Hs Hx Hz) as (Y & Z & E & HY & HZ).
  exists Y, Z, (fun i => tan_y M (width F) (Af i) (dA i) (Bm i) (dB i) (Cm i) (dC i) (Dm i) (dD i) (z0 i) (dz i) (xf i) (dx i)), (fun i => tan_h M (width F) (Af i) (dA i) (Bm i) (dB i) (z0 i) (dz i) (xf i) (dx i) N).
  split; [exact E|]. split; [exact HY|]. split; [exact HZ|]. intros i Hi. cbv zeta.
  pose proof (duality R M (width F) (Af i) (dA i) (Bm i) (dB i) (Cm i) (dC i) (Dm i) (dD i) (z0 i) (dz i) (xf i) (dx i) (width P) N (g i) (gh i) N (le_n N)) as G.
  assert (EN : back_h M (width P) N (Af i) (Cm i) (g i) (gh i) N = gh i) by (unfold back_h; now rewrite Nat.sub_diag).
  rewrite EN in G.
  exact G.
Qed.
Print Assumptions C59_lpv_state_space_gradient.

(** Two states, one input, two samples, every argument with a tangent, hypotheses and values
    written out. *)
Example C59_state_space_ex :
  let A := ofl (0, 0)%Z [2;2]%nat [(1,0);(2,1);(0,1);(1,0)]%Z : tensor (dual Zring) in
  let Bt := ofl (0, 0)%Z [2]%nat [(1,1);(3,0)]%Z : tensor (dual Zring) in
  let C := ofl (0, 0)%Z [2]%nat [(1,0);(1,2)]%Z : tensor (dual Zring) in
  let D := ofl (0, 0)%Z [1]%nat [(2,1)]%Z : tensor (dual Zring) in
  let x := ofl (0, 0)%Z [1;2]%nat [(1,1);(2,0)]%Z : tensor (dual Zring) in
  let zi := ofl (0, 0)%Z [2]%nat [(1,0);(1,1)]%Z : tensor (dual Zring) in
  let df := fun (l : list Z) (w : nat) (_ i j : nat) => nth (i * w + j)%nat l 0%Z in
  sys (R := dual Zring) 1 2 None None A (Some Bt) (Some C) (Some D) None
    (with_tan (R := Zring) (df [1;2;0;1]%Z 2%nat) (df [0;1;1;0]%Z 2%nat)) (with_tan (R := Zring) (df [1;3]%Z 1%nat) (df [1;0]%Z 1%nat))
    (with_tan (R := Zring) (df [1;1]%Z 2%nat) (df [0;2]%Z 2%nat)) (with_tan (R := Zring) (df [2]%Z 1%nat) (df [1]%Z 1%nat)) /\
  sigv (R := dual Zring) 1 2 None x (with_tan (R := Zring) (fun _ n _ => nth n [1;2]%Z 0%Z) (fun _ n _ => nth n [1;0]%Z 0%Z)) /\
  init (R := dual Zring) 1 2 (Some zi) (fun _ m => (1%Z, nth m [0;1]%Z 0%Z)) /\
  match state_space (R := dual Zring) env0 A x (Some Bt) (Some C) (Some D) (Some zi) (Some 2) None with
  | Ok (Y, Some z) => Some (map (fun n => at_ Y [0; n]%nat) [0; 1]%nat, map (fun m => at_ z [0; m]%nat) [0; 1]%nat)
  | _ => None
  end = Some ([(4, 6); (12, 20)]%Z, [(14, 21); (10, 9)]%Z).
Proof.
  cbv zeta. split; [|split; [|split]].
  - split; [|split; [|split]].
    + eapply matc_s; [split; [reflexivity|intros; reflexivity]|].
      intros b i j Hb Hi Hj. destruct i as [|[|i]]; [| |lia]; (destruct j as [|[|j]]; [| |lia]); reflexivity.
    + eapply in_M; [split; [reflexivity|intros; reflexivity]|].
      intros b i j Hb Hi Hj. destruct i as [|[|i]]; [| |lia]; (destruct j as [|j]; [|lia]); reflexivity.
    + eapply out_M; [split; [reflexivity|intros; reflexivity]|].
      intros b i j Hb Hi Hj. destruct i as [|i]; [|lia]; (destruct j as [|[|j]]; [| |lia]); reflexivity.
    + eapply fd_2_1; [split; [reflexivity|intros; reflexivity]|].
      intros b i j Hb Hi Hj. destruct i as [|i]; [|lia]; (destruct j as [|j]; [|lia]); reflexivity.
  - split; [reflexivity|]. intros b n Hb Hn. destruct b as [|b]; [|lia]. destruct n as [|[|n]]; [| |lia]; reflexivity.
  - eapply init_M; [split; [reflexivity|intros; reflexivity]|]. intros b m Hb Hm. destruct m as [|[|m]]; [| |lia]; reflexivity.
  - vm_compute. reflexivity.
Qed.
(** The same call with output gradients g = (1, 2) for y and (1, 0) for the final state: the
    adjoint states, and both sides of the gradient theorem. *)
Example C59_state_space_gradient_ex :
  let A := fun _ i j : nat => nth (i * 2 + j)%nat [1;2;0;1]%Z 0%Z in let C := fun _ _ j : nat => 1%Z in
  let l := back_h (R := Zring) 2 1 2 A C (fun n _ => nth n [1;2]%Z 0%Z) (fun m => nth m [1;0]%Z 0%Z) in
  map (fun n => map (l n) [0;1]%nat) [0;1;2]%nat = [[4;11]; [3;4]; [1;0]]%Z /\
  (1 * 6 + 2 * 20 + 1 * 21 = (4 * 0 + 11 * 1) + ((3 * 1 + 1 * 4) * 1 + (4 * 1 + 0 * 4) * 1) + (3 * 1 + 1 * 2) * 1
     + (1 * 1 + 2 * 4) * 2 + (1 * 1 + 2 * 2) * 1 + (1 * 3 + 3 * 4 + 2 * 1) * 1)%Z.
Proof. split; vm_compute; reflexivity. Qed.
