(** C69: rounding errors of lpv.state_space_recursion and lpv.state_space. *)
From Coq Require Import List Arith Lia ZArith Bool Ring QArith Qcanon.
From Verif Require Import Scalar Ordered Spec SpecRound Tensor TensorLemmas Shapes Algebra M_Mat M_Kernels M_LtiSsm M_Ext M_LpvSsm
  P_Kernels P_KernelOps P_LpvSsm P_LpvSs P_LtiSsm P_Round P_Round5 P_Round9 FloatQ Properties_Round.
Import ListNotations.
Close Scope Qc_scope. Close Scope Q_scope. Open Scope nat_scope.

Section S.
Variable F : ofield.
Variables (u : F) (fadd fmul fsub : F -> F -> F).
Hypothesis HR : rounds u fadd fmul fsub.
Notation Fl := (flops F fadd fmul fsub).
Notation ten := (tensor (car Fl)).
Notation ab2 f := (fun i j => oabs (f i j : F)).
Notation ab3 f := (fun n i j => oabs (f n i j : F)).

(** Any unroll factor for which the block products are right, any component selection
    and any of the library's own back-ends: 2M roundings per step. *)
Theorem C69_recursion e pr B N M (A zi x : ten) (Af : nat -> nat -> nat -> nat -> F) (zf : nat -> nat -> F) (xf : nat -> nat -> nat -> F) uf oi :
  lpv_backend_ok e pr M -> lpv_own e pr M ->
  1 <= B -> 1 <= N -> 1 <= M -> unroll_good N (Some uf) ->
  matv B N M A Af -> is2 zi B M zf -> drive B N M x xf -> idx_ok M oi ->
  exists y (yf : nat -> nat -> nat -> F), lpv_state_space_recursion e pr A zi x uf oi = Ok y /\ picks B N M oi y yf /\
    forall b n m, b < B -> n < N -> m < M ->
      within u (2 * M * S n) (yf b n m) (state (R := F) M (Af b) (zf b) (xf b) (S n) m) (state_abs (F := F) M (Af b) (zf b) (xf b) (S n) m).
Proof.
  intros He Ho HB HN HM Hf HA Hz Hx Hi.
  destruct (lpv_ssr_bnd F u fadd fmul fsub HR e pr B N M A zi x Af zf xf uf oi) as (y & yf & E & Hy & G); auto.
  exists y, yf. split; [exact E|]. split; [exact Hy|]. intros b n m Hb Hn Hm. apply bnd_within, (G b n m Hb Hn Hm).
Qed.

(** The whole model: outputs within 2Mn + M + K + 1 roundings at time n (K input
    features), the final state within 2MN + K: the constants of the time-invariant case. *)
Theorem C69_state_space e pr B N M G P (A x : ten) (Bt C D zi : option ten) uf oi
  (Af Bm Cm Dm : nat -> nat -> nat -> nat -> F) (xf : nat -> nat -> nat -> F) (z0 : nat -> nat -> F) :
  1 <= B -> 1 <= N -> 1 <= M -> lpv_backend_ok e pr M -> lpv_own e pr M -> unroll_good N uf ->
  matv (R := Fl) B N M A Af -> inmatv (R := Fl) B N M G Bt Bm -> outmatv (R := Fl) B N M oi C P Cm -> feedv (R := Fl) B N G P D Dm ->
  sigv (R := Fl) B N G x xf -> init (R := Fl) B M zi z0 ->
  exists y zf (yv : nat -> nat -> nat -> F), lpv_state_space e pr A x Bt C D zi uf oi = Ok (y, zf) /\ sigv B N P y yv /\
    (forall b n p, b < B -> n < N -> p < width P ->
      within u (2 * M * n + M + width G + 1) (yv b n p)
        (ss_y (R := F) M (width G) (Af b) (Bm b) (Cm b) (Dm b) (z0 b) (xf b) n p)
        (ss_y (R := F) M (width G) (ab3 (Af b)) (ab3 (Bm b)) (ab3 (Cm b)) (ab3 (Dm b)) (fun m => oabs (z0 b m)) (ab2 (xf b)) n p)) /\
    match zi with
    | None => zf = None
    | Some _ => exists z (zv : nat -> nat -> F), zf = Some z /\ is2 z B M zv /\
        forall b m, b < B -> m < M -> within u (2 * M * N + width G) (zv b m)
          (ss_h (R := F) M (width G) (Af b) (Bm b) (z0 b) (xf b) N m)
          (ss_h (R := F) M (width G) (ab3 (Af b)) (ab3 (Bm b)) (fun m => oabs (z0 b m)) (ab2 (xf b)) N m)
    end.
Proof.
  intros HB HN HM He Ho Hu HA HBm HC HD Hx Hz.
  destruct (lpv_state_space_bnd F u fadd fmul fsub HR e pr B N M G P A x Bt C D zi uf oi Af Bm Cm Dm xf z0) as (y & zf & yv & E & Hy & R & Z); auto.
  exists y, zf, yv. split; [exact E|]. split; [exact Hy|]. split.
  - intros b n p Hb Hn Hp'. apply bnd_within, (R b n p Hb Hn Hp').
  - destruct zi; [|exact Z]. destruct Z as (z & zv & Ez & Hz' & Rz). exists z, zv. split; [exact Ez|]. split; [exact Hz'|].
    intros b m Hb Hm. apply bnd_within, (Rz b m Hb Hm).
Qed.
(** Two configurations, two unroll factors: equal outputs up to twice the bound. *)
Theorem C69_agree e pr e' pr' B N M G P (A x : ten) (Bt C D zi : option ten) uf uf' oi
  (Af Bm Cm Dm : nat -> nat -> nat -> nat -> F) (xf : nat -> nat -> nat -> F) (z0 : nat -> nat -> F) :
  1 <= B -> 1 <= N -> 1 <= M -> lpv_backend_ok e pr M -> lpv_own e pr M -> lpv_backend_ok e' pr' M -> lpv_own e' pr' M ->
  unroll_good N uf -> unroll_good N uf' ->
  matv (R := Fl) B N M A Af -> inmatv (R := Fl) B N M G Bt Bm -> outmatv (R := Fl) B N M oi C P Cm -> feedv (R := Fl) B N G P D Dm ->
  sigv (R := Fl) B N G x xf -> init (R := Fl) B M zi z0 ->
  exists y zf y' zf' (yv yv' : nat -> nat -> nat -> F),
    lpv_state_space e pr A x Bt C D zi uf oi = Ok (y, zf) /\ lpv_state_space e' pr' A x Bt C D zi uf' oi = Ok (y', zf') /\
    sigv B N P y yv /\ sigv B N P y' yv' /\
    forall b n p, b < B -> n < N -> p < width P ->
      ole (oabs (rsub (yv b n p) (yv' b n p))) (rmul (radd r1 r1) (rmul (rsub (rpow (radd r1 u) (2 * M * n + M + width G + 1)) r1)
        (ss_y (R := F) M (width G) (ab3 (Af b)) (ab3 (Bm b)) (ab3 (Cm b)) (ab3 (Dm b)) (fun m => oabs (z0 b m)) (ab2 (xf b)) n p))) = true.
Proof.
  intros HB HN HM He Ho He' Ho' Hu Hu' HA HBm HC HD Hx Hz.
  destruct (C69_state_space e pr B N M G P A x Bt C D zi uf oi Af Bm Cm Dm xf z0) as (y & zf & yv & E & Hy & R & _); auto.
  destruct (C69_state_space e' pr' B N M G P A x Bt C D zi uf' oi Af Bm Cm Dm xf z0) as (y' & zf' & yv' & E' & Hy' & R' & _); auto.
  exists y, zf, y', zf', yv, yv'. do 4 (split; [assumption|]). intros b n p Hb Hn Hp''. eapply within_agree; [now apply R|now apply R'].
Qed.
End S.

Print Assumptions C69_recursion.
Print Assumptions C69_state_space.
Print Assumptions C69_agree.

(** ** Example: 3-bit numbers, second order, a matrix per sample *)
Definition vA : list (list (list Qc)) :=
  [[[q 5 4; q (-7) 8]; [q 3 4; q 1 4]]; [[q 1 2; q (-3) 4]; [q 7 8; q 5 8]];
   [[q 3 2; q (-5) 8]; [q 1 1; q 3 8]]; [[q 7 8; q (-1) 2]; [q 5 8; q 3 4]]].
Definition vX : list Qc := [q 3 2; q 1 1; q 7 8; q (-1) 2].
Definition v_A : tensor (car F3) := mkT [4; 2; 2] (fun i => nth (nth 2 i 0) (nth (nth 1 i 0) (nth (nth 0 i 0) vA []) []) (q 0 1)).
Definition v_x : tensor (car F3) := lst2 (q 0 1) [vX].
Definition v_B : tensor (car F3) := lst1 (q 0 1) [q 7 8; q 5 4].
Definition v_C : tensor (car F3) := lst1 (q 0 1) [q 3 2; q (-5) 8].
Definition v_z : tensor (car F3) := lst1 (q 0 1) [q 1 2; q 7 8].
Definition run uf := match lpv_state_space env0 false v_A v_x (Some v_B) (Some v_C) None (Some v_z) (Some uf) None with
  | Ok (y, Some z) => (shq3 (Ok y), shq3 (Ok z)) | _ => (None, None) end.
Example C69_ex :
  run 1 = (Some ([1; 4], [(1 # 4)%Q; 0%Q; (-7 # 2)%Q; (-5)%Q]), Some ([1; 2], [(-4)%Q; (-1)%Q])) /\
  run 2 = (Some ([1; 4], [(1 # 4)%Q; 0%Q; (-5 # 2)%Q; (-7 # 2)%Q]), Some ([1; 2], [(-3)%Q; (-3 # 8)%Q])) /\
  run 3 = (Some ([1; 4], [(1 # 4)%Q; 0%Q; (-7 # 2)%Q; (-4)%Q]), Some ([1; 2], [(-7 # 2)%Q; (-3 # 8)%Q])).
Proof. repeat split; vm_compute; reflexivity. Qed.
(** The unroll factor is not bit for bit irrelevant. *)
Definition outs (r : res (tensor (car F3) * option (tensor (car F3)))) := match r with Ok (y, _) => shq3 (Ok y) | _ => None end.
Theorem C69_bitwise_refuted :
  ~ (forall uf uf' (A x B C z : tensor (car F3)), unroll_good (size x 1) (Some uf) -> unroll_good (size x 1) (Some uf') ->
       outs (lpv_state_space env0 false A x (Some B) (Some C) None (Some z) (Some uf) None) =
       outs (lpv_state_space env0 false A x (Some B) (Some C) None (Some z) (Some uf') None)).
Proof.
  intro H. specialize (H 1 2 v_A v_x v_B v_C v_z). assert (X : forall k, k = 1 \/ k = 2 -> unroll_good (size v_x 1) (Some k)).
  { intros k Hk. unfold unroll_good. cbv zeta. lia. }
  specialize (H (X 1 ltac:(lia)) (X 2 ltac:(lia))). revert H. vm_compute. discriminate.
Qed.
Print Assumptions C69_bitwise_refuted.
(** The hypotheses at this instance. *)
Definition gA (n i j : nat) : Qc := nth j (nth i (nth n vA []) []) (q 0 1).
Example C69_agree_ex :
  exists y zf y' zf' (yv yv' : nat -> nat -> nat -> Qofield),
    lpv_state_space env0 false v_A v_x (Some v_B) (Some v_C) None (Some v_z) (Some 1) None = Ok (y, zf) /\
    lpv_state_space env0 false v_A v_x (Some v_B) (Some v_C) None (Some v_z) (Some 3) None = Ok (y', zf') /\
    sigv 1 4 None y yv /\ sigv 1 4 None y' yv' /\
    forall b n p, b < 1 -> n < 4 -> p < 1 ->
      ole (oabs (rsub (yv b n p) (yv' b n p))) (rmul (radd r1 r1) (rmul (rsub (rpow (radd r1 (unit_roundoff 3)) (2 * 2 * n + 2 + 1 + 1)) r1)
        (ss_y (R := Qofield) 2 1 (fun n i j => oabs (gA n i j : Qofield)) (fun _ i _ => oabs (nth i [q 7 8; q 5 4] (q 0 1) : Qofield))
          (fun _ _ i => oabs (nth i [q 3 2; q (-5) 8] (q 0 1) : Qofield)) (fun _ _ _ => oabs (q 0 1 : Qofield))
          (fun i => oabs (nth i [q 1 2; q 7 8] (q 0 1) : Qofield)) (fun n _ => oabs (nth n vX (q 0 1) : Qofield)) n p))) = true.
Proof.
  assert (HB0 : lpv_backend_ok env0 false 2) by apply lpv_backend_env0.
  assert (HO : lpv_own env0 false 2) by (split; [reflexivity|left; lia]).
  apply (C69_agree Qofield (unit_roundoff 3) _ _ _ (float_rounds 3) env0 false env0 false 1 4 2 None None v_A v_x (Some v_B) (Some v_C) None (Some v_z) (Some 1) (Some 3) None
    (fun _ => gA) (fun _ _ i _ => nth i [q 7 8; q 5 4] (q 0 1))
    (fun _ _ _ i => nth i [q 3 2; q (-5) 8] (q 0 1)) (fun _ _ _ _ => q 0 1) (fun _ n _ => nth n vX (q 0 1)) (fun _ i => nth i [q 1 2; q 7 8] (q 0 1)));
    try lia; try exact HB0; try exact HO.
  - unfold unroll_good. cbv zeta. lia.
  - unfold unroll_good. cbv zeta. split; [lia|]. right. right. right. split; [lia|].
    intros d Hd. lia.
  - apply matv_s with (g := gA); [|reflexivity]. split; reflexivity.
  - apply inv_M with (g := fun i => nth i [q 7 8; q 5 4] (q 0 1)); [|now intros b n m k]. split; reflexivity.
  - apply outv_M with (g := fun i => nth i [q 3 2; q (-5) 8] (q 0 1)); [|now intros b n m k]. split; reflexivity.
  - apply fdv_none. intros b n p k _ _ _ _. reflexivity.
  - split; [reflexivity|]. intros [|b] n Hb Hn; [reflexivity|lia].
  - apply init_M with (g := fun i => nth i [q 1 2; q 7 8] (q 0 1)); [|reflexivity]. split; reflexivity.
Qed.
