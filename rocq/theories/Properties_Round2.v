(** C62: rounding errors of state_space_recursion and state_space. *)
From Coq Require Import List Arith Lia ZArith Bool Ring QArith Qcanon.
From Verif Require Import Scalar Ordered Spec SpecRound Tensor TensorLemmas Shapes Algebra M_Kernels M_LtiSsm
  P_Kernels P_KernelOps P_LtiSsm P_Round P_Round5 FloatQ Properties_Round.
Import ListNotations.
Close Scope Qc_scope. Close Scope Q_scope. Open Scope nat_scope.

Section S.
Variable F : ofield.
Variables (u : F) (fadd fmul fsub : F -> F -> F).
Hypothesis HR : rounds u fadd fmul fsub.
Notation Fl := (flops F fadd fmul fsub).
Notation ten := (tensor (car Fl)).
Notation ab2 f := (fun i j => oabs (f i j : F)).

(** Any unroll factor, component selection and back-end: 2M roundings per step. *)
Theorem C62_recursion e B N M (A zi x : ten) (Af : nat -> nat -> nat -> F) (zf : nat -> nat -> F) (xf : nat -> nat -> nat -> F) uf oi :
  backend_ok e M ->
  1 <= B -> 1 <= N -> 1 <= M -> 1 <= uf ->
  matc B M A Af -> is2 zi B M zf -> drive B N M x xf -> idx_ok M oi ->
  exists y (yf : nat -> nat -> nat -> F), state_space_recursion e A zi x uf oi = Ok y /\ picks B N M oi y yf /\
    forall b n m, b < B -> n < N -> m < M ->
      within u (2 * M * S n) (yf b n m) (state (R := F) M (fun _ => Af b) (zf b) (xf b) (S n) m) (state_abs (F := F) M (fun _ => Af b) (zf b) (xf b) (S n) m).
Proof.
  intros He HB HN HM Hf HA Hz Hx Hi.
  destruct (ssr_bnd F u fadd fmul fsub HR e B N M A zi x Af zf xf uf oi) as (y & yf & E & Hy & G); auto.
  { intro Eh. now apply backend_helion. }
  exists y, yf. split; [exact E|]. split; [exact Hy|]. intros b n m Hb Hn Hm. apply bnd_within, (G b n m Hb Hn Hm).
Qed.

(** The whole model: outputs within 2Mn + M + K + 1 roundings at time n (K input
    features), the final state within 2MN + K. *)
Theorem C62_state_space e B N M G P (A x : ten) (Bt C D zi : option ten) uf oi
  (Af xf Bm Cm Dm : nat -> nat -> nat -> F) (z0 : nat -> nat -> F) :
  1 <= B -> 1 <= N -> 1 <= M -> backend_ok e M -> unroll_ok uf ->
  sys (R := Fl) B M G P A Bt C D oi Af Bm Cm Dm -> sigv (R := Fl) B N G x xf -> init (R := Fl) B M zi z0 ->
  exists y zf (yv : nat -> nat -> nat -> F), state_space e A x Bt C D zi uf oi = Ok (y, zf) /\ sigv B N P y yv /\
    (forall b n p, b < B -> n < N -> p < width P ->
      within u (2 * M * n + M + width G + 1) (yv b n p)
        (ss_y (R := F) M (width G) (fun _ => Af b) (fun _ => Bm b) (fun _ => Cm b) (fun _ => Dm b) (z0 b) (xf b) n p)
        (ss_y (R := F) M (width G) (fun _ => ab2 (Af b)) (fun _ => ab2 (Bm b)) (fun _ => ab2 (Cm b)) (fun _ => ab2 (Dm b)) (fun m => oabs (z0 b m)) (ab2 (xf b)) n p)) /\
    match zi with
    | None => zf = None
    | Some _ => exists z (zv : nat -> nat -> F), zf = Some z /\ is2 z B M zv /\
        forall b m, b < B -> m < M -> within u (2 * M * N + width G) (zv b m)
          (ss_h (R := F) M (width G) (fun _ => Af b) (fun _ => Bm b) (z0 b) (xf b) N m)
          (ss_h (R := F) M (width G) (fun _ => ab2 (Af b)) (fun _ => ab2 (Bm b)) (fun m => oabs (z0 b m)) (ab2 (xf b)) N m)
    end.
Proof.
  intros HB HN HM He Hu (HA & HBm & HC & HD) Hx Hz.
  destruct (state_space_bnd F u fadd fmul fsub HR e B N M G P A x Bt C D zi uf oi Af xf Bm Cm Dm z0) as (y & zf & yv & E & Hy & R & Z); auto.
  exists y, zf, yv. split; [exact E|]. split; [exact Hy|]. split.
  - intros b n p Hb Hn Hp'. apply bnd_within, (R b n p Hb Hn Hp').
  - destruct zi; [|exact Z]. destruct Z as (z & zv & Ez & Hz' & Rz). exists z, zv. split; [exact Ez|]. split; [exact Hz'|].
    intros b m Hb Hm. apply bnd_within, (Rz b m Hb Hm).
Qed.
(** Two configurations, two unroll factors: equal outputs up to twice the bound. *)
Theorem C62_agree e e' B N M G P (A x : ten) (Bt C D zi : option ten) uf uf' oi
  (Af xf Bm Cm Dm : nat -> nat -> nat -> F) (z0 : nat -> nat -> F) :
  1 <= B -> 1 <= N -> 1 <= M -> backend_ok e M -> backend_ok e' M -> unroll_ok uf -> unroll_ok uf' ->
  sys (R := Fl) B M G P A Bt C D oi Af Bm Cm Dm -> sigv (R := Fl) B N G x xf -> init (R := Fl) B M zi z0 ->
  exists y zf y' zf' (yv yv' : nat -> nat -> nat -> F),
    state_space e A x Bt C D zi uf oi = Ok (y, zf) /\ state_space e' A x Bt C D zi uf' oi = Ok (y', zf') /\
    sigv B N P y yv /\ sigv B N P y' yv' /\
    forall b n p, b < B -> n < N -> p < width P ->
      ole (oabs (rsub (yv b n p) (yv' b n p))) (rmul (radd r1 r1) (rmul (rsub (rpow (radd r1 u) (2 * M * n + M + width G + 1)) r1)
        (ss_y (R := F) M (width G) (fun _ => ab2 (Af b)) (fun _ => ab2 (Bm b)) (fun _ => ab2 (Cm b)) (fun _ => ab2 (Dm b)) (fun m => oabs (z0 b m)) (ab2 (xf b)) n p))) = true.
Proof.
  intros HB HN HM He He' Hu Hu' HS Hx Hz.
  destruct (C62_state_space e B N M G P A x Bt C D zi uf oi Af xf Bm Cm Dm z0) as (y & zf & yv & E & Hy & R & _); auto.
  destruct (C62_state_space e' B N M G P A x Bt C D zi uf' oi Af xf Bm Cm Dm z0) as (y' & zf' & yv' & E' & Hy' & R' & _); auto.
  exists y, zf, y', zf', yv, yv'. do 4 (split; [assumption|]). intros b n p Hb Hn Hp''. eapply within_agree; [now apply R|now apply R'].
Qed.
End S.

Print Assumptions C62_recursion.
Print Assumptions C62_state_space.
Print Assumptions C62_agree.

(** ** Example: 3-bit numbers, second order, unroll factors 1 and 2 *)
Definition exA : list (list Qc) := [[q 5 4; q (-7) 8]; [q 3 4; q 1 4]].
Definition exX : list Qc := [q 3 2; q 1 1; q 7 8; q (-1) 2].
Definition e_A : tensor (car F3) := lst2 (q 0 1) exA.
Definition e_x : tensor (car F3) := lst2 (q 0 1) [exX].
Definition e_B : tensor (car F3) := lst1 (q 0 1) [q 7 8; q 5 4].
Definition e_C : tensor (car F3) := lst1 (q 0 1) [q 3 2; q (-5) 8].
Definition e_D : tensor (car F3) := lst1 (q 0 1) [q 7 4].
Definition e_z : tensor (car F3) := lst1 (q 0 1) [q 1 2; q 7 8].
Definition run uf := match state_space env0 e_A e_x (Some e_B) (Some e_C) (Some e_D) (Some e_z) (Some uf) None with
  | Ok (y, Some z) => (shq3 (Ok y), shq3 (Ok z)) | _ => (None, None) end.
Example C62_ex :
  run 1 = (Some ([1; 4], [3%Q; (7 # 4)%Q; (-1 # 4)%Q; (-5)%Q]), Some ([1; 2], [(-4)%Q; (-3 # 2)%Q])) /\
  run 2 = (Some ([1; 4], [3%Q; (7 # 4)%Q; (-1 # 4)%Q; (-5)%Q]), Some ([1; 2], [(-4)%Q; (-1)%Q])) /\
  run 3 = (Some ([1; 4], [3%Q; (7 # 4)%Q; (-1 # 4)%Q; (-4)%Q]), Some ([1; 2], [(-7 # 2)%Q; (-5 # 4)%Q])).
Proof. repeat split; vm_compute; reflexivity. Qed.
(** The unroll factor shows in the last bits of the output: it is not bit for bit irrelevant. *)
Definition outs (r : res (tensor (car F3) * option (tensor (car F3)))) := match r with Ok (y, _) => shq3 (Ok y) | _ => None end.
Theorem C62_bitwise_refuted :
  ~ (forall uf uf' (A x B C D z : tensor (car F3)), 1 <= uf -> 1 <= uf' ->
       outs (state_space env0 A x (Some B) (Some C) (Some D) (Some z) (Some uf) None) =
       outs (state_space env0 A x (Some B) (Some C) (Some D) (Some z) (Some uf') None)).
Proof.
  intro H. specialize (H 1 3 e_A e_x e_B e_C e_D e_z ltac:(lia) ltac:(lia)). revert H. vm_compute. discriminate.
Qed.
Print Assumptions C62_bitwise_refuted.
(** The hypotheses at this instance. *)
Example C62_agree_ex :
  exists y zf y' zf' (yv yv' : nat -> nat -> nat -> Qofield),
    state_space env0 e_A e_x (Some e_B) (Some e_C) (Some e_D) (Some e_z) (Some 1) None = Ok (y, zf) /\
    state_space env0 e_A e_x (Some e_B) (Some e_C) (Some e_D) (Some e_z) (Some 3) None = Ok (y', zf') /\
    sigv 1 4 None y yv /\ sigv 1 4 None y' yv' /\
    forall b n p, b < 1 -> n < 4 -> p < 1 ->
      ole (oabs (rsub (yv b n p) (yv' b n p))) (rmul (radd r1 r1) (rmul (rsub (rpow (radd r1 (unit_roundoff 3)) (2 * 2 * n + 2 + 1 + 1)) r1)
        (ss_y (R := Qofield) 2 1 (fun _ i j => oabs (nth j (nth i exA []) (q 0 1) : Qofield)) (fun _ i _ => oabs (nth i [q 7 8; q 5 4] (q 0 1) : Qofield))
          (fun _ _ i => oabs (nth i [q 3 2; q (-5) 8] (q 0 1) : Qofield)) (fun _ _ _ => oabs (q 7 4 : Qofield))
          (fun i => oabs (nth i [q 1 2; q 7 8] (q 0 1) : Qofield)) (fun n _ => oabs (nth n exX (q 0 1) : Qofield)) n p))) = true.
Proof.
  assert (HB0 : backend_ok env0 2) by apply backend_env0.
  apply (C62_agree Qofield (unit_roundoff 3) _ _ _ (float_rounds 3) env0 env0 1 4 2 None None e_A e_x (Some e_B) (Some e_C) (Some e_D) (Some e_z) (Some 1) (Some 3) None
    (fun _ i j => nth j (nth i exA []) (q 0 1)) (fun _ n _ => nth n exX (q 0 1)) (fun _ i _ => nth i [q 7 8; q 5 4] (q 0 1))
    (fun _ _ i => nth i [q 3 2; q (-5) 8] (q 0 1)) (fun _ _ _ => q 7 4) (fun _ i => nth i [q 1 2; q 7 8] (q 0 1))); try lia; try exact HB0.
  - exact (le_n 1).
  - unfold unroll_ok. lia.
  - split; [|split; [|split]].
    + apply matc_s with (g := fun i j => nth j (nth i exA []) (q 0 1)); [|reflexivity]. split; [reflexivity|]. intros [|[|i]] [|[|j]] Hi Hj; try lia; reflexivity.
    + apply in_M with (g := fun i => nth i [q 7 8; q 5 4] (q 0 1)); [|now intros b m k]. split; [reflexivity|]. reflexivity.
    + apply out_M with (g := fun i => nth i [q 3 2; q (-5) 8] (q 0 1)); [|now intros b m k]. split; [reflexivity|]. reflexivity.
    + apply fd_2_1 with (g := fun _ => q 7 4); [|now intros b m k]. split; [reflexivity|]. intros [|i] Hi; [reflexivity|lia].
  - split; [reflexivity|]. intros [|b] n Hb Hn; [reflexivity|lia].
  - apply init_M with (g := fun i => nth i [q 1 2; q 7 8] (q 0 1)); [|reflexivity]. split; [reflexivity|]. reflexivity.
Qed.
