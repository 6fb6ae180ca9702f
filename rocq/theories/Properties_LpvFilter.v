(** Theorems about lpv/utils.py and lpv/filtering.py (C15-C18, C22-C25, C45, C46). *)
From Coq Require Import List Arith Lia ZArith Bool Ring.
From Verif Require Import Scalar Tensor TensorLemmas TensorList TensorTac Spec Shapes SpecFilter SpecLpv Algebra M_Mat M_Kernels M_LtiSsm M_LpvSsm M_LtiFilter
  M_LpvFilter P_LtiSsm P_LpvSs P_LpvSsm P_Filter P_LtiFilter P_LtiFilter3 P_LpvAlg P_LpvFilter P_LpvFilter2 Properties_LtiFilter.
Import ListNotations.
Definition v3 (l : list (list (list Z))) : tensor Zring :=
  mkT [length l; length (nth 0 l []); length (nth 0 (nth 0 l []) [])] (fun i => nth (nth 2 i 0) (nth (nth 1 i 0) (nth (nth 0 i 0) l []) []) 0%Z).

(** ** C25: diag_shift.  Any leading dimensions [pre]; (at least two columns or offset >= 1). *)
Theorem diag_shift_partial :
  forall (R : cring) (t : tensor R) pre T M f offset,
  isP2 t pre T M f -> 1 <= M -> 2 <= M \/ 1 <= offset ->
  exists y, diag_shift t offset true = Ok y /\
    isP2 y pre T M (fun q j k => if k + offset <=? j then f q (j - k - offset) k else r0).
Proof.
  intros R t pre T M f o Ht HM Ho. destruct (diag_shift_view R t pre T M f o true Ht HM ltac:(lia)) as (y & E & Hy).
  exists y. split; [exact E|]. eapply isP2_ext; [exact Hy|]. intros q j k Hq Hj Hk. unfold shifted. rewrite Nat.sub_add_distr.
  destruct (k + o <=? j) eqn:E1; b2p; cbn [andb]; [|reflexivity]. now btrue (j - k - o <? T).
Qed.
Print Assumptions diag_shift_partial.
(** Without discarding the end all T + M - 1 + offset rows are returned and no entry is lost. *)
Theorem diag_shift_full :
  forall (R : cring) (t : tensor R) pre T M f offset,
  isP2 t pre T M f -> 1 <= M ->
  exists y, diag_shift t offset false = Ok y /\
    isP2 y pre (T + M + offset - 1) M (fun q j k => if (k + offset <=? j) && (j - k - offset <? T) then f q (j - k - offset) k else r0).
Proof.
  intros R t pre T M f o Ht HM. destruct (diag_shift_view R t pre T M f o false Ht HM ltac:(discriminate)) as (y & E & Hy).
  exists y. split; [exact E|]. eapply isP2_ext; [exact Hy|]. intros q j k Hq Hj Hk. unfold shifted. now rewrite Nat.sub_add_distr.
Qed.
Print Assumptions diag_shift_full.
Example diag_shift_ex :
  let t := v2 [[1;4];[2;5];[3;6]]%Z in
  isP2 t [] 3 2 (fun _ i j => nth j (nth i [[1;4];[2;5];[3;6]]%Z []) 0%Z) /\
  show (diag_shift t 0 true) = Some ([3; 2], [1;0; 2;4; 3;5]%Z) /\
  show (diag_shift t 1 true) = Some ([3; 2], [0;0; 1;0; 2;4]%Z) /\
  show (diag_shift t 1 false) = Some ([5; 2], [0;0; 1;0; 2;4; 3;5; 0;6]%Z).
Proof.
  cbv zeta. split; [|repeat split; vm_compute; reflexivity].
  split; [reflexivity|]. intros q i j Hq Hi Hj. apply vld_nil_inv in Hq. subst q. reflexivity.
Qed.
(** A single column with no offset loses every row: slicing with [:-0] is empty. *)
Theorem diag_shift_refuted :
  let t := v2 [[1];[2];[3]]%Z in
  isP2 t [] 3 1 (fun _ i _ => nth i [1;2;3]%Z 0%Z) /\ show (diag_shift t 0 true) = Some ([0; 1], []).
Proof.
  cbv zeta. split; [|vm_compute; reflexivity].
  split; [reflexivity|]. intros q i j Hq Hi Hj. apply vld_nil_inv in Hq. subst q. replace j with 0 by lia.
  destruct i as [|[|[|i]]]; [reflexivity..|lia].
Qed.
Print Assumptions diag_shift_refuted.

(** ** C22: lpv.fir *)
Theorem lpv_fir_convolution :
  forall (R : cring) B N M (b x : tensor R) bf xf,
  1 <= N -> is3 b B N (S M) bf -> is2 x B N xf ->
  exists y, lpv_fir b x None false = Ok (y, None) /\ is2 y B N (fun i n => vconv M (bf i) (xf i) n).
Proof. intros. now apply lpv_fir_none. Qed.
Print Assumptions lpv_fir_convolution.
(** [zi] holds the past inputs, newest first; so does the returned state. *)
Theorem lpv_fir_state :
  forall (R : cring) B N M (b x zi : tensor R) bf xf zf,
  1 <= N -> is3 b B N (S M) bf -> is2 x B N xf -> is2 zi B M zf ->
  exists y z, lpv_fir b x (Some zi) false = Ok (y, Some z) /\
    is2 y B N (fun i n => vconv_with M (bf i) (xf i) (zf i) n) /\ is2 z B M (fun i k => hist (xf i) (zf i) N k).
Proof. intros. now apply lpv_fir_some. Qed.
Print Assumptions lpv_fir_state.
(** Transposed, at least two taps; complex taps are conjugated. *)
Theorem lpv_fir_transposed_partial :
  forall (R : cring) B N M (b x : tensor R) bf xf,
  1 <= N -> 1 <= M -> is3 b B N (S M) bf -> is2 x B N xf ->
  exists y, lpv_fir b x None true = Ok (y, None) /\ is2 y B N (fun i n => vconvt M (fun m k => conj (bf i m k)) (xf i) n).
Proof. intros. now apply lpv_firt_none. Qed.
Print Assumptions lpv_fir_transposed_partial.
(** Transposed with state, length at least the order: [zi] is added to the first samples
    and the returned state is what the chunk still owes to the future. *)
Theorem lpv_fir_transposed_state_partial :
  forall (R : cring) B N M (b x zi : tensor R) bf xf zf,
  1 <= N -> M <= N -> is3 b B N (S M) bf -> is2 x B N xf -> is2 zi B M zf ->
  exists y z, lpv_fir b x (Some zi) true = Ok (y, Some z) /\
    is2 y B N (fun i n => radd (vconvt M (fun m k => conj (bf i m k)) (xf i) n) (padz M (zf i) n)) /\
    is2 z B M (fun i k => vtdf2_z M (fun m k => conj (bf i m k)) (fun _ _ => r0) (zf i) (xf i) N k).
Proof. intros. now apply lpv_firt_some. Qed.
Print Assumptions lpv_fir_transposed_state_partial.
Example lpv_fir_ex :
  let b := v3 [[[1;2;3];[4;5;6];[7;8;9];[1;0;2]]]%Z in let x := v2 [[1;2;1;3]]%Z in let zi := v2 [[1;1]]%Z in
  is3 b 1 4 3 (fun _ n k => nth k (nth n [[1;2;3];[4;5;6];[7;8;9];[1;0;2]] []) 0)%Z /\
  show2' (lpv_fir b x None false) = Some (Some ([1;4], [1;13;32;7]%Z), None) /\
  show2' (lpv_fir b x (Some zi) false) = Some (Some ([1;4], [6;19;32;7]%Z), Some ([1;2], [3;1]%Z)) /\
  show2' (lpv_fir b x None true) = Some (Some ([1;4], [1;10;20;23]%Z), None) /\
  show2' (lpv_fir b x (Some zi) true) = Some (Some ([1;4], [2;11;20;23]%Z), Some ([1;2], [9;6]%Z)).
Proof.
  cbv zeta. split; [|repeat split; vm_compute; reflexivity].
  split; [reflexivity|]. intros i n k Hi Hn Hk. replace i with 0 by lia. reflexivity.
Qed.
(** One tap in transposed form: an error, or an empty result for a single sample. *)
Theorem lpv_fir_one_tap_refuted :
  show2' (lpv_fir (v3 [[[2];[3];[4]]]%Z) (v2 [[1;1;1]]%Z) None false) = Some (Some ([1;3], [2;3;4]%Z), None) /\
  lpv_fir (v3 [[[2];[3];[4]]]%Z) (v2 [[1;1;1]]%Z) None true = Err RuntimeError /\
  show2' (lpv_fir (v3 [[[2]]]%Z) (v2 [[1]]%Z) None true) = Some (Some ([1;0], []), None).
Proof. repeat split; vm_compute; reflexivity. Qed.
Print Assumptions lpv_fir_one_tap_refuted.
(** Transposed form with state on a signal shorter than the order: wrong length, or an error. *)
Theorem lpv_fir_short_refuted :
  show2' (lpv_fir (v3 [[[1;2;3]]]%Z) (v2 [[1]]%Z) (Some (v2 [[5;6]]%Z)) true) = Some (Some ([1;2], [6;7]%Z), Some ([1;2], [2;3]%Z)) /\
  lpv_fir (v3 [[[1;2;3;4];[1;2;3;4]]]%Z) (v2 [[1;1]]%Z) (Some (v2 [[5;6;7]]%Z)) true = Err RuntimeError.
Proof. repeat split; vm_compute; reflexivity. Qed.
Print Assumptions lpv_fir_short_refuted.
(** Complex taps are conjugated by the transposed form: tap i, input 1 gives -i. *)
Theorem lpv_fir_transposed_complex_refuted :
  let b := mkT [1;1;2] (fun i => nth (nth 2 i 0) [(0,1); (0,0)]%Z (0,0)%Z) : tensor Gauss in
  let x := lst2 (r0 (c := Gauss)) [[(1,0)%Z]] : tensor Gauss in
  show2' (lpv_fir b x None false) = Some (Some ([1;1], [(0,1)%Z]), None) /\
  show2' (lpv_fir b x None true) = Some (Some ([1;1], [(0,-1)%Z]), None).
Proof. repeat split; vm_compute; reflexivity. Qed.
Print Assumptions lpv_fir_transposed_complex_refuted.

(** ** C23: lpv.allpole.  torchlpc is used through the contract of M_Ext. *)
Theorem lpv_allpole_equation :
  forall (R : cring) B N M (a x : tensor R) af xf,
  is3 a B N M af -> is2 x B N xf ->
  exists y yf, lpv_allpole a x None false = Ok (y, None) /\ is2 y B N yf /\
    forall i n, i < B -> n < N -> vpole M (af i) (xf i) (yf i) (fun _ => r0) n.
Proof.
  intros R B N M a x af xf Ha Hx. destruct (lpv_allpole_none R B N M a x af xf Ha Hx) as (y & E & Hy).
  exists y. eexists. split; [exact E|]. split; [exact Hy|]. intros i n Hi Hn. apply vdf2_inner.
Qed.
Print Assumptions lpv_allpole_equation.
(** With state: past outputs, newest first, in and out. *)
Theorem lpv_allpole_state_partial :
  forall (R : cring) B N M (a x zi : tensor R) af xf zf,
  1 <= M -> M <= N -> is3 a B N M af -> is2 x B N xf -> is2 zi B M zf ->
  exists y z yf, lpv_allpole a x (Some zi) false = Ok (y, Some z) /\ is2 y B N yf /\
    (forall i n, i < B -> n < N -> vpole M (af i) (xf i) (yf i) (zf i) n) /\
    is2 z B M (fun i k => hist (yf i) (zf i) N k).
Proof.
  intros R B N M a x zi af xf zf HM HN Ha Hx Hz. destruct (lpv_allpole_some R B N M a x zi af xf zf Ha Hx Hz HM HN) as (y & z & E & Hy & Hzo).
  exists y, z. eexists. split; [exact E|]. split; [exact Hy|]. split; [intros i n Hi Hn; apply vdf2_inner|].
  eapply is2_ext; [exact Hzo|]. intros i k Hi Hk. cbv beta. apply vdf2_hist.
Qed.
Print Assumptions lpv_allpole_state_partial.
Theorem lpv_allpole_transposed_partial :
  forall (R : cring) B N M (a x : tensor R) af xf,
  1 <= M -> M <= N -> is3 a B N M af -> is2 x B N xf ->
  exists y yf, lpv_allpole a x None true = Ok (y, None) /\ is2 y B N yf /\
    forall i n, i < B -> n < N -> vpolet M (fun m k => conj (af i m k)) (xf i) (yf i) n.
Proof.
  intros R B N M a x af xf HM HN Ha Hx. destruct (lpv_allpolet_none R B N M a x af xf Ha Hx HM HN) as (y & E & Hy).
  exists y. eexists. split; [exact E|]. split; [exact Hy|]. intros i n Hi Hn.
  eapply vpolet_ext; [reflexivity| |exact (vtdf2_pole R M _ (fun _ => r0) (xf i) n HM)]. cbv beta. unfold padz. destruct (n <? M); rewrite (Radd_comm (r_th R)); apply (Radd_0_l (r_th R)).
Qed.
Print Assumptions lpv_allpole_transposed_partial.
(** Transposed with state: transposed direct form II with numerator 1. *)
Theorem lpv_allpole_transposed_state_partial :
  forall (R : cring) B N M (a x zi : tensor R) af xf zf,
  1 <= M -> M <= N -> is3 a B N M af -> is2 x B N xf -> is2 zi B M zf ->
  exists y z, lpv_allpole a x (Some zi) true = Ok (y, Some z) /\
    let one := fun _ k => match k with O => r1 | S _ => r0 end in
    is2 y B N (fun i n => vtdf2_y M one (fun m k => conj (af i m k)) (zf i) (xf i) n) /\
    is2 z B M (fun i k => vtdf2_z M one (fun m k => conj (af i m k)) (zf i) (xf i) N k).
Proof. intros R B N M a x zi af xf zf HM HN Ha Hx Hz. exact (lpv_allpolet_some R B N M a x zi af xf zf Ha Hx Hz HM HN). Qed.
Print Assumptions lpv_allpole_transposed_state_partial.
Example lpv_allpole_ex :
  let a := v3 [[[1;2];[3;4];[5;6];[7;8]]]%Z in let x := v2 [[1;0;0;0]]%Z in
  is3 a 1 4 2 (fun _ n k => nth k (nth n [[1;2];[3;4];[5;6];[7;8]] []) 0)%Z /\
  show2' (lpv_allpole a x None false) = Some (Some ([1;4], [1;-3;9;-39]%Z), None) /\
  show2' (lpv_allpole a x (Some (v2 [[1;0]]%Z)) false) = Some (Some ([1;4], [0;-4;20;-108]%Z), Some ([1;2], [-108;20]%Z)) /\
  show2' (lpv_allpole a x None true) = Some (Some ([1;4], [1;-1;1;-1]%Z), None).
Proof.
  cbv zeta. split; [|repeat split; vm_compute; reflexivity].
  split; [reflexivity|]. intros i n k Hi Hn Hk. replace i with 0 by lia. reflexivity.
Qed.
(** Transposed form on a signal shorter than the order: an error. *)
Theorem lpv_allpole_short_refuted :
  lpv_allpole (v3 [[[1;2;3];[1;2;3]]]%Z) (v2 [[1;1]]%Z) None true = Err RuntimeError /\
  show2' (lpv_allpole (v3 [[[1;2;3];[1;2;3]]]%Z) (v2 [[1;1]]%Z) None false) = Some (Some ([1;2], [1;0]%Z), None).
Proof. repeat split; vm_compute; reflexivity. Qed.
Print Assumptions lpv_allpole_short_refuted.

(** fir with taps (1, a) and allpole with a are inverse to each other, in both orders ... *)
Theorem lpv_fir_allpole_inverse :
  forall (R : cring) B N M (b a x : tensor R) af xf,
  1 <= N -> is3 a B N M af -> is3 b B N (S M) (fun i => monic (af i)) -> is2 x B N xf ->
  (exists u y, lpv_fir b x None false = Ok (u, None) /\ lpv_allpole a u None false = Ok (y, None) /\ is2 y B N xf) /\
  (exists u y, lpv_allpole a x None false = Ok (u, None) /\ lpv_fir b u None false = Ok (y, None) /\ is2 y B N xf).
Proof.
  intros R B N M b a x af xf HN Ha Hb Hx. split.
  - destruct (lpv_fir_convolution R B N M b x _ xf HN Hb Hx) as (u & E & Hu).
    destruct (lpv_allpole_equation R B N M a u af _ Ha Hu) as (y & yf & E2 & Hy & H).
    exists u, y. do 2 (split; [assumption|]). eapply is2_ext; [exact Hy|]. intros i n Hi Hn. cbv beta.
    apply (vpole_unique R M (af i) (vconv M (monic (af i)) (xf i)) (yf i) (xf i) (fun _ => r0) N); auto.
    intros k Hk. unfold vpole. now rewrite vconv_hist, vconv_monic.
  - destruct (lpv_allpole_equation R B N M a x af xf Ha Hx) as (u & uf & E & Hu & H).
    destruct (lpv_fir_convolution R B N M b u _ _ HN Hb Hu) as (y & E2 & Hy).
    exists u, y. do 2 (split; [assumption|]). eapply is2_ext; [exact Hy|]. intros i n Hi Hn. cbv beta.
    rewrite vconv_hist, vconv_monic. exact (H i n Hi Hn).
Qed.
Print Assumptions lpv_fir_allpole_inverse.
(** ... and the transposed forms too (orders 1 to N). *)
Theorem lpv_fir_allpole_transposed_inverse_partial :
  forall (R : cring) B N M (b a x : tensor R) af xf,
  1 <= M -> M <= N -> is3 a B N M af -> is3 b B N (S M) (fun i => monic (af i)) -> is2 x B N xf ->
  (exists u y, lpv_fir b x None true = Ok (u, None) /\ lpv_allpole a u None true = Ok (y, None) /\ is2 y B N xf) /\
  (exists u y, lpv_allpole a x None true = Ok (u, None) /\ lpv_fir b u None true = Ok (y, None) /\ is2 y B N xf).
Proof.
  intros R B N M b a x af xf HM HN Ha Hb Hx.
  assert (C : forall i y n, vconvt M (fun m k => conj (monic (af i) m k)) y n = vconvt M (monic (fun m k => conj (af i m k))) y n).
  { intros. apply vconvt_ext; auto. intros m [|k] _ _; [apply conj_1|reflexivity]. }
  split.
  - destruct (lpv_fir_transposed_partial R B N M b x _ xf ltac:(lia) HM Hb Hx) as (u & E & Hu).
    destruct (lpv_allpole_transposed_partial R B N M a u af _ HM HN Ha Hu) as (y & yf & E2 & Hy & H).
    exists u, y. do 2 (split; [assumption|]). eapply is2_ext; [exact Hy|]. intros i n Hi Hn. cbv beta.
    apply (vpolet_unique R M (fun m k => conj (af i m k)) (vconvt M (monic (fun m k => conj (af i m k))) (xf i)) (yf i) (xf i) N); auto.
    + intros k Hk. eapply vpolet_ext; [reflexivity| |exact (H i k Hi Hk)]. apply C.
    + intros k Hk. unfold vpolet. now rewrite vconvt_monic.
  - destruct (lpv_allpole_transposed_partial R B N M a x af xf HM HN Ha Hx) as (u & uf & E & Hu & H).
    destruct (lpv_fir_transposed_partial R B N M b u _ _ ltac:(lia) HM Hb Hu) as (y & E2 & Hy).
    exists u, y. do 2 (split; [assumption|]). eapply is2_ext; [exact Hy|]. intros i n Hi Hn. cbv beta.
    rewrite C, vconvt_monic. exact (H i n Hi Hn).
Qed.
Print Assumptions lpv_fir_allpole_transposed_inverse_partial.
Example lpv_inverse_ex :
  let a := v3 [[[1;2];[3;4];[5;6];[7;8]]]%Z in let b := v3 [[[1;1;2];[1;3;4];[1;5;6];[1;7;8]]]%Z in let x := v2 [[1;-2;0;3]]%Z in
  show2' (let* ' (u, _) := lpv_fir b x None true in lpv_allpole a u None true) = Some (Some ([1;4], [1;-2;0;3]%Z), None) /\
  show2' (let* ' (u, _) := lpv_fir b x None true in lpv_allpole a u None false) <> Some (Some ([1;4], [1;-2;0;3]%Z), None) /\
  show2' (let* ' (u, _) := lpv_allpole a x None false in lpv_fir b u None false) = Some (Some ([1;4], [1;-2;0;3]%Z), None).
Proof. cbv zeta. split; [vm_compute; reflexivity|]. split; [vm_compute; discriminate|vm_compute; reflexivity]. Qed.

(** ** C15: streaming through fir and allpole. *)
Theorem lpv_fir_streaming :
  forall (R : cring) B N1 N2 M (b b1 b2 x x1 x2 zi : tensor R) bf xf zf,
  1 <= N1 -> 1 <= N2 ->
  is3 b B (N1 + N2) (S M) bf -> is3 b1 B N1 (S M) bf -> is3 b2 B N2 (S M) (fun i n => bf i (N1 + n)) ->
  is2 x B (N1 + N2) xf -> is2 x1 B N1 xf -> is2 x2 B N2 (fun i n => xf i (N1 + n)) -> is2 zi B M zf ->
  exists y z y1 z1 y2 z2 f g,
    lpv_fir b x (Some zi) false = Ok (y, Some z) /\ lpv_fir b1 x1 (Some zi) false = Ok (y1, Some z1) /\
    lpv_fir b2 x2 (Some z1) false = Ok (y2, Some z2) /\
    is2 y B (N1 + N2) f /\ is2 y1 B N1 f /\ is2 y2 B N2 (fun i n => f i (N1 + n)) /\ is2 z B M g /\ is2 z2 B M g.
Proof.
  intros R B N1 N2 M b b1 b2 x x1 x2 zi bf xf zf H1 H2 Hb Hb1 Hb2 Hx Hx1 Hx2 Hz.
  destruct (lpv_fir_state R B (N1 + N2) M b x zi bf xf zf ltac:(lia) Hb Hx Hz) as (y & z & E & Y & Z).
  destruct (lpv_fir_state R B N1 M b1 x1 zi bf xf zf H1 Hb1 Hx1 Hz) as (y1 & z1 & E1 & Y1 & Z1).
  destruct (lpv_fir_state R B N2 M b2 x2 z1 _ _ _ H2 Hb2 Hx2 Z1) as (y2 & z2 & E2 & Y2 & Z2).
  exists y, z, y1, z1, y2, z2. do 2 eexists. do 3 (split; [assumption|]). split; [exact Y|]. split; [exact Y1|]. split; [|split; [exact Z|]].
  - eapply is2_ext; [exact Y2|]. intros i n Hi Hn. cbv beta. unfold vconv_with. f_equal. apply bsum_ext. intros k Hk. f_equal.
    apply (hist_shift R (xf i) (xf i)); auto.
  - eapply is2_ext; [exact Z2|]. intros i k Hi Hk. cbv beta. apply (hist_shift R (xf i) (xf i)); auto.
Qed.
Print Assumptions lpv_fir_streaming.
Theorem lpv_fir_transposed_streaming_partial :
  forall (R : cring) B N1 N2 M (b b1 b2 x x1 x2 zi : tensor R) bf xf zf,
  1 <= M -> M <= N1 -> M <= N2 ->
  is3 b B (N1 + N2) (S M) bf -> is3 b1 B N1 (S M) bf -> is3 b2 B N2 (S M) (fun i n => bf i (N1 + n)) ->
  is2 x B (N1 + N2) xf -> is2 x1 B N1 xf -> is2 x2 B N2 (fun i n => xf i (N1 + n)) -> is2 zi B M zf ->
  exists y z y1 z1 y2 z2 f g,
    lpv_fir b x (Some zi) true = Ok (y, Some z) /\ lpv_fir b1 x1 (Some zi) true = Ok (y1, Some z1) /\
    lpv_fir b2 x2 (Some z1) true = Ok (y2, Some z2) /\
    is2 y B (N1 + N2) f /\ is2 y1 B N1 f /\ is2 y2 B N2 (fun i n => f i (N1 + n)) /\ is2 z B M g /\ is2 z2 B M g.
Proof.
  intros R B N1 N2 M b b1 b2 x x1 x2 zi bf xf zf HM H1 H2 Hb Hb1 Hb2 Hx Hx1 Hx2 Hz.
  destruct (lpv_fir_transposed_state_partial R B (N1 + N2) M b x zi bf xf zf ltac:(lia) ltac:(lia) Hb Hx Hz) as (y & z & E & Y & Z).
  destruct (lpv_fir_transposed_state_partial R B N1 M b1 x1 zi bf xf zf ltac:(lia) H1 Hb1 Hx1 Hz) as (y1 & z1 & E1 & Y1 & Z1).
  destruct (lpv_fir_transposed_state_partial R B N2 M b2 x2 z1 _ _ _ ltac:(lia) H2 Hb2 Hx2 Z1) as (y2 & z2 & E2 & Y2 & Z2).
  exists y, z, y1, z1, y2, z2. do 2 eexists. do 3 (split; [assumption|]). split; [exact Y|]. split; [exact Y1|]. split; [|split; [exact Z|]].
  - eapply is2_ext; [exact Y2|]. intros i n Hi Hn. cbv beta. rewrite <- !vtdf2_fir by exact HM. now rewrite vtdf2_y_shift.
  - eapply is2_ext; [exact Z2|]. intros i k Hi Hk. cbv beta. symmetry. rewrite vtdf2_shift. reflexivity.
Qed.
Print Assumptions lpv_fir_transposed_streaming_partial.
Theorem lpv_allpole_streaming_partial :
  forall (R : cring) tr B N1 N2 M (a a1 a2 x x1 x2 zi : tensor R) af xf zf,
  1 <= M -> M <= N1 -> M <= N2 ->
  is3 a B (N1 + N2) M af -> is3 a1 B N1 M af -> is3 a2 B N2 M (fun i n => af i (N1 + n)) ->
  is2 x B (N1 + N2) xf -> is2 x1 B N1 xf -> is2 x2 B N2 (fun i n => xf i (N1 + n)) -> is2 zi B M zf ->
  exists y z y1 z1 y2 z2 f g,
    lpv_allpole a x (Some zi) tr = Ok (y, Some z) /\ lpv_allpole a1 x1 (Some zi) tr = Ok (y1, Some z1) /\
    lpv_allpole a2 x2 (Some z1) tr = Ok (y2, Some z2) /\
    is2 y B (N1 + N2) f /\ is2 y1 B N1 f /\ is2 y2 B N2 (fun i n => f i (N1 + n)) /\ is2 z B M g /\ is2 z2 B M g.
Proof.
  intros R tr B N1 N2 M b b1 b2 x x1 x2 zi bf xf zf HM H1 H2 Hb Hb1 Hb2 Hx Hx1 Hx2 Hz. destruct tr.
  - destruct (lpv_allpolet_some R B (N1 + N2) M b x zi bf xf zf Hb Hx Hz HM ltac:(lia)) as (y & z & E & Y & Z).
    destruct (lpv_allpolet_some R B N1 M b1 x1 zi bf xf zf Hb1 Hx1 Hz HM ltac:(lia)) as (y1 & z1 & E1 & Y1 & Z1).
    destruct (lpv_allpolet_some R B N2 M b2 x2 z1 _ _ _ Hb2 Hx2 Z1 HM ltac:(lia)) as (y2 & z2 & E2 & Y2 & Z2).
    exists y, z, y1, z1, y2, z2. do 2 eexists. do 3 (split; [assumption|]). split; [exact Y|]. split; [exact Y1|]. split; [|split; [exact Z|]].
    + eapply is2_ext; [exact Y2|]. intros i n Hi Hn. cbv beta. now rewrite vtdf2_y_shift.
    + eapply is2_ext; [exact Z2|]. intros i k Hi Hk. cbv beta. symmetry. rewrite vtdf2_shift. reflexivity.
  - destruct (lpv_allpole_some R B (N1 + N2) M b x zi bf xf zf Hb Hx Hz HM ltac:(lia)) as (y & z & E & Y & Z).
    destruct (lpv_allpole_some R B N1 M b1 x1 zi bf xf zf Hb1 Hx1 Hz HM ltac:(lia)) as (y1 & z1 & E1 & Y1 & Z1).
    destruct (lpv_allpole_some R B N2 M b2 x2 z1 _ _ _ Hb2 Hx2 Z1 HM ltac:(lia)) as (y2 & z2 & E2 & Y2 & Z2).
    exists y, z, y1, z1, y2, z2. do 2 eexists. do 3 (split; [assumption|]). split; [exact Y|]. split; [exact Y1|]. split; [|split; [exact Z|]].
    + eapply is2_ext; [exact Y2|]. intros i n Hi Hn. cbv beta. rewrite <- Nat.add_succ_r. now rewrite vdf2_shift.
    + eapply is2_ext; [exact Z2|]. intros i k Hi Hk. cbv beta. symmetry. now rewrite vdf2_shift.
Qed.
Print Assumptions lpv_allpole_streaming_partial.
Example lpv_streaming_filters_ex :
  let a := v3 [[[1];[3];[5];[7]]]%Z in let b := v3 [[[1;1];[1;3];[1;5];[1;7]]]%Z in let x := v2 [[1;-2;0;3]]%Z in
  show2' (lpv_fir b x (Some (v2 [[4]]%Z)) true) = Some (Some ([1;4], [5;-1;-6;3]%Z), Some ([1;1], [21]%Z)) /\
  show2' (lpv_fir (slice 1 None (Some 2%Z) b) (v2 [[1;-2]]%Z) (Some (v2 [[4]]%Z)) true) = Some (Some ([1;2], [5;-1]%Z), Some ([1;1], [-6]%Z)) /\
  show2' (lpv_fir (slice 1 (Some 2%Z) None b) (v2 [[0;3]]%Z) (Some (v2 [[-6]]%Z)) true) = Some (Some ([1;2], [-6;3]%Z), Some ([1;1], [21]%Z)) /\
  show2' (lpv_allpole a x (Some (v2 [[4]]%Z)) false) = Some (Some ([1;4], [-3;7;-35;248]%Z), Some ([1;1], [248]%Z)) /\
  show2' (lpv_allpole (slice 1 (Some 2%Z) None a) (v2 [[0;3]]%Z) (Some (v2 [[7]]%Z)) false) = Some (Some ([1;2], [-35;248]%Z), Some ([1;1], [248]%Z)).
Proof. cbv zeta. repeat split; vm_compute; reflexivity. Qed.
