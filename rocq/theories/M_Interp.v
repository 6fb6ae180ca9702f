(** Model of philtorch/lti/interp.py (cubic B-spline coefficients and upsampling).

    Scalars: an ordered field; [r] stands for torch.tensor(3**0.5 - 2), exact (a root of
    r^2 + 4 r + 1).  Signals have shape (batch, time).  Of the keyword arguments only
    unroll_factor exists in the callee, so [uf] is the whole of **kwargs. *)
From Coq Require Import List Arith Lia ZArith Bool.
From Coq Require Import Floats.SpecFloat.
From Verif Require Import Scalar Tensor Ordered M_LtiRecur M_Kernels M_LtiSsm.
Import ListNotations.
Open Scope res_scope.
Open Scope cr_scope.

Section Coeff.
Variable F : cfield.
Notation ten := (tensor (car F)).
Variable e : env.
Variable r : F.

(** interp.py:10-20 _first_order_filt *)
Definition first_order_filt (x a zi : ten) (b : option ten) (uf : nat) : res ten :=
  let* xb := match b with None => Ok x | Some b => tmul x b end in          (* 13 *)
  let* a' := expand [size x 0] a in
  if ext e then                                                             (* 14-17 *)
    let* zi' := expand [size x 0] zi in
    LTIRecurrence_forward e a' zi' xb
  else linear_recurrence a' zi xb uf.                                       (* 18-19 *)

(** r ** torch.arange(n) *)
Definition powers (n : nat) : ten := mk1 n (fun k => rpow r k).

Definition six : F := rnat 6.

(** interp.py:23-57 _cubic_coeff *)
Definition cubic_coeff (x : ten) (parallel_form scipy_padding : bool) (uf : nat) : res ten :=
  let L := size x 1 in
  let rt := mk0 r in
  let* causal_zi :=
    if scipy_padding then matmul x (powers L)                               (* 31-32 *)
    else matmul (slice 1 (Some 1%Z) None x) (powers (L - 1)) in             (* 35-36 *)
  if parallel_form then
    let* mirrored_x := cat 1 [x; flip 1 (if scipy_padding then x else slice 1 None (Some (-1)%Z) x)] in (* 39-41 *)
    let* h := first_order_filt mirrored_x rt causal_zi None uf in           (* 43 *)
    let causal_h := slice 1 None (Some (Z.of_nat L)) h in                   (* 44 *)
    let anticausal_h := flip 1 (slice 1 (Some (- Z.of_nat L)%Z) None h) in
    let* s := tadd causal_h anticausal_h in
    let* d := tsub s x in
    tmul (mk0 (- six * r * rinv (1 - r * r))) d                             (* 45 *)
  else
    let* h := first_order_filt x rt causal_zi None uf in                    (* 48 *)
    let* hl := select 1 (-1) h in
    let* zi :=
      if scipy_padding then tmul (mk0 (r * rinv (r - 1))) hl                (* 50 *)
      else let* xl := select 1 (-1) x in
           let* h2 := tmul (mk0 (1 + 1)) hl in
           let* d := tsub h2 xl in
           tmul (mk0 (- r * rinv (1 - r * r))) d in                         (* 52 *)
    let* cf := first_order_filt (flip 1 (slice 1 None (Some (-1)%Z) h)) rt zi (Some (mk0 (- r))) uf in (* 55 *)
    let* c := cat 1 [flip 1 cf; unsqueeze (rk zi) zi] in
    tmul c (mk0 six).                                                       (* 56 *)

(** interp.py:75-98 cspline; [lamb_nonzero] is the test lamb != 0.0. *)
Definition cspline (x : ten) (parallel_form scipy_padding lamb_nonzero : bool) (uf : nat) : res ten :=
  if lamb_nonzero then Err NotImplementedError                              (* 97-100 *)
  else cubic_coeff x parallel_form scipy_padding uf.
End Coeff.
Arguments first_order_filt {F}. Arguments powers {F}. Arguments six {F}. Arguments cubic_coeff {F}.
Arguments cspline {F}.

(** ** The kernel grid *)
(** Number of elements of torch.arange(-2, 2, 1 / m): Python computes 1 / m and torch
    ceil((2 - -2) / (1 / m)), both in IEEE double precision (53-bit, round to nearest even). *)
Definition fl_nat (n : nat) : spec_float := binary_normalize 53 1024 (Z.of_nat n) 0 false.
Definition fl_div (x y : spec_float) : spec_float := SFdiv 53 1024 x y.
Definition fl_ceil (x : spec_float) : nat :=
  match x with
  | S754_finite false m ex =>
      if (0 <=? ex)%Z then Z.to_nat (Zpos m * 2 ^ ex)
      else Z.to_nat ((Zpos m + 2 ^ (- ex) - 1) / 2 ^ (- ex))
  | _ => 0%nat
  end.
Definition arange_len (m : nat) : nat := fl_ceil (fl_div (fl_nat 4) (fl_div (fl_nat 1) (fl_nat m))).

Section Spline.
Variable F : ofield.
Notation ten := (tensor (car F)).
Variable e : env.
Variable r : F.

(** torch.arange(-2, 2, 1 / m); the values are exact: -2 + i / m. *)
Definition arange_m (m : nat) : ten :=
  mk1 (arange_len m) (fun i => (rnat i - rnat (2 * m)) * rinv (rnat m)).

(** t.reshape(a, b) of a 1-D tensor. *)
Definition reshape2 (a b : nat) (t : ten) : res ten :=
  guard size t 0 =? a * b else RuntimeError in Ok (mk2 a b (fun i j => at_ t [(i * b + j)%nat])).

(** interp.py:60-72 _cubic_spline_kernel, on one entry. *)
Definition cubic_spline_kernel1 (x : F) : F :=
  let a := oabs x in
  if ole a 1 then (rnat 4 - six * rpow a 2 + rnat 3 * rpow a 3) * rinv six  (* 65-66 *)
  else if olt a (rnat 2) then rpow (rnat 2 - a) 3 * rinv six                (* 68-69 *)
  else 0.
Definition cubic_spline_kernel (x : ten) : ten := tmap cubic_spline_kernel1 x.

(** F.pad(t, (l, r), mode="reflect") on the last of three dimensions. *)
Definition pad_reflect (l rr : nat) (t : ten) : res ten :=
  let n := size t 2 in
  guard (l <? n) && (rr <? n) else RuntimeError in
  Ok (mkT (upd 2 (fun _ => l + n + rr)%nat (shape t))
          (fun idx => at_ t (upd 2 (fun i => if i <? l then l - i
                                             else if i <? l + n then i - l
                                             else 2 * n - 2 - (i - l))%nat idx))).

(** F.conv1d(x, w) with one input channel: x (B, 1, n), w (O, 1, K). *)
Definition conv1d_1 (x w : ten) : res ten :=
  guard (rk x =? 3) && (rk w =? 3) && (size x 1 =? 1) && (size w 1 =? 1) && (size w 2 <=? size x 2) else RuntimeError in
  Ok (mk3 (size x 0) (size w 0) (size x 2 - size w 2 + 1)
          (fun b o t => bsum (size w 2) (fun k => at_ w [o; 0; k]%nat * at_ x [b; 0%nat; (t + k)%nat]))).

(** interp.py:101-137 cubic_spline *)
Definition cubic_spline (x : ten) (m : nat) (scipy_padding parallel_form lamb_nonzero : bool) (uf : nat) : res ten :=
  guard 1 <=? m else AssertionError in                                      (* 116-118 *)
  if m =? 1 then Ok x else                                                  (* 119-120 *)
  let* c := cspline e r x parallel_form scipy_padding lamb_nonzero uf in    (* 122 *)
  let* kernel_idx := reshape2 4 m (arange_m m) in                           (* 124-126 *)
  let kernel := mT (flip 0 (cubic_spline_kernel kernel_idx)) in             (* 127 *)
  let* padded :=
    if scipy_padding
    then let* p := cat 1 [slice 1 None (Some 1%Z) c; c; flip 1 (slice 1 (Some (-2)%Z) None c)] in
         Ok (unsqueeze 1 p)                                                 (* 131 *)
    else pad_reflect 1 2 (unsqueeze 1 c) in                                 (* 133 *)
  let* y := conv1d_1 padded (unsqueeze 1 kernel) in                         (* 129-136 *)
  let interped := flatten 1 2 (mT y) in                                     (* 136 *)
  Ok (slice (rk interped - 1) None (Some (- Z.of_nat (m - 1))%Z) interped). (* 137 *)
End Spline.
Arguments arange_m {F}. Arguments reshape2 {F}. Arguments cubic_spline_kernel1 {F}.
Arguments cubic_spline_kernel {F}. Arguments pad_reflect {F}. Arguments conv1d_1 {F}. Arguments cubic_spline {F}.
