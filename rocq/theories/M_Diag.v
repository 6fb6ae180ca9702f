(** Model of diag_state_space (philtorch/lti/ssm.py:592-833) and of the diagonal back-end of
    lfilter (philtorch/lti/filtering.py:336-416).

    [e] is the back-end configuration, [la] supplies torch.linalg.{eigvals, solve, inv,
    vector_norm}, [re] is Tensor.real on one entry.  The dtype flags that the code reads are
    arguments: [c_complex] is C.is_complex().  The "+ 0j" casts (731-738) do not change
    values. *)
From Coq Require Import List Arith Lia ZArith Bool.
From Verif Require Import Scalar Tensor M_Mat M_LtiRecur M_Kernels M_LtiSsm M_LtiFilter M_Poly.
Import ListNotations.
Open Scope res_scope.

Section Diag.
Variable F : cfield.
Notation ten := (tensor (car F)).
Variable e : env.
Variable la : linalg F.
Variable re : F -> F.

(** assert t.dim() == d and it is square of size M (with batch_size matrices if d = 3). *)
Definition check_mat (batch_size M d : nat) (t : option ten) : bool :=
  match t with
  | None => true
  | Some t => (rk t =? d) && ((d =? 2) || (size t 0 =? batch_size)) && (sizen t 2 =? M) && (sizen t 1 =? M)
  end.

(** ssm.py:647-722: the decomposition that is used (L, V, Vinv) and M. *)
Definition diag_resolve (L V Vinv A : option ten) (batch_size : nat) : res (ten * ten * ten * nat) :=
  let* ' (L, V, Vinv, M) :=
    match L with
    | None =>
        match A with
        | None => Err AssertionError                                            (* 648 *)
        | Some A =>
            guard (rk A =? 2) || (rk A =? 3) else AssertionError in             (* 649 *)
            guard sizen A 2 =? sizen A 1 else AssertionError in                 (* 650 *)
            guard negb (rk A =? 3) || (batch_size =? size A 0) else AssertionError in
            let* L := l_eigvals la A in                                         (* 655 *)
            Ok (L, None, None, sizen A 1)                                       (* 656-657 *)
        end
    | Some L =>
        match shape L with
        | [_] =>                                                                (* 660-677 *)
            let M := size L 0 in
            guard check_mat batch_size M 2 V else AssertionError in
            guard check_mat batch_size M 2 Vinv else AssertionError in
            guard check_mat batch_size M 2 A else AssertionError in
            Ok (L, V, Vinv, M)
        | [L_batch; _] =>
            if L_batch =? batch_size then                                       (* 679-699 *)
              let M := size L 1 in
              guard match V, Vinv with None, None => false | _, _ => true end else AssertionError in
              guard check_mat batch_size M 3 V else AssertionError in
              guard check_mat batch_size M 3 Vinv else AssertionError in
              guard check_mat batch_size M 3 A else AssertionError in
              Ok (L, V, Vinv, M)
            else Err ValueError
        | _ => Err ValueError                                                   (* 701-704 *)
        end
    end in
  match V, Vinv, A with
  | None, None, None => Ok (L, eye M, eye M, M)                                 (* 707-709 *)
  | None, None, Some A =>                                                       (* 710-712 *)
      let* V := find_eigenvectors la A L in
      let* Vinv := l_inv la V in
      Ok (L, V, Vinv, M)
  | None, Some Vinv, _ => let* V := l_inv la Vinv in Ok (L, V, Vinv, M)         (* 713-714 *)
  | Some V, None, _ => let* Vinv := l_inv la V in Ok (L, V, Vinv, M)            (* 715-716 *)
  | Some V, Some Vinv, _ => Ok (L, V, Vinv, M)                                  (* 717-718 *)
  end.

(** ssm.py:740-746 *)
Definition diag_zi (Vinv zi : ten) : res ten :=
  if rk Vinv =? 2 then matmul zi (mT Vinv)
  else if rk Vinv =? 3 then vecdot (tconj Vinv) (unsqueeze 1 zi)
  else Err AssertionError.

(** ssm.py:748-792: Vinv B x. *)
Definition diag_input (x Vinv : ten) (B : option ten) (batch_size M : nat) : res ten :=
  match B with
  | Some B =>
      match shape B with
      | [BM] =>
          if BM =? M then                                                       (* 755-762 *)
            guard rk x =? 2 else AssertionError in
            let* VB := matmul Vinv B in
            tmul (unsqueeze (rk x) x) (if rk VB =? 2 then unsqueeze 1 VB else VB)
          else Err ValueError
      | [B0; B1] =>
          if (B0 =? batch_size) && (B1 =? M) then                               (* 763-772 *)
            guard rk x =? 2 else AssertionError in
            let* VB := if rk Vinv =? 2 then matmul B (mT Vinv) else vecdot (tconj Vinv) (unsqueeze 1 B) in
            tmul (unsqueeze (rk x) x) (unsqueeze 1 VB)
          else if (B0 =? M) && feq B1 (features x) then                         (* 773-775 *)
            let* VB := matmul Vinv B in matmul x (mT VB)
          else Err ValueError
      | [B0; B1; B2] =>
          if (B0 =? batch_size) && (B1 =? M) && feq B2 (features x) then        (* 776-780 *)
            let* VB := matmul Vinv B in
            vecdot (tconj (unsqueeze 1 VB)) (unsqueeze (rk x - 1) x)
          else Err ValueError
      | _ => Err ValueError
      end
  | None =>
      if (rk x =? 2) && (rk Vinv =? 2) then                                     (* 785-786 *)
        let* c := select 1 0 Vinv in tmul (unsqueeze 2 x) c
      else if (rk x =? 2) && (rk Vinv =? 3) then                                (* 787-788 *)
        let* c := select 2 0 Vinv in tmul (unsqueeze 2 x) (unsqueeze 1 c)
      else if rk x =? 3 then matmul x (mT Vinv)                                 (* 789-790 *)
      else Err AssertionError
  end.

(** ssm.py:794-804: the decoupled recurrences, (batch, M, time). *)
Definition diag_recur (L Vzi Vx : ten) (batch_size M unroll_factor : nat) : res ten :=
  let* l := expand [batch_size; M] L in
  let lf := flatten 0 1 l in
  let zf := flatten 0 (rk Vzi - 1) Vzi in
  let xf := flatten 0 1 (mT Vx) in
  let* y := if ext e && (unroll_factor =? 1)
            then LTIRecurrence_forward e lf zf xf
            else linear_recurrence lf zf xf unroll_factor in
  unflatten 0 [batch_size; M] y.

(** ssm.py:592-833 diag_state_space; the second component of the result is the final
    state, present exactly when zi is. *)
Definition diag_state_space (x : ten) (L V Vinv A B C D zi : option ten) (c_complex : bool)
  (out_idx : option Z) (unroll_factor : option nat) : res (ten * option ten) :=
  guard (rk x =? 2) || (rk x =? 3) else AssertionError in                       (* 634 *)
  guard match C, out_idx with Some _, Some _ => false | _, _ => true end
    else ValueError in                                                          (* 638-641 *)
  let batch_size := size x 0 in let N := size x 1 in                            (* 643 *)
  let unroll_factor := match unroll_factor with Some u => u | None => round_sqrt N end in
  let* ' (L, V, Vinv, M) := diag_resolve L V Vinv A batch_size in               (* 647-722 *)
  let return_zf := match zi with Some _ => true | None => false end in
  let* zi := ss_zi x zi batch_size M in                                         (* 724-729 *)
  let* Vzi := diag_zi Vinv zi in                                                (* 740-746 *)
  let* Vx := diag_input x Vinv B batch_size M in                                (* 748-792 *)
  let* Vh := diag_recur L Vzi Vx batch_size M unroll_factor in                  (* 794-804 *)
  let* ' (h, zf) :=
    match out_idx, return_zf with
    | Some i, false =>                                                          (* 805-813 *)
        let* z0 := select 1 i zi in
        let* Vi := select (rk V - 2) i V in
        let* Vih := matmul (unsqueeze (rk V - 2) Vi) (slice 2 None (Some (-1)%Z) Vh) in
        let* h := cat 1 [unsqueeze 1 z0; squeeze (rk Vih - 2) Vih] in
        Ok (h, None)
    | _, _ =>
        let* VVh := matmul V Vh in
        let h := mT VVh in                                                      (* 815 *)
        let* zf := if return_zf then let* z := select 1 (-1) h in Ok (Some z) else Ok None in
        let* h :=
          match out_idx with
          | None => cat 1 [unsqueeze 1 zi; slice 1 None (Some (-1)%Z) h]        (* 819-820 *)
          | Some i =>
              let* z0 := select 1 i zi in
              let* hi := select 2 i (slice 1 None (Some (-1)%Z) h) in
              cat 1 [unsqueeze 1 z0; hi]                                        (* 821 *)
          end in
        Ok (h, zf)
    end in
  let real_out := match C with Some _ => negb c_complex | None => false end in
  let h := if real_out then tmap re h else h in                                 (* 826-827 *)
  let zf := if real_out then match zf with Some z => Some (tmap re z) | None => None end else zf in
  let* y := ssm_C_D h x C D batch_size M in                                     (* 830 *)
  Ok (y, zf).

(** F.pad(t, (l, 0)) / F.pad(t, (0, r), value=v) on the last dimension are [pad].

    filtering.py:336-416 _diag_ssm_lfilter.  [complex_coef] is whether b or a is complex. *)
Definition diag_ssm_lfilter (fm : form) (delayed_form complex_coef : bool) (unroll_factor : option nat)
  (b a x : ten) (zi : option ten) : res (ten * option ten) :=
  let nb := sizen b 1 in let na := sizen a 1 in
  let* ' (b, zi, direct, delay) :=
    if na + 1 <? nb then                                                        (* 347 *)
      if delayed_form then                                                      (* 349-353 *)
        let* ' (q, r) := polydiv b (pad (rk a - 1) 1 0 r1 a) in
        Ok (r, None, Some q, nb - na)
      else                                                                      (* 354-358 *)
        let* ' (q, r) := polydiv (flip (rk b - 1) b) (pad (rk a - 1) 0 1 r1 (flip (rk a - 1) a)) in
        Ok (flip (rk r - 1) r, None, Some (flip (rk q - 1) q), 0)
    else Ok (b, zi, None, 0) in                                                 (* 359-361 *)
  let b := if sizen b 1 <? na + 1 then pad (rk b - 1) 0 (na + 1 - sizen b 1) r0 b else b in  (* 363-364 *)
  let* A := companion a in                                                      (* 366 *)
  let* ' (y, zf) :=
    match fm with
    | Df2 =>                                                                    (* 369-381 *)
        let* b0a := tmul (slice (rk b - 1) None (Some 1%Z) b) a in
        let* C := tsub (slice (rk b - 1) (Some 1%Z) None b) b0a in
        let* D := select (rk b - 1) 0 b in
        diag_state_space x None None None (Some A) None (Some C) (Some D) zi complex_coef None unroll_factor
    | Tdf2 =>                                                                   (* 382-395 *)
        let* b0a := tmul (slice (rk b - 1) None (Some 1%Z) b) a in
        let* B := tsub (slice (rk b - 1) (Some 1%Z) None b) b0a in
        let* D := select (rk b - 1) 0 b in
        diag_state_space x None None None (Some (tconj (mT A))) (Some (tconj B)) None (Some (tconj D)) zi
          complex_coef (Some 0%Z) unroll_factor
    | _ => Err ValueError                                                       (* 396-397 *)
    end in
  match zf with
  | Some _ => Ok (y, zf)                                                        (* 400-401 *)
  | None =>
      let y := if 0 <? delay                                                    (* 404-405 *)
               then pad 1 delay 0 r0 (slice 1 None (Some (- Z.of_nat delay)%Z) y) else y in
      match direct with
      | None => Ok (y, None)
      | Some q =>                                                               (* 407-408 *)
          let* ' (d, _) := fir q x None true in
          let* y := tadd y d in Ok (y, None)
      end
  end.
Definition lfilter_diag (b a x : ten) (zi : option ten) (fm : form) (delayed_form complex_coef : bool)
  (unroll_factor : option nat) : res (ten * option ten) :=
  lfilter_wrap (diag_ssm_lfilter fm delayed_form complex_coef unroll_factor) b a x zi.
End Diag.
Arguments check_mat {F}. Arguments diag_resolve {F}. Arguments diag_zi {F}. Arguments diag_input {F}.
Arguments diag_recur {F}. Arguments diag_state_space {F}. Arguments diag_ssm_lfilter {F}. Arguments lfilter_diag {F}.
