(** Model of philtorch/prototype/signal.py (partial-fraction expansions).

    1-D tensors of coefficients and roots are lists, as in M_ProtoPoly; the residues are
    tensors, because their shape depends on polyval.  Scalars are a field standing for the
    complex numbers.  Parameters: [z0 x] is x == 0, [small x] is |x| < 1e-8, [eigvals] is
    torch.linalg.eigvals, [close x y] is cdist < tol, [argsort l] is
    torch.argsort(torch.abs(l), descending=True).  Dtypes are only modelled where the code
    asks for them (is_complex); [rinv 0] (inf or nan in the code) is whatever the field
    record returns. *)
From Coq Require Import List Arith Lia ZArith Bool.
From Verif Require Import Scalar Tensor M_ProtoPoly.
Import ListNotations.
Open Scope res_scope.

(** The [rtype] argument. *)
Inductive rtype := RMax | RMin | RAvg | ROther.

Section Signal.
Variable F : cfield.
Notation ten := (tensor (car F)).
Variable z0 small : F -> bool.
Variable eigvals : nat -> (nat -> nat -> F) -> list F.
Variable close : F -> F -> bool.
Variable argsort : list F -> list nat.
Notation gt i p := (nth i p r0).

(** a / b of two tensors. *)
Definition tdiv (a b : ten) : res ten := ew (fun x y => rmul x (rinv y)) a b.
Fixpoint suml (l : list F) : F := match l with [] => r0 | x :: l => radd x (suml l) end.
(** [l[idx]] for a list of indices. *)
Definition pick {A} (d : A) (idx : list nat) (l : list A) : list A := map (fun i => nth i l d) idx.

(** ** unique_roots, signal.py:10-53 *)
(** [reduction] on a non-empty complex tensor: torch.max and torch.min are not defined for
    complex dtypes and raise RuntimeError. *)
Definition reduction (rt : rtype) (l : list F) : res F :=
  match rt with
  | RAvg => Ok (rmul (suml l) (rinv (rnat (length l))))
  | RMax | RMin => Err RuntimeError
  | ROther => Err ValueError
  end.
(** signal.py:43-51, the loop over the indices still to visit.  [used] is the mask. *)
Fixpoint unique_loop (rt : rtype) (p : list F) (cx : list bool) (is : list nat) (used : nat -> bool)
  : res (list (F * nat * bool)) :=
  match is with
  | [] => Ok []
  | i :: is' =>
      if used i then unique_loop rt p cx is' used                               (* 44-45 *)
      else
        let group := filter (fun j => close (gt i p) (gt j p) && negb (used j)
                                      && Bool.eqb (nth j cx true) (nth i cx true))
                            (seq 0 (length p)) in                               (* 47 *)
        let* u := reduction rt (pick r0 group p) in                             (* 49 *)
        let* r := unique_loop rt p cx is' (fun j => used j || existsb (Nat.eqb j) group) in
        Ok ((u, length group, nth i cx true) :: r)                              (* 48-51 *)
  end.
(** [p_complex] is p.is_complex(). *)
Definition unique_roots (p : list F) (p_complex : bool) (rt : rtype) (is_complex : option (list bool))
  : res (list (F * nat * bool)) :=
  match rt with ROther => Err ValueError | _ =>                                 (* 17-28 *)
  guard p_complex else AssertionError in                                        (* 30 *)
  let cx := match is_complex with Some c => c | None => repeat true (length p) end in  (* 37-38 *)
  let* l := unique_loop rt p cx (seq 0 (length p)) (fun _ => false) in
  match l with [] => Err RuntimeError | _ => Ok l end                           (* 53 *)
  end.

(** ** _compute_factors, signal.py:56-78 *)
Definition monomial (r : F) : list F := [r1; ropp r].                           (* 62 *)
(** 63-65: [l] is what is left of the zip of the flipped sequences. *)
Fixpoint suffix_loop (l : list (F * nat)) (current : list F) : res (list (list F)) :=
  match l with
  | [] => Ok []
  | (r, mult) :: l' =>
      let* c := polysmul z0 (current :: repeat (monomial r) mult) in
      let* s := suffix_loop l' c in Ok (c :: s)
  end.
Definition suffixes (l : list (F * nat)) : res (list (list F)) :=
  let* s := suffix_loop (removelast (rev l)) [r1] in Ok (rev ([r1] :: s)).      (* 60-66 *)
(** 72-75: the loop over [range(mult)]; returns the block and the new [current]. *)
Fixpoint factor_block (include_powers : bool) (mole suffix : list F) (cnt i : nat) (current : list F)
  : list (list F) * list F :=
  match cnt with
  | O => ([], current)
  | S cnt' =>
      let '(bl, c) := factor_block include_powers mole suffix cnt' (S i) (polymul z0 current mole) in
      ((if (i =? 0) || include_powers then [polymul z0 current suffix] else []) ++ bl, c)
  end.
Fixpoint factor_loop (include_powers : bool) (l : list (F * nat * list F)) (current : list F)
  : list (list F) * list F :=
  match l with
  | [] => ([], current)
  | (r, mult, suffix) :: l' =>
      let '(bl, c) := factor_block include_powers (monomial r) suffix mult 0 current in
      let '(fs, c') := factor_loop include_powers l' c in (rev bl ++ fs, c')    (* 70-76 *)
  end.
Definition compute_factors (l : list (F * nat)) (include_powers : bool) : res (list (list F) * list F) :=
  let* s := suffixes l in
  Ok (factor_loop include_powers (combine l s) [r1]).

(** ** _compute_residues, signal.py:81-103 *)
(** 95-99; [cnt] iterations left.  The residues r, in the order they are found. *)
Fixpoint residue_block (mono factor : list F) (d : F) (cnt : nat) (numer : list F) : list F :=
  match cnt with
  | O => []
  | S cnt' =>
      let '(numer, n) := proto_polydiv z0 small numer mono in                   (* 96 *)
      let r := rmul (gt 0 n) (rinv d) in                                        (* 97 *)
      r :: residue_block mono factor d cnt' (polysub numer (map (rmul r) factor))  (* 98-99 *)
  end.
Definition pole_residues (numerator : list F) (pole : F) (mult : nat) (factor : list F) : res (list ten) :=
  if mult =? 1 then                                                             (* 87-88 *)
    let* n := polyval z0 numerator (mk0 pole) in
    let* d := polyval z0 factor (mk0 pole) in
    let* r := tdiv n d in Ok [r]
  else
    let '(factor, d) := proto_polydiv z0 small factor (monomial pole) in        (* 91-92 *)
    Ok (map mk0 (rev (residue_block (monomial pole) factor (gt 0 d) mult numerator))).  (* 94-101 *)
Definition compute_residues (l : list (F * nat)) (numerator : list F) : res ten :=
  let* ' (factors, _) := compute_factors l false in                             (* 82 *)
  let* rs := mapM (fun '(pole, mult, factor) => pole_residues numerator pole mult factor) (combine l factors) in
  stack 0 (concat rs).                                                          (* 103 *)

(** ** residue and residuez *)
(** [pole] repeated [mult] times, for all poles (signal.py:129-131, 162-164). *)
Definition repeat_poles (l : list (F * nat)) : list F := concat (map (fun '(p, m) => repeat p m) l).
(** Distinct poles in the order of [argsort] (123-126, 155-158). *)
Definition sorted_poles (rt : rtype) (poles : list F) : res (list (F * nat)) :=
  let* u := unique_roots poles (negb (length poles =? 0)) rt None in
  let order := argsort (map (fun '(p, _, _) => p) u) in
  Ok (pick (r0, 0) order (map (fun '(p, m, _) => (p, m)) u)).

(** signal.py:106-132 residue.  [poles] is complex unless it is the empty tensor. *)
Definition residue (b a : list F) (rt : rtype) : res (ten * list F * list F) :=
  guard negb (length b =? 0) && negb (length a =? 0) else AssertionError in     (* 113-114 *)
  let* poles := roots z0 eigvals a in                                           (* 116 *)
  let '(k, b) := if length b <? length a then ([], b) else proto_polydiv z0 small b a in  (* 118-121 *)
  let* l := sorted_poles rt poles in                                            (* 123-126 *)
  let* residues := compute_residues l b in                                      (* 128 *)
  Ok (tmap (fun x => rmul x (rinv (gt 0 a))) residues, repeat_poles l, k).      (* 129-132 *)

(** signal.py:135-169 residuez *)
Definition residuez (b a : list F) (rt : rtype) : res (ten * list F * list F) :=
  guard negb (length b =? 0) && negb (length a =? 0) else AssertionError in
  let* poles := roots z0 eigvals a in
  let b_rev := rev b in
  let a_rev := rev a in
  let '(k_rev, b_rev) := if length b_rev <? length a_rev then ([], b_rev) else proto_polydiv z0 small b_rev a_rev in
  let* l := sorted_poles rt poles in
  let* residues := compute_residues (map (fun '(p, m) => (rinv p, m)) l) b_rev in
  let poles := repeat_poles l in
  let powers := concat (map (fun '(_, m) => seq 1 m) l) in
  let* residues := tmul residues (lst1 r0 (map (fun '(p, j) => rpow (ropp p) j) (combine poles powers))) in
  Ok (tmap (fun x => rmul x (rinv (gt 0 a_rev))) residues, poles, rev k_rev).

(** ** sos2pfe, signal.py:172-373
    [re] is Tensor.real, [neg] is x < 0 on real numbers, [csqrt] the complex square root.
    exp(sum(log x)) is the product; for a real x with a negative entry it is NaN, which is
    [None] here ([G0] and everything multiplied by it).  0 ** 0 is 1. *)
Variable re : F -> F.
Variable neg : F -> bool.
Variable csqrt : F -> F.
Definition prodl (l : list F) : F := fold_right rmul r1 l.
Definition expsumlog_real (l : list F) : option F := if existsb neg l then None else Some (prodl l).
(** [t[mask]] *)
Definition masked {A} (m : list bool) (l : list A) : list A := map snd (filter fst (combine m l)).
(** torch.cat along the first dimension, which ignores empty 1-D tensors. *)
Definition cat0 (l : list ten) : res ten :=
  match filter (fun t => negb (list_eqb (shape t) [0])) l with
  | [] => Ok (zeros [0])
  | l => cat 0 l
  end.
(** [t[::2]] *)
Definition every2 (t : ten) : ten :=
  mkT (upd 0 (fun n => (n + 1) / 2) (shape t)) (fun idx => at_ t (upd 0 (fun i => 2 * i) idx)).
Fixpoint every2l {A} (l : list A) : list A :=
  match l with x :: _ :: l' => x :: every2l l' | l => l end.

(** signal.py:192-204: the poles, the two of a section next to each other. *)
Definition sos_roots (a : list (F * F)) : list F :=
  let half := rinv (radd r1 r1) in
  concat (map (fun '(a1, a2) =>
    let s := csqrt (rsub (rmul a1 a1) (rmul (rnat 4) a2)) in
    [rmul (radd (ropp a1) s) half; rmul (rsub (ropp a1) s) half]) a).
(** 193, 205: is_complex_root.repeat(2) *)
Definition sos_is_complex (a : list (F * F)) : list bool :=
  let c := map (fun '(a1, a2) => neg (rsub (rmul a1 a1) (rmul (rnat 4) a2))) a in c ++ c.

(** 219-232: residue of the simple pole at position [i] of the list [u] of poles. *)
Definition simple_residue (b : list (F * F)) (u : list (F * nat)) (i : nat) : F :=
  let p := fst (nth i u (r0, 0)) in
  let numer := prodl (map (fun '(b1, b2) => radd (radd (rmul p p) (rmul p b1)) b2) b) in
  let denom := prodl (map (fun '(j, (q, m)) => rpow (rsub p q) (if j =? i then 0 else m))
                          (combine (seq 0 (length u)) u)) in
  rmul numer (rinv denom).

(** 289-294; [j - 1] takes the values 1, ..., repeats - 1. *)
Fixpoint deriv_block (n d : list F) (pole : F) (cnt j1 : nat) : res (list ten) :=
  match cnt with
  | O => Ok []
  | S cnt' =>
      let* n_diff := polyder z0 n 1 in
      let* d_diff := polyder z0 d 1 in
      let n := polysub (polymul z0 n_diff d) (polymul z0 n d_diff) in
      let d := map (fun c => rmul c (rnat j1)) (polymul z0 d d) in
      let* nv := polyval z0 n (mk0 pole) in
      let* dv := polyval z0 d (mk0 pole) in
      let* r := tdiv nv dv in
      let* rs := deriv_block n d pole cnt' (S j1) in Ok (r :: rs)
  end.
(** 260-296: the residues of the [i]-th repeated pole. *)
Definition repeated_block (numerator non_repeated_denominator : list F) (u : list (F * nat)) (i : nat)
  : res (list ten) :=
  let '(pole, repeats) := nth i u (r0, 0) in
  let others := concat (map (fun '(j, (q, m)) => repeat (monomial q) (if j =? i then 0 else m))
                            (combine (seq 0 (length u)) u)) in
  let* divided_denominator := match others with [] => Ok [r1] | _ => polysmul z0 others end in
  let d := polymul z0 non_repeated_denominator divided_denominator in
  let* nv := polyval z0 numerator (mk0 pole) in
  let* dv := polyval z0 d (mk0 pole) in
  let* r := tdiv nv dv in
  let* rs := deriv_block numerator d pole (repeats - 1) 1 in
  Ok (r :: rs).

Record pfe := mkPfe {
  pfe_real : option ten * list F * list nat;  (* residues, poles, powers *)
  pfe_cplx : option ten * list F * list nat;
  pfe_G0 : option F
}.
Definition downto (m : nat) : list nat := rev (seq 1 m).
Definition scale (g : option F) (t : ten) : option ten :=
  match g with Some g => Some (tmap (fun x => rmul x g) t) | None => None end.

(** [sos] is the list of sections (b0, b1, b2, a0, a1, a2). *)
Definition sos2pfe (sos : list (F * F * F * (F * F * F))) (rt : rtype) : res pfe :=
  let k0 := map (fun '((b0, _, _), (a0, _, _)) => rmul b0 (rinv a0)) sos in     (* 182 *)
  let b := map (fun '((b0, b1, b2), _) => (rmul b1 (rinv b0), rmul b2 (rinv b0))) sos in
  let a := map (fun '(_, (a0, a1, a2)) => (rmul a1 (rinv a0), rmul a2 (rinv a0))) sos in
  let G0 := expsumlog_real k0 in                                                (* 187 *)
  let* u := unique_roots (sos_roots a) true rt (Some (sos_is_complex a)) in     (* 206-208 *)
  let u := pick (r0, 0, false) (argsort (map (fun '(p, _, _) => p) u)) u in     (* 210-213 *)
  let poles := map (fun '(p, m, _) => (p, m)) u in
  let cx := map (fun '(_, _, c) => c) u in
  let rep := map (fun '(_, m) => 1 <? m) poles in                               (* 215 *)
  let simple := map negb rep in
  let simple_idx := masked simple (seq 0 (length u)) in
  let sp := map fst (masked simple poles) in
  let sr := map (simple_residue b poles) simple_idx in                          (* 217-232 *)
  let scx := masked simple cx in
  let nscx := map negb scx in
  let real_s := (map re (masked nscx sr), map re (masked nscx sp)) in           (* 234-238 *)
  let cplx_s := (masked scx sr, masked scx sp) in                               (* 239-242 *)
  let* ' (real_r, cplx_r) :=
    match masked rep poles with
    | [] => Ok ((zeros [0], [], []), (zeros [0], [], []))                       (* 346-349 *)
    | rp =>
        let* numerator := polysmul z0 (map (fun '(b1, b2) => [r1; b1; b2]) b) in  (* 250 *)
        let* nrd := match sp with                                               (* 254-257 *)
                    | [] => Ok [r1]
                    | _ => polysmul z0 (map monomial sp)
                    end in
        let* blocks := mapM (repeated_block numerator nrd rp) (seq 0 (length rp)) in
        let rcx := masked rep cx in
        let* rr := stack 0 (concat (masked (map negb rcx) blocks)) in           (* 304-309 *)
        let rpr := masked (map negb rcx) rp in
        let rpc := masked rcx rp in
        let* rc := match rpc with [] => Ok (zeros [0]) | _ => stack 0 (concat (masked rcx blocks)) end in
        Ok ((tmap re rr, map re (repeat_poles rpr), concat (map (fun '(_, m) => downto m) rpr)),
            (rc, repeat_poles rpc, concat (map (fun '(_, m) => downto m) rpc)))  (* 300-344 *)
    end in
  let '(rr, rp, rw) := real_r in
  let '(cr, cp, cw) := cplx_r in
  let* real_res := cat0 [lst1 r0 (fst real_s); rr] in                           (* 351-355 *)
  let* cplx_res := cat0 [lst1 r0 (fst cplx_s); cr] in                           (* 357-361 *)
  let cplx_poles := snd cplx_s ++ cp in
  guard Nat.even (length cplx_poles) else AssertionError in                     (* 363 *)
  Ok (mkPfe (scale G0 real_res, snd real_s ++ rp, repeat 1 (length (snd real_s)) ++ rw)
            (scale G0 (every2 cplx_res), every2l cplx_poles,
             every2l (repeat 1 (length (snd cplx_s)) ++ cw))
            G0).
End Signal.
