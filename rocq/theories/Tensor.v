(** Mini-torch: the torch operations used by philtorch, on exact scalars.

    A tensor is a shape and a total index function; only indices inside the shape
    matter.  Operations that can raise return [res].  Dimensions are counted from
    the front; the model writes Python's negative dimension [-k] as [rk t - k].
    Simplifications: no dtype promotion, no devices, no strides or views (every
    operation is functional), and [at_] outside the shape is unspecified. *)
From Coq Require Import List Arith Lia ZArith Bool.
From Verif Require Import Scalar.
Import ListNotations.

(** * Errors *)
Inductive err :=
| AssertionError | ValueError | RuntimeError | IndexError | NotImplementedError
| ZeroDivisionError | TypeError | AttributeError | UnboundLocalError | OutOfFuel.

Inductive res (A : Type) := Ok (a : A) | Err (e : err).
Arguments Ok {A}. Arguments Err {A}.

Definition bind {A B} (m : res A) (f : A -> res B) : res B :=
  match m with Ok a => f a | Err e => Err e end.

Declare Scope res_scope.
Delimit Scope res_scope with res.
Notation "'let*' x ':=' e 'in' k" := (bind e (fun x => k))
  (at level 200, x name, e at level 100, k at level 200, right associativity) : res_scope.
Notation "'let*' ' p ':=' e 'in' k" := (bind e (fun p => k))
  (at level 200, p strict pattern, e at level 100, k at level 200, right associativity) : res_scope.
Notation "'guard' b 'else' e 'in' k" := (if b then k else Err e)
  (at level 200, b at level 100, e at level 100, k at level 200, right associativity) : res_scope.
Open Scope res_scope.

(** Python's [for x in xs] with an error-carrying body, collecting results. *)
Fixpoint mapM {A B} (f : A -> res B) (l : list A) : res (list B) :=
  match l with
  | [] => Ok []
  | a :: l' => let* b := f a in let* bs := mapM f l' in Ok (b :: bs)
  end.

(** A loop carrying a state [h] and appending [g h] after each step. *)
Fixpoint loopM {H A B} (step : H -> A -> res H) (g : H -> res B) (h : H) (l : list A)
  : res (list B) :=
  match l with
  | [] => Ok []
  | a :: l' =>
      let* h' := step h a in
      let* b := g h' in
      let* bs := loopM step g h' l' in
      Ok (b :: bs)
  end.

(** [itertools.accumulate xs f]. *)
Fixpoint accumM {A} (f : A -> A -> res A) (acc : A) (l : list A) : res (list A) :=
  match l with
  | [] => Ok [acc]
  | a :: l' => let* acc' := f acc a in let* r := accumM f acc' l' in Ok (acc :: r)
  end.
Definition accumulate {A} (f : A -> A -> res A) (l : list A) : res (list A) :=
  match l with [] => Ok [] | a :: l' => accumM f a l' end.

(** * Index lists *)
Fixpoint upd (d : nat) (f : nat -> nat) (l : list nat) : list nat :=
  match d, l with
  | O, x :: l' => f x :: l'
  | S d', x :: l' => x :: upd d' f l'
  | _, [] => []
  end.
Fixpoint ins (d : nat) (v : nat) (l : list nat) : list nat :=
  match d, l with
  | O, _ => v :: l
  | S d', x :: l' => x :: ins d' v l'
  | S _, [] => [v]
  end.
Fixpoint del (d : nat) (l : list nat) : list nat :=
  match d, l with
  | O, _ :: l' => l'
  | S d', x :: l' => x :: del d' l'
  | _, [] => []
  end.
Fixpoint prod (l : list nat) : nat :=
  match l with
  | [] => 1
  | x :: l' => match l' with [] => x | _ => x * prod l' end
  end.
(** Row-major linear index and its inverse. *)
Fixpoint ravel (s idx : list nat) : nat :=
  match s, idx with
  | _ :: s', i :: idx' => match s' with [] => i | _ => i * prod s' + ravel s' idx' end
  | _, _ => 0
  end.
Fixpoint unravel (s : list nat) (k : nat) : list nat :=
  match s with
  | [] => []
  | _ :: s' => match s' with [] => [k] | _ => (k / prod s') :: unravel s' (k mod prod s') end
  end.
Fixpoint list_eqb (a b : list nat) : bool :=
  match a, b with
  | [], [] => true
  | x :: a', y :: b' => (x =? y) && list_eqb a' b'
  | _, _ => false
  end.

(** Python index [i] into a dimension of size [n]. *)
Definition pyidx (n : nat) (i : Z) : option nat :=
  if (0 <=? i)%Z then if (i <? Z.of_nat n)%Z then Some (Z.to_nat i) else None
  else if (- Z.of_nat n <=? i)%Z then Some (Z.to_nat (Z.of_nat n + i)) else None.

(** Python slice bound: [None] means absent. *)
Definition pybound (n : nat) (dflt : nat) (b : option Z) : nat :=
  match b with
  | None => dflt
  | Some z => if (z <? 0)%Z then Z.to_nat (Z.of_nat n + z) else Nat.min (Z.to_nat z) n
  end.

(** * Tensors *)
Record tensor (A : Type) := mkT { shape : list nat; at_ : list nat -> A }.
Arguments mkT {A}. Arguments shape {A}. Arguments at_ {A}.

Definition rk {A} (t : tensor A) : nat := length (shape t).
Definition size {A} (t : tensor A) (d : nat) : nat := nth d (shape t) 0.
(** [t.size(-k)] *)
Definition sizen {A} (t : tensor A) (k : nat) : nat := nth (rk t - k) (shape t) 0.
Definition numel {A} (t : tensor A) : nat := prod (shape t).

Definition tmap {A B} (f : A -> B) (t : tensor A) : tensor B :=
  mkT (shape t) (fun idx => f (at_ t idx)).

Definition full {A} (s : list nat) (v : A) : tensor A := mkT s (fun _ => v).

Definition unsqueeze {A} (d : nat) (t : tensor A) : tensor A :=
  mkT (ins d 1 (shape t)) (fun idx => at_ t (del d idx)).

(** torch.squeeze(d): drops the dimension only when it has size 1. *)
Definition squeeze {A} (d : nat) (t : tensor A) : tensor A :=
  if size t d =? 1 then mkT (del d (shape t)) (fun idx => at_ t (ins d 0 idx)) else t.

Definition flip {A} (d : nat) (t : tensor A) : tensor A :=
  mkT (shape t) (fun idx => at_ t (upd d (fun i => size t d - 1 - i) idx)).

Definition swapl (d1 d2 : nat) (l : list nat) : list nat :=
  upd d1 (fun _ => nth d2 l 0) (upd d2 (fun _ => nth d1 l 0) l).
Definition transpose {A} (d1 d2 : nat) (t : tensor A) : tensor A :=
  mkT (swapl d1 d2 (shape t)) (fun idx => at_ t (swapl d1 d2 idx)).
Definition mT {A} (t : tensor A) : tensor A := transpose (rk t - 2) (rk t - 1) t.

(** [t[..., i, ...]] at dimension [d]. *)
Definition sel {A} (d i : nat) (t : tensor A) : tensor A :=
  mkT (del d (shape t)) (fun idx => at_ t (ins d i idx)).
Definition select {A} (d : nat) (i : Z) (t : tensor A) : res (tensor A) :=
  match pyidx (size t d) i with
  | Some k => Ok (sel d k t)
  | None => Err IndexError
  end.

(** [t[..., lo:hi, ...]] at dimension [d]. *)
Definition slice {A} (d : nat) (lo hi : option Z) (t : tensor A) : tensor A :=
  let n := size t d in
  let l := pybound n 0 lo in
  let h := pybound n n hi in
  mkT (upd d (fun _ => h - l) (shape t)) (fun idx => at_ t (upd d (fun i => l + i) idx)).

(** [torch.unbind(d)]. *)
Definition unbind {A} (d : nat) (t : tensor A) : list (tensor A) :=
  map (fun i => sel d i t) (seq 0 (size t d)).

(** [torch.cat(ts, dim=d)].  Raises on an empty list or mismatched sizes.
    (torch's legacy exception for 1-D empty tensors is not modelled.) *)
Fixpoint cat_at {A} (d : nat) (t : tensor A) (ts : list (tensor A)) (idx : list nat) : A :=
  match ts with
  | [] => at_ t idx
  | t' :: ts' =>
      if nth d idx 0 <? size t d then at_ t idx
      else cat_at d t' ts' (upd d (fun i => i - size t d) idx)
  end.
Fixpoint cat_size {A} (d : nat) (ts : list (tensor A)) : nat :=
  match ts with
  | [] => 0
  | t :: ts' => match ts' with [] => size t d | _ => size t d + cat_size d ts' end
  end.
Definition cat {A} (d : nat) (ts : list (tensor A)) : res (tensor A) :=
  match ts with
  | [] => Err RuntimeError
  | t :: ts' =>
      if (d <? rk t) &&
         forallb (fun u => (rk u =? rk t) && list_eqb (del d (shape u)) (del d (shape t))) ts'
      then Ok (mkT (upd d (fun _ => cat_size d ts) (shape t)) (cat_at d t ts'))
      else Err RuntimeError
  end.

(** [torch.stack(ts, dim=d)]. *)
Definition stack {A} (d : nat) (ts : list (tensor A)) : res (tensor A) :=
  match ts with
  | [] => Err RuntimeError
  | t :: ts' =>
      if forallb (fun u => list_eqb (shape u) (shape t)) ts'
      then Ok (mkT (ins d (length ts) (shape t))
                   (fun idx => at_ (nth (nth d idx 0) ts t) (del d idx)))
      else Err RuntimeError
  end.

(** [t.unflatten(d, sizes)] with all sizes known. *)
Definition unflatten {A} (d : nat) (sizes : list nat) (t : tensor A) : res (tensor A) :=
  if prod sizes =? size t d then
    let k := length sizes in
    Ok (mkT (firstn d (shape t) ++ sizes ++ skipn (S d) (shape t))
            (fun idx => at_ t (firstn d idx ++ ravel sizes (firstn k (skipn d idx)) :: skipn (d + k) idx)))
  else Err RuntimeError.
(** [t.unflatten(d, (-1, s))]: the unknown size is inferred. *)
Definition unflatten_m1 {A} (d : nat) (s : nat) (t : tensor A) : res (tensor A) :=
  if s =? 0 then Err RuntimeError
  else if size t d mod s =? 0 then unflatten d [size t d / s; s] t
  else Err RuntimeError.
(** [t.unflatten(d, (s, -1))]. *)
Definition unflatten_1m {A} (d : nat) (s : nat) (t : tensor A) : res (tensor A) :=
  if s =? 0 then Err RuntimeError
  else if size t d mod s =? 0 then unflatten d [s; size t d / s] t
  else Err RuntimeError.

(** [t.flatten(d1, d2)], inclusive. *)
Definition flatten {A} (d1 d2 : nat) (t : tensor A) : tensor A :=
  let mid := firstn (S d2 - d1) (skipn d1 (shape t)) in
  mkT (firstn d1 (shape t) ++ prod mid :: skipn (S d2) (shape t))
      (fun idx => at_ t (firstn d1 idx ++ unravel mid (nth d1 idx 0) ++ skipn (S d1) idx)).

(** [t.unfold(d, sz, 1)]: windows appended as a last dimension. *)
Definition unfold {A} (d sz : nat) (t : tensor A) : res (tensor A) :=
  if sz <=? size t d then
    Ok (mkT (upd d (fun n => n - sz + 1) (shape t) ++ [sz])
            (fun idx => at_ t (upd d (fun i => i + nth (rk t) idx 0) (firstn (rk t) idx))))
  else Err RuntimeError.

(** [F.pad] with a constant on one dimension. *)
Definition pad {A} (d l r : nat) (v : A) (t : tensor A) : tensor A :=
  mkT (upd d (fun n => l + n + r) (shape t))
      (fun idx => if (l <=? nth d idx 0) && (nth d idx 0 <? l + size t d)
                  then at_ t (upd d (fun i => i - l) idx) else v).
(** [F.pad] with possibly negative amounts (which crop). *)
Definition padZ {A} (d : nat) (l r : Z) (v : A) (t : tensor A) : res (tensor A) :=
  let n := Z.of_nat (size t d) in
  if (n + l + r <? 0)%Z then Err RuntimeError
  else
    let t1 := slice d (Some (Z.max 0 (- l)))
                    (Some (n - Z.max 0 (- r)))%Z t in
    Ok (pad d (Z.to_nat l) (Z.to_nat r) v t1).

(** ** Broadcasting *)
Definition bdim (a b : nat) : option nat :=
  if a =? b then Some a else if a =? 1 then Some b else if b =? 1 then Some a else None.
Fixpoint bshape_rev (a b : list nat) : option (list nat) :=
  match a, b with
  | [], _ => Some b
  | _, [] => Some a
  | x :: a', y :: b' =>
      match bdim x y with
      | None => None
      | Some z => match bshape_rev a' b' with None => None | Some r => Some (z :: r) end
      end
  end.
Definition bshape (a b : list nat) : option (list nat) :=
  match bshape_rev (rev a) (rev b) with None => None | Some r => Some (rev r) end.
Definition bi (d i : nat) : nat := if d =? 1 then 0 else i.
Fixpoint bixz (s idx : list nat) : list nat :=
  match s, idx with d :: s', i :: idx' => bi d i :: bixz s' idx' | _, _ => [] end.
Definition bix (s idx : list nat) : list nat := bixz s (skipn (length idx - length s) idx).

(** Elementwise binary operation with broadcasting. *)
Definition ew {A B C} (f : A -> B -> C) (a : tensor A) (b : tensor B) : res (tensor C) :=
  match bshape (shape a) (shape b) with
  | None => Err RuntimeError
  | Some s => Ok (mkT s (fun idx => f (at_ a (bix (shape a) idx)) (at_ b (bix (shape b) idx))))
  end.

(** [t.expand(s)] / [t.broadcast_to(s)] with all sizes explicit. *)
Fixpoint expandable_rev (a s : list nat) : bool :=
  match a, s with
  | [], _ => true
  | _, [] => false
  | x :: a', y :: s' => ((x =? y) || (x =? 1)) && expandable_rev a' s'
  end.
Definition expand {A} (s : list nat) (t : tensor A) : res (tensor A) :=
  if expandable_rev (rev (shape t)) (rev s)
  then Ok (mkT s (fun idx => at_ t (bix (shape t) idx)))
  else Err RuntimeError.

(** ** Operations on ring elements *)
Section RingOps.
Variable R : cops.
Notation ten := (tensor (car R)).

Definition zeros (s : list nat) : ten := full s r0.
Definition ones (s : list nat) : ten := full s r1.
Definition zeros_like (t : ten) : ten := zeros (shape t).
Definition eye (n : nat) : ten :=
  mkT [n; n] (fun idx => if nth 0 idx 0 =? nth 1 idx 0 then r1 else r0).

Definition tadd (a b : ten) : res ten := ew radd a b.
Definition tsub (a b : ten) : res ten := ew rsub a b.
Definition tmul (a b : ten) : res ten := ew rmul a b.
Definition tneg (a : ten) : ten := tmap ropp a.
Definition tconj (a : ten) : ten := tmap conj a.

(** Matrix product of two tensors of rank >= 2, batch dimensions broadcast. *)
Definition matmul2 (a b : ten) : res ten :=
  let ra := rk a in let rb := rk b in
  let ba := firstn (ra - 2) (shape a) in
  let bb := firstn (rb - 2) (shape b) in
  let k := size a (ra - 1) in
  if k =? size b (rb - 2) then
    match bshape ba bb with
    | None => Err RuntimeError
    | Some s =>
        let r := length s in
        Ok (mkT (s ++ [size a (ra - 2); size b (rb - 1)])
             (fun idx =>
                let ib := firstn r idx in
                bsum k (fun l =>
                  rmul (at_ a (bix ba ib ++ [nth r idx 0; l]))
                       (at_ b (bix bb ib ++ [l; nth (S r) idx 0])))))
    end
  else Err RuntimeError.

(** [torch.matmul] / [@]. *)
Definition matmul (a b : ten) : res ten :=
  match rk a, rk b with
  | O, _ => Err RuntimeError
  | _, O => Err RuntimeError
  | S O, S O =>
      if size a 0 =? size b 0
      then Ok (mkT [] (fun _ => bsum (size a 0) (fun l => rmul (at_ a [l]) (at_ b [l]))))
      else Err RuntimeError
  | S O, _ =>
      let* y := matmul2 (unsqueeze 0 a) b in Ok (sel (rk y - 2) 0 y)
  | _, S O =>
      let* y := matmul2 a (unsqueeze 1 b) in Ok (sel (rk y - 1) 0 y)
  | _, _ => matmul2 a b
  end.

(** [t.sum(dim=d)]. *)
Definition tsum (d : nat) (t : ten) : ten :=
  mkT (del d (shape t)) (fun idx => bsum (size t d) (fun l => at_ t (ins d l idx))).

(** [torch.linalg.vecdot(x, y)]: sum over the last dimension of conj(x) * y. *)
Definition vecdot (x y : ten) : res ten :=
  let* p := ew (fun a b => rmul (conj a) b) x y in Ok (tsum (rk p - 1) p).

(** [torch.addmm(c, a, b)] and [torch.baddbmm(c, a, b)]: c + a @ b, where c must
    broadcast to the product. *)
Definition addmm (c a b : ten) : res ten :=
  guard (rk a =? 2) && (rk b =? 2) else RuntimeError in
  let* p := matmul2 a b in
  let* c' := expand (shape p) c in
  tadd c' p.
Definition baddbmm (c a b : ten) : res ten :=
  guard (rk a =? 3) && (rk b =? 3) && (size a 0 =? size b 0) else RuntimeError in
  let* p := matmul2 a b in
  let* c' := expand (shape p) c in
  tadd c' p.

Fixpoint bprod (n : nat) (f : nat -> R) : R :=
  match n with O => r1 | S k => rmul (bprod k f) (f k) end.
(** [torch.cumprod(t, dim=d)]. *)
Definition cumprod (d : nat) (t : ten) : ten :=
  mkT (shape t) (fun idx => bprod (S (nth d idx 0)) (fun j => at_ t (upd d (fun _ => j) idx))).

End RingOps.

Arguments zeros {R}. Arguments ones {R}. Arguments zeros_like {R}. Arguments eye {R}.
Arguments tadd {R}. Arguments tsub {R}. Arguments tmul {R}. Arguments tneg {R}.
Arguments tconj {R}. Arguments matmul2 {R}. Arguments matmul {R}. Arguments tsum {R}.
Arguments vecdot {R}. Arguments addmm {R}. Arguments baddbmm {R}. Arguments bprod {R}.
Arguments cumprod {R}.

(** * Read-only views for statements: "t has this shape and these entries". *)
Definition is0 {A} (t : tensor A) (v : A) : Prop :=
  shape t = [] /\ at_ t [] = v.
Definition is1 {A} (t : tensor A) (n : nat) (f : nat -> A) : Prop :=
  shape t = [n] /\ forall i, i < n -> at_ t [i] = f i.
Definition is2 {A} (t : tensor A) (n m : nat) (f : nat -> nat -> A) : Prop :=
  shape t = [n; m] /\ forall i j, i < n -> j < m -> at_ t [i; j] = f i j.
Definition is3 {A} (t : tensor A) (n m p : nat) (f : nat -> nat -> nat -> A) : Prop :=
  shape t = [n; m; p] /\
  forall i j k, i < n -> j < m -> k < p -> at_ t [i; j; k] = f i j k.
Definition is4 {A} (t : tensor A) (n m p q : nat) (f : nat -> nat -> nat -> nat -> A) : Prop :=
  shape t = [n; m; p; q] /\
  forall i j k l, i < n -> j < m -> k < p -> l < q -> at_ t [i; j; k; l] = f i j k l.
Definition is5 {A} (t : tensor A) (n m p q s : nat)
  (f : nat -> nat -> nat -> nat -> nat -> A) : Prop :=
  shape t = [n; m; p; q; s] /\
  forall i j k l o, i < n -> j < m -> k < p -> l < q -> o < s ->
    at_ t [i; j; k; l; o] = f i j k l o.

(** Tensors built from functions (for examples and counterexamples). *)
Definition mk0 {A} (v : A) : tensor A := mkT [] (fun _ => v).
Definition mk1 {A} (n : nat) (f : nat -> A) : tensor A := mkT [n] (fun idx => f (nth 0 idx 0)).
Definition mk2 {A} (n m : nat) (f : nat -> nat -> A) : tensor A :=
  mkT [n; m] (fun idx => f (nth 0 idx 0) (nth 1 idx 0)).
Definition mk3 {A} (n m p : nat) (f : nat -> nat -> nat -> A) : tensor A :=
  mkT [n; m; p] (fun idx => f (nth 0 idx 0) (nth 1 idx 0) (nth 2 idx 0)).
Definition mk4 {A} (n m p q : nat) (f : nat -> nat -> nat -> nat -> A) : tensor A :=
  mkT [n; m; p; q] (fun idx => f (nth 0 idx 0) (nth 1 idx 0) (nth 2 idx 0) (nth 3 idx 0)).
Definition lst1 {A} (d : A) (l : list A) : tensor A := mk1 (length l) (fun i => nth i l d).
Definition lst2 {A} (d : A) (l : list (list A)) : tensor A :=
  mk2 (length l) (length (nth 0 l [])) (fun i j => nth j (nth i l []) d).

Lemma is0_mk {A} (v : A) : is0 (mk0 v) v.
Proof. split; reflexivity. Qed.
Lemma is1_mk {A} n (f : nat -> A) : is1 (mk1 n f) n f.
Proof. split; reflexivity. Qed.
Lemma is2_mk {A} n m (f : nat -> nat -> A) : is2 (mk2 n m f) n m f.
Proof. split; reflexivity. Qed.
Lemma is3_mk {A} n m p (f : nat -> nat -> nat -> A) : is3 (mk3 n m p f) n m p f.
Proof. split; reflexivity. Qed.
Lemma is4_mk {A} n m p q (f : nat -> nat -> nat -> nat -> A) : is4 (mk4 n m p q f) n m p q f.
Proof. split; reflexivity. Qed.

(** Printing for examples: shape and entries in row-major order. *)
Fixpoint idxs (s : list nat) : list (list nat) :=
  match s with
  | [] => [[]]
  | n :: s' => flat_map (fun i => map (cons i) (idxs s')) (seq 0 n)
  end.
Definition entries {A} (t : tensor A) : list A := map (at_ t) (idxs (shape t)).
Definition show {A} (r : res (tensor A)) : option (list nat * list A) :=
  match r with Ok t => Some (shape t, entries t) | Err _ => None end.
Definition show2 {A} (r : res (tensor A * option (tensor A)))
  : option (list nat * list A * option (list nat * list A)) :=
  match r with
  | Ok (t, z) => Some (shape t, entries t, match z with Some u => Some (shape u, entries u) | None => None end)
  | Err _ => None
  end.
(** A tensor from its row-major entries. *)
Definition ofl {A} (d : A) (s : list nat) (l : list A) : tensor A :=
  mkT s (fun idx => nth (ravel s idx) l d).

(** Evaluate a test on a successful result (for counterexamples). *)
Definition okb {A} (r : res A) (p : A -> bool) : bool :=
  match r with Ok y => p y | Err _ => false end.
Lemma okb_ex {A} (r : res A) (p : A -> bool) : okb r p = true -> exists y, r = Ok y /\ p y = true.
Proof. destruct r; cbn; [eauto|discriminate]. Qed.
