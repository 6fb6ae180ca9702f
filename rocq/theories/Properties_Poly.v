(** C30 (polydiv) and C41 (chain_functions). *)
From Coq Require Import List Arith Lia ZArith Bool QArith Qcanon.
From Verif Require Import Scalar Tensor TensorLemmas TensorTac TensorList SpecPoly M_Poly P_Poly.
Import ListNotations.
Open Scope nat_scope.
Open Scope cr_scope.

(** ** C30: division with remainder, coefficient by coefficient, for every field, every
    batch shape [pre], and a divisor shared over the batch or one per batch element. *)
Theorem C30_polydiv (F : cfield) pre m n (u v : tensor F) uf vf :
  isP1 u pre (S m) uf -> rowc pre (S n) v vf -> (n <= m)%nat ->
  (forall b, vld pre b -> vf b 0%nat <> 0) ->
  exists q r qf rf, polydiv u v = Ok (q, r) /\
    isP1 q pre (m - n + 1) qf /\ isP1 r pre n rf /\
    forall b i, vld pre b -> (i <= m)%nat ->
      uf b i = pmulc (m - n + 1) (S n) (qf b) (vf b) i
               + (if (m - n + 1 <=? i)%nat then rf b (i - (m - n + 1))%nat else 0).
Proof. apply polydiv_spec_l. Qed.
Print Assumptions C30_polydiv.

(** The same as an identity between polynomial functions. *)
Theorem C30_polydiv_value (F : cfield) pre m n (u v : tensor F) uf vf :
  isP1 u pre (S m) uf -> rowc pre (S n) v vf -> (n <= m)%nat ->
  (forall b, vld pre b -> vf b 0%nat <> 0) ->
  exists q r qf rf, polydiv u v = Ok (q, r) /\
    isP1 q pre (m - n + 1) qf /\ isP1 r pre n rf /\
    forall b z, vld pre b ->
      peval (S m) (uf b) z
      = peval (m - n + 1) (qf b) z * peval (S n) (vf b) z + peval n (rf b) z.
Proof.
  intros Hu Hv Hnm H0. destruct (polydiv_spec_l F pre m n u v uf vf Hu Hv Hnm H0) as (q & r & qf & rf & E & Hq & Hr & H).
  exists q, r, qf, rf. do 3 (split; [assumption|]). intros b z Hb.
  rewrite <- peval_pmulc by lia. rewrite <- (peval_shift F (m - n + 1) n (rf b) z).
  replace (m - n + 1 + S n - 1)%nat with (S m) by lia. replace (m - n + 1 + n)%nat with (S m) by lia.
  unfold peval. rewrite <- bsum_add. apply bsum_ext. intros i Hi. rewrite (H b i Hb) by lia.
  apply (Rdistr_l (r_th F)).
Qed.
Print Assumptions C30_polydiv_value.

(** When the dividend is shorter than the divisor the docstring promises an empty quotient
    and r = u; the code stacks an empty list, which raises, whatever the entries. *)
Theorem C30_short_dividend_raises (F : cfield) (u v : tensor F) :
  (1 <= rk u)%nat -> (1 <= rk v)%nat -> (sizen u 1 < sizen v 1)%nat ->
  polydiv u v = Err RuntimeError.
Proof.
  intros Hu Hv Hlt. unfold polydiv. btrue (1 <=? rk u)%nat. btrue (1 <=? rk v)%nat. cbn [andb].
  assert (select (rk v - 1) 0 v = Ok (sel (rk v - 1) 0 v)) as ->.
  { unfold select, pyidx. cbn [Z.leb Z.compare]. unfold sizen in Hlt. unfold size.
    destruct (0 <? Z.of_nat (nth (rk v - 1) (shape v) 0%nat))%Z eqn:E; [reflexivity|].
    apply Z.ltb_ge in E. lia. }
  cbn [bind].
  assert (Z.to_nat (Z.of_nat (sizen u 1) - 1 - (Z.of_nat (sizen v 1) - 1) + 1) = 0%nat) as -> by lia.
  reflexivity.
Qed.
Print Assumptions C30_short_dividend_raises.

(** Hence the second half of C30 fails. *)
Theorem C30_short_dividend_refuted :
  ~ (forall (F : cfield) (m n : nat) (u v : tensor F) uf vf,
       is1 u (S m) uf -> is1 v (S n) vf -> (m < n)%nat -> vf 0%nat <> 0 ->
       exists q r, polydiv u v = Ok (q, r) /\ is1 r (S m) uf).
Proof.
  intro H. destruct (H Qfield 0%nat 1%nat (mk1 1 (fun _ => 1)) (mk1 2 (fun _ => 1)) (fun _ => 1) (fun _ => 1))
    as (q & r & E & _); [apply is1_mk|apply is1_mk|lia|discriminate|].
  rewrite C30_short_dividend_raises in E by (cbn; lia). discriminate.
Qed.
Print Assumptions C30_short_dividend_refuted.

Definition qz (z : Z) : Qc := Q2Qc (inject_Z z).
(** 2z^3 + 3z^2 - z + 5 and 4z^3 + 1, both divided by 2z + 1. *)
Example C30_example :
  match polydiv (F:=Qfield) (lst2 (qz 0) [map qz [2; 3; -1; 5]%Z; map qz [4; 0; 0; 1]%Z]) (lst1 (qz 0) (map qz [2; 1]%Z)) with
  | Ok (q, r) => (shape q, map this (entries q), shape r, map this (entries r))
  | Err _ => ([], [], [], [])
  end = ([2; 3]%nat, [1; 1; -1; 2; -1; 1#2]%Q, [2; 1]%nat, [6; 1#2]%Q).
Proof. vm_compute. reflexivity. Qed.
Example C30_example_hyps :
  isP1 (lst2 (qz 0) [map qz [2; 3; -1; 5]%Z; map qz [4; 0; 0; 1]%Z]) [2%nat] 4
    (fun b i => nth i (nth (nth 0 b 0%nat) [map qz [2; 3; -1; 5]%Z; map qz [4; 0; 0; 1]%Z] []) (qz 0)) /\
  rowc [2%nat] 2 (lst1 (qz 0) (map qz [2; 1]%Z)) (fun _ i => nth i (map qz [2; 1]%Z) (qz 0)) /\
  (qz 2 <> (0 : Qfield)).
Proof.
  split; [|split; [apply rowc_shared, is1_mk|discriminate]].
  set (l := [map qz [2; 3; -1; 5]%Z; map qz [4; 0; 0; 1]%Z]).
  exact (proj1 (is2_P1 (lst2 (qz 0) l) 2 4 (fun i j => nth j (nth i l []) (qz 0))) (is2_mk 2 4 _)).
Qed.

(** ** C41: chain_functions *)
Section Chain.
Variable A : Type.

(** Functions of one argument that return a non-tuple. *)
Definition unary (f : A -> res A) : list A -> res (pyval A) :=
  fun args => match args with [x] => bind (f x) (fun y => Ok (Single y)) | _ => Err TypeError end.

Lemma chain_err (fs : list (pyfun A)) e : fold_left chain_step fs (Err e) = Err e.
Proof. induction fs as [|f fs IH]; [reflexivity|exact IH]. Qed.
Lemma chain_single (fs : list (A -> res A)) x :
  fold_left chain_step (map unary fs) (Ok (Single x))
  = bind (fold_left (fun acc f => bind acc f) fs (Ok x)) (fun y => Ok (Single y)).
Proof.
  revert x. induction fs as [|f fs IH]; intro x; [reflexivity|]. cbn [map fold_left chain_step bind unary].
  destruct (f x) as [y|e]; cbn [bind]; [apply IH|]. rewrite chain_err.
  assert (fold_left (fun acc f => bind acc f) fs (@Err A e) = Err e) as ->
    by (clear; induction fs as [|g fs IH]; [reflexivity|exact IH]).
  reflexivity.
Qed.
End Chain.

(** chain_functions(f1, ..., fn)(x) = fn(...f1(x)), exceptions included, n >= 1. *)
Theorem C41_chain_composes (A : Type) (f : A -> res A) (fs : list (A -> res A)) (x : A) :
  chain_functions (map (unary A) (f :: fs)) [x]
  = bind (fold_left (fun acc g => bind acc g) (f :: fs) (Ok x)) (fun y => Ok (Single y)).
Proof.
  unfold chain_functions. cbn [map fold_left chain_step bind unary].
  destruct (f x) as [y|e]; cbn [bind]; [apply chain_single|]. rewrite chain_err.
  assert (fold_left (fun acc f => bind acc f) fs (@Err A e) = Err e) as ->
    by (clear; induction fs as [|g fs IH]; [reflexivity|exact IH]).
  reflexivity.
Qed.
Print Assumptions C41_chain_composes.

(** General form: each callable receives the previous result, spread when it is a tuple. *)
Theorem C41_chain_app (A : Type) (fs gs : list (pyfun A)) (args : list A) :
  chain_functions (fs ++ gs) args
  = match chain_functions fs args with
    | Err e => Err e
    | Ok (Tuple l) => chain_functions gs l
    | Ok (Single a) => match gs with [] => Ok (Single a) | _ => chain_functions gs [a] end
    end.
Proof.
  unfold chain_functions. rewrite fold_left_app.
  destruct (fold_left chain_step fs (Ok (Tuple args))) as [[a|l]|e].
  - destruct gs as [|g gs]; [reflexivity|]. cbn [fold_left chain_step bind]. reflexivity.
  - reflexivity.
  - apply chain_err.
Qed.
Print Assumptions C41_chain_app.
Theorem C41_chain_one (A : Type) (f : pyfun A) (args : list A) : chain_functions [f] args = f args.
Proof. reflexivity. Qed.
Print Assumptions C41_chain_one.

(** With no functions the closure returns the tuple of its arguments, so it is not the
    identity on a single argument. *)
Theorem C41_chain_empty (A : Type) (args : list A) : chain_functions [] args = Ok (Tuple args).
Proof. reflexivity. Qed.
Print Assumptions C41_chain_empty.
Theorem C41_chain_empty_refuted :
  ~ (forall (A : Type) (x : A), chain_functions [] [x] = Ok (Single x)).
Proof. intro H. specialize (H nat 0%nat). discriminate. Qed.
Print Assumptions C41_chain_empty_refuted.

Example C41_example :
  chain_functions [ (fun l => match l with [x; y] => Ok (Tuple [x + y; x * y]%Z) | _ => Err TypeError end);
                    (fun l => match l with [s; p] => Ok (Single (p - s)%Z) | _ => Err TypeError end);
                    unary Z (fun z => Ok (z * z)%Z) ] [5; 7]%Z = Ok (Single 529%Z).
Proof. reflexivity. Qed.
