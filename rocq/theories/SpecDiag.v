(** Eigenvectors, and what is assumed of the torch.linalg routines (the record [linalg]).
    Nothing here refers to the modelled philtorch code. *)
From Coq Require Import List Arith Lia ZArith Bool.
From Verif Require Import Scalar Tensor TensorLemmas Spec M_Mat.
Import ListNotations.

Section S.
Variable R : cring.
Open Scope cr_scope.

(** A v = l v, for an n x n matrix. *)
Definition eigvec (n : nat) (A : nat -> nat -> R) (l : R) (v : nat -> R) : Prop :=
  forall i, (i < n)%nat -> mvec n A v i = l * v i.
(** Trivial kernel. *)
Definition inj_mat (n : nat) (A : nat -> nat -> R) : Prop :=
  forall v, (forall i, (i < n)%nat -> mvec n A v i = 0) -> forall k, (k < n)%nat -> v k = 0.
(** A sum of squared magnitudes vanishes only if every term does (true of the real and
    of the complex numbers). *)
Definition definite : Prop :=
  forall n (v : nat -> R), bsum n (fun k => conj (v k) * v k) = 0 -> forall k, (k < n)%nat -> v k = 0.

(** torch.linalg.solve(A, B) for (a batch of) n x n systems with p right-hand sides:
    what it returns solves the systems. *)
Definition solve_mat (la : linalg R) : Prop :=
  forall pa n p (A B X : tensor R) f g,
    isP2 A pa n n f -> isP2 B pa n p g -> l_solve la A B = Ok X ->
    exists h, isP2 X pa n p h /\
      forall q i j, vld pa q -> (i < n)%nat -> (j < p)%nat -> mmul n (f q) (h q) i j = g q i j.
(** It succeeds on n x n systems with a trivial kernel. *)
Definition solve_tot (la : linalg R) (n : nat) : Prop :=
  forall pa p (A B : tensor R) f g,
    isP2 A pa n n f -> isP2 B pa n p g -> (forall q, vld pa q -> inj_mat n (f q)) ->
    exists X, l_solve la A B = Ok X.
(** torch.linalg.inv returns two-sided inverses, and succeeds when the kernels are trivial. *)
Definition inv_mat (la : linalg R) : Prop :=
  forall pa n (A X : tensor R) f, isP2 A pa n n f -> l_inv la A = Ok X ->
    exists h, isP2 X pa n n h /\
      forall q i j, vld pa q -> (i < n)%nat -> (j < n)%nat ->
        mmul n (f q) (h q) i j = mid i j /\ mmul n (h q) (f q) i j = mid i j.
Definition inv_tot (la : linalg R) (n : nat) : Prop :=
  forall pa (A : tensor R) f, isP2 A pa n n f -> (forall q, vld pa q -> inj_mat n (f q)) ->
    exists X, l_inv la A = Ok X.
(** torch.linalg.eigvals returns one eigenvalue per dimension. *)
Definition eig_mat (la : linalg R) : Prop :=
  forall pa n (A L : tensor R) f, isP2 A pa n n f -> l_eigvals la A = Ok L ->
    exists l, isP1 L pa n l /\
      forall q k, vld pa q -> (k < n)%nat ->
        exists v, eigvec n (f q) (l q k) v /\ exists i, (i < n)%nat /\ v i <> 0.
(** vector_norm depends on the n entries only, and is not zero on a vector that starts
    with 1. *)
Definition norm_ok (la : linalg R) : Prop :=
  (forall n v w, (forall j, (j < n)%nat -> v j = w j) -> l_norm la v n = l_norm la w n) /\
  (forall n v, (1 <= n)%nat -> v 0%nat = 1 -> l_norm la v n <> 0).
End S.
Arguments eigvec {R}. Arguments inj_mat {R}. Arguments definite : clear implicits.
Arguments solve_mat {R}. Arguments solve_tot {R}. Arguments inv_mat {R}. Arguments inv_tot {R}.
Arguments eig_mat {R}. Arguments norm_ok {R}.

(** ** The ways of giving a diagonalisation to diag_state_space.  [Af b] is the state matrix
    of batch b.  Everything is shared by the batches ([pa = []]) or given per batch
    ([pa = [B]]). *)
Definition batch_pre (B : nat) (pa : list nat) : Prop := pa = [] \/ pa = [B].
Definition bpre (pa : list nat) (b : nat) : list nat := match pa with [] => [] | _ => [b] end.

Section Args.
Variable F : cfield.
Open Scope cr_scope.
Notation ten := (tensor (car F)).
Definition opt_mat (pa : list nat) (M : nat) (A : option ten) : Prop :=
  match A with None => True | Some A => exists f, isP2 A pa M M f end.
(** Columns of v are eigenvectors of A with eigenvalues l. *)
Definition right_eig (M : nat) (A v : nat -> nat -> F) (l : nat -> F) : Prop :=
  forall i j, (i < M)%nat -> (j < M)%nat -> mmul M A v i j = v i j * l j.
Definition left_eig (M : nat) (A w : nat -> nat -> F) (l : nat -> F) : Prop :=
  forall i j, (i < M)%nat -> (j < M)%nat -> mmul M w A i j = l i * w i j.
(** Distinct eigenvalues l_0..l_{M-1} of A, none with an eigenvector that starts with 0. *)
Definition simple_eigs (M : nat) (A : nat -> nat -> F) (l : nat -> F) : Prop :=
  (forall j k, (j < M)%nat -> (k < M)%nat -> j <> k -> l j <> l k) /\
  forall k, (k < M)%nat ->
    (exists v, eigvec M A (l k) v /\ exists i, (i < M)%nat /\ v i <> 0) /\
    (forall v, eigvec M A (l k) v -> v 0%nat = 0 -> forall i, (i < M)%nat -> v i = 0).

Inductive diag_args (la : linalg F) (B M : nat) :
  option ten -> option ten -> option ten -> option ten -> (nat -> nat -> nat -> F) -> Prop :=
| da_all pa L V W A l v w Af : batch_pre B pa -> isP1 L pa M l -> isP2 V pa M M v -> isP2 W pa M M w ->
    opt_mat pa M A ->
    (forall b, (b < B)%nat ->
       right_eig M (Af b) (v (bpre pa b)) (l (bpre pa b)) /\
       forall i j, (i < M)%nat -> (j < M)%nat -> mmul M (v (bpre pa b)) (w (bpre pa b)) i j = mid i j) ->
    diag_args la B M (Some L) (Some V) (Some W) A Af
| da_V pa L V A l v Af : batch_pre B pa -> isP1 L pa M l -> isP2 V pa M M v -> opt_mat pa M A ->
    (forall b, (b < B)%nat ->
       right_eig M (Af b) (v (bpre pa b)) (l (bpre pa b)) /\ inj_mat M (v (bpre pa b))) ->
    diag_args la B M (Some L) (Some V) None A Af
| da_W pa L W A l w Af : batch_pre B pa -> isP1 L pa M l -> isP2 W pa M M w -> opt_mat pa M A ->
    (forall b, (b < B)%nat ->
       left_eig M (Af b) (w (bpre pa b)) (l (bpre pa b)) /\ inj_mat M (w (bpre pa b))) ->
    diag_args la B M (Some L) None (Some W) A Af
| da_A pa A L a l Af : batch_pre B pa -> isP2 A pa M M a -> l_eigvals la A = Ok L -> isP1 L pa M l ->
    (forall b, (b < B)%nat -> simple_eigs M (a (bpre pa b)) (l (bpre pa b)) /\
       forall i j, (i < M)%nat -> (j < M)%nat -> Af b i j = a (bpre pa b) i j) ->
    diag_args la B M None None None (Some A) Af
| da_LA L A l a Af : is1 L M l -> is2 A M M a -> simple_eigs M a l ->
    (forall b i j, (b < B)%nat -> (i < M)%nat -> (j < M)%nat -> Af b i j = a i j) ->
    diag_args la B M (Some L) None None (Some A) Af
| da_L L l Af : is1 L M l ->
    (forall b i j, (b < B)%nat -> (i < M)%nat -> (j < M)%nat -> Af b i j = if i =? j then l i else 0) ->
    diag_args la B M (Some L) None None None Af.
(** The routines that [diag_args] relies on behave as specified. *)
Definition linalg_ok (la : linalg F) (M : nat) : Prop :=
  definite F /\ solve_mat la /\ solve_tot la (M - 1) /\ inv_mat la /\ inv_tot la M /\ norm_ok la.
End Args.
Arguments opt_mat {F}. Arguments right_eig {F}. Arguments left_eig {F}. Arguments simple_eigs {F}.
Arguments diag_args {F}. Arguments linalg_ok {F}.

(** torch.linalg.eigvals succeeds on A and returns M distinct eigenvalues (of every matrix of
    the batch). *)
Definition distinct_eigs {R : cring} (la : linalg R) (M : nat) (A : tensor R) : Prop :=
  forall pa f, isP2 A pa M M f ->
    exists L l, l_eigvals la A = Ok L /\ isP1 L pa M l /\
      forall q, vld pa q ->
        (forall j k, j < M -> k < M -> j <> k -> l q j <> l q k) /\
        forall k, k < M -> exists v, eigvec M (f q) (l q k) v /\ exists i, i < M /\ v i <> r0.
