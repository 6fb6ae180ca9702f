(** Claims about exact results over operations without any laws (C71). *)
From Verif Require Import Scalar Tensor Shapes.
Section Spec.
Variable R : cops.
Notation ten := (tensor (car R)).
(** h_{n+1} = step h_n x_n *)
Fixpoint machine (step : (nat -> R) -> (nat -> R) -> nat -> R) (h : nat -> R) (x : nat -> nat -> R) (n : nat) : nat -> R :=
  match n with O => h | S k => step (machine step h x k) (x k) end.
(** [f] looks at the first M components of a state and the first K of an input, and has P results. *)
Definition reads (M K P : nat) (f : (nat -> R) -> (nat -> R) -> nat -> R) : Prop :=
  forall h h' x x', (forall i, (i < M)%nat -> h i = h' i) -> (forall k, (k < K)%nat -> x k = x' k) ->
  forall p, (p < P)%nat -> f h x p = f h' x' p.

(** [run x zi]: a filter on signals of B rows with M states per row, G features in, P out;
    [ini] are the states it accepts. *)
Variables (B M : nat) (G P : option nat) (ini : option ten -> (nat -> nat -> R) -> Prop)
  (run : ten -> option ten -> res (ten * option ten)).
(** Two chunks of at least K samples, the state passed on, are the whole signal. *)
Definition streams (K : nat) : Prop := forall N1 N2 (x1 x2 x : ten) xf zi z0, (K <= N1)%nat -> (K <= N2)%nat ->
  sigv B N1 G x1 xf -> sigv B N2 G x2 (fun b n => xf b (N1 + n)%nat) -> sigv B (N1 + N2) G x xf -> ini (Some zi) z0 ->
  exists y1 z1 y2 z2 y z yf zf, run x1 (Some zi) = Ok (y1, Some z1) /\ run x2 (Some z1) = Ok (y2, Some z2) /\ run x (Some zi) = Ok (y, Some z) /\
    sigv B N1 P y1 yf /\ sigv B N2 P y2 (fun b n => yf b (N1 + n)%nat) /\ sigv B (N1 + N2) P y yf /\ is2 z2 B M zf /\ is2 z B M zf.
(** Sample n of row b depends on row b of the state and on samples 0..n of row b only, not
    even on the length of the signal. *)
Definition causal_rows : Prop := forall N N' (x x' : ten) xf xf' zi zi' z0 z0', (1 <= N)%nat -> (1 <= N')%nat ->
  sigv B N G x xf -> sigv B N' G x' xf' -> ini zi z0 -> ini zi' z0' ->
  exists y zf y' zf' yf yf', run x zi = Ok (y, zf) /\ run x' zi' = Ok (y', zf') /\ sigv B N P y yf /\ sigv B N' P y' yf' /\
    forall b n, (b < B)%nat -> (n < N)%nat -> (n < N')%nat -> (forall i, (i < M)%nat -> z0 b i = z0' b i) ->
      (forall m k, (m <= n)%nat -> (k < width G)%nat -> xf b m k = xf' b m k) -> forall p, (p < width P)%nat -> yf b n p = yf' b n p.
(** The filter is a state machine per row. *)
Definition is_machine : Prop := exists stp out : nat -> (nat -> R) -> (nat -> R) -> nat -> R,
  (forall b, (b < B)%nat -> reads M (width G) M (stp b) /\ reads M (width G) (width P) (out b)) /\
  forall N x xf zi z0, (1 <= N)%nat -> sigv B N G x xf -> ini zi z0 ->
    exists y zf, run x zi = Ok (y, zf) /\ sigv B N P y (fun b n p => out b (machine (stp b) (z0 b) (xf b) n) (xf b n) p) /\
      match zi with None => zf = None | Some _ => exists z, zf = Some z /\ is2 z B M (fun b => machine (stp b) (z0 b) (xf b) N) end.
(** Two calls return the same numbers. *)
Definition same_result (N : nat) (r r' : res (ten * option ten)) : Prop :=
  exists y zf y' zf' yf, r = Ok (y, zf) /\ r' = Ok (y', zf') /\ sigv B N P y yf /\ sigv B N P y' yf /\
    (zf = None /\ zf' = None \/ exists z z' v, zf = Some z /\ zf' = Some z' /\ is2 z B M v /\ is2 z' B M v).
End Spec.
Arguments machine {R}. Arguments reads {R}. Arguments streams {R}. Arguments causal_rows {R}. Arguments is_machine {R}. Arguments same_result {R}.
