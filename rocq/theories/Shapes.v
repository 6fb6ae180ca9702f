(** Documented argument shapes, as relations between a tensor and its meaning.
    Used in statements only; nothing here refers to the model of the code. *)
From Coq Require Import List Arith Lia ZArith Bool.
From Verif Require Import Scalar Tensor.
Import ListNotations.

Section Shapes.
Variable R : cops.
Notation ten := (tensor (car R)).

(** A scalar coefficient: 0-d, one element, or one per batch. *)
Inductive coef (B : nat) (t : ten) (f : nat -> R) : Prop :=
| coef_0 v : is0 t v -> (forall b, b < B -> f b = v) -> coef B t f
| coef_1 g : is1 t 1 g -> (forall b, b < B -> f b = g 0) -> coef B t f
| coef_B : is1 t B f -> coef B t f.

(** A constant M x M matrix: shared, or one per batch. *)
Inductive matc (B M : nat) (t : ten) (f : nat -> nat -> nat -> R) : Prop :=
| matc_s g : is2 t M M g -> (forall b i j, b < B -> i < M -> j < M -> f b i j = g i j) -> matc B M t f
| matc_b : is3 t B M M f -> matc B M t f.

(** A time-varying M x M matrix: shared, or one sequence per batch ([f b n i j]). *)
Inductive matv (B N M : nat) (t : ten) (f : nat -> nat -> nat -> nat -> R) : Prop :=
| matv_s g : is3 t N M M g ->
    (forall b n i j, b < B -> n < N -> i < M -> j < M -> f b n i j = g n i j) -> matv B N M t f
| matv_b : is4 t B N M M f -> matv B N M t f.

(** The input of a recursion h_{n+1} = A h_n + u_n: a (batch, time) signal drives
    component 0, a (batch, time, M) signal drives every component. *)
Inductive drive (B N M : nat) (x : ten) (u : nat -> nat -> nat -> R) : Prop :=
| drive_2 f : is2 x B N f ->
    (forall b n m, b < B -> n < N -> m < M -> u b n m = if m =? 0 then f b n else r0) -> drive B N M x u
| drive_3 : is3 x B N M u -> drive B N M x u.

(** [out_idx] is absent or a Python index into M components. *)
Definition idx_ok (M : nat) (oi : option Z) : Prop :=
  match oi with None => True | Some i => exists k, pyidx M i = Some k end.
(** A result with all components, or only the one selected by [out_idx]. *)
Definition picks (B N M : nat) (oi : option Z) (y : ten) (h : nat -> nat -> nat -> R) : Prop :=
  match oi with
  | None => is3 y B N M h
  | Some i => forall k, pyidx M i = Some k -> is2 y B N (fun b n => h b n k)
  end.

(** Time-varying scalar coefficients: shared (N) or per batch (B, N). *)
Inductive coefv (B N : nat) (t : ten) (f : nat -> nat -> R) : Prop :=
| coefv_s g : is1 t N g -> (forall b n, b < B -> n < N -> f b n = g n) -> coefv B N t f
| coefv_b : is2 t B N f -> coefv B N t f.

(** ** State-space models.  A signal is (batch, time) ([F = None]) or
    (batch, time, K) ([F = Some K]). *)
Definition width (F : option nat) : nat := match F with None => 1 | Some K => K end.
Definition sigv (B N : nat) (F : option nat) (t : ten) (f : nat -> nat -> nat -> R) : Prop :=
  match F with
  | None => is2 t B N (fun b n => f b n 0)
  | Some K => is3 t B N K f
  end.
Definition same3 (B n m : nat) (f g : nat -> nat -> nat -> R) : Prop :=
  forall b i j, b < B -> i < n -> j < m -> f b i j = g b i j.
Definition unit3 (b i j : nat) : R := if i =? j then r1 else r0.

(** Shapes of the input matrix (argument B) and the M x width(F) matrix each means. *)
Inductive inmat (batch M : nat) : option nat -> option ten -> (nat -> nat -> nat -> R) -> Prop :=
| in_none2 f : same3 batch M 1 f unit3 -> inmat batch M None None f
| in_none3 f : same3 batch M M f unit3 -> inmat batch M (Some M) None f
| in_M t g f : is1 t M g -> same3 batch M 1 f (fun b m _ => g m) -> inmat batch M None (Some t) f
| in_BM t g f : is2 t batch M g -> same3 batch M 1 f (fun b m _ => g b m) -> inmat batch M None (Some t) f
| in_MF K t g f : is2 t M K g -> (M <> batch \/ K <> M) -> same3 batch M K f (fun b m k => g m k) ->
    inmat batch M (Some K) (Some t) f
| in_BMF K t g f : is3 t batch M K g -> same3 batch M K f g -> inmat batch M (Some K) (Some t) f.

(** Shapes of the output matrix (argument C), or [out_idx], the resulting signal kind
    and the matrix each means. *)
Inductive outmat (batch M : nat) :
  option Z -> option ten -> option nat -> (nat -> nat -> nat -> R) -> Prop :=
| out_none f : same3 batch M M f unit3 -> outmat batch M None None (Some M) f
| out_idx i k f : pyidx M i = Some k -> same3 batch 1 M f (fun b _ m => unit3 b k m) ->
    outmat batch M (Some i) None None f
| out_M t g f : is1 t M g -> same3 batch 1 M f (fun b _ m => g m) -> outmat batch M None (Some t) None f
| out_BM t g f : is2 t batch M g -> same3 batch 1 M f (fun b _ m => g b m) ->
    outmat batch M None (Some t) None f
| out_PM P t g f : is2 t P M g -> P <> batch -> same3 batch P M f (fun b p m => g p m) ->
    outmat batch M None (Some t) (Some P) f
| out_BPM P t g f : is3 t batch P M g -> same3 batch P M f g -> outmat batch M None (Some t) (Some P) f.

(** Shapes of the feed-through matrix (argument D) for an input of kind F and an
    output of kind P. *)
Inductive feed (batch : nat) :
  option nat -> option nat -> option ten -> (nat -> nat -> nat -> R) -> Prop :=
| fd_none F P f : same3 batch (width P) (width F) f (fun _ _ _ => r0) -> feed batch F P None f
| fd_2_0 t v f : is0 t v -> same3 batch 1 1 f (fun _ _ _ => v) -> feed batch None None (Some t) f
| fd_2_1 t g f : is1 t 1 g -> same3 batch 1 1 f (fun _ _ _ => g 0) -> feed batch None None (Some t) f
| fd_2_B t g f : is1 t batch g -> same3 batch 1 1 f (fun b _ _ => g b) -> feed batch None None (Some t) f
| fd_2_P P t g f : is1 t P g -> P <> batch -> P <> 1 -> same3 batch P 1 f (fun b p _ => g p) ->
    feed batch None (Some P) (Some t) f
| fd_2_BP P t g f : is2 t batch P g -> same3 batch P 1 f (fun b p _ => g b p) ->
    feed batch None (Some P) (Some t) f
| fd_3_0 K t v f : is0 t v -> same3 batch K K f (fun b p k => if p =? k then v else r0) ->
    feed batch (Some K) (Some K) (Some t) f
| fd_3_1 K t g f : is1 t 1 g -> K <> 1 -> batch <> 1 ->
    same3 batch K K f (fun b p k => if p =? k then g 0 else r0) ->
    feed batch (Some K) (Some K) (Some t) f
| fd_3_F K t g f : is1 t K g -> same3 batch 1 K f (fun b _ k => g k) -> feed batch (Some K) None (Some t) f
| fd_3_BF K t g f : is2 t batch K g -> same3 batch 1 K f (fun b _ k => g b k) ->
    feed batch (Some K) None (Some t) f
| fd_3_PF K P t g f : is2 t P K g -> P <> batch -> same3 batch P K f (fun b p k => g p k) ->
    feed batch (Some K) (Some P) (Some t) f
| fd_3_BPF K P t g f : is3 t batch P K g -> same3 batch P K f g ->
    feed batch (Some K) (Some P) (Some t) f.

(** Initial state: absent (zero), shared, or one per batch. *)
Inductive init (batch M : nat) : option ten -> (nat -> nat -> R) -> Prop :=
| init_0 f : (forall b m, b < batch -> m < M -> f b m = r0) -> init batch M None f
| init_M t g f : is1 t M g -> (forall b m, b < batch -> m < M -> f b m = g m) -> init batch M (Some t) f
| init_BM t g f : is2 t batch M g -> (forall b m, b < batch -> m < M -> f b m = g b m) ->
    init batch M (Some t) f.

(** All coefficient arguments of one state_space call. *)
Definition sys (batch M : nat) (F P : option nat) (A : ten) (Bt C D : option ten) (oi : option Z)
  (Af Bm Cm Dm : nat -> nat -> nat -> R) : Prop :=
  matc batch M A Af /\ inmat batch M F Bt Bm /\ outmat batch M oi C P Cm /\ feed batch F P D Dm.

(** ** Time-varying state-space models: [f b n i j] is entry (i, j) at time n in batch b.
    The size conditions exclude exactly the shapes the code reads differently (C14). *)
Definition same4 (B N n m : nat) (f g : nat -> nat -> nat -> nat -> R) : Prop :=
  forall b t i j, b < B -> t < N -> i < n -> j < m -> f b t i j = g b t i j.

Inductive inmatv (batch N M : nat) :
  option nat -> option ten -> (nat -> nat -> nat -> nat -> R) -> Prop :=
| inv_none2 f : same4 batch N M 1 f (fun b _ => unit3 b) -> inmatv batch N M None None f
| inv_none3 f : same4 batch N M M f (fun b _ => unit3 b) -> inmatv batch N M (Some M) None f
| inv_M t g f : is1 t M g -> same4 batch N M 1 f (fun _ _ m _ => g m) -> inmatv batch N M None (Some t) f
| inv_NM t g f : is2 t N M g -> same4 batch N M 1 f (fun _ n m _ => g n m) ->
    inmatv batch N M None (Some t) f
| inv_BM t g f : is2 t batch M g -> batch <> N -> same4 batch N M 1 f (fun b _ m _ => g b m) ->
    inmatv batch N M None (Some t) f
| inv_BNM t g f : is3 t batch N M g -> same4 batch N M 1 f (fun b n m _ => g b n m) ->
    inmatv batch N M None (Some t) f
| inv_MF K t g f : is2 t M K g -> same4 batch N M K f (fun _ _ m k => g m k) ->
    inmatv batch N M (Some K) (Some t) f
| inv_NMF K t g f : is3 t N M K g -> same4 batch N M K f (fun _ n m k => g n m k) ->
    inmatv batch N M (Some K) (Some t) f
| inv_BMF K t g f : is3 t batch M K g -> batch <> N -> (M <> N \/ K <> M) ->
    same4 batch N M K f (fun b _ m k => g b m k) -> inmatv batch N M (Some K) (Some t) f
| inv_BNMF K t g f : is4 t batch N M K g -> same4 batch N M K f g -> inmatv batch N M (Some K) (Some t) f.

Inductive outmatv (batch N M : nat) :
  option Z -> option ten -> option nat -> (nat -> nat -> nat -> nat -> R) -> Prop :=
| outv_none f : same4 batch N M M f (fun b _ => unit3 b) -> outmatv batch N M None None (Some M) f
| outv_idx i k f : pyidx M i = Some k -> same4 batch N 1 M f (fun b _ _ m => unit3 b k m) ->
    outmatv batch N M (Some i) None None f
| outv_M t g f : is1 t M g -> same4 batch N 1 M f (fun _ _ _ m => g m) -> outmatv batch N M None (Some t) None f
| outv_NM t g f : is2 t N M g -> same4 batch N 1 M f (fun _ n _ m => g n m) ->
    outmatv batch N M None (Some t) None f
| outv_BM t g f : is2 t batch M g -> batch <> N -> same4 batch N 1 M f (fun b _ _ m => g b m) ->
    outmatv batch N M None (Some t) None f
| outv_PM P t g f : is2 t P M g -> P <> N -> P <> batch -> same4 batch N P M f (fun _ _ p m => g p m) ->
    outmatv batch N M None (Some t) (Some P) f
| outv_NPM P t g f : is3 t N P M g -> same4 batch N P M f (fun _ n p m => g n p m) ->
    outmatv batch N M None (Some t) (Some P) f
| outv_BNM t g f : is3 t batch N M g -> batch <> N -> same4 batch N 1 M f (fun b n _ m => g b n m) ->
    outmatv batch N M None (Some t) None f
| outv_BPM P t g f : is3 t batch P M g -> batch <> N -> P <> N ->
    same4 batch N P M f (fun b _ p m => g b p m) -> outmatv batch N M None (Some t) (Some P) f
| outv_BNPM P t g f : is4 t batch N P M g -> same4 batch N P M f g ->
    outmatv batch N M None (Some t) (Some P) f.

Inductive feedv (batch N : nat) :
  option nat -> option nat -> option ten -> (nat -> nat -> nat -> nat -> R) -> Prop :=
| fdv_none F P f : same4 batch N (width P) (width F) f (fun _ _ _ _ => r0) -> feedv batch N F P None f
| fdv_2_0 t v f : is0 t v -> same4 batch N 1 1 f (fun _ _ _ _ => v) -> feedv batch N None None (Some t) f
| fdv_2_1 t g f : is1 t 1 g -> same4 batch N 1 1 f (fun _ _ _ _ => g 0) -> feedv batch N None None (Some t) f
| fdv_2_N t g f : is1 t N g -> same4 batch N 1 1 f (fun _ n _ _ => g n) -> feedv batch N None None (Some t) f
| fdv_2_B t g f : is1 t batch g -> batch <> N -> same4 batch N 1 1 f (fun b _ _ _ => g b) ->
    feedv batch N None None (Some t) f
| fdv_2_P P t g f : is1 t P g -> P <> N -> P <> batch -> P <> 1 ->
    same4 batch N P 1 f (fun _ _ p _ => g p) -> feedv batch N None (Some P) (Some t) f
| fdv_2_NP P t g f : is2 t N P g -> same4 batch N P 1 f (fun _ n p _ => g n p) ->
    feedv batch N None (Some P) (Some t) f
| fdv_2_BN t g f : is2 t batch N g -> batch <> N -> same4 batch N 1 1 f (fun b n _ _ => g b n) ->
    feedv batch N None None (Some t) f
| fdv_2_BP P t g f : is2 t batch P g -> batch <> N -> P <> N -> same4 batch N P 1 f (fun b _ p _ => g b p) ->
    feedv batch N None (Some P) (Some t) f
| fdv_2_BNP P t g f : is3 t batch N P g -> same4 batch N P 1 f (fun b n p _ => g b n p) ->
    feedv batch N None (Some P) (Some t) f
| fdv_3_0 K t v f : is0 t v -> same4 batch N K K f (fun _ _ p k => if p =? k then v else r0) ->
    feedv batch N (Some K) (Some K) (Some t) f
| fdv_3_1 K t g f : is1 t 1 g -> K <> 1 -> N <> 1 -> batch <> 1 ->
    same4 batch N K K f (fun _ _ p k => if p =? k then g 0 else r0) ->
    feedv batch N (Some K) (Some K) (Some t) f
| fdv_3_F K t g f : is1 t K g -> same4 batch N 1 K f (fun _ _ _ k => g k) ->
    feedv batch N (Some K) None (Some t) f
| fdv_3_NF K t g f : is2 t N K g -> same4 batch N 1 K f (fun _ n _ k => g n k) ->
    feedv batch N (Some K) None (Some t) f
| fdv_3_BF K t g f : is2 t batch K g -> batch <> N -> same4 batch N 1 K f (fun b _ _ k => g b k) ->
    feedv batch N (Some K) None (Some t) f
| fdv_3_PF K P t g f : is2 t P K g -> P <> N -> P <> batch -> same4 batch N P K f (fun _ _ p k => g p k) ->
    feedv batch N (Some K) (Some P) (Some t) f
| fdv_3_BNF K t g f : is3 t batch N K g -> same4 batch N 1 K f (fun b n _ k => g b n k) ->
    feedv batch N (Some K) None (Some t) f
| fdv_3_NPF K P t g f : is3 t N P K g -> (N <> batch \/ P <> N) ->
    same4 batch N P K f (fun _ n p k => g n p k) -> feedv batch N (Some K) (Some P) (Some t) f
| fdv_3_BPF K P t g f : is3 t batch P K g -> batch <> N -> P <> N ->
    same4 batch N P K f (fun b _ p k => g b p k) -> feedv batch N (Some K) (Some P) (Some t) f
| fdv_3_BNPF K P t g f : is4 t batch N P K g -> same4 batch N P K f g ->
    feedv batch N (Some K) (Some P) (Some t) f.

Definition sysv (batch N M : nat) (F P : option nat) (A : ten) (Bt C D : option ten) (oi : option Z)
  (Af Bm Cm Dm : nat -> nat -> nat -> nat -> R) : Prop :=
  matv batch N M A Af /\ inmatv batch N M F Bt Bm /\ outmatv batch N M oi C P Cm /\ feedv batch N F P D Dm.

End Shapes.
Arguments same4 {R}. Arguments inmatv {R}. Arguments outmatv {R}. Arguments feedv {R}. Arguments sysv {R}.
Arguments sys {R}.
Arguments coefv {R}. Arguments coefv_s {R B N t f}. Arguments coefv_b {R B N t f}.
Arguments coef {R}.
Arguments coef_0 {R B t f}. Arguments coef_1 {R B t f}. Arguments coef_B {R B t f}.
Arguments matc {R}. Arguments matc_s {R B M t f}. Arguments matc_b {R B M t f}.
Arguments matv {R}. Arguments matv_s {R B N M t f}. Arguments matv_b {R B N M t f}.
Arguments drive {R}. Arguments drive_2 {R B N M x u}. Arguments drive_3 {R B N M x u}.
Arguments picks {R}.
Arguments sigv {R}. Arguments same3 {R}. Arguments unit3 {R}.
Arguments inmat {R}. Arguments outmat {R}. Arguments feed {R}. Arguments init {R}.
