(** C40: newton_solve (philtorch/prototype/nl.py). *)
From Coq Require Import List Arith Lia ZArith Bool QArith Qcanon.
From Verif Require Import Scalar Tensor TensorLemmas TensorOps TensorAlg TensorTac TensorList
  Spec Shapes Algebra M_Mat M_Kernels M_LtiSsm M_Ext M_LpvSsm P_LpvSsm P_LpvSs M_Newton P_Newton.
Import ListNotations.
Open Scope cr_scope.

(** ** Specification *)
(** The sequential solution: y_t = f(y_{t-1}, x_t), y_{-1} = y_init. *)
Fixpoint seqsol {X Y : Type} (f : Y -> X -> Y) (y_init : Y) (x : nat -> X) (t : nat) : Y :=
  match t with
  | O => f y_init (x 0%nat)
  | S t' => f (seqsol f y_init x t') (x (S t'))
  end.

Section Spec.
Context {R : cring}.
Notation ten := (tensor (car R)).
(** [func] maps (states, inputs) to next states, sample by sample, by [f]. *)
Definition pointwise1 (B D N : nat) (func : ten -> ten -> res ten) (f : (nat -> R) -> (nat -> R) -> nat -> R) : Prop :=
  forall n (y x : ten) yf xf, (1 <= n)%nat -> is3 y B n D yf -> is3 x B n N xf ->
  exists z, func y x = Ok z /\ is3 z B n D (fun b t => f (yf b t) (xf b t)).
Definition pointwise2 (B D N : nat) (fprime : ten -> ten -> res ten) (J : (nat -> R) -> (nat -> R) -> nat -> nat -> R) : Prop :=
  forall n (y x : ten) yf xf, (1 <= n)%nat -> is3 y B n D yf -> is3 x B n N xf ->
  exists z, fprime y x = Ok z /\ is4 z B n D D (fun b t => J (yf b t) (xf b t)).
(** [f] reads only the D state components. *)
Definition reads (D : nat) (f : (nat -> R) -> (nat -> R) -> nat -> R) : Prop :=
  forall y y' x d, (forall i, (i < D)%nat -> y i = y' i) -> (d < D)%nat -> f y x d = f y' x d.
(** [f] is affine in the state with Jacobian [J]. *)
Definition affine (D : nat) (f : (nat -> R) -> (nat -> R) -> nat -> R) J : Prop :=
  forall y x y' d, (d < D)%nat -> f y' x d = f y x d + bsum D (fun a => J y x d a * (y' a - y a)).
End Spec.

Lemma seqsol_nsol (R : cring) (f : (nat -> R) -> (nat -> R) -> nat -> R) xf initf b t :
  nsol f xf initf b t = seqsol f (initf b) (xf b) t.
Proof. induction t as [|t IH]; cbn [nsol seqsol]; [reflexivity|now rewrite IH]. Qed.

Section Props.
Variable R : cring.
Notation ten := (tensor (car R)).
Variables (e : env) (pr : bool) (B L D N uf : nat).
Variables (func fprime : ten -> ten -> res ten) (allclose : ten -> ten -> bool).
Variables (f : (nat -> R) -> (nat -> R) -> nat -> R) (J : (nat -> R) -> (nat -> R) -> nat -> nat -> R).
Variables (x y0 init : ten) (xf y0f : nat -> nat -> nat -> R) (initf : nat -> nat -> R).

(** After k iterations the first k samples are those of the sequential solution, whatever
    the function, its Jacobian callable, the first guess, the tolerance. *)
Theorem C40_causal K : (1 <= B)%nat -> (1 <= D)%nat -> lpv_backend_ok e pr D ->
  pointwise1 B D N func f -> pointwise2 B D N fprime J -> reads D f ->
  is3 x B L N xf -> is3 y0 B L D y0f -> is2 init B D initf -> (1 <= K < L)%nat ->
  (forall n, (1 <= n <= L)%nat -> unroll_good n (Some uf)) ->
  exists y k inter g, newton_solve e pr func fprime allclose x y0 init K uf = Ok (y, k, inter) /\
    (1 <= k <= K)%nat /\
    is3 y B L D g /\
    forall b t d, (b < B)%nat -> (t < k)%nat -> (d < D)%nat -> g b t d = seqsol f (initf b) (xf b) t d.
Proof.
  intros HB HD Hb Hf HJ Hr Hx Hy Hi HK Hu.
  destruct (newton_solve_spec R e pr B L D N uf HB HD Hb func fprime allclose f J Hf HJ Hr xf initf y0f x y0 init K Hx Hy Hi HK Hu)
    as (y & k & inter & E & Hk & Hv & _ & Hend).
  exists y, k, inter. eexists. split; [exact E|]. split; [exact Hk|]. split; [exact Hv|].
  intros b t d Hbb Ht Hd. cbn beta. rewrite (proj2 (Nat.ltb_lt t k) Ht). now rewrite seqsol_nsol.
Qed.

(** If no comparison succeeds all K iterations are made. *)
Theorem C40_iterations K : (1 <= B)%nat -> (1 <= D)%nat -> lpv_backend_ok e pr D ->
  pointwise1 B D N func f -> pointwise2 B D N fprime J -> reads D f ->
  is3 x B L N xf -> is3 y0 B L D y0f -> is2 init B D initf -> (1 <= K < L)%nat ->
  (forall n, (1 <= n <= L)%nat -> unroll_good n (Some uf)) ->
  (forall t u, allclose t u = false) ->
  exists y inter, newton_solve e pr func fprime allclose x y0 init K uf = Ok (y, K, inter) /\ length inter = K.
Proof.
  intros HB HD Hb Hf HJ Hr Hx Hy Hi HK Hu Hac.
  destruct (newton_solve_spec R e pr B L D N uf HB HD Hb func fprime allclose f J Hf HJ Hr xf initf y0f x y0 init K Hx Hy Hi HK Hu)
    as (y & k & inter & E & Hk & Hv & _ & Hend).
  destruct Hend as [[H1 ->]|(H1 & j & t & u & Hj & Ha & _)]; [|now rewrite Hac in Ha].
  exists y, inter. now split.
Qed.

(** An affine function is solved exactly by the first iteration (and any further one),
    from any first guess. *)
Theorem C40_affine K : (1 <= B)%nat -> (1 <= D)%nat -> lpv_backend_ok e pr D ->
  pointwise1 B D N func f -> pointwise2 B D N fprime J -> reads D f -> affine D f J ->
  is3 x B L N xf -> is3 y0 B L D y0f -> is2 init B D initf -> (1 <= K < L)%nat ->
  (forall n, (1 <= n <= L)%nat -> unroll_good n (Some uf)) ->
  exists y k inter, newton_solve e pr func fprime allclose x y0 init K uf = Ok (y, k, inter) /\
    (1 <= k <= K)%nat /\ is3 y B L D (fun b t d => seqsol f (initf b) (xf b) t d).
Proof.
  intros HB HD Hb Hf HJ Hr Haff Hx Hy Hi HK Hu.
  destruct (newton_solve_spec R e pr B L D N uf HB HD Hb func fprime allclose f J Hf HJ Hr xf initf y0f x y0 init K Hx Hy Hi HK Hu)
    as (y & k & inter & E & Hk & Hv & _ & Hend).
  exists y, k, inter. split; [exact E|]. split; [exact Hk|]. eapply is3_ext; [exact Hv|].
  intros b t d Hbb Ht Hd. cbn beta. rewrite <- seqsol_nsol. destruct (Nat.ltb_spec t k) as [H|H]; [reflexivity|].
  destruct k as [|k]; [lia|]. cbn [niter].
  rewrite (nstep_affine R B D HB HD f J Hr xf initf); [f_equal; lia|exact Haff| |exact Hd].
  intros a Ha. now apply niter_0.
Qed.

(** Early exit with an exact comparison: then the whole result is the sequential solution. *)
Theorem C40_exact_exit K : (1 <= B)%nat -> (1 <= D)%nat -> lpv_backend_ok e pr D ->
  pointwise1 B D N func f -> pointwise2 B D N fprime J -> reads D f ->
  is3 x B L N xf -> is3 y0 B L D y0f -> is2 init B D initf -> (1 <= K < L)%nat ->
  (forall n, (1 <= n <= L)%nat -> unroll_good n (Some uf)) ->
  (forall t u n h g, allclose t u = true -> is3 t B n D h -> is3 u B n D g ->
     forall b i d, (b < B)%nat -> (i < n)%nat -> (d < D)%nat -> h b i d = g b i d) ->
  exists y k inter, newton_solve e pr func fprime allclose x y0 init K uf = Ok (y, k, inter) /\
    ((length inter < k)%nat -> is3 y B L D (fun b t d => seqsol f (initf b) (xf b) t d)).
Proof.
  intros HB HD Hb Hf HJ Hr Hx Hy Hi HK Hu Hac.
  destruct (newton_solve_spec R e pr B L D N uf HB HD Hb func fprime allclose f J Hf HJ Hr xf initf y0f x y0 init K Hx Hy Hi HK Hu)
    as (y & k & inter & E & Hk & Hv & _ & Hend).
  exists y, k, inter. split; [exact E|]. intro Hl. destruct Hend as [[H1 H2]|(H1 & j & t & u & -> & Ha & Ht & Hu')]; [lia|].
  eapply is3_ext; [exact Hv|]. intros b i d Hbb Hii Hd. cbn beta. rewrite <- seqsol_nsol.
  destruct (Nat.ltb_spec i (S j)) as [H|H]; [reflexivity|].
  pose proof (Hac t u _ _ _ Ha Ht Hu') as Heq.
  assert (Hfix : forall t0 d0, (t0 < L - j)%nat -> (d0 < D)%nat -> nstep R D f J xf j (niter D f J xf initf y0f j) b t0 d0 = niter D f J xf initf y0f j b (S t0) d0).
  { intros t0 d0 H1' H2'. apply (Heq b t0 d0); assumption. }
  replace (S (i - S j)) with (i - j)%nat by lia.
  rewrite (Heq b (i - j)%nat d) by lia.
  rewrite (nstep_fixed R B D HB HD f J Hr xf initf j _ b (L - j)%nat) by (try lia; try assumption; intros; now apply niter_0).
  f_equal. lia.
Qed.

(** No iteration: the result variable is unbound. *)
Theorem C40_zero_iterations : is3 x B L N xf -> is3 y0 B L D y0f -> is2 init B D initf -> (1 <= L)%nat ->
  newton_solve e pr func fprime allclose x y0 init 0 uf = Err UnboundLocalError.
Proof.
  intros Hx Hy Hi HL. unfold newton_solve.
  assert (size x 1 = L) as -> by (unfold size; now rewrite (proj1 Hx)).
  btrue (0 <? L)%nat.
  apply is2_P1 in Hi. apply is3_P2 in Hy.
  assert (Hun : isP2 (unsqueeze 1 init) [B] 1 D (fun q _ d => initf (nth 0 q 0%nat) d)).
  { eapply P1_unsq0; [exact Hi|reflexivity]. }
  destruct (P2_cat0 _ _ _ _ _ _ _ _ 1%nat Hun Hy eq_refl) as (z & Ez & Hz). rewrite Ez. reflexivity.
Qed.

(** As many iterations as samples are refused. *)
Theorem C40_max_iter_bound K : is3 x B L N xf -> (L <= K)%nat ->
  newton_solve e pr func fprime allclose x y0 init K uf = Err AssertionError.
Proof.
  intros Hx HK. unfold newton_solve.
  assert (size x 1 = L) as -> by (unfold size; now rewrite (proj1 Hx)). now bfalse (K <? L)%nat.
Qed.

(** C47: the j-th intermediate (from 0) holds j + 2 samples, and its last sample repeats the
    one before instead of continuing. *)
Theorem C47_intermediates K : (1 <= B)%nat -> (1 <= D)%nat -> lpv_backend_ok e pr D ->
  pointwise1 B D N func f -> pointwise2 B D N fprime J -> reads D f ->
  is3 x B L N xf -> is3 y0 B L D y0f -> is2 init B D initf -> (1 <= K < L)%nat ->
  (forall n, (1 <= n <= L)%nat -> unroll_good n (Some uf)) ->
  exists y k inter, newton_solve e pr func fprime allclose x y0 init K uf = Ok (y, k, inter) /\
    (length inter = k \/ length inter = (k - 1)%nat) /\
    forall dflt j, (j < length inter)%nat ->
      is3 (fst (nth j inter dflt)) B (j + 2) D (fun b t d => seqsol f (initf b) (xf b) (Nat.min t j) d).
Proof.
  intros HB HD Hb Hf HJ Hr Hx Hy Hi HK Hu.
  destruct (newton_solve_spec R e pr B L D N uf HB HD Hb func fprime allclose f J Hf HJ Hr xf initf y0f x y0 init K Hx Hy Hi HK Hu)
    as (y & k & inter & E & Hk & Hv & Hint & Hend).
  exists y, k, inter. split; [exact E|]. split; [destruct Hend as [[? ?]|[? ?]]; lia|].
  intros dflt j Hj. eapply is3_ext; [exact (Hint dflt j Hj)|]. intros b t d _ _ _. cbn beta. now rewrite seqsol_nsol.
Qed.
End Props.
Print Assumptions C40_causal.
Print Assumptions C40_iterations.
Print Assumptions C40_affine.
Print Assumptions C40_exact_exit.
Print Assumptions C40_zero_iterations.
Print Assumptions C40_max_iter_bound.
Print Assumptions C47_intermediates.

(** ** Example: y_t = y_{t-1}^2 + x_t, one state, three samples. *)
Definition sqf (y x : nat -> Zring) (d : nat) : Zring := y d * y d + x d.
Definition sqJ (y x : nat -> Zring) (d a : nat) : Zring := if (d =? a)%nat then y d + y d else 0.
Definition sq_func (y x : tensor Zring) : res (tensor Zring) := let* z := tmul y y in tadd z x.
Definition sq_prime (y x : tensor Zring) : res (tensor Zring) := let* z := tadd y y in Ok (unsqueeze 2 z).
Example C40_ex_hyp1 B : pointwise1 B 1 1 sq_func sqf.
Proof.
  intros n y x yf xf Hn Hy Hx. apply is3_P2 in Hy. apply is3_P2 in Hx. unfold sq_func.
  destruct (P2_ew_same (rmul (c:=Zring)) _ _ _ _ _ _ _ Hy Hy) as (z & E & Hz).
  destruct (P2_ew_same (radd (c:=Zring)) _ _ _ _ _ _ _ Hz Hx) as (w & E' & Hw).
  exists w. split; [change (tmul y y) with (ew (rmul (c:=Zring)) y y); rewrite E; exact E'|].
  apply is3_P2. exact Hw.
Qed.
Example C40_ex_hyp2 B : pointwise2 B 1 1 sq_prime sqJ.
Proof.
  intros n y x yf xf Hn Hy Hx. apply is3_P2 in Hy. unfold sq_prime.
  destruct (P2_ew_same (radd (c:=Zring)) _ _ _ _ _ _ _ Hy Hy) as (z & E & Hz).
  exists (unsqueeze 2 z). split; [change (tadd y y) with (ew (radd (c:=Zring)) y y); rewrite E; reflexivity|].
  apply is4_P3. assert (H := P2_unsq1 _ _ _ _ _ 2%nat Hz eq_refl).
  eapply isP3_ext; [exact H|]. intros q i j k Hq Hi Hj Hk. cbn beta.
  assert (j = 0%nat) as -> by lia. assert (k = 0%nat) as -> by lia. reflexivity.
Qed.
Example C40_ex_hyp3 : reads 1 sqf.
Proof. intros y y' x d H Hd. unfold sqf. now rewrite H. Qed.
Definition ex_t (s : list nat) (l : list Z) : tensor Zring :=
  mkT s (fun q => nth (nth 1 q 0%nat) l 0%Z).
(** x = (1, 2, -3), initial state 2: solution 5, 27, 726. *)
Example C40_ex_seq : map (fun t => seqsol sqf (fun _ => 2%Z) (fun t _ => nth t [1; 2; -3]%Z 0%Z) t 0%nat) [0; 1; 2]%nat
  = [5; 27; 726]%Z.
Proof. reflexivity. Qed.
(** Two iterations from the guess (1, 1, 1): two samples exact, the third 470 (not 726); the
    intermediates repeat their last sample. *)
Example C40_ex_run :
  match newton_solve (R:=Zring) env0 false sq_func sq_prime (fun _ _ => false) (ex_t [1; 3; 1]%nat [1; 2; -3]%Z)
          (ex_t [1; 3; 1]%nat [1; 1; 1]%Z) (mkT [1; 1]%nat (fun _ => 2%Z)) 2 1 with
  | Ok (y, k, inter) => Some (map (fun t => at_ y [0; t; 0]%nat) (seq 0 3), k,
                              map (fun p => map (fun t => at_ (fst p) [0; t; 0]%nat) (seq 0 (nth 1 (shape (fst p)) 0%nat))) inter)
  | Err _ => None
  end = Some ([5; 27; 470]%Z, 2%nat, [[5; 5]; [5; 27; 27]]%Z).
Proof. vm_compute. reflexivity. Qed.
(** Affine: y_t = 3 y_{t-1} + x_t; one iteration from (7, 7, 7) is exact. *)
Definition afJ (y x : nat -> Zring) (d a : nat) : Zring := 3%Z.
Definition aff (y x : nat -> Zring) (d : nat) : Zring := (3 * y 0%nat + x 0%nat)%Z.
Example C40_ex_affine : affine 1 aff afJ.
Proof. intros y x y' d Hd. unfold aff, afJ. cbn [bsum]. cbn.
  generalize (y 0%nat) (y' 0%nat) (x 0%nat). intros a b c. change (3 * b + c = (3 * a + c) + (0 + 3 * (b - a)))%Z. ring. Qed.
Example C40_ex_affine_run :
  match newton_solve (R:=Zring) env0 false (fun y x => tadd (R:=Zring) (tmap (fun v : Zring => (3 * v)%Z) y) x)
          (fun y x => Ok (mkT (shape y ++ [1%nat]) (fun _ => 3%Z))) (fun _ _ => false) (ex_t [1; 3; 1]%nat [1; 2; -3]%Z)
          (ex_t [1; 3; 1]%nat [7; 7; 7]%Z) (mkT [1; 1]%nat (fun _ => 2%Z)) 1 1 with
  | Ok (y, k, inter) => Some (map (fun t => at_ y [0; t; 0]%nat) (seq 0 3), k)
  | Err _ => None
  end = Some ([7; 23; 66]%Z, 1%nat).
Proof. vm_compute. reflexivity. Qed.

(** The intermediates are not the approximations of the whole signal. *)
Lemma ex_t_is3 l : is3 (ex_t [1; 3; 1]%nat l) 1 3 1 (fun _ t _ => nth t l 0%Z).
Proof. split; [reflexivity|]. intros b t d _ _ _. reflexivity. Qed.
Theorem C47_intermediates_refuted : exists x y0 init : tensor Zring, exists y k inter,
  is3 x 1 3 1 (fun _ t _ => nth t [1; 2; -3]%Z 0%Z) /\
  newton_solve (R:=Zring) env0 false sq_func sq_prime (fun _ _ => false) x y0 init 2 1 = Ok (y, k, inter) /\
  length inter = 2%nat /\ shape y = [1; 3; 1]%nat /\
  forall dflt, shape (fst (nth 0 inter dflt)) = [1; 2; 1]%nat /\
    at_ (fst (nth 0 inter dflt)) [0; 1; 0]%nat = 5%Z /\ at_ y [0; 1; 0]%nat = 27%Z.
Proof.
  exists (ex_t [1; 3; 1]%nat [1; 2; -3]%Z), (ex_t [1; 3; 1]%nat [1; 1; 1]%Z), (mkT [1; 1]%nat (fun _ => 2%Z)).
  assert (Hi : is2 (mkT [1; 1]%nat (fun _ => 2%Z : Zring)) 1 1 (fun _ _ => 2%Z)) by (split; [reflexivity|intros; reflexivity]).
  assert (Hu : forall n, (1 <= n <= 3)%nat -> unroll_good n (Some 1%nat)) by (intros n Hn; split; cbn; lia).
  destruct (C47_intermediates Zring env0 false 1 3 1 1 1 sq_func sq_prime (fun _ _ => false) sqf sqJ _ _ _ _ _ _ 2
    ltac:(lia) ltac:(lia) (lpv_backend_env0 1) (C40_ex_hyp1 1) (C40_ex_hyp2 1) C40_ex_hyp3
    (ex_t_is3 [1; 2; -3]%Z) (ex_t_is3 [1; 1; 1]%Z) Hi ltac:(lia) Hu) as (y & k & inter & E & _ & Hint).
  destruct (C40_causal Zring env0 false 1 3 1 1 1 sq_func sq_prime (fun _ _ => false) sqf sqJ _ _ _ _ _ _ 2
    ltac:(lia) ltac:(lia) (lpv_backend_env0 1) (C40_ex_hyp1 1) (C40_ex_hyp2 1) C40_ex_hyp3
    (ex_t_is3 [1; 2; -3]%Z) (ex_t_is3 [1; 1; 1]%Z) Hi ltac:(lia) Hu) as (y' & k' & inter' & g & E' & _ & Hy & Hg).
  destruct (C40_iterations Zring env0 false 1 3 1 1 1 sq_func sq_prime (fun _ _ => false) sqf sqJ _ _ _ _ _ _ 2
    ltac:(lia) ltac:(lia) (lpv_backend_env0 1) (C40_ex_hyp1 1) (C40_ex_hyp2 1) C40_ex_hyp3
    (ex_t_is3 [1; 2; -3]%Z) (ex_t_is3 [1; 1; 1]%Z) Hi ltac:(lia) Hu ltac:(reflexivity)) as (y'' & inter'' & E'' & Hl).
  pose proof (eq_trans (eq_sym E) E') as H1. injection H1 as <- <- <-.
  pose proof (eq_trans (eq_sym E) E'') as H2. injection H2 as <- -> <-.
  exists y, 2%nat, inter. split; [apply ex_t_is3|]. split; [exact E|]. split; [exact Hl|]. split; [exact (proj1 Hy)|].
  intro dflt. destruct (Hint dflt 0%nat ltac:(lia)) as [Hs Hv]. split; [exact Hs|]. split.
  - rewrite (Hv 0%nat 1%nat 0%nat) by lia. reflexivity.
  - rewrite (proj2 Hy 0%nat 1%nat 0%nat) by lia. rewrite Hg by lia. reflexivity.
Qed.
Print Assumptions C47_intermediates_refuted.
