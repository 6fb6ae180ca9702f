(** newton_solve: exactness of the leading samples, affine functions, fixed points. *)
From Coq Require Import List Arith Lia ZArith Bool.
From Verif Require Import Scalar Tensor TensorLemmas TensorOps TensorAlg TensorTac TensorList
  Spec Shapes Algebra M_Mat M_Kernels M_LtiSsm M_Ext M_LpvSsm P_LpvSsm P_LpvSs M_Newton.
Import ListNotations.

Section Cat.
Context {A : Type}.
(** Concatenation along time of one-sample pieces and a last longer piece. *)
Lemma cat_snoc (l : list (tensor A)) (t : tensor A) B n D (g : nat -> nat -> nat -> A) h :
  (forall dflt j, j < length l -> is3 (nth j l dflt) B 1 D (fun b _ d => g j b d)) ->
  is3 t B n D h ->
  exists y, cat 1 (l ++ [t]) = Ok y /\
    is3 y B (length l + n) D (fun b i d => if i <? length l then g i b d else h b (i - length l) d).
Proof.
  intros Hl Ht.
  assert (Hsh : forall u, In u l -> shape u = [B; 1; D]).
  { intros u Hu. destruct (In_nth _ _ u Hu) as (j & Hj & <-). apply (Hl u j Hj). }
  assert (Hcs : cat_size 1 (l ++ [t]) = length l + n).
  { clear Hl. induction l as [|u l IH]; cbn [app cat_size length].
    - unfold size. rewrite (proj1 Ht). reflexivity.
    - rewrite IH by (intros; apply Hsh; now right). unfold size. rewrite (Hsh u) by now left.
      destruct (l ++ [t]) eqn:E; [destruct l; discriminate|]. cbn. lia. }
  assert (Hcat : exists u0 us, l ++ [t] = u0 :: us /\ cat 1 (l ++ [t]) = Ok (mkT [B; length l + n; D] (cat_at 1 u0 us))).
  { destruct l as [|u l].
    - exists t, []. split; [reflexivity|]. cbn [app] in *. unfold cat, rk. rewrite Hcs, (proj1 Ht). cbn. reflexivity.
    - exists u, (l ++ [t]). split; [reflexivity|]. cbn [app] in Hcs |- *. unfold cat. rewrite Hcs.
      assert (forallb (fun u1 => (rk u1 =? rk u) && list_eqb (del 1 (shape u1)) (del 1 (shape u))) (l ++ [t]) = true) as ->.
      { apply forallb_forall. intros v Hv. unfold rk. rewrite (Hsh u) by now left.
        apply in_app_or in Hv as [Hv|[<-|[]]].
        - rewrite (Hsh v) by now right. cbn. now rewrite !Nat.eqb_refl.
        - rewrite (proj1 Ht). cbn. now rewrite !Nat.eqb_refl. }
      unfold rk. rewrite (Hsh u) by now left. reflexivity. }
  destruct Hcat as (u0 & us & E0 & Ec). rewrite Ec. eexists. split; [reflexivity|]. split; [reflexivity|].
  intros b i d Hb Hi Hd. cbn [at_].
  clear Hcs Ec. revert u0 us i g E0 Hi Hl Hsh. clear - Ht Hb Hd. induction l as [|u l IH]; intros u0 us i g E0 Hi Hl Hsh.
  - cbn in E0. injection E0 as <- <-. cbn [cat_at length Nat.ltb Nat.leb]. rewrite Nat.sub_0_r. apply (proj2 Ht); auto.
  - cbn [app] in E0. injection E0 as <- <-. destruct (l ++ [t]) as [|u1 us1] eqn:E1; [destruct l; discriminate|].
    cbn [cat_at]. unfold size. rewrite (Hsh u) by now left. cbn [nth].
    destruct i as [|i].
    + cbn [Nat.ltb Nat.leb length]. destruct (Hl u 0 ltac:(cbn; lia)) as [_ H]. apply (H b 0 d); auto.
    + change (S i <? 1) with false. cbn [upd]. replace (S i - 1) with i by lia.
      rewrite (IH u1 us1 i (fun j => g (S j)) eq_refl).
      * change (S i <? length (u :: l)) with (i <? length l). reflexivity.
      * cbn [length] in Hi. lia.
      * intros dflt j Hj. exact (Hl dflt (S j) ltac:(cbn; lia)).
      * intros v Hv. apply Hsh. now right.
Qed.
Lemma slice3 (t : tensor A) B n D f lo hi a len : is3 t B n D f ->
  pybound n 0 lo = a -> pybound n n hi - a = len ->
  is3 (slice 1 lo hi t) B len D (fun b i => f b (a + i)).
Proof. intros H H1 H2. apply is3_P2 in H. apply is3_P2. exact (P2_slice0 _ _ _ _ _ _ _ _ _ _ H eq_refl H1 H2). Qed.
End Cat.

Section NewtonP.
Variable R : cring.
Notation ten := (tensor (car R)).
Variable e : env.
Variable pr : bool.
Add Ring Rr : (r_th R).
Open Scope cr_scope.

Variables (B L D N uf : nat).
Hypothesis HB : (1 <= B)%nat.
Hypothesis HD : (1 <= D)%nat.
Hypothesis Hback : lpv_backend_ok e pr D.
Variables (func fprime : ten -> ten -> res ten) (allclose : ten -> ten -> bool).
(** The callables act sample by sample: next state from previous state and input. *)
Variable f : (nat -> R) -> (nat -> R) -> nat -> R.
Variable J : (nat -> R) -> (nat -> R) -> nat -> nat -> R.
Hypothesis Hfunc : forall n (y x : ten) yf xf, (1 <= n)%nat -> is3 y B n D yf -> is3 x B n N xf ->
  exists z, func y x = Ok z /\ is3 z B n D (fun b t => f (yf b t) (xf b t)).
Hypothesis Hprime : forall n (y x : ten) yf xf, (1 <= n)%nat -> is3 y B n D yf -> is3 x B n N xf ->
  exists z, fprime y x = Ok z /\ is4 z B n D D (fun b t => J (yf b t) (xf b t)).
Hypothesis Hext : forall y y' x d, (forall i, (i < D)%nat -> y i = y' i) -> (d < D)%nat -> f y x d = f y' x d.
Variable xf : nat -> nat -> nat -> R.
Variable initf : nat -> nat -> R.

(** The sequential solution. *)
Fixpoint nsol (b t : nat) : nat -> R :=
  match t with
  | O => f (initf b) (xf b 0%nat)
  | S t' => f (nsol b t') (xf b (S t'))
  end.
(** The state before sample i. *)
Definition prev (b i : nat) : nat -> R := match i with O => initf b | S j => nsol b j end.
Lemma nsol_prev b i : nsol b i = f (prev b i) (xf b i).
Proof. destruct i; reflexivity. Qed.

Lemma recur_runner_spec n (A zi x : ten) Af zf u :
  (1 <= n)%nat -> unroll_good n (Some uf) ->
  is4 A B n D D Af -> is2 zi B D zf -> is3 x B n D u ->
  exists y, recur_runner e pr D uf A zi x = Ok y /\
    is3 y B n D (fun b t m => state D (Af b) (zf b) (u b) (S t) m).
Proof.
  intros Hn Hu HA Hz Hx. unfold recur_runner.
  destruct (lpv_extension_backend_indicator e pr D && (uf =? 1)%nat)%bool eqn:E.
  - apply andb_true_iff in E as [E _].
    refine (lpv_ext_spec _ e pr B n D A zi x Af zf u None (lpv_backend_ext e pr D Hback E) HB HD _ Hz _ Logic.I).
    + now apply matv_b.
    + now apply drive_3.
  - refine (lpv_ssr_spec _ e pr B n D A zi x Af zf u uf None HB Hn HD Hu Hback _ Hz _ Logic.I).
    + now apply matv_b.
    + now apply drive_3.
Qed.

(** One Newton step on functions: y (row 0 is the state before sample i) to new_y. *)
Definition ndelta (i : nat) (yf : nat -> nat -> nat -> R) (b t d : nat) : R :=
  state D (fun t => J (yf b (1 + t)%nat) (xf b (i + 1 + t)%nat))
          (fun d => f (yf b 0%nat) (xf b i) d - yf b 1%nat d)
          (fun t d => f (yf b (1 + t)%nat) (xf b (i + 1 + t)%nat) d - yf b (2 + t)%nat d) (S t) d.
Definition nstep (i : nat) (yf : nat -> nat -> nat -> R) (b t d : nat) : R :=
  match t with
  | O => f (yf b 0%nat) (xf b i) d
  | S t' => yf b (S (S t')) d + ndelta i yf b t' d
  end.

(** The views produced by one pass through the loop body. *)
Lemma newton_body (x y : ten) yf i :
  is3 x B L N xf -> (i + 1 < L)%nat -> is3 y B (L + 1 - i) D yf ->
  unroll_good (L - i - 1) (Some uf) ->
  exists next_y res Jac r0_ delta yd new_y,
    func (slice 1 None (Some (-1)%Z) y) (slice 1 (Some (Z.of_nat i)) None x) = Ok next_y /\
    tsub next_y (slice 1 (Some 1%Z) None y) = Ok res /\
    fprime (slice 1 (Some 1%Z) (Some (-1)%Z) y) (slice 1 (Some (Z.of_nat i + 1)%Z) None x) = Ok Jac /\
    select 1 0 res = Ok r0_ /\
    recur_runner e pr D uf Jac r0_ (slice 1 (Some 1%Z) None res) = Ok delta /\
    tadd (slice 1 (Some 2%Z) None y) delta = Ok yd /\
    cat 1 [slice 1 None (Some 1%Z) next_y; yd] = Ok new_y /\
    is3 (slice 1 None (Some 1%Z) next_y) B 1 D (fun b _ d => f (yf b 0%nat) (xf b i) d) /\
    is3 new_y B (L + 1 - S i) D (nstep i yf) /\
    exists sq, tmul res res = Ok sq.
Proof.
  intros Hx Hi Hy Hu.
  pose proof (slice3 y B _ D yf None (Some (-1)%Z) 0 (L - i) Hy eq_refl ltac:(rewrite pyb_m1; lia)) as Hy1.
  pose proof (slice3 x B _ N xf (Some (Z.of_nat i)) None i (L - i) Hx ltac:(rewrite pyb_le; lia) ltac:(rewrite pyb_none; lia)) as Hx1.
  destruct (Hfunc (L - i) _ _ _ _ ltac:(lia) Hy1 Hx1) as (next_y & E1 & Hn).
  pose proof (slice3 y B _ D yf (Some 1%Z) None 1 (L - i) Hy ltac:(rewrite pyb_1; lia) ltac:(rewrite pyb_none; lia)) as Hy2.
  assert (exists res, tsub next_y (slice 1 (Some 1%Z) None y) = Ok res /\
    is3 res B (L - i) D (fun b t d => f (yf b t) (xf b (i + t)%nat) d - yf b (1 + t)%nat d)) as (res & E2 & Hres).
  { apply is3_P2 in Hn. apply is3_P2 in Hy2. destruct (P2_ew_same rsub _ _ _ _ _ _ _ Hn Hy2) as (z & E & Hz).
    exists z. split; [exact E|]. apply is3_P2. exact Hz. }
  pose proof (slice3 y B _ D yf (Some 1%Z) (Some (-1)%Z) 1 (L - i - 1) Hy ltac:(rewrite pyb_1; lia) ltac:(rewrite pyb_m1; lia)) as Hy3.
  assert (Hx3 : is3 (slice 1 (Some (Z.of_nat i + 1)%Z) None x) B (L - i - 1) N (fun b t => xf b (i + 1 + t)%nat)).
  { replace (Z.of_nat i + 1)%Z with (Z.of_nat (i + 1)) by lia.
    apply (slice3 x B _ N xf _ None (i + 1)%nat _ Hx); [rewrite pyb_le; lia|rewrite pyb_none; lia]. }
  destruct (Hprime (L - i - 1) _ _ _ _ ltac:(lia) Hy3 Hx3) as (Jac & E3 & HJ).
  assert (exists r0_, select 1 0 res = Ok r0_ /\ is2 r0_ B D (fun b d => f (yf b 0%nat) (xf b i) d - yf b 1%nat d)) as (r0_ & E4 & Hr0).
  { exists (sel 1 0 res). split.
    - apply select_ok. unfold size. rewrite (proj1 Hres). cbn [nth]. change 0%Z with (Z.of_nat 0). apply pyidx_nat. lia.
    - apply is3_P2 in Hres. apply is2_P1.
      refine (isP1_ext _ _ _ _ _ (P2_sel0 _ _ _ _ _ 1%nat 0%nat Hres _ _) _); [reflexivity|lia|].
      intros q d Hq Hd. cbn beta. now rewrite Nat.add_0_r. }
  pose proof (slice3 res B _ D _ (Some 1%Z) None 1 (L - i - 1) Hres ltac:(rewrite pyb_1; lia) ltac:(rewrite pyb_none; lia)) as Hr1.
  destruct (recur_runner_spec (L - i - 1) Jac r0_ _ _ _ _ ltac:(lia) Hu HJ Hr0 Hr1) as (delta & E5 & Hdelta).
  assert (Hy4 : is3 (slice 1 (Some 2%Z) None y) B (L - i - 1) D (fun b t => yf b (2 + t)%nat)).
  { change 2%Z with (Z.of_nat 2). apply (slice3 y B _ D yf _ None 2 _ Hy); [rewrite pyb_le; lia|rewrite pyb_none; lia]. }
  assert (exists yd, tadd (slice 1 (Some 2%Z) None y) delta = Ok yd /\
     is3 yd B (L - i - 1) D (fun b t d => yf b (2 + t)%nat d + ndelta i yf b t d)) as (yd & E6 & Hyd).
  { apply is3_P2 in Hy4. apply is3_P2 in Hdelta. destruct (P2_ew_same radd _ _ _ _ _ _ _ Hy4 Hdelta) as (z & E & Hz).
    exists z. split; [exact E|]. apply is3_P2. eapply isP2_ext; [exact Hz|]. intros q t d Hq Ht Hd. cbn beta.
    unfold ndelta. f_equal. apply state_ext; [reflexivity|reflexivity| |exact Hd].
    intros k a Hk Ha. do 2 f_equal. f_equal. lia. }
  pose proof (slice3 next_y B _ D _ None (Some 1%Z) 0 1 Hn eq_refl ltac:(rewrite pyb_1; lia)) as Hn1.
  assert (Hn1' : is3 (slice 1 None (Some 1%Z) next_y) B 1 D (fun b _ d => f (yf b 0%nat) (xf b i) d)).
  { eapply is3_ext; [exact Hn1|]. intros b t d Hb Ht Hd. assert (t = 0%nat) as -> by lia. cbn. now rewrite Nat.add_0_r. }
  assert (exists new_y, cat 1 [slice 1 None (Some 1%Z) next_y; yd] = Ok new_y /\ is3 new_y B (L + 1 - S i) D (nstep i yf)) as (new_y & E7 & Hny).
  { apply is3_P2 in Hn1'. apply is3_P2 in Hyd.
    destruct (P2_cat0 _ _ _ _ _ _ _ _ 1%nat Hn1' Hyd eq_refl) as (z & E & Hz). exists z. split; [exact E|].
    apply is3_P2. eapply isP2_ext'; [exact Hz|lia|reflexivity|]. intros q t d Hq Ht Hd. cbn beta. destruct t as [|t]; [reflexivity|].
    cbn [Nat.ltb Nat.leb nstep]. replace (S t - 1)%nat with t by lia. reflexivity. }
  assert (exists sq, tmul res res = Ok sq) as Hsq.
  { apply is3_P2 in Hres. destruct (P2_ew_same rmul _ _ _ _ _ _ _ Hres Hres) as (z & E & _). now exists z. }
  exists next_y, res, Jac, r0_, delta, yd, new_y. repeat (split; [assumption|]). assumption.
Qed.

Variable y0f : nat -> nat -> nat -> R.
(** The iterates; row 0 of iterate i is the state before sample i. *)
Fixpoint niter (i : nat) : nat -> nat -> nat -> R :=
  match i with
  | O => fun b t => match t with O => initf b | S t' => y0f b t' end
  | S i' => nstep i' (niter i')
  end.
Lemma niter_0 i b d : (d < D)%nat -> niter i b 0%nat d = prev b i d.
Proof.
  revert d. induction i as [|i IH]; intros d Hd; [reflexivity|].
  cbn [niter nstep prev]. rewrite nsol_prev. apply Hext; [|exact Hd]. exact IH.
Qed.

Lemma newton_loop_spec (x : ten) cnt : is3 x B L N xf -> (forall n, (1 <= n <= L)%nat -> unroll_good n (Some uf)) ->
  forall i (y : ten) computed inter last,
  (i + cnt < L)%nat -> is3 y B (L + 1 - i) D (niter i) ->
  length computed = i -> (forall dflt j, (j < i)%nat -> is3 (nth j computed dflt) B 1 D (fun b _ d => nsol b j d)) ->
  (forall dflt j, (j < length inter)%nat -> is3 (fst (nth j inter dflt)) B (j + 2) D (fun b t d => nsol b (Nat.min t j) d)) ->
  length inter = i ->
  (cnt = 0%nat -> last = Ok (y, i)) ->
  exists c ny k inter', newton_loop e pr func fprime allclose D uf x cnt i y computed inter last = Ok (c, ny, k, inter') /\
    (i <= k <= i + cnt)%nat /\ (1 <= cnt -> S i <= k)%nat /\ length c = k /\
    (forall dflt j, (j < k)%nat -> is3 (nth j c dflt) B 1 D (fun b _ d => nsol b j d)) /\
    is3 ny B (L + 1 - k) D (niter k) /\
    (forall dflt j, (j < length inter')%nat -> is3 (fst (nth j inter' dflt)) B (j + 2) D (fun b t d => nsol b (Nat.min t j) d)) /\
    ((length inter' = k /\ k = (i + cnt)%nat) \/
     (length inter' = (k - 1)%nat /\ exists j t u, k = S j /\ allclose t u = true /\
        is3 t B (L - j) D (niter k) /\ is3 u B (L - j) D (fun b t => niter j b (S t)))).
Proof.
  intros Hx Hu. induction cnt as [|cnt IH]; intros i y computed inter last Hi Hy Hl Hc Hin Hinl Hlast.
  - cbn [newton_loop]. rewrite Hlast by reflexivity. cbn [bind]. exists computed, y, i, inter.
    split; [reflexivity|]. split; [lia|]. split; [lia|]. do 4 (split; [assumption|]). left. lia.
  - cbn [newton_loop].
    destruct (newton_body x y (niter i) i Hx ltac:(lia) Hy ltac:(apply Hu; lia))
      as (next_y & res & Jac & r0_ & delta & yd & new_y & E1 & E2 & E3 & E4 & E5 & E6 & E7 & Hn1 & Hny & sq & Esq).
    rewrite E1. cbn [bind]. rewrite E2. cbn [bind]. rewrite E3. cbn [bind]. rewrite E4. cbn [bind]. rewrite E5. cbn [bind].
    rewrite E6. cbn [bind]. rewrite E7. cbn [bind].
    assert (Hc' : forall dflt j, (j < S i)%nat -> is3 (nth j (computed ++ [slice 1 None (Some 1%Z) next_y]) dflt) B 1 D (fun b _ d => nsol b j d)).
    { intros dflt j Hj. destruct (Nat.eq_dec j i) as [->|Hn].
      - rewrite app_nth2 by lia. rewrite Hl, Nat.sub_diag. cbn [nth]. eapply is3_ext; [exact Hn1|].
        intros b t d Hb Ht Hd. rewrite nsol_prev. apply Hext; [|exact Hd]. intros a Ha. now apply niter_0.
      - rewrite app_nth1 by lia. apply Hc. lia. }
    assert (Hl' : length (computed ++ [slice 1 None (Some 1%Z) next_y]) = S i) by (rewrite app_length; cbn; lia).
    destruct (allclose new_y (slice 1 (Some 1%Z) None y)) eqn:Ea.
    + eexists _, _, (S i), inter. split; [reflexivity|]. split; [lia|]. split; [lia|].
      split; [exact Hl'|]. split; [exact Hc'|]. split; [exact Hny|]. split; [exact Hin|]. right. split; [lia|].
      exists i, new_y, (slice 1 (Some 1%Z) None y). split; [reflexivity|]. split; [exact Ea|]. split.
      * replace (L - i)%nat with (L + 1 - S i)%nat by lia. exact Hny.
      * apply (slice3 y B _ D _ (Some 1%Z) None 1 _ Hy); [rewrite pyb_1; lia|rewrite pyb_none; lia].
    + destruct (cat_snoc (computed ++ [slice 1 None (Some 1%Z) next_y]) (slice 1 None (Some 1%Z) new_y) B 1 D
                 (fun j b d => nsol b j d) (fun b _ d => niter (S i) b 0%nat d)) as (c & Ec & Hcv).
      { rewrite Hl'. exact Hc'. }
      { eapply is3_ext; [apply (slice3 new_y B _ D _ None (Some 1%Z) 0 1 Hny eq_refl); rewrite pyb_1; lia|].
        intros b t d Hb Ht Hd. assert (t = 0%nat) as -> by lia. reflexivity. }
      rewrite Ec. cbn [bind]. rewrite Esq. cbn [bind].
      edestruct (IH (S i) new_y (computed ++ [slice 1 None (Some 1%Z) next_y]) (inter ++ [(c, tsum 1 (tsum 2 sq))]) (Ok (new_y, S i)))
        as (c' & ny & k & inter' & E & Hk & _ & Hlc & Hcc & Hnyk & Hint & Hend); [lia|exact Hny|exact Hl'|exact Hc'| | |reflexivity|].
      * intros dflt j Hj. rewrite app_length in Hj. cbn [length] in Hj. destruct (Nat.eq_dec j i) as [->|Hn].
        -- rewrite app_nth2 by lia. rewrite Hinl, Nat.sub_diag. cbn [nth fst]. rewrite Hl' in Hcv.
           replace (S i + 1)%nat with (i + 2)%nat in Hcv by lia. eapply is3_ext; [exact Hcv|].
           intros b t d Hb Ht Hd. cbn beta. destruct (t <? S i)%nat eqn:Et.
           ++ apply Nat.ltb_lt in Et. now rewrite Nat.min_l by lia.
           ++ apply Nat.ltb_ge in Et. rewrite Nat.min_r by lia. now rewrite niter_0.
        -- rewrite app_nth1 by lia. apply Hin. lia.
      * rewrite app_length. cbn. lia.
      * exists c', ny, k, inter'. split; [exact E|]. split; [lia|]. split; [lia|]. do 4 (split; [assumption|]).
        destruct Hend as [[? ?]|Hend]; [left; lia|right; exact Hend].
Qed.

Theorem newton_solve_spec (x y0 init : ten) K :
  is3 x B L N xf -> is3 y0 B L D y0f -> is2 init B D initf -> (1 <= K < L)%nat ->
  (forall n, (1 <= n <= L)%nat -> unroll_good n (Some uf)) ->
  exists y k inter, newton_solve e pr func fprime allclose x y0 init K uf = Ok (y, k, inter) /\
    (1 <= k <= K)%nat /\
    is3 y B L D (fun b t d => if (t <? k)%nat then nsol b t d else niter k b (S (t - k)) d) /\
    (forall dflt j, (j < length inter)%nat -> is3 (fst (nth j inter dflt)) B (j + 2) D (fun b t d => nsol b (Nat.min t j) d)) /\
    ((length inter = k /\ k = K) \/
     (length inter = (k - 1)%nat /\ exists j t u, k = S j /\ allclose t u = true /\
        is3 t B (L - j) D (niter k) /\ is3 u B (L - j) D (fun b t => niter j b (S t)))).
Proof.
  intros Hx Hy0 Hin HK Hu. unfold newton_solve.
  assert (size x 1 = L) as -> by (unfold size; now rewrite (proj1 Hx)).
  assert (sizen init 1 = D) as -> by (unfold sizen, rk; now rewrite (proj1 Hin)).
  btrue (K <? L)%nat.
  assert (exists y, cat 1 [unsqueeze 1 init; y0] = Ok y /\ is3 y B (L + 1 - 0) D (niter 0)) as (y & Ey & Hy).
  { apply is2_P1 in Hin. assert (Hun : isP2 (unsqueeze 1 init) [B] 1 D (fun q _ d => initf (nth 0 q 0%nat) d)).
    { eapply P1_unsq0; [exact Hin|reflexivity]. }
    apply is3_P2 in Hy0. destruct (P2_cat0 _ _ _ _ _ _ _ _ 1%nat Hun Hy0 eq_refl) as (z & E & Hz).
    exists z. split; [exact E|]. apply is3_P2. eapply isP2_ext'; [exact Hz|lia|reflexivity|].
    intros q t d Hq Ht Hd. cbn beta. destruct t as [|t]; [reflexivity|]. cbn [Nat.ltb Nat.leb niter].
    replace (S t - 1)%nat with t by lia. reflexivity. }
  rewrite Ey. cbn [bind].
  destruct (newton_loop_spec x K Hx Hu 0 y [] [] (Err UnboundLocalError))
    as (c & ny & k & inter & E & Hk1 & Hk2 & Hlc & Hc & Hny & Hint & Hend);
    [lia|exact Hy|reflexivity|intros; lia|intros dflt j Hj; cbn in Hj; lia|reflexivity|lia|].
  rewrite E. cbn [bind].
  assert (Hny1 : is3 (slice 1 (Some 1%Z) None ny) B (L - k) D (fun b t => niter k b (1 + t)%nat)).
  { apply (slice3 ny B _ D _ (Some 1%Z) None 1 _ Hny); [rewrite pyb_1; lia|rewrite pyb_none; lia]. }
  destruct (cat_snoc c _ B (L - k) D (fun j b d => nsol b j d) _ ltac:(rewrite Hlc; exact Hc) Hny1) as (r & Er & Hr).
  rewrite Er. cbn [bind]. exists r, k, inter. split; [reflexivity|]. split; [lia|]. split.
  - rewrite Hlc in Hr. replace (k + (L - k))%nat with L in Hr by lia. exact Hr.
  - split; [exact Hint|]. exact Hend.
Qed.

(** ** Affine functions: one step solves exactly. *)
Lemma nstep_affine i (yf : nat -> nat -> nat -> R) b t d :
  (forall y x y' d, (d < D)%nat -> f y' x d = f y x d + bsum D (fun a => J y x d a * (y' a - y a))) ->
  (forall d, (d < D)%nat -> yf b 0%nat d = prev b i d) -> (d < D)%nat ->
  nstep i yf b t d = nsol b (i + t) d.
Proof.
  intros Haff H0. revert d. induction t as [|t IH]; intros d Hd.
  - cbn [nstep]. rewrite Nat.add_0_r, nsol_prev. now apply Hext.
  - replace (i + S t)%nat with (S (i + t)) by lia. cbn [nsol].
    rewrite <- (Hext (nstep i yf b t)) by (auto; intros; apply IH; assumption).
    cbn [nstep]. unfold ndelta. cbn [state]. unfold mvec.
    rewrite (Haff (yf b (S t)) _ (nstep i yf b t) d Hd).
    replace (i + 1 + t)%nat with (S (i + t)) by lia.
    rewrite (bsum_ext D (fun a => J (yf b (S t)) (xf b (S (i + t))) d a * (nstep i yf b t a - yf b (S t) a))
      (fun a => J (yf b (1 + t)%nat) (xf b (S (i + t))) d a *
        state D (fun t0 => J (yf b (1 + t0)%nat) (xf b (i + 1 + t0)%nat)) (fun d0 => f (yf b 0%nat) (xf b i) d0 - yf b 1%nat d0)
          (fun t0 d0 => f (yf b (1 + t0)%nat) (xf b (i + 1 + t0)%nat) d0 - yf b (2 + t0)%nat d0) t a)).
    + cbn [Nat.add]. ring.
    + intros a Ha. cbn [Nat.add]. f_equal. destruct t as [|t]; [reflexivity|].
      cbn [nstep]. unfold ndelta. cbn [Nat.add]. ring.
Qed.

(** ** A step that changes nothing has reached the solution. *)
Lemma nstep_fixed i (yf : nat -> nat -> nat -> R) b n :
  (forall d, (d < D)%nat -> yf b 0%nat d = prev b i d) ->
  (forall t d, (t < n)%nat -> (d < D)%nat -> nstep i yf b t d = yf b (S t) d) ->
  forall t d, (t < n)%nat -> (d < D)%nat -> yf b (S t) d = nsol b (i + t) d.
Proof.
  intros H0 Hfix.
  assert (Hd : forall t d, (t < n)%nat -> (d < D)%nat -> state D (fun t0 => J (yf b (1 + t0)%nat) (xf b (i + 1 + t0)%nat)) (fun d0 => f (yf b 0%nat) (xf b i) d0 - yf b 1%nat d0)
          (fun t0 d0 => f (yf b (1 + t0)%nat) (xf b (i + 1 + t0)%nat) d0 - yf b (2 + t0)%nat d0) t d = 0).
  { intros t d Ht Hd. pose proof (Hfix t d Ht Hd) as H. destruct t as [|t].
    - cbn [nstep] in H. cbn [state]. rewrite H. ring.
    - cbn [nstep] in H. unfold ndelta in H.
      match goal with |- ?s = 0 => transitivity ((yf b (S (S t)) d + s) - yf b (S (S t)) d); [ring|] end.
      rewrite H. ring. }
  intros t. induction t as [|t IH]; intros d Ht Hdd.
  - rewrite <- Hfix by assumption. cbn [nstep]. rewrite Nat.add_0_r, nsol_prev. now apply Hext.
  - replace (i + S t)%nat with (S (i + t)) by lia. cbn [nsol].
    rewrite <- (Hext (yf b (S t))) by (auto; intros; apply IH; lia || assumption).
    pose proof (Hd (S t) d Ht Hdd) as H. cbn [state] in H. unfold mvec in H.
    rewrite bsum_0 in H by (intros a Ha; rewrite Hd by lia; ring).
    replace (i + 1 + t)%nat with (S (i + t)) in H by lia. cbn [Nat.add] in H.
    transitivity (yf b (S (S t)) d + (0 + (f (yf b (S t)) (xf b (S (i + t))) d - yf b (S (S t)) d))); [rewrite H; ring|ring].
Qed.
End NewtonP.
Arguments nsol {R}. Arguments niter {R}.
