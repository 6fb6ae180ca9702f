(** The blocked recursion of lpv.state_space_recursion for any cumulative product: what it
    computes as a pure function of what matrices_cumdot returns. *)
From Coq Require Import List Arith Lia ZArith Bool Ring.
From Verif Require Import Scalar Tensor TensorLemmas TensorOps TensorAlg TensorTac TensorList
  Spec Shapes Algebra M_Mat P_Mat M_Kernels P_KernelOps P_Helion M_LtiSsm P_LtiRecur P_LtiSsm
  M_Ext M_LpvSsm P_LpvRecur P_LpvSsm.
Import ListNotations.

Section S.
Variable R : cring.
Add Ring Rr : (r_th R).
Notation ten := (tensor (car R)).
Open Scope cr_scope.
Notation mats := (nat -> nat -> nat -> R).

(** matrices_cumdot computes [G] on n matrices of size M. *)
Definition cumdot_is (n M : nat) (G : mats -> mats) : Prop := forall (A : ten) pre f,
  isP3 A pre n M M f ->
  exists y, matrices_cumdot A = Ok y /\ isP3 y pre n M M (fun q => G (f q)).

Section B.
Variables (M bs : nat) (G : mats -> mats).
(** The product used for the last i of the bs matrices of block c. *)
Definition bprod (A : mats) (c i : nat) : nat -> nat -> R :=
  match i with O => mid | S i' => G (fun t => A (c * bs + (bs - 1 - t))%nat) i' end.
Definition blast (A : mats) (c : nat) : nat -> nat -> R := mmul M (bprod A c (bs - 1)) (A (c * bs)%nat).
Definition bin (A : mats) (u : nat -> nat -> R) (c i : nat) : R :=
  bsum bs (fun j => mvec M (bprod A c (bs - 1 - j)) (u (c * bs + j)%nat) i).
(** Padded with zeros after N samples. *)
Definition uptoA (N : nat) (A : mats) : mats := fun n i j => if (n <? N)%nat then A n i j else 0.
Definition uptoX (N : nat) (u : nat -> nat -> R) : nat -> nat -> R := fun n i => if (n <? N)%nat then u n i else 0.
Fixpoint blk (fuel N : nat) (A : mats) (h : nat -> R) (u : nat -> nat -> R) (n m : nat) : R :=
  match fuel with
  | O => 0
  | S fuel' =>
      if ((bs =? 1) || (N <=? bs))%nat%bool then state M A h u (S n) m
      else
        let k := ((N + bs - 1) / bs)%nat in
        let A' := uptoA N A in
        let X := uptoX N u in
        let rest := blk fuel' k (blast A') h (bin A' X) in
        let c := (n / bs)%nat in
        if (n mod bs =? bs - 1)%nat then rest c m
        else state M (fun t => A' (c * bs + t)%nat) (match c with O => h | S c' => rest c' end)
               (fun t => X (c * bs + t)%nat) (S (n mod bs)) m
  end.
End B.

Lemma cumdot_is_ext n M G (f g : mats) k i j : cumdot_is n M G ->
  (forall k i j, (k < n)%nat -> (i < M)%nat -> (j < M)%nat -> f k i j = g k i j) ->
  (k < n)%nat -> (i < M)%nat -> (j < M)%nat -> G f k i j = G g k i j.
Proof.
  intros HG H Hk Hi Hj. set (A := mk3 n M M f).
  assert (HA : isP3 A [] n M M (fun _ => f)) by (apply is3_P; split; [reflexivity|intros; reflexivity]).
  assert (HB : isP3 A [] n M M (fun _ => g)) by (eapply isP3_ext; [exact HA|]; intros; apply H; assumption).
  destruct (HG A [] _ HA) as (y & E & Hy). destruct (HG A [] _ HB) as (y' & E' & Hy').
  rewrite E in E'. injection E' as <-. destruct Hy as [_ Hy], Hy' as [_ Hy'].
  rewrite <- (Hy [] k i j) by (auto; constructor). apply Hy'; auto. constructor.
Qed.

Lemma bprod_ext M bs G (A A' : mats) c i a b : (i = 0%nat \/ cumdot_is (bs - 1) M G) -> (i < bs)%nat ->
  (forall k a b, (k < bs)%nat -> (a < M)%nat -> (b < M)%nat -> A (c * bs + k)%nat a b = A' (c * bs + k)%nat a b) ->
  (a < M)%nat -> (b < M)%nat -> bprod bs G A c i a b = bprod bs G A' c i a b.
Proof.
  intros HG Hi H Ha Hb. destruct i as [|i]; [reflexivity|]. destruct HG as [?|HG]; [lia|]. cbn [bprod].
  apply (cumdot_is_ext (bs - 1) M G); auto; [|lia]. intros. apply H; auto. lia.
Qed.

Lemma state_ext' M (A A' : mats) h h' u u' n m :
  (forall k i j, (k < n)%nat -> (i < M)%nat -> (j < M)%nat -> A k i j = A' k i j) ->
  (forall i, (i < M)%nat -> h i = h' i) ->
  (forall k i, (k < n)%nat -> (i < M)%nat -> u k i = u' k i) -> (m < M)%nat ->
  state M A h u n m = state M A' h' u' n m.
Proof.
  intros HA Hh Hu. revert m. induction n as [|n IH]; intros m Hm; cbn [state]; [auto|].
  rewrite Hu by lia. f_equal. apply mvec_ext; [intros; apply HA; lia|]. intros. apply IH; auto.
Qed.

Lemma blk_ext M bs G fuel : (bs = 1%nat \/ (2 <= bs)%nat /\ cumdot_is (bs - 1) M G) -> forall N (A A' : mats) h h' u u' n m,
  (forall k i j, (k < N)%nat -> (i < M)%nat -> (j < M)%nat -> A k i j = A' k i j) ->
  (forall i, (i < M)%nat -> h i = h' i) ->
  (forall k i, (k < N)%nat -> (i < M)%nat -> u k i = u' k i) -> (n < N)%nat -> (m < M)%nat ->
  blk M bs G fuel N A h u n m = blk M bs G fuel N A' h' u' n m.
Proof.
  intro HG. induction fuel as [|fuel IH]; intros N A A' h h' u u' n m HA Hh Hu Hn Hm; [reflexivity|]. cbn [blk].
  destruct ((bs =? 1) || (N <=? bs))%bool%nat eqn:E.
  { apply state_ext'; auto; intros; [apply HA|apply Hu]; auto; lia. }
  b2p. destruct HG as [?|[Hb HG]]; [lia|].
  set (k := ((N + bs - 1) / bs)%nat).
  assert (Hk : (N <= k * bs)%nat).
  { unfold k. pose proof (Nat.div_mod (N + bs - 1) bs ltac:(lia)). pose proof (Nat.mod_upper_bound (N + bs - 1) bs ltac:(lia)). nia. }
  assert (HA' : forall k i j, (i < M)%nat -> (j < M)%nat -> uptoA N A k i j = uptoA N A' k i j).
  { intros t i j Hi Hj. unfold uptoA, uptoX. destruct (t <? N)%nat eqn:Et; b2p; auto. }
  assert (Hu' : forall k i, (i < M)%nat -> uptoX N u k i = uptoX N u' k i).
  { intros t i Hi. unfold uptoA, uptoX. destruct (t <? N)%nat eqn:Et; b2p; auto. }
  set (B := uptoA N A) in *. set (B' := uptoA N A') in *.
  set (X := uptoX N u) in *. set (X' := uptoX N u') in *.
  assert (HR : forall c m, (c < k)%nat -> (m < M)%nat ->
    blk M bs G fuel k (blast M bs G B) h (bin M bs G B X) c m = blk M bs G fuel k (blast M bs G B') h' (bin M bs G B' X') c m).
  { intros c m' Hc Hm'. apply IH; auto.
    - intros t i j Ht Hi Hj. unfold blast. apply mmul_ext; intros; [|auto].
      apply (bprod_ext M); auto; lia.
    - intros t i Ht Hi. unfold bin. apply bsum_ext. intros j Hj. apply mvec_ext; intros; [|auto].
      apply (bprod_ext M); auto; lia. }
  assert (Hc : (n / bs < k)%nat) by (apply Nat.div_lt_upper_bound; lia).
  destruct (n mod bs =? bs - 1)%nat; [now apply HR|].
  apply state_ext'; auto. intros i Hi. destruct (n / bs)%nat as [|c]; [auto|]. apply HR; auto. lia.
Qed.

Lemma lpv_blk_spec e pr G bs fuel : forall B N M (A zi x : ten) Af zf u oi,
  (N < fuel)%nat -> (1 <= B)%nat -> (1 <= N)%nat -> (1 <= M)%nat -> (1 <= bs)%nat ->
  (bs = 1%nat \/ cumdot_is (bs - 1) M G) ->
  (helion_backend_indicator e = true -> lpv_ext_avail e pr M) ->
  matv B N M A Af -> is2 zi B M zf -> drive B N M x u -> idx_ok M oi ->
  exists y, lpv_state_space_recursion_fuel e pr fuel A zi x bs oi = Ok y /\
    picks B N M oi y (fun b n m => blk M bs G fuel N (Af b) (zf b) (u b) n m).
Proof.
  induction fuel as [|fuel IH]; intros B N M A zi x Af zf u oi Hf HB HN HM Hbs Hcd He HA Hz Hx Hi; [lia|].
  cbn [lpv_state_space_recursion_fuel blk].
  assert (size x 0 = B) as -> by (destruct Hx as [f Hx _|Hx]; unfold size; now rewrite (proj1 Hx)).
  assert (size x 1 = N) as -> by (destruct Hx as [f Hx _|Hx]; unfold size; now rewrite (proj1 Hx)).
  assert (((rk x =? 2) || (rk x =? 3))%bool = true) as ->
    by (destruct Hx as [f Hx _|Hx]; rkt; reflexivity).
  assert (((rk A =? 3) || (rk A =? 4))%bool = true) as ->
    by (destruct HA as [g HA _|HA]; rkt; reflexivity).
  assert (sizen A 1 = M) as -> by (destruct HA as [g HA _|HA]; unfold sizen, rk; now rewrite (proj1 HA)).
  assert (sizen A 2 = M) as -> by (destruct HA as [g HA _|HA]; unfold sizen, rk; now rewrite (proj1 HA)).
  assert (sizen A 3 = N) as -> by (destruct HA as [g HA _|HA]; unfold sizen, rk; now rewrite (proj1 HA)).
  assert ((negb (rk A =? 4) || (B =? size A 0))%bool = true) as ->.
  { destruct HA as [g HA _|HA]; rkt; [reflexivity|]. unfold size. rewrite (proj1 HA). cbn [nth]. now rewrite !Nat.eqb_refl. }
  assert ((negb (rk x =? 3) || (M =? sizen x 1))%bool = true) as ->.
  { destruct Hx as [f Hx _|Hx]; rkt; [reflexivity|]. unfold sizen, rk. rewrite (proj1 Hx). cbn [length Nat.sub nth]. now rewrite !Nat.eqb_refl. }
  assert (size zi 0 = B) as -> by (unfold size; now rewrite (proj1 Hz)).
  assert (size zi 1 = M) as -> by (unfold size; now rewrite (proj1 Hz)).
  rewrite (i2_rk _ _ _ _ Hz), !Nat.eqb_refl. cbn [Nat.eqb]. bfalse (bs <? 1)%nat. cbn [negb]. cbv zeta.
  assert (Hloop : forall B N (A zi x : ten) Af zf u, (1 <= B)%nat -> (1 <= N)%nat ->
    matv B N M A Af -> is2 zi B M zf -> drive B N M x u ->
    exists y, (if helion_backend_indicator e then lpv_ext_ss_recur e pr A zi x oi
      else lpv_recursion_loop A zi x oi) = Ok y /\
    picks B N M oi y (fun b n m => state M (Af b) (zf b) (u b) (S n) m)).
  { intros. destruct (helion_backend_indicator e) eqn:Eh.
    - apply lpv_ext_spec; auto.
    - apply lpv_loop_spec; auto. }
  destruct ((bs =? 1) || (N <=? bs))%bool eqn:Eb; [now apply Hloop|].
  b2p. assert (Hcd' : cumdot_is (bs - 1) M G) by (destruct Hcd as [?|?]; [lia|assumption]).
  (* padding *)
  destruct (blocks N bs) as (k & Hk1 & Hk2 & Hk0 & HkN); [lia|lia|].
  assert (Ek : ((N + bs - 1) / bs = k)%nat).
  { pose proof (Nat.mod_upper_bound N bs ltac:(lia)). symmetry.
    destruct (Nat.eq_dec (N mod bs) 0) as [E0|E0]; [specialize (Hk1 E0)|specialize (Hk2 E0)].
    - apply (Nat.div_unique _ _ _ (bs - 1)); lia.
    - apply (Nat.div_unique _ _ _ (N mod bs - 1)); lia. }
  set (xp := if negb (N mod bs =? 0) then pad 1 0 (bs - N mod bs) r0 x else x).
  set (X := fun b n m => if n <? N then u b n m else 0).
  assert (exists (x3 : bool) (Xf : nat -> nat -> nat -> R) (ux : ten), rk xp = (if x3 then 3 else 2)%nat /\
     unflatten_m1 1 bs xp = Ok ux /\
     isP2 (flatten 2 (rk ux - 1) ux) [B] k (bs * nfeat x3 M) (fun q c j => Xf (nth 0 q 0%nat) (c * bs + j / nfeat x3 M)%nat (j mod nfeat x3 M)) /\
     drive (B * k) (bs - 1) M (flatten 0 1 (slice 2 None (Some (-1)%Z) ux)) (fun r n m => X (r / k)%nat ((r mod k) * bs + n)%nat m) /\
     (forall b n m, (b < B)%nat -> (n < k * bs)%nat -> (m < M)%nat -> X b n m = if m <? nfeat x3 M then Xf b n m else 0))
    as (x3 & Xf & ux & Hrk & Eux & Hux & Hdux & HX).
  { destruct Hx as [f Hx Hu|Hx].
    - exists false, (fun b n _ => if n <? N then f b n else 0).
      apply is2_P1 in Hx.
      assert (Hxp : isP1 xp [B] (k * bs) (fun q n => if n <? N then f (nth 0 q 0%nat) n else 0)).
      { unfold xp. destruct (N mod bs =? 0) eqn:Er; b2p; cbn [negb].
        - fin Hx; [lia|]. intros q n Hq Hn. bdec. reflexivity.
        - eassert (isP1 (pad 1 0 (bs - N mod bs) r0 x) _ _ _) as Hp by vsolve.
          fin Hp; [lia|]. intros q n Hq Hn. cbn [Nat.leb Nat.add andb]. now rewrite Nat.sub_0_r. }
      clearbody xp.
      rewrite (unflatten_m1_ok xp 1 bs k) by (try lia; unfold size; now rewrite (proj1 Hxp)).
      destruct (P1_unflat0 xp [B] (k * bs) _ 1 k bs Hxp ltac:(dimt) ltac:(lia)) as (w & Ew & Hw).
      exists w. split; [dimt|]. split; [exact Ew|]. cbv beta in Hw. clear Ew.
      assert (Hxx : forall b n m, (b < B)%nat -> (n < k * bs)%nat -> (m < M)%nat ->
         X b n m = if m <? 1 then (if n <? N then f b n else 0) else 0).
      { intros b n m Hb Hn Hm. unfold X. destruct (n <? N) eqn:E; b2p.
        * rewrite Hu by lia. destruct m; reflexivity.
        * destruct (m <? 1)%nat; reflexivity. }
      split; [|split].
      + pose proof (flat_same R w [B] k bs _ Hw) as H2. replace (rk w - 1)%nat with 2%nat by dimt.
        unfold nfeat. fin H2; [auto|lia|]. intros q c j Hq Hc Hj. now rewrite Nat.div_1_r.
      + nm (slice 2 None (Some (-1)%Z) w). apply (pop2 v [] B) in H1. nm (flatten 0 1 v).
        apply P2_nil in H2. apply drive_2 with (f := fun r n => if ((r mod k) * bs + n <? N)%nat then f (r / k)%nat ((r mod k) * bs + n)%nat else 0).
        * eapply is2_ext; [exact H2|]. intros r n Hr Hn. reflexivity.
        * intros r n m Hr Hn Hm. 
          assert (r / k < B)%nat by (apply Nat.div_lt_upper_bound; lia).
          pose proof (Nat.mod_upper_bound r k ltac:(lia)).
          rewrite Hxx by (auto; nia). destruct m; reflexivity.
      + exact Hxx.
    - exists true, X. apply is3_P2 in Hx.
      assert (Hxp : isP2 xp [B] (k * bs) M (fun q n => X (nth 0 q 0%nat) n)).
      { unfold xp. destruct (N mod bs =? 0) eqn:Er; b2p; cbn [negb].
        - fin Hx; [lia|auto|]. intros q n m Hq Hn Hm. unfold X. bdec. reflexivity.
        - eassert (isP2 (pad 1 0 (bs - N mod bs) r0 x) _ _ _ _) as Hp by vsolve.
          fin Hp; [lia|auto|]. intros q n m Hq Hn Hm. cbn [Nat.leb Nat.add andb]. now rewrite Nat.sub_0_r. }
      clearbody xp.
      rewrite (unflatten_m1_ok xp 1 bs k) by (try lia; unfold size; now rewrite (proj1 Hxp)).
      destruct (P2_unflat0 xp [B] (k * bs) M _ 1 k bs Hxp ltac:(dimt) ltac:(lia)) as (w & Ew & Hw).
      exists w. split; [dimt|]. split; [exact Ew|]. cbv beta in Hw. clear Ew.
      split; [|split].
      + replace (rk w - 1)%nat with 3%nat by dimt. nm (flatten 2 3 w).
        unfold nfeat. fin H1; auto.
      + nm (slice 2 None (Some (-1)%Z) w). apply (pop3 v [] B) in H1. nm (flatten 0 1 v).
        apply P3_nil in H2. apply drive_3.
        eapply is3_ext; [exact H2|]. intros r n m Hr Hn Hm. reflexivity.
      + intros b n m Hb Hn Hm. unfold nfeat. bdec. reflexivity. }
  rewrite Eux. cbn [bind]. clear Eux. clearbody xp. set (F := nfeat x3 M) in *.
  assert (HF : F = 1%nat \/ F = M) by (unfold F, nfeat; destruct x3; auto).
  (* A: shared or per batch *)
  assert (exists pa al, isP3 A pa N M M al /\ (pa = [] \/ pa = [B]) /\
    (forall b n i j, (b < B)%nat -> (n < N)%nat -> (i < M)%nat -> (j < M)%nat ->
       al (match pa with [] => [] | _ => [b] end) n i j = Af b n i j))
    as (pa & al & HAp & Hpa & Hal).
  { destruct HA as [g HA HAg|HA].
    - exists [], (fun _ => g). apply is3_P in HA. split; [exact HA|]. split; [auto|]. intros. now rewrite HAg.
    - exists [B], (fun q => Af (nth 0 q 0%nat)). apply is4_P3 in HA. split; [exact HA|]. split; [auto|]. reflexivity. }
  set (ap := if negb (N mod bs =? 0) then pad (rk A - 3) 0 (bs - N mod bs) r0 A else A).
  set (AL := fun q n i j => if n <? N then al q n i j else 0).
  assert (Hap : isP3 ap pa (k * bs) M M AL).
  { unfold ap, AL. destruct (N mod bs =? 0) eqn:Er; b2p; cbn [negb].
    - fin HAp; [lia|auto|auto|]. intros q n i j Hq Hn Hi0 Hj. bdec. reflexivity.
    - eassert (isP3 (pad (rk A - 3) 0 (bs - N mod bs) r0 A) _ _ _ _ _) as Hp by vsolve.
      fin Hp; [lia|auto|auto|]. intros q n i j Hq Hn Hi0 Hj. cbn [Nat.leb Nat.add andb]. now rewrite Nat.sub_0_r. }
  clearbody ap. set (AF := fun b n => AL (match pa with [] => [] | _ => [b] end) n).
  rewrite (unflatten_m1_ok ap (rk ap - 3) bs k).
  2: lia. 2: { unfold size, rk. rewrite (proj1 Hap). destruct Hpa as [->| ->]; reflexivity. }
  mstep. rename w into ua. rename H1 into Hua. 
  nm (slice (rk ua - 3) (Some 1%Z) None ua). nm (flip (rk v - 3) v).
  set (P := fun q c => bprod bs G (AL q) c).
  assert (exists cu, matrices_cumdot v0 = Ok cu /\ isP4 cu pa k (bs - 1) M M (fun q c i => P q c (S i)))
    as (cu & -> & Hcu).
  { apply push3 in H2. destruct (Hcd' v0 (pa ++ [k]) _ H2) as (cu & E & Hc). exists cu. split; [exact E|].
    apply pop3 in Hc. fin Hc; auto. intros q c i a b Hq Hc0 Hi0 Ha Hb. unfold P.
    pose proof (vld_len _ _ Hq) as Hlq.
    cbn [bprod]. apply (cumdot_is_ext (bs - 1) M G); auto. intros t a' b' Ht _ _.
    rewrite <- Hlq, firstn_app, Nat.sub_diag, firstn_all, firstn_O, app_nil_r, app_nth2, Nat.sub_diag by lia.
    cbn [nth]. do 2 f_equal. lia. }
  cbn [bind]. clear H1 H2 v v0.
  nm (flip (rk cu - 3) cu). rename v into ac.
  assert (Hac : isP4 ac pa k (bs - 1) M M (fun q c i => P q c (bs - 1 - i)%nat)).
  { fin H1; auto. intros q c i a b Hq Hc0 Hi0 Ha Hb. do 1 f_equal. lia. }
  clear H1 Hcu cu.
  rewrite (select_ok ac (rk ac - 3) 0%Z 0) by (unfold size, rk; rewrite (proj1 Hac); destruct Hpa as [->| ->]; cbn [app nth length Nat.add Nat.sub]; apply (pyidx_nat _ 0); lia).
  cbn [bind].
  rewrite (select_ok ua (rk ua - 3) 0%Z 0) by (unfold size, rk; rewrite (proj1 Hua); destruct Hpa as [->| ->]; cbn [app nth length Nat.add Nat.sub]; apply (pyidx_nat _ 0); lia).
  cbn [bind].
  nm (sel (rk ac - 3) 0 ac). nm (sel (rk ua - 3) 0 ua). mm. rename w into apd.
  assert (Hapd : isP3 apd pa k M M (fun q c => blast M bs G (AL q) c)).
  { fin H3; auto. intros q c a b Hq Hc0 Ha Hb. unfold blast, mmul. rewrite !bi_lt by assumption.
    rewrite Nat.sub_0_r, Nat.add_0_r. reflexivity. }
  clear H1 H2 H3 v v0.
  assert (HI : is2 (@eye R M) M M mid) by (apply is2_P; apply P2_eye; reflexivity).
  assert (firstn (rk ac - 3) (shape ac) ++ [1%nat; M; M] = ((pa ++ [k]) ++ [1%nat]) ++ [M; M]) as ->.
  { rewrite (proj1 Hac). replace (rk ac - 3)%nat with (length (pa ++ [k])) by (rewrite app_length; dimt).
    change (pa ++ [k; (bs - 1)%nat; M; M]) with (pa ++ [k] ++ [(bs - 1)%nat; M; M]).
    rewrite (app_assoc pa), firstn_app, Nat.sub_diag, firstn_all, firstn_O, app_nil_r, <- !app_assoc. reflexivity. }
  destruct (expand_pre2 (@eye R M) ((pa ++ [k]) ++ [1%nat]) M M mid HI) as (I & -> & HIe). cbn [bind].
  apply pop2, pop3 in HIe. cat2. rename w into aI.
  assert (HaI : isP4 aI pa k bs M M (fun q c i => P q c (bs - 1 - i)%nat)).
  { fin H1; auto; [lia|]. intros q c i a b Hq Hc Hi0 Ha Hb. 
    destruct (i <? bs - 1)%nat eqn:E; b2p; [reflexivity|].
    replace (bs - 1 - i)%nat with 0%nat by lia. reflexivity. }
  clear H1 HIe I Hac ac.
  (* mat1 *)
  assert (exists m1,
    (if rk xp =? 3 then Ok (flatten (rk (mT aI) - 3) (rk (mT aI) - 2) (mT aI))
      else select (rk aI - 1) 0 aI) = Ok m1 /\
    isP3 m1 pa k (bs * F) M (fun q c r i => P q c (bs - 1 - r / F)%nat i (r mod F))) as (m1 & -> & Hm1).
  { rewrite Hrk. unfold F, nfeat. destruct x3; cbn [Nat.eqb].
    - nm (mT aI). nm (flatten (rk v - 3) (rk v - 2) v).
      eexists; split; [reflexivity|]. fin H2; auto.
    - rewrite (select_ok aI _ 0%Z 0%nat) by (unfold size; rewrite (proj1 HaI), (nth_pre _ _ _ 3) by dimt; cbn [nth]; apply (pyidx_nat M 0); lia).
      eexists; split; [reflexivity|]. nm (sel (rk aI - 1) 0 aI). fin H1; auto; [lia|].
      intros q c r i Hq Hc Hr Hi0. destruct (dm_1 r) as [-> ->]. reflexivity. }
  cbn [bind].
  set (uxf := flatten 2 (rk ux - 1) ux) in *. clearbody uxf.
  nm (unsqueeze (rk uxf - 1) uxf). rename v into ux4.
  set (PF := fun b c => bprod bs G (AF b) c).
  set (Z := fun b => bin M bs G (AF b) (X b)).
  set (rs := fun b => blk M bs G fuel k (blast M bs G (AF b)) (zf b) (Z b)).
  set (ini' := fun b c => match c with O => zf b | S c' => rs b c' end).
  assert (exists z4, matmul ux4 m1 = Ok z4 /\ is4 z4 B k 1 M (fun b c _ i => Z b c i)) as (z4 & -> & Hz4).
  { assert (Hsum : forall b c i, (b < B)%nat -> (c < k)%nat -> (i < M)%nat ->
      bsum (bs * F) (fun l => Xf b (c * bs + l / F)%nat (l mod F) * PF b c (bs - 1 - l / F)%nat i (l mod F)) = Z b c i).
    { intros b c i Hb Hc Hi0. rewrite (bsum_flat_dm bs F (fun s m => Xf b (c * bs + s)%nat m * PF b c (bs - 1 - s)%nat i m)).
      unfold Z, bin. apply bsum_ext. intros j Hj. unfold mvec.
      rewrite (bsum_feat R M F (Xf b (c * bs + j)%nat) (X b (c * bs + j)%nat) HF HM).
      - apply bsum_ext. intros. unfold PF. ring.
      - intros m Hm. apply HX; auto. nia. }
    destruct Hpa as [->| ->]; mm; (eexists; split; [reflexivity|]); apply is4_P3; 
      match goal with H : isP3 _ [B] k 1 M _ |- _ => fin H end; auto;
      intros q c o i Hq Hc Ho Hi0; apply vld_1_inv in Hq as (b & -> & Hb); cbn [nth] in *;
      rewrite <- Hsum by assumption; apply bsum_ext; intros l Hl; rewrite !bi_lt by assumption; reflexivity. }
  cbn [bind].
  assert (Hzz : is3 (squeeze (rk z4 - 2) z4) B k M Z).
  { rewrite squeeze_sel by (rkt; unfold size; now rewrite (proj1 Hz4)).
    apply is4_P3 in Hz4. nm (sel (rk z4 - 2) 0 z4). apply is3_P2. exact H2. }
  set (z := squeeze (rk z4 - 2) z4) in *. clearbody z. clear Hz4 z4.
  destruct (IH B k M apd zi z (fun b => blast M bs G (AF b)) zf Z None)
    as (rest & -> & Hrest); try lia; auto.
  { destruct Hpa as [->| ->].
    - apply matv_s with (g := blast M bs G (AL [])); [|reflexivity].
      apply is3_P. fin Hapd; auto. intros q c i j Hq Hc Hi0 Hj. now apply vld_nil_inv in Hq as ->.
    - apply matv_b. apply is4_P3. fin Hapd; auto. intros q c i j Hq Hc Hi0 Hj. apply vld_1_inv in Hq as (b & -> & Hb).
      reflexivity. }
  { now apply drive_3. }
  { exact Logic.I. }
  cbn [bind]. cbn [picks] in Hrest. pose proof Hz as Hz1. apply is2_P1 in Hz1. apply is3_P2 in Hrest.
  nm (unsqueeze 1 zi). cat2. rename w into ini.
  assert (Hini : isP2 ini [B] (S k) M (fun q c i => ini' (nth 0 q 0%nat) c i)).
  { match goal with H : isP2 ini _ _ _ _ |- _ => fin H end; auto.
    intros q c i Hq Hc Hi0. apply vld_1_inv in Hq as (b & -> & Hb). cbn [nth].
    destruct (c <? 1)%nat eqn:E; b2p.
    - replace c with 0%nat by lia. reflexivity.
    - destruct c as [|c]; [lia|]. cbn [ini' Nat.sub]. rewrite Nat.sub_0_r. reflexivity. }
  match goal with H : isP2 ini _ _ _ (fun q i j => if _ then _ else _) |- _ => clear H end.
  clear Hz1 Hrest Hzz z rest.
  nm (slice 1 None (Some (-1)%Z) ini). rename v0 into in0.
  assert (Hin0 : is2 (flatten 0 1 in0) (B * k) M (fun r i => ini' (r / k)%nat (r mod k)%nat i)).
  { match goal with H : isP2 in0 _ _ _ _ |- _ => apply (pop2 in0 [] B) in H end. nm (flatten 0 1 in0).
    match goal with H : isP2 v0 _ _ _ _ |- _ => apply P2_nil in H; eapply is2_ext; [exact H|] end. intros; reflexivity. }
  set (inf := flatten 0 1 in0) in *. clearbody inf.
  set (uxs := flatten 0 1 (slice 2 None (Some (-1)%Z) ux)) in *. clearbody uxs.
  assert (HuA : matv (B * k) (bs - 1) M
    (if rk ua =? 5 then flatten 0 1 (slice 2 None (Some (-1)%Z) ua)
       else repeat0 B (slice 1 None (Some (-1)%Z) ua)) (fun r n => AF (r / k)%nat ((r mod k) * bs + n)%nat)).
  { apply matv_b. destruct Hpa as [->| ->]; rkt; cbn [length Nat.add Nat.eqb].
    - nm (slice 1 None (Some (-1)%Z) ua). 
      match goal with H : isP4 v0 _ _ _ _ _ _ |- _ => apply P4_nil in H; pose proof (P3_repeat0 _ _ B _ _ _ _ _ H) as Hq end.
      destruct Hq as [Hs Hq]. split; [exact Hs|]. intros r n i j Hr Hn Hi0 Hj.
      rewrite Hq by assumption. reflexivity.
    - nm (slice 2 None (Some (-1)%Z) ua).
      match goal with H : isP4 v0 _ _ _ _ _ _ |- _ => apply (pop4 v0 [] B) in H end. nm (flatten 0 1 v0).
      match goal with H : isP4 v1 _ _ _ _ _ _ |- _ => apply P4_nil in H; eapply is4_ext; [exact H|] end. intros; reflexivity. }
  match goal with |- context [repeat0 B (slice 1 None (Some (-1)%Z) ua)] =>
    set (uas := if rk ua =? 5 then _ else _) in * end. clearbody uas.
  destruct (Hloop (B * k)%nat (bs - 1)%nat uas inf uxs _ _ _ ltac:(nia) ltac:(lia) HuA Hin0 Hdux) as (o0 & -> & Ho0).
  cbn [bind].
  set (L := fun b n m => if (n mod bs =? bs - 1)%nat then rs b (n / bs)%nat m
    else state M (fun t => AF b (n / bs * bs + t)%nat) (ini' b (n / bs)%nat) (fun t => X b (n / bs * bs + t)%nat) (S (n mod bs)) m).
  assert (HL0 : forall b c n m, (b < B)%nat -> (c < k)%nat -> (n < bs - 1)%nat -> (m < M)%nat ->
    state M (fun n => AF ((b * k + c) / k)%nat (((b * k + c) mod k) * bs + n)%nat)
      (fun i => ini' ((b * k + c) / k)%nat ((b * k + c) mod k)%nat i)
      (fun n m => X ((b * k + c) / k)%nat (((b * k + c) mod k) * bs + n)%nat m) (S n) m = L b (c * bs + n)%nat m).
  { intros b c n m Hb Hc Hn Hm.
    assert ((b * k + c) / k = b)%nat as -> by (rewrite Nat.div_add_l by lia; rewrite Nat.div_small by lia; lia).
    assert ((b * k + c) mod k = c)%nat as -> by (rewrite Nat.add_comm, Nat.mod_add by lia; apply Nat.mod_small; lia).
    unfold L. assert ((c * bs + n) / bs = c)%nat as -> by (rewrite Nat.div_add_l by lia; rewrite Nat.div_small by lia; lia).
    assert ((c * bs + n) mod bs = n)%nat as -> by (rewrite Nat.add_comm, Nat.mod_add by lia; apply Nat.mod_small; lia).
    bfalse (n =? bs - 1)%nat. reflexivity. }
  assert (HL1 : forall b c m, (c < k)%nat -> L b (c * bs + (bs - 1))%nat m = rs b c m).
  { intros b c m Hc. unfold L.
    assert ((c * bs + (bs - 1)) / bs = c)%nat as -> by (rewrite Nat.div_add_l by lia; rewrite Nat.div_small by lia; lia).
    assert ((c * bs + (bs - 1)) mod bs = bs - 1)%nat as -> by (rewrite Nat.add_comm, Nat.mod_add by lia; apply Nat.mod_small; lia).
    now rewrite Nat.eqb_refl. }
  nm (slice 1 (Some 1%Z) None ini). rename v0 into ini1.
  assert (Hini1 : isP2 ini1 [B] k M (fun q c i => L (nth 0 q 0%nat) (c * bs + (bs - 1))%nat i)).
  { match goal with H : isP2 ini1 _ _ _ _ |- _ => fin H end; [lia|auto|]. intros q c i Hq Hc Hi0. rewrite HL1 by lia. reflexivity. }
  assert (exists out, (let* output := unflatten_1m 0 B o0 in
     match oi with
      | None => let* c := cat 2 [output; unsqueeze 2 ini1] in Ok (flatten 1 2 c)
      | Some i => let* s := select 2 i ini1 in let* c := cat 2 [output; unsqueeze 2 s] in Ok (flatten 1 2 c)
      end)%res = Ok out /\ picks B (k * bs) M oi out (fun b n m => L b n m)) as (out & Eout & Hout).
  { clear - Ho0 HL0 Hini1 Hi Hbs H Hk0 HB.
    unfold picks in *. destruct oi as [i|].
    - destruct Hi as (c & Hc). pose proof (pyidx_lt _ _ _ Hc) as Hcl. specialize (Ho0 c Hc).
      rewrite (unflatten_1m_ok o0 0 B k) by (try lia; unfold size; now rewrite (proj1 Ho0)).
      apply is2_P in Ho0. unflat2.
      assert (Hw : isP2 w [B] k (bs - 1) (fun q c0 n => L (nth 0 q 0%nat) (c0 * bs + n)%nat c)).
      { match goal with H : isP3 w _ _ _ _ _ |- _ => apply P3_nil in H; apply P2_cons; eapply is3_ext; [exact H|] end.
        intros b c0 n Hb Hc0 Hn. cbv beta. now apply HL0. }
      rewrite (select_ok ini1 2 i c) by (unfold size; rewrite (proj1 Hini1); exact Hc). cbn [bind].
      nm (sel 2 c ini1). nm (unsqueeze 2 v). cat2. nm (flatten 1 2 w0).
      eexists; split; [reflexivity|]. intros c' Hc'. rewrite Hc in Hc'. injection Hc' as <-.
      apply is2_P1. match goal with H : isP1 v1 _ _ _ |- _ => fin H end; [nia|]. intros q n Hq Hn.
      replace (bs - 1 + 1)%nat with bs by lia. 
      pose proof (Nat.div_mod n bs ltac:(lia)) as Edm. pose proof (Nat.mod_upper_bound n bs ltac:(lia)).
      destruct (n mod bs <? bs - 1)%nat eqn:E; b2p; f_equal; nia.
    - rewrite (unflatten_1m_ok o0 0 B k) by (try lia; unfold size; now rewrite (proj1 Ho0)).
      apply is3_P in Ho0. unflat2.
      assert (Hw : isP3 w [B] k (bs - 1) M (fun q c0 n m => L (nth 0 q 0%nat) (c0 * bs + n)%nat m)).
      { match goal with H : isP4 w _ _ _ _ _ _ |- _ => apply P4_nil in H; apply P3_cons; eapply is4_ext; [exact H|] end.
        intros b c0 n m Hb Hc0 Hn Hm. cbv beta. now apply HL0. }
      nm (unsqueeze 2 ini1). cat2. nm (flatten 1 2 w0).
      eexists; split; [reflexivity|]. 
      apply is3_P2. match goal with H : isP2 v0 _ _ _ _ |- _ => fin H end; auto; [nia|]. intros q n m Hq Hn Hm.
      replace (bs - 1 + 1)%nat with bs by lia. 
      pose proof (Nat.div_mod n bs ltac:(lia)) as Edm. pose proof (Nat.mod_upper_bound n bs ltac:(lia)).
      destruct (n mod bs <? bs - 1)%nat eqn:E; b2p; f_equal; nia. }
  destruct (unflatten_1m 0 B o0) as [o1|er]; cbn [bind] in Eout |- *; [|discriminate].
  rewrite Eout. cbn [bind].
  assert (HL : forall b n m, (b < B)%nat -> (n < N)%nat -> (m < M)%nat ->
     L b n m = blk M bs G (S fuel) N (Af b) (zf b) (u b) n m).
  { intros b n m Hb Hn Hm.
    transitivity (blk M bs G (S fuel) N (fun n => al (match pa with [] => [] | _ => [b] end) n) (zf b) (u b) n m).
    - cbn [blk]. assert (((bs =? 1) || (N <=? bs))%bool = false) as -> by (apply orb_false_intro; [apply Nat.eqb_neq|apply Nat.leb_gt]; lia).
      rewrite Ek. reflexivity.
    - apply blk_ext; auto. right. split; [lia|assumption]. }
  cbn [blk] in HL. assert (Eb' : ((bs =? 1) || (N <=? bs))%bool = false) by (apply orb_false_intro; [apply Nat.eqb_neq|apply Nat.leb_gt]; lia).
  rewrite Eb' in HL.
  clear - Hout HL Hk1 Hk2 Hk0 HkN Hi Hbs H H0 HN.
  destruct (N mod bs =? 0)%nat eqn:Er; b2p; cbn [negb].
  - rewrite (Hk1 Er) in Hout. eexists; split; [reflexivity|]. unfold picks in *. destruct oi as [i|].
    + intros c Hc. eapply is2_ext; [exact (Hout c Hc)|]. intros b n Hb Hn. apply HL; auto. now apply pyidx_lt in Hc.
    + eapply is3_ext; [exact Hout|]. intros b n m Hb Hn Hm. now apply HL.
  - eexists; split; [reflexivity|]. specialize (Hk2 Er). pose proof (Nat.mod_upper_bound N bs ltac:(lia)).
    unfold picks in *. destruct oi as [i|].
    + intros c Hc. specialize (Hout c Hc). apply is2_P1 in Hout.
      nm (slice 1 None (Some (- Z.of_nat (bs - N mod bs))%Z) out). apply is2_P1.
      match goal with H : isP1 v _ _ _ |- _ => fin H end; [rewrite ?pyb_neg by lia; lia|].
      intros q n Hq Hn. apply vld_1_inv in Hq as (b & -> & Hb). cbn [nth]. apply HL; auto. now apply pyidx_lt in Hc.
    + apply is3_P2 in Hout. nm (slice 1 None (Some (- Z.of_nat (bs - N mod bs))%Z) out).
      apply is3_P2. match goal with H : isP2 v _ _ _ _ |- _ => fin H end; [rewrite ?pyb_neg by lia; lia|auto|].
      intros q n m Hq Hn Hm. apply vld_1_inv in Hq as (b & -> & Hb). cbn [nth]. now apply HL.
Qed.


End S.
