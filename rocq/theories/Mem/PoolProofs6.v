From stdpp Require Import base list numbers list_numbers option decidable sorting.
From Coq Require Import ZArith Lia.
From Verif Require Import Mem.MonoModel Mem.MonoProofs Mem.PoolModel Mem.PoolSpec Mem.PoolProofs Mem.PoolProofs2 Mem.PoolProofs3 Mem.PoolProofs4 Mem.PoolProofs5.
Local Open Scope Z_scope.

Section pool.
Context (A : Z) (HA : A = 4 \/ A = 8).
Notation W := (W A). Notation wrap := (wrap A). Notation CH := (CH A). Notation OH := (OH A). Notation PMAX := (PTRDIFF_MAX A).
Notation pool_ok := (pool_ok A). Notation chunk_ok := (chunk_ok A). Notation words := (words A). Notation blk := (blk A). Notation blks := (blks A). Notation csz := (csz A).
Notation frame := (frame A). Notation PI := (PI A). Notation blocks := (blocks A). Notation oblk := (oblk A). Notation live_ok := (live_ok A).

(** every event of [l] is acceptable, after the history [pre] *)
Fixpoint okall (pre l : list pev) : Prop := match l with [] => True | e :: l => evok A pre e /\ okall (pre ++ [e]) l end.
Lemma okall_app pre l1 l2 : okall pre (l1 ++ l2) <-> okall pre l1 /\ okall (pre ++ l1) l2.
Proof.
  revert pre. induction l1 as [|e l1 IH]; intros pre; cbn; [rewrite app_nil_r; tauto|]. rewrite IH. rewrite <- app_assoc. cbn. tauto.
Qed.
Lemma okall_split l t1 e t2 : okall [] l -> l = t1 ++ e :: t2 -> evok A t1 e.
Proof. intros H ->. apply okall_app in H as [_ [H _]]. exact H. Qed.
Lemma PI_ext tr tr' s : PI tr s -> live tr' = live tr -> outst tr' = outst tr -> nups tr' = nups tr -> PI tr' s.
Proof. intros [] E1 E2 E3. constructor; rewrite ?E1, ?E2, ?E3; done. Qed.

Lemma sorted_insert l1 l2 L : StronglySorted Z.lt (l1 ++ l2) -> (forall x, x ∈ l1 -> x < L) -> (forall x, x ∈ l2 -> L < x) -> StronglySorted Z.lt (l1 ++ L :: l2).
Proof.
  induction l1 as [|y l1 IH]; cbn; intros Hs H1 H2.
  - constructor; [done|]. by apply Forall_forall.
  - inversion Hs as [|? ? Hs' Hall]; subst. constructor; [apply IH; [done|intros x Hx; apply H1; by right|done]|].
    rewrite Forall_forall in Hall |- *. intros x [Hx|[-> | Hx]%elem_of_cons]%elem_of_app; [apply Hall, elem_of_app; by left|apply H1; by left|apply Hall, elem_of_app; by right].
Qed.
Lemma add_pool tr s pre rest L : PI tr s -> pools s = pre ++ rest -> (forall P, P ∈ pre -> p_log P < L) -> (forall P, P ∈ rest -> L < p_log P) -> lok A L ->
  PI tr (Pst (maxb s) (largest s) (pre ++ Pool L None [] 4 None :: rest) (over s) (own s)).
Proof.
  intros HI E H1 H2 HL. assert (HPo : forall Q, Q ∈ pre ++ Pool L None [] 4 None :: rest -> Q = Pool L None [] 4 None \/ Q ∈ pools s).
  { intros Q [HQ|[-> | HQ]%elem_of_cons]%elem_of_app; [right|by left|right]; rewrite E, elem_of_app; tauto. }
  constructor; cbn [maxb largest pools over own]; try apply HI.
  - intros Q [-> | HQ]%HPo; [|by apply (pi_pools _ _ _ HI)]. constructor; cbn; try done.
    + by intros c ?%elem_of_nil.
    + by intros c ?%elem_of_nil.
    + constructor.
    + by intros c c' ?%elem_of_nil.
    + by intros c ?%elem_of_nil.
    + split; [lia|left; lia].
  - rewrite fmap_app, fmap_cons. cbn [p_log]. apply sorted_insert.
    + rewrite <- fmap_app, <- E. apply HI.
    + intros x (P & -> & HP)%elem_of_list_fmap. by apply H1.
    + intros x (P & -> & HP)%elem_of_list_fmap. by apply H2.
  - intros Q [-> | HQ]%HPo; [by intros c i ?%elem_of_nil|by apply (pi_words _ _ _ HI)].
  - rewrite (pi_blocks _ _ _ HI). unfold PoolProofs4.blocks. cbn [pools over]. rewrite E, !fmap_app, !fmap_cons, !concat_app. done.
  - intros p n a Hl. destruct (pi_live _ _ _ HI p n a Hl) as [Hn0 [(Hn & Q & HQ & H3)|Ho]]; (split; [done|]); [left|by right].
    split; [done|]. exists Q. cbn. split; [|done]. rewrite E, elem_of_app in HQ. rewrite elem_of_app, elem_of_cons. tauto.
Qed.
(** a live allocation lies in one outstanding upstream block *)
Lemma live_in tr s p n a : PI tr s -> (p, n, a) ∈ live tr -> 0 < n /\ exists x, x ∈ outst tr /\ x.1.1 <= p /\ p + n <= x.1.1 + x.1.2.
Proof.
  intros HI Hl. pose proof (W_big A HA). pose proof (CH_eq A). assert (OH = 4 * A) by done. destruct (pi_live _ _ _ HI p n a Hl) as [Hn [(_ & Q & HQ & _ & Hal & HnA)|(_ & o & Ho & Eo & _ & Hno)]]; (split; [done|]).
  - destruct (alloced_blk A HA tr s HI Q p HQ Hal) as (c & Hc & B1 & B2). exists (blk (p_log Q) c). split; [eapply (pool_blk_out A HA tr s HI Q); [done|by apply blk_in]|]. cbn. lia.
  - exists (oblk o). split; [by eapply over_out|]. cbn. lia.
Qed.
Lemma alloc_ok tr s n a up emp s' ev r : PI tr s -> req_ok A s n a -> nups tr < W -> do_allocate A s n a up emp = (s', ev, r) ->
  (forall q k b, EUp q k b ∈ ev -> up_ok A tr q k b) ->
  match r with
  | ROk p => PI (tr ++ ev ++ [EAlloc p n a]) s' /\ evok A (tr ++ ev) (EAlloc p n a) /\
      (ev = [] \/ exists q k b, ev = [EUp q k b] /\ evok A tr (EUp q k b) /\ (n <= largest s -> exists cap, 1 <= cap <= maxb s /\ k = cap * b + CH /\ n + A <= b))
  | RThrow => PI tr s' /\ ev = [] /\ (emp = false \/ (exists k b, up k b = None) \/ W - 5 * A < n)
  | RStuck => False
  end.
Proof.
  intros HI (Hn & Hpa & Ha8) HN E Hup. pose proof (W_big A HA) as HWb. destruct (pi_opt _ _ _ HI) as [Hmb Hlg].
  assert (Ha0 : 0 < a). { destruct Hpa as (k & Hk & ->). apply Z.pow_pos_nonneg; lia. }
  unfold do_allocate in E. case_decide as Hd.
  - destruct (flog_ok A HA n a ltac:(lia) Hpa (Ha8 Hd)) as (HL & HnA & Hma & HmA). set (L := flog A n a) in *. cbv zeta in E.
    destruct (find_pool L (pools s)) as [pre rest] eqn:Ef. destruct (find_pool_spec L _ _ _ (pi_sorted _ _ _ HI) Ef) as (Es & Hpre & Hrest).
    assert (Hrun : forall s0 P post, PI tr s0 -> pools s0 = pre ++ P :: post -> p_log P = L -> maxb s0 = maxb s -> largest s0 = largest s -> over s0 = over s -> own s0 = own s ->
      (let '(P', o', ev, r) := P_allocate A (maxb s) P (own s) up in (Pst (maxb s) (largest s) (pre ++ P' :: post) (over s) o', ev, r)) = (s', ev, r) ->
      match r with
      | ROk p => PI (tr ++ ev ++ [EAlloc p n a]) s' /\ evok A (tr ++ ev) (EAlloc p n a) /\
          (ev = [] \/ exists q k b, ev = [EUp q k b] /\ evok A tr (EUp q k b) /\ (n <= largest s -> exists cap, 1 <= cap <= maxb s /\ k = cap * b + CH /\ n + A <= b))
      | RThrow => PI tr s' /\ ev = [] /\ (emp = false \/ (exists k b, up k b = None) \/ W - 5 * A < n)
      | RStuck => False
      end).
    { intros s0 P post HI0 Es0 EL X1 X2 X3 X4 E0. destruct (P_allocate A (maxb s) P (own s) up) as [[[P' o'] ev0] r0] eqn:Ea. injection E0 as <- <- <-.
      rewrite <- X1, <- X4 in Ea. pose proof (run_ok A HA tr s0 pre P post up P' o' ev0 r0 HI0 Es0 HN Ea Hup) as Hr. cbn beta zeta in Hr. rewrite X1, X2, X3 in Hr.
      destruct r0 as [p| |]; [| |done].
      - rewrite EL in Hr. destruct (Hr n a ltac:(lia) Hd eq_refl HnA Hma Ha0) as (R1 & R2 & R3). split; [done|]. split; [done|].
        destruct R3 as [-> | (q & cap & -> & R4 & R5)]; [by left|right]. eexists _, _, _. split; [done|]. split; [done|]. intros _. exists cap. done.
      - destruct Hr as (R1 & R2 & R3). split; [done|]. split; [done|]. right. by left. }
    assert (Hfresh : (forall P, P ∈ rest -> p_log P <> L) ->
      (if emp then let '(P', o', ev, r) := P_allocate A (maxb s) (Pool L None [] 4 None) (own s) up in (Pst (maxb s) (largest s) (pre ++ P' :: rest) (over s) o', ev, r)
       else (s, [], RThrow)) = (s', ev, r) ->
      match r with
      | ROk p => PI (tr ++ ev ++ [EAlloc p n a]) s' /\ evok A (tr ++ ev) (EAlloc p n a) /\
          (ev = [] \/ exists q k b, ev = [EUp q k b] /\ evok A tr (EUp q k b) /\ (n <= largest s -> exists cap, 1 <= cap <= maxb s /\ k = cap * b + CH /\ n + A <= b))
      | RThrow => PI tr s' /\ ev = [] /\ (emp = false \/ (exists k b, up k b = None) \/ W - 5 * A < n)
      | RStuck => False
      end).
    { intros Hne E0. destruct emp.
      - apply (Hrun (Pst (maxb s) (largest s) (pre ++ Pool L None [] 4 None :: rest) (over s) (own s)) (Pool L None [] 4 None) rest); try done.
        apply add_pool; [done|done|done| |done]. intros P HP. pose proof (Hrest P HP). pose proof (Hne P HP). lia.
      - injection E0 as <- <- <-. split; [done|]. split; [done|]. by left. }
    destruct rest as [|P post].
    + apply Hfresh; [by intros ? ?%elem_of_nil|exact E].
    + case_decide as EL.
      * by apply (Hrun s P post).
      * apply Hfresh; [|exact E]. intros Q [-> | HQ]%elem_of_cons; [done|]. pose proof (Hrest P ltac:(by left)).
        pose proof (pi_sorted _ _ _ HI) as Hs. rewrite Es, fmap_app, fmap_cons in Hs. assert (p_log P < p_log Q); [|lia].
        clear -Hs HQ. induction pre as [|y pre IH]; cbn in Hs; inversion Hs as [|? ? Hs' Hall]; subst; [|by apply IH].
        rewrite Forall_forall in Hall. apply Hall, elem_of_list_fmap. by exists Q.
  - unfold Allocate_oversized in E. destruct (Prepare_oversized A n a) as [[k b]|] eqn:Ep.
    2:{ injection E as <- <- <-. split; [done|]. split; [done|]. right. right. apply (Prepare_None A HA n a); [lia|done]. }
    destruct (Prepare_ok A HA n a k b ltac:(lia) Ep) as (Hk1 & Hk2 & Eb & Hk3). assert (HOH : OH = 4 * A) by done.
    destruct (up k b) as [p|] eqn:Eup.
    2:{ injection E as <- <- <-. split; [done|]. split; [done|]. right. left. by eexists _, _. }
    injection E as <- <- <-. destruct (Hup p k b ltac:(by left)) as (U1 & U2 & U3 & U4). rewrite wrap_sub by lia.
    set (o := Ohdr (p + k - OH) k b). assert (Eo : oblk o = (p, k, b)). { unfold PoolProofs4.oblk; cbn. f_equal. f_equal. lia. }
    destruct (foldl_ev_alloc tr [EUp p k b] p n a) as (F1 & F2 & F3 & F4 & F5); [right; by eexists _, _, _|].
    assert (Hld : forall q m b', (q, m, b') ∈ live tr -> disj p n q m).
    { intros q m b' Hl. destruct (live_in tr s q m b' HI Hl) as (Hm & [[q' m'] b''] & Hx & B1 & B2). cbn in *. pose proof (U4 q' m' b'' Hx) as Hdj. unfold disj in *. lia. }
    split; [|split].
    + constructor; rewrite ?F1, ?F3, ?F4, ?F5; cbn [maxb largest pools over own length app]; try apply HI.
      * pose proof (pi_nups _ _ _ HI). lia.
      * intros Q HQ. eapply pool_ok_mono; [|by apply (pi_pools _ _ _ HI)]. lia.
      * intros Q HQ. apply (words_keep A HA tr s HI [(p, k, b)]); [|done|].
        -- intros y Hy. apply (clob_keep A HA); [|lia]. apply (Hy p k b). by left.
        -- intros x y ->%elem_of_list_singleton Hy. destruct y as [[q m] b']. apply (U4 q m b'). by eapply (pool_blk_out A HA tr s HI Q).
      * unfold PoolProofs4.blocks. cbn [pools over]. rewrite fmap_cons, Eo, (pi_blocks _ _ _ HI). unfold PoolProofs4.blocks. solve_Permutation.
      * constructor; [|apply HI]. intros Hx. pose proof (U4 _ _ _ Hx) as Hdj. unfold disj in Hdj. lia.
      * intros x y [-> | Hx]%elem_of_cons [-> | Hy]%elem_of_cons; [by left|..].
        -- right. destruct y as [[q m] b']. by apply (U4 q m b').
        -- right. destruct x as [[q m] b']. apply disj_sym. by apply (U4 q m b').
        -- by apply (pi_disj _ _ _ HI).
      * intros q m b' [[= -> -> ->]|Hx]%elem_of_cons; [lia|]. by apply (pi_range _ _ _ HI q m b').
      * intros o' [-> | Ho']%elem_of_cons; [cbn; lia|]. by apply (pi_over _ _ _ HI).
      * intros q m b' [[= -> -> ->]|Hl]%elem_of_cons.
        -- split; [lia|]. right. cbn [largest over]. split; [lia|]. exists o. split; [by left|]. cbn. split; [done|]. split; [done|]. lia.
        -- destruct (pi_live _ _ _ HI q m b' Hl) as [Hm0 [Hp|(Hm & o' & Ho' & Hx)]]; (split; [done|]); [by left|right]. split; [done|]. exists o'. cbn. split; [by right|done].
      * intros x y [-> | Hx]%elem_of_cons [-> | Hy]%elem_of_cons; [by left|..].
        -- right. destruct y as [[q m] b']. apply (Hld q m b' Hy).
        -- right. destruct x as [[q m] b']. apply disj_sym. apply (Hld q m b' Hx).
        -- by apply (pi_ldisj _ _ _ HI).
    + cbn. rewrite F2. split; [|split; [lia|split; [lia|split; [exact Hld|]]]].
      * destruct Hpa as (ka & Hka & ->). eapply mod_trans; [done| |exact U3|]; [lia|]. rewrite Eb. destruct (Z.max_spec (2 ^ ka) A) as [[Hlt ->]|[_ ->]]; [|apply Z.mod_same; lia].
        assert (Hpp : forall x y, 0 <= x <= y -> 2 ^ y mod 2 ^ x = 0).
        { intros x y Hxy. replace y with (y - x + x) by lia. rewrite Z.pow_add_r by lia. apply Z.mod_mul, Z.pow_nonzero; lia. }
        destruct HA as [-> | ->]; [change 4 with (2 ^ 2) in Hlt |- *|change 8 with (2 ^ 3) in Hlt |- *]; apply Z.pow_lt_mono_r_iff in Hlt; try lia; apply Hpp; lia.
      * exists p, k, b. rewrite F4. split; [by left|lia].
    + right. exists p, k, b. split; [done|]. split; [|intros ?; lia]. split; [lia|]. split; [apply Hk3|]. split; [|lia]. rewrite Eb. destruct (Z.max_spec a A) as [[_ ->]|[_ ->]]; [|done].
      destruct HA as [-> | ->]; [exists 2|exists 3]; done.
Qed.
End pool.
