From stdpp Require Import base list numbers list_numbers option decidable sorting.
From Coq Require Import ZArith Lia.
From Verif Require Import Mem.MonoModel Mem.MonoProofs Mem.PoolModel Mem.PoolSpec Mem.PoolProofs Mem.PoolProofs2 Mem.PoolProofs3 Mem.PoolProofs4.
Local Open Scope Z_scope.

Section pool.
Context (A : Z) (HA : A = 4 \/ A = 8).
Notation W := (W A). Notation wrap := (wrap A). Notation CH := (CH A). Notation OH := (OH A). Notation PMAX := (PTRDIFF_MAX A).
Notation pool_ok := (pool_ok A). Notation chunk_ok := (chunk_ok A). Notation words := (words A). Notation blk := (blk A). Notation blks := (blks A). Notation csz := (csz A).
Notation frame := (frame A). Notation PI := (PI A). Notation blocks := (blocks A). Notation oblk := (oblk A). Notation live_ok := (live_ok A).

Lemma pool_ok_mono N N' P : N <= N' -> pool_ok N P -> pool_ok N' P.
Proof. intros Hle [H1 H2 H3 H4 H5 H6 H7 H8]. constructor; try done. intros c Hc. specialize (H3 c Hc). lia. Qed.
Lemma pools_split tr s pre P post Q : PI tr s -> pools s = pre ++ P :: post -> Q ∈ pools s -> Q = P \/ ((Q ∈ pre \/ Q ∈ post) /\ p_log Q <> p_log P).
Proof.
  intros HI E HQ. destruct (decide (p_log Q = p_log P)) as [El|El].
  - left. eapply (log_inj (pools s)); [apply (pi_sorted _ _ _ HI)|done|rewrite E; apply elem_of_app; right; by left|done].
  - right. split; [|done]. rewrite E in HQ. apply elem_of_app in HQ as [?|[-> | ?]%elem_of_cons]; [by left|done|by right].
Qed.
Lemma others_log tr s pre P post Q : PI tr s -> pools s = pre ++ P :: post -> Q ∈ pre \/ Q ∈ post -> Q ∈ pools s /\ p_log Q <> p_log P.
Proof.
  intros HI E HQ. assert (HQ' : Q ∈ pools s) by (rewrite E, elem_of_app, elem_of_cons; tauto). split; [done|]. pose proof (pi_sorted _ _ _ HI) as Hs. rewrite E, fmap_app, fmap_cons in Hs.
  assert (Hn : NoDup ((p_log <$> pre) ++ p_log P :: (p_log <$> post))).
  { clear -Hs. remember ((p_log <$> pre) ++ p_log P :: (p_log <$> post)) as l. clear Heql. induction Hs as [|x l Hs IH Hall]; [constructor|]. constructor; [|done].
    intros Hx. rewrite Forall_forall in Hall. specialize (Hall x Hx). lia. }
  apply NoDup_app in Hn as (_ & Hn1 & Hn2). intros El. destruct HQ as [HQ|HQ].
  - apply (Hn1 (p_log P)); [apply elem_of_list_fmap; by exists Q|by left].
  - inversion Hn2 as [|? ? Hn3 _]; subst. apply Hn3, elem_of_list_fmap. by exists Q.
Qed.
Lemma replace_blocks (s : pst) pre P post P' o' Bn : pools s = pre ++ P :: post -> blks P' = Bn ++ blks P ->
  blocks (Pst (maxb s) (largest s) (pre ++ P' :: post) (over s) o') ≡ₚ Bn ++ blocks s.
Proof.
  intros E Eb. unfold PoolProofs4.blocks. cbn [pools over]. rewrite E, !fmap_app, !fmap_cons, !concat_app. cbn [concat]. rewrite Eb. solve_Permutation.
Qed.
Lemma mod_trans b B a : 0 < a -> 0 < B -> b mod B = 0 -> B mod a = 0 -> b mod a = 0.
Proof. intros Ha HB H1 H2. apply Z.mod_divide in H1; [|lia]. apply Z.mod_divide in H2; [|lia]. apply Z.mod_divide; [lia|]. by etrans. Qed.
Lemma foldl_ev_alloc tr ev p n a : (ev = [] \/ exists q k b, ev = [EUp q k b]) ->
  live (tr ++ ev ++ [EAlloc p n a]) = (p, n, a) :: live tr /\ live (tr ++ ev) = live tr /\ outst (tr ++ ev ++ [EAlloc p n a]) = outst (tr ++ ev) /\
  outst (tr ++ ev) = (match ev with [EUp q k b] => [(q, k, b)] | _ => [] end) ++ outst tr /\ nups (tr ++ ev ++ [EAlloc p n a]) = nups tr + Z.of_nat (length ev).
Proof.
  intros Hev. rewrite !live_app, !outst_app, !nups_app. destruct Hev as [-> | (q & k & b & ->)]; cbn; repeat split; try done; lia.
Qed.

Lemma run_ok tr s pre P post up P' o' ev r : PI tr s -> pools s = pre ++ P :: post -> nups tr < W ->
  P_allocate A (maxb s) P (own s) up = (P', o', ev, r) -> (forall q k b, EUp q k b ∈ ev -> up_ok A tr q k b) ->
  let s' := Pst (maxb s) (largest s) (pre ++ P' :: post) (over s) o' in
  match r with
  | ROk p => forall n a, 0 < n -> n <= largest s -> p_log P = flog A n a -> n + A <= 2 ^ p_log P -> 2 ^ p_log P mod a = 0 -> 0 < a ->
      PI (tr ++ ev ++ [EAlloc p n a]) s' /\ evok A (tr ++ ev) (EAlloc p n a) /\
      (ev = [] \/ exists q cap, ev = [EUp q (cap * 2 ^ p_log P + CH) (2 ^ p_log P)] /\ evok A tr (EUp q (cap * 2 ^ p_log P + CH) (2 ^ p_log P)) /\ 1 <= cap <= maxb s)
  | RThrow => PI tr s' /\ ev = [] /\ exists k b, up k b = None
  | RStuck => False
  end.
Proof.
  intros HI E HN Ea Hup s'. assert (HP : P ∈ pools s) by (rewrite E; apply elem_of_app; right; by left).
  pose proof (pi_pools _ _ _ HI P HP) as HPo. pose proof (W_big A HA) as HWb. pose proof (CH_eq A) as HCH.
  destruct (pi_opt _ _ _ HI) as [Hmb Hlg].
  assert (HN0 := pi_nups _ _ _ HI).
  destruct (allocate_ok A HA (nups tr) (maxb s) P (own s) up P' o' ev r HPo (pi_words _ _ _ HI P HP) (conj HN0 HN) Hmb Ea) as [El Hr].
  { intros q k b Hq. destruct (Hup q k b Hq) as (U1 & U2 & U3 & U4). repeat split; try done. intros q' k' b' Hb. apply (U4 q' k' b'). by eapply (pool_blk_out A HA tr s HI P). }
  assert (Elogs : p_log <$> pre ++ P' :: post = p_log <$> pools s) by (rewrite E, !fmap_app, !fmap_cons; by rewrite El).
  pose proof (others_log tr s pre P post) as Hoth.
  destruct r as [p| |]; [| |done].
  2:{ destruct Hr as (HP' & Ecs & -> & -> & (k & Hk) & _). split; [|split; [done|by eexists _, _]].
    assert (Eb : blks P' = [] ++ blks P) by (unfold PoolProofs.blks; by rewrite El, Ecs).
    constructor; cbn [maxb largest pools over own s']; try apply HI.
    - intros Q [HQ|[-> | HQ]%elem_of_cons]%elem_of_app; [|done|]; apply (pi_pools _ _ _ HI), (Hoth Q HI E); tauto.
    - rewrite Elogs. apply HI.
    - intros Q [HQ|[-> | HQ]%elem_of_cons]%elem_of_app; [|rewrite El, Ecs; by apply (pi_words _ _ _ HI)|]; apply (pi_words _ _ _ HI), (Hoth Q HI E); tauto.
    - rewrite (pi_blocks _ _ _ HI). symmetry. apply (replace_blocks s pre P post P' _ [] E Eb).
    - intros p n a Hl. destruct (pi_live _ _ _ HI p n a Hl) as [Hn0 [(Hn & Q & HQ & H1 & H2 & H3)|Ho]]; (split; [done|]); [left|by right].
      split; [done|]. destruct (pools_split tr s pre P post Q HI E HQ) as [-> | [HQ' _]].
      + exists P'. cbn. rewrite El, Ecs. split; [apply elem_of_app; right; by left|done].
      + exists Q. cbn. split; [rewrite elem_of_app, elem_of_cons; tauto|done]. }
  destruct Hr as (Hw' & Hna & Hmono & Hal & Hcase). intros n a Hn0 Hn Hfl HnA Hma Ha0.
  assert (Hbn : exists Bn, (ev = [] \/ exists q k b, ev = [EUp q k b]) /\ Bn = match ev with [EUp q k b] => [(q, k, b)] | _ => [] end /\ length ev = length Bn /\
    pool_ok (nups tr + Z.of_nat (length Bn)) P' /\ blks P' = Bn ++ blks P /\ frame (blks P') (own s) o' /\
    (forall x, x ∈ Bn -> 0 < x.1.1 /\ 0 < x.1.2 /\ x.1.1 + x.1.2 <= W /\ forall y, y ∈ outst tr -> bdisj x y) /\ NoDup Bn /\
    (ev = [] \/ exists q cap, ev = [EUp q (cap * 2 ^ p_log P + CH) (2 ^ p_log P)] /\ evok A tr (EUp q (cap * 2 ^ p_log P + CH) (2 ^ p_log P)) /\ 1 <= cap <= maxb s)).
  { destruct Hcase as [(-> & HP' & Eb & Hf)|(c & Eev & HP' & Eb & Hf & Hsz & Hcap & _)].
    - exists []. rewrite Eb. cbn. rewrite Z.add_0_r. split; [by left|]. split; [done|]. split; [done|]. split; [done|]. split; [done|]. split; [done|]. split; [by intros ? ?%elem_of_nil|]. split; [constructor|by left].
    - exists [blk (p_log P) c]. rewrite Eev. destruct (Hup (c_base c) (csz (p_log P) c) (2 ^ p_log P)) as (U1 & U2 & U3 & U4); [rewrite Eev; by left|].
      split; [right; by eexists _, _, _|]. split; [done|]. split; [done|]. split; [done|]. split; [done|]. split; [done|]. split; [|split; [apply NoDup_singleton|]].
      + intros x ->%elem_of_list_singleton. cbn. repeat split; try done; [lia|]. intros [[q m] b] Hy. by apply (U4 q m b).
      + right. exists (c_base c), (c_cap c). split; [done|]. split; [|done]. split; [done|]. destruct (pk_log _ _ _ HPo) as (HL1 & HL2 & HL3).
        split. { assert (HLA : 2 ^ p_log P mod A = 0).
          { destruct HA as [HA' | HA']; rewrite HA' in *; [change 4 with (2 ^ 2) in HL2 |- *|change 8 with (2 ^ 3) in HL2 |- *].
            all: assert (Hpl : forall x, 2 ^ x <= 2 ^ p_log P -> 0 <= x -> 2 ^ p_log P mod 2 ^ x = 0) by
              (intros x Hx1 Hx2; apply Z.pow_le_mono_r_iff in Hx1; [|lia..]; replace (p_log P) with (p_log P - x + x) by lia; rewrite Z.pow_add_r by lia; apply Z.mod_mul, Z.pow_nonzero; lia).
            all: apply Hpl; lia. }
          unfold PoolModel.CH. apply Z.mod_divide in HLA; [|lia]. destruct HLA as [t Ht]. rewrite Ht. apply Z.mod_divide; [lia|]. exists (c_cap c * t + 7). lia. }
        split; [|lia]. exists (p_log P). split; [|done]. split; [done|]. unfold MonoModel.W in HL3.
        assert (Hlt : 2 ^ p_log P < 2 ^ (8 * A)) by lia. apply Z.pow_lt_mono_r_iff in Hlt; lia. }
  clear Hcase. destruct Hbn as (Bn & Hev & EBn & Elen & HP' & Eb & Hf & Hnew & HnBn & Hevk).
  destruct (foldl_ev_alloc tr ev p n a Hev) as (F1 & F2 & F3 & F4 & F5). rewrite <- EBn in F4.
  assert (Eblocks : blocks s' ≡ₚ Bn ++ blocks s) by (by apply (replace_blocks s pre P post)).
  assert (Hfresh : forall x y, x ∈ Bn -> y ∈ outst tr -> x <> y).
  { intros x y Hx Hy ->. destruct (Hnew y Hx) as (N1 & N2 & N3 & N4). specialize (N4 y Hy). unfold bdisj, disj in N4. lia. }
  assert (HQd : forall Q x y, Q ∈ pools s -> p_log Q <> p_log P -> x ∈ blks P' -> y ∈ blks Q -> bdisj x y).
  { intros Q x y HQ Hne Hx Hy. rewrite Eb in Hx. apply elem_of_app in Hx as [Hx|Hx].
    - apply (Hnew x Hx). by apply (pool_blk_out A HA tr s HI Q).
    - by apply (pools_disj A HA tr s HI P Q). }
  destruct Hal as (c & i & Hc & Hi & Ep & Hnf). pose proof (pk_chunks _ _ _ HP' c Hc) as K. pose proof (ck_next _ _ _ K) as Knx.
  destruct (slot_in A HA _ P' c i HP' Hc ltac:(lia)) as (S1 & S2 & S3 & S4 & S5). rewrite El in *. rewrite <- Ep in *.
  assert (Hcb : blk (p_log P) c ∈ blks P'). { rewrite <- El. by apply blk_in. }
  destruct (pk_log _ _ _ HPo) as (HL1 & HL2 & HL3).
  assert (Hlv' : forall q m b, live_ok s q m b -> live_ok s' q m b).
  { intros q m b [Hm0 [(Hm & Q & HQ & H1 & H2 & H3)|Ho]]; (split; [done|]); [left|by right].
    split; [done|]. destruct (pools_split tr s pre P post Q HI E HQ) as [-> | [HQ' _]].
    - exists P'. cbn. rewrite El. split; [apply elem_of_app; right; by left|]. split; [done|]. split; [by apply Hmono|done].
    - exists Q. cbn. split; [rewrite elem_of_app, elem_of_cons; tauto|done]. }
  assert (Hld : forall q m b, (q, m, b) ∈ live tr -> disj p n q m).
  { intros q m b Hl. destruct (pi_live _ _ _ HI q m b Hl) as [Hm0 [(Hm & Q & HQ & _ & Hq & HmA)|(_ & o & Ho & Eo & _ & Hno)]].
    - destruct (pools_split tr s pre P post Q HI E HQ) as [-> | [_ Hne]].
      + assert (Hpq : p <> q) by (intros ->; by apply Hna). destruct (Hmono q Hq) as (c2 & i2 & Hc2 & Hi2 & Eq & _). pose proof (ck_next _ _ _ (pk_chunks _ _ _ HP' c2 Hc2)).
        destruct (slot_disj A HA _ P' c c2 i i2 HP' Hc Hc2 ltac:(lia) ltac:(lia)) as [Hs _]. rewrite El in Hs. rewrite <- Ep, <- Eq in Hs. specialize (Hs Hpq). unfold disj in *. lia.
      + destruct (alloced_blk A HA tr s HI Q q HQ Hq) as (c2 & Hc2 & B1 & B2). pose proof (HQd Q _ _ HQ Hne Hcb (blk_in A Q c2 Hc2)) as Hd. unfold bdisj, PoolProofs.blk in Hd; cbn in Hd.
        pose proof (pk_log _ _ _ (pi_pools _ _ _ HI Q HQ)) as (? & ? & ?). unfold disj in *. lia.
    - assert (Hd : bdisj (blk (p_log P) c) (oblk o)).
      { pose proof Hcb as Hcb'. rewrite Eb in Hcb'. apply elem_of_app in Hcb' as [Hx|Hx]; [apply (Hnew _ Hx), (over_out A HA tr s HI o Ho)|by apply (over_disj A HA tr s HI P)]. }
      unfold bdisj, PoolProofs.blk, PoolProofs4.oblk in Hd; cbn in Hd. assert (OH = 4 * A) by done. unfold disj in *. lia. }
  split; [|split; [|exact Hevk]].
  - constructor; rewrite ?F1, ?F3, ?F4, ?F5, ?Elen; cbn [maxb largest pools over own s'].
    + apply HI.
    + lia.
    + intros Q [HQ|[-> | HQ]%elem_of_cons]%elem_of_app; [|done|]; (eapply pool_ok_mono; [|apply (pi_pools _ _ _ HI), (Hoth Q HI E); tauto]; lia).
    + rewrite Elogs. apply HI.
    + intros Q [HQ|[-> | HQ]%elem_of_cons]%elem_of_app; [|by rewrite El|];
        (apply (words_keep A HA tr s HI (blks P') o' Hf); [apply (Hoth Q HI E); tauto|intros x y Hx Hy; apply (HQd Q); [apply (Hoth Q HI E); tauto|apply (Hoth Q HI E); tauto|done|done]]).
    + rewrite Eblocks, (pi_blocks _ _ _ HI). done.
    + apply NoDup_app. split; [done|]. split; [|apply HI]. intros x Hx Hy. by apply (Hfresh x x).
    + intros x y [Hx|Hx]%elem_of_app [Hy|Hy]%elem_of_app.
      * left. destruct Hev as [-> | (? & ? & ? & ->)]; subst Bn; [by apply elem_of_nil in Hx|]. apply elem_of_list_singleton in Hx as ->, Hy as ->. done.
      * right. by apply (Hnew x Hx).
      * right. unfold bdisj. apply disj_sym. by apply (Hnew y Hy).
      * by apply (pi_disj _ _ _ HI).
    + intros q m b [Hx|Hx]%elem_of_app; [|by apply (pi_range _ _ _ HI q m b)]. destruct (Hnew _ Hx) as (? & ? & ? & _). done.
    + apply HI.
    + intros q m b [[= -> -> ->]|Hl]%elem_of_cons; [|apply Hlv', (pi_live _ _ _ HI), Hl]. split; [done|]. left. split; [done|]. exists P'. cbn. rewrite El.
      split; [apply elem_of_app; right; by left|]. split; [done|]. split; [|done]. by exists c, i.
    + intros x y [-> | Hx]%elem_of_cons [-> | Hy]%elem_of_cons; [by left|..].
      * right. destruct y as [[q m] b]. apply (Hld q m b Hy).
      * right. destruct x as [[q m] b]. unfold bdisj. apply disj_sym. apply (Hld q m b Hx).
      * by apply (pi_ldisj _ _ _ HI).
  - cbn. rewrite F2. split; [|split; [lia|split; [lia|split; [exact Hld|]]]].
    + eapply mod_trans; [done| |  |exact Hma]; [lia|]. rewrite Ep. rewrite Z.mod_add by lia. exact (ck_mod _ _ _ K).
    + exists (c_base c), (csz (p_log P) c), (2 ^ p_log P). rewrite F4. split; [|lia]. change (blk (p_log P) c ∈ Bn ++ outst tr). pose proof Hcb as Hcb'. rewrite Eb in Hcb'.
      apply elem_of_app in Hcb' as [Hx|Hx]; apply elem_of_app; [by left|right]. by apply (pool_blk_out A HA tr s HI P).
Qed.
End pool.
