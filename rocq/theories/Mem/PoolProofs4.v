From stdpp Require Import base list numbers list_numbers option decidable sorting.
From Coq Require Import ZArith Lia.
From Verif Require Import Mem.MonoModel Mem.MonoProofs Mem.PoolModel Mem.PoolSpec Mem.PoolProofs Mem.PoolProofs2 Mem.PoolProofs3.
Local Open Scope Z_scope.

Section pool.
Context (A : Z) (HA : A = 4 \/ A = 8).
Notation W := (W A). Notation wrap := (wrap A). Notation CH := (CH A). Notation OH := (OH A). Notation PMAX := (PTRDIFF_MAX A).
Notation pool_ok := (pool_ok A). Notation chunk_ok := (chunk_ok A). Notation words := (words A). Notation blk := (blk A). Notation blks := (blks A). Notation csz := (csz A).
Notation frame := (frame A).

Definition oblk (o : ohdr) : Z * Z * Z := (o_hdr o + OH - o_size o, o_size o, o_align o).
Definition blocks (s : pst) : list (Z * Z * Z) := concat (blks <$> pools s) ++ (oblk <$> over s).
Definition bdisj (x y : Z * Z * Z) : Prop := disj x.1.1 x.1.2 y.1.1 y.1.2.
Definition live_ok (s : pst) (p n a : Z) : Prop :=
  0 < n /\
  ((n <= largest s /\ exists P, P ∈ pools s /\ p_log P = flog A n a /\ alloced (p_log P) (p_chunks P) p /\ n + A <= 2 ^ p_log P) \/
   (largest s < n /\ exists o, o ∈ over s /\ o_hdr o = p + o_size o - OH /\ Prepare_oversized A n a = Some (o_size o, o_align o) /\ n + OH <= o_size o)).
Record PI (tr : list pev) (s : pst) : Prop := {
  pi_opt : 1 <= maxb s <= PMAX /\ A <= largest s <= W / 32;
  pi_nups : 0 <= nups tr;
  pi_pools : forall P, P ∈ pools s -> pool_ok (nups tr) P;
  pi_sorted : StronglySorted Z.lt (p_log <$> pools s);
  pi_words : forall P, P ∈ pools s -> words (p_log P) (p_chunks P) (own s);
  pi_blocks : outst tr ≡ₚ blocks s;
  pi_nodup : NoDup (outst tr);
  pi_disj : forall x y, x ∈ outst tr -> y ∈ outst tr -> x = y \/ bdisj x y;
  pi_range : forall q m b, (q, m, b) ∈ outst tr -> 0 < q /\ 0 < m /\ q + m <= W;
  pi_over : forall o, o ∈ over s -> OH <= o_size o;
  pi_live : forall p n a, (p, n, a) ∈ live tr -> live_ok s p n a;
  pi_ldisj : forall x y, x ∈ live tr -> y ∈ live tr -> x = y \/ bdisj x y }.

Lemma Prepare_ok n a k b : 0 < n -> Prepare_oversized A n a = Some (k, b) -> n + OH <= k /\ k < W /\ b = Z.max a A /\ n <= W - 5 * A /\ k mod A = 0.
Proof.
  intros Hn. unfold Prepare_oversized. pose proof (W_big A HA) as HWb. unfold PoolModel.OH.
  rewrite (pwrap_id A (W - 1 - 4 * A - A)) by lia. rewrite (pwrap_id A (_ + 1)) by lia. case_decide; [done|]. intros [= <- <-].
  rewrite (pwrap_id A (n + 4 * A)) by lia. change (wrap (0 - A)) with (Max_allocation A).
  pose proof (up_spec A HA (n + 4 * A) ltac:(lia)) as [[Hs Hmod] Hr]. repeat split; [lia..|exact Hmod].
Qed.
Lemma Prepare_None n a : 0 < n -> Prepare_oversized A n a = None -> W - 5 * A < n.
Proof.
  intros Hn. unfold Prepare_oversized. pose proof (W_big A HA) as HWb. unfold PoolModel.OH.
  rewrite (pwrap_id A (W - 1 - 4 * A - A)) by lia. rewrite (pwrap_id A (_ + 1)) by lia. case_decide; [lia|done].
Qed.
Lemma outst_app t1 t2 : outst (t1 ++ t2) = foldl outst1 (outst t1) t2.
Proof. apply foldl_app. Qed.
Lemma live_app t1 t2 : live (t1 ++ t2) = foldl live1 (live t1) t2.
Proof. apply foldl_app. Qed.
Lemma nups_app t1 t2 : nups (t1 ++ t2) = foldl (fun k e => match e with EUp _ _ _ => k + 1 | _ => k end) (nups t1) t2.
Proof. apply foldl_app. Qed.
Lemma elem_blocks x s : x ∈ blocks s <-> (exists P, P ∈ pools s /\ x ∈ blks P) \/ (exists o, o ∈ over s /\ x = oblk o).
Proof.
  unfold blocks. rewrite elem_of_app, elem_of_list_fmap. split; (intros [H|H]; [left|right]).
  - apply elem_of_list_In, in_concat in H as (l & Hl & Hx). apply elem_of_list_In, elem_of_list_fmap in Hl as (P & -> & HP). exists P. split; [done|]. by apply elem_of_list_In.
  - naive_solver.
  - destruct H as (P & HP & Hx). apply elem_of_list_In, in_concat. exists (blks P). split; [apply elem_of_list_In, elem_of_list_fmap; by exists P|by apply elem_of_list_In].
  - naive_solver.
Qed.
Lemma log_inj l P Q : StronglySorted Z.lt (p_log <$> l) -> P ∈ l -> Q ∈ l -> p_log P = p_log Q -> P = Q.
Proof.
  induction l as [|x l IH]; [by intros _ ?%elem_of_nil|]. cbn. intros Hs Hc Hc' E. inversion Hs as [|? ? Hs' Hall]; subst.
  rewrite Forall_forall in Hall. apply elem_of_cons in Hc as [-> | Hc], Hc' as [-> | Hc'].
  - done.
  - pose proof (Hall (p_log Q) ltac:(apply elem_of_list_fmap; by exists Q)). lia.
  - pose proof (Hall (p_log P) ltac:(apply elem_of_list_fmap; by exists P)). lia.
  - by apply IH.
Qed.
Lemma find_pool_spec L l pre rest : StronglySorted Z.lt (p_log <$> l) -> find_pool L l = (pre, rest) ->
  l = pre ++ rest /\ (forall P, P ∈ pre -> p_log P < L) /\ (forall P, P ∈ rest -> L <= p_log P).
Proof.
  revert pre rest. induction l as [|x l IH]; intros pre rest Hs E; cbn in E.
  - injection E as <- <-. split; [done|]. split; by intros ? ?%elem_of_nil.
  - cbn in Hs. inversion Hs as [|? ? Hs' Hall]; subst. case_decide as Hd.
    + destruct (find_pool L l) as [a b]. injection E as <- <-. destruct (IH a b Hs' eq_refl) as (-> & H1 & H2). split; [done|]. split; [|done]. intros P [-> | HP]%elem_of_cons; [done|by apply H1].
    + injection E as <- <-. split; [done|]. split; [by intros ? ?%elem_of_nil|]. intros P [-> | HP]%elem_of_cons; [lia|]. rewrite Forall_forall in Hall.
      pose proof (Hall (p_log P) ltac:(apply elem_of_list_fmap; by exists P)). lia.
Qed.
Lemma pow_inj x y : 0 <= x -> 0 <= y -> 2 ^ x = 2 ^ y -> x = y.
Proof. intros Hx Hy E. apply (Z.pow_inj_r 2); lia. Qed.
Lemma oblk_inj o o' : oblk o = oblk o' -> o = o'.
Proof. destruct o, o'. unfold oblk; cbn. intros [= E1 E2 E3]. f_equal; lia. Qed.

Section inv.
Context (tr : list pev) (s : pst) (HI : PI tr s).
Lemma block_out x : x ∈ blocks s -> x ∈ outst tr.
Proof. intros Hx. by rewrite (pi_blocks _ _ HI). Qed.
Lemma pool_blk_out P x : P ∈ pools s -> x ∈ blks P -> x ∈ outst tr.
Proof. intros HP Hx. apply block_out, elem_blocks. left. by exists P. Qed.
Lemma blk_in P c : c ∈ p_chunks P -> blk (p_log P) c ∈ blks P.
Proof. intros Hc. apply elem_of_list_fmap. by exists c. Qed.
Lemma blks_log P x : x ∈ blks P -> x.2 = 2 ^ p_log P.
Proof. intros (c & -> & _)%elem_of_list_fmap. done. Qed.
Lemma over_out o : o ∈ over s -> oblk o ∈ outst tr.
Proof. intros Ho. apply block_out, elem_blocks. right. by exists o. Qed.
Lemma pools_disj P Q x y : P ∈ pools s -> Q ∈ pools s -> p_log P <> p_log Q -> x ∈ blks P -> y ∈ blks Q -> bdisj x y.
Proof.
  intros HP HQ Hne Hx Hy. destruct (pi_disj _ _ HI x y (pool_blk_out P x HP Hx) (pool_blk_out Q y HQ Hy)) as [-> |?]; [|done].
  exfalso. apply Hne. apply pow_inj; [apply (pk_log _ _ _ (pi_pools _ _ HI P HP))|apply (pk_log _ _ _ (pi_pools _ _ HI Q HQ))|]. by rewrite <- (blks_log P y Hx), <- (blks_log Q y Hy).
Qed.
Lemma over_disj P o x : P ∈ pools s -> o ∈ over s -> x ∈ blks P -> bdisj x (oblk o).
Proof.
  intros HP Ho Hx. destruct (pi_disj _ _ HI x (oblk o) (pool_blk_out P x HP Hx) (over_out o Ho)) as [E|?]; [|done].
  exfalso. pose proof (pi_nodup _ _ HI) as Hn. rewrite (pi_blocks _ _ HI) in Hn. unfold blocks in Hn. apply NoDup_app in Hn as (_ & Hn & _). apply (Hn x).
  - apply elem_of_list_In, in_concat. exists (blks P). split; [apply elem_of_list_In, elem_of_list_fmap; by exists P|by apply elem_of_list_In].
  - rewrite E. apply elem_of_list_fmap. by exists o.
Qed.
Lemma overs_disj o o' : o ∈ over s -> o' ∈ over s -> o <> o' -> bdisj (oblk o) (oblk o').
Proof. intros Ho Ho' Hne. destruct (pi_disj _ _ HI (oblk o) (oblk o') (over_out o Ho) (over_out o' Ho')) as [E|?]; [|done]. by apply oblk_inj in E. Qed.
Lemma over_hdr_inj o o' : o ∈ over s -> o' ∈ over s -> o_hdr o = o_hdr o' -> o = o'.
Proof.
  intros Ho Ho' E. destruct (pi_disj _ _ HI (oblk o) (oblk o') (over_out o Ho) (over_out o' Ho')) as [E'|Hd]; [by apply oblk_inj|]. exfalso.
  pose proof (pi_over _ _ HI o Ho). pose proof (pi_over _ _ HI o' Ho'). unfold bdisj, disj, oblk in Hd; cbn in Hd. unfold PoolModel.OH in *. pose proof (W_big A HA). lia.
Qed.
(** where an allocated slot lies *)
Lemma alloced_blk P p : P ∈ pools s -> alloced (p_log P) (p_chunks P) p -> exists c, c ∈ p_chunks P /\ c_base c <= p /\ p + 2 ^ p_log P + CH <= c_base c + csz (p_log P) c.
Proof.
  intros HP (c & i & Hc & Hi & -> & _). exists c. split; [done|]. pose proof (pi_pools _ _ HI P HP) as HPo. pose proof (ck_next _ _ _ (pk_chunks _ _ _ HPo c Hc)).
  destruct (slot_in A HA (nups tr) P c i HPo Hc ltac:(lia)) as (S1 & S2 & S3 & S4 & S5). lia.
Qed.
(** no live allocation overlaps the resource's own data *)
Lemma live_own q m p n a : own_data A s q m -> live_ok s p n a -> disj q m p n.
Proof.
  pose proof (W_big A HA) as HWb. pose proof (CH_eq A) as HCH. assert (HOH : OH = 4 * A) by done.
  intros [(P & c & HP & Hc & Hown)|(o & Ho & -> & ->)] [Hn Hlv].
  - pose proof (pi_pools _ _ HI P HP) as HPo. pose proof (pk_chunks _ _ _ HPo c Hc) as K. pose proof (ck_next _ _ _ K) as Knx. pose proof (ck_cap _ _ _ K) as Kcap.
    destruct (pk_log _ _ _ HPo) as (HL1 & HL2 & HL3). rewrite (bsz_eq A) in Hown by (by apply HPo).
    assert (Hin : c_base c <= q /\ q + m <= c_base c + csz (p_log P) c /\ 0 <= m).
    { destruct Hown as [(-> & ->)|[(Hq & ->)|(i & Hi & -> & ->)]].
      - destruct (slot_in A HA _ P c 0 HPo Hc ltac:(lia)) as (S1 & S2 & S3 & S4 & S5). lia.
      - destruct (ck_free _ _ _ K q Hq) as (i & Hi & ->). destruct (slot_in A HA _ P c i HPo Hc ltac:(lia)) as (S1 & S2 & S3 & S4 & S5). lia.
      - destruct (slot_in A HA _ P c i HPo Hc ltac:(lia)) as (S1 & S2 & S3 & S4 & S5). lia. }
    destruct Hlv as [(_ & Q & HQ & _ & Hal & HnA)|(_ & o & Ho & Eo & _ & Hno)].
    + destruct (decide (p_log Q = p_log P)) as [El|El].
      * assert (Q = P) as -> by (eapply (log_inj (pools s)); [apply HI|done|done|done]). destruct Hal as (c' & i' & Hc' & Hi' & Ep & Hnf).
        pose proof (pk_chunks _ _ _ HPo c' Hc') as K'. pose proof (ck_next _ _ _ K') as Knx'.
        destruct (slot_in A HA _ P c' i' HPo Hc' ltac:(lia)) as (S1 & S2 & S3 & S4 & S5).
        destruct Hown as [(-> & ->)|[(Hq & ->)|(i & Hi & -> & ->)]].
        -- destruct (pk_disj _ _ _ HPo c c' Hc Hc') as [<- |Hd]; [unfold disj; lia|]. destruct (slot_in A HA _ P c 0 HPo Hc ltac:(lia)) as (T1 & T2 & T3 & T4 & T5). unfold disj in *. lia.
        -- destruct (ck_free _ _ _ K q Hq) as (i & Hi & Eq). destruct (slot_disj A HA _ P c c' i i' HPo Hc Hc' ltac:(lia) ltac:(lia)) as [Hs1 Hs2]. rewrite <- Eq, <- Ep in *.
           destruct (decide (q = p)) as [E|Hne]; [exfalso; destruct (Hs2 E) as [<- _]; apply Hnf; by rewrite <- E|]. specialize (Hs1 Hne). unfold disj in *. lia.
        -- destruct (slot_disj A HA _ P c c' i i' HPo Hc Hc' ltac:(lia) ltac:(lia)) as [Hs1 _]. rewrite <- Ep in Hs1.
           destruct (decide (c_base c + i * 2 ^ p_log P = p)) as [E|Hne]; [rewrite E; unfold disj; lia|]. specialize (Hs1 Hne). unfold disj in *. lia.
      * destruct (alloced_blk Q p HQ Hal) as (c' & Hc' & B1 & B2). pose proof (pools_disj P Q _ _ HP HQ (not_eq_sym El) (blk_in P c Hc) (blk_in Q c' Hc')) as Hd. unfold bdisj, PoolProofs.blk in Hd; cbn in Hd. unfold disj in *. lia.
    + pose proof (over_disj P o _ HP Ho (blk_in P c Hc)) as Hd. unfold bdisj, PoolProofs.blk, oblk in Hd; cbn in Hd. unfold disj in *. lia.
  - pose proof (pi_over _ _ HI o Ho) as Hos. destruct Hlv as [(_ & Q & HQ & _ & Hal & HnA)|(_ & o' & Ho' & Eo & _ & Hno)].
    + destruct (alloced_blk Q p HQ Hal) as (c' & Hc' & B1 & B2). pose proof (over_disj Q o _ HQ Ho (blk_in Q c' Hc')) as Hd. unfold bdisj, PoolProofs.blk, oblk in Hd; cbn in Hd. unfold disj in *.
      pose proof (pk_log _ _ _ (pi_pools _ _ HI Q HQ)) as (? & ? & ?). lia.
    + destruct (decide (o = o')) as [<- |Hne]; [unfold disj; lia|]. pose proof (overs_disj o o' Ho Ho' Hne) as Hd. unfold bdisj, oblk in Hd; cbn in Hd. unfold disj in *. pose proof (pi_over _ _ HI o' Ho'). lia.
Qed.
Lemma words_keep Bs o' : frame Bs (own s) o' -> forall P, P ∈ pools s -> (forall x y, x ∈ Bs -> y ∈ blks P -> bdisj x y) -> words (p_log P) (p_chunks P) o'.
Proof.
  intros Hf P HP Hd c i Hc Hi. rewrite Hf; [by apply (pi_words _ _ HI P HP)|]. intros q m b Hb. specialize (Hd _ _ Hb (blk_in P c Hc)).
  pose proof (pi_pools _ _ HI P HP) as HPo. pose proof (ck_next _ _ _ (pk_chunks _ _ _ HPo c Hc)). destruct (slot_in A HA _ P c i HPo Hc ltac:(lia)) as (S1 & S2 & S3 & S4 & S5).
  destruct (pk_log _ _ _ HPo) as (HL1 & HL2 & HL3). pose proof (W_big A HA). pose proof (CH_eq A). unfold bdisj, PoolProofs.blk in Hd; cbn in Hd. unfold disj in *. lia.
Qed.
End inv.
End pool.
