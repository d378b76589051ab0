From stdpp Require Import base list numbers list_numbers option decidable sorting.
From Coq Require Import ZArith Lia.
From Verif Require Import Mem.MonoModel Mem.PoolModel Mem.PoolSpec Mem.PoolProofs.
Local Open Scope Z_scope.

Section pool.
Context (A : Z) (HA : A = 4 \/ A = 8).
Notation W := (W A). Notation wrap := (wrap A). Notation CH := (CH A). Notation PMAX := (PTRDIFF_MAX A).
Notation pool_ok := (pool_ok A). Notation chunk_ok := (chunk_ok A). Notation words := (words A). Notation blk := (blk A). Notation blks := (blks A). Notation csz := (csz A).

Lemma disj_sym p n q m : disj p n q m -> disj q m p n.
Proof. unfold disj. lia. Qed.
Lemma clob_keep q m (o : Z -> option Z) y : disj y A q m -> 0 < m -> clob A q m o y = o y.
Proof. pose proof (W_big A HA). intros Hd Hm. unfold clob. rewrite decide_False; [done|]. unfold disj in Hd. lia. Qed.
Lemma setw_keep x v (o : Z -> option Z) y : disj y A x A -> setw A x v o y = o y.
Proof. pose proof (W_big A HA). intros Hd. unfold setw. rewrite decide_False by (unfold disj in Hd; lia). apply clob_keep; [done|lia]. Qed.
Lemma setw_at x v (o : Z -> option Z) : setw A x v o x = Some v.
Proof. unfold setw. by rewrite decide_True. Qed.
(** words outside the blocks [Bs] are untouched *)
Definition frame (Bs : list (Z * Z * Z)) (o o' : Z -> option Z) : Prop := forall y, (forall q m b, (q, m, b) ∈ Bs -> disj y A q m) -> o' y = o y.
(** p is a slot of a chunk of the pool *)
Definition in_pool (P : pool) (p : Z) : Prop := exists c i, c ∈ p_chunks P /\ 0 <= i < c_cap c /\ p = c_base c + i * 2 ^ p_log P.
Lemma alloced_in N P p : pool_ok N P -> alloced (p_log P) (p_chunks P) p -> in_pool P p.
Proof. intros HP (c & i & Hc & Hi & -> & _). exists c, i. pose proof (ck_next _ _ _ (pk_chunks _ _ _ HP c Hc)). split; [done|]. split; [lia|done]. Qed.
Lemma slot_in N P c i : pool_ok N P -> c ∈ p_chunks P -> 0 <= i < c_cap c ->
  c_base c <= c_base c + i * 2 ^ p_log P /\ c_base c + i * 2 ^ p_log P + 2 ^ p_log P <= c_hdr c /\ c_hdr c + CH = c_base c + csz (p_log P) c /\ c_hdr c + CH <= W /\ 0 < c_base c.
Proof.
  intros HP Hc Hi. pose proof (pk_chunks _ _ _ HP c Hc) as K. pose proof (ck_hdr _ _ _ K). pose proof (ck_end _ _ _ K). pose proof (ck_base _ _ _ K). destruct (pk_log _ _ _ HP) as (HL1 & HL2 & HL3).
  pose proof (W_big A HA). unfold PoolProofs.csz in *. pose proof (CH_eq A). nia.
Qed.

Lemma take_ok N P c o P' o' b : pool_ok N P -> words (p_log P) (p_chunks P) o -> c ∈ p_chunks P -> avail c = true ->
  (forall x, x ∈ p_chunks P -> c_id c < c_id x -> c_fcnt x = 0) -> P_take A P c o = (P', o', b) ->
  pool_ok N P' /\ p_log P' = p_log P /\ blks P' = blks P /\ words (p_log P) (p_chunks P') o' /\
  ~ alloced (p_log P) (p_chunks P) b /\ (forall q, alloced (p_log P) (p_chunks P) q -> alloced (p_log P) (p_chunks P') q) /\ alloced (p_log P) (p_chunks P') b /\
  frame (blks P) o o'.
Proof.
  intros HP Hw Hc Hav Hbig E. unfold P_take in E. destruct (take_block A (p_log P) c o) as [[b0 c'] o0] eqn:Et. injection E as <- <- <-. cbn.
  pose proof (pk_log _ _ _ HP) as HL. pose proof (pk_chunks _ _ _ HP c Hc) as K.
  destruct (take_block_ok A HA _ _ _ _ _ _ HL K Hav Et) as (K' & Eh & Eb & Ec & Ei & Hcase).
  assert (Hlk : forall x, x ∈ p_chunks P -> c_hdr x = c_hdr c -> x = c) by (intros x Hx Ex; by eapply (hdr_inj A HA N P)).
  assert (Hcs : csz (p_log P) c' = csz (p_log P) c) by (unfold PoolProofs.csz; by rewrite Ec).
  assert (Hin' : c' ∈ upd (c_hdr c) c' (p_chunks P)) by (apply elem_upd; left; split; [done|by exists c]).
  assert (Hold : forall x, x ∈ p_chunks P -> x = c \/ x ∈ upd (c_hdr c) c' (p_chunks P)).
  { intros x Hx. destruct (decide (c_hdr x = c_hdr c)) as [Ex|Ex]; [left; by apply Hlk|right]. apply elem_upd. by right. }
  pose proof HL as (HL1 & HL2 & HL3). pose proof (W_big A HA).
  (* the slot of b *)
  assert (Hslot : exists i, b0 = c_base c + i * 2 ^ p_log P /\ 0 <= i < c_next c' /\ i < c_cap c /\ b0 ∉ c_free c' /\ (i < c_next c -> b0 ∈ c_free c)).
  { destruct Hcase as [(fs & E1 & E2 & E3 & _)|(E1 & E2 & E3 & E4 & E5 & _)].
    - destruct (ck_free _ _ _ K b0) as (i & Hi & Ebi); [rewrite E1; by left|]. exists i. pose proof (ck_next _ _ _ K). split; [done|]. split; [lia|]. split; [lia|].
      split; [|intros _; rewrite E1; by left]. rewrite E2. pose proof (ck_nodup _ _ _ K) as Hn. rewrite E1 in Hn. by inversion Hn.
    - exists (c_next c). pose proof (ck_next _ _ _ K). split; [done|]. split; [lia|]. split; [lia|]. split; [rewrite E2; by intros ?%elem_of_nil|lia]. }
  destruct Hslot as (i0 & Eb0 & Hi0 & Hi0' & Hnf & Hwas).
  split; [|split; [done|]].
  { constructor; cbn.
    - done.
    - intros x [(-> & _)|[Hx _]]%elem_upd; [done|]. by apply (pk_chunks _ _ _ HP).
    - intros x [(-> & _)|[Hx _]]%elem_upd; [rewrite Ei|]; by apply (pk_ids _ _ _ HP).
    - rewrite upd_fmap; [apply HP|]. intros x Hx Ex. by rewrite (Hlk x Hx Ex).
    - intros x y [(-> & _)|[Hx Hnx]]%elem_upd [(-> & _)|[Hy Hny]]%elem_upd; [by left|..]; rewrite ?Eb, ?Hcs.
      + destruct (pk_disj _ _ _ HP c y Hc Hy) as [<- |]; [done|by right].
      + destruct (pk_disj _ _ _ HP x c Hx Hc) as [-> |]; [done|by right].
      + by apply (pk_disj _ _ _ HP).
    - exists c'. split; [done|]. split; [done|]. rewrite Ei. intros x [(-> & _)|[Hx _]]%elem_upd Hlt; [lia|]. by apply Hbig.
    - intros h. case_decide as Hd; [done|]. intros Eh'. destruct (pk_empty _ _ _ HP h Eh') as (e & He & E1 & E2). exists e. split; [|done].
      apply elem_upd. right. split; [done|]. intros E3. apply Hd. rewrite Eh'. f_equal. congruence.
    - apply HP. }
  assert (Hblks : blks (Pool (p_log P) (Some (c_hdr c)) (upd (c_hdr c) c' (p_chunks P)) (p_ncap P) (if decide (p_empty P = Some (c_hdr c)) then None else p_empty P)) = blks P).
  { unfold PoolProofs.blks; cbn. apply upd_fmap. intros x Hx Ex. rewrite (Hlk x Hx Ex). unfold PoolProofs.blk. by rewrite Eb, Hcs. }
  split; [exact Hblks|].
  assert (Hb0 : forall x i, x ∈ p_chunks P -> 0 <= i < c_cap x -> c_base x + i * 2 ^ p_log P = b0 -> x = c /\ i = i0).
  { intros x i Hx Hi Ex. destruct (slot_disj A HA N P x c i i0 HP Hx Hc Hi ltac:(lia)) as [_ Hs]. apply Hs. congruence. }
  assert (Hf : frame (blks P) o o0).
  { destruct Hcase as [(fs & _ & _ & _ & ->)|(_ & _ & E3 & _ & E5 & ->)]; [done|]. intros y Hy. apply setw_keep.
    assert (Hyb : disj y A (c_base c) (csz (p_log P) c)). { apply (Hy _ _ (2 ^ p_log P)). unfold PoolProofs.blks. apply elem_of_list_fmap. by exists c. }
    destruct (slot_in N P c i0 HP Hc ltac:(lia)) as (S1 & S2 & S3 & S4 & S5). pose proof (CH_eq A). unfold disj in *. lia. }
  split; [|split; [|split; [|split; [|exact Hf]]]].
  - intros x i [(-> & _)|[Hx Hnx]]%elem_upd Hi.
    + rewrite Eb, Eh. destruct Hcase as [(fs & E1 & E2 & E3 & ->)|(E1 & E2 & E3 & E4 & E5 & ->)].
      * rewrite E3 in Hi. by apply Hw.
      * destruct (decide (i = c_next c)) as [-> | Hne]; [rewrite <- E3; apply setw_at|]. rewrite setw_keep; [apply Hw; [done|lia]|].
        pose proof (ck_next _ _ _ K). destruct (slot_disj A HA N P c c i (c_next c) HP Hc Hc ltac:(lia) ltac:(lia)) as [Hs _].
        specialize (Hs ltac:(nia)). rewrite <- E3 in Hs. unfold disj in *. lia.
    + destruct Hcase as [(fs & E1 & E2 & E3 & ->)|(E1 & E2 & E3 & E4 & E5 & ->)]; [by apply Hw|].
      rewrite setw_keep; [by apply Hw|]. pose proof (ck_next _ _ _ K). pose proof (ck_next _ _ _ (pk_chunks _ _ _ HP x Hx)).
      destruct (slot_disj A HA N P x c i (c_next c) HP Hx Hc ltac:(lia) ltac:(lia)) as [Hs Hs2].
      specialize (Hs ltac:(intros ?; destruct Hs2 as [? _]; [done|congruence])). rewrite <- E3 in Hs. unfold disj in *. lia.
  - intros (x & i & Hx & Hi & Ex & Hnx). pose proof (ck_next _ _ _ (pk_chunks _ _ _ HP x Hx)). destruct (Hb0 x i Hx ltac:(lia) ltac:(done)) as [-> ->]. apply Hnx, Hwas. lia.
  - intros q (x & i & Hx & Hi & Eq & Hq). destruct (Hold x Hx) as [-> | Hx']; [|exists x, i; done].
    exists c', i. split; [done|]. rewrite Eb. split; [|split; [done|]]; destruct Hcase as [(fs & E1 & E2 & E3 & _)|(E1 & E2 & E3 & E4 & E5 & _)]; try lia.
    + rewrite E2. intros Hq'. apply Hq. rewrite E1. by right.
    + rewrite E2. by intros ?%elem_of_nil.
  - exists c', i0. rewrite Eb. done.
Qed.

Lemma wrap_sub x y : 0 < y <= x -> x <= W -> wrap (wrap x - y) = x - y.
Proof. intros Hy Hx. unfold MonoModel.wrap. rewrite Zminus_mod_idemp_l. apply pwrap_id. lia. Qed.
Lemma increase_ok N mb P o up : pool_ok N P -> 0 <= N < W -> 1 <= mb <= PMAX -> (forall c, c ∈ p_chunks P -> c_fcnt c = 0) ->
  match Increase_capacity A mb P o up with
  | inl P' => pool_ok N P' /\ p_log P' = p_log P /\ p_chunks P' = p_chunks P /\ exists k, up k (2 ^ p_log P) = None
  | inr (P', o', ev) => exists c, ev = [EUp (c_base c) (csz (p_log P) c) (2 ^ p_log P)] /\
      (0 < c_base c -> c_base c + csz (p_log P) c <= W -> c_base c mod 2 ^ p_log P = 0 -> (forall q m b, (q, m, b) ∈ blks P -> disj (c_base c) (csz (p_log P) c) q m) ->
       pool_ok (N + 1) P' /\ p_log P' = p_log P /\ p_chunks P' = c :: p_chunks P /\ avail c = true /\ c_next c = 0 /\ o' = clob A (c_base c) (csz (p_log P) c) o /\ c_cap c <= mb)
  end.
Proof.
  intros HP HN Hmb Hfull. unfold Increase_capacity. pose proof (pk_log _ _ _ HP) as HL. pose proof HL as (HL1 & HL2 & HL3). pose proof (W_big A HA) as HWb. pose proof (PMAX_eq A HA) as HPM.
  rewrite (bsz_eq A) by done. destruct (pk_ncap _ _ _ HP) as [Hn1 Hn2]. pose proof (CH_eq A) as HCH.
  set (nc := if decide (mb < p_ncap P) then mb else p_ncap P).
  assert (Hnc : 1 <= nc <= mb /\ (nc <= 4 \/ nc * 2 ^ p_log P + CH <= PMAX)). { unfold nc. case_decide; [split; [lia|]; destruct Hn2; [left; lia|right; nia]|lia]. }
  clearbody nc. destruct Hnc as [Hnc1 Hnc2]. assert (Hncs : 0 < nc * 2 ^ p_log P /\ nc * 2 ^ p_log P + CH < W) by nia.
  assert (Esz : Size_for_capacity A (p_log P) nc = nc * 2 ^ p_log P + CH).
  { unfold Size_for_capacity. rewrite Z.shiftl_mul_pow2 by done. rewrite (pwrap_id A (nc * _)) by lia. apply pwrap_id. lia. }
  rewrite Esz. destruct (up _ _) as [p|] eqn:Eup.
  - eexists (Chunk _ [] nc nc p 0 _). cbn. split; [reflexivity|]. unfold PoolProofs.csz; cbn. intros H0 H1 H2 H3.
    rewrite wrap_sub by lia. replace (p + (nc * 2 ^ p_log P + CH) - CH) with (p + nc * 2 ^ p_log P) by lia.
    set (id := match p_chunks P with [] => 0 | t :: _ => wrap (c_id t + 1) end). set (c := Chunk _ [] nc nc p 0 id).
    assert (Hid : 0 <= id < N + 1 /\ forall x, x ∈ p_chunks P -> c_id x < id).
    { pose proof (pk_sorted _ _ _ HP) as Hs. subst c id. destruct (p_chunks P) as [|t r] eqn:Ecs.
      - split; [|by intros ? ?%elem_of_nil]. lia.
      - pose proof (pk_ids _ _ _ HP t ltac:(rewrite Ecs; by left)). rewrite pwrap_id by lia. split; [lia|]. intros x [-> | Hx]%elem_of_cons; [lia|].
        cbn in Hs. inversion Hs as [|? ? _ Hall]; subst. rewrite Forall_forall in Hall. pose proof (Hall (c_id x) ltac:(apply elem_of_list_fmap; by exists x)). lia. }
    destruct Hid as [Hid1 Hid2].
    assert (Hc : chunk_ok (p_log P) c).
    { constructor; cbn; try lia; [constructor|intros b Hb; by apply elem_of_nil in Hb|]. unfold PoolProofs.csz; cbn. lia. }
    assert (Hd : forall x, x ∈ p_chunks P -> disj p (nc * 2 ^ p_log P + CH) (c_base x) (csz (p_log P) x)).
    { intros x Hx. apply (H3 _ _ (2 ^ p_log P)). unfold PoolProofs.blks. apply elem_of_list_fmap. by exists x. }
    split; [|repeat split; try done; [|lia]].
    2:{ apply (avail_fcnt A (p_log P) c Hc). cbn. lia. }
    constructor; cbn.
    + done.
    + intros x [-> | Hx]%elem_of_cons; [done|]. by apply (pk_chunks _ _ _ HP).
    + intros x [-> | Hx]%elem_of_cons; [cbn; lia|]. pose proof (pk_ids _ _ _ HP x Hx). lia.
    + constructor; [apply HP|]. rewrite Forall_forall. intros i (x & -> & Hx)%elem_of_list_fmap. by apply Hid2.
    + intros x y [-> | Hx]%elem_of_cons [-> | Hy]%elem_of_cons; [by left|..].
      * right. unfold PoolProofs.csz at 1. cbn. by apply Hd.
      * right. apply disj_sym. unfold PoolProofs.csz at 1. cbn. by apply Hd.
      * by apply (pk_disj _ _ _ HP).
    + exists c. split; [by left|]. split; [done|]. intros x [-> | Hx]%elem_of_cons Hlt; [lia|]. by apply Hfull.
    + intros h [= <-]. exists c. split; [by left|]. done.
    + rewrite (pwrap_id A (nc * 2)) by nia. rewrite (pwrap_id A (PMAX - CH)) by lia. rewrite Z.shiftr_div_pow2 by done.
      assert (Hq : (PMAX - CH) / 2 ^ p_log P * 2 ^ p_log P <= PMAX - CH) by (rewrite Z.mul_comm; apply Z.mul_div_le; lia).
      assert (1 <= (PMAX - CH) / 2 ^ p_log P) by (apply Z.div_le_lower_bound; lia).
      split; [lia|]. right. nia.
  - cbn. split; [|split; [done|split; [done|by eexists]]]. constructor; cbn; try apply HP; [done|]. lia.
Qed.

Lemma allocate_ok N mb P o up P' o' ev r : pool_ok N P -> words (p_log P) (p_chunks P) o -> 0 <= N < W -> 1 <= mb <= PMAX ->
  P_allocate A mb P o up = (P', o', ev, r) ->
  (forall q k b, EUp q k b ∈ ev -> 0 < q /\ q + k <= W /\ q mod b = 0 /\ forall q' k' b', (q', k', b') ∈ blks P -> disj q k q' k') ->
  p_log P' = p_log P /\
  match r with
  | ROk b => words (p_log P) (p_chunks P') o' /\ ~ alloced (p_log P) (p_chunks P) b /\
      (forall q, alloced (p_log P) (p_chunks P) q -> alloced (p_log P) (p_chunks P') q) /\ alloced (p_log P) (p_chunks P') b /\
      ((ev = [] /\ pool_ok N P' /\ blks P' = blks P /\ frame (blks P) o o') \/
       (exists c, ev = [EUp (c_base c) (csz (p_log P) c) (2 ^ p_log P)] /\ pool_ok (N + 1) P' /\ blks P' = blk (p_log P) c :: blks P /\ frame (blks P') o o' /\ 0 < csz (p_log P) c < W /\
         1 <= c_cap c <= mb /\ forall x, x ∈ p_chunks P -> c_fcnt x = 0))
  | RThrow => pool_ok N P' /\ p_chunks P' = p_chunks P /\ o' = o /\ ev = [] /\ (exists k, up k (2 ^ p_log P) = None) /\ forall x, x ∈ p_chunks P -> c_fcnt x = 0
  | RStuck => False
  end.
Proof.
  intros HP Hw HN Hmb E Hup. pose proof (pk_log _ _ _ HP) as HL. pose proof (W_big A HA) as HWb.
  unfold P_allocate in E. cbv zeta in E. set (grow := match Increase_capacity A mb P o up with inl P' => _ | inr _ => _ end) in E.
  assert (Hgrow : (forall c, c ∈ p_chunks P -> c_fcnt c = 0) -> grow = (P', o', ev, r) -> p_log P' = p_log P /\
    match r with
    | ROk b => words (p_log P) (p_chunks P') o' /\ ~ alloced (p_log P) (p_chunks P) b /\
        (forall q, alloced (p_log P) (p_chunks P) q -> alloced (p_log P) (p_chunks P') q) /\ alloced (p_log P) (p_chunks P') b /\
        ((ev = [] /\ pool_ok N P' /\ blks P' = blks P /\ frame (blks P) o o') \/
         (exists c, ev = [EUp (c_base c) (csz (p_log P) c) (2 ^ p_log P)] /\ pool_ok (N + 1) P' /\ blks P' = blk (p_log P) c :: blks P /\ frame (blks P') o o' /\ 0 < csz (p_log P) c < W /\
           1 <= c_cap c <= mb /\ forall x, x ∈ p_chunks P -> c_fcnt x = 0))
    | RThrow => pool_ok N P' /\ p_chunks P' = p_chunks P /\ o' = o /\ ev = [] /\ (exists k, up k (2 ^ p_log P) = None) /\ forall x, x ∈ p_chunks P -> c_fcnt x = 0
    | RStuck => False
    end).
  { intros Hfull. subst grow. pose proof (increase_ok N mb P o up HP HN Hmb Hfull) as Hi. clear E.
    destruct (Increase_capacity A mb P o up) as [P1|[[P1 o1] ev1]].
    - intros [= <- <- <- <-]. destruct Hi as (H1 & H2 & H3 & H4). done.
    - destruct Hi as (c & -> & Hi). intros E.
      assert (Hev : ev = [EUp (c_base c) (csz (p_log P) c) (2 ^ p_log P)]).
      { destruct (p_chunks P1) as [|c1 ?]; [congruence|]. destruct (avail c1); [|congruence]. destruct (P_take A P1 c1 o1) as [[? ?] ?]. congruence. }
      destruct (Hup (c_base c) (csz (p_log P) c) (2 ^ p_log P)) as (U1 & U2 & U3 & U4); [rewrite Hev; by left|].
      destruct (Hi U1 U2 U3 U4) as (HP1 & El & Ecs & Hav & Hnx & Eo & Hcap). rewrite Ecs, Hav in E.
      destruct (P_take A P1 c o1) as [[P2 o2] b] eqn:Et. injection E as <- <- _ <-.
      assert (Hc1 : c ∈ p_chunks P1) by (rewrite Ecs; by left).
      pose proof (pk_chunks _ _ _ HP1 c Hc1) as K1.
      assert (Hdisj : forall x, x ∈ p_chunks P -> disj (c_base c) (csz (p_log P) c) (c_base x) (csz (p_log P) x)).
      { intros x Hx. apply (U4 _ _ (2 ^ p_log P)). unfold PoolProofs.blks. apply elem_of_list_fmap. by exists x. }
      assert (Hcp : 0 < csz (p_log P) c). { rewrite <- El. pose proof (csz_pos A HA (p_log P1) c (pk_log _ _ _ HP1) K1). pose proof (CH_eq A). lia. }
      assert (Hw1 : words (p_log P1) (p_chunks P1) o1).
      { intros x i Hx Hxi. rewrite Ecs in Hx. apply elem_of_cons in Hx as [-> | Hx]; [lia|]. rewrite El. rewrite Eo, clob_keep; [by apply Hw| |done].
        pose proof (ck_next _ _ _ (pk_chunks _ _ _ HP x Hx)). destruct (slot_in N P x i HP Hx ltac:(lia)) as (S1 & S2 & S3 & S4 & S5). pose proof (Hdisj x Hx). pose proof (CH_eq A).
        destruct HL as (HL1 & HL2 & HL3). unfold disj in *. lia. }
      assert (Hbig : forall x, x ∈ p_chunks P1 -> c_id c < c_id x -> c_fcnt x = 0).
      { intros x Hx Hlt. rewrite Ecs in Hx. apply elem_of_cons in Hx as [-> | Hx]; [lia|]. by apply Hfull. }
      destruct (take_ok (N + 1) P1 c o1 P2 o2 b HP1 Hw1 Hc1 Hav Hbig Et) as (HP2 & El2 & Eb2 & Hw2 & Hna & Hmono & Hal & Hfr).
      rewrite El in *. split; [congruence|]. split; [done|].
      assert (Hsub : forall q, alloced (p_log P) (p_chunks P) q -> alloced (p_log P) (p_chunks P1) q).
      { intros q (x & i & Hx & ?). exists x, i. split; [rewrite Ecs; by right|done]. }
      split; [naive_solver|]. split; [naive_solver|]. split; [done|]. right. exists c. split; [done|]. split; [done|].
      assert (Eb1 : blks P1 = blk (p_log P) c :: blks P). { unfold PoolProofs.blks. rewrite Ecs, El. done. }
      split; [congruence|]. split.
      + rewrite Eb2. intros y Hy. rewrite (Hfr y Hy), Eo. apply clob_keep; [|done]. apply (Hy _ _ (2 ^ p_log P)). rewrite Eb1. by left.
      + split; [|split; [split; [by apply (ck_cap _ _ _ K1)|done]|done]]. split; [done|]. by apply (cap_bound A HA (p_log P) c HL K1). }
  pose proof (pk_unfull _ _ _ HP) as Hu. destruct (p_unfull P) as [h|]; [|by apply Hgrow].
  destruct Hu as (u & Huin & Euh & Hbig).
  destruct (fromc_spec h (p_chunks P)) as [(l1 & u' & l2 & Ecs & Eu' & Ef)|[_ Hno]]; [|exfalso; by apply (Hno u)].
  rewrite Ef in E. assert (u' = u) as ->. { eapply (hdr_inj A HA N P); [done|rewrite Ecs; apply elem_of_app; right; by left|done|congruence]. }
  pose proof (scan_spec (u :: l2)) as Hs.
  assert (Hl1 : forall x, x ∈ l1 -> c_fcnt x = 0).
  { intros x Hx. apply Hbig; [rewrite Ecs; apply elem_of_app; by left|]. pose proof (pk_sorted _ _ _ HP) as Hso. rewrite Ecs in Hso.
    clear -Hso Hx. induction l1 as [|y l1 IH]; [by apply elem_of_nil in Hx|]. cbn in Hso. inversion Hso as [|? ? Hs' Hall]; subst.
    apply elem_of_cons in Hx as [-> | Hx]; [|by apply IH]. rewrite Forall_forall in Hall. apply Hall. apply elem_of_list_fmap. exists u. split; [done|]. apply elem_of_app. right. by left. }
  assert (Hna : forall x, x ∈ p_chunks P -> avail x = false -> c_fcnt x = 0).
  { intros x Hx Hf. destruct (decide (c_fcnt x = 0)) as [?|Hn]; [done|]. pose proof (pk_chunks _ _ _ HP x Hx) as Kx. apply (avail_fcnt A _ x Kx) in Hn. congruence. }
  destruct (scan (u :: l2)) as [c|].
  - destruct Hs as (m1 & m2 & Em & Hav & Hm1). destruct (P_take A P c o) as [[P2 o2] b] eqn:Et. injection E as <- <- <- <-.
    assert (Ecs2 : p_chunks P = (l1 ++ m1) ++ c :: m2) by (rewrite Ecs, Em; by rewrite <- app_assoc).
    assert (Hcin : c ∈ p_chunks P) by (rewrite Ecs2; apply elem_of_app; right; by left).
    assert (Hb : forall x, x ∈ p_chunks P -> c_id c < c_id x -> c_fcnt x = 0).
    { intros x Hx Hlt. pose proof (pk_sorted _ _ _ HP) as Hso. pose proof Hx as Hx'. rewrite Ecs2 in Hso, Hx'. pose proof (sorted_split (l1 ++ m1) m2 c x Hso Hx' Hlt) as [Hx1|Hx1]%elem_of_app; [by apply Hl1|].
      apply Hna; [done|]. by apply Hm1. }
    destruct (take_ok N P c o P2 o2 b HP Hw Hcin Hav Hb Et) as (HP2 & El2 & Eb2 & Hw2 & Hn2 & Hmono & Hal & Hfr).
    split; [done|]. split; [done|]. split; [done|]. split; [done|]. split; [done|]. left. done.
  - apply Hgrow; [|done]. intros x Hx. pose proof Hx as Hx'. rewrite Ecs in Hx'. apply elem_of_app in Hx' as [Hx'|Hx']; [by apply Hl1|]. apply Hna; [done|]. by apply Hs.
Qed.
End pool.
