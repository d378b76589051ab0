From stdpp Require Import base list numbers list_numbers option decidable sorting.
From Coq Require Import ZArith Lia.
From Verif Require Import Mem.MonoModel Mem.PoolModel Mem.PoolSpec.
Local Open Scope Z_scope.

Section pool.
Context (A : Z) (HA : A = 4 \/ A = 8).
Notation W := (W A). Notation wrap := (wrap A). Notation CH := (CH A). Notation PMAX := (PTRDIFF_MAX A).
Ltac ww := unfold PoolModel.PTRDIFF_MAX, PoolModel.CH, PoolModel.OH in *; unfold MonoModel.W in *; destruct HA as [-> | ->];
  change (2 ^ (8 * 4)) with 4294967296 in *; change (2 ^ (8 * 8)) with 18446744073709551616 in *.
Lemma pwrap_id x : 0 <= x < W -> wrap x = x.
Proof. apply Z.mod_small. Qed.
Lemma W_big : 1000 < W /\ A * 100 < W /\ W mod 32 = 0 /\ 4 <= A <= 8.
Proof. ww; repeat split; (reflexivity || lia). Qed.
Lemma PMAX_eq : 2 * PMAX + 2 = W.
Proof. ww; reflexivity. Qed.
Lemma CH_eq : CH = 7 * A.
Proof. reflexivity. Qed.
(** the facts about block sizes that the rest uses *)
Definition lok (L : Z) : Prop := 0 <= L /\ 2 * A <= 2 ^ L /\ 8 * 2 ^ L <= W.
Lemma bsz_eq L : lok L -> bsz L = 2 ^ L.
Proof. intros [H0 _]. unfold bsz. rewrite Z.shiftl_mul_pow2 by lia. lia. Qed.
Lemma clog2_spec v : 2 <= v < W -> v <= 2 ^ clog2 A v < 2 * v /\ 1 <= clog2 A v.
Proof.
  intros Hv. unfold clog2. rewrite pwrap_id by lia. pose proof (Z.log2_spec (v - 1) ltac:(lia)) as [H1 H2].
  pose proof (Z.log2_nonneg (v - 1)). rewrite Z.add_1_l, Z.pow_succ_r in * by lia. lia.
Qed.
Lemma flog_ok n a : 0 < n <= W / 32 -> pow2 A a -> a <= W / 8 -> lok (flog A n a) /\ n + A <= 2 ^ flog A n a /\ 2 ^ flog A n a mod a = 0 /\ 2 ^ flog A n a mod A = 0.
Proof.
  intros Hn (k & Hk & ->) Ha. pose proof W_big as (HW1 & HW2 & HW3 & HA').
  assert (Hn' : n + A <= W / 8) by (Z.div_mod_to_equations; lia).
  assert (HW8 : W / 8 < W) by (Z.div_mod_to_equations; lia).
  unfold flog. rewrite (pwrap_id (n + A)) by lia. set (v := Z.max (n + A) (2 ^ k)).
  assert (Hv : 5 <= v <= W / 8 /\ n + A <= v /\ 2 ^ k <= v) by lia. clearbody v.
  destruct (clog2_spec v ltac:(lia)) as [[H1 H2] H3]. set (L := clog2 A v) in *.
  assert (HL3 : 2 ^ L <= W / 8).
  { assert (E : W / 8 = 2 ^ (8 * A - 3)). { ww; reflexivity. } rewrite E in *. apply Z.pow_le_mono_r; [lia|].
    assert (HLt : 2 ^ L < 2 ^ (8 * A - 3 + 1)). { rewrite Z.pow_add_r by lia. change (2 ^ 1) with 2. lia. }
    apply Z.pow_lt_mono_r_iff in HLt; lia. }
  assert (H2A : exists j, 0 <= j <= L /\ 2 * A = 2 ^ j).
  { destruct HA as [-> | ->].
    - exists 3. split; [|reflexivity]. assert (HLt : 2 ^ 2 < 2 ^ L) by (change (2 ^ 2) with 4; lia). apply Z.pow_lt_mono_r_iff in HLt; lia.
    - exists 4. split; [|reflexivity]. assert (HLt : 2 ^ 3 < 2 ^ L) by (change (2 ^ 3) with 8; lia). apply Z.pow_lt_mono_r_iff in HLt; lia. }
  destruct H2A as (j & Hj & Ej).
  assert (Hpp : forall x y, 0 <= x <= y -> 2 ^ y mod 2 ^ x = 0).
  { intros x y Hxy. replace y with (y - x + x) by lia. rewrite Z.pow_add_r by lia. apply Z.mod_mul, Z.pow_nonzero; lia. }
  assert (HkL : k <= L). { apply (Z.pow_le_mono_r_iff 2); lia. }
  repeat split; try lia.
  - rewrite Ej. apply Z.pow_le_mono_r; lia.
  - Z.div_mod_to_equations; lia.
  - apply Hpp. lia.
  - assert (EA : exists j, 0 <= j <= L /\ A = 2 ^ j).
    { exists (j - 1). destruct (decide (j = 0)) as [-> | ]; [change (2 ^ 0) with 1 in Ej; lia|]. split; [lia|].
      replace j with (1 + (j - 1)) in Ej by lia. rewrite Z.pow_add_r in Ej by lia. change (2 ^ 1) with 2 in Ej. lia. }
    destruct EA as (j' & Hj' & EA). rewrite EA at 1. by apply Hpp.
Qed.
Lemma Setup_ok m l : 0 <= m < W -> 0 <= l < W -> 1 <= Setup_max A m <= PMAX /\ A <= Setup_largest A l <= W / 32.
Proof.
  intros Hm Hl. pose proof W_big as (HW1 & HW2 & HW3 & HA'). pose proof PMAX_eq. split.
  - unfold Setup_max. case_decide as Hd; [lia|]. destruct (decide (m = 0)) as [-> | ].
    + assert (E : wrap (0 - 1) = W - 1) by (ww; reflexivity). rewrite E in Hd. lia.
    + rewrite pwrap_id in Hd by lia. lia.
  - unfold Setup_largest. assert (E : Z.shiftr PMAX 4 + 1 = W / 32) by (ww; reflexivity). rewrite E.
    assert (W / 32 * 32 = W) by (Z.div_mod_to_equations; lia). case_decide as Hd; [lia|].
    case_decide as Hd2; [lia|]. destruct (decide (l = 0)) as [-> | ].
    + assert (E0 : wrap (0 - 1) = W - 1) by (ww; reflexivity). rewrite E0 in *. lia.
    + rewrite pwrap_id in * by lia. destruct (clog2_spec l ltac:(lia)) as [[H1 H2] H3]. rewrite Z.shiftl_mul_pow2 by lia. rewrite Z.mul_1_l.
      split; [lia|]. assert (E5 : W / 32 = 2 ^ (8 * A - 5)) by (ww; reflexivity). rewrite E5 in *.
      apply Z.pow_le_mono_r; [lia|]. assert (HLt : 2 ^ clog2 A l < 2 ^ (8 * A - 5 + 1)). { rewrite Z.pow_add_r by lia. change (2 ^ 1) with 2. lia. }
      apply Z.pow_lt_mono_r_iff in HLt; lia.
Qed.

Definition csz (L : Z) (c : chunk) : Z := c_cap c * 2 ^ L + CH.
Record chunk_ok (L : Z) (c : chunk) : Prop := {
  ck_cap : 1 <= c_cap c;
  ck_next : 0 <= c_next c <= c_cap c;
  ck_fcnt : c_fcnt c = c_cap c - c_next c + Z.of_nat (length (c_free c));
  ck_nodup : NoDup (c_free c);
  ck_free : forall b, b ∈ c_free c -> exists i, 0 <= i < c_next c /\ b = c_base c + i * 2 ^ L;
  ck_hdr : c_hdr c = c_base c + c_cap c * 2 ^ L;
  ck_base : 0 < c_base c;
  ck_end : c_base c + csz L c <= W;
  ck_mod : c_base c mod 2 ^ L = 0 }.
Definition slots (L : Z) (c : chunk) : list Z := (fun i => c_base c + i * 2 ^ L) <$> seqZ 0 (c_next c).
Lemma free_len L c : chunk_ok L c -> Z.of_nat (length (c_free c)) <= c_next c /\
  (Z.of_nat (length (c_free c)) = c_next c -> forall i, 0 <= i < c_next c -> c_base c + i * 2 ^ L ∈ c_free c).
Proof.
  intros Hc. assert (Hl : Z.of_nat (length (slots L c)) = c_next c).
  { unfold slots. rewrite fmap_length, seqZ_length. pose proof (ck_next _ _ Hc). lia. }
  assert (Hi : incl (c_free c) (slots L c)).
  { intros b Hb. apply elem_of_list_In in Hb. destruct (ck_free _ _ Hc b Hb) as (i & Hi & ->). apply elem_of_list_In. unfold slots.
    apply elem_of_list_fmap. exists i. split; [done|]. apply elem_of_seqZ. lia. }
  assert (Hn : List.NoDup (c_free c)) by (apply NoDup_ListNoDup, Hc).
  split.
  - pose proof (NoDup_incl_length Hn Hi). lia.
  - intros E i Hi'. apply elem_of_list_In. apply (NoDup_length_incl (l' := slots L c) Hn); [lia|done|]. apply elem_of_list_In. unfold slots.
    apply elem_of_list_fmap. exists i. split; [done|]. apply elem_of_seqZ. lia.
Qed.
Lemma fcnt_bounds L c : chunk_ok L c -> 0 <= c_fcnt c <= c_cap c.
Proof. intros Hc. pose proof (free_len L c Hc) as [H1 _]. pose proof (ck_fcnt _ _ Hc). pose proof (ck_next _ _ Hc). lia. Qed.
Lemma avail_fcnt L c : chunk_ok L c -> (avail c = true <-> c_fcnt c <> 0).
Proof.
  intros Hc. pose proof (ck_fcnt _ _ Hc). pose proof (ck_next _ _ Hc). unfold avail. rewrite orb_true_iff, !bool_decide_eq_true.
  destruct (c_free c) as [|b fs] eqn:E; cbn [length] in *; [|split; [lia|intros _; by left]]. split; [intros [?|?]; [done|lia]|right; lia].
Qed.
Lemma cap_bound L c : lok L -> chunk_ok L c -> c_cap c < W /\ csz L c < W.
Proof. intros (H1 & H2 & H3) Hc. pose proof (ck_end _ _ Hc). pose proof (ck_base _ _ Hc). pose proof (ck_cap _ _ Hc). unfold csz in *. pose proof CH_eq. pose proof W_big. nia. Qed.
Lemma Size_ok L c : lok L -> chunk_ok L c -> Size_for_capacity A L (c_cap c) = csz L c.
Proof.
  intros HL Hc. pose proof (cap_bound L c HL Hc) as [H1 H2]. unfold Size_for_capacity. destruct HL as (HL & HB & _). rewrite Z.shiftl_mul_pow2 by done.
  unfold csz in *. pose proof (ck_cap _ _ Hc). pose proof CH_eq. pose proof W_big. rewrite (pwrap_id (c_cap c * 2 ^ L)) by nia. apply pwrap_id. nia.
Qed.

Lemma take_block_ok L c o b c' o' : lok L -> chunk_ok L c -> avail c = true -> take_block A L c o = (b, c', o') ->
  chunk_ok L c' /\ c_hdr c' = c_hdr c /\ c_base c' = c_base c /\ c_cap c' = c_cap c /\ c_id c' = c_id c /\
  ((exists fs, c_free c = b :: fs /\ c_free c' = fs /\ c_next c' = c_next c /\ o' = o) \/
   (c_free c = [] /\ c_free c' = [] /\ b = c_base c + c_next c * 2 ^ L /\ c_next c' = c_next c + 1 /\ c_next c < c_cap c /\ o' = setw A (b + 2 ^ L - A) (c_hdr c) o)).
Proof.
  intros HL Hc Hav E. pose proof (fcnt_bounds L c Hc) as Hf. pose proof (proj1 (avail_fcnt L c Hc) Hav) as Hnz. pose proof (cap_bound L c HL Hc) as [Hcb Hsz].
  unfold take_block in E. rewrite bsz_eq in E by done. rewrite (pwrap_id (c_fcnt c - 1)) in E by lia.
  destruct Hc as [K1 K2 K3 K4 K5 K6 K7 K8 K9]. destruct (c_free c) as [|b0 fs] eqn:Ef; cbn [length] in *.
  - assert (Hlt : c_next c < c_cap c) by lia. destruct HL as (HL1 & HL2 & HL3). pose proof W_big. unfold csz in *. pose proof CH_eq.
    assert (Hp : (c_next c + 1) * 2 ^ L <= c_cap c * 2 ^ L) by (apply Z.mul_le_mono_nonneg_r; lia).
    assert (0 <= c_next c * 2 ^ L) by (apply Z.mul_nonneg_nonneg; lia).
    rewrite (pwrap_id (c_next c * 2 ^ L)) in E by lia. rewrite (pwrap_id (c_base c + _)) in E by lia. rewrite (pwrap_id (_ + 2 ^ L)) in E by lia.
    rewrite (pwrap_id (_ - A)) in E by lia. rewrite (pwrap_id (c_next c + 1)) in E by lia. injection E as <- <- <-.
    split; [|cbn; repeat split; try done; right; done].
    constructor; cbn; [lia|lia|lia|constructor|intros b Hb; by apply elem_of_nil in Hb|done|done|done|done].
  - injection E as <- <- <-. split; [|cbn; repeat split; try done; left; by exists fs].
    constructor; cbn; [lia|lia|lia|by inversion K4|intros b Hb; apply K5; by right|done|done|done|done].
Qed.

(** a block of the pool that is handed out; the owner pointers of all blocks cut so far *)
Definition alloced (L : Z) (cs : list chunk) (p : Z) : Prop := exists c i, c ∈ cs /\ 0 <= i < c_next c /\ p = c_base c + i * 2 ^ L /\ p ∉ c_free c.
Definition words (L : Z) (cs : list chunk) (o : Z -> option Z) : Prop :=
  forall c i, c ∈ cs -> 0 <= i < c_next c -> o (c_base c + i * 2 ^ L + 2 ^ L - A) = Some (c_hdr c).
Definition blk (L : Z) (c : chunk) : Z * Z * Z := (c_base c, csz L c, 2 ^ L).
Definition blks (P : pool) : list (Z * Z * Z) := blk (p_log P) <$> p_chunks P.
Record pool_ok (N : Z) (P : pool) : Prop := {
  pk_log : lok (p_log P);
  pk_chunks : forall c, c ∈ p_chunks P -> chunk_ok (p_log P) c;
  pk_ids : forall c, c ∈ p_chunks P -> 0 <= c_id c < N;
  pk_sorted : StronglySorted (fun a b => b < a) (c_id <$> p_chunks P);
  pk_disj : forall c c', c ∈ p_chunks P -> c' ∈ p_chunks P -> c = c' \/ disj (c_base c) (csz (p_log P) c) (c_base c') (csz (p_log P) c');
  pk_unfull : match p_unfull P with
              | None => forall c, c ∈ p_chunks P -> c_fcnt c = 0
              | Some h => exists u, u ∈ p_chunks P /\ c_hdr u = h /\ forall c, c ∈ p_chunks P -> c_id u < c_id c -> c_fcnt c = 0
              end;
  pk_empty : forall h, p_empty P = Some h -> exists e, e ∈ p_chunks P /\ c_hdr e = h /\ c_fcnt e = c_cap e;
  pk_ncap : 1 <= p_ncap P /\ (p_ncap P <= 4 \/ p_ncap P * 2 ^ p_log P + CH <= PMAX) }.

Lemma sorted_inj (l : list chunk) c c' : StronglySorted (fun a b => b < a) (c_id <$> l) -> c ∈ l -> c' ∈ l -> c_id c = c_id c' -> c = c'.
Proof.
  induction l as [|x l IH]; [by intros _ ?%elem_of_nil|]. cbn. intros Hs Hc Hc' E. inversion Hs as [|? ? Hs' Hall]; subst.
  rewrite Forall_forall in Hall. apply elem_of_cons in Hc as [-> | Hc], Hc' as [-> | Hc'].
  - done.
  - pose proof (Hall (c_id c') ltac:(apply elem_of_list_fmap; by exists c')). lia.
  - pose proof (Hall (c_id c) ltac:(apply elem_of_list_fmap; by exists c)). lia.
  - by apply IH.
Qed.
Lemma sorted_split (l1 l2 : list chunk) x c : StronglySorted (fun a b => b < a) (c_id <$> l1 ++ x :: l2) -> c ∈ l1 ++ x :: l2 -> c_id x < c_id c -> c ∈ l1.
Proof.
  induction l1 as [|y l1 IH]; cbn; intros Hs Hc Hlt.
  - inversion Hs as [|? ? _ Hall]; subst. rewrite Forall_forall in Hall. apply elem_of_cons in Hc as [-> | Hc]; [lia|].
    pose proof (Hall (c_id c) ltac:(apply elem_of_list_fmap; by exists c)). lia.
  - inversion Hs as [|? ? Hs' _]; subst. apply elem_of_cons in Hc as [-> | Hc]; [by left|]. right. by apply IH.
Qed.
Lemma csz_pos L c : lok L -> chunk_ok L c -> CH < csz L c.
Proof. intros (H1 & H2 & _) Hc. pose proof (ck_cap _ _ Hc). unfold csz. pose proof CH_eq. pose proof W_big. nia. Qed.
Lemma hdr_inj N P c c' : pool_ok N P -> c ∈ p_chunks P -> c' ∈ p_chunks P -> c_hdr c = c_hdr c' -> c = c'.
Proof.
  intros HP Hc Hc' E. destruct (pk_disj _ _ HP c c' Hc Hc') as [?|Hd]; [done|]. exfalso.
  pose proof (pk_chunks _ _ HP c Hc) as K. pose proof (pk_chunks _ _ HP c' Hc') as K'. pose proof (ck_hdr _ _ K). pose proof (ck_hdr _ _ K').
  pose proof (csz_pos _ _ (pk_log _ _ HP) K). pose proof (csz_pos _ _ (pk_log _ _ HP) K'). pose proof CH_eq. pose proof W_big. unfold disj, csz in *. lia.
Qed.
Lemma elem_upd h c' l x : x ∈ upd h c' l <-> (x = c' /\ exists c, c ∈ l /\ c_hdr c = h) \/ (x ∈ l /\ c_hdr x <> h).
Proof.
  unfold upd. rewrite elem_of_list_In, in_map_iff. split.
  - intros (c & E & Hc). apply elem_of_list_In in Hc. case_decide; subst; [left; split; [done|by exists c]|by right].
  - intros [(-> & c & Hc & E)|[Hx Hn]].
    + exists c. rewrite decide_True by done. split; [done|]. by apply elem_of_list_In.
    + exists x. rewrite decide_False by done. split; [done|]. by apply elem_of_list_In.
Qed.
Lemma upd_fmap {B} (f : chunk -> B) h c' l : (forall c, c ∈ l -> c_hdr c = h -> f c' = f c) -> f <$> upd h c' l = f <$> l.
Proof.
  induction l as [|x l IH]; [done|]. intros Hf. cbn. f_equal.
  - case_decide; [apply Hf; [by left|done]|done].
  - apply IH. intros c Hc. apply Hf. by right.
Qed.
Lemma findc_Some h l c : findc h l = Some c -> c ∈ l /\ c_hdr c = h.
Proof. induction l as [|x l IH]; [done|]. cbn. case_decide; [intros [= ->]; split; [by left|done]|]. intros [? ?]%IH. split; [by right|done]. Qed.
Lemma findc_ex h l c : c ∈ l -> c_hdr c = h -> exists c', findc h l = Some c'.
Proof. induction l as [|x l IH]; [by intros ?%elem_of_nil|]. cbn. intros Hc E. case_decide; [by eexists|]. apply IH; [|done]. apply elem_of_cons in Hc as [-> | ?]; [congruence|done]. Qed.
Lemma fromc_spec h l : (exists l1 c l2, l = l1 ++ c :: l2 /\ c_hdr c = h /\ fromc h l = c :: l2) \/ (fromc h l = [] /\ forall c, c ∈ l -> c_hdr c <> h).
Proof.
  induction l as [|x l IH]; [right; split; [done|by intros ? ?%elem_of_nil]|]. cbn. case_decide as Hd; [left; by exists [], x, l|].
  destruct IH as [(l1 & c & l2 & -> & E1 & E2)|[E1 E2]]; [left; by exists (x :: l1), c, l2|right]. split; [done|]. intros c [-> | Hc]%elem_of_cons; [done|by apply E2].
Qed.
Lemma scan_spec l : match scan l with
  | Some c => exists l1 l2, l = l1 ++ c :: l2 /\ avail c = true /\ forall x, x ∈ l1 -> avail x = false
  | None => forall x, x ∈ l -> avail x = false end.
Proof.
  induction l as [|x l IH]; [by intros ? ?%elem_of_nil|]. cbn. destruct (avail x) eqn:E; [exists [], l; split; [done|split; [done|by intros ? ?%elem_of_nil]]|].
  destruct (scan l) as [c|].
  - destruct IH as (l1 & l2 & -> & Ha & Hf). exists (x :: l1), l2. split; [done|]. split; [done|]. intros y [-> | Hy]%elem_of_cons; [done|by apply Hf].
  - intros y [-> | Hy]%elem_of_cons; [done|by apply IH].
Qed.
(** slots of two chunks of one pool coincide or are disjoint *)
Lemma slot_disj N P c c' i i' : pool_ok N P -> c ∈ p_chunks P -> c' ∈ p_chunks P -> 0 <= i < c_cap c -> 0 <= i' < c_cap c' ->
  let p := c_base c + i * 2 ^ p_log P in let p' := c_base c' + i' * 2 ^ p_log P in
  (p <> p' -> disj p (2 ^ p_log P) p' (2 ^ p_log P)) /\ (p = p' -> c = c' /\ i = i').
Proof.
  intros HP Hc Hc' Hi Hi' p p'. pose proof (pk_log _ _ HP) as (HL1 & HL2 & HL3). pose proof W_big. set (B := 2 ^ p_log P) in *.
  destruct (pk_disj _ _ HP c c' Hc Hc') as [<- | Hd].
  - split; [|intros E; split; [done|nia]]. intros Hne. assert (i < i' \/ i' < i) as [Hl|Hl] by (assert (i <> i') by (intros ->; done); lia); unfold disj, p, p'; nia.
  - unfold csz in Hd. fold B in Hd. pose proof CH_eq. assert (i * B + B <= c_cap c * B) by nia. assert (i' * B + B <= c_cap c' * B) by nia. assert (0 <= i * B) by nia. assert (0 <= i' * B) by nia.
    pose proof (ck_cap _ _ (pk_chunks _ _ HP c Hc)). pose proof (ck_cap _ _ (pk_chunks _ _ HP c' Hc')).
    unfold disj, p, p' in *. split; [lia|]. intros E. exfalso. nia.
Qed.
End pool.
