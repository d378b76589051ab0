(** Proofs about the property tables, the width estimate and [_Measure_string_prefix]. *)
From Coq Require Import Lia ZArith.
From stdpp Require Import base list numbers.
From Verif.Unicode Require Import UtfModel UtfSpec UtfProofs2 GraphemeModel GraphemeSpec GraphemeProofs GraphemeProofs2 UcdTables.
Local Open Scope Z_scope.

(** ** Tables *)
(** Strictly increasing lists. *)
Fixpoint incr (l : list Z) : Prop := match l with a :: (b :: _) as t => a < b /\ incr t | _ => True end.
Fixpoint incrb (l : list Z) : bool := match l with a :: (b :: _) as t => (a <? b) && incrb t | _ => true end.
Lemma incrb_sound l : incrb l = true -> incr l.
Proof.
  induction l as [|a [|b l] IH]; [done|done|]. cbn. intros H. apply andb_prop in H as [H1 H2].
  apply Z.ltb_lt in H1. split; [done|]. by apply IH.
Qed.
Lemma incr_tail a l : incr (a :: l) -> incr l.
Proof. destruct l; [done|]. by intros [_ H]. Qed.
Lemma incr_lt a l : incr (a :: l) -> Forall (fun b => a < b) l.
Proof.
  revert a. induction l as [|b l IH]; intros a H; [constructor|]. destruct H as [H1 H2]. constructor; [done|].
  eapply Forall_impl; [|by apply IH]. intros c Hc. cbn in Hc. lia.
Qed.

Lemma ub_index_le l c : (ub_index l c <= length l)%nat.
Proof. induction l as [|b l IH]; cbn; [lia|]. destruct (c <? b); lia. Qed.
Lemma ub_index_spec l c i b : incr l -> l !! i = Some b -> (i < ub_index l c)%nat <-> b <= c.
Proof.
  revert i. induction l as [|a l IH]; intros i Hs Hb; [done|]. cbn [ub_index].
  pose proof (incr_lt a l Hs) as Hlt. rewrite Forall_forall in Hlt. destruct (Z.ltb_spec c a) as [Hc | Hc].
  - split; [lia|]. intros Hbc. destruct i as [|i]; [injection Hb as <-; lia|].
    cbn in Hb. apply elem_of_list_lookup_2, elem_of_list_In in Hb. specialize (Hlt b Hb). cbn in Hlt. lia.
  - destruct i as [|i]; [injection Hb as <-; split; lia|]. cbn in Hb.
    rewrite <- (IH i) by (done || by eapply incr_tail). lia.
Qed.

Lemma size_bits d : Z.land d 4095 = d mod 4096.
Proof. change 4095 with (Z.ones 12). by rewrite Z.land_ones by lia. Qed.
Lemma prop_bits d : Z.shiftr (Z.land d 0xF000) 12 = (d / 4096) mod 16.
Proof.
  rewrite Z.shiftr_land. change (Z.shiftr 0xF000 12) with (Z.ones 4).
  rewrite Z.land_ones, Z.shiftr_div_pow2 by lia. done.
Qed.

Lemma get_property_spec binary bounds data c p :
  ranges_ordered binary bounds data -> (forall d, d ∈ data -> 0 < entry_size binary d) ->
  get_property binary bounds data c = Some p <->
  exists i d, data !! i = Some d /\ in_range binary bounds data i c /\ entry_prop binary d = p.
Proof.
  intros [Hlen Hord] Hpos.
  assert (Hinc : incr bounds).
  { assert (Hk : forall i a b, bounds !! i = Some a -> bounds !! S i = Some b -> a < b).
    { intros i a b Ha Hb. destruct (data !! i) as [d|] eqn:Ed.
      - destruct (Hord i a d b Ha Ed Hb). lia.
      - apply lookup_ge_None in Ed. apply lookup_lt_Some in Ha. lia. }
    clear - Hk. induction bounds as [|a [|b l] IH]; [done|done|]. split.
    - by apply (Hk O).
    - apply IH. intros i x y Hx Hy. by apply (Hk (S i)). }
  assert (Hnth : forall (l : list Z) i x, l !! i = Some x -> nth i l 0 = x).
  { intros l i x H. by apply nth_lookup_Some with (d := 0) in H. }
  assert (Hin : forall i, ub_index bounds c = S i -> exists lb d, bounds !! i = Some lb /\ data !! i = Some d /\ lb <= c).
  { intros i Hi. pose proof (ub_index_le bounds c). destruct (bounds !! i) as [lb|] eqn:Eb;
      [|apply lookup_ge_None in Eb; lia].
    destruct (data !! i) as [d|] eqn:Ed; [|apply lookup_ge_None in Ed; apply lookup_lt_Some in Eb; lia].
    exists lb, d. split_and!; [done|done|]. apply (ub_index_spec bounds c i lb Hinc Eb). lia. }
  assert (Huniq : forall i lb d, bounds !! i = Some lb -> data !! i = Some d -> lb <= c < lb + entry_size binary d ->
            ub_index bounds c = S i).
  { intros i lb d Hb Hd Hc. assert (H1 : (i < ub_index bounds c)%nat) by (apply (ub_index_spec bounds c i lb Hinc Hb); lia).
    destruct (decide (S i < ub_index bounds c)%nat) as [H2 | H2]; [|lia]. exfalso.
    pose proof (ub_index_le bounds c). destruct (bounds !! S i) as [lb'|] eqn:Eb; [|apply lookup_ge_None in Eb; lia].
    apply (ub_index_spec bounds c (S i) lb' Hinc Eb) in H2. destruct (Hord i lb d lb' Hb Hd Eb). lia. }
  unfold get_property. split.
  - destruct (ub_index bounds c) as [|i] eqn:Ei; [done|]. destruct (Hin i eq_refl) as (lb & d & Hb & Hd & Hle).
    rewrite (Hnth _ _ _ Hb), (Hnth _ _ _ Hd). destruct binary.
    + destruct (Z.ltb_spec c (lb + d)) as [Hlt | Hlt]; [|done]. intros [= <-]. exists i, d. split_and!; [done| |done].
      exists lb, d. done.
    + rewrite size_bits, prop_bits. destruct (Z.ltb_spec c (lb + d mod 4096)) as [Hlt | Hlt]; [|done].
      intros [= <-]. exists i, d. split_and!; [done| |done]. exists lb, d. done.
  - intros (i & d & Hd & (lb & d' & Hb & Hd' & Hc) & <-). rewrite Hd in Hd'. injection Hd' as <-.
    rewrite (Huniq i lb d Hb Hd Hc). rewrite (Hnth _ _ _ Hb), (Hnth _ _ _ Hd). destruct binary; cbn [entry_size entry_prop] in *.
    + destruct (Z.ltb_spec c (lb + d)); [done|lia].
    + rewrite size_bits, prop_bits. destruct (Z.ltb_spec c (lb + d mod 4096)); [done|lia].
Qed.

(** The check of a table by computation. *)
Fixpoint ranges_okb (binary : bool) (bounds data : list Z) : bool :=
  match bounds, data with
  | [], [] => true
  | lb :: bs, d :: ds =>
      let s := if binary then d else d mod 4096 in
      (0 <? s) && match bs with [] => true | lb' :: _ => lb + s <=? lb' end && ranges_okb binary bs ds
  | _, _ => false
  end.
Lemma ranges_okb_sound binary bounds data : ranges_okb binary bounds data = true ->
  ranges_ordered binary bounds data /\ (forall d, d ∈ data -> 0 < entry_size binary d).
Proof.
  revert data. induction bounds as [|lb bs IH]; intros [|d ds] H; try done.
  - split; [split; [done|]|]; [done|]. intros d Hd. by apply elem_of_nil in Hd.
  - cbn [ranges_okb] in H. apply andb_prop in H as [H H3]. apply andb_prop in H as [H1 H2]. apply Z.ltb_lt in H1.
    destruct (IH ds H3) as [[Hl Ho] Hp]. split; [split|].
    + cbn [length]. lia.
    + intros [|i] x y x' Hx Hy Hx'.
      * injection Hx as <-. injection Hy as <-. cbn in Hx'. destruct bs as [|b bs]; [done|]. injection Hx' as <-.
        apply Z.leb_le in H2. split; [by destruct binary|]. by destruct binary.
      * by apply (Ho i).
    + intros e He. apply elem_of_cons in He as [-> | He]; [by destruct binary|by apply Hp].
Qed.

(** ** Width *)
Lemma ub_linear l c r : (ub_index l c < length l)%nat -> r = 1 \/ r = 2 ->
  width_linear l c r = if Nat.even (ub_index l c) then r else Z.lxor r 3.
Proof.
  revert r. induction l as [|b l IH]; intros r Hl Hr; cbn [length] in Hl; [lia|]. cbn [width_linear ub_index] in *.
  destruct (c <? b); [done|]. rewrite IH; [|lia|destruct Hr as [-> | ->]; [by right|by left]].
  rewrite Nat.even_succ, <- Nat.negb_even. destruct (Nat.even (ub_index l c)); [done|].
  cbn. destruct Hr as [-> | ->]; done.
Qed.
Lemma in_intervals_ub l c : incr l -> in_intervals l c <-> Nat.odd (ub_index l c) = true.
Proof.
  assert (Hn : forall n l, (length l <= n)%nat -> incr l -> in_intervals l c <-> Nat.odd (ub_index l c) = true).
  { clear l. intros n. induction n as [|n IH]; intros l Hn Hs.
    - destruct l; [|cbn [length] in Hn; lia]. done.
    - destruct l as [|a [|b l]].
      + done.
      + cbn. destruct (Z.ltb_spec c a); cbn; split; (done || lia).
      + cbn [in_intervals ub_index]. assert (Hab : a < b) by apply Hs. apply incr_tail in Hs as Hs1.
        pose proof (incr_lt b l Hs1) as Hlt. apply incr_tail in Hs1 as Hs2.
        assert (Hbelow : c < b -> in_intervals l c -> False).
        { intros Hc Hi. apply (IH l) in Hi; [|cbn [length] in Hn; lia|done].
          destruct l as [|x l]; [done|]. apply Forall_cons_1 in Hlt as [Hx _]. cbn [ub_index] in Hi.
          destruct (Z.ltb_spec c x); [done|lia]. }
        destruct (Z.ltb_spec c a); [|destruct (Z.ltb_spec c b)].
        * cbn. split; [|done]. intros [? | Hi]; [lia|]. exfalso. apply Hbelow; [lia|done].
        * cbn. split; [done|]. intros _. left. lia.
        * rewrite (IH l) by (done || cbn [length] in Hn; lia). cbn [Nat.odd]. rewrite Nat.odd_succ, Nat.even_succ.
          split; [|tauto]. intros [? | ?]; [lia|done]. }
  intros Hs. by apply (Hn (length l)).
Qed.
Lemma land1 n : Z.land (Z.of_nat n) 1 = if Nat.odd n then 1 else 0.
Proof.
  change 1 with (Z.ones 1) at 1. rewrite Z.land_ones by lia. change (2 ^ 1) with 2.
  destruct (Nat.odd n) eqn:E.
  - apply Nat.odd_spec in E as [m ->]. Z.to_euclidean_division_equations; lia.
  - assert (He : Nat.even n = true) by (rewrite <- Nat.negb_odd, E; done).
    apply Nat.even_spec in He as [m ->]. Z.to_euclidean_division_equations; lia.
Qed.
Lemma width_estimate_spec l c : incr l -> (12 < length l)%nat ->
  (width_estimate l c = 2 /\ in_intervals l c) \/ (width_estimate l c = 1 /\ ~ in_intervals l c).
Proof.
  intros Hs Hl. unfold width_estimate. rewrite (in_intervals_ub l c Hs).
  destruct (lookup_lt_is_Some_2 l 12 Hl) as [b Hb].
  assert (Hnth : nth 12 l 0 = b) by (by apply nth_lookup_Some with (d := 0) in Hb). rewrite Hnth.
  destruct (Z.ltb_spec c b).
  - rewrite ub_linear; [|pose proof (ub_index_spec l c 12 b Hs Hb); lia|by left].
    rewrite <- Nat.negb_even. destruct (Nat.even (ub_index l c)); cbn; [by right|by left].
  - rewrite land1. destruct (Nat.odd (ub_index l c)); [by left|by right].
Qed.

(** ** Measuring *)
Section measure.
Context (decode : list Z -> dres) (gbp_of : Z -> gbp) (incb_of : Z -> incb) (extpic_of : Z -> bool).
Context (intervals : list Z) (Hint : incr intervals) (Hlen : (12 < length intervals)%nat).

Definition cw (cl : cluster) : Z := match cl with (_, c) :: _ => width_estimate intervals c | [] => 1 end.
Definition sumw (cls : list cluster) : Z := fold_right Z.add 0 (map cw cls).

Lemma cw_range cl : 1 <= cw cl <= 2.
Proof.
  destruct cl as [|[u c] r]; cbn [cw]; [lia|].
  destruct (width_estimate_spec intervals c Hint Hlen) as [[-> _] | [-> _]]; lia.
Qed.
Lemma sumw_nonneg cls : 0 <= sumw cls.
Proof. unfold sumw. induction cls as [|cl cls IH]; cbn; [lia|]. pose proof (cw_range cl). lia. Qed.

Lemma sumw_nil : sumw [] = 0.
Proof. done. Qed.
Lemma sumw_one cl : sumw [cl] = cw cl.
Proof. unfold sumw. cbn [map fold_right]. lia. Qed.

Lemma measure_loop_spec mw : mw <= max_int -> forall n g ds est fuel, (length ds <= n <= fuel)%nat -> itr decode (g_it g) ds ->
  0 <= est <= max_int -> (0 <= mw -> est <= mw) ->
  let cls := aclusters gbp_of incb_of extpic_of n (g_9 g) (g_11 g) ds in
  exists w k, measure_loop decode gbp_of incb_of extpic_of intervals fuel mw g est = Some (w, units_of (drop k cls)) /\
    (k <= length cls)%nat /\
    ((mw < 0 /\ k = length cls /\ w = Z.min (est + sumw cls) max_int) \/
     (0 <= mw /\ w = est + sumw (take k cls) /\ w <= mw /\
      ((k < length cls)%nat -> mw < est + sumw (take (S k) cls)))).
Proof.
  intros Hmw. induction n as [|n IH]; intros g ds est fuel Hn Hi Hest Hem cls.
  - destruct ds; [|cbn [length] in Hn; lia]. apply itr_nil in Hi as [He Hf].
    exists est, O. cbn [aclusters] in cls. subst cls. cbn [drop take length units_of concat map].
    split_and!; [|lia|].
    + destruct fuel; cbn [measure_loop]; unfold git_at_end; rewrite He; by rewrite Hf.
    + unfold sumw. cbn. destruct (decide (mw < 0)); [left|right]; split_and!; lia.
  - destruct ds as [|[p l] rest].
    + apply itr_nil in Hi as [He Hf]. exists est, O. cbn [aclusters] in cls. subst cls.
      cbn [drop take length units_of concat map]. split_and!; [|lia|].
      * destruct fuel; cbn [measure_loop]; unfold git_at_end; rewrite He; by rewrite Hf.
      * unfold sumw. cbn. destruct (decide (mw < 0)); [left|right]; split_and!; lia.
    + destruct fuel as [|fuel]; [lia|]. cbn [measure_loop]. unfold git_at_end.
      apply itr_cons in Hi as Hi'. destruct Hi' as (-> & Hfst & Hval & _). cbn [length] in Hn.
      destruct (git_loop_spec decode gbp_of incb_of extpic_of (S fuel) g l 0 p rest) as (g' & t & rem & Hg' & Ha & Hr); [lia|done|].
      assert (Hrest := aloop_app _ _ _ _ _ _ _ _ _ _ _ _ Ha).
      assert (Hlr : (length rem <= n)%nat) by (subst rest; rewrite app_length in Hn; lia).
      subst cls. cbn [aclusters]. rewrite Ha.
      set (cl := (p, l) :: t). set (cls' := aclusters gbp_of incb_of extpic_of n (g_9 g') (g_11 g') rem).
      assert (Hall : cp_first (g_it g) = units_of (cl :: cls')).
      { unfold units_of, cls', cl. cbn [concat app]. rewrite aclusters_concat by done. rewrite Hfst. by subst rest. }
      rewrite Hval. change (width_estimate intervals l) with (cw cl).
      pose proof (cw_range cl) as Hcw. pose proof (sumw_nonneg cls') as Hs'.
      assert (Hsum : sumw (cl :: cls') = cw cl + sumw cls') by done.
      destruct ((est =? mw) && (0 <=? mw)) eqn:E1.
      { apply andb_prop in E1 as [E1 E1']. apply Z.eqb_eq in E1. apply Z.leb_le in E1'.
        exists est, O. cbn [drop take length]. split_and!; [by rewrite Hall|lia|]. right.
        rewrite firstn_O. unfold sumw. cbn [map fold_right]. split_and!; lia. }
      assert (Hne : 0 <= mw -> est <> mw).
      { intros H0 ->. apply andb_false_iff in E1 as [E1 | E1]; [by rewrite Z.eqb_refl in E1|].
        apply Z.leb_gt in E1. lia. }
      destruct (Z.ltb_spec (max_int - cw cl) est) as [E2 | E2].
      { destruct (Z.ltb_spec mw 0) as [E3 | E3].
        - exists max_int, (length (cl :: cls')). rewrite drop_all. split_and!; [done|lia|]. left.
          split_and!; [done|done|]. rewrite Hsum. lia.
        - exists est, O. cbn [drop take length]. split_and!; [by rewrite Hall|lia|]. right.
          rewrite firstn_O. unfold sumw. cbn [map fold_right]. split_and!; lia. }
      destruct ((mw <? est + cw cl) && (0 <=? mw)) eqn:E3.
      { apply andb_prop in E3 as [E3 E3']. apply Z.ltb_lt in E3. apply Z.leb_le in E3'.
        exists (est + cw cl - cw cl), O. cbn [drop take length]. split_and!; [by rewrite Hall|lia|]. right.
        rewrite firstn_O. unfold sumw. cbn [map fold_right]. split_and!; lia. }
      assert (Hle : 0 <= mw -> est + cw cl <= mw).
      { intros H0. apply andb_false_iff in E3 as [E3 | E3]; [by apply Z.ltb_ge in E3|]. apply Z.leb_gt in E3. lia. }
      unfold git_inc. rewrite Hval, Hg'.
      destruct (IH g' rem (est + cw cl) fuel) as (w & k & Hm & Hk & Hres); [lia|done|lia|done|].
      fold cls' in Hm, Hk, Hres. exists w, (S k). cbn [drop take length]. split_and!; [done|lia|].
      destruct Hres as [(H1 & H2 & H3) | (H1 & H2 & H3 & H4)].
      * left. split_and!; [done|by f_equal|]. rewrite Hsum. lia.
      * right. assert (Hst : forall j, sumw (cl :: take j cls') = cw cl + sumw (take j cls')) by done.
        split_and!; [done| |done|].
        -- rewrite Hst. lia.
        -- intros Hkl. change (take (S (S k)) (cl :: cls')) with (cl :: take (S k) cls'). rewrite Hst.
           specialize (H4 ltac:(lia)). lia.
Qed.

Lemma total_width_sumw cls : Forall (fun c => c <> []) cls -> total_width intervals cls (sumw cls).
Proof.
  intros H. exists (map cw cls). split; [|done]. induction H as [|cl cls Hne _ IH]; [constructor|].
  cbn [map]. constructor; [|done]. destruct cl as [|[u c] r]; [done|]. exists u, c, r. split; [done|]. cbn [cw].
  by apply width_estimate_spec.
Qed.
End measure.

Lemma aclusters_nonempty gbp_of incb_of extpic_of n s9 s11 ds :
  Forall (fun c : list (list Z * Z) => c <> []) (aclusters gbp_of incb_of extpic_of n s9 s11 ds).
Proof.
  revert s9 s11 ds. induction n as [|n IH]; intros s9 s11 ds; [constructor|].
  destruct ds as [|[p c] r]; [constructor|]. cbn [aclusters].
  destruct (aloop gbp_of incb_of extpic_of s9 s11 0 c r) as [[[t rem] a] b]. by constructor.
Qed.

(** ** The tables of the code *)
Lemma gbp_table_ok : ranges_okb false gbp_bounds gbp_data = true.
Proof. vm_compute. reflexivity. Qed.
Lemma incb_table_ok : ranges_okb false incb_bounds incb_data = true.
Proof. vm_compute. reflexivity. Qed.
Lemma ext_table_ok : ranges_okb true ext_bounds ext_data = true.
Proof. vm_compute. reflexivity. Qed.
Lemma intervals_ok : incrb width_intervals && (12 <? length width_intervals)%nat = true.
Proof. vm_compute. reflexivity. Qed.

Fixpoint zwj_only (bounds data : list Z) : bool :=
  match bounds, data with
  | lb :: bs, d :: ds =>
      (if d / 4096 =? 12 then (lb =? 0x200D) && (d mod 4096 =? 1) else true) && zwj_only bs ds
  | _, _ => true
  end.
Lemma zwj_only_sound bounds data i lb d : zwj_only bounds data = true -> bounds !! i = Some lb -> data !! i = Some d ->
  d / 4096 = 12 -> lb = 0x200D /\ d mod 4096 = 1.
Proof.
  revert data i. induction bounds as [|b bs IH]; intros data i Hz Hb Hd Hp; [done|].
  destruct data as [|x ds]; [done|]. cbn [zwj_only] in Hz. apply andb_prop in Hz as [Hz1 Hz2].
  destruct i as [|i].
  - injection Hb as ->. injection Hd as ->. rewrite Hp in Hz1. cbn in Hz1. apply andb_prop in Hz1 as [Hz1 Hz3].
    apply Z.eqb_eq in Hz1. apply Z.eqb_eq in Hz3. done.
  - by eapply IH.
Qed.
Fixpoint data16 (data : list Z) : bool :=
  match data with d :: ds => (0 <=? d) && (d <? 65536) && data16 ds | [] => true end.
Lemma data16_sound data d : data16 data = true -> d ∈ data -> 0 <= d < 65536.
Proof.
  induction data as [|x ds IH]; intros H Hd; [by apply elem_of_nil in Hd|]. cbn [data16] in H.
  apply andb_prop in H as [H H2]. apply andb_prop in H as [H0 H1]. apply elem_of_cons in Hd as [-> | Hd]; [lia|by apply IH].
Qed.
Lemma zwj_table_ok : zwj_only gbp_bounds gbp_data && data16 gbp_data = true.
Proof. vm_compute. reflexivity. Qed.

Lemma ucd_zwj c : ucd_gbp c = ZWJ -> ucd_extpic c = false.
Proof.
  unfold ucd_gbp. destruct (get_property false gbp_bounds gbp_data c) as [v|] eqn:E; [|done].
  intros Hv. assert (v = 12).
  { destruct v as [|p|p]; [done| |done]. do 5 (destruct p as [p|p|]; try done). }
  subst v. destruct (ranges_okb_sound _ _ _ gbp_table_ok) as [Ho Hp].
  apply (get_property_spec false _ _ c 12 Ho Hp) in E as (i & d & Hd & (lb & d' & Hb & Hd' & Hc) & Hpr).
  rewrite Hd in Hd'. injection Hd' as <-. pose proof zwj_table_ok as Hz. apply andb_prop in Hz as [Hz H16].
  assert (Hd16 := data16_sound _ d H16 (elem_of_list_lookup_2 _ _ _ Hd)).
  cbn [entry_prop entry_size] in *. assert (Hq : d / 4096 = 12).
  { rewrite Z.mod_small in Hpr; [done|]. Z.to_euclidean_division_equations; lia. }
  destruct (zwj_only_sound _ _ i lb d Hz Hb Hd Hq) as [-> Hs]. rewrite Hs in Hc.
  assert (c = 0x200D) as -> by lia. vm_compute. reflexivity.
Qed.

(** ** The three encoding forms together *)
Definition decode_of (f : form) : list Z -> dres :=
  match f with UTF8 => decode_utf8 | UTF16 => decode_utf16 | UTF32 => decode_utf32 end.

Lemma decode_step f l : units_ok f l -> l <> [] ->
  step_spec (encode_of f) (bad_of f) l (d_val (decode_of f l)) (d_units (decode_of f l)) (d_usv (decode_of f l)).
Proof. destruct f; [apply utf8_step|apply utf16_step|apply utf32_step]. Qed.
Lemma decode_valid f c rest : scalar c ->
  decode_of f (encode_of f c ++ rest) = DRes c (length (encode_of f c)) true.
Proof. destruct f; [apply UtfProofs.utf8_valid|apply utf16_valid|apply utf32_valid]. Qed.
Lemma encode_ne f c : scalar c -> encode_of f c <> [].
Proof.
  intros _. destruct f; cbn [encode_of]; unfold encode8, encode16, encode32.
  - by repeat match goal with |- (if ?b then _ else _) <> _ => destruct b end.
  - by destruct (c <=? 0xFFFF).
  - done.
Qed.
Lemma units_forall f l : units_ok f l <->
  Forall (fun u => 0 <= u <= match f with UTF8 => 0xFF | UTF16 => 0xFFFF | UTF32 => 0xFFFFFFFF end) l.
Proof. by destruct f. Qed.

Lemma walk_decoded f l : units_ok f l -> exists ds, decoded (encode_of f) (bad_of f) l ds /\
  (length ds <= length l)%nat /\
  forall fuel, (length l <= fuel)%nat -> cp_walk (decode_of f) fuel (cp_begin (decode_of f) l) = Some (stops ds).
Proof.
  intros Hu. apply units_forall in Hu.
  destruct (decoded_by_decoder (decode_of f) (encode_of f) (bad_of f)
    (fun u => 0 <= u <= match f with UTF8 => 0xFF | UTF16 => 0xFFFF | UTF32 => 0xFFFFFFFF end)) with (n := length l) (l := l)
    as (ds & Hd & Hl & Hw).
  - intros l' Hl' Hne. apply decode_step; [|done]. by apply units_forall.
  - apply encode_ne.
  - done.
  - done.
  - exists ds. split_and!; [done|done|]. intros fuel Hf. apply Hw. lia.
Qed.
Lemma decoded_unique f l ds ds' : decoded (encode_of f) (bad_of f) l ds -> decoded (encode_of f) (bad_of f) l ds' ->
  ds = ds'.
Proof. intros H1 H2. eapply decoded_det; [apply encode_ne|apply decode_valid|exact H1|exact H2]. Qed.
