(** C46: flat_map, flat_multimap, flat_set, flat_multiset keep their keys ordered and in step with the mapped values, whatever throws. *)
From stdpp Require Import base list numbers.
From Coq Require Import Lia.
From Verif Require Import Base.Res Base.Order Base.OrderLemmas Base.Arr Base.Stable Cont.FlatModel Cont.FlatSpec Cont.FlatProofs Cont.FlatProofs2 Cont.FlatProofs3 Cont.FlatProofs4 Cont.FlatProofs5 Cont.FlatProofs6.
Local Open Scope nat_scope.

Section map.
  Context {K M : Type} (lt : K -> K -> bool) (SW : StrictWeakOrder lt) (uniq : bool) (cap : nat).
  Notation st := (fmap_ K M).
  Notation below := (below lt). Notation upto := (upto lt). Notation has := (has lt). Notation value := (value_of (M := M) lt).
  Notation fok := (fok (M := M) lt uniq).
  (** an exception of the operation leaves the object valid: unchanged or empty *)
  Notation fails s := (fun s' : st => fok s' /\ failed empty s s').
  Lemma empty_fok : fok empty.
  Proof. split; [done|]. unfold ordered. destruct uniq; intros ? ? ? ? ? H; done. Qed.
  Lemma failed_ok s s' : fok s -> failed empty s s' -> fok s' /\ failed empty s s'.
  Proof. intros H [->| ->]; (split; [|by (left + right)]); [done|apply empty_fok]. Qed.
  Lemma entries_erase (s s' : st) i j : fok s -> ks s' = take i (ks s) ++ drop j (ks s) -> vs s' = take i (vs s) ++ drop j (vs s) -> i <= j -> j <= length (ks s) ->
    fok s' /\ entries s' = take i (entries s) ++ drop j (entries s).
  Proof.
    intros [Hl Ho] E1 E2 Hi Hj. split; [|unfold entries; rewrite E1, E2; by apply zip_erase]. split.
    - rewrite E1, E2, !app_length, !take_length, !drop_length. lia.
    - rewrite E1. apply (sub_ordered lt uniq (ks s)); [done|]. rewrite <-(take_drop i (ks s)) at 3. apply sublist_app; [done|].
      replace j with (i + (j - i)) by lia. rewrite <-drop_drop. apply sublist_drop.
  Qed.

  (** find, contains, count, lower_bound, upper_bound, equal_range: nothing changes; the results are the positions the keys define *)
  Theorem C46_lookup : forall s k, fok s ->
    run (Find lt k) s (fun r s' => s' = s /\ (has k (ks s) -> r = below k (ks s)) /\ (~ has k (ks s) -> r = length (ks s))) (fun s' => s' = s) /\
    run (Contains lt k) s (fun r s' => s' = s /\ (r = true <-> has k (ks s))) (fun s' => s' = s) /\
    run (Count lt uniq k) s (fun r s' => s' = s /\ r = equivs lt k (ks s)) (fun s' => s' = s) /\
    run (Lower_bound lt k) s (fun r s' => s' = s /\ r = below k (ks s)) (fun s' => s' = s) /\
    run (Upper_bound lt k) s (fun r s' => s' = s /\ r = upto k (ks s)) (fun s' => s' = s) /\
    run (Equal_range lt uniq k) s (fun r s' => s' = s /\ r = (below k (ks s), upto k (ks s))) (fun s' => s' = s).
  Proof.
    intros s k Hok. split_and!.
    - apply (Find_ok lt SW uniq); [done|done| |]; intros H; (split; [done|]); split; intros H'; done.
    - apply (Contains_ok lt SW uniq); [done|done|]. intros b Hb. done.
    - apply (Count_ok lt SW uniq); done.
    - by apply (bounds_ok lt SW uniq s k).
    - by apply (bounds_ok lt SW uniq s k).
    - by apply (Equal_range_ok lt SW uniq).
  Qed.
  (** what such a position means: the keys before are less, those from there on are not; an equivalent key is in the range *)
  Theorem C46_positions : forall s k i x, fok s -> ks s !! i = Some x ->
    (lt x k = true <-> i < below k (ks s)) /\ (lt k x = false <-> i < upto k (ks s)) /\ (equiv lt k x = true <-> below k (ks s) <= i < upto k (ks s)) /\
    (uniq = true -> upto k (ks s) <= S (below k (ks s))).
  Proof.
    intros s k i x Hok Hx. pose proof (fok_sorted lt SW uniq s Hok) as Hs. split_and!.
    - rewrite (below_lt lt SW (ks s) k i x Hs Hx). apply bool_decide_eq_true.
    - rewrite (upto_lt lt SW (ks s) k i x Hs Hx). rewrite negb_false_iff. apply bool_decide_eq_true.
    - rewrite (equiv_idx lt SW (ks s) k i x Hs Hx). apply bool_decide_eq_true.
    - intros Hu. by apply (uniq_one lt SW uniq).
  Qed.
  (** at *)
  Theorem C46_at : forall s k, uniq = true -> fok s -> run (At lt k) s (fun r s' => s' = s /\ r = value k (entries s)) (fun s' => s' = s).
  Proof.
    intros s k Hu Hok. apply (At_ok lt SW uniq); [done|done| |].
    - intros Hh v Hv. split; [done|]. by rewrite (value_found lt SW uniq).
    - intros Hn. split; [done|]. by rewrite (value_missing lt uniq).
  Qed.
  (** emplace, insert, try_emplace *)
  Theorem C46_emplace : forall s k m, fok s ->
    run (Try_emplace lt uniq k m) s
      (fun r s' => fok s' /\
         (uniq = true -> has k (ks s) -> r = (below k (ks s), false) /\ s' = s) /\
         (uniq = false \/ ~ has k (ks s) -> r = (upto k (ks s), true) /\ entries s' = insert_at (upto k (ks s)) (k, m) (entries s)))
      (fails s).
  Proof.
    intros s k m Hok. eapply run_mono; [by apply Try_emplace_ok| |intros s' H; by apply failed_ok]. intros r s' [H1 H2]. split; [|split; [done|]].
    - destruct (has_dec lt SW uniq s k Hok) as [Hh|Hn].
      + destruct uniq eqn:Eu; [destruct (H1 eq_refl Hh) as [_ ->]; done|]. destruct (H2 (or_introl eq_refl)) as [_ Hi]. eapply (inserted_fok lt SW false); [done| |exact Hi]. pose proof (below_upto lt SW (ks s) k). cbn. lia.
      + destruct (H2 (or_intror Hn)) as [_ Hi]. eapply (inserted_fok lt SW uniq); [done| |exact Hi]. pose proof (below_upto lt SW (ks s) k). destruct uniq; [done|]. lia.
    - intros H. destruct (H2 H) as [-> Hi]. split; [done|]. by eapply inserted_entries.
  Qed.
  (** emplace_hint, insert with hint, try_emplace with hint, insert_or_assign with hint *)
  Theorem C46_hint : forall (overwrite : bool) s pos k m, fok s -> pos <= length (ks s) ->
    run (Emplace_hint lt uniq overwrite pos k m) s
      (fun r s' => fok s' /\
         (uniq = true -> has k (ks s) -> r = below k (ks s) /\ s' = if overwrite then FM (ks s) (<[r := m]> (vs s)) else s) /\
         (uniq = false \/ ~ has k (ks s) -> r = hint_pos lt pos k (ks s) /\ entries s' = insert_at r (k, m) (entries s)))
      (fun s' => fok s' /\ if overwrite then assign_failed lt k s s' else failed empty s s').
  Proof.
    intros ov s pos k m Hok Hp. pose proof Hok as [Hl Ho]. eapply run_mono; [by apply Emplace_hint_ok| |].
    - intros r s' [H1 H2]. split; [|split; [done|]].
      + assert (Hcase : (uniq = true /\ has k (ks s)) \/ (uniq = false \/ ~ has k (ks s))).
        { destruct (has_dec lt SW uniq s k Hok); [|by right; right]. destruct uniq; [by left|right; by left]. }
        destruct Hcase as [[Hu Hh]|Hc].
        * destruct (H1 Hu Hh) as [-> ->]. destruct ov; [|done]. split; [cbn; by rewrite insert_length|done].
        * destruct (H2 Hc) as [-> Hi]. eapply (inserted_fok lt SW uniq); [done| |exact Hi]. unfold hinted. pose proof (below_upto lt SW (ks s) k). pose proof (has_iff lt SW (ks s) k (fok_sorted lt SW uniq s Hok)) as Hh.
          destruct uniq; [|lia]. destruct Hc as [?|Hn]; [done|]. split; [|done]. rewrite Hh in Hn. lia.
      + intros Hc. destruct (H2 Hc) as [-> Hi]. split; [done|]. by eapply inserted_entries.
    - intros s' Hf. destruct ov; [|by apply failed_ok]. destruct Hf as [Hf|[Hh [v ->]]]; [destruct (failed_ok s s' Hok Hf); split; [done|by left]|].
      split; [split; [cbn; by rewrite insert_length|done]|]. right. cbn. split; [done|]. split; [by rewrite insert_length|]. intros i x Hx Hne. apply list_lookup_insert_ne. intros <-.
      pose proof (fok_sorted lt SW uniq s Hok) as Hs. rewrite has_iff in Hh by done. rewrite (equiv_idx lt SW (ks s) k _ x Hs Hx) in Hne. apply bool_decide_eq_false in Hne. lia.
  Qed.
  (** insert_or_assign *)
  Theorem C46_insert_or_assign : forall s k m, uniq = true -> fok s ->
    run (Insert_or_assign lt uniq k m) s
      (fun r s' => fok s' /\ (snd r = true <-> ~ has k (ks s)) /\ fst r = below k (ks s) /\ (forall k', value k' (entries s') = if equiv lt k k' then Some m else value k' (entries s)) /\
         (has k (ks s) -> ks s' = ks s) /\ (~ has k (ks s) -> entries s' = insert_at (upto k (ks s)) (k, m) (entries s)))
      (fun s' => fok s' /\ assign_failed lt k s s').
  Proof.
    intros s k m Hu Hok. pose proof Hok as [Hl Ho]. pose proof (fok_sorted lt SW uniq s Hok) as Hs. eapply run_mono; [by apply Insert_or_assign_ok| |].
    - intros r s' [H1 H2]. destruct (has_dec lt SW uniq s k Hok) as [Hh|Hn].
      + destruct (H1 Hh) as [-> ->]. split; [split; [cbn; by rewrite insert_length|done]|]. cbn [fst snd]. split_and!; [done|done| |done|done]. intros k'. by apply (value_assign lt SW uniq).
      + destruct (H2 Hn) as [-> Hi]. pose proof (inserted_entries lt uniq s _ k m s' Hok Hi) as HE. split; [eapply (inserted_fok lt SW uniq); [done| |exact Hi]; by rewrite Hu|]. cbn [fst snd]. pose proof (has_iff lt SW (ks s) k Hs) as Hh. pose proof (below_upto lt SW (ks s) k).
        split_and!; [done|rewrite Hh in Hn; lia| |done|done]. intros k'. rewrite HE. by apply (value_insert lt SW uniq).
    - intros s' Hf. destruct Hf as [Hf|[Hh [v ->]]]; [destruct (failed_ok s s' Hok Hf); split; [done|by left]|].
      split; [split; [cbn; by rewrite insert_length|done]|]. right. cbn. split; [done|]. split; [by rewrite insert_length|]. intros i x Hx Hne. apply list_lookup_insert_ne. intros <-.
      rewrite has_iff in Hh by done. rewrite (equiv_idx lt SW (ks s) k _ x Hs Hx) in Hne. apply bool_decide_eq_false in Hne. lia.
  Qed.
  (** operator[] *)
  Theorem C46_subscript : forall d s k, uniq = true -> fok s ->
    run (Subscript lt uniq d k) s
      (fun v s' => fok s' /\ value k (entries s') = Some v /\ v = default d (value k (entries s)) /\
         (forall k', equiv lt k k' = false -> value k' (entries s') = value k' (entries s)) /\ (has k (ks s) -> s' = s))
      (fun s' => fok s' /\ (failed empty s s' \/ ~ has k (ks s) /\ entries s' = insert_at (upto k (ks s)) (k, d) (entries s))).
  Proof.
    intros d s k Hu Hok. assert (HI : forall s', ~ has k (ks s) -> inserted s (upto k (ks s)) k d s' -> fok s' /\ entries s' = insert_at (upto k (ks s)) (k, d) (entries s)).
    { intros s' Hn Hi. split; [eapply (inserted_fok lt SW uniq); [done| |exact Hi]; by rewrite Hu|by eapply inserted_entries]. }
    eapply run_mono; [by apply Subscript_ok| |].
    - intros v s' [H1 H2]. destruct (has_dec lt SW uniq s k Hok) as [Hh|Hn].
      + destruct (H1 Hh) as [-> Hv]. split; [done|]. rewrite (value_found lt SW uniq) by done. rewrite Hv. done.
      + destruct (H2 Hn) as [-> Hi]. destruct (HI s' Hn Hi) as [Hok' HE]. split; [done|]. rewrite HE. rewrite (value_insert lt SW uniq) by done. rewrite equiv_refl by done. split_and!; [done| | |done].
        * by rewrite (value_missing lt uniq).
        * intros k' Hk'. rewrite (value_insert lt SW uniq) by done. by rewrite Hk'.
    - intros s' [Hf|[Hn Hi]]; [destruct (failed_ok s s' Hok Hf); split; [done|by left]|]. destruct (HI s' Hn Hi). split; [done|by right].
  Qed.
  (** insert(first, last), insert_range ([sorting]); insert(sorted_unique, ...), insert(sorted_equivalent, ...) *)
  Theorem C46_insert_range : forall sorting s l, fok s -> (sorting = false -> ordered lt uniq (fst <$> l)) ->
    run (Insert_range lt uniq cap sorting l) s
      (fun _ s' => fok s' /\ merged (by_key lt) uniq sorting (entries s) l (entries s') /\
         (uniq = true -> exists l', l' ≡ₚ l /\ (sorting = false -> l' = l) /\
            forall k, value k (entries s') = match value k (entries s) with Some v => Some v | None => value k l' end))
      (fails s).
  Proof.
    intros so s l Hok Hl. eapply run_mono; [by apply Insert_range_ok| |intros s' H; by apply failed_ok]. intros ? s' [Hok' HM]. split; [done|]. split; [exact HM|]. intros Hu. pose proof HM as (_ & l' & Hp & Hso & Hf).
    exists l'. split; [done|]. split; [done|]. intros k. assert (HM' : merged (ltp lt) uniq false (entries s) l' (entries s')). { destruct HM as [Ho _]. split; [done|]. exists l'. done. }
    destruct (value_merged lt SW uniq s false l' s' k Hok Hu HM') as (l'' & _ & E & Hv). by rewrite E in Hv.
  Qed.
  (** the same for all: a flat_multimap gets exactly the new entries, a flat_map loses none and gets no others *)
  Theorem C46_merged : forall {A} (lte : A -> A -> bool) (SWe : StrictWeakOrder lte) sorting old new w, merged lte uniq sorting old new w ->
    (uniq = false -> w ≡ₚ old ++ new) /\
    (forall x, x ∈ w -> x ∈ old \/ x ∈ new) /\
    (forall x, x ∈ old \/ x ∈ new -> exists y, y ∈ w /\ equiv lte x y = true) /\
    (ordered lte uniq old -> forall x, x ∈ old -> x ∈ w).
  Proof.
    intros A lte SWe so old new w HM. pose proof HM as (Ho & new' & Hp & _ & Hf). split_and!.
    - intros Hu. rewrite Hu in Hf. assert (Hst : stable_eq lte (old ++ new') w) by exact Hf. apply (stable_eq_perm lte SWe) in Hst. rewrite Hst. by apply Permutation_app_head.
    - by eapply merged_elem.
    - intros x Hx. assert (Hin : In x (List.filter (equiv lte x) (old ++ new'))).
      { apply filter_In. split; [|apply (eqvb_refl lte SWe)]. apply elem_of_list_In, elem_of_app. destruct Hx; [by left|right; by rewrite Hp]. }
      destruct (List.filter (equiv lte x) w) as [|y r] eqn:E.
      + rewrite Hf in E. destruct (List.filter (equiv lte x) (old ++ new')); [done|]. by destruct uniq.
      + exists y. assert (Hy : In y (y :: r)) by by left. rewrite <-E in Hy. apply filter_In in Hy as [Hy1 Hy2]. split; [by apply elem_of_list_In|done].
    - intros Hoo x Hx. destruct uniq eqn:Eu.
      + specialize (Hf x). rewrite List.filter_app in Hf. assert (Hin : In x (List.filter (equiv lte x) old)). { apply filter_In. split; [by apply elem_of_list_In|apply (eqvb_refl lte SWe)]. }
        apply elem_of_list_lookup in Hx as (i & Hi). destruct (List.filter (equiv lte x) old) as [|y r] eqn:E; [done|]. cbn in Hf.
        assert (Hy : In y (y :: r)) by by left. rewrite <-E in Hy. apply filter_In in Hy as [Hy1 Hy2]. apply elem_of_list_In, elem_of_list_lookup in Hy1 as (j & Hj).
        assert (y = x) as ->. { apply andb_true_iff in Hy2 as [E1 E2]. apply negb_true_iff in E1, E2. destruct (lt_eq_lt_dec i j) as [[Hij|Hij]|Hij]; [by rewrite (Hoo i j x y Hij Hi Hj) in E1|congruence|by rewrite (Hoo j i y x Hij Hj Hi) in E2]. }
        assert (Hxw : In x (List.filter (equiv lte x) w)) by (rewrite Hf; by left). apply filter_In in Hxw as [Hxw _]. by apply elem_of_list_In.
      + assert (Hst : stable_eq lte (old ++ new') w) by exact Hf. apply (stable_eq_perm lte SWe) in Hst. rewrite Hst. apply elem_of_app. by left.
  Qed.
  (** construction from containers, flat_map(keys, values) *)
  Theorem C46_construct : forall s k v, length k = length v ->
    run (construct lt uniq cap k v) s
      (fun _ s' => fok s' /\ exists u, u <= length k /\ merged (by_key lt) uniq true (take u (zip k v)) (drop u (zip k v)) (entries s')) (fun s' => s' = empty).
  Proof. intros s k v Hl. by apply construct_ok. Qed.
  (** replace *)
  Theorem C46_replace : forall s k v, length k = length v -> ordered lt uniq k -> fok s -> run (replace k v) s (fun _ s' => s' = FM k v /\ fok s') (fails s).
  Proof. intros s k v Hl Ho Hok. eapply run_mono; [by apply (replace_ok lt uniq)|done|intros s' H; by apply failed_ok]. Qed.
  (** erase(first, last), erase(position) *)
  Theorem C46_erase_range : forall s i j, fok s -> i <= j -> j <= length (ks s) ->
    run (erase_range i j) s (fun r s' => fok s' /\ r = i /\ entries s' = take i (entries s) ++ drop j (entries s)) (fails s).
  Proof.
    intros s i j Hok Hi Hj. eapply run_mono; [apply (run_erase_range s i j (fun r s' => r = i /\ s' = FM (take i (ks s) ++ drop j (ks s)) (take i (vs s) ++ drop j (vs s)))); [apply Hok|done|done|done]| |intros s' H; by apply failed_ok].
    intros r s' [-> ->]. destruct (entries_erase s (FM (take i (ks s) ++ drop j (ks s)) (take i (vs s) ++ drop j (vs s))) i j Hok eq_refl eq_refl Hi Hj) as [H1 H2]. split; [exact H1|]. split; [done|exact H2].
  Qed.
  (** erase(key) *)
  Theorem C46_erase_key : forall s k, fok s ->
    run (Erase_key lt uniq k) s
      (fun n s' => fok s' /\ n = equivs lt k (ks s) /\ entries s' = List.filter (fun e => negb (equiv lt k (fst e))) (entries s) /\
         (forall k', value k' (entries s') = if equiv lt k k' then None else value k' (entries s)))
      (fails s).
  Proof.
    intros s k Hok. pose proof (below_upto lt SW (ks s) k) as Hbu. pose proof (upto_len lt (ks s) k) as Hu. eapply run_mono; [by apply Erase_key_ok| |intros s' H; by apply failed_ok].
    intros n s' (-> & E1 & E2). destruct (entries_erase s s' _ _ Hok E1 E2 Hbu Hu) as [H1 H2]. split; [done|]. split; [done|]. split.
    - rewrite H2. pose proof (filter_range lt SW uniq s k Hok) as HR. set (b := below k (ks s)) in *. set (u := upto k (ks s)) in *.
      assert (Hsplit : entries s = take b (entries s) ++ take (u - b) (drop b (entries s)) ++ drop u (entries s)).
      { rewrite <-(take_drop b (entries s)) at 1. f_equal. rewrite <-(take_drop (u - b) (drop b (entries s))) at 1. f_equal. rewrite drop_drop. f_equal. lia. }
      pose proof (fok_sorted lt SW uniq s Hok) as Hs. pose proof Hok as [Hl _].
      assert (Hin : forall i e, entries s !! i = Some e -> equiv lt k (fst e) = bool_decide (b <= i < u)). { intros i [x v] Hi. apply entries_fst in Hi as [Hi _]; [|done]. by apply equiv_idx. }
      rewrite Hsplit at 3. rewrite !List.filter_app. rewrite (filter_all _ (take b _)), (filter_nil _ (take (u - b) _)), (filter_all _ (drop u _)); [done| | |].
      + intros i e Hi. rewrite lookup_drop in Hi. rewrite (Hin _ e Hi). rewrite bool_decide_false by lia. done.
      + intros i e Hi. pose proof (lookup_lt_Some _ _ _ Hi) as Hlt. rewrite take_length, drop_length in Hlt. rewrite lookup_take in Hi by lia. rewrite lookup_drop in Hi. rewrite (Hin _ e Hi). rewrite bool_decide_true by lia. done.
      + intros i e Hi. pose proof (lookup_lt_Some _ _ _ Hi) as Hlt. rewrite take_length in Hlt. rewrite lookup_take in Hi by lia. rewrite (Hin _ e Hi). rewrite bool_decide_false by lia. done.
    - intros k'. rewrite H2. by apply (value_erase lt SW uniq).
  Qed.
  (** erase_if *)
  Theorem C46_erase_if : forall p s, fok s ->
    run (Erase_if p) s (fun n s' => fok s' /\ entries s' = List.filter (fun e => negb (p e)) (entries s) /\ n + length (ks s') = length (ks s)) (fails s).
  Proof. intros p s Hok. eapply run_mono; [by apply (Erase_if_ok lt uniq)|done|intros s' H; by apply failed_ok]. Qed.
  (** every history, whatever throws: the keys stay ordered and correspond to the values; no operation is undefined *)
  Theorem C46_history : forall s : st, mreach lt uniq cap s ->
    fok s /\ forall op, mvalid lt uniq op s -> run (mexec lt uniq cap op) s (fun _ s' => fok s') (fun s' => fok s').
  Proof.
    assert (Hop : forall s op, fok s -> mvalid lt uniq op s -> run (mexec lt uniq cap op) s (fun _ s' => fok s') (fun s' => fok s')).
    { assert (HV : forall {X} (m : fm st X) s (Q : X -> st -> Prop) (E : st -> Prop), run m s Q E -> (forall x s', Q x s' -> fok s') -> (forall s', E s' -> fok s') -> run (fbind m (fun _ => fret tt)) s (fun _ s' => fok s') (fun s' => fok s')).
      { intros X m s Q E H HQ HE. apply run_bind. eapply run_mono; [exact H| |done]. intros x s' Hx. apply run_ret. by eapply HQ. }
      intros s op Hok Hv. destruct op; cbn [mexec mvalid] in *.
      - eapply HV; [by apply C46_emplace|by intros ? ? [? ?]|by intros ? [? ?]].
      - eapply HV; [by apply C46_hint|by intros ? ? [? ?]|by intros ? [? ?]].
      - eapply HV; [by apply C46_insert_or_assign|by intros ? ? [? ?]|by intros ? [? ?]].
      - eapply HV; [by apply C46_subscript|by intros ? ? [? ?]|by intros ? [? ?]].
      - eapply run_mono; [by apply C46_insert_range|by intros ? ? [? ?]|by intros ? [? ?]].
      - eapply HV; [by apply C46_erase_range; [done|lia|lia]|by intros ? ? [? ?]|by intros ? [? ?]].
      - eapply HV; [by apply C46_erase_key|by intros ? ? [? ?]|by intros ? [? ?]].
      - eapply HV; [by apply C46_erase_if|by intros ? ? [? ?]|by intros ? [? ?]].
      - destruct Hv. eapply run_mono; [by apply C46_replace|by intros ? ? [? ?]|by intros ? [? ?]].
      - eapply run_mono; [by apply C46_construct|by intros ? ? [? ?]|intros ? ->; apply empty_fok].
      - apply run_nothrow. apply empty_fok. }
    intros s Hr. assert (Hok : fok s); [|split; [done|intros op; by apply Hop]]. induction Hr as [|s op o x o' s' Hr IH Hv HE]; [apply empty_fok|].
    destruct (Hop s op IH Hv o) as (x1 & o1 & s1 & E1 & _ & H). rewrite HE in E1. injection E1 as -> -> ->. by destruct x1.
  Qed.
End map.

Section set.
  Context {K : Type} (lt : K -> K -> bool) (SW : StrictWeakOrder lt) (uniq single : bool) (cap : nat).
  Notation st := (list K).
  Notation below := (below lt). Notation upto := (upto lt). Notation has := (has lt).
  Notation sok := (ordered lt uniq).
  Notation fails s := (fun s' : st => sok s' /\ failed [] s s').
  Lemma nil_sok : sok [].
  Proof. unfold ordered. destruct uniq; intros ? ? ? ? ? H; done. Qed.
  Lemma sfailed_ok s s' : sok s -> failed [] s s' -> sok s' /\ failed [] s s'.
  Proof. intros H [->| ->]; (split; [|by (left + right)]); [done|apply nil_sok]. Qed.
  Lemma sok_erase s i j : sok s -> i <= j -> sok (take i s ++ drop j s).
  Proof.
    intros Ho Hi. apply (sub_ordered lt uniq s); [done|]. rewrite <-(take_drop i s) at 3. apply sublist_app; [done|]. replace j with (i + (j - i)) by lia. rewrite <-drop_drop. apply sublist_drop.
  Qed.
  Theorem C46_set_lookup : forall s k, sok s ->
    run (sFind lt k) s (fun r s' => s' = s /\ (has k s -> r = below k s) /\ (~ has k s -> r = length s)) (fun s' => s' = s) /\
    run (sContains lt k) s (fun r s' => s' = s /\ (r = true <-> has k s)) (fun s' => s' = s) /\
    run (sCount lt uniq k) s (fun r s' => s' = s /\ r = equivs lt k s) (fun s' => s' = s) /\
    run (sLower_bound lt k) s (fun r s' => s' = s /\ r = below k s) (fun s' => s' = s) /\
    run (sUpper_bound lt k) s (fun r s' => s' = s /\ r = upto k s) (fun s' => s' = s) /\
    run (sEqual_range lt uniq k) s (fun r s' => s' = s /\ r = (below k s, upto k s)) (fun s' => s' = s).
  Proof.
    intros s k Hok. split_and!.
    - apply (sFind_ok lt SW uniq); [done|done| |]; intros H; (split; [done|]); split; intros H'; done.
    - apply (sContains_ok lt SW uniq); [done|done|]. intros b Hb. done.
    - apply (sCount_ok lt SW uniq); done.
    - by apply (sbounds_ok lt SW uniq s k).
    - by apply (sbounds_ok lt SW uniq s k).
    - by apply (sEqual_range_ok lt SW uniq).
  Qed.
  Theorem C46_set_emplace : forall s k, sok s ->
    run (sEmplace lt uniq single k) s
      (fun r s' => sok s' /\ (uniq = true -> has k s -> r = (below k s, false) /\ s' = s) /\
                   (uniq = false \/ ~ has k s -> r = (upto k s, true) /\ s' = insert_at (upto k s) k s)) (fails s).
  Proof.
    intros s k Hok. eapply run_mono; [by apply sEmplace_ok| |intros s' H; by apply sfailed_ok]. intros r s' [H1 H2]. split; [|done]. pose proof (below_upto lt SW s k).
    destruct (shas_dec lt SW uniq s k Hok) as [Hh|Hn].
    - destruct uniq eqn:Eu; [destruct (H1 eq_refl Hh) as [_ ->]; done|]. destruct (H2 (or_introl eq_refl)) as [_ ->]. apply (insert_sok lt SW false); [done|]. cbn. lia.
    - destruct (H2 (or_intror Hn)) as [_ ->]. apply (insert_sok lt SW uniq); [done|]. destruct uniq; [done|]. lia.
  Qed.
  Theorem C46_set_hint : forall s pos k, sok s -> pos <= length s ->
    run (sEmplace_hint lt uniq single pos k) s
      (fun r s' => sok s' /\ (uniq = true -> has k s -> r = below k s /\ s' = s) /\
                   (uniq = false \/ ~ has k s -> r = hint_pos lt pos k s /\ s' = insert_at r k s)) (fails s).
  Proof.
    intros s pos k Hok Hp. eapply run_mono; [by apply sEmplace_hint_ok| |intros s' H; by apply sfailed_ok]. intros r s' [H1 H2]. split; [|done]. pose proof (below_upto lt SW s k). pose proof (has_iff lt SW s k (sok_sorted lt SW uniq s Hok)) as Hh0.
    destruct (shas_dec lt SW uniq s k Hok) as [Hh|Hn].
    - destruct uniq eqn:Eu; [destruct (H1 eq_refl Hh) as [_ ->]; done|]. destruct (H2 (or_introl eq_refl)) as [-> ->]. apply (insert_sok lt SW false); [done|]. unfold shinted. lia.
    - destruct (H2 (or_intror Hn)) as [-> ->]. apply (insert_sok lt SW uniq); [done|]. unfold shinted. rewrite Hh0 in Hn. destruct uniq; [|lia]. split; [lia|]. by rewrite Hh0.
  Qed.
  Theorem C46_set_insert_range : forall sorting s l, sok s -> (sorting = false -> sok l) ->
    run (sInsert_range lt uniq cap sorting l) s (fun _ s' => sok s' /\ merged lt uniq sorting s l s') (fails s).
  Proof. intros so s l Hok Hl. eapply run_mono; [by apply sInsert_range_ok| |intros s' H; by apply sfailed_ok]. intros ? s' HM. split; [apply HM|done]. Qed.
  Theorem C46_set_construct : forall s k,
    run (sconstruct lt uniq cap k) s (fun _ s' => sok s' /\ exists u, u <= length k /\ merged lt uniq true (take u k) (drop u k) s') (fun s' => s' = []).
  Proof. intros s k. eapply run_mono; [by apply sconstruct_ok| |done]. intros ? s' (u & Hu & HM). split; [apply HM|]. by exists u. Qed.
  Theorem C46_set_replace : forall s k, sok s -> sok k -> run (sreplace k) s (fun _ s' => s' = k /\ sok s') (fails s).
  Proof. intros s k Hok Hk. eapply run_mono; [apply sreplace_ok|by intros ? s' ->|intros s' H; by apply sfailed_ok]. Qed.
  Theorem C46_set_erase_range : forall s i j, sok s -> i <= j -> j <= length s ->
    run (serase_range i j) s (fun r s' => sok s' /\ r = i /\ s' = take i s ++ drop j s) (fails s).
  Proof.
    intros s i j Hok Hi Hj.
    - eapply run_mono; [by apply serase_range_ok| |intros s' H; by apply sfailed_ok]. intros r s' [-> ->]. split; [by apply sok_erase|done].
  Qed.
  Theorem C46_set_erase_key : forall s k, sok s ->
    run (sErase_key lt uniq k) s (fun n s' => sok s' /\ n = equivs lt k s /\ s' = List.filter (fun x => negb (equiv lt k x)) s) (fails s).
  Proof.
    intros s k Hok.
    - eapply run_mono; [by apply sErase_key_ok| |intros s' H; by apply sfailed_ok]. intros n s' [-> ->]. pose proof (below_upto lt SW s k). pose proof (sok_sorted lt SW uniq s Hok) as Hs. split; [by apply sok_erase|]. split; [done|].
      set (b := below k s) in *. set (u := upto k s) in *.
      assert (Hsplit : s = take b s ++ take (u - b) (drop b s) ++ drop u s).
      { rewrite <-(take_drop b s) at 1. f_equal. rewrite <-(take_drop (u - b) (drop b s)) at 1. f_equal. rewrite drop_drop. f_equal. lia. }
      assert (Hin : forall i e, s !! i = Some e -> equiv lt k e = bool_decide (b <= i < u)) by (intros i' e Hi'; by apply equiv_idx).
      rewrite Hsplit at 3. rewrite !List.filter_app. rewrite (filter_all _ (take b _)), (filter_nil _ (take (u - b) _)), (filter_all _ (drop u _)); [done| | |].
      + intros i' e Hi'. rewrite lookup_drop in Hi'. rewrite (Hin _ e Hi'). rewrite bool_decide_false by lia. done.
      + intros i' e Hi'. pose proof (lookup_lt_Some _ _ _ Hi') as Hlt. rewrite take_length, drop_length in Hlt. rewrite lookup_take in Hi' by lia. rewrite lookup_drop in Hi'. rewrite (Hin _ e Hi'). rewrite bool_decide_true by lia. done.
      + intros i' e Hi'. pose proof (lookup_lt_Some _ _ _ Hi') as Hlt. rewrite take_length in Hlt. rewrite lookup_take in Hi' by lia. rewrite (Hin _ e Hi'). rewrite bool_decide_false by lia. done.
  Qed.
  Theorem C46_set_erase_if : forall p s, sok s ->
    run (sErase_if p) s (fun n s' => sok s' /\ s' = List.filter (fun x => negb (p x)) s /\ n + length s' = length s) (fails s).
  Proof.
    intros p s Hok.
    - eapply run_mono; [by apply sErase_if_ok| |intros s' H; by apply sfailed_ok]. intros n s' [-> Hn]. split; [|done]. apply (sub_ordered lt uniq s); [done|]. clear. induction s as [|x l IH]; [done|]. cbn. destruct (negb (p x)); [by apply sublist_skip|by apply sublist_cons].
  Qed.
  Theorem C46_set_history : forall s : st, sreach lt uniq single cap s ->
    sok s /\ forall op, svalid lt uniq op s -> run (sexec lt uniq single cap op) s (fun _ s' => sok s') (fun s' => sok s').
  Proof.
    assert (Hop : forall s op, sok s -> svalid lt uniq op s -> run (sexec lt uniq single cap op) s (fun _ s' => sok s') (fun s' => sok s')).
    { assert (HV : forall {X} (m : fm st X) s (Q : X -> st -> Prop) (E : st -> Prop), run m s Q E -> (forall x s', Q x s' -> sok s') -> (forall s', E s' -> sok s') -> run (fbind m (fun _ => fret tt)) s (fun _ s' => sok s') (fun s' => sok s')).
      { intros X m s Q E H HQ HE. apply run_bind. eapply run_mono; [exact H| |done]. intros x s' Hx. apply run_ret. by eapply HQ. }
      intros s op Hok Hv. destruct op; cbn [sexec svalid] in *.
      - eapply HV; [by apply C46_set_emplace|by intros ? ? [? ?]|by intros ? [? ?]].
      - eapply HV; [by apply C46_set_hint|by intros ? ? [? ?]|by intros ? [? ?]].
      - eapply run_mono; [by apply C46_set_insert_range|by intros ? ? [? ?]|by intros ? [? ?]].
      - destruct Hv. eapply HV; [by apply C46_set_erase_range|by intros ? ? [? ?]|by intros ? [? ?]].
      - eapply HV; [by apply C46_set_erase_key|by intros ? ? [? ?]|by intros ? [? ?]].
      - eapply HV; [by apply C46_set_erase_if|by intros ? ? [? ?]|by intros ? [? ?]].
      - eapply run_mono; [by apply C46_set_replace|by intros ? ? [? ?]|by intros ? [? ?]].
      - eapply run_mono; [by apply C46_set_construct|by intros ? ? [? ?]|intros ? ->; apply nil_sok].
      - apply run_nothrow. apply nil_sok. }
    intros s Hr. assert (Hok : sok s); [|split; [done|intros op; by apply Hop]]. induction Hr as [|s op o x o' s' Hr IH Hv HE]; [apply nil_sok|].
    destruct (Hop s op IH Hv o) as (x1 & o1 & s1 & E1 & _ & H). rewrite HE in E1. injection E1 as -> -> ->. by destruct x1.
  Qed.
End set.

(** *** the hypotheses are met; concrete runs *)
Section sat.
  Notation S := (fmap_ nat nat).
  Definition m1 : S := FM [1; 3; 5] [10; 30; 50].
  Example C46_sat_ok : fok Nat.ltb true m1 /\ fok Nat.ltb false (FM [1; 3; 3] [10; 30; 31]).
  Proof.
    split; (split; [done|]); cbn [ks m1 ordered].
    - rewrite !strictly_cons. repeat split; try (repeat constructor); intros ? ? ? ? ? H; done.
    - rewrite !sorted_cons. repeat split; try (repeat constructor); intros ? ? ? ? ? H; done.
  Qed.
  (** insert 3 -> 99 into {1:10, 3:30, 5:50}: not inserted; 4 -> 40: inserted at index 2 *)
  Example C46_sat_emplace :
    Try_emplace Nat.ltb true 3 99 [] m1 = Ok (Ret (1, false), [], m1) /\
    Try_emplace Nat.ltb true 4 40 [] m1 = Ok (Ret (2, true), [], FM [1; 3; 4; 5] [10; 30; 40; 50]) /\
    Try_emplace Nat.ltb false 3 99 [] (FM [1; 3; 3; 5] [10; 30; 31; 50]) = Ok (Ret (3, true), [], FM [1; 3; 3; 3; 5] [10; 30; 31; 99; 50]).
  Proof. vm_compute. repeat split; reflexivity. Qed.
  (** the second insertion throws, leaving anything behind: the map is cleared. The comparator throws: nothing happens. *)
  Example C46_sat_throw :
    Try_emplace Nat.ltb true 4 40 [None; None; None; Some (FM [1; 3; 4; 5] [7])] m1 = Ok (Thrown, [], FM [] []) /\
    Try_emplace Nat.ltb true 4 40 [Some (FM [] [7])] m1 = Ok (Thrown, [], m1).
  Proof. vm_compute. repeat split; reflexivity. Qed.
  Example C46_sat_hint :
    Emplace_hint Nat.ltb false false 2 3 99 [] (FM [1; 3; 3; 5] [10; 30; 31; 50]) = Ok (Ret 2, [], FM [1; 3; 3; 3; 5] [10; 30; 99; 31; 50]) /\
    Emplace_hint Nat.ltb true true 0 3 99 [] m1 = Ok (Ret 1, [], FM [1; 3; 5] [10; 99; 50]).
  Proof. vm_compute. repeat split; reflexivity. Qed.
  Example C46_sat_range :
    Insert_range Nat.ltb true 4 true [(4, 40); (3, 99); (0, 0); (4, 41)] [] m1 = Ok (Ret tt, [], FM [0; 1; 3; 4; 5] [0; 10; 30; 40; 50]) /\
    Insert_range Nat.ltb false 4 true [(4, 40); (3, 99); (0, 0)] [] m1 = Ok (Ret tt, [], FM [0; 1; 3; 3; 4; 5] [0; 10; 30; 99; 40; 50]) /\
    construct Nat.ltb true 4 [3; 5; 1; 3] [30; 50; 10; 99] [] empty = Ok (Ret tt, [], m1).
  Proof. vm_compute. repeat split; reflexivity. Qed.
  Example C46_sat_erase :
    Erase_key Nat.ltb false 3 [] (FM [1; 3; 3; 5] [10; 30; 31; 50]) = Ok (Ret 2, [], FM [1; 5] [10; 50]) /\
    Erase_if (fun e => snd e =? 30) [] m1 = Ok (Ret 1, [], FM [1; 5] [10; 50]) /\
    Subscript Nat.ltb true 0 4 [] m1 = Ok (Ret 0, [], FM [1; 3; 4; 5] [10; 30; 0; 50]) /\
    At Nat.ltb 5 [] m1 = Ok (Ret (Some 50), [], m1).
  Proof. vm_compute. repeat split; reflexivity. Qed.
  Example C46_sat_set :
    sEmplace Nat.ltb true true 4 [] [1; 3; 5] = Ok (Ret (2, true), [], [1; 3; 4; 5]) /\
    sEmplace_hint Nat.ltb true true 0 4 [] [1; 3; 5] = Ok (Ret 2, [], [1; 3; 4; 5]) /\
    sInsert_range Nat.ltb true 4 true [4; 3; 0; 4] [] [1; 3; 5] = Ok (Ret tt, [], [0; 1; 3; 4; 5]) /\
    sErase_key Nat.ltb false 3 [] [1; 3; 3; 5] = Ok (Ret 2, [], [1; 5]) /\
    sEmplace Nat.ltb true false 4 [None; None; Some [9; 9]] [1; 3; 5] = Ok (Thrown, [], []).
  Proof. vm_compute. repeat split; reflexivity. Qed.
  (** Finding: with vector or deque (_Has_guaranteed_single_insertion) there is no guard. They do not guarantee that an insertion in the middle has no
      effect if a move throws (here the tail has been moved up and the hole still holds the old element): the set is then no longer strictly sorted. *)
  Definition emplace_at_unguarded (i k : nat) : fm (list nat) nat := mut (fun s => ins s i k) ;;; fret i.
  Example C46_finding_no_guard :
    match emplace_at_unguarded 1 2 [Some [1; 3; 3; 5]] [1; 3; 5] with Ok (Thrown, _, s) => s = [1; 3; 3; 5] /\ ~ strictly Nat.ltb s | _ => False end.
  Proof. cbn. split; [done|]. intros H. specialize (H 1 2 3 3 ltac:(lia) eq_refl eq_refl). done. Qed.
  (** a history with an exception in it *)
  Example C46_sat_history : exists s, mreach Nat.ltb true 4 s /\ s = FM [2; 4] [20; 40].
  Proof.
    eexists. split; [|reflexivity].
    eapply (mreach_op _ _ _ (FM [4] [40]) (MAssign 2 20) []); [|reflexivity|vm_compute; reflexivity].
    eapply (mreach_op _ _ _ (FM [] []) (MSubscript 40 4) []); [|reflexivity|vm_compute; reflexivity].
    eapply (mreach_op _ _ _ (FM [3] [30]) (MRange true [(5, 1); (1, 5)]) [None; None; Some (FM [7] [])]); [|intros H; done|vm_compute; reflexivity].
    eapply (mreach_op _ _ _ (FM [] []) (MHint false 0 3 30) []); [|cbn; lia|vm_compute; reflexivity]. constructor.
  Qed.
End sat.
Print Assumptions C46_lookup.
Print Assumptions C46_positions.
Print Assumptions C46_at.
Print Assumptions C46_emplace.
Print Assumptions C46_hint.
Print Assumptions C46_insert_or_assign.
Print Assumptions C46_subscript.
Print Assumptions C46_insert_range.
Print Assumptions C46_merged.
Print Assumptions C46_construct.
Print Assumptions C46_replace.
Print Assumptions C46_erase_range.
Print Assumptions C46_erase_key.
Print Assumptions C46_erase_if.
Print Assumptions C46_history.
Print Assumptions C46_set_lookup.
Print Assumptions C46_set_emplace.
Print Assumptions C46_set_hint.
Print Assumptions C46_set_insert_range.
Print Assumptions C46_set_construct.
Print Assumptions C46_set_replace.
Print Assumptions C46_set_erase_range.
Print Assumptions C46_set_erase_key.
Print Assumptions C46_set_erase_if.
Print Assumptions C46_set_history.
