(** flat_map, flat_multimap: ranges of entries *)
From stdpp Require Import base list numbers.
From Coq Require Import Lia.
From Verif Require Import Base.Res Base.Order Base.OrderLemmas Base.Arr Base.Stable Alg.SortModel Alg.MergeModel Alg.PartitionModel Alg.PartitionProofs
  Cont.FlatModel Cont.FlatSpec Cont.FlatProofs Cont.FlatProofs2 Cont.FlatProofs3.
Local Open Scope nat_scope.

Lemma merged_of {A} (lt : A -> A -> bool) (SW : StrictWeakOrder lt) (uniq sorting : bool) old new (l1 mz w : list A) :
  take (length old) l1 = old -> drop (length old) l1 ≡ₚ new -> (sorting = false -> drop (length old) l1 = new) -> sorted lt mz -> stable_eq lt l1 mz ->
  w = (if uniq then dedup (fun x y => negb (lt x y)) mz else mz) -> merged lt uniq sorting old new w.
Proof.
  intros H1 H2 H3 Hs Hst ->. rewrite <-(take_drop (length old) l1), H1 in Hst. unfold merged. destruct uniq.
  - destruct (dedup_sorted lt SW mz Hs) as [D1 D2]. split; [exact D1|]. exists (drop (length old) l1). split; [done|]. split; [done|]. intros x. rewrite D2. f_equal. apply Hst.
  - split; [exact Hs|]. exists (drop (length old) l1). split; [done|]. split; [done|]. intros x. apply Hst.
Qed.
Lemma merged_elem {A} (lt : A -> A -> bool) (SW : StrictWeakOrder lt) uniq sorting old new (w : list A) : merged lt uniq sorting old new w -> forall x, x ∈ w -> x ∈ old \/ x ∈ new.
Proof.
  intros (_ & new' & Hp & _ & Hf) x Hx. assert (Hin : In x (List.filter (equiv lt x) w)).
  { apply filter_In. split; [by apply elem_of_list_In|]. apply (eqvb_refl lt SW). }
  rewrite Hf in Hin. assert (Hin' : In x (List.filter (equiv lt x) (old ++ new'))).
  { destruct uniq; [|done]. rewrite <-(take_drop 1 (List.filter _ (old ++ new'))). apply in_or_app. by left. }
  apply filter_In in Hin' as [Hin' _]. apply elem_of_list_In, elem_of_app in Hin' as [?|Hn]; [by left|right]. by rewrite <-Hp.
Qed.

Section map.
  Context {K M : Type} (lt : K -> K -> bool) (SW : StrictWeakOrder lt) (uniq : bool) (cap : nat).
  Notation st := (fmap_ K M).
  Implicit Types s : st.
  Notation fok := (fok lt uniq).
  Notation ltp := (ltp (M := M) lt).
  Lemma swp : StrictWeakOrder ltp.
  Proof.
    split; unfold FlatModel.ltp; intros.
    - apply (swo_irrefl _ SW).
    - by eapply (swo_trans _ SW).
    - by eapply (swo_equiv_trans _ SW).
  Qed.
  Lemma sorted_keys (l : list (K * M)) : sorted ltp l <-> sorted lt (fst <$> l).
  Proof.
    split; intros H i j x y Hij Hx Hy.
    - apply list_lookup_fmap_inv in Hx as (x' & -> & Hx). apply list_lookup_fmap_inv in Hy as (y' & -> & Hy). by apply (H i j x' y').
    - apply (H i j (fst x) (fst y)); [done|by rewrite list_lookup_fmap, Hx|by rewrite list_lookup_fmap, Hy].
  Qed.
  Lemma strictly_keys (l : list (K * M)) : strictly ltp l <-> strictly lt (fst <$> l).
  Proof.
    split; intros H i j x y Hij Hx Hy.
    - apply list_lookup_fmap_inv in Hx as (x' & -> & Hx). apply list_lookup_fmap_inv in Hy as (y' & -> & Hy). by apply (H i j x' y').
    - apply (H i j (fst x) (fst y)); [done|by rewrite list_lookup_fmap, Hx|by rewrite list_lookup_fmap, Hy].
  Qed.
  Lemma ordered_keys (l : list (K * M)) : ordered ltp uniq l <-> ordered lt uniq (fst <$> l).
  Proof. unfold ordered. destruct uniq; [apply strictly_keys|apply sorted_keys]. Qed.
  Lemma keys_entries s : length (ks s) = length (vs s) -> fst <$> entries s = ks s.
  Proof. intros H. apply fst_zip. lia. Qed.
  Lemma vals_entries s : length (ks s) = length (vs s) -> snd <$> entries s = vs s.
  Proof. intros H. apply snd_zip. lia. Qed.
  Lemma of_entries s : length (ks s) = length (vs s) -> of_view (entries s) = s.
  Proof. intros H. unfold of_view. rewrite keys_entries, vals_entries by done. by destruct s. Qed.
  Lemma entries_of (l : list (K * M)) : entries (of_view l) = l.
  Proof. apply zip_fst_snd. Qed.
  Lemma of_view_len (l : list (K * M)) : length (ks (of_view l)) = length (vs (of_view l)).
  Proof. cbn. by rewrite !fmap_length. Qed.
  Lemma view_of (l : list (K * M)) : view (of_view l) = Ok l.
  Proof. unfold view. rewrite decide_True by apply of_view_len. by rewrite <-(entries_of l) at 3. Qed.
  Lemma fok_of (l : list (K * M)) : ordered ltp uniq l -> fok (of_view l).
  Proof. intros H. split; [apply of_view_len|]. by apply ordered_keys. Qed.
  Lemma fok_view s : fok s -> exists l, s = of_view l /\ ordered ltp uniq l /\ l = entries s.
  Proof. intros [Hl Ho]. exists (entries s). split; [by rewrite of_entries|]. split; [|done]. apply ordered_keys. by rewrite keys_entries. Qed.

  Lemma Restore_ok sorting (old new : list (K * M)) : sorted ltp old -> (sorting = false -> sorted ltp new) ->
    run (Restore lt uniq cap sorting (length old)) (of_view (old ++ new)) (fun _ s' => merged ltp uniq sorting old new (entries s') /\ length (ks s') = length (vs s')) (fun _ => True).
  Proof.
    intros Ho Hn. unfold Restore. apply run_bind.
    assert (H1 : run (S := st) (if sorting then mut (fun s => l <~ view s ;; a <~ sort ltp (full l) (length old) (length l) ;; l <~ values_of a ;; Ok (of_view l)) else fret tt)
        (of_view (old ++ new)) (fun _ s' => exists l1, s' = of_view l1 /\ take (length old) l1 = old /\ drop (length old) l1 ≡ₚ new /\ (sorting = false -> drop (length old) l1 = new) /\
           sorted ltp (drop (length old) l1) /\ length l1 = length (old ++ new)) (fun _ => True)).
    { destruct sorting.
      - apply run_mut; [|done]. rewrite view_of, rbind_ok. destruct (restore_sort ltp swp (old ++ new) (length old)) as (l1 & E & T & D & S & L); [rewrite app_length; lia|].
        rewrite E, rbind_ok, values_of_full, rbind_ok. apply wp_ok. exists l1. rewrite take_app in T. rewrite drop_app in D. done.
      - apply run_ret. exists (old ++ new). rewrite take_app, drop_app. specialize (Hn eq_refl). done. }
    eapply run_mono; [exact H1| |done]. intros ? s1 (l1 & -> & T & D & Df & S1 & L). apply run_bind. apply run_mut; [|done]. rewrite view_of, rbind_ok.
    destruct (restore_merge ltp swp cap l1 (length old)) as (mz & E & Sm & Hst & Lm); [rewrite L, app_length; lia|by rewrite T|done|].
    rewrite E, rbind_ok, values_of_full, rbind_ok. apply wp_ok. pose proof (merged_of ltp swp uniq sorting old new l1 mz _ T D Df Sm Hst eq_refl) as HM. destruct uniq.
    - apply run_mut; [|done]. rewrite view_of, rbind_ok. rewrite unique_all, rbind_ok. apply wp_ok. rewrite entries_of. split; [exact HM|apply of_view_len].
    - apply run_ret. rewrite entries_of. split; [exact HM|apply of_view_len].
  Qed.
  Lemma push_all_ok (l l0 : list (K * M)) (Q : unit -> st -> Prop) : Q tt (of_view (l0 ++ l)) -> run (push_all l) (of_view l0) Q (fun _ => True).
  Proof.
    revert l0. induction l as [|e l IH]; intros l0 HQ; cbn [push_all]; [rewrite app_nil_r in HQ; by apply run_ret|].
    apply run_bind. apply run_mut; [|done]. apply wp_ok. apply run_bind. apply run_mut; [|done]. apply wp_ok. cbn [ks vs of_view].
    assert (E : FM ((fst <$> l0) ++ [fst e]) ((snd <$> l0) ++ [snd e]) = of_view (l0 ++ [e])) by (unfold of_view; by rewrite !fmap_app).
    rewrite E. apply IH. by rewrite <-app_assoc.
  Qed.
  Lemma merged_fok sorting old new s' : merged ltp uniq sorting old new (entries s') -> length (ks s') = length (vs s') -> fok s'.
  Proof. intros [H _] Hl. split; [done|]. apply ordered_keys in H. by rewrite keys_entries in H. Qed.
  Lemma Insert_range_ok sorting s l : fok s -> (sorting = false -> ordered lt uniq (fst <$> l)) ->
    run (Insert_range lt uniq cap sorting l) s (fun _ s' => fok s' /\ merged ltp uniq sorting (entries s) l (entries s')) (failed empty s).
  Proof.
    intros Hok Hl. pose proof Hok as [Hlen _]. destruct (fok_view s Hok) as (l0 & -> & Ho & El). rewrite <-El. apply run_guarded; [|by right]. apply run_bind. apply run_peek; [|done]. apply wp_ok.
    apply run_bind. apply push_all_ok. replace (ksize (of_view l0)) with (length l0) by (unfold ksize; cbn; by rewrite fmap_length).
    eapply run_mono; [apply Restore_ok| |done].
    - by apply (ordered_sorted ltp swp uniq).
    - intros E. apply (ordered_sorted ltp swp uniq). apply ordered_keys. by apply Hl.
    - intros ? s' [HM HL]. split; [by eapply merged_fok|done].
  Qed.
  Lemma Establish_ok s : length (ks s) = length (vs s) ->
    run (Establish lt uniq cap) s (fun _ s' => fok s' /\ exists u, u <= length (ks s) /\ merged ltp uniq true (take u (entries s)) (drop u (entries s)) (entries s')) (fun _ => True).
  Proof.
    intros Hlen. unfold Establish. apply run_bind. apply run_peek; [|done]. apply wp_ok. unfold ksize. destruct (Nat.eqb_spec (length (ks s)) 0) as [E0|].
    { apply run_ret. destruct s as [k v]. cbn [ks vs] in *. destruct k, v; try done. split; [split; [done|]; unfold ordered; destruct uniq; intros ? ? ? ? ? H; done|]. exists 0. split; [done|]. cbn.
      split; [unfold ordered; destruct uniq; intros ? ? ? ? ? H; done|]. exists []. split; [done|]. split; [done|]. intros x. cbn. by destruct uniq. }
    apply run_bind. apply run_peek; [|done]. apply wp_ok. destruct (until_ok lt SW (ks s)) as [U1 U2]. set (u := is_sorted_until lt (ks s)) in *.
    assert (Hu : u = length (take u (entries s))). { rewrite take_length. unfold entries. rewrite zip_with_length. lia. }
    assert (Es : s = of_view (take u (entries s) ++ drop u (entries s))) by (by rewrite take_drop, of_entries).
    rewrite Hu at 1. rewrite Es at 2. eapply run_mono; [apply Restore_ok| |done].
    - apply sorted_keys. rewrite fmap_take, keys_entries by done. done.
    - done.
    - intros ? s' [HM HL]. split; [by eapply merged_fok|]. exists u. done.
  Qed.
  Lemma construct_ok s k v : length k = length v ->
    run (construct lt uniq cap k v) s (fun _ s' => fok s' /\ exists u, u <= length k /\ merged ltp uniq true (take u (zip k v)) (drop u (zip k v)) (entries s')) (fun s' => s' = empty).
  Proof.
    intros Hl. unfold construct. apply run_bind. apply run_nothrow. apply run_guarded; [|done]. by apply (Establish_ok (FM k v)).
  Qed.
  Lemma replace_ok s k v : length k = length v -> ordered lt uniq k -> run (replace k v) s (fun _ s' => s' = FM k v /\ fok s') (failed empty s).
  Proof. intros Hl Ho. apply run_guarded; [|by right]. apply run_bind. apply run_mut; [|done]. apply wp_ok. apply run_mut; [|done]. by apply wp_ok. Qed.
  Lemma Erase_if_ok p s : fok s ->
    run (Erase_if p) s (fun n s' => fok s' /\ entries s' = List.filter (fun e => negb (p e)) (entries s) /\ n + length (ks s') = length (ks s)) (failed empty s).
  Proof.
    intros Hok. destruct (fok_view s Hok) as (l & -> & Ho & El). rewrite entries_of. apply run_guarded; [|by right]. apply run_bind. apply run_peek; [|done]. apply wp_ok.
    apply run_bind. apply run_mut; [|done]. rewrite view_of, rbind_ok, remove_all, rbind_ok. apply wp_ok. apply run_bind. apply run_peek; [|done]. apply wp_ok. apply run_ret. split; [|split].
    - apply fok_of. apply (sub_ordered ltp uniq l); [exact Ho|]. clear. induction l as [|x l IH]; [done|]. cbn. destruct (negb (p x)); [by apply sublist_skip|by apply sublist_cons].
    - apply entries_of.
    - unfold ksize. cbn. rewrite !fmap_length. assert (length (List.filter (fun e => negb (p e)) l) <= length l); [|lia]. clear. induction l as [|x l IH]; [done|]. cbn. destruct (negb (p x)); cbn; lia.
  Qed.
  Lemma Subscript_ok d s k : uniq = true -> fok s ->
    run (Subscript lt uniq d k) s
      (fun v s' => (has lt k (ks s) -> s' = s /\ vs s !! below lt k (ks s) = Some v) /\
                   (~ has lt k (ks s) -> v = d /\ inserted s (upto lt k (ks s)) k d s')) (fun s' => failed empty s s' \/ ~ has lt k (ks s) /\ inserted s (upto lt k (ks s)) k d s').
  Proof.
    intros Hun Hok. unfold Subscript. apply run_bind. eapply run_mono; [by apply Try_emplace_ok| |intros; by left]. intros [i f] s' [H1 H2]. cbn [fst].
    pose proof (fok_sorted lt SW uniq s Hok) as Hs. pose proof Hok as [Hl _]. pose proof (upto_len lt (ks s) k). destruct (has_dec lt SW uniq s k Hok) as [Hh|Hn].
    - destruct (H1 Hun Hh) as [[= -> ->] ->]. apply run_peek; [|left; by left]. rewrite has_iff in Hh by done. apply wp_rd_full'; [lia|]. intros v Hv. split; [done|]. intros Hn. exfalso. apply Hn. by rewrite has_iff.
    - destruct (H2 (or_intror Hn)) as [[= -> ->] Hins]. apply run_peek; [|right; done]. pose proof Hins as [_ E2]. apply wp_rd_full'; [rewrite E2, insert_at_length; lia|]. intros v Hv. split; [done|]. intros _. split; [|done].
      rewrite E2, insert_at_lookup in Hv by lia. rewrite decide_False, decide_True in Hv by lia. by injection Hv as ->.
  Qed.
End map.
