(** flat_set, flat_multiset *)
From stdpp Require Import base list numbers.
From Coq Require Import Lia.
From Verif Require Import Base.Res Base.Order Base.OrderLemmas Base.Arr Base.Stable Alg.SearchModel Alg.SortModel Alg.MergeModel Alg.PartitionModel Alg.PartitionProofs
  Cont.FlatModel Cont.FlatSpec Cont.FlatProofs Cont.FlatProofs2 Cont.FlatProofs3 Cont.FlatProofs4.
Local Open Scope nat_scope.

Section set.
  Context {K : Type} (lt : K -> K -> bool) (SW : StrictWeakOrder lt) (uniq single : bool) (cap : nat).
  Notation st := (list K).
  Implicit Types s : st.
  Notation below := (below lt). Notation upto := (upto lt). Notation has := (has lt).
  Notation sok := (ordered lt uniq).
  Lemma sok_sorted s : sok s -> sorted lt s.
  Proof. by apply (ordered_sorted lt SW uniq). Qed.
  Lemma sone s k : uniq = true -> sok s -> upto k s <= S (below k s).
  Proof. intros Hu H. rewrite Hu in H. by apply strictly_one. Qed.
  Lemma shas_dec s k : sok s -> {has k s} + {~ has k s}.
  Proof. intros H. destruct (decide (below k s < upto k s)); [left|right]; rewrite has_iff by (try done; by apply sok_sorted); done. Qed.
  Lemma insert_sok s i k : sok s -> (if uniq then i = upto k s /\ ~ has k s else below k s <= i <= upto k s) -> sok (insert_at i k s).
  Proof.
    unfold ordered. intros Ho Hi. destruct uniq.
    - destruct Hi as [-> Hn]. by apply insert_strictly.
    - by apply insert_sorted.
  Qed.
  Lemma run_semplace s i k (Q : nat -> st -> Prop) : i <= length s -> Q i (insert_at i k s) -> run (sEmplace_at single i k) s Q (failed [] s).
  Proof.
    intros Hi HQ. unfold sEmplace_at. destruct single; apply run_bind.
    - apply run_mut_strong; [|by left]. apply wp_ins; [done|]. by apply run_ret.
    - apply run_guarded; [|by right]. apply run_mut; [|done]. apply wp_ins; [done|]. by apply run_ret.
  Qed.
  (** the test whether the element at a lower bound is equivalent *)
  Lemma run_found s k (Q : bool -> st -> Prop) (E : st -> Prop) : sok s -> E s -> Q (bool_decide (below k s < upto k s)) s ->
    run (peek (fun s => if (below k s =? length s) then Ok false else x <~ skey s (below k s) ;; Ok (negb (lt k x)))) s Q E.
  Proof.
    intros Hok HE HQ. pose proof (sok_sorted s Hok) as Hs. pose proof (upto_len lt s k). apply run_peek; [|done]. destruct (Nat.eqb_spec (below k s) (length s)).
    - apply wp_ok. rewrite bool_decide_false in HQ by lia. done.
    - apply wp_bind. apply wp_rd_full'; [pose proof (below_len lt s k); lia|]. intros x Hx. apply wp_ok. rewrite (upto_lt lt SW s k _ x Hs Hx), negb_involutive. done.
  Qed.
  Lemma run_found' i s k (Q : bool -> st -> Prop) (E : st -> Prop) : i = below k s -> sok s -> E s -> Q (bool_decide (below k s < upto k s)) s ->
    run (peek (fun s => if (i =? length s) then Ok false else x <~ skey s i ;; Ok (negb (lt k x)))) s Q E.
  Proof.
    intros -> Hok HE HQ. pose proof (sok_sorted s Hok) as Hs. pose proof (upto_len lt s k). apply run_peek; [|done]. destruct (Nat.eqb_spec (below k s) (length s)).
    - apply wp_ok. rewrite bool_decide_false in HQ by lia. done.
    - apply wp_bind. apply wp_rd_full'; [pose proof (below_len lt s k); lia|]. intros x Hx. apply wp_ok. rewrite (upto_lt lt SW s k _ x Hs Hx), negb_involutive. done.
  Qed.
  Lemma sEmplace_ok s k : sok s ->
    run (sEmplace lt uniq single k) s
      (fun r s' => (uniq = true -> has k s -> r = (below k s, false) /\ s' = s) /\
                   (uniq = false \/ ~ has k s -> r = (upto k s, true) /\ s' = insert_at (upto k s) k s)) (failed [] s).
  Proof.
    intros Hok. pose proof (sok_sorted s Hok) as Hs. pose proof (upto_len lt s k) as Hu. pose proof (below_upto lt SW s k) as Hbu. pose proof (has_iff lt SW s k Hs) as Hhas. pose proof (fun Hu => sone s k Hu Hok) as Hone.
    unfold sEmplace. destruct uniq eqn:Eu; apply run_bind; (apply run_peek; [|by left]); unfold slb, sub_.
    - specialize (Hone eq_refl). rewrite (lower_sub lt SW) by (done || lia). apply wp_ok. apply run_bind. apply run_found'; [done|by rewrite Eu|by left|]. apply run_if; intros Hd; [apply bool_decide_eq_true in Hd|apply bool_decide_eq_false in Hd].
      + apply run_ret. split; [done|]. intros [?|Hn]; [done|]. by rewrite Hhas in Hn.
      + apply run_bind. apply run_semplace; [lia|]. apply run_ret. split; [intros _ Hh; by apply Hhas in Hh|]. intros _. replace (upto k s) with (below k s) by lia. done.
    - rewrite (upper_sub lt SW) by (done || lia). apply wp_ok. apply run_bind. apply run_semplace; [done|]. apply run_ret. done.
  Qed.
  Lemma run_send_or s pos (c : K -> bool) (b : bool) (Q : bool -> st -> Prop) (E : st -> Prop) : pos <= length s ->
    (forall x, s !! pos = Some x -> c x = b) -> (pos = length s -> b = true) -> Q b s -> E s -> run (sat_end_or pos c) s Q E.
  Proof.
    intros Hp H1 H2 HQ HE. apply run_peek; [|done]. destruct (Nat.eqb_spec pos (length s)) as [Ep|]; [rewrite (H2 Ep) in HQ; by apply wp_ok|].
    apply wp_bind. apply wp_rd_full'; [lia|]. intros x Hx. apply wp_ok. by rewrite (H1 x Hx).
  Qed.
  Lemma run_sbegin_or s pos (c : K -> bool) (b : bool) (Q : bool -> st -> Prop) (E : st -> Prop) : pos <= length s ->
    (forall x, 0 < pos -> s !! (pos - 1) = Some x -> c x = b) -> (pos = 0 -> b = true) -> Q b s -> E s -> run (sat_begin_or pos c) s Q E.
  Proof.
    intros Hp H1 H2 HQ HE. apply run_peek; [|done]. destruct (Nat.eqb_spec pos 0) as [Ep|]; [rewrite (H2 Ep) in HQ; by apply wp_ok|].
    apply wp_bind. apply wp_rd_full'; [lia|]. intros x Hx. apply wp_ok. by rewrite (H1 x ltac:(lia) Hx).
  Qed.
  Definition shinted s (pos : nat) (k : K) : nat := Nat.max (below k s) (Nat.min pos (upto k s)).
  Lemma sEmplace_hint_ok s pos k : sok s -> pos <= length s ->
    run (sEmplace_hint lt uniq single pos k) s
      (fun r s' => (uniq = true -> has k s -> r = below k s /\ s' = s) /\
                   (uniq = false \/ ~ has k s -> r = shinted s pos k /\ s' = insert_at r k s)) (failed [] s).
  Proof.
    intros Hok Hpos. pose proof (sok_sorted s Hok) as Hs. pose proof (upto_len lt s k) as Hu. pose proof (below_upto lt SW s k) as Hbu. pose proof (has_iff lt SW s k Hs) as Hhas. pose proof (fun Hu => sone s k Hu Hok) as Hone.
    pose proof (fun x => below_lt lt SW s k pos x Hs) as Hb1. pose proof (fun x => below_lt lt SW s k (pos - 1) x Hs) as Hb2.
    pose proof (fun x => upto_lt lt SW s k pos x Hs) as Hu1. pose proof (fun x => upto_lt lt SW s k (pos - 1) x Hs) as Hu2.
    unfold sEmplace_hint, shinted. set (u := upto k s) in *. set (b := below k s) in *. destruct uniq eqn:Eu.
    - specialize (Hone eq_refl). apply run_bind. apply (run_send_or s pos _ (bool_decide (b <= pos))); [done| | | |by left].
      { intros x Hx. rewrite (Hb1 x Hx). destruct (decide (pos < b)); [rewrite bool_decide_true, bool_decide_false by lia|rewrite bool_decide_false, bool_decide_true by lia]; done. }
      { intros ->. apply bool_decide_eq_true. lia. }
      apply run_bind. eapply (run_mono _ _ (fun np s' => np = b /\ s' = s)); [| |intros s' Hs'; exact Hs'].
      + apply run_if; intros Hc; [apply bool_decide_eq_true in Hc|apply bool_decide_eq_false in Hc].
        * apply run_bind. apply (run_sbegin_or s pos _ (bool_decide (pos <= b))); [done| | | |by left].
          { intros x Hp Hx. rewrite (Hb2 x Hx). apply bool_decide_ext. lia. }
          { intros ->. apply bool_decide_eq_true. lia. }
          apply run_if; intros Hd; [apply bool_decide_eq_true in Hd|apply bool_decide_eq_false in Hd].
          -- apply run_ret. split; [lia|done].
          -- apply run_peek; [|by left]. unfold slb. rewrite (lower_sub lt SW); [by apply wp_ok|done|fold b; lia|lia].
        * apply run_peek; [|by left]. unfold slb. rewrite (lower_sub lt SW); [by apply wp_ok|done|fold b; lia|lia].
      + intros np s' [-> ->]. apply run_bind. apply run_found'; [done|by rewrite Eu|by left|]. fold u b. apply run_if; intros Hd; [apply bool_decide_eq_true in Hd|apply bool_decide_eq_false in Hd].
        * apply run_ret. split; [done|]. intros [?|Hn]; [done|]. by rewrite Hhas in Hn.
        * apply run_semplace; [lia|]. split; [intros _ Hh; by apply Hhas in Hh|]. intros _. split; [lia|done].
    - apply run_bind. apply (run_send_or s pos _ (bool_decide (u <= pos))); [done| | | |by left].
      { intros x Hx. rewrite (Hu1 x Hx). destruct (decide (pos < u)); [rewrite bool_decide_true, bool_decide_false by lia|rewrite bool_decide_false, bool_decide_true by lia]; done. }
      { intros ->. apply bool_decide_eq_true. lia. }
      apply run_bind. eapply (run_mono _ _ (fun np s' => np = Nat.max b (Nat.min pos u) /\ s' = s)); [| |intros s' Hs'; exact Hs'].
      + apply run_if; intros Hc; [apply bool_decide_eq_true in Hc|apply bool_decide_eq_false in Hc].
        * apply run_bind. apply (run_sbegin_or s pos _ (bool_decide (pos <= u))); [done| | | |by left].
          { intros x Hp Hx. rewrite (Hu2 x Hx), negb_involutive. apply bool_decide_ext. lia. }
          { intros ->. apply bool_decide_eq_true. lia. }
          apply run_if; intros Hd; [apply bool_decide_eq_true in Hd|apply bool_decide_eq_false in Hd].
          -- apply run_ret. split; [lia|done].
          -- apply run_peek; [|by left]. unfold sub_. rewrite (upper_sub lt SW); [apply wp_ok; fold u; split; [lia|done]|done|fold u; lia|lia].
        * apply run_peek; [|by left]. unfold slb. rewrite (lower_clamp lt SW) by (done || lia). apply wp_ok. fold b. split; [lia|done].
      + intros np s' [-> ->]. apply run_semplace; [lia|]. done.
  Qed.
  Lemma sRestore_ok sorting old new : sorted lt old -> (sorting = false -> sorted lt new) ->
    run (sRestore lt uniq cap sorting (length old)) (old ++ new) (fun _ s' => merged lt uniq sorting old new s') (fun _ => True).
  Proof.
    intros Ho Hn. unfold sRestore. apply run_bind.
    assert (H1 : run (S := st) (if sorting then mut (fun s => a <~ sort lt (full s) (length old) (length s) ;; values_of a) else fret tt)
        (old ++ new) (fun _ l1 => take (length old) l1 = old /\ drop (length old) l1 ≡ₚ new /\ (sorting = false -> drop (length old) l1 = new) /\
           sorted lt (drop (length old) l1) /\ length l1 = length (old ++ new)) (fun _ => True)).
    { destruct sorting.
      - apply run_mut; [|done]. destruct (restore_sort lt SW (old ++ new) (length old)) as (l1 & E & T & D & S & L); [rewrite app_length; lia|].
        rewrite E, rbind_ok, values_of_full. apply wp_ok. rewrite take_app in T. rewrite drop_app in D. done.
      - apply run_ret. rewrite take_app, drop_app. specialize (Hn eq_refl). done. }
    eapply run_mono; [exact H1| |done]. intros ? l1 (T & D & Df & S1 & L). apply run_bind. apply run_mut; [|done].
    destruct (restore_merge lt SW cap l1 (length old)) as (mz & E & Sm & Hst & Lm); [rewrite L, app_length; lia|by rewrite T|done|].
    rewrite E, rbind_ok, values_of_full. apply wp_ok. pose proof (merged_of lt SW uniq sorting old new l1 mz _ T D Df Sm Hst eq_refl) as HM. destruct uniq.
    - apply run_mut; [|done]. rewrite unique_all. apply wp_ok. exact HM.
    - apply run_ret. exact HM.
  Qed.
  Lemma sInsert_range_ok sorting s l : sok s -> (sorting = false -> sok l) ->
    run (sInsert_range lt uniq cap sorting l) s (fun _ s' => merged lt uniq sorting s l s') (failed [] s).
  Proof.
    intros Hok Hl. apply run_guarded; [|by right]. apply run_bind. apply run_peek; [|done]. apply wp_ok. apply run_bind. apply run_mut; [|done]. apply wp_ok.
    apply sRestore_ok; [by apply sok_sorted|]. intros E. apply sok_sorted. by apply Hl.
  Qed.
  Lemma sEstablish_ok s :
    run (sEstablish lt uniq cap) s (fun _ s' => exists u, u <= length s /\ merged lt uniq true (take u s) (drop u s) s') (fun _ => True).
  Proof.
    unfold sEstablish. apply run_bind. apply run_peek; [|done]. apply wp_ok. destruct (Nat.eqb_spec (length s) 0) as [E0|].
    { apply run_ret. destruct s; [|done]. exists 0. split; [done|]. split; [unfold ordered; destruct uniq; intros ? ? ? ? ? H; done|]. exists []. split; [done|]. split; [done|]. intros x. cbn. by destruct uniq. }
    apply run_bind. apply run_peek; [|done]. apply wp_ok. destruct (until_ok lt SW s) as [U1 U2]. set (u := is_sorted_until lt s) in *.
    assert (Hu : u = length (take u s)) by (rewrite take_length; lia).
    rewrite Hu at 1. rewrite <-(take_drop u s) at 2. eapply run_mono; [apply sRestore_ok; [done|done]| |done]. intros ? s' HM. by exists u.
  Qed.
  Lemma sconstruct_ok s k :
    run (sconstruct lt uniq cap k) s (fun _ s' => exists u, u <= length k /\ merged lt uniq true (take u k) (drop u k) s') (fun s' => s' = []).
  Proof. unfold sconstruct. apply run_bind. apply run_nothrow. apply run_guarded; [|done]. apply sEstablish_ok. Qed.
  Lemma sreplace_ok s k : run (sreplace k) s (fun _ s' => s' = k) (failed [] s).
  Proof. apply run_guarded; [|by right]. apply run_mut; [|done]. by apply wp_ok. Qed.
  Lemma serase_range_ok s i j : i <= j -> j <= length s -> run (serase_range i j) s (fun r s' => r = i /\ s' = take i s ++ drop j s) (failed [] s).
  Proof. intros Hi Hj. apply run_guarded; [|by right]. apply run_bind. apply run_mut; [|done]. apply wp_ers; [done|done|]. by apply run_ret. Qed.
  Lemma sEqual_range_ok s k (Q : nat * nat -> st -> Prop) (E : st -> Prop) : sok s -> E s -> Q (below k s, upto k s) s -> run (sEqual_range lt uniq k) s Q E.
  Proof.
    intros Hok HE HQ. pose proof (sok_sorted s Hok) as Hs. pose proof (upto_len lt s k) as Hu. pose proof (below_upto lt SW s k) as Hbu. pose proof (fun Hu => sone s k Hu Hok) as Hone.
    unfold sEqual_range. destruct uniq eqn:Eu.
    - specialize (Hone eq_refl). apply run_bind. apply run_peek; [|done]. unfold slb. rewrite (lower_sub lt SW) by (done || lia). apply wp_ok.
      apply run_bind. apply run_peek; [|done]. destruct (Nat.eqb_spec (below k s) (length s)).
      + apply wp_ok. apply run_ret. assert (upto k s = below k s) as E1 by lia. by rewrite E1 in HQ.
      + apply wp_bind. apply wp_rd_full'; [lia|]. intros x Hx. apply wp_ok. apply run_ret. rewrite (upto_lt lt SW s k _ x Hs Hx). destruct (decide (below k s < upto k s)).
        * rewrite bool_decide_true by done. cbn [negb]. by replace (S (below k s)) with (upto k s) by lia.
        * rewrite bool_decide_false by done. cbn [negb]. assert (upto k s = below k s) as E1 by lia. by rewrite E1 in HQ.
    - apply run_peek; [|done]. rewrite (equal_all lt SW) by done. by apply wp_ok.
  Qed.
  Lemma sErase_key_ok s k : sok s ->
    run (sErase_key lt uniq k) s (fun n s' => n = equivs lt k s /\ s' = take (below k s) s ++ drop (upto k s) s) (failed [] s).
  Proof.
    intros Hok. pose proof (sok_sorted s Hok) as Hs. pose proof (upto_len lt s k) as Hu. pose proof (below_upto lt SW s k) as Hbu. pose proof (fun Hu => sone s k Hu Hok) as Hone. pose proof (equivs_diff lt SW s k) as Hd.
    pose proof (sEqual_range_ok s k) as HR. unfold sErase_key. destruct uniq eqn:Eu.
    - specialize (Hone eq_refl). apply run_bind. apply run_peek; [|by left]. unfold slb. rewrite (lower_sub lt SW) by (done || lia). apply wp_ok.
      apply run_bind. apply run_found'; [done|by rewrite Eu|by left|]. apply run_if; intros Hf; [apply bool_decide_eq_true in Hf|apply bool_decide_eq_false in Hf].
      + apply run_bind. apply run_guarded; [|by right]. apply run_mut; [|done]. apply wp_ers; [lia|lia|]. apply run_ret. split; [lia|]. by replace (upto k s) with (S (below k s)) by lia.
      + apply run_ret. split; [lia|]. replace (upto k s) with (below k s) by lia. by rewrite take_drop.
    - apply run_bind. apply HR; [done|by left|]. cbn [fst snd]. apply run_bind. apply run_guarded; [|by right]. apply run_mut; [|done]. apply wp_ers; [done|done|]. apply run_ret. split; [lia|done].
  Qed.
  Lemma sErase_if_ok p s : run (sErase_if p) s (fun n s' => s' = List.filter (fun e => negb (p e)) s /\ n + length s' = length s) (failed [] s).
  Proof.
    apply run_guarded; [|by right]. apply run_bind. apply run_peek; [|done]. apply wp_ok.
    apply run_bind. apply run_mut; [|done]. rewrite remove_all. apply wp_ok. apply run_bind. apply run_peek; [|done]. apply wp_ok. apply run_ret. split; [done|].
    assert (length (List.filter (fun e => negb (p e)) s) <= length s); [|lia]. clear. induction s as [|x l IH]; [done|]. cbn. destruct (negb (p x)); cbn; lia.
  Qed.
  Lemma sFind_ok s k (Q : nat -> st -> Prop) (E : st -> Prop) : sok s -> E s ->
    (has k s -> Q (below k s) s) -> (~ has k s -> Q (length s) s) -> run (sFind lt k) s Q E.
  Proof.
    intros Hok HE H1 H2. pose proof (sok_sorted s Hok) as Hs. pose proof (upto_len lt s k) as Hu. pose proof (below_upto lt SW s k) as Hbu. rewrite has_iff in H1, H2 by done.
    unfold sFind. apply run_bind. apply run_peek; [|done]. unfold slb. rewrite (lower_sub lt SW) by (done || lia). apply wp_ok.
    apply run_peek; [|done]. destruct (Nat.eqb_spec (below k s) (length s)); [apply wp_ok, H2; lia|].
    apply wp_bind. apply wp_rd_full'; [lia|]. intros x Hx. apply wp_ok. rewrite (upto_lt lt SW s k _ x Hs Hx). destruct (decide (below k s < upto k s)).
    - rewrite bool_decide_true by done. by apply H1.
    - rewrite bool_decide_false by done. by apply H2.
  Qed.
  Lemma sContains_ok s k (Q : bool -> st -> Prop) (E : st -> Prop) : sok s -> E s -> (forall b, (b = true <-> has k s) -> Q b s) -> run (sContains lt k) s Q E.
  Proof.
    intros Hok HE H. apply run_peek; [|done]. destruct (binary_all lt SW s k (sok_sorted s Hok)) as (b & E1 & Hb). rewrite E1. apply wp_ok. by apply H.
  Qed.
  Lemma sCount_ok s k (Q : nat -> st -> Prop) (E : st -> Prop) : sok s -> E s -> Q (equivs lt k s) s -> run (sCount lt uniq k) s Q E.
  Proof.
    intros Hok HE HQ. pose proof (sok_sorted s Hok) as Hs. pose proof (below_upto lt SW s k). pose proof (equivs_diff lt SW s k). pose proof (fun Hu => sone s k Hu Hok) as Hone. pose proof (sContains_ok s k) as HC. pose proof (sEqual_range_ok s k) as HR.
    unfold sCount. destruct uniq eqn:Eu.
    - specialize (Hone eq_refl). apply run_bind. apply HC; [done|done|]. intros b Hb. apply run_ret. rewrite has_iff in Hb by done.
      destruct b; [assert (equivs lt k s = 1) as E1 by (destruct Hb as [Hb _]; specialize (Hb eq_refl); lia)|assert (equivs lt k s = 0) as E1]; try (by rewrite E1 in HQ).
      destruct (decide (below k s < upto k s)) as [Hc|]; [by apply Hb in Hc|lia].
    - apply run_bind. apply HR; [done|done|]. apply run_ret. cbn [fst snd]. by replace (upto k s - below k s) with (equivs lt k s) by lia.
  Qed.
  Lemma sbounds_ok s k (Q : nat -> st -> Prop) (E : st -> Prop) : sok s -> E s ->
    (Q (below k s) s -> run (sLower_bound lt k) s Q E) /\ (Q (upto k s) s -> run (sUpper_bound lt k) s Q E).
  Proof.
    intros Hok HE. pose proof (sok_sorted s Hok) as Hs. pose proof (upto_len lt s k). pose proof (below_upto lt SW s k). split; intros HQ; (apply run_peek; [|done]); unfold slb, sub_.
    - rewrite (lower_sub lt SW) by (done || lia). by apply wp_ok.
    - rewrite (upper_sub lt SW) by (done || lia). by apply wp_ok.
  Qed.
End set.
