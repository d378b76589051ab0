(** flat_map as a map from keys to values *)
From stdpp Require Import base list numbers.
From Coq Require Import Lia.
From Verif Require Import Base.Res Base.Order Base.OrderLemmas Base.Arr Base.Stable Cont.FlatModel Cont.FlatSpec Cont.FlatProofs Cont.FlatProofs2 Cont.FlatProofs3 Cont.FlatProofs4.
Local Open Scope nat_scope.

Section map.
  Context {K M : Type} (lt : K -> K -> bool) (SW : StrictWeakOrder lt) (uniq : bool).
  Notation st := (fmap_ K M).
  Implicit Types (s : st) (l : list (K * M)).
  Notation below := (below lt). Notation upto := (upto lt). Notation has := (has lt). Notation equiv := (equiv lt). Notation value_of := (value_of (M := M) lt).
  Notation fok := (fok lt uniq).
  Notation P k := (fun e : K * M => equiv k (fst e)).
  Lemma equiv_refl k : equiv k k = true. Proof. apply (eqvb_refl lt SW). Qed.
  Lemma equiv_sym k k' : equiv k k' = equiv k' k. Proof. apply (eqvb_sym lt). Qed.
  Lemma equiv_subst k k' x : equiv k k' = true -> equiv k x = equiv k' x.
  Proof.
    intros H. destruct (equiv k' x) eqn:E; [by apply (eqvb_trans lt SW k k' x)|]. destruct (equiv k x) eqn:E2; [|done].
    rewrite equiv_sym in H. rewrite <-E. symmetry. by apply (eqvb_trans lt SW k' k x).
  Qed.
  Lemma value_equiv k k' l : equiv k k' = true -> value_of k l = value_of k' l.
  Proof.
    intros H. unfold FlatSpec.value_of. do 2 f_equal. induction l as [|e l IH]; [done|]. cbn. rewrite (equiv_subst k k' (fst e) H), IH. done.
  Qed.
  Lemma filter_out k l : (forall e, e ∈ l -> equiv k (fst e) = false) -> List.filter (P k) l = [].
  Proof.
    induction l as [|e l IH]; intros H; [done|]. cbn. rewrite (H e) by constructor. apply IH. intros e' He. apply H. by constructor.
  Qed.
  Lemma entries_fst s i k m : length (ks s) = length (vs s) -> entries s !! i = Some (k, m) <-> ks s !! i = Some k /\ vs s !! i = Some m.
  Proof. intros Hl. unfold entries. rewrite lookup_zip_with_Some. naive_solver. Qed.
  Lemma filter_nohas s k : fok s -> ~ has k (ks s) -> List.filter (P k) (entries s) = [].
  Proof.
    intros [Hl _] Hn. apply filter_out. intros [x v] He. apply elem_of_list_lookup in He as (i & Hi). apply entries_fst in Hi as [Hi _]; [|done]. cbn.
    destruct (equiv k x) eqn:E; [|done]. exfalso. apply Hn. exists x. split; [|done]. by eapply elem_of_list_lookup_2.
  Qed.
  Lemma filter_range s k : fok s -> List.filter (P k) (entries s) = take (upto k (ks s) - below k (ks s)) (drop (below k (ks s)) (entries s)).
  Proof.
    intros Hok. pose proof Hok as [Hl _]. pose proof (fok_sorted lt SW uniq s Hok) as Hs. pose proof (below_upto lt SW (ks s) k) as Hbu. pose proof (upto_len lt (ks s) k) as Hu.
    set (b := below k (ks s)) in *. set (u := upto k (ks s)) in *.
    assert (Hin : forall i x v, entries s !! i = Some (x, v) -> equiv k x = bool_decide (b <= i < u)) by (intros i x v Hi; apply entries_fst in Hi as [Hi _]; [|done]; by apply equiv_idx).
    rewrite <-(take_drop b (entries s)) at 1. rewrite <-(take_drop (u - b) (drop b (entries s))) at 1. rewrite !List.filter_app.
    assert (E1 : List.filter (P k) (take b (entries s)) = []).
    { apply filter_out. intros [x v] He. apply elem_of_list_lookup in He as (i & Hi). pose proof (lookup_lt_Some _ _ _ Hi) as Hlt. rewrite take_length in Hlt. rewrite lookup_take in Hi by lia. cbn. rewrite (Hin i x v Hi). apply bool_decide_eq_false. lia. }
    assert (E3 : List.filter (P k) (drop (u - b) (drop b (entries s))) = []).
    { apply filter_out. intros [x v] He. apply elem_of_list_lookup in He as (i & Hi). rewrite !lookup_drop in Hi. cbn. rewrite (Hin _ x v Hi). apply bool_decide_eq_false. lia. }
    rewrite E1, E3, app_nil_r. cbn [app]. apply filter_all. intros i [x v] Hi. pose proof (lookup_lt_Some _ _ _ Hi) as Hlt. rewrite take_length, drop_length in Hlt. rewrite lookup_take in Hi by lia. rewrite lookup_drop in Hi.
    cbn. rewrite (Hin _ x v Hi). apply bool_decide_eq_true. lia.
  Qed.
  Lemma value_found s k : fok s -> has k (ks s) -> value_of k (entries s) = vs s !! below k (ks s).
  Proof.
    intros Hok Hh. pose proof Hok as [Hl _]. pose proof (fok_sorted lt SW uniq s Hok) as Hs. rewrite has_iff in Hh by done. unfold FlatSpec.value_of. rewrite filter_range by done. pose proof (upto_len lt (ks s) k).
    destruct (lookup_lt_is_Some_2 (entries s) (below k (ks s))) as [[x v] Hx]. { unfold entries. rewrite zip_with_length. lia. }
    rewrite (drop_S _ _ _ Hx). destruct (upto k (ks s) - below k (ks s)) as [|n] eqn:E; [lia|]. cbn. apply entries_fst in Hx as [_ Hx]; [|done]. done.
  Qed.
  Lemma value_missing s k : fok s -> ~ has k (ks s) -> value_of k (entries s) = None.
  Proof. intros Hok Hn. unfold FlatSpec.value_of. by rewrite filter_nohas. Qed.
  Lemma value_has s k : fok s -> has k (ks s) <-> is_Some (value_of k (entries s)).
  Proof.
    intros Hok. pose proof Hok as [Hl _]. split.
    - intros Hh. rewrite value_found by done. apply lookup_lt_is_Some_2. rewrite has_iff in Hh by (done || by apply (fok_sorted lt SW uniq)). pose proof (upto_len lt (ks s) k). lia.
    - intros [v Hv]. destruct (has_dec lt SW uniq s k Hok) as [|Hn]; [done|]. by rewrite value_missing in Hv.
  Qed.
  Lemma has_equiv k k' (l : list K) : equiv k k' = true -> has k l -> has k' l.
  Proof. intros H (x & Hx & E). exists x. split; [done|]. by rewrite <-(equiv_subst k k' x H). Qed.
  (** the three ways in which the map changes *)
  Lemma value_insert s i k m k' : fok s -> ~ has k (ks s) -> value_of k' (insert_at i (k, m) (entries s)) = if equiv k k' then Some m else value_of k' (entries s).
  Proof.
    intros Hok Hn. unfold FlatSpec.value_of, insert_at. rewrite List.filter_app. rewrite filter_c. cbn [fst]. rewrite (equiv_sym k' k). destruct (equiv k k') eqn:E.
    - assert (E0 : List.filter (P k') (entries s) = []). { apply filter_nohas; [done|]. intros Hh. apply Hn. eapply has_equiv; [|exact Hh]. by rewrite equiv_sym. }
      rewrite <-(take_drop i (entries s)), List.filter_app in E0. apply app_eq_nil in E0 as [E1 _]. by rewrite E1.
    - do 2 f_equal. rewrite <-(take_drop i (entries s)) at 3. by rewrite List.filter_app.
  Qed.
  Lemma value_assign s k m k' : uniq = true -> fok s -> has k (ks s) -> value_of k' (entries (FM (ks s) (<[below k (ks s) := m]> (vs s)))) = if equiv k k' then Some m else value_of k' (entries s).
  Proof.
    intros Hun Hok Hh. pose proof Hok as [Hl Ho]. pose proof (fok_sorted lt SW uniq s Hok) as Hs. set (s' := FM (ks s) (<[below k (ks s) := m]> (vs s))).
    assert (Hok' : fok s') by (split; [cbn; by rewrite insert_length|done]). pose proof Hh as Hlt. rewrite has_iff in Hlt by done. pose proof (upto_len lt (ks s) k) as Hu.
    destruct (equiv k k') eqn:E.
    - rewrite <-(value_equiv k k') by done. rewrite value_found by done. cbn. apply list_lookup_insert. lia.
    - destruct (has_dec lt SW uniq s k' Hok) as [Hh'|Hn']; [|by rewrite !value_missing by done]. rewrite !value_found by done. cbn. apply list_lookup_insert_ne. intros Eb. rewrite has_iff in Hh' by done.
      destruct (lookup_lt_is_Some_2 (ks s) (below k (ks s))) as [x Hx]; [lia|].
      pose proof (equiv_idx lt SW (ks s) k _ x Hs Hx) as E1. pose proof (equiv_idx lt SW (ks s) k' _ x Hs Hx) as E2. rewrite bool_decide_true in E1 by lia. rewrite bool_decide_true in E2 by lia.
      rewrite (equiv_subst k x k' E1) in E. rewrite equiv_sym in E. change (FlatSpec.equiv lt) with (eqvb lt) in *. congruence.
  Qed.
  Lemma value_erase s k k' : fok s -> value_of k' (take (below k (ks s)) (entries s) ++ drop (upto k (ks s)) (entries s)) = if equiv k k' then None else value_of k' (entries s).
  Proof.
    intros Hok. pose proof (below_upto lt SW (ks s) k) as Hbu. pose proof (filter_range s k Hok) as HR. set (b := below k (ks s)) in *. set (u := upto k (ks s)) in *.
    assert (Hsplit : entries s = take b (entries s) ++ take (u - b) (drop b (entries s)) ++ drop u (entries s)).
    { rewrite <-(take_drop b (entries s)) at 1. f_equal. rewrite <-(take_drop (u - b) (drop b (entries s))) at 1. f_equal. rewrite drop_drop. f_equal. lia. }
    unfold FlatSpec.value_of. rewrite List.filter_app. destruct (equiv k k') eqn:E.
    - assert (EP : forall l, List.filter (P k') l = List.filter (P k) l). { intros l. induction l as [|e l IH]; [done|]. cbn. rewrite (equiv_subst k k' _ E), IH. done. }
      rewrite !EP. pose proof HR as HR0. rewrite Hsplit in HR at 1. rewrite !List.filter_app in HR. pose proof (f_equal length HR) as HL. rewrite !app_length in HL.
      assert (HM : List.filter (P k) (take (u - b) (drop b (entries s))) = take (u - b) (drop b (entries s))).
      { rewrite <-HR0. clear. induction (entries s) as [|e l IH]; [done|]. cbn. destruct (equiv k (fst e)) eqn:E; [cbn; rewrite E; by f_equal|done]. }
      rewrite HM in HL. destruct (List.filter (P k) (take b (entries s))) as [|]; [|cbn in HL; lia]. destruct (List.filter (P k) (drop u (entries s))) as [|]; [done|cbn in HL; lia].
    - rewrite Hsplit at 3. rewrite !List.filter_app. rewrite (filter_out k' (take (u - b) _)); [done|]. intros e He. rewrite <-HR in He. apply elem_of_list_In, filter_In in He as [_ He].
      rewrite (equiv_subst k (fst e) k' He) in E. rewrite equiv_sym. done.
  Qed.
  Lemma value_merged s sorting new s' k : fok s -> uniq = true -> merged (ltp lt) uniq sorting (entries s) new (entries s') ->
    exists new', new' ≡ₚ new /\ (sorting = false -> new' = new) /\
      value_of k (entries s') = match value_of k (entries s) with Some v => Some v | None => value_of k new' end.
  Proof.
    intros Hok Hun (Ho & new' & Hp & Hso & Hf). exists new'. split; [done|]. split; [done|]. rewrite Hun in Hf.
    assert (HE : forall (m0 : M) l, List.filter (FlatSpec.equiv (ltp lt) (k, m0)) l = List.filter (P k) l) by done.
    assert (Hh : forall l, head (take 1 l) = head l (A := K * M)) by (by intros [|? ?]).
    unfold FlatSpec.value_of. destruct (entries s ++ new') as [|[k0 m0] r] eqn:E.
    - apply app_eq_nil in E as [E1 E2]. rewrite E1, E2. cbn. destruct (entries s') as [|[k1 m1] r']; [done|]. specialize (Hf (k1, m1)). cbn in Hf. change (FlatSpec.equiv (ltp lt) (k1, m1) (k1, m1)) with (equiv k1 k1) in Hf. by rewrite equiv_refl in Hf.
    - specialize (Hf (k, m0)). rewrite !HE in Hf. rewrite Hf, Hh, <-E, List.filter_app. by destruct (List.filter (P k) (entries s)).
  Qed.
End map.
