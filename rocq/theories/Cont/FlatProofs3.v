(** flat containers: sorting, merging and removing duplicates *)
From stdpp Require Import base list numbers.
From Coq Require Import Lia.
From Verif Require Import Base.Res Base.Order Base.OrderLemmas Base.Arr Base.Stable Alg.SortModel Alg.MergeModel Alg.PartitionModel Alg.PartitionProofs
  Cont.FlatModel Cont.FlatSpec Cont.FlatProofs Props.SortProps Props.MergeProps.
Local Open Scope nat_scope.

Section lists.
  Context {A : Type} (lt : A -> A -> bool) (SW : StrictWeakOrder lt).
  Implicit Types l w z : list A.
  Notation strictly := (strictly lt).
  Notation eqd := (fun x y => negb (lt x y)).
  Lemma values_of_full l : values_of (full l) = Ok l.
  Proof. induction l as [|x l IH]; [done|]. change (full (x :: l)) with (Some x :: full l). cbn [values_of]. by rewrite IH, rbind_ok. Qed.
  Lemma then_erase_ok (m : res (arr A * nat)) w J r : m = Ok (full w ++ J, r) -> r = length w -> then_erase m = Ok w.
  Proof.
    intros -> ->. unfold then_erase. rewrite rbind_ok. rewrite decide_True by (rewrite app_length, full_length; lia).
    rewrite <-(full_length w). rewrite take_app. apply values_of_full.
  Qed.
  Lemma unique_all eq l : then_erase (unique eq (full l) 0 (length l)) = Ok (dedup eq l).
  Proof.
    destruct (unique_ok eq l [] [] 0 (length l) eq_refl eq_refl) as (J & E & _). rewrite app_nil_l, app_nil_r in E. eapply then_erase_ok; [|done].
    rewrite E. cbn [app]. rewrite app_nil_r. done.
  Qed.
  Lemma remove_all (p : A -> bool) l : then_erase (remove_if p (full l) 0 (length l)) = Ok (List.filter (fun x => negb (p x)) l).
  Proof.
    destruct (remove_if_ok p l [] [] 0 (length l) eq_refl eq_refl) as (J & E & _). rewrite app_nil_l, app_nil_r in E. eapply then_erase_ok; [|done].
    rewrite E. cbn [app]. rewrite app_nil_r. done.
  Qed.
  Lemma strictly_cons x l : strictly (x :: l) <-> Forall (fun y => lt x y = true) l /\ strictly l.
  Proof.
    split.
    - intros H. split; [|intros i j a b Hij Ha Hb; by apply (H (S i) (S j)); [lia|..]].
      apply Forall_lookup. intros i y Hy. by apply (H 0 (S i)); [lia|..].
    - intros [HF H] i j a b Hij Ha Hb. destruct j as [|j]; [lia|]. destruct i as [|i].
      + injection Ha as <-. rewrite Forall_lookup in HF. by apply (HF j).
      + by apply (H i j); [lia|..].
  Qed.
  Lemma filter_none (p : A -> bool) l : Forall (fun y => p y = false) l -> List.filter p l = [].
  Proof. induction 1 as [|y l Hy _ IH]; [done|]. cbn. by rewrite Hy. Qed.
  Lemma filter_c (p : A -> bool) x l : List.filter p (x :: l) = if p x then x :: List.filter p l else List.filter p l.
  Proof. done. Qed.
  Lemma dedup_from_sorted l k : sorted lt (k :: l) ->
    strictly (k :: dedup_from eqd k l) /\ forall x, List.filter (equiv lt x) (k :: dedup_from eqd k l) = take 1 (List.filter (equiv lt x) (k :: l)).
  Proof.
    revert k. induction l as [|y l IH]; intros k Hs.
    { split; [apply strictly_cons; split; [constructor|intros ? ? ? ? ? H; done]|]. intros x. cbn [dedup_from List.filter]. by destruct (equiv lt x k). }
    apply sorted_cons in Hs as [HF Hs]. apply Forall_cons_1 in HF as [Hyk HF]. cbn [dedup_from]. destruct (lt k y) eqn:Eky; cbn [negb].
    - destruct (IH y Hs) as [H1 H2]. split.
      + apply strictly_cons. split; [|done]. constructor; [done|]. apply strictly_cons in H1 as [H1 _]. eapply Forall_impl; [|exact H1]. cbn. intros z Hz. by apply (swo_trans _ SW k y z).
      + intros x. rewrite (filter_c _ k (y :: dedup_from _ y l)), (filter_c _ k (y :: l)). destruct (equiv lt x k) eqn:Exk; [|apply H2].
        specialize (H2 x). rewrite H2. cbn [take]. f_equal.
        assert (List.filter (equiv lt x) (y :: l) = []) as E0; [|by rewrite E0].
        apply filter_none. unfold equiv in *. apply andb_true_iff in Exk as [E1 E2]. apply negb_true_iff in E1, E2.
        assert (Hxy : lt x y = true).
        { destruct (lt x y) eqn:Exy; [done|]. by rewrite (swo_ntrans lt SW y x k Exy E2) in Eky. }
        apply sorted_cons in Hs as [HFy _]. constructor; [by rewrite Hxy|]. eapply Forall_impl; [|exact HFy]. cbn. intros z Hz. destruct (lt x z) eqn:Exz; [done|]. by rewrite (swo_ntrans lt SW y z x Hz Exz) in Hxy.
    - destruct (IH k) as [H1 H2]. { apply sorted_cons in Hs as [? ?]. by apply sorted_cons. }
      split; [done|]. intros x. rewrite H2. cbn [List.filter]. assert (equiv lt x y = equiv lt x k) as ->; [|by destruct (equiv lt x k)].
      assert (Hky : eqvb lt k y = true) by (apply eqvb_true; done). change (equiv lt) with (eqvb lt). destruct (eqvb lt x k) eqn:E1.
      + by apply (eqvb_trans lt SW x k y).
      + destruct (eqvb lt x y) eqn:E2; [|done]. rewrite eqvb_sym in Hky. by rewrite (eqvb_trans lt SW x y k E2 Hky) in E1.
  Qed.
  Lemma dedup_sorted l : sorted lt l -> strictly (dedup eqd l) /\ forall x, List.filter (equiv lt x) (dedup eqd l) = take 1 (List.filter (equiv lt x) l).
  Proof. destruct l as [|k l]; [intros _; split; [intros ? ? ? ? ? H; done|done]|]. apply dedup_from_sorted. Qed.
  Lemma until_le x l : 1 <= sorted_until lt x l <= S (length l).
  Proof. revert x. induction l as [|y l IH]; intros x; cbn; [lia|]. destruct (lt y x); [lia|]. specialize (IH y). lia. Qed.
  Lemma until_from x l : sorted lt (take (sorted_until lt x l) (x :: l)).
  Proof.
    revert x. induction l as [|y l IH]; intros x; cbn [sorted_until].
    { cbn. apply sorted_cons. split; [constructor|]. intros ? ? ? ? ? H; done. }
    destruct (lt y x) eqn:E.
    { cbn. apply sorted_cons. split; [constructor|]. intros ? ? ? ? ? H; done. }
    change (take (S (sorted_until lt y l)) (x :: y :: l)) with (x :: take (sorted_until lt y l) (y :: l)). specialize (IH y). apply sorted_cons. split; [|done].
    destruct (sorted_until lt y l) as [|n] eqn:En; [pose proof (until_le y l); lia|]. cbn [take] in *. apply sorted_cons in IH as [IH _]. constructor; [done|].
    eapply Forall_impl; [|exact IH]. cbn. intros z Hz. by apply (swo_ntrans lt SW x y z).
  Qed.
  Lemma until_ok l : is_sorted_until lt l <= length l /\ sorted lt (take (is_sorted_until lt l) l).
  Proof. destruct l as [|x l]; [split; [done|intros ? ? ? ? ? H; done]|]. split; [apply until_le|apply until_from]. Qed.
  (** the three steps of _Restore_invariants *)
  Lemma restore_sort l old : old <= length l ->
    exists l1, sort lt (full l) old (length l) = Ok (full l1) /\ take old l1 = take old l /\ drop old l1 ≡ₚ drop old l /\ sorted lt (drop old l1) /\ length l1 = length l.
  Proof.
    intros Ho. destruct (C03_sort lt SW old (length l) l Ho (le_n _)) as (l1 & E & Hp & Hout & Hs). pose proof (Permutation_length Hp) as Hlen.
    exists l1. split; [done|]. pose proof (same_outside_take _ _ _ _ Hout) as Ht. split; [done|]. split.
    { rewrite <-(take_drop old l1), <-(take_drop old l), Ht in Hp. by apply Permutation_app_inv_l in Hp. }
    split; [|done]. apply sorted_range_slice in Hs. unfold slice in Hs. by rewrite take_ge in Hs by (rewrite drop_length; lia).
  Qed.
  Lemma restore_merge cap l old : old <= length l -> sorted lt (take old l) -> sorted lt (drop old l) ->
    exists l1, inplace_merge lt cap (full l) 0 old (length l) = Ok (full l1) /\ sorted lt l1 /\ stable_eq lt l l1 /\ length l1 = length l.
  Proof.
    intros Ho H1 H2. destruct (C05_inplace_merge lt SW cap l 0 old (length l)) as (l1 & E & _ & Hs & Hst & Hp); [lia|done|done| | |].
    - apply sorted_range_slice. unfold slice. by rewrite drop_0, Nat.sub_0_r.
    - apply sorted_range_slice. unfold slice. by rewrite take_ge by (rewrite drop_length; lia).
    - pose proof (Permutation_length Hp) as Hlen. exists l1. split; [done|]. apply sorted_range_slice in Hs. rewrite slice_full in Hst. rewrite <-Hlen, slice_full in Hs, Hst. done.
  Qed.
End lists.
