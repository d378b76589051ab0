(** nth_element and partial_sort. *)
From stdpp Require Import base list numbers.
From Coq Require Import Lia ZifyNat.
From Verif Require Import Base.Res Base.Order Base.OrderLemmas Base.Stable Base.Arr
  Alg.HeapModel Alg.HeapSpec Alg.HeapProofs Alg.SortModel Alg.SortProofs.
Ltac Zify.zify_post_hook ::= Z.div_mod_to_equations.

Section nth.
  Context {A : Type} (lt : A -> A -> bool) (SW : StrictWeakOrder lt).
  Implicit Types (l L : list A).
  Notation shuf := (@shuf A).

  (* nothing in [k,T) is less than anything in [F,k) *)
  Definition cut (k F T : nat) l : Prop :=
    forall i j x y, (F <= i)%nat -> (i < k)%nat -> (k <= j)%nat -> (j < T)%nat ->
      l !! i = Some x -> l !! j = Some y -> lt y x = false.

  Lemma cut_shuf k F T f t l l' :
    shuf f t l l' -> (t <= k \/ k <= f)%nat -> (F <= f)%nat -> (t <= T)%nat -> cut k F T l -> cut k F T l'.
  Proof.
    intros Hs Hk Hf Ht Hc.
    destruct (decide (f <= t)%nat) as [Hft|Hft]; cycle 1.
    { assert (El : forall i, l' !! i = l !! i) by (intros i; apply Hs; lia).
      intros i j x y ????. rewrite !El. eauto. }
    assert (H : range_all (fun x => range_all (fun y => lt y x = false) k T l) F k l).
    { intros i x Hi1 Hi2 Hx j y Hj1 Hj2 Hy. eapply (Hc i j); eauto. }
    assert (H' : range_all (fun x => range_all (fun y => lt y x = false) k T l') F k l').
    { destruct Hk as [Hk|Hk].
      - eapply range_all_shuf_sub; [exact Hs|lia|lia|].
        eapply range_all_mono; [|exact H]. intros x Hx. cbv beta in *.
        eapply range_all_shuf_out; [exact Hs|lia|done].
      - eapply range_all_shuf_out; [exact Hs|lia|].
        eapply range_all_mono; [|exact H]. intros x Hx. cbv beta in *.
        eapply range_all_shuf_sub; [exact Hs|lia|lia|done]. }
    intros i j x y Hi1 Hi2 Hj1 Hj2 Hx Hy. apply (H' i x Hi1 Hi2 Hx j y); done.
  Qed.

  Lemma cut_refine k f t F T l :
    (F <= f)%nat -> (f <= k)%nat -> (k <= t)%nat -> (t <= T)%nat ->
    cut f F T l -> cut t F T l -> cut k f t l -> cut k F T l.
  Proof.
    intros ???? Hf Ht Hk i j x y ???? Hx Hy.
    destruct (decide (i < f)%nat); [apply (Hf i j); try done; lia|].
    destruct (decide (t <= j)%nat); [apply (Ht i j); try done; lia|].
    apply (Hk i j); try done; lia.
  Qed.

  Lemma sorted_cut k f t l : (f <= k)%nat -> (k <= t)%nat -> sorted_range lt f t l -> cut k f t l.
  Proof. intros ?? H i j x y ???? Hx Hy. apply (H i j); try done; lia. Qed.

  (* weak three-way partition *)
  Definition wpart pv (f m1 m2 t : nat) l : Prop :=
    range_all (fun x => lt pv x = false) f m2 l /\ range_all (fun x => lt x pv = false) m1 t l.

  Lemma wpart_cut pv k f m1 m2 t l :
    wpart pv f m1 m2 t l -> (m1 <= k)%nat -> (k <= m2)%nat -> cut k f t l.
  Proof.
    intros [H1 H2] ?? i j x y ???? Hx Hy.
    assert (Ex : lt pv x = false) by (apply (H1 i); try done; lia).
    assert (Ey : lt y pv = false) by (apply (H2 j); try done; lia).
    by apply (swo_ntrans lt SW x pv y).
  Qed.

  Lemma part_wpart pv f m1 m2 t l :
    (f <= m1)%nat -> (m1 <= m2)%nat -> (m2 <= t)%nat ->
    range_all (LTc lt pv) f m1 l -> range_all (EQc lt pv) m1 m2 l -> range_all (GTc lt pv) m2 t l ->
    wpart pv f m1 m2 t l.
  Proof.
    intros ??? H1 H2 H3. split; intros i x Hi1 Hi2 Hx.
    - destruct (decide (i < m1)%nat).
      + apply (swo_asym lt SW). apply (H1 i); try done.
      + apply (H2 i); try done; lia.
    - destruct (decide (i < m2)%nat).
      + apply (H2 i); try done; lia.
      + apply (swo_asym lt SW). apply (H3 i); try done; lia.
  Qed.

  Lemma swap_med5_wp f t first dest l :
    (f <= first)%nat -> (first + 5 <= t)%nat -> (f <= dest < t)%nat -> (t <= length l)%nat ->
    wp (swap_med5 lt (full l) first dest) (fun a => exists l', a = full l' /\ shuf f t l l').
  Proof.
    intros Hf Ht Hd Hlen. unfold swap_med5. cbv zeta.
    eapply (wp_shuf_bind f t l); [apply med3_wp; lia|]. intros l1 H1. pose proof (shuf_len _ _ _ _ H1) as E1.
    wbind. apply wp_rd_full'; [lia|]. intros v5 _.
    wbind. apply wp_rd_full'; [lia|]. intros v4 _.
    eapply (wp_shuf_bind f t l1).
    { destruct (lt v5 v4); [apply swp_shuf; lia|]. simpl. eexists; split; [done|apply shuf_refl]. }
    intros l2 H2. pose proof (shuf_len _ _ _ _ H2) as E2.
    wbind. apply wp_rd_full'; [lia|]. intros w1 _.
    wbind. apply wp_rd_full'; [lia|]. intros w2 _.
    wbind. apply wp_rd_full'; [lia|]. intros w3 _.
    wbind. apply wp_rd_full'; [lia|]. intros w4 _.
    wbind. apply wp_rd_full'; [lia|]. intros w5 _.
    eapply wp_mono; [apply (swp_shuf f t); [lia| |lia]|].
    { destruct (lt w5 w2); [destruct (lt w1 w5); lia|]. destruct (lt w2 w4); [destruct (lt w3 w4); lia|lia]. }
    intros a (l3 & -> & H3). eexists; split; [done|]. eauto using shuf_trans.
  Qed.

  (* swap_ranges: the two blocks exchange, everything else stays *)
  Lemma swap_ranges_wp (f1 l1 f2 : nat) l :
    (f1 <= l1)%nat -> (l1 <= f2)%nat -> (f2 + (l1 - f1) <= length l)%nat ->
    wp (swap_ranges (full l) f1 l1 f2) (fun a => exists l', a = full l' /\ shuf f1 (f2 + (l1 - f1)) l l' /\
      (forall i, (i < l1 - f1)%nat -> l' !! (f2 + i)%nat = l !! (f1 + i)%nat /\ l' !! (f1 + i)%nat = l !! (f2 + i)%nat) /\
      (forall i, (l1 <= i < f2)%nat -> l' !! i = l !! i)).
  Proof.
    intros H1 H2 Hlen. unfold swap_ranges.
    apply (wp_loop (fun '(a, i, j) => (f1 <= i <= l1)%nat /\ (j = f2 + (i - f1))%nat /\
      exists l', a = full l' /\ shuf f1 (f2 + (l1 - f1)) l l' /\
      (forall k, (k < i - f1)%nat -> l' !! (f2 + k)%nat = l !! (f1 + k)%nat /\ l' !! (f1 + k)%nat = l !! (f2 + k)%nat) /\
      (forall k, (i <= k < f2 \/ j <= k)%nat -> l' !! k = l !! k))
      (fun '(a, i, j) => l1 - i)%nat).
    - intros [[a i] j] (Hi & -> & l' & -> & Hs & Hk1 & Hk2).
      pose proof (shuf_len _ _ _ _ Hs) as El.
      destruct (decide (i <> l1)) as [Hne|He].
      + destruct (lookup_lt_is_Some_2 l' i) as [x Hx]; [lia|].
        destruct (lookup_lt_is_Some_2 l' (f2 + (i - f1))) as [y Hy]; [lia|].
        wbind. eapply wp_swp_full; try done. simpl.
        assert (HL : forall k, <[(f2 + (i - f1))%nat:=x]> (<[i:=y]> l') !! k =
            if decide (k = f2 + (i - f1))%nat then Some x
            else if decide (k = i)%nat then Some y else l' !! k).
        { intros k. by apply swap_lookup. }
        split; [|lia]. split; [lia|]. split; [lia|].
        eexists; split; [done|]. split; [|split].
        * eapply shuf_trans; [done|]. apply shuf_swap; try done; lia.
        * intros k Hk. rewrite !HL. destruct (decide (k = i - f1)%nat) as [->|Hki].
          -- rewrite decide_True by lia. rewrite decide_False, decide_True by lia.
             rewrite <-Hx, <-Hy. rewrite !Hk2 by lia. split; f_equal; lia.
          -- rewrite !decide_False by lia. apply Hk1. lia.
        * intros k Hk. rewrite HL. rewrite !decide_False by lia. apply Hk2. lia.
      + assert (i = l1) as -> by lia. simpl. exists l'. split; [done|]. split; [done|]. split.
        * intros k Hk. apply Hk1. lia.
        * intros k Hk. apply Hk2. lia.
    - split; [lia|]. split; [lia|]. exists l. split; [done|]. split; [apply shuf_refl|]. split; [intros; lia|done].
    - lia.
  Qed.

  Lemma nth_element_mom_wp fuel first nth last l :
    (first <= nth < last)%nat -> (last <= length l)%nat -> (last - first < fuel)%nat ->
    wp (nth_element_mom lt fuel (full l) first nth last)
       (fun a => exists l', a = full l' /\ shuf first last l l' /\ cut nth first last l' /\ cut (S nth) first last l').
  Proof.
    revert first nth last l. induction fuel as [|fuel IH]; intros first nth last l Hn Hlen Hf; [lia|].
    cbn [nth_element_mom]. cbv zeta. unfold ISORT_MAX.
    destruct (decide (last - first <= 32)%nat) as [Hs|Hs].
    { eapply wp_mono; [apply (insertion_sort_wp lt SW); lia|]. intros a (l' & -> & Hst & Hfr & Hso).
      exists l'. split; [done|]. split; [split; [by apply (stable_eq_perm lt SW)|done]|].
      split; apply sorted_cut; try done; lia. }
    remember ((last - first) / 5)%nat as mc eqn:Emc.
    wbind. eapply wp_mono.
    { apply (wp_loop (fun '(a, md, cur) => (first <= md <= first + mc)%nat /\ (cur = first + 5 * (md - first))%nat /\
         exists l', a = full l' /\ shuf first last l l')
         (fun '(a, md, cur) => first + mc - md)%nat
         _ (fun a => exists l', a = full l' /\ shuf first last l l')).
      - intros [[a md] cur] (Hmd & -> & l' & -> & Hsh). pose proof (shuf_len _ _ _ _ Hsh) as El.
        destruct (decide (md <> first + mc)%nat).
        + wbind. eapply wp_mono; [apply (swap_med5_wp first last); lia|].
          intros a (l2 & -> & H2). simpl. split; [|lia]. split; [lia|]. split; [lia|].
          eexists; split; [done|]. by eapply shuf_trans.
        + simpl. eauto.
      - split; [lia|]. split; [lia|]. exists l; split; [done|apply shuf_refl].
      - lia. }
    intros a (l1 & -> & S1). pose proof (shuf_len _ _ _ _ S1) as E1.
    remember (first + mc / 2)%nat as mm eqn:Emm.
    wbind. eapply wp_mono; [apply (IH first mm (first + mc)%nat); lia|].
    intros a (l2 & -> & S2 & C2 & C2'). pose proof (shuf_len _ _ _ _ S2) as E2.
    remember (first + mc - mm - 1)%nat as gc eqn:Egc.
    destruct (lookup_lt_is_Some_2 l2 mm) as [pv Hpv]; [lia|].
    wbind. eapply wp_mono; [apply (swap_ranges_wp (S mm) (first + mc) (last - gc)); lia|].
    intros a (l3 & -> & S3 & K3 & K3'). pose proof (shuf_len _ _ _ _ S3) as E3.
    replace (last - gc + (first + mc - S mm))%nat with last in S3 by lia.
    assert (Hpv3 : l3 !! mm = Some pv).
    { rewrite <-Hpv. apply S3. lia. }
    destruct (lookup_lt_is_Some_2 l3 (first + (last - first) / 2)) as [z Hz]; [lia|].
    remember (first + (last - first) / 2)%nat as md eqn:Emd.
    wbind. eapply wp_swp_full; [exact Hpv3|exact Hz|].
    remember (<[md:=pv]> (<[mm:=z]> l3)) as l4 eqn:El4.
    assert (HL : forall k, l4 !! k = if decide (k = md)%nat then Some pv else if decide (k = mm)%nat then Some z else l3 !! k).
    { intros k. subst l4. by apply swap_lookup. }
    assert (S4 : shuf first last l3 l4) by (subst l4; apply shuf_swap; try done; lia).
    pose proof (shuf_len _ _ _ _ S4) as E4.
    destruct (partition_by_pivot_wp lt SW mm md (last - gc) l4) as (pv' & Hpv' & Hwp); [lia|lia|].
    assert (pv' = pv) as ->. { rewrite HL, decide_True in Hpv' by done. congruence. }
    wbind. eapply wp_mono; [exact Hwp|].
    intros [[a m1] m2] (l5 & -> & S5 & B1 & B2 & B3 & R1 & R2 & R3).
    pose proof (shuf_len _ _ _ _ S5) as E5.
    assert (W : wpart pv first m1 m2 last l5).
    { destruct (part_wpart pv mm m1 m2 (last - gc) l5) as [W1 W2]; try done; try lia.
      split; intros i x Hi1 Hi2 Hx.
      - destruct (decide (mm <= i)%nat); [by apply (W1 i)|].
        assert (Hx2 : l2 !! i = Some x).
        { rewrite <-Hx. destruct S5 as [_ [_ S5]]. rewrite S5 by lia. rewrite HL.
          rewrite !decide_False by lia. symmetry. apply S3. lia. }
        apply (C2 i mm); try done; lia.
      - destruct (decide (i < last - gc)%nat); [by apply (W2 i)|].
        assert (Hx2 : l2 !! (S mm + (i - (last - gc)))%nat = Some x).
        { rewrite <-Hx. destruct S5 as [_ [_ S5]]. rewrite S5 by lia. rewrite HL.
          rewrite !decide_False by lia. destruct (K3 (i - (last - gc))%nat) as [K _]; [lia|].
          rewrite <-K. f_equal. lia. }
        apply (C2' mm (S mm + (i - (last - gc)))%nat); try done; lia. }
    assert (SH : shuf first last l l5).
    { eapply shuf_trans; [exact S1|]. eapply shuf_trans; [eapply shuf_weaken; [exact S2|lia|lia]|].
      eapply shuf_trans; [eapply shuf_weaken; [exact S3|lia|lia]|].
      eapply shuf_trans; [exact S4|]. eapply shuf_weaken; [exact S5|lia|lia]. }
    destruct (decide (m2 <= nth)%nat).
    - eapply wp_mono; [apply (IH m2 nth last); lia|].
      intros a (l6 & -> & S6 & C6 & C6').
      exists l6. split; [done|]. split; [eapply shuf_trans; [exact SH|]; eapply shuf_weaken; [exact S6|lia|lia]|].
      assert (cut m2 first last l6).
      { eapply cut_shuf; [exact S6|lia|lia|lia|]. eapply wpart_cut; [exact W|lia|lia]. }
      assert (cut last first last l6) by (intros ??; lia).
      split; eapply (cut_refine _ m2 last); try done; lia.
    - destruct (decide (m1 <= nth)%nat).
      + simpl. exists l5. split; [done|]. split; [done|]. split; (eapply wpart_cut; [exact W|lia|lia]).
      + eapply wp_mono; [apply (IH first nth m1); lia|].
        intros a (l6 & -> & S6 & C6 & C6').
        exists l6. split; [done|]. split; [eapply shuf_trans; [exact SH|]; eapply shuf_weaken; [exact S6|lia|lia]|].
        assert (cut m1 first last l6).
        { eapply cut_shuf; [exact S6|lia|lia|lia|]. eapply wpart_cut; [exact W|lia|lia]. }
        assert (cut first first last l6) by (intros ??; lia).
        split; eapply (cut_refine _ first m1); try done; lia.
  Qed.

  Lemma nth_element_unchecked_wp F nth T l :
    (F <= nth < T)%nat -> (T <= length l)%nat ->
    wp (nth_element_unchecked lt (full l) F nth T)
       (fun a => exists l', a = full l' /\ shuf F T l l' /\ cut nth F T l' /\ cut (S nth) F T l').
  Proof.
    intros Hn Hlen. unfold nth_element_unchecked.
    apply (wp_loop (fun '(a, first, last, ideal) => (F <= first <= nth)%nat /\ (nth < last <= T)%nat /\
      exists l', a = full l' /\ shuf F T l l' /\ cut first F T l' /\ cut last F T l')
      (fun '(a, first, last, ideal) => last - first)%nat).
    - intros [[[a first] last] ideal] (B1 & B2 & l1 & -> & S1 & C1 & C2).
      pose proof (shuf_len _ _ _ _ S1) as E1. cbv zeta. unfold ISORT_MAX.
      destruct (decide (last - first <= 32)%nat) as [Hs|Hs].
      { wbind. eapply wp_mono; [apply (insertion_sort_wp lt SW first last); lia|].
        intros a (l2 & -> & Hst & Hfr & Hso).
        assert (S2 : shuf first last l1 l2) by (split; [by apply (stable_eq_perm lt SW)|done]).
        apply wp_ok. exists l2. split; [done|].
        split; [eapply shuf_trans; [done|]; eapply shuf_weaken; [exact S2|lia|lia]|].
        assert (cut first F T l2) by (eapply cut_shuf; [exact S2|lia|lia|lia|done]).
        assert (cut last F T l2) by (eapply cut_shuf; [exact S2|lia|lia|lia|done]).
        split; (eapply (cut_refine _ first last); try done; try lia; apply sorted_cut; try done; lia). }
      destruct (decide (ideal < (last - first) / 2)%nat) as [Hi|Hi].
      { wbind. eapply wp_mono; [apply (nth_element_mom_wp _ first nth last); lia|].
        intros a (l2 & -> & S2 & K1 & K2). apply wp_ok. exists l2. split; [done|].
        split; [eapply shuf_trans; [done|]; eapply shuf_weaken; [exact S2|lia|lia]|].
        assert (cut first F T l2) by (eapply cut_shuf; [exact S2|lia|lia|lia|done]).
        assert (cut last F T l2) by (eapply cut_shuf; [exact S2|lia|lia|lia|done]).
        split; (eapply (cut_refine _ first last); try done; lia). }
      wbind. eapply wp_mono; [apply (partition_by_median_guess_wp lt SW first last l1); lia|].
      intros [[a m1] m2] (l2 & pv & -> & S2 & D1 & D2 & D3 & R1 & R2 & R3).
      assert (S' : shuf F T l l2) by (eapply shuf_trans; [done|]; eapply shuf_weaken; [exact S2|lia|lia]).
      assert (W : wpart pv first m1 m2 last l2) by (apply part_wpart; try done; lia).
      assert (Cf : cut first F T l2) by (eapply cut_shuf; [exact S2|lia|lia|lia|done]).
      assert (Cl : cut last F T l2) by (eapply cut_shuf; [exact S2|lia|lia|lia|done]).
      assert (Ck : forall k, (m1 <= k <= m2)%nat -> cut k F T l2).
      { intros k Hk. eapply (cut_refine _ first last); try done; try lia. eapply wpart_cut; [exact W|lia|lia]. }
      destruct (decide (m2 <= nth)%nat).
      { apply wp_ok. split; [|lia]. split; [lia|]. split; [lia|]. exists l2. split; [done|]. split; [done|].
        split; [apply Ck; lia|done]. }
      destruct (decide (m1 <= nth)%nat).
      { apply wp_ok. exists l2. split; [done|]. split; [done|]. split; apply Ck; lia. }
      apply wp_ok. split; [|lia]. split; [lia|]. split; [lia|]. exists l2. split; [done|]. split; [done|].
      split; [done|apply Ck; lia].
    - split; [lia|]. split; [lia|]. exists l. split; [done|]. split; [apply shuf_refl|].
      split; intros ??; lia.
    - lia.
  Qed.

  Lemma nth_element_wp first nth last l :
    (first <= nth)%nat -> (nth <= last)%nat -> (last <= length l)%nat ->
    wp (nth_element lt (full l) first nth last)
       (fun a => exists l', a = full l' /\ shuf first last l l' /\ cut nth first last l' /\ cut (S nth) first last l').
  Proof.
    intros ???. unfold nth_element. case_decide.
    - apply wp_ok. exists l. split; [done|]. split; [apply shuf_refl|]. split; intros ??; lia.
    - apply nth_element_unchecked_wp; lia.
  Qed.

  Lemma pop_heap_hole_dest_wp first mid next val top l :
    (first < mid)%nat -> (mid <= next)%nat -> (next < length l)%nat ->
    is_heap_range lt first (mid - first) l ->
    l !! next = Some val -> l !! first = Some top ->
    wp (pop_heap_hole_unchecked lt (holed l next) first mid next val)
       (fun a' => exists l', a' = full l' /\ l' ≡ₚ l /\
          slice first mid l' ≡ₚ <[0%nat:=val]> (slice first mid l) /\
          (forall i, (i < first \/ mid <= i)%nat -> i <> next -> l' !! i = l !! i) /\
          l' !! next = Some top /\ is_heap_range lt first (mid - first) l').
  Proof.
    intros Hfm Hmn Hlen Hheap Hv Ht. unfold pop_heap_hole_unchecked.
    wbind. eapply wp_mvto_holed; [lia|lia|exact Ht|].
    rewrite <-(holed_insert _ _ val).
    remember (<[first:=val]> (<[next:=top]> l)) as L eqn:EL.
    assert (HL : forall k, L !! k =
          if decide (k = first)%nat then Some val
          else if decide (k = next)%nat then Some top else l !! k).
    { intros k. subst L. by apply swap_lookup. }
    assert (ELn : length L = length l) by (subst L; by rewrite !insert_length).
    replace (holed L first) with (holed L (first + 0)) by (by rewrite Nat.add_0_r).
    eapply wp_mono; [apply (pop_heap_hole_by_index_wp lt SW first 0 (mid - first))|].
    - rewrite HL, decide_True by lia. done.
    - lia.
    - lia.
    - intros i Hi Hti u v. rewrite !HL. repeat case_decide; try lia. intros Hu Hw.
      apply (Hheap i); try done; lia.
    - intros a' (L' & -> & Hp & Hs & Hh). rewrite Nat.add_0_r in Hs.
      replace (first + (mid - first))%nat with mid in Hs by lia.
      exists L'. split; [done|]. split; [rewrite Hp; subst L; by apply perm_swap_list|].
      split; [|split; [|split]].
      + rewrite (perm_slice first mid L L') by (try done; lia).
        match goal with |- ?x ≡ₚ ?y => assert (x = y) as ->; [|done] end. apply list_eq. intros i.
        destruct (decide (i < mid - first)%nat).
        * rewrite slice_lookup by lia. rewrite HL. destruct (decide (i = 0)%nat) as [->|].
          -- rewrite decide_True by lia. rewrite list_lookup_insert by (rewrite slice_length; lia). done.
          -- rewrite !decide_False by lia. rewrite list_lookup_insert_ne by lia. by rewrite slice_lookup by lia.
        * rewrite !lookup_ge_None_2; [done|rewrite insert_length|]; rewrite slice_length; lia.
      + intros i Hi Hne. destruct Hs as [_ Hs]. rewrite Hs by lia. rewrite HL, !decide_False by lia. done.
      + destruct Hs as [_ Hs]. rewrite Hs by lia. rewrite HL. rewrite decide_False, decide_True by lia. done.
      + by apply heap_from_0.
  Qed.

  Lemma partial_sort_wp first mid last l :
    (first <= mid)%nat -> (mid <= last)%nat -> (last <= length l)%nat ->
    wp (partial_sort lt (full l) first mid last)
       (fun a => exists l', a = full l' /\ shuf first last l l' /\ sorted_range lt first mid l' /\ cut mid first last l').
  Proof.
    intros Hfm Hml Hlen. unfold partial_sort. case_decide as Hd.
    { apply wp_ok. exists l. split; [done|]. split; [apply shuf_refl|]. split; intros ??; lia. }
    wbind. eapply wp_mono; [apply (make_heap_wp lt SW first mid l); lia|].
    intros a (l1 & -> & Hp1 & Hs1 & Hh1).
    wbind. eapply wp_mono.
    { apply (wp_loop (fun '(a, next) => (mid <= next <= last)%nat /\ exists l', a = full l' /\ shuf first last l l' /\
          is_heap_range lt first (mid - first) l' /\
          forall j x y, (mid <= j < next)%nat -> l' !! first = Some x -> l' !! j = Some y -> lt y x = false)
         (fun '(a, next) => last - next)%nat
         _ (fun a => exists l', a = full l' /\ shuf first last l l' /\
          is_heap_range lt first (mid - first) l' /\
          forall j x y, (mid <= j < last)%nat -> l' !! first = Some x -> l' !! j = Some y -> lt y x = false)).
      - intros [a next] (Hnx & l2 & -> & S2 & Hh2 & Hge). pose proof (shuf_len _ _ _ _ S2) as E2.
        destruct (decide (next < last)%nat) as [Hlt|Hlt]; cycle 1.
        { assert (next = last) as -> by lia. simpl. eauto. }
        wbind. apply wp_rd_full'; [lia|]. intros x Hx.
        wbind. apply wp_rd_full'; [lia|]. intros y Hy.
        destruct (lt x y) eqn:Exy.
        + wbind. eapply wp_mv_full; [exact Hx|].
          wbind. eapply wp_mono; [apply (pop_heap_hole_dest_wp first mid next x y l2); try done; lia|].
          intros a (l3 & -> & P3 & PS3 & F3 & N3 & Hh3). apply wp_ok.
          split; [|lia]. split; [lia|]. exists l3. split; [done|]. split; [|split; [done|]].
          * eapply shuf_trans; [exact S2|]. split; [done|]. split; [by rewrite P3|]. intros i Hi. apply F3; lia.
          * intros j u v Hj Hu Hv'.
            assert (Huy : lt y u = false).
            { (* u is in the old heap or is x *)
              assert (Hin : u ∈ slice first mid l3).
              { apply elem_of_list_lookup. exists 0%nat. rewrite slice_lookup by lia. by rewrite Nat.add_0_r. }
              rewrite PS3 in Hin. apply elem_of_list_lookup in Hin as [k Hk].
              destruct (decide (k = 0)%nat) as [->|Hk0].
              - rewrite list_lookup_insert in Hk by (rewrite slice_length; lia). isome.
                by apply (swo_asym lt SW).
              - rewrite list_lookup_insert_ne in Hk by lia. apply slice_lookup_Some in Hk as [Hk Hu2].
                eapply (heap_max lt SW first (mid - first) l2 Hh2 k); try done. }
            destruct (decide (j = next)) as [->|Hjn].
            { congruence. }
            rewrite F3 in Hv' by lia.
            assert (lt v y = false) by (apply (Hge j); try done; lia).
            by apply (swo_ntrans lt SW u y v).
        + apply wp_ok. split; [|lia]. split; [lia|]. exists l2. split; [done|]. split; [done|]. split; [done|].
          intros j u v Hj Hu Hv'. destruct (decide (j = next)) as [->|]; [isome; congruence|].
          apply (Hge j); try done; lia.
      - split; [lia|]. exists l1. split; [done|]. split; [eapply shuf_weaken; [split; [exact Hp1|exact Hs1]|lia|lia]|].
        split; [done|]. intros; lia.
      - lia. }
    intros a (l2 & -> & S2 & Hh2 & Hge). pose proof (shuf_len _ _ _ _ S2) as E2.
    eapply wp_mono; [apply (sort_heap_wp lt SW first mid l2); try done; lia|].
    intros a (l3 & -> & P3 & F3 & So3).
    assert (S3 : shuf first mid l2 l3) by (split; done).
    exists l3. split; [done|]. split; [eapply shuf_trans; [exact S2|]; eapply shuf_weaken; [exact S3|lia|lia]|].
    split; [done|]. eapply cut_shuf; [exact S3|lia|lia|lia|].
    intros i j x y ???? Hx Hy.
    destruct (lookup_lt_is_Some_2 l2 first) as [t Ht]; [lia|].
    assert (lt y t = false) by (apply (Hge j); try done; lia).
    assert (lt t x = false).
    { apply (heap_max lt SW first (mid - first) l2 Hh2 (i - first)); try done; try lia.
      by replace (first + (i - first))%nat with i by lia. }
    by apply (swo_ntrans lt SW x t y).
  Qed.

  (** Two sorted arrangements of the same elements agree position by position up to equivalence. *)
  Lemma sorted_perm_rank s s' i x y :
    sorted lt s -> sorted lt s' -> s ≡ₚ s' -> s !! i = Some x -> s' !! i = Some y -> lt x y = false.
  Proof.
    intros Hs Hs' Hp Hx Hy. destruct (lt x y) eqn:E; [exfalso|done].
    set (P := fun z => lt z y = true).
    assert (H1 : length (filter P s) = length (filter P s')) by (by rewrite Hp).
    assert (H2 : (S i <= length (filter P s))%nat).
    { rewrite <-(take_drop (S i) s), list.filter_app, app_length.
      assert (filter P (take (S i) s) = take (S i) s) as ->.
      { apply list_filter_all. apply list.Forall_forall. intros z Hz. unfold P.
        apply elem_of_list_lookup in Hz as [k Hk]. apply lookup_take_Some in Hk as [Hk Hki].
        destruct (decide (k = i)) as [->|]; [congruence|].
        assert (lt x z = false) by (apply (Hs k i); try done; lia).
        eapply (swo_le_lt lt SW z x y); done. }
      rewrite take_length. apply lookup_lt_Some in Hx. lia. }
    assert (H3 : (length (filter P s') <= i)%nat).
    { rewrite <-(take_drop i s'), list.filter_app, app_length.
      assert (filter P (drop i s') = []) as ->.
      { apply list_filter_none. apply list.Forall_forall. intros z Hz. unfold P.
        apply elem_of_list_lookup in Hz as [k Hk]. rewrite lookup_drop in Hk.
        destruct (decide (k = 0)%nat) as [->|].
        - rewrite Nat.add_0_r in Hk. isome. by rewrite (swo_irrefl lt SW).
        - rewrite (Hs' i (i + k)%nat y z); try done; lia. }
      simpl. pose proof (filter_length P (take i s')). rewrite take_length in H. lia. }
    lia.
  Qed.

  Lemma nth_rank (first nth last : nat) l' s x y :
    (first <= nth < last)%nat -> (last <= length l')%nat ->
    cut nth first last l' -> cut (S nth) first last l' ->
    sorted lt s -> s ≡ₚ slice first last l' ->
    l' !! nth = Some x -> s !! (nth - first)%nat = Some y -> lt x y = false /\ lt y x = false.
  Proof.
    intros Hn Hlen C1 C2 Hs Hp Hx Hy.
    (* sort the two sides *)
    destruct (wp_exists _ _ (sort_wp lt SW first nth l' ltac:(lia) ltac:(lia))) as (a1 & _ & l1 & _ & P1 & F1 & So1).
    assert (S1 : shuf first nth l' l1) by (split; done). pose proof (shuf_len _ _ _ _ S1) as E1.
    destruct (wp_exists _ _ (sort_wp lt SW (S nth) last l1 ltac:(lia) ltac:(lia))) as (a2 & _ & l2 & _ & P2 & F2 & So2).
    assert (S2 : shuf (S nth) last l1 l2) by (split; done). pose proof (shuf_len _ _ _ _ S2) as E2.
    assert (K1 : cut nth first last l2).
    { eapply cut_shuf; [exact S2|lia|lia|lia|]. eapply cut_shuf; [exact S1|lia|lia|lia|done]. }
    assert (K2 : cut (S nth) first last l2).
    { eapply cut_shuf; [exact S2|lia|lia|lia|]. eapply cut_shuf; [exact S1|lia|lia|lia|done]. }
    assert (Hx2 : l2 !! nth = Some x).
    { rewrite <-Hx. destruct F1 as [_ F1], F2 as [_ F2]. rewrite F2, F1 by lia. done. }
    assert (Sa : sorted_range lt first nth l2) by (eapply sorted_range_outside; [exact F2|lia|done]).
    assert (So : sorted lt (slice first last l2)).
    { apply sorted_range_slice. intros i j u v ???. intros Hu Hv.
      destruct (decide (j < nth)%nat); [apply (Sa i j); try done; lia|].
      destruct (decide (i < nth)%nat); [apply (K1 i j); try done; lia|].
      destruct (decide (i < S nth)%nat); [apply (K2 i j); try done; lia|].
      apply (So2 i j); try done; lia. }
    assert (Hpp : slice first last l2 ≡ₚ s).
    { rewrite Hp. apply perm_slice; [lia| |by rewrite P2].
      eapply same_outside_trans; (eapply same_outside_weaken; [eassumption|lia|lia]). }
    assert (Hxs : slice first last l2 !! (nth - first)%nat = Some x).
    { rewrite slice_lookup by lia. by replace (first + (nth - first))%nat with nth by lia. }
    split.
    - by apply (sorted_perm_rank _ _ (nth - first) x y So Hs).
    - by apply (sorted_perm_rank _ _ (nth - first) y x Hs So).
  Qed.
End nth.
