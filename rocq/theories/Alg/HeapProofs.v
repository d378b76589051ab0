From stdpp Require Import base list numbers.
From Coq Require Import Lia ZifyNat.
From Verif Require Import Base.Res Base.Order Base.OrderLemmas Base.Arr Alg.HeapModel Alg.HeapSpec.
Ltac Zify.zify_post_hook ::= Z.div_mod_to_equations.

Lemma swap_lookup {A} (l : list A) i j x y k :
  l !! i = Some x -> l !! j = Some y ->
  <[j:=x]> (<[i:=y]> l) !! k =
    if decide (k = j) then Some x else if decide (k = i) then Some y else l !! k.
Proof.
  intros Hi Hj. pose proof (lookup_lt_Some _ _ _ Hi). pose proof (lookup_lt_Some _ _ _ Hj).
  repeat case_decide; subst.
  - by rewrite list_lookup_insert by (rewrite insert_length; lia).
  - rewrite list_lookup_insert_ne by congruence. by rewrite list_lookup_insert by lia.
  - by rewrite !list_lookup_insert_ne by congruence.
Qed.

Inductive desc (top : nat) : nat -> Prop :=
| desc_top : desc top top
| desc_l i : desc top i -> desc top (2 * i + 1)%nat
| desc_r i : desc top i -> desc top (2 * i + 2)%nat.

Lemma desc_ge top i : desc top i -> (top <= i)%nat.
Proof. induction 1; lia. Qed.
Lemma desc_parent top i : desc top i -> i <> top -> desc top ((i - 1) / 2)%nat.
Proof.
  intros H Hne. destruct H as [|i H|i H]; [congruence|..].
  - by replace ((2 * i + 1 - 1) / 2)%nat with i by lia.
  - by replace ((2 * i + 2 - 1) / 2)%nat with i by lia.
Qed.
Lemma desc_0 i : desc 0 i.
Proof.
  induction (lt_wf i) as [i _ IH]. destruct (decide (i = 0)%nat) as [->|Hi]; [constructor|].
  destruct (decide (i mod 2 = 1)%nat).
  - replace i with (2 * ((i - 1) / 2) + 1)%nat by lia. constructor. apply IH. lia.
  - replace i with (2 * ((i - 1) / 2) + 2)%nat by lia. constructor. apply IH. lia.
Qed.

Section heap.
  Context {A : Type} (lt : A -> A -> bool) (SW : StrictWeakOrder lt).
  Implicit Types (l L : list A).

  (* parent/child comparison fine *)
  Definition okp (first : nat) L (p c : nat) : Prop :=
    forall x y, L !! (first + p)%nat = Some x -> L !! (first + c)%nat = Some y -> lt x y = false.

  Definition heap_from (first top n : nat) L : Prop :=
    forall i, (0 < i < n)%nat -> (top <= (i - 1) / 2)%nat -> okp first L ((i - 1) / 2) i.

  Lemma heap_from_0 first n L : heap_from first 0 n L <-> is_heap_range lt first n L.
  Proof.
    split.
    - intros H i x y Hi Hx Hy. eapply (H i); eauto; lia.
    - intros H i Hi _ x y Hx Hy. by apply (H i).
  Qed.

  (* state of the conceptual array while the hole is percolating up *)
  Record up_inv (first top n hole : nat) (val : A) L : Prop := {
    up_val : L !! (first + hole)%nat = Some val;
    up_desc : desc top hole;
    up_n : (hole < n)%nat;
    up_len : (first + n <= length L)%nat;
    up_pairs : forall i, (0 < i < n)%nat -> (top <= (i - 1) / 2)%nat -> i <> hole ->
                 okp first L ((i - 1) / 2) i;
    up_gp : (top < hole)%nat -> forall c, (0 < c < n)%nat -> ((c - 1) / 2 = hole)%nat ->
                 okp first L ((hole - 1) / 2) c }.

  Lemma push_heap_by_index_wp first top n hole val L :
    up_inv first top n hole val L ->
    wp (push_heap_by_index lt (holed L (first + hole)) first hole top val)
       (fun a' => exists L', a' = full L' /\ L' ≡ₚ L /\ same_outside (first + top) (first + n) L L' /\
                             heap_from first top n L').
  Proof.
    intros Hup. unfold push_heap_by_index. wbind.
    eapply wp_mono; [apply (wp_loop
      (fun '(a, hole) => exists L', a = holed L' (first + hole) /\ up_inv first top n hole val L' /\
                          L' ≡ₚ L /\ same_outside (first + top) (first + n) L L')
      (fun '(a, hole) => hole)
      _
      (fun '(a, hole) => exists L', a = holed L' (first + hole) /\ up_inv first top n hole val L' /\
                          L' ≡ₚ L /\ same_outside (first + top) (first + n) L L' /\
                          heap_from first top n L'))|].
    - clear hole Hup. intros [a hole] (L' & -> & Hup & Hp & Hs).
      destruct Hup as [Hval Hdesc Hn Hlen Hpairs Hgp].
      pose proof (desc_ge _ _ Hdesc) as Hge.
      destruct (decide (top < hole)%nat) as [Hlt|Hlt].
      + pose proof (desc_parent _ _ Hdesc ltac:(lia)) as Hdp.
        pose proof (desc_ge _ _ Hdp) as Hgep.
        set (p := ((hole - 1) / 2)%nat) in *.
        destruct (lookup_lt_is_Some_2 L' (first + p)) as [x Hx]; [lia|].
        wbind. eapply wp_rd_holed; [lia|exact Hx|].
        destruct (lt x val) eqn:Hxv.
        * wbind. eapply wp_mvto_holed; [lia|lia|exact Hx|]. simpl. split; [|lia].
          exists (<[(first + p)%nat:=val]> (<[(first + hole)%nat:=x]> L')).
          assert (HL : forall k, <[(first + p)%nat:=val]> (<[(first + hole)%nat:=x]> L') !! k =
            if decide (k = first + p)%nat then Some val
            else if decide (k = first + hole)%nat then Some x else L' !! k).
          { intros k. by apply swap_lookup. }
          split; [by rewrite holed_insert|]. split; [split|split].
          -- rewrite HL. by rewrite decide_True.
          -- done.
          -- lia.
          -- by rewrite !insert_length.
          -- intros i Hi Hti Hip y z. rewrite !HL.
             repeat case_decide; try lia; intros Hy Hz; isome.
             ++ by apply (swo_asym lt SW).
             ++ destruct (lt val z) eqn:E; [|done].
                assert (Hxz : lt x z = false).
                { apply (Hpairs i); try done; try lia. by replace ((i-1)/2)%nat with p by lia. }
                rewrite (swo_trans _ SW x val z) in Hxz; done.
             ++ apply (Hgp ltac:(lia) i); try done; lia.
             ++ apply (Hpairs i); try done; lia.
          -- intros Htp c Hc Hcp y z. rewrite !HL.
             pose proof (desc_parent _ _ Hdp ltac:(lia)) as Hdpp. apply desc_ge in Hdpp.
             repeat case_decide; try lia; intros Hy Hz; isome.
             ++ apply (Hpairs p); try done; lia.
             ++ apply (swo_ntrans lt SW _ x).
                ** apply (Hpairs c); try done; try lia. by replace ((c-1)/2)%nat with p by lia.
                ** apply (Hpairs p); try done; lia.
          -- rewrite <-Hp. by apply perm_swap_list.
          -- eapply same_outside_trans; [done|].
             eapply same_outside_trans; apply same_outside_insert; lia.
        * simpl. exists L'. repeat (split; [done|]).
          intros i Hi Hti. destruct (decide (i = hole)) as [->|Hne]; [|by apply Hpairs].
          intros y z Hy Hz. fold p in Hy. congruence.
      + simpl. exists L'. repeat (split; [done|]).
        intros i Hi Hti. apply Hpairs; lia.
    - exists L. repeat (split; [done|]). apply same_outside_refl.
    - lia.
    - intros [a hole'] (L' & -> & [Hval _ Hn Hlen _ _] & Hp & Hs & Hh).
      apply wp_wr_holed; [lia|]. exists L'. rewrite list_insert_id by done. done.
  Qed.

  (* state of the conceptual array while the hole is percolating down *)
  Record dn_inv (first top n hole : nat) (val : A) L : Prop := {
    dn_val : L !! (first + hole)%nat = Some val;
    dn_desc : desc top hole;
    dn_n : (hole < n)%nat;
    dn_len : (first + n <= length L)%nat;
    dn_pairs : forall i, (0 < i < n)%nat -> (top <= (i - 1) / 2)%nat -> i <> hole ->
                 ((i - 1) / 2 <> hole)%nat -> okp first L ((i - 1) / 2) i;
    dn_gp : (top < hole)%nat -> forall c, (0 < c < n)%nat -> ((c - 1) / 2 = hole)%nat ->
                 okp first L ((hole - 1) / 2) c }.

  (* moving the child [c] (not smaller than its sibling) up into the hole *)
  Lemma dn_step first top n hole c val x L :
    dn_inv first top n hole val L ->
    (c < n)%nat -> (c = 2 * hole + 1 \/ c = 2 * hole + 2)%nat ->
    L !! (first + c)%nat = Some x ->
    (forall d, (d < n)%nat -> ((d - 1) / 2 = hole)%nat -> (0 < d)%nat -> okp first L c d) ->
    dn_inv first top n c val (<[(first + c)%nat:=val]> (<[(first + hole)%nat:=x]> L)).
  Proof.
    intros [Hval Hdesc Hn Hlen Hpairs Hgp] Hc Hch Hx Hsib.
    assert (HL : forall k, <[(first + c)%nat:=val]> (<[(first + hole)%nat:=x]> L) !! k =
            if decide (k = first + c)%nat then Some val
            else if decide (k = first + hole)%nat then Some x else L !! k).
    { intros k. by apply swap_lookup. }
    pose proof (desc_ge _ _ Hdesc) as Hge.
    split.
    - rewrite HL. by rewrite decide_True.
    - destruct Hch as [->| ->]; by constructor.
    - done.
    - by rewrite !insert_length.
    - intros i Hi Hti Hic Hpc y z. rewrite !HL.
      repeat case_decide; try lia; intros Hy Hz; isome.
      + apply (Hsib i); try done; lia.
      + destruct (decide (hole = top)) as [->|Hne]; [lia|].
        pose proof (desc_parent _ _ Hdesc Hne) as Hdp. apply desc_ge in Hdp.
        assert (i = hole) as -> by lia.
        apply (Hgp ltac:(lia) c); try done; lia.
      + apply (Hpairs i); try done; lia.
    - intros Htc d Hd Hdc y z. rewrite !HL.
      repeat case_decide; try lia; intros Hy Hz; isome.
      apply (Hpairs d); try done; try lia. by replace ((d-1)/2)%nat with c by lia.
  Qed.

  Lemma dn_leaf_up first top n hole val L :
    dn_inv first top n hole val L -> (n <= 2 * hole + 1)%nat -> up_inv first top n hole val L.
  Proof.
    intros [Hval Hdesc Hn Hlen Hpairs Hgp] Hleaf. split; try done.
    intros i Hi Hti Hne. apply Hpairs; try done. lia.
  Qed.

  Lemma swap_frame f t L i j x y :
    (f <= i < t)%nat -> (f <= j < t)%nat -> same_outside f t L (<[j:=x]> (<[i:=y]> L)).
  Proof. intros. eapply same_outside_trans; apply same_outside_insert; lia. Qed.

  Lemma pop_heap_hole_by_index_wp first hole n val L :
    L !! (first + hole)%nat = Some val -> (hole < n)%nat -> (first + n <= length L)%nat ->
    heap_from first (S hole) n L ->
    wp (pop_heap_hole_by_index lt (holed L (first + hole)) first hole n val)
       (fun a' => exists L', a' = full L' /\ L' ≡ₚ L /\ same_outside (first + hole) (first + n) L L' /\
                             heap_from first hole n L').
  Proof.
    intros Hval Hhn Hlen Hheap. unfold pop_heap_hole_by_index. wbind.
    apply wp_assert; [apply bool_decide_eq_true_2; lia|].
    remember ((n - 1) / 2)%nat as m eqn:Em. wbind.
    eapply wp_mono; [apply (wp_loop
      (fun '(a, h, idx) => idx = h /\ exists L', a = holed L' (first + h) /\ dn_inv first hole n h val L' /\
                          L' ≡ₚ L /\ same_outside (first + hole) (first + n) L L')
      (fun '(a, h, idx) => (n - h)%nat)
      _
      (fun '(a, h, idx) => idx = h /\ (m <= h)%nat /\ exists L', a = holed L' (first + h) /\ dn_inv first hole n h val L' /\
                          L' ≡ₚ L /\ same_outside (first + hole) (first + n) L L'))|].
    - intros [[a h] idx] (-> & L' & -> & Hdn & Hp & Hs).
      pose proof Hdn as [Hval' Hdesc Hn Hlen' Hpairs Hgp].
      pose proof (desc_ge _ _ Hdesc) as Hge.
      destruct (decide (h < m)%nat) as [Hlt|Hlt].
      + destruct (lookup_lt_is_Some_2 L' (first + (2 * h + 2))) as [x Hx]; [lia|].
        destruct (lookup_lt_is_Some_2 L' (first + (2 * h + 2 - 1))) as [y Hy]; [lia|].
        wbind. eapply wp_rd_holed; [lia|exact Hx|].
        wbind. eapply wp_rd_holed; [lia|exact Hy|].
        assert (Hstep : forall c z, (c = 2 * h + 2 - 1 \/ c = 2 * h + 2)%nat -> L' !! (first + c)%nat = Some z ->
          (lt z y = false) -> (lt z x = false) ->
          wp (rbind (mvto (holed L' (first + h)) (first + c) (first + h))
               (fun a => Ok (inl (a, c, c))))
            (fun r => match r with
              | inl s' => (let '(a, h0, idx) := s' in idx = h0 /\ exists L'0, a = holed L'0 (first + h0) /\
                   dn_inv first hole n h0 val L'0 /\ L'0 ≡ₚ L /\ same_outside (first + hole) (first + n) L L'0) /\
                  (let '(_, h0, _) := s' in (n - h0)%nat) < n - h
              | inr r0 => let '(a, h0, idx) := r0 in idx = h0 /\ (m <= h0)%nat /\ exists L'0, a = holed L'0 (first + h0) /\
                   dn_inv first hole n h0 val L'0 /\ L'0 ≡ₚ L /\ same_outside (first + hole) (first + n) L L'0 end)).
        { intros c z Hc Hz Hzy Hzx. wbind. eapply wp_mvto_holed; [lia|lia|exact Hz|]. simpl.
          split; [|lia]. split; [done|].
          exists (<[(first + c)%nat:=val]> (<[(first + h)%nat:=z]> L')).
          split; [by rewrite holed_insert|]. split; [|split].
          - eapply dn_step; try done; try lia.
            intros d Hd Hdp Hd0 z' w Hz' Hw. isome.
            destruct (decide (d = 2 * h + 2)%nat) as [->|Hd2].
            + isome. done.
            + replace d with (2 * h + 2 - 1)%nat in Hw by lia. isome. done.
          - rewrite <-Hp. by apply perm_swap_list.
          - eapply same_outside_trans; [done|]. apply swap_frame; lia. }
        destruct (lt x y) eqn:Hxy; cbv zeta.
        * apply (Hstep _ y); try done; [lia|by apply (swo_irrefl _ SW)|by apply (swo_asym lt SW)].
        * apply (Hstep _ x); try done; [lia|by apply (swo_irrefl _ SW)].
      + simpl. split; [done|]. split; [lia|]. eauto 10.
    - split; [done|]. exists L. split; [done|]. split; [|split; [done|apply same_outside_refl]].
      split; try done; [constructor|..]; [|lia].
      intros i Hi Hti Hne Hpne. apply (Hheap i); lia.
    - lia.
    - intros [[a h] idx] (-> & Hm & L' & -> & Hdn & Hp & Hs).
      pose proof Hdn as [Hval' Hdesc Hn Hlen' Hpairs Hgp].
      pose proof (desc_ge _ _ Hdesc) as Hge.
      assert (Hfin : forall h' L', up_inv first hole n h' val L' -> L' ≡ₚ L ->
         same_outside (first + hole) (first + n) L L' ->
         wp (push_heap_by_index lt (holed L' (first + h')) first h' hole val)
         (fun a' => exists L', a' = full L' /\ L' ≡ₚ L /\ same_outside (first + hole) (first + n) L L' /\
                             heap_from first hole n L')).
      { clear -SW. intros h' L' Hup Hp Hs. eapply wp_mono; [by eapply push_heap_by_index_wp|].
        intros a' (L2 & -> & Hp2 & Hs2 & Hh). exists L2. split; [done|].
        split; [by rewrite Hp2|]. split; [by eapply same_outside_trans|done]. }
      destruct (decide (h = m /\ n mod 2 = 0)%nat) as [[-> Heven]|Hodd]; simpl.
      + destruct (lookup_lt_is_Some_2 L' (first + (n - 1))) as [x Hx]; [lia|].
        wbind. wbind. eapply wp_mvto_holed; [lia|lia|exact Hx|]. simpl.
        rewrite <-(holed_insert _ _ val). apply Hfin.
        * apply dn_leaf_up; [|lia]. eapply dn_step; try done; try lia.
          intros d Hd Hdp Hd0. replace d with (n - 1)%nat by lia. intros z w Hz Hw. isome.
          apply (swo_irrefl _ SW).
        * rewrite <-Hp. by apply perm_swap_list.
        * eapply same_outside_trans; [done|]. apply swap_frame; lia.
      + apply Hfin; try done. apply dn_leaf_up; [done|lia].
  Qed.

  (** heaps have their maximum in front *)
  Lemma heap_max first n L :
    is_heap_range lt first n L -> forall i x y, (i < n)%nat ->
    L !! first = Some x -> L !! (first + i)%nat = Some y -> lt x y = false.
  Proof.
    intros H i. induction (lt_wf i) as [i _ IH]. intros x y Hi Hx Hy.
    destruct (decide (i = 0)%nat) as [->|Hne].
    - rewrite Nat.add_0_r in Hy. isome. apply (swo_irrefl _ SW).
    - destruct (lookup_lt_is_Some_2 L (first + (i - 1) / 2)) as [z Hz].
      { apply lookup_lt_Some in Hy. lia. }
      apply (swo_ntrans lt SW _ z).
      + by apply (H i); [lia|..].
      + apply (IH ((i - 1) / 2)%nat); try done; lia.
  Qed.

  Lemma push_heap_wp first last l :
    (first < last)%nat -> (last <= length l)%nat ->
    is_heap_range lt first (last - 1 - first) l ->
    wp (push_heap lt (full l) first last)
       (fun a' => exists l', a' = full l' /\ l' ≡ₚ l /\ same_outside first last l l' /\
                             is_heap_range lt first (last - first) l').
  Proof.
    intros Hfl Hlen Hheap. unfold push_heap.
    destruct (decide (2 <= last - first)%nat) as [Hc|Hc].
    - destruct (lookup_lt_is_Some_2 l (last - 1)) as [x Hx]; [lia|].
      wbind. eapply wp_mv_full; [exact Hx|]. simpl.
      replace (last - 1)%nat with (first + (last - first - 1))%nat in * by lia.
      eapply wp_mono; [apply (push_heap_by_index_wp first 0 (last - first))|].
      + split; try done; try lia.
        * apply desc_0.
        * intros i Hi _ Hne y z Hy Hz. apply (Hheap i); try done; lia.
      + intros a' (L' & -> & Hp & Hs & Hh). exists L'. split; [done|]. split; [done|].
        rewrite Nat.add_0_r in Hs. replace (first + (last - first))%nat with last in Hs by lia.
        split; [done|]. by apply heap_from_0.
    - simpl. exists l. split; [done|]. split; [done|]. split; [apply same_outside_refl|].
      intros i x y Hi. lia.
  Qed.

  Lemma pop_heap_wp first last l :
    (first < last)%nat -> (last <= length l)%nat ->
    is_heap_range lt first (last - first) l ->
    wp (pop_heap lt (full l) first last)
       (fun a' => exists l', a' = full l' /\ l' ≡ₚ l /\ same_outside first last l l' /\
                             is_heap_range lt first (last - 1 - first) l' /\
                             l' !! (last - 1)%nat = l !! first).
  Proof.
    intros Hfl Hlen Hheap. unfold pop_heap.
    destruct (decide (2 <= last - first)%nat) as [Hc|Hc].
    - destruct (lookup_lt_is_Some_2 l (last - 1)) as [x Hx]; [lia|].
      destruct (lookup_lt_is_Some_2 l first) as [y Hy]; [lia|].
      wbind. eapply wp_mv_full; [exact Hx|]. unfold pop_heap_hole_unchecked.
      wbind. eapply wp_mvto_holed; [lia|lia|exact Hy|].
      rewrite <-(holed_insert _ _ x).
      set (L := <[first:=x]> (<[(last - 1)%nat:=y]> l)).
      assert (HL : forall k, L !! k =
            if decide (k = first)%nat then Some x
            else if decide (k = last - 1)%nat then Some y else l !! k).
      { intros k. by apply swap_lookup. }
      assert (Hh0 : holed L first = holed L (first + 0)) by (by rewrite Nat.add_0_r).
      rewrite Hh0.
      eapply wp_mono; [apply (pop_heap_hole_by_index_wp first 0 (last - 1 - first))|].
      + rewrite HL, decide_True by lia. done.
      + lia.
      + unfold L. rewrite !insert_length. lia.
      + intros i Hi Hti u v. rewrite !HL. repeat case_decide; try lia. intros Hu Hv.
        apply (Hheap i); try done; lia.
      + intros a' (L' & -> & Hp & Hs & Hh). rewrite Nat.add_0_r in Hs.
        exists L'. split; [done|]. split; [rewrite Hp; by apply perm_swap_list|].
        split; [|split].
        * eapply same_outside_trans.
          { apply (swap_frame first last l (last - 1) first x y); lia. }
          eapply same_outside_weaken; [exact Hs|lia|lia].
        * by apply heap_from_0.
        * destruct Hs as [_ Hs]. rewrite Hs by lia. rewrite HL.
          rewrite decide_False, decide_True by lia. done.
    - simpl. exists l. split; [done|]. split; [done|]. split; [apply same_outside_refl|].
      split; [intros i x y Hi; lia|]. by replace (last - 1)%nat with first by lia.
  Qed.

  Lemma make_heap_wp first last l :
    (first <= last)%nat -> (last <= length l)%nat ->
    wp (make_heap lt (full l) first last)
       (fun a' => exists l', a' = full l' /\ l' ≡ₚ l /\ same_outside first last l l' /\
                             is_heap_range lt first (last - first) l').
  Proof.
    intros Hfl Hlen. unfold make_heap. remember (last - first)%nat as n eqn:En.
    apply (wp_loop
      (fun '(a, hole) => (hole <= n / 2)%nat /\ exists l', a = full l' /\ l' ≡ₚ l /\ same_outside first last l l' /\
                             heap_from first hole n l')
      (fun '(a, hole) => hole)).
    - intros [a hole] (Hh & l' & -> & Hp & Hs & Hheap).
      pose proof (proj1 Hs) as Hlen'.
      destruct (decide (0 < hole)%nat) as [H0|H0].
      + destruct (lookup_lt_is_Some_2 l' (first + (hole - 1))) as [x Hx]; [lia|].
        wbind. eapply wp_mv_full; [exact Hx|]. wbind.
        eapply wp_mono; [apply (pop_heap_hole_by_index_wp first (hole - 1) n)|].
        * done.
        * lia.
        * lia.
        * by replace (S (hole - 1)) with hole by lia.
        * intros a' (L' & -> & Hp' & Hs' & Hheap'). apply wp_ok. split; [|lia]. split; [lia|].
          exists L'. split; [done|]. split; [by rewrite Hp'|]. split; [|done].
          eapply same_outside_trans; [done|]. eapply same_outside_weaken; [done|lia|lia].
      + simpl. exists l'. repeat (split; [done|]). apply heap_from_0.
        by replace 0%nat with hole by lia.
    - split; [lia|]. exists l. split; [done|]. split; [done|]. split; [apply same_outside_refl|].
      intros i Hi Hti. lia.
    - lia.
  Qed.

  Lemma heap_outside first n first' t' L L' :
    same_outside first' t' L L' -> (first + n <= first')%nat ->
    is_heap_range lt first n L -> is_heap_range lt first n L'.
  Proof.
    intros [_ Hs] Hle H i x y Hi Hx Hy. rewrite Hs in Hx, Hy by lia. by apply (H i).
  Qed.

  Lemma sort_heap_wp first last l :
    (first <= last)%nat -> (last <= length l)%nat ->
    is_heap_range lt first (last - first) l ->
    wp (sort_heap lt (full l) first last)
       (fun a' => exists l', a' = full l' /\ l' ≡ₚ l /\ same_outside first last l l' /\
                             sorted_range lt first last l').
  Proof.
    intros Hfl Hlen Hheap. unfold sort_heap.
    apply (wp_loop
      (fun '(a, e) => (first <= e <= last)%nat /\ exists l', a = full l' /\ l' ≡ₚ l /\ same_outside first last l l' /\
                   is_heap_range lt first (e - first) l' /\ sorted_range lt e last l' /\
                   (forall i j x y, (first <= i < e)%nat -> (e <= j < last)%nat ->
                       l' !! i = Some x -> l' !! j = Some y -> lt y x = false))
      (fun '(a, e) => (e - first)%nat)).
    - intros [a e] (He & l' & -> & Hp & Hs & Hh & Hso & Hle).
      pose proof (proj1 Hs) as Hlen'.
      destruct (decide (2 <= e - first)%nat) as [H2|H2].
      + wbind. eapply wp_mono; [apply (pop_heap_wp first e l'); [lia|lia|done]|].
        intros a' (l2 & -> & Hp2 & Hs2 & Hh2 & Hback). simpl. split; [|lia]. split; [lia|].
        exists l2. split; [done|]. split; [by rewrite Hp2|].
        assert (Hs3 : same_outside first last l l2).
        { eapply same_outside_trans; [done|]. eapply same_outside_weaken; [done|lia|lia]. }
        split; [done|]. split; [by replace (e - 1 - first)%nat with (e - 1 - first)%nat by lia|].
        (* every element of [first,e) of l2 is below every element of [e,last) *)
        assert (Hle2 : forall i j x y, (first <= i < e)%nat -> (e <= j < last)%nat ->
                       l2 !! i = Some x -> l2 !! j = Some y -> lt y x = false).
        { intros i j x y Hi Hj Hx Hy. destruct Hs2 as [Hlen2 Hs2']. rewrite Hs2' in Hy by lia.
          assert (Hall : range_all (fun x => lt y x = false) first e l2).
          { eapply range_all_perm; [split; [exact Hlen2|exact Hs2']|done|].
            intros k z ?? Hz. apply (Hle k j); try done; lia. }
          by apply (Hall i); lia || done. }
        destruct (lookup_lt_is_Some_2 l' first) as [top Htop]; [lia|].
        assert (Hmax : range_all (fun x => lt top x = false) first e l2).
        { eapply range_all_perm; [done|done|].
          intros k z ?? Hz. eapply (heap_max first (e - first) l' Hh (k - first)); [lia|done|].
          by replace (first + (k - first))%nat with k by lia. }
        rewrite Htop in Hback. split.
        * intros i j x y Hi Hij Hj Hx Hy.
          destruct (decide (i = e - 1)%nat) as [->|Hie].
          -- apply (Hle2 (e - 1)%nat j); try done; lia.
          -- destruct Hs2 as [_ Hs2]. rewrite Hs2 in Hx, Hy by lia. apply (Hso i j); try done; lia.
        * intros i j x y Hi Hj Hx Hy.
          destruct (decide (j = e - 1)%nat) as [->|Hje].
          -- isome. apply (Hmax i); try done; lia.
          -- apply (Hle2 i j); try done; lia.
      + simpl. exists l'. repeat (split; [done|]).
        intros i j x y Hi Hij Hj Hx Hy.
        destruct (decide (i < e)%nat).
        * destruct (decide (j < e)%nat); [lia|]. apply (Hle i j); try done; lia.
        * apply (Hso i j); try done; lia.
    - split; [lia|]. exists l. split; [done|]. split; [done|]. split; [apply same_outside_refl|].
      split; [done|]. split; [intros i j x y; lia|]. intros i j x y ?. lia.
    - lia.
  Qed.

  Lemma is_heap_until_wp first last l :
    (first <= last)%nat -> (last <= length l)%nat ->
    wp (is_heap_until lt (full l) first last)
       (fun r => (first <= r <= last)%nat /\ is_heap_range lt first (r - first) l /\
                 ((r < last)%nat -> ~ is_heap_range lt first (S r - first) l)).
  Proof.
    intros Hfl Hlen. unfold is_heap_until.
    apply (wp_loop
      (fun off => (0 < off)%nat /\ (off <= last - first \/ off = 1)%nat /\ is_heap_range lt first off l)
      (fun off => (last - first + 1 - off)%nat)).
    - intros off (H0 & Hoff & Hh). destruct (decide (off < last - first)%nat) as [Hlt|Hge].
      + wbind. apply wp_rd_full'; [lia|]. intros x Hx.
        wbind. apply wp_rd_full'; [lia|]. intros y Hy.
        destruct (lt x y) eqn:Hxy; simpl.
        * split; [lia|]. split; [by replace (first + off - first)%nat with off by lia|].
          intros _ Hbad. rewrite (Hbad off x y) in Hxy; try done; lia.
        * split; [|lia]. split; [lia|]. split; [lia|].
          intros i u v Hi Hu Hv. destruct (decide (i = off)) as [->|Hne].
          -- isome. done.
          -- apply (Hh i); try done; lia.
      + simpl. split; [lia|]. split; [|lia]. intros i u v Hi. apply Hh. lia.
    - split; [lia|]. split; [lia|]. intros i u v Hi. lia.
    - lia.
  Qed.
End heap.
