From stdpp Require Import base list numbers.
From Coq Require Import Lia ZifyNat.
From Verif Require Import Base.Res Base.Order Base.OrderLemmas Base.Stable Base.Arr
  Alg.HeapModel Alg.HeapSpec Alg.HeapProofs Alg.SortModel.
Ltac Zify.zify_post_hook ::= Z.div_mod_to_equations.

Section sort.
  Context {A : Type} (lt : A -> A -> bool) (SW : StrictWeakOrder lt).
  Implicit Types (l L : list A).
  Notation steq := (stable_eq lt).

  (* [first,mid] of L holds val at hole; without it the range is sorted; everything after the hole is > val *)
  Record ins_inv (first mid hole : nat) (val : A) (l0 L : list A) : Prop := {
    ins_hole : (first <= hole <= mid)%nat;
    ins_len : (mid < length L)%nat;
    ins_val : L !! hole = Some val;
    ins_st : steq l0 L;
    ins_frame : same_outside first (S mid) l0 L;
    ins_sorted : forall i j x y, (first <= i)%nat -> (i < j)%nat -> (j <= mid)%nat -> i <> hole -> j <> hole ->
       L !! i = Some x -> L !! j = Some y -> lt y x = false;
    ins_gt : forall j y, (hole < j <= mid)%nat -> L !! j = Some y -> lt val y = true }.

  Lemma ins_step first mid hole val l0 L x :
    ins_inv first mid hole val l0 L -> (first < hole)%nat ->
    L !! (hole - 1)%nat = Some x -> lt val x = true ->
    ins_inv first mid (hole - 1) val l0 (<[(hole - 1)%nat:=val]> (<[hole:=x]> L)).
  Proof.
    intros [Hh Hlen Hval Hst Hfr Hso Hgt] Hlt Hx Hvx.
    assert (HL : forall k, <[(hole - 1)%nat:=val]> (<[hole:=x]> L) !! k =
            if decide (k = hole - 1)%nat then Some val
            else if decide (k = hole)%nat then Some x else L !! k).
    { intros k. by apply swap_lookup. }
    split.
    - lia.
    - by rewrite !insert_length.
    - rewrite HL. by rewrite decide_True.
    - eapply stable_eq_trans; [done|].
      destruct hole as [|h]; [lia|]. simpl in *. rewrite Nat.sub_0_r in *.
      eapply stable_eq_swap_at; eauto.
    - eapply same_outside_trans; [done|]. apply swap_frame; lia.
    - intros i j u v Hfi Hij Hj Hi1 Hj1. rewrite !HL.
      repeat case_decide; try lia; intros Hu Hv; isome.
      + apply (Hso (hole - 1)%nat j); try done; lia.
      + apply (Hso i (hole - 1)%nat); try done; lia.
      + apply (Hso i j); try done; lia.
    - intros j y Hj. rewrite HL. repeat case_decide; try lia; intros Hy; isome; [done|].
      apply (Hgt j); [lia|done].
  Qed.

  Lemma ins_done first mid hole val l0 L :
    ins_inv first mid hole val l0 L ->
    (forall x, (first < hole)%nat -> L !! (hole - 1)%nat = Some x -> lt val x = false) ->
    sorted_range lt first (S mid) L.
  Proof.
    intros [Hh Hlen Hval Hst Hfr Hso Hgt] Hprev i j x y Hi Hij Hj Hx Hy.
    destruct (decide (i = hole)) as [->|Hne].
    - isome. apply (swo_asym lt SW). apply (Hgt j); [lia|done].
    - destruct (decide (j = hole)) as [->|Hnj].
      + isome. destruct (lookup_lt_is_Some_2 L (hole - 1)) as [z Hz]; [lia|].
        specialize (Hprev z ltac:(lia) Hz).
        destruct (decide (i = hole - 1)%nat) as [->|Hi1]; [isome; done|].
        apply (swo_ntrans lt SW _ z); [|done]. apply (Hso i (hole - 1)%nat); try done; lia.
      + apply (Hso i j); try done; lia.
  Qed.

  Lemma move_backward_ins first mid val l0 L :
    ins_inv first mid mid val l0 L ->
    (forall i x, (first <= i < mid)%nat -> L !! i = Some x -> lt val x = true) ->
    wp (move_backward (holed L mid) first mid (S mid))
       (fun '(a, _) => exists L', a = holed L' first /\ ins_inv first mid first val l0 L').
  Proof.
    intros Hinv Hall. unfold move_backward.
    apply (wp_loop
      (fun '(a, e, d) => d = S e /\ exists L', a = holed L' e /\ ins_inv first mid e val l0 L' /\
          (forall i x, (first <= i < e)%nat -> L' !! i = Some x -> lt val x = true))
      (fun '(a, e, d) => (e - first)%nat)).
    - intros [[a e] d] (-> & L' & -> & Hi & Hlt).
      pose proof Hi as [Hh Hlen Hval _ _ _ _].
      destruct (decide (first <> e)) as [Hne|He].
      + wbind. apply wp_decr; [lia|]. replace (S e - 1)%nat with e by lia.
        wbind. apply wp_decr; [lia|].
        destruct (lookup_lt_is_Some_2 L' (e - 1)) as [x Hx]; [lia|].
        wbind. eapply wp_mvto_holed; [lia|lia|done|]. simpl. split; [|lia].
        split; [lia|]. exists (<[(e - 1)%nat:=val]> (<[e:=x]> L')).
        split; [by rewrite holed_insert|]. split.
        * apply ins_step; try done; [lia|]. apply (Hlt (e - 1)%nat); [lia|done].
        * intros i y Hi'. rewrite !list_lookup_insert_ne by lia. apply Hlt. lia.
      + simpl. assert (first = e) as <- by lia. eauto.
    - split; [done|]. eauto.
    - lia.
  Qed.

  Lemma insertion_sort_inner_wp first mid val l0 L f :
    ins_inv first mid mid val l0 L -> (first < mid)%nat ->
    L !! first = Some f -> lt val f = false ->
    wp (insertion_sort_inner lt (holed L mid) mid val)
       (fun '(a, h) => exists L', a = holed L' h /\ ins_inv first mid h val l0 L' /\
          sorted_range lt first (S mid) L').
  Proof.
    intros Hinv Hfm Hf Hvf. unfold insertion_sort_inner.
    apply (wp_loop
      (fun '(a, h, p) => p = h /\ (first < h)%nat /\ exists L', a = holed L' h /\ ins_inv first mid h val l0 L' /\
          L' !! first = Some f)
      (fun '(a, h, p) => h)).
    - intros [[a h] p] (-> & Hfh & L' & -> & Hi & Hf').
      pose proof Hi as [Hh Hlen Hval _ _ _ _].
      wbind. apply wp_decr; [lia|].
      destruct (lookup_lt_is_Some_2 L' (h - 1)) as [x Hx]; [lia|].
      wbind. eapply wp_rd_holed; [lia|done|].
      destruct (lt val x) eqn:Hvx.
      + assert (first <> h - 1)%nat.
        { intros ->. isome. congruence. }
        wbind. eapply wp_mvto_holed; [lia|lia|done|]. simpl. split; [|lia].
        split; [done|]. split; [lia|].
        exists (<[(h - 1)%nat:=val]> (<[h:=x]> L')).
        split; [by rewrite holed_insert|]. split.
        * apply ins_step; done.
        * by rewrite !list_lookup_insert_ne by lia.
      + simpl. exists L'. split; [done|]. split; [done|].
        eapply ins_done; [done|]. intros y _ Hy. isome. done.
    - split; [done|]. split; [done|]. eauto.
    - lia.
  Qed.

  Lemma insertion_sort_wp first last l :
    (first <= last)%nat -> (last <= length l)%nat ->
    wp (insertion_sort lt (full l) first last)
       (fun a' => exists l', a' = full l' /\ steq l l' /\ same_outside first last l l' /\
                             sorted_range lt first last l').
  Proof.
    intros Hfl Hlen. unfold insertion_sort.
    destruct (decide (first <> last)) as [Hne|He].
    2:{ simpl. exists l. split; [done|]. split; [done|]. split; [apply same_outside_refl|].
        intros i j x y ???. lia. }
    apply (wp_loop
      (fun '(a, mid) => (first <= mid < last)%nat /\ exists l', a = full l' /\ steq l l' /\ same_outside first last l l' /\
                             sorted_range lt first (S mid) l')
      (fun '(a, mid) => (last - mid)%nat)).
    - intros [a m] (Hm & l' & -> & Hst & Hfr & Hso). cbv zeta.
      pose proof (proj1 Hfr) as Hlen'.
      remember (S m) as mid eqn:Emid.
      destruct (decide (mid <> last)) as [Hml|Hml].
      + destruct (lookup_lt_is_Some_2 l' mid) as [val Hval]; [lia|].
        destruct (lookup_lt_is_Some_2 l' first) as [f Hf]; [lia|].
        wbind. eapply wp_mv_full; [done|]. wbind. eapply wp_rd_holed; [lia|done|].
        assert (Hinv : ins_inv first mid mid val l' l').
        { split; try done; try lia.
          intros i j x y ????? Hx Hy. apply (Hso i j); try done; lia. }
        assert (Hpost : forall L', ins_inv first mid mid val l' l' -> steq l' L' -> same_outside first (S mid) l' L' ->
           sorted_range lt first (S mid) L' -> 
           (first ≤ mid < last)%nat /\ ∃ l'0, full L' = full l'0 /\ steq l l'0 /\
             same_outside first last l l'0 /\ sorted_range lt first (S mid) l'0).
        { intros L' _ Hs1 Hs2 Hs3. split; [lia|]. exists L'. split; [done|].
          split; [by eapply stable_eq_trans|]. split; [|done].
          eapply same_outside_trans; [done|]. eapply same_outside_weaken; [done|lia|lia]. }
        destruct (lt val f) eqn:Hvf.
        * wbind. eapply wp_mono.
          { apply (move_backward_ins first mid val l' l'); [done|].
            intros i x Hi Hx. destruct (decide (i = first)) as [->|Hif]; [isome; done|].
            apply (swo_lt_le lt SW _ f); [done|]. apply (Hso first i); try done; lia. }
          intros [a' ?] (L' & -> & Hi'). pose proof Hi' as [Hh' Hlen2 Hval' Hst' Hfr' _ _].
          wbind. apply wp_wr_holed; [lia|]. rewrite list_insert_id by done.
          simpl. split; [|lia]. apply Hpost; try done.
          eapply ins_done; [done|]. lia.
        * wbind. eapply wp_mono.
          { apply (insertion_sort_inner_wp first mid val l' l' f); try done. lia. }
          intros [a' h] (L' & -> & Hi' & Hso'). pose proof Hi' as [Hh' Hlen2 Hval' Hst' Hfr' _ _].
          wbind. apply wp_wr_holed; [lia|]. rewrite list_insert_id by done.
          simpl. split; [|lia]. apply Hpost; done.
      + simpl. exists l'. split; [done|]. split; [done|]. split; [done|].
        by replace last with mid by lia.
    - split; [lia|]. exists l. split; [done|]. split; [done|]. split; [apply same_outside_refl|].
      intros i j x y ???. lia.
    - lia.
  Qed.

  (** arrays obtained by swapping inside [f,t) *)
  Definition shuf (f t : nat) l l' : Prop := l' ≡ₚ l /\ same_outside f t l l'.
  Lemma shuf_refl f t l : shuf f t l l.
  Proof. split; [done|apply same_outside_refl]. Qed.
  Lemma shuf_trans f t l1 l2 l3 : shuf f t l1 l2 -> shuf f t l2 l3 -> shuf f t l1 l3.
  Proof. intros [H1 H2] [H3 H4]. split; [by rewrite H3|]. by eapply same_outside_trans. Qed.
  Lemma shuf_weaken f t f' t' l l' : shuf f t l l' -> (f' <= f)%nat -> (t <= t')%nat -> shuf f' t' l l'.
  Proof. intros [H1 H2] ??. split; [done|]. by eapply same_outside_weaken. Qed.
  Lemma shuf_swap f t l i j x y :
    l !! i = Some x -> l !! j = Some y -> (f <= i < t)%nat -> (f <= j < t)%nat ->
    shuf f t l (<[j:=x]> (<[i:=y]> l)).
  Proof. intros. split; [by apply perm_swap_list|]. by apply swap_frame. Qed.
  Lemma shuf_len f t l l' : shuf f t l l' -> length l' = length l.
  Proof. by intros [_ [H _]]. Qed.

  Lemma swp_shuf f t l i j :
    (f <= i < t)%nat -> (f <= j < t)%nat -> (t <= length l)%nat ->
    wp (swp (full l) i j) (fun a => exists l', a = full l' /\ shuf f t l l').
  Proof.
    intros Hi Hj Ht. destruct (lookup_lt_is_Some_2 l i) as [x Hx]; [lia|].
    destruct (lookup_lt_is_Some_2 l j) as [y Hy]; [lia|].
    eapply wp_swp_full; try done. eexists. split; [done|]. by apply shuf_swap.
  Qed.

  (* conditional permuting step *)
  Lemma wp_shuf_bind {B} f t l (m : res (arr A)) (k : arr A -> res B) Q :
    wp m (fun a => exists l', a = full l' /\ shuf f t l l') ->
    (forall l', shuf f t l l' -> wp (k (full l')) Q) ->
    wp (rbind m k) Q.
  Proof. intros Hm Hk. wbind. eapply wp_mono; [done|]. intros a (l' & -> & Hs). by apply Hk. Qed.

  Lemma med3_wp f t l i j k :
    (f <= i < t)%nat -> (f <= j < t)%nat -> (f <= k < t)%nat -> (t <= length l)%nat ->
    wp (med3 lt (full l) i j k) (fun a => exists l', a = full l' /\ shuf f t l l').
  Proof.
    intros Hi Hj Hk Ht. unfold med3.
    wbind. apply wp_rd_full'; [lia|]. intros m Hm.
    wbind. apply wp_rd_full'; [lia|]. intros g Hg.
    eapply (wp_shuf_bind f t l).
    { destruct (lt m g); [by apply swp_shuf|]. simpl. eexists; split; [done|apply shuf_refl]. }
    intros l1 Hs1. pose proof (shuf_len _ _ _ _ Hs1).
    wbind. apply wp_rd_full'; [lia|]. intros la Hla.
    wbind. apply wp_rd_full'; [lia|]. intros m' Hm'.
    destruct (lt la m'); [|simpl; eauto].
    eapply (wp_shuf_bind f t l1); [apply swp_shuf; lia|].
    intros l2 Hs2. pose proof (shuf_len _ _ _ _ Hs2).
    wbind. apply wp_rd_full'; [lia|]. intros m2 Hm2.
    wbind. apply wp_rd_full'; [lia|]. intros g2 Hg2.
    assert (Hs12 : shuf f t l l2) by (by eapply shuf_trans).
    destruct (lt m2 g2).
    - eapply wp_mono; [apply (swp_shuf f t); lia|]. intros a (l3 & -> & Hs3).
      eexists; split; [done|]. by eapply shuf_trans.
    - simpl. eauto.
  Qed.

  Lemma guess_median_wp first mid last l :
    (first <= mid)%nat -> (mid <= last)%nat -> (mid = first + (S last - first) / 2)%nat -> (last < length l)%nat ->
    wp (guess_median lt (full l) first mid last)
       (fun a => exists l', a = full l' /\ shuf first (S last) l l').
  Proof.
    intros Hfm Hml Hmid Hlen. unfold guess_median.
    destruct (decide (40 < last - first)%nat).
    - cbv zeta. remember ((last - first + 1) / 8)%nat as step eqn:Est.
      eapply (wp_shuf_bind first (S last) l); [apply med3_wp; lia|]. intros l1 H1. pose proof (shuf_len _ _ _ _ H1) as E1.
      eapply (wp_shuf_bind first (S last) l1); [apply med3_wp; lia|]. intros l2 H2. pose proof (shuf_len _ _ _ _ H2) as E2.
      eapply (wp_shuf_bind first (S last) l2); [apply med3_wp; lia|]. intros l3 H3. pose proof (shuf_len _ _ _ _ H3) as E3.
      eapply wp_mono; [apply (med3_wp first (S last)); lia|]. intros a (l4 & -> & H4).
      eexists; split; [done|]. eauto using shuf_trans.
    - apply med3_wp; lia.
  Qed.

  (** three-way partition *)
  Definition LTc (pv x : A) : Prop := lt x pv = true.
  Definition GTc (pv x : A) : Prop := lt pv x = true.
  Definition EQc (pv x : A) : Prop := lt x pv = false /\ lt pv x = false.

  Lemma eqc_lt pv p x : EQc pv p -> lt x p = lt x pv.
  Proof.
    intros [H1 H2]. destruct (lt x pv) eqn:E.
    - by apply (swo_lt_le lt SW _ pv).
    - by apply (swo_ntrans lt SW _ pv).
  Qed.
  Lemma eqc_gt pv p x : EQc pv p -> lt p x = lt pv x.
  Proof.
    intros [H1 H2]. destruct (lt pv x) eqn:E.
    - by apply (swo_le_lt lt SW _ pv).
    - by apply (swo_ntrans lt SW _ pv).
  Qed.

  Record pinv (pv : A) (first last : nat) (l0 L : list A) (pf pl gf gl : nat) : Prop := {
    pi_b : (first <= gl)%nat /\ (gl <= pf)%nat /\ (pf < pl)%nat /\ (pl <= gf)%nat /\ (gf <= last)%nat;
    pi_shuf : shuf first last l0 L;
    pi_len : (last <= length L)%nat;
    pi_lt : range_all (LTc pv) gl pf L;
    pi_eq : range_all (EQc pv) pf pl L;
    pi_gt : range_all (GTc pv) pl gf L }.

  Lemma pinv_swap pv first last l0 L pf pl gf gl i j x y pf' pl' gf' gl' :
    pinv pv first last l0 L pf pl gf gl ->
    L !! i = Some x -> L !! j = Some y -> (first <= i < last)%nat -> (first <= j < last)%nat ->
    (first <= gl')%nat -> (gl' <= pf')%nat -> (pf' < pl')%nat -> (pl' <= gf')%nat -> (gf' <= last)%nat ->
    range_all (LTc pv) gl' pf' (<[j:=x]> (<[i:=y]> L)) ->
    range_all (EQc pv) pf' pl' (<[j:=x]> (<[i:=y]> L)) ->
    range_all (GTc pv) pl' gf' (<[j:=x]> (<[i:=y]> L)) ->
    pinv pv first last l0 (<[j:=x]> (<[i:=y]> L)) pf' pl' gf' gl'.
  Proof.
    intros [Hb Hs Hlen H1 H2 H3] Hx Hy Hi Hj ????? R1 R2 R3. split; try done.
    - eapply shuf_trans; [done|]. by apply shuf_swap.
    - by rewrite !insert_length.
  Qed.

  Ltac rsolve := 
    let k := fresh "k" in let z := fresh "z" in let Hk1 := fresh in let Hk2 := fresh in let Hz := fresh in
    intros k z Hk1 Hk2 Hz; rewrite swap_lookup in Hz by eassumption; repeat case_decide; subst; isome; try lia;
    first [done | match goal with H : range_all _ _ _ _ |- _ => solve [eapply H; [| |eassumption]; lia] end].

  Lemma equiv_at_wp L i j pv x p :
    L !! i = Some x -> L !! j = Some p -> EQc pv p \/ EQc pv x ->
    wp (equiv_at lt (full L) i j) (fun b : bool => b = true <-> (EQc pv x /\ EQc pv p)).
  Proof.
    intros Hi Hj HE. unfold equiv_at. wbind. eapply wp_rd_full; [done|]. wbind. eapply wp_rd_full; [done|].
    simpl. rewrite andb_true_iff, !negb_true_iff.
    destruct HE as [HE|HE].
    - rewrite (eqc_lt pv p x HE), (eqc_gt pv p x HE). unfold EQc in *. naive_solver.
    - rewrite (eqc_lt pv x p HE), (eqc_gt pv x p HE). unfold EQc in *. naive_solver.
  Qed.

  Lemma pbp_widen_left_wp pv first pf L :
    (first <= pf)%nat -> (pf < length L)%nat -> range_all (EQc pv) pf (S pf) L ->
    wp (pbp_widen_left lt (full L) first pf)
       (fun pf' => (first <= pf' <= pf)%nat /\ range_all (EQc pv) pf' (S pf) L).
  Proof.
    intros Hf Hlen Heq. unfold pbp_widen_left.
    apply (wp_loop (fun p => (first <= p <= pf)%nat /\ range_all (EQc pv) p (S pf) L) (fun p => p)).
    - intros p (Hp & HR). destruct (decide (first < p)%nat) as [Hlt|Hge]; [|simpl; done].
      destruct (lookup_lt_is_Some_2 L (p - 1)) as [x Hx]; [lia|].
      destruct (lookup_lt_is_Some_2 L p) as [y Hy]; [lia|].
      assert (Ey : EQc pv y) by (apply (HR p); [lia|lia|done]).
      wbind. eapply wp_mono; [apply (equiv_at_wp _ _ _ pv x y); auto|].
      intros [] Hb; simpl.
      + split; [|lia]. split; [lia|]. intros k z Hk1 Hk2 Hz.
        destruct (decide (k = p - 1)%nat) as [->|]; [isome; by apply Hb|]. apply (HR k); try done; lia.
      + done.
    - done.
    - lia.
  Qed.

  Lemma pbp_widen_right_wp pv pf pl last L :
    (pf < pl)%nat -> (pl <= last)%nat -> (last <= length L)%nat -> range_all (EQc pv) pf pl L ->
    wp (pbp_widen_right lt (full L) pf pl last)
       (fun pl' => (pl <= pl' <= last)%nat /\ range_all (EQc pv) pf pl' L).
  Proof.
    intros Hf Hl Hlen Heq. unfold pbp_widen_right.
    apply (wp_loop (fun p => (pl <= p <= last)%nat /\ range_all (EQc pv) pf p L) (fun p => (last - p)%nat)).
    - intros p (Hp & HR). destruct (decide (p < last)%nat) as [Hlt|Hge]; [|simpl; done].
      destruct (lookup_lt_is_Some_2 L p) as [x Hx]; [lia|].
      destruct (lookup_lt_is_Some_2 L pf) as [y Hy]; [lia|].
      assert (Ey : EQc pv y) by (apply (HR pf); [lia|lia|done]).
      wbind. eapply wp_mono; [apply (equiv_at_wp _ _ _ pv x y); auto|].
      intros [] Hb; simpl.
      + split; [|lia]. split; [lia|]. intros k z Hk1 Hk2 Hz.
        destruct (decide (k = p)%nat) as [->|]; [isome; by apply Hb|]. apply (HR k); try done; lia.
      + done.
    - split; [lia|done].
    - lia.
  Qed.

  Lemma pbp_scan_up_wp pv first last l0 L pf pl gf gl :
    pinv pv first last l0 L pf pl gf gl ->
    wp (pbp_scan_up lt (full L) pf pl gf last)
       (fun '(a, pl', gf') => exists L', a = full L' /\ pinv pv first last l0 L' pf pl' gf' gl /\ (gf <= gf')%nat /\
          ((gf' < last)%nat -> range_all (LTc pv) gf' (S gf') L')).
  Proof.
    intros Hinv. unfold pbp_scan_up.
    apply (wp_loop
      (fun '(a, pl', gf') => exists L', a = full L' /\ pinv pv first last l0 L' pf pl' gf' gl /\ (gf <= gf')%nat)
      (fun '(a, pl', gf') => (last - gf')%nat)).
    - intros [[a p] g] (L' & -> & Hi & Hgg). pose proof Hi as [Hb Hs Hlen H1 H2 H3].
      destruct (decide (g < last)%nat) as [Hlt|Hge].
      2:{ simpl. exists L'. split; [done|]. split; [done|]. split; [done|]. lia. }
      destruct (lookup_lt_is_Some_2 L' pf) as [x Hx]; [lia|].
      destruct (lookup_lt_is_Some_2 L' g) as [y Hy]; [lia|].
      assert (Ex : EQc pv x) by (apply (H2 pf); [lia|lia|done]).
      wbind. eapply wp_rd_full; [done|]. wbind. eapply wp_rd_full; [done|].
      rewrite (eqc_gt _ _ y Ex), (eqc_lt _ _ y Ex).
      destruct (lt pv y) eqn:Egt.
      { simpl. split; [|lia]. exists L'. split; [done|]. split; [|lia]. split; try done; [lia|].
        intros k z Hk1 Hk2 Hz. destruct (decide (k = g)) as [->|]; [isome; done|]. apply (H3 k); try done; lia. }
      destruct (lt y pv) eqn:Elt.
      { simpl. exists L'. split; [done|]. split; [done|]. split; [done|]. intros _ k z Hk1 Hk2 Hz.
        assert (k = g) as -> by lia. isome. done. }
      destruct (decide (p <> g)) as [Hne|He].
      + destruct (lookup_lt_is_Some_2 L' p) as [w Hw]; [lia|].
        wbind. eapply wp_swp_full; try done. simpl. split; [|lia].
        eexists; split; [done|]. split; [|lia].
        eapply pinv_swap; [exact Hi|try eassumption; try lia; try done..]; rsolve.
      + simpl. split; [|lia]. assert (p = g) as -> by lia. exists L'. split; [done|]. split; [|lia].
        split; try done; try lia.
        * intros k z Hk1 Hk2 Hz. destruct (decide (k = g)) as [->|]; [isome; done|]. apply (H2 k); try done; lia.
        * intros k z Hk1 Hk2 Hz. lia.
    - eauto.
    - lia.
  Qed.

  Lemma pbp_scan_down_wp pv first last l0 L pf pl gf gl :
    pinv pv first last l0 L pf pl gf gl ->
    wp (pbp_scan_down lt (full L) first pf gl)
       (fun '(a, pf', gl') => exists L', a = full L' /\ pinv pv first last l0 L' pf' pl gf gl' /\ (gl' <= gl)%nat /\
          ((first < gl')%nat -> range_all (GTc pv) (gl' - 1) gl' L') /\
          (forall k, (gf <= k)%nat -> L' !! k = L !! k)).
  Proof.
    intros Hinv. unfold pbp_scan_down.
    apply (wp_loop
      (fun '(a, pf', gl') => exists L', a = full L' /\ pinv pv first last l0 L' pf' pl gf gl' /\ (gl' <= gl)%nat /\
          (forall k, (gf <= k)%nat -> L' !! k = L !! k))
      (fun '(a, pf', gl') => gl' - first)%nat).
    - intros [[a p] g] (L' & -> & Hi & Hgg & Hk). pose proof Hi as [Hb Hs Hlen H1 H2 H3].
      destruct (decide (first < g)%nat) as [Hlt|Hge].
      2:{ simpl. exists L'. split; [done|]. split; [done|]. split; [done|]. split; [lia|done]. }
      destruct (lookup_lt_is_Some_2 L' p) as [x Hx]; [lia|].
      destruct (lookup_lt_is_Some_2 L' (g - 1)) as [y Hy]; [lia|].
      assert (Ex : EQc pv x) by (apply (H2 p); [lia|lia|done]).
      wbind. eapply wp_rd_full; [done|]. wbind. eapply wp_rd_full; [done|].
      rewrite (eqc_gt _ _ y Ex), (eqc_lt _ _ y Ex).
      destruct (lt y pv) eqn:Elt.
      { simpl. split; [|lia]. exists L'. split; [done|]. split; [|split; [lia|done]]. split; try done; [lia|].
        intros k z Hk1 Hk2 Hz. destruct (decide (k = g - 1)%nat) as [->|]; [isome; done|].
        apply (H1 k); try done; lia. }
      destruct (lt pv y) eqn:Egt.
      { simpl. exists L'. split; [done|]. split; [done|]. split; [done|]. split; [|done]. intros _ k z Hk1 Hk2 Hz.
        assert (k = g - 1)%nat as -> by lia. isome. done. }
      wbind. apply wp_decr; [lia|].
      destruct (decide (p - 1 <> g - 1)%nat) as [Hne|He].
      + destruct (lookup_lt_is_Some_2 L' (p - 1)) as [w Hw]; [lia|].
        wbind. eapply wp_swp_full; try done. simpl. split; [|lia].
        eexists; split; [done|]. split; [|split; [lia|]].
        * eapply pinv_swap; [exact Hi|try eassumption; try lia; try done..]; rsolve.
        * intros k Hk'. rewrite !list_lookup_insert_ne by lia. by apply Hk.
      + simpl. split; [|lia]. assert (p = g) as -> by lia. exists L'. split; [done|]. split; [|split; [lia|done]].
        split; try done; try lia.
        * intros k z Hk1 Hk2 Hz. lia.
        * intros k z Hk1 Hk2 Hz. destruct (decide (k = g - 1)%nat) as [->|]; [isome; done|].
          apply (H2 k); try done; lia.
    - eexists; split; [done|]. eauto.
    - lia.
  Qed.

  Lemma partition_by_pivot_wp first pf last l :
    (first <= pf < last)%nat -> (last <= length l)%nat ->
    exists pv, l !! pf = Some pv /\
    wp (partition_by_pivot lt (full l) first pf last)
       (fun '(a, m1, m2) => exists l', a = full l' /\ shuf first last l l' /\
          (first <= m1)%nat /\ (m1 < m2)%nat /\ (m2 <= last)%nat /\
          range_all (LTc pv) first m1 l' /\ range_all (EQc pv) m1 m2 l' /\ range_all (GTc pv) m2 last l').
  Proof.
    intros Hpf Hlen. destruct (lookup_lt_is_Some_2 l pf) as [pv Hpv]; [lia|].
    exists pv. split; [done|]. unfold partition_by_pivot.
    wbind. eapply wp_mono; [apply (pbp_widen_left_wp pv first pf l); try lia|].
    { intros k z Hk1 Hk2 Hz. assert (k = pf) as -> by lia. isome. split; apply (swo_irrefl _ SW). }
    intros pf1 (Hpf1 & Heq1).
    wbind. eapply wp_mono; [apply (pbp_widen_right_wp pv pf1 (S pf) last l); try lia; done|].
    intros pl1 (Hpl1 & Heq2).
    apply (wp_loop
      (fun '(a, pf, pl, gf, gl) => exists L, a = full L /\ pinv pv first last l L pf pl gf gl)
      (fun '(a, pf, pl, gf, gl) => (gl - first) + (last - gf))%nat).
    - intros [[[[a p] q] gf] gl] (L & -> & Hi).
      wbind. eapply wp_mono; [by eapply pbp_scan_up_wp|].
      intros [[a1 q1] gf1] (L1 & -> & Hi1 & Hgf1 & Hlt1).
      wbind. eapply wp_mono; [by eapply pbp_scan_down_wp|].
      intros [[a2 p2] gl2] (L2 & -> & Hi2 & Hgl2 & Hgt2 & Hsame).
      pose proof Hi2 as [Hb Hs Hlen2 H1 H2 H3].
      assert (Hlt2 : (gf1 < last)%nat -> range_all (LTc pv) gf1 (S gf1) L2).
      { intros Hg k z Hk1 Hk2 Hz. rewrite Hsame in Hz by lia. by apply (Hlt1 Hg k). }
      clear Hlt1 Hsame Hi1.
      destruct (lookup_lt_is_Some_2 L2 p2) as [xp Hxp]; [lia|].
      assert (Exp : EQc pv xp) by (apply (H2 p2); [lia|lia|done]).
      destruct (decide (gl2 = first /\ gf1 = last)) as [[-> ->]|Hnd].
      { simpl. exists L2. split; [done|]. split; [done|]. split; [lia|]. split; [lia|]. split; [lia|]. done. }
      destruct (decide (gl2 = first)) as [->|Hgl].
      { (* rotate pivot upward *)
        specialize (Hlt2 ltac:(lia)).
        destruct (lookup_lt_is_Some_2 L2 gf1) as [xg Hxg]; [lia|].
        assert (Exg : LTc pv xg) by (apply (Hlt2 gf1); [lia|lia|done]).
        destruct (decide (q1 <> gf1)) as [Hq|Hq].
        - destruct (lookup_lt_is_Some_2 L2 q1) as [xq Hxq]; [lia|].
          assert (Exq : GTc pv xq) by (apply (H3 q1); [lia|lia|done]).
          wbind. eapply wp_swp_full; try done.
          set (L3 := <[q1:=xp]> (<[p2:=xq]> L2)).
          assert (HL3 : forall k, L3 !! k = if decide (k = q1) then Some xp else if decide (k = p2) then Some xq else L2 !! k).
          { intros k. by apply swap_lookup. }
          assert (Hp3 : L3 !! p2 = Some xq).
          { rewrite HL3. rewrite decide_False by lia. by rewrite decide_True. }
          assert (Hg3 : L3 !! gf1 = Some xg).
          { rewrite HL3. by rewrite !decide_False by lia. }
          wbind. eapply wp_swp_full; try done. simpl. split; [|lia].
          eexists; split; [done|]. split; try lia.
          + eapply shuf_trans; [|apply shuf_swap; try done; lia].
            eapply shuf_trans; [done|]. apply shuf_swap; try done; lia.
          + unfold L3. rewrite !insert_length. lia.
          + intros k z Hk1 Hk2 Hz. rewrite swap_lookup in Hz by done. rewrite HL3 in Hz.
            repeat case_decide; subst; isome; try lia; try done. apply (H1 k); try done; lia.
          + intros k z Hk1 Hk2 Hz. rewrite swap_lookup in Hz by done. rewrite HL3 in Hz.
            repeat case_decide; subst; isome; try lia; try done. apply (H2 k); try done; lia.
          + intros k z Hk1 Hk2 Hz. rewrite swap_lookup in Hz by done. rewrite HL3 in Hz.
            repeat case_decide; subst; isome; try lia; try done. apply (H3 k); try done; lia.
        - assert (q1 = gf1) as -> by lia. simpl.
          wbind. eapply wp_swp_full; try done. simpl. split; [|lia].
          eexists; split; [done|]. 
          eapply pinv_swap; [exact Hi2|try eassumption; try lia; try done..]; rsolve. }
      destruct (decide (gf1 = last)) as [->|Hgf].
      { (* rotate pivot downward *)
        specialize (Hgt2 ltac:(lia)).
        wbind. apply wp_decr; [lia|]. wbind. apply wp_decr; [lia|].
        destruct (lookup_lt_is_Some_2 L2 (gl2 - 1)) as [xg Hxg]; [lia|].
        assert (Exg : GTc pv xg) by (apply (Hgt2 (gl2 - 1)%nat); [lia|lia|done]).
        destruct (lookup_lt_is_Some_2 L2 (q1 - 1)) as [xq Hxq]; [lia|].
        assert (Exq : EQc pv xq) by (apply (H2 (q1 - 1)%nat); [lia|lia|done]).
        destruct (decide (gl2 - 1 <> p2 - 1)%nat) as [Hq|Hq].
        - destruct (lookup_lt_is_Some_2 L2 (p2 - 1)) as [xl Hxl]; [lia|].
          assert (Exl : LTc pv xl) by (apply (H1 (p2 - 1)%nat); [lia|lia|done]).
          wbind. eapply wp_swp_full; try done.
          set (L3 := <[(p2-1)%nat:=xg]> (<[(gl2-1)%nat:=xl]> L2)).
          assert (HL3 : forall k, L3 !! k = if decide (k = p2 - 1)%nat then Some xg else if decide (k = gl2 - 1)%nat then Some xl else L2 !! k).
          { intros k. by apply swap_lookup. }
          assert (Hp3 : L3 !! (p2 - 1)%nat = Some xg).
          { rewrite HL3. by rewrite decide_True. }
          assert (Hg3 : L3 !! (q1 - 1)%nat = Some xq).
          { rewrite HL3. by rewrite !decide_False by lia. }
          wbind. apply wp_decr; [lia|].
          wbind. eapply wp_swp_full; try done. simpl. split; [|lia].
          eexists; split; [done|]. split; try lia.
          + eapply shuf_trans; [|apply shuf_swap; try done; lia].
            eapply shuf_trans; [done|]. apply shuf_swap; try done; lia.
          + unfold L3. rewrite !insert_length. lia.
          + intros k z Hk1 Hk2 Hz. rewrite swap_lookup in Hz by done. rewrite HL3 in Hz.
            repeat case_decide; subst; isome; try lia; try done. apply (H1 k); try done; lia.
          + intros k z Hk1 Hk2 Hz. rewrite swap_lookup in Hz by done. rewrite HL3 in Hz.
            repeat case_decide; subst; isome; try lia; try done. apply (H2 k); try done; lia.
          + intros k z Hk1 Hk2 Hz. rewrite swap_lookup in Hz by done. rewrite HL3 in Hz.
            repeat case_decide; subst; isome; try lia; try done. apply (H3 k); try done; lia.
        - assert (Hpg : p2 = gl2) by lia. simpl.
          wbind. apply wp_decr; [lia|].
          rewrite <-Hpg in Hxg.
          wbind. eapply wp_swp_full; try done. simpl. split; [|lia].
          eexists; split; [done|].
          eapply pinv_swap; [exact Hi2|try eassumption; try lia; try done..]; rsolve. }
      specialize (Hlt2 ltac:(lia)). specialize (Hgt2 ltac:(lia)).
      wbind. apply wp_decr; [lia|].
      destruct (lookup_lt_is_Some_2 L2 gf1) as [xg Hxg]; [lia|].
      destruct (lookup_lt_is_Some_2 L2 (gl2 - 1)) as [xl Hxl]; [lia|].
      assert (Exg : LTc pv xg) by (apply (Hlt2 gf1); [lia|lia|done]).
      assert (Exl : GTc pv xl) by (apply (Hgt2 (gl2 - 1)%nat); [lia|lia|done]).
      wbind. eapply wp_swp_full; try done. simpl. split; [|lia].
      eexists; split; [done|].
      eapply pinv_swap; [exact Hi2|try eassumption; try lia; try done..]; rsolve.
    - eexists; split; [done|]. split; try done; try lia.
      + intros k z Hk1 Hk2 Hz. lia.
      + intros k z Hk1 Hk2 Hz. lia.
    - lia.
  Qed.

  Definition part_post (first last : nat) l (r : arr A * nat * nat) : Prop :=
    let '(a, m1, m2) := r in
    exists l' pv, a = full l' /\ shuf first last l l' /\ (first <= m1)%nat /\ (m1 < m2)%nat /\ (m2 <= last)%nat /\
      range_all (LTc pv) first m1 l' /\ range_all (EQc pv) m1 m2 l' /\ range_all (GTc pv) m2 last l'.

  Lemma partition_by_median_guess_wp first last l :
    (first < last)%nat -> (last <= length l)%nat ->
    wp (partition_by_median_guess lt (full l) first last) (part_post first last l).
  Proof.
    intros Hfl Hlen. unfold partition_by_median_guess. cbv zeta.
    wbind. apply wp_decr; [lia|].
    wbind. eapply wp_mono; [apply guess_median_wp; lia|].
    intros a (l1 & -> & Hs1). replace (S (last - 1)) with last in Hs1 by lia.
    pose proof (shuf_len _ _ _ _ Hs1) as Hl1.
    destruct (partition_by_pivot_wp first (first + (last - first) / 2) last l1) as (pv & Hpv & Hwp); [lia|lia|].
    eapply wp_mono; [exact Hwp|].
    intros [[a m1] m2] (l' & -> & Hs & ? & ? & ? & ? & ? & ?).
    exists l', pv. split; [done|]. split; [by eapply shuf_trans|]. done.
  Qed.

  Lemma range_all_shuf_sub P f t f' t' l l' :
    shuf f' t' l l' -> (f <= f')%nat -> (t' <= t)%nat -> range_all P f t l -> range_all P f t l'.
  Proof. intros [Hp Hs] ??. by apply range_all_perm_sub with f' t'. Qed.
  Lemma range_all_shuf_out P f t f' t' l l' :
    shuf f' t' l l' -> (t <= f' \/ t' <= f)%nat -> range_all P f t l -> range_all P f t l'.
  Proof. intros [Hp Hs] ?. by apply range_all_outside with f' t'. Qed.

  Lemma sorted_join3 pv first m1 m2 last l :
    (first <= m1)%nat -> (m1 < m2)%nat -> (m2 <= last)%nat ->
    sorted_range lt first m1 l -> sorted_range lt m2 last l ->
    range_all (LTc pv) first m1 l -> range_all (EQc pv) m1 m2 l -> range_all (GTc pv) m2 last l ->
    sorted_range lt first last l.
  Proof.
    intros ??? S1 S2 R1 R2 R3. apply (sorted_range_join lt first m1 m2 last l SW pv); try done; try lia.
    - eapply range_all_mono; [|done]. intros x Hx. by apply (swo_asym lt SW).
    - eapply range_all_mono; [|done]. intros x [Ha Hb]. done.
    - eapply range_all_mono; [|done]. intros x Hx. by apply (swo_asym lt SW).
  Qed.

  Lemma sort_unchecked_wp fuel first last ideal l :
    (first <= last)%nat -> (last <= length l)%nat -> (last - first < fuel)%nat ->
    wp (sort_unchecked lt fuel (full l) first last ideal)
       (fun a' => exists l', a' = full l' /\ shuf first last l l' /\ sorted_range lt first last l').
  Proof.
    revert first last ideal l. induction fuel as [|fuel IH]; intros first last ideal l Hfl Hlen Hf; [lia|].
    cbn [sort_unchecked]. unfold ISORT_MAX.
    destruct (decide (last - first <= 32)%nat) as [Hs|Hs].
    { eapply wp_mono; [by apply insertion_sort_wp|]. intros a (l' & -> & Hst & Hfr & Hso).
      exists l'. split; [done|]. split; [|done]. split; [|done]. by apply (stable_eq_perm lt SW). }
    destruct (decide (ideal <= 0)%nat) as [Hi|Hi].
    { wbind. eapply wp_mono; [by apply make_heap_wp|]. intros a (l1 & -> & Hp1 & Hs1 & Hh).
      pose proof (proj1 Hs1). eapply wp_mono; [apply (sort_heap_wp lt SW first last l1); try done; lia|].
      intros a (l2 & -> & Hp2 & Hs2 & Hso). exists l2. split; [done|]. split; [|done].
      split; [by rewrite Hp2|]. by eapply same_outside_trans. }
    wbind. eapply wp_mono; [apply (partition_by_median_guess_wp first last l); lia|].
    intros [[a m1] m2] (l1 & pv & -> & Hsh & Hb1 & Hb2 & Hb3 & R1 & R2 & R3).
    pose proof (shuf_len _ _ _ _ Hsh) as Hl1. cbv zeta.
    destruct (decide (m1 - first < last - m2)%nat).
    - wbind. eapply wp_mono; [apply (IH first m1); lia|].
      intros a (l2 & -> & Hsh2 & So2). pose proof (shuf_len _ _ _ _ Hsh2) as Hl2.
      eapply wp_mono; [apply (IH m2 last); lia|].
      intros a (l3 & -> & Hsh3 & So3). exists l3. split; [done|]. split.
      + eapply shuf_trans; [done|]. eapply shuf_trans; (eapply shuf_weaken; [done|lia|lia]).
      + apply (sorted_join3 pv first m1 m2 last); try done.
        * eapply sorted_range_outside; [apply Hsh3|lia|done].
        * eapply range_all_shuf_out; [exact Hsh3|lia|]. eapply range_all_shuf_sub; [exact Hsh2|lia|lia|done].
        * eapply range_all_shuf_out; [exact Hsh3|lia|]. eapply range_all_shuf_out; [exact Hsh2|lia|done].
        * eapply range_all_shuf_sub; [exact Hsh3|lia|lia|]. eapply range_all_shuf_out; [exact Hsh2|lia|done].
    - wbind. eapply wp_mono; [apply (IH m2 last); lia|].
      intros a (l2 & -> & Hsh2 & So2). pose proof (shuf_len _ _ _ _ Hsh2) as Hl2.
      eapply wp_mono; [apply (IH first m1); lia|].
      intros a (l3 & -> & Hsh3 & So3). exists l3. split; [done|]. split.
      + eapply shuf_trans; [done|]. eapply shuf_trans; (eapply shuf_weaken; [done|lia|lia]).
      + apply (sorted_join3 pv first m1 m2 last); try done.
        * eapply sorted_range_outside; [apply Hsh3|lia|done].
        * eapply range_all_shuf_sub; [exact Hsh3|lia|lia|]. eapply range_all_shuf_out; [exact Hsh2|lia|done].
        * eapply range_all_shuf_out; [exact Hsh3|lia|]. eapply range_all_shuf_out; [exact Hsh2|lia|done].
        * eapply range_all_shuf_out; [exact Hsh3|lia|]. eapply range_all_shuf_sub; [exact Hsh2|lia|lia|done].
  Qed.

  Lemma sort_wp first last l :
    (first <= last)%nat -> (last <= length l)%nat ->
    wp (sort lt (full l) first last)
       (fun a' => exists l', a' = full l' /\ l' ≡ₚ l /\ same_outside first last l l' /\ sorted_range lt first last l').
  Proof.
    intros Hfl Hlen. unfold sort. eapply wp_mono; [apply sort_unchecked_wp; lia|].
    intros a (l' & -> & [Hp Hs] & Hso). eauto.
  Qed.
End sort.
