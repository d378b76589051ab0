(** Arguments, pushes, and the in-place element algorithms (move, fill, swap, reverse, rotate). *)
From stdpp Require Import base list numbers decidable.
From Coq Require Import ZArith Lia.
From Verif Require Import Base.Res Base.Int Cont.ObjMem Cont.ObjMemProofs Cont.DequeModel Cont.DequeSpec Cont.DequeProofs
  Cont.DequeProofs2 Cont.DequeProofs3.
Local Open Scope nat_scope.

Lemma cont_insert {A} (l : list (option A)) i v j : i < length l ->
  cont (<[i := v]> l) j = if decide (j = i) then v else cont l j.
Proof.
  intros Hi. unfold cont. destruct (decide (j = i)) as [->|].
  - by rewrite list_lookup_insert.
  - by rewrite list_lookup_insert_ne.
Qed.

Section ops.
  Context {A : Type} (T : traits) (B : nat) (maxb : Z).
  Context (HB : exists k, B = 2 ^ k) (Hmax : (8 <= maxb < 2 ^ 63)%Z).
  Notation state := (st A deq).
  Implicit Types (s : state) (l : list (option A)) (d : deq).
  Notation dholds := (dholds B maxb).
  Notation why_throw := (why_throw B maxb).
  Notation own := (own B).
  Notation eaddr := (eaddr B).
  Notation same_objects := (same_objects B).

  (** an argument: an outside value, or a reference to element [k] *)
  Definition darg s l (a : arg A) (v : option A) : Prop :=
    match a with
    | ACopy w | AMove w => w = v
    | ARef q => exists k, k < length l /\ eaddr (loc s) k = Some q /\ cont l k = v
    end.
  Lemma darg_is s l a v : dholds s l -> darg s l a v -> arg_is s a v.
  Proof.
    intros [_ Ho] Ha. destruct a as [w|q|w]; [done| |done]. destruct Ha as (k & Hk & Hq & <-). simpl.
    by apply (ow_elem _ _ _ _ _ _ Ho).
  Qed.
  Lemma mk_arg_ok s l a v : dholds s l -> darg s l a v -> mk_ok B maxb s l (fun p => construct_arg T p a) l v l.
  Proof.
    intros H Ha. split; [done|]. split; [done|]. intros s1 p H1 Hso Hc Hp.
    assert (Ha1 : darg s1 l a v).
    { destruct a as [w|q|w]; [done| |done]. destruct Ha as (k & Hk & Hq & Hv). exists k. split; [done|]. split; [|done].
      etransitivity; [exact (Hso k Hk)|done]. }
    apply (wpx_construct_arg T p a v); [by eapply darg_is|done| |].
    - intros s2 Hs2 Hm2. split; [done|]. exists (mem s1). split; [apply H1|done].
    - intros _ Hnc s2 Hs2 Hm2. split; [done|]. split; [by auto|]. eapply own_ext; [apply H1|done|done|done|done].
  Qed.
  Lemma mk_move_ok s l j src : dholds s l -> j < length l -> eaddr (loc s) j = Some src ->
    mk_ok B maxb s l (fun p => move_construct T p src) (<[j := None]> l) (cont l j) (<[j := None]> l).
  Proof.
    intros H Hj Hsrc. split; [apply insert_length|]. split; [apply insert_length|]. intros s1 p H1 Hso Hc Hp.
    assert (Hsrc1 : eaddr (loc s1) j = Some src) by (etransitivity; [exact (Hso j Hj)|done]).
    assert (Hms : mem s1 src = Obj (cont l j)) by (destruct H1 as [_ Ho]; by apply (ow_elem _ _ _ _ _ _ Ho)).
    apply (wpx_move_construct T p src (cont l j)); [done|done| |].
    - intros s2 Hs2 Hm2. split; [done|]. exists (fun q => if decide (q = src) then Obj None else mem s1 q). split.
      + eapply own_poke; [apply H1|done|done|done].
      + done.
    - intros _ Hnc s2 Hs2 Hm2. split; [done|]. split; [by auto|]. eapply own_poke; [apply H1|done|done|done].
  Qed.

  Definition push_exn s l s' : Prop :=
    why_throw s (length l) /\ dholds s' l /\ same_objects s s' 0 0 (length l).
  Lemma push_back_ok s l a v : dholds s l -> darg s l a v ->
    wpx (push_back T B maxb a) s
      (fun _ s' => dholds s' (l ++ [v]) /\ (calm s -> calm s') /\ same_objects s s' 0 0 (length l)) (push_exn s l).
  Proof.
    intros H Ha. unfold push_back. eapply wpx_mono; [apply (Emplace_back_ok B maxb HB Hmax s l _ l v l); [done|by apply mk_arg_ok]|done|].
    intros s' (H1 & H2 & H3). split; [done|]. split; [tauto|done].
  Qed.
  Lemma push_front_ok s l a v : dholds s l -> darg s l a v ->
    wpx (push_front T B maxb a) s
      (fun _ s' => dholds s' (v :: l) /\ (calm s -> calm s') /\ same_objects s s' 0 1 (length l)) (push_exn s l).
  Proof.
    intros H Ha. unfold push_front. eapply wpx_mono; [apply (Emplace_front_ok B maxb HB Hmax s l _ l v l); [done|by apply mk_arg_ok]|done|].
    intros s' (H1 & H2 & H3). split; [done|]. split; [tauto|done].
  Qed.

  (** ** in place *)
  Lemma dholds_poke s s' l i p v : dholds s l -> i < length l -> eaddr (loc s) i = Some p -> same s s' ->
    (forall q, mem s' q = if decide (q = p) then Obj v else mem s q) -> dholds s' (<[i := v]> l).
  Proof.
    intros [Hs Ho] Hi Hp (Hb & Hl & Hc) Hm. split; rewrite Hl; [by rewrite insert_length|]. rewrite Hb.
    by eapply own_poke.
  Qed.
  Lemma eaddr_ne s l i j p q : dholds s l -> i < length l -> j < length l -> i <> j ->
    eaddr (loc s) i = Some p -> eaddr (loc s) j = Some q -> p <> q.
  Proof. intros [_ Ho] Hi Hj Hne Hp Hq ->. apply Hne. apply (ow_inj _ _ _ _ _ _ Ho); congruence. Qed.
  Definition broken s l s' : Prop := same s s' /\ ~ calm s /\ exists l', length l' = length l /\ dholds s' l'.
  Lemma broken_same s s1 l l1 s' : same s s1 -> length l1 = length l -> broken s1 l1 s' -> broken s l s'.
  Proof.
    intros Hs Hl (H1 & H2 & l' & H3 & H4). split; [by eapply same_trans|]. split; [intros ?; apply H2; by apply Hs|].
    exists l'. split; [congruence|done].
  Qed.

  Lemma it_move_assign_ok s l i j : dholds s l -> i < length l -> j < length l -> i <> j ->
    wpx (it_move_assign T B (doff (loc s) + i) (doff (loc s) + j)) s
      (fun _ s' => same s s' /\ dholds s' (<[j := None]> (<[i := cont l j]> l)))
      (fun s' => mathrow T = true /\ broken s l s').
  Proof.
    intros H Hi Hj Hne. unfold it_move_assign.
    apply wpx_bind, (wpx_elem B maxb s l); [done|done|]. intros p Hp Hmp.
    apply wpx_bind, (wpx_elem B maxb s l); [done|done|]. intros q Hq Hmq.
    pose proof (eaddr_ne s l i j p q H Hi Hj Hne Hp Hq) as Hpq.
    eapply (wpx_move_assign T); [exact Hmq|exact Hmp|done| |].
    - intros s' Hs' Hm'. split; [done|].
      set (m1 := fun r => if decide (r = p) then Obj (cont l j) else mem s r).
      apply (dholds_poke (set_mem s m1) s' _ j q None).
      + apply (dholds_poke s _ l i p); [done|done|done|done|]. intros r. done.
      + by rewrite insert_length.
      + done.
      + done.
      + intros r. rewrite Hm'. unfold m1. simpl. decs; done.
    - intros Ht Hc s' Hs' Hm'. split; [done|]. split; [done|]. split; [done|].
      exists (<[j := None]> (<[i := None]> l)). split; [by rewrite !insert_length|].
      set (m1 := fun r => if decide (r = p) then Obj None else mem s r).
      apply (dholds_poke (set_mem s m1) s' _ j q None).
      + apply (dholds_poke s _ l i p); [done|done|done|done|]. intros r. done.
      + by rewrite insert_length.
      + done.
      + done.
      + intros r. rewrite Hm'. unfold m1. simpl. decs; done.
  Qed.

  Lemma Move_it_ok s l f e dst : dholds s l -> dst < f -> f <= e <= length l ->
    wpx (Move_it T B (doff (loc s) + f) (doff (loc s) + e) (doff (loc s) + dst)) s
      (fun _ s' => same s s' /\ exists l', dholds s' l' /\ length l' = length l /\
         (forall i, dst <= i < dst + (e - f) -> cont l' i = cont l (i - dst + f)) /\
         (forall i, i < dst \/ e <= i -> cont l' i = cont l i))
      (fun s' => (mathrow T = true /\ f < e) /\ broken s l s').
  Proof.
    intros H Hd Hf. unfold Move_it. replace (doff (loc s) + e - (doff (loc s) + f)) with (e - f) by lia.
    apply (wpx_for (fun k s' => same s s' /\ exists l', dholds s' l' /\ length l' = length l /\
         (forall i, dst <= i < dst + k -> cont l' i = cont l (i - dst + f)) /\
         (forall i, i < dst \/ f + k <= i -> cont l' i = cont l i))).
    - split; [done|]. exists l. split; [done|]. split; [done|]. split; [intros; lia|done].
    - intros k s1 Hk (Hs1 & l1 & H1 & Hl1 & Hc1 & Hc2). destruct Hs1 as (Hb1 & Hlo1 & Hca1).
      replace (doff (loc s) + dst + k) with (doff (loc s1) + (dst + k)) by (rewrite Hlo1; lia).
      replace (doff (loc s) + f + k) with (doff (loc s1) + (f + k)) by (rewrite Hlo1; lia).
      eapply wpx_mono; [apply (it_move_assign_ok s1 l1); [done|lia|lia|lia]| |].
      + intros [] s2 (Hs2 & H2). split; [eapply same_trans; [done|exact Hs2]|].
        eexists. split; [exact H2|]. rewrite !insert_length. split; [done|]. split.
        * intros i Hi. rewrite cont_insert by (rewrite insert_length; lia). rewrite decide_False by lia.
          rewrite cont_insert by lia. destruct (decide (i = dst + k)) as [->|].
          -- rewrite Hc2 by lia. f_equal. lia.
          -- apply Hc1. lia.
        * intros i Hi. rewrite cont_insert by (rewrite insert_length; lia). rewrite decide_False by lia.
          rewrite cont_insert by lia. rewrite decide_False by lia. apply Hc2. lia.
      + intros s2 (Ht & Hbr). split; [split; [done|lia]|]. eapply broken_same; [|exact Hl1|exact Hbr]. done.
    - intros s1 (Hs1 & l1 & H1 & Hl1 & Hc1 & Hc2). split; [done|]. exists l1. split_and!; try done.
      intros i Hi. apply Hc2. lia.
  Qed.
  Lemma Move_backward_it_ok s l f e dst : dholds s l -> e < dst -> f <= e -> dst <= length l ->
    wpx (Move_backward_it T B (doff (loc s) + f) (doff (loc s) + e) (doff (loc s) + dst)) s
      (fun _ s' => same s s' /\ exists l', dholds s' l' /\ length l' = length l /\
         (forall i, dst - (e - f) <= i < dst -> cont l' i = cont l (i - (dst - e))) /\
         (forall i, i < f \/ dst <= i -> cont l' i = cont l i))
      (fun s' => (mathrow T = true /\ f < e) /\ broken s l s').
  Proof.
    intros H Hd Hf Hn. unfold Move_backward_it. replace (doff (loc s) + e - (doff (loc s) + f)) with (e - f) by lia.
    apply (wpx_for (fun k s' => same s s' /\ exists l', dholds s' l' /\ length l' = length l /\
         (forall i, dst - k <= i < dst -> cont l' i = cont l (i - (dst - e))) /\
         (forall i, i < e - k \/ dst <= i -> cont l' i = cont l i))).
    - split; [done|]. exists l. split; [done|]. split; [done|]. split; [intros; lia|done].
    - intros k s1 Hk (Hs1 & l1 & H1 & Hl1 & Hc1 & Hc2). destruct Hs1 as (Hb1 & Hlo1 & Hca1).
      replace (doff (loc s) + dst - 1 - k) with (doff (loc s1) + (dst - 1 - k)) by (rewrite Hlo1; lia).
      replace (doff (loc s) + e - 1 - k) with (doff (loc s1) + (e - 1 - k)) by (rewrite Hlo1; lia).
      eapply wpx_mono; [apply (it_move_assign_ok s1 l1); [done|lia|lia|lia]| |].
      + intros [] s2 (Hs2 & H2). split; [eapply same_trans; [done|exact Hs2]|].
        eexists. split; [exact H2|]. rewrite !insert_length. split; [done|]. split.
        * intros i Hi. rewrite cont_insert by (rewrite insert_length; lia). rewrite decide_False by lia.
          rewrite cont_insert by lia. destruct (decide (i = dst - 1 - k)) as [->|].
          -- rewrite Hc2 by lia. f_equal. lia.
          -- apply Hc1. lia.
        * intros i Hi. rewrite cont_insert by (rewrite insert_length; lia). rewrite decide_False by lia.
          rewrite cont_insert by lia. rewrite decide_False by lia. apply Hc2. lia.
      + intros s2 (Ht & Hbr). split; [split; [done|lia]|]. eapply broken_same; [|exact Hl1|exact Hbr]. done.
    - intros s1 (Hs1 & l1 & H1 & Hl1 & Hc1 & Hc2). split; [done|]. exists l1. split_and!; try done.
      intros i Hi. apply Hc2. lia.
  Qed.

  Lemma it_assign_ok s l i a v : dholds s l -> i < length l -> darg s l a v ->
    wpx (it_assign T B (doff (loc s) + i) a) s
      (fun _ s' => same s s' /\ dholds s' (<[i := v]> l)) (fun s' => broken s l s').
  Proof.
    intros H Hi Ha. unfold it_assign. apply wpx_bind, (wpx_elem B maxb s l); [done|done|]. intros p Hp Hmp.
    assert (Hcopy : wpx (copy_assign p v) s (fun _ s' => same s s' /\ dholds s' (<[i := v]> l)) (fun s' => broken s l s')).
    { eapply (wpx_copy_assign); [exact Hmp| |].
      - intros s' Hs' Hm'. split; [done|]. by eapply dholds_poke.
      - intros Hc s' Hs' Hm'. split; [done|]. split; [done|]. exists (<[i := None]> l). rewrite insert_length. split; [done|].
        by eapply dholds_poke. }
    destruct a as [w|q|w].
    - simpl in Ha. by subst w.
    - apply wpx_bind. eapply wpx_peek; [|exact Hcopy]. by apply (darg_is s l (ARef q) v).
    - simpl in Ha. subst w. apply wpx_bind, wpx_on_throw.
      assert (Hgo : forall s1, same s s1 -> (forall q, mem s1 q = mem s q) ->
        wpx (poke p v) s1 (fun _ s' => same s s' /\ dholds s' (<[i := v]> l)) (fun s' => broken s l s')).
      { intros s1 Hs1 Hm1. eapply wpx_poke; [rewrite Hm1; exact Hmp|]. intros s2 Hs2 Hm2.
        assert (same s s2) by (by eapply same_trans). split; [done|]. eapply dholds_poke; [exact H|done|exact Hp|done|].
        intros q. by rewrite Hm2, Hm1. }
      unfold mwhen. destruct (mathrow T); [|by apply wpx_ret, Hgo].
      apply wpx_tick; [done|]. intros s1 Hs1 Hm1 Hc. eapply wpx_poke; [rewrite Hm1; exact Hmp|]. intros s2 Hs2 Hm2.
      split; [by eapply same_trans|]. split; [done|]. exists (<[i := None]> l). rewrite insert_length. split; [done|].
      eapply dholds_poke; [exact H|done|exact Hp|by eapply same_trans|]. intros q. by rewrite Hm2, Hm1.
  Qed.
  (** moving a local object into an element throws only if move assignment may *)
  Lemma it_assign_move_ok s l i v : dholds s l -> i < length l ->
    wpx (it_assign T B (doff (loc s) + i) (AMove v)) s
      (fun _ s' => same s s' /\ dholds s' (<[i := v]> l)) (fun s' => mathrow T = true /\ broken s l s').
  Proof.
    intros H Hi. destruct (mathrow T) eqn:Et.
    - eapply wpx_mono; [apply (it_assign_ok s l i (AMove v) v); done|done|]. done.
    - unfold it_assign. apply wpx_bind, (wpx_elem B maxb s l); [done|done|]. intros p Hp Hmp.
      apply wpx_bind, wpx_on_throw. rewrite Et. apply wpx_ret.
      eapply wpx_poke; [exact Hmp|]. intros s' Hs' Hm'. split; [done|]. by eapply dholds_poke.
  Qed.
  Lemma fill_n_it_ok s l i n a v : dholds s l -> i + n <= length l -> darg s l a v ->
    wpx (fill_n_it T B (doff (loc s) + i) n a) s
      (fun _ s' => same s s' /\ exists l', dholds s' l' /\ length l' = length l /\
         (forall j, i <= j < i + n -> cont l' j = v) /\ (forall j, j < i \/ i + n <= j -> cont l' j = cont l j))
      (fun s' => 0 < n /\ broken s l s').
  Proof.
    intros H Hin Ha. unfold fill_n_it.
    apply (wpx_for (fun k s' => same s s' /\ exists l', dholds s' l' /\ length l' = length l /\ darg s' l' a v /\
         (forall j, i <= j < i + k -> cont l' j = v) /\ (forall j, j < i \/ i + k <= j -> cont l' j = cont l j))).
    - split; [done|]. exists l. split; [done|]. split; [done|]. split; [done|]. split; [intros; lia|done].
    - intros k s1 Hk (Hs1 & l1 & H1 & Hl1 & Ha1 & Hc1 & Hc2). destruct Hs1 as (Hb1 & Hlo1 & Hca1).
      replace (doff (loc s) + i + k) with (doff (loc s1) + (i + k)) by (rewrite Hlo1; lia).
      eapply wpx_mono; [apply (it_assign_ok s1 l1 (i + k) a v); [done|lia|done]| |].
      + intros [] s2 (Hs2 & H2). split; [eapply same_trans; [done|exact Hs2]|].
        eexists. split; [exact H2|]. rewrite !insert_length. split; [done|]. split; [|split].
        * destruct a as [w|q|w]; [done| |done]. destruct Ha1 as (j & Hj & Hq & Hv). exists j. rewrite insert_length.
          split; [done|]. split; [by rewrite (proj1 (proj2 Hs2))|]. rewrite cont_insert by lia. by destruct (decide _).
        * intros j Hj. rewrite cont_insert by lia. destruct (decide (j = i + k)) as [->|]; [done|]. apply Hc1. lia.
        * intros j Hj. rewrite cont_insert by lia. rewrite decide_False by lia. apply Hc2. lia.
      + intros s2 Hbr. split; [lia|]. eapply broken_same; [|exact Hl1|exact Hbr]. done.
    - intros s1 (Hs1 & l1 & H1 & Hl1 & Ha1 & Hc1 & Hc2). split; [done|]. exists l1. done.
  Qed.

  Definition nothrow_swap : Prop := mthrow T = false /\ mathrow T = false.
  Definition swap_exn s l s' : Prop := ~ nothrow_swap /\ broken s l s'.
  Lemma it_swap_ok s l i j : dholds s l -> i < length l -> j < length l -> i <> j ->
    wpx (it_swap T B (doff (loc s) + i) (doff (loc s) + j)) s
      (fun _ s' => same s s' /\ exists l', dholds s' l' /\ length l' = length l /\
        forall k, cont l' k = if decide (k = i) then cont l j else if decide (k = j) then cont l i else cont l k)
      (swap_exn s l).
  Proof.
    intros H Hi Hj Hne. unfold it_swap.
    apply wpx_bind, (wpx_elem B maxb s l); [done|done|]. intros p Hp Hmp.
    apply wpx_bind, (wpx_elem B maxb s l); [done|done|]. intros q Hq Hmq.
    pose proof (eaddr_ne s l i j p q H Hi Hj Hne Hp Hq) as Hpq.
    apply wpx_bind. eapply wpx_peek; [exact Hmp|].
    apply wpx_bind, wpx_on_throw.
    assert (Hgo : forall s1, same s s1 -> (forall q, mem s1 q = mem s q) ->
      wpx (poke p None ;;; move_assign T p q ;;; on_throw (mwhen (mathrow T) tick) (poke q None) ;;; poke q (cont l i)) s1
        (fun _ s' => same s s' /\ exists l', dholds s' l' /\ length l' = length l /\
          forall k, cont l' k = if decide (k = i) then cont l j else if decide (k = j) then cont l i else cont l k)
        (swap_exn s l)).
    { intros s1 Hs1 Hm1. apply wpx_bind. eapply wpx_poke; [rewrite Hm1; exact Hmp|]. intros s2 Hs2 Hm2.
      assert (H2 : dholds s2 (<[i := None]> l)).
      { eapply (dholds_poke s s2); [done|done|exact Hp|by eapply same_trans|]. intros r. by rewrite Hm2, Hm1. }
      assert (Hs02 : same s s2) by (by eapply same_trans).
      apply wpx_bind. eapply (wpx_move_assign T); [rewrite Hm2, Hm1, decide_False by congruence; exact Hmq|rewrite Hm2, decide_True by done; done|done| |].
      - intros s3 Hs3 Hm3. assert (Hs03 : same s s3) by (by eapply same_trans).
        set (m1 := fun r => if decide (r = p) then Obj (cont l j) else mem s2 r).
        assert (H3 : dholds s3 (<[j := None]> (<[i := cont l j]> (<[i := None]> l)))).
        { apply (dholds_poke (set_mem s2 m1) s3 _ j q None).
          - apply (dholds_poke s2 _ _ i p); [done|by rewrite insert_length|by rewrite (proj1 (proj2 Hs02))|done|]. intros r. done.
          - by rewrite !insert_length.
          - simpl. by rewrite (proj1 (proj2 Hs02)).
          - done.
          - intros r. rewrite Hm3. unfold m1. simpl. decs; done. }
        assert (Hfin : forall s4, same s3 s4 -> (forall q, mem s4 q = mem s3 q) ->
          wpx (poke q (cont l i)) s4
          (fun _ s' => same s s' /\ exists l', dholds s' l' /\ length l' = length l /\
            forall k, cont l' k = if decide (k = i) then cont l j else if decide (k = j) then cont l i else cont l k)
          (swap_exn s l)).
        { intros s4 Hs4 Hm4. eapply wpx_poke; [rewrite Hm4, Hm3, decide_False, decide_True by congruence; done|].
          intros s5 Hs5 Hm5. assert (Hs05 : same s s5) by (eapply same_trans; [exact Hs03|by eapply same_trans]).
          split; [done|]. eexists. split.
          - eapply (dholds_poke s3 s5 _ j q (cont l i)); [exact H3|by rewrite !insert_length|by rewrite (proj1 (proj2 Hs03))|by eapply same_trans|].
            intros r. by rewrite Hm5, Hm4.
          - rewrite !insert_length. split; [done|]. intros k.
            rewrite !cont_insert by (rewrite ?insert_length; done). decs; done. }
        apply wpx_bind, wpx_on_throw. unfold mwhen. destruct (mathrow T) eqn:Ema.
        + apply wpx_tick; [done|]. intros s4 Hs4 Hm4 Hc.
          eapply wpx_poke; [rewrite Hm4, Hm3, decide_False, decide_True by congruence; done|].
          intros s5 Hs5 Hm5. split; [intros [_ ?]; congruence|]. split; [eapply same_trans; [exact Hs03|by eapply same_trans]|].
          split; [intros ?; apply Hc; by apply Hs03|]. eexists. split; [|eapply (dholds_poke s3 s5 _ j q None); [exact H3|by rewrite !insert_length|by rewrite (proj1 (proj2 Hs03))|by eapply same_trans|]].
          * by rewrite !insert_length.
          * intros r. by rewrite Hm5, Hm4.
        + apply wpx_ret. by apply Hfin.
      - intros Ht Hc s3 Hs3 Hm3. split; [intros [_ ?]; congruence|]. split; [by eapply same_trans|].
        split; [intros ?; apply Hc; by apply Hs02|].
        exists (<[j := None]> (<[i := None]> (<[i := None]> l))). split; [by rewrite !insert_length|].
        set (m1 := fun r => if decide (r = p) then Obj None else mem s2 r).
        apply (dholds_poke (set_mem s2 m1) s3 _ j q None).
        + apply (dholds_poke s2 _ _ i p); [done|by rewrite insert_length|by rewrite (proj1 (proj2 Hs02))|done|]. intros r. done.
        + by rewrite !insert_length.
        + simpl. by rewrite (proj1 (proj2 Hs02)).
        + done.
        + intros r. rewrite Hm3. unfold m1. simpl. decs; done. }
    unfold mwhen. destruct (mthrow T) eqn:Et; [|by apply wpx_ret, Hgo].
    apply wpx_tick; [done|]. intros s1 Hs1 Hm1 Hc. eapply wpx_poke; [rewrite Hm1; exact Hmp|]. intros s2 Hs2 Hm2.
    split; [intros [? _]; congruence|]. split; [by eapply same_trans|]. split; [done|]. exists (<[i := None]> l). rewrite insert_length. split; [done|].
    eapply dholds_poke; [exact H|done|exact Hp|by eapply same_trans|]. intros r. by rewrite Hm2, Hm1.
  Qed.

  Lemma reverse_it_ok fuel s l i j : dholds s l -> i <= j <= length l -> j - i < fuel ->
    wpx (reverse_it T B fuel (doff (loc s) + i) (doff (loc s) + j)) s
      (fun _ s' => same s s' /\ exists l', dholds s' l' /\ length l' = length l /\
        forall k, cont l' k = if decide (i <= k < j) then cont l (i + j - 1 - k) else cont l k)
      (swap_exn s l).
  Proof.
    revert s l i j. induction fuel as [|fuel IH]; intros s l i j H Hij Hf; [lia|]. cbn [reverse_it].
    destruct (Nat.eqb_spec (doff (loc s) + i) (doff (loc s) + j)) as [E|Hne].
    { apply wpx_ret. split; [done|]. exists l. split; [done|]. split; [done|]. intros k. by rewrite decide_False by lia. }
    cbv zeta. destruct (Nat.eqb_spec (doff (loc s) + i) (doff (loc s) + j - 1)) as [E|Hne'].
    { apply wpx_ret. split; [done|]. exists l. split; [done|]. split; [done|]. intros k.
      destruct (decide (i <= k < j)); [|done]. f_equal. lia. }
    replace (doff (loc s) + j - 1) with (doff (loc s) + (j - 1)) by lia.
    apply wpx_bind. eapply wpx_mono; [apply (it_swap_ok s l i (j - 1)); [done|lia|lia|lia]| |done].
    intros [] s1 (Hs1 & l1 & H1 & Hl1 & Hc1). destruct Hs1 as (Hb1 & Hlo1 & Hca1).
    replace (doff (loc s) + i + 1) with (doff (loc s1) + (i + 1)) by (rewrite Hlo1; lia). rewrite <-Hlo1.
    eapply wpx_mono; [apply (IH s1 l1 (i + 1) (j - 1)); [done|lia|lia]| |].
    - intros [] s2 (Hs2 & l2 & H2 & Hl2 & Hc2). split; [by eapply same_trans|]. exists l2. split; [done|]. split; [congruence|].
      intros k. rewrite Hc2. destruct (decide (i + 1 <= k < j - 1)).
      + rewrite Hc1. rewrite !decide_False by lia. rewrite decide_True by lia. f_equal. lia.
      + rewrite Hc1. destruct (decide (k = i)) as [->|]; [rewrite decide_True by lia; f_equal; lia|].
        destruct (decide (k = j - 1)) as [->|]; [rewrite decide_True by lia; f_equal; lia|].
        by rewrite decide_False by lia.
    - intros s2 [Hn Hbr]. split; [done|]. eapply broken_same; [|exact Hl1|exact Hbr]. done.
  Qed.
  Lemma rotate_it_ok s l f m e : dholds s l -> f <= m <= e -> e <= length l ->
    wpx (rotate_it T B (doff (loc s) + f) (doff (loc s) + m) (doff (loc s) + e)) s
      (fun _ s' => same s s' /\ exists l', dholds s' l' /\ length l' = length l /\
        forall k, cont l' k = if decide (f <= k < f + (e - m)) then cont l (k + (m - f))
                              else if decide (f + (e - m) <= k < e) then cont l (k - (e - m)) else cont l k)
      (fun s' => f < m < e /\ swap_exn s l s').
  Proof.
    intros H Hf He. unfold rotate_it.
    destruct (Nat.eqb_spec (doff (loc s) + f) (doff (loc s) + m)) as [E|Hne].
    { apply wpx_ret. split; [done|]. exists l. split; [done|]. split; [done|]. intros k.
      destruct (decide (f <= k < f + (e - m))); [f_equal; lia|]. by rewrite decide_False by lia. }
    destruct (Nat.eqb_spec (doff (loc s) + m) (doff (loc s) + e)) as [E|Hne'].
    { apply wpx_ret. split; [done|]. exists l. split; [done|]. split; [done|]. intros k.
      rewrite decide_False by lia. destruct (decide (f + (e - m) <= k < e)); [f_equal; lia|]. done. }
    apply wpx_bind. eapply wpx_mono; [apply (reverse_it_ok _ s l f m); [done|lia|lia]| |intros s'; split; [lia|done]].
    intros [] s1 (Hs1 & l1 & H1 & Hl1 & Hc1). pose proof Hs1 as (Hb1 & Hlo1 & Hca1). rewrite <-Hlo1.
    apply wpx_bind. eapply wpx_mono; [apply (reverse_it_ok _ s1 l1 m e); [done|lia|lia]| |].
    2:{ intros s2 [Hn Hbr]. split; [lia|]. split; [done|]. eapply broken_same; [|exact Hl1|exact Hbr]. done. }
    intros [] s2 (Hs2 & l2 & H2 & Hl2 & Hc2). pose proof Hs2 as (Hb2 & Hlo2 & Hca2). rewrite <-Hlo2.
    assert (Hs02 : same s s2) by (by eapply same_trans).
    eapply wpx_mono; [apply (reverse_it_ok _ s2 l2 f e); [done|lia|lia]| |].
    2:{ intros s3 [Hn Hbr]. split; [lia|]. split; [done|]. eapply broken_same; [exact Hs02| |exact Hbr]. congruence. }
    intros [] s3 (Hs3 & l3 & H3 & Hl3 & Hc3). split; [by eapply same_trans|]. exists l3. split; [done|]. split; [congruence|].
    intros k. rewrite Hc3. destruct (decide (f <= k < e)).
    - rewrite Hc2. destruct (decide (f <= k < f + (e - m))).
      + rewrite decide_True by lia. rewrite Hc1. rewrite decide_False by lia. f_equal. lia.
      + rewrite decide_False by lia. rewrite decide_True by lia. rewrite Hc1. rewrite decide_True by lia. f_equal. lia.
    - rewrite Hc2. rewrite decide_False by lia. rewrite Hc1. rewrite decide_False by lia.
      rewrite decide_False by lia. by rewrite decide_False by lia.
  Qed.
End ops.
