(** The middle of a deque: emplace, insert, erase, assign; range operations; construction. *)
From stdpp Require Import base list list_numbers numbers decidable.
From Coq Require Import ZArith Lia.
From Verif Require Import Base.Res Base.Int Cont.ObjMem Cont.ObjMemProofs Cont.DequeModel Cont.DequeSpec Cont.DequeProofs
  Cont.DequeProofs2 Cont.DequeProofs3 Cont.DequeProofs4 Cont.DequeProofs5.
Local Open Scope nat_scope.

Section lists.
  Context {A : Type}.
  Implicit Types (l : list (option A)).
  Lemma splice_eq l k vs l' : k <= length l -> length l' = length l + length vs ->
    (forall i, i < k -> cont l' i = cont l i) -> (forall i, k <= i < k + length vs -> cont l' i = cont vs (i - k)) ->
    (forall i, k + length vs <= i < length l' -> cont l' i = cont l (i - length vs)) -> l' = take k l ++ vs ++ drop k l.
  Proof.
    intros Hk Hl H1 H2 H3. apply cont_eq.
    - rewrite !app_length, take_length, drop_length. lia.
    - intros i Hi. rewrite !cont_app, take_length_le by lia. destruct (decide (i < k)).
      + rewrite cont_take by done. by apply H1.
      + destruct (decide (i - k < length vs)); [apply H2; lia|]. rewrite cont_drop, H3 by lia. f_equal. lia.
  Qed.
  Lemma unsplice_eq l i j l' : i <= j <= length l -> length l' = length l - (j - i) ->
    (forall k, k < i -> cont l' k = cont l k) -> (forall k, i <= k < length l' -> cont l' k = cont l (k + (j - i))) ->
    l' = take i l ++ drop j l.
  Proof.
    intros Hk Hl H1 H2. apply cont_eq.
    - rewrite !app_length, take_length, drop_length. lia.
    - intros k Hk'. rewrite !cont_app, take_length_le by lia. destruct (decide (k < i)).
      + rewrite cont_take by done. by apply H1.
      + rewrite cont_drop, H2 by lia. f_equal. lia.
  Qed.
  Lemma cont_cons_S v l i : 0 < i -> cont (v :: l) i = cont l (i - 1).
  Proof. intros Hi. destruct i as [|i]; [lia|]. rewrite Nat.sub_succ, Nat.sub_0_r. done. Qed.
End lists.
Section lists2.
  Context {A : Type}.
  Implicit Types (l : list (option A)).
  Lemma cont_rev l i : i < length l -> cont (rev l) i = cont l (length l - 1 - i).
  Proof.
    revert i. induction l as [|x l IH] using rev_ind; intros i Hi; [simpl in Hi; lia|].
    rewrite rev_app_distr. simpl. rewrite app_length in *. simpl in Hi. simpl length. destruct i as [|i].
    - rewrite cont_cons_0, cont_app, decide_False by lia. replace (_ - _) with 0 by lia. done.
    - rewrite cont_cons_S by lia. rewrite IH by lia. rewrite cont_app, decide_True by lia. f_equal. lia.
  Qed.
End lists2.

Section mid.
  Context {A : Type} (T : traits) (B : nat) (maxb : Z).
  Context (HB : exists k, B = 2 ^ k) (Hmax : (8 <= maxb < 2 ^ 63)%Z).
  Notation state := (st A deq).
  Implicit Types (s : state) (l : list (option A)) (d : deq).
  Notation shape := (shape B maxb).
  Notation dholds := (dholds B maxb).
  Notation why_throw := (why_throw B maxb).
  Notation own := (own B).
  Notation eaddr := (eaddr B).
  Notation same_objects := (same_objects B).
  Notation darg := (darg B).
  Notation broken := (broken B maxb).

  Lemma dholds_same' s s' l : dholds s l -> same s s' -> (forall q, mem s' q = mem s q) -> dholds s' l.
  Proof. intros H (Hb & Hl & _) Hm. eapply dholds_same; [exact H|done|lia|done]. Qed.
  Lemma so_same s s' n : same s s' -> same_objects s s' 0 0 n.
  Proof. intros (_ & Hl & _) k Hk. by rewrite Hl. Qed.
  Lemma why_calm s s' n : (calm s -> calm s') -> ~ calm s' -> why_throw s n.
  Proof. intros H Hn. left. auto. Qed.
  Lemma wpx_size s l (Q : nat -> state -> Prop) (E : state -> Prop) : dholds s l -> Q (length l) s -> wpx msize s Q E.
  Proof. intros H HQ. unfold msize. apply wpx_bind, wpx_loc, wpx_ret. by rewrite (dholds_len _ _ _ _ H). Qed.
  Lemma wpx_off s (Q : nat -> state -> Prop) (E : state -> Prop) : Q (doff (loc s)) s -> wpx moff s Q E.
  Proof. intros HQ. unfold moff. by apply wpx_bind, wpx_loc, wpx_ret. Qed.

  Lemma mk_move_nothrow s l j src : mthrow T = false -> dholds s l -> j < length l -> eaddr (loc s) j = Some src ->
    mk_ok B maxb s l (fun p => move_construct T p src) (<[j := None]> l) (cont l j) l.
  Proof.
    intros Hmt H Hj Hsrc. split; [apply insert_length|]. split; [done|]. intros s1 p H1 Hso Hc Hp.
    assert (Hsrc1 : eaddr (loc s1) j = Some src) by (etransitivity; [exact (Hso j Hj)|done]).
    assert (Hms : mem s1 src = Obj (cont l j)) by (destruct H1 as [_ Ho]; by apply (ow_elem _ _ _ _ _ _ Ho)).
    apply (wpx_move_construct T p src (cont l j)); [done|done| |congruence].
    intros s2 Hs2 Hm2. split; [done|]. exists (fun q => if decide (q = src) then Obj None else mem s1 q). split; [|done].
    eapply own_poke; [apply H1|done|done|done].
  Qed.

  (** ** emplace *)
  Definition emp_exn s l k s' : Prop :=
    why_throw s (length l) /\ (exists l', dholds s' l') /\ (k = 0 \/ k = length l -> dholds s' l /\ same_objects s s' 0 0 (length l)) /\
    (mthrow T = false -> mathrow T = false -> dholds s' l).
  Lemma emplace_ok s l k a v : dholds s l -> k <= length l -> darg s l a v ->
    wpx (emplace T B maxb k a) s
      (fun _ s' => dholds s' (take k l ++ [v] ++ drop k l) /\ (calm s -> calm s') /\
         (k = 0 -> same_objects s s' 0 1 (length l)) /\ (k = length l -> same_objects s s' 0 0 (length l)))
      (emp_exn s l k).
  Proof.
    intros H Hk Ha. unfold emplace. apply wpx_bind, (wpx_size s l); [done|].
    assert (Hpx : forall s', push_exn B maxb s l s' -> emp_exn s l k s').
    { intros s' (Hw & Hd & Hso). split; [done|]. split; [by exists l|]. split; [done|]. done. }
    destruct (k =? 0) eqn:E0; [apply Nat.eqb_eq in E0; subst k|apply Nat.eqb_neq in E0].
    { eapply wpx_mono; [by apply (push_front_ok T B maxb HB Hmax s l a v)| |done]. intros [] s' (H' & Hc & Hso).
      split; [done|]. split; [done|]. split; [done|]. intros E1 i Hi. simpl in Hi. lia. }
    destruct (k =? length l) eqn:E1; [apply Nat.eqb_eq in E1; subst k|apply Nat.eqb_neq in E1].
    { eapply wpx_mono; [by apply (push_back_ok T B maxb HB Hmax s l a v)| |done]. intros [] s' (H' & Hc & Hso).
      rewrite firstn_all, drop_all. split; [done|]. split; [done|]. split; [done|]. done. }
    assert (Hmidx : forall s', why_throw s (length l) -> (exists l', dholds s' l') -> (mthrow T = false -> mathrow T = false -> dholds s' l) -> emp_exn s l k s').
    { intros s' Hw Hd Hs. split; [done|]. split; [done|]. split; [lia|done]. }
    apply wpx_bind, (wpx_temp_arg T a v); [by eapply darg_is| |].
    2:{ intros _ Hc s' Hs Hm. pose proof (dholds_same' _ _ _ H Hs Hm). apply Hmidx; [by left|by exists l|done]. }
    intros s1 Hs1 Hm1. pose proof (dholds_same' _ _ _ H Hs1 Hm1) as H1. clear Ha.
    destruct (k <=? length l / 2).
    - apply wpx_bind, wpx_off. apply wpx_bind. replace (doff (loc s1)) with (doff (loc s1) + 0) by lia.
      apply (wpx_elem B maxb s1 l); [done|lia|]. intros src Hsrc Hmsrc. apply wpx_bind.
      set (lE := if mthrow T then <[0 := None]> l else l).
      assert (Hmk : mk_ok B maxb s1 l (fun p => move_construct T p src) (<[0 := None]> l) (cont l 0) lE).
      { unfold lE. destruct (mthrow T) eqn:Emt; [apply mk_move_ok|apply mk_move_nothrow]; done || lia. }
      eapply wpx_mono; [apply (Emplace_front_ok B maxb HB Hmax s1 l _ _ _ _ H1 Hmk)| |].
      2:{ intros s2 (Hw & Hd & _). apply Hmidx.
          - eapply why_mono; [apply Hs1| |exact Hw]. lia.
          - destruct Hd as [Hd|Hd]; by eexists.
          - intros Emt _. unfold lE in Hd. rewrite Emt in Hd. by destruct Hd. }
      intros [] s2 (H2 & Hc2 & _). apply wpx_bind, wpx_off. cbn zeta.
      set (L := cont l 0 :: <[0 := None]> l) in *. assert (HL : length L = length l + 1) by (unfold L; simpl; rewrite insert_length; lia).
      assert (HL0 : cont L 0 = cont l 0) by done.
      assert (HLs : forall i, 2 <= i -> cont L i = cont l (i - 1)).
      { intros i Hi. unfold L. rewrite cont_cons_S by lia. rewrite cont_insert, decide_False by lia. done. }
      clearbody L. set (o := doff (loc s2)).
      replace (o + 1 + 1) with (o + 2) by lia. replace (o + 1 + k) with (o + (1 + k)) by lia.
      apply wpx_bind. eapply wpx_mono; [apply (Move_it_ok T B maxb s2 L 2 (1 + k) 1 H2); lia| |].
      2:{ intros s3 ((Hma & _) & Hs3 & Hc3 & l' & _ & Hd). apply Hmidx; [|by eexists|congruence].
          left. intros ?. apply Hc3, Hc2, Hs1. done. }
      intros [] s3 (Hs3 & l3 & H3 & Hl3 & Ha3 & Hb3).
      replace (o + 1 + (o + (1 + k) - (o + 2))) with (doff (loc s3) + k) by (rewrite (proj1 (proj2 Hs3)); lia).
      eapply wpx_mono; [apply (it_assign_move_ok T B maxb s3 l3 k v H3); lia| |].
      2:{ intros s4 (Hma & Hs4 & Hc4 & l' & _ & Hd). apply Hmidx; [|by eexists|congruence].
          left. intros ?. apply Hc4, Hs3, Hc2, Hs1. done. }
      intros [] s4 (Hs4 & H4). split; [|split; [intros ?; apply Hs4, Hs3, Hc2, Hs1; done|lia]].
      rewrite <-(splice_eq l k [v] (<[k:=v]> l3)); [done|lia|rewrite insert_length; simpl; lia|..].
      + intros i Hi. rewrite cont_insert, decide_False by lia. destruct (decide (i = 0)) as [->|].
        * rewrite Hb3 by lia. done.
        * rewrite Ha3, HLs by lia. f_equal. lia.
      + simpl. intros i Hi. rewrite cont_insert, decide_True by lia. replace (i - k) with 0 by lia. done.
      + simpl. rewrite insert_length. intros i Hi. rewrite cont_insert, decide_False by lia. rewrite Hb3, HLs by lia. done.
    - apply wpx_bind, wpx_off. apply wpx_bind. replace (doff (loc s1) + length l - 1) with (doff (loc s1) + (length l - 1)) by lia.
      apply (wpx_elem B maxb s1 l); [done|lia|]. intros src Hsrc Hmsrc. apply wpx_bind.
      set (lE := if mthrow T then <[length l - 1 := None]> l else l).
      assert (Hmk : mk_ok B maxb s1 l (fun p => move_construct T p src) (<[length l - 1 := None]> l) (cont l (length l - 1)) lE).
      { unfold lE. destruct (mthrow T) eqn:Emt; [apply mk_move_ok|apply mk_move_nothrow]; done || lia. }
      eapply wpx_mono; [apply (Emplace_back_ok B maxb HB Hmax s1 l _ _ _ _ H1 Hmk)| |].
      2:{ intros s2 (Hw & Hd & _). apply Hmidx.
          - eapply why_mono; [apply Hs1| |exact Hw]. lia.
          - destruct Hd as [Hd|Hd]; by eexists.
          - intros Emt _. unfold lE in Hd. rewrite Emt in Hd. by destruct Hd. }
      intros [] s2 (H2 & Hc2 & _). apply wpx_bind, wpx_off. apply wpx_bind, (wpx_size _ _ _ _ H2). cbn zeta.
      set (L := <[length l - 1 := None]> l ++ [cont l (length l - 1)]) in *.
      assert (HL : length L = length l + 1) by (unfold L; rewrite app_length, insert_length; done).
      assert (HL0 : cont L (length l) = cont l (length l - 1)).
      { unfold L. rewrite cont_app, insert_length, decide_False, Nat.sub_diag by lia. done. }
      assert (HLs : forall i, i < length l - 1 -> cont L i = cont l i).
      { intros i Hi. unfold L. rewrite cont_app, insert_length, decide_True by lia. rewrite cont_insert, decide_False by lia. done. }
      rewrite HL. clearbody L. set (o := doff (loc s2)).
      replace (o + (length l + 1) - 1 - 1) with (o + (length l - 1)) by lia.
      replace (o + (length l + 1) - 1) with (o + length l) by lia.
      apply wpx_bind. eapply wpx_mono; [apply (Move_backward_it_ok T B maxb s2 L k (length l - 1) (length l) H2); lia| |].
      2:{ intros s3 ((Hma & _) & Hs3 & Hc3 & l' & _ & Hd). apply Hmidx; [|by eexists|congruence].
          left. intros ?. apply Hc3, Hc2, Hs1. done. }
      intros [] s3 (Hs3 & l3 & H3 & Hl3 & Ha3 & Hb3).
      replace (o + k) with (doff (loc s3) + k) by (by rewrite (proj1 (proj2 Hs3))).
      eapply wpx_mono; [apply (it_assign_move_ok T B maxb s3 l3 k v H3); lia| |].
      2:{ intros s4 (Hma & Hs4 & Hc4 & l' & _ & Hd). apply Hmidx; [|by eexists|congruence].
          left. intros ?. apply Hc4, Hs3, Hc2, Hs1. done. }
      intros [] s4 (Hs4 & H4). split; [|split; [intros ?; apply Hs4, Hs3, Hc2, Hs1; done|lia]].
      rewrite <-(splice_eq l k [v] (<[k:=v]> l3)); [done|lia|rewrite insert_length; simpl; lia|..].
      + intros i Hi. rewrite cont_insert, decide_False by lia. rewrite Hb3, HLs by lia. done.
      + simpl. intros i Hi. rewrite cont_insert, decide_True by lia. replace (i - k) with 0 by lia. done.
      + simpl. rewrite insert_length. intros i Hi. rewrite cont_insert, decide_False by lia.
        destruct (decide (i = length l)) as [->|]; [rewrite Hb3, HL0 by lia; done|]. rewrite Ha3 by lia.
        replace (i - (length l - (length l - 1))) with (i - 1) by lia. apply HLs. lia.
  Qed.

  (** ** roll back *)
  Lemma restore_front_ok {X} old (m : M A deq X) s (Q : X -> state -> Prop) (F E : state -> Prop) : wpx m s Q F ->
    (forall s', F s' -> exists l2 l1, length l1 = old /\ dholds s' (l2 ++ l1) /\ forall s'', popped B maxb s' s'' l1 (length l2) -> E s'') ->
    wpx (restore_front B old m) s Q E.
  Proof.
    intros Hm HF. unfold restore_front. apply wpx_on_throw. eapply wpx_mono; [exact Hm|done|]. intros s1 H1.
    destruct (HF s1 H1) as (l2 & l1 & <- & Hd & HE). apply wpx_bind, (wpx_size _ _ _ _ Hd).
    apply (while_pop_front_ok B maxb HB s1 l1 l2 _ (fun n => length l1 <? n)); [done|rewrite app_length; lia| |done].
    intros n Hn. destruct n; simpl; [apply Nat.ltb_ge; lia|apply Nat.ltb_lt; lia].
  Qed.
  Lemma restore_back_ok {X} old (m : M A deq X) s (Q : X -> state -> Prop) (F E : state -> Prop) : wpx m s Q F ->
    (forall s', F s' -> exists l1 l2, length l1 = old /\ dholds s' (l1 ++ l2) /\ forall s'', popped B maxb s' s'' l1 0 -> E s'') ->
    wpx (restore_back B old m) s Q E.
  Proof.
    intros Hm HF. unfold restore_back. apply wpx_on_throw. eapply wpx_mono; [exact Hm|done|]. intros s1 H1.
    destruct (HF s1 H1) as (l1 & l2 & <- & Hd & HE). apply wpx_bind, (wpx_size _ _ _ _ Hd).
    apply (while_pop_back_ok B maxb HB s1 l1 l2 _ (fun n => length l1 <? n)); [done|rewrite app_length; lia| |done].
    intros n Hn. destruct n; simpl; [apply Nat.ltb_ge; lia|apply Nat.ltb_lt; lia].
  Qed.
  Definition undone s l n s' : Prop := why_throw s n /\ dholds s' l /\ same_objects s s' 0 0 (length l).

  (** ** append_range, prepend_range *)
  Lemma append_guard_ok s l vs : dholds s l ->
    wpx (restore_back B (length l) (each vs (fun v => push_back T B maxb (ACopy v)))) s (fun _ s' => pushed B maxb s l vs s')
      (undone s l (length l + length vs)).
  Proof.
    intros H. eapply restore_back_ok; [by apply each_push_back_ok|].
    intros s' (Hw & k & Hk & Hd & Hso). exists l, (take k vs). split; [done|]. split; [done|].
    intros s2 (Hso2 & H2 & _). split; [done|]. split; [done|]. eapply so_comp; done.
  Qed.
  Lemma prepend_guard_ok s l vs : dholds s l ->
    wpx (restore_front B (length l) (each vs (fun v => push_front T B maxb (ACopy v)))) s (fun _ s' => pushed_front B maxb s l (rev vs) s')
      (undone s l (length l + length vs)).
  Proof.
    intros H. eapply restore_front_ok; [by apply each_push_front_ok|].
    intros s' (Hw & k & Hk & Hd & Hso). exists (rev (take k vs)), l. split; [done|]. split; [done|].
    intros s2 (Hso2 & H2 & _). split; [done|]. split; [done|]. eapply so_comp; [exact Hso|].
    rewrite rev_length, take_length_le in Hso2 by lia. done.
  Qed.
  Lemma append_range_ok s l vs : dholds s l ->
    wpx (append_range T B maxb vs) s (fun _ s' => dholds s' (l ++ vs) /\ (calm s -> calm s') /\ same_objects s s' 0 0 (length l))
      (undone s l (length l + length vs)).
  Proof. intros H. unfold append_range. apply wpx_bind, (wpx_size _ _ _ _ H). by apply append_guard_ok. Qed.
  Lemma prepend_range_ok bidi s l vs : dholds s l ->
    wpx (prepend_range T B maxb bidi vs) s
      (fun _ s' => dholds s' (vs ++ l) /\ (calm s -> calm s') /\ same_objects s s' 0 (length vs) (length l))
      (fun s' => why_throw s (length l + length vs) /\ (exists l', length l' = length l /\ dholds s' l') /\
        (bidi = true \/ nothrow_swap T -> dholds s' l /\ same_objects s s' 0 0 (length l))).
  Proof.
    intros H. unfold prepend_range. apply wpx_bind, (wpx_size _ _ _ _ H). destruct bidi.
    - eapply wpx_mono; [by apply prepend_guard_ok| |].
      + intros [] s' Hp. rewrite rev_involutive in Hp. done.
      + intros s' (Hw & Hd & Hso). rewrite rev_length in Hw. split; [done|]. split; [by exists l|done].
    - eapply (restore_front_ok _ _ _ _ (fun s' => why_throw s (length l + length vs) /\
        ((exists l2, dholds s' (l2 ++ l) /\ same_objects s s' 0 (length l2) (length l)) \/
         ~ nothrow_swap T /\ exists l', length l' = length vs + length l /\ dholds s' l'))).
      + apply wpx_bind. eapply wpx_mono; [by apply each_push_front_ok| |].
        2:{ intros s1 (Hw & k & Hk & Hd & Hso). split; [done|]. left. exists (rev (take k vs)). split; [done|].
            by rewrite rev_length, take_length_le by lia. }
        intros [] s1 (H1 & Hc1 & Hso1). apply wpx_bind, (wpx_size _ _ _ _ H1). apply wpx_bind, wpx_off.
        rewrite app_length, rev_length, Nat.add_sub.
        replace (doff (loc s1)) with (doff (loc s1) + 0) at 1 by lia.
        eapply wpx_mono; [apply (reverse_it_ok T B maxb _ s1 _ 0 (length vs) H1); rewrite ?app_length, ?rev_length; lia| |].
        * intros [] s2 (Hs2 & l2 & H2 & Hl2 & Hc2). split; [|split; [intros ?; apply Hs2; auto|]].
          -- assert (l2 = vs ++ l) as ->; [|done]. rewrite app_length, rev_length in Hl2. apply cont_eq; [rewrite app_length; lia|].
             intros i Hi. rewrite Hc2. destruct (decide (i < length vs)).
             ++ rewrite decide_True by lia. rewrite !cont_app, rev_length, !decide_True by lia. rewrite cont_rev by lia. f_equal. lia.
             ++ rewrite decide_False by lia. rewrite !cont_app, rev_length, !decide_False by lia. done.
          -- rewrite rev_length in Hso1. intros k Hk. rewrite (proj1 (proj2 Hs2)). by apply Hso1.
        * intros s2 (Hns & Hs2 & Hc2 & l' & Hl' & Hd). split; [left; auto|]. right. split; [done|]. exists l'.
          rewrite app_length, rev_length in Hl'. done.
      + intros s' (Hw & [(l2 & Hd & Hso)|(Hns & l' & Hl' & Hd)]).
        * exists l2, l. split; [done|]. split; [done|]. intros s2 (Hso2 & H2 & _). split; [done|]. split; [by exists l|]. intros _. split; [done|].
          eapply so_comp; done.
        * exists (take (length vs) l'), (drop (length vs) l'). split; [rewrite drop_length; lia|]. rewrite take_drop. split; [done|].
          intros s2 (Hso2 & H2 & _). split; [done|]. split; [eexists; split; [|exact H2]; rewrite drop_length; lia|].
          intros [?|?]; done.
  Qed.
End mid.
