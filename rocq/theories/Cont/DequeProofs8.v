(** insert of ranges and of copies, erase, assign, construction. *)
From stdpp Require Import base list list_numbers numbers decidable.
From Coq Require Import ZArith Lia.
From Verif Require Import Base.Res Base.Int Cont.ObjMem Cont.ObjMemProofs Cont.DequeModel Cont.DequeSpec Cont.DequeProofs
  Cont.DequeProofs2 Cont.DequeProofs3 Cont.DequeProofs4 Cont.DequeProofs5 Cont.DequeProofs7.
Local Open Scope nat_scope.

Section mid.
  Context {A : Type} (T : traits) (B : nat) (maxb : Z).
  Context (HB : exists k, B = 2 ^ k) (Hmax : (8 <= maxb < 2 ^ 63)%Z).
  Notation state := (st A deq).
  Implicit Types (s : state) (l : list (option A)) (d : deq).
  Notation shape := (shape B maxb).
  Notation dholds := (dholds B maxb).
  Notation why_throw := (why_throw B maxb).
  Notation own := (own B).
  Notation eaddr := (eaddr B).
  Notation same_objects := (same_objects B).
  Notation darg := (darg B).
  Notation broken := (broken B maxb).

  (** ** _Insert_range *)
  (** when nothing is lost if an exception is thrown *)
  Definition ins_strong (bidi : bool) l (k : nat) : Prop :=
    nothrow_swap T \/ bidi = true /\ k = 0 \/ k = length l /\ 0 < length l.
  Lemma Insert_range_ok bidi s l k vs : dholds s l -> k <= length l ->
    wpx (Insert_range T B maxb bidi k vs) s
      (fun _ s' => dholds s' (take k l ++ vs ++ drop k l) /\ (calm s -> calm s'))
      (fun s' => why_throw s (length l + length vs) /\ (exists l', dholds s' l') /\ (ins_strong bidi l k -> dholds s' l)).
  Proof.
    intros H Hk. destruct (decide (vs = [])) as [->|Hvs].
    { apply wpx_ret. simpl. by rewrite take_drop. }
    assert (Hmatch : Insert_range T B maxb bidi k vs =
        (Oldsize <<- msize ;;
        if k <=? Oldsize / 2 then
          restore_front B Oldsize (each (if bidi then rev vs else vs) (fun v => push_front T B maxb (ACopy v))) ;;;
          n <<- msize ;; o <<- moff ;;
          let Num := n - Oldsize in
          let Mymid := o + Num in
          mwhen (negb bidi) (reverse_it T B (Num + 1) o Mymid) ;;;
          rotate_it T B o Mymid (Mymid + k)
        else
          restore_back B Oldsize (each vs (fun v => push_back T B maxb (ACopy v))) ;;;
          n <<- msize ;; o <<- moff ;;
          rotate_it T B (o + k) (o + Oldsize) (o + n))) by (by destruct vs).
    rewrite Hmatch. clear Hmatch Hvs. apply wpx_bind, (wpx_size B maxb _ _ _ _ H). set (n := length vs).
    assert (Hun : forall s' m, m = length l + n -> undone B maxb s l m s' -> why_throw s (length l + n) /\ (exists l', dholds s' l') /\ (ins_strong bidi l k -> dholds s' l)).
    { intros s' m -> (Hw & Hd & _). split; [done|]. split; [by exists l|done]. }
    assert (Hsw : forall s1 L s', (calm s -> calm s1) -> (ins_strong bidi l k -> nothrow_swap T) -> swap_exn T B maxb s1 L s' ->
      why_throw s (length l + n) /\ (exists l', dholds s' l') /\ (ins_strong bidi l k -> dholds s' l)).
    { intros s1 L s' Hc Hst (Hn & _ & Hc' & l' & _ & Hd). split; [left; auto|]. split; [by exists l'|]. intros ?. exfalso. auto. }
    assert (Hhalf : 0 < length l -> length l / 2 < length l) by (intros; apply Nat.div_lt; lia).
    destruct (k <=? length l / 2) eqn:Ek.
    - apply wpx_bind. set (xs := if bidi then rev vs else vs). assert (Hxs : length xs = n) by (unfold xs; destruct bidi; rewrite ?rev_length; done).
      eapply wpx_mono; [by apply (prepend_guard_ok T B maxb HB Hmax)| |intros s'; apply Hun; lia].
      intros [] s1 (H1 & Hc1 & _). apply wpx_bind, (wpx_size B maxb _ _ _ _ H1). apply wpx_bind, wpx_off. cbn zeta.
      rewrite app_length, rev_length, Nat.add_sub, Hxs. set (o := doff (loc s1)).
      assert (Hrot : forall s2, same s1 s2 -> dholds s2 (vs ++ l) ->
        wpx (rotate_it T B o (o + n) (o + n + k)) s2 (fun _ s' => dholds s' (take k l ++ vs ++ drop k l) /\ (calm s -> calm s'))
          (fun s' => why_throw s (length l + n) /\ (exists l', dholds s' l') /\ (ins_strong bidi l k -> dholds s' l))).
      { intros s2 Hs2 H2. assert (Eo : o = doff (loc s2)) by (by rewrite (proj1 (proj2 Hs2))). rewrite Eo.
        rewrite <-Nat.add_assoc. rewrite <-(Nat.add_0_r (doff (loc s2))) at 1.
        eapply wpx_mono; [apply (rotate_it_ok T B maxb s2 _ 0 n (n + k) H2); rewrite ?app_length; lia| |].
        - intros [] s3 (Hs3 & l3 & H3 & Hl3 & Hc3). split; [|intros ?; apply Hs3, Hs2; auto].
          rewrite app_length in Hl3. rewrite <-(splice_eq l k vs l3); [done|done|lia|..].
          + intros i Hi. rewrite Hc3, decide_True by lia. rewrite cont_app, decide_False by lia. f_equal. lia.
          + intros i Hi. rewrite Hc3, decide_False, decide_True by lia. rewrite cont_app, decide_True by lia. f_equal. lia.
          + intros i Hi. rewrite Hc3, decide_False, decide_False by lia. rewrite cont_app, decide_False by lia. done.
        - intros s3 (Hfm & Hx). eapply (Hsw s2); [intros ?; apply Hs2; auto| |exact Hx]. apply Nat.leb_le in Ek.
          intros [?|[[_ ?]|[? ?]]]; [done|lia|lia]. }
      unfold mwhen. apply wpx_bind. unfold xs in *. destruct bidi; simpl negb; cbv iota.
      + apply wpx_ret. apply Hrot; [apply same_refl|]. by rewrite rev_involutive in H1.
      + rewrite <-(Nat.add_0_r o) at 1.
        eapply wpx_mono; [apply (reverse_it_ok T B maxb _ s1 _ 0 n H1); rewrite ?app_length, ?rev_length; lia| |].
        * intros [] s2 (Hs2 & l2 & H2 & Hl2 & Hc2). apply Hrot; [done|].
          assert (l2 = vs ++ l) as ->; [|done]. rewrite app_length, rev_length in Hl2. apply cont_eq; [rewrite app_length; lia|].
          intros i Hi. rewrite Hc2. destruct (decide (i < n)).
          -- rewrite decide_True by lia. rewrite !cont_app, rev_length, !decide_True by lia. rewrite cont_rev by lia. f_equal. lia.
          -- rewrite decide_False by lia. rewrite !cont_app, rev_length, !decide_False by lia. done.
        * intros s2 Hx. eapply (Hsw s1); [done| |exact Hx]. apply Nat.leb_le in Ek. intros [?|[[? _]|[? ?]]]; [done|done|lia].
    - apply wpx_bind. eapply wpx_mono; [by apply (append_guard_ok T B maxb HB Hmax)| |intros s'; apply Hun; lia].
      intros [] s1 (H1 & Hc1 & _). apply wpx_bind, (wpx_size B maxb _ _ _ _ H1). apply wpx_bind, wpx_off.
      eapply wpx_mono; [apply (rotate_it_ok T B maxb s1 _ k (length l) (length (l ++ vs)) H1); rewrite ?app_length; lia| |].
      + intros [] s3 (Hs3 & l3 & H3 & Hl3 & Hc3). split; [|intros ?; apply Hs3; auto].
        rewrite app_length in Hl3, Hc3. rewrite <-(splice_eq l k vs l3); [done|done|lia|..].
        * intros i Hi. rewrite Hc3, decide_False, decide_False by lia. rewrite cont_app, decide_True by lia. done.
        * intros i Hi. rewrite Hc3, decide_True by lia. rewrite cont_app, decide_False by lia. f_equal. lia.
        * intros i Hi. rewrite Hc3, decide_False, decide_True by lia. rewrite cont_app, decide_True by lia. f_equal. lia.
      + intros s3 (Hfm & Hx). eapply (Hsw s1); [done| |exact Hx]. apply Nat.leb_gt in Ek. intros [?|[[_ ?]|[? ?]]]; [done|lia|lia].
  Qed.

  (** ** erase *)
  Lemma erase_ok s l i j : dholds s l -> i <= j <= length l ->
    wpx (erase T B i j) s
      (fun _ s' => dholds s' (take i l ++ drop j l) /\ (calm s -> calm s') /\
         (i = 0 -> same_objects s s' j 0 (length l - j)) /\ (j = length l -> same_objects s s' 0 0 i))
      (fun s' => (mathrow T = true /\ 0 < i /\ j < length l) /\ ~ calm s /\ exists l', dholds s' l').
  Proof.
    intros H Hij. unfold erase. destruct (j - i =? 0) eqn:E0; [apply Nat.eqb_eq in E0|apply Nat.eqb_neq in E0].
    { assert (j = i) as -> by lia. apply wpx_ret. rewrite take_drop. split; [done|]. split; [done|]. split; [intros ->; apply so_refl|intros _; apply so_refl]. }
    apply wpx_bind, wpx_off. apply wpx_bind, (wpx_size B maxb _ _ _ _ H).
    destruct (i <? _) eqn:E1; [apply Nat.ltb_lt in E1|apply Nat.ltb_ge in E1].
    - apply wpx_bind. rewrite <-(Nat.add_0_r (doff (loc s))) at 1.
      eapply wpx_mono; [apply (Move_backward_it_ok T B maxb s l 0 i j H); lia| |intros s' ((? & ?) & _ & ? & l' & _ & Hd); split; [split; [done|lia]|eauto]].
      intros [] s1 (Hs1 & l1 & H1 & Hl1 & Ha1 & Hb1).
      rewrite <-(take_drop (j - i) l1) in H1.
      apply (for_pop_front_ok B maxb HB s1 (drop (j - i) l1) (take (j - i) l1)); [done|rewrite take_length; lia|].
      intros s2 (Hso2 & H2 & Hc2 & _). split; [|split; [intros ?; apply Hc2, Hs1; done|]].
      + rewrite <-(unsplice_eq l i j (drop (j - i) l1)); [done|done|rewrite drop_length; lia|..].
        * intros k Hk. rewrite cont_drop, Ha1 by lia. f_equal. lia.
        * rewrite drop_length. intros k Hk. rewrite cont_drop, Hb1 by lia. f_equal. lia.
      + rewrite drop_length, Hl1 in Hso2. split; [|intros ->; lia]. intros ->. rewrite Nat.sub_0_r in Hso2.
        intros k Hk. rewrite (Hso2 k Hk). by rewrite (proj1 (proj2 Hs1)).
    - apply wpx_bind.
      eapply wpx_mono; [apply (Move_it_ok T B maxb s l j (length l) i H); lia| |intros s' ((? & ?) & _ & ? & l' & _ & Hd); split; [split; [done|lia]|eauto]].
      intros [] s1 (Hs1 & l1 & H1 & Hl1 & Ha1 & Hb1).
      rewrite <-(take_drop (length l - (j - i)) l1) in H1.
      apply (for_pop_back_ok B maxb HB s1 (take (length l - (j - i)) l1) (drop (length l - (j - i)) l1)); [done|rewrite drop_length; lia|].
      intros s2 (Hso2 & H2 & Hc2 & _). split; [|split; [intros ?; apply Hc2, Hs1; done|]].
      + rewrite <-(unsplice_eq l i j (take (length l - (j - i)) l1)); [done|done|rewrite take_length; lia|..].
        * intros k Hk. rewrite cont_take, Hb1 by lia. done.
        * rewrite take_length. intros k Hk. rewrite cont_take, Ha1 by lia. f_equal. lia.
      + rewrite take_length, Hl1 in Hso2. split; [intros ->; intros k Hk; lia|]. intros ->.
        intros k Hk. rewrite (Hso2 k) by lia. by rewrite (proj1 (proj2 Hs1)).
  Qed.

  (** ** assign *)
  Lemma assign_n_ok s l n v : dholds s l ->
    wpx (assign_n T B maxb n v) s (fun _ s' => dholds s' (replicate n v) /\ (calm s -> calm s'))
      (fun s' => why_throw s n /\ exists l', dholds s' l').
  Proof.
    intros H. unfold assign_n. apply wpx_bind, wpx_off. apply wpx_bind, (wpx_size B maxb _ _ _ _ H). cbn zeta. rewrite !Nat.sub_0_r.
    apply wpx_bind. eapply (wpx_mono (for_ _ _) _ (fun _ s1 => same s s1 /\ exists l1, length l1 = length l /\ dholds s1 l1) _ (fun s1 => broken s l s1)).
    - apply (wpx_for (fun k s1 => same s s1 /\ exists l1, length l1 = length l /\ dholds s1 l1)); [|..].
      + split; [apply same_refl|]. by exists l.
      + intros k s1 Hk (Hs1 & l1 & Hl1 & H1). rewrite <-(proj1 (proj2 Hs1)).
        eapply wpx_mono; [apply (it_assign_ok T B maxb s1 l1 k (ACopy v) v); [done|lia|done]| |].
        * intros [] s2 (Hs2 & H2). split; [by eapply same_trans|]. eexists. split; [|exact H2]. by rewrite insert_length.
        * intros s2 Hbr. by eapply broken_same.
      + done.
    - intros [] s1 (Hs1 & l1 & Hl1 & H1). apply wpx_bind. unfold Erase_last_n.
      apply (for_pop_back_ok B maxb HB s1 [] l1); [done|done|]. intros s2 (_ & H2 & Hc2 & _).
      eapply wpx_mono; [apply (push_back_n_ok T B maxb HB Hmax s2 [] n (ACopy v) v); done| |].
      + intros [] s3 (H3 & Hc3 & _). split; [done|]. intros ?. apply Hc3, Hc2, Hs1. done.
      + intros s3 (Hw & k & _ & Hd & _). split; [|by eexists]. eapply why_mono; [|done|exact Hw]. intros ?. apply Hc2, Hs1. done.
    - intros s1 (_ & Hc & l' & _ & Hd). split; [by left|by eexists].
  Qed.
  Lemma Assign_loop_ok o : forall rest done_ vs s, dholds s (done_ ++ rest) -> doff (loc s) = o ->
    wpx (Assign_loop T B maxb (length rest) (o + length done_) vs) s (fun _ s' => dholds s' (done_ ++ vs) /\ (calm s -> calm s'))
      (fun s' => why_throw s (length done_ + length vs) /\ exists l', dholds s' l').
  Proof.
    induction rest as [|x rest IH]; intros dn vs s H Ho; cbn [length Assign_loop].
    - rewrite app_nil_r in H. eapply wpx_mono; [by apply each_push_back_ok| |].
      + intros [] s' (H' & Hc & _). done.
      + intros s' (Hw & k & _ & Hd & _). split; [done|by eexists].
    - destruct vs as [|v vs].
      + apply (for_pop_back_ok B maxb HB s dn (x :: rest)); [done|done|]. intros s' (_ & H' & Hc & _). rewrite app_nil_r. done.
      + apply wpx_bind. rewrite <-Ho.
        eapply wpx_mono; [apply (it_assign_ok T B maxb s (dn ++ x :: rest) (length dn) (ACopy v) v); [done|rewrite app_length; simpl; lia|done]| |].
        * intros [] s1 (Hs1 & H1). rewrite insert_app_r_alt, Nat.sub_diag in H1 by lia. simpl in H1.
          replace (doff (loc s) + length dn + 1) with (doff (loc s) + length (dn ++ [v])) by (rewrite app_length; simpl; lia). rewrite Ho.
          eapply wpx_mono; [apply (IH (dn ++ [v]) vs s1)| |].
          -- by rewrite <-app_assoc.
          -- by rewrite (proj1 (proj2 Hs1)).
          -- intros [] s2 (H2 & Hc2). rewrite <-app_assoc in H2. split; [done|]. intros ?. apply Hc2, Hs1. done.
          -- intros s2 (Hw & Hd). split; [|done]. eapply why_mono; [apply Hs1| |exact Hw]. rewrite app_length. simpl. lia.
        * intros s1 (_ & Hc & l' & _ & Hd). split; [by left|by eexists].
  Qed.
  Lemma Assign_range_ok s l vs : dholds s l ->
    wpx (Assign_range T B maxb vs) s (fun _ s' => dholds s' vs /\ (calm s -> calm s'))
      (fun s' => why_throw s (length vs) /\ exists l', dholds s' l').
  Proof.
    intros H. unfold Assign_range. apply wpx_bind, wpx_off. apply wpx_bind, (wpx_size B maxb _ _ _ _ H).
    rewrite <-(Nat.add_0_r (doff (loc s))). apply (Assign_loop_ok (doff (loc s)) l [] vs s); done.
  Qed.

  (** ** construction from a range: on failure everything is freed *)
  Lemma Construct_ok s vs : dholds s [] ->
    wpx (Construct T B maxb vs) s (fun _ s' => dholds s' vs /\ (calm s -> calm s'))
      (fun s' => why_throw s (length vs) /\ forall q, mem s' q = Unalloc).
  Proof.
    intros H. unfold Construct. apply wpx_on_throw. eapply wpx_mono; [by apply each_push_back_ok| |].
    - intros [] s' (H' & Hc & _). done.
    - intros s1 (Hw & k & _ & Hd & _). eapply (Tidy_ok B maxb HB Hmax); [exact Hd|]. intros s2 _ _ _ Hu. done.
  Qed.

  (** ** _Insert_n *)
  Definition insn_exn s l k n s' : Prop := why_throw s (length l + n) /\ exists l', dholds s' l' /\ length l' = length l /\ (k = 0 \/ k = length l -> l' = l).
  Lemma Insert_n_ok s l k n a v : dholds s l -> k <= length l -> darg s l a v -> 0 < n ->
    wpx (Insert_n T B maxb k n a) s
      (fun _ s' => dholds s' (take k l ++ replicate n v ++ drop k l) /\ (calm s -> calm s'))
      (insn_exn s l k n).
  Proof.
    intros H Hk Ha Hn. unfold Insert_n. apply wpx_bind, (wpx_size B maxb _ _ _ _ H). cbn zeta.
    set (N := length l) in *.
    destruct (k <? N - k) eqn:Eside; [apply Nat.ltb_lt in Eside|apply Nat.ltb_ge in Eside].
    - eapply (restore_front_ok B maxb HB N _ s _ (fun s' => why_throw s (N + n) /\ exists l', dholds s' l' /\ N <= length l' /\ (k = 0 -> drop (length l' - N) l' = l))).
      2:{ intros s' (Hw & l' & Hd & Hl' & Hst). exists (take (length l' - N) l'), (drop (length l' - N) l'). split; [rewrite drop_length; lia|].
          rewrite take_drop. split; [done|]. intros s2 (_ & H2 & _). split; [done|]. eexists. split; [exact H2|]. split; [rewrite drop_length; lia|]. intros [E|E]; [by apply Hst|exfalso; fold N in E; lia]. }
      destruct (k <? n) eqn:Ec; [apply Nat.ltb_lt in Ec|apply Nat.ltb_ge in Ec].
      + (* more copies than elements in front *)
        apply wpx_bind. eapply wpx_mono; [apply (push_front_n_ok T B maxb HB Hmax s l (n - k) a v H Ha)| |].
        2:{ intros s' (Hw & j & _ & Hd & _). split; [eapply why_mono; [|..|exact Hw]; [done|unfold N; lia]|]. eexists. split; [exact Hd|]. split; [rewrite app_length; fold N; lia|]. intros _. rewrite app_length. fold N. rewrite Nat.add_sub. apply drop_app. }
        intros [] s1 (H1 & Hc1 & Hso1). rewrite replicate_length in Hso1. set (l1 := replicate (n - k) v ++ l) in *.
        assert (Hl1 : length l1 = n - k + N) by (unfold l1; rewrite app_length, replicate_length; done).
        assert (Ha1 : darg s1 l1 a v) by (apply (darg_front B s s1 l (replicate (n - k) v)); [done|by rewrite replicate_length]).
        apply wpx_bind. eapply wpx_mono; [apply (for_front_ok B maxb s1 l1 (rev (take k l)) k); [done|rewrite rev_length, take_length; lia|]| |].
        * intros j s2 Hj (H2 & Hc2 & Hso2). set (pre := rev (take j (rev (take k l)))) in *.
          assert (Hpre : length pre = j) by (unfold pre; rewrite rev_length, take_length, rev_length, take_length; lia).
          unfold Subscript. apply wpx_bind, wpx_bind, wpx_off. apply (wpx_elem B maxb s2 (pre ++ l1)); [done|rewrite app_length; lia|].
          intros p Hp Hmp.
          assert (Hv : cont (rev (take k l)) j = cont (pre ++ l1) (n - 1)).
          { rewrite cont_rev by (rewrite take_length; lia). rewrite take_length_le by lia. rewrite cont_take by lia.
            rewrite cont_app, decide_False by lia. unfold l1. rewrite cont_app, replicate_length, decide_False by lia. f_equal. lia. }
          rewrite Hv. apply (push_front_ok T B maxb HB Hmax); [done|]. exists (n - 1). split; [rewrite app_length; lia|done].
        * rewrite rev_involutive. intros [] s2 (H2 & Hc2 & Hso2). apply wpx_bind, wpx_off.
          rewrite take_length_le in Hso2 by lia.
          assert (Ha2 : darg s2 (take k l ++ l1) a v) by (apply (darg_front B s1 s2 l1); [done|rewrite take_length_le by lia; done]).
          assert (HL : length (take k l ++ l1) = n + N) by (rewrite app_length, take_length; lia).
          eapply wpx_mono; [apply (fill_n_it_ok T B maxb s2 _ n k a v H2); [lia|done]| |].
          -- intros [] s3 (Hs3 & l3 & H3 & Hl3 & Hf3 & Hk3). split; [|intros ?; apply Hs3; auto].
             rewrite <-(splice_eq l k (replicate n v) l3); [done|done|rewrite replicate_length; unfold N in *; lia|..].
             ++ intros i Hi. rewrite Hk3 by lia. rewrite cont_app, take_length_le, decide_True, cont_take by lia. done.
             ++ rewrite replicate_length. intros i Hi. rewrite cont_replicate by lia. destruct (decide (n <= i)); [apply Hf3; lia|].
                rewrite Hk3 by lia. rewrite cont_app, take_length_le, decide_False by lia. unfold l1.
                rewrite cont_app, replicate_length, decide_True by lia. apply cont_replicate. lia.
             ++ rewrite replicate_length. intros i Hi. rewrite Hk3 by lia. rewrite cont_app, take_length_le, decide_False by lia. unfold l1.
                rewrite cont_app, replicate_length, decide_False by lia. f_equal. lia.
          -- intros s3 (Hpos & _ & Hc & l' & Hl' & Hd). split; [left; auto|]. exists l'. split; [done|]. split; [lia|]. intros; lia.
        * intros s2 (Hw & j & Hj & Hd & _). split; [eapply why_mono; [exact Hc1| |exact Hw]; lia|]. eexists. split; [exact Hd|]. split; [rewrite app_length; fold N; lia|]. intros; lia.
      + (* at least as many elements in front as copies *)
        apply wpx_bind. eapply wpx_mono; [apply (for_front_ok B maxb s l (rev (take n l)) n); [done|rewrite rev_length, take_length; lia|]| |].
        * intros j s2 Hj (H2 & Hc2 & Hso2). set (pre := rev (take j (rev (take n l)))) in *.
          assert (Hpre : length pre = j) by (unfold pre; rewrite rev_length, take_length, rev_length, take_length; lia).
          unfold Subscript. apply wpx_bind, wpx_bind, wpx_off. apply (wpx_elem B maxb s2 (pre ++ l)); [done|rewrite app_length; fold N; lia|].
          intros p Hp Hmp.
          assert (Hv : cont (rev (take n l)) j = cont (pre ++ l) (n - 1)).
          { rewrite cont_rev by (rewrite take_length; lia). rewrite take_length_le by lia. rewrite cont_take by lia.
            rewrite cont_app, decide_False by lia. f_equal. lia. }
          rewrite Hv. apply (push_front_ok T B maxb HB Hmax); [done|]. exists (n - 1). split; [rewrite app_length; lia|done].
        * rewrite rev_involutive. intros [] s2 (H2 & Hc2 & Hso2). apply wpx_bind, wpx_off.
          rewrite take_length_le in Hso2 by lia.
          assert (Ha2 : darg s2 (take n l ++ l) a v) by (apply (darg_front B s s2 l); [done|rewrite take_length_le by lia; done]).
          assert (HL : length (take n l ++ l) = n + N) by (rewrite app_length, take_length; lia).
          apply wpx_bind, (wpx_temp_arg T a v); [by eapply darg_is| |].
          2:{ intros _ Hc s3 Hs3 Hm3. split; [left; auto|]. exists (take n l ++ l). split; [by eapply dholds_same'|]. split; [lia|]. intros; lia. }
          intros s3 Hs3 Hm3. pose proof (dholds_same' B maxb _ _ _ H2 Hs3 Hm3) as H3. apply wpx_bind.
          assert (Eo : doff (loc s2) = doff (loc s3)) by (by rewrite (proj1 (proj2 Hs3))). rewrite Eo.
          replace (doff (loc s3) + n + n) with (doff (loc s3) + (n + n)) by lia.
          replace (doff (loc s3) + n + k) with (doff (loc s3) + (n + k)) by lia.
          eapply wpx_mono; [apply (Move_it_ok T B maxb s3 _ (n + n) (n + k) n H3); lia| |].
          2:{ intros s4 (_ & _ & Hc & l' & Hl' & Hd). split; [left; intros ?; apply Hc, Hs3; auto|]. exists l'. split; [done|]. split; [lia|]. intros; lia. }
          intros [] s4 (Hs4 & l4 & H4 & Hl4 & Ha4 & Hb4). apply wpx_bind, wpx_off.
          assert (Eo4 : doff (loc s4) = doff (loc s3)) by (by rewrite (proj1 (proj2 Hs4))).
          replace (doff (loc s3) + (n + k) - (doff (loc s4) + k)) with n by lia.
          eapply wpx_mono; [apply (fill_n_it_ok T B maxb s4 _ k n (ACopy v) v H4); [lia|done]| |].
          -- intros [] s5 (Hs5 & l5 & H5 & Hl5 & Hf5 & Hk5). split; [|intros ?; apply Hs5, Hs4, Hs3; auto].
             rewrite <-(splice_eq l k (replicate n v) l5); [done|done|rewrite replicate_length; unfold N in *; lia|..].
             ++ intros i Hi. rewrite Hk5 by lia. destruct (decide (i < n)).
                ** rewrite Hb4 by lia. rewrite cont_app, take_length_le, decide_True, cont_take by lia. done.
                ** rewrite Ha4 by lia. rewrite cont_app, take_length_le, decide_False by lia. f_equal. lia.
             ++ rewrite replicate_length. intros i Hi. rewrite cont_replicate by lia. apply Hf5. lia.
             ++ rewrite replicate_length. intros i Hi. rewrite Hk5, Hb4 by lia. rewrite cont_app, take_length_le, decide_False by lia. done.
          -- intros s5 (Hpos & _ & Hc & l' & Hl' & Hd). split; [left; intros ?; apply Hc, Hs4, Hs3; auto|]. exists l'. split; [done|]. split; [lia|]. intros; lia.
        * intros s2 (Hw & j & Hj & Hd & _). split; [done|]. eexists. split; [exact Hd|]. split; [rewrite app_length; fold N; lia|]. intros; lia.
    - eapply (restore_back_ok B maxb HB N _ s _ (fun s' => why_throw s (N + n) /\ exists l', dholds s' l' /\ N <= length l' /\ (k = N -> take N l' = l))).
      2:{ intros s' (Hw & l' & Hd & Hl' & Hst). exists (take N l'), (drop N l'). split; [rewrite take_length; lia|].
          rewrite take_drop. split; [done|]. intros s2 (_ & H2 & _). split; [done|]. eexists. split; [exact H2|]. split; [rewrite take_length; lia|]. intros [E|E]; apply Hst; [fold N; lia|done]. }
      destruct (N - k <? n) eqn:Ec; [apply Nat.ltb_lt in Ec|apply Nat.ltb_ge in Ec].
      + (* more copies than elements behind *)
        apply wpx_bind. eapply wpx_mono; [apply (push_back_n_ok T B maxb HB Hmax s l (n - (N - k)) a v H Ha)| |].
        2:{ intros s' (Hw & j & _ & Hd & _). split; [eapply why_mono; [|..|exact Hw]; [done|unfold N; lia]|]. eexists. split; [exact Hd|]. split; [rewrite app_length; fold N; lia|]. intros _. apply take_app. }
        intros [] s1 (H1 & Hc1 & Hso1). set (l1 := l ++ replicate (n - (N - k)) v) in *.
        assert (Hl1 : length l1 = n + k) by (unfold l1; rewrite app_length, replicate_length; fold N; lia).
        assert (Ha1 : darg s1 l1 a v) by (by apply (darg_app B s s1 l)).
        apply wpx_bind. eapply wpx_mono; [apply (for_back_ok B maxb s1 l1 (drop k l) (N - k)); [done|rewrite drop_length; done|]| |].
        * intros j s2 Hj (H2 & Hc2 & Hso2). 
          unfold Subscript. apply wpx_bind, wpx_bind, wpx_off. apply (wpx_elem B maxb s2 (l1 ++ take j (drop k l))); [done|rewrite app_length; lia|].
          intros p Hp Hmp.
          assert (Hv : cont (drop k l) j = cont (l1 ++ take j (drop k l)) (k + j)).
          { rewrite cont_drop. rewrite cont_app, decide_True by lia. unfold l1. rewrite cont_app, decide_True by lia. done. }
          rewrite Hv. apply (push_back_ok T B maxb HB Hmax); [done|]. exists (k + j). split; [rewrite app_length; lia|done].
        * intros [] s2 (H2 & Hc2 & Hso2). apply wpx_bind, wpx_off.
          assert (Ha2 : darg s2 (l1 ++ drop k l) a v) by (by apply (darg_app B s1 s2 l1)).
          assert (HL : length (l1 ++ drop k l) = n + N) by (rewrite app_length, drop_length; fold N; lia).
          eapply wpx_mono; [apply (fill_n_it_ok T B maxb s2 _ k (N - k) a v H2); [lia|done]| |].
          -- intros [] s3 (Hs3 & l3 & H3 & Hl3 & Hf3 & Hk3). split; [|intros ?; apply Hs3; auto].
             rewrite <-(splice_eq l k (replicate n v) l3); [done|done|rewrite replicate_length; unfold N in *; lia|..].
             ++ intros i Hi. rewrite Hk3 by lia. rewrite cont_app, decide_True by lia. unfold l1. rewrite cont_app, decide_True by (fold N; lia). done.
             ++ rewrite replicate_length. intros i Hi. rewrite cont_replicate by lia. destruct (decide (i < N)); [apply Hf3; lia|].
                rewrite Hk3 by lia. rewrite cont_app, decide_True by lia. unfold l1.
                rewrite cont_app, decide_False by (fold N; lia). fold N. apply cont_replicate. lia.
             ++ rewrite replicate_length. intros i Hi. rewrite Hk3 by lia. rewrite cont_app, decide_False, cont_drop by lia. f_equal. lia.
          -- intros s3 (Hpos & _ & Hc & l' & Hl' & Hd). split; [left; auto|]. exists l'. split; [done|]. split; [lia|]. intros; lia.
        * intros s2 (Hw & j & Hj & Hd & _). split; [eapply why_mono; [exact Hc1| |exact Hw]; lia|]. eexists. split; [exact Hd|]. split; [rewrite app_length; fold N; lia|]. intros; lia.
      + (* at least as many elements behind as copies *)
        apply wpx_bind. eapply wpx_mono; [apply (for_back_ok B maxb s l (drop (N - n) l) n); [done|rewrite drop_length; fold N; lia|]| |].
        * intros j s2 Hj (H2 & Hc2 & Hso2).
          unfold Subscript. apply wpx_bind, wpx_bind, wpx_off. apply (wpx_elem B maxb s2 (l ++ take j (drop (N - n) l))); [done|rewrite app_length; fold N; lia|].
          intros p Hp Hmp.
          assert (Hv : cont (drop (N - n) l) j = cont (l ++ take j (drop (N - n) l)) (k + (N - k) - n + j)).
          { rewrite cont_drop. rewrite cont_app, decide_True by (fold N; lia). f_equal. lia. }
          rewrite Hv. apply (push_back_ok T B maxb HB Hmax); [done|]. eexists. split; [|split; [exact Hp|done]]. rewrite app_length. fold N. lia.
        * intros [] s2 (H2 & Hc2 & Hso2). apply wpx_bind, wpx_off.
          assert (Ha2 : darg s2 (l ++ drop (N - n) l) a v) by (by apply (darg_app B s s2 l)).
          assert (HL : length (l ++ drop (N - n) l) = n + N) by (rewrite app_length, drop_length; fold N; lia).
          apply wpx_bind, (wpx_temp_arg T a v); [by eapply darg_is| |].
          2:{ intros _ Hc s3 Hs3 Hm3. split; [left; auto|]. eexists. split; [by eapply dholds_same'|]. split; [lia|]. intros; lia. }
          intros s3 Hs3 Hm3. pose proof (dholds_same' B maxb _ _ _ H2 Hs3 Hm3) as H3. apply wpx_bind.
          assert (Eo : doff (loc s2) = doff (loc s3)) by (by rewrite (proj1 (proj2 Hs3))). rewrite Eo.
          replace (doff (loc s3) + k + (N - k - n)) with (doff (loc s3) + (N - n)) by lia.
          replace (doff (loc s3) + k + (N - k)) with (doff (loc s3) + N) by lia.
          eapply wpx_mono; [apply (Move_backward_it_ok T B maxb s3 _ k (N - n) N H3); lia| |].
          2:{ intros s4 (_ & _ & Hc & l' & Hl' & Hd). split; [left; intros ?; apply Hc, Hs3; auto|]. exists l'. split; [done|]. split; [lia|]. intros; lia. }
          intros [] s4 (Hs4 & l4 & H4 & Hl4 & Ha4 & Hb4).
          assert (Eo4 : doff (loc s3) = doff (loc s4)) by (by rewrite (proj1 (proj2 Hs4))). rewrite Eo4.
          eapply wpx_mono; [apply (fill_n_it_ok T B maxb s4 _ k n (ACopy v) v H4); [lia|done]| |].
          -- intros [] s5 (Hs5 & l5 & H5 & Hl5 & Hf5 & Hk5). split; [|intros ?; apply Hs5, Hs4, Hs3; auto].
             rewrite <-(splice_eq l k (replicate n v) l5); [done|done|rewrite replicate_length; unfold N in *; lia|..].
             ++ intros i Hi. rewrite Hk5, Hb4 by lia. rewrite cont_app, decide_True by (fold N; lia). done.
             ++ rewrite replicate_length. intros i Hi. rewrite cont_replicate by lia. apply Hf5. lia.
             ++ rewrite replicate_length. intros i Hi. rewrite Hk5 by lia. destruct (decide (i < N)).
                ** rewrite Ha4 by lia. rewrite cont_app, decide_True by (fold N; lia). f_equal. lia.
                ** rewrite Hb4 by lia. rewrite cont_app, decide_False, cont_drop by (fold N; lia). fold N. f_equal. lia.
          -- intros s5 (Hpos & _ & Hc & l' & Hl' & Hd). split; [left; intros ?; apply Hc, Hs4, Hs3; auto|]. exists l'. split; [done|]. split; [lia|]. intros; lia.
        * intros s2 (Hw & j & Hj & Hd & _). split; [done|]. eexists. split; [exact Hd|]. split; [rewrite app_length; fold N; lia|]. intros; lia.
  Qed.
End mid.
