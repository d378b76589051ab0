From stdpp Require Import base list numbers.
From Coq Require Import Lia ZifyNat.
From Verif Require Import Base.Res Base.Order Base.OrderLemmas Base.Stable Base.Arr Base.Cells
  Alg.SortModel Alg.SortProofs Alg.RotateModel Alg.RotateProofs Alg.MergeModel Alg.MergeSpec Alg.MergeProofs.
Ltac Zify.zify_post_hook ::= Z.div_mod_to_equations.
Local Arguments full : simpl never.

Section ssort.
  Context {A : Type} (lt : A -> A -> bool) (SW : StrictWeakOrder lt).
  Implicit Types (a X Y H U W Z : arr A) (l P Q r : list A).
  Notation steq := (stable_eq lt).
  Notation sorted := (sorted lt).
  Notation mergel := (mergel lt).

  (** insertion sort in concatenation form *)
  Lemma steq_cancel P r r' Q : steq (P ++ r ++ Q) (P ++ r' ++ Q) -> steq r r'.
  Proof.
    intros H x. specialize (H x). rewrite !List.filter_app in H.
    apply app_inv_head in H. by apply app_inv_tail in H.
  Qed.
  Lemma insertion_sort_ok P r Q (f t : nat) : f = length P -> t = (f + length r)%nat ->
    exists r', insertion_sort lt (full (P ++ r ++ Q)) f t = Ok (full (P ++ r' ++ Q)) /\ sorted r' /\ steq r r' /\ length r' = length r.
  Proof.
    intros Ef Et.
    destruct (wp_exists _ _ (insertion_sort_wp lt SW f t (P ++ r ++ Q) ltac:(lia) ltac:(len))) as (a' & E & l' & -> & Hst & Hfr & Hso).
    exists (slice f t l').
    assert (E1 : take f (P ++ r ++ Q) = P) by (rewrite Ef; apply take_app).
    assert (E2 : drop t (P ++ r ++ Q) = Q).
    { rewrite app_assoc. replace t with (length (P ++ r)) by len. apply drop_app. }
    pose proof (same_outside_split f t _ _ Hfr ltac:(lia)) as E3. rewrite E1, E2 in E3.
    split; [by rewrite E, <-E3|]. split; [by apply sorted_range_slice|].
    assert (steq r (slice f t l')) as Hs. { apply (steq_cancel P _ _ Q). by rewrite <-E3. }
    split; [done|]. by eapply stable_eq_length.
  Qed.

  (** every aligned chunk of length [c] is sorted *)
  Definition CS (c : nat) l : Prop := forall k, sorted (take c (drop (k * c) l)).
  Lemma CS_take c l : CS c l -> sorted (take c l).
  Proof. intros H. by specialize (H 0%nat). Qed.
  Lemma CS_drop c l : CS c l -> CS c (drop c l).
  Proof. intros H k. specialize (H (S k)). rewrite drop_drop. by replace (c + k * c)%nat with (S k * c)%nat by lia. Qed.
  Lemma CS_intro c l : sorted (take c l) -> CS c (drop c l) -> CS c l.
  Proof. intros H1 H2 [|k]; [by rewrite Nat.mul_0_l, drop_0|]. specialize (H2 k). rewrite drop_drop in H2. by replace (S k * c)%nat with (c + k * c)%nat by lia. Qed.
  Lemma CS_nil c : CS c [].
  Proof. intros k. rewrite drop_nil, take_nil. apply sorted_nil. Qed.
  Lemma CS_sorted c l : CS c l -> (length l <= c)%nat -> sorted l.
  Proof. intros H Hl. pose proof (CS_take _ _ H) as H'. by rewrite take_ge in H'. Qed.
  Lemma CS_one c l : sorted l -> (length l <= c)%nat -> CS c l.
  Proof.
    intros H Hl. apply CS_intro; [by rewrite take_ge|]. rewrite drop_ge by done. apply CS_nil.
  Qed.

  Lemma chunked_merge_ok c l X Y U W Z (f t d n : nat) : (0 < c)%nat -> CS c l ->
    f = length X -> t = (f + length l)%nat -> d = length U -> length W = length l -> n = length l ->
    exists l', chunked_merge lt (X ++ full l ++ Y) f t (U ++ W ++ Z) d c n =
      Ok (X ++ empty (length l) ++ Y, U ++ full l' ++ Z) /\ CS (c * 2) l' /\ steq l l' /\ length l' = length l.
  Proof.
    intros Hc HC Ef Et Ed HW En. unfold chunked_merge.
    match goal with |- context [loop _ ?b _] => set (body := b) end.
    cut (exists l', (q <~ loop (S n) body (X ++ full l ++ Y, U ++ W ++ Z, f, d, n) ;;
       (let '(src0, dst0, first0, dest0) := q in q0 <~ xmove src0 first0 t dst0 dest0 ;; (let '(src1, dst1, _) := q0 in Ok (src1, dst1)))) =
       Ok (X ++ empty (length l) ++ Y, U ++ full l' ++ Z) /\ CS (c * 2) l' /\ steq l l' /\ length l' = length l); [done|].
    assert (Hn : (n < S n)%nat) by lia. revert Hn. generalize (S n) at 1 2 as fuel. intros fuel Hn.
    revert l X U W f d n HC Ef Et Ed HW En Hn.
    induction fuel as [|fuel IH]; intros l X U W f d n HC Ef Et Ed HW En Hn; [lia|].
    rewrite loop_S. unfold body at 1. case_decide as D.
    - cbv zeta.
      remember (take c l) as r1 eqn:E1. remember (take c (drop c l)) as r2 eqn:E2. remember (drop c (drop c l)) as r eqn:E3.
      assert (El : l = r1 ++ r2 ++ r). { by rewrite E1, E2, E3, !take_drop. }
      assert (L1 : length r1 = c) by (rewrite E1; len).
      assert (L2 : length r2 = min c (n - c)) by (rewrite E2; len).
      assert (L3 : length r = (n - c - min c (n - c))%nat) by (rewrite E3; len).
      assert (S1 : sorted r1) by (rewrite E1; by apply CS_take).
      assert (S2 : sorted r2) by (rewrite E2; by apply CS_take, CS_drop).
      assert (S3 : CS c r) by (rewrite E3; by do 2 apply CS_drop).
      clear E1 E2 E3. subst l.
      rewrite <-(take_drop (length r1 + length r2) W).
      remember (take (length r1 + length r2) W) as W1 eqn:EW1. remember (drop (length r1 + length r2) W) as W2 eqn:EW2.
      assert (LW1 : length W1 = (length r1 + length r2)%nat) by (rewrite EW1; len).
      assert (LW2 : length W2 = length r) by (rewrite EW2; len). clear EW1 EW2.
      replace (X ++ full (r1 ++ r2 ++ r) ++ Y) with (X ++ full r1 ++ full r2 ++ full r ++ Y).
      2: { by rewrite !full_app, <-!app_assoc. }
      rewrite <-(app_assoc W1).
      rewrite merge_move_ok; try lia; [|destruct r1; [simpl in *; lia|done]|destruct r2; [simpl in *; lia|done]].
      cbn [rbind].
      replace (X ++ replicate (length r1 + length r2) None ++ full r ++ Y) with ((X ++ empty (length r1 + length r2)) ++ full r ++ Y) by (by rewrite <-app_assoc).
      replace (U ++ full (mergel r1 r2) ++ W2 ++ Z) with ((U ++ full (mergel r1 r2)) ++ W2 ++ Z) by (by rewrite <-app_assoc).
      pose proof (mergel_length lt r1 r2) as LM.
      destruct (IH r (X ++ empty (length r1 + length r2)) (U ++ full (mergel r1 r2)) W2 (f + c + min c (n - c)) (d + length W1) (n - c - min c (n - c)))%nat
        as (l' & E & C' & St & Ll); [done|len|len|len|done|lia|lia|].
      exists (mergel r1 r2 ++ l'). split; [|split; [|split]].
      + etransitivity; [exact E|]. f_equal. f_equal.
        * rewrite <-app_assoc. f_equal. rewrite app_assoc, <-replicate_add. f_equal. f_equal. len.
        * by rewrite full_app, <-!app_assoc.
      + assert (sorted (mergel r1 r2)) as HS by (by apply (mergel_sorted lt SW)).
        destruct (decide (c * 2 <= n)%nat).
        * apply CS_intro.
          -- rewrite take_app_alt; [done|]. lia.
          -- rewrite drop_app_alt; [done|]. lia.
        * destruct l' as [|? ?]; [|simpl in Ll; lia]. rewrite app_nil_r. apply CS_one; [done|lia].
      + rewrite app_assoc. apply stable_eq_app; [|done]. by apply (mergel_steq lt SW).
      + len.
    - cbn [rbind]. rewrite xmove_ok by lia. cbn [rbind]. exists l. split; [done|].
      split; [|split; [done|done]]. apply CS_one; [eapply CS_sorted; [done|lia]|lia].
  Qed.

  Lemma isort_chunks_ok P l Q (f t n : nat) : f = length P -> t = (f + length l)%nat -> n = length l ->
    exists l', isort_chunks lt (full (P ++ l ++ Q)) f t n = Ok (full (P ++ l' ++ Q)) /\ CS ISORT_MAX l' /\ steq l l' /\ length l' = length l.
  Proof.
    intros Ef Et En. unfold isort_chunks.
    match goal with |- context [loop _ ?b _] => set (body := b) end.
    cut (exists l', (q <~ loop (S n) body (full (P ++ l ++ Q), f, n) ;;
      (let (a0, first0) := q in insertion_sort lt a0 first0 t)) = Ok (full (P ++ l' ++ Q)) /\ CS ISORT_MAX l' /\ steq l l' /\ length l' = length l); [done|].
    assert (Hn : (n < S n)%nat) by lia. revert Hn. generalize (S n) at 1 2 as fuel. intros fuel Hn.
    revert l P f n Ef Et En Hn. induction fuel as [|fuel IH]; intros l P f n Ef Et En Hn; [lia|].
    rewrite loop_S. unfold body at 1. case_decide as D.
    - rewrite <-(take_drop ISORT_MAX l), <-(app_assoc (take _ _)).
      destruct (insertion_sort_ok P (take ISORT_MAX l) (drop ISORT_MAX l ++ Q) f (f + ISORT_MAX)) as (r' & E & Sr & Str & Lr); [done|len|].
      rewrite E. cbn [rbind]. rewrite take_length in Lr.
      replace (P ++ r' ++ drop ISORT_MAX l ++ Q) with ((P ++ r') ++ drop ISORT_MAX l ++ Q) by (by rewrite <-app_assoc).
      destruct (IH (drop ISORT_MAX l) (P ++ r') (f + ISORT_MAX)%nat (n - ISORT_MAX)%nat) as (l' & E' & C' & St & Ll); try len.
      { unfold ISORT_MAX in *. lia. }
      exists (r' ++ l'). rewrite E'. split; [by rewrite <-!app_assoc|]. split; [|split].
      + apply CS_intro; [rewrite take_app_alt by lia; done|rewrite drop_app_alt by lia; done].
      + by apply stable_eq_app.
      + len.
    - cbn [rbind]. destruct (insertion_sort_ok P l Q f t) as (r' & E & Sr & Str & Lr); [done|done|].
      exists r'. split; [done|]. split; [|done]. apply CS_one; [done|lia].
  Qed.

  Lemma buffered_merge_sort_ok P l Q buf cap (f t n : nat) : f = length P -> t = (f + length l)%nat -> n = length l ->
    length buf = cap -> (n <= cap)%nat ->
    exists l' buf', buffered_merge_sort lt (full (P ++ l ++ Q)) buf f t n = Ok (full (P ++ l' ++ Q), buf') /\ length buf' = cap /\
      sorted l' /\ steq l l' /\ length l' = length l.
  Proof.
    intros Ef Et En Hb Hcap. unfold buffered_merge_sort.
    destruct (isort_chunks_ok P l Q f t n) as (l1 & E1 & C1 & St1 & L1); try done.
    rewrite E1. cbn [rbind]. case_decide as D.
    { exists l1, buf. split; [done|]. split; [done|]. split; [|done]. eapply CS_sorted; [done|lia]. }
    rewrite !full_app, <-(take_drop n buf).
    destruct (chunked_merge_ok ISORT_MAX l1 (full P) (full Q) [] (take n buf) (drop n buf) f t 0%nat n) as (l2 & E2 & C2 & St2 & L2); 
      [unfold ISORT_MAX; lia|done|len|len|done|len|lia|].
    rewrite !app_nil_l in E2. rewrite E2. cbn [rbind]. clear E2 E1.
    match goal with |- context [loop _ ?b _] => set (body := b) end.
    assert (G : forall fuel c l2, (0 < c)%nat -> (c < n)%nat -> (n <= fuel + c)%nat -> length l2 = n -> CS (c * 2) l2 ->
      exists l' buf', loop fuel body (full P ++ empty n ++ full Q, full l2 ++ drop n buf, c) = Ok (full (P ++ l' ++ Q), buf') /\
        length buf' = cap /\ sorted l' /\ steq l2 l' /\ length l' = n).
    { clear -SW Ef Et Hb Hcap D En. intros fuel. induction fuel as [|fuel IH]; intros c l2 Hc Hcn Hf L2 C2; [lia|].
      rewrite loop_S. unfold body at 1. cbv zeta.
      destruct (chunked_merge_ok (c * 2) l2 [] (drop n buf) (full P) (empty n) (full Q) 0 n f n) as (l3 & E3 & C3 & St3 & L3);
        [lia|done|done|lia|len|len|lia|].
      rewrite !app_nil_l in E3. rewrite E3. cbn [rbind]. case_decide as De.
      - cbn [rbind]. eexists l3, _. rewrite !full_app. split; [done|]. split; [len|]. split; [|split; [done|lia]].
        eapply CS_sorted; [done|lia].
      - destruct (chunked_merge_ok (c * 2 * 2) l3 (full P) (full Q) [] (empty (length l2)) (drop n buf) f t 0 n) as (l4 & E4 & C4 & St4 & L4);
          [lia|done|len|lia|done|len|lia|].
        rewrite !app_nil_l in E4. rewrite E4. cbn [rbind].
        destruct (IH (c * 2 * 2)%nat l4) as (l' & b' & E5 & Hb' & S5 & St5 & L5); [lia|lia|lia|lia|done|].
        exists l', b'. replace (length l3) with n by lia. rewrite E5. split; [done|]. split; [done|]. split; [done|]. split; [|done].
        eapply stable_eq_trans; [exact St3|]. by eapply stable_eq_trans. }
    destruct (G (S n) ISORT_MAX l2) as (l' & b' & E5 & Hb' & S5 & St5 & L5); [unfold ISORT_MAX; lia|lia|lia|lia|done|].
    exists l', b'. replace (length l1) with n by lia. rewrite E5, !full_app. split; [done|]. split; [done|]. split; [done|]. split; [|lia].
    eapply stable_eq_trans; [exact St1|]. by eapply stable_eq_trans.
  Qed.

  Lemma stable_sort_unchecked_ok fuel P l Q buf cap (f t n : nat) : f = length P -> t = (f + length l)%nat -> n = length l ->
    length buf = cap -> (n < fuel)%nat ->
    exists l' buf', stable_sort_unchecked lt fuel cap (full (P ++ l ++ Q)) buf f t n = Ok (full (P ++ l' ++ Q), buf') /\ length buf' = cap /\
      sorted l' /\ steq l l' /\ length l' = length l.
  Proof.
    revert P l Q buf f t n. induction fuel as [|fuel IH]; intros P l Q buf f t n Ef Et En Hb Hf; [lia|].
    cbn [stable_sort_unchecked]. case_decide as D.
    { destruct (insertion_sort_ok P l Q f t) as (r' & E & Sr & Str & Lr); [done|done|]. rewrite E. cbn [rbind]. eauto 10. }
    cbv zeta. remember (n / 2)%nat as h eqn:Eh. remember (n - h)%nat as k eqn:Ek.
    assert (32 < n)%nat by (unfold ISORT_MAX in D; lia).
    rewrite <-(take_drop k l), <-(app_assoc (take k l)).
    remember (take k l) as r1 eqn:E1. remember (drop k l) as r2 eqn:E2.
    assert (L1 : length r1 = k) by (rewrite E1; len).
    assert (L2 : length r2 = h) by (rewrite E2; len). clear E1 E2.
    assert (G : exists l1 l2 b', (if decide (k <= cap)%nat then
               '(a, buf) <~ buffered_merge_sort lt (full (P ++ r1 ++ r2 ++ Q)) buf f (f + k) k ;;
               buffered_merge_sort lt a buf (f + k) t h
             else
               '(a, buf) <~ stable_sort_unchecked lt fuel cap (full (P ++ r1 ++ r2 ++ Q)) buf f (f + k) k ;;
               stable_sort_unchecked lt fuel cap a buf (f + k) t h) = Ok (full (P ++ l1 ++ l2 ++ Q), b') /\ length b' = cap /\
         sorted l1 /\ sorted l2 /\ steq r1 l1 /\ steq r2 l2 /\ length l1 = k /\ length l2 = h).
    { case_decide as Dc.
      - destruct (buffered_merge_sort_ok P r1 (r2 ++ Q) buf cap f (f + k) k) as (l1 & b1 & Ea & Hb1 & S1 & St1 & Ll1); try lia.
        rewrite Ea. cbn [rbind]. rewrite app_assoc.
        destruct (buffered_merge_sort_ok (P ++ l1) r2 Q b1 cap (f + k) t h) as (l2 & b2 & Eb & Hb2 & S2 & St2 & Ll2); try len.
        rewrite Eb. exists l1, l2, b2. rewrite <-app_assoc. repeat split; try done; lia.
      - destruct (IH P r1 (r2 ++ Q) buf f (f + k) k)%nat as (l1 & b1 & Ea & Hb1 & S1 & St1 & Ll1); try lia.
        rewrite Ea. cbn [rbind]. rewrite app_assoc.
        destruct (IH (P ++ l1) r2 Q b1 (f + k) t h)%nat as (l2 & b2 & Eb & Hb2 & S2 & St2 & Ll2); try len.
        rewrite Eb. exists l1, l2, b2. rewrite <-app_assoc. repeat split; try done; lia. }
    destruct G as (l1 & l2 & b' & E & Hb' & S1 & S2 & St1 & St2 & Ll1 & Ll2).
    match type of E with ?lhs = _ => match goal with |- context [rbind ?m _] => change m with lhs end end.
    rewrite E. cbn [rbind].
    destruct (bim_ok lt SW cap (S (t - f)) P l1 l2 Q b' f (f + k) t k h)%nat as (b'' & E' & Hb''); try lia; try done.
    rewrite E'. exists (mergel l1 l2), b''. split; [done|]. split; [done|].
    split; [by apply (mergel_sorted lt SW)|]. split.
    - eapply stable_eq_trans; [by apply stable_eq_app|]. by apply (mergel_steq lt SW).
    - rewrite mergel_length. len.
  Qed.

  Lemma stable_sort_ok cap P l Q (f t : nat) : f = length P -> t = (f + length l)%nat ->
    exists l', stable_sort lt cap (full (P ++ l ++ Q)) f t = Ok (full (P ++ l' ++ Q)) /\ sorted l' /\ steq l l' /\ length l' = length l.
  Proof.
    intros Ef Et. unfold stable_sort. cbv zeta. case_decide as D; [by apply insertion_sort_ok|].
    destruct (stable_sort_unchecked_ok (S (t - f)) P l Q (empty cap) cap f t (t - f)) as (l' & b' & E & _ & Hs & Hst & Hl); try len.
    rewrite E. cbn [rbind]. eauto.
  Qed.
End ssort.
