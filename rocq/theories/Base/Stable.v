(** Stability: the two lists contain, for every element, the same equivalents in the same order. *)
From stdpp Require Import base list numbers.
From Coq Require Import Lia.
From Verif Require Import Base.Order.

(** equivalence induced by a comparator *)
Definition eqvb {A} (lt : A -> A -> bool) (x y : A) : bool := negb (lt x y) && negb (lt y x).

(** [l'] is a stable rearrangement of [l]: for every [x], the elements equivalent to [x] are the same and appear
    in the same order in both lists. *)
Definition stable_eq {A} (lt : A -> A -> bool) (l l' : list A) : Prop :=
  forall x, List.filter (eqvb lt x) l' = List.filter (eqvb lt x) l.

Section stable.
  Context {A : Type} (lt : A -> A -> bool) (SW : StrictWeakOrder lt).
  Implicit Types (l : list A).
  Notation steq := (stable_eq lt).

  Lemma eqvb_true x y : eqvb lt x y = true <-> lt x y = false /\ lt y x = false.
  Proof. unfold eqvb. destruct (lt x y), (lt y x); simpl; naive_solver. Qed.
  Lemma eqvb_refl x : eqvb lt x x = true.
  Proof. apply eqvb_true. rewrite (swo_irrefl _ SW). done. Qed.
  Lemma eqvb_sym x y : eqvb lt x y = eqvb lt y x.
  Proof. unfold eqvb. destruct (lt x y), (lt y x); done. Qed.
  Lemma eqvb_trans x y z : eqvb lt x y = true -> eqvb lt y z = true -> eqvb lt x z = true.
  Proof. rewrite !eqvb_true. intros [? ?] [? ?]. by apply (swo_equiv_trans _ SW x y z). Qed.

  Lemma stable_eq_refl l : steq l l.
  Proof. done. Qed.
  Lemma stable_eq_sym l l' : steq l l' -> steq l' l.
  Proof. intros H x. by rewrite H. Qed.
  Lemma stable_eq_trans l1 l2 l3 : steq l1 l2 -> steq l2 l3 -> steq l1 l3.
  Proof. intros H1 H2 x. by rewrite H2, H1. Qed.
  Lemma stable_eq_app l1 l2 l1' l2' : steq l1 l1' -> steq l2 l2' -> steq (l1 ++ l2) (l1' ++ l2').
  Proof. intros H1 H2 x. by rewrite !List.filter_app, H1, H2. Qed.
  Lemma stable_eq_cons a l l' : steq l l' -> steq (a :: l) (a :: l').
  Proof. intros H x. simpl. by rewrite H. Qed.
  Lemma stable_eq_swap x y l : lt x y = true \/ lt y x = true -> steq (x :: y :: l) (y :: x :: l).
  Proof.
    intros Hxy z. simpl. destruct (eqvb lt z x) eqn:E1, (eqvb lt z y) eqn:E2; try done.
    exfalso. rewrite eqvb_sym in E1. pose proof (eqvb_trans _ _ _ E1 E2) as H.
    apply eqvb_true in H. naive_solver congruence.
  Qed.
  Lemma stable_eq_swap_app x y l1 l2 : lt x y = true \/ lt y x = true ->
    steq (l1 ++ x :: y :: l2) (l1 ++ y :: x :: l2).
  Proof. intros. apply stable_eq_app; [done|]. by apply stable_eq_swap. Qed.

  (* moving x across a block of strictly different elements *)
  Lemma stable_eq_move x l1 l2 : Forall (fun y => lt x y = true \/ lt y x = true) l1 ->
    steq (l1 ++ x :: l2) (x :: l1 ++ l2).
  Proof.
    induction 1 as [|y l1 Hy Hl IH]; simpl; [done|].
    eapply stable_eq_trans; [by apply stable_eq_cons|]. apply stable_eq_swap. naive_solver.
  Qed.

  Lemma filter_neg_eqv x y l :
    List.filter (eqvb lt y) (List.filter (fun z => negb (eqvb lt x z)) l) =
    if eqvb lt x y then [] else List.filter (eqvb lt y) l.
  Proof.
    induction l as [|a l IH]; simpl; [by destruct (eqvb lt x y)|].
    destruct (eqvb lt x a) eqn:Exa; simpl; rewrite IH.
    - destruct (eqvb lt x y) eqn:Exy; [done|].
      destruct (eqvb lt y a) eqn:Eya; [|done].
      rewrite eqvb_sym in Eya. rewrite (eqvb_trans _ _ _ Exa Eya) in Exy. done.
    - destruct (eqvb lt x y) eqn:Exy.
      + destruct (eqvb lt y a) eqn:Eya; [|done].
        rewrite (eqvb_trans _ _ _ Exy Eya) in Exa. done.
      + done.
  Qed.

  Lemma filter_partition_perm (p : A -> bool) l :
    l ≡ₚ List.filter p l ++ List.filter (fun z => negb (p z)) l.
  Proof.
    induction l as [|a l IH]; simpl; [done|]. destruct (p a); simpl.
    - by rewrite <-IH.
    - rewrite <-Permutation_middle. by rewrite <-IH.
  Qed.

  Lemma stable_eq_perm l l' : steq l l' -> l' ≡ₚ l.
  Proof.
    remember (length l) as n eqn:Hn. revert l l' Hn.
    induction (lt_wf n) as [n _ IH]. intros l l' -> H.
    destruct l as [|x l].
    - destruct l' as [|y l']; [done|]. specialize (H y). simpl in H. by rewrite eqvb_refl in H.
    - rewrite (filter_partition_perm (eqvb lt x) l'), (filter_partition_perm (eqvb lt x) (x :: l)).
      rewrite (H x). apply Permutation_app_head.
      eapply (IH (length (List.filter (fun z => negb (eqvb lt x z)) (x :: l)))); [|done|].
      + simpl. rewrite eqvb_refl. simpl.
        clear. induction l as [|a l IH]; simpl in *; [lia|]. destruct (negb _); simpl; lia.
      + intros y. rewrite !filter_neg_eqv. by rewrite H.
  Qed.

  (* sorted stable rearrangements are unique *)
  Lemma sorted_stable_unique l l' : sorted lt l -> sorted lt l' -> steq l l' -> l' = l.
  Proof.
    revert l'. induction l as [|x l IH]; intros l' Hs Hs' H.
    - destruct l' as [|y l']; [done|]. specialize (H y). simpl in H. by rewrite eqvb_refl in H.
    - destruct l' as [|y l'].
      { specialize (H x). simpl in H. by rewrite eqvb_refl in H. }
      assert (Hxy : y = x).
      { assert (Hx : x ∈ y :: l').
        { pose proof (stable_eq_perm _ _ H) as Hp. rewrite Hp. left. }
        assert (Hy : y ∈ x :: l).
        { pose proof (stable_eq_perm _ _ H) as Hp. rewrite <-Hp. left. }
        assert (Hyx : lt x y = false).
        { apply elem_of_cons in Hx as [->|Hx]; [apply (swo_irrefl _ SW)|].
          apply elem_of_list_lookup in Hx as [k Hk].
          apply (Hs' 0%nat (S k) y x); [lia|done|done]. }
        assert (Hxy : lt y x = false).
        { apply elem_of_cons in Hy as [->|Hy]; [apply (swo_irrefl _ SW)|].
          apply elem_of_list_lookup in Hy as [k Hk].
          apply (Hs 0%nat (S k) x y); [lia|done|done]. }
        specialize (H x). simpl in H. rewrite eqvb_refl in H.
        assert (E : eqvb lt x y = true) by (apply eqvb_true; done). rewrite E in H. congruence. }
      subst y. f_equal. apply IH.
      + intros i j a b ? Ha Hb. apply (Hs (S i) (S j)); [lia|done|done].
      + intros i j a b ? Ha Hb. apply (Hs' (S i) (S j)); [lia|done|done].
      + intros z. specialize (H z). simpl in H. destruct (eqvb lt z x); congruence.
  Qed.

  (* array form of the adjacent swap *)
  Lemma stable_eq_swap_at l i x y :
    l !! i = Some x -> l !! S i = Some y -> lt x y = true \/ lt y x = true ->
    steq l (<[i:=y]> (<[S i:=x]> l)).
  Proof.
    intros Hx Hy Hxy.
    assert (Hl : l = take i l ++ x :: y :: drop (S (S i)) l).
    { rewrite <-(take_drop i l) at 1. f_equal. rewrite (drop_S _ _ _ Hx). f_equal.
      by rewrite (drop_S _ _ _ Hy). }
    assert (Hl' : <[i:=y]> (<[S i:=x]> l) = take i l ++ y :: x :: drop (S (S i)) l).
    { assert (length (take i l) = i) as Hti.
      { rewrite take_length. apply lookup_lt_Some in Hx. lia. }
      rewrite Hl at 1. 
      rewrite (insert_app_r_alt _ _ (S i)) by lia. rewrite Hti.
      replace (S i - i)%nat with 1%nat by lia. simpl.
      rewrite (insert_app_r_alt _ _ i) by lia. rewrite Hti, Nat.sub_diag. done. }
    rewrite Hl'. rewrite Hl at 1. by apply stable_eq_swap_app.
  Qed.

  Lemma stable_eq_length l l' : steq l l' -> length l' = length l.
  Proof. intros H. by apply Permutation_length, stable_eq_perm. Qed.
End stable.
