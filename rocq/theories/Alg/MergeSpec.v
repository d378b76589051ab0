(** The reference stable merge of two lists, and its algebra. *)
From stdpp Require Import base list numbers.
From Coq Require Import Lia.
From Verif Require Import Base.Order Base.OrderLemmas Base.Stable.

Section mergel.
  Context {A : Type} (lt : A -> A -> bool).
  Implicit Types (l r : list A).

  Fixpoint mergel l1 : list A -> list A :=
    match l1 with
    | [] => fun l2 => l2
    | x :: l1' =>
        fix go l2 :=
          match l2 with
          | [] => l1
          | y :: l2' => if lt y x then y :: go l2' else x :: mergel l1' l2
          end
    end.

  Lemma mergel_nil_l l : mergel [] l = l.
  Proof. done. Qed.
  Lemma mergel_nil_r l : mergel l [] = l.
  Proof. by destruct l. Qed.
  Lemma mergel_lt x l1 y l2 : lt y x = true -> mergel (x :: l1) (y :: l2) = y :: mergel (x :: l1) l2.
  Proof. intros E. simpl. by rewrite E. Qed.
  Lemma mergel_ge x l1 y l2 : lt y x = false -> mergel (x :: l1) (y :: l2) = x :: mergel l1 (y :: l2).
  Proof. intros E. simpl. by rewrite E. Qed.

  Lemma mergel_perm l1 l2 : mergel l1 l2 ≡ₚ l1 ++ l2.
  Proof.
    revert l2. induction l1 as [|x l1 IH]; intros l2; [done|].
    induction l2 as [|y l2 IH2]; [by rewrite mergel_nil_r, app_nil_r|].
    destruct (lt y x) eqn:E.
    - rewrite mergel_lt by done. rewrite IH2. by rewrite Permutation_middle.
    - rewrite mergel_ge by done. by rewrite IH.
  Qed.
  Lemma mergel_length l1 l2 : length (mergel l1 l2) = (length l1 + length l2)%nat.
  Proof. by rewrite mergel_perm, app_length. Qed.

  Context (SW : StrictWeakOrder lt).
  Notation steq := (stable_eq lt).
  Notation sorted := (sorted lt).

  Lemma mergel_sorted l1 l2 : sorted l1 -> sorted l2 -> sorted (mergel l1 l2).
  Proof.
    revert l2. induction l1 as [|x l1 IH]; intros l2 H1 H2; [done|].
    induction l2 as [|y l2 IH2]; [by rewrite mergel_nil_r|].
    destruct (proj1 (sorted_cons _ _ _) H1) as [F1 S1]. destruct (proj1 (sorted_cons _ _ _) H2) as [F2 S2].
    destruct (lt y x) eqn:E.
    - rewrite mergel_lt by done. apply sorted_cons. split; [|by apply IH2].
      rewrite mergel_perm. apply Forall_app. split; [|done].
      constructor; [by apply (swo_asym lt SW)|].
      eapply list.Forall_impl; [exact F1|]. intros z Hz. simpl in *. eapply (swo_ntrans lt SW); [|exact Hz]. by apply (swo_asym lt SW).
    - rewrite mergel_ge by done. apply sorted_cons. split; [|by apply IH].
      rewrite mergel_perm. apply Forall_app. split; [done|]. constructor; [done|].
      eapply list.Forall_impl; [exact F2|]. intros z Hz. simpl in *. eapply (swo_ntrans lt SW); [exact E|exact Hz].
  Qed.

  Lemma mergel_steq l1 l2 : sorted l1 -> steq (l1 ++ l2) (mergel l1 l2).
  Proof.
    revert l2. induction l1 as [|x l1 IH]; intros l2 H1; [done|].
    destruct (proj1 (sorted_cons _ _ _) H1) as [F1 S1].
    induction l2 as [|y l2 IH2]; [by rewrite mergel_nil_r, app_nil_r|].
    destruct (lt y x) eqn:E.
    - rewrite mergel_lt by done. eapply stable_eq_trans; [|apply stable_eq_cons; exact IH2].
      apply (stable_eq_move lt SW). constructor; [by left|]. eapply list.Forall_impl; [exact F1|]. intros z Hz. left.
      by eapply (swo_lt_le lt SW).
    - rewrite mergel_ge by done. apply stable_eq_cons. by apply IH.
  Qed.

  Lemma mergel_unique l1 l2 r : sorted l1 -> sorted l2 -> sorted r -> steq (l1 ++ l2) r -> r = mergel l1 l2.
  Proof.
    intros H1 H2 Hr Hs. apply (sorted_stable_unique lt SW); [by apply mergel_sorted|done|].
    eapply stable_eq_trans; [|exact Hs]. apply stable_eq_sym. by apply mergel_steq.
  Qed.

  (** pairs-wise characterisation of sorted concatenations *)
  Definition all2 (R : A -> A -> Prop) l1 l2 : Prop := forall x y, x ∈ l1 -> y ∈ l2 -> R x y.
  Lemma sorted_app' l1 l2 : sorted (l1 ++ l2) <-> sorted l1 /\ sorted l2 /\ all2 (fun x y => lt y x = false) l1 l2.
  Proof.
    induction l1 as [|x l1 IH]; simpl.
    - split; [|by intros (_ & ? & _)]. intros H. split; [apply sorted_nil|]. split; [done|].
      intros x y Hx. by apply elem_of_nil in Hx.
    - rewrite !sorted_cons, IH, Forall_app, !list.Forall_forall. split.
      + intros ([F1 F2] & S1 & S2 & F). split; [done|]. split; [done|]. intros a b Ha Hb.
        apply elem_of_cons in Ha as [->|Ha]; [by apply F2|by apply F].
      + intros ([F1 S1] & S2 & F). split; [split; [done|]|split; [done|split; [done|]]].
        * intros b Hb. apply F; [left|done].
        * intros a b Ha Hb. apply F; [by right|done].
  Qed.

  (** swapping two adjacent blocks, every element of the second strictly less than every element of the first *)
  Lemma stable_eq_blockswap P l1 l2 Q : all2 (fun x y => lt y x = true) l1 l2 ->
    steq (P ++ l1 ++ l2 ++ Q) (P ++ l2 ++ l1 ++ Q).
  Proof.
    intros H. apply stable_eq_app; [done|]. induction l2 as [|y l2 IH]; [done|]. simpl.
    eapply stable_eq_trans; [apply (stable_eq_move lt SW)|].
    - apply list.Forall_forall. intros x Hx. left. apply H; [done|left].
    - apply stable_eq_cons. apply IH. intros a b Ha Hb. apply H; [done|by right].
  Qed.

  Lemma mergel_disjoint A1 A2 B1 B2 :
    sorted (A1 ++ A2) -> sorted (B1 ++ B2) ->
    all2 (fun x y => lt y x = true) A2 B1 -> all2 (fun x y => lt y x = false) A1 B2 ->
    mergel (A1 ++ A2) (B1 ++ B2) = mergel A1 B1 ++ mergel A2 B2.
  Proof.
    intros HA HB H1 H2. symmetry.
    destruct (proj1 (sorted_app' _ _) HA) as (SA1 & SA2 & FA).
    destruct (proj1 (sorted_app' _ _) HB) as (SB1 & SB2 & FB).
    apply mergel_unique; [done|done| |].
    - apply sorted_app'. split; [by apply mergel_sorted|]. split; [by apply mergel_sorted|].
      intros x y Hx Hy. rewrite mergel_perm, elem_of_app in Hx, Hy.
      destruct Hx as [Hx|Hx], Hy as [Hy|Hy].
      + by apply FA. + by apply H2.
      + apply (swo_asym lt SW). by apply H1. + by apply FB.
    - eapply stable_eq_trans; [|apply stable_eq_app; by apply mergel_steq].
      rewrite <-!app_assoc. by apply stable_eq_blockswap.
  Qed.

  Lemma mergel_below l1 l2 : sorted l1 -> sorted l2 -> all2 (fun x y => lt y x = false) l1 l2 -> mergel l1 l2 = l1 ++ l2.
  Proof.
    intros H1 H2 F. pose proof (mergel_disjoint l1 [] [] l2) as E. rewrite !app_nil_r, mergel_nil_r in E. simpl in E.
    apply E; [done|done| |done]. intros x y Hx. by apply elem_of_nil in Hx.
  Qed.
  Lemma mergel_above l1 l2 : sorted l1 -> sorted l2 -> all2 (fun x y => lt y x = true) l1 l2 -> mergel l1 l2 = l2 ++ l1.
  Proof.
    intros H1 H2 F. pose proof (mergel_disjoint [] l1 l2 []) as E. rewrite !app_nil_r, mergel_nil_r in E. simpl in E.
    apply E; [done|done|done|]. intros x y Hx. by apply elem_of_nil in Hx.
  Qed.

  (** merging from the back *)
  Lemma mergel_snoc_lt l1 x l2 y : sorted (l1 ++ [x]) -> sorted (l2 ++ [y]) -> lt y x = true ->
    mergel (l1 ++ [x]) (l2 ++ [y]) = mergel l1 (l2 ++ [y]) ++ [x].
  Proof.
    intros H1 H2 E.
    pose proof (mergel_disjoint l1 [x] (l2 ++ [y]) []) as E'. rewrite app_nil_r, mergel_nil_r in E'. apply E'; try done.
    - intros a b Ha%elem_of_list_singleton Hb; subst a. apply sorted_app' in H2 as (_ & _ & F).
      apply elem_of_app in Hb as [Hb|Hb%elem_of_list_singleton]; [|by subst].
      eapply (swo_le_lt lt SW); [|exact E]. apply F; [done|left].
    - intros a b _ Hb. by apply elem_of_nil in Hb.
  Qed.
  Lemma mergel_snoc_ge l1 x l2 y : sorted (l1 ++ [x]) -> sorted (l2 ++ [y]) -> lt y x = false ->
    mergel (l1 ++ [x]) (l2 ++ [y]) = mergel (l1 ++ [x]) l2 ++ [y].
  Proof.
    intros H1 H2 E.
    pose proof (mergel_disjoint (l1 ++ [x]) [] l2 [y]) as E'. rewrite !app_nil_r in E'. apply E'; try done.
    - intros a b Ha. by apply elem_of_nil in Ha.
    - intros a b Ha Hb%elem_of_list_singleton; subst b. apply sorted_app' in H1 as (_ & _ & F).
      apply elem_of_app in Ha as [Ha|Ha%elem_of_list_singleton]; [|by subst].
      eapply (swo_ntrans lt SW); [|exact E]. apply F; [done|left].
  Qed.
End mergel.
