(** Vocabulary of the property statements about ranges: orderings, sortedness, frames. *)
From stdpp Require Import base list numbers.
From Coq Require Import Lia.

(** The C++ standard's requirements on a comparison object ([alg.sorting]): strict weak ordering. *)
Record StrictWeakOrder {A} (lt : A -> A -> bool) : Prop := {
  swo_irrefl : forall x, lt x x = false;
  swo_trans : forall x y z, lt x y = true -> lt y z = true -> lt x z = true;
  (* "equivalence" (neither less) is transitive *)
  swo_equiv_trans : forall x y z,
    lt x y = false -> lt y x = false -> lt y z = false -> lt z y = false ->
    lt x z = false /\ lt z x = false }.

Section swo.
  Context {A} (lt : A -> A -> bool) (SW : StrictWeakOrder lt).
  Lemma swo_asym x y : lt x y = true -> lt y x = false.
  Proof.
    intros H. destruct (lt y x) eqn:E; [|reflexivity].
    pose proof (swo_trans _ SW _ _ _ H E) as H'. rewrite (swo_irrefl _ SW) in H'. discriminate.
  Qed.
  (* negative transitivity: "not greater" is transitive *)
  Lemma swo_ntrans x y z : lt y x = false -> lt z y = false -> lt z x = false.
  Proof.
    intros H1 H2. destruct (lt z x) eqn:E; [|reflexivity].
    destruct (lt x y) eqn:E1.
    - rewrite (swo_trans _ SW _ _ _ E E1) in H2. discriminate.
    - destruct (lt y z) eqn:E2.
      + rewrite (swo_trans _ SW _ _ _ E2 E) in H1. discriminate.
      + destruct (swo_equiv_trans _ SW x y z) as [_ H]; congruence.
  Qed.
  Lemma swo_lt_le x y z : lt x y = true -> lt z y = false -> lt x z = true.
  Proof.
    intros H1 H2. destruct (lt x z) eqn:E; [reflexivity|].
    rewrite (swo_ntrans _ _ _ H2 E) in H1. discriminate.
  Qed.
  Lemma swo_le_lt x y z : lt y x = false -> lt y z = true -> lt x z = true.
  Proof.
    intros H1 H2. destruct (lt x z) eqn:E; [reflexivity|].
    rewrite (swo_ntrans _ _ _ E H1) in H2. discriminate.
  Qed.
End swo.

(** [l] is sorted: no later element is less than an earlier one. *)
Definition sorted {A} (lt : A -> A -> bool) (l : list A) : Prop :=
  forall i j x y, (i < j)%nat -> l !! i = Some x -> l !! j = Some y -> lt y x = false.

(** The part [first,last) of [l] is sorted. *)
Definition sorted_range {A} (lt : A -> A -> bool) (first last : nat) (l : list A) : Prop :=
  forall i j x y, (first <= i)%nat -> (i < j)%nat -> (j < last)%nat ->
    l !! i = Some x -> l !! j = Some y -> lt y x = false.

(** The slice [first,last) as a list. *)
Definition slice {A} (first last : nat) (l : list A) : list A := take (last - first) (drop first l).

(** [l'] agrees with [l] outside [first,last). *)
Definition same_outside {A} (first last : nat) (l l' : list A) : Prop :=
  length l' = length l /\
  forall i, (i < first \/ last <= i)%nat -> l' !! i = l !! i.

(** All elements with index in [first,last) satisfy P. *)
Definition range_all {A} (P : A -> Prop) (first last : nat) (l : list A) : Prop :=
  forall i x, (first <= i)%nat -> (i < last)%nat -> l !! i = Some x -> P x.
