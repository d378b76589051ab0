(** What a binary search must return. *)
From stdpp Require Import base list numbers.

(** [first,last) of [l] is partitioned by [p]: once [p] is false it stays false. *)
Definition partitioned {A} (p : A -> bool) (first last : nat) (l : list A) : Prop :=
  forall i j x y, (first <= i)%nat -> (i < j)%nat -> (j < last)%nat ->
    l !! i = Some x -> l !! j = Some y -> p x = false -> p y = false.

(** [r] is the partition point: everything before satisfies [p], nothing from [r] on does. *)
Definition is_partition_point {A} (p : A -> bool) (first last : nat) (l : list A) (r : nat) : Prop :=
  (first <= r <= last)%nat /\
  (forall i x, (first <= i < r)%nat -> l !! i = Some x -> p x = true) /\
  (forall i x, (r <= i < last)%nat -> l !! i = Some x -> p x = false).
