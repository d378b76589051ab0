(** What "being a heap" means ([alg.heap.operations.general] in the C++ standard). *)
From stdpp Require Import base list numbers.

(** [first, first+n) of [l] is a heap: no element is greater than its parent, node [i>0] having parent [(i-1)/2]. *)
Definition is_heap_range {A} (lt : A -> A -> bool) (first n : nat) (l : list A) : Prop :=
  forall i x y, (0 < i < n)%nat ->
    l !! (first + (i - 1) / 2)%nat = Some x -> l !! (first + i)%nat = Some y -> lt x y = false.
