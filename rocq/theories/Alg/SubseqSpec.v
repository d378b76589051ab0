(** Specification vocabulary of C12. *)
From stdpp Require Import base list numbers.

(** the needle [p] occurs in [h] at index [i] *)
Definition occurs {A} (eq : A -> A -> bool) (h p : list A) (i : nat) : Prop :=
  (i + length p <= length h)%nat /\
  forall k x y, h !! (i + k)%nat = Some x -> p !! k = Some y -> eq x y = true.

(** [r] is the first (last) index with [P]; the length of [h] stands for "none" *)
Definition first_such {A} (h : list A) (P : nat -> Prop) (r : nat) : Prop :=
  (P r /\ forall j, (j < r)%nat -> ~ P j) \/ (r = length h /\ forall j, ~ P j).
Definition last_such {A} (h : list A) (P : nat -> Prop) (r : nat) : Prop :=
  (P r /\ forall j, (r < j)%nat -> ~ P j) \/ (r = length h /\ forall j, ~ P j).

(** [n] consecutive elements satisfying [q] start at [i] *)
Definition run_at {A} (q : A -> bool) (h : list A) (n i : nat) : Prop :=
  (i + n <= length h)%nat /\ forall k x, (k < n)%nat -> h !! (i + k)%nat = Some x -> q x = true.
