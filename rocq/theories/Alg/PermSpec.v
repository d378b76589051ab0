(** Specification vocabulary of C10. *)
From stdpp Require Import base list numbers.

(** std::lexicographical_compare *)
Fixpoint lexlt {A} (lt : A -> A -> bool) (l1 l2 : list A) : bool :=
  match l1, l2 with
  | x :: l1, y :: l2 => if lt x y then true else if lt y x then false else lexlt lt l1 l2
  | [], _ :: _ => true
  | _, [] => false
  end.

