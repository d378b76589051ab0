(** What the heap of a std::map/set must look like, independently of how the functions of xtree work. *)
From stdpp Require Import base list numbers option decidable.
From Coq Require Import Lia.
From Verif Require Import Base.Res Base.Order Cont.TreeModel.

Section spec.
Context {V K : Type} (kf : V -> K) (lt : K -> K -> bool).
(** a coloured binary tree whose nodes carry an address and a value *)
Inductive tree := E | T (c : color) (l : tree) (x : nat) (v : V) (r : tree).
Definition root (t : tree) : nat := match t with E => 0 | T _ _ x _ _ => x end.
Fixpoint inorder (t : tree) : list (nat * V) := match t with E => [] | T _ l x v r => inorder l ++ (x, v) :: inorder r end.
Definition ptrs (t : tree) : list nat := (inorder t).*1.
(** the heap holds exactly this tree below parent p *)
Fixpoint tr (h : heap V) (p : nat) (t : tree) : Prop :=
  match t with
  | E => True
  | T c l x v r => h x = Some (Node (root l) p (root r) c false (Some v)) /\ tr h x l /\ tr h x r
  end.
(** red-black tree of black height n with a root of colour c: no red node has a red child, and every path from the root to
    a leaf has n black nodes *)
Inductive rb : color -> nat -> tree -> Prop :=
  | rb_E : rb Black 0 E
  | rb_red n l x v r : rb Black n l -> rb Black n r -> rb Red n (T Red l x v r)
  | rb_black n cl cr l x v r : rb cl n l -> rb cr n r -> rb Black (S n) (T Black l x v r).
Fixpoint height (t : tree) : nat := match t with E => 0 | T _ l _ _ r => S (height l `max` height r) end.
(** first and last node in order; the head node if there is none *)
Definition minp (l : list (nat * V)) : nat := default 0 (l.*1 !! 0).
Definition maxp (l : list (nat * V)) : nat := default 0 (list.last l.*1).
(** [tree_ok s l]: the container [s] is a well-formed tree whose elements in order are [l] (address and value of each node):
    head node links, parent links, balance, size, and no node outside the tree *)
Definition tree_ok (s : tst V) (l : list (nat * V)) : Prop :=
  exists t n, inorder t = l /\ rb Black n t /\ NoDup (0 :: l.*1) /\
    mem s 0 = Some (Node (minp l) (root t) (maxp l) Black true None) /\ tr (mem s) 0 t /\
    (forall p, is_Some (mem s p) <-> p = 0 \/ p ∈ l.*1) /\
    msize s = length l.
Definition keys (l : list (nat * V)) : list K := (fun e => kf (snd e)) <$> l.
(** no later element is less than an earlier one; for set/map also no two equivalent keys *)
Definition ordered (l : list (nat * V)) : Prop := sorted lt (keys l).
Definition unique (l : list (nat * V)) : Prop :=
  forall i j x y, i < j -> keys l !! i = Some x -> keys l !! j = Some y -> lt x y = true.
End spec.
Arguments tree V : clear implicits.
