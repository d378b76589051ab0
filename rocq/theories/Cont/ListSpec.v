(** Specification of a doubly linked list in memory. A list is its sequence of (node address, value) pairs. *)
From stdpp Require Import base list numbers option decidable.
From Verif Require Import Base.Res Cont.ListModel.

Section spec.
Context {V : Type}.
Implicit Types (h : heap V) (l : list (nat * V)).

(** the forward link of [p] is [q] and the backward link of [q] is [p] *)
Definition nx h (p : nat) : option nat := nnext <$> h p.
Definition pv h (p : nat) : option nat := nprev <$> h p.
Definition vl h (p : nat) : option V := n ← h p; nval n.
Definition link h (p q : nat) : Prop := nx h p = Some q /\ pv h q = Some p.
(** every consecutive pair of nodes is linked both ways *)
Fixpoint chain h (ps : list nat) : Prop :=
  match ps with
  | p :: ((q :: _) as r) => link h p q /\ chain h r
  | _ => True
  end.
(** In heap [h], the list with head node [hd] holds exactly the nodes and values [l], in this order:
    distinct nodes, none of them null, a circular doubly linked chain through the head node, and the stored values. *)
Definition ring h (hd : nat) l : Prop :=
  NoDup (hd :: l.*1) /\ 0 ∉ hd :: l.*1 /\ chain h (hd :: l.*1 ++ [hd]) /\ Forall (fun x => vl h x.1 = Some x.2) l.
(** the list object [s]: also the stored size is the number of elements *)
Definition is_list h (s : lst) l : Prop := ring h (lhead s) l /\ lsize s = length l.
(** two lists share no node *)
Definition disj (hd1 : nat) l1 (hd2 : nat) l2 : Prop := forall p, p ∈ hd1 :: l1.*1 -> p ∈ hd2 :: l2.*1 -> False.
(** position: the first node of [l], or the head node if there is none; the last node of [l], or the head node *)
Definition fst_of (hd : nat) l : nat := match l with [] => hd | x :: _ => x.1 end.
Definition lst_of (hd : nat) l : nat := match list.last l with None => hd | Some x => x.1 end.
(** all memory outside the given nodes is untouched *)
Definition frame h h' (ps : list nat) : Prop := forall p, p ∉ ps -> h' p = h p.
(** the nodes are no longer allocated *)
Definition freed h (ps : list nat) : Prop := forall p, p ∈ ps -> h p = None.

(** what unique leaves: an element is dropped when it compares equal to the last element kept *)
Fixpoint uniq_from (eq : V -> V -> bool) (x : nat * V) l : list (nat * V) :=
  match l with
  | [] => [x]
  | y :: r => if eq x.2 y.2 then uniq_from eq x r else x :: uniq_from eq y r
  end.
Definition uniq (eq : V -> V -> bool) l : list (nat * V) :=
  match l with [] => [] | x :: r => uniq_from eq x r end.
End spec.
