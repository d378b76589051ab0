(** Specification of the unordered containers. *)
From stdpp Require Import base list numbers option decidable.
From Coq Require Import Lia.
From Verif Require Import Base.Res Cont.ListModel Cont.ListSpec Cont.HashModel.
Local Open Scope nat_scope.

Section spec.
Context {K V : Type} (kfn : V -> K) (hash : K -> nat) (keq : K -> K -> bool).
Implicit Types (l : list (nat * V)) (x : nat * V).

(** what [unord.req] asks of the hasher and the key predicate *)
Record hash_ok : Prop := HashOk {
  ho_refl : forall a, keq a a = true;
  ho_sym : forall a b, keq a b = true -> keq b a = true;
  ho_trans : forall a b c, keq a b = true -> keq b c = true -> keq a c = true;
  ho_hash : forall a b, keq a b = true -> hash a = hash b }.

(** the element [x] has a key equivalent to [k] / belongs into bucket [b] of [n] *)
Definition eqk (k : K) x : bool := keq k (kfn x.2).
Definition inb (n b : nat) x : bool := bool_decide (hash (kfn x.2) mod n = b).
(** the elements satisfying [P] are next to each other *)
Definition contig (P : nat * V -> bool) l : Prop :=
  exists a m c, l = a ++ m ++ c /\ Forall (fun x => P x = true) m /\ Forall (fun x => P x = false) (a ++ c).

(** The table [t] in heap [h] holds the nodes and values [l], in iteration order: a well formed list, a power of two at
    least 8 of buckets, every bucket a contiguous stretch delimited exactly by its two entries of the bucket vector (both
    are end() if the bucket is empty), and elements with equivalent keys next to each other. *)
Definition wf (h : heap V) (t : tbl) l : Prop :=
  is_list h (tl t) l /\
  (exists j, 3 <= j /\ tmax t = 2 ^ j) /\ tmask t = tmax t - 1 /\ length (tv t) = 2 * tmax t /\
  (forall b, b < tmax t ->
     contig (inb (tmax t) b) l /\
     tv t !! (2 * b) = Some (fst_of (lhead (tl t)) (List.filter (inb (tmax t) b) l)) /\
     tv t !! (2 * b + 1) = Some (lst_of (lhead (tl t)) (List.filter (inb (tmax t) b) l))) /\
  (forall k, contig (eqk k) l).

(** the elements with a key equivalent to [k], in order *)
Definition group (k : K) l : list (nat * V) := List.filter (eqk k) l.
(** no two elements have equivalent keys *)
Definition unique_keys l : Prop := forall k, length (group k l) <= 1.
(** same nodes with the same values, equivalent elements in the same relative order *)
Definition same_contents l l' : Prop := l ≡ₚ l' /\ forall k, group k l' = group k l.
(** the new element joined its group at the end, everything else is as before *)
Definition joined (x : nat * V) l l' : Prop :=
  l' ≡ₚ x :: l /\ forall k, group k l' = group k l ++ (if eqk k x then [x] else []).
(** insertion with a hint: right after the hinted element if that one is in the group, else at the end of the group *)
Fixpoint ins_after (p : nat) (x : nat * V) l : list (nat * V) :=
  match l with [] => [x] | y :: r => if decide (y.1 = p) then y :: x :: r else y :: ins_after p x r end.
Definition place (hint : option nat) (x : nat * V) l : list (nat * V) :=
  match hint with None => l ++ [x] | Some p => ins_after p x l end.
Definition placed (hint : option nat) (x : nat * V) l l' : Prop :=
  l' ≡ₚ x :: l /\ forall k, group k l' = if eqk k x then place hint x (group k l) else group k l.
(** a load-factor policy keeps its promise: enough buckets by its own count means no rehash is needed *)
Definition policy_ok (pol : policy) : Prop := forall n j, mlfb pol n <= 2 ^ j -> over pol n (2 ^ j) = false.
(** a hint is an iterator into the container or end() *)
Definition hint_ok (hint : option nat) (t : tbl) l : Prop :=
  match hint with None => True | Some p => p ∈ l.*1 ++ [lhead (tl t)] end.
End spec.
