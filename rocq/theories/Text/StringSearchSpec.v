(** Specification of string searching, independent of the model: N4950 [string.view.find], [string.view.ops]. *)
From stdpp Require Import base list numbers.
From Coq Require Import ZArith Lia.
From Verif Require Import Base.Int.
Local Open Scope nat_scope.

(** [needle] occurs in [hay] at position [i] *)
Definition occurs (hay needle : list Z) (i : nat) : Prop :=
  exists pre post, hay = pre ++ needle ++ post /\ length pre = i.
(** the character at [i] exists and is / is not one of [needle] *)
Definition char_in (hay needle : list Z) (i : nat) : Prop := exists c, hay !! i = Some c /\ c ∈ needle.
Definition char_not_in (hay needle : list Z) (i : nat) : Prop := exists c, hay !! i = Some c /\ c ∉ needle.

(** smallest position at or after [lo] satisfying [P]; None (npos) when there is none *)
Definition first_match (P : nat -> Prop) (lo : nat) (r : option nat) : Prop :=
  match r with
  | Some i => lo <= i /\ P i /\ forall j, lo <= j < i -> ~ P j
  | None => forall j, lo <= j -> ~ P j
  end.
(** largest position at or before [hi] satisfying [P]; None (npos) when there is none *)
Definition last_match (P : nat -> Prop) (hi : nat) (r : option nat) : Prop :=
  match r with
  | Some i => i <= hi /\ P i /\ forall j, i < j <= hi -> ~ P j
  | None => forall j, j <= hi -> ~ P j
  end.

(** lexicographic three-way comparison with characters ordered by [key] *)
Inductive lex_lt (key : Z -> Z) : list Z -> list Z -> Prop :=
| lex_nil y l : lex_lt key [] (y :: l)
| lex_head x y l l' : (key x < key y)%Z -> lex_lt key (x :: l) (y :: l')
| lex_tail x l l' : lex_lt key l l' -> lex_lt key (x :: l) (x :: l').
Definition three_way (key : Z -> Z) (l r : list Z) (c : Z) : Prop :=
  (c < 0 /\ lex_lt key l r)%Z \/ (c = 0%Z /\ l = r) \/ (c > 0 /\ lex_lt key r l)%Z.

(** how a character type orders its characters: 8-bit [char] and [char8_t] as unsigned char, others by value *)
Definition char_order (narrow : bool) (c : Z) : Z := if narrow then (c mod 256)%Z else c.

(** a string of characters of type [t] *)
Definition string_of (t : ity) (s : list Z) : Prop := Forall (in_t t) s.
(** a supported character type: 8-bit of either signedness, or an unsigned wider type *)
Definition char_type (t : ity) : Prop := std_ity t /\ (wd t = 8%Z \/ sg t = false).
