(** What views::stride and views::chunk show, and how a client may move an iterator. *)
From stdpp Require Import base list numbers option.
From Coq Require Import ZArith.
From Verif Require Import Alg.StrideModel.

(** every [s]-th element, from the first *)
Definition is_stride {A} (s : nat) (l out : list A) : Prop := forall i : nat, out !! i = l !! (i * s)%nat.
(** the list cut into non-empty pieces of [s] elements, the last one perhaps shorter *)
Definition is_chunks {A} (s : nat) (l : list A) (out : list (list A)) : Prop :=
  concat out = l /\ forall i c, out !! i = Some c -> c <> [] /\ length c <= s /\ (S i < length out -> length c = s).

(** moves of an iterator over [m] elements: from index [i] to index [j], never out of [0, m] *)
Inductive move (m i : Z) : iop -> Z -> Prop :=
  | mv_inc : (i < m)%Z -> move m i Inc (i + 1)
  | mv_dec : (0 < i)%Z -> move m i Dec (i - 1)
  | mv_add k : (0 <= i + k <= m)%Z -> move m i (Add k) (i + k)
  | mv_sub k : (0 <= i - k <= m)%Z -> move m i (Sub k) (i - k).
Inductive moves (m : Z) : Z -> list iop -> Z -> Prop :=
  | mvs_nil i : moves m i [] i
  | mvs_cons i o j os k : move m i o j -> moves m j os k -> moves m i (o :: os) k.
(** the underlying range is the list [l]; its length plus the step is a value of difference_type *)
Definition view_of {A} (r : rng) (l : list A) : Prop := n r = Z.of_nat (length l) /\ (0 < s r)%Z /\ (n r + s r <= M r)%Z.
(** a client got the iterator [it] by moving from begin() (or end()) to element [i] of [m] *)
Definition is_at (r : rng) (m i : Z) (it : iter) : Prop :=
  exists os, (moves m 0 os i /\ run r ibegin os = Some it) \/ (exists e, iend r = Some e /\ moves m m os i /\ run r e os = Some it).
