(** Model of the iterators of views::stride and views::chunk over forward, bidirectional and random access ranges:
    stl/inc/ranges:5470-5485 (_Div_ceil), 5739-6048 (chunk_view), 6681-7037 (stride_view; the branch for forward ranges of operator-),
    and of ranges::advance, stl/inc/xutility:3621-3706.
    The underlying range has positions 0 (begin) to [n] (end); a base iterator is its position. [None] is undefined behaviour: a base
    iterator leaves [0, n], or a result of arithmetic does not fit difference_type, whose maximum is [M]. *)
From stdpp Require Import base list numbers option.
From Coq Require Import ZArith Lia.
Local Open Scope Z_scope.

(** [ra]: random_access_range; [sized]: sized_sentinel_for<sentinel, iterator>; [n]: length; [s]: _Stride or _Count *)
Record rng := Rng { ra : bool; sized : bool; n : Z; s : Z; M : Z }.
(** _Current, _Missing: ranges:5756-5758, 6711-6713 *)
Record iter := It { cur : Z; missing : Z }.

Section model.
Context (r : rng).
(** signed arithmetic *)
Definition ck (z : Z) : option Z := if decide (- M r - 1 <= z <= M r) then Some z else None.
Definition okpos (w : Z) : option Z := if decide (0 <= w <= n r) then Some w else None.
(** ++ and -- of the base iterator, k times *)
Fixpoint incs (k : nat) (w : Z) : option Z := match k with O => Some w | S k => w ← okpos (w + 1); incs k w end.
Fixpoint decs (k : nat) (w : Z) : option Z := match k with O => Some w | S k => w ← okpos (w - 1); decs k w end.
(** advance(i, n): xutility:3622-3648 *)
Definition advance2 (w off : Z) : option Z :=
  if ra r then okpos (w + off) else if decide (off < 0) then decs (Z.to_nat (- off)) w else incs (Z.to_nat off) w.
(** the loop of advance(i, n, last): xutility:3699-3703 (the loop for negative n, 3691-3694, is never entered from these views) *)
Fixpoint loop3 (k : nat) (w : Z) : option (Z * Z) :=
  match k with O => Some (w, 0) | S k' => if decide (w = n r) then Some (w, Z.of_nat k) else w ← okpos (w + 1); loop3 k' w end.
(** advance(i, n, last): xutility:3674-3705. Returns the iterator and what is missing. _Where = _Last and operator()(_Where, _Delta) are the same step *)
Definition advance3 (w off : Z) : option (Z * Z) :=
  if sized r then
    delta ← ck (n r - w);
    if decide ((off < 0 /\ off <= delta) \/ (off > 0 /\ off >= delta)) then w' ← advance2 w delta; m ← ck (off - delta); Some (w', m)
    else w' ← advance2 w off; Some (w', 0)
  else if decide (off < 0) then None else loop3 (Z.to_nat off) w.

(** _Div_ceil: ranges:5470-5485 *)
Definition div_ceil (a b : Z) : Z := let q := Z.quot a b in if decide (Z.rem a b = 0) then q else q + 1.
(** begin(): ranges:5981-5994, 6973-6984 *)
Definition ibegin : iter := It 0 0.
(** end() when it returns an iterator with _Missing: ranges:5996-6035, 6986-7025 (sized common ranges) *)
Definition iend : option iter :=
  m ← ck (s r - Z.rem (n r) (s r)); Some (if decide (m = s r) then It (n r) 0 else It (n r) m).
(** operator++: ranges:5797-5803, 6757-6763 *)
Definition inc (i : iter) : option iter := '(w, m) ← advance3 (cur i) (s r); Some (It w m).
(** operator--: ranges:5811-5817, 6777-6783 *)
Definition dec (i : iter) : option iter := o ← ck (missing i - s r); w ← advance2 (cur i) o; Some (It w 0).
(** operator+=: ranges:5826-5851, 6792-6817 *)
Definition add (i : iter) (off : Z) : option iter :=
  if decide (off > 0) then
    if sized r then o ← ck (s r * off); '(w, m) ← advance3 (cur i) o; Some (It w m)
    else o1 ← ck (off - 1); o ← ck (s r * o1); c ← okpos (cur i + o); '(w, m) ← advance3 c (s r); Some (It w m)
  else if decide (off < 0) then o ← ck (s r * off); o ← ck (o + missing i); c ← okpos (cur i + o); Some (It c 0)
  else Some i.
(** operator-=: ranges:5853-5861, 6819-6827 *)
Definition sub (i : iter) (off : Z) : option iter := o ← ck (- off); add i o.
(** operator==, <: ranges:5870-5895, 6840-6855 *)
Definition eqb (i j : iter) : bool := bool_decide (cur i = cur j).
Definition ltb (i j : iter) : bool := bool_decide (cur i < cur j).
(** == default_sentinel: ranges:5873-5876, 6835-6838 *)
Definition at_end (i : iter) : bool := bool_decide (cur i = n r).
(** operator-: ranges:5945-5950, 6908-6913 *)
Definition diff (i j : iter) : option Z :=
  d ← ck (cur i - cur j); d ← ck (d + missing i); d ← ck (d - missing j); Some (Z.quot d (s r)).
(** default_sentinel - it, it - default_sentinel: ranges:5952-5964, 6923-6935 *)
Definition sent_diff (i : iter) : option Z := d ← ck (n r - cur i); Some (div_ceil d (s r)).
Definition diff_sent (i : iter) : option Z := d ← ck (n r - cur i); Some (- div_ceil d (s r)).
(** size(): ranges:6036-6047, 7026-7037 *)
Definition size : Z := div_ceil (n r) (s r).
(** stride: *it is *_Current; dereferencing the end is undefined. ranges:6746-6755 *)
Definition sderef {A} (l : list A) (i : iter) : option A := if decide (0 <= cur i < n r) then l !! Z.to_nat (cur i) else None.
(** chunk: *it is take(subrange(_Current, _End), _Count). ranges:5790-5795 *)
Definition cderef {A} (l : list A) (i : iter) : option (list A) :=
  if decide (0 <= cur i < n r) then Some (take (Z.to_nat (s r)) (drop (Z.to_nat (cur i)) l)) else None.

(** what a client does with an iterator *)
Inductive iop := Inc | Dec | Add (k : Z) | Sub (k : Z).
Definition step (i : iter) (o : iop) : option iter :=
  match o with Inc => inc i | Dec => dec i | Add k => add i k | Sub k => sub i k end.
Fixpoint run (i : iter) (os : list iop) : option iter := match os with [] => Some i | o :: os => i ← step i o; run i os end.
End model.
