(** Operations of std::deque as a user calls them, and what each promises. *)
From stdpp Require Import base list numbers decidable.
From Coq Require Import ZArith Lia.
From Verif Require Import Base.Res Cont.ObjMem Cont.DequeModel Cont.VectorSpec Cont.DequeSpec.
Local Open Scope nat_scope.

(** Positions are iterators [begin() + k]; an argument is a fresh value to copy, a fresh value to move from, or a
    reference to the deque's own element number [k]. [bidi]: the inserted range is bidirectional. *)
Inductive dop (A : Type) :=
| DPushBack (a : uarg A) | DPushFront (a : uarg A) | DPopBack | DPopFront
| DEmplace (k : nat) (a : uarg A)                    (* emplace / insert of one element *)
| DInsertN (k n : nat) (a : uarg A)                  (* insert(where, n, val) *)
| DInsertR (bidi : bool) (k : nat) (xs : list A)     (* insert(where, first, last), insert_range *)
| DAppend (xs : list A) | DPrepend (bidi : bool) (xs : list A)
| DErase (i j : nat)                                 (* erase(first, last); erase(where) is [DErase k (k+1)] *)
| DResize (n : nat) (a : uarg A)
| DShrink
| DAssignN (n : nat) (x : A) | DAssignR (xs : list A)
| DClear.
Arguments DPushBack {A} a.
Arguments DPushFront {A} a.
Arguments DPopBack {A}.
Arguments DPopFront {A}.
Arguments DEmplace {A} k a.
Arguments DInsertN {A} k n a.
Arguments DInsertR {A} bidi k xs.
Arguments DAppend {A} xs.
Arguments DPrepend {A} bidi xs.
Arguments DErase {A} i j.
Arguments DResize {A} n a.
Arguments DShrink {A}.
Arguments DAssignN {A} n x.
Arguments DAssignR {A} xs.
Arguments DClear {A}.

Section ops.
  Context {A : Type} (T : traits) (B : nat) (maxb : Z).
  Notation state := (st A deq).
  Implicit Types (l : list (option A)).

  Definition duarg (s : state) (a : uarg A) : arg A :=
    match a with UCopy x => ACopy (Some x) | UMove x => AMove (Some x) | UElem k => ARef (default 0 (eaddr B (loc s) k)) end.
  (** preconditions for a deque of size [n]; insert(where, 0, val) is excluded: see [C24_insert_zero] *)
  Definition dop_pre (n : nat) (op : dop A) : Prop :=
    match op with
    | DPushBack a | DPushFront a | DResize _ a => uarg_ok n a
    | DPopBack | DPopFront => 0 < n
    | DEmplace k a => k <= n /\ uarg_ok n a
    | DInsertN k c a => k <= n /\ uarg_ok n a /\ 0 < c
    | DInsertR _ k _ => k <= n
    | DErase i j => i <= j <= n
    | _ => True
    end.
  (** the sequence afterwards *)
  Definition dop_sem (op : dop A) l : list (option A) :=
    match op with
    | DPushBack a => l ++ [uarg_val l a]
    | DPushFront a => [uarg_val l a] ++ l
    | DPopBack => take (length l - 1) l
    | DPopFront => drop 1 l
    | DEmplace k a => take k l ++ [uarg_val l a] ++ drop k l
    | DInsertN k c a => take k l ++ replicate c (uarg_val l a) ++ drop k l
    | DInsertR _ k xs => take k l ++ (Some <$> xs) ++ drop k l
    | DAppend xs => l ++ (Some <$> xs)
    | DPrepend _ xs => (Some <$> xs) ++ l
    | DErase i j => take i l ++ drop j l
    | DResize c a => take c l ++ replicate (c - length l) (uarg_val l a)
    | DShrink => l
    | DAssignN c x => replicate c (Some x)
    | DAssignR xs => Some <$> xs
    | DClear => []
    end.
  (** the size the call must have room for *)
  Definition dop_need (n : nat) (op : dop A) : nat :=
    match op with
    | DPushBack _ | DPushFront _ | DEmplace _ _ => n + 1
    | DInsertN _ c _ => n + c
    | DInsertR _ _ xs | DAppend xs | DPrepend _ xs => n + length xs
    | DResize c _ | DAssignN c _ => c
    | DAssignR xs => length xs
    | _ => 0
    end.
  (** "if an exception is thrown there are no effects" (references stay valid as well at the two ends) *)
  Definition dop_strong (n : nat) (op : dop A) : Prop :=
    match op with
    | DPushBack _ | DPushFront _ | DAppend _ | DShrink => True
    | DPrepend bidi _ => bidi = true \/ nothrow_moves T
    | DEmplace k _ => k = 0 \/ k = n \/ nothrow_moves T
    | DInsertN k _ _ => k = 0 \/ k = n
    | DInsertR bidi k _ => nothrow_moves T \/ bidi = true /\ k = 0 \/ k = n /\ 0 < n
    | _ => False
    end.
  (** operations that never throw, whatever is scheduled *)
  Definition dop_nothrow (n : nat) (op : dop A) : Prop :=
    match op with
    | DPopBack | DPopFront | DClear => True
    | DErase i j => mathrow T = false \/ i = 0 \/ j = n
    | DResize c _ => c <= n
    | _ => False
    end.
  (** which elements are still the same objects after a successful call: references to them stay valid *)
  Definition dop_refs (n : nat) (op : dop A) (s s' : state) : Prop :=
    let keep := same_objects B s s' in
    match op with
    | DPushBack _ | DAppend _ | DShrink => keep 0 0 n
    | DPushFront _ => keep 0 1 n
    | DPrepend _ xs => keep 0 (length xs) n
    | DPopBack => keep 0 0 (n - 1)
    | DPopFront => keep 1 0 (n - 1)
    | DEmplace k _ => (k = 0 -> keep 0 1 n) /\ (k = n -> keep 0 0 n)
    | DErase i j => (i = 0 -> keep j 0 (n - j)) /\ (j = n -> keep 0 0 i)
    | DResize c _ => keep 0 0 (Nat.min c n)
    | _ => True
    end.
  Definition dexec (op : dop A) : M A deq unit := fun s =>
    match op with
    | DPushBack a => push_back T B maxb (duarg s a) s
    | DPushFront a => push_front T B maxb (duarg s a) s
    | DPopBack => pop_back B s
    | DPopFront => pop_front B s
    | DEmplace k a => emplace T B maxb k (duarg s a) s
    | DInsertN k c a => Insert_n T B maxb k c (duarg s a) s
    | DInsertR bidi k xs => Insert_range T B maxb bidi k (Some <$> xs) s
    | DAppend xs => append_range T B maxb (Some <$> xs) s
    | DPrepend bidi xs => prepend_range T B maxb bidi (Some <$> xs) s
    | DErase i j => erase T B i j s
    | DResize c a => resize T B maxb c (duarg s a) s
    | DShrink => shrink_to_fit B s
    | DAssignN c x => assign_n T B maxb c (Some x) s
    | DAssignR xs => Assign_range T B maxb (Some <$> xs) s
    | DClear => Tidy B s
    end.
  (** schedule [o] for the exceptions of the next call *)
  Definition dwith (s : state) (o : list bool) : state := St (mem s) (brk s) o (loc s).
  (** states a program can reach from an empty deque: any calls within their preconditions, exceptions anywhere *)
  Inductive dreachable : state -> Prop :=
  | dr_empty o : dreachable (empty_deq o)
  | dr_step s op o s' r : dreachable s -> dop_pre (dsize (loc s)) op ->
      dexec op (dwith s o) = Ok (s', r) -> dreachable s'.
End ops.
