(** Specification vocabulary for std::vector: which sequence a vector state represents, and how capacity may change. *)
From stdpp Require Import base list numbers decidable.
From Coq Require Import ZArith Lia.
From Verif Require Import Base.Res Cont.ObjMem Cont.VectorModel.
Local Open Scope nat_scope.

Section spec.
  Context {A : Type} (maxsz : Z).
  Notation state := (st A vec).

  (** The vector represents the sequence [l]: its storage [first, end) holds exactly the objects of [l] in
      [first, last) and raw memory after them; nothing else is allocated (so nothing has leaked); capacity is within
      max_size(). [None] as an element value means "some valid but unspecified (moved-from) value". *)
  Record holds (s : state) (l : list (option A)) : Prop := Holds {
    h_last : mylast (loc s) = myfirst (loc s) + length l;
    h_end : mylast (loc s) <= myend (loc s);
    h_mem : forall q, mem s q =
      if decide (myfirst (loc s) <= q < mylast (loc s)) then Obj (default None (l !! (q - myfirst (loc s))))
      else if decide (mylast (loc s) <= q < myend (loc s)) then Raw else Unalloc;
    h_max : (Z.of_nat (myend (loc s) - myfirst (loc s)) <= maxsz)%Z;
    h_brk : myend (loc s) <= brk s;
    h_brk0 : 0 < brk s;
    h_null : myfirst (loc s) = 0 -> myend (loc s) = 0
  }.

  Definition capacity (s : state) : nat := myend (loc s) - myfirst (loc s).
  (** how an operation that needs room for [n] elements may change the storage: none if [n] fits the old capacity,
      otherwise geometric growth by half, at least [n], at most max_size() *)
  Definition grown (s s' : state) (n : nat) : Prop :=
    if decide (n <= capacity s)
    then myfirst (loc s') = myfirst (loc s) /\ myend (loc s') = myend (loc s)
    else Z.of_nat (capacity s') =
         Z.min maxsz (Z.max (Z.of_nat n) (Z.of_nat (capacity s) + Z.of_nat (capacity s) / 2)).
  (** no exception is scheduled *)
  Definition quiet (s : state) : Prop := Forall (fun b => b = false) (orc s).
  (** the element value an argument denotes *)
  Definition arg_value (s : state) (a : arg A) (v : option A) : Prop :=
    match a with ACopy w => w = v | ARef q => mem s q = Obj v | AMove w => w = v end.
End spec.
(** types for which push_back, resize, reserve and shrink_to_fit promise the strong guarantee *)
Definition strong_type (T : traits) : Prop := mthrow T = false \/ copyable T = true.
(** types none of whose moves throw *)
Definition nothrow_moves (T : traits) : Prop := mthrow T = false /\ mathrow T = false.
(** an empty vector in an otherwise empty memory *)
Definition empty_vec {A} (o : list bool) : st A vec := St (fun _ => Unalloc) 1 o (Vec 0 0 0).

(** Operations of std::vector as a user calls them. Positions are iterators [begin() + k]; an argument is a fresh value
    to copy, a fresh value to move from, or a reference to the vector's own element number [k]. *)
Inductive uarg (A : Type) := UCopy (x : A) | UMove (x : A) | UElem (k : nat).
Arguments UCopy {A} x.
Arguments UMove {A} x.
Arguments UElem {A} k.
Inductive vop (A : Type) :=
| OPushBack (a : uarg A) | OPopBack
| OEmplace (k : nat) (a : uarg A)             (* emplace / insert of one element *)
| OInsertN (k : nat) (n : Z) (a : uarg A)     (* insert(where, n, val) *)
| OInsertR (k : nat) (xs : list A)            (* insert(where, first, last) *)
| OErase1 (k : nat) | OErase (i j : nat)
| OResize (n : Z) (a : uarg A)
| OReserve (n : Z) | OShrink
| OAssignN (n : Z) (x : A) | OAssignR (xs : list A)
| OClear.
Arguments OPushBack {A} a.
Arguments OPopBack {A}.
Arguments OEmplace {A} k a.
Arguments OInsertN {A} k n a.
Arguments OInsertR {A} k xs.
Arguments OErase1 {A} k.
Arguments OErase {A} i j.
Arguments OResize {A} n a.
Arguments OReserve {A} n.
Arguments OShrink {A}.
Arguments OAssignN {A} n x.
Arguments OAssignR {A} xs.
Arguments OClear {A}.

Section ops.
  Context {A : Type} (T : traits) (maxsz : Z).
  Notation state := (st A vec).
  Implicit Types (l : list (option A)).

  Definition uarg_ok (n : nat) (a : uarg A) : Prop := match a with UElem k => k < n | _ => True end.
  Definition uarg_val l (a : uarg A) : option A :=
    match a with UCopy x | UMove x => Some x | UElem k => default None (l !! k) end.
  Definition uarg_arg (s : state) (a : uarg A) : arg A :=
    match a with UCopy x => ACopy (Some x) | UMove x => AMove (Some x) | UElem k => ARef (myfirst (loc s) + k) end.
  Definition size_t (n : Z) : Prop := (0 <= n < 2 ^ 64)%Z.

  (** the preconditions of the standard, for a vector of size [n] *)
  Definition vop_pre (n : nat) (op : vop A) : Prop :=
    match op with
    | OPushBack a => uarg_ok n a
    | OPopBack => 0 < n
    | OEmplace k a => k <= n /\ uarg_ok n a
    | OInsertN k c a => k <= n /\ uarg_ok n a /\ size_t c
    | OInsertR k xs => k <= n /\ size_t (Z.of_nat (length xs))
    | OErase1 k => k < n
    | OErase i j => i <= j <= n
    | OResize c a => size_t c /\ uarg_ok n a
    | OReserve c => size_t c
    | OAssignN c _ => size_t c
    | OAssignR xs => size_t (Z.of_nat (length xs))
    | OShrink | OClear => True
    end.
  (** the mathematical meaning: the sequence afterwards *)
  Definition vop_sem (op : vop A) l : list (option A) :=
    match op with
    | OPushBack a => l ++ [uarg_val l a]
    | OPopBack => take (length l - 1) l
    | OEmplace k a => take k l ++ [uarg_val l a] ++ drop k l
    | OInsertN k c a => take k l ++ replicate (Z.to_nat c) (uarg_val l a) ++ drop k l
    | OInsertR k xs => take k l ++ (Some <$> xs) ++ drop k l
    | OErase1 k => take k l ++ drop (S k) l
    | OErase i j => take i l ++ drop j l
    | OResize c a => take (Z.to_nat c) l ++ replicate (Z.to_nat c - length l) (uarg_val l a)
    | OReserve _ | OShrink => l
    | OAssignN c x => replicate (Z.to_nat c) (Some x)
    | OAssignR xs => Some <$> xs
    | OClear => []
    end.
  (** what the call must have room for *)
  Definition vop_need (n : nat) (op : vop A) : Z :=
    match op with
    | OPushBack _ | OEmplace _ _ => Z.of_nat n + 1
    | OInsertN _ c _ => Z.of_nat n + c
    | OInsertR _ xs => Z.of_nat n + Z.of_nat (length xs)
    | OResize c _ | OReserve c | OAssignN c _ => c
    | OAssignR xs => Z.of_nat (length xs)
    | _ => 0
    end.
  (** operations that promise "if an exception is thrown there are no effects" *)
  Definition vop_strong (n : nat) (op : vop A) : Prop :=
    match op with
    | OPushBack _ | OResize _ _ | OReserve _ | OShrink => strong_type T
    | OEmplace k _ => strong_type T /\ k = n \/ nothrow_moves T
    | OInsertR k xs => strong_type T /\ length xs = 1 /\ k = n \/ nothrow_moves T
    | OInsertN k c _ => strong_type T /\ c = 1%Z /\ k = n
    | _ => False
    end.
  (** operations that never throw, whatever is scheduled *)
  Definition vop_nothrow (op : vop A) : Prop :=
    match op with OPopBack | OClear => True | OErase1 _ | OErase _ _ => mathrow T = false | _ => False end.
  (** what is promised about reallocation when the call succeeds *)
  Definition vop_growth (n : nat) (op : vop A) (s s' : state) : Prop :=
    match op with
    | OReserve c => capacity s' = Nat.max (capacity s) (Z.to_nat c) /\
        ((c <= Z.of_nat (capacity s))%Z -> myfirst (loc s') = myfirst (loc s))
    | OShrink => capacity s' = n
    | _ => grown maxsz s s' (Z.to_nat (vop_need n op))
    end.
  (** run an operation of the model; a returned iterator is reported as an index *)
  Definition vexec (op : vop A) : M A vec (option nat) := fun s =>
    let F := myfirst (loc s) in
    let it (m : M A vec nat) := mbind m (fun p => mbind first_ (fun f => mret (Some (p - f)))) in
    let un (m : M A vec unit) := mbind m (fun _ => mret None) in
    match op with
    | OPushBack a => it (push_back T maxsz (uarg_arg s a)) s
    | OPopBack => un pop_back s
    | OEmplace k a => it (emplace T maxsz (F + k) (uarg_arg s a)) s
    | OInsertN k c a => it (insert_n T maxsz (F + k) c (uarg_arg s a)) s
    | OInsertR k xs => it (insert_range T maxsz (F + k) (Some <$> xs)) s
    | OErase1 k => it (erase1 T (F + k)) s
    | OErase i j => it (erase_range T (F + i) (F + j)) s
    | OResize c a => un (resize T maxsz c (uarg_arg s a)) s
    | OReserve c => un (reserve T maxsz c) s
    | OShrink => un (shrink_to_fit T) s
    | OAssignN c x => un (assign_n T maxsz c (Some x)) s
    | OAssignR xs => un (assign_range T maxsz (Some <$> xs)) s
    | OClear => un clear s
    end.
  (** the index the returned iterator must denote *)
  Definition vop_ret (n : nat) (op : vop A) : option nat :=
    match op with
    | OPushBack _ => Some n
    | OEmplace k _ | OInsertN k _ _ | OInsertR k _ | OErase1 k | OErase k _ => Some k
    | _ => None
    end.
  (** schedule [o] for the exceptions of the next call *)
  Definition with_orc (s : state) (o : list bool) : state := St (mem s) (brk s) o (loc s).
  (** states a program can reach from an empty vector: any calls within their preconditions, exceptions anywhere *)
  Inductive vreachable : state -> Prop :=
  | vr_empty o : vreachable (empty_vec o)
  | vr_step s op o s' r : vreachable s -> vop_pre (mylast (loc s) - myfirst (loc s)) op ->
      vexec op (with_orc s o) = Ok (s', r) -> vreachable s'.
End ops.
