(** Object memory with lifetimes, allocation and exceptions, used by the container models.
    Addresses are natural numbers (one unit per element slot). A slot is unallocated, raw storage, or holds an object
    whose value is known ([Some a]) or unspecified because it was moved from ([None]).
    Constructing over an object, destroying raw storage, using raw storage as an object, and deallocating a block that
    still holds an object (a leak) are all [UB].
    [orc] decides which of the following potentially throwing actions throw: every theorem quantifies over it, so it
    covers an exception at every possible point, and several exceptions in one operation. *)
From stdpp Require Import base list numbers decidable.
From Coq Require Import Lia.
From Verif Require Import Base.Res.

Inductive cell (A : Type) : Type :=
| Unalloc
| Raw
| Obj (v : option A).
Arguments Unalloc {A}.
Arguments Raw {A}.
Arguments Obj {A} v.

(** What element type the container is instantiated with. *)
Record traits := Traits {
  mthrow : bool;   (** the move constructor may throw: !is_nothrow_move_constructible_v *)
  mathrow : bool;  (** move assignment may throw *)
  copyable : bool  (** is_copy_constructible_v *)
}.

Section mem.
  Context {A : Type} {L : Type}.

  Record st := St { mem : nat -> cell A; brk : nat; orc : list bool; loc : L }.
  Definition set_mem (s : st) (m : nat -> cell A) : st := St m (brk s) (orc s) (loc s).
  Definition set_loc (s : st) (l : L) : st := St (mem s) (brk s) (orc s) l.
  Definition upd (m : nat -> cell A) (p : nat) (c : cell A) : nat -> cell A :=
    fun q => if decide (q = p) then c else m q.

  (** [None] in the result: an exception left the function *)
  Definition M (X : Type) : Type := st -> res (st * option X).
  Definition mret {X} (x : X) : M X := fun s => Ok (s, Some x).
  Definition mbind {X Y} (m : M X) (f : X -> M Y) : M Y := fun s =>
    rbind (m s) (fun '(s', o) => match o with Some x => f x s' | None => Ok (s', None) end).
  Definition mthrow_ {X} : M X := fun s => Ok (s, None).
  Definition mub {X} : M X := fun _ => UB.
  Definition mget {X} (f : st -> X) : M X := fun s => Ok (s, Some (f s)).
  Definition mloc : M L := mget loc.
  Definition mput (l : L) : M unit := fun s => Ok (set_loc s l, Some tt).
  (** run [h] when an exception leaves [m], then let it propagate: destructors of guards during unwinding,
      or catch (...) { h; throw; } *)
  Definition on_throw {X} (m : M X) (h : M unit) : M X := fun s =>
    rbind (m s) (fun '(s', o) => match o with
      | Some x => Ok (s', Some x)
      | None => rbind (h s') (fun '(s'', _) => Ok (s'', None))
      end).
  (** a potentially throwing action *)
  Definition tick : M unit := fun s => match orc s with
    | [] => Ok (s, Some tt)
    | b :: o => Ok (St (mem s) (brk s) o (loc s), if b then None else Some tt)
    end.
  Definition mwhen (b : bool) (m : M unit) : M unit := if b then m else mret tt.

  Definition peek (p : nat) : M (option A) := fun s => match mem s p with
    | Obj v => Ok (s, Some v) | _ => UB end.
  Definition poke (p : nat) (v : option A) : M unit := fun s => match mem s p with
    | Obj _ => Ok (set_mem s (upd (mem s) p (Obj v)), Some tt) | _ => UB end.
  Definition construct (p : nat) (v : option A) : M unit := fun s => match mem s p with
    | Raw => Ok (set_mem s (upd (mem s) p (Obj v)), Some tt) | _ => UB end.
  Definition destroy (p : nat) : M unit := fun s => match mem s p with
    | Obj _ => Ok (set_mem s (upd (mem s) p Raw), Some tt) | _ => UB end.
  (** allocator::allocate(n): may throw bad_alloc; otherwise returns raw storage nobody else uses *)
  Definition alloc (n : nat) : M nat := mbind tick (fun _ s =>
    Ok (St (fun q => if decide (brk s <= q < brk s + n) then Raw else mem s q) (brk s + n) (orc s) (loc s), Some (brk s))).
  (** allocator::deallocate(p, n): no object may be left in the block *)
  Definition dealloc (p n : nat) : M unit := fun s =>
    if forallb (fun i => match mem s (p + i) with Raw => true | _ => false end) (seq 0 n)
    then Ok (set_mem s (fun q => if decide (p <= q < p + n) then Unalloc else mem s q), Some tt)
    else UB.

  (** for (i = 0; i < n; ++i) body(i) *)
  Fixpoint for_from (n i : nat) (body : nat -> M unit) : M unit :=
    match n with 0 => mret tt | S n' => mbind (body i) (fun _ => for_from n' (S i) body) end.
  Definition for_ (n : nat) (body : nat -> M unit) : M unit := for_from n 0 body.
End mem.
Arguments st : clear implicits.
Arguments M : clear implicits.

Notation "x <<- m ;; k" := (mbind m (fun x => k)) (at level 100, m at next level, right associativity).
Notation "m ;;; k" := (mbind m (fun _ => k)) (at level 100, right associativity).

(** The argument of push_back/emplace/insert: an outside lvalue (copied), a reference to an element of the container
    itself (copied), or an outside rvalue (moved from). *)
Inductive arg (A : Type) : Type :=
| ACopy (v : option A)
| ARef (p : nat)
| AMove (v : option A).
Arguments ACopy {A} v.
Arguments ARef {A} p.
Arguments AMove {A} v.

Section ops.
  Context {A L : Type} (T : traits).
  Notation M := (M A L).

  (** construct *p from an argument: copy constructors may throw, move constructors only if the traits say so *)
  Definition construct_arg (p : nat) (a : arg A) : M unit :=
    match a with
    | ACopy v => tick ;;; construct p v
    | ARef q => v <<- peek q ;; tick ;;; construct p v
    | AMove v => mwhen (mthrow T) tick ;;; construct p v
    end.
  (** a local temporary built from the argument (xmemory _Alloc_temporary2); its own storage is not tracked *)
  Definition temp_arg (a : arg A) : M (option A) :=
    match a with
    | ACopy v => tick ;;; mret v
    | ARef q => v <<- peek q ;; tick ;;; mret v
    | AMove v => mwhen (mthrow T) tick ;;; mret v
    end.
  (** ::new (d) T(move( *s)): a throwing move leaves the source unspecified *)
  Definition move_construct (d s : nat) : M unit :=
    v <<- peek s ;;
    on_throw (mwhen (mthrow T) tick) (poke s None) ;;;
    construct d v ;;; poke s None.
  (** ::new (d) T( *s) *)
  Definition copy_construct (d s : nat) : M unit := v <<- peek s ;; tick ;;; construct d v.
  (** *d = move( *s): a throwing assignment leaves both sides unspecified *)
  Definition move_assign (d s : nat) : M unit :=
    v <<- peek s ;;
    on_throw (mwhen (mathrow T) tick) (poke s None ;;; poke d None) ;;;
    poke d v ;;; poke s None.
  (** *d = v (copy): a throwing assignment leaves the target unspecified *)
  Definition copy_assign (d : nat) (v : option A) : M unit :=
    on_throw tick (poke d None) ;;; poke d v.

  (** xmemory:1102-1110 _Destroy_range(_First, _Last) *)
  Definition Destroy_range (f l : nat) : M unit := for_ (l - f) (fun i => destroy (f + i)).
  (** xmemory:1851-1881 _Uninitialized_backout_al: build n objects from dst on; when one construction throws, the
      objects built so far are destroyed. Returns the end of the built range. *)
  Fixpoint ubuild (n i dst : nat) (mk : nat -> M unit) : M nat :=
    match n with
    | 0 => mret (dst + i)
    | S n' => on_throw (mk i) (Destroy_range dst (dst + i)) ;;; ubuild n' (S i) dst mk
    end.
  (** xmemory:2000-2027 _Uninitialized_move(_First, _Last, _Dest); the memcpy path for trivial types is not modelled *)
  Definition Uninitialized_move (f l d : nat) : M nat := ubuild (l - f) 0 d (fun i => move_construct (d + i) (f + i)).
  (** xmemory:1884-1930 _Uninitialized_copy (source: objects of the container) *)
  Definition Uninitialized_copy (f l d : nat) : M nat := ubuild (l - f) 0 d (fun i => copy_construct (d + i) (f + i)).
  (** xmemory:2030-2060 _Uninitialized_fill_n(_First, _Count, _Val); memset paths not modelled *)
  Definition Uninitialized_fill_n (d n : nat) (a : arg A) : M nat := ubuild n 0 d (fun i => construct_arg (d + i) a).
  (** xmemory:1933-1966 _Uninitialized_copy_n from an outside range holding [vs] *)
  Definition Uninitialized_copy_n (vs : list (option A)) (d : nat) : M nat :=
    ubuild (length vs) 0 d (fun i => match vs !! i with Some v => construct_arg (d + i) (ACopy v) | None => mub end).
  (** xutility:5433-5454 _Move_unchecked *)
  Definition Move_unchecked (f l d : nat) : M nat := for_ (l - f) (fun i => move_assign (d + i) (f + i)) ;;; mret (d + (l - f)).
  (** xutility:5479-5496 _Move_backward_unchecked *)
  Definition Move_backward_unchecked (f l d : nat) : M unit :=
    for_ (l - f) (fun i => move_assign (d - 1 - i) (l - 1 - i)).
  (** xutility fill / fill_n over [f, l) *)
  Definition fill (f l : nat) (v : option A) : M unit := for_ (l - f) (fun i => copy_assign (f + i) v).
End ops.
