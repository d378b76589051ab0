(** Specification vocabulary for std::deque: which sequence a deque state represents. *)
From stdpp Require Import base list numbers decidable.
From Coq Require Import ZArith Lia.
From Verif Require Import Base.Res Cont.ObjMem Cont.DequeModel Cont.VectorSpec.
Local Open Scope nat_scope.

Section spec.
  Context {A : Type} (B : nat) (maxb : Z).
  Notation state := (st A deq).
  Implicit Types (l : list (option A)).

  (** the blocks the map points to *)
  Definition blocks (d : deq) : list nat := omap id (dmap d).
  (** where the circular map puts offset [o] *)
  Definition slot (d : deq) (o : nat) : option nat :=
    match dmap d !! ((o / B) mod Mapsize d) with Some (Some b) => Some (b + o mod B) | _ => None end.
  (** the address of element number [i] *)
  Definition eaddr (d : deq) (i : nat) : option nat := slot d (doff d + i).

  (** the four fields: the map size is 0 or a power of two (at least 8, at most max_size()/_Block_size), an empty deque
      starts at offset 0, the elements fit in the ring, and the (unmasked) end offset stays below twice the ring size *)
  Record shape (d : deq) (n : nat) : Prop := Shape {
    sh_size : dsize d = n;
    sh_ms : Mapsize d = 0 \/ exists k, Mapsize d = 2 ^ k /\ 3 <= k;
    sh_max : (Z.of_nat (Mapsize d) <= maxb)%Z;
    sh_off0 : n = 0 -> doff d = 0;
    sh_fit : doff d mod B + n <= Mapsize d * B;
    sh_off : Mapsize d = 0 \/ doff d + n + B <= 2 * (Mapsize d * B)
  }.
  (** memory: disjoint blocks below [bk]; element [i] of [l] is an object at the distinct address [f i] inside a block;
      every other slot of a block is raw; nothing else is allocated *)
  Record own (bl : list nat) (bk : nat) (m : nat -> cell A) (f : nat -> option nat) l : Prop := Own {
    ow_nodup : NoDup bl;
    ow_blk : forall b, b ∈ bl -> b + B <= bk;
    ow_disj : forall b b', b ∈ bl -> b' ∈ bl -> b <> b' -> b + B <= b' \/ b' + B <= b;
    ow_inj : forall i j, i < length l -> j < length l -> f i = f j -> i = j;
    ow_in : forall i, i < length l -> exists b r, b ∈ bl /\ r < B /\ f i = Some (b + r);
    ow_elem : forall i p, i < length l -> f i = Some p -> m p = Obj (default None (l !! i));
    ow_raw : forall b r, b ∈ bl -> r < B -> (forall i, i < length l -> f i <> Some (b + r)) -> m (b + r) = Raw;
    ow_out : forall q, (forall b, b ∈ bl -> ~ b <= q < b + B) -> m q = Unalloc
  }.
  (** The deque represents the sequence [l]; nothing has leaked. [None] as an element value means "some valid but
      unspecified (moved-from) value". *)
  Definition dholds (s : state) l : Prop :=
    shape (loc s) (length l) /\ own (blocks (loc s)) (brk s) (mem s) (eaddr (loc s)) l.
  (** elements [i .. i+n) of [s] and [j .. j+n) of [s'] are the same objects: references to them stay valid *)
  Definition same_objects (s s' : state) (i j n : nat) : Prop :=
    forall k, k < n -> eaddr (loc s') (j + k) = eaddr (loc s) (i + k).
End spec.
(** an empty deque in an otherwise empty memory *)
Definition empty_deq {A} (o : list bool) : st A deq := St (fun _ => Unalloc) 1 o (Deq [] 0 0).
