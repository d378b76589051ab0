(** Vocabulary for basic_string: what a string object represents, what memory it owns, and what an operation must do. *)
From stdpp Require Import base list numbers gmap.
From Verif Require Import Text.StringModel.
Local Open Scope nat_scope.

Section spec.
  Context {E : Type} (nul : E) (SSO mx : nat).
  Notation ST := (@ST E). Notation region := (@region E).
  Context (orc : gmap nat region -> nat -> option (nat * Z * nat)).
  Implicit Types st : ST.
  Implicit Types l m : list E.
  Implicit Types d : list (option E).

  (** the cells from [o] on are the characters [l] *)
  Definition holds d (o : nat) l : Prop := forall i, i < length l -> d !! (o + i) = Some (l !! i).
  (** the region that holds the characters of a string *)
  Definition cur (this : nat) (v : strval) : nat := default this (sblk v).
  Definition sso_ok st (this : nat) : Prop := exists g, smem st this = Some g /\ rheap g = false /\ length (rdata g) = SSO + 1.
  (** the storage: [capacity() + 1] cells, in the object itself exactly if the capacity is the small one, else a heap block of that size *)
  Definition shape st (this : nat) d : Prop :=
    let v := sstr st this in
    sso_ok st this /\ ssz v <= sres v <= mx /\ length d = sres v + 1 /\
    (exists g, smem st (cur this v) = Some g /\ rdata g = d /\ rheap g = bool_decide (is_Some (sblk v))) /\
    match sblk v with None => sres v = SSO | Some b => SSO < sres v end.
  (** [this] is a string with the characters [l]: data() points to them and a null character follows *)
  Definition rep st (this : nat) l : Prop :=
    exists d, shape st this d /\ length l = ssz (sstr st this) /\ holds d 0 l /\ d !! length l = Some (Some nul).
  (** storage in which a string can be constructed; it owns nothing *)
  Definition raw st (this : nat) : Prop := sso_ok st this /\ sblk (sstr st this) = None.
  Definition capacity st (this : nat) : nat := sres (sstr st this).
  Definition data st (this : nat) : ptr := (cur this (sstr st this), 0).
  (** the characters [m] can be read from [p] (an empty sequence from anywhere) *)
  Definition reads st (p : ptr) m : Prop := m = [] \/ exists g, smem st (fst p) = Some g /\ holds (rdata g) (snd p) m.
  (** ... and if they are part of the string itself, they are part of [data(), data() + size()], including the null character *)
  Definition source st (this : nat) (p : ptr) m : Prop :=
    reads st p m /\ (fst p = fst (data st this) -> snd p + length m <= ssz (sstr st this) + 1).

  (** distinct regions do not overlap *)
  Definition disjoint_ranges (b1 : Z) (n1 : nat) (b2 : Z) (n2 : nat) : Prop := (b1 + Z.of_nat n1 <= b2 \/ b2 + Z.of_nat n2 <= b1)%Z.
  Definition wfm st : Prop := forall r1 r2 g1 g2, r1 <> r2 -> smem st r1 = Some g1 -> smem st r2 = Some g2 ->
    disjoint_ranges (rbase g1) (length (rdata g1)) (rbase g2) (length (rdata g2)).
  (** the allocator returns fresh, disjoint memory, at least as much as requested and no more than max_size() allows *)
  Definition allocator_ok : Prop := forall mem n b base k, orc mem n = Some (b, base, k) ->
    mem !! b = None /\ (n <= mx + 1 -> n <= k <= mx + 1) /\
    forall r g, mem !! r = Some g -> disjoint_ranges base (k `max` n) (rbase g) (length (rdata g)).

  (** the blocks owned by the strings [T] *)
  Definition owned st (T : list nat) (b : nat) : Prop := exists t, t ∈ T /\ sblk (sstr st t) = Some b.
  (** an operation on the strings [T] changes nothing but these strings and the blocks they own before or afterwards; blocks no longer
      owned have been deallocated, blocks newly owned are new *)
  Definition frame (T : list nat) st st' : Prop :=
    (forall t, t ∉ T -> sstr st' t = sstr st t) /\
    (forall r, r ∉ T -> ~ owned st T r -> ~ owned st' T r -> smem st' r = smem st r) /\
    (forall b, owned st' T b -> ~ owned st T b -> smem st b = None) /\
    (forall b, owned st T b -> ~ owned st' T b -> smem st' b = None).

  (** a modification of [this] that is to produce the characters [l'], if [valid] holds *)
  Definition effect (this : nat) st (valid : Prop) l' (r : outcome (E := E) unit) : Prop :=
    match r with
    | Ok _ st' =>
      valid /\ rep st' this l' /\ frame [this] st st' /\ wfm st' /\
      if decide (length l' <= capacity st this)
      then capacity st' this = capacity st this /\ data st' this = data st this
      else (capacity st this + capacity st this / 2) `min` mx <= capacity st' this
    | Throw e st' =>
      st' = st /\
      match e with
      | OutOfRange => ~ valid
      | LengthError => valid /\ mx < length l'
      | BadAlloc => valid /\ capacity st this < length l' <= mx /\ exists n, length l' < n <= mx + 1 /\ orc (sheap st) n = None
      end
    | UB => False
    end.
  (** an operation on [this] that leaves the characters [l'] and makes [P] hold, or fails for a reason in [R] and changes nothing *)
  Definition leaves (this : nat) st l' (P : ST -> Prop) (R : err -> Prop) (r : outcome (E := E) unit) : Prop :=
    match r with
    | Ok _ st' => rep st' this l' /\ frame [this] st st' /\ wfm st' /\ P st'
    | Throw e st' => st' = st /\ R e
    | UB => False
    end.
  (** why a request for a capacity of [n] may fail *)
  Definition no_room st (n : nat) (e : err) : Prop :=
    match e with
    | OutOfRange => False
    | LengthError => mx < n
    | BadAlloc => n <= mx /\ exists k, n < k <= mx + 1 /\ orc (sheap st) k = None
    end.
  (** the construction of a new string at [this] from [valid] arguments, the strings [T] being modified or not *)
  Definition constructs (this : nat) st (valid : Prop) l' (r : outcome (E := E) unit) : Prop :=
    match r with
    | Ok _ st' => valid /\ rep st' this l' /\ frame [this] st st' /\ wfm st' /\ SSO <= capacity st' this
    | Throw e st' =>
      sheap st' = sheap st /\ (forall t, t <> this -> sstr st' t = sstr st t) /\ raw st' this /\
      match e with
      | OutOfRange => ~ valid
      | LengthError => valid /\ mx < length l'
      | BadAlloc => valid /\ SSO < length l' <= mx /\ exists n, length l' < n <= mx + 1 /\ orc (sheap st) n = None
      end
    | UB => False
    end.
  (** two string objects that do not share storage *)
  Definition apart st (a b : nat) : Prop :=
    a <> b /\ (forall x, sblk (sstr st a) = Some x -> sblk (sstr st b) <> Some x).
End spec.

(** *** the characters an operation must produce *)
Section contents.
  Context {E : Type}.
  Implicit Types l m : list E.
  (** insert(off, m), erase(off, n), replace(off, n, m), substr(off, n), resize(n, c) *)
  Definition inserted l (off : nat) m : list E := take off l ++ m ++ drop off l.
  Definition erased l (off n : nat) : list E := take off l ++ drop (off + n) l.
  Definition replaced l (off n : nat) m : list E := take off l ++ m ++ drop (off + n) l.
  Definition sub l (off n : nat) : list E := take n (drop off l).
  Definition resized l (n : nat) (c : E) : list E := take n l ++ replicate (n - length l) c.
End contents.
