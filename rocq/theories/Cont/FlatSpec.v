(** What a sorted associative container is, in terms of the sequence of its entries. *)
From stdpp Require Import base list numbers.
From Verif Require Import Base.Res Base.Order Cont.FlatModel.

Section spec.
  Context {K : Type} (lt : K -> K -> bool).
  Definition equiv (x y : K) : bool := negb (lt x y) && negb (lt y x).
  (** every key is less than all later ones: sorted, and no two equivalent *)
  Definition strictly (l : list K) : Prop := forall i j x y, (i < j)%nat -> l !! i = Some x -> l !! j = Some y -> lt x y = true.
  (** flat_map/flat_set ([uniq]) or flat_multimap/flat_multiset *)
  Definition ordered (uniq : bool) (l : list K) : Prop := if uniq then strictly l else sorted lt l.
  (** the number of keys less than [k], not greater than [k], equivalent to [k] *)
  Definition below (k : K) (l : list K) : nat := length (List.filter (fun x => lt x k) l).
  Definition upto (k : K) (l : list K) : nat := length (List.filter (fun x => negb (lt k x)) l).
  Definition equivs (k : K) (l : list K) : nat := length (List.filter (equiv k) l).
  Definition has (k : K) (l : list K) : Prop := exists x, x ∈ l /\ equiv k x = true.
End spec.
Definition insert_at {A : Type} (i : nat) (x : A) (l : list A) : list A := take i l ++ x :: drop i l.

(** Whatever steps throw, [m] run from [s] is defined and ends in a state as described: [Q] when it returns, [E] when it throws; and it
    returns when nothing throws. *)
Definition run {S A : Type} (m : fm S A) (s : S) (Q : A -> S -> Prop) (E : S -> Prop) : Prop :=
  forall o, exists x o' s', m o s = Ok (x, o', s') /\ (o = [] -> o' = [] /\ exists a, x = Ret a) /\
    match x with Ret a => Q a s' | Thrown => E s' end.

(** a flat_map: its entries, and the class invariant *)
Definition entries {K M : Type} (s : fmap_ K M) : list (K * M) := zip (ks s) (vs s).
Definition fok {K M : Type} (lt : K -> K -> bool) (uniq : bool) (s : fmap_ K M) : Prop :=
  length (ks s) = length (vs s) /\ ordered lt uniq (ks s).
(** after an exception: nothing has happened, or the container is empty *)
Definition failed {S : Type} (empty s s' : S) : Prop := s' = s \/ s' = empty.

(** [new] has been merged into [old]: the result is ordered and has, of every class of equivalent entries, those of [old] and then those
    of [new] ([sorting]: in some order), or only the first of them *)
Definition merged {A : Type} (lt : A -> A -> bool) (uniq sorting : bool) (old new w : list A) : Prop :=
  ordered lt uniq w /\
  exists new', new' ≡ₚ new /\ (sorting = false -> new' = new) /\
    forall x, List.filter (equiv lt x) w = (if uniq then take 1 else id) (List.filter (equiv lt x) (old ++ new')).
(** entries are ordered by their keys *)
Definition by_key {K M : Type} (lt : K -> K -> bool) (x y : K * M) : bool := lt (fst x) (fst y).
(** where a hinted insertion goes: as close as possible to the hint *)
Definition hint_pos {K : Type} (lt : K -> K -> bool) (pos : nat) (k : K) (l : list K) : nat := Nat.max (below lt k l) (Nat.min pos (upto lt k l)).
(** the mapped value found for a key *)
Definition value_of {K M : Type} (lt : K -> K -> bool) (k : K) (l : list (K * M)) : option M :=
  snd <$> head (List.filter (fun e => equiv lt k (fst e)) l).
(** after an exception of an operation that may assign to the mapped value of [k]: additionally, that value may have changed *)
Definition assign_failed {K M : Type} (lt : K -> K -> bool) (k : K) (s s' : fmap_ K M) : Prop :=
  failed empty s s' \/ ks s' = ks s /\ length (vs s') = length (vs s) /\ forall i x, ks s !! i = Some x -> equiv lt k x = false -> vs s' !! i = vs s !! i.

(** *** the modifying operations, for histories *)
Inductive mop (K M : Type) : Type :=
| MEmplace (k : K) (m : M) | MHint (overwrite : bool) (pos : nat) (k : K) (m : M) | MAssign (k : K) (m : M) | MSubscript (d : M) (k : K)
| MRange (sorting : bool) (l : list (K * M)) | MEraseRange (i j : nat) | MEraseKey (k : K) | MEraseIf (p : K * M -> bool)
| MReplace (k : list K) (v : list M) | MConstruct (k : list K) (v : list M) | MClear.
Arguments MEmplace {K M}. Arguments MHint {K M}. Arguments MAssign {K M}. Arguments MSubscript {K M}. Arguments MRange {K M}. Arguments MEraseRange {K M}.
Arguments MEraseKey {K M}. Arguments MEraseIf {K M}. Arguments MReplace {K M}. Arguments MConstruct {K M}. Arguments MClear {K M}.
Inductive sop (K : Type) : Type :=
| SEmplace (k : K) | SHint (pos : nat) (k : K) | SRange (sorting : bool) (l : list K) | SEraseRange (i j : nat) | SEraseKey (k : K) | SEraseIf (p : K -> bool)
| SReplace (k : list K) | SConstruct (k : list K) | SClear.
Arguments SEmplace {K}. Arguments SHint {K}. Arguments SRange {K}. Arguments SEraseRange {K}. Arguments SEraseKey {K}. Arguments SEraseIf {K}. Arguments SReplace {K}. Arguments SConstruct {K}. Arguments SClear {K}.
Section history.
  Context {K M : Type} (lt : K -> K -> bool) (uniq single : bool) (cap : nat).
  Notation vd m := (fbind m (fun _ => fret tt)).
  Definition mexec (op : mop K M) : fm (fmap_ K M) unit :=
    match op with
    | MEmplace k m => vd (Try_emplace lt uniq k m) | MHint ov pos k m => vd (Emplace_hint lt uniq ov pos k m)
    | MAssign k m => vd (Insert_or_assign lt uniq k m) | MSubscript d k => vd (Subscript lt uniq d k)
    | MRange so l => Insert_range lt uniq cap so l | MEraseRange i j => vd (erase_range i j) | MEraseKey k => vd (Erase_key lt uniq k)
    | MEraseIf p => vd (Erase_if p) | MReplace k v => replace k v | MConstruct k v => construct lt uniq cap k v | MClear => clear
    end.
  (** what the caller must ensure *)
  Definition mvalid (op : mop K M) (s : fmap_ K M) : Prop :=
    match op with
    | MHint ov pos _ _ => (pos <= length (ks s))%nat
    | MAssign _ _ | MSubscript _ _ => uniq = true
    | MRange so l => so = false -> ordered lt uniq (fst <$> l)
    | MEraseRange i j => (i <= j <= length (ks s))%nat
    | MReplace k v => length k = length v /\ ordered lt uniq k
    | MConstruct k v => length k = length v
    | _ => True
    end.
  Definition sexec (op : sop K) : fm (list K) unit :=
    match op with
    | SEmplace k => vd (sEmplace lt uniq single k) | SHint pos k => vd (sEmplace_hint lt uniq single pos k) | SRange so l => sInsert_range lt uniq cap so l
    | SEraseRange i j => vd (serase_range i j) | SEraseKey k => vd (sErase_key lt uniq k) | SEraseIf p => vd (sErase_if p)
    | SReplace k => sreplace k | SConstruct k => sconstruct lt uniq cap k | SClear => sclear
    end.
  Definition svalid (op : sop K) (s : list K) : Prop :=
    match op with
    | SHint pos _ => (pos <= length s)%nat
    | SRange so l => so = false -> ordered lt uniq l
    | SEraseRange i j => (i <= j <= length s)%nat
    | SReplace k => ordered lt uniq k
    | _ => True
    end.
  (** the states that a history of valid operations leads to; each operation may throw at any step *)
  Inductive mreach : fmap_ K M -> Prop :=
  | mreach_new : mreach empty
  | mreach_op s op o x o' s' : mreach s -> mvalid op s -> mexec op o s = Ok (x, o', s') -> mreach s'.
  Inductive sreach : list K -> Prop :=
  | sreach_new : sreach []
  | sreach_op s op o x o' s' : sreach s -> svalid op s -> sexec op o s = Ok (x, o', s') -> sreach s'.
End history.
