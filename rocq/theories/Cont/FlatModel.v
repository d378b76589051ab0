(** Model of flat_map, flat_multimap (flat_map), flat_set, flat_multiset (flat_set).
    Iterators are indices. The underlying sequence containers are lists; the algorithms called (lower_bound, upper_bound, equal_range,
    binary_search, sort, inplace_merge, unique, remove_if) are the models of Alg/. Every step may throw, because it calls the comparator,
    a predicate, an element operation or the allocator: an oracle decides which step throws, and what a throwing modification leaves
    behind is arbitrary. _STL_ASSERT, _STL_INTERNAL_CHECK and iterator debugging are omitted. *)
From stdpp Require Import base list numbers.
From Verif Require Import Base.Res Base.Arr Alg.SearchModel Alg.SortModel Alg.MergeModel Alg.PartitionModel.

(** *** programs that may throw *)
Inductive out (A : Type) : Type := Ret (a : A) | Thrown.
Arguments Ret {A} a.
Arguments Thrown {A}.
(** oracle: for each coming step, [Some g] if it throws (a modification then leaves [g]); the empty list: no more exceptions *)
Definition fm (S A : Type) : Type := list (option S) -> S -> res (out A * list (option S) * S).
Section monad.
  Context {S : Type}.
  Definition fret {A : Type} (a : A) : fm S A := fun o s => Ok (Ret a, o, s).
  Definition fbind {A B : Type} (m : fm S A) (f : A -> fm S B) : fm S B := fun o s =>
    '(x, o, s) <~ m o s ;; match x with Ret a => f a o s | Thrown => Ok (Thrown, o, s) end.
  (** does the next step throw? *)
  Definition tick (o : list (option S)) : option S * list (option S) := match o with [] => (None, []) | x :: o => (x, o) end.
  (** a step that does not modify the containers *)
  Definition peek {A : Type} (f : S -> res A) : fm S A := fun o s =>
    match tick o with (Some _, o) => Ok (Thrown, o, s) | (None, o) => a <~ f s ;; Ok (Ret a, o, s) end.
  (** a modification *)
  Definition mut (f : S -> res S) : fm S unit := fun o s =>
    match tick o with (Some g, o) => Ok (Thrown, o, g) | (None, o) => s <~ f s ;; Ok (Ret tt, o, s) end.
  (** a modification that has no effect if it throws *)
  Definition mut_strong (f : S -> res S) : fm S unit := fun o s =>
    match tick o with (Some _, o) => Ok (Thrown, o, s) | (None, o) => s <~ f s ;; Ok (Ret tt, o, s) end.
  (** { _Clear_guard _Guard{this}; m; _Guard._Target = nullptr; } (vector:4179-4191) *)
  Definition guarded {A : Type} (empty : S) (m : fm S A) : fm S A := fun o s =>
    '(x, o, s) <~ m o s ;; match x with Ret a => Ok (Ret a, o, s) | Thrown => Ok (Thrown, o, empty) end.
  (** functions that are noexcept *)
  Definition nothrow (f : S -> S) : fm S unit := fun o s => Ok (Ret tt, o, f s).
End monad.
Notation "x <-- m ;; k" := (fbind m (fun x => k)) (at level 100, m at next level, right associativity).
Notation "m ;;; k" := (fbind m (fun _ => k)) (at level 100, right associativity).

(** *** sequence containers *)
Section seqc.
  Context {A : Type}.
  (** c.emplace(it, x), c.insert(it, x) *)
  Definition ins (l : list A) (i : nat) (x : A) : res (list A) := if decide (i <= length l)%nat then Ok (take i l ++ x :: drop i l) else UB.
  (** c.erase(first, last) *)
  Definition ers (l : list A) (i j : nat) : res (list A) := if decide (i <= j <= length l)%nat then Ok (take i l ++ drop j l) else UB.
  (** the values of cells, none of which may be moved-from *)
  Fixpoint values_of (a : arr A) : res (list A) :=
    match a with [] => Ok [] | Some x :: a => l <~ values_of a ;; Ok (x :: l) | None :: _ => UB end.
  (** is_sorted_until (algorithm:11776-11785): the loop without vectorisation *)
  Fixpoint sorted_until (lt : A -> A -> bool) (x : A) (l : list A) : nat :=
    match l with [] => 1 | y :: l => if lt y x then 1 else S (sorted_until lt y l) end.
  Definition is_sorted_until (lt : A -> A -> bool) (l : list A) : nat := match l with [] => 0 | x :: l => sorted_until lt x l end.
  (** std::unique or remove_if on the whole container, then erase to its end *)
  Definition then_erase (m : res (arr A * nat)) : res (list A) := '(a, r) <~ m ;; if decide (r <= length a)%nat then values_of (take r a) else UB.
End seqc.

(** *** flat_map, flat_multimap *)
Section map.
  Context {K M : Type} (lt : K -> K -> bool) (uniq : bool) (cap : nat).
  Record fmap_ := FM { ks : list K; vs : list M }.
  Notation st := fmap_.
  Notation P := (fm st).
  Definition empty : st := FM [] [].
  Definition ksize (s : st) : nat := length (ks s).
  Definition lb (s : st) (f t : nat) (k : K) : res nat := lower_bound lt (full (ks s)) f t k.
  Definition ub (s : st) (f t : nat) (k : K) : res nat := upper_bound lt (full (ks s)) f t k.
  Definition key (s : st) (i : nat) : res K := rd (full (ks s)) i.
  (** clear (flat_map:755-758) *)
  Definition clear : P unit := nothrow (fun _ => empty).
  (** _Emplace_exact (flat_map:1075-1081) *)
  Definition Emplace_exact (i : nat) (k : K) (m : M) : P unit :=
    guarded empty (
      mut (fun s => l <~ ins (ks s) i k ;; Ok (FM l (vs s))) ;;;
      mut (fun s => l <~ ins (vs s) i m ;; Ok (FM (ks s) l))).
  (** _Try_emplace (flat_map:881-910): position, inserted *)
  Definition Try_emplace (k : K) (m : M) : P (nat * bool) :=
    i <-- peek (fun s => ub s 0 (ksize s) k) ;;
    found <-- (if uniq && negb (i =? 0)%nat then peek (fun s => x <~ key s (i - 1) ;; Ok (negb (lt x k))) else fret false) ;;
    if found then fret ((i - 1)%nat, false) else (Emplace_exact i k m ;;; fret (i, true)).
  (** _Position == _End || c( *_Position) *)
  Definition at_end_or (pos : nat) (c : K -> bool) : P bool := peek (fun s => if (pos =? ksize s)%nat then Ok true else x <~ key s pos ;; Ok (c x)).
  (** _Position == _Begin || c( *(_Position - 1)) *)
  Definition at_begin_or (pos : nat) (c : K -> bool) : P bool := peek (fun s => if (pos =? 0)%nat then Ok true else x <~ key s (pos - 1) ;; Ok (c x)).
  (** assignment to a mapped value: a throwing assignment may leave any value *)
  Definition assign (i : nat) (m : M) : P unit := fun o s =>
    if decide (i < length (vs s))%nat then
      match tick o with
      | (Some g, o) => Ok (Thrown, o, FM (ks s) (match vs g with v :: _ => <[i := v]> (vs s) | [] => vs s end))
      | (None, o) => Ok (Ret tt, o, FM (ks s) (<[i := m]> (vs s)))
      end
    else UB.
  (** _Emplace_hint (flat_map:912-974) *)
  Definition Emplace_hint (overwrite : bool) (pos : nat) (k : K) (m : M) : P nat :=
    h <-- (if uniq
           then c <-- at_end_or pos (fun x => lt k x) ;;
                if c then d <-- at_begin_or pos (fun x => lt x k) ;; fret (if d then Eq else Gt) else fret Lt
           else c <-- at_end_or pos (fun x => negb (lt x k)) ;;
                if c then d <-- at_begin_or pos (fun x => negb (lt k x)) ;; fret (if d then Eq else Gt) else fret Lt) ;;
    np <-- match h with Eq => fret pos | Lt => peek (fun s => lb s pos (ksize s) k) | Gt => peek (fun s => ub s 0 pos k) end ;;
    dup <-- (if uniq then
               match h with
               | Lt => peek (fun s => if (np =? ksize s)%nat then Ok None else x <~ key s np ;; Ok (if lt k x then None else Some np))
               | Gt => peek (fun s => if (np =? 0)%nat then Ok None else x <~ key s (np - 1) ;; Ok (if lt x k then None else Some (np - 1)%nat))
               | Eq => fret None
               end
             else fret None) ;;
    match dup with
    | Some i => if overwrite then assign i m ;;; fret i else fret i
    | None => Emplace_exact np k m ;;; fret np
    end.
  (** flat_map::_Insert_or_assign (flat_map:1399-1406) *)
  Definition Insert_or_assign (k : K) (m : M) : P (nat * bool) :=
    r <-- Try_emplace k m ;;
    if snd r then fret r else (assign (fst r) m ;;; fret r).
  (** the pairs of _View_to_mutate (flat_map:993-998) *)
  Definition view (s : st) : res (list (K * M)) := if decide (length (ks s) = length (vs s)) then Ok (zip (ks s) (vs s)) else UB.
  Definition of_view (l : list (K * M)) : st := FM (fst <$> l) (snd <$> l).
  (** _Value_compare_to_pass (flat_map:1000-1012) and _Erase_dupes_if_not_multi_pred (1014-1027; the == variant is used only where it
      means the same) *)
  Definition ltp (x y : K * M) : bool := lt (fst x) (fst y).
  Definition dupes (x y : K * M) : bool := negb (ltp x y).
  (** _Restore_invariants (flat_map:1029-1059). std::unique and the two erases are one step. *)
  Definition Restore (sorting : bool) (old : nat) : P unit :=
    (if sorting then mut (fun s => l <~ view s ;; a <~ sort ltp (full l) old (length l) ;; l <~ values_of a ;; Ok (of_view l)) else fret tt) ;;;
    mut (fun s => l <~ view s ;; a <~ inplace_merge ltp cap (full l) 0 old (length l) ;; l <~ values_of a ;; Ok (of_view l)) ;;;
    (if uniq then mut (fun s => l <~ view s ;; l <~ then_erase (unique dupes (full l) 0 (length l)) ;; Ok (of_view l)) else fret tt).
  (** _Establish_invariants (flat_map:1061-1072) *)
  Definition Establish : P unit :=
    n <-- peek (fun s => Ok (ksize s)) ;;
    if (n =? 0)%nat then fret tt else
    u <-- peek (fun s => Ok (is_sorted_until lt (ks s))) ;;
    Restore true u.
  (** _Insert_range (flat_map:1083-1110) *)
  Fixpoint push_all (l : list (K * M)) : P unit :=
    match l with
    | [] => fret tt
    | e :: l =>
      mut (fun s => Ok (FM (ks s ++ [fst e]) (vs s))) ;;;
      mut (fun s => Ok (FM (ks s) (vs s ++ [snd e]))) ;;;
      push_all l
    end.
  Definition Insert_range (sorting : bool) (l : list (K * M)) : P unit :=
    guarded empty (
      old <-- peek (fun s => Ok (ksize s)) ;;
      push_all l ;;;
      Restore sorting old).
  (** erase(first, last) (flat_map:732-738); erase(pos) (711-717) is erase(pos, pos + 1) of both containers *)
  Definition erase_range (i j : nat) : P nat :=
    guarded empty (
      mut (fun s => l <~ ers (ks s) i j ;; Ok (FM l (vs s))) ;;;
      mut (fun s => l <~ ers (vs s) i j ;; Ok (FM (ks s) l)) ;;;
      fret i).
  Definition erase_at (i : nat) : P nat := erase_range i (S i).
  (** _Equal_range (flat_map:1191-1206) *)
  Definition Equal_range (k : K) : P (nat * nat) :=
    if uniq then
      f <-- peek (fun s => lb s 0 (ksize s) k) ;;
      missing <-- peek (fun s => if (f =? ksize s)%nat then Ok true else x <~ key s f ;; Ok (lt k x)) ;;
      fret (f, if missing : bool then f else S f)
    else peek (fun s => equal_range lt lt (full (ks s)) 0 (ksize s) k).
  (** _Erase_key (flat_map:1112-1119) *)
  Definition Erase_key (k : K) : P nat :=
    r <-- Equal_range k ;; erase_range (fst r) (snd r) ;;; fret (snd r - fst r)%nat.
  (** _Erase_if (flat_map:1130-1145) *)
  Definition Erase_if (p : K * M -> bool) : P nat :=
    guarded empty (
      old <-- peek (fun s => Ok (ksize s)) ;;
      mut (fun s => l <~ view s ;; l <~ then_erase (remove_if p (full l) 0 (length l)) ;; Ok (of_view l)) ;;;
      n <-- peek (fun s => Ok (ksize s)) ;;
      fret (old - n)%nat).
  (** _Find (flat_map:1147-1157) *)
  Definition Find (k : K) : P nat :=
    i <-- peek (fun s => lb s 0 (ksize s) k) ;;
    peek (fun s => if (i =? ksize s)%nat then Ok (ksize s) else x <~ key s i ;; Ok (if lt k x then ksize s else i)).
  (** _Contains (flat_map:1171-1175), _Count (1159-1169) *)
  Definition Contains (k : K) : P bool := peek (fun s => binary_search lt lt (full (ks s)) 0 (ksize s) k).
  Definition Count (k : K) : P nat :=
    if uniq then c <-- Contains k ;; fret (if c : bool then 1 else 0)%nat
    else r <-- peek (fun s => equal_range lt lt (full (ks s)) 0 (ksize s) k) ;; fret (snd r - fst r)%nat.
  (** _Lower_bound, _Upper_bound (flat_map:1177-1189) *)
  Definition Lower_bound (k : K) : P nat := peek (fun s => lb s 0 (ksize s) k).
  Definition Upper_bound (k : K) : P nat := peek (fun s => ub s 0 (ksize s) k).
  (** _At (flat_map:1387-1396): [None] is out_of_range *)
  Definition At (k : K) : P (option M) :=
    i <-- Find k ;;
    peek (fun s => if (i =? ksize s)%nat then Ok None else v <~ rd (full (vs s)) i ;; Ok (Some v)).
  (** operator[] (flat_map:1251-1256): the value the reference refers to *)
  Definition Subscript (dflt : M) (k : K) : P M :=
    r <-- Try_emplace k dflt ;; peek (fun s => rd (full (vs s)) (fst r)).
  (** replace (flat_map:698-705), constructor from containers (flat_map:370-375) on an empty object *)
  Definition replace (k : list K) (v : list M) : P unit :=
    guarded empty (mut (fun s => Ok (FM k (vs s))) ;;; mut (fun s => Ok (FM (ks s) v))).
  Definition construct (k : list K) (v : list M) : P unit := nothrow (fun _ => FM k v) ;;; guarded empty Establish.
End map.
Arguments fmap_ : clear implicits.

(** *** flat_set, flat_multiset *)
Section set.
  (** [single]: _Has_guaranteed_single_insertion of the container (xmemory:2780) *)
  Context {K : Type} (lt : K -> K -> bool) (uniq single : bool) (cap : nat).
  Notation st := (list K).
  Notation P := (fm st).
  Definition slb (s : st) (f t : nat) (k : K) : res nat := lower_bound lt (full s) f t k.
  Definition sub_ (s : st) (f t : nat) (k : K) : res nat := upper_bound lt (full s) f t k.
  Definition skey (s : st) (i : nat) : res K := rd (full s) i.
  (** _Emplace_with_clear_guard (flat_set:617-627) *)
  Definition sEmplace_at (i : nat) (k : K) : P nat :=
    if single then mut_strong (fun s => ins s i k) ;;; fret i
    else guarded [] (mut (fun s => ins s i k)) ;;; fret i.
  (** _Emplace (flat_set:629-651) *)
  Definition sEmplace (k : K) : P (nat * bool) :=
    if uniq then
      i <-- peek (fun s => slb s 0 (length s) k) ;;
      found <-- peek (fun s => if (i =? length s)%nat then Ok false else x <~ skey s i ;; Ok (negb (lt k x))) ;;
      if found : bool then fret (i, false) else (r <-- sEmplace_at i k ;; fret (r, true))
    else
      i <-- peek (fun s => sub_ s 0 (length s) k) ;;
      r <-- sEmplace_at i k ;; fret (r, true).
  Definition sat_end_or (pos : nat) (c : K -> bool) : P bool := peek (fun s => if (pos =? length s)%nat then Ok true else x <~ skey s pos ;; Ok (c x)).
  Definition sat_begin_or (pos : nat) (c : K -> bool) : P bool := peek (fun s => if (pos =? 0)%nat then Ok true else x <~ skey s (pos - 1) ;; Ok (c x)).
  (** _Emplace_hint (flat_set:653-707) *)
  Definition sEmplace_hint (pos : nat) (k : K) : P nat :=
    if uniq then
      c <-- sat_end_or pos (fun x => negb (lt x k)) ;;
      np <-- (if c : bool then
                d <-- sat_begin_or pos (fun x => lt x k) ;;
                if d : bool then fret pos else peek (fun s => slb s 0 (pos - 1) k)
              else peek (fun s => slb s (S pos) (length s) k)) ;;
      found <-- peek (fun s => if (np =? length s)%nat then Ok false else x <~ skey s np ;; Ok (negb (lt k x))) ;;
      if found : bool then fret np else sEmplace_at np k
    else
      c <-- sat_end_or pos (fun x => lt k x) ;;
      np <-- (if c : bool then
                d <-- sat_begin_or pos (fun x => negb (lt k x)) ;;
                if d : bool then fret pos else peek (fun s => sub_ s 0 (pos - 1) k)
              else peek (fun s => slb s pos (length s) k)) ;;
      sEmplace_at np k.
  (** _Erase_dupes_if_not_multi_pred (flat_set:559-566), _Restore_invariants (568-592), _Establish_invariants (594-604) *)
  Definition sRestore (sorting : bool) (old : nat) : P unit :=
    (if sorting then mut (fun s => a <~ sort lt (full s) old (length s) ;; values_of a) else fret tt) ;;;
    mut (fun s => a <~ inplace_merge lt cap (full s) 0 old (length s) ;; values_of a) ;;;
    (if uniq then mut (fun s => then_erase (unique (fun x y => negb (lt x y)) (full s) 0 (length s))) else fret tt).
  Definition sEstablish : P unit :=
    n <-- peek (fun s => Ok (length s)) ;;
    if (n =? 0)%nat then fret tt else
    u <-- peek (fun s => Ok (is_sorted_until lt s)) ;;
    sRestore true u.
  (** _Insert_range (flat_set:709-730) *)
  Definition sInsert_range (sorting : bool) (l : list K) : P unit :=
    guarded [] (
      old <-- peek (fun s => Ok (length s)) ;;
      mut (fun s => Ok (s ++ l)) ;;;
      sRestore sorting old).
  (** erase(first, last) (flat_set:451-456), erase(pos) (433-438) *)
  Definition serase_range (i j : nat) : P nat := guarded [] (mut (fun s => ers s i j) ;;; fret i).
  Definition serase_at (i : nat) : P nat := serase_range i (S i).
  (** _Equal_range (flat_set:794-805) *)
  Definition sEqual_range (k : K) : P (nat * nat) :=
    if uniq then
      f <-- peek (fun s => slb s 0 (length s) k) ;;
      missing <-- peek (fun s => if (f =? length s)%nat then Ok true else x <~ skey s f ;; Ok (lt k x)) ;;
      fret (f, if missing : bool then f else S f)
    else peek (fun s => equal_range lt lt (full s) 0 (length s) k).
  (** _Erase_key (flat_set:732-753) *)
  Definition sErase_key (k : K) : P nat :=
    if uniq then
      i <-- peek (fun s => slb s 0 (length s) k) ;;
      found <-- peek (fun s => if (i =? length s)%nat then Ok false else x <~ skey s i ;; Ok (negb (lt k x))) ;;
      if found : bool then (guarded [] (mut (fun s => ers s i (S i))) ;;; fret 1%nat) else fret 0%nat
    else
      r <-- sEqual_range k ;;
      guarded [] (mut (fun s => ers s (fst r) (snd r))) ;;;
      fret (snd r - fst r)%nat.
  (** _Erase_if (flat_set:761-768) *)
  Definition sErase_if (p : K -> bool) : P nat :=
    guarded [] (
      old <-- peek (fun s => Ok (length s)) ;;
      mut (fun s => then_erase (remove_if p (full s) 0 (length s))) ;;;
      n <-- peek (fun s => Ok (length s)) ;;
      fret (old - n)%nat).
  (** _Find (flat_set:770-781), contains (499-501), _Count (783-792), lower_bound, upper_bound (508-524) *)
  Definition sFind (k : K) : P nat :=
    i <-- peek (fun s => slb s 0 (length s) k) ;;
    peek (fun s => if (i =? length s)%nat then Ok (length s) else x <~ skey s i ;; Ok (if lt k x then length s else i)).
  Definition sContains (k : K) : P bool := peek (fun s => binary_search lt lt (full s) 0 (length s) k).
  Definition sCount (k : K) : P nat :=
    if uniq then c <-- sContains k ;; fret (if c : bool then 1 else 0)%nat
    else r <-- sEqual_range k ;; fret (snd r - fst r)%nat.
  Definition sLower_bound (k : K) : P nat := peek (fun s => slb s 0 (length s) k).
  Definition sUpper_bound (k : K) : P nat := peek (fun s => sub_ s 0 (length s) k).
  (** replace (flat_set:425-430), constructor from a container (flat_set:121-124) *)
  Definition sreplace (k : list K) : P unit := guarded [] (mut (fun _ => Ok k)).
  Definition sclear : P unit := nothrow (fun _ => []).
  Definition sconstruct (k : list K) : P unit := nothrow (fun _ => k) ;;; guarded [] sEstablish.
End set.
