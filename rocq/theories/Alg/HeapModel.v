(** Model of the heap algorithms: stl/inc/__msvc_heap_algorithms.hpp and the heap part of stl/inc/algorithm.
    Iterators are indices into one array of cells; [first + i] is [*(_First + i)].
    Simplifications: difference types are [nat] (the only negative value C++ forms is
    [(_Hole - 1) >> 1] for [_Hole == 0], which is never dereferenced because [_Top < _Hole] is tested first);
    the comparator is a pure function; debug-mode checks and iterator unwrapping are omitted. *)
From stdpp Require Import base list numbers.
From Verif Require Import Base.Res Base.Arr.

Section heap.
  Context {A : Type} (lt : A -> A -> bool).

  (** __msvc_heap_algorithms.hpp:22-34 _Push_heap_by_index *)
  Definition push_heap_by_index (a : arr A) (first hole top : nat) (val : A) : res (arr A) :=
    '(a, hole) <~
      loop (S hole)
        (fun '(a, hole) =>
           let idx := ((hole - 1) / 2)%nat in
           if decide (top < hole)%nat then
             x <~ rd a (first + idx) ;;
             if lt x val then
               a <~ mvto a (first + idx) (first + hole) ;;
               Ok (inl (a, idx))
             else Ok (inr (a, hole))
           else Ok (inr (a, hole)))
        (a, hole) ;;
    wr a (first + hole) val.

  (** __msvc_heap_algorithms.hpp:37-48 push_heap *)
  Definition push_heap (a : arr A) (first last : nat) : res (arr A) :=
    let count := (last - first)%nat in
    if decide (2 <= count)%nat then
      '(val, a) <~ mv a (last - 1) ;;
      push_heap_by_index a first (count - 1) 0 val
    else Ok a.

  (** __msvc_heap_algorithms.hpp:57-84 _Pop_heap_hole_by_index *)
  Definition pop_heap_hole_by_index (a : arr A) (first hole bottom : nat) (val : A) : res (arr A) :=
    _ <~ rassert (bool_decide (0 < bottom)%nat) ;;            (* _STL_INTERNAL_CHECK(_Bottom > 0) *)
    let top := hole in
    let max_sequence_non_leaf := ((bottom - 1) / 2)%nat in
    '(a, hole, idx) <~
      loop (S bottom)
        (fun '(a, hole, idx) =>
           if decide (idx < max_sequence_non_leaf)%nat then
             let idx := (2 * idx + 2)%nat in
             x <~ rd a (first + idx) ;;
             y <~ rd a (first + (idx - 1)) ;;
             let idx := if lt x y then (idx - 1)%nat else idx in
             a <~ mvto a (first + idx) (first + hole) ;;
             Ok (inl (a, idx, idx))
           else Ok (inr (a, hole, idx)))
        (a, hole, hole) ;;
    '(a, hole) <~
      (if decide (idx = max_sequence_non_leaf /\ bottom mod 2 = 0)%nat then
         a <~ mvto a (first + (bottom - 1)) (first + hole) ;;
         Ok (a, (bottom - 1)%nat)
       else Ok (a, hole)) ;;
    push_heap_by_index a first hole top val.

  (** __msvc_heap_algorithms.hpp:87-95 _Pop_heap_hole_unchecked *)
  Definition pop_heap_hole_unchecked (a : arr A) (first last dest : nat) (val : A) : res (arr A) :=
    a <~ mvto a first dest ;;
    pop_heap_hole_by_index a first 0 (last - first) val.

  (** __msvc_heap_algorithms.hpp:98-112 _Pop_heap_unchecked, pop_heap *)
  Definition pop_heap (a : arr A) (first last : nat) : res (arr A) :=
    if decide (2 <= last - first)%nat then
      let last := (last - 1)%nat in
      '(val, a) <~ mv a last ;;
      pop_heap_hole_unchecked a first last last val
    else Ok a.

  (** __msvc_heap_algorithms.hpp:121-137 _Make_heap_unchecked, make_heap *)
  Definition make_heap (a : arr A) (first last : nat) : res (arr A) :=
    let bottom := (last - first)%nat in
    loop (S bottom)
      (fun '(a, hole) =>
         if decide (0 < hole)%nat then
           let hole := (hole - 1)%nat in
           '(val, a) <~ mv a (first + hole) ;;
           a <~ pop_heap_hole_by_index a first hole bottom val ;;
           Ok (inl (a, hole))
         else Ok (inr a))
      (a, (bottom / 2)%nat).

  (** algorithm:7813-7818 _Sort_heap_unchecked, sort_heap *)
  Definition sort_heap (a : arr A) (first last : nat) : res (arr A) :=
    loop (S (last - first))
      (fun '(a, last) =>
         if decide (2 <= last - first)%nat then
           a <~ pop_heap a first last ;;
           Ok (inl (a, (last - 1)%nat))
         else Ok (inr a))
      (a, last).

  (** algorithm:7668-7679 _Is_heap_until_unchecked, is_heap_until, is_heap *)
  Definition is_heap_until (a : arr A) (first last : nat) : res nat :=
    let size := (last - first)%nat in
    loop (S size)
      (fun off =>
         if decide (off < size)%nat then
           x <~ rd a (first + (off - 1) / 2) ;;
           y <~ rd a (first + off) ;;
           if lt x y then Ok (inr (first + off)%nat) else Ok (inl (S off))
         else Ok (inr last))
      1%nat.
  Definition is_heap (a : arr A) (first last : nat) : res bool :=
    r <~ is_heap_until a first last ;; Ok (bool_decide (r = last)).
End heap.
