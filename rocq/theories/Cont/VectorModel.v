(** Model of std::vector (stl/inc/vector): storage management, growth and every element operation of the modifiers.
    Debug iterators (_Orphan_range, _STL_VERIFY) and ASan annotations are not modelled; the allocator is
    std::allocator (allocate_at_least returns exactly the requested count). Pointers are addresses of [ObjMem];
    the null pointer is address 0, which the allocator never returns. *)
From stdpp Require Import base list numbers decidable.
From Coq Require Import ZArith Lia.
From Verif Require Import Base.Res Base.Int Cont.ObjMem.
Local Open Scope nat_scope.

(** vector:398-437 _Vector_val: _Myfirst, _Mylast, _Myend *)
Record vec := Vec { myfirst : nat; mylast : nat; myend : nat }.

(** size_type arithmetic: unsigned 64-bit, wrapping *)
Definition zadd (a b : Z) : Z := cast u64 (a + b).
Definition zsub (a b : Z) : Z := cast u64 (a - b).

Section vector.
  (** element type, and the value max_size() returns (vector:1925-1928) *)
  Context {A : Type} (T : traits) (maxsz : Z).
  Notation M := (M A vec).

  Definition first_ : M nat := v <<- mloc ;; mret (myfirst v).
  Definition last_ : M nat := v <<- mloc ;; mret (mylast v).
  Definition end_ : M nat := v <<- mloc ;; mret (myend v).
  Definition set_last (p : nat) : M unit := v <<- mloc ;; mput (Vec (myfirst v) p (myend v)).
  Definition vsize (v : vec) : Z := Z.of_nat (mylast v - myfirst v).
  Definition vcap (v : vec) : Z := Z.of_nat (myend v - myfirst v).

  (** vector:2014-2030 _Calculate_growth *)
  Definition Calculate_growth (Oldcapacity Newsize : Z) : Z :=
    if (zsub maxsz (Oldcapacity / 2) <? Oldcapacity)%Z then maxsz
    else let Geometric := zadd Oldcapacity (Oldcapacity / 2) in
         if (Geometric <? Newsize)%Z then Newsize else Geometric.

  (** vector:627-643 _Reallocation_guard2: what its destructor does when it was not released *)
  Definition rguard {X} (nb ncap cf cl : nat) (m : M X) : M X :=
    on_throw m (Destroy_range cf cl ;;; dealloc nb ncap).
  (** vector:443-456 _Allocation_guard *)
  Definition aguard {X} (nb ncap : nat) (m : M X) : M X := on_throw m (dealloc nb ncap).

  (** if constexpr (is_nothrow_move_constructible_v<_Ty> || !is_copy_constructible_v<_Ty>) move else copy *)
  Definition move_or_copy (f l d : nat) : M nat :=
    if negb (mthrow T) || negb (copyable T) then Uninitialized_move T f l d else Uninitialized_copy f l d.

  (** vector:2066-2087 _Change_array *)
  Definition Change_array (Newvec Newsize Newcap : nat) : M unit :=
    v <<- mloc ;;
    (if decide (myfirst v = 0) then mret tt
     else Destroy_range (myfirst v) (mylast v) ;;; dealloc (myfirst v) (myend v - myfirst v)) ;;;
    mput (Vec Newvec (Newvec + Newsize) (Newvec + Newcap)).

  (** vector:2089-2107 _Tidy *)
  Definition Tidy : M unit :=
    v <<- mloc ;;
    if decide (myfirst v = 0) then mret tt
    else Destroy_range (myfirst v) (mylast v) ;;; dealloc (myfirst v) (myend v - myfirst v) ;;;
         mput (Vec 0 0 0).

  (** vector:852-873 _Emplace_back_with_unused_capacity *)
  Definition Emplace_back_with_unused_capacity (val : arg A) : M nat :=
    last <<- last_ ;;
    construct_arg T last val ;;;
    set_last (last + 1) ;;; mret last.

  (** vector:876-922 _Emplace_reallocate *)
  Definition Emplace_reallocate (Whereptr : nat) (val : arg A) : M nat :=
    v <<- mloc ;;
    let Whereoff := Whereptr - myfirst v in
    let Oldsize := vsize v in
    if decide (Oldsize = maxsz) then mthrow_
    else
      let Newsize := zadd Oldsize 1 in
      let Newcapacity := Z.to_nat (Calculate_growth (vcap v) Newsize) in
      Newvec <<- alloc Newcapacity ;;
      let Constructed_last := Newvec + (Whereoff + 1) in
      rguard Newvec Newcapacity Constructed_last Constructed_last
        (construct_arg T (Newvec + Whereoff) val) ;;;
      (if decide (Whereptr = mylast v)
       then rguard Newvec Newcapacity (Newvec + Whereoff) Constructed_last
              (move_or_copy (myfirst v) (mylast v) Newvec) ;;; mret tt
       else rguard Newvec Newcapacity (Newvec + Whereoff) Constructed_last
              (Uninitialized_move T (myfirst v) Whereptr Newvec) ;;;
            rguard Newvec Newcapacity Newvec Constructed_last
              (Uninitialized_move T Whereptr (mylast v) (Newvec + (Whereoff + 1))) ;;; mret tt) ;;;
      Change_array Newvec (Z.to_nat Newsize) Newcapacity ;;;
      mret (Newvec + Whereoff).

  (** vector:840-850 _Emplace_one_at_back; push_back and emplace_back (vector:925-943) call it *)
  Definition push_back (val : arg A) : M nat :=
    v <<- mloc ;;
    if decide (mylast v <> myend v) then Emplace_back_with_unused_capacity val
    else Emplace_reallocate (mylast v) val.

  (** vector:1029-1060 emplace; insert(where, val) (vector:1062-1068) calls it *)
  Definition emplace (Whereptr : nat) (val : arg A) : M nat :=
    v <<- mloc ;;
    let Oldlast := mylast v in
    if decide (Oldlast <> myend v) then
      (if decide (Whereptr = Oldlast) then Emplace_back_with_unused_capacity val ;;; mret tt
       else
         obj <<- temp_arg T val ;;
         move_construct T Oldlast (Oldlast - 1) ;;;
         set_last (Oldlast + 1) ;;;
         Move_backward_unchecked T Whereptr (Oldlast - 1) Oldlast ;;;
         (* *_Whereptr = move(_Obj): assignment from the temporary *)
         on_throw (mwhen (mathrow T) tick) (poke Whereptr None) ;;; poke Whereptr obj) ;;;
      mret Whereptr
    else Emplace_reallocate Whereptr val.

  (** vector:1070-1144 insert(where, count, val) *)
  Definition insert_n (Whereptr : nat) (Count : Z) (val : arg A) : M nat :=
    v <<- mloc ;;
    let Oldfirst := myfirst v in
    let Oldlast := mylast v in
    let Whereoff := Whereptr - Oldfirst in
    let Unused_capacity := Z.of_nat (myend v - Oldlast) in
    let One_at_back := bool_decide (Count = 1%Z) && bool_decide (Whereptr = Oldlast) in
    (if decide (Count = 0%Z) then mret tt
     else if (Unused_capacity <? Count)%Z then
       let Oldsize := vsize v in
       if (zsub maxsz Oldsize <? Count)%Z then mthrow_
       else
         let Newsize := zadd Oldsize Count in
         let Newcapacity := Z.to_nat (Calculate_growth (vcap v) Newsize) in
         Newvec <<- alloc Newcapacity ;;
         let Constructed_last := Newvec + Whereoff + Z.to_nat Count in
         rguard Newvec Newcapacity Constructed_last Constructed_last
           (Uninitialized_fill_n T (Newvec + Whereoff) (Z.to_nat Count) val) ;;;
         (if One_at_back
          then rguard Newvec Newcapacity (Newvec + Whereoff) Constructed_last
                 (move_or_copy Oldfirst Oldlast Newvec) ;;; mret tt
          else rguard Newvec Newcapacity (Newvec + Whereoff) Constructed_last
                 (Uninitialized_move T Oldfirst Whereptr Newvec) ;;;
               rguard Newvec Newcapacity Newvec Constructed_last
                 (Uninitialized_move T Whereptr Oldlast (Newvec + Whereoff + Z.to_nat Count)) ;;; mret tt) ;;;
         Change_array Newvec (Z.to_nat Newsize) Newcapacity
     else if One_at_back then Emplace_back_with_unused_capacity val ;;; mret tt
     else
       Tmp <<- temp_arg T val ;;
       let Affected_elements := Z.of_nat (Oldlast - Whereptr) in
       if (Affected_elements <? Count)%Z then
         l1 <<- Uninitialized_fill_n T Oldlast (Z.to_nat (Count - Affected_elements)) (ACopy Tmp) ;;
         set_last l1 ;;;
         l2 <<- Uninitialized_move T Whereptr Oldlast l1 ;;
         set_last l2 ;;;
         fill Whereptr Oldlast Tmp
       else
         l1 <<- Uninitialized_move T (Oldlast - Z.to_nat Count) Oldlast Oldlast ;;
         set_last l1 ;;;
         Move_backward_unchecked T Whereptr (Oldlast - Z.to_nat Count) Oldlast ;;;
         fill Whereptr (Whereptr + Z.to_nat Count) Tmp) ;;;
    v' <<- mloc ;;
    mret (myfirst v' + Whereoff).

  (** vector:645-663 _Vaporization_guard: what its destructor does when it was not released *)
  Definition vguard {X} (Vaporized_first Destroyed_first : nat) (m : M X) : M X :=
    on_throw m (last <<- last_ ;; Destroy_range Destroyed_first last ;;; set_last Vaporized_first).

  (** vector:1167-1264 _Insert_counted_range: insert(where, first, last) for forward iterators into another sequence *)
  Definition insert_range (Whereptr : nat) (vs : list (option A)) : M nat :=
    let Count := Z.of_nat (length vs) in
    let n := length vs in
    v <<- mloc ;;
    let Oldfirst := myfirst v in
    let Oldlast := mylast v in
    let Unused_capacity := Z.of_nat (myend v - Oldlast) in
    let Whereoff := Whereptr - Oldfirst in
    (if decide (Count = 0%Z) then mret tt
     else if (Unused_capacity <? Count)%Z then
       let Oldsize := vsize v in
       if (zsub maxsz Oldsize <? Count)%Z then mthrow_
       else
         let Newsize := zadd Oldsize Count in
         let Newcapacity := Z.to_nat (Calculate_growth (vcap v) Newsize) in
         Newvec <<- alloc Newcapacity ;;
         let Constructed_last := Newvec + Whereoff + n in
         rguard Newvec Newcapacity Constructed_last Constructed_last
           (Uninitialized_copy_n T vs (Newvec + Whereoff)) ;;;
         (if bool_decide (Count = 1%Z) && bool_decide (Whereptr = Oldlast)
          then rguard Newvec Newcapacity (Newvec + Whereoff) Constructed_last
                 (move_or_copy Oldfirst Oldlast Newvec) ;;; mret tt
          else rguard Newvec Newcapacity (Newvec + Whereoff) Constructed_last
                 (Uninitialized_move T Oldfirst Whereptr Newvec) ;;;
               rguard Newvec Newcapacity Newvec Constructed_last
                 (Uninitialized_move T Whereptr Oldlast (Newvec + Whereoff + n)) ;;; mret tt) ;;;
         Change_array Newvec (Z.to_nat Newsize) Newcapacity
     else
       let Affected_elements := Z.of_nat (Oldlast - Whereptr) in
       if (Count <? Affected_elements)%Z then
         l1 <<- Uninitialized_move T (Oldlast - n) Oldlast Oldlast ;;
         set_last l1 ;;;
         Move_backward_unchecked T Whereptr (Oldlast - n) Oldlast ;;;
         Destroy_range Whereptr (Whereptr + n) ;;;
         on_throw (Uninitialized_copy_n T vs Whereptr)
           (vguard Whereptr (Whereptr + n)
              (Uninitialized_move T (Whereptr + n) (Whereptr + 2 * n) Whereptr) ;;;
            last <<- last_ ;;
            Move_unchecked T (Whereptr + 2 * n) last (Whereptr + n) ;;;
            Destroy_range Oldlast last ;;;
            set_last Oldlast) ;;; mret tt
       else
         let Relocated := Whereptr + n in
         l1 <<- Uninitialized_move T Whereptr Oldlast Relocated ;;
         set_last l1 ;;;
         Destroy_range Whereptr Oldlast ;;;
         on_throw (Uninitialized_copy_n T vs Whereptr)
           (last <<- last_ ;;
            vguard Whereptr Relocated (Uninitialized_move T Relocated last Whereptr) ;;;
            Destroy_range Relocated last ;;;
            set_last Oldlast) ;;; mret tt) ;;;
    v' <<- mloc ;;
    mret (myfirst v' + Whereoff).

  (** vector:1698-1727 _Clear_and_reserve_geometric (with _Buy_raw, vector:2032-2046) *)
  Definition Clear_and_reserve_geometric (Newsize : Z) : M unit :=
    v <<- mloc ;;
    if (maxsz <? Newsize)%Z then mthrow_
    else
      let Newcapacity := Z.to_nat (Calculate_growth (vcap v) Newsize) in
      (if decide (myfirst v = 0) then mret tt
       else Destroy_range (myfirst v) (mylast v) ;;; dealloc (myfirst v) (myend v - myfirst v) ;;;
            mput (Vec 0 0 0)) ;;;
      Newvec <<- alloc Newcapacity ;;
      mput (Vec Newvec Newvec (Newvec + Newcapacity)).

  (** vector:1338-1392 assign(n, val) (val must not refer into the vector) *)
  Definition assign_n (Newsize : Z) (val : option A) : M unit :=
    v <<- mloc ;;
    if (vcap v <? Newsize)%Z then
      Clear_and_reserve_geometric Newsize ;;;
      f <<- first_ ;;
      l1 <<- Uninitialized_fill_n T f (Z.to_nat Newsize) (ACopy val) ;;
      set_last l1
    else
      let Oldsize := vsize v in
      if (Oldsize <? Newsize)%Z then
        fill (myfirst v) (mylast v) val ;;;
        l1 <<- Uninitialized_fill_n T (mylast v) (Z.to_nat (Newsize - Oldsize)) (ACopy val) ;;
        set_last l1
      else
        let Newlast := myfirst v + Z.to_nat Newsize in
        fill (myfirst v) Newlast val ;;;
        Destroy_range Newlast (mylast v) ;;;
        set_last Newlast.

  (** copy-assign an outside range onto [d, d + length vs) *)
  Definition copy_assign_n (vs : list (option A)) (d : nat) : M unit :=
    for_ (length vs) (fun i => match vs !! i with Some v => copy_assign (d + i) v | None => mub end).

  (** vector:1422-1483 _Assign_counted_range: assign(first, last) for forward iterators *)
  Definition assign_range (vs : list (option A)) : M unit :=
    let Newsize := Z.of_nat (length vs) in
    v <<- mloc ;;
    if (vcap v <? Newsize)%Z then
      Clear_and_reserve_geometric Newsize ;;;
      f <<- first_ ;;
      l1 <<- Uninitialized_copy_n T vs f ;;
      set_last l1
    else
      let Oldsize := mylast v - myfirst v in
      if decide (Oldsize < length vs) then
        copy_assign_n (take Oldsize vs) (myfirst v) ;;;
        l1 <<- Uninitialized_copy_n T (drop Oldsize vs) (mylast v) ;;
        set_last l1
      else
        let Newlast := myfirst v + length vs in
        copy_assign_n vs (myfirst v) ;;;
        Destroy_range Newlast (mylast v) ;;;
        set_last Newlast.

  (** vector:1554-1589 _Resize_reallocate; value initialisation is a fill with the default value *)
  Definition Resize_reallocate (Newsize : Z) (val : arg A) : M unit :=
    if (maxsz <? Newsize)%Z then mthrow_
    else
      v <<- mloc ;;
      let Oldsize := mylast v - myfirst v in
      let Newcapacity := Z.to_nat (Calculate_growth (vcap v) Newsize) in
      Newvec <<- alloc Newcapacity ;;
      let Appended_first := Newvec + Oldsize in
      Appended_last <<- rguard Newvec Newcapacity Appended_first Appended_first
        (Uninitialized_fill_n T Appended_first (Z.to_nat Newsize - Oldsize) val) ;;
      rguard Newvec Newcapacity Appended_first Appended_last
        (move_or_copy (myfirst v) (mylast v) Newvec) ;;;
      Change_array Newvec (Z.to_nat Newsize) Newcapacity.

  (** vector:1591-1628 _Resize: resize(n) with the value-initialised element, resize(n, val) *)
  Definition resize (Newsize : Z) (val : arg A) : M unit :=
    v <<- mloc ;;
    let Oldsize := vsize v in
    if (Newsize <? Oldsize)%Z then
      let Newlast := myfirst v + Z.to_nat Newsize in
      Destroy_range Newlast (mylast v) ;;;
      set_last Newlast
    else if (Oldsize <? Newsize)%Z then
      if (vcap v <? Newsize)%Z then Resize_reallocate Newsize val
      else
        l1 <<- Uninitialized_fill_n T (mylast v) (Z.to_nat (Newsize - Oldsize)) val ;;
        set_last l1
    else mret tt.

  (** vector:1644-1676 _Reallocate *)
  Definition Reallocate (Newcapacity : nat) : M unit :=
    v <<- mloc ;;
    Newvec <<- alloc Newcapacity ;;
    aguard Newvec Newcapacity (move_or_copy (myfirst v) (mylast v) Newvec) ;;;
    Change_array Newvec (mylast v - myfirst v) Newcapacity.

  (** vector:1730-1739 reserve *)
  Definition reserve (Newcapacity : Z) : M unit :=
    v <<- mloc ;;
    if (vcap v <? Newcapacity)%Z then
      if (maxsz <? Newcapacity)%Z then mthrow_ else Reallocate (Z.to_nat Newcapacity)
    else mret tt.

  (** vector:1741-1753 shrink_to_fit *)
  Definition shrink_to_fit : M unit :=
    v <<- mloc ;;
    if decide (mylast v <> myend v) then
      if decide (myfirst v = mylast v) then Tidy else Reallocate (mylast v - myfirst v)
    else mret tt.

  (** vector:1755-1767 pop_back *)
  Definition pop_back : M unit :=
    last <<- last_ ;; destroy (last - 1) ;;; set_last (last - 1).

  (** vector:1769-1787 erase(where) *)
  Definition erase1 (Whereptr : nat) : M nat :=
    last <<- last_ ;;
    Move_unchecked T (Whereptr + 1) last Whereptr ;;;
    destroy (last - 1) ;;;
    set_last (last - 1) ;;; mret Whereptr.

  (** vector:1789-1812 erase(first, last) *)
  Definition erase_range (Firstptr Lastptr : nat) : M nat :=
    if decide (Firstptr <> Lastptr) then
      last <<- last_ ;;
      Newlast <<- Move_unchecked T Lastptr last Firstptr ;;
      Destroy_range Newlast last ;;;
      set_last Newlast ;;; mret Firstptr
    else mret Firstptr.

  (** vector:1814-1832 clear *)
  Definition clear : M unit :=
    v <<- mloc ;;
    if decide (myfirst v = mylast v) then mret tt
    else Destroy_range (myfirst v) (mylast v) ;;; set_last (myfirst v).
End vector.
