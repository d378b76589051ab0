(** Model of std::deque (stl/inc/deque): the circular map of blocks, growth, and every element operation of the
    modifiers, over the object memory of [ObjMem]. Debug iterators (_Orphan_*, _STL_VERIFY) are not modelled; the
    allocator is std::allocator (allocate_at_least returns exactly the requested count). The map is a list of block
    pointers ([None] = nullptr); its own storage is not tracked, but allocating it may throw. *)
From stdpp Require Import base list numbers decidable.
From Coq Require Import ZArith Lia.
From Verif Require Import Base.Res Base.Int Cont.ObjMem.
Local Open Scope nat_scope.

(** deque:549-553 _Block_size: elements per block *)
Definition Block_size (Bytes : nat) : nat :=
  if Bytes <=? 1 then 16 else if Bytes <=? 2 then 8 else if Bytes <=? 4 then 4 else if Bytes <=? 8 then 2 else 1.
(** deque:621 _Minimum_map_size *)
Definition Minimum_map_size : nat := 8.

(** deque:593-596 _Map, _Mapsize, _Myoff, _Mysize. _Map is null exactly when _Mapsize is 0. *)
Record deq := Deq { dmap : list (option nat); doff : nat; dsize : nat }.
Definition Mapsize (d : deq) : nat := length (dmap d).

(** uninitialized_copy(_Map + f, _Map + l, _Newmap + p) on block pointers *)
Definition ucopy (om : list (option nat)) (f l : nat) (nm : list (option (option nat))) (p : nat)
    : res (list (option (option nat)) * nat) :=
  if (f <=? l) && (l <=? length om) && (p + (l - f) <=? length nm)
  then Ok (take p nm ++ (Some <$> take (l - f) (drop f om)) ++ drop (p + (l - f)) nm, p + (l - f)) else UB.
(** _Uninitialized_value_construct_n_unchecked1(_Newmap + p, n): null pointers *)
Definition uclear (nm : list (option (option nat))) (p n : nat) : res (list (option (option nat))) :=
  if p + n <=? length nm then Ok (take p nm ++ replicate n (Some None) ++ drop (p + n) nm) else UB.

Section deque.
  (** element type, elements per block, and max_size() / _Block_size *)
  Context {A : Type} (T : traits) (B : nat) (maxb : Z).
  Notation M := (M A deq).

  Definition mlift {X} (r : res X) : M X := fun s => rbind r (fun x => Ok (s, Some x)).
  (** while (cond) body *)
  Fixpoint mwhile (fuel : nat) (cond : M bool) (body : M unit) : M unit :=
    match fuel with
    | 0 => fun _ => Fuel
    | S f => b <<- cond ;; if (b : bool) then body ;;; mwhile f cond body else mret tt
    end.
  (** for (x : xs) f(x) *)
  Fixpoint each {X} (xs : list X) (f : X -> M unit) : M unit :=
    match xs with [] => mret tt | x :: xs => f x ;;; each xs f end.

  Definition msize : M nat := d <<- mloc ;; mret (dsize d).
  Definition moff : M nat := d <<- mloc ;; mret (doff d).

  (** deque:570-573 _Getblock *)
  Definition Getblock (d : deq) (Off : nat) : nat := Nat.land (Off / B) (Mapsize d - 1).
  (** deque:587-591 _Address_subscript, 575-585 _Subscript; a null block pointer or an index outside the map is UB *)
  Definition Address_subscript (Off : nat) : M nat :=
    d <<- mloc ;;
    match dmap d !! Getblock d Off with
    | Some (Some b) => mret (b + Off mod B)
    | _ => mub
    end.
  (** deque:1766-1772 _Subscript(_Pos) *)
  Definition Subscript (Pos : nat) : M nat := o <<- moff ;; Address_subscript (o + Pos).
  (** deque:1078-1092 operator[], 1094-1108 at *)
  Definition at_ (Pos : nat) : M nat :=
    n <<- msize ;; if n <=? Pos then mthrow_ else Subscript Pos.

  (** the scaling loop of _Growmap, deque:1607-1614; [inr None] = _Xlen() *)
  Definition Grow_scale (Ms Count : nat) : res (option nat) :=
    loop (Count + 8) (fun Newsize =>
      if (Newsize - Ms <? Count) || (Newsize <? Minimum_map_size)
      then if (cast u64 (maxb - Z.of_nat Newsize) <? Z.of_nat Newsize)%Z then Ok (inr None) else Ok (inl (Newsize * 2))
      else Ok (inr (Some Newsize)))
      (if 0 <? Ms then Ms else 1).
  (** the copying part of _Growmap, deque:1618-1640 *)
  Definition Grow_copy (om : list (option nat)) (Myboff Newsize Count : nat) : res (list (option nat)) :=
    let nm := replicate Newsize None in
    '(nm, p) <~ ucopy om Myboff (length om) nm Myboff ;;
    nm <~ (if Myboff <=? Count
           then '(nm, p) <~ ucopy om 0 Myboff nm p ;;
                nm <~ uclear nm p (Count - Myboff) ;;
                uclear nm 0 Myboff
           else '(nm, _) <~ ucopy om 0 Count nm p ;;
                '(nm, p) <~ ucopy om Count Myboff nm 0 ;;
                uclear nm p Count) ;;
    match mapM (M := option) id nm with Some l => Ok l | None => UB end.
  (** deque:1603-1650 _Growmap *)
  Definition Growmap (Count : nat) : M unit :=
    d <<- mloc ;;
    r <<- mlift (Grow_scale (Mapsize d) Count) ;;
    match r with
    | None => mthrow_
    | Some Newsize =>
        tick ;;;
        nm <<- mlift (Grow_copy (dmap d) (doff d / B) Newsize (Newsize - Mapsize d)) ;;
        mput (Deq nm (doff d) (dsize d))
    end.

  (** if (_Map()[_Block] == nullptr) _Map()[_Block] = allocate(_Block_size) *)
  Definition ensure_block (Block : nat) : M unit :=
    d <<- mloc ;;
    match dmap d !! Block with
    | None => mub
    | Some (Some _) => mret tt
    | Some None => p <<- alloc B ;; mput (Deq (<[Block := Some p]> (dmap d)) (doff d) (dsize d))
    end.
  (** deque:1144-1158 _Emplace_back_internal; [mk p] constructs the new element at address p *)
  Definition Emplace_back_internal (mk : nat -> M unit) : M unit :=
    d <<- mloc ;;
    mwhen (((doff d + dsize d) mod B =? 0) && (Mapsize d <=? (dsize d + B) / B)) (Growmap 1) ;;;
    d <<- mloc ;;
    mput (Deq (dmap d) (Nat.land (doff d) (Mapsize d * B - 1)) (dsize d)) ;;;
    d <<- mloc ;;
    let Newoff := doff d + dsize d in
    ensure_block (Getblock d Newoff) ;;;
    p <<- Address_subscript Newoff ;;
    mk p ;;;
    d <<- mloc ;;
    mput (Deq (dmap d) (doff d) (dsize d + 1)).
  (** deque:1161-1176 _Emplace_front_internal *)
  Definition Emplace_front_internal (mk : nat -> M unit) : M unit :=
    d <<- mloc ;;
    mwhen ((doff d mod B =? 0) && (Mapsize d <=? (dsize d + B) / B)) (Growmap 1) ;;;
    d <<- mloc ;;
    mput (Deq (dmap d) (Nat.land (doff d) (Mapsize d * B - 1)) (dsize d)) ;;;
    d <<- mloc ;;
    let Newoff := (if negb (doff d =? 0) then doff d else Mapsize d * B) - 1 in
    ensure_block (Getblock d Newoff) ;;;
    p <<- Address_subscript Newoff ;;
    mk p ;;;
    d <<- mloc ;;
    mput (Deq (dmap d) Newoff (dsize d + 1)).

  (** deque:1243-1262 push_front / push_back, 1178-1196 emplace_front / emplace_back *)
  Definition push_back (a : arg A) : M unit := Emplace_back_internal (fun p => construct_arg T p a).
  Definition push_front (a : arg A) : M unit := Emplace_front_internal (fun p => construct_arg T p a).
  (** deque:1488-1502 pop_front *)
  Definition pop_front : M unit :=
    d <<- mloc ;;
    p <<- Address_subscript (doff d) ;;
    destroy p ;;;
    mput (Deq (dmap d) (if decide (dsize d - 1 = 0) then 0 else doff d + 1) (dsize d - 1)).
  (** deque:1504-1517 pop_back *)
  Definition pop_back : M unit :=
    d <<- mloc ;;
    p <<- Address_subscript (doff d + dsize d - 1) ;;
    destroy p ;;;
    mput (Deq (dmap d) (if decide (dsize d - 1 = 0) then 0 else doff d) (dsize d - 1)).
  (** deque:1569-1573 _Erase_last_n *)
  Definition Erase_last_n (Count : nat) : M unit := for_ Count (fun _ => pop_back).
  (** deque:1652-1669 _Reset_map *)
  Definition Reset_map : M unit :=
    d <<- mloc ;;
    each (rev (dmap d)) (fun b => match b with Some p => dealloc p B | None => mret tt end) ;;;
    mput (Deq [] (doff d) (dsize d)).
  (** deque:1671-1683 _Tidy, 1576-1578 clear *)
  Definition Tidy : M unit :=
    n <<- msize ;;
    mwhile (S n) (n <<- msize ;; mret (negb (n =? 0))) pop_back ;;;
    d <<- mloc ;;
    mwhen (negb (Mapsize d =? 0)) Reset_map.

  (** deque:983-1003 resize(_Newsize) / resize(_Newsize, _Val) *)
  Definition resize (Newsize : nat) (a : arg A) : M unit :=
    n <<- msize ;;
    mwhile (S Newsize) (n <<- msize ;; mret (n <? Newsize)) (push_back a) ;;;
    mwhile (S n) (n <<- msize ;; mret (Newsize <? n)) pop_back.

  (** deque:1024-1033: free unused blocks from [i] up to the first used one *)
  Fixpoint free_blocks (fuel i F Mask : nat) : M unit :=
    match fuel with
    | 0 => fun _ => Fuel
    | S fuel =>
        if i =? F then mret tt
        else
          d <<- mloc ;;
          match dmap d !! i with
          | None => mub
          | Some None => mret tt
          | Some (Some p) => dealloc p B ;;; mput (Deq (<[i := None]> (dmap d)) (doff d) (dsize d))
          end ;;;
          free_blocks fuel (Nat.land (i + 1) Mask) F Mask
    end.
  (** deque:1005-1076 shrink_to_fit *)
  Definition shrink_to_fit : M unit :=
    d <<- mloc ;;
    if dsize d =? 0 then mwhen (negb (Mapsize d =? 0)) Reset_map
    else
      let Mask := Mapsize d - 1 in
      let Unmasked_first_used_block_idx := doff d / B in
      let First_used_block_idx := Nat.land Unmasked_first_used_block_idx Mask in
      let Unmasked_first_unused_block_idx := (doff d + dsize d - 1) / B + 1 in
      let First_unused_block_idx := Nat.land Unmasked_first_unused_block_idx Mask in
      free_blocks (Mapsize d + 1) First_unused_block_idx First_used_block_idx Mask ;;;
      let Used_block_count := Unmasked_first_unused_block_idx - Unmasked_first_used_block_idx in
      New_block_count <<- mlift (loop (Used_block_count + 1) (fun n =>
        if n <? Used_block_count then Ok (inl (n * 2)) else Ok (inr n)) Minimum_map_size) ;;
      if Mapsize d <=? New_block_count then mret tt
      else
        tick ;;;
        d <<- mloc ;;
        match mapM (M := option) (fun b => dmap d !! Nat.land (First_used_block_idx + b) Mask) (seq 0 Used_block_count) with
        | None => mub
        | Some used =>
            mput (Deq (used ++ replicate (New_block_count - Used_block_count) None) (doff d mod B) (dsize d))
        end.

  (** Iterators are the offsets deque:41-66 keeps; dereferencing is _Address_subscript.
      xutility:5432-5454 _Move_unchecked on deque iterators *)
  Definition it_move_assign (d s : nat) : M unit :=
    p <<- Address_subscript d ;; q <<- Address_subscript s ;; move_assign T p q.
  Definition Move_it (f l d : nat) : M unit := for_ (l - f) (fun i => it_move_assign (d + i) (f + i)).
  (** xutility:5478-5496 _Move_backward_unchecked *)
  Definition Move_backward_it (f l d : nat) : M unit := for_ (l - f) (fun i => it_move_assign (d - 1 - i) (l - 1 - i)).
  (** *it = val, val an outside object or a reference *)
  Definition it_assign (d : nat) (a : arg A) : M unit :=
    p <<- Address_subscript d ;;
    match a with
    | ACopy v => copy_assign p v
    | ARef q => v <<- peek q ;; copy_assign p v
    | AMove v => on_throw (mwhen (mathrow T) tick) (poke p None) ;;; poke p v
    end.
  (** xutility:5596-5623 fill, 5636-5671 fill_n *)
  Definition fill_n_it (d n : nat) (a : arg A) : M unit := for_ n (fun i => it_assign (d + i) a).
  (** utility swap: _Ty tmp = move(a); a = move(b); b = move(tmp) *)
  Definition it_swap (a b : nat) : M unit :=
    p <<- Address_subscript a ;; q <<- Address_subscript b ;;
    v <<- peek p ;;
    on_throw (mwhen (mthrow T) tick) (poke p None) ;;;
    poke p None ;;;
    move_assign T p q ;;;
    on_throw (mwhen (mathrow T) tick) (poke q None) ;;;
    poke q v.
  (** xutility:6849-6873 reverse *)
  Fixpoint reverse_it (fuel f l : nat) : M unit :=
    match fuel with
    | 0 => fun _ => Fuel
    | S fuel =>
        if f =? l then mret tt
        else let l := l - 1 in
             if f =? l then mret tt else it_swap f l ;;; reverse_it fuel (f + 1) l
    end.
  (** xutility:6897-6961 rotate, random access branch *)
  Definition rotate_it (f m l : nat) : M unit :=
    if f =? m then mret tt else if m =? l then mret tt
    else reverse_it (m - f + 1) f m ;;; reverse_it (l - m + 1) m l ;;; reverse_it (l - f + 1) f l.

  (** deque:1199-1236 emplace; positions are offsets from begin() *)
  Definition emplace (Off : nat) (a : arg A) : M unit :=
    n <<- msize ;;
    if Off =? 0 then push_front a
    else if Off =? n then push_back a
    else
      v <<- temp_arg T a ;;
      if Off <=? n / 2 then
        o <<- moff ;; src <<- Address_subscript o ;;
        Emplace_front_internal (fun p => move_construct T p src) ;;;
        o <<- moff ;;
        let Moving_dst := o + 1 in
        let Moving_src_begin := Moving_dst + 1 in
        let Moving_src_end := Moving_dst + Off in
        Move_it Moving_src_begin Moving_src_end Moving_dst ;;;
        it_assign (Moving_dst + (Moving_src_end - Moving_src_begin)) (AMove v)
      else
        o <<- moff ;; src <<- Address_subscript (o + n - 1) ;;
        Emplace_back_internal (fun p => move_construct T p src) ;;;
        o <<- moff ;; n <<- msize ;;
        let Moving_dst_end := o + n - 1 in
        let Moving_src_end := Moving_dst_end - 1 in
        let Moving_src_begin := o + Off in
        Move_backward_it Moving_src_begin Moving_src_end Moving_dst_end ;;;
        it_assign Moving_src_begin (AMove v).

  (** deque:1349-1364 _Restore_old_size_guard *)
  Definition restore_front {X} (Oldsize : nat) (m : M X) : M X :=
    on_throw m (n <<- msize ;; mwhile (S n) (n <<- msize ;; mret (Oldsize <? n)) pop_front).
  Definition restore_back {X} (Oldsize : nat) (m : M X) : M X :=
    on_throw m (n <<- msize ;; mwhile (S n) (n <<- msize ;; mret (Oldsize <? n)) pop_back).

  (** deque:1260-1282 prepend_range *)
  Definition prepend_range (bidi : bool) (vs : list (option A)) : M unit :=
    Oldsize <<- msize ;;
    restore_front Oldsize
      (if bidi then each (rev vs) (fun v => push_front (ACopy v))
       else each vs (fun v => push_front (ACopy v)) ;;;
            n <<- msize ;; o <<- moff ;;
            let Num := n - Oldsize in
            reverse_it (Num + 1) o (o + Num)).
  (** deque:1285-1297 append_range *)
  Definition append_range (vs : list (option A)) : M unit :=
    Oldsize <<- msize ;;
    restore_back Oldsize (each vs (fun v => push_back (ACopy v))).

  (** deque:1369-1421 _Insert_range *)
  Definition Insert_range (bidi : bool) (Off : nat) (vs : list (option A)) : M unit :=
    match vs with
    | [] => mret tt
    | _ =>
        Oldsize <<- msize ;;
        if Off <=? Oldsize / 2 then
          restore_front Oldsize
            (each (if bidi then rev vs else vs) (fun v => push_front (ACopy v))) ;;;
          n <<- msize ;; o <<- moff ;;
          let Num := n - Oldsize in
          let Mymid := o + Num in
          mwhen (negb bidi) (reverse_it (Num + 1) o Mymid) ;;;
          rotate_it o Mymid (Mymid + Off)
        else
          restore_back Oldsize (each vs (fun v => push_back (ACopy v))) ;;;
          n <<- msize ;; o <<- moff ;;
          rotate_it (o + Off) (o + Oldsize) (o + n)
    end.

  (** deque:1423-1485 _Insert_n *)
  Definition Insert_n (Off Count : nat) (a : arg A) : M unit :=
    Oldsize <<- msize ;;
    let Rem := Oldsize - Off in
    if Off <? Rem then
      restore_front Oldsize
        (if Off <? Count then
           for_ (Count - Off) (fun _ => push_front a) ;;;
           for_ Off (fun _ => p <<- Subscript (Count - 1) ;; push_front (ARef p)) ;;;
           o <<- moff ;;
           let Mid := o + Count in
           fill_n_it Mid Off a
         else
           for_ Count (fun _ => p <<- Subscript (Count - 1) ;; push_front (ARef p)) ;;;
           o <<- moff ;;
           let Mid := o + Count in
           tmp <<- temp_arg T a ;;
           Move_it (Mid + Count) (Mid + Off) Mid ;;;
           o <<- moff ;;
           fill_n_it (o + Off) (Mid + Off - (o + Off)) (ACopy tmp))
    else
      restore_back Oldsize
        (if Rem <? Count then
           for_ (Count - Rem) (fun _ => push_back a) ;;;
           for_ Rem (fun Num => p <<- Subscript (Off + Num) ;; push_back (ARef p)) ;;;
           o <<- moff ;;
           let Mid := o + Off in
           fill_n_it Mid Rem a
         else
           for_ Count (fun Num => p <<- Subscript (Off + Rem - Count + Num) ;; push_back (ARef p)) ;;;
           o <<- moff ;;
           let Mid := o + Off in
           tmp <<- temp_arg T a ;;
           Move_backward_it Mid (Mid + (Rem - Count)) (Mid + Rem) ;;;
           fill_n_it Mid Count (ACopy tmp)).

  (** deque:1523-1566 erase(_First_arg, _Last_arg); 1519-1521 erase(_Where) is erase(_Where, _Where + 1) *)
  Definition erase (Off Last : nat) : M unit :=
    let Count := Last - Off in
    if Count =? 0 then mret tt
    else
      o <<- moff ;; n <<- msize ;;
      if Off <? (o + n) - (o + Last) then
        Move_backward_it o (o + Off) (o + Last) ;;; for_ Count (fun _ => pop_front)
      else
        Move_it (o + Last) (o + n) (o + Off) ;;; for_ Count (fun _ => pop_back).

  (** deque:853-869 assign(_Count, _Val). _Assign_count is counted down to 0 by the loop, so all old elements are
      then erased and all new ones appended. *)
  Definition assign_n (Count : nat) (v : option A) : M unit :=
    o <<- moff ;; Oldsize <<- msize ;;
    let Assign_count := Nat.min Count Oldsize in
    for_ Assign_count (fun i => it_assign (o + i) (ACopy v)) ;;;
    let Assign_count := 0 in
    let Shrink_by := Oldsize - Assign_count in
    let Extend_by := Count - Assign_count in
    Erase_last_n Shrink_by ;;;
    for_ Extend_by (fun _ => push_back (ACopy v)).
  (** deque:881-899 _Assign_range; [f] is _Myfirst, [n] is _Mylast - _Myfirst *)
  Fixpoint Assign_loop (n f : nat) (vs : list (option A)) : M unit :=
    match n with
    | 0 => each vs (fun v => push_back (ACopy v))
    | S n' => match vs with
              | [] => Erase_last_n n
              | v :: vs => it_assign f (ACopy v) ;;; Assign_loop n' (f + 1) vs
              end
    end.
  Definition Assign_range (vs : list (option A)) : M unit :=
    o <<- moff ;; n <<- msize ;; Assign_loop n o vs.

  (** deque:729-740 _Construct, 742-753 _Construct_n (a _Tidy_guard cleans up) *)
  Definition Construct (vs : list (option A)) : M unit :=
    on_throw (each vs (fun v => push_back (ACopy v))) Tidy.
End deque.
