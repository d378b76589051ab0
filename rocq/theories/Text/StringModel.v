(** Model of basic_string (xstring): memory is a set of regions (the internal buffers of the strings, heap blocks, foreign arrays), each
    with an address and cells; a cell may be uninitialised. A string object is identified with its internal buffer.
    Any access outside a live region, any overlapping memcpy, any size computation that wraps, any deallocation that does not match its
    allocation and any use of the inactive union member is UB. Simplifications: one allocator (the result of comparing the allocators of two
    strings is a parameter where it matters); ASan annotations, iterator debugging, proxies and constant evaluation are omitted;
    char_traits' copy, move and assign are memcpy, memmove and fill; computing an out-of-range pointer without using it is not UB. *)
From stdpp Require Import base list numbers gmap.
Local Open Scope nat_scope.

Inductive err := LengthError | OutOfRange | BadAlloc.

Section string.
  Context {E : Type} (nul : E).
  (** _Small_string_capacity, _Alloc_mask (xstring:424-432), max_size() (2305-2313), the largest value of size_type *)
  Context (SSO msk mx smax : nat).
  (** _Can_memcpy_val (xstring:649-650) *)
  Context (canmemcpy : bool).

  Record region := Region { rbase : Z; rheap : bool; rdata : list (option E) }.
  (** _Mysize, _Myres, and _Bx._Ptr if that member of the union is active *)
  Record strval := StrVal { ssz : nat; sres : nat; sblk : option nat }.
  (** [smem s r] is the live region [r] *)
  Record ST := St { sheap : gmap nat region; sstr : nat -> strval }.
  Definition smem (s : ST) (r : nat) : option region := sheap s !! r.
  (** the allocator: block, address and count obtained by a request, or failure *)
  Context (orc : gmap nat region -> nat -> option (nat * Z * nat)).

  Inductive outcome (A : Type) : Type := Ok (a : A) (s : ST) | Throw (e : err) (s : ST) | UB.
  Global Arguments Ok {A}. Global Arguments Throw {A}. Global Arguments UB {A}.
  Definition M (A : Type) : Type := ST -> outcome A.
  Definition ret {A} (a : A) : M A := fun s => Ok a s.
  Definition bind {A B} (m : M A) (f : A -> M B) : M B := fun s =>
    match m s with Ok a s => f a s | Throw e s => Throw e s | UB => UB end.
  Definition throw {A} (e : err) : M A := fun s => Throw e s.
  Definition ub {A} : M A := fun _ => UB.
  Notation "x <-- m ;; k" := (bind m (fun x => k)) (at level 100, m at next level, right associativity).
  Notation "m ;;; k" := (bind m (fun _ => k)) (at level 100, right associativity).

  (** *** unsigned arithmetic and memory *)
  Definition uadd (a b : nat) : M nat := if decide (a + b <= smax) then ret (a + b) else ub.
  Definition usub (a b : nat) : M nat := if decide (b <= a) then ret (a - b) else ub.
  Definition ptr : Type := nat * nat.
  Definition padd (p : ptr) (n : nat) : ptr := (fst p, snd p + n).
  Definition upd {X} (f : nat -> X) (i : nat) (x : X) : nat -> X := fun j => if decide (j = i) then x else f j.
  Definition get (this : nat) : M strval := fun s => Ok (sstr s this) s.
  Definition set (this : nat) (v : strval) : M unit := fun s => Ok tt (St (sheap s) (upd (sstr s) this v)).
  Definition set_size (this n : nat) : M unit := v <-- get this ;; set this (StrVal n (sres v) (sblk v)).
  Definition set_res (this n : nat) : M unit := v <-- get this ;; set this (StrVal (ssz v) n (sblk v)).
  Definition set_data (r : nat) (d : list (option E)) : M unit := fun s =>
    match smem s r with Some g => Ok tt (St (<[r := Region (rbase g) (rheap g) d]> (sheap s)) (sstr s)) | None => UB end.
  Definition get_data (r : nat) : M (list (option E)) := fun s => match smem s r with Some g => Ok (rdata g) s | None => UB end.
  Definition addr (p : ptr) : M Z := fun s => Ok (match smem s (fst p) with Some g => rbase g + Z.of_nat (snd p) | None => Z.of_nat (snd p) end)%Z s.
  Definition cells (d : list (option E)) (o n : nat) : list (option E) := take n (drop o d).
  Definition splice (d : list (option E)) (o : nat) (l : list (option E)) : list (option E) := take o d ++ l ++ drop (o + length l) d.
  Definition load (p : ptr) (n : nat) : M (list (option E)) :=
    d <-- get_data (fst p) ;; if decide (snd p + n <= length d) then ret (cells d (snd p) n) else ub.
  Definition store (p : ptr) (l : list (option E)) : M unit :=
    d <-- get_data (fst p) ;; if decide (snd p + length l <= length d) then set_data (fst p) (splice d (snd p) l) else ub.
  (** _Traits::move, _Traits::copy, _Traits::assign(ptr, n, ch), _Traits::assign(ref, ch) *)
  Definition move (dst src : ptr) (n : nat) : M unit := if decide (n = 0) then ret tt else l <-- load src n ;; store dst l.
  Definition copy (dst src : ptr) (n : nat) : M unit :=
    if decide (n = 0) then ret tt else
    if decide (fst dst = fst src /\ snd dst < snd src + n /\ snd src < snd dst + n) then ub else move dst src n.
  Definition fill (dst : ptr) (n : nat) (c : E) : M unit := if decide (n = 0) then ret tt else store dst (replicate n (Some c)).
  Definition put (dst : ptr) (c : E) : M unit := store dst [Some c].
  (** _Al.allocate (exactly the requested count), _Allocate_at_least_helper (xmemory:2316-2336), _Al.deallocate *)
  Definition allocate (exact : bool) (n : nat) : M (nat * nat) := fun s =>
    match orc (sheap s) n with
    | Some (b, base, m) => let m := if exact then n else m in Ok (b, m) (St (<[b := Region base true (replicate m None)]> (sheap s)) (sstr s))
    | None => Throw BadAlloc s
    end.
  Definition deallocate (b n : nat) : M unit := fun s =>
    match smem s b with
    | Some g => if decide (rheap g = true /\ length (rdata g) = n) then Ok tt (St (delete b (sheap s)) (sstr s)) else UB
    | None => UB
    end.

  (** *** _String_val *)
  (** _Large_mode_engaged (xstring:452-454) *)
  Definition large (v : strval) : bool := bool_decide (SSO < sres v).
  (** _Bx._Ptr, _Bx._Buf *)
  Definition bx_ptr (this : nat) : M nat := v <-- get this ;; match sblk v with Some b => ret b | None => ub end.
  Definition bx_buf (this : nat) : M ptr := v <-- get this ;; match sblk v with Some _ => ub | None => ret (this, 0) end.
  (** _Myptr (xstring:434-450) *)
  Definition Myptr (this : nat) : M ptr :=
    v <-- get this ;; if large v then b <-- bx_ptr this ;; ret (b, 0) else bx_buf this.
  (** activating a member of the union: the other one's value is lost *)
  Definition union_ptr (this b : nat) : M unit :=
    v <-- get this ;; set this (StrVal (ssz v) (sres v) (Some b)) ;;; set_data this (replicate (SSO + 1) None).
  Definition union_buf (this : nat) : M unit :=
    v <-- get this ;; set this (StrVal (ssz v) (sres v) None) ;;; set_data this (replicate (SSO + 1) None).
  (** _Construct_in_place(_Bx._Ptr, b) when _Buf is active *)
  Definition Construct_ptr (this b : nat) : M unit := bx_buf this ;;; union_ptr this b.
  (** _Bx._Ptr = b when _Ptr is active *)
  Definition assign_ptr (this b : nat) : M unit := bx_ptr this ;;; v <-- get this ;; set this (StrVal (ssz v) (sres v) (Some b)).
  (** _Switch_to_buf (xstring:500-511) *)
  Definition Switch_to_buf (this : nat) : M unit := bx_ptr this ;;; union_buf this.
  (** _Check_offset (xstring:467-472), _Check_offset_exclusive (474-479), _Clamp_suffix_size (485-488) *)
  Definition Check_offset (this off : nat) : M unit := v <-- get this ;; if decide (ssz v < off) then throw OutOfRange else ret tt.
  Definition Check_offset_exclusive (this off : nat) : M unit := v <-- get this ;; if decide (ssz v <= off) then throw OutOfRange else ret tt.
  Definition Clamp_suffix_size (this off n : nat) : M nat := v <-- get this ;; k <-- usub (ssz v) off ;; ret (n `min` k).

  (** *** allocation and growth *)
  (** _Allocate_for_capacity (xstring:873-899). The
      internal check that the capacity exceeds _Small_string_capacity is modelled as UB. *)
  Definition Allocate_for_capacity (exact : bool) (cap : nat) : M (nat * nat) :=
    if decide (SSO < cap) then
      n <-- uadd cap 1 ;;
      r <-- allocate exact n ;;
      c <-- usub (snd r) 1 ;;
      ret (fst r, c)
    else ub.
  (** _Deallocate_for_capacity (xstring:901-905) *)
  Definition Deallocate_for_capacity (b cap : nat) : M unit :=
    if decide (SSO < cap) then n <-- uadd cap 1 ;; deallocate b n else ub.
  (** _Calculate_growth (xstring:2950-2962) *)
  Definition Calculate_growth (requested old max : nat) : M nat :=
    let masked := Nat.lor requested msk in
    if decide (max < masked) then ret max else
    d <-- usub max (Nat.div2 old) ;;
    if decide (d < old) then ret max else
    g <-- uadd old (Nat.div2 old) ;;
    ret (masked `max` g).
  (** _Reallocate_for (xstring:2968-2995) *)
  Definition Reallocate_for (this new_size : nat) (fn : ptr -> nat -> M unit) : M unit :=
    if decide (mx < new_size) then throw LengthError else
    v <-- get this ;;
    let old_capacity := sres v in
    g <-- Calculate_growth new_size old_capacity mx ;;
    r <-- Allocate_for_capacity false g ;;
    set_size this new_size ;;;
    set_res this (snd r) ;;;
    fn (fst r, 0) new_size ;;;
    if decide (SSO < old_capacity) then
      b <-- bx_ptr this ;; Deallocate_for_capacity b old_capacity ;;; assign_ptr this (fst r)
    else Construct_ptr this (fst r).
  (** _Reallocate_grow_by (xstring:2997-3030) *)
  Definition Reallocate_grow_by (this size_increase : nat) (fn : ptr -> ptr -> nat -> M unit) : M unit :=
    v <-- get this ;;
    let old_size := ssz v in
    d <-- usub mx old_size ;;
    if decide (d < size_increase) then throw LengthError else
    new_size <-- uadd old_size size_increase ;;
    let old_capacity := sres v in
    g <-- Calculate_growth new_size old_capacity mx ;;
    r <-- Allocate_for_capacity false g ;;
    set_size this new_size ;;;
    set_res this (snd r) ;;;
    if decide (SSO < old_capacity) then
      b <-- bx_ptr this ;;
      fn (fst r, 0) (b, 0) old_size ;;;
      Deallocate_for_capacity b old_capacity ;;;
      assign_ptr this (fst r)
    else
      p <-- bx_buf this ;;
      fn (fst r, 0) p old_size ;;;
      Construct_ptr this (fst r).
  (** _Become_small (xstring:3032-3046) *)
  Definition Become_small (this : nat) : M unit :=
    b <-- bx_ptr this ;;
    Switch_to_buf this ;;;
    v <-- get this ;;
    p <-- bx_buf this ;;
    n <-- uadd (ssz v) 1 ;;
    copy p (b, 0) n ;;;
    Deallocate_for_capacity b (sres v) ;;;
    set_res this SSO.
  (** _Eos (xstring:3048-3052) *)
  Definition Eos (this new_size : nat) : M unit := set_size this new_size ;;; p <-- Myptr this ;; put (padd p new_size) nul.
  (** _Tidy_deallocate (xstring:3234-3248); also the destructor *)
  Definition Tidy_deallocate (this : nat) : M unit :=
    v <-- get this ;;
    (if large v then b <-- bx_ptr this ;; Deallocate_for_capacity b (sres v) ;;; Switch_to_buf this else ret tt) ;;;
    set_size this 0 ;;; set_res this SSO ;;; p <-- bx_buf this ;; put p nul.

  (** *** modifiers *)
  (** _Append (xstring:3054-3083) *)
  Definition append (this : nat) (p : ptr) (count : nat) : M unit :=
    v <-- get this ;;
    let old_size := ssz v in
    k <-- usub (sres v) old_size ;;
    if decide (count <= k) then
      new_size <-- uadd old_size count ;;
      set_size this new_size ;;;
      old <-- Myptr this ;;
      move (padd old old_size) p count ;;;
      put (padd old (old_size + count)) nul
    else
      Reallocate_grow_by this count (fun new old old_size =>
        copy new old old_size ;;; copy (padd new old_size) p count ;;; put (padd new (old_size + count)) nul).
  (** append(count, ch) (xstring:1578-1601) *)
  Definition append_ch (this count : nat) (c : E) : M unit :=
    v <-- get this ;;
    let old_size := ssz v in
    k <-- usub (sres v) old_size ;;
    if decide (count <= k) then
      new_size <-- uadd old_size count ;;
      set_size this new_size ;;;
      old <-- Myptr this ;;
      fill (padd old old_size) count c ;;;
      put (padd old (old_size + count)) nul
    else
      Reallocate_grow_by this count (fun new old old_size =>
        copy new old old_size ;;; fill (padd new old_size) count c ;;; put (padd new (old_size + count)) nul).
  (** _Assign (xstring:3085-3107) *)
  Definition assign (this : nat) (p : ptr) (count : nat) : M unit :=
    v <-- get this ;;
    if decide (count <= sres v) then
      old <-- Myptr this ;;
      set_size this count ;;;
      move old p count ;;;
      put (padd old count) nul
    else Reallocate_for this count (fun new count => copy new p count ;;; put (padd new count) nul).
  (** assign(count, ch) (xstring:1675-1694) *)
  Definition assign_ch (this count : nat) (c : E) : M unit :=
    v <-- get this ;;
    if decide (count <= sres v) then
      old <-- Myptr this ;;
      set_size this count ;;;
      fill old count c ;;;
      put (padd old count) nul
    else Reallocate_for this count (fun new count => fill new count c ;;; put (padd new count) nul).
  (** _Insert (xstring:3109-3157) *)
  Definition insert (this off : nat) (p : ptr) (count : nat) : M unit :=
    Check_offset this off ;;;
    v <-- get this ;;
    let old_size := ssz v in
    k <-- usub (sres v) old_size ;;
    if decide (count <= k) then
      new_size <-- uadd old_size count ;;
      set_size this new_size ;;;
      old <-- Myptr this ;;
      let insert_at := padd old off in
      a <-- addr p ;; i <-- addr insert_at ;; o <-- addr (padd old old_size) ;;
      let shifted := if decide (a + Z.of_nat count <= i \/ o < a)%Z then count
                     else if decide (i <= a)%Z then 0 else Z.to_nat (i - a) in
      n <-- usub old_size off ;;
      n <-- uadd n 1 ;;
      move (padd insert_at count) insert_at n ;;;
      copy insert_at p shifted ;;;
      r <-- usub count shifted ;;
      copy (padd insert_at shifted) (padd p (count + shifted)) r
    else
      Reallocate_grow_by this count (fun new old old_size =>
        copy new old off ;;;
        copy (padd new off) p count ;;;
        n <-- usub old_size off ;;
        n <-- uadd n 1 ;;
        copy (padd new (off + count)) (padd old off) n).
  (** insert(off, count, ch) (xstring:1776-1803) *)
  Definition insert_ch (this off count : nat) (c : E) : M unit :=
    Check_offset this off ;;;
    v <-- get this ;;
    let old_size := ssz v in
    k <-- usub (sres v) old_size ;;
    if decide (count <= k) then
      new_size <-- uadd old_size count ;;
      set_size this new_size ;;;
      old <-- Myptr this ;;
      let insert_at := padd old off in
      n <-- usub old_size off ;;
      n <-- uadd n 1 ;;
      move (padd insert_at count) insert_at n ;;;
      fill insert_at count c
    else
      Reallocate_grow_by this count (fun new old old_size =>
        copy new old off ;;;
        fill (padd new off) count c ;;;
        n <-- usub old_size off ;;
        n <-- uadd n 1 ;;
        copy (padd new (off + count)) (padd old off) n).
  (** erase(off) (xstring:1862-1866), _Erase_noexcept (1869-1881), erase(off, count) (1884-1888), clear (1909-1911) *)
  Definition erase_from (this off : nat) : M unit := Check_offset this off ;;; Eos this off.
  Definition Erase_noexcept (this off count : nat) : M unit :=
    count <-- Clamp_suffix_size this off count ;;
    v <-- get this ;;
    let old_size := ssz v in
    my <-- Myptr this ;;
    let erase_at := padd my off in
    new_size <-- usub old_size count ;;
    n <-- usub new_size off ;;
    n <-- uadd n 1 ;;
    move erase_at (padd erase_at count) n ;;;
    set_size this new_size.
  Definition erase (this off count : nat) : M unit := Check_offset this off ;;; Erase_noexcept this off count.
  Definition clear (this : nat) : M unit := Eos this 0.
  (** _Replace (xstring:3159-3232) *)
  Definition replace (this off nx : nat) (p : ptr) (count : nat) : M unit :=
    Check_offset this off ;;;
    nx <-- Clamp_suffix_size this off nx ;;
    if decide (nx = count) then old <-- Myptr this ;; move (padd old off) p count else
    v <-- get this ;;
    let old_size := ssz v in
    n <-- usub old_size nx ;;
    n <-- usub n off ;;
    suffix_size <-- uadd n 1 ;;
    if decide (count < nx) then
      old <-- Myptr this ;;
      let insert_at := padd old off in
      move insert_at p count ;;;
      move (padd insert_at count) (padd insert_at nx) suffix_size ;;;
      d <-- usub nx count ;;
      new_size <-- usub old_size d ;;
      set_size this new_size
    else
    growth <-- usub count nx ;;
    k <-- usub (sres v) old_size ;;
    if decide (growth <= k) then
      new_size <-- uadd old_size growth ;;
      set_size this new_size ;;;
      old <-- Myptr this ;;
      let insert_at := padd old off in
      let suffix_at := padd insert_at nx in
      a <-- addr p ;; i <-- addr insert_at ;; f <-- addr suffix_at ;; o <-- addr (padd old old_size) ;;
      let shifted := if decide (a + Z.of_nat count <= i \/ o < a)%Z then count
                     else if decide (f <= a)%Z then 0 else Z.to_nat (f - a) in
      move (padd suffix_at growth) suffix_at suffix_size ;;;
      move insert_at p shifted ;;;
      r <-- usub count shifted ;;
      copy (padd insert_at shifted) (padd p (growth + shifted)) r
    else
      Reallocate_grow_by this growth (fun new old old_size =>
        copy new old off ;;;
        copy (padd new off) p count ;;;
        n <-- usub old_size nx ;;
        n <-- usub n off ;;
        n <-- uadd n 1 ;;
        copy (padd new (off + count)) (padd old (off + nx)) n).
  (** replace(off, nx, count, ch) (xstring:1952-1989) *)
  Definition replace_ch (this off nx count : nat) (c : E) : M unit :=
    Check_offset this off ;;;
    nx <-- Clamp_suffix_size this off nx ;;
    if decide (count = nx) then old <-- Myptr this ;; fill (padd old off) count c else
    v <-- get this ;;
    let old_size := ssz v in
    k <-- usub (sres v) old_size ;;
    if decide (count < nx \/ count - nx <= k) then
      n <-- uadd old_size count ;;
      new_size <-- usub n nx ;;
      set_size this new_size ;;;
      old <-- Myptr this ;;
      let insert_at := padd old off in
      n <-- usub old_size nx ;;
      n <-- usub n off ;;
      n <-- uadd n 1 ;;
      move (padd insert_at count) (padd insert_at nx) n ;;;
      fill insert_at count c
    else
      g <-- usub count nx ;;
      Reallocate_grow_by this g (fun new old old_size =>
        copy new old off ;;;
        fill (padd new off) count c ;;;
        n <-- usub old_size nx ;;
        n <-- usub n off ;;
        n <-- uadd n 1 ;;
        copy (padd new (off + count)) (padd old (off + nx)) n).
  (** push_back (xstring:2219-2240), pop_back (2242-2250) *)
  Definition push_back (this : nat) (c : E) : M unit :=
    v <-- get this ;;
    let old_size := ssz v in
    if decide (old_size < sres v) then
      new_size <-- uadd old_size 1 ;;
      set_size this new_size ;;;
      p <-- Myptr this ;;
      put (padd p old_size) c ;;;
      put (padd p (old_size + 1)) nul
    else
      Reallocate_grow_by this 1 (fun new old old_size =>
        copy new old old_size ;;; put (padd new old_size) c ;;; put (padd new (old_size + 1)) nul).
  Definition pop_back (this : nat) : M unit := v <-- get this ;; n <-- usub (ssz v) 1 ;; Eos this n.
  (** resize (xstring:2315-2323) *)
  Definition resize (this new_size : nat) (c : E) : M unit :=
    v <-- get this ;;
    if decide (new_size <= ssz v) then Eos this new_size else d <-- usub new_size (ssz v) ;; append_ch this d c.
  (** resize_and_overwrite (xstring:2325-2360): the operation sees the buffer and the size, may change the first _New_size characters and
      returns the final size *)
  Definition resize_and_overwrite (this new_size : nat) (op : list (option E) -> list (option E) * nat) : M unit :=
    v <-- get this ;;
    (if decide (sres v < new_size) then
       d <-- usub new_size (ssz v) ;;
       Reallocate_grow_by this d (fun new old old_size => n <-- uadd old_size 1 ;; copy new old n)
     else set_size this new_size) ;;;
    p <-- Myptr this ;;
    l <-- load p new_size ;;
    let '(l, r) := op l in
    if decide (length l = new_size) then store p l ;;; Eos this r else ub.
  (** reserve(newcap) (xstring:2373-2390), reserve() (2392-2396) *)
  Definition reserve (this newcap : nat) : M unit :=
    v <-- get this ;;
    if decide (newcap <= sres v) then ret tt else
    let old_size := ssz v in
    d <-- usub newcap old_size ;;
    Reallocate_grow_by this d (fun new old old_size => n <-- uadd old_size 1 ;; copy new old n) ;;;
    set_size this old_size.
  Definition reserve0 (this : nat) : M unit :=
    v <-- get this ;; if decide (ssz v = 0 /\ large v = true) then Become_small this else ret tt.
  (** shrink_to_fit (xstring:2158-2184) *)
  Definition shrink_to_fit (this : nat) : M unit :=
    v <-- get this ;;
    if large v then
      if decide (ssz v <= SSO) then Become_small this else
      let target := Nat.lor (ssz v) msk `min` mx in
      if decide (target < sres v) then
        r <-- Allocate_for_capacity true target ;;
        b <-- bx_ptr this ;;
        n <-- uadd (ssz v) 1 ;;
        copy (fst r, 0) (b, 0) n ;;;
        Deallocate_for_capacity b (sres v) ;;;
        assign_ptr this (fst r) ;;;
        set_res this (snd r)
      else ret tt
    else ret tt.
  (** at (xstring:2186-2194), operator[] (2196-2210) without the hardening check *)
  Definition at_ (this off : nat) : M (option E) :=
    Check_offset_exclusive this off ;;; p <-- Myptr this ;; l <-- load (padd p off) 1 ;; match l with [c] => ret c | _ => ub end.
  Definition index (this off : nat) : M (option E) := p <-- Myptr this ;; l <-- load (padd p off) 1 ;; match l with [c] => ret c | _ => ub end.
  (** copy(ptr, count, off) (xstring:2427-2434) *)
  Definition copy_out (this : nat) (dst : ptr) (count off : nat) : M nat :=
    Check_offset this off ;;;
    count <-- Clamp_suffix_size this off count ;;
    p <-- Myptr this ;;
    copy dst (padd p off) count ;;;
    ret count.

  (** *** constructors, moves, swap *)
  (** a new string object before construction: _Buf is active (xstring:402, 494), the sizes are 0 (514-518) *)
  Definition fresh (this : nat) : M unit := set this (StrVal 0 0 None).
  (** _Construct_empty (xstring:907-918) *)
  Definition Construct_empty (this : nat) : M unit :=
    fresh this ;;; set_size this 0 ;;; set_res this SSO ;;; p <-- bx_buf this ;; put p nul.
  (** _Construct (xstring:922-979); the three strategies *)
  Inductive strategy := From_char (c : E) | From_ptr (p : ptr) | From_string (p : ptr).
  Definition Construct (this : nat) (arg : strategy) (count : nat) : M unit :=
    fresh this ;;;
    if decide (mx < count) then throw LengthError else
    if decide (count <= SSO) then
      set_size this count ;;; set_res this SSO ;;;
      buf <-- bx_buf this ;;
      match arg with
      | From_char c => fill buf count c ;;; put (padd buf count) nul
      | From_ptr p => copy buf p count ;;; put (padd buf count) nul
      | From_string p => copy buf p (SSO + 1)
      end
    else
      g <-- Calculate_growth count SSO mx ;;
      r <-- Allocate_for_capacity false g ;;
      Construct_ptr this (fst r) ;;;
      set_size this count ;;; set_res this (snd r) ;;;
      let new := (fst r, 0) in
      match arg with
      | From_char c => fill new count c ;;; put (padd new count) nul
      | From_ptr p => copy new p count ;;; put (padd new count) nul
      | From_string p => n <-- uadd count 1 ;; copy new p n
      end.
  (** basic_string(const basic_string&) (xstring:758-764): From_string with _Myptr and _Mysize of the source *)
  Definition copy_construct (this right_ : nat) : M unit := p <-- Myptr right_ ;; v <-- get right_ ;; Construct this (From_string p) (ssz v).
  (** basic_string(const basic_string&, off, count) (xstring:782-789); also substr (2788-2797) *)
  Definition substr_construct (this right_ roff count : nat) : M unit :=
    fresh this ;;;
    Check_offset right_ roff ;;;
    p <-- Myptr right_ ;; n <-- Clamp_suffix_size right_ roff count ;; Construct this (From_ptr (padd p roff)) n.
  (** _Take_contents (xstring:1307-1364). memcpy of the whole representation, or member by member. *)
  Definition Take_contents (this right_ : nat) : M unit :=
    rv <-- get right_ ;;
    if canmemcpy then
      set this rv ;;;
      d <-- get_data right_ ;; set_data this d ;;;
      set_size right_ 0 ;;; set_res right_ SSO ;;;
      union_buf right_ ;;; put (right_, 0) nul
    else
      (if large rv then
         b <-- bx_ptr right_ ;; Construct_ptr this b ;;; Switch_to_buf right_
       else
         p <-- bx_buf this ;; q <-- bx_buf right_ ;; n <-- uadd (ssz rv) 1 ;; copy p q n) ;;;
      set_res this (sres rv) ;;; set_size this (ssz rv) ;;;
      set_size right_ 0 ;;; set_res right_ SSO ;;;
      q <-- bx_buf right_ ;; put q nul.
  (** basic_string(basic_string&&) (xstring:1077-1081) *)
  Definition move_construct (this right_ : nat) : M unit := fresh this ;;; Take_contents this right_.
  (** operator=(basic_string&&) (xstring:1275-1299), equal allocators *)
  Definition move_assign (this right_ : nat) : M unit :=
    if decide (this = right_) then ret tt else Tidy_deallocate this ;;; Take_contents this right_.
  (** operator=(const basic_string&) (xstring:1424-1450), equal allocators: assign from the other string *)
  Definition copy_assign (this right_ : nat) : M unit :=
    if decide (this = right_) then ret tt else p <-- Myptr right_ ;; v <-- get right_ ;; assign this p (ssz v).
  (** _Move_construct_from_substr (xstring:1367-1388); also substr on an rvalue (2800-2803) *)
  Definition Move_construct_from_substr (aleq : bool) (this right_ roff size_max : nat) : M unit :=
    fresh this ;;;
    Check_offset right_ roff ;;;
    n <-- Clamp_suffix_size right_ roff size_max ;;
    p <-- Myptr right_ ;;
    if decide (aleq = true /\ SSO < n) then
      (if decide (roff = 0) then ret tt else move p (padd p roff) n) ;;;
      Eos right_ n ;;;
      Take_contents this right_
    else Construct this (From_ptr (padd p roff)) n.
  (** the constructor used by operator+ (xstring:1098-1127) with the size check of operator+ (3309-3366) *)
  Definition concat (this : nat) (left_ptr : ptr) (left_size : nat) (right_ptr : ptr) (right_size : nat) : M unit :=
    d <-- usub mx left_size ;;
    if decide (d < right_size) then throw LengthError else
    fresh this ;;;
    new_size <-- uadd left_size right_size ;;
    r <-- (if decide (SSO < new_size) then
             g <-- Calculate_growth new_size SSO mx ;;
             r <-- Allocate_for_capacity false g ;;
             Construct_ptr this (fst r) ;;; ret ((fst r, 0), snd r)
           else p <-- bx_buf this ;; ret (p, SSO)) ;;
    let '(p, cap) := r in
    set_size this new_size ;;; set_res this cap ;;;
    copy p left_ptr left_size ;;;
    copy (padd p left_size) right_ptr right_size ;;;
    put (padd p new_size) nul.
  (** the constructor used by operator+(basic_string&&, basic_string&&) (xstring:1129-1195) *)
  Definition concat_rvalues (aleq : bool) (this l r : nat) : M unit :=
    fresh this ;;;
    lv <-- get l ;; rv <-- get r ;;
    let left_size := ssz lv in let right_size := ssz rv in
    new_size <-- uadd left_size right_size ;;
    k <-- usub (sres lv) left_size ;;
    if decide (right_size <= k /\ sres rv <= sres lv) then
      Take_contents this l ;;;
      p <-- Myptr this ;; q <-- Myptr r ;;
      n <-- uadd right_size 1 ;;
      copy (padd p left_size) q n ;;;
      set_size this new_size
    else
    k <-- usub (sres rv) right_size ;;
    if decide (aleq = true /\ left_size <= k) then
      Take_contents this r ;;;
      b <-- bx_ptr this ;;
      n <-- uadd right_size 1 ;;
      move (b, left_size) (b, 0) n ;;;
      q <-- Myptr l ;;
      copy (b, 0) q left_size ;;;
      set_size this new_size
    else
    d <-- usub mx left_size ;;
    if decide (d < right_size) then throw LengthError else
    g <-- Calculate_growth new_size SSO mx ;;
    a <-- Allocate_for_capacity false g ;;
    Construct_ptr this (fst a) ;;;
    set_size this new_size ;;; set_res this (snd a) ;;;
    p <-- Myptr l ;;
    copy (fst a, 0) p left_size ;;;
    q <-- Myptr r ;;
    n <-- uadd right_size 1 ;;
    copy (fst a, left_size) q n.
  (** _Swap_bx_large_with_small (xstring:2447-2454) *)
  Definition Swap_bx_large_with_small (starts_large starts_small : nat) : M unit :=
    b <-- bx_ptr starts_large ;;
    Switch_to_buf starts_large ;;;
    p <-- bx_buf starts_large ;; q <-- bx_buf starts_small ;;
    copy p q (SSO + 1) ;;;
    Construct_ptr starts_small b.
  (** swap and _Swap_data (xstring:2456-2526). The temporary buffer of the last case is not a region. *)
  Definition swap (this right_ : nat) : M unit :=
    if decide (this = right_) then ret tt else
    v <-- get this ;; rv <-- get right_ ;;
    if canmemcpy then
      d <-- get_data this ;; e <-- get_data right_ ;;
      set this rv ;;; set_data this e ;;;
      set right_ v ;;; set_data right_ d
    else
      (match large v, large rv with
       | true, true => a <-- bx_ptr this ;; b <-- bx_ptr right_ ;; assign_ptr this b ;;; assign_ptr right_ a
       | true, false => Swap_bx_large_with_small this right_
       | false, true => Swap_bx_large_with_small right_ this
       | false, false =>
         p <-- bx_buf this ;; q <-- bx_buf right_ ;;
         n <-- uadd (ssz v) 1 ;; m <-- uadd (ssz rv) 1 ;;
         t <-- load p n ;; copy p q m ;;; store q t
       end) ;;;
      set_size this (ssz rv) ;;; set_size right_ (ssz v) ;;;
      set_res this (sres rv) ;;; set_res right_ (sres v).
End string.
Arguments smem : simpl never.
