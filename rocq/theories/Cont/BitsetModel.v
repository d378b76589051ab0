(** Model of std::bitset (stl/inc/bitset). The object is its word array; a word is an integer value of the word type
    ([unsigned long], 32 bits, for at most 32 bits, [unsigned long long] otherwise). Word accesses outside the array are
    [UB]; a thrown exception is [Ok None]. The vectorised to_string / from_string kernels are not modelled (only the
    scalar code they stand in for). [N] is the template argument _Bits. *)
From stdpp Require Import base list numbers decidable.
From Coq Require Import ZArith Lia.
From Verif Require Import Base.Res Base.Int Num.BitModel.
Local Open Scope nat_scope.

Section loops.
  Context {S : Type}.
  (** for (i = lo; i < lo + n; ++i) *)
  Fixpoint fup (n lo : nat) (f : nat -> S -> res S) (a : S) : res S :=
    match n with 0 => Ok a | Datatypes.S n' => a <~ f lo a ;; fup n' (Datatypes.S lo) f a end.
  (** for (i = lo + n - 1; i >= lo; --i) *)
  Fixpoint fdown (n lo : nat) (f : nat -> S -> res S) (a : S) : res S :=
    match n with 0 => Ok a | Datatypes.S n' => a <~ f (lo + n') a ;; fdown n' lo f a end.
End loops.

Section bitset.
  Context (N : nat).
  (** bitset:84 _Ty *)
  Definition Ty : ity := if decide (N <= 32) then u32 else u64.
  (** bitset:579-580 _Bitsperword, _Words (number of words - 1) *)
  Definition Bpw : nat := if decide (N <= 32) then 32 else 64.
  Definition Words : nat := if decide (N = 0) then 0 else (N - 1) / Bpw.
  Notation words := (list Z).

  Definition rdw (a : words) (i : nat) : res Z := match a !! i with Some w => Ok w | None => UB end.
  Definition wrw (a : words) (i : nat) (w : Z) : res words := if decide (i < length a) then Ok (<[i := w]> a) else UB.
  Definition not_ (w : Z) : Z := cast Ty (Z.lnot w).
  (** _Ty{1} << _Pos % _Bitsperword *)
  Definition bitmask (pos : nat) : res Z := shl Ty 1 (Z.of_nat (pos mod Bpw)).

  (** bitset:582-587 _Trim *)
  Definition Trim (a : words) : res words :=
    if decide (N = 0 \/ N mod Bpw <> 0) then
      w <~ rdw a Words ;; m <~ bitmask N ;; m <~ arith Ty (m - 1) ;; wrw a Words (Z.land w m)
    else Ok a.

  (** bitset:150-152 _Subscript *)
  Definition Subscript (a : words) (pos : nat) : res bool :=
    w <~ rdw a (pos / Bpw) ;; m <~ bitmask pos ;; Ok (negb (Z.land w m =? 0)%Z).

  (** bitset:175 bitset() *)
  Definition ctor0 : words := replicate (Words + 1) 0%Z.
  (** bitset:154-155, 177 bitset(unsigned long long) *)
  Definition ctor_ull (val : Z) : res words :=
    m <~ shl u64 1 (if decide (N < 64) then Z.of_nat N else 0) ;;
    m <~ arith u64 (m - 1) ;;
    Ok (cast Ty (if decide (N < 64) then Z.land val m else val) :: replicate Words 0%Z).

  (** bitset:280-302 operator&=, |=, ^= *)
  Definition and_eq (a b : words) : res words :=
    fup (Words + 1) 0 (fun i a => x <~ rdw a i ;; y <~ rdw b i ;; wrw a i (Z.land x y)) a.
  Definition or_eq (a b : words) : res words :=
    fup (Words + 1) 0 (fun i a => x <~ rdw a i ;; y <~ rdw b i ;; wrw a i (Z.lor x y)) a.
  Definition xor_eq (a b : words) : res words :=
    fup (Words + 1) 0 (fun i a => x <~ rdw a i ;; y <~ rdw b i ;; wrw a i (Z.lxor x y)) a.

  (** bitset:304-321 operator<<= *)
  Definition shl_eq (a : words) (pos : nat) : res words :=
    let Wordshift := pos / Bpw in
    a <~ (if decide (Wordshift <> 0) then
            fdown (Words + 1) 0 (fun Wpos a =>
              w <~ (if decide (Wordshift <= Wpos) then rdw a (Wpos - Wordshift) else Ok 0%Z) ;; wrw a Wpos w) a
          else Ok a) ;;
    let pos := pos mod Bpw in
    a <~ (if decide (pos <> 0) then
            a <~ fdown Words 1 (fun Wpos a =>
              x <~ rdw a Wpos ;; x <~ shl Ty x (Z.of_nat pos) ;;
              y <~ rdw a (Wpos - 1) ;; y <~ shr Ty y (Z.of_nat (Bpw - pos)) ;; wrw a Wpos (Z.lor x y)) a ;;
            x <~ rdw a 0 ;; x <~ shl Ty x (Z.of_nat pos) ;; wrw a 0 x
          else Ok a) ;;
    Trim a.

  (** bitset:323-339 operator>>= *)
  Definition shr_eq (a : words) (pos : nat) : res words :=
    let Wordshift := pos / Bpw in
    a <~ (if decide (Wordshift <> 0) then
            fup (Words + 1) 0 (fun Wpos a =>
              w <~ (if decide (Wordshift <= Words - Wpos) then rdw a (Wpos + Wordshift) else Ok 0%Z) ;; wrw a Wpos w) a
          else Ok a) ;;
    let pos := pos mod Bpw in
    if decide (pos <> 0) then
      a <~ fup Words 0 (fun Wpos a =>
        x <~ rdw a Wpos ;; x <~ shr Ty x (Z.of_nat pos) ;;
        y <~ rdw a (Wpos + 1) ;; y <~ shl Ty y (Z.of_nat (Bpw - pos)) ;; wrw a Wpos (Z.lor x y)) a ;;
      x <~ rdw a Words ;; x <~ shr Ty x (Z.of_nat pos) ;; wrw a Words x
    else Ok a.

  (** bitset:341-354 set(): every byte becomes 0xFF *)
  Definition set_all (a : words) : res words := Trim ((fun _ => cast Ty (-1)) <$> a).
  (** bitset:364-376 reset() *)
  Definition reset_all (a : words) : res words := Ok ((fun _ => 0%Z) <$> a).
  (** bitset:388-395 flip() *)
  Definition flip_all (a : words) : res words :=
    a <~ fup (Words + 1) 0 (fun i a => x <~ rdw a i ;; wrw a i (not_ x)) a ;; Trim a.

  (** bitset:589-600 _Set_unchecked *)
  Definition Set_unchecked (a : words) (pos : nat) (val : bool) : res words :=
    w <~ rdw a (pos / Bpw) ;; m <~ bitmask pos ;;
    wrw a (pos / Bpw) (if val then Z.lor w m else Z.land w (not_ m)).
  (** bitset:602-605 _Flip_unchecked *)
  Definition Flip_unchecked (a : words) (pos : nat) : res words :=
    w <~ rdw a (pos / Bpw) ;; m <~ bitmask pos ;; wrw a (pos / Bpw) (Z.lxor w m).
  (** bitset:356-362 set(pos, val); 378-380 reset(pos); 397-403 flip(pos); 497-503 test *)
  Definition set_pos (a : words) (pos : nat) (val : bool) : res (option words) :=
    if decide (N <= pos) then Ok None else a <~ Set_unchecked a pos val ;; Ok (Some a).
  Definition reset_pos (a : words) (pos : nat) : res (option words) := set_pos a pos false.
  Definition flip_pos (a : words) (pos : nat) : res (option words) :=
    if decide (N <= pos) then Ok None else a <~ Flip_unchecked a pos ;; Ok (Some a).
  Definition test (a : words) (pos : nat) : res (option bool) :=
    if decide (N <= pos) then Ok None else b <~ Subscript a pos ;; Ok (Some b).

  (** bitset:430-446 to_ullong; any later word nonzero throws overflow_error *)
  Definition to_ullong (a : words) : res (option Z) :=
    if decide (N = 0) then Ok (Some 0%Z)
    else
      ov <~ (if decide (64 < N) then
               fup Words 1 (fun i ov => w <~ rdw a i ;; Ok (ov || negb (w =? 0)%Z)) false
             else Ok false) ;;
      if (ov : bool) then Ok None else w <~ rdw a 0 ;; Ok (Some w).
  (** bitset:405-428 to_ulong *)
  Definition to_ulong (a : words) : res (option Z) :=
    if decide (N = 0) then Ok (Some 0%Z)
    else if decide (N <= 32) then w <~ rdw a 0 ;; Ok (Some (cast u32 w))
    else
      ov <~ (if decide (64 < N) then
               fup Words 1 (fun i ov => w <~ rdw a i ;; Ok (ov || negb (w =? 0)%Z)) false
             else Ok false) ;;
      if (ov : bool) then Ok None
      else w <~ rdw a 0 ;; if decide (in_t u32 w) then Ok (Some (cast u32 w)) else Ok None.

  (** bitset:460-469 count; the popcount implementation is a parameter (they agree by C17_popcount) *)
  Definition count (pop : ity -> Z -> res Z) (a : words) : res Z :=
    fup (Words + 1) 0 (fun i v => w <~ rdw a i ;; c <~ pop Ty w ;; arith u64 (v + c)) 0%Z.
  (** bitset:475-489 operator== *)
  Definition eq (a b : words) : res bool :=
    fup (Words + 1) 0 (fun i r => x <~ rdw a i ;; y <~ rdw b i ;; Ok (r && (x =? y)%Z)) true.
  (** bitset:505-513 any; 515-517 none *)
  Definition any (a : words) : res bool :=
    fup (Words + 1) 0 (fun i r => x <~ rdw a i ;; Ok (r || negb (x =? 0)%Z)) false.
  Definition none (a : words) : res bool := b <~ any a ;; Ok (negb b).
  (** bitset:519-532 all *)
  Definition all (a : words) : res bool :=
    if decide (N = 0) then Ok true
    else
      let No_padding := bool_decide (N mod Bpw = 0) in
      r <~ fup (Words + if No_padding then 1 else 0) 0 (fun i r => x <~ rdw a i ;; Ok (r && (x =? not_ 0)%Z)) true ;;
      if (r : bool) then
        if No_padding then Ok true
        else w <~ rdw a Words ;; m <~ bitmask N ;; m <~ arith Ty (m - 1) ;; Ok (w =? m)%Z
      else Ok false.

  (** bitset:551-574 _To_string (scalar loop) *)
  Definition to_string {C : Type} (Elem0 Elem1 : C) (a : words) : res (list C) :=
    fup N 0 (fun pos buf => b <~ Subscript a (N - 1 - pos) ;; Ok (buf ++ [if (b : bool) then Elem1 else Elem0])) [].

  (** bitset:180-247 _Construct (scalar loop). The array starts uninitialised: modelled as arbitrary words [a0].
      State of the do-while: array, word position, bits used, current word; the position [_Last] is the index [N']. *)
  Definition Construct {C : Type} `{EqDecision C} (Elem0 Elem1 : C) (a0 : words) (s : list C) : res (option words) :=
    let good c := bool_decide (c = Elem1) || bool_decide (c = Elem0) in
    if forallb good (drop N s) then
      let cnt := Nat.min (length s) N in
      r <~ fdown cnt 0 (fun last st =>
             match st with
             | None => Ok None
             | Some (a, Wpos, used, word) =>
                 c <~ match s !! last with Some c => Ok c | None => UB end ;;
                 b <~ shl Ty (if bool_decide (c = Elem1) then 1 else 0) (Z.of_nat used) ;;
                 let word := Z.lor word b in
                 if good c then
                   if decide (used + 1 = Bpw) then a <~ wrw a Wpos word ;; Ok (Some (a, Wpos + 1, 0, 0%Z))
                   else Ok (Some (a, Wpos, used + 1, word))
                 else Ok None
             end) (Some (a0, 0, 0, 0%Z)) ;;
      match r with
      | None => Ok None
      | Some (a, Wpos, used, word) =>
          '(a, Wpos) <~ (if decide (used <> 0) then a <~ wrw a Wpos word ;; Ok (a, Wpos + 1) else Ok (a, Wpos)) ;;
          a <~ fup (Words + 1 - Wpos) Wpos (fun i a => wrw a i 0%Z) a ;;
          Ok (Some a)
      end
    else Ok None.
End bitset.
