(** Model of the character-sequence comparison and search functions of stl/inc/__msvc_string_view.hpp, shared by
    basic_string_view and basic_string. A character is an integer value of its character type [t]; a sequence is the
    list of its characters and a pointer into it is an offset; reading outside the sequence is [UB]. [npos] is [None].
    [narrow]: the traits are char_traits<char> / char_traits<char8_t>, whose compare is memcmp (compares as unsigned
    char); otherwise elements are compared with [<]. [handled]: _Is_implementation_handled_char_traits. The vectorised
    paths (taken at run time for some element sizes and lengths) are not modelled; this is the constant-evaluation /
    non-vectorised code. *)
From stdpp Require Import base list numbers decidable.
From Coq Require Import ZArith Lia.
From Verif Require Import Base.Res Base.Int.
Local Open Scope nat_scope.

Section search.
  Context (t : ity) (narrow handled : bool).
  Notation str := (list Z).
  Definition rdc (a : str) (i : nat) : res Z := match a !! i with Some c => Ok c | None => UB end.
  (** the value by which _Traits::lt / compare orders a character (lines 379-409 and 531-555: memcmp for narrow) *)
  Definition okey (c : Z) : Z := if narrow then cast u8 c else c.

  (** 281-291 _Char_traits::compare(a + i, b + j, n) (and memcmp / wmemcmp, 379-409, 531-555) *)
  Fixpoint tcompare (a : str) (i : nat) (b : str) (j n : nat) : res Z :=
    match n with
    | 0 => Ok 0%Z
    | S n' => x <~ rdc a i ;; y <~ rdc b j ;;
              if decide (x <> y) then Ok (if decide (okey x < okey y)%Z then (-1)%Z else 1%Z)
              else tcompare a (S i) b (S j) n'
    end.
  (** 293-302 _Char_traits::length (on a buffer; running off its end is undefined) *)
  Fixpoint tlength (fuel : nat) (a : str) (i cnt : nat) : res nat :=
    match fuel with
    | 0 => Fuel
    | S f => c <~ rdc a i ;; if decide (c <> 0%Z) then tlength f a (S i) (S cnt) else Ok cnt
    end.
  Definition char_length (a : str) : res nat := tlength (S (length a)) a 0 0.
  (** 304-314 _Char_traits::find(a + i, n, ch); result: the pointer or null *)
  Fixpoint tfind (a : str) (i n : nat) (ch : Z) : res (option nat) :=
    match n with
    | 0 => Ok None
    | S n' => x <~ rdc a i ;; if decide (x = ch) then Ok (Some i) else tfind a (S i) n' ch
    end.

  (** 694-706 _Traits_equal *)
  Definition Traits_equal (l r : str) : res bool :=
    if decide (length l <> length r) then Ok false
    else if decide (length l = 0) then Ok true
    else c <~ tcompare l 0 r 0 (length l) ;; Ok (bool_decide (c = 0%Z)).
  (** 709-727 _Traits_compare *)
  Definition Traits_compare (l r : str) : res Z :=
    ans <~ tcompare l 0 r 0 (length l `min` length r) ;;
    if decide (ans <> 0%Z) then Ok ans
    else if decide (length l < length r) then Ok (-1)%Z
    else if decide (length r < length l) then Ok 1%Z
    else Ok 0%Z.

  (** 730-776 _Traits_find *)
  Definition Traits_find (hay : str) (start : nat) (needle : str) : res (option nat) :=
    if decide (length hay < length needle \/ length hay - length needle < start) then Ok None
    else if decide (length needle = 0) then Ok (Some start)
    else
      let pend := length hay - length needle + 1 in
      loop (S (S (length hay))) (fun m =>
        _ <~ rassert (bool_decide (m <= pend)) ;;
        c0 <~ rdc needle 0 ;;
        r <~ tfind hay m (pend - m) c0 ;;
        match r with
        | None => Ok (inr None)
        | Some m => c <~ tcompare hay m needle 0 (length needle) ;;
                    if decide (c = 0%Z) then Ok (inr (Some m)) else Ok (inl (S m))
        end) start.
  (** 779-807 _Traits_find_ch *)
  Definition Traits_find_ch (hay : str) (start : nat) (ch : Z) : res (option nat) :=
    if decide (length hay <= start) then Ok None
    else tfind hay start (length hay - start) ch.

  (** for (m = lo; m < lo + n; ++m) if (f( *m)) return m; return npos *)
  Fixpoint scan_up (hay : str) (n lo : nat) (f : Z -> res bool) : res (option nat) :=
    match n with
    | 0 => Ok None
    | S n' => c <~ rdc hay lo ;; b <~ f c ;; if (b : bool) then Ok (Some lo) else scan_up hay n' (S lo) f
    end.
  (** for (m = hi;; --m) (if (f(m)) return m; if (m == begin) return npos;) *)
  Fixpoint scan_down (hi : nat) (f : nat -> res bool) : res (option nat) :=
    b <~ f hi ;; if (b : bool) then Ok (Some hi)
    else match hi with 0 => Ok None | S h => scan_down h f end.

  (** 810-852 _Traits_rfind *)
  Definition Traits_rfind (hay : str) (start : nat) (needle : str) : res (option nat) :=
    if decide (length needle = 0) then Ok (Some (start `min` length hay))
    else if decide (length hay < length needle) then Ok None
    else
      let actual := start `min` (length hay - length needle) in
      scan_down actual (fun m =>
        x <~ rdc hay m ;; y <~ rdc needle 0 ;;
        if decide (x = y) then c <~ tcompare hay m needle 0 (length needle) ;; Ok (bool_decide (c = 0%Z))
        else Ok false).
  (** 855-889 _Traits_rfind_ch *)
  Definition Traits_rfind_ch (hay : str) (start : nat) (ch : Z) : res (option nat) :=
    if decide (length hay = 0) then Ok None
    else scan_down (start `min` (length hay - 1)) (fun m => x <~ rdc hay m ;; Ok (bool_decide (x = ch))).

  (** 891-941 _String_bitmap; the two specialisations are chosen by _Is_character (8-bit types) *)
  Definition is_char : bool := bool_decide (wd t = 8%Z).
  Definition bm_get (bm : list bool) (i : Z) : res bool :=
    if decide (0 <= i)%Z then match bm !! Z.to_nat i with Some b => Ok b | None => UB end else UB.
  Definition bm_set (bm : list bool) (i : Z) : res (list bool) :=
    if decide (0 <= i < Z.of_nat (length bm))%Z then Ok (<[Z.to_nat i := true]> bm) else UB.
  (** 895-903 and 922-935 _Mark: (all inputs placed?, bitmap) *)
  Fixpoint bm_mark (bm : list bool) (needle : str) : res (bool * list bool) :=
    match needle with
    | [] => Ok (true, bm)
    | c :: rest =>
        if is_char then bm <~ bm_set bm (cast u8 c) ;; bm_mark bm rest
        else if decide (256 <= c)%Z then Ok (false, bm)
        else bm <~ bm_set bm (cast u8 c) ;; bm_mark bm rest
    end.
  (** 905-908 and 937-939 _Match *)
  Definition bm_match (bm : list bool) (c : Z) : res bool :=
    if is_char then bm_get bm (cast u8 c)
    else if decide (c < 256)%Z then bm_get bm c else Ok false.
  Definition bm_empty : list bool := replicate 256 false.

  (** _Traits::find(_Needle, _Needle_size, c) != nullptr *)
  Definition in_needle (needle : str) (c : Z) : res bool :=
    r <~ tfind needle 0 (length needle) c ;; Ok (bool_decide (is_Some r)).
  (** the membership test the bodies of find_first_of etc. use: bitmap when it can be built, otherwise serial *)
  Definition membership (needle : str) : res (Z -> res bool) :=
    if handled then
      '(ok, bm) <~ bm_mark bm_empty needle ;;
      if (ok : bool) then Ok (bm_match bm) else Ok (in_needle needle)
    else Ok (in_needle needle).

  (** 944-990 _Traits_find_first_of *)
  Definition Traits_find_first_of (hay : str) (start : nat) (needle : str) : res (option nat) :=
    if decide (length needle = 0 \/ length hay <= start) then Ok None
    else f <~ membership needle ;; scan_up hay (length hay - start) start f.
  (** 993-1041 _Traits_find_last_of *)
  Definition Traits_find_last_of (hay : str) (start : nat) (needle : str) : res (option nat) :=
    if decide (length needle = 0 \/ length hay = 0) then Ok None
    else f <~ membership needle ;;
         scan_down (start `min` (length hay - 1)) (fun m => c <~ rdc hay m ;; f c).
  (** 1044-1092 _Traits_find_first_not_of *)
  Definition Traits_find_first_not_of (hay : str) (start : nat) (needle : str) : res (option nat) :=
    if decide (length hay <= start) then Ok None
    else f <~ membership needle ;; scan_up hay (length hay - start) start (fun c => b <~ f c ;; Ok (negb b)).
  (** 1095-1124 _Traits_find_not_ch *)
  Definition Traits_find_not_ch (hay : str) (start : nat) (ch : Z) : res (option nat) :=
    if decide (length hay <= start) then Ok None
    else scan_up hay (length hay - start) start (fun c => Ok (negb (bool_decide (c = ch)))).
  (** 1127-1175 _Traits_find_last_not_of *)
  Definition Traits_find_last_not_of (hay : str) (start : nat) (needle : str) : res (option nat) :=
    if decide (length hay = 0) then Ok None
    else f <~ membership needle ;;
         scan_down (start `min` (length hay - 1)) (fun m => c <~ rdc hay m ;; b <~ f c ;; Ok (negb b)).
  (** 1178-1210 _Traits_rfind_not_ch *)
  Definition Traits_rfind_not_ch (hay : str) (start : nat) (ch : Z) : res (option nat) :=
    if decide (length hay = 0) then Ok None
    else scan_down (start `min` (length hay - 1)) (fun m => c <~ rdc hay m ;; Ok (negb (bool_decide (c = ch)))).

  (** 1737-1743 starts_with, 1753-1759 ends_with, 1771-1777 contains *)
  Definition starts_with (s r : str) : res bool :=
    if decide (length s < length r) then Ok false
    else c <~ tcompare s 0 r 0 (length r) ;; Ok (bool_decide (c = 0%Z)).
  Definition starts_with_ch (s : str) (ch : Z) : res bool :=
    if decide (s = []) then Ok false else c <~ rdc s 0 ;; Ok (bool_decide (c = ch)).
  Definition ends_with (s r : str) : res bool :=
    if decide (length s < length r) then Ok false
    else c <~ tcompare s (length s - length r) r 0 (length r) ;; Ok (bool_decide (c = 0%Z)).
  Definition ends_with_ch (s : str) (ch : Z) : res bool :=
    if decide (s = []) then Ok false else c <~ rdc s (length s - 1) ;; Ok (bool_decide (c = ch)).
  Definition contains (s r : str) : res bool :=
    p <~ Traits_find s 0 r ;; Ok (negb (bool_decide (p = None))).
  Definition contains_ch (s : str) (ch : Z) : res bool :=
    p <~ Traits_find_ch s 0 ch ;; Ok (negb (bool_decide (p = None))).
End search.
