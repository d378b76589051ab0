(** Model of std::filesystem::path (stl/inc/filesystem): lexical operations on the native text of a path.
    A path is its [_Text], a list of UTF-16 code units (wchar_t, 0 .. 65535). A pointer into the text is an index; a
    function taking [_First, _Last) receives the list of code units of that range, so [_First] is 0 and [_Last] is its
    length. Reading outside the range, or building a view whose end precedes its start, is [UB]. *)
From stdpp Require Import base list numbers.
From Coq Require Import ZArith.
From Verif Require Import Base.Res.
Local Open Scope Z_scope.

Notation text := (list Z).
Notation SLASH := 47. Notation BSLASH := 92. Notation COLON := 58. Notation DOT := 46. Notation QMARK := 63.
(** wstring_view _Dot, _Dot_dot (filesystem:1187-1188) *)
Definition dot : text := [DOT].
Definition dotdot : text := [DOT; DOT].

(** *_Ptr *)
Definition rd (t : text) (i : nat) : res Z := match t !! i with Some c => Ok c | None => UB end.
(** wstring_view(_Text.data() + i, j - i) *)
Definition view (t : text) (i j : nat) : res text :=
  if ((i <=? j) && (j <=? length t))%nat then Ok (take (j - i) (drop i t)) else UB.
(** std::find_if / std::find_if_not over [i, _Last) (xutility): a scan that stops at the first hit or at [_Last] *)
Fixpoint scan (n : nat) (hit : Z -> bool) (t : text) (i : nat) : res nat :=
  match n with
  | O => Ok i
  | S n => c <~ rd t i ;; if hit c then Ok i else scan n hit t (S i)
  end.
Definition find_if (hit : Z -> bool) (t : text) (i : nat) : res nat :=
  if (length t <? i)%nat then UB else scan (length t - i) hit t i.
Definition find_if_not (hit : Z -> bool) := find_if (fun c => negb (hit c)).
(** while (_Stop != _Last && _Pred(_Last[-1])) --_Last;   [n] is _Last - _Stop *)
Fixpoint back (n : nat) (pred : Z -> bool) (t : text) (last : nat) : res nat :=
  match n with
  | O => Ok last
  | S n => c <~ rd t (last - 1) ;; if pred c then back n pred t (last - 1) else Ok last
  end.
Definition while_back (pred : Z -> bool) (t : text) (stop last : nat) : res nat :=
  if (last <? stop)%nat then UB else back (last - stop) pred t last.

(** _Is_slash (filesystem:347-353) *)
Definition Is_slash (c : Z) : bool := (c =? BSLASH) || (c =? SLASH).

(** _Is_drive_prefix (filesystem:355-364): loads two code units as one little-endian 32-bit word, clears the lower-case
    bit of the first, subtracts "A:" (modulo 2^32) and compares with 26. *)
Definition Is_drive_prefix (t : text) (i : nat) : res bool :=
  c0 <~ rd t i ;;
  c1 <~ rd t (S i) ;;
  let value := c0 + Z.shiftl c1 16 in
  let value := Z.land value 0xFFFFFFDF in
  let value := (value - Z.lor (Z.shiftl COLON 16) 65) mod 2 ^ 32 in
  Ok (value <? 26).

(** _Has_drive_letter_prefix (filesystem:366-369) *)
Definition Has_drive_letter_prefix (t : text) : res bool :=
  if (2 <=? length t)%nat then Is_drive_prefix t 0 else Ok false.

(** _Find_root_name_end (filesystem:371-423) *)
Definition Find_root_name_end (t : text) : res nat :=
  let n := length t in
  if (n <? 2)%nat then Ok 0%nat else
  d <~ Has_drive_letter_prefix t ;;
  if d : bool then Ok 2%nat else
  c0 <~ rd t 0 ;;
  if negb (Is_slash c0) then Ok 0%nat else
  device <~ (if (4 <=? n)%nat then
               c3 <~ rd t 3 ;;
               if Is_slash c3 then
                 e4 <~ (if (n =? 4)%nat then Ok true else c4 <~ rd t 4 ;; Ok (negb (Is_slash c4))) ;;
                 if e4 : bool then
                   c1 <~ rd t 1 ;;
                   c2 <~ rd t 2 ;;
                   Ok ((Is_slash c1 && ((c2 =? QMARK) || (c2 =? DOT))) || ((c1 =? QMARK) && (c2 =? QMARK)))
                 else Ok false
               else Ok false
             else Ok false) ;;
  if device : bool then Ok 3%nat else
  server <~ (if (3 <=? n)%nat then
               c1 <~ rd t 1 ;;
               if Is_slash c1 then c2 <~ rd t 2 ;; Ok (negb (Is_slash c2)) else Ok false
             else Ok false) ;;
  if server : bool then find_if Is_slash t 3 else Ok 0%nat.

(** _Find_relative_path (filesystem:432-435) *)
Definition Find_relative_path (t : text) : res nat := e <~ Find_root_name_end t ;; find_if_not Is_slash t e.

(** _Parse_root_name (filesystem:425-430), path::root_name (1080-1084) *)
Definition root_name (t : text) : res text := e <~ Find_root_name_end t ;; view t 0 e.
(** _Parse_root_directory (filesystem:437-444), path::root_directory (1086-1089) *)
Definition root_directory (t : text) : res text :=
  e <~ Find_root_name_end t ;; r <~ find_if_not Is_slash t e ;; view t e r.
(** _Parse_root_path (filesystem:446-451), path::root_path (1091-1094) *)
Definition root_path (t : text) : res text := r <~ Find_relative_path t ;; view t 0 r.
(** _Parse_relative_path (filesystem:453-459), path::relative_path (1096-1099) *)
Definition relative_path (t : text) : res text := r <~ Find_relative_path t ;; view t r (length t).
(** _Parse_parent_path (filesystem:461-481), path::parent_path (1101-1104) *)
Definition parent_path (t : text) : res text :=
  r <~ Find_relative_path t ;;
  l <~ while_back (fun c => negb (Is_slash c)) t r (length t) ;;
  l <~ while_back Is_slash t r l ;;
  view t 0 l.
(** _Find_filename (filesystem:483-491) *)
Definition Find_filename (t : text) : res nat :=
  r <~ Find_relative_path t ;; while_back (fun c => negb (Is_slash c)) t r (length t).
(** _Parse_filename (filesystem:493-499), path::filename (1106-1109) *)
Definition filename (t : text) : res text := f <~ Find_filename t ;; view t f (length t).

(** _Find_extension (filesystem:501-531); [f] is _Filename, [ads] is _Ads. The loop runs while _Filename != --_Extension;
    its counter is the distance still left. *)
Fixpoint Find_extension_loop (n : nat) (t : text) (f e ads : nat) : res nat :=
  match n with
  | O => Fuel
  | S n => let e := (e - 1)%nat in
           if (f =? e)%nat then Ok ads else
           c <~ rd t e ;; if c =? DOT then Ok e else Find_extension_loop n t f e ads
  end.
Definition Find_extension (t : text) (f ads : nat) : res nat :=
  if (ads <? f)%nat then UB else
  if (f =? ads)%nat then Ok ads else
  let e := (ads - 1)%nat in
  if (f =? e)%nat then Ok ads else
  c <~ rd t e ;;
  if c =? DOT then
    dd <~ (if (f =? e - 1)%nat then p <~ rd t (e - 1) ;; Ok (p =? DOT) else Ok false) ;;
    if dd : bool then Ok ads else Ok e
  else Find_extension_loop (e - f) t f e ads.

(** the common part of _Parse_stem and _Parse_extension: start of filename, start of extension, end of extension *)
Definition split_filename (t : text) : res (nat * nat * nat) :=
  f <~ Find_filename t ;;
  ads <~ find_if (fun c => c =? COLON) t f ;;
  e <~ Find_extension t f ads ;;
  Ok (f, e, ads).
(** _Parse_stem (filesystem:533-542), path::stem (1111-1114) *)
Definition stem (t : text) : res text := '(f, e, _) <~ split_filename t ;; view t f e.
(** _Parse_extension (filesystem:544-553), path::extension (1116-1119) *)
Definition extension (t : text) : res text := '(_, e, ads) <~ split_filename t ;; view t e ads.

(** path::is_absolute (filesystem:1165-1179) *)
Definition is_absolute (t : text) : res bool :=
  d <~ Has_drive_letter_prefix t ;;
  if d : bool then (if (3 <=? length t)%nat then c <~ rd t 2 ;; Ok (Is_slash c) else Ok false)
  else e <~ Find_root_name_end t ;; Ok (negb (e =? 0)%nat).

(** char_traits<wchar_t>::compare over the common length, then the lengths: _Traits_compare
    (__msvc_string_view.hpp:709-728), _Range_compare (filesystem:555-560). Only the sign of the result is specified. *)
Fixpoint range_compare (a b : text) : Z :=
  match a, b with
  | [], [] => 0
  | [], _ => -1
  | _, [] => 1
  | x :: a, y :: b => if x <? y then -1 else if y <? x then 1 else range_compare a b
  end.

(** path::operator/= (filesystem:705-764), _Other a different object *)
Definition append (t o : text) : res text :=
  oabs <~ is_absolute o ;;
  if oabs : bool then Ok o else
  me <~ Find_root_name_end t ;;
  oe <~ Find_root_name_end o ;;
  if negb (oe =? 0)%nat && negb (range_compare (take me t) (take oe o) =? 0) then Ok o else
  oslash <~ (if (oe =? length o)%nat then Ok false else c <~ rd o oe ;; Ok (Is_slash c)) ;;
  if oslash : bool then Ok (take me t ++ drop oe o)
  else if (me =? length t)%nat then
    if (3 <=? me)%nat then Ok (t ++ [BSLASH] ++ drop oe o) else Ok (t ++ drop oe o)
  else
    c <~ rd t (length t - 1) ;;
    if negb (Is_slash c) then Ok (t ++ [BSLASH] ++ drop oe o) else Ok (t ++ drop oe o).

(** path::operator/= when _Other is *this (p /= p): the pointers into _Other's text are pointers into _Text's own buffer,
    taken before _Text is modified. [cap] is _Text.capacity(). erase(k) stores the terminator at [k] (xstring _Eos);
    push_back at full capacity moves the text to a new buffer and leaves the pointers dangling. *)
Definition append_self (cap : nat) (t : text) : res text :=
  oabs <~ is_absolute t ;;
  if oabs : bool then Ok t else
  e <~ Find_root_name_end t ;;
  oslash <~ (if (e =? length t)%nat then Ok false else c <~ rd t e ;; Ok (Is_slash c)) ;;
  if oslash : bool then
    let buffer := <[e := 0]> t in            (* _Text.erase(e) *)
    Ok (take e t ++ drop e buffer)           (* _Text.append(first + e, last - first - e) *)
  else
    sep <~ (if (e =? length t)%nat then Ok (3 <=? e)%nat else c <~ rd t (length t - 1) ;; Ok (negb (Is_slash c))) ;;
    if sep : bool then
      if (length t =? cap)%nat then UB else Ok (t ++ [BSLASH] ++ drop e t)
    else if (cap <? length t + (length t - e))%nat then Ok (t ++ drop e t) (* append copies before freeing *)
    else Ok (t ++ drop e t).

(** operator/ (filesystem:1370-1403) *)
Definition slash (l r : text) : res text :=
  fast <~ (if (length r =? 0)%nat then Ok false else
           d <~ Has_drive_letter_prefix r ;;
           if d : bool then Ok false else c <~ rd r 0 ;; Ok (negb (Is_slash c))) ;;
  if fast : bool then
    just_drive <~ (if (length l =? 2)%nat then Is_drive_prefix l 0 else Ok false) ;;
    needed <~ (if negb (length l =? 0)%nat && negb just_drive then c <~ rd l (length l - 1) ;; Ok (negb (Is_slash c)) else Ok false) ;;
    Ok (l ++ (if needed : bool then [BSLASH] else []) ++ r)
  else append l r.

(** path::operator+= (filesystem:785-794) *)
Definition concat (t o : text) : text := t ++ o.
(** path::make_preferred (filesystem:841-846) *)
Definition make_preferred (t : text) : text := (fun c => if c =? SLASH then BSLASH else c) <$> t.
(** path::generic_wstring (filesystem:971-982) *)
Definition generic_wstring (t : text) : text := (fun c => if c =? BSLASH then SLASH else c) <$> t.
(** path::remove_filename (filesystem:848-856) *)
Definition remove_filename (t : text) : res text := f <~ Find_filename t ;; Ok (take f t).
(** path::replace_filename (filesystem:879-882) *)
Definition replace_filename (t r : text) : res text := t <~ remove_filename t ;; append t r.
(** path::replace_extension() (filesystem:884-894) and replace_extension(path) (896-905) *)
Definition remove_extension (t : text) : res text := '(_, e, _) <~ split_filename t ;; Ok (take e t).
Definition replace_extension (t r : text) : res text :=
  t <~ remove_extension t ;;
  Ok (t ++ (match r with [] => [] | c :: _ => if c =? DOT then [] else [DOT] end) ++ r).

(** path::compare (filesystem:1017-1071). The loop over the relative paths; the counter bounds its rounds. *)
Definition b2z (b : bool) : Z := if b then 1 else 0.
Fixpoint compare_loop (n : nat) (a b : text) (i j : nat) : res Z :=
  match n with
  | O => Fuel
  | S n =>
    let my_empty := (i =? length a)%nat in
    let other_empty := (j =? length b)%nat in
    let empty_cmp := b2z other_empty - b2z my_empty in
    if my_empty || negb (empty_cmp =? 0) then Ok empty_cmp else
    x <~ rd a i ;;
    y <~ rd b j ;;
    let slash_cmp := b2z (Is_slash y) - b2z (Is_slash x) in
    if negb (slash_cmp =? 0) then Ok slash_cmp else
    if Is_slash x then
      i <~ find_if_not Is_slash a (S i) ;;
      j <~ find_if_not Is_slash b (S j) ;;
      compare_loop n a b i j
    else
      if negb (x - y =? 0) then Ok (x - y) else compare_loop n a b (S i) (S j)
  end.
Definition compare (a b : text) : res Z :=
  ae <~ Find_root_name_end a ;;
  be <~ Find_root_name_end b ;;
  let root_cmp := range_compare (take ae a) (take be b) in
  if negb (root_cmp =? 0) then Ok root_cmp else
  ar <~ find_if_not Is_slash a ae ;;
  br <~ find_if_not Is_slash b be ;;
  let root_name_cmp := b2z (negb (ae =? ar)%nat) - b2z (negb (be =? br)%nat) in
  if negb (root_name_cmp =? 0) then Ok root_name_cmp else
  compare_loop (S (length a)) a b ar br.

(** hash_value (filesystem:1625-1661), with the FNV-1a step [fnv] as a parameter *)
Section hash.
  Context {H : Type} (fnv : H -> Z -> H) (basis : H).
  Fixpoint hash_loop (n : nat) (t : text) (i : nat) (inserted : bool) (v : H) : res H :=
    match n with
    | O => Ok v
    | S n =>
      c <~ rd t i ;;
      if Is_slash c then
        if inserted then hash_loop n t (S i) inserted v else hash_loop n t (S i) true (fnv v BSLASH)
      else hash_loop n t (S i) false (fnv v c)
    end.
  Definition hash_value (t : text) : res H :=
    e <~ Find_root_name_end t ;;
    let v := fold_left fnv (take e t) basis in
    hash_loop (length t - e) t e false v.
End hash.

(** _Path_iterator (filesystem:1431-1617): _Position and _Element *)
Record piter := PIter { pos : nat; elem : text }.
(** path::begin, path::end (filesystem:1761-1782) *)
Definition begin (t : text) : res piter :=
  e <~ Find_root_name_end t ;;
  first_end <~ (if (e =? 0)%nat then
                  r <~ find_if_not Is_slash t e ;;
                  if (r =? 0)%nat then find_if Is_slash t r else Ok r
                else Ok e) ;;
  el <~ view t 0 first_end ;; Ok (PIter 0 el).
Definition end_ (t : text) : piter := PIter (length t) [].

(** the last part of operator++ (1498-1512): skip separators, then take the next filename *)
Fixpoint skip_slashes (n : nat) (t : text) (p : nat) : res piter :=
  match n with
  | O => Fuel
  | S n =>
    c <~ rd t p ;;
    if Is_slash c then
      if (S p =? length t)%nat then Ok (PIter p []) else skip_slashes n t (S p)
    else
      f <~ find_if Is_slash t p ;; el <~ view t p f ;; Ok (PIter p el)
  end.
Definition next_filename (t : text) (p : nat) : res piter :=
  if (p =? length t)%nat then Ok (PIter p []) else skip_slashes (S (length t)) t p.
(** _Path_iterator::operator++ (filesystem:1462-1513) *)
Definition incr (t : text) (it : piter) : res piter :=
  let size := length (elem it) in
  if (pos it =? 0)%nat then
    let p := (pos it + size)%nat in
    e <~ Find_root_name_end t ;;
    r <~ find_if_not Is_slash t e ;;
    if negb (e =? 0)%nat && negb (e =? r)%nat then el <~ view t e r ;; Ok (PIter p el) else next_filename t p
  else
    c <~ rd t (pos it) ;;
    if Is_slash c then
      if (size =? 0)%nat then Ok (PIter (S (pos it)) (elem it)) else next_filename t (pos it + size)
    else next_filename t (pos it + size).
(** _Path_iterator::operator-- (filesystem:1521-1567) *)
Definition decr (t : text) (it : piter) : res piter :=
  e <~ Find_root_name_end t ;;
  r <~ find_if_not Is_slash t e ;;
  let p := pos it in
  if negb (e =? r)%nat && (p =? r)%nat then el <~ view t e r ;; Ok (PIter e el) else
  if negb (e =? 0)%nat && (p =? e)%nat then el <~ view t 0 e ;; Ok (PIter 0 el) else
  magic <~ (if (p =? length t)%nat then (if (p =? 0)%nat then UB else c <~ rd t (p - 1) ;; Ok (Is_slash c)) else Ok false) ;;
  if magic : bool then Ok (PIter (p - 1) []) else
  ne <~ while_back Is_slash t r p ;;
  p <~ while_back (fun c => negb (Is_slash c)) t r ne ;;
  el <~ view t p ne ;; Ok (PIter p el).

(** path::lexically_normal (filesystem:1186-1305) *)
(** step 3 (1209-1239): the vector of views after the root directory; the empty view stands for a separator *)
Fixpoint split_loop (n : nat) (t : text) (vec : list text) (p : nat) : res (list text) :=
  match n with
  | O => Fuel
  | S n =>
    if (p =? length t)%nat then Ok vec else
    c <~ rd t p ;;
    if Is_slash c then
      let vec := match list.last vec with Some [] => vec | _ => vec ++ [[]] end in
      split_loop n t vec (S p)
    else
      f <~ find_if Is_slash t (S p) ;;
      v <~ view t p f ;;
      split_loop n t (vec ++ [v]) f
  end.
(** steps 4-6 (1241-1286): [ne] is _New_end, [p] is _Pos *)
Definition vget (vec : list text) (i : nat) : res text := match vec !! i with Some v => Ok v | None => UB end.
Definition vset (vec : list text) (i : nat) (v : text) : res (list text) :=
  if (i <? length vec)%nat then Ok (<[i := v]> vec) else UB.
Fixpoint dots_loop (n : nat) (has_root_dir : bool) (vec : list text) (ne p : nat) : res (list text * nat) :=
  match n with
  | O => Fuel
  | S n =>
    if (p =? length vec)%nat then Ok (vec, ne) else
    el <~ vget vec p ;;
    let p := S p in
    let at_end := (p =? length vec)%nat in
    if bool_decide (el = dot) then
      if at_end then Ok (vec, ne) else dots_loop n has_root_dir vec ne (S p)
    else if negb (bool_decide (el = dotdot)) then
      vec <~ vset vec ne el ;;
      if at_end then Ok (vec, S ne) else dots_loop n has_root_dir vec (S (S ne)) (S p)
    else
      removable <~ (if (ne =? 0)%nat then Ok false
                    else if (ne <? 2)%nat then UB else v <~ vget vec (ne - 2) ;; Ok (negb (bool_decide (v = dotdot)))) ;;
      if removable : bool then
        if at_end then Ok (vec, (ne - 2)%nat) else dots_loop n has_root_dir vec (ne - 2) (S p)
      else if negb has_root_dir then
        vec <~ vset vec ne dotdot ;;
        if at_end then Ok (vec, S ne) else dots_loop n has_root_dir vec (S (S ne)) (S p)
      else if at_end then Ok (vec, ne) else dots_loop n has_root_dir vec ne (S p)
  end.
Definition flatten (vec : list text) : text :=
  mjoin ((fun v => match v with [] => [BSLASH] | _ => v end) <$> vec).
Definition lexically_normal (t : text) : res text :=
  match t with [] => Ok [] | _ =>
  e <~ Find_root_name_end t ;;
  let root := make_preferred (take e t) in
  '(root, has_root_dir, p) <~
    (if (e =? length t)%nat then Ok (root, false, e) else
     c <~ rd t e ;;
     if Is_slash c then p <~ find_if_not Is_slash t (S e) ;; Ok (root ++ [BSLASH], true, p) else Ok (root, false, e)) ;;
  vec <~ split_loop (S (length t - p)) t [] p ;;
  '(vec, ne) <~ dots_loop (S (length vec)) has_root_dir vec 0 0 ;;
  let vec := take ne vec in                                   (* _Vec.erase(_New_end, _Vec.end()) *)
  let vec := match list.last vec, vec !! (length vec - 2)%nat with
             | Some [], Some v => if (2 <=? length vec)%nat && bool_decide (v = dotdot) then take (length vec - 1) vec else vec
             | _, _ => vec
             end in
  let s := root ++ flatten vec in
  match s with [] => Ok dot | _ => Ok s end
  end.

(** _Starts_with_root_name, _Relative_path_contains_root_name (filesystem:1663-1680) *)
Fixpoint contains_root_name_loop (n : nat) (t : text) (i : nat) : res bool :=
  match n with
  | O => Fuel
  | S n =>
    if (i =? length t)%nat then Ok false else
    nx <~ find_if Is_slash t i ;;
    v <~ view t i nx ;;
    e <~ Find_root_name_end v ;;
    if negb (e =? 0)%nat then Ok true else
    i <~ find_if_not Is_slash t nx ;;
    contains_root_name_loop n t i
  end.
Definition Relative_path_contains_root_name (t : text) : res bool :=
  r <~ Find_relative_path t ;; contains_root_name_loop (S (length t)) t r.

(** _Is_drive_prefix_with_slash_slash_question (filesystem:562-565) *)
Definition Is_drive_prefix_with_slash_slash_question (t : text) : res bool :=
  if (6 <=? length t)%nat && bool_decide (take 4 t = [BSLASH; BSLASH; QMARK; BSLASH]) then Is_drive_prefix t 4 else Ok false.

Definition is_empty (t : text) : bool := match t with [] => true | _ => false end.
(** operator== (filesystem:1335-1337) *)
Definition path_eq (a b : text) : res bool := c <~ compare a b ;; Ok (c =? 0).

(** path::lexically_relative (filesystem:1682-1757) *)
(** std::mismatch over two iterator ranges with operator== of paths, counting the steps (_B_dist = std::distance) *)
Fixpoint mismatch_loop (n : nat) (a b : text) (ia ib : piter) (dist : nat) : res (piter * piter * nat) :=
  match n with
  | O => Fuel
  | S n =>
    if (pos ia =? length a)%nat || (pos ib =? length b)%nat then Ok (ia, ib, dist) else
    q <~ path_eq (elem ia) (elem ib) ;;
    if q : bool then ia <~ incr a ia ;; ib <~ incr b ib ;; mismatch_loop n a b ia ib (S dist) else Ok (ia, ib, dist)
  end.
(** while (_B_dist < _Base_root_dist) { ++_B_iter; ++_B_dist; } *)
Fixpoint skip_root (k : nat) (b : text) (ib : piter) : res piter :=
  match k with O => Ok ib | S k => ib <~ incr b ib ;; skip_root k b ib end.
Fixpoint count_loop (n : nat) (b : text) (ib : piter) (num : Z) : res Z :=
  match n with
  | O => Fuel
  | S n =>
    if (pos ib =? length b)%nat then Ok num else
    isdot <~ (if is_empty (elem ib) then Ok true else path_eq (elem ib) dot) ;;
    isdd <~ path_eq (elem ib) dotdot ;;
    let num := if isdot : bool then num else if isdd : bool then num - 1 else num + 1 in
    ib <~ incr b ib ;; count_loop n b ib num
  end.
Fixpoint append_dotdots (n : nat) (r : text) : res text :=
  match n with O => Ok r | S n => r <~ append r dotdot ;; append_dotdots n r end.
Fixpoint append_rest (n : nat) (a : text) (ia : piter) (r : text) : res text :=
  match n with
  | O => Fuel
  | S n => if (pos ia =? length a)%nat then Ok r else r <~ append r (elem ia) ;; ia <~ incr a ia ;; append_rest n a ia r
  end.
Definition lexically_relative (t base : text) : res text :=
  q1 <~ Is_drive_prefix_with_slash_slash_question t ;;
  q2 <~ (if q1 : bool then Is_drive_prefix_with_slash_slash_question base else Ok false) ;;
  a <~ (if q2 : bool then relative_path t else Ok t) ;;
  b <~ (if q2 : bool then relative_path base else Ok base) ;;
  ra <~ root_name a ;; rb <~ root_name b ;;
  same_root <~ path_eq ra rb ;;
  aabs <~ is_absolute a ;; babs <~ is_absolute b ;;
  ad <~ root_directory a ;; bd <~ root_directory b ;;
  ca <~ Relative_path_contains_root_name a ;;
  cb <~ (if ca : bool then Ok false else Relative_path_contains_root_name b) ;;
  if negb same_root || negb (Bool.eqb aabs babs) || (is_empty ad && negb (is_empty bd)) || (ca || cb) then Ok [] else
  ia <~ begin a ;; ib <~ begin b ;;
  '(ia, ib, dist) <~ mismatch_loop (S (length a)) a b ia ib 0 ;;
  if ((pos ia =? length a) && (pos ib =? length b))%nat then Ok dot else
  let root_dist := ((if is_empty rb then 0 else 1) + (if is_empty bd then 0 else 1))%nat in
  ib <~ skip_root (root_dist - dist) b ib ;;
  num <~ count_loop (S (length b)) b ib 0 ;;
  if num <? 0 then Ok [] else
  if (num =? 0) && ((pos ia =? length a)%nat || is_empty (elem ia)) then Ok dot else
  r <~ append_dotdots (Z.to_nat num) [] ;;
  append_rest (S (length a)) a ia r.
