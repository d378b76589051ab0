(** charconv: integer to_chars and from_chars. A char is its unsigned char value 0..255 (simplification: [char]'s
    signedness is not represented; the code converts to unsigned char before using a char as an index). Pointers into
    [first, last) are offsets. *)
From stdpp Require Import base numbers list.
From Coq Require Import ZArith.
From Verif Require Import Base.Res Base.Int.
Open Scope Z_scope.

Inductive errc := EOk | EInvalid | ERange | ETooLarge.
Global Instance errc_eq_dec : EqDecision errc.
Proof. solve_decision. Defined.

(** charconv:33-35 _Charconv_digits *)
Definition charconv_digits : list Z :=
  [48; 49; 50; 51; 52; 53; 54; 55; 56; 57; 97; 98; 99; 100; 101; 102; 103; 104; 105; 106; 107; 108; 109; 110; 111; 112; 113;
   114; 115; 116; 117; 118; 119; 120; 121; 122].
Definition digit_at (k : Z) : res Z :=
  if decide (0 <= k) then match charconv_digits !! Z.to_nat k with Some c => Ok c | None => UB end else UB.
(** The local array [_Buff] (charconv:61-64) is only filled downwards from its end: the state is the number of bytes below
    [_RNext] and the bytes from [_RNext] to [_Buff_end]. *)
Definition rbuf : Type := nat * list Z.
(** [*--_RNext = c]: going below the array is undefined *)
Definition push (b : rbuf) (c : Z) : res rbuf :=
  match b with (S n, l) => Ok (n, c :: l) | (O, _) => UB end.
(** xutility:8008-8020 _Digit_pairs: entry [k] is ('0' + k / 10, '0' + k % 10) *)
Definition push_pair (b : rbuf) (k : Z) : res rbuf :=
  if decide (0 <= k < 100) then
    b <~ push b (48 + k `rem` 10) ;;
    push b (48 + k `quot` 10)
  else UB.
(** charconv:72-94: 32-bit targets print 64-bit values in chunks of eight digits *)
Definition chunks (fuel : nat) (v : Z) (b : rbuf) : res (Z * rbuf) :=
  loop fuel (fun '(v, b) =>
    if decide (v > 4294967295) then
      let chunk := cast u32 (v `rem` 100000000) in
      let v := v `quot` 100000000 in
      b <~ push_pair b (chunk `rem` 100) ;; let chunk := chunk `quot` 100 in
      b <~ push_pair b (chunk `rem` 100) ;; let chunk := chunk `quot` 100 in
      b <~ push_pair b (chunk `rem` 100) ;; let chunk := chunk `quot` 100 in
      b <~ push_pair b chunk ;;
      Ok (inl (v, b))
    else Ok (inr (v, b))) (v, b).
(** charconv:68-125: case 10 *)
Definition to_chars_10 (win64 : bool) (fuel : nat) (ut : ity) (v : Z) (b : rbuf) : res rbuf :=
  '(trunc, b) <~ (if win64 then Ok (v, b)
                  else '(v, b) <~ (if decide (wd ut > 32) then chunks fuel v b else Ok (v, b)) ;; Ok (cast u32 v, b)) ;;
  if decide (trunc < 10) then push b (48 + trunc)
  else
    '(trunc, b) <~ loop fuel (fun '(trunc, b) =>
      let part := cast u32 (trunc `rem` 100) in
      let trunc := trunc `quot` 100 in
      b <~ push_pair b part ;;
      if decide (trunc >= 10) then Ok (inl (trunc, b)) else Ok (inr (trunc, b))) (trunc, b) ;;
    if decide (trunc <> 0) then push b (48 + trunc) else Ok b.
(** charconv:127-181: the do-while loops of the other bases; [dig] is the character of the low digit, [next] the rest *)
Definition digit_loop (dig : Z -> res Z) (next : Z -> Z) (fuel : nat) (v : Z) (b : rbuf) : res rbuf :=
  loop fuel (fun '(v, b) =>
    c <~ dig v ;;
    b <~ push b c ;;
    let v := next v in
    if decide (v <> 0) then Ok (inl (v, b)) else Ok (inr b)) (v, b).
Definition base_digits (win64 : bool) (fuel : nat) (ut : ity) (base v : Z) (b : rbuf) : res rbuf :=
  if decide (base = 10) then to_chars_10 win64 fuel ut v b
  else if decide (base = 2) then digit_loop (fun v => Ok (48 + Z.land v 1)) (fun v => Z.shiftr v 1) fuel v b
  else if decide (base = 4) then digit_loop (fun v => Ok (48 + Z.land v 3)) (fun v => Z.shiftr v 2) fuel v b
  else if decide (base = 8) then digit_loop (fun v => Ok (48 + Z.land v 7)) (fun v => Z.shiftr v 3) fuel v b
  else if decide (base = 16) then digit_loop (fun v => digit_at (Z.land v 15)) (fun v => Z.shiftr v 4) fuel v b
  else if decide (base = 32) then digit_loop (fun v => digit_at (Z.land v 31)) (fun v => Z.shiftr v 5) fuel v b
  else if decide (base = 3 \/ base = 5 \/ base = 6 \/ base = 7 \/ base = 9) then
    digit_loop (fun v => Ok (48 + v `rem` base)) (fun v => cast ut (v `quot` base)) fuel v b
  else digit_loop (fun v => digit_at (v `rem` base)) (fun v => cast ut (v `quot` base)) fuel v b.
(** copying [l] into the caller's buffer at offset [i]; outside is undefined *)
Definition put (buf : list Z) (i : nat) (l : list Z) : res (list Z) :=
  if decide (i + length l <= length buf)%nat then Ok (take i buf ++ l ++ drop (i + length l) buf) else UB.
(** charconv:37-190 _Integer_to_chars. Result: the buffer, the offset of [ptr], the error code. [fuel] bounds the loops. *)
Definition to_chars (win64 : bool) (t : ity) (buf : list Z) (raw base : Z) : res (list Z * nat * errc) :=
  if decide (2 <= base <= 36) then
    let ut := make_unsigned t in
    let n := length buf in
    let value := cast ut raw in
    let fuel := S (Z.to_nat (wd t)) in
    let tail buf first value :=
      '(_, text) <~ base_digits win64 fuel ut base value (Z.to_nat (wd t), []) ;;
      if decide (n - first < length text)%nat then Ok (buf, n, ETooLarge)
      else buf <~ put buf first text ;; Ok (buf, (first + length text)%nat, EOk) in
    if decide (sg t = true /\ raw < 0) then
      if decide (n = 0)%nat then Ok (buf, n, ETooLarge)
      else
        buf <~ put buf 0 [45] ;;
        d <~ arith (usual_arith s32 ut) (0 - value) ;;
        tail buf 1%nat (cast ut d)
    else tail buf 0%nat value
  else UB.

(** charconv:247-266 _Digit_from_byte, _Digit_from_char *)
Definition digit_from_byte : list Z :=
  replicate 48 255 ++ [0; 1; 2; 3; 4; 5; 6; 7; 8; 9] ++ replicate 7 255 ++
  [10; 11; 12; 13; 14; 15; 16; 17; 18; 19; 20; 21; 22; 23; 24; 25; 26; 27; 28; 29; 30; 31; 32; 33; 34; 35] ++ replicate 6 255 ++
  [10; 11; 12; 13; 14; 15; 16; 17; 18; 19; 20; 21; 22; 23; 24; 25; 26; 27; 28; 29; 30; 31; 32; 33; 34; 35] ++ replicate 133 255.
Definition digit_from_char (c : Z) : res Z := match digit_from_byte !! Z.to_nat c with Some d => Ok d | None => UB end.
(** charconv:268-345 _Integer_from_chars. [old] is the value of the caller's variable before; the result is
    (offset of ptr, error code, value of the variable after). *)
Definition from_chars (t : ity) (s : list Z) (old base : Z) : res (nat * errc * Z) :=
  if decide (2 <= base <= 36) then
    let ut := make_unsigned t in
    let p := usual_arith ut s32 in
    let minus := bool_decide (sg t = true /\ s !! 0%nat = Some 45) in
    let first := if minus then 1%nat else 0%nat in
    let uint_max := cast ut (-1) in
    let int_max := cast ut (uint_max / 2) in
    m1 <~ arith (usual_arith ut s32) (int_max + 1) ;;
    let abs_int_min := cast ut m1 in
    let lim := if sg t then (if minus then abs_int_min else int_max) else uint_max in
    let risky := cast ut (lim `quot` base) in
    let max_digit := cast ut (lim `rem` base) in
    '(next, value, overflowed) <~ loop (S (length s)) (fun '(next, value, ov) =>
      match s !! next with
      | None => Ok (inr (next, value, ov))
      | Some c =>
        d <~ digit_from_char c ;;
        if decide (d >= base) then Ok (inr (next, value, ov))
        else if decide (value < risky \/ (value = risky /\ d <= max_digit)) then
          q <~ arith p (value * base) ;;
          q <~ arith p (q + d) ;;
          Ok (inl (S next, cast ut q, ov))
        else Ok (inl (S next, value, true))
      end) (first, 0, false) ;;
    if decide (next = (if minus then 1 else 0))%nat then Ok (O, EInvalid, old)
    else if overflowed : bool then Ok (next, ERange, old)
    else
      value <~ (if minus then d <~ arith (usual_arith s32 ut) (0 - value) ;; Ok (cast ut d) else Ok value) ;;
      Ok (next, EOk, cast t value)
  else UB.
