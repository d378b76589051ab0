(** Model of the UTF decoders of <format> and of the code point iterator built on them.
    Models /repo/stl/inc/format lines 140-350.

    A range [_First, _Last) of code units is the list of the units, each an unsigned value (the C++ reads
    [char] through [static_cast<unsigned char>]).  A decoder returns the value left in [_Val], the number of
    units between [_First] and the returned [_Next_ptr], and [_Is_unicode_scalar_value].
    [char32_t] arithmetic is done in [Z]: the values never reach 2^32 (at most four bytes contribute 3+6+6+6
    bits, two UTF-16 units 10+10 bits and 0x10000). *)
From stdpp Require Import base list numbers.
Local Open Scope Z_scope.

(** [_Decode_result] plus the reference parameter [_Val].  Models format:140-146. *)
Record dres := DRes { d_val : Z; d_units : nat; d_usv : bool }.

(** The UTF-16 decoder.  Models format:149-179.  An empty range is a precondition violation
    ([_STL_INTERNAL_CHECK], line 151); the model returns a result that consumes nothing. *)
Definition decode_utf16 (l : list Z) : dres :=
  match l with
  | [] => DRes 0 0 false
  | u :: r =>
      if u <? 0xD800 then DRes u 1 true                                        (* 153-154 *)
      else if u <=? 0xDBFF then                                                (* 155 *)
        match r with
        | [] => DRes 0xFFFD 1 false                                            (* 157-160: _First + 1 == _Last *)
        | u1 :: _ =>
            if (u1 <? 0xDC00) || (u1 >? 0xDFFF) then DRes 0xFFFD 1 false       (* 162-166 *)
            else
              let v := Z.shiftl (u - 0xD800) 10 in                             (* 168 *)
              let v := v + (u1 - 0xDC00) in                                    (* 169 *)
              let v := v + 0x10000 in                                          (* 170 *)
              DRes v 2 true                                                    (* 171 *)
        end
      else if u <=? 0xDFFF then DRes 0xFFFD 1 false                            (* 172-176 *)
      else DRes u 1 true                                                       (* 178 *)
  end.

(** The loop over the trailing bytes of the UTF-8 decoder.  Models format:269-279.  [idx] is [_Idx], [todo]
    is [_Num_bytes - _Idx], [rest] the units from [_First + _Idx] on and [v] the value so far. *)
Fixpoint trail8 (v : Z) (idx : nat) (todo : nat) (rest : list Z) : dres :=
  match todo with
  | O => DRes v idx true                                                       (* 280: loop condition false *)
  | S todo' =>
      match rest with
      | [] => DRes 0xFFFD idx false                                            (* 270: _First + _Idx >= _Last *)
      | b :: rest' =>
          if (b <? 0x80) || (b >? 0xBF) then DRes 0xFFFD idx false             (* 270-275 *)
          else trail8 (Z.lor (Z.shiftl v 6) (Z.land b 63)) (S idx) todo' rest' (* 277 *)
      end
  end.

(** [_Num_bytes] from the lead byte, [None] for a byte that cannot start a sequence.  Models format:198-212;
    one-byte sequences (199-200) are reported as [Some 1]. *)
Definition num_bytes8 (b0 : Z) : option nat :=
  if b0 <=? 0x7F then Some 1%nat
  else if (0xC2 <=? b0) && (b0 <=? 0xDF) then Some 2%nat
  else if (0xE0 <=? b0) && (b0 <=? 0xEF) then Some 3%nat
  else if (0xF0 <=? b0) && (b0 <=? 0xF4) then Some 4%nat
  else None.

(** The checks of the second byte for the lead bytes E0, ED, F0 and F4: [true] is the early return.
    Models the switch at format:224-259. *)
Definition bad_second8 (b0 b1 : Z) : bool :=
  if b0 =? 0xE0 then b1 <? 0xA0
  else if b0 =? 0xED then b1 >? 0x9F
  else if b0 =? 0xF0 then b1 <? 0x90
  else if b0 =? 0xF4 then b1 >? 0x8F
  else false.

(** The mask of the value bits of the lead byte.  Models the switch at format:265-279. *)
Definition lead_mask8 (n : nat) : Z :=
  match n with
  | 2%nat => 31   (* 0b1'1111u *)
  | 3%nat => 15   (* 0b1111u *)
  | _ => 7        (* 0b111u *)
  end.

(** The UTF-8 decoder.  Models format:181-285. *)
Definition decode_utf8 (l : list Z) : dres :=
  match l with
  | [] => DRes 0 0 false
  | b0 :: r =>
      match num_bytes8 b0 with
      | None => DRes 0xFFFD 1 false                                            (* 207-211 *)
      | Some 1%nat => DRes b0 1 true                                           (* 199-200 *)
      | Some n =>
          match r with
          | [] => DRes 0xFFFD 1 false                                          (* 214-221 *)
          | b1 :: _ =>
              if bad_second8 b0 b1 then DRes 0xFFFD 1 false
              else trail8 (Z.land b0 (lead_mask8 n)) 1 (n - 1) r
          end
      end
  end.

(** The UTF-32 decoder.  Models format:287-294.  The value is handed on even when it is no scalar value. *)
Definition decode_utf32 (l : list Z) : dres :=
  match l with
  | [] => DRes 0 0 false
  | u :: _ => DRes u 1 ((u <? 0xD800) || ((u >? 0xDFFF) && (u <=? 0x10FFFF)))
  end.

(** [_Unicode_codepoint_iterator].  Models format:296-350.  [_First], [_Next] are kept as the lists of the
    units from that pointer to [_Last], so [_First == _Last] is the empty list and [_Next_ptr] is [drop]. *)
Record cpit := CpIt { cp_first : list Z; cp_next : list Z; cp_val : Z }.

Section iter.
Context (decode : list Z -> dres).

(** The constructor from a range.  Models format:309-314. *)
Definition cp_begin (l : list Z) : cpit :=
  match l with
  | [] => CpIt [] [] 0
  | _ => let d := decode l in CpIt l (drop (d_units d) l) (d_val d)
  end.

(** [operator++].  Models format:318-325. *)
Definition cp_inc (it : cpit) : cpit :=
  let f := cp_next it in
  match f with
  | [] => CpIt [] (cp_next it) (cp_val it)
  | _ => let d := decode f in CpIt f (drop (d_units d) f) (d_val d)
  end.

(** [operator==(default_sentinel_t)].  Models format:340-342. *)
Definition cp_at_end (it : cpit) : bool := match cp_first it with [] => true | _ => false end.

(** A loop [for (it = begin; it != default_sentinel; ++it)] recording the remaining units ([_Position()],
    336-338) and the code point ([operator*], 332-334) of each stop, with a bound on the number of steps. *)
Fixpoint cp_walk (fuel : nat) (it : cpit) : option (list (list Z * Z)) :=
  if cp_at_end it then Some []
  else match fuel with
       | O => None
       | S f => match cp_walk f (cp_inc it) with
                | Some r => Some ((cp_first it, cp_val it) :: r)
                | None => None
                end
       end.
End iter.
