(** Bit utilities: stl/inc/__msvc_bit_utils.hpp and stl/inc/bit. [t] is the unsigned type; widths come from [wd t]. *)
From stdpp Require Import base numbers list.
From Coq Require Import ZArith.
From Verif Require Import Base.Res Base.Int.
Open Scope Z_scope.

(** ~v in the promoted type *)
Definition bnot (t : ity) (v : Z) : Z := cast (promote t) (Z.lnot v).

(** __msvc_bit_utils.hpp:41-55 _Countl_zero_fallback *)
Definition countl_zero_fallback (t : ity) (v : Z) : res Z :=
  '(v, n) <~
    loop (Z.to_nat (wd t))
      (fun '(v, n, c) =>
         y <~ shr t v c ;;
         let y := cast t y in
         let '(v, n) := if decide (y <> 0) then (y, n - c) else (v, n) in
         c <~ shr u32 c 1 ;;
         if decide (c <> 0) then Ok (inl (v, n, c)) else Ok (inr (v, n)))
      (v, wd t, wd t / 2) ;;
  arith s32 (cast s32 n - cast s32 v).

(** Hardware primitives, given by their documented meaning (trusted): leading/trailing zero counts and population count
    of a [w]-bit operand, and bit scans returning [None] for a zero operand. *)
Definition bitlen (v : Z) : Z := if decide (v = 0) then 0 else Z.log2 v + 1.
Definition hw_lzcnt (w v : Z) : Z := w - bitlen v.
Fixpoint ctz_pos (p : positive) : Z := match p with xO p => 1 + ctz_pos p | _ => 0 end.
Definition hw_tzcnt (w v : Z) : Z := match v with Zpos p => ctz_pos p | _ => w end.
Definition hw_bsr (v : Z) : option Z := if decide (v = 0) then None else Some (Z.log2 v).
Definition hw_bsf (v : Z) : option Z := match v with Zpos p => Some (ctz_pos p) | _ => None end.
Fixpoint pop_pos (p : positive) : Z := match p with xH => 1 | xO p => pop_pos p | xI p => 1 + pop_pos p end.
Definition hw_popcnt (v : Z) : Z := match v with Zpos p => pop_pos p | _ => 0 end.

(** __msvc_bit_utils.hpp:66-86 _Countl_zero_lzcnt; [win64] selects the 64-bit build *)
Definition countl_zero_lzcnt (win64 : bool) (t : ity) (v : Z) : res Z :=
  if decide (wd t <= 16) then arith s32 (hw_lzcnt 16 v - (16 - wd t))
  else if decide (wd t = 32) then Ok (hw_lzcnt 32 v)
  else if win64 then Ok (hw_lzcnt 64 v)
  else
    h <~ shr u64 v 32 ;;
    let high := cast u32 h in
    let low := cast u32 v in
    if decide (high = 0) then arith s32 (32 + hw_lzcnt 32 low) else Ok (hw_lzcnt 32 high).
(** __msvc_bit_utils.hpp:89-115 _Countl_zero_bsr *)
Definition countl_zero_bsr (win64 : bool) (t : ity) (v : Z) : res Z :=
  if decide (wd t <= 32) then
    match hw_bsr v with None => Ok (wd t) | Some r => Ok (cast s32 (wd t - 1 - r)) end
  else if win64 then
    match hw_bsr v with None => Ok (wd t) | Some r => Ok (cast s32 (wd t - 1 - r)) end
  else
    h <~ shr u64 v 32 ;;
    let high := cast u32 h in
    match hw_bsr high with
    | Some r => Ok (cast s32 (31 - r))
    | None =>
        let low := cast u32 v in
        match hw_bsr low with None => Ok (wd t) | Some r => Ok (cast s32 (wd t - 1 - r)) end
    end.
(** __msvc_bit_utils.hpp:131-142 _Checked_arm64_countl_zero *)
Definition countl_zero_arm64 (t : ity) (v : Z) : res Z :=
  if decide (v = 0) then Ok (wd t)
  else if decide (wd t <= 32) then arith s32 (hw_lzcnt 32 v - (32 - wd t))
  else Ok (hw_lzcnt 64 v).

(** __msvc_bit_utils.hpp:150-153 _Countr_zero_fallback *)
Definition countr_zero_fallback (t : ity) (v : Z) : res Z :=
  vm1 <~ arith (promote t) (v - 1) ;;
  lz <~ countl_zero_fallback t (cast t (Z.land (cast t (bnot t v)) (cast t vm1))) ;;
  arith s32 (wd t - lz).
(** __msvc_bit_utils.hpp:198-220 _Countr_zero_tzcnt *)
Definition countr_zero_tzcnt (win64 : bool) (t : ity) (v : Z) : res Z :=
  let max := cast t (-1) in
  if decide (wd t <= 32) then Ok (hw_tzcnt 32 (cast u32 (Z.lor (bnot t max) v)))
  else if win64 then Ok (hw_tzcnt 64 v)
  else
    let low := cast u32 v in
    if decide (low = 0) then h <~ shr u64 v 32 ;; arith s32 (32 + hw_tzcnt 32 (cast u32 h))
    else Ok (hw_tzcnt 32 low).
(** __msvc_bit_utils.hpp:226-258 _Countr_zero_bsf *)
Definition countr_zero_bsf (win64 : bool) (t : ity) (v : Z) : res Z :=
  let max := cast t (-1) in
  if decide (wd t <= 32) then
    match hw_bsf (cast u32 (Z.lor (bnot t max) v)) with None => Ok (wd t) | Some r => Ok r end
  else if win64 then
    match hw_bsf v with None => Ok (wd t) | Some r => Ok r end
  else
    let low := cast u32 v in
    match hw_bsf low with
    | Some r => Ok r
    | None => h <~ shr u64 v 32 ;;
              match hw_bsf (cast u32 h) with None => Ok (wd t) | Some r => Ok (r + 32) end
    end.

(** __msvc_bit_utils.hpp:158-179 _Popcount_fallback (the non-x86 branch; the x86 one splits a 64-bit operand in two) *)
Definition popcount_fallback (t : ity) (v : Z) : res Z :=
  let p := promote t in
  s1 <~ shr t v 1 ;;
  a <~ arith p (v - Z.land s1 (cast t 0x5555555555555555)) ;;
  let v := cast t a in
  s2 <~ shr t v 2 ;;
  b <~ arith p (Z.land v (cast t 0x3333333333333333) + Z.land s2 (cast t 0x3333333333333333)) ;;
  let v := cast t b in
  s4 <~ shr t v 4 ;;
  c <~ arith p (v + s4) ;;
  let v := cast t (Z.land c (cast t 0x0F0F0F0F0F0F0F0F)) in
  m <~ arith p (v * cast t 0x0101010101010101) ;;
  let v := cast t m in
  s <~ shr t v (wd t - 8) ;;
  Ok (cast s32 s).
Definition popcount_fallback_x86 (t : ity) (v : Z) : res Z :=
  if decide (wd t = 64) then
    a <~ popcount_fallback u32 (cast u32 v) ;;
    h <~ shr u64 v 32 ;;
    b <~ popcount_fallback u32 (cast u32 h) ;;
    arith s32 (a + b)
  else popcount_fallback t v.
(** __msvc_bit_utils.hpp:287-300 _Unchecked_popcount *)
Definition unchecked_popcount (win64 : bool) (t : ity) (v : Z) : res Z :=
  if decide (wd t <= 32) then Ok (hw_popcnt v)
  else if win64 then Ok (hw_popcnt v)
  else h <~ shr u64 v 32 ;; Ok (hw_popcnt (cast u32 h) + hw_popcnt (cast u32 v)).

(** bit:86-95 has_single_bit without popcnt *)
Definition has_single_bit (t : ity) (v : Z) : res bool :=
  let p := promote t in
  vm1 <~ arith p (v - 1) ;;
  Ok (bool_decide (Z.lxor v vm1 > vm1)).
(** bit:200-222: the public functions pick an implementation; [clz] is any of the ones above.
    bit:99-125 bit_ceil *)
Definition bit_ceil (clz : ity -> Z -> res Z) (t : ity) (v : Z) : res Z :=
  if decide (v <= 1) then Ok 1
  else
    vm1 <~ arith (promote t) (v - 1) ;;
    lz <~ clz t (cast t vm1) ;;
    num <~ arith s32 (wd t - lz) ;;
    r <~ shl t 1 num ;;
    Ok (cast t r).
(** bit:127-134 bit_floor *)
Definition bit_floor (clz : ity -> Z -> res Z) (t : ity) (v : Z) : res Z :=
  if decide (v = 0) then Ok 0
  else
    lz <~ clz t v ;;
    num <~ arith s32 (wd t - 1 - lz) ;;
    r <~ shl t 1 num ;;
    Ok (cast t r).
(** bit:136-139 bit_width *)
Definition bit_width (clz : ity -> Z -> res Z) (t : ity) (v : Z) : res Z :=
  lz <~ clz t v ;; arith s32 (wd t - lz).
(** bit:205-207 countl_one, bit:215-217 countr_one *)
Definition countl_one (clz : ity -> Z -> res Z) (t : ity) (v : Z) : res Z := clz t (cast t (bnot t v)).
Definition countr_one (ctz : ity -> Z -> res Z) (t : ity) (v : Z) : res Z := ctz t (cast t (bnot t v)).

(** bit:144-169 rotl and bit:172-197 rotr at compile time. C++ % truncates. A negative remainder calls the other
    function with the negated remainder, which is then positive or zero. *)
Definition rotl_pos (t : ity) (v r : Z) : res Z :=
  a <~ shl t v r ;; b <~ shr t v (wd t - r) ;; Ok (cast t (Z.lor (cast t a) (cast t b))).
Definition rotr_pos (t : ity) (v r : Z) : res Z :=
  a <~ shr t v r ;; b <~ shl t v (wd t - r) ;; Ok (cast t (Z.lor (cast t a) (cast t b))).
Definition rotr1 (t : ity) (v k : Z) : res Z :=
  let r := Z.rem k (wd t) in
  if decide (r > 0) then rotr_pos t v r else if decide (r = 0) then Ok v else UB.
Definition rotl1 (t : ity) (v k : Z) : res Z :=
  let r := Z.rem k (wd t) in
  if decide (r > 0) then rotl_pos t v r else if decide (r = 0) then Ok v else UB.
Definition rotl (t : ity) (v k : Z) : res Z :=
  let r := Z.rem k (wd t) in
  if decide (r > 0) then rotl_pos t v r else if decide (r = 0) then Ok v
  else n <~ arith s32 (- r) ;; rotr1 t v n.
Definition rotr (t : ity) (v k : Z) : res Z :=
  let r := Z.rem k (wd t) in
  if decide (r > 0) then rotr_pos t v r else if decide (r = 0) then Ok v
  else n <~ arith s32 (- r) ;; rotl1 t v n.

(** bit:36-77 byteswap at compile time *)
Definition byteswap_ushort (v : Z) : res Z :=
  a <~ shl u16 v 8 ;; b <~ shr u16 v 8 ;; Ok (cast u16 (Z.lor a b)).
Definition byteswap_ulong (v : Z) : res Z :=
  a <~ shl u32 v 24 ;; b <~ shl u32 v 8 ;; c <~ shr u32 v 8 ;; d <~ shr u32 v 24 ;;
  Ok (Z.lor (Z.lor (Z.lor a (Z.land b 0x00FF0000)) (Z.land c 0x0000FF00)) d).
Definition byteswap_uint64 (v : Z) : res Z :=
  a <~ shl u64 v 56 ;; b <~ shl u64 v 40 ;; c <~ shl u64 v 24 ;; d <~ shl u64 v 8 ;;
  e <~ shr u64 v 8 ;; f <~ shr u64 v 24 ;; g <~ shr u64 v 40 ;; h <~ shr u64 v 56 ;;
  Ok (Z.lor (Z.lor (Z.lor (Z.lor (Z.lor (Z.lor (Z.lor a
      (Z.land b 0x00FF000000000000)) (Z.land c 0x0000FF0000000000)) (Z.land d 0x000000FF00000000))
      (Z.land e 0x00000000FF000000)) (Z.land f 0x0000000000FF0000)) (Z.land g 0x000000000000FF00)) h).
Definition byteswap (t : ity) (v : Z) : res Z :=
  if decide (wd t = 8) then Ok v
  else if decide (wd t = 16) then r <~ byteswap_ushort (cast u16 v) ;; Ok (cast t r)
  else if decide (wd t = 32) then r <~ byteswap_ulong (cast u32 v) ;; Ok (cast t r)
  else r <~ byteswap_uint64 (cast u64 v) ;; Ok (cast t r).
