(** 128-bit integers: stl/inc/__msvc_int128.hpp. A [_Base128] is the pair of its words, low word first.
    The primitives ([_AddCarry64], [_UMul128], [_UDiv128] ...) are modelled by the code used in constant evaluation and on
    targets without the corresponding intrinsic; where the preprocessor selects between two algorithms
    ([_STL_128_INTRINSICS], [_STL_128_DIV_INTRINSICS]) both are modelled and the choice is a parameter. *)
From stdpp Require Import base numbers list.
From Coq Require Import ZArith.
From Verif Require Import Base.Res Base.Arr Base.Int Num.BitModel Cont.BitsetModel.
Open Scope Z_scope.

(** uint64_t and uint32_t wrap-around *)
Definition w64 (z : Z) : Z := cast u64 z.
Definition w32 (z : Z) : Z := cast u32 z.
(** built-in unsigned division and remainder: a zero divisor is undefined *)
Definition udiv (a b : Z) : res Z := if decide (b = 0) then UB else Ok (a / b).
Definition umod (a b : Z) : res Z := if decide (b = 0) then UB else Ok (a mod b).
Definition b2z (b : bool) : Z := if b then 1 else 0.

(** __msvc_int128.hpp:51-52 _Base128::_Word *)
Definition b128 : Type := Z * Z.

(** __msvc_int128.hpp:54-76 _Left_shift; the count is an unsigned char, the contract (line 55) is count < 128 *)
Definition left_shift (x : b128) (count : Z) : res b128 :=
  let '(w0, w1) := x in
  _ <~ rassert (bool_decide (count < 128)) ;;
  if decide (count = 0) then Ok (w0, w1)
  else if decide (count >= 64) then s <~ shl u64 w0 (count mod 64) ;; Ok (0, s)
  else
    h <~ shl u64 w1 count ;; l <~ shr u64 w0 (64 - count) ;;
    w0' <~ shl u64 w0 count ;;
    Ok (w0', Z.lor h l).
(** __msvc_int128.hpp:78-100 _Unsigned_right_shift *)
Definition unsigned_right_shift (x : b128) (count : Z) : res b128 :=
  let '(w0, w1) := x in
  _ <~ rassert (bool_decide (count < 128)) ;;
  if decide (count = 0) then Ok (w0, w1)
  else if decide (count >= 64) then s <~ shr u64 w1 (count mod 64) ;; Ok (s, 0)
  else
    l <~ shr u64 w0 count ;; h <~ shl u64 w1 (64 - count) ;;
    w1' <~ shr u64 w1 count ;;
    Ok (Z.lor l h, w1').
(** __msvc_int128.hpp:102-114 _AddCarry64: result word and carry out *)
Definition add_carry64 (carry left right : Z) : Z * Z :=
  let sum := w64 (w64 (left + right) + carry) in
  (sum, b2z (if decide (carry <> 0) then bool_decide (sum <= left) else bool_decide (sum < left))).
(** __msvc_int128.hpp:116-128 _SubBorrow64 *)
Definition sub_borrow64 (carry left right : Z) : Z * Z :=
  let difference := w64 (w64 (left - right) - carry) in
  (difference, b2z (if decide (carry <> 0) then bool_decide (difference >= left) else bool_decide (difference > left))).
(** __msvc_int128.hpp:130-202 _UMul128: low and high word *)
Definition umul128 (left right : Z) : res (Z * Z) :=
  let aLo := w32 left in
  ah <~ shr u64 left 32 ;; let aHi := w32 ah in
  let bLo := w32 right in
  bh <~ shr u64 right 32 ;; let bHi := w32 bh in
  let b00 := w64 (aLo * bLo) in
  let b01 := w64 (aLo * bHi) in
  let b10 := w64 (aHi * bLo) in
  let b11 := w64 (aHi * bHi) in
  let b00Lo := w32 b00 in
  t <~ shr u64 b00 32 ;; let b00Hi := w32 t in
  let mid1 := w64 (b10 + b00Hi) in
  let mid1Lo := w32 mid1 in
  t <~ shr u64 mid1 32 ;; let mid1Hi := w32 t in
  let mid2 := w64 (b01 + mid1Lo) in
  let mid2Lo := w32 mid2 in
  t <~ shr u64 mid2 32 ;; let mid2Hi := w32 t in
  let pHi := w64 (w64 (b11 + mid1Hi) + mid2Hi) in
  s <~ shl u64 mid2Lo 32 ;;
  let pLo := Z.lor s b00Lo in
  Ok (pLo, pHi).

(** __msvc_int128.hpp:216-228 the estimate of one quotient digit in _Knuth_4_3_1_D; [n] is at least 2
    (the code reads [__v[__n - 2]]) *)
Definition knuth_qhat (u v : arr Z) (j n : nat) : res Z :=
  _ <~ rassert (bool_decide (2 <= n)%nat) ;;
  hi <~ rd u (j + n) ;; lo <~ rd u (j + n - 1) ;;
  h <~ shl u64 hi 32 ;;
  let two_digits := Z.lor h lo in
  v1 <~ rd v (n - 1) ;;
  qhat <~ udiv two_digits v1 ;;
  rhat <~ umod two_digits v1 ;;
  loop 4
    (fun '(qhat, rhat) =>
       qh <~ shr u64 qhat 32 ;;
       big <~ (if decide (qh <> 0) then Ok true
               else v2 <~ rd v (n - 2) ;; u2 <~ rd u (j + n - 2) ;; r <~ shl u64 rhat 32 ;;
                    Ok (bool_decide (w64 (w32 qhat * v2) > Z.lor r u2))) ;;
       if (big : bool) then
         let qhat := w64 (qhat - 1) in
         let rhat := w64 (rhat + v1) in
         rh <~ shr u64 rhat 32 ;;
         if decide (rh <> 0) then Ok (inr qhat) else Ok (inl (qhat, rhat))
       else Ok (inr qhat))
    (qhat, rhat).
(** __msvc_int128.hpp:230-239 multiply and subtract: new digits and the final signed digit [__t] *)
Definition knuth_mulsub (u v : arr Z) (j n : nat) (qhat : Z) : res (arr Z * Z) :=
  '(u, k) <~
    fup n 0%nat (fun i '(u, k) =>
      vi <~ rd v i ;;
      let prod := w64 (w32 qhat * vi) in
      ui <~ rd u (i + j)%nat ;;
      t <~ arith s64 (ui - k) ;;
      t <~ arith s64 (t - w32 prod) ;;
      u <~ wr u (i + j)%nat (w32 t) ;;
      ph <~ shr u64 prod 32 ;;
      th <~ shr s64 t 32 ;;
      k <~ arith s64 (cast s64 ph - th) ;;
      Ok (u, k)) (u, 0) ;;
  un <~ rd u (j + n)%nat ;;
  t <~ arith s64 (un - k) ;;
  u <~ wr u (j + n)%nat (w32 t) ;;
  Ok (u, t).
(** __msvc_int128.hpp:244-250 add back *)
Definition knuth_addback (u v : arr Z) (j n : nat) : res (arr Z) :=
  '(u, k) <~
    fup n 0%nat (fun i '(u, k) =>
      ui <~ rd u (i + j)%nat ;; vi <~ rd v i ;;
      t <~ arith s64 (ui + k) ;;
      t <~ arith s64 (t + vi) ;;
      u <~ wr u (i + j)%nat (w32 t) ;;
      k <~ shr s64 t 32 ;;
      Ok (u, k)) (u, 0) ;;
  un <~ rd u (j + n)%nat ;;
  wr u (j + n)%nat (w32 (un + cast s32 k)).
(** __msvc_int128.hpp:204-255 _Knuth_4_3_1_D; returns the final [__u] and [__q] *)
Definition knuth (u : arr Z) (usize : nat) (v : arr Z) (vsize : nat) (q : arr Z) : res (arr Z * arr Z) :=
  _ <~ rassert (bool_decide (vsize < usize)%nat) ;;
  let n := vsize in
  let m := (usize - vsize - 1)%nat in
  fdown (S m) 0%nat (fun j '(u, q) =>
    qhat <~ knuth_qhat u v j n ;;
    '(u, t) <~ knuth_mulsub u v j n qhat ;;
    q <~ wr q j (w32 qhat) ;;
    if decide (t < 0) then
      qj <~ rd q j ;;
      q <~ wr q j (w32 (qj - 1)) ;;
      u <~ knuth_addback u v j n ;;
      Ok (u, q)
    else Ok (u, q)) (u, q).

(** __msvc_int128.hpp:257-303 _UDiv128: quotient and remainder; the contract (line 259) is High < Div *)
Definition udiv128 (high low div : Z) : res (Z * Z) :=
  _ <~ rassert (bool_decide (high < div)) ;;
  dh <~ shr u64 div 32 ;;
  d <~ countl_zero_fallback u32 (w32 dh) ;;
  if decide (d >= 32) then
    s <~ shl u64 high 32 ;; t <~ shr u64 low 32 ;;
    let rem := Z.lor s t in
    result <~ udiv rem (w32 div) ;;
    r <~ umod rem (w32 div) ;; s <~ shl u64 r 32 ;;
    let rem := Z.lor s (w32 low) in
    s <~ shl u64 result 32 ;; q <~ udiv rem (w32 div) ;;
    let result := Z.lor s q in
    remainder <~ umod rem (w32 div) ;;
    Ok (result, remainder)
  else
    u0 <~ shl u64 low d ;; u1 <~ shr u64 low (32 - d) ;;
    u2 <~ shl u64 high d ;; u3 <~ shr u64 high (32 - d) ;;
    '(u2, u4) <~ (if decide (d <> 0) then
                    a <~ shr u64 low (64 - d) ;; b <~ shr u64 high (64 - d) ;;
                    Ok (Z.lor (w32 u2) (w32 a), Z.lor 0 (w32 b))
                  else Ok (w32 u2, 0)) ;;
    v0 <~ shl u64 div d ;; v1 <~ shr u64 div (32 - d) ;;
    '(u, q) <~ knuth (full [w32 u0; w32 u1; u2; w32 u3; u4]) 5 (full [w32 v0; w32 v1]) 2 [None; None; None] ;;
    a <~ rd u 1 ;; b <~ rd u 0 ;;
    s <~ shl u64 a (32 - d) ;; t <~ shr u32 b d ;;
    let remainder := Z.lor s t in
    q1 <~ rd q 1 ;; q0 <~ rd q 0 ;;
    s <~ shl u64 q1 32 ;;
    Ok (Z.lor s q0, remainder).

(** __msvc_int128.hpp:307-319 _Base128(_Ty): conversion from a built-in integer type *)
Definition of_int (t : ity) (v : Z) : b128 :=
  (cast u64 v, if sg t then (if decide (v < 0) then w64 (Z.lnot 0) else 0) else 0).
Definition of_u64 (v : Z) : b128 := of_int u64 v.
(** __msvc_int128.hpp:323-326 explicit operator _Ty *)
Definition to_int (t : ity) (x : b128) : Z := cast t x.1.
(** __msvc_int128.hpp:328-330 explicit operator bool *)
Definition to_bool (x : b128) : bool := bool_decide (Z.lor x.1 x.2 <> 0).
(** __msvc_int128.hpp:333-337 operator==(_Base128, _Base128) *)
Definition eq128 (x y : b128) : bool := bool_decide (x.1 = y.1) && bool_decide (x.2 = y.2).
(** __msvc_int128.hpp:344-353 operator<(_Base128, _Base128) *)
Definition lt128 (x y : b128) : bool :=
  if decide (x.2 < y.2) then true else if decide (x.2 > y.2) then false else bool_decide (x.1 < y.1).
(** __msvc_int128.hpp:354-362 the other comparisons *)
Definition gt128 (x y : b128) : bool := lt128 y x.
Definition le128 (x y : b128) : bool := negb (lt128 y x).
Definition ge128 (x y : b128) : bool := negb (lt128 x y).
(** __msvc_int128.hpp:398-403 operator++ *)
Definition incr128 (x : b128) : b128 :=
  let w0 := w64 (x.1 + 1) in (w0, if decide (w0 = 0) then w64 (x.2 + 1) else x.2).
(** __msvc_int128.hpp:410-415 operator-- *)
Definition decr128 (x : b128) : b128 :=
  (w64 (x.1 - 1), if decide (x.1 = 0) then w64 (x.2 - 1) else x.2).

(** __msvc_int128.hpp:422-428 _Multiply *)
Definition multiply (x y : b128) : res b128 :=
  '(lo, hi) <~ umul128 x.1 y.1 ;;
  let hi := w64 (hi + w64 (x.1 * y.2)) in
  let hi := w64 (hi + w64 (x.2 * y.1)) in
  Ok (lo, hi).

(** __msvc_int128.hpp:431-439 _Divide(_Base128, uint32_t) *)
Definition divide32 (num : b128) (den : Z) : res b128 :=
  hi <~ udiv num.2 den ;;
  r <~ umod num.2 den ;; s <~ shl u64 r 32 ;; t <~ shr u64 num.1 32 ;;
  let rem := Z.lor s t in
  q <~ udiv rem den ;; lo <~ shl u64 q 32 ;;
  r <~ umod rem den ;; s <~ shl u64 r 32 ;;
  let rem := Z.lor s (w32 num.1) in
  q <~ udiv rem den ;;
  Ok (Z.lor lo (w32 q), hi).
(** __msvc_int128.hpp:441-447 _Divide(_Base128, uint64_t) *)
Definition divide64 (num : b128) (den : Z) : res b128 :=
  hi <~ udiv num.2 den ;;
  r <~ umod num.2 den ;;
  '(lo, _) <~ udiv128 r num.1 den ;;
  Ok (lo, hi).

(** __msvc_int128.hpp:471-504 normalisation and the quotient estimate in base 2^64 shared (textually) by _Divide,
    _Modulo (596-630) and _Div_ceil (753-786). Returns the normalised divisor, the three digits of the dividend and the
    estimate as (low, high) words. _Modulo keeps the estimate in two separate variables and writes the decrement out by
    hand (lines 612-614); the effect is that of [decr128]. *)
Definition estimate64 (num den : b128) : res (Z * b128 * b128 * b128) :=
  d <~ countl_zero_fallback u64 den.2 ;;
  den <~ left_shift den (cast u8 d) ;;
  high <~ (if decide (d = 0) then Ok 0 else shr u64 num.2 (64 - d)) ;;
  num <~ left_shift num (cast u8 d) ;;
  let qhigh := b2z (bool_decide (high >= den.2)) in
  '(qlow, rhat) <~ udiv128 (if decide (high >= den.2) then w64 (high - den.2) else high) num.2 den.2 ;;
  qhat <~
    loop 4
      (fun '(qhat, rhat) =>
         st <~ (if decide (qhat.2 > 0) then Ok (Some (decr128 qhat))
                else
                  '(p0, p1) <~ umul128 qhat.1 den.1 ;;
                  if le128 (p0, p1) (num.1, rhat) then Ok None
                  else Ok (Some (w64 (qhat.1 - 1), qhat.2))) ;;
         match (st : option b128) with
         | None => Ok (inr qhat)
         | Some qhat =>
             let sum := w64 (rhat + den.2) in
             if decide (rhat > sum) then Ok (inr qhat) else Ok (inl (qhat, sum))
         end)
      ((qlow, qhigh), rhat) ;;
  Ok (high, num, den, qhat).
(** __msvc_int128.hpp:506-514 [High_digit | Num] -= qhat * Den: new low words and the final borrow *)
Definition mulsub64 (high : Z) (num den : b128) (qhat0 : Z) : res (b128 * Z) :=
  '(prod_lo, prod0_hi) <~ umul128 qhat0 den.1 ;;
  let '(n0, borrow) := sub_borrow64 0 num.1 prod_lo in
  '(prod_lo, prod1_hi) <~ umul128 qhat0 den.2 ;;
  let '(prod_lo, carry) := add_carry64 0 prod_lo prod0_hi in
  let prod1_hi := w64 (prod1_hi + carry) in
  let '(n1, borrow) := sub_borrow64 borrow num.2 prod_lo in
  let '(high, borrow) := sub_borrow64 borrow high prod1_hi in
  Ok ((n0, n1), borrow).
(** __msvc_int128.hpp:643-644 add the divisor back *)
Definition addback64 (num den : b128) : b128 :=
  let '(n0, carry) := add_carry64 0 num.1 den.1 in
  let '(n1, _) := add_carry64 carry num.2 den.2 in
  (n0, n1).
(** __msvc_int128.hpp:520-550 digits in base 2^32, shared (textually) by _Divide, _Modulo (648-677) and
    _Div_ceil (805-834): runs _Knuth_4_3_1_D and returns [__d], [__u], [__q] and whether the divisor has three digits.
    [q] is the initial content of [__q]: uninitialised in _Divide and _Modulo, zero in _Div_ceil *)
Definition divide_digits (num den : b128) (q : arr Z) : res (Z * arr Z * arr Z * bool) :=
  d <~ countl_zero_fallback u64 den.2 ;;
  let three := bool_decide (d >= 32) in
  let d := Z.land d 31 in
  u0 <~ shl u64 num.1 d ;; u1 <~ shr u64 num.1 (32 - d) ;;
  u2 <~ shl u64 num.2 d ;; u3 <~ shr u64 num.2 (32 - d) ;;
  v0 <~ shl u64 den.1 d ;; v1 <~ shr u64 den.1 (32 - d) ;;
  v2 <~ shl u64 den.2 d ;; v3 <~ shr u64 den.2 (32 - d) ;;
  '(u2, u4, v2) <~
    (if decide (d <> 0) then
       a <~ shr u64 num.1 (64 - d) ;; b <~ shr u64 num.2 (64 - d) ;; c <~ shr u64 den.1 (64 - d) ;;
       Ok (w32 (Z.lor (w32 u2) a), w32 (Z.lor 0 b), w32 (Z.lor (w32 v2) c))
     else Ok (w32 u2, 0, w32 v2)) ;;
  let u := full [w32 u0; w32 u1; u2; w32 u3; u4] in
  let v := full [w32 v0; w32 v1; v2; w32 v3] in
  '(u, q) <~ (if three then knuth u 5 v 3 q else knuth u 5 v 4 q) ;;
  Ok (d, u, q, three).

(** __msvc_int128.hpp:448-554 _Divide(_Base128, _Base128); [intr] is _STL_128_INTRINSICS, [dintr] is
    _STL_128_DIV_INTRINSICS *)
Definition divide (intr dintr : bool) (num den : b128) : res b128 :=
  if decide (den.2 >= num.2) then
    if decide (den.2 > num.2) then Ok (of_u64 0)
    else if decide (num.2 = 0) then q <~ udiv num.1 den.1 ;; Ok (of_u64 q)
    else Ok (of_u64 (b2z (bool_decide (num.1 >= den.1))))
  else if decide (den.2 = 0) then
    if negb dintr && bool_decide (den.1 < 2 ^ 32) then divide32 num (w32 den.1) else divide64 num den.1
  else if intr then
    '(high, num, den, qhat) <~ estimate64 num den ;;
    '(_, borrow) <~ mulsub64 high num den qhat.1 ;;
    Ok (if decide (borrow <> 0) then (w64 (qhat.1 - 1), qhat.2) else qhat)
  else
    '(_, _, q, three) <~ divide_digits num den [None; None] ;;
    q <~ (if (three : bool) then Ok q else wr q 1 0) ;;
    q1 <~ rd q 1 ;; q0 <~ rd q 0 ;; s <~ shl u64 q1 32 ;;
    Ok (of_u64 (Z.lor s q0)).

(** __msvc_int128.hpp:557-562 _Modulo(_Base128, uint32_t) *)
Definition modulo32 (num : b128) (den : Z) : res b128 :=
  r <~ umod num.2 den ;; s <~ shl u64 r 32 ;; t <~ shr u64 num.1 32 ;;
  let rem := Z.lor s t in
  r <~ umod rem den ;; s <~ shl u64 r 32 ;;
  let rem := Z.lor s (w32 num.1) in
  r <~ umod rem den ;;
  Ok (of_u64 r).
(** __msvc_int128.hpp:564-568 _Modulo(_Base128, uint64_t) *)
Definition modulo64 (num : b128) (den : Z) : res b128 :=
  r <~ umod num.2 den ;;
  '(_, rem) <~ udiv128 r num.1 den ;;
  Ok (of_u64 rem).
(** __msvc_int128.hpp:569-685 _Modulo(_Base128, _Base128) *)
Definition modulo (intr dintr : bool) (num den : b128) : res b128 :=
  if decide (den.2 >= num.2) then
    if decide (den.2 > num.2) then Ok num
    else if decide (den.1 <= num.1) then
      r <~ (if decide (num.2 = 0) then umod num.1 den.1 else Ok (w64 (num.1 - den.1))) ;; Ok (of_u64 r)
    else Ok num
  else if decide (den.2 = 0) then
    if negb dintr && bool_decide (den.1 < 2 ^ 32) then modulo32 num (w32 den.1) else modulo64 num den.1
  else if intr then
    d <~ countl_zero_fallback u64 den.2 ;;
    '(high, num, den, qhat) <~ estimate64 num den ;;
    '(num, borrow) <~ mulsub64 high num den qhat.1 ;;
    let num := if decide (borrow <> 0) then addback64 num den else num in
    unsigned_right_shift num (cast u8 d)
  else
    '(d, u, _, _) <~ divide_digits num den [None; None] ;;
    u1 <~ rd u 1 ;; u0 <~ rd u 0 ;; s0 <~ shl u64 u1 32 ;;
    u3 <~ rd u 3 ;; u2 <~ rd u 2 ;; s1 <~ shl u64 u3 32 ;;
    unsigned_right_shift (Z.lor s0 u0, Z.lor s1 u2) (cast u8 d).

(** __msvc_int128.hpp:689-701 _Div_ceil(_Base128, uint32_t) *)
Definition div_ceil32 (num : b128) (den : Z) : res b128 :=
  hi <~ udiv num.2 den ;;
  r <~ umod num.2 den ;; s <~ shl u64 r 32 ;; t <~ shr u64 num.1 32 ;;
  let rem := Z.lor s t in
  q <~ udiv rem den ;; lo <~ shl u64 q 32 ;;
  r <~ umod rem den ;; s <~ shl u64 r 32 ;;
  let rem := Z.lor s (w32 num.1) in
  q <~ udiv rem den ;;
  let result := (Z.lor lo (w32 q), hi) in
  r <~ umod rem den ;;
  Ok (if decide (r <> 0) then incr128 result else result).
(** __msvc_int128.hpp:704-714 _Div_ceil(_Base128, uint64_t) *)
Definition div_ceil64 (num : b128) (den : Z) : res b128 :=
  hi <~ udiv num.2 den ;;
  r <~ umod num.2 den ;;
  '(lo, rem) <~ udiv128 r num.1 den ;;
  Ok (if decide (rem <> 0) then incr128 (lo, hi) else (lo, hi)).
(** __msvc_int128.hpp:716-845 _Div_ceil(_Base128, _Base128) *)
Definition div_ceil (intr dintr : bool) (num den : b128) : res b128 :=
  if decide (den.2 >= num.2) then
    if decide (den.2 > num.2) then Ok (of_u64 (b2z (negb (eq128 num (of_u64 0)))))
    else if decide (num.2 = 0) then
      result <~ udiv num.1 den.1 ;;
      r <~ umod num.1 den.1 ;;
      Ok (of_u64 (if decide (r <> 0) then w64 (result + 1) else result))
    else if decide (num.1 > den.1) then Ok (of_u64 2)
    else Ok (of_u64 1)
  else if decide (den.2 = 0) then
    if negb dintr && bool_decide (den.1 < 2 ^ 32) then div_ceil32 num (w32 den.1) else div_ceil64 num den.1
  else
    '(num, result) <~
      (if intr then
         '(high, num, den, qhat) <~ estimate64 num den ;;
         '(num, borrow) <~ mulsub64 high num den qhat.1 ;;
         Ok (if decide (borrow <> 0) then (addback64 num den, (w64 (qhat.1 - 1), qhat.2)) else (num, qhat))
       else
         '(_, u, q, _) <~ divide_digits num den (full [0; 0]) ;;
         q1 <~ rd q 1 ;; q0 <~ rd q 0 ;; s <~ shl u64 q1 32 ;;
         u1 <~ rd u 1 ;; u0 <~ rd u 0 ;; s0 <~ shl u64 u1 32 ;;
         u3 <~ rd u 3 ;; u2 <~ rd u 2 ;; s1 <~ shl u64 u3 32 ;;
         Ok ((Z.lor s0 u0, Z.lor s1 u2), of_u64 (Z.lor s q0))) ;;
    Ok (if negb (eq128 num (of_u64 0)) then incr128 result else result).

(** __msvc_int128.hpp:887-894 and 1204-1211 operator<=> on _Unsigned128 and _Signed128 *)
Definition cmp_words (a b : Z) : comparison := Z.compare a b.
Definition ucmp (x y : b128) : comparison :=
  match cmp_words x.2 y.2 with Eq => cmp_words x.1 y.1 | c => c end.
Definition scmp (x y : b128) : comparison :=
  match cmp_words (cast s64 x.2) (cast s64 y.2) with Eq => cmp_words x.1 y.1 | c => c end.
(** __msvc_int128.hpp:921-925, 937-941, 1238-1242 shift operators whose count is a 128-bit integer: the count is the low
    word narrowed to unsigned char *)
Definition shl_op (x count : b128) : res b128 := left_shift x (cast u8 count.1).
Definition ushr_op (x count : b128) : res b128 := unsigned_right_shift x (cast u8 count.1).
(** __msvc_int128.hpp:989-994 (1329-1334) operator+ *)
Definition add128 (x y : b128) : b128 :=
  let '(r0, carry) := add_carry64 0 x.1 y.1 in
  let '(r1, _) := add_carry64 carry x.2 y.2 in
  (r0, r1).
(** __msvc_int128.hpp:1007-1012 (1347-1352) operator- *)
Definition sub128 (x y : b128) : b128 :=
  let '(r0, borrow) := sub_borrow64 0 x.1 y.1 in
  let '(r1, _) := sub_borrow64 borrow x.2 y.2 in
  (r0, r1).
(** __msvc_int128.hpp:981-983 (1321-1323) unary operator- *)
Definition neg128 (x : b128) : b128 := sub128 (0, 0) x.
(** __msvc_int128.hpp:985-987 (1325-1327) operator~ *)
Definition not128 (x : b128) : b128 := (w64 (Z.lnot x.1), w64 (Z.lnot x.2)).
(** __msvc_int128.hpp:1112-1134 operator&, operator^, operator| *)
Definition and128 (x y : b128) : b128 := (Z.land x.1 y.1, Z.land x.2 y.2).
Definition xor128 (x y : b128) : b128 := (Z.lxor x.1 y.1, Z.lxor x.2 y.2).
Definition or128 (x y : b128) : b128 := (Z.lor x.1 y.1, Z.lor x.2 y.2).

(** __msvc_int128.hpp:1039-1049 _Unsigned128 operator/ with a built-in divisor of type [t]: the divisor is converted to
    uint32_t or uint64_t *)
Definition udiv_int (dintr : bool) (t : ity) (num : b128) (den : Z) : res b128 :=
  if negb dintr && bool_decide (wd t <= 32) then divide32 num (cast u32 den) else divide64 num (cast u64 den).
(** __msvc_int128.hpp:1080-1090 operator% with a built-in divisor *)
Definition umod_int (dintr : bool) (t : ity) (num : b128) (den : Z) : res b128 :=
  if negb dintr && bool_decide (wd t <= 32) then modulo32 num (cast u32 den) else modulo64 num (cast u64 den).

(** __msvc_int128.hpp:1254-1275 _Signed_right_shift *)
Definition signed_right_shift (x : b128) (count : Z) : res b128 :=
  let '(w0, w1) := x in
  if decide (count = 0) then Ok (w0, w1)
  else if decide (count >= 64) then
    s <~ shr s64 (cast s64 w1) (count mod 64) ;;
    Ok (cast u64 s, if decide (Z.land w1 (2 ^ 63) = 0) then 0 else w64 (Z.lnot 0))
  else
    l <~ shr u64 w0 count ;; h <~ shl u64 w1 (64 - count) ;;
    s <~ shr s64 (cast s64 w1) count ;;
    Ok (Z.lor l h, cast u64 s).
(** __msvc_int128.hpp:1277-1281 operator>> on _Signed128 *)
Definition sshr_op (x count : b128) : res b128 := signed_right_shift x (cast u8 count.1).

(** __msvc_int128.hpp:1365-1370 _Strip_negative *)
Definition strip_negative (x : b128) (flip : bool) : b128 * bool :=
  if decide (Z.land x.2 (2 ^ 63) <> 0) then (neg128 x, negb flip) else (x, flip).
(** __msvc_int128.hpp:1372-1381 operator* on _Signed128 *)
Definition smul (x y : b128) : res b128 :=
  let '(x, negative) := strip_negative x false in
  let '(y, negative) := strip_negative y negative in
  r <~ multiply x y ;;
  Ok (if (negative : bool) then neg128 r else r).
(** __msvc_int128.hpp:1428-1437 operator/ on _Signed128 *)
Definition sdiv (intr dintr : bool) (x y : b128) : res b128 :=
  let '(x, negative) := strip_negative x false in
  let '(y, negative) := strip_negative y negative in
  r <~ divide intr dintr x y ;;
  Ok (if (negative : bool) then neg128 r else r).
(** __msvc_int128.hpp:1402-1427 operator/ on _Signed128 with a built-in divisor of type [t]; [-_Den] is computed in the promoted
    type and converted back *)
Definition sdiv_int (dintr : bool) (t : ity) (x : b128) (den : Z) : res b128 :=
  let '(x, negative) := strip_negative x false in
  '(den, negative) <~
    (if sg t then
       if decide (den < 0) then d <~ arith (promote t) (- den) ;; Ok (cast t d, negb negative) else Ok (den, negative)
     else Ok (den, negative)) ;;
  r <~ (if negb dintr && bool_decide (wd t <= 32) then divide32 x (cast u32 den) else divide64 x (cast u64 den)) ;;
  Ok (if (negative : bool) then neg128 r else r).
(** __msvc_int128.hpp:1458-1472 operator% on _Signed128 *)
Definition smod (intr dintr : bool) (x y : b128) : res b128 :=
  let '(x, negative) := strip_negative x false in
  let y := if decide (Z.land y.2 (2 ^ 63) <> 0) then neg128 y else y in
  r <~ modulo intr dintr x y ;;
  Ok (if (negative : bool) then neg128 r else r).
(** __msvc_int128.hpp:1499-1503 _Signed128::_Div_ceil *)
Definition sdiv_ceil (intr dintr : bool) (x y : b128) : res b128 := div_ceil intr dintr x y.
