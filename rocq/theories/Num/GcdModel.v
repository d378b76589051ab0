(** numeric: _Abs_u, gcd, lcm, midpoint. *)
From stdpp Require Import base numbers list.
From Coq Require Import ZArith.
From Verif Require Import Base.Res Base.Int Num.BitModel.
Open Scope Z_scope.

(** numeric:645-661 _Abs_u *)
Definition abs_u (t : ity) (v : Z) : res Z :=
  if sg t then
    let u := make_unsigned t in
    if decide (v < 0) then
      d <~ arith (promote u) (0 - cast u v) ;; Ok (cast u d)
    else Ok (cast u v)
  else Ok v.

(** numeric:684-713: the binary algorithm on two magnitudes of type [u]; [ctz] is the selected countr_zero *)
Definition gcd_core (ctz : ity -> Z -> res Z) (u : ity) (m n : Z) : res Z :=
  if decide (m = 0) then Ok n
  else if decide (n = 0) then Ok m
  else
    mtz <~ ctz u m ;;
    ntz <~ ctz u n ;;
    let common := mtz `min` ntz in
    m' <~ shr u m mtz ;;
    let m := cast u m' in
    loop (Z.to_nat (m + n))
      (fun '(m, n, ntz) =>
         n' <~ shr u n ntz ;;
         let n := cast u n' in
         let '(m, n) := if decide (m > n) then (n, m) else (m, n) in
         n' <~ arith (promote u) (n - m) ;;
         let n := cast u n' in
         if decide (n = 0) then r <~ shl u m common ;; Ok (inr r)
         else ntz <~ ctz u n ;; Ok (inl (m, n, ntz)))
      (m, n, ntz).
(** numeric:665-715 gcd; [verify]: the precondition check of debug builds and constant evaluation is compiled in
    (numeric:672-682) *)
Definition gcd (ctz : ity -> Z -> res Z) (verify : bool) (t1 t2 : ity) (m n : Z) : res Z :=
  let c := common_type t1 t2 in
  let u := make_unsigned c in
  if sg c && verify && (bool_decide (m = tmin c) || bool_decide (n = tmin c)) then UB
  else
    a <~ abs_u t1 m ;;
    b <~ abs_u t2 n ;;
    r <~ gcd_core ctz u (cast u a) (cast u b) ;;
    Ok (cast c r).

(** xutility:7944-7962 _Mul_overflow, unsigned branch: (overflow?, *_Out) *)
Definition mul_overflow_u (u : ity) (l r out : Z) : res (bool * Z) :=
  if decide (l <> 0 /\ r > tmax u / l) then Ok (true, out)
  else p <~ arith (promote u) (l * r) ;; Ok (false, cast u p).
(** utility:917-940 _In_range *)
Definition in_range (rx ty : ity) (v : Z) : bool :=
  if bool_decide (tmin ty < tmin rx) && bool_decide (v < tmin rx) then false
  else if bool_decide (tmax ty > tmax rx) && bool_decide (v > tmax rx) then false
  else true.
(** numeric:718-744 lcm; [verify] selects the checked path (debug builds and constant evaluation) *)
Definition lcm (ctz : ity -> Z -> res Z) (verify : bool) (t1 t2 : ity) (m n : Z) : res Z :=
  let c := common_type t1 t2 in
  let u := make_unsigned c in
  a <~ abs_u t1 m ;;
  b <~ abs_u t2 n ;;
  let a := cast u a in
  let b := cast u b in
  if decide (a = 0 \/ b = 0) then Ok 0
  else
    g <~ gcd ctz verify u u a b ;;
    if decide (g = 0) then UB
    else if negb verify then
      p <~ arith (promote u) (a / g * b) ;; Ok (cast c p)
    else
      let tmp := cast u (a / g) in
      '(ov, result) <~ mul_overflow_u u tmp b 0 ;;
      if ov || negb (in_range c u result) then UB else Ok (cast c result).

(** numeric:800-810 midpoint of integers *)
Definition midpoint (t : ity) (a b : Z) : res Z :=
  let u := make_unsigned t in
  let au := cast u a in
  let bu := cast u b in
  if decide (a > b) then
    d <~ arith (promote u) (au - bu) ;;
    r <~ arith (promote t) (a - cast t (cast u d / 2)) ;; Ok (cast t r)
  else
    d <~ arith (promote u) (bu - au) ;;
    r <~ arith (promote t) (a + cast t (cast u d / 2)) ;; Ok (cast t r).
(** numeric:813-821 midpoint of pointers into one array, as element indices; ptrdiff_t arithmetic *)
Definition midpoint_ptr (a b : Z) : res Z :=
  if decide (a > b) then d <~ arith s64 (a - b) ;; h <~ shr s64 d 1 ;; Ok (a - h)
  else d <~ arith s64 (b - a) ;; h <~ shr s64 d 1 ;; Ok (a + h).
