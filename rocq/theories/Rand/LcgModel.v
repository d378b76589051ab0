(** Model of std::linear_congruential_engine (stl/inc/random). [t] is _Uint (unsigned short, unsigned int / unsigned long, or
    unsigned long long); [a], [c], [m] are the template arguments _Ax, _Cx, _Mx. *)
From stdpp Require Import base list numbers.
From Coq Require Import ZArith.
From Verif Require Import Base.Res Base.Int.
Local Open Scope Z_scope.

Definition UINT_MAX : Z := 2 ^ 32 - 1.
Definition ULLONG_MAX : Z := 2 ^ 64 - 1.

(** the step "(_X >> 31) + (_X & _Mx), then subtract _Mx once if needed" of the minstd branches, in unsigned long long
    (random:363-365, 497-499, 503-505) *)
Definition fold31 (m x : Z) : Z :=
  let x := cast u64 (x / 2 ^ 31 + Z.land x m) in
  if x <? m then x else cast u64 (x - m).

(** _Next_linear_congruential_value (random:335-384). The multiprecision branch computes in _Unsigned128: here the exact
    product reduced modulo 2^128 (the 128-bit operations themselves are modelled in Num/Int128Model). *)
Definition next (t : ity) (a c m prev : Z) : res Z :=
  if a =? 0 then Ok (cast t c)
  else if m =? 0 then
    p <~ arith (promote t) (a * prev) ;;
    s <~ arith (promote t) (cast t p + c) ;;
    Ok (cast t s)
  else if (c =? 0) && (m =? 2147483647) then
    Ok (cast t (fold31 m (cast u64 (prev * a))))
  else if (c <=? UINT_MAX) && (cast t (m - 1) <=? (UINT_MAX - c) / a) then
    let mul := cast u32 (cast u32 (cast u32 prev * cast u32 a) + cast u32 c) in
    Ok (cast t (mul mod m))
  else if cast t (m - 1) <=? (ULLONG_MAX - c) / a then
    let mul := cast u64 (cast u64 (prev * a) + c) in
    Ok (cast t (mul mod m))
  else
    let mul := ((prev * a) mod 2 ^ 128 + c) mod 2 ^ 128 in
    Ok (cast t (mul mod m)).

(** _Get_linear_congruential_seed (random:404-417) *)
Definition get_seed (c m s : Z) : Z :=
  let s := if m =? 0 then s else s mod m in
  if (c =? 0) && (s =? 0) then 1 else s.

(** _Seed_seq_to_uint, _Seed_seq_to_ull (random:386-402); [gen n] is what _Seq.generate writes to an array of [n] unsigned ints *)
Definition seq_to_uint (gen : nat -> list Z) : Z := default 0 (gen 4%nat !! 3%nat).
Definition seq_to_ull (gen : nat -> list Z) : Z :=
  Z.lor (cast u64 (default 0 (gen 5%nat !! 4%nat) * 2 ^ 32)) (default 0 (gen 5%nat !! 3%nat)).
(** _Get_linear_congruential_seed_from_seq (random:419-434) *)
Definition seed_from_seq (t : ity) (c m : Z) (gen : nat -> list Z) : Z :=
  let s := if m =? 0 then (if wd t <=? 32 then cast t (seq_to_uint gen) else cast t (seq_to_ull gen))
           else if m <=? UINT_MAX then cast t (seq_to_uint gen mod m)
           else cast t (seq_to_ull gen mod m) in
  get_seed c m s.

(** max() (random:456-461) and min() (449-452) *)
Definition lcg_max (t : ity) (m : Z) : Z := cast t (m - 1).
Definition lcg_min (c : Z) : Z := if c =? 0 then 1 else 0.

(** discard (random:488-523): the minstd branch squares, the other one loops. The loop counter [fuel] of the first bounds
    the number of binary digits of [n]. *)
Fixpoint fast_discard (fuel : nat) (m temp mul n : Z) : res Z :=
  match fuel with
  | O => Fuel
  | S fuel =>
    let temp := if Z.odd n then fold31 m (cast u64 (temp * mul)) else temp in
    let n := n / 2 in
    if n =? 0 then Ok temp else fast_discard fuel m temp (fold31 m (cast u64 (mul * mul))) n
  end.
Fixpoint slow_discard (t : ity) (a c m : Z) (n : nat) (temp : Z) : res Z :=
  match n with O => Ok temp | S n => temp <~ next t a c m temp ;; slow_discard t a c m n temp end.
Definition discard (t : ity) (a c m prev : Z) (n : Z) : res Z :=
  if (c =? 0) && (m =? 2147483647) then
    temp <~ fast_discard 65 m prev a n ;; Ok (cast t temp)
  else slow_discard t a c m (Z.to_nat n) prev.
