(** ratio: compile-time rational arithmetic. The computation happens in the compiler: a failed static_assert or a
    signed overflow in a constant expression makes the program ill-formed, which is modelled as [UB]
    (no such program exists), so every theorem shows the result is [Ok]. *)
From stdpp Require Import base numbers list.
From Coq Require Import ZArith.
From Verif Require Import Base.Res Base.Int.
Open Scope Z_scope.

(** intmax_t *)
Definition imax : Z := tmax s64.
(** ratio:27-29 _Abs *)
Definition ratio_abs (v : Z) : res Z := if decide (v < 0) then arith s64 (- v) else Ok v.
(** ratio:31-38 _Safe_mult *)
Definition safe_mult (a b : Z) : res Z :=
  aa <~ ratio_abs a ;;
  ab <~ (if decide (b = 0) then Ok 1 else ratio_abs b) ;;
  if decide (aa <= imax `quot` ab) then arith s64 (a * b) else UB.
(** ratio:40-42 _Sign_of *)
Definition sign_of (v : Z) : Z := if decide (v < 0) then -1 else 1.
(** ratio:44-52 _Safe_add; calling the non-constexpr error function is ill-formed *)
Definition safe_add (a b : Z) : res Z :=
  if decide (sign_of a = sign_of b) then
    aa <~ ratio_abs a ;;
    ab <~ ratio_abs b ;;
    m <~ arith s64 (imax - ab) ;;
    if decide (aa > m) then UB else arith s64 (a + b)
  else arith s64 (a + b).
(** ratio:54-70 _Gcd; fuel: every iteration after the first halves the product *)
Definition ratio_gcd (a b : Z) : res Z :=
  if decide (a = 0 /\ b = 0) then Ok 1
  else
    a <~ ratio_abs a ;;
    b <~ ratio_abs b ;;
    loop (Z.to_nat (Z.log2 (a * b) + 4))
      (fun '(a, b) => if decide (b <> 0) then Ok (inl (b, a `rem` b)) else Ok (inr a))
      (a, b).
(** ratio:72-82 the class template ratio: (num, den) of ratio<n, d>::type *)
Definition ratio (n d : Z) : res (Z * Z) :=
  if decide (d <> 0) then
    if decide (- imax <= n) then
      if decide (- imax <= d) then
        an <~ ratio_abs n ;;
        p <~ arith s64 (sign_of n * sign_of d) ;;
        p <~ arith s64 (p * an) ;;
        g <~ ratio_gcd n d ;;
        ad <~ ratio_abs d ;;
        if decide (g = 0) then UB else Ok (p `quot` g, ad `quot` g)
      else UB
    else UB
  else UB.
(** ratio:90-107 _Ratio_add, ratio_add *)
Definition ratio_add (r1 r2 : Z * Z) : res (Z * Z) :=
  let '(n1, d1) := r1 in let '(n2, d2) := r2 in
  g <~ ratio_gcd d1 d2 ;;
  if decide (g = 0) then UB else
  x <~ safe_mult n1 (d2 `quot` g) ;;
  y <~ safe_mult n2 (d1 `quot` g) ;;
  s <~ safe_add x y ;;
  d <~ safe_mult d1 (d2 `quot` g) ;;
  ratio s d.
(** ratio:109-120 _Ratio_subtract, ratio_subtract *)
Definition ratio_subtract (r1 r2 : Z * Z) : res (Z * Z) :=
  let '(n2, d2) := r2 in
  m <~ arith s64 (- n2) ;;
  r <~ ratio m d2 ;;
  ratio_add r1 r.
(** ratio:122-151 _Ratio_multiply, _Ratio_multiply_sfinae, ratio_multiply *)
Definition ratio_multiply (r1 r2 : Z * Z) : res (Z * Z) :=
  let '(n1, d1) := r1 in let '(n2, d2) := r2 in
  gx <~ ratio_gcd n1 d2 ;;
  gy <~ ratio_gcd n2 d1 ;;
  if decide (gx = 0 \/ gy = 0) then UB else
  n <~ safe_mult (n1 `quot` gx) (n2 `quot` gy) ;;
  d <~ safe_mult (d1 `quot` gy) (d2 `quot` gx) ;;
  ratio n d.
(** ratio:153-168 _Ratio_divide, _Ratio_divide_sfinae, ratio_divide *)
Definition ratio_divide (r1 r2 : Z * Z) : res (Z * Z) :=
  let '(n2, d2) := r2 in
  i <~ ratio d2 n2 ;;
  ratio_multiply r1 i.
(** ratio:170-173 ratio_equal *)
Definition ratio_equal (r1 r2 : Z * Z) : bool := bool_decide (fst r1 = fst r2 /\ snd r1 = snd r2).
(** ratio:186-197 _Big_uint128 and its operator< *)
Definition big_lt (a b : Z * Z) : bool :=
  if decide (fst a <> fst b) then bool_decide (fst a < fst b) else bool_decide (snd a < snd b).
(** ratio:199-218 _Big_multiply: (upper, lower); all arithmetic in uint64_t *)
Definition big_multiply (l r : Z) : res (Z * Z) :=
  let llow := Z.land l (2 ^ 32 - 1) in
  lhigh <~ shr u64 l 32 ;;
  let rlow := Z.land r (2 ^ 32 - 1) in
  rhigh <~ shr u64 r 32 ;;
  t <~ arith u64 (llow * rlow) ;;
  let lower32 := Z.land t (2 ^ 32 - 1) in
  carry <~ shr u64 t 32 ;;
  t <~ arith u64 (llow * rhigh) ;;
  t <~ arith u64 (t + carry) ;;
  let mid_lower := Z.land t (2 ^ 32 - 1) in
  mid_upper <~ shr u64 t 32 ;;
  t <~ arith u64 (lhigh * rlow) ;;
  t <~ arith u64 (t + mid_lower) ;;
  carry <~ shr u64 t 32 ;;
  u <~ arith u64 (lhigh * rhigh) ;;
  u <~ arith u64 (u + mid_upper) ;;
  u <~ arith u64 (u + carry) ;;
  w <~ shl u64 t 32 ;;
  w <~ arith u64 (w + lower32) ;;
  Ok (u, w).
(** ratio:220-232 _Ratio_less, 234-237 ratio_less *)
Definition ratio_less (r1 r2 : Z * Z) : res bool :=
  let '(n1, d1) := r1 in let '(n2, d2) := r2 in
  if decide (n1 >= 0 /\ n2 >= 0) then
    a <~ big_multiply (cast u64 n1) (cast u64 d2) ;;
    b <~ big_multiply (cast u64 n2) (cast u64 d1) ;;
    Ok (big_lt a b)
  else if decide (n1 < 0 /\ n2 < 0) then
    m2 <~ arith s64 (- n2) ;;
    a <~ big_multiply (cast u64 m2) (cast u64 d1) ;;
    m1 <~ arith s64 (- n1) ;;
    b <~ big_multiply (cast u64 m1) (cast u64 d2) ;;
    Ok (big_lt a b)
  else Ok (bool_decide (n1 < n2)).
