(** C16: 128-bit integer arithmetic. The value of a 128-bit object is [uval] (as unsigned) or [sval] (as two's complement
    signed); [wrapu]/[wraps] reduce an integer to the corresponding range; see Num/Int128Spec.v. The flags [intr] and
    [dintr] select between the algorithms for targets with and without 128-bit intrinsics: every statement holds for both. *)
From stdpp Require Import base numbers list.
From Coq Require Import ZArith Lia.
From Verif Require Import Base.Res Base.Arr Base.Int Cont.BitsetModel Num.Int128Model Num.Int128Spec Num.Int128Proofs Num.Int128Proofs2 Num.Int128Proofs3
  Num.Int128Proofs4 Num.Int128Proofs5 Num.Int128Proofs6 Num.Int128Proofs7 Num.Int128Proofs8 Num.Int128Proofs9.
Open Scope Z_scope.
Ltac Zify.zify_post_hook ::= idtac.

(** every 128-bit pattern has one unsigned and one signed value, and every value in range has a pattern *)
Theorem C16_values_are_exact (x y : Z * Z) :
  ok128 x -> ok128 y -> 0 <= uval x < 2 ^ 128 /\ - 2 ^ 127 <= sval x < 2 ^ 127 /\ sval x = wraps (uval x) /\ (uval x = uval y -> x = y).
Proof.
  intros Hx Hy. split; [by apply uval_range|]. split; [by apply sval_range|]. split; [|by apply uval_inj].
  apply sval_of_uval; [done|]. exists 0. lia.
Qed.

(** addition, subtraction, negation, complement, increment, decrement: exact modulo 2^128, signed and unsigned *)
Theorem C16_add_sub (x y : Z * Z) : ok128 x -> ok128 y ->
  (ok128 (add128 x y) /\ uval (add128 x y) = wrapu (uval x + uval y) /\ sval (add128 x y) = wraps (sval x + sval y)) /\
  (ok128 (sub128 x y) /\ uval (sub128 x y) = wrapu (uval x - uval y) /\ sval (sub128 x y) = wraps (sval x - sval y)).
Proof.
  intros Hx Hy. destruct (add128_ok x y Hx Hy) as [O1 V1]. destruct (sub128_ok x y Hx Hy) as [O2 V2].
  destruct (sval_cong x) as [k Ek]. destruct (sval_cong y) as [m Em].
  split; (split; [done|]; split; [done|]).
  - apply sval_of_uval; [done|]. rewrite V1. unfold wrapu. destruct (mod_cong (uval x + uval y)) as [j ->]. exists (j - k - m). lia.
  - apply sval_of_uval; [done|]. rewrite V2. unfold wrapu. destruct (mod_cong (uval x - uval y)) as [j ->]. exists (j - k + m). lia.
Qed.
Theorem C16_unary (x : Z * Z) : ok128 x ->
  (ok128 (neg128 x) /\ uval (neg128 x) = wrapu (- uval x) /\ sval (neg128 x) = wraps (- sval x)) /\
  (ok128 (not128 x) /\ uval (not128 x) = 2 ^ 128 - 1 - uval x /\ sval (not128 x) = - sval x - 1) /\
  (ok128 (incr128 x) /\ uval (incr128 x) = wrapu (uval x + 1) /\ sval (incr128 x) = wraps (sval x + 1)) /\
  (ok128 (decr128 x) /\ uval (decr128 x) = wrapu (uval x - 1) /\ sval (decr128 x) = wraps (sval x - 1)).
Proof.
  intros Hx. destruct (neg128_ok x Hx) as [O1 V1]. destruct (not128_ok x Hx) as [O2 V2]. destruct (incr128_ok x Hx) as [O3 V3]. destruct (decr128_ok x Hx) as [O4 V4].
  destruct (sval_cong x) as [k Ek]. pose proof (sval_range x Hx).
  split; [|split; [|split]]; (split; [done|]; split; [done|]).
  - apply sval_of_uval; [done|]. rewrite V1. unfold wrapu. destruct (mod_cong (- uval x)) as [j ->]. exists (j + k). lia.
  - rewrite <-(wraps_id (- sval x - 1)) by lia. apply sval_of_uval; [done|]. exists (1 + k). lia.
  - apply sval_of_uval; [done|]. rewrite V3. unfold wrapu. destruct (mod_cong (uval x + 1)) as [j ->]. exists (j - k). lia.
  - apply sval_of_uval; [done|]. rewrite V4. unfold wrapu. destruct (mod_cong (uval x - 1)) as [j ->]. exists (j - k). lia.
Qed.

(** multiplication *)
Theorem C16_multiply_unsigned (x y : Z * Z) : ok128 x -> ok128 y ->
  exists r, multiply x y = Ok r /\ ok128 r /\ uval r = wrapu (uval x * uval y).
Proof. apply multiply_ok. Qed.
Theorem C16_multiply_signed (x y : Z * Z) : ok128 x -> ok128 y ->
  exists r, smul x y = Ok r /\ ok128 r /\ sval r = wraps (sval x * sval y).
Proof. apply smul_ok. Qed.

(** division and remainder: floor on unsigned, truncation on signed; never undefined for a nonzero divisor *)
Theorem C16_divide_unsigned (intr dintr : bool) (x y : Z * Z) : ok128 x -> ok128 y -> uval y <> 0 ->
  (exists q, divide intr dintr x y = Ok q /\ ok128 q /\ uval q = uval x / uval y) /\
  (exists r, modulo intr dintr x y = Ok r /\ ok128 r /\ uval r = uval x mod uval y).
Proof. intros. split; [by apply divide_ok|by apply modulo_ok]. Qed.
Theorem C16_divide_signed (intr dintr : bool) (x y : Z * Z) : ok128 x -> ok128 y -> sval y <> 0 ->
  (exists q, sdiv intr dintr x y = Ok q /\ ok128 q /\ sval q = wraps (Z.quot (sval x) (sval y))) /\
  (exists r, smod intr dintr x y = Ok r /\ ok128 r /\ sval r = Z.rem (sval x) (sval y)).
Proof. intros. split; [by apply sdiv_ok|by apply smod_ok]. Qed.
(** division rounded up: the least integer not below the exact quotient *)
Theorem C16_div_ceil (intr dintr : bool) (x y : Z * Z) : ok128 x -> ok128 y -> uval y <> 0 ->
  exists q, div_ceil intr dintr x y = Ok q /\ ok128 q /\ (uval q - 1) * uval y < uval x <= uval q * uval y.
Proof.
  intros Hx Hy Hz. destruct (div_ceil_ok intr dintr x y Hx Hy Hz) as (q & E & O & V). exists q. pose proof (uval_pos _ Hy Hz).
  split; [done|]. split; [done|]. rewrite V, ceil_eq by done. pose proof (split_word (uval x) (uval y) ltac:(done)) as Es.
  pose proof (Z.mod_pos_bound (uval x) (uval y) ltac:(done)) as Hm. case_decide as D; lia.
Qed.
(** dividing by a built-in integer of any standard type *)
Theorem C16_divide_by_builtin (dintr : bool) (t : ity) (x : Z * Z) (den : Z) : ok128 x -> std_ity t -> in_t t den -> 0 < den ->
  (exists q, udiv_int dintr t x den = Ok q /\ ok128 q /\ uval q = uval x / den) /\
  (exists r, umod_int dintr t x den = Ok r /\ ok128 r /\ uval r = uval x mod den).
Proof. intros. split; [by apply udiv_int_ok|by apply umod_int_ok]. Qed.
(** ... signed; the divisor must not be the most negative value of its type (see [C16_min_divisor_finding]) *)
Theorem C16_divide_signed_by_builtin (dintr : bool) (t : ity) (x : Z * Z) (den : Z) :
  ok128 x -> std_ity t -> in_t t den -> den <> 0 -> (sg t = true -> den <> tmin t) ->
  exists q, sdiv_int dintr t x den = Ok q /\ ok128 q /\ sval q = wraps (Z.quot (sval x) den).
Proof. apply sdiv_int_ok. Qed.
(** the code's behaviour for those divisors: undefined for int and long long (signed overflow of [-_Den]); for short on targets
    without division intrinsics the quotient is wrong (-3 expected, 0 computed) *)
Theorem C16_min_divisor_finding :
  sdiv_int true s32 (of_int s32 100000) (- 2 ^ 31) = UB /\ sdiv_int true s64 (of_int s32 100000) (- 2 ^ 63) = UB /\
  sdiv_int false s16 (of_int s32 100000) (- 2 ^ 15) = Ok (0, 0) /\ Z.quot 100000 (- 2 ^ 15) = -3.
Proof. repeat split; vm_compute; reflexivity. Qed.

(** the digit-by-digit division algorithm, for any number of 32-bit digits: [u] (n + m + 1 digits) divided by a normalised
    [v] (n >= 2 digits) *)
Theorem C16_long_division (n m : nat) (u v vx : list Z) (q : arr Z) :
  (2 <= n)%nat -> length u = (m + n + 1)%nat -> length v = n ->
  Forall (fun d => 0 <= d < 2 ^ 32) u -> Forall (fun d => 0 <= d < 2 ^ 32) v -> 2 ^ 31 <= default 0 (last v) ->
  digits (2 ^ 32) (drop (m + 1) u) < digits (2 ^ 32) v -> (m < length q)%nat ->
  exists u' q',
    knuth (full u) (m + n + 1) (full (v ++ vx)) n q = Ok (full (u' ++ replicate (m + 1) 0), full q' ++ drop (m + 1) q) /\
    length u' = n /\ Forall (fun d => 0 <= d < 2 ^ 32) u' /\ length q' = (m + 1)%nat /\ Forall (fun d => 0 <= d < 2 ^ 32) q' /\
    digits (2 ^ 32) u' = digits (2 ^ 32) u mod digits (2 ^ 32) v /\ digits (2 ^ 32) q' = digits (2 ^ 32) u / digits (2 ^ 32) v.
Proof. apply knuth_ok. Qed.

(** shifts by less than 128 *)
Theorem C16_shifts (x c : Z * Z) : ok128 x -> ok128 c -> uval c < 128 ->
  (exists r, shl_op x c = Ok r /\ ok128 r /\ uval r = wrapu (uval x * 2 ^ uval c) /\ sval r = wraps (sval x * 2 ^ uval c)) /\
  (exists r, ushr_op x c = Ok r /\ ok128 r /\ uval r = uval x / 2 ^ uval c) /\
  (exists r, sshr_op x c = Ok r /\ ok128 r /\ sval r = sval x / 2 ^ uval c).
Proof.
  intros Hx [Hc0 Hc1] Hc. assert (E : c.2 = 0 /\ uval c = c.1) by (unfold uval in *; lia). destruct E as [_ E]. rewrite E in *.
  unfold shl_op, ushr_op, sshr_op. rewrite cast_u8_id by lia. split; [|split].
  - destruct (left_shift_ok x c.1 Hx ltac:(lia)) as (r & E1 & O & V). exists r. split; [done|]. split; [done|]. split; [done|].
    apply sval_of_uval; [done|]. rewrite V. unfold wrapu. destruct (mod_cong (uval x * 2 ^ c.1)) as [j ->]. destruct (sval_cong x) as [k ->].
    exists (j - k * 2 ^ c.1). lia.
  - apply unsigned_right_shift_ok; [done|lia].
  - apply signed_right_shift_ok; [done|lia].
Qed.

(** comparison *)
Theorem C16_compare (x y : Z * Z) : ok128 x -> ok128 y ->
  ucmp x y = (uval x ?= uval y) /\ scmp x y = (sval x ?= sval y) /\
  (eq128 x y = true <-> uval x = uval y) /\ (eq128 x y = true <-> sval x = sval y) /\
  (lt128 x y = true <-> uval x < uval y) /\ (gt128 x y = true <-> uval x > uval y) /\
  (le128 x y = true <-> uval x <= uval y) /\ (ge128 x y = true <-> uval x >= uval y).
Proof.
  intros Hx Hy. split; [by apply ucmp_ok|]. split; [by apply scmp_ok|].
  unfold gt128, ge128. rewrite eq128_ok, le128_ok, !lt128_ok by done. rewrite negb_true_iff, bool_decide_eq_false, !bool_decide_eq_true.
  destruct (sval_cong x) as [k Ek]. destruct (sval_cong y) as [m Em]. pose proof (uval_range _ Hx). pose proof (uval_range _ Hy).
  pose proof (sval_range _ Hx). pose proof (sval_range _ Hy).
  repeat split; lia.
Qed.

(** bitwise operators *)
Theorem C16_bitwise (x y : Z * Z) : ok128 x -> ok128 y ->
  (ok128 (and128 x y) /\ uval (and128 x y) = Z.land (uval x) (uval y)) /\
  (ok128 (or128 x y) /\ uval (or128 x y) = Z.lor (uval x) (uval y)) /\
  (ok128 (xor128 x y) /\ uval (xor128 x y) = Z.lxor (uval x) (uval y)).
Proof. intros. split; [by apply and128_ok|]. split; [by apply or128_ok|by apply xor128_ok]. Qed.

(** conversions from and to built-in integers *)
Theorem C16_conversions (t : ity) (v : Z) (x : Z * Z) : std_ity t -> in_t t v -> ok128 x ->
  ok128 (of_int t v) /\ uval (of_int t v) = wrapu v /\ sval (of_int t v) = v /\
  to_int t x = cast t (uval x) /\ to_int t x = cast t (sval x) /\ (to_bool x = true <-> uval x <> 0).
Proof.
  intros Ht Hv Hx. destruct (of_int_ok t v Ht Hv) as (H1 & H2 & H3). destruct (to_int_ok t x Ht Hx) as [H4 H5].
  rewrite to_bool_ok, bool_decide_eq_true by done. tauto.
Qed.

(** the hypotheses are met, and the statements mean what they say on concrete numbers: all four paths of division *)
Example C16_sat :
  let x := (12345678901234567890, 9876543210987654321) in let y := (18446744073709551615, 4294967296) in
  ok128 x /\ ok128 y /\ uval y <> 0 /\ sval y <> 0 /\
  divide true true x y = divide false false x y /\ modulo true true x y = modulo false true x y /\
  div_ceil true true x y = div_ceil false false x y /\
  (exists q, divide false false x y = Ok q /\ 2 ^ 30 < uval q) /\
  sdiv false false (of_int s32 (-7)) (of_int s32 2) = Ok (of_int s32 (-3)) /\ smod false false (of_int s32 (-7)) (of_int s32 2) = Ok (of_int s32 (-1)).
Proof.
  cbv zeta. split; [vm_compute; repeat split; congruence|]. split; [vm_compute; repeat split; congruence|].
  split; [vm_compute; congruence|]. split; [vm_compute; congruence|]. do 3 (split; [vm_compute; reflexivity|]).
  split; [|split; vm_compute; reflexivity]. eexists. split; [vm_compute; reflexivity|]. vm_compute. reflexivity.
Qed.
Example C16_long_division_sat : exists (u v : list Z), length u = (3 + 2 + 1)%nat /\ length v = 2%nat /\
  Forall (fun d => 0 <= d < 2 ^ 32) u /\ Forall (fun d => 0 <= d < 2 ^ 32) v /\ 2 ^ 31 <= default 0 (last v) /\
  digits (2 ^ 32) (drop (3 + 1) u) < digits (2 ^ 32) v.
Proof.
  exists [1; 2; 3; 4; 5; 6], [7; 2 ^ 31]. do 2 (split; [done|]). split; [repeat constructor; lia|]. split; [repeat constructor; lia|]. vm_compute. split; congruence.
Qed.

Print Assumptions C16_values_are_exact. Print Assumptions C16_add_sub. Print Assumptions C16_unary. Print Assumptions C16_multiply_unsigned.
Print Assumptions C16_multiply_signed. Print Assumptions C16_divide_unsigned. Print Assumptions C16_divide_signed. Print Assumptions C16_div_ceil.
Print Assumptions C16_divide_by_builtin. Print Assumptions C16_divide_signed_by_builtin. Print Assumptions C16_min_divisor_finding.
Print Assumptions C16_long_division. Print Assumptions C16_shifts. Print Assumptions C16_compare. Print Assumptions C16_bitwise. Print Assumptions C16_conversions.
