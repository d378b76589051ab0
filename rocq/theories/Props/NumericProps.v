(** C13: gcd, lcm; C14: midpoint. [std_ity t]: t is a signed or unsigned 8/16/32/64-bit type, [in_t t v]: v is one of its
    values, [tmax t] its maximum. [Z.gcd]/[Z.lcm] are the mathematical functions on integers of any sign. *)
From stdpp Require Import base numbers list.
From Coq Require Import ZArith Lia.
From Verif Require Import Base.Res Base.Int Num.BitModel Num.BitProofs Num.GcdModel Num.GcdProofs.
Open Scope Z_scope.

(** for every countr_zero implementation, with and without the debug checks, for any two argument types *)
Theorem C13_gcd : forall ctz verify t1 t2 m n, ctz_impl ctz -> std_ity t1 -> std_ity t2 -> in_t t1 m -> in_t t2 n ->
  Z.abs m <= tmax (common_type t1 t2) -> Z.abs n <= tmax (common_type t1 t2) ->
  gcd ctz verify t1 t2 m n = Ok (Z.gcd m n).
Proof. exact gcd_ok. Qed.
Theorem C13_lcm : forall ctz verify t1 t2 m n, ctz_impl ctz -> std_ity t1 -> std_ity t2 -> in_t t1 m -> in_t t2 n ->
  Z.abs m <= tmax (common_type t1 t2) -> Z.abs n <= tmax (common_type t1 t2) -> Z.lcm m n <= tmax (common_type t1 t2) ->
  lcm ctz verify t1 t2 m n = Ok (Z.lcm m n).
Proof. exact lcm_ok. Qed.
(** the checked build rejects exactly the calls whose lcm is not representable *)
Theorem C13_lcm_checked : forall ctz t1 t2 m n r, ctz_impl ctz -> std_ity t1 -> std_ity t2 -> in_t t1 m -> in_t t2 n ->
  Z.abs m <= tmax (common_type t1 t2) -> Z.abs n <= tmax (common_type t1 t2) ->
  lcm ctz true t1 t2 m n = Ok r -> r = Z.lcm m n /\ Z.lcm m n <= tmax (common_type t1 t2).
Proof.
  intros ctz t1 t2 m n r Hc H1 H2 Hm Hn Hm' Hn' Hr.
  destruct (decide (Z.lcm m n <= tmax (common_type t1 t2))) as [Hl|Hl].
  { rewrite lcm_ok in Hr by done. by injection Hr as <-. }
  exfalso. revert Hr. pose proof (common_type_std t1 t2 H1 H2) as HC. unfold lcm. cbv zeta.
  remember (common_type t1 t2) as c eqn:Ec. clear Ec. destruct (tmax_bound c HC) as (Hb & Hmin & Hmin0).
  assert (HU : std_uint (make_unsigned c)) by (by apply make_unsigned_uint). remember (make_unsigned c) as u eqn:Eu.
  assert (Hwu : wd u = wd c) by (by subst u). destruct HU as [HU Hus].
  rewrite !abs_u_ok by done. cbn [rbind]. rewrite !cast_u_id by (done || rewrite Hwu; lia).
  case_decide as D.
  { destruct D as [D|D]; [assert (m = 0) as -> by lia|assert (n = 0) as -> by lia]; rewrite ?Z.lcm_0_l, ?Z.lcm_0_r in Hl; lia. }
  assert (Hcu : common_type u u = u) by (unfold common_type; by rewrite decide_True).
  assert (Hmu : tmax u = 2 ^ wd c - 1) by (unfold tmax; by rewrite Hus, Hwu).
  assert (Hiu : forall z, 0 <= z < 2 ^ wd c -> in_t u z). { intros z Hz. apply in_u; [done|]. by rewrite Hwu. }
  rewrite (gcd_ok ctz true u u); [|done|done|done|apply Hiu; lia|apply Hiu; lia|rewrite Hcu, Hmu, Z.abs_involutive; lia|rewrite Hcu, Hmu, Z.abs_involutive; lia].
  rewrite Z.gcd_abs_l, Z.gcd_abs_r. cbn [rbind negb].
  destruct (lcm_eq m n ltac:(lia) ltac:(lia)) as (El & Hg & Hd). rewrite decide_False by lia.
  assert (Hq : 0 < Z.abs m / Z.gcd m n <= Z.abs m).
  { split; [|apply Z.div_le_upper_bound; nia]. apply Z.div_str_pos. split; [lia|]. apply Z.divide_pos_le; [lia|done]. }
  rewrite cast_u_id by (done || rewrite Hwu; lia). unfold mul_overflow_u. case_decide as D2; [done|].
  assert (Hp : Z.lcm m n < 2 ^ wd c).
  { rewrite El. rewrite Hmu in D2. assert (D3 : Z.abs n <= (2 ^ wd c - 1) / (Z.abs m / Z.gcd m n)).
    { destruct (decide (Z.abs n > (2 ^ wd c - 1) / (Z.abs m / Z.gcd m n))); [|lia]. exfalso. apply D2. split; [lia|done]. }
    pose proof (Z.mul_div_le (2 ^ wd c - 1) (Z.abs m / Z.gcd m n) ltac:(lia)). nia. }
  rewrite <-El. pose proof (Z.lcm_nonneg m n) as Hl0.
  rewrite BitProofs.arith_promote_small by (done || rewrite Hwu; lia). cbn [rbind]. rewrite cast_u_id by (done || rewrite Hwu; lia).
  unfold in_range. rewrite Hmu. rewrite (bool_decide_true (2 ^ wd c - 1 > tmax c)) by lia. rewrite (bool_decide_true (Z.lcm m n > tmax c)) by lia.
  destruct (_ && bool_decide (Z.lcm m n < tmin c)); done.
Qed.

(** a plus half the difference, truncated (Z.quot) so that rounding goes toward a *)
Theorem C14_midpoint : forall t a b, std_ity t -> in_t t a -> in_t t b -> midpoint t a b = Ok (a + Z.quot (b - a) 2).
Proof. exact midpoint_ok. Qed.
(** pointers as element indices into one array whose length fits ptrdiff_t *)
Theorem C14_midpoint_ptr : forall a b, in_t s64 (b - a) -> in_t s64 (a - b) -> midpoint_ptr a b = Ok (a + Z.quot (b - a) 2).
Proof. exact midpoint_ptr_ok. Qed.
(** the same in words: between the arguments and at most half a unit off the exact middle, on a's side *)
Theorem C14_midpoint_between : forall t a b, std_ity t -> in_t t a -> in_t t b ->
  exists r, midpoint t a b = Ok r /\ Z.min a b <= r <= Z.max a b /\
    (a <= b -> 0 <= (a + b) - 2 * r <= 1) /\ (b <= a -> 0 <= 2 * r - (a + b) <= 1).
Proof.
  intros t a b Ht Ha Hb. rewrite midpoint_ok by done. eexists. split; [done|].
  destruct (decide (a > b)) as [D|D]; [rewrite quot_neg by done|rewrite quot_nonneg by done].
  - pose proof (Z.div_mod (a - b) 2 ltac:(lia)). pose proof (Z.mod_pos_bound (a - b) 2 ltac:(lia)). lia.
  - pose proof (Z.div_mod (b - a) 2 ltac:(lia)). pose proof (Z.mod_pos_bound (b - a) 2 ltac:(lia)). lia.
Qed.

Example C13_sat : std_ity s16 /\ std_ity u32 /\ in_t s16 (-12) /\ in_t u32 400 /\ Z.abs 400 <= tmax (common_type s16 u32) /\
  gcd (countr_zero_bsf false) true s16 u32 (-12) 400 = Ok 4 /\ lcm countr_zero_fallback true s32 s64 (-6) 4 = Ok 12 /\
  lcm countr_zero_fallback true s16 s16 30000 29999 = UB.
Proof. vm_compute. repeat split; try discriminate; auto. Qed.
Example C14_sat : in_t s32 (-2147483648) /\ midpoint s32 (-2147483648) 2147483647 = Ok (-1) /\ midpoint s32 2147483647 (-2147483648) = Ok 0 /\
  midpoint u8 255 0 = Ok 128.
Proof. vm_compute. repeat split; discriminate. Qed.
Print Assumptions C13_gcd.
Print Assumptions C13_lcm.
Print Assumptions C13_lcm_checked.
Print Assumptions C14_midpoint.
Print Assumptions C14_midpoint_ptr.
Print Assumptions C14_midpoint_between.
