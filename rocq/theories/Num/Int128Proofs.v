(** 128-bit integers: primitives. *)
From stdpp Require Import base numbers list.
From Coq Require Import ZArith Lia.
From Verif Require Import Base.Res Base.Arr Base.Int Num.BitModel Num.BitSpec Num.BitProofs Cont.BitsetModel Cont.BitsetProofs
  Num.Int128Model Num.Int128Spec.
Open Scope Z_scope.
Ltac Zify.zify_post_hook ::= idtac.

Notation B := (2 ^ 32) (only parsing).
Lemma w64_mod z : w64 z = z mod 2 ^ 64. Proof. reflexivity. Qed.
Lemma w32_mod z : w32 z = z mod 2 ^ 32. Proof. reflexivity. Qed.
Lemma w64_id z : 0 <= z < 2 ^ 64 -> w64 z = z.
Proof. intros. rewrite w64_mod. by apply Z.mod_small. Qed.
Lemma w32_id z : 0 <= z < 2 ^ 32 -> w32 z = z.
Proof. intros. rewrite w32_mod. by apply Z.mod_small. Qed.
Lemma w64_range z : 0 <= w64 z < 2 ^ 64. Proof. rewrite w64_mod. apply Z.mod_pos_bound. lia. Qed.
Lemma w32_range z : 0 <= w32 z < 2 ^ 32. Proof. rewrite w32_mod. apply Z.mod_pos_bound. lia. Qed.

Lemma shl64 a k : 0 <= k < 64 -> shl u64 a k = Ok ((a * 2 ^ k) mod 2 ^ 64).
Proof. intros. unfold shl. cbv zeta. change (promote u64) with u64. cbn [wd u64]. by rewrite decide_True. Qed.
Lemma shr64 a k : 0 <= k < 64 -> shr u64 a k = Ok (a / 2 ^ k).
Proof. intros. apply shr_ok. done. Qed.
Lemma shr32 a k : 0 <= k < 32 -> shr u32 a k = Ok (a / 2 ^ k).
Proof. intros. apply shr_ok. done. Qed.
Lemma shrs64 a k : 0 <= k < 64 -> shr s64 a k = Ok (a / 2 ^ k).
Proof. intros. apply shr_ok. done. Qed.
Lemma udiv_ok a b : b <> 0 -> udiv a b = Ok (a / b).
Proof. intros. unfold udiv. by rewrite decide_False. Qed.
Lemma umod_ok a b : b <> 0 -> umod a b = Ok (a mod b).
Proof. intros. unfold umod. by rewrite decide_False. Qed.
Lemma arith_s64 z : - 2 ^ 63 <= z < 2 ^ 63 -> arith s64 z = Ok z.
Proof. intros H. unfold arith. cbn [sg s64]. rewrite decide_True; [done|]. unfold in_t, tmin, tmax. cbn [sg wd s64]. lia. Qed.
Lemma cast_s64_id z : - 2 ^ 63 <= z < 2 ^ 63 -> cast s64 z = z.
Proof. intros. apply cast_id; [simpl; lia|]. unfold in_t, tmin, tmax. cbn [sg wd s64]. lia. Qed.

(** joining disjoint bit fields *)
Lemma lor_join a b k : 0 <= k -> 0 <= b < 2 ^ k -> Z.lor (a * 2 ^ k) b = a * 2 ^ k + b.
Proof.
  intros Hk Hb. symmetry. assert (E : Z.land (a * 2 ^ k) b = 0).
  { apply Z.bits_inj'. intros n Hn. rewrite Z.land_spec, Z.bits_0.
    destruct (decide (n < k)).
    - by rewrite Z.mul_pow2_bits_low.
    - rewrite (testbit_high k b n Hb ltac:(lia)). apply andb_false_r. }
  rewrite <-Z.lxor_lor by done. by apply Z.add_nocarry_lxor.
Qed.
Lemma lor_join' a b k : 0 <= k -> 0 <= b < 2 ^ k -> Z.lor b (a * 2 ^ k) = a * 2 ^ k + b.
Proof. intros. rewrite Z.lor_comm. by apply lor_join. Qed.
(** [(a << 32) | b] on 64-bit words *)
Lemma lor32 a b : 0 <= b < 2 ^ 32 -> 0 <= a < 2 ^ 32 -> Z.lor ((a * 2 ^ 32) mod 2 ^ 64) b = a * 2 ^ 32 + b.
Proof. intros. rewrite Z.mod_small by lia. by apply lor_join. Qed.

Lemma join_range a b x y : 0 < x -> 0 <= a < y -> 0 <= b < x -> 0 <= a * x + b < y * x.
Proof. nia. Qed.
Lemma mul_range a b x y : 0 <= a < x -> 0 <= b < y -> 0 <= a * b <= (x - 1) * (y - 1).
Proof. nia. Qed.

(** splitting a word *)
Lemma split_word x k : 0 < k -> x = k * (x / k) + x mod k. Proof. intros. by apply Z.div_mod; lia. Qed.

Lemma divmod_eq x k q r : x = k * q + r -> 0 <= r < k -> x / k = q /\ x mod k = r.
Proof.
  intros E Hr. split.
  - symmetry. apply (Z.div_unique x k q r); [by left|done].
  - symmetry. apply (Z.mod_unique x k q r); [by left|done].
Qed.

Lemma rassert_true b : b = true -> rassert b = Ok tt. Proof. by intros ->. Qed.

Lemma add_carry64_ok c a b : 0 <= c <= 1 -> 0 <= a < 2 ^ 64 -> 0 <= b < 2 ^ 64 ->
  add_carry64 c a b = ((a + b + c) mod 2 ^ 64, (a + b + c) / 2 ^ 64).
Proof.
  intros Hc Ha Hb. unfold add_carry64. cbv zeta. rewrite !w64_mod. rewrite Zplus_mod_idemp_l.
  pose proof (Z.div_mod (a + b + c) (2 ^ 64) ltac:(lia)) as E. pose proof (Z.mod_pos_bound (a + b + c) (2 ^ 64) ltac:(lia)) as Hm.
  assert (Hq : 0 <= (a + b + c) / 2 ^ 64 <= 1). { split; [apply Z.div_pos; lia|]. assert ((a + b + c) / 2 ^ 64 < 2); [|lia]. apply Z.div_lt_upper_bound; lia. }
  set (s := (a + b + c) mod 2 ^ 64) in *. set (q := (a + b + c) / 2 ^ 64) in *. f_equal.
  case_decide; case_bool_decide; unfold b2z; lia.
Qed.
Lemma sub_borrow64_ok c a b : 0 <= c <= 1 -> 0 <= a < 2 ^ 64 -> 0 <= b < 2 ^ 64 ->
  sub_borrow64 c a b = ((a - b - c) mod 2 ^ 64, - ((a - b - c) / 2 ^ 64)).
Proof.
  intros Hc Ha Hb. unfold sub_borrow64. cbv zeta. rewrite !w64_mod. rewrite Zminus_mod_idemp_l.
  pose proof (Z.div_mod (a - b - c) (2 ^ 64) ltac:(lia)) as E. pose proof (Z.mod_pos_bound (a - b - c) (2 ^ 64) ltac:(lia)) as Hm.
  assert (Hq : -1 <= (a - b - c) / 2 ^ 64 <= 0). { split; [apply Z.div_le_lower_bound; lia|]. assert ((a - b - c) / 2 ^ 64 < 1); [|lia]. apply Z.div_lt_upper_bound; lia. }
  set (s := (a - b - c) mod 2 ^ 64) in *. set (q := (a - b - c) / 2 ^ 64) in *. f_equal.
  case_decide; case_bool_decide; unfold b2z; lia.
Qed.

Lemma umul128_ok a b : 0 <= a < 2 ^ 64 -> 0 <= b < 2 ^ 64 ->
  umul128 a b = Ok ((a * b) mod 2 ^ 64, a * b / 2 ^ 64).
Proof.
  intros Ha Hb. unfold umul128. cbv zeta. repeat (rewrite shr64 by lia; rewrite rbind_ok). rewrite shl64 by lia. rewrite rbind_ok.
  assert (Hah : 0 <= a / 2 ^ 32 < 2 ^ 32). { split; [apply Z.div_pos; lia|]. apply Z.div_lt_upper_bound; lia. }
  assert (Hbh : 0 <= b / 2 ^ 32 < 2 ^ 32). { split; [apply Z.div_pos; lia|]. apply Z.div_lt_upper_bound; lia. }
  pose proof (Z.mod_pos_bound a (2 ^ 32) ltac:(lia)) as Hal. pose proof (Z.mod_pos_bound b (2 ^ 32) ltac:(lia)) as Hbl.
  pose proof (split_word a (2 ^ 32) ltac:(lia)) as Ea. pose proof (split_word b (2 ^ 32) ltac:(lia)) as Eb.
  rewrite (w32_mod a), (w32_mod b), (w32_id (a / 2 ^ 32)), (w32_id (b / 2 ^ 32)) by lia.
  set (ah := a / 2 ^ 32) in *. set (bh := b / 2 ^ 32) in *. set (al := a mod 2 ^ 32) in *. set (bl := b mod 2 ^ 32) in *.
  clearbody ah bh al bl.
  pose proof (mul_range al bl _ _ Hal Hbl) as H00. pose proof (mul_range al bh _ _ Hal Hbh) as H01.
  pose proof (mul_range ah bl _ _ Hah Hbl) as H10. pose proof (mul_range ah bh _ _ Hah Hbh) as H11.
  rewrite (w64_id (al * bl)), (w64_id (al * bh)), (w64_id (ah * bl)), (w64_id (ah * bh)) by lia.
  set (p00 := al * bl) in *. set (p01 := al * bh) in *. set (p10 := ah * bl) in *. set (p11 := ah * bh) in *.
  assert (Ep : a * b = 2 ^ 64 * p11 + 2 ^ 32 * (p01 + p10) + p00). { rewrite Ea, Eb. unfold p00, p01, p10, p11. ring. }
  clearbody p00 p01 p10 p11.
  assert (Hd : forall x, 0 <= x < 2 ^ 64 -> 0 <= x / 2 ^ 32 < 2 ^ 32). { intros x Hx. split; [apply Z.div_pos; lia|]. apply Z.div_lt_upper_bound; lia. }
  pose proof (Hd p00 ltac:(lia)) as Hd0. rewrite (w32_id (p00 / 2 ^ 32)), (w32_mod p00) by lia.
  pose proof (split_word p00 (2 ^ 32) ltac:(lia)) as E0. pose proof (Z.mod_pos_bound p00 (2 ^ 32) ltac:(lia)) as Hm0.
  set (p00h := p00 / 2 ^ 32) in *. set (p00l := p00 mod 2 ^ 32) in *. clearbody p00h p00l.
  rewrite (w64_id (p10 + p00h)) by lia.
  pose proof (Hd (p10 + p00h) ltac:(lia)) as Hd1. rewrite (w32_id ((p10 + p00h) / 2 ^ 32)), (w32_mod (p10 + p00h)) by lia.
  pose proof (split_word (p10 + p00h) (2 ^ 32) ltac:(lia)) as E1. pose proof (Z.mod_pos_bound (p10 + p00h) (2 ^ 32) ltac:(lia)) as Hm1.
  set (m1h := (p10 + p00h) / 2 ^ 32) in *. set (m1l := (p10 + p00h) mod 2 ^ 32) in *. clearbody m1h m1l.
  rewrite (w64_id (p01 + m1l)) by lia.
  pose proof (Hd (p01 + m1l) ltac:(lia)) as Hd2. rewrite (w32_id ((p01 + m1l) / 2 ^ 32)), (w32_mod (p01 + m1l)) by lia.
  pose proof (split_word (p01 + m1l) (2 ^ 32) ltac:(lia)) as E2. pose proof (Z.mod_pos_bound (p01 + m1l) (2 ^ 32) ltac:(lia)) as Hm2.
  set (m2h := (p01 + m1l) / 2 ^ 32) in *. set (m2l := (p01 + m1l) mod 2 ^ 32) in *. clearbody m2h m2l.
  rewrite lor32 by lia. rewrite (w64_id (p11 + m1h)), w64_id by lia.
  assert (E : a * b = 2 ^ 64 * (p11 + m1h + m2h) + (m2l * 2 ^ 32 + p00l)) by lia.
  assert (Hr : 0 <= m2l * 2 ^ 32 + p00l < 2 ^ 64) by lia.
  destruct (divmod_eq _ _ _ _ E Hr) as [-> ->]. done.
Qed.

(** * One digit of Knuth's algorithm D, on numbers.
    [b] is the base; the divisor is [V = (v1 b + v2) P + v0], the leading part of the dividend is
    [U = ((uh b + ul) b + u2) P + u0] with [P] the weight of the digits below. *)
Section knuth_math.
  Context (b P v1 v2 v0 two u2 u0 : Z).
  Hypothesis Hb : 2 <= b.
  Hypothesis HP : 0 < P.
  Hypothesis Hv1 : 0 < v1 < b.
  Hypothesis Hv2 : 0 <= v2 < b.
  Hypothesis Hv0 : 0 <= v0 < P.
  Hypothesis Htwo : 0 <= two.
  Hypothesis Hu2 : 0 <= u2 < b.
  Hypothesis Hu0 : 0 <= u0 < P.
  Let V := (v1 * b + v2) * P + v0.
  Let U := (two * b + u2) * P + u0.
  Hypothesis HU : U < V * b.
  Let q := U / V.

  Lemma km_V : 0 < V. Proof. unfold V. nia. Qed.
  Lemma km_q : 0 <= q < b /\ q * V <= U < (q + 1) * V.
  Proof.
    pose proof km_V. assert (0 <= U) by (unfold U; nia). unfold q. split.
    - split; [apply Z.div_pos; lia|]. apply Z.div_lt_upper_bound; lia.
    - pose proof (Z.div_mod U V ltac:(lia)). pose proof (Z.mod_pos_bound U V ltac:(lia)). nia.
  Qed.
  (** the estimate is at most one too large for [two] *)
  Lemma km_two : two < (v1 + 1) * b.
  Proof.
    destruct (Z.lt_ge_cases two ((v1 + 1) * b)) as [|H]; [done|exfalso].
    assert (V <= (v1 + 1) * b * P - 0). { unfold V. nia. }
    assert (two * b * P <= U) by (unfold U; nia).
    assert ((v1 + 1) * b * b * P <= two * b * P) by nia. nia.
  Qed.
  Lemma km_init : q <= two / v1.
  Proof.
    pose proof km_q as [Hq [Hq1 _]]. apply Z.div_le_lower_bound; [lia|].
    assert (q * (v1 * b * P) <= q * V). { unfold V. nia. }
    assert (U < (two + 1) * b * P). { unfold U. nia. }
    assert (q * v1 * (b * P) < (two + 1) * (b * P)) as HH by nia.
    apply Z.mul_lt_mono_pos_r in HH; [lia|nia].
  Qed.
  (** a failed test means the estimate is too large *)
  Lemma km_dec qhat rhat : q <= qhat -> two = qhat * v1 + rhat -> rhat * b + u2 < qhat * v2 -> q <= qhat - 1.
  Proof.
    intros H1 H2 H3. destruct (Z.eq_dec q qhat) as [E|]; [exfalso|lia].
    pose proof km_q as [Hq [Hq1 _]].
    assert (qhat * ((v1 * b + v2) * P) <= q * V). { unfold V. rewrite E. nia. }
    assert (U < (two * b + u2 + 1) * P). { unfold U. nia. }
    assert ((qhat * (v1 * b + v2)) * P < (two * b + u2 + 1) * P) as HH by nia.
    apply Z.mul_lt_mono_pos_r in HH; [|done]. nia.
  Qed.
  (** an estimate passing the test is at most one too large *)
  Lemma km_exit qhat rhat : 0 <= qhat < b -> two = qhat * v1 + rhat -> qhat * v2 <= rhat * b + u2 -> qhat <= q + 1.
  Proof.
    intros H0 H2 H3. pose proof km_V as HV. pose proof km_q as [Hq [_ Hq2]].
    assert (qhat * (v1 * b + v2) <= two * b + u2) as H by nia.
    assert (qhat * V < U + V) as H4.
    { assert (qhat * V = qhat * (v1 * b + v2) * P + qhat * v0) as -> by (unfold V; ring).
      assert (qhat * (v1 * b + v2) * P <= (two * b + u2) * P) by nia.
      assert (qhat * v0 <= (b - 1) * P) by (apply Z.mul_le_mono_nonneg; lia).
      assert (1 * (b * P) <= v1 * (b * P)) by (apply Z.mul_le_mono_nonneg_r; [apply Z.mul_nonneg_nonneg; lia|lia]).
      assert (0 <= v2 * P) by (apply Z.mul_nonneg_nonneg; lia). unfold U, V. lia. }
    assert (qhat * V < (q + 2) * V) as H5 by lia. apply Z.mul_lt_mono_pos_r in H5; lia.
  Qed.
  Lemma km_exit_big qhat rhat : 0 <= qhat -> two = qhat * v1 + rhat -> b <= rhat -> 0 <= qhat < b /\ qhat <= q + 1.
  Proof.
    intros H0 H2 H3. pose proof km_two as Ht. assert (Hlt : qhat < b).
    { assert (qhat * v1 < b * v1) as H by nia. apply Z.mul_lt_mono_pos_r in H; lia. }
    split; [lia|]. eapply km_exit; [lia|done|]. nia.
  Qed.
End knuth_math.
