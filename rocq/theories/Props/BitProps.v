(** C17: <bit>. Every implementation the library may select (portable fallback, lzcnt/tzcnt/popcnt, bsr/bsf on 64- and
    32-bit builds, ARM64) is covered by [clz_impl], [ctz_impl], [pop_impl]; the CPU instructions themselves are given by
    their documented meaning. [std_uint t]: t is one of the unsigned 8/16/32/64-bit types; [in_t t v]: v is a value of t. *)
From stdpp Require Import base numbers list list_numbers.
From Coq Require Import ZArith Lia.
From Verif Require Import Base.Res Base.Int Num.BitModel Num.BitSpec Num.BitProofs Num.BitProofs2 Num.ByteswapProofs.
Open Scope Z_scope.

Theorem C17_countl_zero : forall clz t v, clz_impl clz -> std_uint t -> in_t t v ->
  exists r, clz t v = Ok r /\ is_clz (wd t) v r.
Proof.
  intros clz t v Hc Ht Hv. rewrite (clz_impl_eq clz) by done. eexists. split; [done|]. destruct Ht as [Ht Hs]. pose proof (wd_pos t Ht).
  apply in_u in Hv; [|done]. apply bitlen_clz; [lia|done].
Qed.
Theorem C17_countr_zero : forall ctz t v, ctz_impl ctz -> std_uint t -> in_t t v ->
  exists r, ctz t v = Ok r /\ is_ctz (wd t) v r.
Proof. intros. apply wp_exists. by apply ctz_impl_ok. Qed.
Theorem C17_countl_one : forall clz t v, clz_impl clz -> std_uint t -> in_t t v ->
  exists r, countl_one clz t v = Ok r /\ is_clo (wd t) v r.
Proof.
  intros clz t v Hc Ht Hv. pose proof Ht as [Ht' Hs]. pose proof (wd_pos t Ht') as Hw. unfold countl_one.
  destruct (C17_countl_zero clz t (cast t (bnot t v)) Hc Ht) as (r & -> & H1 & H2 & H3); [apply cast_range; lia|].
  exists r. split; [done|]. split; [done|]. split.
  - intros i Hi. specialize (H2 i Hi). rewrite cast_bnot in H2 by (done || lia).
    destruct (i <? wd t) eqn:E; [|lia]. simpl in H2. by destruct (Z.testbit v i).
  - intros Hr. specialize (H3 Hr). rewrite cast_bnot in H3 by (done || lia).
    destruct (wd t - 1 - r <? wd t) eqn:E; [|lia]. simpl in H3. by destruct (Z.testbit v _).
Qed.
Theorem C17_countr_one : forall ctz t v, ctz_impl ctz -> std_uint t -> in_t t v ->
  exists r, countr_one ctz t v = Ok r /\ is_cto (wd t) v r.
Proof.
  intros ctz t v Hc Ht Hv. pose proof Ht as [Ht' Hs]. pose proof (wd_pos t Ht') as Hw. unfold countr_one.
  destruct (C17_countr_zero ctz t (cast t (bnot t v)) Hc Ht) as (r & -> & H1 & H2 & H3); [apply cast_range; lia|].
  exists r. split; [done|]. split; [done|]. split.
  - intros i Hi. specialize (H2 i Hi). rewrite cast_bnot in H2 by (done || lia).
    destruct (i <? wd t) eqn:E; [|lia]. simpl in H2. by destruct (Z.testbit v i).
  - intros Hr. specialize (H3 Hr). rewrite cast_bnot in H3 by (done || lia).
    destruct (r <? wd t) eqn:E; [|lia]. simpl in H3. by destruct (Z.testbit v _).
Qed.
Theorem C17_popcount : forall f t v, pop_impl f -> std_uint t -> in_t t v -> f t v = Ok (ones (wd t) v).
Proof. exact pop_impl_ok. Qed.
Theorem C17_has_single_bit : forall t v, std_uint t -> in_t t v ->
  exists b, has_single_bit t v = Ok b /\ (b = true <-> is_pow2 v).
Proof. intros. apply wp_exists. by apply has_single_bit_ok. Qed.
(** number of bits needed: the least r with v < 2^r *)
Theorem C17_bit_width : forall clz t v, clz_impl clz -> std_uint t -> in_t t v ->
  exists r, bit_width clz t v = Ok r /\ 0 <= r /\ forall k, 0 <= k -> (v < 2 ^ k <-> r <= k).
Proof.
  intros clz t v Hc Ht Hv. rewrite bit_width_ok by done. eexists. split; [done|]. split; [apply bitlen_nonneg|].
  intros k Hk. symmetry. apply bitlen_bound; [|done]. destruct Ht as [_ Hs]. apply in_u in Hv; [lia|done].
Qed.
(** the greatest power of two not above v; 0 for 0 *)
Theorem C17_bit_floor : forall clz t v, clz_impl clz -> std_uint t -> in_t t v ->
  exists r, bit_floor clz t v = Ok r /\ (v = 0 -> r = 0) /\
    (v <> 0 -> is_pow2 r /\ r <= v /\ forall q, is_pow2 q -> q <= v -> q <= r).
Proof.
  intros clz t v Hc Ht Hv. rewrite bit_floor_ok by done. eexists. split; [done|]. destruct Ht as [_ Hs]. apply in_u in Hv; [|done].
  case_decide as D; [done|]. split; [done|]. intros _. destruct (bitlen_le v ltac:(lia)) as [H1 H2].
  split; [exists (bitlen v - 1); split; [lia|done]|]. split; [lia|]. intros q (k & Hk & ->) Hq.
  apply Z.pow_le_mono_r; [lia|]. destruct (decide (k <= bitlen v - 1)); [done|].
  assert (2 ^ bitlen v <= 2 ^ k) by (apply Z.pow_le_mono_r; lia). lia.
Qed.
(** the least power of two not below v, whenever it is representable *)
Theorem C17_bit_ceil : forall clz t v, clz_impl clz -> std_uint t -> in_t t v -> v <= 2 ^ (wd t - 1) ->
  exists r, bit_ceil clz t v = Ok r /\ is_pow2 r /\ v <= r /\ forall q, is_pow2 q -> v <= q -> r <= q.
Proof.
  intros clz t v Hc Ht Hv Hle. rewrite bit_ceil_ok by done. eexists. split; [done|]. destruct Ht as [_ Hs]. apply in_u in Hv; [|done].
  case_decide as D.
  - split; [exists 0; split; [lia|done]|]. split; [done|]. intros q (k & Hk & ->) Hq. pose proof (pow2_pos k Hk). lia.
  - destruct (bitlen_le (v - 1) ltac:(lia)) as [H1 H2]. split; [exists (bitlen (v - 1)); split; [lia|done]|]. split; [lia|].
    intros q (k & Hk & ->) Hq. apply Z.pow_le_mono_r; [lia|]. apply bitlen_bound; lia.
Qed.
(** rotation by any int, also negative *)
Theorem C17_rotl : forall t v k, std_uint t -> in_t t v ->
  exists r, rotl t v k = Ok r /\ in_t t r /\ forall i, 0 <= i < wd t -> Z.testbit r i = Z.testbit v ((i - k) mod wd t).
Proof. intros. apply wp_exists. by apply rotl_bits. Qed.
Theorem C17_rotr : forall t v k, std_uint t -> in_t t v ->
  exists r, rotr t v k = Ok r /\ in_t t r /\ forall i, 0 <= i < wd t -> Z.testbit r i = Z.testbit v ((i + k) mod wd t).
Proof. intros. apply wp_exists. by apply rotr_bits. Qed.
(** signed and unsigned types *)
Theorem C17_byteswap : forall t v, std_ity t -> in_t t v ->
  exists r, byteswap t v = Ok r /\ in_t t r /\ forall i, 0 <= i < wd t / 8 -> byte r i = byte v (wd t / 8 - 1 - i).
Proof. intros. apply wp_exists. by apply byteswap_bytes. Qed.

Example C17_sat : std_uint u16 /\ in_t u16 0x1234 /\ countl_zero_fallback u16 0x1234 = Ok 3 /\ countr_zero_bsf false u16 0 = Ok 16 /\
  popcount_fallback u64 0xF0F0F0F0F0F0F0F1 = Ok 33 /\ rotl u8 0x81 (-9) = Ok 0xC0 /\ byteswap s32 (-2) = Ok (-16777217) /\
  bit_ceil (countl_zero_bsr false) u64 (2 ^ 40 + 1) = Ok (2 ^ 41).
Proof.
  split; [split; [right; left; done|done]|]. split; [vm_compute; split; discriminate|]. vm_compute. done.
Qed.
Print Assumptions C17_countl_zero.
Print Assumptions C17_countr_zero.
Print Assumptions C17_countl_one.
Print Assumptions C17_countr_one.
Print Assumptions C17_popcount.
Print Assumptions C17_has_single_bit.
Print Assumptions C17_bit_width.
Print Assumptions C17_bit_floor.
Print Assumptions C17_bit_ceil.
Print Assumptions C17_rotl.
Print Assumptions C17_rotr.
Print Assumptions C17_byteswap.
