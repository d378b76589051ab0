(** linear_congruential_engine computes (a x + c) mod m. *)
From stdpp Require Import base list numbers.
From Coq Require Import ZArith Lia Znumtheory.
From Verif Require Num.Int128Proofs.
From Verif Require Import Base.Res Base.Int Rand.LcgModel Rand.LcgSpec.
Local Open Scope Z_scope.

Lemma cast_u t x : sg t = false -> cast t x = x mod 2 ^ wd t.
Proof. unfold cast. by intros ->. Qed.
Lemma land_mersenne x : Z.land x 2147483647 = x mod 2 ^ 31.
Proof. change 2147483647 with (Z.ones 31). by rewrite Z.land_ones. Qed.
Lemma fold31_ok x y : 0 <= x < 2147483647 -> 0 <= y < 2147483647 ->
  fold31 2147483647 (cast u64 (x * y)) = (x * y) mod 2147483647 /\ 0 <= (x * y) mod 2147483647 < 2147483647.
Proof.
  intros Hx Hy. assert (H0 : 0 <= x * y <= 2147483646 * 2147483646) by nia.
  unfold fold31. rewrite !cast_u by done. change (wd u64) with 64. set (p := x * y) in *.
  rewrite (Z.mod_small p) by lia. rewrite land_mersenne.
  pose proof (Z.div_mod p (2 ^ 31) ltac:(lia)) as Hd. pose proof (Z.mod_pos_bound p (2 ^ 31) ltac:(lia)) as Hr.
  set (h := p / 2 ^ 31) in *. set (l := p mod 2 ^ 31) in *.
  assert (Hh : 0 <= h <= 2147483644) by (split; [apply Z.div_pos; lia|]; enough (h < 2147483645) by lia; apply Z.div_lt_upper_bound; lia).
  assert (Hp : p mod 2147483647 = (h + l) mod 2147483647).
  { replace p with (h + l + h * 2147483647) by lia. by rewrite Z.mod_add by lia. }
  split; [|apply Z.mod_pos_bound; lia]. rewrite (Z.mod_small (h + l)) by lia. rewrite Hp.
  destruct (Z.ltb_spec (h + l) 2147483647); [by rewrite Z.mod_small by lia|].
  rewrite (Z.mod_small (h + l - 2147483647)) by lia. replace (h + l) with ((h + l - 2147483647) + 1 * 2147483647) at 2 by lia.
  rewrite Z.mod_add by lia. rewrite Z.mod_small; [done|]. lia.
Qed.

Lemma cast_small t x : sg t = false -> 0 <= x < 2 ^ wd t -> cast t x = x.
Proof. intros. rewrite cast_u by done. by rewrite Z.mod_small. Qed.
Lemma lp_width t a c m : lcg_params t a c m -> sg t = false /\ 16 <= wd t <= 64 /\ 0 < modulus t m <= 2 ^ wd t.
Proof.
  intros [Ht Ha Hc Hm]. unfold modulus in *. destruct (Z.eqb_spec m 0).
  - destruct Ht as [->|[->| ->]]; cbn; lia.
  - split; [by destruct Ht as [->|[->| ->]]|]. split; [destruct Ht as [->|[->| ->]]; cbn [wd u16 u32 u64]; lia|].
    split; [lia|]. apply Z.lt_le_incl, Hm.
Qed.
(** the one product the code leaves to signed int *)
Definition no_int_overflow (t : ity) (a m prev : Z) : Prop := t = u16 -> m = 0 -> a * prev <= 2147483647.

Lemma next_ok t a c m prev : lcg_params t a c m -> 0 <= prev < modulus t m -> no_int_overflow t a m prev ->
  next t a c m prev = Ok (step t a c m prev).
Proof.
  intros P Hp Hno. destruct (lp_width _ _ _ _ P) as (Hsg & Hwd & Hmod). destruct P as [Ht Ha Hc Hm]. unfold next, step.
  destruct (Z.eqb_spec a 0) as [->|Ha0]. { rewrite Z.mul_0_l, Z.add_0_l, Z.mod_small by lia. rewrite cast_small by (done || lia). done. }
  unfold modulus in *. destruct (Z.eqb_spec m 0) as [->|Hm0].
  { destruct Ht as [->|[->| ->]]; unfold promote; cbn [wd u16 u32 u64 Z.ltb Z.compare].
    - unfold arith. change (16 <? 32) with true. cbn [sg s32]. specialize (Hno eq_refl eq_refl). cbn [wd u16] in *.
      assert (0 <= a * prev) by nia. rewrite decide_True by (unfold in_t, tmin, tmax; cbn; lia). rewrite rbind_ok.
      pose proof (Z.mod_pos_bound (a * prev) (2 ^ 16) ltac:(lia)). rewrite cast_u by done. cbn [wd u16].
      rewrite decide_True by (unfold in_t, tmin, tmax; cbn; lia). rewrite rbind_ok, cast_u by done. cbn [wd u16]. f_equal.
      apply Zplus_mod_idemp_l.
    - change (32 <? 32) with false. unfold arith, cast. cbn [sg wd u32 u64]. rewrite rbind_ok. cbv beta. rewrite rbind_ok. f_equal. rewrite !Zmod_mod. by rewrite !Zplus_mod_idemp_l.
    - change (64 <? 32) with false. unfold arith, cast. cbn [sg wd u32 u64]. rewrite rbind_ok. cbv beta. rewrite rbind_ok. f_equal. rewrite !Zmod_mod. by rewrite !Zplus_mod_idemp_l. }
  assert (Hprod : 0 <= prev * a <= (m - 1) * a) by nia.
  assert (Hres : forall x, x = a * prev + c -> cast t (x mod m) = (a * prev + c) mod m).
  { intros x ->. pose proof (Z.mod_pos_bound (a * prev + c) m ltac:(lia)). apply cast_small; [done|lia]. }
  destruct ((c =? 0) && (m =? 2147483647)) eqn:E1.
  { apply andb_true_iff in E1 as [->%Z.eqb_eq ->%Z.eqb_eq]. destruct (fold31_ok prev a) as [-> Hr]; [lia|lia|].
    rewrite Z.add_0_r, (Z.mul_comm a prev). f_equal. apply cast_small; [done|lia]. }
  rewrite (cast_small t (m - 1)) by (done || lia).
  destruct ((c <=? UINT_MAX) && (m - 1 <=? (UINT_MAX - c) / a)) eqn:E2.
  { apply andb_true_iff in E2 as [Hc1%Z.leb_le Hm1%Z.leb_le]. unfold UINT_MAX in *.
    assert (Hb : (m - 1) * a <= 2 ^ 32 - 1 - c).
    { etransitivity; [apply (Z.mul_le_mono_nonneg_r (m - 1) ((2 ^ 32 - 1 - c) / a) a); [lia|exact Hm1]|]. rewrite Z.mul_comm. apply Z.mul_div_le. lia. }
    assert (Hm2 : m - 1 <= 2 ^ 32 - 1 - c) by nia.
    cbv zeta. rewrite (cast_small u32 prev), (cast_small u32 a), (cast_small u32 c), (cast_small u32 (prev * a)), (cast_small u32 (prev * a + c));
      [|exact eq_refl|cbn [wd u32]; lia|exact eq_refl|cbn [wd u32]; lia|exact eq_refl|cbn [wd u32]; lia|exact eq_refl|cbn [wd u32]; lia|exact eq_refl|cbn [wd u32]; lia].
    f_equal. apply Hres. lia. }
  destruct (m - 1 <=? (ULLONG_MAX - c) / a) eqn:E3.
  { apply Z.leb_le in E3. unfold ULLONG_MAX in *.
    assert (Hb : (m - 1) * a <= 2 ^ 64 - 1 - c).
    { etransitivity; [apply (Z.mul_le_mono_nonneg_r (m - 1) ((2 ^ 64 - 1 - c) / a) a); [lia|exact E3]|]. rewrite Z.mul_comm. apply Z.mul_div_le. lia. }
    cbv zeta. rewrite (cast_small u64 (prev * a)), (cast_small u64 (prev * a + c)); [|exact eq_refl|cbn [wd u64]; lia|exact eq_refl|cbn [wd u64]; lia]. f_equal. apply Hres. lia. }
  assert (Hpw : 2 ^ wd t <= 2 ^ 64) by (apply Z.pow_le_mono_r; lia).
  assert (Hb : (m - 1) * a <= (2 ^ 64 - 1) * (2 ^ 64 - 1)) by (apply Z.mul_le_mono_nonneg; lia).
  cbv zeta. rewrite (Z.mod_small (prev * a)) by (change (2 ^ 128) with (2 ^ 64 * 2 ^ 64); lia).
  rewrite (Z.mod_small (prev * a + c)) by (change (2 ^ 128) with (2 ^ 64 * 2 ^ 64); lia). f_equal. apply Hres. lia.
Qed.

Lemma step_range t a c m x : lcg_params t a c m -> 0 <= step t a c m x < modulus t m.
Proof. intros P. destruct (lp_width _ _ _ _ P) as (_ & _ & ?). apply Z.mod_pos_bound. lia. Qed.
Lemma steps_S t a c m n x : steps t a c m (S n) x = step t a c m (steps t a c m n x).
Proof. revert x. induction n as [|n IH]; intros x; [done|]. cbn [steps] in *. by rewrite <-IH. Qed.

(** discard *)
Lemma slow_discard_ok t a c m n : lcg_params t a c m -> (t = u16 -> m = 0 -> a <= 32768) ->
  forall x, 0 <= x < modulus t m -> slow_discard t a c m n x = Ok (steps t a c m n x).
Proof.
  intros P Hno. induction n as [|n IH]; intros x Hx; [done|]. cbn [slow_discard steps].
  rewrite next_ok; [|done|done|]. { rewrite rbind_ok. apply IH. by apply step_range. }
  intros -> ->. specialize (Hno eq_refl eq_refl). unfold modulus in Hx. cbn in Hx. destruct P as [_ [Ha _] _ _]. nia.
Qed.
Lemma steps_pow t a m n x : 0 < modulus t m -> 0 <= x < modulus t m -> steps t a 0 m n x = (x * a ^ Z.of_nat n) mod modulus t m.
Proof.
  intros Hm Hx. revert x Hx. induction n as [|n IH]; intros x Hx.
  - change (Z.of_nat 0) with 0. rewrite Z.pow_0_r, Z.mul_1_r, Z.mod_small by lia. done.
  - cbn [steps]. rewrite IH by (apply Z.mod_pos_bound; lia). unfold step. rewrite Z.add_0_r, Nat2Z.inj_succ, Z.pow_succ_r by lia.
    rewrite Z.mul_mod_idemp_l by lia. f_equal. ring.
Qed.
Lemma pow_mod_l x q p : 0 < p -> 0 <= q -> ((x mod p) ^ q) mod p = (x ^ q) mod p.
Proof.
  intros Hp Hq. revert q Hq. apply natlike_ind; [done|]. intros q Hq IH. rewrite !Z.pow_succ_r by done.
  rewrite Z.mul_mod_idemp_l by lia. rewrite Z.mul_mod, IH, <-Z.mul_mod by lia. done.
Qed.
Lemma fast_discard_ok fuel : forall temp mul n, 0 <= temp < 2147483647 -> 0 <= mul < 2147483647 -> 0 <= n < 2 ^ Z.of_nat fuel -> (0 < fuel)%nat ->
  fast_discard fuel 2147483647 temp mul n = Ok ((temp * mul ^ n) mod 2147483647).
Proof.
  induction fuel as [|fuel IH]; intros temp mul n Ht Hm Hn Hf; [lia|]. cbn [fast_discard].
  destruct (fold31_ok temp mul Ht Hm) as [-> Hr1]. destruct (fold31_ok mul mul Hm Hm) as [-> Hr2].
  pose proof (Z.div2_odd n) as Hd. rewrite Z.div2_div in Hd. set (q := n / 2) in *.
  assert (Hq : 0 <= q) by (apply Z.div_pos; lia).
  assert (Hstep : forall e, ((if Z.odd n then (temp * mul) mod 2147483647 else temp) * e) mod 2147483647 = (temp * mul ^ (Z.b2z (Z.odd n)) * e) mod 2147483647).
  { intros e. destruct (Z.odd n); cbn [Z.b2z].
    - rewrite Z.pow_1_r. apply Z.mul_mod_idemp_l. lia.
    - by rewrite Z.pow_0_r, Z.mul_1_r. }
  destruct (Z.eqb_spec q 0) as [Hq0|Hq0].
  - f_equal. specialize (Hstep 1). rewrite !Z.mul_1_r in Hstep. rewrite Z.mod_small in Hstep by (destruct (Z.odd n); lia).
    rewrite Hstep. do 3 f_equal. lia.
  - rewrite IH.
    + rewrite Hstep. f_equal. rewrite Hd at 2. rewrite Z.pow_add_r, Z.pow_mul_r by (destruct (Z.odd n); cbn; lia).
      rewrite Z.pow_2_r. rewrite <-Z.mul_mod_idemp_r by lia. rewrite pow_mod_l by lia.
      rewrite Z.mul_mod_idemp_r by lia. f_equal. ring.
    + destruct (Z.odd n); lia.
    + lia.
    + split; [lia|]. rewrite Nat2Z.inj_succ, Z.pow_succ_r in Hn by lia. apply Z.div_lt_upper_bound; lia.
    + destruct fuel; [|lia]. exfalso. change (2 ^ Z.of_nat 1) with 2 in Hn. assert (q < 1) by (apply Z.div_lt_upper_bound; lia). lia.
Qed.

Lemma discard_ok t a c m prev n : lcg_params t a c m -> (t = u16 -> m = 0 -> a <= 32768) -> 0 <= prev < modulus t m -> 0 <= n < 2 ^ 64 ->
  discard t a c m prev n = Ok (steps t a c m (Z.to_nat n) prev).
Proof.
  intros P Hno Hp Hn. unfold discard. destruct ((c =? 0) && (m =? 2147483647)) eqn:E; [|by apply slow_discard_ok].
  apply andb_true_iff in E as [->%Z.eqb_eq ->%Z.eqb_eq]. destruct (lp_width _ _ _ _ P) as (Hsg & Hwd & Hmod). destruct P as [_ Ha _ _].
  change (modulus t 2147483647) with 2147483647 in *. rewrite fast_discard_ok; [|lia|lia|change (2 ^ Z.of_nat 65) with (2 * 2 ^ 64); lia|lia].
  rewrite rbind_ok. rewrite steps_pow by (change (modulus t 2147483647) with 2147483647; lia).
  change (modulus t 2147483647) with 2147483647. rewrite Z2Nat.id by lia. f_equal. apply cast_small; [done|].
  pose proof (Z.mod_pos_bound (prev * a ^ n) 2147483647 ltac:(lia)). lia.
Qed.

(** seeding *)
Lemma get_seed_ok t a c m s : lcg_params t a c m -> 0 <= s < 2 ^ wd t -> get_seed c m s = seeded t c m s.
Proof.
  intros P Hs. pose proof (lp_width _ _ _ _ P) as (_ & _ & Hmod). destruct P as [_ _ Hc _]. unfold get_seed, seeded.
  rewrite (Z.mod_small c) by done.
  assert (Hm : (if m =? 0 then s else s mod m) = s mod modulus t m).
  { unfold modulus. destruct (m =? 0); [by rewrite Z.mod_small|done]. }
  rewrite Hm. destruct (Z.eqb_spec c 0), (Z.eqb_spec (s mod modulus t m) 0); cbn [andb];
    [rewrite bool_decide_true by done|rewrite bool_decide_false by naive_solver|rewrite bool_decide_false by naive_solver|rewrite bool_decide_false by naive_solver]; done.
Qed.
Definition gen_ok (gen : nat -> list Z) : Prop := forall n, length (gen n) = n /\
  Forall (fun w => 0 <= w < 2 ^ 32) (gen n).
Lemma gen_word gen n i : gen_ok gen -> 0 <= default 0 (gen n !! i) < 2 ^ 32.
Proof.
  intros H. destruct (gen n !! i) eqn:E; cbn; [|lia]. destruct (H n) as [_ Hf]. rewrite list.Forall_lookup in Hf. by apply (Hf i).
Qed.
Lemma seq_to_ull_ok gen : gen_ok gen -> seq_to_ull gen = default 0 (gen 5%nat !! 3%nat) + default 0 (gen 5%nat !! 4%nat) * 2 ^ 32.
Proof.
  intros H. unfold seq_to_ull. rewrite cast_u by done. change (wd u64) with 64. rewrite Int128Proofs.lor32 by (by apply gen_word). lia.
Qed.
(** the specification's count of words differs from the code's only for a modulus of exactly 2^32 held in a 64-bit type *)
Lemma seed_from_seq_ok t a c m gen : lcg_params t a c m -> m <> 2 ^ 32 -> gen_ok gen ->
  seed_from_seq t c m gen = seeded t c m (seed_words t m gen).
Proof.
  intros P Hne Hg. pose proof (lp_width _ _ _ _ P) as (Hsg & Hwd & Hmod). pose proof P as [Ht _ _ Hm]. unfold seed_from_seq, seed_words, words.
  pose proof (gen_word gen 4 3 Hg) as Hw1. pose proof (gen_word gen 5 3 Hg) as Hw2. pose proof (gen_word gen 5 4 Hg) as Hw3.
  assert (Hmm : forall s, 0 <= s -> get_seed c m (cast t (s mod modulus t m)) = seeded t c m s).
  { intros s Hs. pose proof (Z.mod_pos_bound s (modulus t m) ltac:(lia)) as Hb. rewrite cast_small by (done || lia).
    rewrite (get_seed_ok t a) by (done || lia). unfold seeded. by rewrite Z.mod_mod by lia. }
  unfold seq_to_uint. rewrite (seq_to_ull_ok gen Hg).
  destruct (Z.eqb_spec m 0) as [->|Hm0].
  - change (modulus t 0) with (2 ^ wd t) in *. destruct Ht as [->|[->| ->]]; cbn [wd u16 u32 u64] in *.
    + change (16 <=? 32) with true. change (2 ^ 16 <=? 2 ^ 32) with true. cbn match. change (1 + 3)%nat with 4%nat.
      rewrite <-Hmm by lia. f_equal. rewrite !cast_u by done. cbn [wd u16]. by rewrite Zmod_mod.
    + change (32 <=? 32) with true. change (2 ^ 32 <=? 2 ^ 32) with true. cbn match. change (1 + 3)%nat with 4%nat.
      rewrite <-Hmm by lia. f_equal. rewrite !cast_u by done. cbn [wd u32]. by rewrite Zmod_mod.
    + change (64 <=? 32) with false. change (2 ^ 64 <=? 2 ^ 32) with false. cbn match. change (2 + 3)%nat with 5%nat.
      rewrite <-Hmm by lia. f_equal. rewrite !cast_u by done. cbn [wd u64]. by rewrite Zmod_mod.
  - assert (Hmd : modulus t m = m) by (unfold modulus; by rewrite (proj2 (Z.eqb_neq m 0) Hm0)). rewrite Hmd in *.
    unfold UINT_MAX. destruct (Z.leb_spec m (2 ^ 32 - 1)).
    + rewrite (proj2 (Z.leb_le m (2 ^ 32))) by lia. change (1 + 3)%nat with 4%nat. apply Hmm. lia.
    + rewrite (proj2 (Z.leb_gt m (2 ^ 32))) by lia. change (2 + 3)%nat with 5%nat. apply Hmm. lia.
Qed.
Lemma seeded_range t a c m s : lcg_params t a c m -> (c = 0 -> 1 < modulus t m) -> 0 <= seeded t c m s < modulus t m.
Proof.
  intros P H1. pose proof (lp_width _ _ _ _ P) as (_ & _ & Hmod). destruct P as [_ _ Hc _]. unfold seeded. rewrite (Z.mod_small c) by done.
  case_bool_decide as H; [destruct H as [H _]; specialize (H1 H); lia|]. apply Z.mod_pos_bound. lia.
Qed.
