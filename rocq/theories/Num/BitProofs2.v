From stdpp Require Import base numbers list list_numbers.
From Coq Require Import ZArith Lia Zify ZifyBool.
From Verif Require Import Base.Res Base.Int Num.BitModel Num.BitSpec Num.BitProofs.
Open Scope Z_scope.
Ltac Zify.zify_post_hook ::= Z.div_mod_to_equations.

(** counting ones *)
Lemma ones_split a b v : 0 <= a -> 0 <= b -> ones (a + b) v = ones a v + ones b (v / 2 ^ a).
Proof.
  intros Ha Hb. unfold ones. rewrite seqZ_app by lia. rewrite list.filter_app, app_length. rewrite Nat2Z.inj_add. f_equal.
  replace (0 + a) with (a + 0) by lia. rewrite <-fmap_add_seqZ. f_equal.
  assert (H : forall l : list Z, Forall (fun i => 0 <= i) l ->
    length (filter (fun i => Z.testbit v i = true) (Z.add a <$> l)) = length (filter (fun i => Z.testbit (v / 2 ^ a) i = true) l)).
  { induction l as [|x l IH]; intros Hl; [done|]. apply Forall_cons in Hl as [Hx Hl]. rewrite fmap_cons, !filter_cons.
    rewrite Z.div_pow2_bits by lia. replace (x + a) with (a + x) by lia.
    destruct (decide (Z.testbit v (a + x) = true)); simpl; rewrite IH by done; done. }
  apply H. apply list.Forall_forall. intros i Hi. apply elem_of_seqZ in Hi. lia.
Qed.
Lemma ones_0 v : ones 0 v = 0. Proof. reflexivity. Qed.
Lemma ones_1 v : ones 1 v = v mod 2.
Proof.
  unfold ones. change (seqZ 0 1) with [0]. rewrite filter_cons, filter_nil. rewrite <-Z.bit0_mod.
  destruct (Z.testbit v 0) eqn:E; [rewrite decide_True by done|rewrite decide_False by done]; reflexivity.
Qed.
Lemma ones_bound w v : 0 <= w -> 0 <= ones w v <= w.
Proof.
  intros Hw. unfold ones. pose proof (filter_length (fun i => Z.testbit v i = true) (seqZ 0 w)) as H.
  rewrite seqZ_length in H. lia.
Qed.
Lemma ones_mod a v : 0 <= a -> ones a v = ones a (v mod 2 ^ a).
Proof.
  intros Ha. unfold ones. f_equal. f_equal.
  assert (H : forall l : list Z, Forall (fun i => i < a) l -> Forall (fun i => 0 <= i) l ->
    filter (fun i => Z.testbit v i = true) l = filter (fun i => Z.testbit (v mod 2 ^ a) i = true) l).
  { induction l as [|x l IH]; intros Hl Hl'; [done|]. apply Forall_cons in Hl as [Hx Hl]. apply Forall_cons in Hl' as [Hx' Hl'].
    rewrite !filter_cons, IH by done. rewrite Z.mod_pow2_bits_low by lia. done. }
  apply H; apply list.Forall_forall; intros i Hi; apply elem_of_seqZ in Hi; lia.
Qed.
Lemma hw_popcnt_ones w v : 0 <= w -> 0 <= v < 2 ^ w -> hw_popcnt v = ones w v.
Proof.
  intros Hw Hv. destruct v as [|p|p]; [|simpl|lia].
  - cbn. symmetry. unfold ones. assert (H : forall l : list Z, filter (fun i => Z.testbit 0 i = true) l = []).
    { induction l as [|x l IH]; [done|]. rewrite filter_cons, IH, Z.bits_0. done. } by rewrite H.
  - revert w Hw Hv. induction p as [p IH|p IH|]; intros w Hw Hv.
    + assert (w <> 0) by (intros ->; simpl in Hv; lia). replace w with (1 + (w - 1)) in * by lia. remember (w - 1) as w' eqn:Ew. clear Ew.
      rewrite Z.pow_add_r in Hv by lia. change (2 ^ 1) with 2 in Hv.
      rewrite ones_split by lia. rewrite ones_1. change (2 ^ 1) with 2. replace (Zpos p~1 / 2) with (Zpos p) by lia.
      rewrite <-IH by lia. cbn [pop_pos]. lia.
    + assert (w <> 0) by (intros ->; simpl in Hv; lia). replace w with (1 + (w - 1)) in * by lia. remember (w - 1) as w' eqn:Ew. clear Ew.
      rewrite Z.pow_add_r in Hv by lia. change (2 ^ 1) with 2 in Hv.
      rewrite ones_split by lia. rewrite ones_1. change (2 ^ 1) with 2. replace (Zpos p~0 / 2) with (Zpos p) by lia.
      rewrite <-IH by lia. cbn [pop_pos]. lia.
    + assert (w <> 0) by (intros ->; simpl in Hv; lia). replace w with (1 + (w - 1)) in * by lia. remember (w - 1) as w' eqn:Ew. clear Ew.
      rewrite ones_split by lia. rewrite ones_1. change (1 / 2 ^ 1) with 0.
      assert (H0 : ones w' 0 = 0).
      { unfold ones. assert (H' : forall l : list Z, filter (fun i => Z.testbit 0 i = true) l = []).
        { induction l as [|x l IH]; [done|]. rewrite filter_cons, IH, Z.bits_0. done. } by rewrite H'. }
      rewrite H0. reflexivity.
Qed.

(** bytes *)
Lemma all_lt (n : Z) (f : Z -> bool) : forallb f (seqZ 0 n) = true -> forall b, 0 <= b < n -> f b = true.
Proof. intros H b Hb. rewrite forallb_forall in H. apply H. apply elem_of_list_In, elem_of_seqZ. lia. Qed.
Lemma byte_bits x y i : 0 <= x < 256 -> 0 <= i -> Z.testbit (x + 256 * y) i = if i <? 8 then Z.testbit x i else Z.testbit y (i - 8).
Proof.
  intros Hx Hi. destruct (i <? 8) eqn:E.
  - rewrite <-(Z.mod_pow2_bits_low _ 8) by lia. f_equal. change (2 ^ 8) with 256. lia.
  - replace i with ((i - 8) + 8) at 1 by lia. rewrite <-Z.div_pow2_bits by lia. f_equal. change (2 ^ 8) with 256. lia.
Qed.
Lemma land_byte x : 0 <= x -> forall m, 0 <= Z.land x m <= x.
Proof.
  intros Hx m. split; [apply Z.land_nonneg; auto|].
  assert (E : x = Z.land x m + Z.ldiff x m).
  { rewrite Z.add_nocarry_lxor.
    - apply Z.bits_inj'. intros i Hi. rewrite Z.lxor_spec, Z.land_spec, Z.ldiff_spec. by destruct (Z.testbit x i), (Z.testbit m i).
    - apply Z.bits_inj'. intros i Hi. rewrite !Z.land_spec, Z.ldiff_spec, Z.bits_0. by destruct (Z.testbit x i), (Z.testbit m i). }
  assert (0 <= Z.ldiff x m) by (apply Z.ldiff_nonneg; auto). lia.
Qed.
Lemma land_split x y m n : 0 <= x < 256 -> 0 <= m < 256 -> Z.land (x + 256 * y) (m + 256 * n) = Z.land x m + 256 * Z.land y n.
Proof.
  intros Hx Hm. apply Z.bits_inj'. intros i Hi. pose proof (land_byte x ltac:(lia) m) as Hl.
  rewrite Z.land_spec, !byte_bits by lia. destruct (i <? 8); by rewrite Z.land_spec.
Qed.
Fixpoint rep (c : Z) (k : nat) : Z := match k with O => 0 | S k => c + 256 * rep c k end.
Definition f1 (k : nat) v := v - Z.land (v / 2) (rep 0x55 k).
Definition f2 (k : nat) v := Z.land v (rep 0x33 k) + Z.land (v / 4) (rep 0x33 k).
Definition f3 (k : nat) v := Z.land (v + v / 16) (rep 0x0F k).
Definition g1 b := b - Z.land (b / 2) 0x55.
Definition g2 b := Z.land b 0x33 + Z.land (b / 4) 0x33.
Definition g3 b := Z.land (b + b / 16) 0x0F.
Lemma f1_step k b r : 0 <= b < 256 -> f1 (S k) (b + 256 * r) = g1 b + 256 * f1 k r.
Proof.
  intros Hb. unfold f1, g1. cbn [rep]. replace ((b + 256 * r) / 2) with ((b / 2 + 128 * (r mod 2)) + 256 * (r / 2)) by lia.
  rewrite land_split by lia.
  assert (E : Z.land (b / 2 + 128 * (r mod 2)) 0x55 = Z.land (b / 2) 0x55).
  { apply Z.eqb_eq. revert b Hb. assert (H : r mod 2 = 0 \/ r mod 2 = 1) by lia.
    destruct H as [->| ->]; intros b Hb; revert b Hb; apply all_lt; vm_compute; reflexivity. }
  rewrite E. lia.
Qed.
Lemma f2_step k b r : 0 <= b < 256 -> f2 (S k) (b + 256 * r) = g2 b + 256 * f2 k r.
Proof.
  intros Hb. unfold f2, g2. cbn [rep]. replace ((b + 256 * r) / 4) with ((b / 4 + 64 * (r mod 4)) + 256 * (r / 4)) by lia.
  rewrite !land_split by lia.
  assert (E : Z.land (b / 4 + 64 * (r mod 4)) 0x33 = Z.land (b / 4) 0x33).
  { apply Z.eqb_eq. revert b Hb. assert (H : r mod 4 = 0 \/ r mod 4 = 1 \/ r mod 4 = 2 \/ r mod 4 = 3) by lia.
    destruct H as [->|[->|[->| ->]]]; intros b Hb; revert b Hb; apply all_lt; vm_compute; reflexivity. }
  rewrite E. lia.
Qed.
Lemma f3_step k b r : 0 <= b <= 0x44 -> 0 <= r mod 16 <= 4 -> f3 (S k) (b + 256 * r) = g3 b + 256 * f3 k r.
Proof.
  intros Hb Hr. unfold f3, g3. cbn [rep].
  replace (b + 256 * r + (b + 256 * r) / 16) with ((b + b / 16 + 16 * (r mod 16)) + 256 * (r + r / 16)) by lia.
  rewrite land_split by lia.
  assert (E : Z.land (b + b / 16 + 16 * (r mod 16)) 0x0F = Z.land (b + b / 16) 0x0F).
  { apply Z.eqb_eq. assert (Hb' : 0 <= b < 0x45) by lia. clear Hb. revert b Hb'.
    assert (H : r mod 16 = 0 \/ r mod 16 = 1 \/ r mod 16 = 2 \/ r mod 16 = 3 \/ r mod 16 = 4) by lia.
    destruct H as [->|[->|[->|[->| ->]]]]; apply all_lt; vm_compute; reflexivity. }
  rewrite E. lia.
Qed.
Lemma byte_facts b : 0 <= b < 256 -> (0 <= g1 b < 256) /\ (0 <= g2 (g1 b) <= 0x44) /\ (0 <= g2 (g1 b) mod 16 <= 4) /\ g3 (g2 (g1 b)) = ones 8 b.
Proof.
  intros Hb. assert (H : (0 <=? g1 b) && (g1 b <? 256) && (0 <=? g2 (g1 b)) && (g2 (g1 b) <=? 0x44) && (g2 (g1 b) mod 16 <=? 4) && (g3 (g2 (g1 b)) =? ones 8 b) = true).
  { revert b Hb. apply all_lt. vm_compute. reflexivity. }
  lia.
Qed.
(* each byte holds its own count after the three steps *)
Fixpoint counts (k : nat) (v : Z) : Z := match k with O => 0 | S k => ones 8 v + 256 * counts k (v / 256) end.
Lemma steps_ok k v : 0 <= v < 256 ^ Z.of_nat k -> f3 k (f2 k (f1 k v)) = counts k v /\ 0 <= f2 k (f1 k v) mod 16 <= 4 /\
  0 <= f1 k v < 256 ^ Z.of_nat k /\ 0 <= f2 k (f1 k v) /\ 255 * f2 k (f1 k v) <= 0x44 * (256 ^ Z.of_nat k - 1).
Proof.
  revert v. induction k as [|k IH]; intros v Hv.
  { assert (v = 0) as -> by (change (256 ^ Z.of_nat 0) with 1 in Hv; lia). vm_compute. intuition congruence. }
  rewrite Nat2Z.inj_succ, Z.pow_succ_r in * by lia.
  assert (Hr : 0 <= v / 256 < 256 ^ Z.of_nat k). { split; [apply Z.div_pos; lia|]. apply Z.div_lt_upper_bound; lia. }
  destruct (IH _ Hr) as (H1 & H2 & H3 & H4 & H5).
  destruct (byte_facts (v mod 256) ltac:(lia)) as (B1 & B2 & B3 & B4).
  replace v with (v mod 256 + 256 * (v / 256)) by lia. rewrite f1_step by lia. rewrite f2_step by lia. rewrite f3_step by lia.
  rewrite B4, H1. cbn [counts]. replace ((v mod 256 + 256 * (v / 256)) / 256) with (v / 256) by lia.
  assert (E : ones 8 (v mod 256 + 256 * (v / 256)) = ones 8 (v mod 256)).
  { rewrite (ones_mod 8 (v mod 256 + _)) by lia. f_equal. change (2 ^ 8) with 256. lia. }
  rewrite E. split; [done|]. split; [lia|]. split; [lia|]. split; [lia|]. lia.
Qed.
Lemma arith_cast t z : std_uint t -> 0 <= z -> (wd t < 32 -> z < 2 ^ 31) -> exists z', arith (promote t) z = Ok z' /\ cast t z' = z mod 2 ^ wd t.
Proof.
  intros Ht H0. pattern t. apply uint_cases; [..|done]; cbn [wd u8 u16 u32 u64]; intros Hz; unfold promote; cbn [wd Z.ltb Z.compare Pos.compare Pos.compare_cont u8 u16 u32 u64].
  - specialize (Hz ltac:(lia)). exists z. split; [apply arith_s32; lia|by apply cast_u].
  - specialize (Hz ltac:(lia)). exists z. split; [apply arith_s32; lia|by apply cast_u].
  - eexists. split; [reflexivity|]. unfold cast. simpl. by rewrite Z.mod_mod.
  - eexists. split; [reflexivity|]. unfold cast. simpl. by rewrite Z.mod_mod.
Qed.
Lemma mulhi8 c0 c1 c2 c3 c4 c5 c6 c7 : 0 <= c0 <= 8 -> 0 <= c1 <= 8 -> 0 <= c2 <= 8 -> 0 <= c3 <= 8 -> 0 <= c4 <= 8 -> 0 <= c5 <= 8 -> 0 <= c6 <= 8 -> 0 <= c7 <= 8 ->
  let C := c0 + 256 * (c1 + 256 * (c2 + 256 * (c3 + 256 * (c4 + 256 * (c5 + 256 * (c6 + 256 * c7)))))) in
  (C * (1 + 256 * (1 + 256 * (1 + 256 * (1 + 256 * (1 + 256 * (1 + 256 * (1 + 256 * 1))))))))
    mod 0x10000000000000000 / 0x100000000000000 = c0 + (c1 + (c2 + (c3 + (c4 + (c5 + (c6 + c7)))))) /\
  0 <= C < 0x10000000000000000 /\ (8%nat = 2%nat -> C * (1 + 256 * (1 + 256 * (1 + 256 * (1 + 256 * (1 + 256 * (1 + 256 * (1 + 256 * 1))))))) < 2 ^ 31).
Proof.
  intros H0 H1 H2 H3 H4 H5 H6 H7 C.
  set (s1 := c0 + c1). set (s2 := s1 + c2). set (s3 := s2 + c3). set (s4 := s3 + c4). set (s5 := s4 + c5). set (s6 := s5 + c6). set (s7 := s6 + c7).
  set (L := c0 + 256 * (s1 + 256 * (s2 + 256 * (s3 + 256 * (s4 + 256 * (s5 + 256 * s6)))))).
  set (t1 := c7 + c6). set (t2 := t1 + c5). set (t3 := t2 + c4). set (t4 := t3 + c3). set (t5 := t4 + c2). set (t6 := t5 + c1).
  set (Q := t6 + 256 * (t5 + 256 * (t4 + 256 * (t3 + 256 * (t2 + 256 * (t1 + 256 * c7)))))).
  assert (HL : 0 <= L < 0x100000000000000) by (unfold L, s6, s5, s4, s3, s2, s1; lia).
  assert (Hs : 0 <= s7 <= 64) by (unfold s7, s6, s5, s4, s3, s2, s1; lia).
  split.
  - rewrite <-(Z.mod_unique_pos _ 0x10000000000000000 Q (L + 0x100000000000000 * s7)).
    + rewrite <-(Z.div_unique_pos (L + 0x100000000000000 * s7) 0x100000000000000 s7 L); [unfold s7, s6, s5, s4, s3, s2, s1; ring|lia|ring].
    + lia.
    + unfold C, Q, L, s7, s6, s5, s4, s3, s2, s1, t6, t5, t4, t3, t2, t1. ring.
  - split; [unfold C; lia|lia].
Qed.
Lemma popcount_final (k : nat) v : (k = 1 \/ k = 2 \/ k = 4 \/ k = 8)%nat -> 0 <= v < 256 ^ Z.of_nat k ->
  (counts k v * rep 1 k) mod 256 ^ Z.of_nat k / 256 ^ (Z.of_nat k - 1) = ones (8 * Z.of_nat k) v /\
  0 <= counts k v < 256 ^ Z.of_nat k /\ (k = 2%nat -> counts k v * rep 1 k < 2 ^ 31).
Proof.
  intros Hk Hv.
  assert (Hc : forall k v, ones (8 * Z.of_nat (S k)) v = ones 8 v + ones (8 * Z.of_nat k) (v / 256)).
  { intros k' v'. replace (8 * Z.of_nat (S k')) with (8 + 8 * Z.of_nat k') by lia. rewrite ones_split by lia. done. }
  assert (Hb : forall v, 0 <= ones 8 v <= 8) by (intros; by apply ones_bound).
  destruct Hk as [->|[->|[->| ->]]].
  - cbn [counts rep]. rewrite !Hc. change (8 * Z.of_nat 0) with 0. rewrite ones_0. pose proof (Hb v). cbn. lia.
  - cbn [counts rep]. rewrite !Hc. change (8 * Z.of_nat 0) with 0. rewrite ones_0. pose proof (Hb v). pose proof (Hb (v / 256)).
    generalize dependent (ones 8 (v / 256)). generalize dependent (ones 8 v). intros. cbn. lia.
  - cbn [counts rep]. rewrite !Hc. change (8 * Z.of_nat 0) with 0. rewrite ones_0.
    pose proof (Hb v). pose proof (Hb (v / 256)). pose proof (Hb (v / 256 / 256)). pose proof (Hb (v / 256 / 256 / 256)).
    generalize dependent (ones 8 (v / 256 / 256 / 256)). generalize dependent (ones 8 (v / 256 / 256)).
    generalize dependent (ones 8 (v / 256)). generalize dependent (ones 8 v). intros. cbn. lia.
  - cbn [counts rep]. rewrite !Hc. change (8 * Z.of_nat 0) with 0. rewrite ones_0.
    pose proof (Hb v). pose proof (Hb (v / 256)). pose proof (Hb (v / 256 / 256)). pose proof (Hb (v / 256 / 256 / 256)).
    pose proof (Hb (v / 256 / 256 / 256 / 256)). pose proof (Hb (v / 256 / 256 / 256 / 256 / 256)).
    pose proof (Hb (v / 256 / 256 / 256 / 256 / 256 / 256)). pose proof (Hb (v / 256 / 256 / 256 / 256 / 256 / 256 / 256)).
    generalize dependent (ones 8 (v / 256 / 256 / 256 / 256 / 256 / 256 / 256)). generalize dependent (ones 8 (v / 256 / 256 / 256 / 256 / 256 / 256)).
    generalize dependent (ones 8 (v / 256 / 256 / 256 / 256 / 256)). generalize dependent (ones 8 (v / 256 / 256 / 256 / 256)).
    generalize dependent (ones 8 (v / 256 / 256 / 256)). generalize dependent (ones 8 (v / 256 / 256)).
    generalize dependent (ones 8 (v / 256)). generalize dependent (ones 8 v). intros.
    change (256 ^ Z.of_nat 8) with 0x10000000000000000 in *. change (256 ^ (Z.of_nat 8 - 1)) with 0x100000000000000. rewrite !Z.mul_0_r, !Z.add_0_r.
    apply (mulhi8 z z0 z1 z2 z3 z4 z5 z6); lia.
Qed.
Lemma popcount_fallback_ok t v : std_uint t -> in_t t v -> popcount_fallback t v = Ok (ones (wd t) v).
Proof.
  intros Ht Hv. pose proof Ht as [Ht' Hs]. pose proof (wd_pos t Ht') as Hw. pose proof (promote_wd t Ht') as Hpw.
  apply (in_u t v Hs) in Hv.
  assert (Hk : exists k, (k = 1 \/ k = 2 \/ k = 4 \/ k = 8)%nat /\ wd t = 8 * Z.of_nat k /\
    cast t 0x5555555555555555 = rep 0x55 k /\ cast t 0x3333333333333333 = rep 0x33 k /\
    cast t 0x0F0F0F0F0F0F0F0F = rep 0x0F k /\ cast t 0x0101010101010101 = rep 1 k /\ (wd t < 32 -> (k <= 2)%nat)).
  { clear -Ht. pattern t. apply uint_cases; [exists 1%nat|exists 2%nat|exists 4%nat|exists 8%nat|done];
      (split; [auto|]); cbn [wd u8 u16 u32 u64]; repeat (split; [reflexivity|]); lia. }
  destruct Hk as (k & Hk & Hwk & C5 & C3 & CF & C1 & Hk2).
  assert (Ew : 2 ^ wd t = 256 ^ Z.of_nat k). { rewrite Hwk, Z.pow_mul_r by lia. done. }
  rewrite Ew in Hv.
  destruct (steps_ok k v Hv) as (S1 & S2 & S3 & S4 & S5).
  destruct (popcount_final k v Hk Hv) as (P1 & P2 & P3).
  unfold popcount_fallback. cbv zeta. rewrite C5, C3, CF, C1.
  rewrite shr_ok by lia. cbn [rbind]. change (2 ^ 1) with 2.
  change (v - Z.land (v / 2) (rep 85 k)) with (f1 k v).
  rewrite (arith_promote_small t (f1 k v)) by (done || rewrite Ew; lia). cbn [rbind].
  rewrite (cast_u_id t (f1 k v)) by (done || rewrite Ew; lia). rewrite shr_ok by lia. cbn [rbind]. change (2 ^ 2) with 4.
  match goal with |- context [Z.land ?x _ + Z.land (?x / 4) _] => change (Z.land x (rep 51 k) + Z.land (x / 4) (rep 51 k)) with (f2 k x) end.
  remember (f2 k (f1 k v)) as x2 eqn:E2.
  rewrite (arith_promote_small t x2) by (done || rewrite Ew; lia). cbn [rbind].
  rewrite (cast_u_id t x2) by (done || rewrite Ew; lia). rewrite shr_ok by lia. cbn [rbind]. change (2 ^ 4) with 16.
  rewrite (arith_promote_small t (x2 + x2 / 16)) by (done || rewrite Ew; lia). cbn [rbind].
  change (Z.land (x2 + x2 / 16) (rep 15 k)) with (f3 k x2). rewrite S1.
  rewrite (cast_u_id t (counts k v)) by (done || rewrite Ew; lia).
  assert (Hr : 0 <= rep 1 k). { clear. induction k; cbn [rep]; lia. }
  destruct (arith_cast t (counts k v * rep 1 k) Ht) as (z & -> & Ez); [nia| |].
  { intros Hlt. destruct Hk as [->|[->|Hk]]; [cbn [rep]; revert P2; cbn; lia|by apply P3|specialize (Hk2 Hlt); lia]. }
  cbn [rbind]. rewrite Ez, Ew. rewrite shr_ok by lia. cbn [rbind].
  replace (2 ^ (wd t - 8)) with (256 ^ (Z.of_nat k - 1)).
  2: { rewrite Hwk. replace (8 * Z.of_nat k - 8) with (8 * (Z.of_nat k - 1)) by lia. rewrite Z.pow_mul_r by lia. done. }
  rewrite P1, <-Hwk. pose proof (ones_bound (wd t) v ltac:(lia)). rewrite cast_s32 by lia. done.
Qed.
Lemma ones_64 v : 0 <= v < 2 ^ 64 -> ones 64 v = ones 32 (cast u32 v) + ones 32 (v / 2 ^ 32).
Proof.
  intros Hv. change 64 with (32 + 32). rewrite ones_split by lia. f_equal. rewrite ones_mod by lia. done.
Qed.
Inductive pop_impl : (ity -> Z -> res Z) -> Prop :=
| pop_fallback : pop_impl popcount_fallback
| pop_fallback_x86 : pop_impl popcount_fallback_x86
| pop_hw b : pop_impl (unchecked_popcount b).
Lemma pop_impl_ok f t v : pop_impl f -> std_uint t -> in_t t v -> f t v = Ok (ones (wd t) v).
Proof.
  intros Hf Ht Hv. pose proof Ht as [Ht' Hs]. pose proof (wd_pos t Ht') as Hw.
  assert (H64 : wd t > 32 -> wd t = 64). { clear -Ht'. unfold std_ity in Ht'. cbn in Ht'. lia. }
  destruct Hf as [| |b].
  - by apply popcount_fallback_ok.
  - unfold popcount_fallback_x86. case_decide as D; [|by apply popcount_fallback_ok]. apply (in_u t v Hs) in Hv. rewrite D in *.
    destruct (split32 v Hv) as [E Hh]. pose proof (cast_range u32 v ltac:(simpl; lia)) as Hr.
    assert (Hu : std_uint u32) by (split; [right; right; left; done|done]).
    rewrite (popcount_fallback_ok u32 (cast u32 v)) by done. cbn [rbind]. rewrite shr_ok by (simpl; lia). cbn [rbind].
    rewrite E. rewrite (popcount_fallback_ok u32) by (done || by apply in_u). cbn [rbind wd u32]. rewrite <-ones_64 by done.
    pose proof (ones_bound 64 v ltac:(lia)). by rewrite arith_s32 by lia.
  - apply (in_u t v Hs) in Hv. unfold unchecked_popcount. case_decide as D; [f_equal; by apply hw_popcnt_ones; [lia|]|].
    assert (E64 : wd t = 64) by (apply H64; lia). clear H64. rewrite E64 in *. destruct b; [by rewrite (hw_popcnt_ones 64 v) by (done || lia)|]. rewrite shr_ok by (simpl; lia). cbn [rbind].
    destruct (split32 v Hv) as [-> Hh]. pose proof (cast_range u32 v ltac:(simpl; lia)) as Hr. apply (in_u u32) in Hr; [|done]. cbn [wd u32] in Hr.
    rewrite (hw_popcnt_ones 32 (v / 2 ^ 32)), (hw_popcnt_ones 32 (cast u32 v)) by (done || lia). rewrite ones_64 by done. f_equal. lia.
Qed.

(** has_single_bit *)
Lemma lxor_pred p : Z.lxor (Zpos p) (Zpos p - 1) = 2 ^ (ctz_pos p + 1) - 1 /\ exists q, 0 <= q /\ Zpos p = 2 ^ ctz_pos p * (2 * q + 1).
Proof.
  induction p as [p IH|p IH|].
  - cbn [ctz_pos]. change (2 ^ (0 + 1) - 1) with 1. split.
    + replace (Zpos p~1 - 1) with (2 * Zpos p) by lia. change (Zpos p~1) with (2 * Zpos p + 1).
      apply Z.bits_inj'. intros i Hi. rewrite Z.lxor_spec. destruct (decide (i = 0)) as [->|]; [by rewrite Z.testbit_even_0, Z.testbit_odd_0|].
      replace i with (Z.succ (i - 1)) by lia. rewrite Z.testbit_even_succ, Z.testbit_odd_succ by lia.
      change 1 with (2 * 0 + 1). rewrite Z.testbit_odd_succ by lia. rewrite Z.bits_0. apply xorb_nilpotent.
    + exists (Zpos p). lia.
  - destruct IH as [IH (q & Hq & E)]. cbn [ctz_pos]. pose proof (ctz_pos_spec p) as (H0 & _ & _). split.
    + replace (1 + ctz_pos p + 1) with (1 + (ctz_pos p + 1)) by lia. rewrite Z.pow_add_r by lia. change (2 ^ 1) with 2.
      replace (2 * 2 ^ (ctz_pos p + 1) - 1) with (2 * (2 ^ (ctz_pos p + 1) - 1) + 1) by lia. rewrite <-IH.
      replace (Zpos p~0 - 1) with (2 * (Zpos p - 1) + 1) by lia. change (Zpos p~0) with (2 * Zpos p).
      apply Z.bits_inj'. intros i Hi. rewrite Z.lxor_spec.
      destruct (decide (i = 0)) as [->|]; [by rewrite Z.testbit_even_0, !Z.testbit_odd_0|].
      replace i with (Z.succ (i - 1)) by lia. rewrite Z.testbit_even_succ, !Z.testbit_odd_succ, Z.lxor_spec by lia. done.
    + exists q. split; [done|]. change (Zpos p~0) with (2 * Zpos p). rewrite E, Z.pow_add_r by lia. lia.
  - split; [reflexivity|]. exists 0. split; [lia|reflexivity].
Qed.
Lemma has_single_bit_ok t v : std_uint t -> in_t t v -> wp (has_single_bit t v) (fun b => b = true <-> is_pow2 v).
Proof.
  intros Ht Hv. pose proof Ht as [Ht' Hs]. apply (in_u t v Hs) in Hv. unfold has_single_bit. cbv zeta. destruct v as [|p|p]; [| |lia].
  - destruct (arith_promote_m1 t Ht) as (z & E & _ & _). change (0 - 1) with (-1). rewrite E. cbn [rbind wp].
    rewrite Z.lxor_0_l. rewrite bool_decide_eq_true. split; [lia|]. intros (k & Hk & E'). pose proof (pow2_pos k Hk). lia.
  - rewrite arith_promote_small by (done || lia). cbn [rbind wp]. rewrite bool_decide_eq_true.
    destruct (lxor_pred p) as [-> (q & Hq & E)]. destruct (ctz_pos_spec p) as (H0 & _ & _).
    rewrite Z.pow_add_r by lia. change (2 ^ 1) with 2. pose proof (pow2_pos _ H0). split.
    + intros H1. exists (ctz_pos p). split; [done|]. assert (q = 0) by nia. subst q. lia.
    + intros (k & Hk & E'). rewrite E' in E. destruct (decide (k = ctz_pos p)) as [->|].
      * nia.
      * exfalso. destruct (Z.lt_ge_cases k (ctz_pos p)).
        -- assert (2 ^ k < 2 ^ ctz_pos p) by (apply Z.pow_lt_mono_r; lia). nia.
        -- replace k with (ctz_pos p + 1 + (k - ctz_pos p - 1)) in E by lia. rewrite !Z.pow_add_r in E by lia. change (2 ^ 1) with 2 in E.
           assert (2 * 2 ^ (k - ctz_pos p - 1) = 2 * q + 1) by nia. lia.
Qed.

(** powers of two *)
Lemma shl_one t k : std_uint t -> 0 <= k < wd t -> exists r, shl t 1 k = Ok r /\ cast t r = 2 ^ k.
Proof.
  intros Ht Hk. pose proof Ht as [Ht' Hs]. pose proof (wd_pos t Ht') as Hw. pose proof (promote_wd t Ht') as Hpw.
  unfold shl. cbv zeta. rewrite decide_True by lia. eexists. split; [done|]. rewrite cast_cast by (done || lia). rewrite Z.mul_1_l.
  apply cast_u_id; [done|]. pose proof (pow2_pos k ltac:(lia)). split; [lia|]. apply Z.pow_lt_mono_r; lia.
Qed.
Lemma bitlen_le v : 0 < v -> 1 <= bitlen v /\ 2 ^ (bitlen v - 1) <= v < 2 ^ bitlen v.
Proof.
  intros Hv. unfold bitlen. rewrite decide_False by lia. replace (Z.log2 v + 1 - 1) with (Z.log2 v) by lia.
  pose proof (Z.log2_spec v Hv) as H. pose proof (Z.log2_nonneg v). replace (Z.succ (Z.log2 v)) with (Z.log2 v + 1) in H by lia. lia.
Qed.
Lemma bit_width_ok clz t v : clz_impl clz -> std_uint t -> in_t t v -> bit_width clz t v = Ok (bitlen v).
Proof.
  intros Hc Ht Hv. pose proof Ht as [Ht' Hs]. pose proof (wd_pos t Ht') as Hw. unfold bit_width. rewrite (clz_impl_eq clz) by done. cbn [rbind].
  apply (in_u t v Hs) in Hv. assert (bitlen v <= wd t) by (apply bitlen_bound; lia). pose proof (bitlen_nonneg v). rewrite arith_s32 by lia. f_equal. lia.
Qed.
Lemma bit_floor_ok clz t v : clz_impl clz -> std_uint t -> in_t t v -> bit_floor clz t v = Ok (if decide (v = 0) then 0 else 2 ^ (bitlen v - 1)).
Proof.
  intros Hc Ht Hv. pose proof Ht as [Ht' Hs]. pose proof (wd_pos t Ht') as Hw. unfold bit_floor. case_decide as D; [done|].
  rewrite (clz_impl_eq clz) by done. cbn [rbind]. apply (in_u t v Hs) in Hv. assert (bitlen v <= wd t) by (apply bitlen_bound; lia).
  destruct (bitlen_le v ltac:(lia)). rewrite arith_s32 by lia. cbn [rbind]. replace (wd t - 1 - (wd t - bitlen v)) with (bitlen v - 1) by lia.
  destruct (shl_one t (bitlen v - 1) Ht ltac:(lia)) as (r & -> & E). cbn [rbind]. by rewrite E.
Qed.
Lemma bit_ceil_ok clz t v : clz_impl clz -> std_uint t -> in_t t v -> v <= 2 ^ (wd t - 1) ->
  bit_ceil clz t v = Ok (if decide (v <= 1) then 1 else 2 ^ bitlen (v - 1)).
Proof.
  intros Hc Ht Hv Hle. pose proof Ht as [Ht' Hs]. pose proof (wd_pos t Ht') as Hw. unfold bit_ceil. case_decide as D; [done|].
  apply (in_u t v Hs) in Hv. rewrite arith_promote_small by (done || lia). cbn [rbind]. rewrite cast_u_id by (done || lia).
  rewrite (clz_impl_eq clz) by (done || apply in_u; done || lia). cbn [rbind].
  assert (bitlen (v - 1) <= wd t - 1) by (apply bitlen_bound; lia).
  destruct (bitlen_le (v - 1) ltac:(lia)). rewrite arith_s32 by lia. cbn [rbind]. replace (wd t - (wd t - bitlen (v - 1))) with (bitlen (v - 1)) by lia.
  destruct (shl_one t (bitlen (v - 1)) Ht ltac:(lia)) as (r & -> & E). cbn [rbind]. by rewrite E.
Qed.

(** rotations *)
Lemma shl_cast_bits t v k i : std_uint t -> 0 <= k < wd t -> 0 <= i -> exists a, shl t v k = Ok a /\ Z.testbit (cast t a) i = (i <? wd t) && (k <=? i) && Z.testbit v (i - k).
Proof.
  intros Ht Hk Hi. pose proof Ht as [Ht' Hs]. pose proof (wd_pos t Ht') as Hw. pose proof (promote_wd t Ht') as Hpw.
  unfold shl. cbv zeta. rewrite decide_True by lia. eexists. split; [done|]. rewrite cast_cast by (done || lia). rewrite cast_bits by (done || lia).
  rewrite <-andb_assoc. f_equal. destruct (k <=? i) eqn:E; simpl.
  - by rewrite Z.mul_pow2_bits by lia.
  - rewrite Z.mul_pow2_bits_low by lia. done.
Qed.
Lemma shl_ok t v k : std_uint t -> 0 <= k < wd t -> shl t v k = Ok (cast (promote t) (v * 2 ^ k)).
Proof. intros [Ht' Hs] Hk. pose proof (promote_wd t Ht'). unfold shl. cbv zeta. by rewrite decide_True by lia. Qed.
Lemma shl_bits t v k i : std_uint t -> 0 <= k < wd t -> 0 <= i -> Z.testbit (cast t (cast (promote t) (v * 2 ^ k))) i = (i <? wd t) && (k <=? i) && Z.testbit v (i - k).
Proof.
  intros Ht Hk Hi. destruct (shl_cast_bits t v k i Ht Hk Hi) as (a & E & <-). rewrite shl_ok in E by done. by injection E as <-.
Qed.
Lemma rotl_pos_bits t v r : std_uint t -> in_t t v -> 0 < r < wd t -> wp (rotl_pos t v r) (fun x => in_t t x /\ forall i, 0 <= i < wd t -> Z.testbit x i = Z.testbit v ((i - r) mod wd t)).
Proof.
  intros Ht Hv Hr. pose proof Ht as [Ht' Hs]. pose proof (wd_pos t Ht') as Hw. pose proof (promote_wd t Ht') as Hpw. apply (in_u t v Hs) in Hv.
  unfold rotl_pos. rewrite shl_ok by (done || lia). cbn [rbind]. rewrite shr_ok by lia. cbn [rbind wp]. split; [apply cast_range; lia|].
  intros i Hi. rewrite cast_bits by (done || lia). replace (i <? wd t) with true by lia. simpl. rewrite Z.lor_spec, shl_bits by (done || lia).
  replace (i <? wd t) with true by lia. simpl. rewrite (cast_bits t (v / _)) by (done || lia). replace (i <? wd t) with true by lia. simpl.
  rewrite Z.div_pow2_bits by lia. destruct (r <=? i) eqn:E; simpl.
  - rewrite (testbit_high (wd t) v (i + _)) by lia. rewrite orb_false_r. f_equal. rewrite Z.mod_small; lia.
  - f_equal. replace (i - r) with ((i + (wd t - r)) + (-1) * wd t) by lia. rewrite Z.mod_add by lia. rewrite Z.mod_small; lia.
Qed.
Lemma rotr_pos_bits t v r : std_uint t -> in_t t v -> 0 < r < wd t -> wp (rotr_pos t v r) (fun x => in_t t x /\ forall i, 0 <= i < wd t -> Z.testbit x i = Z.testbit v ((i + r) mod wd t)).
Proof.
  intros Ht Hv Hr. pose proof Ht as [Ht' Hs]. pose proof (wd_pos t Ht') as Hw. pose proof (promote_wd t Ht') as Hpw. apply (in_u t v Hs) in Hv.
  unfold rotr_pos. rewrite shr_ok by lia. cbn [rbind]. rewrite shl_ok by (done || lia). cbn [rbind wp]. split; [apply cast_range; lia|].
  intros i Hi. rewrite cast_bits by (done || lia). replace (i <? wd t) with true by lia. simpl. rewrite Z.lor_spec, shl_bits by (done || lia).
  replace (i <? wd t) with true by lia. simpl. rewrite (cast_bits t (v / _)) by (done || lia). replace (i <? wd t) with true by lia. simpl.
  rewrite Z.div_pow2_bits by lia. destruct (wd t - r <=? i) eqn:E; simpl.
  - rewrite (testbit_high (wd t) v (i + _)) by lia. simpl. f_equal. replace (i + r) with ((i - (wd t - r)) + 1 * wd t) by lia. rewrite Z.mod_add by lia. rewrite Z.mod_small; lia.
  - rewrite orb_false_r. f_equal. rewrite Z.mod_small; lia.
Qed.
Lemma rem_facts k w : 0 < w -> exists q, k = w * q + Z.rem k w /\ - w < Z.rem k w < w.
Proof.
  intros Hw. exists (Z.quot k w). split; [apply Z.quot_rem'|]. pose proof (Z.rem_bound_abs k w ltac:(lia)). lia.
Qed.
Lemma rotl_bits t v k : std_uint t -> in_t t v -> wp (rotl t v k) (fun x => in_t t x /\ forall i, 0 <= i < wd t -> Z.testbit x i = Z.testbit v ((i - k) mod wd t)).
Proof.
  intros Ht Hv. pose proof Ht as [Ht' Hs]. pose proof (wd_pos t Ht') as Hw. unfold rotl. cbv zeta.
  destruct (rem_facts k (wd t) ltac:(lia)) as (q & Ek & Hr). remember (Z.rem k (wd t)) as r eqn:Er. clear Er.
  assert (Hm : forall i, (i - k) mod wd t = (i - r) mod wd t). { intros i. replace (i - k) with (i - r + (- q) * wd t) by lia. apply Z.mod_add. lia. }
  case_decide as D1; [eapply wp_mono; [apply rotl_pos_bits; [done|done|lia]|]; intros x [H1 H2]; split; [done|]; intros i Hi; rewrite Hm; by apply H2|].
  case_decide as D2.
  { simpl. split; [done|]. intros i Hi. rewrite Hm, D2, Z.sub_0_r, Z.mod_small by lia. done. }
  rewrite arith_s32 by lia. cbn [rbind]. unfold rotr1. cbv zeta. rewrite Z.rem_small by lia. rewrite decide_True by lia.
  eapply wp_mono; [apply rotr_pos_bits; [done|done|lia]|]. intros x [H1 H2]. split; [done|]. intros i Hi. rewrite Hm.
  replace (i - r) with (i + - r) by lia. by apply H2.
Qed.
Lemma rotr_bits t v k : std_uint t -> in_t t v -> wp (rotr t v k) (fun x => in_t t x /\ forall i, 0 <= i < wd t -> Z.testbit x i = Z.testbit v ((i + k) mod wd t)).
Proof.
  intros Ht Hv. pose proof Ht as [Ht' Hs]. pose proof (wd_pos t Ht') as Hw. unfold rotr. cbv zeta.
  destruct (rem_facts k (wd t) ltac:(lia)) as (q & Ek & Hr). remember (Z.rem k (wd t)) as r eqn:Er. clear Er.
  assert (Hm : forall i, (i + k) mod wd t = (i + r) mod wd t). { intros i. replace (i + k) with (i + r + q * wd t) by lia. apply Z.mod_add. lia. }
  case_decide as D1; [eapply wp_mono; [apply rotr_pos_bits; [done|done|lia]|]; intros x [H1 H2]; split; [done|]; intros i Hi; rewrite Hm; by apply H2|].
  case_decide as D2.
  { simpl. split; [done|]. intros i Hi. rewrite Hm, D2, Z.add_0_r, Z.mod_small by lia. done. }
  rewrite arith_s32 by lia. cbn [rbind]. unfold rotl1. cbv zeta. rewrite Z.rem_small by lia. rewrite decide_True by lia.
  eapply wp_mono; [apply rotl_pos_bits; [done|done|lia]|]. intros x [H1 H2]. split; [done|]. intros i Hi. rewrite Hm.
  replace (i + r) with (i - - r) by lia. by apply H2.
Qed.
