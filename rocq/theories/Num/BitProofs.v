From stdpp Require Import base numbers list list_numbers.
From Coq Require Import ZArith Lia Zify ZifyBool.
From Verif Require Import Base.Res Base.Int Num.BitModel Num.BitSpec.
Open Scope Z_scope.
Ltac Zify.zify_post_hook ::= Z.div_mod_to_equations.

Lemma pow2_pos k : 0 <= k -> 0 < 2 ^ k.
Proof. intros. apply Z.pow_pos_nonneg; lia. Qed.
Lemma testbit_high w v i : 0 <= v < 2 ^ w -> w <= i -> Z.testbit v i = false.
Proof.
  intros Hv Hi. destruct (decide (0 <= w)).
  2: { rewrite Z.pow_neg_r in Hv by lia. lia. }
  destruct (decide (v = 0)) as [->|]; [apply Z.bits_0|].
  apply Z.bits_above_log2; [lia|]. assert (Z.log2 v < w) by (apply Z.log2_lt_pow2; lia). lia.
Qed.
Lemma bitlen_clz w v : 0 <= w -> 0 <= v < 2 ^ w -> is_clz w v (w - bitlen v).
Proof.
  intros Hw Hv. unfold bitlen. case_decide as D.
  - subst. split; [lia|]. split; [intros; apply Z.bits_0|lia].
  - assert (0 <= Z.log2 v < w). { split; [apply Z.log2_nonneg|apply Z.log2_lt_pow2; lia]. }
    split; [lia|]. split.
    + intros i Hi. apply Z.bits_above_log2; lia.
    + intros _. replace (w - 1 - (w - (Z.log2 v + 1))) with (Z.log2 v) by lia. apply Z.bit_log2. lia.
Qed.
Lemma bitlen_bound v k : 0 <= v -> 0 <= k -> bitlen v <= k <-> v < 2 ^ k.
Proof.
  intros Hv Hk. unfold bitlen. case_decide as D.
  - subst. pose proof (pow2_pos k Hk). lia.
  - pose proof (Z.log2_lt_pow2 v k ltac:(lia)). lia.
Qed.
Lemma bitlen_shift v c : 0 <= c -> 0 <= v -> v / 2 ^ c <> 0 -> bitlen v = c + bitlen (v / 2 ^ c).
Proof.
  intros Hc Hv Hn. pose proof (pow2_pos c Hc). unfold bitlen. rewrite (decide_False (P := v / 2 ^ c = 0)) by done.
  rewrite decide_False. 2: { intros ->. rewrite Z.div_0_l in Hn; lia. }
  rewrite <-Z.shiftr_div_pow2 by lia. rewrite Z.log2_shiftr.
  - destruct (decide (c <= Z.log2 v)); [lia|]. exfalso. apply Hn. apply Z.div_small. split; [lia|].
    destruct (decide (v = 0)) as [->|]; [lia|]. apply Z.log2_lt_pow2; lia.
  - destruct (decide (v = 0)) as [->|]; [|lia]. rewrite Z.div_0_l in Hn; lia.
Qed.

Lemma in_u t v : sg t = false -> in_t t v <-> 0 <= v < 2 ^ wd t.
Proof. intros E. unfold in_t, tmin, tmax. rewrite E. lia. Qed.
Lemma shr_ok t a k : 0 <= k < wd (promote t) -> shr t a k = Ok (a / 2 ^ k).
Proof. intros. unfold shr. cbv zeta. by rewrite decide_True. Qed.

Lemma countl_zero_fallback_eq t v : std_uint t -> in_t t v -> countl_zero_fallback t v = Ok (wd t - bitlen v).
Proof.
  intros [Ht Hs] Hv. pose proof (wd_pos t Ht) as Hw. pose proof (promote_wd t Ht) as Hp.
  apply (in_u t v Hs) in Hv. unfold countl_zero_fallback.
  assert (Hk : exists k : Z, 0 <= k <= 5 /\ wd t / 2 = 2 ^ k /\ wd t = 2 * 2 ^ k).
  { destruct Ht as [<-|[<-|[<-|[<-|[]]]]]; [exists 2|exists 3|exists 4|exists 5]; vm_compute; intuition congruence. }
  destruct Hk as (k & Hk & -> & Hwk).
  match goal with |- context [loop ?f ?b ?s] => assert (H : wp (loop f b s)
      (fun '(v', n) => 0 <= v' <= 1 /\ n - v' = wd t - bitlen v /\ 0 <= n <= wd t)) end.
  { apply (wp_loop (fun '(v', n, c) => exists j, 0 <= j <= 5 /\ c = 2 ^ j /\ c < wd t /\ 0 <= v' < 2 ^ (2 * c) /\ v' < 2 ^ wd t /\ n - bitlen v' = wd t - bitlen v /\ 0 <= n <= wd t)
      (fun '(_, _, c) => Z.to_nat c)).
    2: { exists k. rewrite <-Hwk. pose proof (pow2_pos k). lia. }
    2: { pose proof (pow2_pos k). lia. }
    intros [[v' n] c] (j & Hj & -> & Hcw & Hv' & Hvw & Hinv & Hn). pose proof (pow2_pos j ltac:(lia)) as Hpj.
    rewrite shr_ok by lia. cbn [rbind]. pose proof (pow2_pos (2 ^ j) ltac:(lia)) as Hpp.
    assert (Hq : 0 <= v' / 2 ^ 2 ^ j < 2 ^ (2 ^ j)).
    { split; [apply Z.div_pos; lia|]. apply Z.div_lt_upper_bound; [lia|]. rewrite <-Z.pow_add_r by lia.
      replace (2 ^ j + 2 ^ j) with (2 * 2 ^ j) by lia. lia. }
    assert (Hq2 : v' / 2 ^ 2 ^ j < 2 ^ wd t). { assert (v' / 2 ^ 2 ^ j <= v'); [|lia]. apply Z.div_le_upper_bound; nia. }
    rewrite cast_id by (lia || (apply in_u; [done|lia])).
    set (st := if decide (v' / 2 ^ 2 ^ j ≠ 0) then (v' / 2 ^ 2 ^ j, n - 2 ^ j) else (v', n)).
    assert (Hst : 0 <= st.1 < 2 ^ (2 ^ j) /\ st.1 < 2 ^ wd t /\ st.2 - bitlen st.1 = wd t - bitlen v /\ 0 <= st.2 <= wd t).
    { unfold st. case_decide as D; simpl.
      - pose proof (bitlen_shift v' (2 ^ j) ltac:(lia) ltac:(lia) D) as E.
        assert (bitlen v' <= wd t) by (apply bitlen_bound; lia).
        assert (0 <= bitlen (v' / 2 ^ 2 ^ j)). { unfold bitlen. case_decide; [lia|]. pose proof (Z.log2_nonneg (v' / 2 ^ 2 ^ j)). lia. }
        assert (bitlen v <= wd t) by (apply bitlen_bound; lia).
        lia.
      - apply Z.div_small_iff in D; lia. }
    destruct st as [v2 n2]. simpl in Hst. rewrite shr_ok by (simpl; lia). cbn [rbind].
    change (2 ^ 1) with 2. destruct (decide (j = 0)) as [->|Hj0].
    - change (2 ^ 0) with 1. rewrite decide_False by (vm_compute; congruence). simpl.
      change (2 ^ 2 ^ 0) with 2 in Hst. assert (E : bitlen v2 = v2). { assert (v2 = 0 \/ v2 = 1) as [->| ->] by lia; reflexivity. } lia.
    - assert (E : 2 ^ j / 2 = 2 ^ (j - 1)). { replace j with (Z.succ (j - 1)) at 1 by lia. rewrite Z.pow_succ_r by lia. lia. }
      rewrite E. pose proof (pow2_pos (j - 1) ltac:(lia)). rewrite decide_True by lia. simpl.
      assert (E2 : 2 * 2 ^ (j - 1) = 2 ^ j). { rewrite <-Z.pow_succ_r by lia. f_equal. lia. }
      split; [|lia]. exists (j - 1). rewrite E2. lia. }
  apply wp_exists in H as ([v' n] & -> & H1 & H2 & H3). cbn [rbind].
  rewrite !cast_id by (unfold in_t, tmin, tmax; simpl; lia).
  unfold arith. simpl. rewrite decide_True; [by rewrite H2|]. unfold in_t, tmin, tmax; simpl.
  assert (bitlen v <= wd t) by (apply bitlen_bound; lia). lia.
Qed.

Lemma bitlen_nonneg v : 0 <= bitlen v.
Proof. unfold bitlen. case_decide; [lia|]. pose proof (Z.log2_nonneg v). lia. Qed.
Lemma wp_eq {A} (m : res A) r : m = Ok r -> forall Q : A -> Prop, Q r -> wp m Q.
Proof. intros -> Q H. exact H. Qed.
Lemma arith_s32 z : - 2147483648 <= z <= 2147483647 -> arith s32 z = Ok z.
Proof. intros H. unfold arith. cbn [sg s32]. rewrite decide_True; [done|]. unfold in_t, tmin, tmax. cbn [sg wd s32]. zpow. lia. Qed.
Lemma cast_s32 z : - 2147483648 <= z <= 2147483647 -> cast s32 z = z.
Proof. intros H. apply cast_id; [simpl; lia|]. unfold in_t, tmin, tmax. cbn [sg wd s32]. zpow. lia. Qed.
Lemma cast_u t z : sg t = false -> cast t z = z mod 2 ^ wd t.
Proof. intros H. unfold cast. by rewrite H. Qed.
Lemma cast_u_id t z : sg t = false -> 0 <= z < 2 ^ wd t -> cast t z = z.
Proof. intros H Hz. rewrite cast_u by done. by apply Z.mod_small. Qed.

(** 64-bit operands split in two halves *)
Lemma split32 v : 0 <= v < 2 ^ 64 -> cast u32 (v / 2 ^ 32) = v / 2 ^ 32 /\ 0 <= v / 2 ^ 32 < 2 ^ 32.
Proof.
  intros Hv. assert (0 <= v / 2 ^ 32 < 2 ^ 32) by (zpow; lia). split; [|done]. apply cast_u_id; done.
Qed.

Inductive clz_impl : (ity -> Z -> res Z) -> Prop :=
| clz_fallback : clz_impl countl_zero_fallback
| clz_lzcnt b : clz_impl (countl_zero_lzcnt b)
| clz_bsr b : clz_impl (countl_zero_bsr b)
| clz_arm64 : clz_impl countl_zero_arm64.

Lemma uint_cases (P : ity -> Prop) : P u8 -> P u16 -> P u32 -> P u64 -> forall t, std_uint t -> P t.
Proof.
  intros H1 H2 H3 H4 [w s] [H Hs]. cbn in *. subst s. destruct H as [<-|[<-|[<-|[<-|[]]]]]; done.
Qed.
Lemma bitlen_hi v : 0 <= v < 2 ^ 64 -> v / 2 ^ 32 <> 0 -> bitlen v = 32 + bitlen (v / 2 ^ 32).
Proof. intros Hv Hn. apply bitlen_shift; lia. Qed.
Lemma bitlen_lo v : 0 <= v < 2 ^ 64 -> v / 2 ^ 32 = 0 -> cast u32 v = v /\ bitlen v <= 32.
Proof.
  intros Hv Hn. assert (0 <= v < 2 ^ 32) by (zpow; lia). split; [by apply cast_u_id|]. apply bitlen_bound; lia.
Qed.
Lemma clz_impl_eq clz t v : clz_impl clz -> std_uint t -> in_t t v -> clz t v = Ok (wd t - bitlen v).
Proof.
  intros Hc Ht Hv. pose proof Ht as [Ht' Hs]. pose proof (wd_pos t Ht'). pose proof (bitlen_nonneg v).
  apply (in_u t v Hs) in Hv. assert (bitlen v <= wd t) by (apply bitlen_bound; lia).
  destruct Hc as [|b|b|]; [apply countl_zero_fallback_eq; [done|by apply in_u]|..].
  - revert Hv H1. pattern t. apply uint_cases; [..|done]; intros Hv H1; unfold countl_zero_lzcnt, hw_lzcnt; cbn [wd u8 u16 u32 u64] in *.
    + rewrite decide_True by lia. rewrite arith_s32 by lia. f_equal. lia.
    + rewrite decide_True by lia. rewrite arith_s32 by lia. f_equal. lia.
    + rewrite decide_False by lia. rewrite decide_True by lia. done.
    + rewrite decide_False by lia. rewrite decide_False by lia. destruct b; [done|]. rewrite shr_ok by (simpl; lia). cbn [rbind].
      destruct (split32 v Hv) as [-> Hh]. case_decide as D.
      * destruct (bitlen_lo v Hv D) as [-> Hl]. rewrite arith_s32 by lia. f_equal. lia.
      * f_equal. rewrite (bitlen_hi v) by done. lia.
  - assert (Hb : forall w u, hw_bsr u = None -> w = w - bitlen u). { intros w u. unfold hw_bsr, bitlen. case_decide; [lia|done]. }
    assert (Hb2 : forall u r, hw_bsr u = Some r -> bitlen u = r + 1 /\ 0 <= r).
    { intros u r. unfold hw_bsr, bitlen. case_decide; [done|]. intros [= <-]. split; [done|apply Z.log2_nonneg]. }
    assert (Hgen : forall w u, w <= 64 -> bitlen u <= w -> match hw_bsr u with None => Ok w | Some r => Ok (cast s32 (w - 1 - r)) end = Ok (w - bitlen u)).
    { intros w u Hw Hu. destruct (hw_bsr u) as [r|] eqn:E; [|f_equal; by apply Hb].
      apply Hb2 in E as [E Hr]. rewrite cast_s32 by lia. f_equal. lia. }
    revert Hv H1. pattern t. apply uint_cases; [..|done]; intros Hv H1; unfold countl_zero_bsr; cbn [wd u8 u16 u32 u64] in *.
    + rewrite decide_True by lia. apply Hgen; lia.
    + rewrite decide_True by lia. apply Hgen; lia.
    + rewrite decide_True by lia. apply Hgen; lia.
    + rewrite decide_False by lia. destruct b; [apply Hgen; lia|]. rewrite shr_ok by (simpl; lia). cbn [rbind].
      destruct (split32 v Hv) as [-> Hh]. destruct (hw_bsr (v / 2 ^ 32)) as [r|] eqn:E.
      * assert (v / 2 ^ 32 <> 0) by (intros E0; rewrite E0 in E; done).
        apply Hb2 in E as [E Hr]. rewrite (bitlen_hi v) by done.
        assert (bitlen (v / 2 ^ 32) <= 32) by (apply bitlen_bound; lia).
        rewrite cast_s32 by lia. f_equal. lia.
      * assert (D : v / 2 ^ 32 = 0). { unfold hw_bsr in E. by case_decide. }
        destruct (bitlen_lo v Hv D) as [-> Hl]. apply Hgen; lia.
  - revert Hv H1. pattern t. apply uint_cases; [..|done]; intros Hv H1; unfold countl_zero_arm64, hw_lzcnt; cbn [wd u8 u16 u32 u64] in *;
      (case_decide as D; [subst; done|]); rewrite ?(decide_True (P := _ <= 32)) by lia; rewrite ?(decide_False (P := _ <= 32)) by lia; try done; rewrite arith_s32 by lia; f_equal; lia.
Qed.

(** trailing zeros *)
Lemma ctz_pos_spec p : 0 <= ctz_pos p /\ (forall i, 0 <= i < ctz_pos p -> Z.testbit (Zpos p) i = false) /\ Z.testbit (Zpos p) (ctz_pos p) = true.
Proof.
  induction p as [p IH|p IH|].
  - cbn [ctz_pos]. split; [lia|]. split; [lia|done].
  - destruct IH as (H1 & H2 & H3). cbn [ctz_pos]. split; [lia|]. split.
    + intros i Hi. change (Zpos p~0) with (2 * Zpos p). destruct (decide (i = 0)) as [->|]; [apply Z.testbit_even_0|].
      replace i with (Z.succ (i - 1)) by lia. rewrite Z.testbit_even_succ by lia. apply H2. lia.
    + change (Zpos p~0) with (2 * Zpos p). replace (1 + ctz_pos p) with (Z.succ (ctz_pos p)) by lia. by rewrite Z.testbit_even_succ by lia.
  - cbn [ctz_pos]. split; [lia|]. split; [lia|done].
Qed.
Lemma is_ctz_unique w v r r' : is_ctz w v r -> is_ctz w v r' -> r = r'.
Proof.
  intros (H1 & H2 & H3) (H4 & H5 & H6). destruct (Z.lt_trichotomy r r') as [H|[H|H]]; [|done|].
  - rewrite H5 in H3; [|lia]. discriminate H3. lia.
  - rewrite H2 in H6; [|lia]. discriminate H6. lia.
Qed.
Lemma hw_tzcnt_ctz w v : 0 <= w -> 0 <= v < 2 ^ w -> is_ctz w v (hw_tzcnt w v).
Proof.
  intros Hw Hv. destruct v as [|p|p]; [|simpl|lia].
  - cbn. split; [lia|]. split; [intros; apply Z.bits_0|lia].
  - destruct (ctz_pos_spec p) as (H1 & H2 & H3). assert (ctz_pos p < w).
    { destruct (decide (ctz_pos p < w)); [done|]. rewrite (testbit_high w) in H3 by lia. done. }
    split; [lia|]. split; [done|]. done.
Qed.
Lemma hw_bsf_tzcnt w v : match hw_bsf v with None => w | Some r => r end = hw_tzcnt w v.
Proof. by destruct v. Qed.

(* ~v & (v-1) *)
Lemma ldiff_pred p : Z.ldiff (Zpos p - 1) (Zpos p) = 2 ^ ctz_pos p - 1.
Proof.
  induction p as [p IH|p IH|].
  - cbn [ctz_pos]. change (2 ^ 0 - 1) with 0. replace (Zpos p~1 - 1) with (2 * Zpos p) by lia.
    change (Zpos p~1) with (2 * Zpos p + 1). apply Z.bits_inj'. intros i Hi. rewrite Z.ldiff_spec, Z.bits_0.
    destruct (decide (i = 0)) as [->|]; [by rewrite Z.testbit_even_0|].
    replace i with (Z.succ (i - 1)) by lia. rewrite Z.testbit_even_succ, Z.testbit_odd_succ by lia. destruct (Z.testbit (Zpos p) (i - 1)); done.
  - cbn [ctz_pos]. pose proof (ctz_pos_spec p) as (H0 & _ & _). rewrite Z.pow_add_r by lia. change (2 ^ 1) with 2.
    replace (2 * 2 ^ ctz_pos p - 1) with (2 * (2 ^ ctz_pos p - 1) + 1) by lia. rewrite <-IH.
    replace (Zpos p~0 - 1) with (2 * (Zpos p - 1) + 1) by lia. change (Zpos p~0) with (2 * Zpos p).
    apply Z.bits_inj'. intros i Hi. rewrite Z.ldiff_spec.
    destruct (decide (i = 0)) as [->|]; [by rewrite Z.testbit_even_0, !Z.testbit_odd_0|].
    replace i with (Z.succ (i - 1)) by lia. rewrite Z.testbit_even_succ, !Z.testbit_odd_succ, Z.ldiff_spec by lia. done.
  - reflexivity.
Qed.
Lemma cast_bits t v i : sg t = false -> 0 <= wd t -> 0 <= i -> Z.testbit (cast t v) i = (i <? wd t) && Z.testbit v i.
Proof.
  intros Hs Hw Hi. rewrite cast_u by done. destruct (i <? wd t) eqn:E.
  - rewrite Z.mod_pow2_bits_low by lia. done.
  - rewrite Z.mod_pow2_bits_high by lia. done.
Qed.
(* a signed or unsigned conversion keeps the low bits *)
Lemma cast_low t v i : 1 <= wd t -> 0 <= i < wd t -> Z.testbit (cast t v) i = Z.testbit v i.
Proof.
  intros Hw Hi. destruct (cast_mod t v Hw) as [k ->]. rewrite <-(Z.mod_pow2_bits_low _ (wd t)) by lia.
  rewrite Z.mod_add by (pose proof (pow2_pos (wd t)); lia). by rewrite Z.mod_pow2_bits_low by lia.
Qed.
Lemma cast_cast t p v : sg t = false -> 1 <= wd t <= wd p -> cast t (cast p v) = cast t v.
Proof.
  intros Hs Hw. apply Z.bits_inj'. intros i Hi. rewrite (cast_bits t (cast p v)), (cast_bits t v) by (done || lia). destruct (i <? wd t) eqn:E; simpl; [|reflexivity].
  apply cast_low; lia.
Qed.
Lemma cast_bnot t v i : std_uint t -> 0 <= i -> Z.testbit (cast t (bnot t v)) i = (i <? wd t) && negb (Z.testbit v i).
Proof.
  intros [Ht Hs] Hi. pose proof (wd_pos t Ht). pose proof (promote_wd t Ht). unfold bnot. rewrite cast_cast by (done || lia).
  rewrite cast_bits by (done || lia). by rewrite Z.lnot_spec.
Qed.
Lemma arith_promote_small t z : std_uint t -> 0 <= z < 2 ^ wd t -> arith (promote t) z = Ok z.
Proof.
  intros Ht. pattern t. apply uint_cases; [..|done]; cbn [wd u8 u16 u32 u64]; intros Hz; unfold promote; cbn [wd Z.ltb Z.compare Pos.compare Pos.compare_cont].
  - apply arith_s32. revert Hz. zpow. lia.
  - apply arith_s32. revert Hz. zpow. lia.
  - unfold arith. simpl. by rewrite Z.mod_small.
  - unfold arith. simpl. by rewrite Z.mod_small.
Qed.
Lemma arith_promote_m1 t : std_uint t -> exists z, arith (promote t) (-1) = Ok z /\ cast t z = 2 ^ wd t - 1 /\ (z = -1 \/ z = 2 ^ wd t - 1).
Proof.
  intros Ht. pattern t. apply uint_cases; [..|done]; unfold promote; cbn [wd Z.ltb Z.compare Pos.compare Pos.compare_cont]; eexists; (split; [reflexivity|]); vm_compute; auto.
Qed.
Lemma countr_zero_fallback_ok t v : std_uint t -> in_t t v -> wp (countr_zero_fallback t v) (is_ctz (wd t) v).
Proof.
  intros Ht Hv. pose proof Ht as [Ht' Hs]. pose proof (wd_pos t Ht') as Hw. apply (in_u t v Hs) in Hv. unfold countr_zero_fallback.
  pose proof (pow2_pos (wd t) ltac:(lia)) as Hpp.
  assert (Hctz := hw_tzcnt_ctz (wd t) v ltac:(lia) Hv).
  destruct v as [|p|p]; [| |lia].
  - destruct (arith_promote_m1 t Ht) as (z & E & Ez & _). change (0 - 1) with (-1). rewrite E. cbn [rbind]. rewrite Ez.
    assert (E1 : cast t (Z.land (cast t (bnot t 0)) (2 ^ wd t - 1)) = 2 ^ wd t - 1).
    { apply Z.bits_inj'. intros i Hi. rewrite cast_bits by (done || lia). rewrite Z.land_spec, cast_bnot, Z.bits_0 by done.
      replace (2 ^ wd t - 1) with (Z.ones (wd t)) by (rewrite Z.ones_equiv; lia). rewrite Z.testbit_ones_nonneg by lia. destruct (i <? wd t); done. }
    rewrite E1. rewrite countl_zero_fallback_eq; [|done|apply in_u; [done|lia]]. cbn [rbind].
    assert (E2 : bitlen (2 ^ wd t - 1) = wd t).
    { unfold bitlen. rewrite decide_False; [|].
      - replace (2 ^ wd t - 1) with (Z.pred (2 ^ wd t)) by lia. rewrite Z.log2_pred_pow2 by lia. lia.
      - assert (2 ^ 1 <= 2 ^ wd t); [|lia]. apply Z.pow_le_mono_r; lia. }
    rewrite E2, arith_s32 by lia. cbn [wp]. by replace (wd t - (wd t - wd t)) with (wd t) by lia.
  - rewrite (arith_promote_small t) by (done || lia). cbn [rbind].
    assert (E1 : cast t (Z.land (cast t (bnot t (Zpos p))) (cast t (Zpos p - 1))) = 2 ^ ctz_pos p - 1).
    { rewrite <-ldiff_pred. apply Z.bits_inj'. intros i Hi. rewrite cast_bits by (done || lia).
      rewrite Z.land_spec, Z.ldiff_spec, cast_bnot, (cast_bits _ (Zpos p - 1)) by (done || lia).
      destruct (i <? wd t) eqn:E; simpl; [by rewrite andb_comm|]. rewrite (testbit_high (wd t) (Zpos p - 1)) by lia. done. }
    rewrite E1. cbn [hw_tzcnt] in Hctz. destruct (ctz_pos_spec p) as (H0 & H1 & H2).
    pose proof Hctz as (Hc1 & _ & _). pose proof (pow2_pos (ctz_pos p) H0).
    assert (2 ^ ctz_pos p <= 2 ^ wd t) by (apply Z.pow_le_mono_r; lia).
    rewrite countl_zero_fallback_eq; [|done|apply in_u; [done|lia]]. cbn [rbind].
    assert (E2 : bitlen (2 ^ ctz_pos p - 1) = ctz_pos p).
    { unfold bitlen. case_decide as D.
      - destruct (decide (ctz_pos p = 0)); [done|]. assert (2 ^ 1 <= 2 ^ ctz_pos p); [|lia]. apply Z.pow_le_mono_r; lia.
      - replace (2 ^ ctz_pos p - 1) with (Z.pred (2 ^ ctz_pos p)) by lia. rewrite Z.log2_pred_pow2; [lia|].
        destruct (decide (ctz_pos p = 0)) as [E|]; [rewrite E in D; lia|]. lia. }
    rewrite E2, arith_s32 by lia. cbn [wp]. by replace (wd t - (wd t - ctz_pos p)) with (ctz_pos p) by lia.
Qed.
Inductive ctz_impl : (ity -> Z -> res Z) -> Prop :=
| ctz_fallback : ctz_impl countr_zero_fallback
| ctz_tzcnt b : ctz_impl (countr_zero_tzcnt b)
| ctz_bsf b : ctz_impl (countr_zero_bsf b).
(* the widening trick *)
Lemma widen_bits t v i : std_uint t -> wd t <= 32 -> 0 <= i < 32 -> 0 <= v < 2 ^ wd t ->
  Z.testbit (cast u32 (Z.lor (bnot t (cast t (-1))) v)) i = (wd t <=? i) || Z.testbit v i.
Proof.
  intros Ht Hw Hi Hv. pose proof Ht as [Ht' Hs]. pose proof (wd_pos t Ht'). pose proof (promote_wd t Ht').
  rewrite cast_bits by (done || simpl; lia). replace (i <? wd u32) with true by (simpl; lia). simpl. rewrite Z.lor_spec. f_equal.
  unfold bnot. rewrite cast_low by lia. rewrite Z.lnot_spec, cast_bits by (done || lia). rewrite Z.bits_m1 by lia. lia.
Qed.
Lemma widen_ctz t v : std_uint t -> wd t <= 32 -> 0 <= v < 2 ^ wd t ->
  is_ctz (wd t) v (hw_tzcnt 32 (cast u32 (Z.lor (bnot t (cast t (-1))) v))) .
Proof.
  intros Ht Hw Hv. pose proof Ht as [Ht' Hs]. pose proof (wd_pos t Ht').
  remember (cast u32 (Z.lor (bnot t (cast t (-1))) v)) as X eqn:EX.
  assert (HX : 0 <= X < 2 ^ 32). { pose proof (cast_range u32 (Z.lor (bnot t (cast t (-1))) v) ltac:(simpl; lia)) as Hr. rewrite <-EX in Hr. apply in_u in Hr; done. }
  destruct (hw_tzcnt_ctz 32 X ltac:(lia) HX) as (H1 & H2 & H3). remember (hw_tzcnt 32 X) as r eqn:Er. clear Er.
  assert (Hb : forall i, 0 <= i < 32 -> Z.testbit X i = (wd t <=? i) || Z.testbit v i). { intros i Hi. rewrite EX. by apply widen_bits. }
  assert (r <= wd t). { destruct (decide (r <= wd t)); [done|]. specialize (H2 (wd t) ltac:(lia)). rewrite Hb in H2 by lia.
    replace (wd t <=? wd t) with true in H2 by lia. done. }
  split; [lia|]. split.
  - intros i Hi. specialize (H2 i ltac:(lia)). rewrite Hb in H2 by lia. by apply orb_false_iff in H2 as [_ ?].
  - intros Hr. specialize (H3 ltac:(lia)). rewrite Hb in H3 by lia. replace (wd t <=? r) with false in H3 by lia. done.
Qed.
Lemma split_bits_lo v i : 0 <= i < 32 -> Z.testbit (cast u32 v) i = Z.testbit v i.
Proof. intros Hi. apply cast_low; simpl; lia. Qed.
Lemma split_bits_hi v i : 0 <= i -> Z.testbit (v / 2 ^ 32) i = Z.testbit v (i + 32).
Proof. intros Hi. by rewrite Z.div_pow2_bits by lia. Qed.
Lemma lo_ctz v : 0 <= v < 2 ^ 64 -> cast u32 v <> 0 -> is_ctz 64 v (hw_tzcnt 32 (cast u32 v)).
Proof.
  intros Hv Hn. pose proof (cast_range u32 v ltac:(simpl; lia)) as Hr. apply (in_u u32) in Hr; [|done]. cbn [wd u32] in Hr.
  destruct (hw_tzcnt_ctz 32 _ ltac:(lia) Hr) as (H1 & H2 & H3).
  assert (hw_tzcnt 32 (cast u32 v) < 32).
  { destruct (decide (hw_tzcnt 32 (cast u32 v) < 32)); [done|]. exfalso. apply Hn. apply Z.bits_inj'. intros i Hi. rewrite Z.bits_0.
    destruct (decide (i < 32)); [apply H2; lia|]. apply (testbit_high 32); lia. }
  split; [lia|]. split.
  - intros i Hi. rewrite <-split_bits_lo by lia. by apply H2.
  - intros _. rewrite <-split_bits_lo by lia. by apply H3.
Qed.
Lemma hi_ctz v : 0 <= v < 2 ^ 64 -> cast u32 v = 0 -> is_ctz 64 v (32 + hw_tzcnt 32 (v / 2 ^ 32)).
Proof.
  intros Hv Hn. destruct (split32 v Hv) as [_ Hh]. destruct (hw_tzcnt_ctz 32 _ ltac:(lia) Hh) as (H1 & H2 & H3).
  split; [lia|]. split.
  - intros i Hi. destruct (decide (i < 32)).
    + rewrite <-split_bits_lo by lia. rewrite Hn. apply Z.bits_0.
    + replace i with ((i - 32) + 32) by lia. rewrite <-split_bits_hi by lia. apply H2. lia.
  - intros Hr. replace (32 + hw_tzcnt 32 (v / 2 ^ 32)) with (hw_tzcnt 32 (v / 2 ^ 32) + 32) by lia. rewrite <-split_bits_hi by lia. apply H3. lia.
Qed.
Lemma ctz_impl_ok ctz t v : ctz_impl ctz -> std_uint t -> in_t t v -> wp (ctz t v) (is_ctz (wd t) v).
Proof.
  intros Hc Ht Hv. pose proof Ht as [Ht' Hs]. pose proof (wd_pos t Ht') as Hw.
  destruct Hc as [|b|b]; [by apply countr_zero_fallback_ok|..]; apply (in_u t v Hs) in Hv.
  - unfold countr_zero_tzcnt. cbv zeta. case_decide as D; [cbn [wp]; by apply widen_ctz|].
    assert (E : wd t = 64). { clear -Ht' D. unfold std_ity in Ht'. cbn in Ht'. lia. } rewrite E in *.
    destruct b; [cbn [wp]; by apply hw_tzcnt_ctz|]. case_decide as D2.
    + rewrite shr_ok by (simpl; lia). cbn [rbind]. destruct (split32 v Hv) as [-> Hh].
      pose proof (hi_ctz v Hv D2) as H. pose proof H as (H1 & _ & _). rewrite arith_s32 by lia. exact H.
    + cbn [wp]. by apply lo_ctz.
  - unfold countr_zero_bsf. cbv zeta. case_decide as D.
    + pose proof (widen_ctz t v Ht D Hv) as Hz. remember (cast u32 (Z.lor (bnot t (cast t (-1))) v)) as X eqn:EX. clear EX.
      rewrite <-(hw_bsf_tzcnt 32) in Hz. destruct (hw_bsf X) as [r|] eqn:EB; cbn [wp]; [done|].
      assert (is_ctz (wd t) v (wd t)); [|done]. destruct Hz as (H1 & H2 & H3). split; [lia|]. split; [|lia]. intros i Hi. apply H2. lia.
    + assert (E : wd t = 64). { clear -Ht' D. unfold std_ity in Ht'. cbn in Ht'. lia. } rewrite E in *.
      destruct b.
      * pose proof (hw_tzcnt_ctz 64 v ltac:(lia) Hv) as Hz. rewrite <-hw_bsf_tzcnt in Hz. by destruct (hw_bsf v).
      * destruct (decide (cast u32 v = 0)) as [E0|E0].
        -- rewrite E0. cbn [hw_bsf]. rewrite shr_ok by (simpl; lia). cbn [rbind]. destruct (split32 v Hv) as [-> Hh].
           pose proof (hi_ctz v Hv E0) as Hz. rewrite <-(hw_bsf_tzcnt 32) in Hz. destruct (hw_bsf (v / 2 ^ 32)) as [r|]; cbn [wp].
           ++ by rewrite Z.add_comm.
           ++ exact Hz.
        -- pose proof (lo_ctz v Hv E0) as Hz. rewrite <-(hw_bsf_tzcnt 32) in Hz. destruct (hw_bsf (cast u32 v)) as [r|] eqn:EB; cbn [wp]; [done|].
           exfalso. apply E0. pose proof (cast_range u32 v ltac:(simpl; lia)) as Hr. apply (in_u u32) in Hr; [|done].
           destruct (cast u32 v); [done|done|lia].
Qed.
