(** Division of a two-word number by one word. *)
From stdpp Require Import base numbers list.
From Coq Require Import ZArith Znumtheory Lia.
From Verif Require Import Base.Res Base.Arr Base.Int Num.BitModel Num.BitSpec Num.BitProofs Cont.BitsetModel Cont.BitsetProofs
  Num.Int128Model Num.Int128Spec Num.Int128Proofs Num.Int128Proofs2 Num.Int128Proofs3.
Open Scope Z_scope.
Ltac Zify.zify_post_hook ::= idtac.

(** [2 ^ k] as a product *)
Lemma pow_split k d : 0 <= d <= k -> 2 ^ (k - d) * 2 ^ d = 2 ^ k.
Proof. intros. rewrite <-Z.pow_add_r by lia. f_equal. lia. Qed.
Lemma p2 d : 0 <= d -> 0 < 2 ^ d. Proof. intros. apply Z.pow_pos_nonneg; lia. Qed.
Lemma p2_le d e : 0 <= d <= e -> 2 ^ d <= 2 ^ e. Proof. intros. apply Z.pow_le_mono_r; lia. Qed.

Lemma sh_low x d : 0 <= d <= 32 -> w32 ((x * 2 ^ d) mod 2 ^ 64) = (x mod 2 ^ (32 - d)) * 2 ^ d.
Proof.
  intros Hd. rewrite w32_mod. assert (E : (x * 2 ^ d) mod 2 ^ 64 mod 2 ^ 32 = (x * 2 ^ d) mod 2 ^ 32).
  { symmetry. apply Znumtheory.Zmod_div_mod; [lia|lia|]. exists (2 ^ 32). done. }
  rewrite E. rewrite <-(pow_split 32 d) by lia. pose proof (p2 d). pose proof (p2 (32 - d)). apply Z.mul_mod_distr_r; lia.
Qed.
(** the three parts of a word shifted left by [d] *)
Lemma word_parts x d : 0 <= d <= 32 -> 0 <= x < 2 ^ 64 ->
  x = x mod 2 ^ (32 - d) + 2 ^ (32 - d) * w32 (x / 2 ^ (32 - d)) + 2 ^ (64 - d) * (x / 2 ^ (64 - d)) /\
  0 <= x mod 2 ^ (32 - d) < 2 ^ (32 - d) /\ 0 <= w32 (x / 2 ^ (32 - d)) < 2 ^ 32 /\ 0 <= x / 2 ^ (64 - d) < 2 ^ d.
Proof.
  intros Hd Hx. pose proof (p2 (32 - d) ltac:(lia)) as HP. pose proof (p2 (64 - d) ltac:(lia)) as HP2.
  assert (E : 2 ^ (64 - d) = 2 ^ (32 - d) * 2 ^ 32). { rewrite <-Z.pow_add_r by lia. f_equal. lia. }
  split_and!.
  - rewrite w32_mod. rewrite E. rewrite <-Z.div_div by lia.
    pose proof (split_word x (2 ^ (32 - d)) HP) as E1. pose proof (split_word (x / 2 ^ (32 - d)) (2 ^ 32) ltac:(lia)) as E2.
    set (y := x / 2 ^ (32 - d)) in *. set (P := 2 ^ (32 - d)) in *.
    assert (P * y = P * (2 ^ 32 * (y / 2 ^ 32) + y mod 2 ^ 32)) by (rewrite <-E2; done). lia.
  - by apply Z.mod_pos_bound.
  - by apply Z.mod_pos_bound.
  - by apply w32_range.
  - apply w32_range.
  - apply Z.div_pos; lia.
  - apply Z.div_lt_upper_bound; [lia|]. rewrite pow_split by lia. lia.
Qed.

Section shifted.
  Context (x d : Z).
  Hypothesis Hd : 0 <= d <= 31.
  Hypothesis Hx : 0 <= x < 2 ^ 64.
  Let xl := x mod 2 ^ (32 - d) * 2 ^ d.
  Let xm := w32 (x / 2 ^ (32 - d)).
  Let xh := x / 2 ^ (64 - d).

  Lemma sh_val1 : x * 2 ^ d = xl + 2 ^ 32 * (xm + 2 ^ 32 * xh).
  Proof.
    destruct (word_parts x d ltac:(lia) Hx) as (E & _). unfold xl, xm, xh.
    set (a := x mod 2 ^ (32 - d)) in *. set (b := w32 (x / 2 ^ (32 - d))) in *. set (c := x / 2 ^ (64 - d)) in *.
    assert (E2 : 2 ^ (64 - d) * 2 ^ d = 2 ^ 64) by (apply pow_split; lia). assert (E1 : 2 ^ (32 - d) * 2 ^ d = 2 ^ 32) by (apply pow_split; lia).
    transitivity (a * 2 ^ d + (2 ^ (32 - d) * 2 ^ d) * b + (2 ^ (64 - d) * 2 ^ d) * c); [rewrite E at 1; ring|]. rewrite E1, E2. lia.
  Qed.
  Lemma sh_ok : 0 <= xl <= 2 ^ 32 - 2 ^ d /\ okd xm /\ 0 <= xh < 2 ^ d /\ okd xl /\ 2 ^ d <= 2 ^ 31.
  Proof.
    destruct (word_parts x d ltac:(lia) Hx) as (_ & H1 & H2 & H3). pose proof (p2 d ltac:(lia)) as HD.
    pose proof (pow_split 32 d ltac:(lia)) as E1. pose proof (p2_le d 31 ltac:(lia)).
    assert (0 <= xl <= (2 ^ (32 - d) - 1) * 2 ^ d). { unfold xl. split; [apply Z.mul_nonneg_nonneg; lia|]. apply Z.mul_le_mono_nonneg_r; lia. }
    unfold okd, xm. lia.
  Qed.
  Lemma sh_join y : 0 <= y < 2 ^ 64 ->
    Z.lor (y mod 2 ^ (32 - d) * 2 ^ d) xh = y mod 2 ^ (32 - d) * 2 ^ d + xh /\ 0 <= y mod 2 ^ (32 - d) * 2 ^ d + xh < 2 ^ 32.
  Proof.
    intros Hy. set (yl := y mod 2 ^ (32 - d) * 2 ^ d). destruct sh_ok as (_ & _ & Hh & _).
    destruct (word_parts y d ltac:(lia) Hy) as (_ & H1 & H2 & H3). pose proof (p2 d ltac:(lia)) as HD.
    split; [apply lor_join; lia|].
    pose proof (pow_split 32 d ltac:(lia)) as E1.
    assert (0 <= yl <= (2 ^ (32 - d) - 1) * 2 ^ d). { unfold yl. split; [apply Z.mul_nonneg_nonneg; lia|]. apply Z.mul_le_mono_nonneg_r; lia. }
    lia.
  Qed.
End shifted.

Lemma sh_dig x y d : 0 <= d <= 31 -> 0 <= x < 2 ^ 64 -> 0 <= y < 2 ^ 64 ->
  dig [x mod 2 ^ (32 - d) * 2 ^ d; w32 (x / 2 ^ (32 - d)); y mod 2 ^ (32 - d) * 2 ^ d + x / 2 ^ (64 - d);
       w32 (y / 2 ^ (32 - d)); y / 2 ^ (64 - d)] = (x + 2 ^ 64 * y) * 2 ^ d /\
  Forall okd [x mod 2 ^ (32 - d) * 2 ^ d; w32 (x / 2 ^ (32 - d)); y mod 2 ^ (32 - d) * 2 ^ d + x / 2 ^ (64 - d);
       w32 (y / 2 ^ (32 - d)); y / 2 ^ (64 - d)].
Proof.
  intros Hd Hx Hy. pose proof (sh_val1 x d Hd Hx) as E1. pose proof (sh_val1 y d Hd Hy) as E2.
  destruct (sh_ok x d Hd Hx) as (A1 & A2 & A3 & A4 & A5). destruct (sh_ok y d Hd Hy) as (B1 & B2 & B3 & B4 & _).
  destruct (sh_join x d Hd Hx y Hy) as [_ C]. split.
  - cbn [digits]. rewrite Z.mul_add_distr_r. rewrite <-Z.mul_assoc. rewrite E1, E2. lia.
  - repeat (apply list.Forall_cons; split); try done; unfold okd; lia.
Qed.

Lemma udiv128_ok high low div : 0 <= high < div -> div < 2 ^ 64 -> 0 <= low < 2 ^ 64 ->
  udiv128 high low div = Ok ((high * 2 ^ 64 + low) / div, (high * 2 ^ 64 + low) mod div).
Proof.
  intros Hh Hdiv Hlow. unfold udiv128. rewrite rassert_true by (apply bool_decide_eq_true; lia). rewrite rbind_ok.
  rewrite shr64 by lia. rewrite rbind_ok.
  assert (Hdh : 0 <= div / 2 ^ 32 < 2 ^ 32). { split; [apply Z.div_pos; lia|]. apply Z.div_lt_upper_bound; lia. }
  rewrite w32_id by done. rewrite countl_zero_fallback_eq.
  2: { split; [cbn; tauto|done]. }
  2: { apply in_u; [done|]. exact Hdh. }
  rewrite rbind_ok. change (wd u32) with 32.
  set (N := high * 2 ^ 64 + low).
  destruct (decide (32 - bitlen (div / 2 ^ 32) >= 32)) as [Hbig|Hsm].
  - assert (E0 : div / 2 ^ 32 = 0).
    { unfold bitlen in Hbig. destruct (decide (div / 2 ^ 32 = 0)) as [E|E]; [done|]. pose proof (Z.log2_nonneg (div / 2 ^ 32)). lia. }
    assert (Hd32 : div < 2 ^ 32). { destruct (Z.lt_ge_cases div (2 ^ 32)); [done|]. assert (1 <= div / 2 ^ 32) by (apply Z.div_le_lower_bound; lia). lia. }
    rewrite shl64 by lia. rewrite rbind_ok. rewrite shr64 by lia. rewrite rbind_ok. cbv zeta. rewrite (w32_id div) by lia.
    assert (Hlh : 0 <= low / 2 ^ 32 < 2 ^ 32). { split; [apply Z.div_pos; lia|]. apply Z.div_lt_upper_bound; lia. }
    rewrite lor32 by lia. pose proof (split_word low (2 ^ 32) ltac:(lia)) as El. rewrite <-w32_mod in El. pose proof (w32_range low) as Hll.
    set (lh := low / 2 ^ 32) in *. set (X := high * 2 ^ 32 + lh).
    rewrite udiv_ok by lia. rewrite rbind_ok. rewrite umod_ok by lia. rewrite rbind_ok. rewrite shl64 by lia. rewrite rbind_ok.
    pose proof (Z.mod_pos_bound X div ltac:(lia)) as Hr1. rewrite lor32 by lia.
    pose proof (split_word X div ltac:(lia)) as EX.
    assert (HX : 0 <= X / div < 2 ^ 32).
    { split; [apply Z.div_pos; unfold X; lia|]. apply Z.div_lt_upper_bound; [lia|]. unfold X. nia. }
    set (Y := X mod div * 2 ^ 32 + w32 low).
    rewrite shl64 by lia. rewrite rbind_ok. rewrite udiv_ok by lia. rewrite rbind_ok. rewrite umod_ok by lia. rewrite rbind_ok.
    pose proof (split_word Y div ltac:(lia)) as EY. pose proof (Z.mod_pos_bound Y div ltac:(lia)) as HYm.
    assert (HY : 0 <= Y / div < 2 ^ 32).
    { split; [apply Z.div_pos; unfold Y; lia|]. apply Z.div_lt_upper_bound; [lia|]. unfold Y. nia. }
    rewrite lor32 by lia.
    destruct (divmod_eq N div (X / div * 2 ^ 32 + Y / div) (Y mod div)) as [-> ->]; [|done|done].
    assert (N = X * 2 ^ 32 + w32 low) as -> by (unfold N, X; lia).
    assert (X * 2 ^ 32 = (div * (X / div) + X mod div) * 2 ^ 32) as -> by (rewrite <-EX; done). unfold Y in *. lia.
  - assert (Hbl : 0 <= bitlen (div / 2 ^ 32) <= 32).
    { split; [apply bitlen_nonneg|]. apply bitlen_bound; lia. }
    set (d := 32 - bitlen (div / 2 ^ 32)) in *. assert (Hd : 0 <= d <= 31) by lia.
    (* the divisor is normalised *)
    assert (Hn : 2 ^ 63 <= div * 2 ^ d < 2 ^ 64).
    { assert (E0 : div / 2 ^ 32 <> 0). { intros E0. apply Hsm. unfold d. rewrite E0. change (bitlen 0) with 0. lia. }
      assert (Ebl : bitlen (div / 2 ^ 32) = Z.log2 (div / 2 ^ 32) + 1). { unfold bitlen. by rewrite decide_False. }
      assert (Ed : d = 31 - Z.log2 (div / 2 ^ 32)) by lia.
      pose proof (Z.log2_spec (div / 2 ^ 32) ltac:(lia)) as [L1 L2]. set (k := Z.log2 (div / 2 ^ 32)) in *.
      assert (Hk : 0 <= k) by apply Z.log2_nonneg.
      pose proof (p2 d ltac:(lia)) as HD.
      assert (P1 : 2 ^ k * 2 ^ d = 2 ^ 31). { rewrite <-Z.pow_add_r by lia. f_equal. lia. }
      assert (P2 : 2 ^ Z.succ k * 2 ^ d = 2 ^ 32). { rewrite <-Z.pow_add_r by lia. f_equal. lia. }
      pose proof (split_word div (2 ^ 32) ltac:(lia)) as Es. pose proof (Z.mod_pos_bound div (2 ^ 32) ltac:(lia)) as Hs.
      split.
      - assert (2 ^ k * 2 ^ d <= div / 2 ^ 32 * 2 ^ d) by (apply Z.mul_le_mono_nonneg_r; lia).
        assert (0 <= div mod 2 ^ 32 * 2 ^ d) by (apply Z.mul_nonneg_nonneg; lia).
        assert (div * 2 ^ d = 2 ^ 32 * (div / 2 ^ 32 * 2 ^ d) + div mod 2 ^ 32 * 2 ^ d) by (rewrite Es at 1; ring). lia.
      - assert (div < 2 ^ 32 * 2 ^ Z.succ k) by lia. assert (div * 2 ^ d < 2 ^ 32 * 2 ^ Z.succ k * 2 ^ d) by (apply Z.mul_lt_mono_pos_r; lia). lia. }
    assert (Hhigh : 0 <= high < 2 ^ 64) by lia. assert (Hdv : 0 <= div < 2 ^ 64) by lia. pose proof (p2 d ltac:(lia)) as HD.
    rewrite shl64 by lia. rewrite rbind_ok. rewrite shr64 by lia. rewrite rbind_ok.
    rewrite shl64 by lia. rewrite rbind_ok. rewrite shr64 by lia. rewrite rbind_ok.
    rewrite !sh_low by lia.
    destruct (sh_join low d Hd Hlow high Hhigh) as [J1 J2].
    destruct (sh_ok low d Hd Hlow) as (A1 & A2 & A3 & A4 & A5). destruct (sh_ok high d Hd Hhigh) as (B1 & B2 & B3 & B4 & _).
    match goal with |- rbind ?m _ = _ => assert (Em : m = Ok (high mod 2 ^ (32 - d) * 2 ^ d + low / 2 ^ (64 - d), high / 2 ^ (64 - d))) end.
    { case_decide as D.
      - rewrite shr64 by lia. rewrite rbind_ok. rewrite shr64 by lia. rewrite rbind_ok.
        rewrite (w32_id (low / _)), (w32_id (high / 2 ^ (64 - d))) by lia. rewrite J1, Z.lor_0_l. done.
      - assert (E0 : d = 0) by lia. rewrite E0 in *. change (64 - 0) with 64. rewrite !(Z.div_small _ (2 ^ 64)) by lia. rewrite Z.add_0_r. done. }
    rewrite Em, rbind_ok. clear Em.
    rewrite shl64 by lia. rewrite rbind_ok. rewrite shr64 by lia. rewrite rbind_ok. rewrite sh_low by lia.
    destruct (sh_dig low high d Hd Hlow Hhigh) as [ED EF].
    set (ul := [low mod 2 ^ (32 - d) * 2 ^ d; w32 (low / 2 ^ (32 - d)); high mod 2 ^ (32 - d) * 2 ^ d + low / 2 ^ (64 - d);
       w32 (high / 2 ^ (32 - d)); high / 2 ^ (64 - d)]) in *.
    pose proof (sh_val1 div d Hd Hdv) as EV. destruct (sh_ok div d Hd Hdv) as (V1 & V2 & V3 & V4 & _).
    assert (Evh : div / 2 ^ (64 - d) = 0). { apply Z.div_small. split; [lia|]. apply (Z.mul_lt_mono_pos_r (2 ^ d)); [lia|]. rewrite pow_split by lia. lia. }
    rewrite Evh in EV.
    set (vl := [div mod 2 ^ (32 - d) * 2 ^ d; w32 (div / 2 ^ (32 - d))]) in *.
    assert (EVd : dig vl = div * 2 ^ d). { unfold vl. cbn [digits]. lia. }
    destruct (knuth_ok 2 2 ul vl [] [None; None; None]) as (u' & ql & Ek & K1 & K2 & K3 & K4 & K5 & K6); try done.
    { unfold vl. repeat (apply list.Forall_cons; split); done. }
    { unfold vl. change (default 0 (last _)) with (w32 (div / 2 ^ (32 - d))). unfold okd in V2, V4. lia. }
    { rewrite EVd. unfold ul. cbn [drop digits]. change (drop (2 + 1) _) with [w32 (high / 2 ^ (32 - d)); high / 2 ^ (64 - d)]. cbn [digits].
      assert (high / 2 ^ (64 - d) = 0) as ->.
      { apply Z.div_small. split; [lia|]. apply (Z.mul_lt_mono_pos_r (2 ^ d)); [lia|]. rewrite pow_split by lia.
        assert (high * 2 ^ d < div * 2 ^ d) by (apply Z.mul_lt_mono_pos_r; lia). lia. }
      unfold okd in B2. lia. }
    { cbn [length]. lia. }
    rewrite app_nil_r in Ek. change (2 + 2 + 1)%nat with 5%nat in Ek. rewrite Ek, rbind_ok.
    destruct u' as [|r0 [|r1 [|]]]; try done. destruct ql as [|q0 [|q1 [|q2 [|]]]]; try done.
    change (rd _ 1) with (Ok r1) at 1. rewrite rbind_ok. change (rd _ 0) with (Ok r0) at 1. rewrite rbind_ok.
    rewrite shl64 by lia. rewrite rbind_ok. rewrite shr32 by lia. rewrite rbind_ok. cbv zeta.
    change (rd _ 1) with (Ok q1). rewrite rbind_ok. change (rd _ 0) with (Ok q0). rewrite rbind_ok.
    rewrite shl64 by lia. rewrite rbind_ok.
    rewrite ED, EVd in K5, K6. rewrite Z.mul_mod_distr_r in K5 by lia. rewrite Z.div_mul_cancel_r in K6 by lia.
    replace (low + 2 ^ 64 * high) with N in K5, K6 by (unfold N; lia).
    cbn [digits] in K5, K6.
    repeat match goal with H : Forall okd (_ :: _) |- _ => apply list.Forall_cons in H as [? H] end. unfold okd in *.
    assert (HNq : 0 <= N / div < 2 ^ 64).
    { split; [apply Z.div_pos; unfold N; lia|]. apply Z.div_lt_upper_bound; [lia|]. unfold N. nia. }
    assert (q2 = 0) as -> by lia. rewrite lor32 by lia. pose proof (Z.mod_pos_bound N div ltac:(lia)) as HR. set (R := N mod div) in *.
    (* the remainder *)
    pose proof (pow_split 32 d ltac:(lia)) as P32. pose proof (p2 (32 - d) ltac:(lia)) as HPd.
    assert (Er0 : r0 = 2 ^ d * (R - 2 ^ (32 - d) * r1) + 0). { transitivity (R * 2 ^ d - (2 ^ (32 - d) * 2 ^ d) * r1); [rewrite P32; lia|ring]. }
    destruct (divmod_eq r0 (2 ^ d) (R - 2 ^ (32 - d) * r1) 0 Er0 ltac:(lia)) as [Eq0 _]. rewrite Eq0.
    assert (Hr0 : 0 <= R - 2 ^ (32 - d) * r1 < 2 ^ (32 - d)).
    { rewrite <-Eq0. split; [apply Z.div_pos; lia|]. apply Z.div_lt_upper_bound; [lia|]. rewrite Z.mul_comm, P32. lia. }
    assert (HR1 : 0 <= r1 * 2 ^ (32 - d) < 2 ^ 64).
    { split; [apply Z.mul_nonneg_nonneg; lia|]. lia. }
    rewrite (Z.mod_small (r1 * 2 ^ (32 - d))) by done. rewrite lor_join by lia. f_equal. f_equal; lia.
Qed.
