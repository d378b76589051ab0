(** 128-bit division. *)
From stdpp Require Import base numbers list.
From Coq Require Import ZArith Znumtheory Lia.
From Verif Require Import Base.Res Base.Arr Base.Int Num.BitModel Num.BitSpec Num.BitProofs Cont.BitsetModel Cont.BitsetProofs
  Num.Int128Model Num.Int128Spec Num.Int128Proofs Num.Int128Proofs2 Num.Int128Proofs3 Num.Int128Proofs4 Num.Int128Proofs5.
Open Scope Z_scope.
Ltac Zify.zify_post_hook ::= idtac.

Lemma norm_word w : 0 < w < 2 ^ 64 -> 0 <= 64 - bitlen w <= 63 /\ 2 ^ 63 <= w * 2 ^ (64 - bitlen w) < 2 ^ 64.
Proof.
  intros Hw. assert (E : bitlen w = Z.log2 w + 1). { unfold bitlen. rewrite decide_False by lia. done. }
  pose proof (Z.log2_spec w ltac:(lia)) as [L1 L2]. pose proof (Z.log2_nonneg w) as L0.
  assert (L3 : Z.log2 w < 64) by (apply Z.log2_lt_pow2; lia). rewrite E. split; [lia|].
  set (k := Z.log2 w) in *. pose proof (p2 (64 - (k + 1)) ltac:(lia)) as HD.
  assert (P1 : 2 ^ k * 2 ^ (64 - (k + 1)) = 2 ^ 63). { rewrite <-Z.pow_add_r by lia. f_equal. lia. }
  assert (P2 : 2 ^ Z.succ k * 2 ^ (64 - (k + 1)) = 2 ^ 64). { rewrite <-Z.pow_add_r by lia. f_equal. lia. }
  split.
  - rewrite <-P1. apply Z.mul_le_mono_nonneg_r; lia.
  - rewrite <-P2. apply Z.mul_lt_mono_pos_r; lia.
Qed.
Lemma clz64 w : 0 <= w < 2 ^ 64 -> countl_zero_fallback u64 w = Ok (64 - bitlen w).
Proof. intros H. apply countl_zero_fallback_eq; [split; [cbn; tauto|done]|]. by apply in_u. Qed.
Lemma cast_u8_id z : 0 <= z < 256 -> cast u8 z = z.
Proof. intros. apply cast_u_id; done. Qed.
Lemma of_u64_ok z : 0 <= z < 2 ^ 64 -> ok128 (of_u64 z) /\ uval (of_u64 z) = z.
Proof.
  intros Hz. unfold of_u64, of_int. cbn [sg u64]. change (cast u64 z) with (w64 z). rewrite w64_id by done.
  split; [apply ok_pair; lia|]. rewrite uval_pair. lia.
Qed.

(** long division by one digit *)
Lemma divide64_ok num den : ok128 num -> 0 < den < 2 ^ 64 ->
  exists r, divide64 num den = Ok r /\ ok128 r /\ uval r = uval num / den.
Proof.
  destruct num as [a b]. intros [Ha Hb] Hd. cbn [fst snd] in *. unfold divide64. cbn [fst snd].
  rewrite udiv_ok by lia. rewrite rbind_ok. rewrite umod_ok by lia. rewrite rbind_ok.
  pose proof (Z.mod_pos_bound b den ltac:(lia)) as Hm. pose proof (split_word b den ltac:(lia)) as Eb.
  rewrite udiv128_ok by lia. rewrite rbind_ok. eexists. split; [done|].
  set (N := b mod den * 2 ^ 64 + a). pose proof (split_word N den ltac:(lia)) as EN. pose proof (Z.mod_pos_bound N den ltac:(lia)) as HN.
  assert (0 <= N / den < 2 ^ 64). { split; [apply Z.div_pos; unfold N; lia|]. apply Z.div_lt_upper_bound; [lia|]. unfold N. nia. }
  assert (0 <= b / den <= b). { split; [apply Z.div_pos; lia|]. apply Z.div_le_upper_bound; nia. }
  split; [apply ok_pair; lia|]. rewrite !uval_pair. symmetry. eapply (divmod_eq _ _ _ (N mod den)); [|done].
  assert (b * 2 ^ 64 = (den * (b / den) + b mod den) * 2 ^ 64) by (rewrite <-Eb; done). unfold N in *. lia.
Qed.
Lemma modulo64_ok num den : ok128 num -> 0 < den < 2 ^ 64 ->
  exists r, modulo64 num den = Ok r /\ ok128 r /\ uval r = uval num mod den.
Proof.
  destruct num as [a b]. intros [Ha Hb] Hd. cbn [fst snd] in *. unfold modulo64. cbn [fst snd].
  rewrite umod_ok by lia. rewrite rbind_ok.
  pose proof (Z.mod_pos_bound b den ltac:(lia)) as Hm. pose proof (split_word b den ltac:(lia)) as Eb.
  rewrite udiv128_ok by lia. rewrite rbind_ok. eexists. split; [done|].
  set (N := b mod den * 2 ^ 64 + a). pose proof (split_word N den ltac:(lia)) as EN. pose proof (Z.mod_pos_bound N den ltac:(lia)) as HN.
  destruct (of_u64_ok (N mod den) ltac:(lia)) as [O1 O2]. split; [done|]. rewrite O2. rewrite uval_pair.
  symmetry. eapply (divmod_eq _ _ (2 ^ 64 * (b / den) + N / den)); [|done].
  assert (b * 2 ^ 64 = (den * (b / den) + b mod den) * 2 ^ 64) by (rewrite <-Eb; done). unfold N in *. lia.
Qed.
Lemma long32 a b den : 0 <= a < 2 ^ 64 -> 0 <= b < 2 ^ 64 -> 0 < den < 2 ^ 32 ->
  let X := b mod den * 2 ^ 32 + a / 2 ^ 32 in
  let Y := X mod den * 2 ^ 32 + w32 a in
  0 <= X / den < 2 ^ 32 /\ 0 <= Y / den < 2 ^ 32 /\ 0 <= b / den < 2 ^ 64 /\ 0 <= b mod den < den /\ 0 <= X mod den < den /\ 0 <= Y mod den < den /\
  0 <= a / 2 ^ 32 < 2 ^ 32 /\
  (a + 2 ^ 64 * b) / den = 2 ^ 64 * (b / den) + (X / den * 2 ^ 32 + Y / den) /\ (a + 2 ^ 64 * b) mod den = Y mod den.
Proof.
  intros Ha Hb Hd X Y.
  pose proof (Z.mod_pos_bound b den ltac:(lia)) as Hm. pose proof (split_word b den ltac:(lia)) as Eb.
  assert (Hah : 0 <= a / 2 ^ 32 < 2 ^ 32). { split; [apply Z.div_pos; lia|]. apply Z.div_lt_upper_bound; lia. }
  pose proof (split_word a (2 ^ 32) ltac:(lia)) as Ea. rewrite <-w32_mod in Ea. pose proof (w32_range a) as Hal.
  pose proof (split_word X den ltac:(lia)) as EX. pose proof (Z.mod_pos_bound X den ltac:(lia)) as HX.
  pose proof (split_word Y den ltac:(lia)) as EY. pose proof (Z.mod_pos_bound Y den ltac:(lia)) as HY.
  assert (HXq : 0 <= X / den < 2 ^ 32). { split; [apply Z.div_pos; unfold X; lia|]. apply Z.div_lt_upper_bound; [lia|]. unfold X. lia. }
  assert (HYq : 0 <= Y / den < 2 ^ 32). { split; [apply Z.div_pos; unfold Y; lia|]. apply Z.div_lt_upper_bound; [lia|]. unfold Y. lia. }
  assert (Hbq : 0 <= b / den <= b).
  { clear EY HY EX HX HXq HYq. split; [apply Z.div_pos; lia|]. apply Z.div_le_upper_bound; [lia|]. assert (1 * b <= den * b) by (apply Z.mul_le_mono_nonneg_r; lia). lia. }
  destruct (divmod_eq (a + 2 ^ 64 * b) den (2 ^ 64 * (b / den) + (X / den * 2 ^ 32 + Y / den)) (Y mod den)) as [-> ->].
  - assert (b * 2 ^ 64 = (den * (b / den) + b mod den) * 2 ^ 64) by (rewrite <-Eb; done).
    assert (EX' : X = b mod den * 2 ^ 32 + a / 2 ^ 32) by done. assert (EY' : Y = X mod den * 2 ^ 32 + w32 a) by done. clearbody Y. clearbody X.
    transitivity (2 ^ 64 * (den * (b / den)) + 2 ^ 32 * (den * (X / den)) + (den * (Y / den) + Y mod den)); [|ring].
    rewrite <-EY, EY'. rewrite EX' in EX at 1. lia.
  - done.
  - split_and!; try done; lia.
Qed.
Lemma divide32_ok num den : ok128 num -> 0 < den < 2 ^ 32 ->
  exists r, divide32 num den = Ok r /\ ok128 r /\ uval r = uval num / den.
Proof.
  destruct num as [a b]. intros [Ha Hb] Hd. cbn [fst snd] in *. unfold divide32. cbn [fst snd].
  destruct (long32 a b den Ha Hb Hd) as (H1 & H2 & H3 & H4 & H5 & H6 & H7 & H8 & H9).
  rewrite udiv_ok by lia. rewrite rbind_ok. rewrite umod_ok by lia. rewrite rbind_ok.
  rewrite shl64 by lia. rewrite rbind_ok. rewrite shr64 by lia. rewrite rbind_ok. cbv zeta. pose proof (w32_range a).
  rewrite (lor32 (b mod den)) by lia. rewrite udiv_ok by lia. rewrite rbind_ok. rewrite shl64 by lia. rewrite rbind_ok.
  rewrite umod_ok by lia. rewrite rbind_ok. rewrite shl64 by lia. rewrite rbind_ok. rewrite (lor32 (_ mod den)) by lia.
  rewrite udiv_ok by lia. rewrite rbind_ok. rewrite (w32_id (_ / den)) by lia. rewrite lor32 by lia.
  eexists. split; [done|]. split; [apply ok_pair; lia|]. rewrite !uval_pair. rewrite H8. lia.
Qed.
Lemma modulo32_ok num den : ok128 num -> 0 < den < 2 ^ 32 ->
  exists r, modulo32 num den = Ok r /\ ok128 r /\ uval r = uval num mod den.
Proof.
  destruct num as [a b]. intros [Ha Hb] Hd. cbn [fst snd] in *. unfold modulo32. cbn [fst snd].
  destruct (long32 a b den Ha Hb Hd) as (H1 & H2 & H3 & H4 & H5 & H6 & H7 & H8 & H9).
  rewrite umod_ok by lia. rewrite rbind_ok.
  rewrite shl64 by lia. rewrite rbind_ok. rewrite shr64 by lia. rewrite rbind_ok. cbv zeta. pose proof (w32_range a).
  rewrite (lor32 (b mod den)) by lia.
  rewrite umod_ok by lia. rewrite rbind_ok. rewrite shl64 by lia. rewrite rbind_ok. rewrite (lor32 (_ mod den)) by lia.
  rewrite umod_ok by lia. rewrite rbind_ok.
  eexists. split; [done|]. destruct (of_u64_ok (((b mod den * 2 ^ 32 + a / 2 ^ 32) mod den * 2 ^ 32 + w32 a) mod den)) as [O1 O2]; [lia|].
  split; [done|]. rewrite O2, uval_pair, H9. done.
Qed.

(** normalisation and quotient estimate in base 2^64 *)
Lemma estimate64_ok num den : ok128 num -> ok128 den -> 0 < den.2 -> den.2 < num.2 ->
  let d := 64 - bitlen den.2 in
  exists high num' den' q0, estimate64 num den = Ok (high, num', den', (q0, 0)) /\
    0 <= d <= 63 /\ ok128 num' /\ ok128 den' /\ 0 <= high < 2 ^ 64 /\ 0 <= q0 < 2 ^ 64 /\
    uval den' = uval den * 2 ^ d /\ high * 2 ^ 128 + uval num' = uval num * 2 ^ d /\
    uval num / uval den <= q0 <= uval num / uval den + 1.
Proof.
  intros Hn Hd Hd1 Hlt d. pose proof Hn as [Hn0 Hn1]. pose proof Hd as [Hd0 Hd2]. fold (fst num) (snd num) in Hn0, Hn1. fold (fst den) (snd den) in Hd0, Hd2.
  destruct (norm_word den.2 ltac:(lia)) as [Hdr Hnorm]. fold d in Hdr, Hnorm. pose proof (p2 d ltac:(lia)) as HD.
  unfold estimate64. rewrite clz64 by lia. rewrite rbind_ok. fold d. rewrite cast_u8_id by lia.
  destruct (left_shift_ok den d Hd ltac:(lia)) as (den' & Ed & Hod & Evd). rewrite Ed, rbind_ok.
  assert (Euv : uval den' = uval den * 2 ^ d).
  { rewrite Evd. unfold wrapu. apply Z.mod_small. unfold uval. fold (fst den) (snd den).
    split; [apply Z.mul_nonneg_nonneg; lia|].
    assert (den.1 * 2 ^ d < 2 ^ 64 * 2 ^ d) by (apply Z.mul_lt_mono_pos_r; lia).
    assert ((den.2 + 1) * 2 ^ d <= 2 ^ 64).
    { assert (Hm : (den.2 * 2 ^ d) mod 2 ^ d = 0) by (apply Z.mod_mul; lia).
      pose proof (pow_split 64 d ltac:(lia)) as EP. rewrite <-EP. apply Z.mul_le_mono_nonneg_r; [lia|].
      assert (den.2 * 2 ^ d < 2 ^ (64 - d) * 2 ^ d) as H2 by lia. apply Z.mul_lt_mono_pos_r in H2; lia. }
    lia. }
  pose proof (pow_split 64 d ltac:(lia)) as EP. pose proof (p2 (64 - d) ltac:(lia)) as HP.
  match goal with |- context [rbind ?m _ = _] => idtac | _ => idtac end.
  assert (Eh : (if decide (d = 0) then Ok 0 else shr u64 num.2 (64 - d)) = Ok (num.2 / 2 ^ (64 - d))).
  { case_decide as D; [|by rewrite shr64 by lia]. rewrite D. change (64 - 0) with 64. rewrite Z.div_small by lia. done. }
  rewrite Eh, rbind_ok. set (high := num.2 / 2 ^ (64 - d)) in *.
  assert (Hh : 0 <= high < 2 ^ d). { split; [apply Z.div_pos; lia|]. apply Z.div_lt_upper_bound; lia. }
  pose proof (p2_le d 63 ltac:(lia)) as Hd63.
  destruct (left_shift_ok num d Hn ltac:(lia)) as (num' & En & Hon & Evn). rewrite En, rbind_ok. cbv zeta.
  assert (Euvn : high * 2 ^ 128 + uval num' = uval num * 2 ^ d).
  { rewrite Evn. unfold wrapu.
    assert (Eq : uval num * 2 ^ d / 2 ^ 128 = high).
    { replace (2 ^ 128) with (2 ^ 64 * 2 ^ (64 - d) * 2 ^ d) by (rewrite <-Z.mul_assoc, EP; done).
      rewrite Z.div_mul_cancel_r by lia. rewrite <-Z.div_div by lia. unfold uval. fold (fst num) (snd num).
      rewrite (Z.mul_comm (2 ^ 64)), Z.div_add by lia. rewrite (Z.div_small num.1) by lia. done. }
    pose proof (split_word (uval num * 2 ^ d) (2 ^ 128) ltac:(lia)) as E. rewrite Eq in E. lia. }
  destruct den' as [v2 v1]. destruct num' as [u2 ul]. pose proof Hod as [Ho1 Ho2]. pose proof Hon as [Ho3 Ho4]. cbn [fst snd] in *.
  assert (Hv1 : 2 ^ 63 <= v1).
  { rewrite uval_pair in Euv. unfold uval in Euv. fold (fst den) (snd den) in Euv.
    assert (0 <= den.1 * 2 ^ d) by (apply Z.mul_nonneg_nonneg; lia). lia. }
  assert (Hlt1 : high < v1) by lia.
  rewrite (bool_decide_false (high >= v1)) by lia. rewrite (decide_False (P := high >= v1)) by lia.
  rewrite udiv128_ok by lia. rewrite rbind_ok. set (two := high * 2 ^ 64 + ul).
  assert (Htwo : 0 <= two) by (unfold two; lia).
  assert (HU0 : 0 <= 0 < 1) by lia. assert (HP1 : 0 < 1) by lia. assert (Hv1' : 0 < v1 < 2 ^ 64) by lia. assert (Hb : 2 <= 2 ^ 64) by lia.
  assert (EU : (two * 2 ^ 64 + u2) * 1 + 0 = uval num * 2 ^ d). { rewrite <-Euvn. rewrite uval_pair. unfold two. lia. }
  assert (EV : (v1 * 2 ^ 64 + v2) * 1 + 0 = uval den * 2 ^ d). { rewrite <-Euv. rewrite uval_pair. lia. }
  assert (HU : (two * 2 ^ 64 + u2) * 1 + 0 < ((v1 * 2 ^ 64 + v2) * 1 + 0) * 2 ^ 64).
  { unfold two. assert (high + 1 <= v1) by lia. lia. }
  pose proof (km_init (2 ^ 64) 1 v1 v2 0 two u2 0 Hb HP1 Hv1' Ho1 HU0 Htwo Ho3 HU0 HU) as Hinit.
  pose proof (km_q (2 ^ 64) 1 v1 v2 0 two u2 0 Hb HP1 Hv1' Ho1 HU0 Htwo Ho3 HU0 HU) as [Hq _].
  assert (Eq : ((two * 2 ^ 64 + u2) * 1 + 0) / ((v1 * 2 ^ 64 + v2) * 1 + 0) = uval num / uval den).
  { rewrite EU, EV. apply Z.div_mul_cancel_r; [|lia]. unfold uval. fold (fst den) (snd den). lia. }
  set (q := uval num / uval den) in *. rewrite Eq in Hinit, Hq. cbn [b2z].
  match goal with |- context [loop 4 ?f ?s] => assert (HL : wp (loop 4 f s) (fun r => r.2 = 0 /\ 0 <= r.1 < 2 ^ 64 /\ q <= r.1 <= q + 1)) end.
  { apply (wp_loop (fun '(qhat, rhat) => qhat.2 = 0 /\ q <= qhat.1 < 2 ^ 64 /\ 0 <= rhat < 2 ^ 64 /\ two = qhat.1 * v1 + rhat)
             (fun '(_, rhat) => if rhat <? 2 ^ 63 then 2%nat else 1%nat)).
    2: { cbn [fst snd]. pose proof (split_word two v1 ltac:(lia)). pose proof (Z.mod_pos_bound two v1 ltac:(lia)).
         assert (two / v1 < 2 ^ 64). { apply Z.div_lt_upper_bound; [lia|]. unfold two. nia. }
         split; [done|]. lia. }
    2: { destruct (_ <? _); lia. }
    intros [[qh z] rhat] (Hz & Hqh & Hrh & Et). cbn [fst snd] in *. subst z. rewrite (decide_False (P := 0 > 0)) by lia.
    rewrite umul128_ok by lia. rewrite rbind_ok.
    assert (Hpr : 0 <= qh * v2 <= (2 ^ 64 - 1) * (2 ^ 64 - 1)) by (apply mul_range; lia).
    pose proof (split_word (qh * v2) (2 ^ 64) ltac:(lia)) as Ep. pose proof (Z.mod_pos_bound (qh * v2) (2 ^ 64) ltac:(lia)) as Hpm.
    assert (Hph : 0 <= qh * v2 / 2 ^ 64 < 2 ^ 64). { split; [apply Z.div_pos; lia|]. apply Z.div_lt_upper_bound; lia. }
    rewrite le128_ok by (apply ok_pair; lia). rewrite !uval_pair. case_bool_decide as D.
    - rewrite rbind_ok. apply wp_ok. cbn [fst snd].
      pose proof (km_exit (2 ^ 64) 1 v1 v2 0 two u2 0 Hb HP1 Hv1' Ho1 HU0 Htwo Ho3 HU0 HU qh rhat ltac:(lia) ltac:(lia) ltac:(lia)) as H1.
      rewrite Eq in H1. split; [done|]. lia.
    - rewrite rbind_ok. cbn [fst snd].
      assert (Hqp : 0 < qh). { destruct (Z.eq_dec qh 0) as [E0|]; [|lia]. rewrite E0 in D, Ep. rewrite Z.mul_0_l in *. lia. }
      pose proof (km_dec (2 ^ 64) 1 v1 v2 0 two u2 0 Hb HP1 Hv1' Ho1 HU0 Htwo Ho3 HU0 HU qh rhat) as Hdec. rewrite Eq in Hdec.
      specialize (Hdec ltac:(lia) ltac:(lia) ltac:(lia)). rewrite (w64_id (qh - 1)) by lia.
      destruct (Z.lt_ge_cases (rhat + v1) (2 ^ 64)) as [Hr|Hr].
      + rewrite (w64_id (rhat + v1)) by lia. rewrite decide_False by lia. apply wp_ok. cbn [fst snd].
        split; [split; [done|]; lia|].
        rewrite (proj2 (Z.ltb_lt rhat (2 ^ 63))) by lia. rewrite (proj2 (Z.ltb_ge (rhat + v1) (2 ^ 63))) by lia. lia.
      + assert (E : w64 (rhat + v1) = rhat + v1 - 2 ^ 64). { rewrite w64_mod. destruct (divmod_eq (rhat + v1) (2 ^ 64) 1 (rhat + v1 - 2 ^ 64)) as [_ ->]; lia. }
        rewrite E. rewrite decide_True by lia. apply wp_ok. cbn [fst snd].
        destruct (km_exit_big (2 ^ 64) 1 v1 v2 0 two u2 0 Hb HP1 Hv1' Ho1 HU0 Htwo Ho3 HU0 HU (qh - 1) (rhat + v1)) as [H1 H2]; [lia|lia|lia|].
        rewrite Eq in H2. split; [done|]. lia. }
  apply wp_exists in HL as ([q0 z] & EL & Hz & Hq0 & Hq1). cbn [fst snd] in *. subst z. rewrite EL, rbind_ok.
  exists high, (u2, ul), (v2, v1), q0. split_and!; try done; lia.
Qed.

Lemma mulsub64_ok high num den q0 : ok128 num -> ok128 den -> 0 <= high < 2 ^ 64 -> 0 <= q0 < 2 ^ 64 ->
  let X := high * 2 ^ 128 + uval num - q0 * uval den in
  - uval den <= X < uval den ->
  exists n', mulsub64 high num den q0 = Ok (n', if decide (X < 0) then 1 else 0) /\ ok128 n' /\ uval n' = wrapu X.
Proof.
  destruct num as [n0 n1], den as [d0 d1]. intros [Hn0 Hn1] [Hd0 Hd1] Hh Hq X HX. cbn [fst snd] in *.
  unfold mulsub64. cbn [fst snd]. rewrite umul128_ok by done. rewrite rbind_ok.
  assert (Hprod : forall x y, 0 <= x < 2 ^ 64 -> 0 <= y < 2 ^ 64 -> x * y = 2 ^ 64 * (x * y / 2 ^ 64) + (x * y) mod 2 ^ 64 /\
     0 <= (x * y) mod 2 ^ 64 < 2 ^ 64 /\ 0 <= x * y / 2 ^ 64 <= 2 ^ 64 - 2).
  { intros x y Hx Hy. split; [apply split_word; lia|]. split; [apply Z.mod_pos_bound; lia|].
    pose proof (mul_range x y _ _ Hx Hy). split; [apply Z.div_pos; lia|].
    assert (x * y / 2 ^ 64 < 2 ^ 64 - 1); [|lia]. apply Z.div_lt_upper_bound; lia. }
  destruct (Hprod q0 d0 Hq Hd0) as (E0 & L0 & U0). destruct (Hprod q0 d1 Hq Hd1) as (E1 & L1 & U1).
  set (p0l := (q0 * d0) mod 2 ^ 64) in *. set (p0h := q0 * d0 / 2 ^ 64) in *.
  rewrite sub_borrow64_ok by lia.
  pose proof (split_word (n0 - p0l - 0) (2 ^ 64) ltac:(lia)) as ES0. pose proof (Z.mod_pos_bound (n0 - p0l - 0) (2 ^ 64) ltac:(lia)) as MS0.
  set (s0 := (n0 - p0l - 0) mod 2 ^ 64) in *. set (b0 := (n0 - p0l - 0) / 2 ^ 64) in *.
  rewrite umul128_ok by done. rewrite rbind_ok.
  set (p1l := (q0 * d1) mod 2 ^ 64) in *. set (p1h := q0 * d1 / 2 ^ 64) in *.
  rewrite add_carry64_ok by lia.
  pose proof (split_word (p1l + p0h + 0) (2 ^ 64) ltac:(lia)) as EC. pose proof (Z.mod_pos_bound (p1l + p0h + 0) (2 ^ 64) ltac:(lia)) as MC.
  set (pl := (p1l + p0h + 0) mod 2 ^ 64) in *. set (c := (p1l + p0h + 0) / 2 ^ 64) in *.
  cbv zeta. rewrite (w64_id (p1h + c)) by lia.
  rewrite sub_borrow64_ok by lia.
  pose proof (split_word (n1 - pl - - b0) (2 ^ 64) ltac:(lia)) as ES1. pose proof (Z.mod_pos_bound (n1 - pl - - b0) (2 ^ 64) ltac:(lia)) as MS1.
  set (s1 := (n1 - pl - - b0) mod 2 ^ 64) in *. set (b1 := (n1 - pl - - b0) / 2 ^ 64) in *.
  rewrite sub_borrow64_ok by lia.
  pose proof (split_word (high - (p1h + c) - - b1) (2 ^ 64) ltac:(lia)) as ES2. pose proof (Z.mod_pos_bound (high - (p1h + c) - - b1) (2 ^ 64) ltac:(lia)) as MS2.
  set (s2 := (high - (p1h + c) - - b1) mod 2 ^ 64) in *. set (b2 := (high - (p1h + c) - - b1) / 2 ^ 64) in *.
  assert (Hok : ok128 (s0, s1)) by (by apply ok_pair). pose proof (uval_range _ Hok) as Hur.
  assert (EX : X = uval (s0, s1) + 2 ^ 128 * s2 + 2 ^ 192 * b2).
  { unfold X. rewrite !uval_pair. transitivity (high * 2 ^ 128 + (n0 + 2 ^ 64 * n1) - (q0 * d0 + 2 ^ 64 * (q0 * d1))); [ring|]. lia. }
  assert (HV : 0 <= uval (d0, d1) < 2 ^ 128) by (apply uval_range; by apply ok_pair).
  assert (Hb2 : -1 <= b2 <= 0) by lia.
  exists (s0, s1). split; [|split; [done|]].
  - f_equal. f_equal. case_decide; lia.
  - unfold wrapu. symmetry. eapply (divmod_eq _ _ (s2 + 2 ^ 64 * b2)); [|exact Hur]. lia.
Qed.
Lemma addback64_ok num den : ok128 num -> ok128 den -> ok128 (addback64 num den) /\ uval (addback64 num den) = wrapu (uval num + uval den).
Proof. exact (add128_ok num den). Qed.
