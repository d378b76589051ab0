(** 128-bit integers: shifts, comparisons, sums, products. *)
From stdpp Require Import base numbers list.
From Coq Require Import ZArith Znumtheory Lia.
From Verif Require Import Base.Res Base.Arr Base.Int Num.BitModel Num.BitSpec Num.BitProofs Cont.BitsetModel Cont.BitsetProofs
  Num.Int128Model Num.Int128Spec Num.Int128Proofs Num.Int128Proofs2 Num.Int128Proofs3 Num.Int128Proofs4.
Open Scope Z_scope.
Ltac Zify.zify_post_hook ::= idtac.

Lemma uval_range x : ok128 x -> 0 <= uval x < 2 ^ 128.
Proof. destruct x as [a b]. unfold ok128, uval. cbn [fst snd]. lia. Qed.
Lemma uval_pair a b : uval (a, b) = a + 2 ^ 64 * b. Proof. reflexivity. Qed.
Lemma ok_pair a b : 0 <= a < 2 ^ 64 -> 0 <= b < 2 ^ 64 -> ok128 (a, b). Proof. intros. by split. Qed.
Lemma uval_inj x y : ok128 x -> ok128 y -> uval x = uval y -> x = y.
Proof. destruct x, y. unfold ok128, uval. cbn [fst snd]. intros [??] [??] ?. f_equal; lia. Qed.

(** high bit of a word *)
Lemma land63 w : 0 <= w < 2 ^ 64 -> Z.land w (2 ^ 63) = 0 <-> w < 2 ^ 63.
Proof.
  intros Hw. assert (E : Z.land w (2 ^ 63) = (w / 2 ^ 63) * 2 ^ 63).
  { apply Z.bits_inj'. intros n Hn. rewrite Z.land_spec, Z.pow2_bits_eqb by lia.
    destruct (Z.eqb_spec 63 n) as [<-|Hne].
    - rewrite Z.mul_pow2_bits by lia. rewrite Z.div_pow2_bits by lia. rewrite andb_true_r. done.
    - rewrite andb_false_r. rewrite Z.mul_pow2_bits by lia. destruct (decide (n < 63)).
      + rewrite Z.testbit_neg_r by lia. done.
      + symmetry. apply (testbit_high 1); [|lia]. split; [apply Z.div_pos; lia|]. apply Z.div_lt_upper_bound; lia. }
  rewrite E. destruct (Z.lt_ge_cases w (2 ^ 63)) as [H|H].
  - rewrite Z.div_small by lia. lia.
  - assert (1 <= w / 2 ^ 63) by (apply Z.div_le_lower_bound; lia). lia.
Qed.
Lemma cast_s64_word w : 0 <= w < 2 ^ 64 -> cast s64 w = if w <? 2 ^ 63 then w else w - 2 ^ 64.
Proof.
  intros Hw. unfold cast. cbn [sg wd s64]. change (64 - 1) with 63. destruct (Z.ltb_spec w (2 ^ 63)).
  - rewrite Z.mod_small by lia. lia.
  - destruct (divmod_eq (w + 2 ^ 63) (2 ^ 64) 1 (w - 2 ^ 63)) as [_ ->]; lia.
Qed.
Lemma sval_alt x : ok128 x -> sval x = x.1 + 2 ^ 64 * cast s64 x.2.
Proof.
  destruct x as [a b]. unfold ok128, sval. rewrite uval_pair. cbn [fst snd]. intros [Ha Hb]. rewrite cast_s64_word by done.
  destruct (Z.ltb_spec b (2 ^ 63)), (Z.ltb_spec (a + 2 ^ 64 * b) (2 ^ 127)); lia.
Qed.
Lemma sval_range x : ok128 x -> - 2 ^ 127 <= sval x < 2 ^ 127.
Proof. intros H. pose proof (uval_range x H). unfold sval. destruct (Z.ltb_spec (uval x) (2 ^ 127)); lia. Qed.
Lemma wraps_id z : - 2 ^ 127 <= z < 2 ^ 127 -> wraps z = z.
Proof. intros. unfold wraps. rewrite Z.mod_small by lia. lia. Qed.
Lemma wraps_cong a b k : a = b + k * 2 ^ 128 -> wraps a = wraps b.
Proof. intros ->. unfold wraps. replace (b + k * 2 ^ 128 + 2 ^ 127) with (b + 2 ^ 127 + k * 2 ^ 128) by lia. by rewrite Z.mod_add. Qed.
Lemma sval_cong x : exists k, sval x = uval x + k * 2 ^ 128.
Proof. unfold sval. destruct (_ <? _); [exists 0|exists (-1)]; lia. Qed.
Lemma mod_cong z : exists k, z mod 2 ^ 128 = z + k * 2 ^ 128.
Proof. exists (- (z / 2 ^ 128)). rewrite Z.mod_eq by lia. lia. Qed.
(** a result exact modulo 2^128 is exact as a signed number too *)
Lemma sval_of_uval r z : ok128 r -> (exists k, uval r = z + k * 2 ^ 128) -> sval r = wraps z.
Proof.
  intros Hr [k E]. destruct (sval_cong r) as [k' E']. rewrite <-(wraps_id (sval r)) by (by apply sval_range).
  apply (wraps_cong _ _ (k + k')). lia.
Qed.

Lemma left_shift_ok x c : ok128 x -> 0 <= c < 128 ->
  exists r, left_shift x c = Ok r /\ ok128 r /\ uval r = wrapu (uval x * 2 ^ c).
Proof.
  destruct x as [w0 w1]. intros [H0 H1] Hc. cbn [fst snd] in *. unfold left_shift, wrapu.
  rewrite rassert_true by (apply bool_decide_eq_true; lia). rewrite rbind_ok. rewrite uval_pair.
  pose proof (p2 c ltac:(lia)) as HD.
  case_decide as D0.
  { subst c. eexists. split; [done|]. split; [by apply ok_pair|]. rewrite uval_pair. change (2 ^ 0) with 1. rewrite Z.mod_small; lia. }
  case_decide as D1.
  - assert (Ec : c mod 64 = c - 64). { destruct (divmod_eq c 64 1 (c - 64)); lia. } rewrite Ec.
    rewrite shl64 by lia. rewrite rbind_ok. eexists. split; [done|].
    pose proof (Z.mod_pos_bound (w0 * 2 ^ (c - 64)) (2 ^ 64) ltac:(lia)) as Hm. split; [apply ok_pair; lia|].
    rewrite uval_pair. assert (E : 2 ^ c = 2 ^ 64 * 2 ^ (c - 64)). { rewrite <-Z.pow_add_r by lia. f_equal. lia. }
    pose proof (split_word (w0 * 2 ^ (c - 64)) (2 ^ 64) ltac:(lia)) as Es.
    set (m := (w0 * 2 ^ (c - 64)) mod 2 ^ 64) in *. set (q := w0 * 2 ^ (c - 64) / 2 ^ 64) in *.
    symmetry. eapply divmod_eq; [|lia].
    transitivity (2 ^ 64 * (w0 * 2 ^ (c - 64)) + 2 ^ 128 * (w1 * 2 ^ (c - 64))).
    { rewrite E. change (2 ^ 128) with (2 ^ 64 * 2 ^ 64). ring. }
    rewrite Es. instantiate (1 := q + w1 * 2 ^ (c - 64)). change (2 ^ 128) with (2 ^ 64 * 2 ^ 64). ring.
  - rewrite shl64 by lia. rewrite rbind_ok. rewrite shr64 by lia. rewrite rbind_ok. rewrite shl64 by lia. rewrite rbind_ok.
    pose proof (pow_split 64 c ltac:(lia)) as EP. pose proof (p2 (64 - c) ltac:(lia)) as HP.
    assert (Em : forall w, (w * 2 ^ c) mod 2 ^ 64 = (w mod 2 ^ (64 - c)) * 2 ^ c).
    { intros w. rewrite <-EP. apply Z.mul_mod_distr_r; lia. }
    rewrite !Em. set (P := 2 ^ (64 - c)) in *. set (D := 2 ^ c) in *.
    pose proof (split_word w0 P HP) as E0. pose proof (split_word w1 P HP) as E1.
    pose proof (Z.mod_pos_bound w0 P HP) as M0. pose proof (Z.mod_pos_bound w1 P HP) as M1.
    assert (Hq0 : 0 <= w0 / P < D). { split; [apply Z.div_pos; lia|]. apply Z.div_lt_upper_bound; lia. }
    unfold D at 2. rewrite lor_join by (unfold D in *; lia). fold D.
    eexists. split; [done|].
    assert (B0 : 0 <= w0 mod P * D <= (P - 1) * D). { split; [apply Z.mul_nonneg_nonneg; lia|]. apply Z.mul_le_mono_nonneg_r; lia. }
    assert (B1 : 0 <= w1 mod P * D <= (P - 1) * D). { split; [apply Z.mul_nonneg_nonneg; lia|]. apply Z.mul_le_mono_nonneg_r; lia. }
    assert (Hok : ok128 (w0 mod P * D, w1 mod P * D + w0 / P)) by (apply ok_pair; lia).
    split; [done|]. pose proof (uval_range _ Hok) as Hr. rewrite uval_pair in *.
    symmetry. eapply divmod_eq; [|exact Hr].
    transitivity (w0 mod P * D + (P * D) * (w0 / P) + 2 ^ 64 * (w1 mod P * D + (P * D) * (w1 / P))).
    { rewrite E0 at 1. rewrite E1 at 1. ring. }
    rewrite EP. instantiate (1 := w1 / P). change (2 ^ 128) with (2 ^ 64 * 2 ^ 64). ring.
Qed.

Lemma unsigned_right_shift_ok x c : ok128 x -> 0 <= c < 128 ->
  exists r, unsigned_right_shift x c = Ok r /\ ok128 r /\ uval r = uval x / 2 ^ c.
Proof.
  destruct x as [w0 w1]. intros [H0 H1] Hc. cbn [fst snd] in *. unfold unsigned_right_shift.
  rewrite rassert_true by (apply bool_decide_eq_true; lia). rewrite rbind_ok. rewrite uval_pair.
  pose proof (p2 c ltac:(lia)) as HD.
  case_decide as D0.
  { subst c. eexists. split; [done|]. split; [by apply ok_pair|]. rewrite uval_pair. change (2 ^ 0) with 1. by rewrite Z.div_1_r. }
  case_decide as D1.
  - assert (Ec : c mod 64 = c - 64). { destruct (divmod_eq c 64 1 (c - 64)); lia. } rewrite Ec.
    rewrite shr64 by lia. rewrite rbind_ok. eexists. split; [done|]. pose proof (p2 (c - 64) ltac:(lia)) as HP.
    assert (0 <= w1 / 2 ^ (c - 64) <= w1). { split; [apply Z.div_pos; lia|]. apply Z.div_le_upper_bound; nia. }
    split; [apply ok_pair; lia|]. rewrite uval_pair.
    assert (E : 2 ^ c = 2 ^ 64 * 2 ^ (c - 64)). { rewrite <-Z.pow_add_r by lia. f_equal. lia. }
    rewrite E. rewrite <-Z.div_div by lia. rewrite (Z.mul_comm (2 ^ 64) w1), Z.div_add by lia. rewrite (Z.div_small w0) by lia.
    rewrite Z.add_0_l. lia.
  - rewrite shr64 by lia. rewrite rbind_ok. rewrite shl64 by lia. rewrite rbind_ok. rewrite shr64 by lia. rewrite rbind_ok.
    pose proof (pow_split 64 c ltac:(lia)) as EP. pose proof (p2 (64 - c) ltac:(lia)) as HP.
    assert (Em : (w1 * 2 ^ (64 - c)) mod 2 ^ 64 = (w1 mod 2 ^ c) * 2 ^ (64 - c)).
    { rewrite <-EP. rewrite (Z.mul_comm (2 ^ (64 - c)) (2 ^ c)). apply Z.mul_mod_distr_r; lia. }
    rewrite Em. assert (Hq0 : 0 <= w0 / 2 ^ c < 2 ^ (64 - c)). { split; [apply Z.div_pos; lia|]. apply Z.div_lt_upper_bound; lia. }
    rewrite lor_join' by lia. set (P := 2 ^ (64 - c)) in *. set (D := 2 ^ c) in *.
    pose proof (split_word w1 D HD) as E1. pose proof (Z.mod_pos_bound w1 D HD) as M1.
    eexists. split; [done|].
    assert (B1 : 0 <= w1 mod D * P <= (D - 1) * P). { split; [apply Z.mul_nonneg_nonneg; lia|]. apply Z.mul_le_mono_nonneg_r; lia. }
    assert (0 <= w1 / D <= w1). { split; [apply Z.div_pos; lia|]. apply Z.div_le_upper_bound; nia. }
    split; [apply ok_pair; lia|]. rewrite uval_pair.
    replace (2 ^ 64 * w1) with (P * w1 * D) by (rewrite <-EP; ring). rewrite Z.div_add by lia.
    assert (P * w1 = (P * D) * (w1 / D) + w1 mod D * P) as -> by (rewrite E1 at 1; ring). rewrite EP. lia.
Qed.

Lemma signed_right_shift_ok x c : ok128 x -> 0 <= c < 128 ->
  exists r, signed_right_shift x c = Ok r /\ ok128 r /\ sval r = sval x / 2 ^ c.
Proof.
  destruct x as [w0 w1]. intros [H0 H1] Hc. cbn [fst snd] in *. unfold signed_right_shift.
  assert (Hok : ok128 (w0, w1)) by (by apply ok_pair). rewrite (sval_alt _ Hok). cbn [fst snd].
  pose proof (cast_s64_word w1 H1) as Ecs. set (s1 := cast s64 w1) in *.
  assert (Hs1 : - 2 ^ 63 <= s1 < 2 ^ 63). { rewrite Ecs. destruct (Z.ltb_spec w1 (2 ^ 63)); lia. }
  pose proof (p2 c ltac:(lia)) as HD.
  assert (Hback : forall z, - 2 ^ 63 <= z < 2 ^ 63 -> 0 <= cast u64 z < 2 ^ 64 /\ cast s64 (cast u64 z) = z).
  { intros z Hz. assert (Hr : 0 <= cast u64 z < 2 ^ 64) by apply w64_range. split; [done|]. rewrite cast_s64_word by done.
    change (cast u64 z) with (z mod 2 ^ 64) in *. destruct (Z.lt_ge_cases z 0).
    - destruct (divmod_eq z (2 ^ 64) (-1) (z + 2 ^ 64)) as [_ ->]; [lia|lia|]. destruct (Z.ltb_spec (z + 2 ^ 64) (2 ^ 63)); lia.
    - rewrite Z.mod_small by lia. destruct (Z.ltb_spec z (2 ^ 63)); lia. }
  assert (Hdiv : forall e, 0 <= e -> - 2 ^ 63 <= s1 / 2 ^ e < 2 ^ 63).
  { intros e He. pose proof (p2 e He). split; [apply Z.div_le_lower_bound; nia|]. apply Z.div_lt_upper_bound; nia. }
  case_decide as D0.
  { subst c. eexists. split; [done|]. split; [by apply ok_pair|]. rewrite (sval_alt _ Hok). cbn [fst snd]. fold s1. change (2 ^ 0) with 1. by rewrite Z.div_1_r. }
  case_decide as D1.
  - assert (Ec : c mod 64 = c - 64). { destruct (divmod_eq c 64 1 (c - 64)); lia. } rewrite Ec.
    rewrite shrs64 by lia. rewrite rbind_ok. eexists. split; [done|].
    destruct (Hback (s1 / 2 ^ (c - 64))) as [B1 B2]; [apply Hdiv; lia|].
    set (hi := if decide (Z.land w1 (2 ^ 63) = 0) then 0 else w64 (Z.lnot 0)).
    assert (Hhi : hi = 0 /\ 0 <= s1 \/ hi = 2 ^ 64 - 1 /\ s1 < 0).
    { unfold hi. case_decide as D; [left|right]; (split; [done|]).
      - apply land63 in D; [|done]. rewrite Ecs. destruct (Z.ltb_spec w1 (2 ^ 63)); lia.
      - assert (~ w1 < 2 ^ 63) by (rewrite <-land63 by done; done). rewrite Ecs. destruct (Z.ltb_spec w1 (2 ^ 63)); lia. }
    assert (Hok2 : ok128 (cast u64 (s1 / 2 ^ (c - 64)), hi)) by (apply ok_pair; lia).
    split; [done|]. assert (E : 2 ^ c = 2 ^ 64 * 2 ^ (c - 64)). { rewrite <-Z.pow_add_r by lia. f_equal. lia. }
    rewrite E. pose proof (p2 (c - 64) ltac:(lia)) as HP. rewrite <-Z.div_div by lia.
    rewrite (Z.mul_comm (2 ^ 64) s1), Z.div_add by lia. rewrite (Z.div_small w0) by lia. rewrite Z.add_0_l.
    unfold sval. rewrite uval_pair. rewrite cast_s64_word in B2 by done. set (a := cast u64 (s1 / 2 ^ (c - 64))) in *. set (z := s1 / 2 ^ (c - 64)) in *.
    assert (Hz : 0 <= s1 -> 0 <= z) by (intros; apply Z.div_pos; lia).
    assert (Hz' : s1 < 0 -> z < 0) by (intros; apply Z.div_lt_upper_bound; lia).
    destruct (Z.ltb_spec a (2 ^ 63)), (Z.ltb_spec (a + 2 ^ 64 * hi) (2 ^ 127)); lia.
  - rewrite shr64 by lia. rewrite rbind_ok. rewrite shl64 by lia. rewrite rbind_ok. rewrite shrs64 by lia. rewrite rbind_ok.
    pose proof (pow_split 64 c ltac:(lia)) as EP. pose proof (p2 (64 - c) ltac:(lia)) as HP.
    assert (Em : (w1 * 2 ^ (64 - c)) mod 2 ^ 64 = (w1 mod 2 ^ c) * 2 ^ (64 - c)).
    { rewrite <-EP. rewrite (Z.mul_comm (2 ^ (64 - c)) (2 ^ c)). apply Z.mul_mod_distr_r; lia. }
    rewrite Em. assert (Hq0 : 0 <= w0 / 2 ^ c < 2 ^ (64 - c)). { split; [apply Z.div_pos; lia|]. apply Z.div_lt_upper_bound; lia. }
    rewrite lor_join' by lia.
    assert (Ew : w1 mod 2 ^ c = s1 mod 2 ^ c).
    { rewrite Ecs. destruct (Z.ltb_spec w1 (2 ^ 63)); [done|]. replace (w1 - 2 ^ 64) with (w1 + (- 2 ^ (64 - c)) * 2 ^ c) by lia. by rewrite Z.mod_add by lia. }
    rewrite Ew. destruct (Hback (s1 / 2 ^ c)) as [B1 B2]; [apply Hdiv; lia|].
    set (P := 2 ^ (64 - c)) in *. set (D := 2 ^ c) in *.
    pose proof (split_word s1 D HD) as E1. pose proof (Z.mod_pos_bound s1 D HD) as M1.
    assert (B3 : 0 <= s1 mod D * P <= (D - 1) * P). { split; [apply Z.mul_nonneg_nonneg; lia|]. apply Z.mul_le_mono_nonneg_r; lia. }
    eexists. split; [done|]. assert (Hok2 : ok128 (s1 mod D * P + w0 / D, cast u64 (s1 / D))) by (apply ok_pair; lia).
    split; [done|]. rewrite (sval_alt _ Hok2). cbn [fst snd]. rewrite B2.
    replace (2 ^ 64 * s1) with (P * s1 * D) by (rewrite <-EP; ring). rewrite Z.div_add by lia.
    assert (P * s1 = (P * D) * (s1 / D) + s1 mod D * P) as -> by (rewrite E1 at 1; ring). rewrite EP. lia.
Qed.

Lemma add128_ok x y : ok128 x -> ok128 y -> ok128 (add128 x y) /\ uval (add128 x y) = wrapu (uval x + uval y).
Proof.
  destruct x as [a0 a1], y as [b0 b1]. intros [Ha0 Ha1] [Hb0 Hb1]. cbn [fst snd] in *. unfold add128. cbn [fst snd].
  rewrite add_carry64_ok by lia.
  pose proof (split_word (a0 + b0 + 0) (2 ^ 64) ltac:(lia)) as E0. pose proof (Z.mod_pos_bound (a0 + b0 + 0) (2 ^ 64) ltac:(lia)) as M0.
  set (r0 := (a0 + b0 + 0) mod 2 ^ 64) in *. set (c := (a0 + b0 + 0) / 2 ^ 64) in *.
  assert (Hc : 0 <= c <= 1) by lia. rewrite add_carry64_ok by lia.
  pose proof (split_word (a1 + b1 + c) (2 ^ 64) ltac:(lia)) as E1. pose proof (Z.mod_pos_bound (a1 + b1 + c) (2 ^ 64) ltac:(lia)) as M1.
  set (r1 := (a1 + b1 + c) mod 2 ^ 64) in *. set (k := (a1 + b1 + c) / 2 ^ 64) in *.
  assert (Hok : ok128 (r0, r1)) by (by apply ok_pair). split; [done|]. pose proof (uval_range _ Hok) as Hr.
  rewrite !uval_pair in *. unfold wrapu. symmetry. eapply (divmod_eq _ _ k); [|exact Hr]. lia.
Qed.
Lemma sub128_ok x y : ok128 x -> ok128 y -> ok128 (sub128 x y) /\ uval (sub128 x y) = wrapu (uval x - uval y).
Proof.
  destruct x as [a0 a1], y as [b0 b1]. intros [Ha0 Ha1] [Hb0 Hb1]. cbn [fst snd] in *. unfold sub128. cbn [fst snd].
  rewrite sub_borrow64_ok by lia.
  pose proof (split_word (a0 - b0 - 0) (2 ^ 64) ltac:(lia)) as E0. pose proof (Z.mod_pos_bound (a0 - b0 - 0) (2 ^ 64) ltac:(lia)) as M0.
  set (r0 := (a0 - b0 - 0) mod 2 ^ 64) in *. set (c := (a0 - b0 - 0) / 2 ^ 64) in *.
  assert (Hc : -1 <= c <= 0) by lia. rewrite sub_borrow64_ok by lia.
  pose proof (split_word (a1 - b1 - - c) (2 ^ 64) ltac:(lia)) as E1. pose proof (Z.mod_pos_bound (a1 - b1 - - c) (2 ^ 64) ltac:(lia)) as M1.
  set (r1 := (a1 - b1 - - c) mod 2 ^ 64) in *. set (k := (a1 - b1 - - c) / 2 ^ 64) in *.
  assert (Hok : ok128 (r0, r1)) by (by apply ok_pair). split; [done|]. pose proof (uval_range _ Hok) as Hr.
  rewrite !uval_pair in *. unfold wrapu. symmetry. eapply (divmod_eq _ _ k); [|exact Hr]. lia.
Qed.
Lemma neg128_ok x : ok128 x -> ok128 (neg128 x) /\ uval (neg128 x) = wrapu (- uval x).
Proof.
  intros Hx. assert (H0 : ok128 (0, 0)) by (apply ok_pair; lia). destruct (sub128_ok (0, 0) x H0 Hx) as [H1 H2]. split; [done|].
  unfold neg128. rewrite H2. f_equal.
Qed.
Lemma not128_ok x : ok128 x -> ok128 (not128 x) /\ uval (not128 x) = 2 ^ 128 - 1 - uval x.
Proof.
  destruct x as [a b]. intros [Ha Hb]. cbn [fst snd] in *. unfold not128. cbn [fst snd].
  assert (E : forall w, 0 <= w < 2 ^ 64 -> w64 (Z.lnot w) = 2 ^ 64 - 1 - w).
  { intros w Hw. rewrite w64_mod. unfold Z.lnot. destruct (divmod_eq (Z.pred (- w)) (2 ^ 64) (-1) (2 ^ 64 - 1 - w)) as [_ ->]; lia. }
  rewrite !E by done. split; [apply ok_pair; lia|]. rewrite !uval_pair. lia.
Qed.
Lemma incr128_ok x : ok128 x -> ok128 (incr128 x) /\ uval (incr128 x) = wrapu (uval x + 1).
Proof.
  destruct x as [a b]. intros [Ha Hb]. cbn [fst snd] in *. unfold incr128. cbn [fst snd]. cbv zeta. rewrite (w64_mod (a + 1)).
  destruct (Z.eq_dec a (2 ^ 64 - 1)) as [->|Hne].
  - change ((2 ^ 64 - 1 + 1) mod 2 ^ 64) with 0. rewrite decide_True by done. pose proof (w64_range (b + 1)) as Hr.
    split; [apply ok_pair; lia|]. rewrite !uval_pair. rewrite w64_mod in *.
    pose proof (split_word (b + 1) (2 ^ 64) ltac:(lia)) as E. unfold wrapu. symmetry.
    eapply (divmod_eq _ _ ((b + 1) / 2 ^ 64)); lia.
  - rewrite Z.mod_small by lia. rewrite decide_False by lia. split; [apply ok_pair; lia|]. rewrite !uval_pair. unfold wrapu. rewrite Z.mod_small; lia.
Qed.
Lemma decr128_ok x : ok128 x -> ok128 (decr128 x) /\ uval (decr128 x) = wrapu (uval x - 1).
Proof.
  destruct x as [a b]. intros [Ha Hb]. cbn [fst snd] in *. unfold decr128. cbn [fst snd]. rewrite (w64_mod (a - 1)).
  destruct (Z.eq_dec a 0) as [->|Hne].
  - change ((0 - 1) mod 2 ^ 64) with (2 ^ 64 - 1). rewrite decide_True by done. pose proof (w64_range (b - 1)) as Hr.
    split; [apply ok_pair; lia|]. rewrite !uval_pair. rewrite w64_mod in *.
    pose proof (split_word (b - 1) (2 ^ 64) ltac:(lia)) as E. unfold wrapu. symmetry.
    eapply (divmod_eq _ _ ((b - 1) / 2 ^ 64)); lia.
  - rewrite Z.mod_small by lia. rewrite decide_False by lia. split; [apply ok_pair; lia|]. rewrite !uval_pair. unfold wrapu. rewrite Z.mod_small; lia.
Qed.

Lemma lt128_ok x y : ok128 x -> ok128 y -> lt128 x y = bool_decide (uval x < uval y).
Proof.
  destruct x as [a0 a1], y as [b0 b1]. intros [Ha0 Ha1] [Hb0 Hb1]. cbn [fst snd] in *. unfold lt128. cbn [fst snd]. rewrite !uval_pair.
  repeat case_decide; symmetry; (apply bool_decide_eq_true + apply bool_decide_eq_false); try lia.
  all: try (case_bool_decide; apply bool_decide_eq_true + apply bool_decide_eq_false; lia).
Qed.
Lemma le128_ok x y : ok128 x -> ok128 y -> le128 x y = bool_decide (uval x <= uval y).
Proof.
  intros Hx Hy. unfold le128. rewrite lt128_ok by done. case_bool_decide; symmetry; [apply bool_decide_eq_false|apply bool_decide_eq_true]; lia.
Qed.
Lemma eq128_ok x y : ok128 x -> ok128 y -> eq128 x y = bool_decide (uval x = uval y).
Proof.
  intros Hx Hy. unfold eq128. case_bool_decide as D1; [case_bool_decide as D2|]; symmetry; cbn [andb].
  - apply bool_decide_eq_true. destruct x, y. cbn [fst snd] in *. by subst.
  - apply bool_decide_eq_false. intros E. apply D2. by rewrite (uval_inj x y Hx Hy E).
  - apply bool_decide_eq_false. intros E. apply D1. by rewrite (uval_inj x y Hx Hy E).
Qed.

Lemma multiply_ok x y : ok128 x -> ok128 y -> exists r, multiply x y = Ok r /\ ok128 r /\ uval r = wrapu (uval x * uval y).
Proof.
  destruct x as [a0 a1], y as [b0 b1]. intros [Ha0 Ha1] [Hb0 Hb1]. cbn [fst snd] in *. unfold multiply. cbn [fst snd].
  rewrite umul128_ok by done. rewrite rbind_ok. cbv zeta. rewrite !w64_mod.
  rewrite (Zplus_mod_idemp_r (a0 * b1)), (Zplus_mod_idemp_r (a1 * b0)), Zplus_mod_idemp_l.
  pose proof (split_word (a0 * b0) (2 ^ 64) ltac:(lia)) as E0. pose proof (Z.mod_pos_bound (a0 * b0) (2 ^ 64) ltac:(lia)) as M0.
  set (lo := (a0 * b0) mod 2 ^ 64) in *. set (h := a0 * b0 / 2 ^ 64) in *.
  pose proof (split_word (h + a0 * b1 + a1 * b0) (2 ^ 64) ltac:(lia)) as E1. pose proof (Z.mod_pos_bound (h + a0 * b1 + a1 * b0) (2 ^ 64) ltac:(lia)) as M1.
  set (hi := (h + a0 * b1 + a1 * b0) mod 2 ^ 64) in *. set (k := (h + a0 * b1 + a1 * b0) / 2 ^ 64) in *.
  eexists. split; [done|]. assert (Hok : ok128 (lo, hi)) by (by apply ok_pair). split; [done|]. pose proof (uval_range _ Hok) as Hr.
  rewrite !uval_pair in *. unfold wrapu. symmetry. eapply (divmod_eq _ _ (k + a1 * b1)); [|exact Hr].
  transitivity (a0 * b0 + 2 ^ 64 * (a0 * b1 + a1 * b0) + 2 ^ 128 * (a1 * b1)). { change (2 ^ 128) with (2 ^ 64 * 2 ^ 64). ring. }
  lia.
Qed.
