(** The operators of the signed 128-bit type, comparisons, bitwise operators and conversions. *)
From stdpp Require Import base numbers list.
From Coq Require Import ZArith Znumtheory Lia.
From Verif Require Import Base.Res Base.Arr Base.Int Num.BitModel Num.BitSpec Num.BitProofs Cont.BitsetModel Cont.BitsetProofs
  Num.Int128Model Num.Int128Spec Num.Int128Proofs Num.Int128Proofs2 Num.Int128Proofs3 Num.Int128Proofs4 Num.Int128Proofs5 Num.Int128Proofs6 Num.Int128Proofs7 Num.Int128Proofs8.
Open Scope Z_scope.
Ltac Zify.zify_post_hook ::= idtac.

Definition neg_if (b : bool) (z : Z) : Z := if b then - z else z.
Lemma sgn_word x : ok128 x -> (x.2 < 2 ^ 63 <-> uval x < 2 ^ 127).
Proof. intros [H1 H2]. unfold uval. lia. Qed.
(** the magnitude of a signed number, as an unsigned one *)
Lemma strip_ok x f : ok128 x -> let r := strip_negative x f in
  ok128 r.1 /\ uval r.1 = Z.abs (sval x) /\ r.2 = xorb f (bool_decide (sval x < 0)).
Proof.
  intros H r. pose proof (uval_range _ H) as Hr. pose proof (sgn_word x H) as Hs. unfold r, strip_negative.
  destruct H as [H1 H2]. pose proof (land63 x.2 H2) as HL.
  case_decide as D.
  - assert (~ x.2 < 2 ^ 63) by tauto. assert (Es : sval x = uval x - 2 ^ 128). { unfold sval. destruct (Z.ltb_spec (uval x) (2 ^ 127)); lia. }
    destruct (neg128_ok x) as [O V]; [by split|]. cbn [fst snd]. split; [done|]. rewrite bool_decide_true by lia. split; [|by destruct f].
    rewrite V, Es. unfold wrapu. destruct (divmod_eq (- uval x) (2 ^ 128) (-1) (2 ^ 128 - uval x)) as [_ ->]; lia.
  - assert (x.2 < 2 ^ 63) by (apply HL; lia). assert (Es : sval x = uval x). { unfold sval. destruct (Z.ltb_spec (uval x) (2 ^ 127)); lia. }
    cbn [fst snd]. split; [by split|]. rewrite bool_decide_false by lia. split; [lia|by destruct f].
Qed.
Lemma neg_if_ok r (b : bool) z : ok128 r -> (exists k, uval r = z + k * 2 ^ 128) ->
  ok128 (if b then neg128 r else r) /\ sval (if b then neg128 r else r) = wraps (neg_if b z).
Proof.
  intros H [k E]. destruct b; cbn [neg_if].
  - destruct (neg128_ok r H) as [O V]. split; [done|]. apply sval_of_uval; [done|]. destruct (mod_cong (- uval r)) as [k' E'].
    rewrite V. unfold wrapu. rewrite E', E. exists (k' - k). lia.
  - split; [done|]. apply sval_of_uval; [done|]. by exists k.
Qed.
Lemma smul_ok x y : ok128 x -> ok128 y -> exists r, smul x y = Ok r /\ ok128 r /\ sval r = wraps (sval x * sval y).
Proof.
  intros Hx Hy. unfold smul. pose proof (strip_ok x false Hx) as (O1 & V1 & S1). destruct (strip_negative x false) as [x' f1]. cbn [fst snd] in *.
  pose proof (strip_ok y f1 Hy) as (O2 & V2 & S2). destruct (strip_negative y f1) as [y' f2]. cbn [fst snd] in *.
  destruct (multiply_ok x' y' O1 O2) as (r & E & O & V). rewrite E, rbind_ok. eexists. split; [done|].
  destruct (neg_if_ok r f2 (Z.abs (sval x) * Z.abs (sval y)) O) as [O3 V3].
  { rewrite V, V1, V2. unfold wrapu. destruct (mod_cong (Z.abs (sval x) * Z.abs (sval y))) as [k ->]. by exists k. }
  split; [exact O3|]. etransitivity; [exact V3|]. f_equal. rewrite S2, S1. cbn [xorb].
  case_bool_decide as D1; case_bool_decide as D2; cbn [xorb neg_if];
    destruct (Z.abs_spec (sval x)) as [[? ->]|[? ->]], (Z.abs_spec (sval y)) as [[? ->]|[? ->]]; lia.
Qed.
Lemma quot_abs x y (b : bool) : y <> 0 -> b = xorb (bool_decide (x < 0)) (bool_decide (y < 0)) -> neg_if b (Z.abs x / Z.abs y) = Z.quot x y.
Proof.
  intros Hy ->. rewrite <-Z.quot_div_nonneg by lia.
  case_bool_decide as D1; case_bool_decide as D2; cbn [xorb neg_if].
  - rewrite !Z.abs_neq by lia. by rewrite Z.quot_opp_opp.
  - rewrite (Z.abs_neq x), (Z.abs_eq y) by lia. rewrite Z.quot_opp_l by lia. lia.
  - rewrite (Z.abs_eq x), (Z.abs_neq y) by lia. rewrite Z.quot_opp_r by lia. lia.
  - rewrite !Z.abs_eq by lia. done.
Qed.
Lemma sval_zero x : ok128 x -> (uval x = 0 <-> sval x = 0).
Proof. intros H. pose proof (uval_range _ H). unfold sval. destruct (Z.ltb_spec (uval x) (2 ^ 127)); lia. Qed.
Lemma sdiv_ok intr dintr x y : ok128 x -> ok128 y -> sval y <> 0 ->
  exists r, sdiv intr dintr x y = Ok r /\ ok128 r /\ sval r = wraps (Z.quot (sval x) (sval y)).
Proof.
  intros Hx Hy Hz. unfold sdiv. pose proof (strip_ok x false Hx) as (O1 & V1 & S1). destruct (strip_negative x false) as [x' f1]. cbn [fst snd] in *.
  pose proof (strip_ok y f1 Hy) as (O2 & V2 & S2). destruct (strip_negative y f1) as [y' f2]. cbn [fst snd] in *.
  destruct (divide_ok intr dintr x' y' O1 O2) as (r & E & O & V); [lia|]. rewrite E, rbind_ok. eexists. split; [done|].
  destruct (neg_if_ok r f2 (Z.abs (sval x) / Z.abs (sval y)) O) as [O3 V3]. { exists 0. rewrite V, V1, V2. lia. }
  split; [exact O3|]. etransitivity; [exact V3|]. f_equal. apply quot_abs; [done|]. rewrite S2, S1.
  by rewrite xorb_false_l.
Qed.
Lemma smod_ok intr dintr x y : ok128 x -> ok128 y -> sval y <> 0 ->
  exists r, smod intr dintr x y = Ok r /\ ok128 r /\ sval r = Z.rem (sval x) (sval y).
Proof.
  intros Hx Hy Hz. unfold smod. pose proof (strip_ok x false Hx) as (O1 & V1 & S1). destruct (strip_negative x false) as [x' f1]. cbn [fst snd] in *.
  pose proof (strip_ok y false Hy) as (O2 & V2 & _). unfold strip_negative in O2, V2.
  match goal with |- context [modulo _ _ _ ?t] => assert (Ey : ok128 t /\ uval t = Z.abs (sval y)) end. { case_decide; done. }
  destruct Ey as [O3 V3]. cbv zeta.
  destruct (modulo_ok intr dintr _ _ O1 O3) as (r & E & O & V); [lia|]. rewrite E, rbind_ok. eexists. split; [done|].
  destruct (neg_if_ok r f1 (Z.abs (sval x) mod Z.abs (sval y)) O) as [O4 V4]. { exists 0. rewrite V, V1, V3. lia. }
  split; [exact O4|]. etransitivity; [exact V4|]. pose proof (sval_range x Hx). pose proof (sval_range y Hy).
  assert (Em : neg_if f1 (Z.abs (sval x) mod Z.abs (sval y)) = Z.rem (sval x) (sval y)).
  { rewrite S1. cbn [xorb]. rewrite <-Z.rem_mod_nonneg by lia. rewrite Z.rem_abs_r by lia. case_bool_decide; cbn [neg_if].
    - rewrite Z.abs_neq by lia. rewrite Z.rem_opp_l by lia. lia.
    - rewrite Z.abs_eq by lia. done. }
  rewrite Em. apply wraps_id. pose proof (Z.rem_bound_abs (sval x) (sval y) Hz). lia.
Qed.

(** division by a built-in integer *)
Lemma udiv_int_ok dintr t x den : ok128 x -> std_ity t -> in_t t den -> 0 < den ->
  exists r, udiv_int dintr t x den = Ok r /\ ok128 r /\ uval r = uval x / den.
Proof.
  intros Hx Ht Hin Hp. unfold udiv_int. assert (Hw : 1 <= wd t <= 64) by (ity_cases t Ht; cbn; lia). unfold in_t, tmax in Hin.
  assert (Hb : den < 2 ^ wd t). { destruct (sg t); [|lia]. pose proof (p2_le (wd t - 1) (wd t) ltac:(lia)). lia. }
  destruct (negb dintr && bool_decide (wd t <= 32)) eqn:E.
  - apply andb_true_iff in E as [_ E]. apply bool_decide_eq_true in E. pose proof (p2_le (wd t) 32 ltac:(lia)).
    change (cast u32 den) with (w32 den). rewrite w32_id by lia. apply divide32_ok; [done|lia].
  - pose proof (p2_le (wd t) 64 ltac:(lia)). change (cast u64 den) with (w64 den). rewrite w64_id by lia. apply divide64_ok; [done|lia].
Qed.
Lemma umod_int_ok dintr t x den : ok128 x -> std_ity t -> in_t t den -> 0 < den ->
  exists r, umod_int dintr t x den = Ok r /\ ok128 r /\ uval r = uval x mod den.
Proof.
  intros Hx Ht Hin Hp. unfold umod_int. assert (Hw : 1 <= wd t <= 64) by (ity_cases t Ht; cbn; lia). unfold in_t, tmax in Hin.
  assert (Hb : den < 2 ^ wd t). { destruct (sg t); [|lia]. pose proof (p2_le (wd t - 1) (wd t) ltac:(lia)). lia. }
  destruct (negb dintr && bool_decide (wd t <= 32)) eqn:E.
  - apply andb_true_iff in E as [_ E]. apply bool_decide_eq_true in E. pose proof (p2_le (wd t) 32 ltac:(lia)).
    change (cast u32 den) with (w32 den). rewrite w32_id by lia. apply modulo32_ok; [done|lia].
  - pose proof (p2_le (wd t) 64 ltac:(lia)). change (cast u64 den) with (w64 den). rewrite w64_id by lia. apply modulo64_ok; [done|lia].
Qed.
Lemma sdiv_int_ok dintr t x den : ok128 x -> std_ity t -> in_t t den -> den <> 0 -> (sg t = true -> den <> tmin t) ->
  exists r, sdiv_int dintr t x den = Ok r /\ ok128 r /\ sval r = wraps (Z.quot (sval x) den).
Proof.
  intros Hx Ht Hin Hz Hmin. unfold sdiv_int. pose proof (strip_ok x false Hx) as (O1 & V1 & S1). destruct (strip_negative x false) as [x' f1]. cbn [fst snd] in *.
  assert (Hw : 1 <= wd t <= 64) by (ity_cases t Ht; cbn; lia).
  assert (Ed : exists f2, (if sg t then if decide (den < 0) then d <~ arith (promote t) (- den) ;; Ok (cast t d, negb f1) else Ok (den, f1) else Ok (den, f1))
     = Ok (Z.abs den, f2) /\ f2 = xorb f1 (bool_decide (den < 0)) /\ in_t t (Z.abs den)).
  { destruct (sg t) eqn:Es.
    - destruct (decide (den < 0)) as [D|D].
      + assert (Hin' : in_t t (- den)). { unfold in_t in *. specialize (Hmin eq_refl). unfold tmin, tmax in *. rewrite Es in *. lia. }
        exists (negb f1). assert (Ea : arith (promote t) (- den) = Ok (- den)).
        { unfold arith. assert (in_t (promote t) (- den)) by (ity_cases t Ht; unfold in_t, tmin, tmax in *; cbn in *; lia).
          destruct (sg (promote t)) eqn:Ep; [by rewrite decide_True|]. exfalso. ity_cases t Ht; cbn in *; done. }
        rewrite Ea, rbind_ok. rewrite cast_id by (done || lia). rewrite Z.abs_neq by lia. rewrite bool_decide_true by done. split; [done|]. split; [by destruct f1|done].
      + exists f1. rewrite Z.abs_eq by lia. rewrite bool_decide_false by done. split; [done|]. split; [by destruct f1|done].
    - unfold in_t, tmin in Hin. rewrite Es in Hin. exists f1. rewrite Z.abs_eq by lia. rewrite bool_decide_false by lia. split; [done|]. split; [by destruct f1|].
      unfold in_t, tmin. rewrite Es. lia. }
  destruct Ed as (f2 & -> & Ef2 & Hin2). rewrite rbind_ok.
  destruct (udiv_int_ok dintr t x' (Z.abs den) O1 Ht Hin2 ltac:(lia)) as (r & E & O & V). unfold udiv_int in E. rewrite E, rbind_ok.
  eexists. split; [done|]. destruct (neg_if_ok r f2 (Z.abs (sval x) / Z.abs den) O) as [O3 V3]. { exists 0. rewrite V, V1. lia. }
  split; [exact O3|]. etransitivity; [exact V3|]. f_equal. apply quot_abs; [done|]. by rewrite Ef2, S1, ?xorb_false_l.
Qed.

(** comparisons *)
Lemma ucmp_ok x y : ok128 x -> ok128 y -> ucmp x y = (uval x ?= uval y).
Proof.
  destruct x as [a b], y as [c e]. intros [? ?] [? ?]. cbn [fst snd] in *. unfold ucmp, cmp_words. cbn [fst snd]. rewrite !uval_pair. symmetry.
  destruct (Z.compare_spec b e); [subst; destruct (Z.compare_spec a c)|..]; [apply Z.compare_eq_iff|apply Z.compare_lt_iff|apply Z.compare_gt_iff|apply Z.compare_lt_iff|apply Z.compare_gt_iff]; lia.
Qed.
Lemma scmp_ok x y : ok128 x -> ok128 y -> scmp x y = (sval x ?= sval y).
Proof.
  intros Hx Hy. rewrite !sval_alt by done. destruct x as [a b], y as [c e]. destruct Hx, Hy. cbn [fst snd] in *. unfold scmp, cmp_words. cbn [fst snd]. symmetry.
  set (b' := cast s64 b). set (e' := cast s64 e). clearbody b' e'.
  destruct (Z.compare_spec b' e'); [subst; destruct (Z.compare_spec a c)|..]; [apply Z.compare_eq_iff|apply Z.compare_lt_iff|apply Z.compare_gt_iff|apply Z.compare_lt_iff|apply Z.compare_gt_iff]; lia.
Qed.

(** bitwise operators *)
Lemma bitw_uval x i : ok128 x -> 0 <= i -> Z.testbit (uval x) i = if decide (i < 64) then Z.testbit x.1 i else Z.testbit x.2 (i - 64).
Proof.
  destruct x as [a b]. intros [Ha Hb] Hi. cbn [fst snd] in *. rewrite uval_pair.
  replace (a + 2 ^ 64 * b) with (Z.lor (b * 2 ^ 64) a) by (rewrite lor_join; lia). rewrite Z.lor_spec. case_decide as D.
  - rewrite Z.mul_pow2_bits_low by lia. done.
  - rewrite Z.mul_pow2_bits by lia. assert (Ea : Z.testbit a i = false). { destruct (Z.eq_dec a 0) as [->|]; [apply Z.bits_0|]. apply Z.bits_above_log2; [lia|]. assert (Z.log2 a < 64) by (apply Z.log2_lt_pow2; lia). lia. }
    rewrite Ea. by rewrite orb_false_r.
Qed.
Lemma bits_range z : 0 <= z -> (forall i, 64 <= i -> Z.testbit z i = false) -> 0 <= z < 2 ^ 64.
Proof.
  intros Hz H. split; [done|]. destruct (Z.eq_dec z 0) as [->|]; [lia|]. apply Z.log2_lt_pow2; [lia|].
  destruct (Z.lt_ge_cases (Z.log2 z) 64); [done|]. specialize (H (Z.log2 z) ltac:(lia)). rewrite Z.bit_log2 in H by lia. done.
Qed.
Lemma word_high w i : 0 <= w < 2 ^ 64 -> 64 <= i -> Z.testbit w i = false.
Proof.
  intros H Hi. destruct (Z.eq_dec w 0) as [->|]; [apply Z.bits_0|]. apply Z.bits_above_log2; [lia|]. assert (Z.log2 w < 64) by (apply Z.log2_lt_pow2; lia). lia.
Qed.
Section bitop.
  Context (f : Z -> Z -> Z) (g : bool -> bool -> bool).
  Hypothesis Hf : forall a b i, 0 <= i -> Z.testbit (f a b) i = g (Z.testbit a i) (Z.testbit b i).
  Hypothesis Hg : g false false = false.
  Hypothesis Hnn : forall a b, 0 <= a -> 0 <= b -> 0 <= f a b.
  Lemma bitop_ok x y : ok128 x -> ok128 y -> ok128 (f x.1 y.1, f x.2 y.2) /\ uval (f x.1 y.1, f x.2 y.2) = f (uval x) (uval y).
  Proof using Hf Hg Hnn.
    intros Hx Hy. pose proof Hx as [Hx1 Hx2]. pose proof Hy as [Hy1 Hy2].
    assert (O : ok128 (f x.1 y.1, f x.2 y.2)).
    { apply ok_pair; (apply bits_range; [apply Hnn; lia|]); intros i Hi; rewrite Hf by lia; rewrite !word_high by done; done. }
    split; [done|]. apply Z.bits_inj'. intros i Hi. rewrite Hf by done. rewrite !bitw_uval by done. cbn [fst snd].
    case_decide; rewrite Hf by lia; done.
  Qed.
End bitop.
Lemma and128_ok x y : ok128 x -> ok128 y -> ok128 (and128 x y) /\ uval (and128 x y) = Z.land (uval x) (uval y).
Proof. apply (bitop_ok Z.land andb); [intros; by rewrite Z.land_spec|done|intros; apply Z.land_nonneg; lia]. Qed.
Lemma or128_ok x y : ok128 x -> ok128 y -> ok128 (or128 x y) /\ uval (or128 x y) = Z.lor (uval x) (uval y).
Proof. apply (bitop_ok Z.lor orb); [intros; by rewrite Z.lor_spec|done|intros; apply Z.lor_nonneg; lia]. Qed.
Lemma xor128_ok x y : ok128 x -> ok128 y -> ok128 (xor128 x y) /\ uval (xor128 x y) = Z.lxor (uval x) (uval y).
Proof. apply (bitop_ok Z.lxor xorb); [intros; by rewrite Z.lxor_spec|done|intros; apply Z.lxor_nonneg; lia]. Qed.

(** conversions *)
Lemma of_int_ok t v : std_ity t -> in_t t v -> ok128 (of_int t v) /\ uval (of_int t v) = wrapu v /\ sval (of_int t v) = v.
Proof.
  intros Ht Hin. assert (Hr : - 2 ^ 63 <= v < 2 ^ 64 /\ (sg t = false -> 0 <= v)).
  { ity_cases t Ht; unfold in_t, tmin, tmax in Hin; cbn in Hin; split; try lia; done. }
  destruct Hr as [Hr Hs]. assert (Eo : of_int t v = (w64 v, if decide (v < 0) then 2 ^ 64 - 1 else 0)).
  { unfold of_int. f_equal. destruct (sg t); [case_decide; done|]. rewrite decide_False; [done|]. specialize (Hs eq_refl). lia. }
  rewrite Eo. pose proof (w64_range v). assert (O : ok128 (w64 v, if decide (v < 0) then 2 ^ 64 - 1 else 0)) by (apply ok_pair; [done|case_decide; lia]).
  split; [done|]. assert (Eu : uval (w64 v, if decide (v < 0) then 2 ^ 64 - 1 else 0) = wrapu v).
  { rewrite uval_pair, w64_mod. unfold wrapu. case_decide.
    - destruct (divmod_eq v (2 ^ 64) (-1) (v + 2 ^ 64)) as [_ ->]; [lia|lia|]. destruct (divmod_eq v (2 ^ 128) (-1) (v + 2 ^ 128)) as [_ ->]; lia.
    - rewrite !Z.mod_small by lia. lia. }
  split; [done|]. unfold sval. rewrite Eu. unfold wrapu. destruct (Z.lt_ge_cases v 0).
  - destruct (divmod_eq v (2 ^ 128) (-1) (v + 2 ^ 128)) as [_ ->]; [lia|lia|]. rewrite (proj2 (Z.ltb_ge _ _)) by lia. lia.
  - rewrite Z.mod_small by lia. rewrite (proj2 (Z.ltb_lt _ _)) by lia. lia.
Qed.
Lemma to_int_ok t x : std_ity t -> ok128 x -> to_int t x = cast t (uval x) /\ to_int t x = cast t (sval x).
Proof.
  intros Ht Hx. assert (HC : forall a b k, a = b + k * 2 ^ 64 -> cast t a = cast t b).
  { intros a b k ->. assert (Hw : 1 <= wd t <= 64) by (ity_cases t Ht; cbn; lia). unfold cast.
    assert (E : 2 ^ 64 = 2 ^ (64 - wd t) * 2 ^ wd t). { rewrite <-Z.pow_add_r by lia. f_equal. lia. }
    pose proof (p2 (wd t) ltac:(lia)).
    destruct (sg t); [replace (b + k * 2 ^ 64 + 2 ^ (wd t - 1)) with (b + 2 ^ (wd t - 1) + (k * 2 ^ (64 - wd t)) * 2 ^ wd t) by (rewrite E; lia)
                     |replace (b + k * 2 ^ 64) with (b + (k * 2 ^ (64 - wd t)) * 2 ^ wd t) by (rewrite E; lia)]; rewrite Z.mod_add by lia; done. }
  unfold to_int. destruct (sval_cong x) as [k Ek]. split; symmetry.
  - apply (HC _ _ x.2). unfold uval. lia.
  - apply (HC _ _ (x.2 + k * 2 ^ 64)). rewrite Ek. unfold uval. lia.
Qed.
Lemma to_bool_ok x : ok128 x -> to_bool x = bool_decide (uval x <> 0).
Proof.
  intros [H1 H2]. unfold to_bool. apply bool_decide_ext. assert (Z.lor x.1 x.2 = 0 <-> x.1 = 0 /\ x.2 = 0) by apply Z.lor_eq_0_iff. unfold uval. split; intros ?; lia.
Qed.
