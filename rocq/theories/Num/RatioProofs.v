From stdpp Require Import base numbers list.
From Coq Require Import ZArith Lia Znumtheory.
From Verif Require Import Base.Res Base.Int Num.BitProofs Num.GcdProofs Num.RatioModel.
Open Scope Z_scope.

Lemma imax_eq : imax = 9223372036854775807. Proof. reflexivity. Qed.
Lemma arith_s64 z : Z.abs z <= imax -> arith s64 z = Ok z.
Proof. intros H. unfold arith. rewrite decide_True; [done|]. unfold in_t, tmin, tmax, imax in *. cbn in *. lia. Qed.
Lemma ratio_abs_ok v : Z.abs v <= imax -> ratio_abs v = Ok (Z.abs v).
Proof. intros H. unfold ratio_abs. case_decide; [rewrite arith_s64 by lia|]; f_equal; lia. Qed.
Lemma safe_mult_ok a b : Z.abs a <= imax -> Z.abs b <= imax ->
  safe_mult a b = if decide (Z.abs (a * b) <= imax) then Ok (a * b) else UB.
Proof.
  intros Ha Hb. unfold safe_mult. rewrite !ratio_abs_ok by done. cbn [rbind].
  destruct (decide (b = 0)) as [->|Hb0]; cbn [rbind].
  - rewrite Z.mul_0_r, Z.quot_1_r. rewrite decide_True by done.
    rewrite arith_s64 by (rewrite imax_eq; lia). rewrite decide_True by (rewrite imax_eq; lia). done.
  - rewrite Z.quot_div_nonneg by (rewrite ?imax_eq; lia).
    assert (E : Z.abs a <= imax / Z.abs b <-> Z.abs (a * b) <= imax).
    { rewrite Z.abs_mul. split; intros H.
      - pose proof (Z.mul_div_le imax (Z.abs b) ltac:(lia)). nia.
      - apply Z.div_le_lower_bound; lia. }
    destruct (decide (Z.abs a <= imax / Z.abs b)) as [D|D].
    + rewrite arith_s64 by tauto. by rewrite decide_True by tauto.
    + by rewrite decide_False by tauto.
Qed.
Lemma safe_add_ok a b : Z.abs a <= imax -> Z.abs b <= imax ->
  safe_add a b = if decide (Z.abs (a + b) <= imax) then Ok (a + b) else UB.
Proof.
  intros Ha Hb. unfold safe_add, sign_of. rewrite !ratio_abs_ok by done. cbn [rbind].
  rewrite (arith_s64 (imax - Z.abs b)) by lia. cbn [rbind].
  destruct (decide (a < 0)), (decide (b < 0)).
  1,4: rewrite (decide_True _ _ eq_refl); destruct (decide (Z.abs a > imax - Z.abs b)); [rewrite decide_False by lia; done|rewrite (decide_True (P := Z.abs (a + b) <= imax)) by lia; apply arith_s64; lia].
  all: rewrite decide_False by done; rewrite arith_s64 by lia; rewrite (decide_True (P := Z.abs (a + b) <= imax)) by lia; done.
Qed.
Lemma ratio_gcd_ok a b : Z.abs a <= imax -> Z.abs b <= imax -> ~ (a = 0 /\ b = 0) -> ratio_gcd a b = Ok (Z.gcd a b).
Proof.
  intros Ha Hb H0. unfold ratio_gcd. rewrite decide_False by done. rewrite !ratio_abs_ok by done. cbn [rbind].
  rewrite <-(Z.gcd_abs_l a b), <-(Z.gcd_abs_r (Z.abs a) b).
  assert (Hpa : 0 <= Z.abs a) by lia. assert (Hpb : 0 <= Z.abs b) by lia.
  revert Hpa Hpb. generalize (Z.abs a) as x, (Z.abs b) as y. clear. intros x y Hx Hy.
  match goal with |- loop ?f ?b ?s = _ => assert (H : wp (loop f b s) (fun r => r = Z.gcd x y)) end.
  { apply (wp_loop (fun '(a, b) => 0 <= a /\ 0 <= b /\ Z.gcd a b = Z.gcd x y)
      (fun '(a, b) => if decide (b = 0) then 0%nat else if decide (b <= a) then S (Z.to_nat (Z.log2 (a * b))) else S (S (Z.to_nat (Z.log2 (a * b)))))).
    2: done.
    2: { pose proof (Z.log2_nonneg (x * y)). destruct (decide (y = 0)); [lia|]. destruct (decide (y <= x)); lia. }
    intros [a b] (Ha & Hb & E). destruct (decide (b <> 0)) as [D|D]; simpl.
    - rewrite Z.rem_mod_nonneg by lia. pose proof (Z.mod_pos_bound a b ltac:(lia)) as Hm.
      split; [repeat split; [lia|lia|]|].
      { rewrite <-E, (Z.gcd_comm a b), (Z.gcd_comm b (a mod b)). apply Z.gcd_mod. lia. }
      destruct (decide (a mod b = 0)); [rewrite decide_False by lia; case_decide; lia|].
      rewrite (decide_True (P := a mod b <= b)) by lia. rewrite (decide_False (P := b = 0)) by lia.
      destruct (decide (b <= a)) as [D2|D2].
      + assert (2 * (b * (a mod b)) <= a * b).
        { pose proof (Z.div_mod a b ltac:(lia)). assert (1 <= a / b) by (apply Z.div_le_lower_bound; lia). nia. }
        pose proof (Z.log2_le_mono _ _ H) as HL. rewrite Z.log2_double in HL by nia. pose proof (Z.log2_nonneg (b * (a mod b))). lia.
      + rewrite Z.mod_small by lia. rewrite Z.mul_comm. lia.
    - assert (b = 0) as -> by lia. rewrite Z.gcd_0_r in E. lia. }
  apply wp_exists in H as (r & -> & ->). done.
Qed.
Lemma sign_abs n d : sign_of n * sign_of d * Z.abs n = Z.sgn d * n + (if decide (d = 0) then n * (1 - Z.sgn d) else 0).
Proof. unfold sign_of. repeat case_decide; lia. Qed.
(** in lowest terms, both parts representable *)
Definition reduced (r : Z * Z) : Prop := 0 < snd r <= imax /\ Z.abs (fst r) <= imax /\ Z.gcd (fst r) (snd r) = 1.
Lemma gcd_split a b : (a <> 0 \/ b <> 0) -> exists x y, 0 < Z.gcd a b /\ a = x * Z.gcd a b /\ b = y * Z.gcd a b /\ Z.gcd x y = 1.
Proof.
  intros H. pose proof (Z.gcd_nonneg a b). assert (Z.gcd a b <> 0). { intros E. apply Z.gcd_eq_0 in E. lia. }
  destruct (Z.gcd_divide_l a b) as [x Ex]. destruct (Z.gcd_divide_r a b) as [y Ey]. exists x, y. repeat split; [lia|done|done|].
  pose proof (Z.gcd_div_gcd a b (Z.gcd a b) ltac:(lia) eq_refl) as E.
  replace (a / Z.gcd a b) with x in E by (apply Z.div_unique_exact; lia). by replace (b / Z.gcd a b) with y in E by (apply Z.div_unique_exact; lia).
Qed.
Lemma ratio_ok n d : Z.abs n <= imax -> Z.abs d <= imax -> d <> 0 ->
  exists r, ratio n d = Ok r /\ reduced r /\ fst r * d = n * snd r.
Proof.
  intros Hn Hd Hd0. unfold ratio. rewrite !decide_True by lia.
  rewrite !ratio_abs_ok by done. cbn [rbind].
  assert (Hs : sign_of n * sign_of d = 1 \/ sign_of n * sign_of d = -1). { unfold sign_of. repeat case_decide; lia. }
  rewrite arith_s64 by (rewrite imax_eq; lia). cbn [rbind]. rewrite arith_s64 by (destruct Hs as [-> | ->]; lia). cbn [rbind].
  rewrite ratio_gcd_ok by lia. cbn [rbind].
  destruct (gcd_split n d ltac:(lia)) as (x & y & Hg & En & Ed & Hc).
  rewrite decide_False by lia. eexists. split; [done|]. remember (Z.gcd n d) as g eqn:Eg. clear Eg.
  assert (Esn : sign_of n * sign_of d * Z.abs n = Z.sgn d * x * g).
  { unfold sign_of. rewrite En. destruct (decide (d < 0)); [replace (Z.sgn d) with (-1) by lia|replace (Z.sgn d) with 1 by lia]; case_decide; nia. }
  rewrite Esn, Z.quot_mul by lia. replace (Z.abs d) with (Z.sgn d * y * g) by nia. rewrite Z.quot_mul by lia.
  assert (Hsd : Z.sgn d = 1 \/ Z.sgn d = -1) by lia.
  assert (0 < Z.sgn d * y). { destruct Hsd as [Es|Es]; rewrite Es; nia. }
  unfold reduced; cbn [fst snd]. repeat split.
  - lia.
  - destruct Hsd as [Es|Es]; rewrite Es in *; nia.
  - destruct Hsd as [Es|Es]; rewrite Es in *; nia.
  - destruct Hsd as [-> | ->]; rewrite ?Z.mul_1_l; [done|].
    replace (-1 * x) with (- x) by lia. replace (-1 * y) with (- y) by lia. by rewrite Z.gcd_opp_l, Z.gcd_opp_r.
  - rewrite En, Ed. lia.
Qed.
(** lowest terms are unique *)
Lemma reduced_unique r s : reduced r -> reduced s -> fst r * snd s = fst s * snd r -> r = s.
Proof.
  destruct r as [n d], s as [n' d']. unfold reduced; cbn [fst snd]. intros (Hd & _ & Hc) (Hd' & _ & Hc') E.
  assert (D1 : (d | d')). { apply (Z.gauss d n d'); [exists n'; lia|by rewrite Z.gcd_comm]. }
  assert (D2 : (d' | d)). { apply (Z.gauss d' n' d); [exists n; lia|by rewrite Z.gcd_comm]. }
  assert (d = d'). { apply Z.divide_antisym_nonneg; [lia|lia|done|done]. }
  subst d'. f_equal. nia.
Qed.
Lemma ratio_multiply_raw r1 r2 : reduced r1 -> reduced r2 ->
  exists n d, 0 < d /\ Z.gcd n d = 1 /\ n * (snd r1 * snd r2) = fst r1 * fst r2 * d /\
    (Z.abs n <= Z.abs (fst r1 * fst r2) /\ d <= snd r1 * snd r2) /\
    ratio_multiply r1 r2 = (if decide (Z.abs n <= imax /\ d <= imax) then Ok (n, d) else UB).
Proof.
  destruct r1 as [n1 d1], r2 as [n2 d2]. unfold reduced; cbn [fst snd]. intros (Hd1 & Hn1 & Hc1) (Hd2 & Hn2 & Hc2).
  unfold ratio_multiply. rewrite !ratio_gcd_ok by lia. cbn [rbind].
  destruct (gcd_split n1 d2 ltac:(lia)) as (a & b & Hgx & Ea & Eb & Hab).
  destruct (gcd_split n2 d1 ltac:(lia)) as (x & y & Hgy & Ex & Ey & Hxy).
  remember (Z.gcd n1 d2) as gx eqn:Egx. remember (Z.gcd n2 d1) as gy eqn:Egy. clear Egx Egy.
  rewrite decide_False by lia.
  rewrite Ea, Eb, Ex, Ey, !Z.quot_mul by lia.
  assert (0 < b /\ 0 < y) as [Hb Hy] by (split; nia).
  exists (a * x), (y * b). split; [nia|].
  assert (Hay : Z.gcd a y = 1).
  { apply Z.gcd_unique; [lia|apply Z.divide_1_l|apply Z.divide_1_l|]. intros q [u ->] [v ->]. rewrite <-Hc1. apply Z.gcd_greatest; [exists (u * gx); lia|exists (v * gy); lia]. }
  assert (Hxb : Z.gcd x b = 1).
  { apply Z.gcd_unique; [lia|apply Z.divide_1_l|apply Z.divide_1_l|]. intros q [u ->] [v ->]. rewrite <-Hc2. apply Z.gcd_greatest; [exists (u * gy); lia|exists (v * gx); lia]. }
  assert (Hcc : Z.gcd (a * x) (y * b) = 1).
  { apply Zgcd_1_rel_prime. apply rel_prime_mult; [apply rel_prime_sym, rel_prime_mult; apply rel_prime_sym|apply rel_prime_sym, rel_prime_mult; apply rel_prime_sym];
    apply Zgcd_1_rel_prime; try done. all: by rewrite Z.gcd_comm || idtac. }
  split; [done|]. split; [lia|]. assert (Hgg : 1 <= gx * gy) by nia. assert (Hyb : 0 < y * b) by nia. split.
  { replace (a * gx * (x * gy)) with (a * x * (gx * gy)) by lia. replace (y * gy * (b * gx)) with (y * b * (gx * gy)) by lia.
    remember (gx * gy) as G. remember (a * x) as A. remember (y * b) as B. rewrite Z.abs_mul. nia. }
  rewrite !safe_mult_ok by nia.
  destruct (decide (Z.abs (a * x) <= imax)); cbn [rbind]; [|by rewrite decide_False by tauto].
  rewrite (Z.abs_eq (y * b)) by nia.
  destruct (decide (y * b <= imax)); cbn [rbind]; [|by rewrite decide_False by tauto].
  rewrite decide_True by done. destruct (ratio_ok (a * x) (y * b) ltac:(lia) ltac:(nia) ltac:(nia)) as (r & -> & Hr & E).
  f_equal. apply reduced_unique; [done|unfold reduced; cbn [fst snd]; nia|cbn [fst snd]; lia].
Qed.
Lemma ratio_divide_raw r1 r2 : reduced r1 -> reduced r2 -> fst r2 <> 0 ->
  exists n d, 0 < d /\ Z.gcd n d = 1 /\ n * (snd r1 * fst r2) = fst r1 * snd r2 * d /\
    ratio_divide r1 r2 = (if decide (Z.abs n <= imax /\ d <= imax) then Ok (n, d) else UB).
Proof.
  destruct r2 as [n2 d2]. intros H1 H2 Hnz. unfold ratio_divide.
  pose proof H2 as (Hd2 & Hn2 & Hc2); cbn [fst snd] in *.
  destruct (ratio_ok d2 n2 ltac:(lia) ltac:(lia) Hnz) as (r & -> & Hr & E). cbn [rbind].
  destruct (ratio_multiply_raw r1 r H1 Hr) as (n & d & Hd & Hc & Ev & _ & ->). exists n, d. split; [done|]. split; [done|]. split; [|done].
  destruct Hr as (Hdr & _). apply (Z.mul_reg_r _ _ (snd r)); [lia|].
  transitivity ((n * (snd r1 * snd r)) * n2); [lia|]. rewrite Ev. transitivity (fst r1 * d * (fst r * n2)); [lia|]. rewrite E. lia.
Qed.
Lemma ratio_add_sound r1 r2 r : reduced r1 -> reduced r2 -> ratio_add r1 r2 = Ok r ->
  reduced r /\ fst r * (snd r1 * snd r2) = (fst r1 * snd r2 + fst r2 * snd r1) * snd r.
Proof.
  destruct r1 as [n1 d1], r2 as [n2 d2]. unfold reduced at 1 2; cbn [fst snd]. intros (Hd1 & Hn1 & Hc1) (Hd2 & Hn2 & Hc2).
  unfold ratio_add. rewrite !ratio_gcd_ok by lia. cbn [rbind].
  destruct (gcd_split d1 d2 ltac:(lia)) as (x & y & Hg & E1 & E2 & _). remember (Z.gcd d1 d2) as g eqn:Eg. clear Eg.
  rewrite decide_False by lia.
  assert (0 < x /\ 0 < y) as [Hx Hy] by (split; nia).
  replace (d2 `quot` g) with y by (rewrite E2, Z.quot_mul; lia). replace (d1 `quot` g) with x by (rewrite E1, Z.quot_mul; lia).
  rewrite !safe_mult_ok by nia.
  destruct (decide (Z.abs (n1 * y) <= imax)); cbn [rbind]; [|done].
  destruct (decide (Z.abs (n2 * x) <= imax)); cbn [rbind]; [|done].
  rewrite safe_add_ok by done. destruct (decide (Z.abs (n1 * y + n2 * x) <= imax)); cbn [rbind]; [|done].
  destruct (decide (Z.abs (d1 * y) <= imax)); cbn [rbind]; [|done].
  destruct (ratio_ok (n1 * y + n2 * x) (d1 * y) ltac:(lia) ltac:(lia) ltac:(nia)) as (s & -> & Hs & E).
  intros [= <-]. split; [done|]. rewrite E2. rewrite E1 at 2.
  transitivity ((fst s * (d1 * y)) * g); [lia|]. rewrite E. lia.
Qed.
(** success of the addition when the cross products over the least common denominator fit *)
Lemma ratio_add_defined r1 r2 : reduced r1 -> reduced r2 ->
  Z.abs (fst r1 * snd r2) + Z.abs (fst r2 * snd r1) <= imax -> snd r1 * snd r2 <= imax -> exists r, ratio_add r1 r2 = Ok r.
Proof.
  destruct r1 as [n1 d1], r2 as [n2 d2]. unfold reduced; cbn [fst snd]. intros (Hd1 & Hn1 & Hc1) (Hd2 & Hn2 & Hc2) Hs Hdd.
  unfold ratio_add. rewrite !ratio_gcd_ok by lia. cbn [rbind].
  destruct (gcd_split d1 d2 ltac:(lia)) as (x & y & Hg & E1 & E2 & _). remember (Z.gcd d1 d2) as g eqn:Eg. clear Eg.
  rewrite decide_False by lia.
  assert (0 < x /\ 0 < y) as [Hx Hy] by (split; nia).
  replace (d2 `quot` g) with y by (rewrite E2, Z.quot_mul; lia). replace (d1 `quot` g) with x by (rewrite E1, Z.quot_mul; lia).
  assert (Hxd : x <= d1) by nia. assert (Hyd : y <= d2) by nia. rewrite !Z.abs_mul in Hs.
  assert (Z.abs n1 * y + Z.abs n2 * x <= imax) by nia.
  rewrite !safe_mult_ok by nia.
  rewrite (decide_True (P := Z.abs (n1 * y) <= imax)) by (rewrite Z.abs_mul; nia). cbn [rbind].
  rewrite (decide_True (P := Z.abs (n2 * x) <= imax)) by (rewrite Z.abs_mul; nia). cbn [rbind].
  rewrite safe_add_ok by (rewrite Z.abs_mul; nia). rewrite decide_True by (pose proof (Z.abs_triangle (n1 * y) (n2 * x)); rewrite !Z.abs_mul in *; nia). cbn [rbind].
  rewrite decide_True by nia. cbn [rbind].
  destruct (ratio_ok (n1 * y + n2 * x) (d1 * y)) as (s & -> & _); [pose proof (Z.abs_triangle (n1 * y) (n2 * x)); rewrite !Z.abs_mul in *; nia|nia|nia|]. by exists s.
Qed.
Lemma ratio_neg_ok r : reduced r -> arith s64 (- fst r) = Ok (- fst r) /\ ratio (- fst r) (snd r) = Ok (- fst r, snd r).
Proof.
  intros (Hd & Hn & Hc). split; [apply arith_s64; lia|].
  destruct (ratio_ok (- fst r) (snd r) ltac:(lia) ltac:(lia) ltac:(lia)) as (s & -> & Hs & E). f_equal.
  apply reduced_unique; [done| |done]. unfold reduced; cbn [fst snd]. rewrite Z.gcd_opp_l. lia.
Qed.
Lemma ratio_subtract_sound r1 r2 r : reduced r1 -> reduced r2 -> ratio_subtract r1 r2 = Ok r ->
  reduced r /\ fst r * (snd r1 * snd r2) = (fst r1 * snd r2 - fst r2 * snd r1) * snd r.
Proof.
  intros H1 H2. unfold ratio_subtract. destruct (ratio_neg_ok r2 H2) as [Ea Er]. destruct r2 as [n2 d2]. cbn [fst snd] in *.
  rewrite Ea. cbn [rbind]. rewrite Er. cbn [rbind]. intros H.
  apply ratio_add_sound in H as [Hr E]; [|done|]. { split; [done|]. cbn [fst snd] in E. lia. }
  destruct H2 as (? & ? & ?). unfold reduced; cbn [fst snd] in *. rewrite Z.gcd_opp_l. lia.
Qed.
Lemma ratio_subtract_defined r1 r2 : reduced r1 -> reduced r2 ->
  Z.abs (fst r1 * snd r2) + Z.abs (fst r2 * snd r1) <= imax -> snd r1 * snd r2 <= imax -> exists r, ratio_subtract r1 r2 = Ok r.
Proof.
  intros H1 H2 Hs Hd. unfold ratio_subtract. destruct (ratio_neg_ok r2 H2) as [Ea Er]. destruct r2 as [n2 d2]. cbn [fst snd] in *.
  rewrite Ea. cbn [rbind]. rewrite Er. cbn [rbind]. apply ratio_add_defined; [done| |cbn [fst snd]; lia|done].
  destruct H2 as (? & ? & ?). unfold reduced; cbn [fst snd] in *. rewrite Z.gcd_opp_l. lia.
Qed.
(** Knuth's algorithm M *)
Lemma big_multiply_ok l r : 0 <= l < 2 ^ 64 -> 0 <= r < 2 ^ 64 ->
  exists u w, big_multiply l r = Ok (u, w) /\ 0 <= u /\ 0 <= w < 2 ^ 64 /\ u * 2 ^ 64 + w = l * r.
Proof.
  intros Hl Hr. unfold big_multiply.
  assert (Hland : forall v, Z.land v (2 ^ 32 - 1) = v mod 2 ^ 32).
  { intros v. change (2 ^ 32 - 1) with (Z.ones 32). by rewrite Z.land_ones. }
  rewrite !Hland, !shr_ok by (cbn; lia). cbn [rbind]. unfold arith. cbn [sg u64 wd].
  repeat (cbn [rbind]; rewrite ?Hland; (rewrite shr_ok by (cbn; lia))). cbn [rbind]. rewrite ?Hland.
  assert (E1 : exists lh ll, l = lh * 2 ^ 32 + ll /\ 0 <= ll < 2 ^ 32 /\ 0 <= lh < 2 ^ 32 /\ l mod 2 ^ 32 = ll /\ l / 2 ^ 32 = lh).
  { exists (l / 2 ^ 32), (l mod 2 ^ 32). pose proof (Z.div_mod l (2 ^ 32) ltac:(lia)). pose proof (Z.mod_pos_bound l (2 ^ 32) ltac:(lia)).
    zpow. repeat split; try lia. }
  assert (E2 : exists lh ll, r = lh * 2 ^ 32 + ll /\ 0 <= ll < 2 ^ 32 /\ 0 <= lh < 2 ^ 32 /\ r mod 2 ^ 32 = ll /\ r / 2 ^ 32 = lh).
  { exists (r / 2 ^ 32), (r mod 2 ^ 32). pose proof (Z.div_mod r (2 ^ 32) ltac:(lia)). pose proof (Z.mod_pos_bound r (2 ^ 32) ltac:(lia)).
    zpow. repeat split; try lia. }
  destruct E1 as (lh & ll & E1 & Hll & Hlh & -> & ->). destruct E2 as (rh & rl & E2 & Hrl & Hrh & -> & ->).
  assert (Hp : forall a b, 0 <= a < 2 ^ 32 -> 0 <= b < 2 ^ 32 -> 0 <= a * b <= (2 ^ 32 - 1) * (2 ^ 32 - 1)) by (intros; zpow; nia).
  pose proof (Hp ll rl Hll Hrl) as P1. pose proof (Hp ll rh Hll Hrh) as P2. pose proof (Hp lh rl Hlh Hrl) as P3. pose proof (Hp lh rh Hlh Hrh) as P4.
  clear Hp. rewrite (Z.mod_small (ll * rl)) by (zpow; lia). rewrite (Z.mod_small (ll * rh)) by (zpow; lia).
  rewrite (Z.mod_small (lh * rl)) by (zpow; lia). rewrite (Z.mod_small (lh * rh)) by (zpow; lia).
  assert (Sp : forall v, exists h lo, v = h * 2 ^ 32 + lo /\ 0 <= lo < 2 ^ 32 /\ v mod 2 ^ 32 = lo /\ v / 2 ^ 32 = h).
  { intros v. exists (v / 2 ^ 32), (v mod 2 ^ 32). pose proof (Z.div_mod v (2 ^ 32) ltac:(lia)). pose proof (Z.mod_pos_bound v (2 ^ 32) ltac:(lia)). repeat split; lia. }
  destruct (Sp (ll * rl)) as (c1 & lo1 & T1 & Hlo1 & -> & ->).
  rewrite (Z.mod_small (ll * rh + c1)) by (zpow; lia).
  destruct (Sp (ll * rh + c1)) as (mu & ml & T2 & Hml & -> & ->).
  rewrite (Z.mod_small (lh * rl + ml)) by (zpow; lia).
  destruct (Sp (lh * rl + ml)) as (c2 & lo2 & T3 & Hlo2 & E3 & ->).
  assert (Hfin : (lh * rh + mu + c2) * 2 ^ 64 + (lo2 * 2 ^ 32 + lo1) = l * r).
  { transitivity (lh * rh * 2 ^ 64 + (ll * rh + lh * rl) * 2 ^ 32 + ll * rl); [zpow; lia|]. rewrite E1, E2. zpow. lia. }
  assert (Hb : l * r <= (2 ^ 64 - 1) * (2 ^ 64 - 1)) by (zpow; nia).
  rewrite (Z.mod_small (lh * rh + mu)) by (zpow; lia). rewrite (Z.mod_small (lh * rh + mu + c2)) by (zpow; lia).
  unfold shl. rewrite decide_True by (cbn; lia). cbn [rbind].
  replace (cast (promote u64) ((lh * rl + ml) * 2 ^ 32)) with (lo2 * 2 ^ 32).
  2: { change (promote u64) with u64. unfold cast. cbn [sg wd u64]. rewrite T3. apply Z.mod_unique_pos with c2; zpow; lia. }
  rewrite Z.mod_small by (zpow; lia). eexists _, _. split; [done|]. zpow. lia.
Qed.
Lemma big_lt_ok u w u' w' : 0 <= w < 2 ^ 64 -> 0 <= w' < 2 ^ 64 -> big_lt (u, w) (u', w') = bool_decide (u * 2 ^ 64 + w < u' * 2 ^ 64 + w').
Proof. intros H H'. unfold big_lt. cbn [fst snd]. zpow. case_decide; apply bool_decide_ext; lia. Qed.
Lemma cast_u64_pos v : 0 <= v <= imax -> cast u64 v = v.
Proof. intros H. apply cast_u_id; [done|]. rewrite imax_eq in H. cbn [wd u64]. zpow. lia. Qed.
Lemma ratio_less_ok r1 r2 : reduced r1 -> reduced r2 -> ratio_less r1 r2 = Ok (bool_decide (fst r1 * snd r2 < fst r2 * snd r1)).
Proof.
  destruct r1 as [n1 d1], r2 as [n2 d2]. unfold reduced; cbn [fst snd]. intros (Hd1 & Hn1 & Hc1) (Hd2 & Hn2 & Hc2).
  unfold ratio_less. assert (Hb : forall v, 0 <= v <= imax -> 0 <= v < 2 ^ 64) by (intros v; rewrite imax_eq; zpow; lia).
  destruct (decide (n1 >= 0 /\ n2 >= 0)) as [D|D].
  { rewrite !cast_u64_pos by lia. destruct (big_multiply_ok n1 d2) as (u & w & -> & ? & ? & Ep); [apply Hb; lia..|]. cbn [rbind].
    destruct (big_multiply_ok n2 d1) as (u' & w' & -> & ? & ? & Ep'); [apply Hb; lia..|]. cbn [rbind].
    rewrite big_lt_ok by done. by rewrite Ep, Ep'. }
  destruct (decide (n1 < 0 /\ n2 < 0)) as [D2|D2].
  { rewrite !arith_s64 by lia. cbn [rbind]. rewrite !cast_u64_pos by lia.
    destruct (big_multiply_ok (- n2) d1) as (u & w & -> & ? & ? & Ep); [apply Hb; lia..|]. cbn [rbind].
    destruct (big_multiply_ok (- n1) d2) as (u' & w' & -> & ? & ? & Ep'); [apply Hb; lia..|]. cbn [rbind].
    rewrite big_lt_ok by done. rewrite Ep, Ep'. f_equal. apply bool_decide_ext. lia. }
  f_equal. apply bool_decide_ext. nia.
Qed.
Lemma ratio_equal_ok r1 r2 : reduced r1 -> reduced r2 -> ratio_equal r1 r2 = bool_decide (fst r1 * snd r2 = fst r2 * snd r1).
Proof.
  intros H1 H2. unfold ratio_equal. apply bool_decide_ext. split; [intros [-> ->]; lia|].
  intros E. by rewrite (reduced_unique r1 r2 H1 H2 E).
Qed.
