From stdpp Require Import base numbers list.
From Coq Require Import ZArith Lia.
From Verif Require Import Base.Res Base.Int Num.BitProofs Num.GcdProofs Num.RatioModel Num.RatioProofs Chrono.DurationModel Chrono.DurationSpec Chrono.DurationProofs Chrono.CalendarModel Chrono.CalendarSpec.
Open Scope Z_scope.

Lemma arith_u32 z : 0 <= z < 4294967296 -> arith u32 z = Ok z.
Proof. intros H. unfold arith. cbn [sg u32 wd]. change (2 ^ 32) with 4294967296. by rewrite Z.mod_small by lia. Qed.
Lemma arith_u32_mod z : arith u32 z = Ok (z mod 4294967296).
Proof. reflexivity. Qed.
Lemma arith_s64' z : - 9223372036854775808 <= z <= 9223372036854775807 -> arith s64 z = Ok z.
Proof. intros H. unfold arith. rewrite decide_True; [done|]. unfold in_t, tmin, tmax. cbn. lia. Qed.
Lemma cast_u32_id z : 0 <= z < 4294967296 -> cast u32 z = z.
Proof. intros H. apply cast_u_id; [done|]. exact H. Qed.
Lemma cast_u8_id z : 0 <= z < 256 -> cast u8 z = z.
Proof. intros H. apply cast_u_id; [done|]. exact H. Qed.
Lemma cast_s16_id z : - 32768 <= z <= 32767 -> cast s16 z = z.
Proof. intros H. apply cast_id; [cbn; lia|]. unfold in_t, tmin, tmax. cbn. lia. Qed.
Lemma shr_s32 a k : 0 <= k < 32 -> shr s32 a k = Ok (a / 2 ^ k).
Proof. intros H. by apply shr_ok. Qed.
Lemma shr_u32 a k : 0 <= k < 32 -> shr u32 a k = Ok (a / 2 ^ k).
Proof. intros H. by apply shr_ok. Qed.

(** a finite check lifted to all values below [n] *)
Fixpoint zall (n : nat) (i : Z) (P : Z -> bool) : bool := match n with O => true | S n => P i && zall n (i + 1) P end.
Lemma zall_ok n i (P : Z -> bool) : zall n i P = true -> forall z, i <= z < i + Z.of_nat n -> P z = true.
Proof.
  revert i. induction n as [|n IH]; intros i H z Hz; [lia|]. cbn in H. apply andb_true_iff in H as [H1 H2].
  destruct (decide (z = i)) as [->|]; [done|]. apply (IH (i + 1) H2). lia.
Qed.

(** cumulative days before month [mp], counted from March *)
Definition cum (mp : Z) : Z := (979 * mp + 19) / 32.
(** the day number of a date, in unbounded arithmetic *)
Definition yp (y m : Z) : Z := if decide (m <= 2) then y - 1 else y.
Definition mp (m : Z) : Z := if decide (m <= 2) then m + 9 else m - 3.
Definition D (y m d : Z) : Z := 365 * yp y m + yp y m / 4 - yp y m / 100 + yp y m / 400 + cum (mp m) + d - 1 - 719468.

Lemma rem0 a b : 0 < b -> (a `rem` b = 0 <-> a mod b = 0).
Proof. intros Hb. rewrite Z.rem_divide by lia. by rewrite <-Z.mod_divide by lia. Qed.
Lemma is_leap_ok y : is_leap y = bool_decide (leap y).
Proof.
  apply Bool.eq_iff_eq_true. unfold is_leap. rewrite andb_true_iff, orb_true_iff, !bool_decide_eq_true. unfold leap. rewrite !rem0 by lia. done.
Qed.
Lemma month_cases (P : Z -> Prop) : P 1 -> P 2 -> P 3 -> P 4 -> P 5 -> P 6 -> P 7 -> P 8 -> P 9 -> P 10 -> P 11 -> P 12 -> forall m, 1 <= m <= 12 -> P m.
Proof.
  intros. assert (E : m = 1 \/ m = 2 \/ m = 3 \/ m = 4 \/ m = 5 \/ m = 6 \/ m = 7 \/ m = 8 \/ m = 9 \/ m = 10 \/ m = 11 \/ m = 12) by lia.
  repeat (destruct E as [->|E]; [done|]). by subst.
Qed.
Lemma last_day_ok y m : 1 <= m <= 12 -> last_day y m = Ok (month_len y m).
Proof.
  intros Hm. unfold last_day. rewrite is_leap_ok. unfold month_len. revert m Hm. apply month_cases; try reflexivity.
  cbn [bool_decide decide decide_rel]. rewrite bool_decide_true by done. cbn [andb]. destruct (decide (2 = 2)); [|done].
  case_bool_decide as L; [by rewrite decide_True|]. by rewrite decide_False.
Qed.
Lemma ymd_ok_ok y m d : ymd_ok y m d = Ok (bool_decide (exists_date (y, m, d) /\ year_in (y, m, d))).
Proof.
  unfold ymd_ok, year_ok, month_ok. unfold exists_date, year_in.
  destruct (decide (-32767 <= y <= 32767 /\ 1 <= m <= 12)) as [[Hy Hm]|N].
  - rewrite !bool_decide_true by lia. cbn [negb andb orb]. rewrite last_day_ok by done. cbn [rbind]. f_equal.
    apply Bool.eq_iff_eq_true. rewrite andb_true_iff, !bool_decide_eq_true. lia.
  - replace (negb _ || negb _) with true; [f_equal; symmetry; apply bool_decide_false; tauto|].
    symmetry. rewrite orb_true_iff, !negb_true_iff, !andb_false_iff, !bool_decide_eq_false. lia.
Qed.
Lemma cum_range m : 1 <= m <= 12 -> 0 <= cum (mp m) <= 337.
Proof. revert m. apply month_cases; vm_compute; split; discriminate. Qed.
Lemma div_floor n k : 0 < k -> (if decide (n >= 0) then n else n - (k - 1)) `quot` k = n / k.
Proof.
  intros Hk. case_decide as H.
  - by rewrite Z.quot_div_nonneg by lia.
  - assert (E : (n - (k - 1)) `quot` k = - ((k - 1 - n) / k)). { rewrite <-(Z.quot_div_nonneg (k - 1 - n)) by lia. rewrite <-Z.quot_opp_l by lia. f_equal. lia. }
    rewrite E. pose proof (Z.div_mod (k - 1 - n) k ltac:(lia)). pose proof (Z.mod_pos_bound (k - 1 - n) k Hk).
    apply Z.div_unique_pos with (k - 1 - (k - 1 - n) mod k); lia.
Qed.
Lemma div_100_400 n : n / 100 / 4 = n / 400.
Proof. rewrite Z.div_div by lia. done. Qed.
Lemma div_1461 n : 1461 * n / 4 = 365 * n + n / 4.
Proof. replace (1461 * n) with (n + (365 * n) * 4) by lia. rewrite Z.div_add by lia. lia. Qed.
Lemma days_from_civil_ok y m d : -32768 <= y <= 32767 -> 1 <= m <= 12 -> 0 <= d <= 255 -> days_from_civil y m d = Ok (D y m d).
Proof.
  intros Hy Hm Hd. unfold days_from_civil.
  assert (Ey : y - (if decide (m <= 2) then 1 else 0) = yp y m) by (unfold yp; case_decide; lia).
  assert (Hyp : -32769 <= yp y m <= 32767) by (unfold yp; case_decide; lia).
  rewrite Ey, arith_s32 by lia. cbn [rbind].
  assert (En : (if decide (yp y m >= 0) then Ok (yp y m) else arith s32 (yp y m - 99)) = Ok (if decide (yp y m >= 0) then yp y m else yp y m - (100 - 1))).
  { destruct (decide (yp y m >= 0)); [done|]. rewrite arith_s32 by lia. f_equal; lia. }
  rewrite En. cbn [rbind]. rewrite div_floor by lia.
  assert (Em : arith u32 (m + (if decide (m > 2) then cast u32 (-3) else 9)) = Ok (mp m)). { clear -Hm. revert m Hm. apply month_cases; vm_compute; reflexivity. }
  rewrite Em. cbn [rbind]. assert (Hmp : 0 <= mp m <= 11) by (clear -Hm; unfold mp; case_decide; lia).
  pose proof (cum_range m Hm) as Hcum.
  rewrite !arith_u32 by lia. cbn [rbind]. rewrite !arith_u32 by lia. cbn [rbind]. rewrite shr_u32 by lia. cbn [rbind]. change (2 ^ 5) with 32. fold (cum (mp m)).
  rewrite arith_u32 by lia. cbn [rbind]. rewrite cast_s32 by lia. rewrite arith_s32 by lia. cbn [rbind].
  rewrite arith_s32 by lia. cbn [rbind]. rewrite !shr_s32 by lia. cbn [rbind]. change (2 ^ 2) with 4.
  rewrite div_1461, div_100_400. remember (yp y m) as Y. clear Ey En Em.
  assert (-328 <= Y / 100 <= 327) by (split; [apply Z.div_le_lower_bound|apply Z.lt_succ_r, Z.div_lt_upper_bound]; lia).
  assert (-82 <= Y / 400 <= 81) by (split; [apply Z.div_le_lower_bound|apply Z.lt_succ_r, Z.div_lt_upper_bound]; lia).
  assert (-8193 <= Y / 4 <= 8191) by (split; [apply Z.div_le_lower_bound|apply Z.lt_succ_r, Z.div_lt_upper_bound]; lia).
  rewrite arith_s32 by lia. cbn [rbind]. idtac.
  repeat (rewrite arith_s32 by lia; cbn [rbind]). f_equal. unfold D. rewrite <-?HeqY. lia.
Qed.

Ltac Zify.zify_post_hook ::= Z.div_mod_to_equations.
Lemma cum_mp m : 1 <= m <= 12 -> cum (mp m) = nth (Z.to_nat (m - 1)) [306; 337; 0; 31; 61; 92; 122; 153; 184; 214; 245; 275] 0.
Proof. revert m. apply month_cases; reflexivity. Qed.
(** the following month starts the day after the last *)
Lemma D_next y m d : exists_date (y, m, d) -> let '(y', m', d') := next_date (y, m, d) in D y' m' d' = D y m d + 1.
Proof.
  intros [Hm Hd]. unfold next_date. destruct (decide (d < month_len y m)) as [L|L].
  { unfold D. lia. }
  assert (d = month_len y m) as -> by lia. clear Hd L. revert Hm. revert m.
  apply (month_cases (fun m => let '(y', m', d') := if decide (m < 12) then (y, m + 1, 1) else (y + 1, 1, 1) in D y' m' d' = D y m (month_len y m) + 1)).
  all: match goal with |- context [decide (?a < 12)] => first [rewrite (decide_True (P := a < 12)) by lia|rewrite (decide_False (P := a < 12)) by lia] end.
  all: match goal with |- D ?a ?b ?c = D ?d ?e ?f + 1 => let b' := eval vm_compute in b in change b with b' end.
  all: unfold D; rewrite !cum_mp by lia; unfold yp, month_len.
  all: repeat match goal with |- context [nth ?n ?l 0] => let v := eval vm_compute in (nth n l 0) in change (nth n l 0) with v end.
  all: repeat match goal with |- context [decide (?P)] =>
     lazymatch P with leap _ => fail | _ => first [rewrite (decide_True (P := P)) by lia|rewrite (decide_False (P := P)) by lia] end end.
  all: try lia.
  - destruct (decide (leap y)) as [L|L]; unfold leap in L; lia.
Qed.
(** a date lies within its year, and within its month *)
Lemma D_month y m d : exists_date (y, m, d) -> D y m 1 <= D y m d <= D y m (month_len y m).
Proof. intros [Hm Hd]. unfold D. lia. Qed.
Lemma D_month_mono y m m' : 1 <= m -> m < m' <= 12 -> D y m (month_len y m) < D y m' 1.
Proof.
  intros H1 H2. assert (forall k, 0 <= k -> m + 1 + k <= 12 -> D y m (month_len y m) < D y (m + 1 + k) 1) as H.
  { apply (natlike_ind (fun k => m + 1 + k <= 12 -> D y m (month_len y m) < D y (m + 1 + k) 1)).
    - intros Hk. assert (1 <= month_len y m) by (unfold month_len; repeat case_decide; lia).
      pose proof (D_next y m (month_len y m) ltac:(unfold exists_date; lia)) as E. unfold next_date in E. rewrite decide_False in E by lia. rewrite decide_True in E by lia.
      rewrite Z.add_0_r. lia.
    - intros k Hk IH Hk2. specialize (IH ltac:(lia)). assert (1 <= month_len y (m + 1 + k)) by (unfold month_len; repeat case_decide; lia).
      pose proof (D_next y (m + 1 + k) (month_len y (m + 1 + k)) ltac:(unfold exists_date; lia)) as E. unfold next_date in E. rewrite decide_False in E by lia. rewrite decide_True in E by lia.
      pose proof (D_month y (m + 1 + k) 1 ltac:(unfold exists_date; lia)). replace (m + 1 + Z.succ k) with (m + 1 + k + 1) by lia. lia. }
  replace m' with (m + 1 + (m' - m - 1)) by lia. apply H; lia.
Qed.
Lemma D_year y m d : exists_date (y, m, d) -> D y 1 1 <= D y m d <= D y 12 31.
Proof.
  intros H. pose proof (D_month y m d H) as Hd. destruct H as [Hm _]. split.
  - destruct (decide (m = 1)) as [->|]; [lia|]. pose proof (D_month_mono y 1 m ltac:(lia) ltac:(lia)). assert (exists_date (y, 1, 1)) as H1 by (split; [lia|]; change (month_len y 1) with 31; lia). pose proof (D_month y 1 1 H1). lia.
  - destruct (decide (m = 12)) as [->|]; [change (month_len y 12) with 31 in Hd; lia|]. pose proof (D_month_mono y m 12 ltac:(lia) ltac:(lia)). unfold D in *. lia.
Qed.
Lemma D_year_mono y y' : y < y' -> D y 12 31 < D y' 1 1.
Proof.
  intros H. unfold D. rewrite !cum_mp by lia. unfold yp. rewrite (decide_False (P := 12 <= 2)), (decide_True (P := 1 <= 2)) by lia.
  repeat match goal with |- context [nth ?n ?l 0] => let v := eval vm_compute in (nth n l 0) in change (nth n l 0) with v end.
  replace (y / 100) with (y / 4 / 25) by (by rewrite Z.div_div by lia).
  replace ((y' - 1) / 100) with ((y' - 1) / 4 / 25) by (by rewrite Z.div_div by lia).
  pose proof (Z.div_le_mono y (y' - 1) 4 ltac:(lia) ltac:(lia)) as H4.
  pose proof (Z.div_le_mono y (y' - 1) 400 ltac:(lia) ltac:(lia)) as H400.
  remember (y / 4) as q eqn:Eq. remember ((y' - 1) / 4) as q' eqn:Eq'. remember (y / 400) as r eqn:Er. remember ((y' - 1) / 400) as r' eqn:Er'.
  clear Eq Eq' Er Er'. lia.
Qed.
Lemma D_inj x x' : exists_date x -> exists_date x' -> let '(y, m, d) := x in let '(y', m', d') := x' in D y m d = D y' m' d' -> x = x'.
Proof.
  destruct x as [[y m] d], x' as [[y' m'] d']. intros H H' E.
  pose proof (D_year _ _ _ H). pose proof (D_year _ _ _ H'). pose proof (D_month _ _ _ H). pose proof (D_month _ _ _ H').
  assert (y = y') as <-. { destruct (Z.lt_trichotomy y y') as [L|[?|L]]; [|done|]; pose proof (D_year_mono _ _ L); lia. }
  assert (m = m') as <-.
  { destruct H as [Hm _], H' as [Hm' _]. destruct (Z.lt_trichotomy m m') as [L|[?|L]]; [|done|]; [pose proof (D_month_mono y m m' ltac:(lia) ltac:(lia))|pose proof (D_month_mono y m' m ltac:(lia) ltac:(lia))]; lia. }
  f_equal. unfold D in E. lia.
Qed.
(** ** civil_from_days *)
Lemma voc_table : forall d, 0 <= d < 36525 -> 91867 * (d + 1) / 33554432 = (4 * d + 3) / 1461.
Proof.
  intros d Hd. apply Z.eqb_eq.
  apply (zall_ok (Z.to_nat 36525) 0 (fun d => 91867 * (d + 1) / 33554432 =? (4 * d + 3) / 1461)); [vm_compute; reflexivity|]. rewrite Z2Nat.id by lia. lia.
Qed.
Lemma mp_table : forall d, 0 <= d < 366 -> ((let k := (535 * d + 333) / 16384 in (0 <=? k) && (k <=? 11) && (cum k <=? d) && (d <? (if k =? 11 then 366 else cum (k + 1))))) = true.
Proof.
  intros d Hd. apply (zall_ok 366 0 (fun d => let k := (535 * d + 333) / 16384 in (0 <=? k) && (k <=? 11) && (cum k <=? d) && (d <? (if k =? 11 then 366 else cum (k + 1)))));
  [vm_compute; reflexivity|lia].
Qed.

Lemma mp_facts d : 0 <= d < 366 -> let k := (535 * d + 333) / 16384 in 0 <= k <= 11 /\ cum k <= d /\ d < (if decide (k = 11) then 366 else cum (k + 1)).
Proof.
  intros Hd k. pose proof (mp_table d Hd) as H. cbv zeta in H. fold k in H. rewrite !andb_true_iff, !Z.leb_le, Z.ltb_lt in H.
  destruct H as [[[H1 H2] H3] H4]. split; [lia|]. split; [done|]. destruct (decide (k = 11)) as [E|E].
  - rewrite E in H4. cbn in H4. lia.
  - apply Z.eqb_neq in E. by rewrite E in H4.
Qed.
Lemma cum_len y k : 0 <= k <= 10 -> cum (k + 1) - cum k = month_len y (if decide (k < 10) then k + 3 else k - 9).
Proof.
  intros H. assert (E : k = 0 \/ k = 1 \/ k = 2 \/ k = 3 \/ k = 4 \/ k = 5 \/ k = 6 \/ k = 7 \/ k = 8 \/ k = 9 \/ k = 10) by lia.
  repeat (destruct E as [->|E]; [reflexivity|]). subst. reflexivity.
Qed.
Lemma D_min : D (-32767) 1 1 = -12687428. Proof. vm_compute. reflexivity. Qed.
Lemma D_max : D 32767 12 31 = 11248737. Proof. vm_compute. reflexivity. Qed.
Lemma civil_from_days_ok t : day_min <= t <= day_max -> exists y m d, civil_from_days t = Ok (y, m, d) /\ exists_date (y, m, d) /\ year_in (y, m, d) /\ D y m d = t.
Proof.
  unfold day_min, day_max. intros Ht. unfold civil_from_days.
  rewrite arith_s32 by lia. rewrite rbind_ok. remember (t + 719468) as zx eqn:Ez.
  rewrite arith_s32 by lia. rewrite rbind_ok.
  assert (En : (if decide (zx >= 0) then arith s32 (4 * zx + 3) else arith s32 (4 * zx - 146093)) = Ok (if decide (4 * zx + 3 >= 0) then 4 * zx + 3 else 4 * zx + 3 - (146097 - 1))).
  { destruct (decide (zx >= 0)); [rewrite decide_True by lia|rewrite decide_False by lia]; rewrite arith_s32 by lia; f_equal; lia. }
  rewrite En. rewrite rbind_ok. rewrite div_floor by lia. clear En.
  remember ((4 * zx + 3) / 146097) as c eqn:Ec.
  assert (Hc : 146097 * c <= 4 * zx + 3 < 146097 * c + 146097) by lia.
  rewrite arith_s32 by lia. rewrite rbind_ok. rewrite shr_s32 by lia. rewrite rbind_ok. change (2 ^ 2) with 4.
  rewrite arith_s32 by lia. rewrite rbind_ok.
  remember (zx - 146097 * c / 4) as dc eqn:Edc.
  assert (Hdc : 0 <= dc < 36525) by lia.
  rewrite cast_u32_id by lia. rewrite (arith_u32 (dc + 1)) by lia. rewrite rbind_ok.
  rewrite arith_u32 by lia. rewrite rbind_ok. rewrite shr_u32 by lia. rewrite rbind_ok. change (2 ^ 25) with 33554432. rewrite voc_table by lia.
  remember ((4 * dc + 3) / 1461) as v eqn:Ev. assert (Hv : 1461 * v <= 4 * dc + 3 < 1461 * v + 1461) by lia.
  rewrite cast_s32 by lia. rewrite (arith_s32 (c * 100)) by lia. rewrite rbind_ok. rewrite arith_s32 by lia. rewrite rbind_ok.
  rewrite arith_u32 by lia. rewrite rbind_ok. rewrite shr_u32 by lia. rewrite rbind_ok. change (2 ^ 2) with 4.
  remember (dc - 1461 * v / 4) as doy eqn:Edoy. assert (Hdoy : 0 <= doy < 366) by lia.
  rewrite arith_u32 by lia. rewrite rbind_ok. rewrite (arith_u32 (535 * doy)) by lia. rewrite rbind_ok. rewrite arith_u32 by lia. rewrite rbind_ok.
  rewrite shr_u32 by lia. rewrite rbind_ok. change (2 ^ 14) with 16384.
  pose proof (mp_facts doy Hdoy) as (Hk & Hk1 & Hk2). remember ((535 * doy + 333) / 16384) as k eqn:Ek. clear Ek.
  rewrite (arith_u32 (979 * k)) by lia. rewrite rbind_ok. rewrite (arith_u32 (979 * k + 19)) by lia. rewrite rbind_ok. rewrite shr_u32 by lia. rewrite rbind_ok. change (2 ^ 5) with 32.
  fold (cum k). assert (Hcum : 0 <= cum k) by (unfold cum; lia).
  rewrite (arith_u32 (doy - cum k)) by lia. rewrite rbind_ok. rewrite arith_u32 by lia. rewrite rbind_ok.
  assert (Em : arith u32 (k + (if decide (k < 10) then 3 else cast u32 (-9))) = Ok (if decide (k < 10) then k + 3 else k - 9)).
  { clear -Hk. destruct (decide (k < 10)); [apply arith_u32; lia|]. assert (k = 10 \/ k = 11) as [->| ->] by lia; reflexivity. }
  rewrite Em. rewrite rbind_ok. clear Em. remember (if decide (k < 10) then k + 3 else k - 9) as m eqn:Em.
  assert (Hm : 1 <= m <= 12) by (destruct (decide (k < 10)); lia).
  rewrite arith_s32 by (destruct (decide (m <= 2)); lia). rewrite rbind_ok.
  remember (v + c * 100 + (if decide (m <= 2) then 1 else 0)) as y eqn:Ey. remember (doy - cum k + 1) as d eqn:Ed.
  assert (Eyp : yp y m = v + c * 100) by (unfold yp; destruct (decide (m <= 2)); lia).
  assert (Emp : mp m = k) by (unfold mp; destruct (decide (m <= 2)), (decide (k < 10)); lia).
  assert (HD : D y m d = t).
  { unfold D. rewrite Eyp, Emp, Ed. assert (0 <= v <= 99) by lia.
    assert ((v + c * 100) / 4 = v / 4 + 25 * c) as -> by lia. assert ((v + c * 100) / 100 = c) as -> by lia. assert ((v + c * 100) / 400 = c / 4) as -> by lia. lia. }
  assert (HE : exists_date (y, m, d)).
  { split; [done|]. destruct (decide (k = 11)) as [K|K].
    - assert (m = 2) as Em2 by (rewrite Em; destruct (decide (k < 10)); lia). clear Em HD Eyp Emp. subst k m. change (cum 11) with 337 in *.
      rewrite (decide_True (P := 2 <= 2)) in Ey by lia. unfold month_len. rewrite (decide_True (P := 2 = 2)) by lia.
      destruct (decide (leap y)) as [L|L]; [lia|]. split; [lia|].
      destruct (decide (doy = 365)) as [E365|]; [|lia]. exfalso. apply L. clear L. unfold leap.
      assert (v mod 4 = 3) as Hv4 by lia. destruct (decide (v = 99)) as [->|].
      + assert (dc = 36524) by lia. assert (c mod 4 = 3) by lia. subst y. replace (99 + c * 100 + 1) with (100 * (c + 1)) by lia. split; [lia|]. right. lia.
      + split; [lia|]. left. lia.
    - pose proof (cum_len y k ltac:(lia)) as E. rewrite <-Em in E. lia. }
  assert (HY : year_in (y, m, d)).
  { unfold year_in. pose proof (D_year y m d HE) as HDy. split.
    - destruct (decide (y < -32767)) as [L|]; [|lia]. apply D_year_mono in L. rewrite D_min in L. lia.
    - destruct (decide (32767 < y)) as [L|]; [|lia]. apply D_year_mono in L. rewrite D_max in L. lia. }
  exists y, m, d. split; [|done]. f_equal. unfold mk_year, mk_month, mk_day. destruct HE as [_ Hd]. assert (month_len y m <= 31) by (unfold month_len; repeat case_decide; lia).
  unfold year_in in HY. rewrite cast_s16_id, !cast_u8_id by lia. done.
Qed.
