From stdpp Require Import base numbers list.
From Coq Require Import ZArith Lia.
From Verif Require Import Base.Res Base.Int Num.BitProofs Num.GcdProofs Num.RatioModel Num.RatioProofs Chrono.DurationModel Chrono.DurationSpec Chrono.DurationProofs Chrono.CalendarModel Chrono.CalendarSpec Chrono.CalendarProofs.
Open Scope Z_scope.
Ltac Zify.zify_post_hook ::= Z.div_mod_to_equations.

Ltac st := rewrite ?arith_s32, ?arith_s64', ?rbind_ok by lia.
Lemma weekday_from_days_ok t : -2147483648 <= t <= 2147483647 -> weekday_from_days t = Ok ((t + 4) mod 7).
Proof.
  intros H. unfold weekday_from_days. assert (E : cast u32 t = t mod 4294967296) by reflexivity. rewrite E. rewrite arith_u32 by (destruct (decide (t >= 0)); lia).
  rewrite rbind_ok. apply (f_equal Ok). rewrite Z.rem_mod_nonneg by (destruct (decide (t >= 0)); lia).
  rewrite cast_u8_id by lia. destruct (decide (t >= 0)).
  - rewrite (Z.mod_small t) by lia. done.
  - replace (t mod 4294967296) with (t + 4294967296) by (apply Z.mod_unique_pos with (-1); lia). replace (t + 4294967296 + 0) with (t + 4 + 613566756 * 7) by lia. by rewrite Z.mod_add by lia.
Qed.
Lemma calculate_weekday_ok y m d : -32767 <= y <= 32767 -> 1 <= m <= 12 -> 0 <= d <= 255 -> calculate_weekday y m d = Ok ((D y m d + 4) mod 7).
Proof.
  intros Hy Hm Hd. unfold calculate_weekday.
  assert (Ey : y - (if decide (m <= 2) then 1 else 0) = yp y m) by (unfold yp; destruct (decide (m <= 2)); lia).
  assert (Hyp : -32769 <= yp y m <= 32767) by (unfold yp; destruct (decide (m <= 2)); lia).
  rewrite Ey, arith_s32 by lia. rewrite rbind_ok. unfold D. remember (yp y m) as Y eqn:EY. clear EY Ey.
  assert (En : (if decide (Y >= 0) then Ok Y else arith s32 (Y - 399)) = Ok (if decide (Y >= 0) then Y else Y - (400 - 1))).
  { destruct (decide (Y >= 0)); [done|]. rewrite arith_s32 by lia. apply (f_equal Ok); lia. }
  rewrite En, rbind_ok. rewrite div_floor by lia. clear En.
  assert (Em : m + (if decide (m > 2) then -3 else 9) = mp m) by (unfold mp; destruct (decide (m <= 2)), (decide (m > 2)); lia).
  rewrite Em. assert (Hmp : 0 <= mp m <= 11) by (unfold mp; destruct (decide (m <= 2)); lia). remember (mp m) as M eqn:EM. clear EM Em.
  remember (Y / 400) as e eqn:Ee. assert (He : 400 * e <= Y < 400 * e + 400) by lia.
  rewrite (arith_s32 (e * 400)), rbind_ok by lia. rewrite (arith_s32 (Y - e * 400)), rbind_ok by lia. rewrite (arith_s32 M), rbind_ok by lia.
  rewrite (arith_s32 (979 * M)), rbind_ok by lia. rewrite (arith_s32 (979 * M + 19)), rbind_ok by lia. rewrite shr_s32, rbind_ok by lia. change (2 ^ 5) with 32. fold (cum M).
  assert (Hc : 0 <= cum M <= 400) by (unfold cum; lia). remember (cum M) as c eqn:Ec. clear Ec.
  rewrite (arith_s32 (c + d)), rbind_ok by lia. rewrite (arith_s32 (c + d - 1)), rbind_ok by lia. remember (Y - e * 400) as z eqn:Ez.
  rewrite (arith_s32 (1461 * z)), rbind_ok by lia. rewrite shr_s32, rbind_ok by lia. change (2 ^ 2) with 4. rewrite Z.quot_div_nonneg by lia.
  rewrite div_1461. rewrite (arith_s32 (_ - z / 100)), rbind_ok by lia. rewrite (arith_s32 (_ + (c + d - 1))), rbind_ok by lia.
  rewrite arith_s32, rbind_ok by lia. apply (f_equal Ok). rewrite Z.rem_mod_nonneg by lia.
  replace Y with (z + e * 400) by lia.
  assert ((z + e * 400) / 4 = z / 4 + 100 * e) as -> by lia. assert ((z + e * 400) / 100 = z / 100 + 4 * e) as -> by lia.
  remember (z / 4) as z4. remember (z / 100) as z100.
  replace (365 * (z + e * 400) + (z4 + 100 * e) - (z100 + 4 * e) + e + c + d - 1 - 719468 + 4) with (365 * z + z4 - z100 + (c + d - 1) + 3 + (20871 * e - 102781) * 7) by lia.
  by rewrite Z.mod_add by lia.
Qed.
Lemma floor7 w j k : j = k - 1 -> 0 < k -> Z.abs w < 9000000000000000000 -> k < 1000 -> (if decide (w >= 0) then Ok w else arith s64 (w - j)) = Ok (if decide (w >= 0) then w else w - (k - 1)).
Proof. intros ->. intros. destruct (decide (w >= 0)); [done|]. rewrite arith_s64' by lia. done. Qed.
Lemma weekday_add_ok w n : 0 <= w <= 255 -> -2147483648 <= n <= 2147483647 -> weekday_add w n = Ok ((w + n) mod 7).
Proof.
  intros Hw Hn. unfold weekday_add. rewrite arith_s64', rbind_ok by lia. rewrite (floor7 (w + n) 6 7), rbind_ok by lia. rewrite div_floor by lia.
  rewrite (arith_s64' (_ * 7)), rbind_ok by lia. rewrite arith_s64', rbind_ok by lia. apply (f_equal Ok).
  rewrite cast_u32_id by lia. unfold mk_weekday. rewrite decide_False by lia. rewrite cast_u8_id by lia. lia.
Qed.
Lemma weekday_sub_ok w n : 0 <= w <= 255 -> -2147483647 <= n <= 2147483647 -> weekday_sub w n = Ok ((w - n) mod 7).
Proof. intros Hw Hn. unfold weekday_sub. rewrite arith_s32, rbind_ok by lia. rewrite weekday_add_ok by lia. done. Qed.
Lemma weekday_diff_ok a b : 0 <= a <= 6 -> 0 <= b <= 6 -> weekday_diff a b = Ok ((a - b) mod 7).
Proof.
  intros Ha Hb. unfold weekday_diff. rewrite arith_u32_mod, rbind_ok. destruct (decide (b <= a)).
  - rewrite Z.mod_small by lia. rewrite decide_True, rbind_ok by lia. rewrite cast_s32 by lia. apply (f_equal Ok). lia.
  - replace ((a - b) mod 4294967296) with (a - b + 4294967296) by (apply Z.mod_unique_pos with (-1); lia). rewrite decide_False by lia.
    rewrite arith_u32_mod, rbind_ok. replace ((a - b + 4294967296 + 7) mod 4294967296) with (a - b + 7) by (apply Z.mod_unique_pos with 1; lia).
    rewrite cast_s32 by lia. apply (f_equal Ok). lia.
Qed.
Lemma month_add_ok m n : 0 <= m <= 255 -> -2147483647 <= n <= 2147483647 -> month_add m n = Ok ((m + n - 1) mod 12 + 1).
Proof.
  intros Hm Hn. unfold month_add. rewrite arith_s32, rbind_ok by lia. rewrite arith_s64', rbind_ok by lia. rewrite (floor7 (m + (n - 1)) 11 12), rbind_ok by lia. rewrite div_floor by lia.
  rewrite (arith_s64' (_ * 12)), rbind_ok by lia. rewrite (arith_s64' (m + (n - 1) - _)), rbind_ok by lia. rewrite arith_s64', rbind_ok by lia. apply (f_equal Ok).
  rewrite cast_u32_id by lia. unfold mk_month. rewrite cast_u8_id by lia. lia.
Qed.
Lemma month_sub_ok m n : 0 <= m <= 255 -> -2147483647 <= n <= 2147483647 -> month_sub m n = Ok ((m - n - 1) mod 12 + 1).
Proof. intros Hm Hn. unfold month_sub. rewrite arith_s32, rbind_ok by lia. rewrite month_add_ok by lia. done. Qed.
Lemma month_diff_ok a b : 1 <= a <= 12 -> 1 <= b <= 12 -> month_diff a b = Ok ((a - b) mod 12).
Proof.
  intros Ha Hb. unfold month_diff. rewrite arith_u32_mod, rbind_ok. destruct (decide (b <= a)).
  - rewrite Z.mod_small by lia. rewrite decide_True, rbind_ok by lia. rewrite cast_s32 by lia. apply (f_equal Ok). lia.
  - replace ((a - b) mod 4294967296) with (a - b + 4294967296) by (apply Z.mod_unique_pos with (-1); lia). rewrite decide_False by lia.
    rewrite arith_u32_mod, rbind_ok. replace ((a - b + 4294967296 + 12) mod 4294967296) with (a - b + 12) by (apply Z.mod_unique_pos with 1; lia).
    rewrite cast_s32 by lia. apply (f_equal Ok). lia.
Qed.
Lemma year_add_ok y n : -32768 <= y <= 32767 -> -32768 <= y + n <= 32767 -> year_add y n = Ok (y + n).
Proof. intros Hy Hn. unfold year_add. rewrite arith_s32, rbind_ok by lia. unfold mk_year. by rewrite cast_s16_id by lia. Qed.
Lemma ym_add_ok y m n : -32768 <= y <= 32767 -> 1 <= m <= 12 -> -2147483647 <= n <= 2147483647 -> -32768 <= (12 * y + m + n - 1) / 12 <= 32767 ->
  ym_add y m n = Ok ((12 * y + m + n - 1) / 12, (m + n - 1) mod 12 + 1).
Proof.
  intros Hy Hm Hn Hr. unfold ym_add. rewrite arith_s32, rbind_ok by lia. rewrite arith_s64', rbind_ok by lia. rewrite (floor7 (m + (n - 1)) 11 12), rbind_ok by lia. rewrite div_floor by lia.
  rewrite cast_s32 by lia. rewrite year_add_ok, rbind_ok by lia.
  rewrite (arith_s64' (_ * 12)), rbind_ok by lia. rewrite (arith_s64' (m + (n - 1) - _)), rbind_ok by lia. rewrite arith_s64', rbind_ok by lia. apply (f_equal Ok).
  rewrite cast_u32_id by lia. unfold mk_month. rewrite cast_u8_id by lia. f_equal; lia.
Qed.
Lemma ym_sub_ok y m n : -32768 <= y <= 32767 -> 1 <= m <= 12 -> -2147483647 <= n <= 2147483647 -> -32768 <= (12 * y + m - n - 1) / 12 <= 32767 ->
  ym_sub y m n = Ok ((12 * y + m - n - 1) / 12, (m - n - 1) mod 12 + 1).
Proof.
  intros Hy Hm Hn Hr. unfold ym_sub. rewrite arith_s32, rbind_ok by lia. rewrite ym_add_ok by lia. reflexivity.
Qed.
Lemma valid_years : valid years_t. Proof. vm_compute. repeat split; try discriminate; auto 10. Qed.
Lemma valid_months : valid months_t. Proof. vm_compute. repeat split; try discriminate; auto 10. Qed.
Lemma common_ym : common years_t months_t = months_t. Proof. vm_compute. reflexivity. Qed.
Lemma common_ok_ym : common_ok years_t months_t. Proof. vm_compute. repeat split; discriminate. Qed.
Lemma factor_y : factor months_t years_t = 12. Proof. vm_compute. reflexivity. Qed.
Lemma factor_m : factor months_t months_t = 1. Proof. vm_compute. reflexivity. Qed.
Lemma in_s32 z : -2147483648 <= z <= 2147483647 -> in_t s32 z.
Proof. intros H. unfold in_t, tmin, tmax. cbn. lia. Qed.
Lemma ym_diff_ok y1 m1 y2 m2 : -32768 <= y1 <= 32767 -> -32768 <= y2 <= 32767 -> 0 <= m1 <= 255 -> 0 <= m2 <= 255 ->
  ym_diff y1 m1 y2 m2 = Ok (12 * y1 + m1 - (12 * y2 + m2)).
Proof.
  intros H1 H2 H3 H4. unfold ym_diff, year_diff. rewrite arith_s32, rbind_ok by lia. rewrite arith_s32, rbind_ok by lia.
  pose proof (dur_add_ok years_t months_t (y1 - y2) (m1 - m2) valid_years valid_months common_ok_ym) as E.
  unfold fits in E. rewrite common_ym, factor_y, factor_m in E. cbn [drep months_t] in E. cbv zeta in E.
  rewrite E by (apply in_s32; lia). rewrite rbind_ok. cbn [fst snd]. rewrite convert_self; [apply (f_equal Ok); lia|apply valid_months|apply in_s32; lia].
Qed.
(** ** days of the month by weekday *)
Lemma month_len_bounds y m : 28 <= month_len y m <= 31.
Proof. unfold month_len. repeat case_decide; lia. Qed.
Lemma D_range y m d : exists_date (y, m, d) -> year_in (y, m, d) -> day_min <= D y m d <= day_max.
Proof.
  intros HE HY. pose proof (D_year y m d HE) as HD. unfold year_in in HY. unfold day_min, day_max. split.
  - destruct (decide (y = -32767)) as [->|]; [rewrite D_min in HD; lia|]. pose proof (D_year_mono (-32767) y ltac:(lia)). assert (D (-32767) 1 1 <= D (-32767) 12 31) by (vm_compute; discriminate). rewrite D_min in *. lia.
  - destruct (decide (y = 32767)) as [->|]; [rewrite D_max in HD; lia|]. pose proof (D_year_mono y 32767 ltac:(lia)). assert (D (32767) 1 1 <= D (32767) 12 31) by (vm_compute; discriminate). rewrite D_max in *. lia.
Qed.
Lemma D_shift y m d k : D y m (d + k) = D y m d + k.
Proof. unfold D. lia. Qed.
Lemma civil_D y m d : exists_date (y, m, d) -> year_in (y, m, d) -> civil_from_days (D y m d) = Ok (y, m, d).
Proof.
  intros HE HY. destruct (civil_from_days_ok _ (D_range y m d HE HY)) as (y' & m' & d' & -> & HE' & _ & E).
  f_equal. exact (D_inj (y', m', d') (y, m, d) HE' HE E).
Qed.
Lemma first_range y m : year_in (y, m, 1) -> 1 <= m <= 12 -> day_min <= D y m 1 <= day_max.
Proof. intros HY Hm. apply D_range; [|done]. split; [done|]. pose proof (month_len_bounds y m). lia. Qed.
Lemma ymwd_days_ok y m w i : year_in (y, m, 1) -> 1 <= m <= 12 -> 0 <= w <= 6 -> 0 <= i <= 255 ->
  ymwd_days y m w i = Ok (D y m (1 + (w - (D y m 1 + 4)) mod 7 + 7 * (i - 1))).
Proof.
  intros HY Hm Hw Hi. unfold ymwd_days. unfold year_in in HY. rewrite days_from_civil_ok, rbind_ok by lia.
  pose proof (first_range y m HY Hm) as HR. unfold day_min, day_max in HR.
  rewrite weekday_from_days_ok, rbind_ok by lia. rewrite weekday_diff_ok, rbind_ok by lia.
  assert (((w - (D y m 1 + 4) mod 7) mod 7) = (w - (D y m 1 + 4)) mod 7) as -> by (by rewrite Zminus_mod_idemp_r).
  remember ((w - (D y m 1 + 4)) mod 7) as r eqn:Er. assert (0 <= r < 7) by (subst r; apply Z.mod_pos_bound; lia). clear Er.
  rewrite (arith_s32 (i - 1)), rbind_ok by lia. rewrite (arith_s32 ((i - 1) * 7)), rbind_ok by lia. rewrite arith_s32, rbind_ok by lia.
  rewrite arith_s32 by lia. apply (f_equal Ok). rewrite <-Z.add_assoc, D_shift. lia.
Qed.
Lemma ymwd_ok_ok y m w i : -32768 <= y <= 32767 -> 0 <= m <= 255 -> 0 <= w <= 255 -> 0 <= i <= 255 ->
  ymwd_ok y m w i = Ok (bool_decide (year_in (y, m, 1) /\ 1 <= m <= 12 /\ w <= 6 /\ 1 <= i <= 5 /\ 1 + (w - (D y m 1 + 4)) mod 7 + 7 * (i - 1) <= month_len y m)).
Proof.
  intros Hy Hm Hw Hi. unfold ymwd_ok, year_ok, month_ok.
  destruct (decide (-32767 <= y <= 32767 /\ 1 <= m <= 12 /\ w <= 6 /\ 1 <= i <= 5)) as [(HY & HM & HW & HI)|N].
  2: { replace (negb _ || negb _ || negb _) with true.
    - f_equal. symmetry. apply bool_decide_false. unfold year_in. tauto.
    - symmetry. rewrite !orb_true_iff, !negb_true_iff, !andb_false_iff, !bool_decide_eq_false. lia. }
  rewrite !(bool_decide_true (_ <= _)), !(bool_decide_true (_ >= _)) by lia. cbn [negb andb orb].
  pose proof (month_len_bounds y m) as HL. assert (0 <= (w - (D y m 1 + 4)) mod 7 < 7) by (apply Z.mod_pos_bound; lia).
  destruct (decide (i <= 4)) as [Hi4|Hi4].
  - f_equal. symmetry. apply bool_decide_true. unfold year_in. repeat split; try lia.
  - rewrite days_from_civil_ok, rbind_ok by lia. pose proof (first_range y m HY HM) as HR. unfold day_min, day_max in HR.
    rewrite weekday_from_days_ok, rbind_ok by lia. rewrite weekday_diff_ok, rbind_ok by lia.
    assert (((w - (D y m 1 + 4) mod 7) mod 7) = (w - (D y m 1 + 4)) mod 7) as -> by (by rewrite Zminus_mod_idemp_r).
    remember ((w - (D y m 1 + 4)) mod 7) as r eqn:Er. clear Er.
    rewrite (arith_s32 (r + 1)), rbind_ok by lia. rewrite arith_s32, rbind_ok by lia. rewrite last_day_ok, rbind_ok by lia. f_equal.
    rewrite cast_u32_id by lia. apply bool_decide_ext. unfold year_in. intuition lia.
Qed.
Lemma ymwdl_days_ok y m w : year_in (y, m, 1) -> 1 <= m <= 12 -> 0 <= w <= 6 ->
  ymwdl_days y m w = Ok (D y m (month_len y m - (D y m (month_len y m) + 4 - w) mod 7)).
Proof.
  intros HY Hm Hw. unfold ymwdl_days, ymdl_days. rewrite last_day_ok, rbind_ok by lia. pose proof (month_len_bounds y m) as HL. unfold year_in in HY.
  rewrite days_from_civil_ok, rbind_ok by lia. assert (HE : exists_date (y, m, month_len y m)) by (split; lia).
  pose proof (D_range y m (month_len y m) HE HY) as HR. unfold day_min, day_max in HR.
  rewrite weekday_from_days_ok, rbind_ok by lia. rewrite weekday_diff_ok, rbind_ok by lia.
  assert ((((D y m (month_len y m) + 4) mod 7 - w) mod 7) = (D y m (month_len y m) + 4 - w) mod 7) as -> by (by rewrite Zminus_mod_idemp_l).
  remember ((D y m (month_len y m) + 4 - w) mod 7) as r eqn:Er. assert (0 <= r < 7) by (subst r; apply Z.mod_pos_bound; lia). clear Er.
  rewrite arith_s32 by lia. apply (f_equal Ok). unfold Z.sub at 2. rewrite D_shift. lia.
Qed.
Lemma ymwd_from_days_ok t : day_min <= t <= day_max -> exists y m d, civil_from_days t = Ok (y, m, d) /\ exists_date (y, m, d) /\ year_in (y, m, d) /\
  D y m d = t /\ ymwd_from_days t = Ok (y, m, (t + 4) mod 7, (d - 1) / 7 + 1).
Proof.
  intros Ht. destruct (civil_from_days_ok t Ht) as (y & m & d & E & HE & HY & HD). exists y, m, d. repeat (split; [done|]).
  unfold ymwd_from_days. rewrite E, rbind_ok. unfold day_min, day_max in Ht. rewrite weekday_from_days_ok, rbind_ok by lia. destruct HE as [Hm Hd].
  pose proof (month_len_bounds y m). rewrite arith_u32, rbind_ok by lia. rewrite Z.quot_div_nonneg by lia. rewrite arith_u32, rbind_ok by lia.
  rewrite cast_u8_id by lia. done.
Qed.
