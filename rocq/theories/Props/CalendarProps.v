(** C18, C19: the civil calendar. [exists_date], [next_date], [month_len] (Chrono/CalendarSpec.v) are the Gregorian rules;
    a date is (year, month, day), a day number counts days since 1970-01-01. *)
From stdpp Require Import base numbers list list_numbers.
From Coq Require Import ZArith Lia.
From Verif Require Import Base.Res Base.Int Chrono.CalendarModel Chrono.CalendarSpec Chrono.CalendarProofs Chrono.CalendarProofs2.
Open Scope Z_scope.
Ltac Zify.zify_post_hook ::= Z.div_mod_to_equations.

(** sys_days -> year_month_day -> sys_days is the identity, and the date exists *)
Theorem C18_days_roundtrip : forall t, day_min <= t <= day_max ->
  exists y m d, civil_from_days t = Ok (y, m, d) /\ exists_date (y, m, d) /\ year_in (y, m, d) /\ days_from_civil y m d = Ok t.
Proof.
  intros t Ht. destruct (civil_from_days_ok t Ht) as (y & m & d & E & HE & HY & HD). exists y, m, d. repeat (split; [done|]).
  destruct HE as [Hm Hd]. pose proof (month_len_bounds y m). unfold year_in in HY. rewrite days_from_civil_ok by lia. by rewrite HD.
Qed.
(** year_month_day -> sys_days -> year_month_day is the identity on every existing date *)
Theorem C18_date_roundtrip : forall y m d, exists_date (y, m, d) -> year_in (y, m, d) ->
  exists t, day_min <= t <= day_max /\ days_from_civil y m d = Ok t /\ civil_from_days t = Ok (y, m, d).
Proof.
  intros y m d HE HY. exists (D y m d). split; [by apply D_range|]. split; [|by apply civil_D].
  destruct HE as [Hm Hd]. pose proof (month_len_bounds y m). unfold year_in in HY. by rewrite days_from_civil_ok by lia.
Qed.
(** the day after: next calendar date *)
Theorem C18_next_day : forall t x, day_min <= t < day_max -> civil_from_days t = Ok x -> civil_from_days (t + 1) = Ok (next_date x).
Proof.
  intros t [[y m] d] Ht E. destruct (civil_from_days_ok t) as (y1 & m1 & d1 & E1 & HE & HY & HD); [unfold day_min, day_max in *; lia|].
  assert ((y1, m1, d1) = (y, m, d)) as Q by congruence. inversion Q; subst y1 m1 d1. clear Q E1.
  destruct (civil_from_days_ok (t + 1)) as (y2 & m2 & d2 & E2 & HE2 & _ & HD2); [unfold day_min, day_max in *; lia|]. rewrite E2. f_equal.
  pose proof (D_next y m d HE) as N. assert (HN : exists_date (next_date (y, m, d))).
  { unfold next_date. destruct HE as [Hm Hd]. destruct (decide (d < month_len y m)); [split; lia|]. destruct (decide (m < 12)).
    - pose proof (month_len_bounds y (m + 1)). split; lia.
    - pose proof (month_len_bounds (y + 1) 1). split; lia. }
  pose proof (D_inj (y2, m2, d2) (next_date (y, m, d)) HE2 HN) as I. destruct (next_date (y, m, d)) as [[y3 m3] d3]. apply I. lia.
Qed.
Theorem C18_epoch : civil_from_days 0 = Ok (1970, 1, 1).
Proof. vm_compute. reflexivity. Qed.
(** year_month_day::ok, year_month_day_last: exactly the existing dates, for every stored value *)
Theorem C18_ok : forall y m d, ymd_ok y m d = Ok (bool_decide (exists_date (y, m, d) /\ year_in (y, m, d))).
Proof. apply ymd_ok_ok. Qed.
Theorem C18_last_day : forall y m, year_in (y, m, 1) -> 1 <= m <= 12 ->
  exists t, last_day y m = Ok (month_len y m) /\ ymdl_days y m = Ok t /\ civil_from_days t = Ok (y, m, month_len y m) /\
  (t < day_max -> exists y' m', civil_from_days (t + 1) = Ok (y', m', 1)).
Proof.
  intros y m HY Hm. pose proof (month_len_bounds y m) as HL. destruct (C18_date_roundtrip y m (month_len y m)) as (t & Ht & E1 & E2); [split; lia|done|].
  exists t. unfold ymdl_days. rewrite last_day_ok, rbind_ok by done. repeat (split; [done|]). intros Hlt. apply C18_next_day in E2; [|lia]. rewrite E2.
  unfold next_date. rewrite decide_False by lia. destruct (decide (m < 12)); eauto.
Qed.
Theorem C18_leap : forall y, is_leap y = bool_decide (leap y).
Proof. apply is_leap_ok. Qed.
Example C18_sat : exists_date (2000, 2, 29) /\ ~ exists_date (1900, 2, 29) /\ year_in (2000, 2, 29) /\ days_from_civil 2000 2 29 = Ok 11016 /\ civil_from_days 11016 = Ok (2000, 2, 29) /\
  civil_from_days 11017 = Ok (2000, 3, 1) /\ civil_from_days (-1) = Ok (1969, 12, 31) /\ civil_from_days day_min = Ok (-32767, 1, 1) /\ civil_from_days day_max = Ok (32767, 12, 31).
Proof. vm_compute. repeat split; try discriminate; try reflexivity; intros [_ [_ H]]; by apply H. Qed.

(** weekday(sys_days): Thursday on 1970-01-01 and one further every day *)
Theorem C19_weekday_of_days : forall t, in_t s32 t -> exists w, weekday_from_days t = Ok w /\ 0 <= w <= 6 /\
  (t = 0 -> w = 4) /\ (in_t s32 (t + 1) -> weekday_from_days (t + 1) = Ok (if decide (w = 6) then 0 else w + 1)).
Proof.
  intros t Ht. unfold in_t, tmin, tmax in *. cbn in Ht. exists ((t + 4) mod 7). rewrite weekday_from_days_ok by lia. split; [done|]. split; [lia|]. split; [by intros ->|].
  intros H1. cbn in H1. rewrite weekday_from_days_ok by lia. f_equal. destruct (decide ((t + 4) mod 7 = 6)); lia.
Qed.
(** the weekday computed from the date alone agrees with the one of its day number *)
Theorem C19_calculate_weekday : forall y m d, exists_date (y, m, d) -> year_in (y, m, d) ->
  exists t w, days_from_civil y m d = Ok t /\ weekday_from_days t = Ok w /\ calculate_weekday y m d = Ok w.
Proof.
  intros y m d HE HY. pose proof (D_range y m d HE HY) as HR. unfold day_min, day_max in HR. destruct HE as [Hm Hd]. pose proof (month_len_bounds y m). unfold year_in in HY.
  exists (D y m d), ((D y m d + 4) mod 7). rewrite days_from_civil_ok, weekday_from_days_ok, calculate_weekday_ok by lia. done.
Qed.
(** weekday + n, weekday - n: n steps round the week. n = INT_MIN cannot be subtracted: its negation overflows *)
Theorem C19_weekday_add : forall w n, 0 <= w <= 6 -> in_t s32 n -> exists r, weekday_add w n = Ok r /\ 0 <= r <= 6 /\ (r - (w + n)) mod 7 = 0.
Proof.
  intros w n Hw Hn. unfold in_t, tmin, tmax in Hn. cbn in Hn. exists ((w + n) mod 7). rewrite weekday_add_ok by lia. split; [done|]. lia.
Qed.
Theorem C19_weekday_sub : forall w n, 0 <= w <= 6 -> in_t s32 n -> n <> tmin s32 ->
  exists r, weekday_sub w n = Ok r /\ 0 <= r <= 6 /\ (r - (w - n)) mod 7 = 0 /\ weekday_add r n = Ok w.
Proof.
  intros w n Hw Hn Hm. unfold in_t, tmin, tmax in *. cbn in Hn, Hm. exists ((w - n) mod 7). rewrite weekday_sub_ok by lia. split; [done|]. split; [lia|]. split; [lia|].
  rewrite weekday_add_ok by lia. f_equal. lia.
Qed.
(** weekday difference inverts addition and is the forward distance 0..6 *)
Theorem C19_weekday_diff : forall a b, 0 <= a <= 6 -> 0 <= b <= 6 ->
  exists n, weekday_diff a b = Ok n /\ 0 <= n <= 6 /\ weekday_add b n = Ok a.
Proof.
  intros a b Ha Hb. exists ((a - b) mod 7). rewrite weekday_diff_ok by lia. split; [done|]. split; [lia|]. rewrite weekday_add_ok by lia. f_equal. lia.
Qed.
Theorem C19_month_add : forall m n, 1 <= m <= 12 -> in_t s32 n -> n <> tmin s32 -> exists r, month_add m n = Ok r /\ 1 <= r <= 12 /\ (r - (m + n)) mod 12 = 0.
Proof.
  intros m n Hm Hn Hx. unfold in_t, tmin, tmax in *. cbn in Hn, Hx. eexists. rewrite month_add_ok by lia. split; [done|]. lia.
Qed.
(** the excluded count: [months(INT_MIN)] makes the code compute INT_MIN - 1 *)
Theorem C19_month_add_int_min_refuted : forall m, month_add m (tmin s32) = UB.
Proof. intros m. reflexivity. Qed.
Theorem C19_month_sub : forall m n, 1 <= m <= 12 -> in_t s32 n -> n <> tmin s32 ->
  exists r, month_sub m n = Ok r /\ 1 <= r <= 12 /\ (r - (m - n)) mod 12 = 0 /\ month_add r n = Ok m.
Proof.
  intros m n Hm Hn Hx. unfold in_t, tmin, tmax in *. cbn in Hn, Hx. eexists. rewrite month_sub_ok by lia. split; [done|]. split; [lia|]. split; [lia|].
  rewrite month_add_ok by lia. f_equal. lia.
Qed.
Theorem C19_month_diff : forall a b, 1 <= a <= 12 -> 1 <= b <= 12 -> exists n, month_diff a b = Ok n /\ 0 <= n <= 11 /\ month_add b n = Ok a.
Proof.
  intros a b Ha Hb. exists ((a - b) mod 12). rewrite month_diff_ok by lia. split; [done|]. split; [lia|]. rewrite month_add_ok by lia. f_equal. lia.
Qed.
(** year_month + n counts months; y', m' is determined by 1 <= m' <= 12 and the equation *)
Theorem C19_year_month_add : forall y m n y' m', in_t s16 y -> 1 <= m <= 12 -> in_t s32 n -> n <> tmin s32 ->
  in_t s16 y' -> 1 <= m' <= 12 -> 12 * y' + m' = 12 * y + m + n -> ym_add y m n = Ok (y', m').
Proof.
  intros y m n y' m' Hy Hm Hn Hx Hy' Hm' E. unfold in_t, tmin, tmax in *. cbn in Hy, Hn, Hx, Hy'.
  assert ((12 * y + m + n - 1) / 12 = y') as E1 by lia. rewrite ym_add_ok by (rewrite ?E1; lia). rewrite E1. f_equal. f_equal. lia.
Qed.
Theorem C19_year_month_sub : forall y m n y' m', in_t s16 y -> 1 <= m <= 12 -> in_t s32 n -> n <> tmin s32 ->
  in_t s16 y' -> 1 <= m' <= 12 -> 12 * y' + m' = 12 * y + m - n -> ym_sub y m n = Ok (y', m').
Proof.
  intros y m n y' m' Hy Hm Hn Hx Hy' Hm' E. unfold in_t, tmin, tmax in *. cbn in Hy, Hn, Hx, Hy'.
  assert ((12 * y + m - n - 1) / 12 = y') as E1 by lia. rewrite ym_sub_ok by (rewrite ?E1; lia). rewrite E1. f_equal. f_equal. lia.
Qed.
Theorem C19_year_month_diff : forall y1 m1 y2 m2, in_t s16 y1 -> in_t s16 y2 -> 1 <= m1 <= 12 -> 1 <= m2 <= 12 ->
  exists n, ym_diff y1 m1 y2 m2 = Ok n /\ 12 * y2 + m2 + n = 12 * y1 + m1 /\ ym_add y2 m2 n = Ok (y1, m1).
Proof.
  intros y1 m1 y2 m2 H1 H2 H3 H4. unfold in_t, tmin, tmax in *. cbn in H1, H2. eexists. rewrite ym_diff_ok by lia. split; [done|]. split; [lia|].
  rewrite ym_add_ok by lia. f_equal. f_equal; lia.
Qed.
(** the i-th weekday of a month: ok() iff there is one, and the conversion yields it *)
Theorem C19_nth_weekday : forall y m w i, in_t s16 y -> 0 <= m <= 255 -> 0 <= w <= 255 -> 0 <= i <= 255 ->
  exists b, ymwd_ok y m w i = Ok b /\
  (b = true <-> exists d t, exists_date (y, m, d) /\ year_in (y, m, d) /\ 7 * (i - 1) < d <= 7 * i /\ days_from_civil y m d = Ok t /\ weekday_from_days t = Ok w) /\
  (b = true -> exists d t, ymwd_days y m w i = Ok t /\ civil_from_days t = Ok (y, m, d) /\ 7 * (i - 1) < d <= 7 * i /\ weekday_from_days t = Ok w).
Proof.
  intros y m w i Hy Hm Hw Hi. unfold in_t, tmin, tmax in Hy. cbn in Hy. eexists. split; [apply ymwd_ok_ok; lia|]. rewrite bool_decide_eq_true.
  assert (X : year_in (y, m, 1) /\ 1 <= m <= 12 /\ w <= 6 /\ 1 <= i <= 5 /\ 1 + (w - (D y m 1 + 4)) mod 7 + 7 * (i - 1) <= month_len y m ->
    let d := 1 + (w - (D y m 1 + 4)) mod 7 + 7 * (i - 1) in
    exists_date (y, m, d) /\ year_in (y, m, d) /\ 7 * (i - 1) < d <= 7 * i /\ days_from_civil y m d = Ok (D y m d) /\ weekday_from_days (D y m d) = Ok w).
  { intros (HY & HM & HW & HI & HL) d. pose proof (month_len_bounds y m) as HB. assert (HE : exists_date (y, m, d)) by (split; lia).
    pose proof (D_range y m d HE HY) as HR. unfold day_min, day_max in HR. unfold year_in in HY. repeat (split; [done||lia|]). rewrite days_from_civil_ok, weekday_from_days_ok by lia. split; [done|].
    f_equal. unfold d. rewrite <-Z.add_assoc, D_shift. lia. }
  split; [split|].
  - intros H. apply X in H. eauto.
  - intros (d & t & HE & HY & Hd & E1 & E2). pose proof (month_len_bounds y m) as HB. pose proof (D_range y m d HE HY) as HR. unfold day_min, day_max in HR. destruct HE as [HM HD]. unfold year_in in *.
    rewrite days_from_civil_ok in E1 by lia. injection E1 as <-. rewrite weekday_from_days_ok in E2 by lia. injection E2 as <-.
    repeat (split; [lia|]). replace d with (1 + (d - 1)) in * by lia. rewrite D_shift in *. lia.
  - intros H. pose proof (X H) as (HE & HY & Hd & E1 & E2). destruct H as (HY1 & HM & HW & HI & HL). eexists _, _. rewrite ymwd_days_ok by (done || lia). split; [done|].
    rewrite civil_D by done. done.
Qed.
Theorem C19_ymwd_roundtrip : forall t, day_min <= t <= day_max -> exists y m w i,
  ymwd_from_days t = Ok (y, m, w, i) /\ weekday_from_days t = Ok w /\ ymwd_ok y m w i = Ok true /\ ymwd_days y m w i = Ok t.
Proof.
  intros t Ht. destruct (ymwd_from_days_ok t Ht) as (y & m & d & E & HE & HY & HD & EW). eexists _, _, _, _. split; [exact EW|]. unfold day_min, day_max in Ht.
  destruct HE as [Hm Hd]. pose proof (month_len_bounds y m) as HB. unfold year_in in *.
  assert (1 + ((t + 4) mod 7 - (D y m 1 + 4)) mod 7 + 7 * ((d - 1) / 7 + 1 - 1) = d) as E3.
  { replace d with (1 + (d - 1)) in HD by lia. rewrite D_shift in HD. lia. }
  rewrite weekday_from_days_ok by lia. split; [done|]. rewrite ymwd_ok_ok by lia. rewrite ymwd_days_ok by (unfold year_in; lia). rewrite E3, HD. split; [|done].
  f_equal. apply bool_decide_true. unfold year_in. lia.
Qed.
(** the last given weekday of a month: that weekday, in that month, in its last seven days *)
Theorem C19_last_weekday : forall y m w, year_in (y, m, 1) -> 1 <= m <= 12 -> 0 <= w <= 6 ->
  exists t d, ymwdl_days y m w = Ok t /\ civil_from_days t = Ok (y, m, d) /\ weekday_from_days t = Ok w /\ month_len y m - 7 < d <= month_len y m.
Proof.
  intros y m w HY Hm Hw. rewrite ymwdl_days_ok by done. pose proof (month_len_bounds y m) as HB.
  remember (month_len y m) as L eqn:EL. remember (L - (D y m L + 4 - w) mod 7) as d eqn:Ed. eexists _, _. split; [done|].
  assert (HE : exists_date (y, m, d)) by (split; rewrite <-?EL; lia). rewrite civil_D by done. split; [done|].
  pose proof (D_range y m d HE HY) as HR. unfold day_min, day_max in HR. rewrite weekday_from_days_ok by lia. split; [|lia]. f_equal. replace d with (L + (d - L)) by lia. rewrite D_shift. lia.
Qed.
(** 12- and 24-hour clocks *)
Theorem C19_make12_make24 : forall h, 0 <= h <= 23 -> exists k, make12 h = Ok k /\ 1 <= k <= 12 /\ k mod 12 = h mod 12 /\ make24 k (is_pm h) = Ok h /\ is_am h = negb (is_pm h).
Proof.
  intros h Hh. assert (E : h ∈ seqZ 0 24) by (rewrite elem_of_seqZ; lia). change (seqZ 0 24) with [0;1;2;3;4;5;6;7;8;9;10;11;12;13;14;15;16;17;18;19;20;21;22;23] in E.
  repeat (apply elem_of_cons in E as [->|E]; [eexists; split; [reflexivity|]; vm_compute; repeat split; discriminate|]). by apply elem_of_nil in E.
Qed.
Example C19_sat : weekday_from_days 0 = Ok 4 /\ weekday_add 6 (-2147483648) = Ok 4 /\ month_add 1 (-2147483647) = Ok 6 /\ ym_add 2026 11 (-23) = Ok (2024, 12) /\
  ymwd_ok 2026 11 0 5 = Ok true /\ ymwd_ok 2026 11 2 5 = Ok false /\ ymwd_days 2026 11 0 5 = days_from_civil 2026 11 29 /\ ymwdl_days 2026 11 2 = days_from_civil 2026 11 24 /\
  in_t s32 (-2147483647) /\ -2147483647 <> tmin s32 /\ in_t s16 2026.
Proof. vm_compute. repeat split; discriminate. Qed.
Print Assumptions C18_days_roundtrip.
Print Assumptions C18_date_roundtrip.
Print Assumptions C18_next_day.
Print Assumptions C18_epoch.
Print Assumptions C18_ok.
Print Assumptions C18_last_day.
Print Assumptions C18_leap.
Print Assumptions C19_weekday_of_days.
Print Assumptions C19_calculate_weekday.
Print Assumptions C19_weekday_add.
Print Assumptions C19_weekday_sub.
Print Assumptions C19_weekday_diff.
Print Assumptions C19_month_add.
Print Assumptions C19_month_add_int_min_refuted.
Print Assumptions C19_month_sub.
Print Assumptions C19_month_diff.
Print Assumptions C19_year_month_add.
Print Assumptions C19_year_month_sub.
Print Assumptions C19_year_month_diff.
Print Assumptions C19_nth_weekday.
Print Assumptions C19_ymwd_roundtrip.
Print Assumptions C19_last_weekday.
Print Assumptions C19_make12_make24.
