(** chrono: civil calendar types. A year is a [short], a month and a day are [unsigned char]; a date is (year, month, day).
    sys_days is its [int] day count. int arithmetic is [arith s32] (overflow is UB), unsigned arithmetic is [arith u32]. *)
From stdpp Require Import base numbers list.
From Coq Require Import ZArith.
From Verif Require Import Base.Res Base.Int Num.RatioModel Chrono.DurationModel.
Open Scope Z_scope.

(** chrono:271 month constructor, 210 day constructor, 341 year constructor *)
Definition mk_month (v : Z) : Z := cast u8 v.
Definition mk_day (v : Z) : Z := cast u8 v.
Definition mk_year (v : Z) : Z := cast s16 v.
(** chrono:382-384 year::is_leap *)
Definition is_leap (y : Z) : bool :=
  bool_decide (y `rem` 4 = 0) && (bool_decide (y `rem` 100 <> 0) || bool_decide (y `rem` 400 = 0)).
(** chrono:390-392, 403-404 year::ok *)
Definition year_ok (y : Z) : bool := bool_decide (-32767 <= y) && bool_decide (y <= 32767).
(** chrono:298-300 month::ok *)
Definition month_ok (m : Z) : bool := bool_decide (m >= 1) && bool_decide (m <= 12).
(** chrono:781-791 _Last_day_table, _Last_day *)
Definition last_day_table : list Z := [31; 28; 31; 30; 31; 30; 31; 31; 30; 31; 30; 31; 255; 255; 255; 255].
Definition last_day (y m : Z) : res Z :=
  if bool_decide (m = 2) && is_leap y then Ok 29
  else
    k <~ arith u32 (m - 1) ;;
    match last_day_table !! Z.to_nat (Z.land k 15) with Some d => Ok d | None => UB end.
(** chrono:829-835 year_month_day::ok *)
Definition ymd_ok (y m d : Z) : res bool :=
  if negb (year_ok y) || negb (month_ok m) then Ok false
  else l <~ last_day y m ;; Ok (bool_decide (d >= 1) && bool_decide (d <= l)).
(** chrono:970-990 _Civil_from_days *)
Definition civil_from_days (tp : Z) : res (Z * Z * Z) :=
  zx <~ arith s32 (tp + 719468) ;;
  z4 <~ arith s32 (4 * zx) ;;
  num <~ (if decide (zx >= 0) then arith s32 (z4 + 3) else arith s32 (z4 - 146093)) ;;
  let century := num `quot` 146097 in
  c4 <~ arith s32 (146097 * century) ;;
  cs <~ shr s32 c4 2 ;;
  dc <~ arith s32 (zx - cs) ;;
  let day_of_century := cast u32 dc in
  t <~ arith u32 (day_of_century + 1) ;;
  t <~ arith u32 (91867 * t) ;;
  year_of_century <~ shr u32 t 25 ;;
  c100 <~ arith s32 (century * 100) ;;
  yp <~ arith s32 (cast s32 year_of_century + c100) ;;
  t <~ arith u32 (1461 * year_of_century) ;;
  t <~ shr u32 t 2 ;;
  day_of_year <~ arith u32 (day_of_century - t) ;;
  t <~ arith u32 (535 * day_of_year) ;;
  t <~ arith u32 (t + 333) ;;
  mp <~ shr u32 t 14 ;;
  t <~ arith u32 (979 * mp) ;;
  t <~ arith u32 (t + 19) ;;
  t <~ shr u32 t 5 ;;
  d <~ arith u32 (day_of_year - t) ;;
  d <~ arith u32 (d + 1) ;;
  m <~ arith u32 (mp + (if decide (mp < 10) then 3 else cast u32 (-9))) ;;
  y <~ arith s32 (yp + (if decide (m <= 2) then 1 else 0)) ;;
  Ok (mk_year y, mk_month m, mk_day d).
(** chrono:993-1006 _Days_from_civil *)
Definition days_from_civil (y m d : Z) : res Z :=
  yp <~ arith s32 (y - (if decide (m <= 2) then 1 else 0)) ;;
  n <~ (if decide (yp >= 0) then Ok yp else arith s32 (yp - 99)) ;;
  let century := n `quot` 100 in
  mp <~ arith u32 (m + (if decide (m > 2) then cast u32 (-3) else 9)) ;;
  t <~ arith u32 (979 * mp) ;;
  t <~ arith u32 (t + 19) ;;
  t <~ shr u32 t 5 ;;
  t <~ arith u32 (t + d) ;;
  day_of_year <~ arith s32 (cast s32 t - 1) ;;
  t <~ arith s32 (1461 * yp) ;;
  t <~ shr s32 t 2 ;;
  t <~ arith s32 (t - century) ;;
  c <~ shr s32 century 2 ;;
  t <~ arith s32 (t + c) ;;
  t <~ arith s32 (t + day_of_year) ;;
  arith s32 (t - 719468).
(** chrono:478-482 _Weekday_from_days and 435-436 weekday(sys_days) *)
Definition weekday_from_days (tp : Z) : res Z :=
  t <~ arith u32 (cast u32 tp + (if decide (tp >= 0) then 4 else 0)) ;;
  Ok (cast u8 (t `rem` 7)).
(** chrono:837-847 _Calculate_weekday *)
Definition calculate_weekday (y m d : Z) : res Z :=
  ey <~ arith s32 (y - (if decide (m <= 2) then 1 else 0)) ;;
  n <~ (if decide (ey >= 0) then Ok ey else arith s32 (ey - 399)) ;;
  let era := n `quot` 400 in
  e4 <~ arith s32 (era * 400) ;;
  yoe <~ arith s32 (ey - e4) ;;
  t <~ arith s32 (m + (if decide (m > 2) then -3 else 9)) ;;
  t <~ arith s32 (979 * t) ;;
  t <~ arith s32 (t + 19) ;;
  t <~ shr s32 t 5 ;;
  t <~ arith s32 (t + d) ;;
  yday <~ arith s32 (t - 1) ;;
  t <~ arith s32 (1461 * yoe) ;;
  t <~ shr s32 t 2 ;;
  t <~ arith s32 (t - yoe `quot` 100) ;;
  doe <~ arith s32 (t + yday) ;;
  t <~ arith s32 (doe + 3) ;;
  Ok (t `rem` 7).
(** chrono:433-434 weekday(unsigned) *)
Definition mk_weekday (v : Z) : Z := cast u8 (if decide (v = 7) then 0 else v).
(** chrono:489-493 weekday + days *)
Definition weekday_add (w n : Z) : res Z :=
  wd <~ arith s64 (w + n) ;;
  t <~ (if decide (wd >= 0) then Ok wd else arith s64 (wd - 6)) ;;
  let div := t `quot` 7 in
  d7 <~ arith s64 (div * 7) ;;
  r <~ arith s64 (wd - d7) ;;
  Ok (mk_weekday (cast u32 r)).
(** chrono:497-499 weekday - days *)
Definition weekday_sub (w n : Z) : res Z := m <~ arith s32 (- n) ;; weekday_add w m.
(** chrono:500-504 weekday - weekday *)
Definition weekday_diff (a b : Z) : res Z :=
  wd <~ arith u32 (a - b) ;;
  wk <~ (if decide (wd <= 6) then Ok wd else arith u32 (wd + 7)) ;;
  Ok (cast s32 wk).
(** chrono:313-317 month + months *)
Definition month_add (m n : Z) : res Z :=
  n1 <~ arith s32 (n - 1) ;;
  mo <~ arith s64 (m + n1) ;;
  t <~ (if decide (mo >= 0) then Ok mo else arith s64 (mo - 11)) ;;
  let div := t `quot` 12 in
  d12 <~ arith s64 (div * 12) ;;
  r <~ arith s64 (mo - d12) ;;
  r <~ arith s64 (r + 1) ;;
  Ok (mk_month (cast u32 r)).
(** chrono:321-323 month - months *)
Definition month_sub (m n : Z) : res Z := k <~ arith s32 (- n) ;; month_add m k.
(** chrono:324-327 month - month *)
Definition month_diff (a b : Z) : res Z :=
  mo <~ arith u32 (a - b) ;;
  r <~ (if decide (mo <= 11) then Ok mo else arith u32 (mo + 12)) ;;
  Ok (cast s32 r).
(** chrono:414-416 year + years, 420-422 year - years, 423-425 year - year *)
Definition year_add (y n : Z) : res Z := s <~ arith s32 (y + n) ;; Ok (mk_year s).
Definition year_sub (y n : Z) : res Z := m <~ arith s32 (- n) ;; year_add y m.
Definition year_diff (a b : Z) : res Z := arith s32 (a - b).
(** chrono:728-733 year_month + months *)
Definition ym_add (y m n : Z) : res (Z * Z) :=
  n1 <~ arith s32 (n - 1) ;;
  mo <~ arith s64 (m + n1) ;;
  t <~ (if decide (mo >= 0) then Ok mo else arith s64 (mo - 11)) ;;
  let div := t `quot` 12 in
  y' <~ year_add y (cast s32 div) ;;
  d12 <~ arith s64 (div * 12) ;;
  r <~ arith s64 (mo - d12) ;;
  r <~ arith s64 (r + 1) ;;
  Ok (y', mk_month (cast u32 r)).
(** chrono:739-742 year_month - months *)
Definition ym_sub (y m n : Z) : res (Z * Z) := k <~ arith s32 (- n) ;; ym_add y m k.
(** __msvc_chrono.hpp:550-551: years, months *)
Definition years_t : dty := Dty s32 31556952 1.
Definition months_t : dty := Dty s32 2629746 1.
(** chrono:744-748 year_month - year_month, a months count *)
Definition ym_diff (y1 m1 y2 m2 : Z) : res Z :=
  dy <~ year_diff y1 y2 ;;
  dm <~ arith s32 (m1 - m2) ;;
  s <~ dur_add years_t months_t dy dm ;;
  convert months_t (fst s) (snd s).
(** chrono:1097-1103 year_month_day_last: day() and the conversion to sys_days *)
Definition ymdl_days (y m : Z) : res Z := d <~ last_day y m ;; days_from_civil y m d.
(** chrono:1216-1221 year_month_weekday: conversion to sys_days; [w] weekday, [i] index *)
Definition ymwd_days (y m w i : Z) : res Z :=
  first <~ days_from_civil y m 1 ;;
  fw <~ weekday_from_days first ;;
  diff <~ weekday_diff w fw ;;
  i1 <~ arith s32 (i - 1) ;;
  i7 <~ arith s32 (i1 * 7) ;;
  days <~ arith s32 (diff + i7) ;;
  arith s32 (first + days).
(** chrono:1225-1241 year_month_weekday::ok *)
Definition ymwd_ok (y m w i : Z) : res bool :=
  if negb (year_ok y) || negb (month_ok m) || negb (bool_decide (w <= 6) && bool_decide (i >= 1) && bool_decide (i <= 5)) then Ok false
  else if decide (i <= 4) then Ok true
  else
    first <~ days_from_civil y m 1 ;;
    fw <~ weekday_from_days first ;;
    diff <~ weekday_diff w fw ;;
    fwd <~ arith s32 (diff + 1) ;;
    last <~ arith s32 (fwd + 28) ;;
    l <~ last_day y m ;;
    Ok (bool_decide (cast u32 last <= l)).
(** chrono:1248-1253 _Ymwd_from_days: (year, month, weekday, index) *)
Definition ymwd_from_days (tp : Z) : res (Z * Z * Z * Z) :=
  '(y, m, d) <~ civil_from_days tp ;;
  w <~ weekday_from_days tp ;;
  t <~ arith u32 (d - 1) ;;
  i <~ arith u32 (t `quot` 7 + 1) ;;
  Ok (y, m, w, cast u8 i).
(** chrono:1336-1340 year_month_weekday_last: conversion to sys_days *)
Definition ymwdl_days (y m w : Z) : res Z :=
  last <~ ymdl_days y m ;;
  lw <~ weekday_from_days last ;;
  diff <~ weekday_diff lw w ;;
  arith s32 (last - diff).
(** chrono:1691-1706 is_am, is_pm, make12; 1707-1715 make24 *)
Definition is_am (h : Z) : bool := bool_decide (h >= 0) && bool_decide (h <= 11).
Definition is_pm (h : Z) : bool := bool_decide (h >= 12) && bool_decide (h <= 23).
Definition make12 (h : Z) : res Z :=
  let r := if decide (h = 0) then 12 else h in
  if decide (r > 12) then arith s32 (r - 12) else Ok r.
Definition make24 (h : Z) (pm : bool) : res Z :=
  let r := if decide (h = 12) then 0 else h in
  if pm then arith s32 (r + 12) else Ok r.
