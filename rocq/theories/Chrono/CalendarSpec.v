(** The Gregorian calendar, stated from its rules. *)
From stdpp Require Import base numbers list.
From Coq Require Import ZArith.
Open Scope Z_scope.

(** every fourth year is a leap year except centuries not divisible by 400 *)
Definition leap (y : Z) : Prop := y mod 4 = 0 /\ (y mod 100 <> 0 \/ y mod 400 = 0).
Global Instance leap_dec y : Decision (leap y).
Proof. unfold leap. apply _. Defined.
(** 30 days have September, April, June and November *)
Definition month_len (y m : Z) : Z :=
  if decide (m = 2) then (if decide (leap y) then 29 else 28)
  else if decide (m = 4 \/ m = 6 \/ m = 9 \/ m = 11) then 30 else 31.
Definition date : Type := Z * Z * Z.
(** an existing date *)
Definition exists_date (x : date) : Prop := let '(y, m, d) := x in 1 <= m <= 12 /\ 1 <= d <= month_len y m.
(** in the range of chrono::year *)
Definition year_in (x : date) : Prop := let '(y, _, _) := x in -32767 <= y <= 32767.
Definition next_date (x : date) : date :=
  let '(y, m, d) := x in
  if decide (d < month_len y m) then (y, m, d + 1)
  else if decide (m < 12) then (y, m + 1, 1) else (y + 1, 1, 1).
(** first and last day number of the supported range: -32767-01-01 and 32767-12-31 *)
Definition day_min : Z := -12687428.
Definition day_max : Z := 11248737.
