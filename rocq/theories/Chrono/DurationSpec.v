(** What durations mean: [c] ticks of type [d] last c * num / den seconds. *)
From stdpp Require Import base numbers list.
From Coq Require Import ZArith QArith.
From Verif Require Import Base.Int Num.RatioModel Chrono.DurationModel.
Open Scope Z_scope.

Definition secs (d : dty) (c : Z) : Q := Qmake (c * dnum d) (Z.to_pos (dden d)).
(** a duration type a program can name: built-in integral representation, positive period in lowest terms *)
Definition valid (d : dty) : Prop :=
  std_ity (drep d) /\ 0 < dnum d <= imax /\ 0 < dden d <= imax /\ Z.gcd (dnum d) (dden d) = 1.
(** the number of [to]-ticks in [c] ticks of [from], as a fraction *)
Definition ticks_num (to from : dty) (c : Z) : Z := c * dnum from * dden to.
Definition ticks_den (to from : dty) : Z := dden from * dnum to.
(** the common duration type: common representation, greatest common divisor of the periods *)
Definition common (a b : dty) : dty :=
  Dty (common_type (drep a) (drep b)) (Z.gcd (dnum a) (dnum b)) (Z.lcm (dden a) (dden b)).
(** ticks of [a] per tick of the finer type [c] (a whole number when [c] is a common type of [a]) *)
Definition factor (c a : dty) : Z := dnum a * dden c / (dden a * dnum c).
(** the program compiles: the common period and both conversion factors fit intmax_t *)
Definition common_ok (a b : dty) : Prop :=
  Z.lcm (dden a) (dden b) <= imax /\ factor (common a b) a <= imax /\ factor (common a b) b <= imax.
(** [x] ticks of [a] have a representable value in the type [c] *)
Definition fits (c a : dty) (x : Z) : Prop := in_t (drep c) (x * factor c a).
(** the conversion factor from/to in lowest terms *)
Definition cf_gcd (to from : dty) : Z := Z.gcd (dnum from * dden to) (dden from * dnum to).
Definition cf_num (to from : dty) : Z := dnum from * dden to / cf_gcd to from.
Definition cf_den (to from : dty) : Z := dden from * dnum to / cf_gcd to from.
(** the type duration_cast computes in: the widest of both representations and intmax_t *)
Definition cast_rep (to from : dty) : ity := common_type (common_type (drep to) (drep from)) s64.
(** the conversion compiles and its intermediate product does not overflow; the standard computes count * num / den *)
Definition cast_ok (to from : dty) (c : Z) : Prop :=
  cf_num to from <= imax /\ cf_den to from <= imax /\
  in_t (cast_rep to from) c /\ in_t (cast_rep to from) (c * cf_num to from).
