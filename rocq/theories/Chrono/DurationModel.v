(** __msvc_chrono.hpp: duration arithmetic for integral representations. A duration type is its representation type and
    its period (already in lowest terms, as [ratio::type] stores it); a duration value is its tick count.
    Floating-point representations are not modelled. *)
From stdpp Require Import base numbers list.
From Coq Require Import ZArith.
From Verif Require Import Base.Res Base.Int Num.RatioModel.
Open Scope Z_scope.

(** __msvc_chrono.hpp:111-123 class duration: rep and period *)
Record dty := Dty { drep : ity; dnum : Z; dden : Z }.
Definition period (d : dty) : Z * Z := (dnum d, dden d).

(** __msvc_chrono.hpp:295-297 _Lcm *)
Definition chrono_lcm (a b : Z) : res Z :=
  g <~ ratio_gcd a b ;;
  if decide (g = 0) then UB else arith s64 ((a `quot` g) * b).
(** __msvc_chrono.hpp:299-303 common_type of two durations *)
Definition common_duration (a b : dty) : res dty :=
  g <~ ratio_gcd (dnum a) (dnum b) ;;
  l <~ chrono_lcm (dden a) (dden b) ;;
  r <~ ratio g l ;;
  Ok (Dty (common_type (drep a) (drep b)) (fst r) (snd r)).
(** __msvc_chrono.hpp:451-479 duration_cast: tick count [c] of type [from] converted to ticks of [to] *)
Definition duration_cast (to from : dty) (c : Z) : res Z :=
  cf <~ ratio_divide (period from) (period to) ;;
  let '(n, d) := cf in
  let cr := common_type (common_type (drep to) (drep from)) s64 in
  if decide (d = 1) then
    if decide (n = 1) then Ok (cast (drep to) c)
    else p <~ arith cr (cast cr c * cast cr n) ;; Ok (cast (drep to) p)
  else
    if decide (cast cr d = 0) then UB
    else if decide (n = 1) then
      q <~ arith cr (cast cr c `quot` cast cr d) ;; Ok (cast (drep to) q)
    else
      p <~ arith cr (cast cr c * cast cr n) ;;
      q <~ arith cr (p `quot` cast cr d) ;;
      Ok (cast (drep to) q).
(** __msvc_chrono.hpp:133-141 converting constructor, enabled only when no tick is lost. The copy constructor, used when
    both types agree, has the same effect. *)
Definition convert (to from : dty) (c : Z) : res Z :=
  cf <~ ratio_divide (period from) (period to) ;;
  if decide (snd cf = 1) then duration_cast to from c else UB.
(** __msvc_chrono.hpp:312-327 operator+ and operator-: the resulting type and tick count *)
Definition dur_add (a b : dty) (x y : Z) : res (dty * Z) :=
  cd <~ common_duration a b ;;
  x <~ convert cd a x ;;
  y <~ convert cd b y ;;
  s <~ arith (promote (drep cd)) (x + y) ;;
  Ok (cd, cast (drep cd) s).
Definition dur_sub (a b : dty) (x y : Z) : res (dty * Z) :=
  cd <~ common_duration a b ;;
  x <~ convert cd a x ;;
  y <~ convert cd b y ;;
  s <~ arith (promote (drep cd)) (x - y) ;;
  Ok (cd, cast (drep cd) s).
(** __msvc_chrono.hpp:371-377 duration / duration and 388-394 duration % duration *)
Definition dur_div (a b : dty) (x y : Z) : res Z :=
  cd <~ common_duration a b ;;
  x <~ convert cd a x ;;
  y <~ convert cd b y ;;
  if decide (y = 0) then UB
  else q <~ arith (promote (drep cd)) (x `quot` y) ;; Ok (cast (drep cd) q).
Definition dur_mod (a b : dty) (x y : Z) : res (dty * Z) :=
  cd <~ common_duration a b ;;
  x <~ convert cd a x ;;
  y <~ convert cd b y ;;
  if decide (y = 0) then UB
  else _ <~ arith (promote (drep cd)) (x `quot` y) ;; Ok (cd, cast (drep cd) (x `rem` y)).
(** __msvc_chrono.hpp:396-402 operator==, 413-418 operator< *)
Definition dur_eq (a b : dty) (x y : Z) : res bool :=
  cd <~ common_duration a b ;;
  x <~ convert cd a x ;;
  y <~ convert cd b y ;;
  Ok (bool_decide (x = y)).
Definition dur_lt (a b : dty) (x y : Z) : res bool :=
  cd <~ common_duration a b ;;
  x <~ convert cd a x ;;
  y <~ convert cd b y ;;
  Ok (bool_decide (x < y)).
(** __msvc_chrono.hpp:420-425 operator<=, 427-431 operator>, 433-438 operator>= *)
Definition dur_le (a b : dty) (x y : Z) : res bool := r <~ dur_lt b a y x ;; Ok (negb r).
Definition dur_gt (a b : dty) (x y : Z) : res bool := dur_lt b a y x.
Definition dur_ge (a b : dty) (x y : Z) : res bool := r <~ dur_lt a b x y ;; Ok (negb r).
(** __msvc_chrono.hpp:481-492 floor *)
Definition dur_floor (to from : dty) (c : Z) : res Z :=
  k <~ duration_cast to from c ;;
  g <~ dur_gt to from k c ;;
  if g : bool then d <~ arith (promote (drep to)) (k - 1) ;; Ok (cast (drep to) d) else Ok k.
(** __msvc_chrono.hpp:494-505 ceil *)
Definition dur_ceil (to from : dty) (c : Z) : res Z :=
  k <~ duration_cast to from c ;;
  g <~ dur_lt to from k c ;;
  if g : bool then d <~ arith (promote (drep to)) (k + 1) ;; Ok (cast (drep to) d) else Ok k.
(** __msvc_chrono.hpp:507-511 _Is_even; the remainder is taken in the type usual_arith(rep, int) *)
Definition is_even (v : Z) : bool := bool_decide (v `rem` 2 = 0).
(** __msvc_chrono.hpp:513-528 round *)
Definition dur_round (to from : dty) (c : Z) : res Z :=
  f <~ dur_floor to from c ;;
  s <~ dur_add to to f 1 ;;
  cl <~ convert to (fst s) (snd s) ;;
  fa <~ dur_sub from to c f ;;
  ca <~ dur_sub to from cl c ;;
  lt <~ dur_lt (fst fa) (fst ca) (snd fa) (snd ca) ;;
  if lt : bool then Ok f
  else
    eq <~ dur_eq (fst fa) (fst ca) (snd fa) (snd ca) ;;
    if (eq : bool) && is_even f then Ok f else Ok cl.
(** __msvc_chrono.hpp:530-539 abs *)
Definition dur_abs (d : dty) (c : Z) : res Z :=
  lt <~ dur_lt d d c 0 ;;
  if lt : bool then m <~ arith (promote (drep d)) (- c) ;; Ok (cast (drep d) m) else Ok c.
