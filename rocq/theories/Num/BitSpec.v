(** Specification of <bit>, bit by bit. *)
From stdpp Require Import base numbers list list_numbers.
From Coq Require Import ZArith.
Open Scope Z_scope.

(** [r] is the number of consecutive zero bits from the most (least) significant one *)
Definition is_clz (w v r : Z) : Prop :=
  0 <= r <= w /\ (forall i, w - r <= i < w -> Z.testbit v i = false) /\ (r < w -> Z.testbit v (w - 1 - r) = true).
Definition is_ctz (w v r : Z) : Prop :=
  0 <= r <= w /\ (forall i, 0 <= i < r -> Z.testbit v i = false) /\ (r < w -> Z.testbit v r = true).
Definition is_clo (w v r : Z) : Prop :=
  0 <= r <= w /\ (forall i, w - r <= i < w -> Z.testbit v i = true) /\ (r < w -> Z.testbit v (w - 1 - r) = false).
Definition is_cto (w v r : Z) : Prop :=
  0 <= r <= w /\ (forall i, 0 <= i < r -> Z.testbit v i = true) /\ (r < w -> Z.testbit v r = false).
(** number of one bits among the [w] low ones *)
Definition ones (w v : Z) : Z := Z.of_nat (length (filter (fun i => Z.testbit v i = true) (seqZ 0 w))).
Definition is_pow2 (v : Z) : Prop := exists k, 0 <= k /\ v = 2 ^ k.
(** byte number [i] *)
Definition byte (v i : Z) : Z := (v / 2 ^ (8 * i)) mod 256.
