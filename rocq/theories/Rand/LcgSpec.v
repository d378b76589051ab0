(** What [rand.eng.lcong] promises about linear_congruential_engine. *)
From stdpp Require Import base list numbers.
From Coq Require Import ZArith.
From Verif Require Import Base.Res Base.Int.
Local Open Scope Z_scope.

(** "If the template parameter m is 0, the modulus m is numeric_limits<result_type>::max() plus 1." *)
Definition modulus (t : ity) (m : Z) : Z := if m =? 0 then 2 ^ wd t else m.
(** template arguments the class accepts *)
Record lcg_params (t : ity) (a c m : Z) : Prop := {
  lp_type : t = u16 \/ t = u32 \/ t = u64;
  lp_a : 0 <= a < modulus t m;
  lp_c : 0 <= c < modulus t m;
  lp_m : 0 <= m < 2 ^ wd t
}.
(** transition: x -> (a x + c) mod m *)
Definition step (t : ity) (a c m x : Z) : Z := (a * x + c) mod modulus t m.
Fixpoint steps (t : ity) (a c m : Z) (n : nat) (x : Z) : Z :=
  match n with O => x | S n => steps t a c m n (step t a c m x) end.
(** seeding from a number: s mod m, but 1 if that and c are 0 *)
Definition seeded (t : ity) (c m s : Z) : Z :=
  if bool_decide (c mod modulus t m = 0 /\ s mod modulus t m = 0) then 1 else s mod modulus t m.
(** seeding from a sequence: with k = ceil(log2 m / 32), generate k + 3 words and combine words 3 .. k + 2 *)
Definition words (t : ity) (m : Z) : nat := if modulus t m <=? 2 ^ 32 then 1 else 2.
Definition seed_words (t : ity) (m : Z) (gen : nat -> list Z) : Z :=
  let a := gen (words t m + 3)%nat in
  match words t m with
  | 1%nat => default 0 (a !! 3%nat)
  | _ => default 0 (a !! 3%nat) + default 0 (a !! 4%nat) * 2 ^ 32
  end.
