(** Specification of std::bitset: the bit function an array of words stands for. *)
From stdpp Require Import base list numbers decidable.
From Coq Require Import ZArith Lia.
From Verif Require Import Base.Res Base.Int Cont.BitsetModel.
Local Open Scope nat_scope.

(** [a] is a valid bitset<N> whose bit number [i] is [f i]: the array has the declared length, every word is a value of
    the word type, and all padding bits are zero. *)
Definition represents (N : nat) (a : list Z) (f : nat -> bool) : Prop :=
  length a = Words N + 1 /\
  (forall k w, a !! k = Some w -> (0 <= w < 2 ^ Z.of_nat (Bpw N))%Z) /\
  (forall k j w, a !! k = Some w -> j < Bpw N ->
     Z.testbit w (Z.of_nat j) = if decide (k * Bpw N + j < N) then f (k * Bpw N + j) else false).
(** the number whose binary digits are [f 0 .. f (n-1)] *)
Fixpoint number (f : nat -> bool) (n : nat) : Z :=
  match n with 0 => 0%Z | S n => (number f n + if f n then 2 ^ Z.of_nat n else 0)%Z end.
(** how many of [f 0 .. f (n-1)] are true *)
Definition how_many (f : nat -> bool) (n : nat) : nat := length (filter (fun i => f i = true) (seq 0 n)).
