(** What a 128-bit integer means: two 64-bit words, read as an unsigned or a two's complement signed number. *)
From Coq Require Import ZArith.
Open Scope Z_scope.

(** both words are 64-bit values *)
Definition ok128 (x : Z * Z) : Prop := 0 <= fst x < 2 ^ 64 /\ 0 <= snd x < 2 ^ 64.
(** value as _Unsigned128 *)
Definition uval (x : Z * Z) : Z := fst x + 2 ^ 64 * snd x.
(** value as _Signed128 *)
Definition sval (x : Z * Z) : Z := if uval x <? 2 ^ 127 then uval x else uval x - 2 ^ 128.
(** reduction of an integer to the range of _Unsigned128 and of _Signed128 *)
Definition wrapu (z : Z) : Z := z mod 2 ^ 128.
Definition wraps (z : Z) : Z := (z + 2 ^ 127) mod 2 ^ 128 - 2 ^ 127.
(** value of a sequence of digits, least significant first *)
Fixpoint digits (b : Z) (l : list Z) : Z :=
  match l with nil => 0 | cons d l => d + b * digits b l end.
