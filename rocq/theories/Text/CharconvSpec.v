(** Positional numerals. *)
From stdpp Require Import base numbers list.
From Coq Require Import ZArith.
Open Scope Z_scope.

(** the value of a digit sequence, most significant first *)
Definition numval (b : Z) (ds : list Z) : Z := fold_left (fun acc d => acc * b + d) ds 0.
(** the canonical base-[b] numeral of [v]: digits below the base, no superfluous leading zero *)
Definition numeral (b v : Z) (ds : list Z) : Prop :=
  Forall (fun d => 0 <= d < b) ds /\ numval b ds = v /\ (ds = [0] \/ exists d ds', ds = d :: ds' /\ d <> 0).
(** the character of a digit as to_chars writes it *)
Definition digit_char (d : Z) : Z := if decide (d < 10) then 48 + d else 97 + (d - 10).
(** the digit a character stands for: '0'-'9', 'a'-'z', 'A'-'Z' *)
Definition char_digit (c : Z) : option Z :=
  if decide (48 <= c <= 57) then Some (c - 48)
  else if decide (97 <= c <= 122) then Some (c - 97 + 10)
  else if decide (65 <= c <= 90) then Some (c - 65 + 10)
  else None.
Definition is_digit (b c : Z) : Prop := exists d, char_digit c = Some d /\ d < b.
(** the text of a value: sign and canonical numeral *)
Definition text_of (base v : Z) (text : list Z) : Prop :=
  exists ds, numeral base (Z.abs v) ds /\ text = (if decide (v < 0) then [45] else []) ++ map digit_char ds.

