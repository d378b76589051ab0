(** C40: string search, comparison and prefix/suffix tests (N4950 [string.view.find], [string.view.ops]). *)
From stdpp Require Import base list numbers decidable.
From Coq Require Import ZArith Lia.
From Verif Require Import Base.Res Base.Int Text.StringSearchModel Text.StringSearchSpec Text.StringSearchProofs.
Local Open Scope nat_scope.

(** find(needle, start): the first occurrence at or after start, npos if none — for any start, even past the end *)
Theorem C40_find narrow hay start needle :
  exists r, Traits_find narrow hay start needle = Ok r /\ first_match (occurs hay needle) start r.
Proof. apply find_ok. Qed.
Theorem C40_find_ch hay start ch :
  exists r, Traits_find_ch hay start ch = Ok r /\ first_match (fun i => hay !! i = Some ch) start r.
Proof. apply find_ch_ok. Qed.
(** rfind(needle, start): the last occurrence beginning at or before start *)
Theorem C40_rfind narrow hay start needle :
  exists r, Traits_rfind narrow hay start needle = Ok r /\ last_match (occurs hay needle) start r.
Proof. apply rfind_ok. Qed.
Theorem C40_rfind_ch hay start ch :
  exists r, Traits_rfind_ch hay start ch = Ok r /\ last_match (fun i => hay !! i = Some ch) start r.
Proof. apply rfind_ch_ok. Qed.
(** the four character-set searches, for every supported character type and with or without the 256-entry bitmap *)
Theorem C40_find_first_of t handled hay start needle : char_type t -> string_of t hay -> string_of t needle ->
  exists r, Traits_find_first_of t handled hay start needle = Ok r /\ first_match (char_in hay needle) start r.
Proof. intros. by apply ffo_ok. Qed.
Theorem C40_find_last_of t handled hay start needle : char_type t -> string_of t hay -> string_of t needle ->
  exists r, Traits_find_last_of t handled hay start needle = Ok r /\ last_match (char_in hay needle) start r.
Proof. intros. by apply flo_ok. Qed.
Theorem C40_find_first_not_of t handled hay start needle : char_type t -> string_of t hay -> string_of t needle ->
  exists r, Traits_find_first_not_of t handled hay start needle = Ok r /\ first_match (char_not_in hay needle) start r.
Proof. intros. by apply ffno_ok. Qed.
Theorem C40_find_last_not_of t handled hay start needle : char_type t -> string_of t hay -> string_of t needle ->
  exists r, Traits_find_last_not_of t handled hay start needle = Ok r /\ last_match (char_not_in hay needle) start r.
Proof. intros. by apply flno_ok. Qed.
Theorem C40_find_first_not_of_ch hay start ch :
  exists r, Traits_find_not_ch hay start ch = Ok r /\ first_match (char_not_in hay [ch]) start r.
Proof. apply find_not_ch_ok. Qed.
Theorem C40_find_last_not_of_ch hay start ch :
  exists r, Traits_rfind_not_ch hay start ch = Ok r /\ last_match (char_not_in hay [ch]) start r.
Proof. apply rfind_not_ch_ok. Qed.
(** compare is the sign of the lexicographic order; == is equality *)
Theorem C40_compare t narrow l r : (narrow = true -> wd t = 8%Z) -> string_of t l -> string_of t r ->
  exists c, Traits_compare narrow l r = Ok c /\ three_way (char_order narrow) l r c.
Proof. intros H. by apply compare_ok. Qed.
Theorem C40_equal narrow l r : exists b, Traits_equal narrow l r = Ok b /\ (b = true <-> l = r).
Proof. apply equal_ok. Qed.
Theorem C40_starts_with narrow s r : exists b, starts_with narrow s r = Ok b /\ (b = true <-> exists rest, s = r ++ rest).
Proof. apply starts_with_ok. Qed.
Theorem C40_ends_with narrow s r : exists b, ends_with narrow s r = Ok b /\ (b = true <-> exists rest, s = rest ++ r).
Proof. apply ends_with_ok. Qed.
Theorem C40_starts_ends_with_ch s ch :
  (exists b, starts_with_ch s ch = Ok b /\ (b = true <-> exists rest, s = [ch] ++ rest)) /\
  (exists b, ends_with_ch s ch = Ok b /\ (b = true <-> exists rest, s = rest ++ [ch])).
Proof. split; [apply starts_with_ch_ok|apply ends_with_ch_ok]. Qed.
Theorem C40_contains narrow s r : exists b, contains narrow s r = Ok b /\ (b = true <-> exists i, occurs s r i).
Proof. apply contains_ok. Qed.
Theorem C40_contains_ch s ch : exists b, contains_ch s ch = Ok b /\ (b = true <-> ch ∈ s).
Proof. apply contains_ch_ok. Qed.
(** char_traits::length: the index of the first null character *)
Theorem C40_length a n : a !! n = Some 0%Z -> (forall i, i < n -> exists c, a !! i = Some c /\ c <> 0%Z) ->
  char_length a = Ok n.
Proof. apply tlength_ok. Qed.

(** "abcabcab" with signed char types, negative characters, and UTF-16 text whose needle does not fit the bitmap *)
Example C40_sat :
  Traits_find true [97;98;99;97;98;99;97;98]%Z 1 [97;98]%Z = Ok (Some 3) /\
  Traits_rfind true [97;98;99;97;98;99;97;98]%Z 5 [97;98]%Z = Ok (Some 3) /\
  Traits_rfind true [97;98]%Z 100 [] = Ok (Some 2) /\
  Traits_find true [97;98]%Z 3 [] = Ok None /\
  char_type s8 /\ string_of s8 [97; -3; 98]%Z /\ char_type u16 /\ string_of u16 [97; 0x3042; 98]%Z /\
  Traits_find_first_of s8 true [97; -3; 98]%Z 0 [-3; 98]%Z = Ok (Some 1) /\
  Traits_find_last_of u16 true [97; 0x3042; 98]%Z 100 [0x3042; 97]%Z = Ok (Some 1) /\
  Traits_find_first_not_of u16 true [97; 0x3042; 98]%Z 0 [97; 98]%Z = Ok (Some 1) /\
  Traits_find_last_not_of s8 false [97; -3; 98]%Z 1 [-3]%Z = Ok (Some 0) /\
  Traits_compare true [-3]%Z [97]%Z = Ok 1%Z /\ Traits_compare false [-3]%Z [97]%Z = Ok (-1)%Z /\
  char_length [104; 105; 0; 7]%Z = Ok 2.
Proof.
  repeat (split; [vm_compute; first [reflexivity | tauto | repeat constructor; discriminate]|]). vm_compute. reflexivity.
Qed.

Print Assumptions C40_find.
Print Assumptions C40_find_ch.
Print Assumptions C40_rfind.
Print Assumptions C40_rfind_ch.
Print Assumptions C40_find_first_of.
Print Assumptions C40_find_last_of.
Print Assumptions C40_find_first_not_of.
Print Assumptions C40_find_last_not_of.
Print Assumptions C40_find_first_not_of_ch.
Print Assumptions C40_find_last_not_of_ch.
Print Assumptions C40_compare.
Print Assumptions C40_equal.
Print Assumptions C40_starts_with.
Print Assumptions C40_ends_with.
Print Assumptions C40_starts_ends_with_ch.
Print Assumptions C40_contains.
Print Assumptions C40_contains_ch.
Print Assumptions C40_length.
