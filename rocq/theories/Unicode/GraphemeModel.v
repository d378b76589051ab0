(** Model of the grapheme cluster iterator, the property tables, the width estimate and the prefix measuring of
    <format>.  Models /repo/stl/inc/format lines 343-589, 708-728, 2468-2507, 2567-2605 and
    /repo/stl/inc/__msvc_format_ucd_tables.hpp lines 74-101, 138-153, 362-367, 447, 634-649. *)
From stdpp Require Import base list numbers.
From Verif.Unicode Require Import UtfModel.
Local Open Scope Z_scope.

(** [_Grapheme_Break_property_values].  Models __msvc_format_ucd_tables.hpp:138-153. *)
Inductive gbp := CR | Control | Extend | L | LF | LV | LVT | Prepend | RI | SpacingMark | T | V | ZWJ | NoGbp.
(** [_Indic_Conjunct_Break_property_values].  Models __msvc_format_ucd_tables.hpp:362-367. *)
Inductive incb := IConsonant | IExtend | ILinker | INone.

Global Instance gbp_eq_dec : EqDecision gbp.
Proof. solve_decision. Defined.
Global Instance incb_eq_dec : EqDecision incb.
Proof. solve_decision. Defined.

(** ** The property tables *)
(** [std::upper_bound] on the array of lower bounds, as the number of leading entries that are [<= cp]: the
    binary search itself is modelled and proved in Alg/ (C09); the arrays are sorted.
    Models the call at __msvc_format_ucd_tables.hpp:79 and at format:724. *)
Fixpoint ub_index (bounds : list Z) (cp : Z) : nat :=
  match bounds with
  | [] => O
  | b :: bs => if cp <? b then O else S (ub_index bs cp)
  end.

(** [_Unicode_property_data::_Get_property_for_codepoint], [_Is_binary_property] being [binary]: the enumerator
    value or [None] for [_No_value_constant].  Models __msvc_format_ucd_tables.hpp:78-100. *)
Definition get_property (binary : bool) (bounds data : list Z) (cp : Z) : option Z :=
  let i := ub_index bounds cp in                                               (* 79 *)
  match i with
  | O => None                                                                  (* 81-83 *)
  | S i =>                                                                     (* 84 *)
      let lb := nth i bounds 0 in                                              (* 85 *)
      let d := nth i data 0 in                                                 (* 86 *)
      if binary then
        if cp <? lb + d then Some 0 else None                                  (* 88-91, 99 *)
      else
        let size := Z.land d 0x0FFF in                                         (* 93 *)
        let prop := Z.shiftr (Z.land d 0xF000) 12 in                           (* 94 *)
        if cp <? lb + size then Some prop else None                            (* 95-97, 99 *)
  end.

(** ** The automaton of rule GB9c.  Models format:343-412. *)
Inductive st9 := S9Start | S9Consonant | S9Linker.
Definition gb9c_match (s : st9) (left_incb : incb) : st9 * bool :=
  match s with
  | S9Start =>                                                                 (* 372-376 *)
      if decide (left_incb = IConsonant) then (S9Consonant, false) else (S9Start, false)
  | S9Consonant =>                                                             (* 378-391 *)
      if decide (left_incb = IConsonant) then (S9Consonant, false)
      else if decide (left_incb = IExtend) then (S9Consonant, false)
      else if decide (left_incb = ILinker) then (S9Linker, true)
      else (S9Start, false)
  | S9Linker =>                                                                (* 393-402 *)
      if decide (left_incb = IConsonant) then (S9Consonant, false)
      else if bool_decide (left_incb = IExtend) || bool_decide (left_incb = ILinker) then (S9Linker, true)
      else (S9Start, false)
  end.

(** ** The automaton of the left side of rule GB11.  Models format:414-457. *)
Inductive st11 := S11Start | S11ExtPic.
Definition gb11_match (s : st11) (left_gbp : gbp) (left_ext : bool) : st11 * bool :=
  match s with
  | S11Start => if left_ext then (S11ExtPic, false) else (S11Start, false)     (* 438-442 *)
  | S11ExtPic =>
      if decide (left_gbp = ZWJ) then (S11Start, true)                         (* 444-446 *)
      else if decide (left_gbp <> Extend) then (S11Start, false)               (* 447-449 *)
      else (S11ExtPic, false)                                                  (* 451 *)
  end.

(** ** The break rules.  Models the body of the loop of [operator++], format:510-573: [true] is
    [return *this] (a boundary), [false] is [continue].  [gb9c], [gb11] and [num_ri] are [_GB9c_Match],
    [_GB11_Match] and [_Num_RIs] as updated at 501-508. *)
Definition is_ctl (g : gbp) : bool := bool_decide (g = Control) || bool_decide (g = CR) || bool_decide (g = LF).
Definition break_here (gb9c gb11 : bool) (num_ri : nat) (lg rg : gbp) (rext : bool) : bool :=
  if bool_decide (lg = CR) && bool_decide (rg = LF) then false                 (* GB3 *)
  else if is_ctl lg then true                                                  (* GB4 *)
  else if is_ctl rg then true                                                  (* GB5 *)
  else if bool_decide (lg = L)
          && (bool_decide (rg = L) || bool_decide (rg = V) || bool_decide (rg = LV) || bool_decide (rg = LVT))
       then false                                                              (* GB6 *)
  else if (bool_decide (lg = LV) || bool_decide (lg = V)) && (bool_decide (rg = V) || bool_decide (rg = T))
       then false                                                              (* GB7 *)
  else if (bool_decide (lg = LVT) || bool_decide (lg = T)) && bool_decide (rg = T) then false   (* GB8 *)
  else if bool_decide (rg = Extend) || bool_decide (rg = ZWJ) then false       (* GB9 *)
  else if bool_decide (rg = SpacingMark) then false                            (* GB9a *)
  else if bool_decide (lg = Prepend) then false                                (* GB9b *)
  else if gb9c then false                                                      (* GB9c as written *)
  else if gb11 && rext then false                                              (* GB11 *)
  else if bool_decide (lg = RI) && bool_decide (rg = RI) && negb (num_ri mod 2 =? 0)%nat then false (* GB12, GB13 *)
  else true.

Section iter.
(** The decoder of the character type, and the three properties of a code point as given by the tables. *)
Context (decode : list Z -> dres) (gbp_of : Z -> gbp) (incb_of : Z -> incb) (extpic_of : Z -> bool).

(** [_Grapheme_break_property_iterator2].  Models format:459-481. *)
Record git := GIt { g_it : cpit; g_9 : st9; g_11 : st11 }.

Definition git_begin (l : list Z) : git := GIt (cp_begin decode l) S9Start S11Start.
Definition git_at_end (g : git) : bool := cp_at_end (g_it g).

(** The [for] loop of [operator++]; [fuel] bounds the number of rounds.  The properties of the left code point are
    the ones of [left], which the C++ keeps in [_Left_gbp], [_Left_InCB], [_Left_ExtPic] (the [for] update reads
    [_Left_InCB] of the current [*_WrappedIter], i.e. of the previous right code point).
    Models format:490-575. *)
Fixpoint git_loop (fuel : nat) (g : git) (left : Z) (num_ri : nat) : option git :=
  match fuel with
  | O => None
  | S f =>
      let it := cp_inc decode (g_it g) in                                      (* 493 *)
      if cp_at_end it then Some (GIt it (g_9 g) (g_11 g))                      (* 494-496 *)
      else
        let right := cp_val it in                                              (* 497-498 *)
        let m9 := gb9c_match (g_9 g) (incb_of left) in                         (* 501 *)
        let m11 := gb11_match (g_11 g) (gbp_of left) (extpic_of left) in       (* 502 *)
        let num_ri := if decide (gbp_of left = RI) then S num_ri else O in     (* 504-508 *)
        let g' := GIt it (fst m9) (fst m11) in
        if break_here (snd m9) (snd m11) num_ri (gbp_of left) (gbp_of right) (extpic_of right)
        then Some g'
        else git_loop f g' right num_ri                                        (* 489-491 *)
  end.

(** [operator++].  Models format:483-575.  [_Num_RIs] starts at 0 (489). *)
Definition git_inc (fuel : nat) (g : git) : option git := git_loop fuel g (cp_val (g_it g)) 0.

(** [for (it = begin; it != default_sentinel; ++it)], recording the units still ahead ([_Position()]) and the
    code point ([operator*]) at every stop. *)
Fixpoint git_walk (fuel : nat) (g : git) : option (list (list Z * Z)) :=
  if git_at_end g then Some []
  else match fuel with
       | O => None
       | S f => match git_inc fuel g with
                | None => None
                | Some g' => match git_walk f g' with
                             | Some r => Some ((cp_first (g_it g), cp_val (g_it g)) :: r)
                             | None => None
                             end
                end
       end.

(** ** The width estimate *)
Context (intervals : list Z).

(** The linear search.  Models format:712-720 ([_Result ^= 0b11u] flips 1 and 2). *)
Fixpoint width_linear (bounds : list Z) (ch : Z) (result : Z) : Z :=
  match bounds with
  | [] => 1                                                                    (* 720 *)
  | b :: bs => if ch <? b then result else width_linear bs ch (Z.lxor result 3)
  end.
(** [_Unicode_width_estimate].  Models format:708-728; the threshold is element 12 of the table. *)
Definition width_estimate (ch : Z) : Z :=
  if ch <? nth 12 intervals 0 then width_linear intervals ch 1
  else 1 + Z.land (Z.of_nat (ub_index intervals ch)) 1.                        (* 721-726 *)

(** ** [_Measure_string_prefix] for the Unicode encodings *)
Definition max_int : Z := 2147483647.

(** The loop.  Models format:2578-2602; [est] is [_Estimated_width].  Returns the width written to [_Width] and
    the units that remain from the returned pointer on (2605). *)
Fixpoint measure_loop (fuel : nat) (max_width : Z) (g : git) (est : Z) : option (Z * list Z) :=
  if git_at_end g then Some (est, cp_first (g_it g))
  else
    if (est =? max_width) && (0 <=? max_width) then Some (est, cp_first (g_it g))   (* 2579-2582 *)
    else
      let w := width_estimate (cp_val (g_it g)) in                             (* 2584 *)
      if max_int - w <? est then                                               (* 2586 *)
        if max_width <? 0 then Some (max_int, [])                              (* 2588-2591: all of the string *)
        else Some (est, cp_first (g_it g))                                     (* 2592 *)
      else
        let est := est + w in                                                  (* 2595 *)
        if (max_width <? est) && (0 <=? max_width) then Some (est - w, cp_first (g_it g))   (* 2596-2600 *)
        else match fuel with
             | O => None
             | S f => match git_inc fuel g with                                (* 2601 *)
                      | Some g' => measure_loop f max_width g' est
                      | None => None
                      end
             end.

(** [_Measure_string_prefix].  Models format:2567-2605.  [max_width] is the incoming [_Width]. *)
Definition measure_string_prefix (fuel : nat) (value : list Z) (max_width : Z) : option (Z * list Z) :=
  measure_loop fuel max_width (git_begin value) 0.
End iter.

(** [_Width_estimate_intervals_v2].  Models __msvc_format_ucd_tables.hpp:634-649. *)
Definition width_intervals : list Z := [
  0x1100; 0x1160; 0x231a; 0x231c; 0x2329; 0x232b; 0x23e9; 0x23ed; 0x23f0; 0x23f1;
  0x23f3; 0x23f4; 0x25fd; 0x25ff; 0x2614; 0x2616; 0x2630; 0x2638; 0x2648; 0x2654;
  0x267f; 0x2680; 0x268a; 0x2690; 0x2693; 0x2694; 0x26a1; 0x26a2; 0x26aa; 0x26ac;
  0x26bd; 0x26bf; 0x26c4; 0x26c6; 0x26ce; 0x26cf; 0x26d4; 0x26d5; 0x26ea; 0x26eb;
  0x26f2; 0x26f4; 0x26f5; 0x26f6; 0x26fa; 0x26fb; 0x26fd; 0x26fe; 0x2705; 0x2706;
  0x270a; 0x270c; 0x2728; 0x2729; 0x274c; 0x274d; 0x274e; 0x274f; 0x2753; 0x2756;
  0x2757; 0x2758; 0x2795; 0x2798; 0x27b0; 0x27b1; 0x27bf; 0x27c0; 0x2b1b; 0x2b1d;
  0x2b50; 0x2b51; 0x2b55; 0x2b56; 0x2e80; 0x2e9a; 0x2e9b; 0x2ef4; 0x2f00; 0x2fd6;
  0x2ff0; 0x303f; 0x3041; 0x3097; 0x3099; 0x3100; 0x3105; 0x3130; 0x3131; 0x318f;
  0x3190; 0x31e6; 0x31ef; 0x321f; 0x3220; 0x3248; 0x3250; 0xa48d; 0xa490; 0xa4c7;
  0xa960; 0xa97d; 0xac00; 0xd7a4; 0xf900; 0xfb00; 0xfe10; 0xfe1a; 0xfe30; 0xfe53;
  0xfe54; 0xfe67; 0xfe68; 0xfe6c; 0xff01; 0xff61; 0xffe0; 0xffe7; 0x16fe0; 0x16fe5;
  0x16ff0; 0x16ff7; 0x17000; 0x18cd6; 0x18cff; 0x18d1f; 0x18d80; 0x18df3; 0x1aff0; 0x1aff4;
  0x1aff5; 0x1affc; 0x1affd; 0x1afff; 0x1b000; 0x1b123; 0x1b132; 0x1b133; 0x1b150; 0x1b153;
  0x1b155; 0x1b156; 0x1b164; 0x1b168; 0x1b170; 0x1b2fc; 0x1d300; 0x1d357; 0x1d360; 0x1d377;
  0x1f004; 0x1f005; 0x1f0cf; 0x1f0d0; 0x1f18e; 0x1f18f; 0x1f191; 0x1f19b; 0x1f200; 0x1f203;
  0x1f210; 0x1f23c; 0x1f240; 0x1f249; 0x1f250; 0x1f252; 0x1f260; 0x1f266; 0x1f300; 0x1f650;
  0x1f680; 0x1f6c6; 0x1f6cc; 0x1f6cd; 0x1f6d0; 0x1f6d3; 0x1f6d5; 0x1f6d9; 0x1f6dc; 0x1f6e0;
  0x1f6eb; 0x1f6ed; 0x1f6f4; 0x1f6fd; 0x1f7e0; 0x1f7ec; 0x1f7f0; 0x1f7f1; 0x1f900; 0x1fa00;
  0x1fa70; 0x1fa7d; 0x1fa80; 0x1fa8b; 0x1fa8e; 0x1fac7; 0x1fac8; 0x1fac9; 0x1facd; 0x1fadd;
  0x1fadf; 0x1faeb; 0x1faef; 0x1faf9; 0x20000; 0x2fffe; 0x30000; 0x3fffe].
