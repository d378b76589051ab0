(** Extended grapheme clusters as defined by UAX #29 (Unicode 17, section 3.1.1, rules GB1-GB999), written as a
    predicate on the text before a position and the code point after it, without any automaton. *)
From stdpp Require Import base list numbers.
From Verif.Unicode Require Import GraphemeModel.
Local Open Scope Z_scope.

Section spec.
Context (gbp_of : Z -> gbp) (incb_of : Z -> incb) (extpic_of : Z -> bool).

Definition ctl (c : Z) : Prop := gbp_of c = Control \/ gbp_of c = CR \/ gbp_of c = LF.

(** The text before the position ends like the left side of GB9c:
    InCB=Consonant [InCB=Extend InCB=Linker]* InCB=Linker [InCB=Extend InCB=Linker]* *)
Definition gb9c_left (pre : list Z) : Prop :=
  exists p c mid, pre = p ++ c :: mid /\ incb_of c = IConsonant /\
    Forall (fun x => incb_of x = IExtend \/ incb_of x = ILinker) mid /\ Exists (fun x => incb_of x = ILinker) mid.
(** The text before the position ends like the left side of GB11: ExtPic Extend* ZWJ *)
Definition gb11_left (pre : list Z) : Prop :=
  exists p e ext z, pre = p ++ e :: ext ++ [z] /\ extpic_of e = true /\
    Forall (fun x => gbp_of x = Extend) ext /\ gbp_of z = ZWJ.
(** The text before the position ends with an odd number of regional indicators (GB12 and GB13). *)
Definition odd_ris (pre : list Z) : Prop :=
  exists p ris, pre = p ++ ris /\ Forall (fun x => gbp_of x = RI) ris /\
    (forall q x, p = q ++ [x] -> gbp_of x <> RI) /\ Nat.odd (length ris) = true.

(** There is no boundary between [pre], whose last code point is [l], and [r]. *)
Definition no_boundary (pre : list Z) (l r : Z) : Prop :=
  (gbp_of l = CR /\ gbp_of r = LF)                                                             (* GB3 *)
  \/ (~ ctl l /\ ~ ctl r /\                                                                    (* GB4, GB5 *)
      ((gbp_of l = L /\ (gbp_of r = L \/ gbp_of r = V \/ gbp_of r = LV \/ gbp_of r = LVT))      (* GB6 *)
       \/ ((gbp_of l = LV \/ gbp_of l = V) /\ (gbp_of r = V \/ gbp_of r = T))                  (* GB7 *)
       \/ ((gbp_of l = LVT \/ gbp_of l = T) /\ gbp_of r = T)                                   (* GB8 *)
       \/ (gbp_of r = Extend \/ gbp_of r = ZWJ)                                                (* GB9 *)
       \/ gbp_of r = SpacingMark                                                               (* GB9a *)
       \/ gbp_of l = Prepend                                                                   (* GB9b *)
       \/ (gb9c_left pre /\ incb_of r = IConsonant)                                            (* GB9c *)
       \/ (gb11_left pre /\ extpic_of r = true)                                                (* GB11 *)
       \/ (odd_ris pre /\ gbp_of r = RI))).                                                    (* GB12, GB13 *)

(** The text [cps] cut into extended grapheme clusters: the pieces are nonempty and between two code points there
    is a cut exactly when the rules give a boundary. *)
Definition clusters_of (cps : list Z) (cls : list (list Z)) : Prop :=
  concat cls = cps /\ Forall (fun c => c <> []) cls /\
  forall pre l r post, cps = pre ++ l :: r :: post ->
    ((exists k, pre ++ [l] = concat (take k cls)) <-> ~ no_boundary (pre ++ [l]) l r).

(** The two cases in which the rules as implemented differ from UAX #29. *)
(** [no_gb9c_overmatch]: after the left side of GB9c comes a consonant, or a code point before which GB5, GB9 or GB9a decides
    anyway. *)
Definition no_gb9c_overmatch (cps : list Z) : Prop :=
  forall pre r post, cps = pre ++ r :: post -> gb9c_left pre ->
    incb_of r = IConsonant \/ ctl r \/ gbp_of r = Extend \/ gbp_of r = ZWJ \/ gbp_of r = SpacingMark.
(** [no_pictographic_run]: the text has no "ExtPic Extend* ExtPic Extend* ZWJ ExtPic". *)
Definition no_pictographic_run (cps : list Z) : Prop :=
  forall p e1 ext1 e2 ext2 z e3 post,
    cps = p ++ e1 :: ext1 ++ e2 :: ext2 ++ z :: e3 :: post ->
    extpic_of e1 = true -> Forall (fun x => gbp_of x = Extend) ext1 -> extpic_of e2 = true ->
    Forall (fun x => gbp_of x = Extend) ext2 -> gbp_of z = ZWJ -> extpic_of e3 = true -> False.

(** ** Width *)
(** The estimated width of a code point: 2 inside the half-open intervals [b0,b1), [b2,b3), ... of the table, 1
    outside. *)
Fixpoint in_intervals (bounds : list Z) (c : Z) : Prop :=
  match bounds with
  | a :: b :: rest => (a <= c < b) \/ in_intervals rest c
  | [a] => a <= c
  | [] => False
  end.
End spec.

(** ** The property tables *)
(** The size and the property packed in one 16-bit entry of a table: a binary property has only a size; otherwise the top
    four bits are the property and the other twelve the size. *)
Definition entry_size (binary : bool) (d : Z) : Z := if binary then d else d mod 4096.
Definition entry_prop (binary : bool) (d : Z) : Z := if binary then 0 else (d / 4096) mod 16.
(** Code point [c] lies in range number [i] of the table. *)
Definition in_range (binary : bool) (bounds data : list Z) (i : nat) (c : Z) : Prop :=
  exists lb d, bounds !! i = Some lb /\ data !! i = Some d /\ lb <= c < lb + entry_size binary d.
(** The ranges are given in order and do not overlap. *)
Definition ranges_ordered (binary : bool) (bounds data : list Z) : Prop :=
  length bounds = length data /\
  forall i lb d lb', bounds !! i = Some lb -> data !! i = Some d -> bounds !! S i = Some lb' ->
    0 < entry_size binary d /\ lb + entry_size binary d <= lb'.

(** ** Measuring a prefix *)
(** A text cut into clusters, each cluster a list of chunks (code units, code point). *)
Definition cluster := list (list Z * Z).
Definition units_of (cls : list cluster) : list Z := concat (map fst (concat cls)).
(** The width of a cluster is the one of its first code point: 2 if it lies in the table, 1 otherwise. *)
Definition width_of (intervals : list Z) (cl : cluster) (w : Z) : Prop :=
  exists u c rest, cl = (u, c) :: rest /\ ((w = 2 /\ in_intervals intervals c) \/ (w = 1 /\ ~ in_intervals intervals c)).
(** [w] is the total width of the clusters. *)
Definition total_width (intervals : list Z) (cls : list cluster) (w : Z) : Prop :=
  exists ws, Forall2 (width_of intervals) cls ws /\ w = fold_right Z.add 0 ws.

(** What a walk over the clusters stops at: the units still ahead, and the first code point of the cluster. *)
Fixpoint cluster_stops (cls : list (list (list Z * Z))) : list (list Z * Z) :=
  match cls with
  | [] => []
  | cl :: cls' => (concat (map fst (concat cls)), match cl with (_, v) :: _ => v | [] => 0 end) :: cluster_stops cls'
  end.
