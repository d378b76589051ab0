(** C44: Unicode text in std::format: the decoders, the code point iterator, grapheme clusters, the width estimate and
    the measured prefix. *)
From Coq Require Import Lia ZArith.
From stdpp Require Import base list numbers.
From Verif.Unicode Require Import UtfModel UtfSpec UtfProofs UtfProofs2 GraphemeModel GraphemeSpec GraphemeProofs
  GraphemeProofs2 GraphemeProofs3 UcdTables.
Local Open Scope Z_scope.

(** Decoding one code point, for any nonempty sequence of units: a scalar value is reported exactly when its
    encoding is there, with that value and length; otherwise the maximal subpart is skipped as U+FFFD. *)
Theorem C44_decode : forall l, l <> [] ->
  (units8 l -> let d := decode_utf8 l in step_spec encode8 (fun _ => 0xFFFD) l (d_val d) (d_units d) (d_usv d)) /\
  (units16 l -> let d := decode_utf16 l in step_spec encode16 (fun _ => 0xFFFD) l (d_val d) (d_units d) (d_usv d)) /\
  (units32 l -> let d := decode_utf32 l in step_spec encode32 (fun u => u) l (d_val d) (d_units d) (d_usv d)).
Proof.
  intros l Hl. split_and!; intros Hu.
  - by apply utf8_step.
  - by apply utf16_step.
  - by apply utf32_step.
Qed.
Print Assumptions C44_decode.

(** Encoding then decoding gives the scalar value back, whatever follows. *)
Theorem C44_roundtrip : forall c rest, scalar c ->
  decode_utf8 (encode8 c ++ rest) = DRes c (length (encode8 c)) true /\
  decode_utf16 (encode16 c ++ rest) = DRes c (length (encode16 c)) true /\
  decode_utf32 (encode32 c ++ rest) = DRes c (length (encode32 c)) true.
Proof.
  intros c rest Hs. split_and!; [by apply utf8_valid|by apply utf16_valid|by apply utf32_valid].
Qed.
Print Assumptions C44_roundtrip.

(** The code point iterator over any units visits exactly the code points of the one way to cut the units into encodings
    and maximal ill-formed subparts, and ends; over the encoding of scalar values it visits those values. *)
Theorem C44_codepoints : forall f l, units_ok f l ->
  exists ds, decoded (encode_of f) (bad_of f) l ds /\
    (forall ds', decoded (encode_of f) (bad_of f) l ds' -> ds' = ds) /\
    concat (map fst ds) = l /\
    (forall cs, Forall scalar cs -> l = concat (map (encode_of f) cs) -> map snd ds = cs) /\
    forall fuel, (length l <= fuel)%nat -> cp_walk (decode_of f) fuel (cp_begin (decode_of f) l) = Some (stops ds).
Proof.
  intros f l Hu. destruct (walk_decoded f l Hu) as (ds & Hd & _ & Hw). exists ds. split_and!.
  - done.
  - intros ds' Hd'. by eapply decoded_unique.
  - by eapply decoded_concat.
  - intros cs Hcs ->. pose proof (decoded_encodings (decode_of f) (encode_of f) (bad_of f) cs (decode_valid f) Hcs) as He.
    rewrite (decoded_unique _ _ _ _ Hd He). rewrite map_map. cbn. apply map_id.
  - done.
Qed.
Print Assumptions C44_codepoints.

(** Every lookup in a well-formed table gives the property of the range the code point lies in; the three tables of
    the code are well formed. *)
Theorem C44_property_lookup :
  (forall binary bounds data c p, ranges_ordered binary bounds data -> (forall d, d ∈ data -> 0 < entry_size binary d) ->
    get_property binary bounds data c = Some p <->
    exists i d, data !! i = Some d /\ in_range binary bounds data i c /\ entry_prop binary d = p) /\
  ranges_ordered false gbp_bounds gbp_data /\ (forall d, d ∈ gbp_data -> 0 < entry_size false d) /\
  ranges_ordered false incb_bounds incb_data /\ (forall d, d ∈ incb_data -> 0 < entry_size false d) /\
  ranges_ordered true ext_bounds ext_data /\ (forall d, d ∈ ext_data -> 0 < entry_size true d).
Proof.
  split; [exact get_property_spec|].
  split; [apply (ranges_okb_sound _ _ _ gbp_table_ok)|]. split; [apply (ranges_okb_sound _ _ _ gbp_table_ok)|].
  split; [apply (ranges_okb_sound _ _ _ incb_table_ok)|]. split; [apply (ranges_okb_sound _ _ _ incb_table_ok)|].
  split; [apply (ranges_okb_sound _ _ _ ext_table_ok)|]. apply (ranges_okb_sound _ _ _ ext_table_ok).
Qed.
Print Assumptions C44_property_lookup.

(** The grapheme cluster iterator over any units: it stops at the beginning of every piece of a cut of the code points
    into nonempty pieces; for a text without the two patterns on which the implemented rules GB9c and GB11 differ from
    UAX #29 (see the Examples below), the pieces are its extended grapheme clusters. *)
Theorem C44_graphemes : forall f l, units_ok f l ->
  exists ds cls, decoded (encode_of f) (bad_of f) l ds /\ concat cls = ds /\
    (forall fuel, (length l <= fuel)%nat ->
       git_walk (decode_of f) ucd_gbp ucd_incb ucd_extpic fuel (git_begin (decode_of f) l) = Some (cluster_stops cls)) /\
    (no_gb9c_overmatch ucd_gbp ucd_incb (map snd ds) -> no_pictographic_run ucd_gbp ucd_extpic (map snd ds) ->
       clusters_of ucd_gbp ucd_incb ucd_extpic (map snd ds) (map (map snd) cls)).
Proof.
  intros f l Hu. destruct (walk_decoded f l Hu) as (ds & Hd & Hlen & Hw).
  exists ds, (aclusters ucd_gbp ucd_incb ucd_extpic (length ds) S9Start S11Start ds). split_and!.
  - done.
  - by apply aclusters_concat.
  - intros fuel Hf. apply (git_walk_spec _ _ _ _ (length ds) (git_begin (decode_of f) l) ds); [lia| |lia].
    exists (length l). by apply Hw.
  - intros H9 H11. by apply (aclusters_text (decode_of f) ucd_gbp ucd_incb ucd_extpic ucd_zwj).
Qed.
Print Assumptions C44_graphemes.

(** The rules themselves, for any assignment of the properties in which ZWJ is not pictographic. *)
Theorem C44_graphemes_any_tables : forall gbp_of incb_of extpic_of,
  (forall c, gbp_of c = ZWJ -> extpic_of c = false) ->
  forall f l, units_ok f l ->
  exists ds cls, decoded (encode_of f) (bad_of f) l ds /\ concat cls = ds /\
    (forall fuel, (length l <= fuel)%nat ->
       git_walk (decode_of f) gbp_of incb_of extpic_of fuel (git_begin (decode_of f) l) = Some (cluster_stops cls)) /\
    (no_gb9c_overmatch gbp_of incb_of (map snd ds) -> no_pictographic_run gbp_of extpic_of (map snd ds) ->
       clusters_of gbp_of incb_of extpic_of (map snd ds) (map (map snd) cls)).
Proof.
  intros gbp_of incb_of extpic_of Hz f l Hu. destruct (walk_decoded f l Hu) as (ds & Hd & Hlen & Hw).
  exists ds, (aclusters gbp_of incb_of extpic_of (length ds) S9Start S11Start ds). split_and!.
  - done.
  - by apply aclusters_concat.
  - intros fuel Hf. apply (git_walk_spec _ _ _ _ (length ds) (git_begin (decode_of f) l) ds); [lia| |lia].
    exists (length l). by apply Hw.
  - intros H9 H11. by apply (aclusters_text (decode_of f) gbp_of incb_of extpic_of Hz).
Qed.
Print Assumptions C44_graphemes_any_tables.

(** The width estimate is 2 inside the intervals of the table and 1 outside, on both sides of the threshold between the
    linear and the binary search. *)
Theorem C44_width : forall c,
  (width_estimate width_intervals c = 2 /\ in_intervals width_intervals c) \/
  (width_estimate width_intervals c = 1 /\ ~ in_intervals width_intervals c).
Proof.
  intros c. pose proof intervals_ok as H. apply andb_prop in H as [H1 H2].
  apply width_estimate_spec; [by apply incrb_sound|by apply Nat.ltb_lt].
Qed.
Print Assumptions C44_width.

(** Measuring a prefix of any string against any int: for a negative limit everything is taken and the width saturates at
    INT_MAX; otherwise whole clusters are taken as long as they fit, the next one would not fit, and the exact width is
    reported.  The clusters are the ones the grapheme iterator stops at (and those of UAX #29 under the same two
    conditions as above). *)
Theorem C44_measure_prefix : forall f l max_width, units_ok f l -> -2147483648 <= max_width <= 2147483647 ->
  exists ds cls, decoded (encode_of f) (bad_of f) l ds /\ concat cls = ds /\
    (no_gb9c_overmatch ucd_gbp ucd_incb (map snd ds) -> no_pictographic_run ucd_gbp ucd_extpic (map snd ds) ->
       clusters_of ucd_gbp ucd_incb ucd_extpic (map snd ds) (map (map snd) cls)) /\
    forall fuel, (length l <= fuel)%nat ->
    git_walk (decode_of f) ucd_gbp ucd_incb ucd_extpic fuel (git_begin (decode_of f) l) = Some (cluster_stops cls) /\
    exists w k, measure_string_prefix (decode_of f) ucd_gbp ucd_incb ucd_extpic width_intervals fuel l max_width
                  = Some (w, units_of (drop k cls)) /\
      (k <= length cls)%nat /\ 0 <= w <= 2147483647 /\
      if max_width <? 0
      then k = length cls /\ exists total, total_width width_intervals cls total /\ w = Z.min total 2147483647
      else total_width width_intervals (take k cls) w /\ w <= max_width /\
           ((k < length cls)%nat -> exists w', total_width width_intervals (take (S k) cls) w' /\ max_width < w').
Proof.
  intros f l mw Hu Hmw. destruct (walk_decoded f l Hu) as (ds & Hd & Hlen & Hw).
  pose proof intervals_ok as Hi. apply andb_prop in Hi as [Hi1 Hi2]. apply incrb_sound in Hi1. apply Nat.ltb_lt in Hi2.
  set (cls := aclusters ucd_gbp ucd_incb ucd_extpic (length ds) S9Start S11Start ds).
  exists ds, cls. split_and!; [done|by apply aclusters_concat| |].
  { intros H9 H11. by apply (aclusters_text (decode_of f) ucd_gbp ucd_incb ucd_extpic ucd_zwj). }
  intros fuel Hf.
  assert (Hitr : itr (decode_of f) (g_it (git_begin (decode_of f) l)) ds) by (exists (length l); by apply Hw).
  split; [apply (git_walk_spec _ _ _ _ (length ds) (git_begin (decode_of f) l) ds); [lia|done|lia]|].
  assert (Hne : Forall (fun c : list (list Z * Z) => c <> []) cls).
  { apply aclusters_nonempty. }
  destruct (measure_loop_spec (decode_of f) ucd_gbp ucd_incb ucd_extpic width_intervals Hi1 Hi2 mw) with
    (n := length ds) (g := git_begin (decode_of f) l) (ds := ds) (est := 0) (fuel := fuel)
    as (w & k & Hm & Hk & Hres); [unfold max_int; lia|lia|done|unfold max_int; lia|lia|].
  fold cls in Hm, Hk, Hres. cbn [g_9 g_11 git_begin] in Hm, Hk, Hres. fold cls in Hm, Hk, Hres. unfold max_int in Hres.
  pose proof (sumw_nonneg width_intervals Hi1 Hi2 cls) as Hs. pose proof (sumw_nonneg width_intervals Hi1 Hi2 (take k cls)) as Hs'.
  exists w, k. destruct (Z.ltb_spec mw 0) as [H0 | H0].
  - destruct Hres as [(_ & H2 & H3) | (H1 & _)]; [|lia]. split_and!; [done|done|lia|lia|done|].
    exists (sumw width_intervals cls). split; [by apply total_width_sumw|]. lia.
  - destruct Hres as [(H1 & _) | (_ & H2 & H3 & H4)]; [lia|]. split_and!; [done|done|lia|lia| |done|].
    + rewrite H2. cbn [Z.add]. apply total_width_sumw; [done|done|]. by apply Forall_take.
    + intros Hkl. exists (sumw width_intervals (take (S k) cls)). split; [|specialize (H4 Hkl); lia].
      apply total_width_sumw; [done|done|]. by apply Forall_take.
Qed.
Print Assumptions C44_measure_prefix.

(** ** Non-vacuity *)
(** U+20AC as UTF-8, a truncated U+1F600, a stray trail byte; a surrogate pair and a lone surrogate. *)
Example C44_sat_decode :
  decode_utf8 [0xE2; 0x82; 0xAC; 0x21] = DRes 0x20AC 3 true /\ encode8 0x20AC = [0xE2; 0x82; 0xAC] /\
  decode_utf8 [0xF0; 0x9F; 0x98; 0x21] = DRes 0xFFFD 3 false /\ decode_utf8 [0xED; 0xA0; 0x80] = DRes 0xFFFD 1 false /\
  decode_utf16 [0xD83D; 0xDE00] = DRes 0x1F600 2 true /\ decode_utf16 [0xD83D; 0x41] = DRes 0xFFFD 1 false.
Proof. vm_compute. repeat split; reflexivity. Qed.

(** "e" with a combining acute accent, CR LF, two flags and a family emoji: five clusters. *)
Definition sample : list Z :=
  [0x65; 0x301; 0xD; 0xA; 0x1F1E9; 0x1F1EA; 0x1F1EB; 0x1F1F7; 0x1F469; 0x200D; 0x1F467].
Example C44_sat_graphemes :
  match git_walk decode_utf32 ucd_gbp ucd_incb ucd_extpic 11 (git_begin decode_utf32 sample) with
  | Some st => map snd st = [0x65; 0xD; 0x1F1E9; 0x1F1EB; 0x1F469]
  | None => False
  end.
Proof. vm_compute. reflexivity. Qed.
Example C44_sat_measure :
  measure_string_prefix decode_utf32 ucd_gbp ucd_incb ucd_extpic width_intervals 11 sample 5
    = Some (4, [0x1F469; 0x200D; 0x1F467]) /\
  measure_string_prefix decode_utf32 ucd_gbp ucd_incb ucd_extpic width_intervals 11 sample (-1) = Some (6, []).
Proof. vm_compute. repeat split; reflexivity. Qed.

(** ** Where the implementation departs from UAX #29 *)
(** The rule GB9c is applied without looking at the code point to the right: in U+0915 U+094D U+0061 (a Devanagari consonant,
    the virama, a Latin letter) UAX #29 has a boundary before U+0061, the iterator has none. *)
Example C44_finding_gb9c :
  git_walk decode_utf32 ucd_gbp ucd_incb ucd_extpic 3 (git_begin decode_utf32 [0x915; 0x94D; 0x61])
    = Some [([0x915; 0x94D; 0x61], 0x915)] /\
  ~ no_boundary ucd_gbp ucd_incb ucd_extpic [0x915; 0x94D] 0x94D 0x61.
Proof.
  split; [vm_compute; reflexivity|].
  assert (G1 : ucd_gbp 0x61 = NoGbp) by (vm_compute; reflexivity).
  assert (G2 : ucd_gbp 0x94D = Extend) by (vm_compute; reflexivity).
  assert (G3 : ucd_incb 0x61 = INone) by (vm_compute; reflexivity).
  assert (G4 : ucd_extpic 0x61 = false) by (vm_compute; reflexivity).
  unfold no_boundary. rewrite G1, G2, G3, G4. intuition congruence.
Qed.
(** The automaton of GB11 forgets a pictographic character that directly follows another one: in U+1F600 U+1F469 U+200D
    U+1F680 (a face, then a woman astronaut) UAX #29 has no boundary before U+1F680, the iterator has one. *)
Example C44_finding_gb11 :
  git_walk decode_utf32 ucd_gbp ucd_incb ucd_extpic 4 (git_begin decode_utf32 [0x1F600; 0x1F469; 0x200D; 0x1F680])
    = Some [([0x1F600; 0x1F469; 0x200D; 0x1F680], 0x1F600); ([0x1F469; 0x200D; 0x1F680], 0x1F469); ([0x1F680], 0x1F680)] /\
  no_boundary ucd_gbp ucd_incb ucd_extpic [0x1F600; 0x1F469; 0x200D] 0x200D 0x1F680.
Proof.
  split; [vm_compute; reflexivity|].
  assert (G1 : ucd_gbp 0x200D = ZWJ) by (vm_compute; reflexivity).
  assert (G2 : ucd_gbp 0x1F680 = NoGbp) by (vm_compute; reflexivity).
  assert (G3 : ucd_extpic 0x1F680 = true) by (vm_compute; reflexivity).
  assert (G4 : ucd_extpic 0x1F469 = true) by (vm_compute; reflexivity).
  right. unfold ctl. rewrite G1, G2. split; [intuition congruence|]. split; [intuition congruence|].
  do 7 right. left. split; [|done].
  exists [0x1F600], 0x1F469, [], 0x200D. split_and!; [done|done|constructor|done].
Qed.

(** The hypotheses on the text are met by the sample. *)
Example C44_sat_text : no_gb9c_overmatch ucd_gbp ucd_incb sample /\ no_pictographic_run ucd_gbp ucd_extpic sample.
Proof.
  split.
  - intros pre r post H (p & c & mid & Hpre & Hc & _). exfalso.
    assert (Hin : c ∈ sample) by (rewrite H, Hpre; apply elem_of_app; left; apply elem_of_app; right; left).
    assert (Hall : forallb (fun c => match ucd_incb c with IConsonant => false | _ => true end) sample = true)
      by (vm_compute; reflexivity).
    rewrite forallb_forall in Hall. apply elem_of_list_In in Hin. specialize (Hall c Hin). by rewrite Hc in Hall.
  - intros p e1 ext1 e2 ext2 z e3 post H H1 _ H2 _ _ H3.
    assert (Hcount : length (filter (fun c => ucd_extpic c = true) sample) = 2%nat) by (vm_compute; reflexivity).
    rewrite H in Hcount. rewrite stdpp.list.filter_app, app_length in Hcount. rewrite filter_cons_True in Hcount by done.
    cbn [length] in Hcount. rewrite stdpp.list.filter_app, app_length in Hcount. rewrite filter_cons_True in Hcount by done.
    cbn [length] in Hcount. rewrite stdpp.list.filter_app, app_length in Hcount.
    replace (filter (fun c => ucd_extpic c = true) (z :: e3 :: post)) with
      (filter (fun c => ucd_extpic c = true) ([z] ++ e3 :: post)) in Hcount by done.
    rewrite stdpp.list.filter_app, app_length in Hcount. rewrite (filter_cons_True _ e3 post) in Hcount by done. cbn [length] in Hcount. lia.
Qed.
