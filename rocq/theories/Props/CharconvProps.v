(** C21, C22: integer to_chars and from_chars. Characters are byte values; pointers are offsets from [first].
    [win64] selects the 64-bit or the 32-bit code path for base ten. *)
From stdpp Require Import base numbers list.
From Coq Require Import ZArith Lia.
From Verif Require Import Base.Res Base.Int Num.BitProofs Text.CharconvModel Text.CharconvSpec Text.CharconvProofs Text.CharconvProofs2.
Open Scope Z_scope.

Lemma char_digit_char d : 0 <= d < 36 -> char_digit (digit_char d) = Some d.
Proof.
  intros H. unfold char_digit, digit_char. destruct (decide (d < 10)).
  - rewrite decide_True by lia. f_equal. lia.
  - rewrite decide_False, decide_True by lia. f_equal. lia.
Qed.
Lemma run_unique base (b1 r1 b2 r2 : list Z) : Forall (is_digit base) b1 -> Forall (is_digit base) b2 ->
  (forall c, r1 !! 0%nat = Some c -> ~ is_digit base c) -> (forall c, r2 !! 0%nat = Some c -> ~ is_digit base c) -> b1 ++ r1 = b2 ++ r2 -> b1 = b2 /\ r1 = r2.
Proof.
  revert b2. induction b1 as [|c b1 IH]; intros b2 H1 H2 N1 N2 E.
  - destruct b2 as [|c b2]; [done|]. cbn in E. subst r1. inversion H2; subst. by destruct (N1 c eq_refl).
  - destruct b2 as [|c2 b2]; [cbn in E; subst r2; inversion H1; subst; by destruct (N2 c eq_refl)|]. cbn in E. injection E as -> E.
    inversion H1; inversion H2; subst. destruct (IH b2) as [-> ->]; done.
Qed.
(** exactly one numeral denotes a value *)
Lemma numeral_inj b v ds1 ds2 : 2 <= b -> numeral b v ds1 -> numeral b v ds2 -> ds1 = ds2.
Proof.
  intros Hb. revert v ds2. induction ds1 as [|d ds1 IH] using rev_ind; intros v ds2 H1 H2.
  { destruct H1 as (_ & _ & [?|(? & ? & ? & _)]); done. }
  destruct ds2 as [|e ds2 _] using rev_ind. { destruct H2 as (_ & _ & [?|(? & ? & ? & _)]); done. }
  destruct H1 as (F1 & V1 & C1), H2 as (F2 & V2 & C2). rewrite numval_snoc in V1, V2. apply Forall_app in F1 as [F1 D1], F2 as [F2 D2].
  rewrite Forall_singleton in D1, D2. assert (numval b ds1 = numval b ds2 /\ d = e) as [E ->].
  { assert (v / b = numval b ds1) by (rewrite <-V1, Z.add_comm, Z.div_add by lia; rewrite Z.div_small; lia).
    assert (v / b = numval b ds2) by (rewrite <-V2, Z.add_comm, Z.div_add by lia; rewrite Z.div_small; lia). lia. }
  f_equal. assert (N : forall ds, Forall (fun d => 0 <= d < b) ds -> (ds ++ [e] = [0] \/ exists d ds', ds ++ [e] = d :: ds' /\ d <> 0) -> ds = [] \/ (exists d ds', ds = d :: ds' /\ d <> 0)).
  { intros [|x ds] _ Hc; [by left|]. destruct Hc as [Hc|(x' & ds' & Hc & Hx)]; [by destruct ds|]. injection Hc as -> <-. right. eauto. }
  assert (Z0 : forall ds, Forall (fun d => 0 <= d < b) ds -> (exists d ds', ds = d :: ds' /\ d <> 0) -> 0 < numval b ds).
  { intros ds Hf (x & ds' & -> & Hx). rewrite numval_cons. inversion Hf; subst. pose proof (numval_nonneg b ds' ltac:(lia) ltac:(done)). assert (0 < b ^ Z.of_nat (length ds')) by (apply Z.pow_pos_nonneg; lia). nia. }
  destruct (N ds1 F1 C1) as [->|C1'], (N ds2 F2 C2) as [->|C2']; [done| | |].
  - pose proof (Z0 _ F2 C2'). cbn in E. lia.
  - pose proof (Z0 _ F1 C1'). cbn in E. lia.
  - apply (IH (numval b ds1)); split; try done; split; try done; auto.
Qed.
Theorem C21_text_unique : forall base v text text', 2 <= base <= 36 -> text_of base v text -> text_of base v text' -> text = text'.
Proof. intros base v text text' Hb (ds & Hn & ->) (ds' & Hn' & ->). rewrite (numeral_inj base (Z.abs v) ds ds') by (done || lia). done. Qed.
(** to_chars writes exactly the text of the value if it fits and reports value_too_large otherwise; the buffer keeps its
    size (a write outside [first, last) would be [UB]) and bytes behind the text are untouched *)
Theorem C21_to_chars : forall win64 t buf v base, std_ity t -> in_t t v -> 2 <= base <= 36 ->
  exists text buf' ptr ec, text_of base v text /\ to_chars win64 t buf v base = Ok (buf', ptr, ec) /\ length buf' = length buf /\
  if decide (length text <= length buf)%nat then buf' = text ++ drop (length text) buf /\ ptr = length text /\ ec = EOk
  else ptr = length buf /\ ec = ETooLarge.
Proof. apply to_chars_ok. Qed.
(** from_chars reads back what to_chars wrote, whatever follows that is not a digit of the base *)
Theorem C21_roundtrip : forall win64 t buf v base old rest, std_ity t -> in_t t v -> 2 <= base <= 36 -> Forall (fun c => 0 <= c <= 255) rest ->
  (forall c, rest !! 0%nat = Some c -> ~ is_digit base c) -> forall buf' ptr, to_chars win64 t buf v base = Ok (buf', ptr, EOk) ->
  from_chars t (take ptr buf' ++ rest) old base = Ok (ptr, EOk, v).
Proof.
  intros win64 t buf v base old rest Ht Hv Hb Hr Hnd buf' ptr E.
  destruct (to_chars_ok win64 t buf v base Ht Hv Hb) as (text & b2 & p2 & ec2 & HT & E2 & _ & H). rewrite E2 in E. injection E as -> -> ->.
  destruct (decide (length text <= length buf)%nat) as [L|L]; [|destruct H; done]. destruct H as (-> & -> & _). rewrite take_app. clear E2 L.
  destruct HT as (ds & (Hd & Hval & Hcan) & Etext).
  assert (Hbody : Forall2 (fun c d => char_digit c = Some d /\ d < base) (map digit_char ds) ds).
  { clear -Hd Hb. induction Hd as [|d ds Hd _ IH]; constructor; [|done]. rewrite char_digit_char by lia. split; [done|lia]. }
  assert (Hbyte : Forall (fun c => 0 <= c <= 255) (text ++ rest)).
  { apply Forall_app. split; [|done]. rewrite Etext. apply Forall_app. split; [destruct (decide (v < 0)); repeat constructor; lia|].
    apply Forall_map. eapply list.Forall_impl; [exact Hd|]. intros d Hd1. cbv beta in Hd1. unfold compose. unfold digit_char. destruct (decide (d < 10)); lia. }
  destruct (from_chars_ok t (text ++ rest) old base Ht Hb Hbyte) as (neg & body & rest' & vs & Es & Hneg & Hf & Hnd' & E). rewrite E. clear E.
  assert (Hds : map digit_char ds <> []). { destruct Hcan as [->|(? & ? & -> & _)]; done. }
  assert (En : neg = bool_decide (v < 0)).
  { apply Bool.eq_iff_eq_true. rewrite bool_decide_eq_true, Hneg, Etext. destruct (decide (v < 0)) as [L|L].
    - split; [done|]. intros _. split; [|done]. unfold in_t, tmin in Hv. destruct (sg t); [done|lia].
    - split; [|done]. intros [_ H]. exfalso. destruct ds as [|d ds]; [done|]. cbn in H. injection H as H. unfold digit_char in H. inversion Hd; subst. destruct (decide (d < 10)); lia. }
  assert (Hrun : body = map digit_char ds /\ rest' = rest).
  { apply (run_unique base); try done.
    - clear -Hf. induction Hf as [|c d ? ? [? ?]]; constructor; [by exists d|done].
    - clear -Hbody. induction Hbody as [|c d ? ? [? ?]]; constructor; [by exists d|done].
    - rewrite Etext, <-app_assoc in Es. replace (if neg then [45] else []) with (if decide (v < 0) then [45] else []) in Es; [by apply app_inv_head in Es|].
      rewrite En. destruct (decide (v < 0)); [rewrite bool_decide_true by done|rewrite bool_decide_false by done]; done. }
  destruct Hrun as [-> ->]. assert (vs = ds) as ->. { clear -Hf Hbody. revert vs Hf. induction Hbody as [|c d ? ? [H1 _] _ IH]; intros vs Hf; inversion Hf as [|? d' ? vs' [H2 _] Hf']; subst; [done|]. f_equal; [congruence|by apply IH]. }
  rewrite decide_False by done. rewrite Hval.
  assert (Ev : (if neg then - Z.abs v else Z.abs v) = v). { rewrite En. case_bool_decide; lia. } rewrite Ev. rewrite decide_True by done. f_equal. f_equal. f_equal.
  rewrite Etext, En. destruct (decide (v < 0)); [rewrite bool_decide_true by done|rewrite bool_decide_false by done]; done.
Qed.
(** from_chars: optional minus sign (signed types only), the longest run of digits, its exact value or an error *)
Theorem C22_from_chars : forall t s old base, std_ity t -> 2 <= base <= 36 -> Forall (fun c => 0 <= c <= 255) s ->
  exists (neg : bool) body rest vs, s = (if neg then [45] else []) ++ body ++ rest /\ (neg = true <-> sg t = true /\ s !! 0%nat = Some 45) /\
  Forall2 (fun c d => char_digit c = Some d /\ d < base) body vs /\ (forall c, rest !! 0%nat = Some c -> ~ is_digit base c) /\
  let v := if neg then - numval base vs else numval base vs in
  from_chars t s old base = Ok (
    if decide (body = []) then (0%nat, EInvalid, old)
    else if decide (in_t t v) then (length ((if neg then [45] else []) ++ body), EOk, v)
    else (length ((if neg then [45] else []) ++ body), ERange, old)).
Proof. apply from_chars_ok. Qed.
Example C21_sat : std_ity s64 /\ in_t s64 (-9223372036854775808) /\ text_of 10 (-42) [45; 52; 50] /\
  to_chars true s32 (replicate 4 0) (-42) 10 = Ok ([45; 52; 50; 0], 3%nat, EOk) /\ to_chars false s64 (replicate 20 0) (-9223372036854775808) 10 =
    Ok ([45; 57; 50; 50; 51; 51; 55; 50; 48; 51; 54; 56; 53; 52; 55; 55; 53; 56; 48; 56], 20%nat, EOk) /\
  to_chars true u8 (replicate 2 0) 255 10 = Ok ([0; 0], 2%nat, ETooLarge) /\ to_chars true u16 (replicate 4 0) 35 36 = Ok ([122; 0; 0; 0], 1%nat, EOk) /\
  to_chars true u8 (replicate 3 7) 0 2 = Ok ([48; 7; 7], 1%nat, EOk).
Proof.
  split; [vm_compute; auto|]. split; [vm_compute; split; discriminate|]. split; [|vm_compute; repeat split].
  exists [4; 2]. split; [|reflexivity]. split; [repeat constructor; lia|]. split; [reflexivity|]. right. by exists 4, [2].
Qed.
Example C22_sat : from_chars s8 [45; 49; 50; 56; 120] 7 10 = Ok (4%nat, EOk, -128) /\ from_chars s8 [49; 50; 56] 7 10 = Ok (3%nat, ERange, 7) /\
  from_chars u8 [45; 49] 7 10 = Ok (0%nat, EInvalid, 7) /\ from_chars u16 [102; 70; 48; 48; 103] 7 16 = Ok (4%nat, EOk, 65280) /\ from_chars s32 [45] 7 10 = Ok (0%nat, EInvalid, 7).
Proof. vm_compute. repeat split. Qed.
Print Assumptions C21_text_unique.
Print Assumptions C21_to_chars.
Print Assumptions C21_roundtrip.
Print Assumptions C22_from_chars.
