(** Proofs about the UTF decoders (UtfModel). *)
From Coq Require Import Lia ZArith.
From stdpp Require Import base list numbers.
From Verif.Unicode Require Import UtfModel UtfSpec.
Local Open Scope Z_scope.

Lemma or_bits v b : Z.lor (Z.shiftl v 6) (Z.land b 63) = v * 64 + b mod 64.
Proof.
  change 63 with (Z.ones 6). rewrite Z.land_ones by lia. change (2 ^ 6) with 64.
  assert (Hd : Z.land (Z.shiftl v 6) (b mod 64) = 0).
  { apply Z.bits_inj'. intros n Hn. rewrite Z.land_spec, Z.bits_0.
    destruct (decide (n < 6)) as [Hl | Hl].
    - rewrite Z.shiftl_spec by lia. rewrite Z.testbit_neg_r by lia. done.
    - change 64 with (2 ^ 6). rewrite Z.mod_pow2_bits_high by lia. by rewrite andb_false_r. }
  rewrite <- Z.lxor_lor by done. rewrite <- Z.add_nocarry_lxor by done.
  rewrite Z.shiftl_mul_pow2 by lia. done.
Qed.
Lemma mask31 b : Z.land b 31 = b mod 32.
Proof. change 31 with (Z.ones 5). by rewrite Z.land_ones by lia. Qed.
Lemma mask15 b : Z.land b 15 = b mod 16.
Proof. change 15 with (Z.ones 4). by rewrite Z.land_ones by lia. Qed.
Lemma mask7 b : Z.land b 7 = b mod 8.
Proof. change 7 with (Z.ones 3). by rewrite Z.land_ones by lia. Qed.

Ltac zb :=
  repeat match goal with
  | H : _ && _ = true |- _ => apply andb_prop in H; destruct H
  | H : _ || _ = true |- _ => apply orb_prop in H
  | H : _ && _ = false |- _ => apply andb_false_iff in H
  | H : _ || _ = false |- _ => apply orb_false_iff in H; destruct H
  | H : (_ <? _) = true |- _ => apply Z.ltb_lt in H
  | H : (_ <? _) = false |- _ => apply Z.ltb_ge in H
  | H : (_ <=? _) = true |- _ => apply Z.leb_le in H
  | H : (_ <=? _) = false |- _ => apply Z.leb_gt in H
  | H : (_ >? _) = true |- _ => rewrite Z.gtb_ltb in H; apply Z.ltb_lt in H
  | H : (_ >? _) = false |- _ => rewrite Z.gtb_ltb in H; apply Z.ltb_ge in H
  | H : (_ =? _) = true |- _ => apply Z.eqb_eq in H
  | H : (_ =? _) = false |- _ => apply Z.eqb_neq in H
  end.

Definition byte (b : Z) : Prop := 0 <= b <= 255.
Definition cont (b : Z) : Prop := 0x80 <= b <= 0xBF.

(** ** A declarative form of the UTF-8 decoder *)
Definition second_ok (b0 b1 : Z) : Prop :=
  (b0 = 0xE0 -> 0xA0 <= b1) /\ (b0 = 0xED -> b1 <= 0x9F) /\ (b0 = 0xF0 -> 0x90 <= b1) /\ (b0 = 0xF4 -> b1 <= 0x8F).

Inductive dec8 : list Z -> dres -> Prop :=
  | d8_1 b0 r : b0 <= 0x7F -> dec8 (b0 :: r) (DRes b0 1 true)
  | d8_bad b0 r : (0x7F < b0 < 0xC2 \/ 0xF4 < b0) -> dec8 (b0 :: r) (DRes 0xFFFD 1 false)
  | d8_lead b0 : 0xC2 <= b0 <= 0xF4 -> dec8 [b0] (DRes 0xFFFD 1 false)
  | d8_sec b0 b1 r : 0xC2 <= b0 <= 0xF4 -> ~ (second_ok b0 b1 /\ cont b1) ->
      dec8 (b0 :: b1 :: r) (DRes 0xFFFD 1 false)
  | d8_2 b0 b1 r : 0xC2 <= b0 <= 0xDF -> cont b1 ->
      dec8 (b0 :: b1 :: r) (DRes ((b0 - 0xC0) * 64 + (b1 - 0x80)) 2 true)
  | d8_3e b0 b1 : 0xE0 <= b0 <= 0xF4 -> second_ok b0 b1 -> cont b1 ->
      dec8 [b0; b1] (DRes 0xFFFD 2 false)
  | d8_3b b0 b1 b2 r : 0xE0 <= b0 <= 0xF4 -> second_ok b0 b1 -> cont b1 -> ~ cont b2 ->
      dec8 (b0 :: b1 :: b2 :: r) (DRes 0xFFFD 2 false)
  | d8_3 b0 b1 b2 r : 0xE0 <= b0 <= 0xEF -> second_ok b0 b1 -> cont b1 -> cont b2 ->
      dec8 (b0 :: b1 :: b2 :: r) (DRes ((b0 - 0xE0) * 4096 + (b1 - 0x80) * 64 + (b2 - 0x80)) 3 true)
  | d8_4e b0 b1 b2 : 0xF0 <= b0 <= 0xF4 -> second_ok b0 b1 -> cont b1 -> cont b2 ->
      dec8 [b0; b1; b2] (DRes 0xFFFD 3 false)
  | d8_4b b0 b1 b2 b3 r : 0xF0 <= b0 <= 0xF4 -> second_ok b0 b1 -> cont b1 -> cont b2 -> ~ cont b3 ->
      dec8 (b0 :: b1 :: b2 :: b3 :: r) (DRes 0xFFFD 3 false)
  | d8_4 b0 b1 b2 b3 r : 0xF0 <= b0 <= 0xF4 -> second_ok b0 b1 -> cont b1 -> cont b2 -> cont b3 ->
      dec8 (b0 :: b1 :: b2 :: b3 :: r)
           (DRes ((b0 - 0xF0) * 262144 + (b1 - 0x80) * 4096 + (b2 - 0x80) * 64 + (b3 - 0x80)) 4 true).

Lemma bad_second_spec b0 b1 : bad_second8 b0 b1 = false <-> second_ok b0 b1.
Proof.
  unfold bad_second8, second_ok.
  destruct (b0 =? 0xE0) eqn:?; zb; [|destruct (b0 =? 0xED) eqn:?; zb; [|destruct (b0 =? 0xF0) eqn:?; zb;
    [|destruct (b0 =? 0xF4) eqn:?; zb]]]; split; intros H; zb;
    repeat match goal with
    | |- (_ <? _) = false => apply Z.ltb_ge
    | |- (_ >? _) = false => rewrite Z.gtb_ltb; apply Z.ltb_ge
    end; try lia; done.
Qed.
Lemma contb b : ((b <? 0x80) || (b >? 0xBF)) = false <-> cont b.
Proof.
  unfold cont. split; intros H.
  - zb. lia.
  - apply orb_false_iff. rewrite Z.gtb_ltb. split; apply Z.ltb_ge; lia.
Qed.
Lemma contb' b : ((b <? 0x80) || (b >? 0xBF)) = true <-> ~ cont b.
Proof. rewrite <- contb. destruct ((b <? 0x80) || (b >? 0xBF)); naive_solver. Qed.

Lemma dec8_spec l : l <> [] -> dec8 l (decode_utf8 l).
Proof.
  intros Hl. destruct l as [|b0 r]; [done|]. clear Hl. unfold decode_utf8, num_bytes8.
  destruct (b0 <=? 0x7F) eqn:E1; zb; [by constructor|].
  destruct ((0xC2 <=? b0) && (b0 <=? 0xDF)) eqn:E2; zb.
  { destruct r as [|b1 r]; [constructor; lia|].
    assert (Hbs : bad_second8 b0 b1 = false) by (apply bad_second_spec; unfold second_ok; lia).
    rewrite Hbs. cbn [Nat.sub trail8].
    destruct ((b1 <? 0x80) || (b1 >? 0xBF)) eqn:E3; cbn [lead_mask8].
    - apply d8_sec; [lia|]. apply contb' in E3. tauto.
    - apply contb in E3. rewrite or_bits, mask31.
      replace (b0 mod 32 * 64 + b1 mod 64) with ((b0 - 0xC0) * 64 + (b1 - 0x80)); [by apply d8_2|].
      unfold cont in E3. Z.to_euclidean_division_equations; lia. }
  destruct ((0xE0 <=? b0) && (b0 <=? 0xEF)) eqn:E3; zb.
  { destruct r as [|b1 r]; [constructor; lia|].
    destruct (bad_second8 b0 b1) eqn:Hbs.
    { apply d8_sec; [lia|]. rewrite <- bad_second_spec. rewrite Hbs. intros [? _]; done. }
    apply bad_second_spec in Hbs. cbn [Nat.sub trail8 lead_mask8].
    destruct ((b1 <? 0x80) || (b1 >? 0xBF)) eqn:Eb1; [apply contb' in Eb1; apply d8_sec; [lia|tauto]|].
    apply contb in Eb1. destruct r as [|b2 r]; [apply d8_3e; [lia|done|done]|].
    destruct ((b2 <? 0x80) || (b2 >? 0xBF)) eqn:Eb2; [apply contb' in Eb2; apply d8_3b; [lia|done|done|done]|].
    apply contb in Eb2. rewrite !or_bits, mask15.
    replace ((b0 mod 16 * 64 + b1 mod 64) * 64 + b2 mod 64)
      with ((b0 - 0xE0) * 4096 + (b1 - 0x80) * 64 + (b2 - 0x80)); [by apply d8_3|].
    unfold cont in Eb1, Eb2. Z.to_euclidean_division_equations; lia. }
  destruct ((0xF0 <=? b0) && (b0 <=? 0xF4)) eqn:E4; zb.
  { destruct r as [|b1 r]; [constructor; lia|].
    destruct (bad_second8 b0 b1) eqn:Hbs.
    { apply d8_sec; [lia|]. rewrite <- bad_second_spec. rewrite Hbs. intros [? _]; done. }
    apply bad_second_spec in Hbs. cbn [Nat.sub trail8 lead_mask8].
    destruct ((b1 <? 0x80) || (b1 >? 0xBF)) eqn:Eb1; [apply contb' in Eb1; apply d8_sec; [lia|tauto]|].
    apply contb in Eb1. destruct r as [|b2 r]; [apply d8_3e; [lia|done|done]|].
    destruct ((b2 <? 0x80) || (b2 >? 0xBF)) eqn:Eb2; [apply contb' in Eb2; apply d8_3b; [lia|done|done|done]|].
    apply contb in Eb2. destruct r as [|b3 r]; [by apply d8_4e|].
    destruct ((b3 <? 0x80) || (b3 >? 0xBF)) eqn:Eb3; [apply contb' in Eb3; by apply d8_4b|].
    apply contb in Eb3. rewrite !or_bits, mask7.
    replace (((b0 mod 8 * 64 + b1 mod 64) * 64 + b2 mod 64) * 64 + b3 mod 64)
      with ((b0 - 0xF0) * 262144 + (b1 - 0x80) * 4096 + (b2 - 0x80) * 64 + (b3 - 0x80)); [by apply d8_4|].
    unfold cont in Eb1, Eb2, Eb3. Z.to_euclidean_division_equations; lia. }
  apply d8_bad. lia.
Qed.

(** ** The encodings, by length *)
Inductive enc8 (c : Z) : list Z -> Prop :=
  | e8_1 : 0 <= c <= 0x7F -> enc8 c [c]
  | e8_2 b0 b1 : 0x80 <= c <= 0x7FF -> cont b1 -> c = (b0 - 0xC0) * 64 + (b1 - 0x80) -> enc8 c [b0; b1]
  | e8_3 b0 b1 b2 : 0x800 <= c <= 0xFFFF -> ~ (0xD800 <= c <= 0xDFFF) -> cont b1 -> cont b2 ->
      c = (b0 - 0xE0) * 4096 + (b1 - 0x80) * 64 + (b2 - 0x80) -> enc8 c [b0; b1; b2]
  | e8_4 b0 b1 b2 b3 : 0x10000 <= c <= 0x10FFFF -> cont b1 -> cont b2 -> cont b3 ->
      c = (b0 - 0xF0) * 262144 + (b1 - 0x80) * 4096 + (b2 - 0x80) * 64 + (b3 - 0x80) ->
      enc8 c [b0; b1; b2; b3].

Lemma enc8_spec c : scalar c -> enc8 c (encode8 c).
Proof.
  unfold scalar, encode8. intros Hc.
  destruct (c <=? 0x7F) eqn:E1; zb; [constructor; lia|].
  destruct (c <=? 0x7FF) eqn:E2; zb.
  { apply e8_2; unfold cont; Z.to_euclidean_division_equations; lia. }
  destruct (c <=? 0xFFFF) eqn:E3; zb.
  { assert (H1 : c = c / 4096 * 4096 + (c / 64) mod 64 * 64 + c mod 64).
    { Z.to_euclidean_division_equations; lia. }
    assert (H2 := Z.mod_pos_bound (c / 64) 64 eq_refl). assert (H3 := Z.mod_pos_bound c 64 eq_refl).
    apply e8_3; unfold cont; lia. }
  assert (H1 : c = c / 262144 * 262144 + (c / 4096) mod 64 * 4096 + (c / 64) mod 64 * 64 + c mod 64).
  { Z.to_euclidean_division_equations; lia. }
  assert (H2 := Z.mod_pos_bound (c / 64) 64 eq_refl). assert (H3 := Z.mod_pos_bound c 64 eq_refl).
  assert (H4 := Z.mod_pos_bound (c / 4096) 64 eq_refl).
  apply e8_4; unfold cont; lia.
Qed.
Lemma enc8_fun c l l' : enc8 c l -> enc8 c l' -> l = l'.
Proof.
  unfold cont. intros H1 H2. destruct H1; destruct H2; unfold cont in *; try lia; try done.
  - assert (b3 = b1) by lia. assert (b2 = b0) by lia. subst. done.
  - assert (b5 = b2) by lia. assert (b4 = b1) by lia. assert (b3 = b0) by lia. subst. done.
  - assert (b7 = b3) by lia. assert (b6 = b2) by lia. assert (b5 = b1) by lia. assert (b4 = b0) by lia.
    subst. done.
Qed.
Lemma enc8_iff c l : scalar c -> enc8 c l -> l = encode8 c.
Proof. intros Hs He. eapply enc8_fun; [done|]. by apply enc8_spec. Qed.

Definition valid_decoder (decode : list Z -> dres) (encode : Z -> list Z) : Prop :=
  forall c rest, scalar c -> decode (encode c ++ rest) = DRes c (length (encode c)) true.

Lemma prefix_cons_inv' (a b : Z) l k : a :: l `prefix_of` b :: k -> a = b /\ l `prefix_of` k.
Proof. intros H. split; [by eapply prefix_cons_inv_1|by eapply prefix_cons_inv_2]. Qed.

Lemma utf8_valid c rest : scalar c -> decode_utf8 (encode8 c ++ rest) = DRes c (length (encode8 c)) true.
Proof.
  intros Hs. pose proof (enc8_spec c Hs) as He.
  assert (Hd : dec8 (encode8 c ++ rest) (decode_utf8 (encode8 c ++ rest))).
  { apply dec8_spec. by destruct He. }
  revert Hd. generalize (decode_utf8 (encode8 c ++ rest)). intros d Hd.
  destruct He; cbn [app length] in *; inversion Hd; subst; unfold cont, second_ok in *;
    try (f_equal; lia); lia.
Qed.

Lemma utf8_sound l v n : Forall byte l -> l <> [] -> decode_utf8 l = DRes v n true ->
  scalar v /\ encode8 v `prefix_of` l /\ n = length (encode8 v).
Proof.
  intros Hb Hl Hdec. pose proof (dec8_spec l Hl) as Hd. rewrite Hdec in Hd.
  assert (Hk : forall k r, l = k ++ r -> scalar v -> enc8 v k -> n = length k ->
    scalar v /\ encode8 v `prefix_of` l /\ n = length (encode8 v)).
  { intros k r -> Hs He Hn. apply enc8_iff in He; [|done]. subst k. split_and!; [done| |done]. by exists r. }
  inversion Hd; subst.
  - apply Forall_cons_1 in Hb as [Hb _]. unfold byte in Hb.
    apply (Hk [v] r); [done| |apply e8_1; lia|done]. unfold scalar. lia.
  - unfold cont in *. apply (Hk [b0; b1] r); [done| | |done]; [unfold scalar; lia|].
    apply e8_2; unfold cont; lia.
  - unfold cont, second_ok in *. apply (Hk [b0; b1; b2] r); [done| | |done]; [unfold scalar; lia|].
    apply e8_3; unfold cont; lia.
  - unfold cont, second_ok in *. apply (Hk [b0; b1; b2; b3] r); [done| | |done]; [unfold scalar; lia|].
    apply e8_4; unfold cont; lia.
Qed.

(** Which lists start an encoding: the list is compared with an encoding of each length. *)
Lemma starts8_inv p : starts_some encode8 p -> exists c k, scalar c /\ enc8 c k /\ p `prefix_of` k.
Proof. intros (c & Hs & Hp). exists c, (encode8 c). split_and!; [done|by apply enc8_spec|done]. Qed.
Lemma starts8_intro p c k : scalar c -> enc8 c k -> p `prefix_of` k -> starts_some encode8 p.
Proof. intros Hs He Hp. exists c. split; [done|]. by rewrite <- (enc8_iff c k). Qed.

Ltac noprefix H :=
  let c := fresh "c" in let k := fresh "k" in let Hs := fresh "Hs" in let He := fresh "He" in
  let Hp := fresh "Hp" in
  apply starts8_inv in H as (c & k & Hs & He & Hp);
  destruct He; unfold cont, second_ok, scalar in *;
  repeat match goal with
  | H : _ :: _ `prefix_of` _ :: _ |- _ => apply prefix_cons_inv' in H as [? ?]
  | H : _ :: _ `prefix_of` [] |- _ => by apply prefix_nil_not in H
  end; try lia.

Lemma utf8_invalid l v n : Forall byte l -> l <> [] -> decode_utf8 l = DRes v n false ->
  v = 0xFFFD /\ (1 <= n <= length l)%nat /\ (n = 1%nat \/ starts_some encode8 (take n l)) /\
  forall m, (n < m <= length l)%nat -> ~ starts_some encode8 (take m l).
Proof.
  intros Hb Hl Hdec. pose proof (dec8_spec l Hl) as Hd. rewrite Hdec in Hd.
  assert (Hmono : forall m, (n < m <= length l)%nat -> ~ starts_some encode8 (take (S n) l) ->
            ~ starts_some encode8 (take m l)).
  { intros m Hm Hn (c & Hs & Hp). apply Hn. exists c. split; [done|].
    transitivity (take m l); [|done]. assert (take (S n) l = take (S n) (take m l)) as -> by (rewrite take_take; f_equal; lia). exists (drop (S n) (take m l)). by rewrite take_drop. }
  inversion Hd; subst; (split; [done|]); (split; [cbn [length]; lia|]).
  - split; [by left|]. intros m Hm. destruct m as [|m]; [lia|]. cbn [take]. intros Hst.
    assert (Hst' : starts_some encode8 [b0]).
    { destruct Hst as (c & Hs & Hp). exists c. split; [done|].
      transitivity (b0 :: take m r); [|done]. apply prefix_cons. apply prefix_nil. }
    noprefix Hst'.
  - split; [by left|]. cbn [length]. lia.
  - split; [by left|]. intros m Hm. apply Hmono; [done|]. cbn [take]. intros Hst. noprefix Hst.
  - split.
    + right. cbn [take]. unfold cont, second_ok, scalar in *. destruct (decide (b0 <= 0xEF)).
      * apply (starts8_intro _ ((b0 - 0xE0) * 4096 + (b1 - 0x80) * 64 + (0x80 - 0x80)) [b0; b1; 0x80]);
          [unfold scalar; lia|apply e8_3; unfold cont; lia|]. repeat apply prefix_cons. apply prefix_nil.
      * apply (starts8_intro _ ((b0 - 0xF0) * 262144 + (b1 - 0x80) * 4096 + (0x80 - 0x80) * 64 + (0x80 - 0x80))
          [b0; b1; 0x80; 0x80]);
          [unfold scalar; lia|apply e8_4; unfold cont; lia|]. repeat apply prefix_cons. apply prefix_nil.
    + cbn [length]. lia.
  - split.
    + right. cbn [take]. unfold cont, second_ok, scalar in *. destruct (decide (b0 <= 0xEF)).
      * apply (starts8_intro _ ((b0 - 0xE0) * 4096 + (b1 - 0x80) * 64 + (0x80 - 0x80)) [b0; b1; 0x80]);
          [unfold scalar; lia|apply e8_3; unfold cont; lia|]. repeat apply prefix_cons. apply prefix_nil.
      * apply (starts8_intro _ ((b0 - 0xF0) * 262144 + (b1 - 0x80) * 4096 + (0x80 - 0x80) * 64 + (0x80 - 0x80))
          [b0; b1; 0x80; 0x80]);
          [unfold scalar; lia|apply e8_4; unfold cont; lia|]. repeat apply prefix_cons. apply prefix_nil.
    + intros m Hm. apply Hmono; [done|]. cbn [take]. intros Hst. noprefix Hst.
  - split.
    + right. cbn [take]. unfold cont, second_ok, scalar in *.
      apply (starts8_intro _ ((b0 - 0xF0) * 262144 + (b1 - 0x80) * 4096 + (b2 - 0x80) * 64 + (0x80 - 0x80))
          [b0; b1; b2; 0x80]);
          [unfold scalar; lia|apply e8_4; unfold cont; lia|]. repeat apply prefix_cons. apply prefix_nil.
    + cbn [length]. lia.
  - split.
    + right. cbn [take]. unfold cont, second_ok, scalar in *.
      apply (starts8_intro _ ((b0 - 0xF0) * 262144 + (b1 - 0x80) * 4096 + (b2 - 0x80) * 64 + (0x80 - 0x80))
          [b0; b1; b2; 0x80]);
          [unfold scalar; lia|apply e8_4; unfold cont; lia|]. repeat apply prefix_cons. apply prefix_nil.
    + intros m Hm. apply Hmono; [done|]. cbn [take]. intros Hst. noprefix Hst.
Qed.
