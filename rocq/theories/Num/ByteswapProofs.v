From stdpp Require Import base numbers list list_numbers.
From Coq Require Import ZArith Lia Zify ZifyBool.
From Verif Require Import Base.Res Base.Int Num.BitModel Num.BitSpec Num.BitProofs.
Open Scope Z_scope.
Ltac Zify.zify_post_hook ::= Z.div_mod_to_equations.

(** byteswap *)
Definition swap_ix (w j : Z) : Z := (w - 8) - 8 * (j / 8) + j mod 8.
Ltac bits1 := rewrite ?Z.lor_spec, ?Z.land_spec, ?Z.div_pow2_bits, ?cast_low by (cbn; lia).
Lemma enum_lt (n : Z) (P : Z -> Prop) : Forall P (seqZ 0 n) -> forall j, 0 <= j < n -> P j.
Proof. intros H j Hj. rewrite list.Forall_forall in H. apply H. apply elem_of_seqZ. lia. Qed.
Lemma cast_mul_bits t v k i : 1 <= wd t -> 0 <= k -> 0 <= i < wd t -> Z.testbit (cast t (v * 2 ^ k)) i = (k <=? i) && Z.testbit v (i - k).
Proof.
  intros Hw Hk Hi. rewrite cast_low by lia. destruct (k <=? i) eqn:E; simpl; [by rewrite Z.mul_pow2_bits by lia|by rewrite Z.mul_pow2_bits_low by lia].
Qed.
Ltac swap_bit v w Hv :=
  rewrite ?cast_low by (cbn; lia); rewrite ?Z.lor_spec, ?Z.land_spec; rewrite ?cast_mul_bits by (cbn; lia); rewrite ?Z.div_pow2_bits by (cbn; lia);
  unfold swap_ix;
  repeat match goal with |- context [Z.testbit (Zpos ?c) ?i] => let b := eval vm_compute in (Z.testbit (Zpos c) i) in change (Z.testbit (Zpos c) i) with b end;
  repeat match goal with |- context [?a <=? ?i] => let b := eval vm_compute in (a <=? i) in change (a <=? i) with b end;
  repeat match goal with |- context [Z.testbit v ?i] => let j := eval vm_compute in i in progress change (Z.testbit v i) with (Z.testbit v j) end;
  repeat match goal with |- context [Z.testbit v ?i] => rewrite (testbit_high w v i Hv) by lia end;
  cbn [andb orb]; rewrite ?andb_false_r, ?andb_true_r, ?orb_false_r; reflexivity.
Ltac swap_all v w Hv := repeat (apply List.Forall_cons; [swap_bit v w Hv|]); apply List.Forall_nil.
Lemma byteswap_ushort_bits v : 0 <= v < 2 ^ 16 -> wp (byteswap_ushort v) (fun r => forall j, 0 <= j < 16 -> Z.testbit r j = Z.testbit v (swap_ix 16 j)).
Proof.
  intros Hv. unfold byteswap_ushort, shl, shr. cbv zeta. rewrite !decide_True by (cbn; lia). cbn [rbind wp].
  apply enum_lt. let l := eval vm_compute in (seqZ 0 16) in change (seqZ 0 16) with l.
  swap_all v 16 Hv.
Qed.
Lemma byteswap_ulong_bits v : 0 <= v < 2 ^ 32 -> wp (byteswap_ulong v) (fun r => forall j, 0 <= j < 32 -> Z.testbit r j = Z.testbit v (swap_ix 32 j)).
Proof.
  intros Hv. unfold byteswap_ulong, shl, shr. cbv zeta. rewrite !decide_True by (cbn; lia). cbn [rbind wp].
  apply enum_lt. let l := eval vm_compute in (seqZ 0 32) in change (seqZ 0 32) with l. swap_all v 32 Hv.
Qed.
Lemma byteswap_uint64_bits v : 0 <= v < 2 ^ 64 -> wp (byteswap_uint64 v) (fun r => forall j, 0 <= j < 64 -> Z.testbit r j = Z.testbit v (swap_ix 64 j)).
Proof.
  intros Hv. unfold byteswap_uint64, shl, shr. cbv zeta. rewrite !decide_True by (cbn; lia). cbn [rbind wp].
  apply enum_lt. let l := eval vm_compute in (seqZ 0 64) in change (seqZ 0 64) with l. swap_all v 64 Hv.
Qed.
Lemma byte_testbit v i j : 0 <= i -> 0 <= j -> Z.testbit (byte v i) j = (j <? 8) && Z.testbit v (8 * i + j).
Proof.
  intros Hi Hj. unfold byte. change 256 with (2 ^ 8). destruct (j <? 8) eqn:E.
  - rewrite Z.mod_pow2_bits_low, Z.div_pow2_bits by lia. simpl. f_equal. lia.
  - rewrite Z.mod_pow2_bits_high by lia. done.
Qed.
Lemma swap_bytes w t u v r : wd t = w -> wd u = w -> sg u = false -> 8 <= w -> w mod 8 = 0 ->
  (forall j, 0 <= j < w -> Z.testbit r j = Z.testbit (cast u v) (swap_ix w j)) ->
  forall i, 0 <= i < w / 8 -> byte (cast t r) i = byte v (w / 8 - 1 - i).
Proof.
  intros Ht Hu Hs Hw Hm H i Hi. apply Z.bits_inj'. intros j Hj. rewrite !byte_testbit by lia. destruct (j <? 8) eqn:E; [simpl|done].
  rewrite cast_low by lia. rewrite H by lia. rewrite cast_low by (unfold swap_ix; lia). f_equal. unfold swap_ix. lia.
Qed.
Lemma byteswap_bytes t v : std_ity t -> in_t t v ->
  wp (byteswap t v) (fun r => in_t t r /\ forall i, 0 <= i < wd t / 8 -> byte r i = byte v (wd t / 8 - 1 - i)).
Proof.
  intros Ht Hv. pose proof (wd_pos t Ht) as Hw. unfold byteswap.
  assert (Hu : forall u, sg u = false -> 0 <= wd u -> 0 <= cast u v < 2 ^ wd u).
  { intros u Hs Hu. rewrite cast_u by done. apply Z.mod_pos_bound. apply pow2_pos. done. }
  case_decide as D8.
  { simpl. split; [done|]. intros i Hi. rewrite D8 in *. change (8 / 8) with 1 in *. assert (i = 0) as -> by lia. done. }
  case_decide as D16.
  { apply wp_bind. eapply wp_mono; [apply byteswap_ushort_bits, (Hu u16); simpl; done || lia|]. intros r Hr. simpl. split; [apply cast_range; lia|].
    rewrite D16. apply (swap_bytes 16 t u16); done. }
  case_decide as D32.
  { apply wp_bind. eapply wp_mono; [apply byteswap_ulong_bits, (Hu u32); simpl; done || lia|]. intros r Hr. simpl. split; [apply cast_range; lia|].
    rewrite D32. apply (swap_bytes 32 t u32); done. }
  assert (D64 : wd t = 64). { clear -Ht D8 D16 D32. unfold std_ity in Ht. cbn in Ht. lia. }
  apply wp_bind. eapply wp_mono; [apply byteswap_uint64_bits, (Hu u64); simpl; done || lia|]. intros r Hr. simpl. split; [apply cast_range; lia|].
  rewrite D64. apply (swap_bytes 64 t u64); done.
Qed.
