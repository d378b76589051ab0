From stdpp Require Import base numbers list.
From Coq Require Import ZArith Lia.
From Verif Require Import Base.Res Base.Int Num.BitProofs Num.GcdProofs Chrono.DurationProofs Text.CharconvModel Text.CharconvSpec.
Open Scope Z_scope.

(** ** numerals *)
Lemma numval_acc b ds acc : fold_left (fun acc d => acc * b + d) ds acc = acc * b ^ Z.of_nat (length ds) + numval b ds.
Proof.
  unfold numval. revert acc. induction ds as [|d ds IH]; intros acc; cbn [fold_left length].
  - cbn. lia.
  - rewrite IH, (IH (0 * b + d)). rewrite Nat2Z.inj_succ, Z.pow_succ_r by lia. lia.
Qed.
Lemma numval_cons b d ds : numval b (d :: ds) = d * b ^ Z.of_nat (length ds) + numval b ds.
Proof. unfold numval at 1. cbn [fold_left]. rewrite numval_acc. lia. Qed.
Lemma numval_app b ds1 ds2 : numval b (ds1 ++ ds2) = numval b ds1 * b ^ Z.of_nat (length ds2) + numval b ds2.
Proof. unfold numval at 1. rewrite fold_left_app. rewrite numval_acc. done. Qed.
Lemma numval_snoc b ds d : numval b (ds ++ [d]) = numval b ds * b + d.
Proof. rewrite numval_app. unfold numval at 2. cbn. lia. Qed.
Lemma numval_nonneg b ds : 0 <= b -> Forall (fun d => 0 <= d < b) ds -> 0 <= numval b ds.
Proof.
  intros Hb. induction 1 as [|d ds Hd _ IH]; [cbn; lia|]. rewrite numval_cons. assert (0 <= b ^ Z.of_nat (length ds)) by (apply Z.pow_nonneg; lia). nia.
Qed.
Lemma numval_lt b ds : 0 < b -> Forall (fun d => 0 <= d < b) ds -> numval b ds < b ^ Z.of_nat (length ds).
Proof.
  intros Hb. induction 1 as [|d ds Hd _ IH]; [cbn; lia|]. rewrite numval_cons. cbn [length]. rewrite Nat2Z.inj_succ, Z.pow_succ_r by lia.
  assert (0 < b ^ Z.of_nat (length ds)) by (apply Z.pow_pos_nonneg; lia). nia.
Qed.

(** ** digits *)
Lemma digit_at_ok k : 0 <= k < 36 -> digit_at k = Ok (digit_char k).
Proof.
  intros H. unfold digit_at. rewrite decide_True by lia.
  assert (E : forallb (fun k => match charconv_digits !! k with Some c => c =? digit_char (Z.of_nat k) | None => false end) (seq 0 36) = true) by (vm_compute; reflexivity).
  rewrite forallb_forall in E. specialize (E (Z.to_nat k)). rewrite in_seq in E. specialize (E ltac:(lia)). rewrite Z2Nat.id in E by lia.
  destruct (charconv_digits !! Z.to_nat k); [|done]. apply Z.eqb_eq in E. by subst.
Qed.
Lemma digit_low k : k < 10 -> 48 + k = digit_char k.
Proof. intros. unfold digit_char. by rewrite decide_True. Qed.

(** [b]: the value printed so far; a buffer state holding digits [ds] *)
Definition holds (w : nat) (bf : rbuf) (ds : list Z) : Prop := bf.2 = map digit_char ds /\ (bf.1 + length ds = w)%nat.
Lemma wp_push w bf ds d (Q : rbuf -> Prop) : holds w bf ds -> (length ds < w)%nat ->
  (forall bf', holds w bf' (d :: ds) -> Q bf') -> wp (push bf (digit_char d)) Q.
Proof.
  intros [H1 H2] Hl HQ. destruct bf as [n l]. cbn in *. subst l. unfold push. destruct n as [|n]; [lia|]. apply HQ. split; cbn; [done|lia].
Qed.
Lemma wp_push_pair w bf ds k (Q : rbuf -> Prop) : holds w bf ds -> (length ds + 1 < w)%nat -> 0 <= k < 100 ->
  (forall bf', holds w bf' (k / 10 :: k mod 10 :: ds) -> Q bf') -> wp (push_pair bf k) Q.
Proof.
  intros H Hl Hk HQ. unfold push_pair. rewrite decide_True by lia. rewrite Z.rem_mod_nonneg, Z.quot_div_nonneg by lia.
  pose proof (Z.mod_pos_bound k 10 ltac:(lia)). assert (k / 10 < 10) by (apply Z.div_lt_upper_bound; lia). rewrite !digit_low by lia.
  apply wp_bind. eapply wp_push; [exact H|lia|]. intros bf' H'. cbn beta. eapply wp_push; [exact H'|cbn; lia|]. exact HQ.
Qed.
(** the state while printing [V]: [v] is left, digits [ds] are out *)
Definition pst (V b v : Z) (ds : list Z) : Prop := Forall (fun d => 0 <= d < b) ds /\ 0 <= v /\ V = v * b ^ Z.of_nat (length ds) + numval b ds.
Lemma pst_step V b v ds : 1 < b -> pst V b v ds -> pst V b (v / b) (v mod b :: ds).
Proof.
  intros Hb (H1 & H2 & H3). pose proof (Z.mod_pos_bound v b ltac:(lia)). split; [|split].
  - by constructor.
  - apply Z.div_pos; lia.
  - rewrite numval_cons. cbn [length]. rewrite Nat2Z.inj_succ, Z.pow_succ_r by lia. rewrite H3. rewrite (Z.div_mod v b) at 1 by lia. ring.
Qed.
Lemma pst_len V b v ds c (w : nat) : 2 <= b -> 0 <= c -> pst V b v ds -> V < 2 ^ Z.of_nat w -> 1 <= v -> b ^ c <= v -> Z.of_nat (length ds) + c < Z.of_nat w.
Proof.
  intros Hb Hc (H1 & H2 & H3) HV Hv Hcv. pose proof (numval_nonneg b ds ltac:(lia) H1).
  assert (Hp : b ^ (Z.of_nat (length ds) + c) <= V). { rewrite Z.pow_add_r by lia. assert (0 < b ^ Z.of_nat (length ds)) by (apply Z.pow_pos_nonneg; lia). nia. }
  assert (2 ^ (Z.of_nat (length ds) + c) <= b ^ (Z.of_nat (length ds) + c)) by (apply Z.pow_le_mono_l; lia).
  apply (Z.pow_lt_mono_r_iff 2); lia.
Qed.
Lemma pst_pair V v ds : pst V 10 v ds -> pst V 10 (v / 100) ((v mod 100) / 10 :: (v mod 100) mod 10 :: ds).
Proof.
  intros H. apply (pst_step V 10) in H; [|lia]. apply (pst_step V 10) in H; [|lia]. rewrite Z.div_div in H by lia. change (10 * 10) with 100 in H.
  replace (v mod 100 / 10) with ((v / 10) mod 10) by (clear; Z.div_mod_to_equations; lia).
  replace ((v mod 100) mod 10) with (v mod 10) by (clear; Z.div_mod_to_equations; lia). done.
Qed.
Lemma pst_init V b : 0 <= V -> pst V b V [].
Proof. intros. split; [constructor|]. split; [lia|]. change (numval b []) with 0. change (b ^ Z.of_nat (length (@nil Z))) with 1. lia. Qed.
(** ** the generic digit loop *)
Lemma wp_digit_loop dig next V b (w : nat) : 2 <= b -> (0 < w)%nat -> 0 <= V < 2 ^ Z.of_nat w ->
  (forall v, 0 <= v <= V -> dig v = Ok (digit_char (v mod b)) /\ next v = v / b) ->
  wp (digit_loop dig next (S w) V (w, [])) (fun bf => exists ds, bf.2 = map digit_char ds /\ numeral b V ds).
Proof.
  intros Hb Hw HV Hd. unfold digit_loop.
  apply (wp_loop (fun s => exists ds, holds w s.2 ds /\ pst V b s.1 ds /\ (1 <= s.1 \/ ds = [])) (fun s => s.2.1)).
  - intros [v bf] (ds & Hh & Hp & Hv). cbn [fst snd] in *. pose proof Hp as (Hf & Hv0 & HV1). pose proof (numval_nonneg b ds ltac:(lia) Hf).
    assert (v <= V). { assert (0 < b ^ Z.of_nat (length ds)) by (apply Z.pow_pos_nonneg; lia). nia. }
    destruct (Hd v ltac:(lia)) as [-> ->]. apply wp_bind. cbn [wp]. apply wp_bind.
    eapply wp_push; [exact Hh| |].
    { destruct Hv as [Hv| ->]; [|cbn; lia]. pose proof (pst_len V b v ds 0 w Hb ltac:(lia) Hp ltac:(lia) Hv ltac:(rewrite Z.pow_0_r; lia)). lia. }
    intros bf' Hh'. cbv zeta. destruct Hh' as [Hh1 Hh2]. pose proof (pst_step V b v ds ltac:(lia) Hp) as Hp'.
    destruct (decide (v / b <> 0)) as [N|N]; cbn [wp fst snd].
    + split; [exists (v mod b :: ds); split; [split; done|]; split; [done|]; left; destruct Hp' as (_ & ? & _); lia|]. destruct Hh as [_ Hh]. cbn in Hh2. lia.
    + exists (v mod b :: ds). split; [done|]. assert (v / b = 0) as E by lia. destruct Hp' as (Hf' & _ & E'). rewrite E in E'. split; [done|]. split; [lia|].
      apply Z.div_small_iff in E; [|lia]. destruct E as [E|E]; [|lia]. rewrite Z.mod_small by lia. destruct Hv as [Hv| ->].
      * right. exists v, ds. split; [done|lia].
      * destruct (decide (v = 0)) as [->|]; [by left|]. right. exists v, []. done.
  - exists []. split; [split; cbn; [done|lia]|]. split; [|by right]. apply pst_init. exact (proj1 HV).
  - cbn. lia.
Qed.
(** ** base ten *)
Lemma quot_rem_nonneg v k : 0 <= v -> 0 < k -> v `quot` k = v / k /\ v `rem` k = v mod k.
Proof. intros. by rewrite Z.quot_div_nonneg, Z.rem_mod_nonneg by lia. Qed.
Lemma cast_u32_small z : 0 <= z < 4294967296 -> cast u32 z = z.
Proof. intros H. apply cast_u_id; [done|]. exact H. Qed.
Lemma wp_chunks V (w : nat) v bf : (w = 64)%nat -> 0 <= V < 2 ^ Z.of_nat w -> V < 2 ^ 64 ->
  holds w bf [] -> v = V ->
  wp (chunks (S w) v bf) (fun r => exists ds, holds w r.2 ds /\ pst V 10 r.1 ds /\ (1 <= r.1 \/ ds = []) /\ 0 <= r.1 < 4294967296).
Proof.
  intros Hw HV HV2 Hh ->. unfold chunks.
  apply (wp_loop (fun s => exists ds, holds w s.2 ds /\ pst V 10 s.1 ds /\ (1 <= s.1 \/ ds = []) /\ (length ds < 64)%nat) (fun s => s.2.1)).
  - clear bf Hh. intros [v bf] (ds & Hh & Hp & Hv & Hl). cbn [fst snd] in *. destruct (decide (v > 4294967295)) as [G|G].
    2: { cbn [wp fst snd]. exists ds. repeat (split; [done|]). destruct Hp as (_ & ? & _). lia. }
    pose proof (pst_len V 10 v ds 9 w ltac:(lia) ltac:(lia) Hp ltac:(lia) ltac:(lia) ltac:(lia)) as Hlen.
    pose proof (pst_len V 10 v ds 9 64 ltac:(lia) ltac:(lia) Hp ltac:(lia) ltac:(lia) ltac:(lia)) as Hlen64.
    destruct (quot_rem_nonneg v 100000000 ltac:(lia) ltac:(lia)) as [-> ->].
    pose proof (Z.mod_pos_bound v 100000000 ltac:(lia)) as Hc. rewrite cast_u32_small by lia. remember (v mod 100000000) as c eqn:Ec.
    destruct (quot_rem_nonneg c 100 ltac:(lia) ltac:(lia)) as [-> ->]. assert (0 <= c / 100) by (apply Z.div_pos; lia). assert (0 <= c / 100 / 100) by (apply Z.div_pos; lia).
    destruct (quot_rem_nonneg (c / 100) 100 ltac:(lia) ltac:(lia)) as [-> ->]. destruct (quot_rem_nonneg (c / 100 / 100) 100 ltac:(lia) ltac:(lia)) as [-> ->].
    pose proof (Z.mod_pos_bound c 100 ltac:(lia)). pose proof (Z.mod_pos_bound (c / 100) 100 ltac:(lia)). pose proof (Z.mod_pos_bound (c / 100 / 100) 100 ltac:(lia)).
    assert (c / 100 / 100 / 100 < 100). { rewrite !Z.div_div by lia. apply Z.div_lt_upper_bound; lia. }
    assert (0 <= c / 100 / 100 / 100) by (apply Z.div_pos; lia).
    apply wp_bind. eapply wp_push_pair; [exact Hh|cbn; lia|lia|]. intros b1 B1.
    apply wp_bind. eapply wp_push_pair; [exact B1|cbn; lia|lia|]. intros b2 B2.
    apply wp_bind. eapply wp_push_pair; [exact B2|cbn; lia|lia|]. intros b3 B3.
    apply wp_bind. eapply wp_push_pair; [exact B3|cbn; lia|lia|]. intros b4 B4. cbn [wp fst snd].
    split; [|destruct B4 as [_ B4]; destruct Hh as [_ Hh]; cbn in B4; lia].
    eexists. split; [exact B4|]. split.
    + apply pst_pair, pst_pair, pst_pair, pst_pair in Hp.
      assert (E8 : v / 100 / 100 / 100 / 100 = v / 100000000) by (rewrite !Z.div_div by lia; reflexivity).
      assert (Ez : forall k, 0 < k -> (100000000 / (k * 100)) * (k * 100) = 100000000 -> (v / k) mod 100 = (c / k) mod 100).
      { intros k Hk Hk2. rewrite Ec. rewrite (Z.div_mod v 100000000) at 1 by lia. rewrite Z.add_comm.
        replace (100000000 * (v / 100000000)) with ((100000000 / (k * 100) * 100 * (v / 100000000)) * k) by nia. rewrite Z.div_add by lia.
        replace (100000000 / (k * 100) * 100 * (v / 100000000)) with (100000000 / (k * 100) * (v / 100000000) * 100) by ring. by rewrite Z.mod_add by lia. }
      assert (v mod 100 = c mod 100) as Ez0. { rewrite <-(Z.div_1_r v) at 1. rewrite <-(Z.div_1_r c). apply Ez; [lia|reflexivity]. }
      assert ((v / 100) mod 100 = (c / 100) mod 100) as Ez1 by (apply Ez; [lia|reflexivity]).
      assert ((v / 100 / 100) mod 100 = (c / 100 / 100) mod 100) as Ez2 by (rewrite !Z.div_div by lia; apply Ez; [lia|reflexivity]).
      assert ((v / 100 / 100 / 100) mod 100 = c / 100 / 100 / 100) as Ez3.
      { rewrite <-(Z.mod_small (c / 100 / 100 / 100) 100) by lia. rewrite !Z.div_div by lia. apply Ez; [lia|reflexivity]. }
      rewrite Ez0, Ez1, Ez2, Ez3, E8 in Hp. exact Hp.
    + split; [|cbn; lia]. left. apply Z.div_le_lower_bound; lia.
  - exists []. split; [done|]. split; [apply pst_init; exact (proj1 HV)|]. split; [by right|]. cbn. lia.
  - destruct Hh as [_ Hh]. cbn in *. lia.
Qed.
Lemma wp_to_chars_10 win64 (w : nat) V : (w <= 32 \/ w = 64)%nat -> (0 < w)%nat -> 0 <= V < 2 ^ Z.of_nat w ->
  wp (to_chars_10 win64 (S w) (Ity (Z.of_nat w) false) V (w, [])) (fun bf => exists ds, bf.2 = map digit_char ds /\ numeral 10 V ds).
Proof.
  intros Hw Hw0 HV. unfold to_chars_10. apply wp_bind.
  apply (wp_mono _ (fun r => exists ds, holds w r.2 ds /\ pst V 10 r.1 ds /\ (1 <= r.1 \/ ds = []))).
  { assert (H0 : holds w (w, []) []) by (split; cbn; [done|lia]). assert (P0 : pst V 10 V []) by (apply pst_init; lia).
    destruct win64; [cbn [wp]; exists []; auto|]. apply wp_bind. cbn [wd]. destruct (decide (Z.of_nat w > 32)) as [G|G].
    - assert (w = 64)%nat as -> by lia. eapply wp_mono; [apply (wp_chunks V 64); [done|done|apply HV|done|done]|].
      intros [v bf] (ds & H1 & H2 & H3 & H4). cbn [wp fst snd] in *. rewrite cast_u32_small by lia. eauto.
    - cbn [wp fst snd]. assert (V < 2 ^ 32). { eapply Z.lt_le_trans; [apply HV|]. apply Z.pow_le_mono_r; lia. } rewrite cast_u32_small by lia. exists []. auto. }
  intros [v bf] (ds & Hh & Hp & Hv). cbn [fst snd] in *. destruct (decide (v < 10)) as [L|L].
  - rewrite digit_low by lia. pose proof Hp as (Hf & Hv0 & HV1). eapply wp_push; [exact Hh| |].
    { destruct Hv as [Hv| ->]; [|cbn; lia]. pose proof (pst_len V 10 v ds 0 w ltac:(lia) ltac:(lia) Hp ltac:(lia) Hv ltac:(lia)). lia. }
    intros bf' [Hh' _]. exists (v :: ds). split; [done|]. split; [constructor; [lia|done]|]. split; [by rewrite numval_cons|].
    destruct Hv as [Hv| ->]; [right; exists v, ds; split; [done|lia]|]. destruct (decide (v = 0)) as [->|]; [by left|]. right. exists v, []. done.
  - apply wp_bind. apply (wp_mono _ (fun r => exists ds, holds w r.2 ds /\ pst V 10 r.1 ds /\ 0 <= r.1 < 10 /\ (r.1 = 0 -> exists d ds', ds = d :: ds' /\ d <> 0))).
    + apply (wp_loop (fun s => exists ds, holds w s.2 ds /\ pst V 10 s.1 ds /\ 10 <= s.1) (fun s => s.2.1)).
      * clear v bf ds Hh Hp Hv L. intros [v bf] (ds & Hh & Hp & Hv). cbn [fst snd] in *.
        pose proof (pst_len V 10 v ds 1 w ltac:(lia) ltac:(lia) Hp ltac:(lia) ltac:(lia) ltac:(lia)) as Hlen.
        destruct (quot_rem_nonneg v 100 ltac:(lia) ltac:(lia)) as [-> ->]. pose proof (Z.mod_pos_bound v 100 ltac:(lia)) as Hc. rewrite cast_u32_small by lia.
        apply wp_bind. eapply wp_push_pair; [exact Hh|lia|lia|]. intros b1 H1. pose proof (pst_pair V v ds Hp) as Hp'. pose proof Hp' as (_ & Hnn & _).
        destruct (decide (v / 100 >= 10)) as [G|G]; cbn [wp fst snd].
        -- split; [|destruct H1 as [_ H1]; destruct Hh as [_ Hh]; cbn in H1; lia]. eexists. split; [exact H1|]. split; [done|lia].
        -- eexists. split; [exact H1|]. split; [done|]. split; [lia|]. intros E. eexists _, _. split; [done|].
           apply Z.div_small_iff in E; [|lia]. destruct E as [E|E]; [|lia]. rewrite Z.mod_small by lia. assert (1 <= v / 10) by (apply Z.div_le_lower_bound; lia). lia.
      * exists ds. cbn. split; [done|]. split; [done|lia].
      * destruct Hh as [_ Hh]. cbn. lia.
    + clear v bf ds Hh Hp Hv L. intros [v bf] (ds & Hh & Hp & Hv & H0). cbn [fst snd] in *. pose proof Hp as (Hf & Hv0 & HV1).
      destruct (decide (v <> 0)) as [N|N].
      * rewrite digit_low by lia. eapply wp_push; [exact Hh| |].
        { pose proof (pst_len V 10 v ds 0 w ltac:(lia) ltac:(lia) Hp ltac:(lia) ltac:(lia) ltac:(lia)). lia. }
        intros bf' [Hh' _]. exists (v :: ds). split; [done|]. split; [constructor; [lia|done]|]. split; [by rewrite numval_cons|]. right. eauto.
      * cbn [wp]. assert (v = 0) as -> by lia. exists ds. split; [apply Hh|]. split; [done|]. split; [lia|]. right. by apply H0.
Qed.
(** ** every base *)
Lemma land_mask v k m : m = 2 ^ k - 1 -> 0 <= k -> Z.land v m = v mod 2 ^ k.
Proof. intros -> H. rewrite <-Z.land_ones by lia. rewrite Z.ones_equiv. by rewrite Z.sub_1_r. Qed.
Lemma wp_base_digits win64 (w : nat) base V : (w <= 32 \/ w = 64)%nat -> (0 < w)%nat -> 2 <= base <= 36 -> 0 <= V < 2 ^ Z.of_nat w ->
  wp (base_digits win64 (S w) (Ity (Z.of_nat w) false) base V (w, [])) (fun bf => exists ds, bf.2 = map digit_char ds /\ numeral base V ds).
Proof.
  intros Hw Hw0 Hb HV. unfold base_digits. destruct (decide (base = 10)) as [->|]; [by apply wp_to_chars_10|].
  assert (Hsh : forall v k, 0 <= k -> Z.shiftr v k = v / 2 ^ k) by (intros; by apply Z.shiftr_div_pow2).
  assert (Hq : forall v, 0 <= v <= V -> cast (Ity (Z.of_nat w) false) (v `quot` base) = v / base).
  { intros v Hv. rewrite Z.quot_div_nonneg by lia. unfold cast; cbn. apply Z.mod_small. split; [apply Z.div_pos; lia|]. apply Z.div_lt_upper_bound; nia. }
  destruct (decide (base = 2)) as [->|].
  { apply wp_digit_loop; [lia|done|done|]. intros v Hv. rewrite (land_mask v 1 1), Hsh by (lia || reflexivity). change (2 ^ 1) with 2. pose proof (Z.mod_pos_bound v 2 ltac:(lia)). split; [|done]. by rewrite digit_low by lia. }
  destruct (decide (base = 4)) as [->|].
  { apply wp_digit_loop; [lia|done|done|]. intros v Hv. rewrite (land_mask v 2 3), Hsh by (lia || reflexivity). change (2 ^ 2) with 4. pose proof (Z.mod_pos_bound v 4 ltac:(lia)). split; [|done]. by rewrite digit_low by lia. }
  destruct (decide (base = 8)) as [->|].
  { apply wp_digit_loop; [lia|done|done|]. intros v Hv. rewrite (land_mask v 3 7), Hsh by (lia || reflexivity). change (2 ^ 3) with 8. pose proof (Z.mod_pos_bound v 8 ltac:(lia)). split; [|done]. by rewrite digit_low by lia. }
  destruct (decide (base = 16)) as [->|].
  { apply wp_digit_loop; [lia|done|done|]. intros v Hv. rewrite (land_mask v 4 15), Hsh by (lia || reflexivity). change (2 ^ 4) with 16. pose proof (Z.mod_pos_bound v 16 ltac:(lia)). split; [|done]. by rewrite digit_at_ok by lia. }
  destruct (decide (base = 32)) as [->|].
  { apply wp_digit_loop; [lia|done|done|]. intros v Hv. rewrite (land_mask v 5 31), Hsh by (lia || reflexivity). change (2 ^ 5) with 32. pose proof (Z.mod_pos_bound v 32 ltac:(lia)). split; [|done]. by rewrite digit_at_ok by lia. }
  destruct (decide _).
  - apply wp_digit_loop; [lia|done|done|]. intros v Hv. rewrite Hq by done. rewrite Z.rem_mod_nonneg by lia. pose proof (Z.mod_pos_bound v base ltac:(lia)). split; [|done]. by rewrite digit_low by lia.
  - apply wp_digit_loop; [lia|done|done|]. intros v Hv. rewrite Hq by done. rewrite Z.rem_mod_nonneg by lia. pose proof (Z.mod_pos_bound v base ltac:(lia)). split; [|done]. by rewrite digit_at_ok by lia.
Qed.

(** ** from_chars *)
Lemma digit_from_char_ok c : 0 <= c <= 255 -> exists d, digit_from_char c = Ok d /\ 0 <= d <= 255 /\ (char_digit c = Some d \/ (char_digit c = None /\ d = 255)).
Proof.
  intros H. assert (E : forallb (fun c => match digit_from_byte !! c with Some d => bool_decide (0 <= d <= 255 /\ (char_digit (Z.of_nat c) = Some d \/ (char_digit (Z.of_nat c) = None /\ d = 255))) | None => false end) (seq 0 256) = true) by (vm_compute; reflexivity).
  rewrite forallb_forall in E. specialize (E (Z.to_nat c)). rewrite in_seq in E. specialize (E ltac:(lia)). rewrite Z2Nat.id in E by lia.
  unfold digit_from_char. destruct (digit_from_byte !! Z.to_nat c) as [d|]; [|done]. apply bool_decide_eq_true in E. eauto.
Qed.
Lemma char_digit_range c d : char_digit c = Some d -> 0 <= d < 36.
Proof. unfold char_digit. repeat case_decide; intros [= <-]; lia. Qed.
