(** Proofs about the std::bitset model: conversions and counting. *)
From stdpp Require Import base list list_numbers numbers decidable.
From Coq Require Import ZArith Lia.
From Verif Require Import Base.Res Base.Int Num.BitModel Num.BitSpec Num.BitProofs Cont.BitsetModel Cont.BitsetSpec Cont.BitsetProofs.
Local Open Scope nat_scope.

Lemma number_bound f n : (0 <= number f n < 2 ^ Z.of_nat n)%Z.
Proof.
  induction n as [|n IH]; simpl number; [simpl; lia|].
  rewrite Nat2Z.inj_succ, Z.pow_succ_r by lia. destruct (f n); lia.
Qed.
Lemma number_bit f n j : Z.testbit (number f n) (Z.of_nat j) = if decide (j < n) then f j else false.
Proof.
  induction n as [|n IH]; [apply Z.bits_0|]. simpl number. pose proof (number_bound f n) as Hb.
  assert (E : (number f n + (if f n then 2 ^ Z.of_nat n else 0))%Z = Z.lor (number f n) (if f n then 2 ^ Z.of_nat n else 0)).
  { destruct (f n); [|rewrite Z.lor_0_r; lia].
    assert (Hl : Z.land (number f n) (2 ^ Z.of_nat n) = 0%Z).
    { apply Z.bits_inj'; intros k Hk; rewrite Z.land_spec, Z.bits_0, Z.pow2_bits_eqb by lia;
        destruct (Z.eqb_spec (Z.of_nat n) k) as [<-|]; [|by rewrite andb_false_r].
        rewrite (testbit_high (Z.of_nat n)) by (done || lia). done. }
    rewrite Z.add_nocarry_lxor by done. by apply Z.lxor_lor. }
  rewrite E, Z.lor_spec, IH.
  assert (E2 : Z.testbit (if f n then 2 ^ Z.of_nat n else 0) (Z.of_nat j) = if decide (j = n) then f n else false).
  { destruct (f n) eqn:Ef.
    - rewrite Z.pow2_bits_eqb by lia. destruct (decide (j = n)) as [->|]; [apply Z.eqb_refl|apply Z.eqb_neq; lia].
    - rewrite Z.bits_0. by destruct (decide (j = n)). }
  rewrite E2. destruct (decide (j = n)) as [->|].
  - rewrite decide_False, decide_True by lia. done.
  - destruct (decide (j < n)); [rewrite (decide_True (P := j < S n)) by lia; apply orb_false_r|].
    rewrite (decide_False (P := j < S n)) by lia. done.
Qed.
Lemma how_many_S f n : how_many f (S n) = how_many f n + if f n then 1 else 0.
Proof.
  unfold how_many. rewrite seq_S, list.filter_app, app_length. f_equal. simpl.
  destruct (f n) eqn:E; [rewrite filter_cons_True|rewrite filter_cons_False]; try done. by rewrite E.
Qed.
Lemma how_many_ext f g n : (forall i, i < n -> f i = g i) -> how_many f n = how_many g n.
Proof. induction n as [|n IH]; intros H; [done|]. rewrite !how_many_S, IH, H by auto. done. Qed.
Lemma how_many_add f n m : how_many f (n + m) = how_many f n + how_many (fun i => f (n + i)) m.
Proof.
  induction m as [|m IH]; [rewrite Nat.add_0_r; unfold how_many at 3; simpl; lia|].
  rewrite Nat.add_succ_r, !how_many_S, IH. lia.
Qed.
Lemma how_many_le f n : how_many f n <= n.
Proof. induction n as [|n IH]; [done|]. rewrite how_many_S. destruct (f n); lia. Qed.
Lemma ones_how_many v n : ones (Z.of_nat n) v = Z.of_nat (how_many (fun j => Z.testbit v (Z.of_nat j)) n).
Proof.
  unfold ones. apply (f_equal Z.of_nat). induction n as [|n IH]; [done|].
  rewrite how_many_S, <-IH. rewrite Nat2Z.inj_succ, <-Z.add_1_r, seqZ_app by lia. rewrite list.filter_app, app_length.
  f_equal. rewrite Z.add_0_l. change (seqZ (Z.of_nat n) 1) with [Z.of_nat n]. destruct (Z.testbit v (Z.of_nat n)) eqn:E; [rewrite filter_cons_True by done|rewrite filter_cons_False by (by rewrite E)]; done.
Qed.

Section bitset.
  Context (N : nat).
  Notation B := (Bpw N).
  Notation W := (Words N).
  Notation Ty := (Ty N).
  Notation rep := (rep N).
  Implicit Types (a b : list Z) (f g : nat -> bool).

  Lemma count_ok pop a f : (forall v, in_t Ty v -> pop Ty v = Ok (ones (wd Ty) v)) -> (Z.of_nat ((W + 1) * B) < 2 ^ 64)%Z -> rep a f ->
    wp (count N pop a) (fun c => c = Z.of_nat (how_many f N)).
  Proof.
    intros Hpop Hsz [[Hl Hg] Hb]. destruct (Ty_wd N) as (Hw & Hs & Hp). pose proof (W_bounds N) as [HW HW']. pose proof (B_cases N) as HB. unfold count.
    apply (wp_fup (fun n (v : Z) => v = Z.of_nat (how_many (pad N f) (n * B)))).
    - done.
    - intros i v Hi ->. rewrite rdw_ok, rbind_ok by lia. rewrite Hpop, rbind_ok.
      2:{ apply in_u; [done|]. rewrite Hw. apply good_range, Hg. lia. }
      rewrite Hw, ones_how_many. unfold arith. change (sg u64) with false. cbv iota. apply wp_ok.
      assert (E : how_many (pad N f) (S i * B) = how_many (pad N f) (i * B) + how_many (fun j => Z.testbit (at_ a i) (Z.of_nat j)) B).
      { replace (S i * B) with (i * B + B) by lia. rewrite how_many_add. f_equal. apply how_many_ext. intros j Hj.
        symmetry. apply (Hb i j); lia. }
      rewrite E. rewrite Z.mod_small; [lia|].
      pose proof (how_many_le (pad N f) (S i * B)). change (wd u64) with 64%Z. nia.
    - intros v ->. simpl. f_equal. remember ((W + 1) * B) as M. replace M with (N + (M - N)) by lia. rewrite how_many_add.
      assert (how_many (fun i => pad N f (N + i)) (M - N) = 0) as ->.
      { generalize (M - N) as m. induction m as [|m IH]; [done|]. rewrite how_many_S, IH. unfold pad. by rewrite decide_False by lia. }
      rewrite Nat.add_0_r. apply how_many_ext. intros i Hi. unfold pad. by rewrite decide_True.
  Qed.

  Lemma low_words a f : rep a f -> N <= 64 -> 0 < N -> at_ a 0 = number f N.
  Proof.
    intros [[Hl Hg] Hb] HN H0. pose proof (B_cases N) as HB. pose proof (number_bound f N) as Hnb.
    assert (HNB : N <= B) by (unfold Bpw; destruct (decide _); lia).
    apply (bits_ext N); [apply Hg; lia|apply good_range; split; [lia|]|].
    - eapply Z.lt_le_trans; [apply Hnb|]. apply Z.pow_le_mono_r; lia.
    - intros j Hj. specialize (Hb 0 j ltac:(lia) Hj). unfold tb in Hb. rewrite Hb, number_bit. done.
  Qed.
  Lemma number_le f n m : n <= m -> (forall i, n <= i < m -> f i = false) -> number f m = number f n.
  Proof.
    intros Hnm H. induction m as [|m IH]; [by replace n with 0 by lia|]. destruct (decide (n = S m)) as [->|]; [done|].
    simpl. rewrite H by lia. rewrite IH by (lia || (intros; apply H; lia)). lia.
  Qed.
  Lemma number_ge f n k : k < n -> f k = true -> (2 ^ Z.of_nat k <= number f n)%Z.
  Proof.
    intros Hk Hf. induction n as [|n IH]; [lia|]. simpl. pose proof (number_bound f n). destruct (decide (k = n)) as [->|].
    - rewrite Hf. lia.
    - assert (2 ^ Z.of_nat k <= number f n)%Z by (apply IH; lia). destruct (f n); [|lia]. pose proof (Z.pow_nonneg 2 (Z.of_nat n)). lia.
  Qed.
  (** the words after the first: nonzero exactly when the number needs more than 64 bits *)
  Lemma high_words a f : rep a f -> 64 < N ->
    wp (fup W 1 (fun i ov => w <~ rdw a i ;; Ok (ov || negb (w =? 0)%Z)) false)
      (fun r => if r then (2 ^ 64 <= number f N)%Z else number f N = at_ a 0 /\ (at_ a 0 < 2 ^ 64)%Z).
  Proof.
    intros Hr HN. pose proof Hr as [[Hl Hg] Hb]. assert (HB : B = 64) by (unfold Bpw; destruct (decide _); lia).
    pose proof (W_bounds N) as [HW HW'].
    eapply wp_mono; [apply (fold_or a (fun w => negb (w =? 0)%Z)); lia|]. intros r Hrr.
    assert (Hw : forall k, 1 <= k <= W -> (exists i, 64 <= i < N /\ f i = true) \/ at_ a k = 0%Z).
    { intros k Hk. destruct (decide (at_ a k = 0%Z)) as [|Hne]; [by right|]. left.
      destruct (decide (Exists (fun i => f i = true) (seq 64 (N - 64)))) as [H|H].
      - apply list.Exists_exists in H as (i & Hi & Hf). apply elem_of_seq in Hi. exists i. split; [lia|done].
      - exfalso. apply Hne. apply (word_zero N a f k Hr ltac:(lia)). intros j Hj HN'. destruct (f (k * B + j)) eqn:E; [|done].
        exfalso. apply H. apply list.Exists_exists. exists (k * B + j). split; [apply elem_of_seq; nia|done]. }
    destruct r.
    - destruct Hrr as [Hrr _]. destruct (Hrr eq_refl) as [|(k & Hk & HP)]; [done|]. apply negb_true_iff, Z.eqb_neq in HP.
      destruct (Hw k ltac:(lia)) as [(i & Hi & Hf)|]; [|done]. etransitivity; [|apply (number_ge f N i); [lia|done]].
      change 64%Z with (Z.of_nat 64). apply Z.pow_le_mono_r; lia.
    - assert (Hz : forall k, 1 <= k <= W -> at_ a k = 0%Z).
      { intros k Hk. destruct (Z.eq_dec (at_ a k) 0) as [|Hne]; [done|]. exfalso. assert (false = true); [|done]. apply Hrr. right.
        exists k. split; [lia|]. by apply negb_true_iff, Z.eqb_neq. }
      assert (Hf : forall i, 64 <= i < N -> f i = false).
      { intros i Hi. destruct (idx N i ltac:(lia)) as (H1 & H2 & H3). rewrite H3. 
        assert (1 <= i / B). { rewrite HB. change 1 with (64 / 64). apply Nat.div_le_mono; lia. }
        apply (word_zero N a f (i / B) Hr ltac:(lia)); [apply Hz; lia|lia|lia]. }
      assert (Hg0 : (0 <= at_ a 0 < 2 ^ 64)%Z). { pose proof (proj1 (good_range N _) (Hg 0 ltac:(lia))) as H. rewrite HB in H. exact H. }
      split; [|lia]. rewrite (number_le f 64 N) by (lia || done).
      apply (bits_ext N); [apply good_range; rewrite HB; apply number_bound|apply Hg; lia|].
      intros j Hj. specialize (Hb 0 j ltac:(lia) Hj). unfold tb in Hb. rewrite Hb, number_bit. unfold pad. simpl.
      rewrite HB in Hj. rewrite !decide_True by lia. done.
  Qed.

  Lemma to_ullong_ok a f : rep a f ->
    wp (to_ullong N a) (fun r => r = if decide (number f N < 2 ^ 64)%Z then Some (number f N) else None).
  Proof.
    intros Hr. pose proof Hr as [[Hl Hg] Hb]. unfold to_ullong. pose proof (number_bound f N) as Hnb.
    destruct (decide (N = 0)) as [E|HN].
    { simpl. assert (number f N = 0%Z) as -> by (rewrite E; done). done. }
    destruct (decide (64 < N)) as [H64|H64].
    - apply wp_bind. eapply wp_mono; [by apply high_words|]. intros [] H.
      + simpl. rewrite decide_False by lia. done.
      + destruct H as [H1 H2]. rewrite rdw_ok, rbind_ok by lia. simpl. rewrite decide_True by lia. by rewrite H1.
    - rewrite rbind_ok, rdw_ok, rbind_ok by lia. simpl. rewrite (low_words a f) by (done || lia).
      rewrite decide_True; [done|]. eapply Z.lt_le_trans; [apply Hnb|]. change 64%Z with (Z.of_nat 64). apply Z.pow_le_mono_r; lia.
  Qed.
  Lemma to_ulong_ok a f : rep a f ->
    wp (to_ulong N a) (fun r => r = if decide (number f N < 2 ^ 32)%Z then Some (number f N) else None).
  Proof.
    intros Hr. pose proof Hr as [[Hl Hg] Hb]. unfold to_ulong. pose proof (number_bound f N) as Hnb.
    assert (Hc : forall z, (0 <= z < 2 ^ 32)%Z -> cast u32 z = z) by (intros; by apply cast_u_id).
    destruct (decide (N = 0)) as [E|HN].
    { simpl. assert (number f N = 0%Z) as -> by (rewrite E; done). done. }
    destruct (decide (N <= 32)) as [H32|H32].
    { rewrite rdw_ok, rbind_ok by lia. simpl. rewrite (low_words a f) by (done || lia).
      assert (number f N < 2 ^ 32)%Z.
      { eapply Z.lt_le_trans; [apply Hnb|]. change 32%Z with (Z.of_nat 32). apply Z.pow_le_mono_r; lia. }
      rewrite decide_True by done. by rewrite Hc by lia. }
    assert (Hfin : number f N = at_ a 0 -> wp (w <~ rdw a 0;; if decide (in_t u32 w) then Ok (Some (cast u32 w)) else Ok None)
       (fun r => r = if decide (number f N < 2 ^ 32)%Z then Some (number f N) else None)).
    { intros E. rewrite rdw_ok, rbind_ok, <-E by lia. destruct (decide (in_t u32 (number f N))) as [Hi|Hi]; apply in_u in Hi || idtac; try done.
      - simpl. change (wd u32) with 32%Z in Hi. rewrite decide_True by lia. by rewrite Hc by lia.
      - simpl. rewrite decide_False; [done|]. intros Hlt. apply Hi. apply in_u; [done|]. change (wd u32) with 32%Z. lia. }
    destruct (decide (64 < N)) as [H64|H64].
    - apply wp_bind. eapply wp_mono; [by apply high_words|]. intros [] H.
      + simpl. rewrite decide_False; [done|]. lia.
      + destruct H as [H1 H2]. by apply Hfin.
    - rewrite rbind_ok. apply Hfin. symmetry. apply low_words; done || lia.
  Qed.
  Lemma ctor_ull_ok v : (0 <= v < 2 ^ 64)%Z ->
    wp (ctor_ull N v) (fun a => rep a (fun i => Z.testbit v (Z.of_nat i))).
  Proof.
    intros Hv. unfold ctor_ull. unfold shl. rewrite decide_True by (simpl; destruct (decide (N < 64)); lia). rewrite rbind_ok.
    assert (Hm : forall n, n < 64 -> arith u64 (cast (promote u64) (1 * 2 ^ Z.of_nat n) - 1) = Ok (Z.ones (Z.of_nat n))).
    { intros n Hn. rewrite Z.mul_1_l. assert (0 < 2 ^ Z.of_nat n < 2 ^ 64)%Z.
      { split; [apply Z.pow_pos_nonneg; lia|]. change 64%Z with (Z.of_nat 64). apply Z.pow_lt_mono_r; lia. }
      rewrite cast_u_id by (done || (simpl; lia)). unfold arith. simpl sg. cbv iota. apply (f_equal Ok). rewrite Z.ones_equiv.
      apply Z.mod_small. change (wd u64) with 64%Z. lia. }
    assert (Hm' : exists m, arith u64 (cast (promote u64) (1 * 2 ^ (if decide (N < 64) then Z.of_nat N else 0)) - 1) = Ok m /\ (N < 64 -> m = Z.ones (Z.of_nat N))).
    { destruct (decide (N < 64)); [rewrite Hm by done; by eexists|]. change 0%Z with (Z.of_nat 0) at 1. rewrite Hm by lia. eexists. split; [done|]. lia. }
    destruct Hm' as (m & -> & HmN). rewrite rbind_ok. apply wp_ok.
    pose proof (B_cases N) as HB. pose proof (W_bounds N) as [HW HW'].
    set (w := cast Ty _).
    assert (Hat : forall k, at_ (w :: replicate W 0%Z) k = if decide (k = 0) then w else 0%Z).
    { intros [|k]; [done|]. unfold at_. simpl. destruct (decide (k < W)); [by rewrite lookup_replicate_2|].
      rewrite lookup_ge_None_2; [done|]. rewrite replicate_length. lia. }
    split; [split; [simpl; rewrite replicate_length; lia|]|].
    - intros k Hk. rewrite Hat. destruct (decide (k = 0)); [apply good_cast|apply good0].
    - intros k j Hk Hj. unfold tb, pad. rewrite Hat. destruct (decide (k = 0)) as [->|].
      + unfold w. rewrite bit_cast by done. simpl. destruct (decide (N < 64)).
        * rewrite HmN by done. rewrite Z.land_spec, bit_ones. destruct (decide (j < N)).
          -- rewrite bool_decide_true by done. apply andb_true_r.
          -- rewrite bool_decide_false by done. apply andb_false_r.
        * rewrite decide_True by lia. done.
      + rewrite Z.bits_0. destruct (decide (k * B + j < N)); [|done]. symmetry. apply (testbit_high 64); [done|].
        assert (B = 64) by (unfold Bpw in *; destruct (decide _); nia). nia.
  Qed.

  Lemma to_string_ok {C} (e0 e1 : C) a f : rep a f ->
    wp (to_string N e0 e1 a) (fun r => r = (fun i => if f (N - 1 - i) then e1 else e0) <$> seq 0 N).
  Proof.
    intros Hr. unfold to_string. apply (wp_fup (fun n (r : list C) => r = (fun i => if f (N - 1 - i) then e1 else e0) <$> seq 0 n)); [done| |done].
    intros i r Hi ->. rewrite (Subscript_ok N a f) by (done || lia). rewrite rbind_ok. apply wp_ok. by rewrite seq_S, fmap_app.
  Qed.

  (** construction from a string: the last character is bit 0 *)
  Lemma Construct_ok {C} `{EqDecision C} (e0 e1 : C) a0 (s : list C) : length a0 = W + 1 ->
    wp (Construct N e0 e1 a0 s) (fun r => match r with
      | Some a => Forall (fun c => c = e0 \/ c = e1) s /\ rep a (fun i => if decide (i < Nat.min (length s) N) then bool_decide (s !! (Nat.min (length s) N - 1 - i) = Some e1) else false)
      | None => ~ Forall (fun c => c = e0 \/ c = e1) s end).
  Proof.
    intros Hl0. pose proof (B_cases N) as HB. pose proof (W_bounds N) as [HW HW'].
    unfold Construct. set (good_ := fun c => bool_decide (c = e1) || bool_decide (c = e0)).
    assert (Hgood : forall c, good_ c = true <-> c = e0 \/ c = e1).
    { intros c. unfold good_. rewrite orb_true_iff, !bool_decide_eq_true. tauto. }
    destruct (forallb good_ (drop N s)) eqn:Efa.
    2:{ simpl. intros HF. apply not_true_iff_false in Efa. apply Efa. apply forallb_forall. intros c Hc. apply Hgood.
        apply (Forall_drop _ N) in HF. rewrite list.Forall_forall in HF. apply HF. by apply elem_of_list_In. }
    assert (Hdrop : Forall (fun c => c = e0 \/ c = e1) (drop N s)).
    { apply list.Forall_forall. intros c Hc. apply Hgood. eapply forallb_forall in Efa; [done|]. by apply elem_of_list_In. }
    set (cnt := Nat.min (length s) N). apply wp_bind.
    set (F := fun i => if decide (i < cnt) then bool_decide (s !! (cnt - 1 - i) = Some e1) else false).
    apply (wp_fdown (fun n (st : option (list Z * nat * nat * Z)) => match st with
      | None => ~ Forall (fun c => c = e0 \/ c = e1) s
      | Some (a, Wpos, used, word) =>
          Forall (fun c => c = e0 \/ c = e1) (drop n s) /\ length a = W + 1 /\ used < B /\ cnt - n = Wpos * B + used /\ good N word /\
          (forall j, j < B -> Z.testbit word (Z.of_nat j) = if decide (j < used) then F (Wpos * B + j) else false) /\
          (forall k, k < Wpos -> good N (at_ a k) /\ forall j, j < B -> tb a k j = F (k * B + j)) end)).
    - split_and!; try done; try lia.
      + unfold cnt. destruct (decide (length s <= N)).
        * rewrite Nat.min_l, drop_all by lia. constructor.
        * by rewrite Nat.min_r by lia.
      + apply good0.
      + intros j Hj. rewrite Z.bits_0. by rewrite decide_False by lia.
    - intros i [[[[a Wpos] used] word]|] Hi; simpl plus; [|done]. intros (HF & Hla & Hu & Hcn & Hgw & Hbw & Hk).
      assert (Hcs : cnt <= length s /\ cnt <= N) by (unfold cnt; lia).
      destruct (lookup_lt_is_Some_2 s i) as [c Hc]; [lia|]. rewrite Hc, rbind_ok, shl_word, rbind_ok by lia.
      assert (HFi : F (Wpos * B + used) = bool_decide (c = e1)).
      { unfold F. rewrite decide_True by lia. replace (cnt - 1 - (Wpos * B + used)) with i by lia. rewrite Hc.
        apply bool_decide_ext. split; [by intros [= ->]|by intros ->]. }
      set (word' := Z.lor word _).
      assert (Hgw' : good N word') by (apply good_lor; [done|apply good_cast]).
      assert (Hbw' : forall j, j < B -> Z.testbit word' (Z.of_nat j) = if decide (j < used + 1) then F (Wpos * B + j) else false).
      { intros j Hj. unfold word'. rewrite Z.lor_spec, Hbw, bit_shl by done. destruct (decide (j < used)).
        - rewrite (decide_True (P := j < used + 1)) by lia. apply orb_false_r.
        - destruct (decide (j = used)) as [->|].
          + rewrite (decide_True (P := used < used + 1)) by lia. rewrite HFi, Nat.sub_diag. simpl. case_bool_decide; done.
          + rewrite (decide_False (P := j < used + 1)) by lia. simpl.
            assert (Hjs : Z.of_nat (j - used) <> 0%Z) by lia. case_bool_decide; [|apply Z.bits_0].
            change 1%Z with (2 ^ 0)%Z. rewrite Z.pow2_bits_eqb by lia. apply Z.eqb_neq. lia. }
      change (bool_decide (c = e1) || bool_decide (c = e0)) with (good_ c). destruct (good_ c) eqn:Eg.
      + assert (HF' : Forall (fun c => c = e0 \/ c = e1) (drop i s)).
        { rewrite (drop_S s c i Hc). constructor; [by apply Hgood|done]. }
        destruct (decide (used + 1 = B)).
        * assert (Wpos < W + 1). { assert (Wpos * B < (W + 1) * B) by lia. nia. }
          rewrite wrw_ok, rbind_ok by lia. apply wp_ok. cbv beta iota. split_and!; try done; try lia.
          -- by rewrite insert_length.
          -- apply good0.
          -- intros j Hj. rewrite Z.bits_0. by rewrite decide_False by lia.
          -- intros k Hk'. unfold tb. rewrite at_ins by lia. destruct (decide (k = Wpos)) as [->|]; [|apply Hk; lia].
             split; [done|]. intros j Hj. rewrite Hbw' by done. by rewrite decide_True by lia.
        * apply wp_ok. cbv beta iota. split_and!; try done; lia.
      + simpl. intros HFa. rewrite list.Forall_lookup in HFa. apply HFa, Hgood in Hc. congruence.
    - intros [[[[a Wpos] used] word]|]; [|done]. intros (HF & Hla & Hu & Hcn & Hgw & Hbw & Hk). change (drop 0 s) with s in HF.
      rewrite Nat.sub_0_r in Hcn. assert (Hcs : cnt <= length s /\ cnt <= N) by (unfold cnt; lia).
      apply wp_bind.
      assert (H1 : wp (if decide (used <> 0) then a <~ wrw a Wpos word ;; Ok (a, Wpos + 1) else Ok (a, Wpos))
        (fun '(a', Wp) => length a' = W + 1 /\ Wp <= W + 1 /\ cnt <= Wp * B /\ forall k, k < Wp -> good N (at_ a' k) /\ forall j, j < B -> tb a' k j = F (k * B + j))).
      { destruct (decide (used <> 0)).
        - assert (Wpos < W + 1). { assert (Wpos * B < (W + 1) * B) by lia. nia. }
          rewrite wrw_ok, rbind_ok by lia. simpl. split_and!; try lia; [by rewrite insert_length|].
          intros k Hk'. unfold tb. rewrite at_ins by lia. destruct (decide (k = Wpos)) as [->|]; [|apply Hk; lia].
          split; [done|]. intros j Hj. rewrite Hbw by done. destruct (decide (j < used)); [done|]. unfold F. by rewrite decide_False by lia.
        - simpl. split_and!; try done; try lia. }
      eapply wp_mono; [exact H1|]. clear H1. intros [a1 Wp] (Hl1 & HWp & Hc1 & Hk1). apply wp_bind.
      apply (wp_fup (fun n a' => length a' = W + 1 /\ forall k, at_ a' k = if decide (Wp <= k < n) then 0%Z else at_ a1 k)).
      + split; [done|]. intros k. by rewrite decide_False by lia.
      + intros i a' Hi (Hl' & Hat). rewrite wrw_ok by lia. simpl. split; [by rewrite insert_length|]. intros k. rewrite at_ins by lia.
        destruct (decide (k = i)) as [->|]; [by rewrite decide_True by lia|]. rewrite Hat. destruct (decide (Wp <= k < i)).
        * by rewrite (decide_True (P := Wp <= k < S i)) by lia.
        * by rewrite (decide_False (P := Wp <= k < S i)) by lia.
      + intros a' (Hl' & Hat). simpl. split; [done|]. replace (Wp + (W + 1 - Wp)) with (W + 1) in Hat by lia. split; [split; [done|]|].
        * intros k Hkk. rewrite Hat. destruct (decide (Wp <= k < W + 1)); [apply good0|]. apply Hk1. lia.
        * intros k j Hkk Hj. unfold tb. rewrite Hat. destruct (decide (Wp <= k < W + 1)).
          -- rewrite Z.bits_0. unfold pad, F. destruct (decide (k * B + j < N)); [|done]. by rewrite decide_False by nia.
          -- destruct (Hk1 k ltac:(lia)) as [_ Hbk]. specialize (Hbk j Hj). unfold tb in Hbk. rewrite Hbk. unfold F, pad. destruct (decide (k * B + j < cnt)); [|by destruct (decide _)].
             by rewrite decide_True by lia.
  Qed.
End bitset.
