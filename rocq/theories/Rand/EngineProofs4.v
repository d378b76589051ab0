(** Seeding of mersenne_twister_engine; discard_block_engine. *)
From stdpp Require Import base list list_numbers numbers.
From Coq Require Import ZArith Lia.
From Verif Require Num.Int128Proofs.
From Verif Require Import Base.Res Base.Int Rand.LcgModel Rand.LcgSpec Rand.LcgProofs Rand.EngineModel Rand.EngineSpec Rand.EngineProofs Rand.EngineProofs2 Rand.EngineProofs3.
Local Open Scope Z_scope.

Section mt.
  Context (P : mt_params) (OK : mt_ok P).
  Notation t := (mt_t P). Notation n := (mt_n P). Notation w := (mt_w P). Notation r := (mt_r P).
  Definition mt_F (i prev : Z) : Z := (mt_f P * Z.lxor prev (prev / 2 ^ (w - 2)) + i) mod 2 ^ w.
  Lemma fill_len cnt i prev : length (mt_fill w (mt_f P) cnt i prev) = cnt.
  Proof. revert i prev. induction cnt as [|cnt IH]; intros i prev; [done|]. cbn. by rewrite IH. Qed.
  Lemma fill_lookup cnt : forall i prev j x, (j < cnt)%nat -> (prev :: mt_fill w (mt_f P) cnt i prev) !! j = Some x ->
    (prev :: mt_fill w (mt_f P) cnt i prev) !! S j = Some (mt_F (i + Z.of_nat j) x).
  Proof.
    induction cnt as [|cnt IH]; intros i prev j x Hj Hx; [lia|]. cbn [mt_fill]. cbv zeta. fold (mt_F i prev).
    destruct j as [|j].
    - cbn in Hx. injection Hx as <-. cbn. by rewrite Z.add_0_r.
    - change ((prev :: mt_F i prev :: mt_fill w (mt_f P) cnt (i + 1) (mt_F i prev)) !! S (S j)) with ((mt_F i prev :: mt_fill w (mt_f P) cnt (i + 1) (mt_F i prev)) !! S j).
      rewrite (IH (i + 1) (mt_F i prev) j x); [|lia|exact Hx]. do 2 f_equal. lia.
  Qed.
  Lemma fill_range cnt i prev : Forall (inr P) (mt_fill w (mt_f P) cnt i prev).
  Proof.
    destruct OK as [_ Hw _ _ _ _]. revert i prev. induction cnt as [|cnt IH]; intros i prev; [constructor|]. cbn [mt_fill]. constructor; [|apply IH].
    apply Z.mod_pos_bound. lia.
  Qed.
  Lemma seeded_good x0 : good P (mt_seeded w n (mt_f P) x0).
  Proof.
    pose proof (n_pos P OK). destruct OK as [_ Hw _ _ _ _]. unfold mt_seeded. split; [cbn [length]; rewrite fill_len; lia|].
    constructor; [apply Z.mod_pos_bound; lia|apply fill_range].
  Qed.
  Lemma cells_snoc (a : list (option Z)) (h : list Z) i x : (i < length a)%nat -> (forall j, (j < i)%nat -> exists y, h !! j = Some y /\ a !! j = Some (Some y)) ->
    h !! i = Some x -> forall j, (j < S i)%nat -> exists y, h !! j = Some y /\ <[i := Some x]> a !! j = Some (Some y).
  Proof.
    intros Hi Hc Hx j Hj. destruct (decide (j = i)) as [->|Hne].
    - exists x. split; [done|]. by apply list_lookup_insert.
    - destruct (Hc j ltac:(lia)) as (y & H1 & H2). exists y. split; [done|]. by rewrite list_lookup_insert_ne.
  Qed.
  Lemma cells_of (a : list (option Z)) (h : list Z) : (forall j, (j < length h)%nat -> exists y, h !! j = Some y /\ a !! j = Some (Some y)) -> cells a 0 h.
  Proof. intros H q x Hq. destruct (H q) as (y & H1 & H2); [by apply lookup_lt_Some in Hq|]. cbn [Nat.add]. congruence. Qed.
  (** the one product the code leaves to signed int *)
  Definition mt_no_int_overflow : Prop := t = u16 -> mt_f P * (2 ^ w - 1) <= 2147483647.
  Lemma mt_seed_ok b x0 : length (ax b) = (2 * n)%nat -> mt_no_int_overflow ->
    wp (mt_seed P x0 b) (fun b' => mt_inv P b' (mt_seeded w n (mt_f P) x0)).
  Proof.
    intros Ha Hno. pose proof (n_pos P OK) as Hn. pose proof (mo_sg P OK) as Hs. pose proof (mo_wd P OK) as Hwd. destruct (mo_pow P OK) as [Hp Hp8]. pose proof OK as [Ht Hw _ _ _ Hmask].
    assert (Hf : 0 <= mt_f P < 2 ^ w). { do 4 (apply list.Forall_cons in Hmask as [_ Hmask]). by apply list.Forall_cons in Hmask as [? _]. }
    unfold mt_seed. cbv zeta. rewrite (land_WMSK P OK). set (h := mt_seeded w n (mt_f P) x0). destruct (seeded_good x0) as [Hl Hr]. fold h in Hl, Hr.
    rewrite wrc_ok by lia. rewrite rbind_ok. apply wp_bind.
    eapply wp_mono; [apply (fori_inv (fun i (p : list (option Z) * Z) => length p.1 = (2 * n)%nat /\ h !! (i - 1)%nat = Some p.2 /\
      (forall j, (j < i)%nat -> exists y, h !! j = Some y /\ p.1 !! j = Some (Some y))))|].
    - intros i [a prev] Hi (Hla & Hprev & Hc). cbn [fst snd] in *.
      assert (Rp : inr P prev). { rewrite list.Forall_lookup in Hr. by apply (Hr _ _ Hprev). }
      unfold shr. rewrite decide_True by (unfold promote; destruct (Z.ltb_spec (wd t) 32); cbn [wd s32]; lia). rewrite rbind_ok.
      assert (Rx : 0 <= Z.lxor prev (prev / 2 ^ (w - 2)) < 2 ^ w) by (apply lxor_range; [lia|done|apply div_range; [lia|done]]).
      set (z := Z.lxor prev (prev / 2 ^ (w - 2))) in *.
      assert (Hnext : h !! i = Some (mt_F (Z.of_nat i) prev)).
      { unfold h, mt_seeded in *. destruct i as [|i]; [lia|]. rewrite (fill_lookup (n - 1) 1 (x0 mod 2 ^ w) i prev); [|lia|].
        - do 2 f_equal. lia.
        - by replace (S i - 1)%nat with i in Hprev by lia. }
      assert (Har : exists q, arith (promote t) (mt_f P * z) = Ok q /\ 0 <= q < 2 ^ 64 /\ q mod 2 ^ w = (mt_f P * z) mod 2 ^ w).
      { assert (0 <= mt_f P * z) by nia. destruct Ht as [E|Ht].
        - rewrite E. unfold promote, arith. cbn [wd u16]. change (16 <? 32) with true. cbn [sg s32]. specialize (Hno E).
          assert (mt_f P * z <= 2147483647) by nia.
          rewrite decide_True by (unfold in_t, tmin, tmax; cbn [sg wd s32]; lia). exists (mt_f P * z). split; [done|]. split; [lia|done].
        - assert (E : promote t = t) by (by destruct Ht as [-> | ->]). rewrite E. unfold arith. rewrite Hs. exists ((mt_f P * z) mod 2 ^ wd t). split; [done|].
          pose proof (Z.mod_pos_bound (mt_f P * z) (2 ^ wd t) ltac:(lia)). assert (2 ^ wd t <= 2 ^ 64) by (apply Z.pow_le_mono_r; lia). split; [lia|].
          apply mod_mod_pow. lia. }
      destruct Har as (q & -> & Hq & Hqm). rewrite rbind_ok. rewrite (land_WMSK P OK). rewrite !(cast_u u64) by done. cbn [wd u64].
      rewrite (Z.mod_small q) by done. rewrite mod_mod_pow by lia.
      assert (Ef : (Z.of_nat i + q) mod 2 ^ w = mt_F (Z.of_nat i) prev).
      { unfold mt_F. fold z. rewrite Z.add_comm, Z.add_mod, Hqm, <-Z.add_mod by lia. done. }
      rewrite Ef. pose proof (Z.mod_pos_bound (mt_f P * z + Z.of_nat i) (2 ^ w) ltac:(lia)) as HFb.
      assert (Ec : cast t (mt_F (Z.of_nat i) prev) = mt_F (Z.of_nat i) prev) by (apply cast_small; [done|unfold mt_F; fold z; lia]). rewrite Ec.
      rewrite wrc_ok by lia. rewrite rbind_ok. apply wp_ok. cbn [fst snd]. split; [by rewrite insert_length|]. split; [by rewrite Nat.sub_succ, Nat.sub_0_r|].
      apply cells_snoc; [lia|done|done].
    - cbn [fst snd]. split; [by rewrite insert_length|]. split; [done|]. intros j Hj. assert (j = 0%nat) as -> by lia. exists (x0 mod 2 ^ w). split; [done|].
      apply list_lookup_insert. lia.
    - intros [a prev] (Hla & _ & Hc). cbn [fst snd] in *. apply wp_ok. apply (mt_lower P); [by split|done|]. apply cells_of. intros j Hj. apply Hc. lia.
  Qed.

  Lemma mt_swc : swc_params t w 1 2.
  Proof. destruct OK as [Ht Hw _ _ _ _]. split; [done|lia|lia]. Qed.
  Lemma groups_good ws : good P (groups w (words_of w) n ws).
  Proof. destruct OK as [_ Hw _ _ _ _]. split; [apply groups_len|]. apply groups_range. lia. Qed.
  Lemma mt_seed_seq_ok b gen : length (ax b) = (2 * n)%nat -> gen_ok gen ->
    wp (mt_seed_seq P gen b) (fun b' => mt_inv P b' (mt_seeded_seq w n r gen)).
  Proof.
    intros Ha Hg. pose proof (n_pos P OK) as Hn. pose proof (mo_sg P OK) as Hs. pose proof (mo_wd P OK) as Hwd. destruct (mo_pow P OK) as [Hp Hp8]. pose proof OK as [Ht Hw _ Hrr _ _].
    unfold mt_seed_seq. cbv zeta. change (Z.to_nat ((w + 31) / 32)) with (words_of w). set (k := words_of w). set (W := gen (k * n)%nat).
    destruct (Hg (k * n)%nat) as [HlW HfW]. fold W in HlW, HfW. set (h := groups w k n W). destruct (groups_good W) as [Hlh Hrh]. fold k h in Hlh, Hrh.
    assert (HX : mt_seeded_seq w n r gen = if bool_decide (el h 0 / 2 ^ r = 0 /\ Forall (fun x => x = 0) (tail h)) then 2 ^ (w - 1) :: tail h else h) by done. rewrite HX. clear HX.
    apply wp_bind.
    eapply wp_mono; [apply (fori_inv (fun i (p : list (option Z) * Z) => length p.1 = (2 * n)%nat /\
      (p.2 = 0 <-> ((0 < i)%nat -> el h 0 / 2 ^ r = 0) /\ forall j, (1 <= j < i)%nat -> el h j = 0) /\
      (forall j, (j < i)%nat -> exists y, h !! j = Some y /\ p.1 !! j = Some (Some y))))|].
    - intros i [a sum] Hi (Hla & Hsum & Hc). cbn [fst snd] in *. set (ws := take k (drop (i * k) W)).
      assert (Hlw : length ws = k) by (unfold ws; rewrite take_length, drop_length; nia).
      assert (Hkc : (k = 1 \/ k = 2 /\ t = u64)%nat) by (destruct (words_cases t w 1 2 mt_swc) as [[? _]|(? & ? & _)]; [by left|by right]).
      assert (Hpk : pack t k (fun j0 => default 0 (W !! (i * k + j0)%nat)) = Ok (big ws mod 2 ^ wd t)).
      { rewrite <-(pack_ok t k ws); [|done|done|done|unfold ws; apply Forall_take, Forall_drop, HfW].
        destruct Hkc as [Hk1|[Hk2 _]].
        - unfold ws. rewrite Hk1. unfold pack. cbn [Nat.sub fori]. rewrite lookup_take by lia. by rewrite lookup_drop.
        - unfold ws. rewrite Hk2. unfold pack. change (2 - 1)%nat with 1%nat. cbn [fori]. rewrite !lookup_take by lia. by rewrite !lookup_drop. }
      rewrite Hpk, rbind_ok. rewrite (land_WMSK P OK), mod_mod_pow by lia.
      assert (Hhi : h !! i = Some (big ws mod 2 ^ w)) by (apply groups_lookup; lia). assert (Hel : el h i = big ws mod 2 ^ w) by (unfold el; by rewrite Hhi).
      rewrite <-Hel in *. rewrite wrc_ok by lia. rewrite rbind_ok.
      destruct (Nat.eqb_spec i 0) as [->|Hi0].
      + unfold shr. rewrite decide_True by lia. rewrite rbind_ok. apply wp_ok. cbn [fst snd]. split; [by rewrite insert_length|]. split; [|by apply cells_snoc; [lia|..]].
        split; [intros H0; split; [done|lia]|]. intros [H0 _]. apply H0. lia.
      + rewrite rbind_ok. apply wp_ok. cbn [fst snd]. split; [by rewrite insert_length|]. split; [|by apply cells_snoc; [lia|..]].
        rewrite Z.lor_eq_0_iff, Hsum. split.
        * intros [[H1 H2] H3]. split; [intros _; apply H1; lia|]. intros j Hj. destruct (decide (j = i)) as [->|]; [done|]. apply H2. lia.
        * intros [H1 H2]. split; [split; [intros _; apply H1; lia|intros j Hj; apply H2; lia]|]. apply H2. lia.
    - cbn [fst snd]. split; [done|]. split; [split; [intros _; split; [lia|lia]|done]|]. intros j Hj. lia.
    - intros [a sum] (Hla & Hsum & Hc). cbn [fst snd] in *. rewrite Nat.add_0_l in *.
      assert (Hcell : cells a 0 h) by (apply cells_of; rewrite Hlh; exact Hc).
      assert (Hiff : sum = 0 <-> el h 0 / 2 ^ r = 0 /\ Forall (fun x => x = 0) (tail h)).
      { rewrite Hsum. rewrite list.Forall_lookup. destruct h as [|x h']; [cbn in Hlh; lia|]. cbn [tail]. split.
        - intros [H1 H2]. split; [by apply H1|]. intros i y Hy. pose proof (lookup_lt_Some _ _ _ Hy). cbn [length] in Hlh. specialize (H2 (S i) ltac:(lia)). unfold el in H2. change ((x :: h') !! S i) with (h' !! i) in H2. rewrite Hy in H2. exact H2.
        - intros [H1 H2]. split; [done|]. intros [|j] Hj; [lia|]. unfold el. change ((x :: h') !! S j) with (h' !! j). destruct (h' !! j) eqn:E; [|done]. by apply (H2 j). }
      destruct (Z.eqb_spec sum 0) as [E0|E0].
      + rewrite bool_decide_true by (by apply Hiff). rewrite wrc_ok by lia. rewrite rbind_ok. apply wp_ok.
        assert (Hpw : 2 ^ w = 2 * 2 ^ (w - 1)) by (rewrite <-Z.pow_succ_r by lia; f_equal; lia).
        rewrite cast_small by (done || lia). apply (mt_lower P).
        * split; [destruct h; cbn in *; lia|]. constructor; [unfold inr; lia|]. by apply list.Forall_tail.
        * by rewrite insert_length.
        * intros [|q] x Hq; cbn [Nat.add].
          -- cbn in Hq. injection Hq as <-. apply list_lookup_insert. lia.
          -- rewrite list_lookup_insert_ne by lia. change ((2 ^ (w - 1) :: tail h) !! S q) with (tail h !! q) in Hq. apply (Hcell (S q)). destruct h; [done|]. exact Hq.
      + rewrite bool_decide_false by (by rewrite <-Hiff). rewrite rbind_ok. apply wp_ok. by apply (mt_lower P).
  Qed.
End mt.

Section db.
  Context {E R : Type} (gen : E -> E * R) (p r : nat).
  (** state and result of the base engine after [j] calls *)
  Definition adv (j : nat) (e : E) : E := (outputs gen j e).2.
  Definition nth_out (j : nat) (e : E) : R := (gen (adv j e)).2.
  Hypothesis Hr : (0 < r <= p)%nat.
  Hypothesis Hp : Z.of_nat p <> 2147483647 /\ Z.of_nat p < 2 ^ 64.
  Notation bt := (Block_type (Z.of_nat p)).
  Lemma adv_add i j e : adv (i + j) e = adv j (adv i e).
  Proof. unfold adv. by rewrite outputs_app. Qed.
  Lemma adv_S j e : adv (S j) e = (gen (adv j e)).1.
  Proof. replace (S j) with (j + 1)%nat by lia. rewrite adv_add. unfold adv at 1. cbn [outputs]. by destruct (gen (adv j e)). Qed.
  Lemma bt_cast x : (x <= p)%nat -> cast bt (Z.of_nat x) = Z.of_nat x.
  Proof.
    intros Hx. unfold Block_type. destruct (Z.leb_spec (Z.of_nat p) (2 ^ 31 - 1)).
    - apply cast_id; [cbn [wd s32]; lia|]. unfold in_t, tmin, tmax. cbn [sg wd s32]. lia.
    - apply cast_id; [cbn [wd u64]; lia|]. unfold in_t, tmin, tmax. cbn [sg wd u64]. lia.
  Qed.
  Lemma bt_arith x : (x <= p)%nat -> exists y, arith bt (Z.of_nat x + 1) = Ok y /\ ((x < p)%nat -> y = Z.of_nat (S x)).
  Proof.
    intros Hx. unfold Block_type, arith. destruct (Z.leb_spec (Z.of_nat p) (2 ^ 31 - 1)).
    - cbn [sg s32]. rewrite decide_True by (unfold in_t, tmin, tmax; cbn [sg wd s32]; lia). eexists. split; [done|]. lia.
    - cbn [sg u64 wd]. eexists. split; [done|]. intros. rewrite Z.mod_small by lia. lia.
  Qed.
  Lemma skip_loop_ok fuel : forall e x, (x <= p)%nat -> (p - x < fuel)%nat -> skip_loop gen (Z.of_nat p) fuel e (Z.of_nat x) = Ok (adv (p - x) e).
  Proof.
    induction fuel as [|fuel IH]; intros e x Hx Hf; [lia|]. cbn [skip_loop]. destruct (bt_arith x Hx) as (y & -> & Hy). rewrite rbind_ok. rewrite bt_cast by done.
    destruct (Z.ltb_spec (Z.of_nat x) (Z.of_nat p)).
    - rewrite Hy by lia. rewrite IH by lia. f_equal. replace (p - x)%nat with (1 + (p - S x))%nat by lia. rewrite adv_add. f_equal. unfold adv. cbn [outputs]. by destruct (gen e).
    - f_equal. by replace (p - x)%nat with 0%nat by lia.
  Qed.
  (** after [i] results *)
  Definition db_inv (e0 : E) (i : nat) (d : dblk) : Prop :=
    exists q s, (s <= r)%nat /\ (i = q * r + s)%nat /\ deng d = adv (q * p + s) e0 /\ dn d = Z.of_nat s.
  Lemma db_next_ok e0 i d : db_inv e0 i d -> exists d', db_next gen (Z.of_nat p) (Z.of_nat r) d = Ok (d', nth_out (block_index p r i) e0) /\ db_inv e0 (S i) d'.
  Proof.
    intros (q & s & Hs & -> & He & Hd). unfold db_next. rewrite bt_cast by lia. rewrite Hd.
    destruct (Z.leb_spec (Z.of_nat r) (Z.of_nat s)).
    - assert (s = r) as -> by lia. replace (Z.to_nat (Z.of_nat p - Z.of_nat r)) with (p - r)%nat by lia. rewrite skip_loop_ok by lia. rewrite rbind_ok, rbind_ok.
      destruct (bt_arith 0 ltac:(lia)) as (y & Ey & Hy). change (Z.of_nat 0 + 1) with (0 + 1) in Ey. rewrite Ey, rbind_ok. rewrite He, <-adv_add.
      replace (q * p + r + (p - r))%nat with ((q + 1) * p + 0)%nat by lia. destruct (gen (adv ((q + 1) * p + 0) e0)) as [e1 v] eqn:Eg. eexists. split.
      + do 2 f_equal. unfold nth_out, block_index. replace ((q * r + r) / r)%nat with (q + 1)%nat by (apply Nat.div_unique with 0%nat; lia).
        replace ((q * r + r) mod r)%nat with 0%nat by (apply Nat.mod_unique with (q + 1)%nat; lia). by rewrite Eg.
      + exists (q + 1)%nat, 1%nat. cbn [deng dn]. split; [lia|]. split; [lia|]. split; [|apply Hy; lia]. rewrite Nat.add_1_r, <-plus_n_Sm, adv_S, Nat.add_0_r. rewrite Nat.add_0_r, Nat.add_1_r in Eg. by rewrite Eg.
    - rewrite rbind_ok. destruct (bt_arith s ltac:(lia)) as (y & -> & Hy). rewrite rbind_ok. rewrite He. destruct (gen (adv (q * p + s) e0)) as [e1 v] eqn:Eg. eexists. split.
      + do 2 f_equal. unfold nth_out, block_index. replace ((q * r + s) / r)%nat with q by (apply Nat.div_unique with s; lia).
        replace ((q * r + s) mod r)%nat with s by (apply Nat.mod_unique with q; lia). by rewrite Eg.
      + exists q, (S s). cbn [deng dn]. split; [lia|]. split; [lia|]. split; [|apply Hy; lia]. rewrite <-plus_n_Sm, adv_S. by rewrite Eg.
  Qed.
  Lemma db_calls_ok k : forall e0 i d, db_inv e0 i d ->
    exists d', calls (db_next gen (Z.of_nat p) (Z.of_nat r)) k d = Ok ((fun j => nth_out (block_index p r j) e0) <$> seq i k, d') /\ db_inv e0 (i + k) d'.
  Proof.
    induction k as [|k IH]; intros e0 i d H; cbn [calls seq]; [rewrite Nat.add_0_r; eauto|].
    destruct (db_next_ok e0 i d H) as (d1 & -> & H1). rewrite rbind_ok. destruct (IH e0 (S i) d1 H1) as (d2 & -> & H2). rewrite rbind_ok. rewrite fmap_cons.
    exists d2. split; [done|]. by rewrite <-Nat.add_succ_comm.
  Qed.
  Lemma db_init_inv e : db_inv e 0 (db_init e).
  Proof. exists 0%nat, 0%nat. split; [lia|]. split; [done|]. split; [done|done]. Qed.
End db.
