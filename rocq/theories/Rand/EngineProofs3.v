(** mersenne_twister_engine refines the recurrence of the standard. *)
From stdpp Require Import base list list_numbers numbers.
From Coq Require Import ZArith Lia.
From Verif Require Num.Int128Proofs.
From Verif Require Import Base.Res Base.Int Rand.LcgModel Rand.LcgSpec Rand.LcgProofs Rand.EngineModel Rand.EngineSpec Rand.EngineProofs Rand.EngineProofs2.
Local Open Scope Z_scope.

(** the template arguments the class accepts whose shifts the core language defines *)
Record mt_ok (P : mt_params) : Prop := {
  mo_type : mt_t P = u16 \/ mt_t P = u32 \/ mt_t P = u64;
  mo_w : 2 < mt_w P <= wd (mt_t P);
  mo_m : (0 < mt_m P <= mt_n P)%nat;
  mo_r : 0 <= mt_r P <= mt_w P /\ mt_r P < wd (promote (mt_t P));
  mo_shifts : Forall (fun k => 0 <= k <= mt_w P /\ k < wd (promote (mt_t P))) [mt_u P; mt_s P; mt_tt P; mt_l P];
  mo_masks : Forall (fun x => 0 <= x < 2 ^ mt_w P) [mt_a P; mt_d P; mt_b P; mt_c P; mt_f P]
}.

Lemma land_mod x b w : 0 <= w -> 0 <= b < 2 ^ w -> Z.land x b = Z.land (x mod 2 ^ w) b.
Proof.
  intros Hw Hb. rewrite <-Z.land_ones by done. rewrite <-Z.land_assoc. f_equal. rewrite Z.land_comm, Z.land_ones by done. by rewrite Z.mod_small.
Qed.
Lemma lxor_range x y w : 0 <= w -> 0 <= x < 2 ^ w -> 0 <= y < 2 ^ w -> 0 <= Z.lxor x y < 2 ^ w.
Proof.
  intros Hw Hx Hy. assert (H : Z.lxor x y = Z.lxor x y mod 2 ^ w).
  { rewrite <-Z.land_ones by done. apply Z.bits_inj'. intros i Hi. rewrite Z.land_spec, !Z.lxor_spec.
    destruct (Z.lt_ge_cases i w).
    - rewrite Z.ones_spec_low by lia. by rewrite andb_true_r.
    - rewrite Z.ones_spec_high by lia. rewrite andb_false_r.
      rewrite <-(Z.mod_small x (2 ^ w)), <-(Z.mod_small y (2 ^ w)) by done. rewrite !Z.mod_pow2_bits_high by lia. done. }
  rewrite H. apply Z.mod_pos_bound. lia.
Qed.
Lemma land_range x y w : 0 <= w -> 0 <= y < 2 ^ w -> 0 <= Z.land x y < 2 ^ w.
Proof.
  intros Hw Hy. rewrite (land_mod x y w) by done. assert (H : Z.land (x mod 2 ^ w) y = Z.land (x mod 2 ^ w) y mod 2 ^ w).
  { rewrite <-!Z.land_ones by done. rewrite <-!Z.land_assoc. f_equal. rewrite (Z.land_ones y) by done. by rewrite Z.mod_small. }
  rewrite H. apply Z.mod_pos_bound. lia.
Qed.
Lemma div_range x k w : 0 <= k -> 0 <= x < 2 ^ w -> 0 <= x / 2 ^ k < 2 ^ w.
Proof.
  intros Hk Hx. split; [apply Z.div_pos; lia|]. apply Z.le_lt_trans with x; [|lia]. apply Z.div_le_upper_bound; [lia|]. nia.
Qed.

Section mt.
  Context (P : mt_params) (OK : mt_ok P).
  Notation t := (mt_t P). Notation n := (mt_n P). Notation w := (mt_w P). Notation r := (mt_r P).
  Definition stepf : list Z -> list Z * Z :=
    mt_step w n (mt_m P) r (mt_a P) (mt_u P) (mt_d P) (mt_s P) (mt_b P) (mt_tt P) (mt_c P) (mt_l P).
  Definition twist : list Z -> Z := mt_twist n (mt_m P) r (mt_a P).
  Lemma mo_sg : sg t = false. Proof. by destruct OK as [[->|[->| ->]] _ _ _ _ _]. Qed.
  Lemma mo_wd : 16 <= wd t <= 64. Proof. destruct OK as [[->|[->| ->]] _ _ _ _ _]; cbn [wd u16 u32 u64]; lia. Qed.
  Lemma mo_pow : 2 ^ w <= 2 ^ wd t /\ 8 <= 2 ^ w.
  Proof. destruct OK as [_ Hw _ _ _ _]. split; [apply Z.pow_le_mono_r; lia|]. change 8 with (2 ^ 3). apply Z.pow_le_mono_r; lia. Qed.
  Lemma WMSK_val : WMSK P = 2 ^ w - 1.
  Proof.
    pose proof mo_sg as Hs. pose proof mo_wd. destruct mo_pow as [Hp1 Hp2]. destruct OK as [_ Hw _ _ _ _]. unfold WMSK. rewrite !cast_u by done.
    rewrite Z.mul_mod_idemp_l by lia. rewrite <-Z.mul_assoc, Z.mul_mod_idemp_l, Z.mul_assoc by lia. set (W := 2 ^ wd t) in *.
    assert (Hpw : 2 ^ w = 2 * 2 ^ (w - 1)) by (rewrite <-Z.pow_succ_r by lia; f_equal; lia).
    replace (Z.lnot 0 * 2 ^ (w - 1) * 2) with (- 2 ^ w) by (unfold Z.lnot; lia).
    unfold Z.lnot. destruct (decide (w = wd t)) as [E|E].
    - assert (HW : W = 2 ^ w) by (unfold W; by rewrite E). replace (- 2 ^ w) with (0 + (-1) * W) by lia. rewrite Z.mod_add, Z.mod_0_l by lia.
      change (Z.pred (- 0)) with (-1). rewrite <-(Z.mod_add (-1) 1 W) by lia. rewrite Z.mod_small; lia.
    - assert (2 ^ w < W) by (apply Z.pow_lt_mono_r; lia). replace (- 2 ^ w) with ((W - 2 ^ w) + (-1) * W) by lia. rewrite Z.mod_add by lia.
      rewrite (Z.mod_small (W - 2 ^ w)) by lia. replace (Z.pred (- (W - 2 ^ w))) with (2 ^ w - 1 + (-1) * W) by lia. rewrite Z.mod_add by lia. apply Z.mod_small. lia.
  Qed.
  Lemma land_WMSK x : Z.land x (WMSK P) = x mod 2 ^ w.
  Proof. destruct OK as [_ Hw _ _ _ _]. rewrite WMSK_val. rewrite <-Z.land_ones by lia. by rewrite Z.ones_equiv, <-Z.sub_1_r. Qed.
  Lemma WMSK_bit i : 0 <= i -> Z.testbit (WMSK P) i = bool_decide (i < w).
  Proof.
    intros Hi. destruct OK as [_ Hw _ _ _ _]. rewrite WMSK_val, Z.sub_1_r, <-Z.ones_equiv. case_bool_decide.
    - by apply Z.ones_spec_low. - apply Z.ones_spec_high. lia.
  Qed.
  Lemma HMSK_bit i : 0 <= i -> Z.testbit (HMSK P) i = bool_decide (r <= i < w).
  Proof.
    intros Hi. pose proof mo_sg. pose proof mo_wd. destruct OK as [_ Hw _ Hr _ _]. unfold HMSK. rewrite Z.land_spec, WMSK_bit by done. rewrite cast_u by done.
    destruct (Z.lt_ge_cases i w); [|rewrite (bool_decide_false (i < w)), andb_false_r, bool_decide_false by lia; done].
    rewrite (bool_decide_true (i < w)), andb_true_r by lia. rewrite Z.mod_pow2_bits_low by lia. rewrite <-Z.shiftl_mul_pow2 by lia.
    destruct (Z.lt_ge_cases i r).
    - rewrite Z.shiftl_spec_low by lia. rewrite bool_decide_false by lia. done.
    - rewrite Z.shiftl_spec by lia. rewrite WMSK_bit by lia. apply bool_decide_ext. lia.
  Qed.
  Lemma LMSK_bit i : 0 <= i -> Z.testbit (LMSK P) i = bool_decide (i < r).
  Proof.
    intros Hi. pose proof mo_sg. pose proof mo_wd. destruct OK as [_ Hw _ Hr _ _]. unfold LMSK. rewrite Z.land_spec, WMSK_bit by done. rewrite cast_u by done.
    destruct (Z.lt_ge_cases i w); [|rewrite (bool_decide_false (i < w)), andb_false_r, bool_decide_false by lia; done].
    rewrite (bool_decide_true (i < w)), andb_true_r by lia. rewrite Z.mod_pow2_bits_low by lia. rewrite Z.lnot_spec by lia. rewrite HMSK_bit by lia.
    destruct (Z.lt_ge_cases i r); [rewrite bool_decide_false, bool_decide_true by lia|rewrite bool_decide_true, bool_decide_false by lia]; done.
  Qed.
  Lemma tmp_ok x y : 0 <= x < 2 ^ w -> Z.lor (Z.land x (HMSK P)) (Z.land y (LMSK P)) = x / 2 ^ r * 2 ^ r + y mod 2 ^ r.
  Proof.
    intros Hx. destruct OK as [_ Hw _ Hr _ _].
    assert (E1 : Z.land x (HMSK P) = x / 2 ^ r * 2 ^ r).
    { apply Z.bits_inj'. intros i Hi. rewrite Z.land_spec, HMSK_bit by done. rewrite <-Z.shiftl_mul_pow2, <-Z.shiftr_div_pow2 by lia.
      destruct (Z.lt_ge_cases i r).
      - rewrite bool_decide_false by lia. rewrite Z.shiftl_spec_low by lia. by rewrite andb_false_r.
      - rewrite Z.shiftl_spec, Z.shiftr_spec by lia. replace (i - r + r) with i by lia. destruct (Z.lt_ge_cases i w).
        + rewrite bool_decide_true by lia. by rewrite andb_true_r.
        + rewrite <-(Z.mod_small x (2 ^ w)) by done. rewrite Z.mod_pow2_bits_high by lia. done. }
    assert (E2 : Z.land y (LMSK P) = y mod 2 ^ r).
    { apply Z.bits_inj'. intros i Hi. rewrite Z.land_spec, LMSK_bit by done. destruct (Z.lt_ge_cases i r).
      - rewrite bool_decide_true by lia. rewrite Z.mod_pow2_bits_low by lia. by rewrite andb_true_r.
      - rewrite bool_decide_false by lia. rewrite Z.mod_pow2_bits_high by lia. by rewrite andb_false_r. }
    rewrite E1, E2. apply Int128Proofs.lor_join; [lia|]. apply Z.mod_pos_bound. lia.
  Qed.

  Definition inr (x : Z) : Prop := 0 <= x < 2 ^ w.
  Definition good (h : list Z) : Prop := length h = n /\ Forall inr h.
  Lemma n_pos : (0 < n)%nat. Proof. destruct OK as [_ _ Hm _ _ _]. lia. Qed.
  Lemma good_el h i : good h -> (i < n)%nat -> h !! i = Some (el h i) /\ inr (el h i).
  Proof.
    intros [Hl Hf] Hi. destruct (lookup_lt_is_Some_2 h i) as [x Hx]; [by rewrite Hl|]. unfold el. rewrite Hx. cbn. split; [done|].
    rewrite list.Forall_lookup in Hf. by apply (Hf i).
  Qed.
  Lemma one_lt : (One_mod_n P < n)%nat. Proof. apply Nat.mod_upper_bound. pose proof n_pos. lia. Qed.
  Lemma m_lt : (M_mod_n P < n)%nat. Proof. apply Nat.mod_upper_bound. pose proof n_pos. lia. Qed.
  Lemma twist_range h : good h -> inr (twist h).
  Proof.
    intros Hg. destruct (good_el h 0 Hg n_pos) as [_ R0]. destruct (good_el h _ Hg one_lt) as [_ R1]. destruct (good_el h _ Hg m_lt) as [_ R2].
    unfold One_mod_n, M_mod_n in *. pose proof OK as [_ Hw _ Hr _ Hm]. apply list.Forall_cons in Hm as [Ha _].
    unfold twist, mt_twist. cbv zeta.
    set (y := el h 0 / 2 ^ r * 2 ^ r + el h (1 `mod` n) mod 2 ^ r).
    assert (Hy : 0 <= y < 2 ^ w).
    { unfold y. unfold inr in *. pose proof (Z.mod_pos_bound (el h (1 `mod` n)) (2 ^ r) ltac:(lia)).
      assert (Hq : 0 <= el h 0 / 2 ^ r < 2 ^ (w - r)). { split; [apply Z.div_pos; lia|]. apply Z.div_lt_upper_bound; [lia|]. rewrite <-Z.pow_add_r by lia. replace (r + (w - r)) with w by lia. lia. }
      assert (2 ^ w = 2 ^ (w - r) * 2 ^ r) by (rewrite <-Z.pow_add_r by lia; f_equal; lia). nia. }
    apply lxor_range; [lia| |].
    - apply lxor_range; [lia|done|]. apply (div_range y 1 w); [lia|done].
    - destruct (Z.odd y); [done|]. unfold inr. lia.
  Qed.
  Lemma good_step h : good h -> good (tail h ++ [twist h]).
  Proof.
    intros Hg. pose proof (twist_range h Hg). destruct Hg as [Hl Hf]. pose proof n_pos. split.
    - rewrite app_length. destruct h; cbn in *; lia.
    - apply Forall_app. split; [by apply list.Forall_tail|]. constructor; [done|constructor].
  Qed.
  Fixpoint itr (k : nat) (h : list Z) : list Z := match k with O => h | S k => let h := itr k h in tail h ++ [twist h] end.
  Fixpoint ext (k : nat) (h : list Z) : list Z := match k with O => h | S k => ext k h ++ [twist (drop k (ext k h))] end.
  Lemma itr_good k h : good h -> good (itr k h).
  Proof. intros H. induction k as [|k IH]; [done|]. cbn [itr]. by apply good_step. Qed.
  Lemma ext_len k h : good h -> length (ext k h) = (n + k)%nat.
  Proof. intros [H _]. induction k as [|k IH]; cbn [ext]; [lia|]. rewrite app_length, IH. cbn. lia. Qed.
  Lemma ext_drop k h : good h -> drop k (ext k h) = itr k h.
  Proof.
    intros H. induction k as [|k IH]; cbn [ext itr]; [done|]. rewrite drop_app_le by (rewrite ext_len by done; pose proof n_pos; lia).
    rewrite <-IH. f_equal. destruct (drop k (ext k h)) as [|x l] eqn:E.
    - assert (length (drop k (ext k h)) = 0%nat) by (by rewrite E). rewrite drop_length, ext_len in H0 by done. pose proof n_pos. lia.
    - replace (S k) with (k + 1)%nat by lia. rewrite <-drop_drop, E. done.
  Qed.
  Lemma ext_prefix k j h i : (i < n + k)%nat -> good h -> ext (k + j) h !! i = ext k h !! i.
  Proof.
    intros Hi H. induction j as [|j IH]; [by rewrite Nat.add_0_r|]. rewrite Nat.add_succ_r. cbn [ext]. rewrite lookup_app_l; [done|].
    rewrite ext_len by done. lia.
  Qed.
  Lemma ext_itr k m h i : good h -> (k <= m)%nat -> (i < n)%nat -> ext m h !! (k + i)%nat = itr k h !! i.
  Proof.
    intros H Hk Hi. replace m with (k + (m - k))%nat by lia. rewrite ext_prefix by (done || lia). rewrite <-ext_drop by done. by rewrite lookup_drop.
  Qed.
  Lemma ext_new k m h : good h -> (k < m)%nat -> ext m h !! (n + k)%nat = Some (twist (itr k h)).
  Proof.
    intros H Hk. replace m with (S k + (m - S k))%nat by lia. rewrite ext_prefix by (done || lia). cbn [ext]. rewrite lookup_app_r by (rewrite ext_len by done; lia).
    rewrite ext_len, Nat.sub_diag by done. cbn. by rewrite ext_drop.
  Qed.

  Lemma refill1_ok a o i i1 im g : good g -> (o < length a)%nat -> a !! i = Some (Some (el g 0)) -> a !! i1 = Some (Some (el g (One_mod_n P))) ->
    a !! im = Some (Some (el g (M_mod_n P))) -> refill1 P a o i i1 im = Ok (<[o := Some (twist g)]> a).
  Proof.
    intros Hg Ho H1 H2 H3. unfold refill1. rewrite (rdc_ok _ _ _ H1), rbind_ok, (rdc_ok _ _ _ H2), rbind_ok, (rdc_ok _ _ _ H3), rbind_ok.
    cbv zeta. rewrite tmp_ok by apply (good_el g 0 Hg n_pos). rewrite wrc_ok by done. do 3 f_equal. unfold twist, mt_twist, One_mod_n, M_mod_n. cbv zeta.
    rewrite Z.lxor_comm, <-Z.lxor_assoc. done.
  Qed.
  (** logical position -> cell, when the upper half is the older one *)
  Definition phys (q : nat) : nat := if (q <? n)%nat then (q + n)%nat else (q - n)%nat.
  Definition pcells (f : nat -> nat) (a : list (option Z)) (xs : list Z) : Prop :=
    length a = (2 * n)%nat /\ forall q x, xs !! q = Some x -> a !! f q = Some (Some x).
  (** one round of a refill, with the cells addressed through [f] *)
  Lemma refill_round f a h j o i i1 im : good h -> (j < n)%nat -> (forall p q, p < 2 * n -> q < 2 * n -> f p = f q -> p = q)%nat ->
    (f (n + j) < 2 * n)%nat -> pcells f a (ext j h) -> o = f (n + j)%nat -> i = f j -> i1 = f (j + One_mod_n P)%nat -> im = f (j + M_mod_n P)%nat ->
    wp (refill1 P a o i i1 im) (fun a' => pcells f a' (ext (S j) h)).
  Proof.
    intros Hg Hj Hinj Hf [Hl Hc] -> -> -> ->. pose proof one_lt. pose proof m_lt. pose proof n_pos.
    assert (Hel : forall d, (d < n)%nat -> ext j h !! (j + d)%nat = Some (el (itr j h) d)).
    { intros d Hd. rewrite ext_itr by (done || lia). by apply good_el; [apply itr_good|]. }
    rewrite (refill1_ok a _ _ _ _ (itr j h)); [|by apply itr_good|lia| |by apply Hc, Hel|by apply Hc, Hel].
    2:{ apply Hc. pose proof (Hel 0%nat ltac:(lia)) as H00. by rewrite Nat.add_0_r in H00. }
    apply wp_ok. split; [by rewrite insert_length|]. intros q x Hq. cbn [ext] in Hq. rewrite ext_drop in Hq by done.
    apply lookup_app_Some in Hq as [Hq|[Hge Hq]].
    - pose proof (lookup_lt_Some _ _ _ Hq) as Hlt. rewrite ext_len in Hlt by done. rewrite list_lookup_insert_ne; [by apply Hc|].
      intros E. apply Hinj in E; lia.
    - rewrite ext_len in Hge, Hq by done. pose proof (lookup_lt_Some _ _ _ Hq) as Hlt. cbn in Hlt. replace (q - (n + j))%nat with 0%nat in Hq by lia. cbn in Hq.
      injection Hq as <-. replace q with (n + j)%nat by lia. apply list_lookup_insert. lia.
  Qed.
  Lemma Refill_upper_ok b h : good h -> pcells (fun q => q) (ax b) h ->
    wp (Refill_upper P b) (fun b' => idx b' = idx b /\ pcells (fun q => q) (ax b') (ext n h)).
  Proof.
    intros Hg Hc. unfold Refill_upper. apply wp_bind.
    eapply wp_mono; [apply (fori_inv (fun i a => pcells (fun q => q) a (ext (i - n) h)))|].
    - intros j a Hj Ha. replace (S j - n)%nat with (S (j - n)) by lia.
      apply (refill_round (fun q => q) a h (j - n)); try done; lia.
    - by rewrite Nat.sub_diag.
    - intros a Ha. apply wp_ok. split; [done|]. by replace (n + n - n)%nat with n in Ha by lia.
  Qed.
  Lemma phys_inj p q : (p < 2 * n -> q < 2 * n -> phys p = phys q -> p = q)%nat.
  Proof. unfold phys. destruct (Nat.ltb_spec p n), (Nat.ltb_spec q n); lia. Qed.
  Lemma Refill_lower_ok b h : good h -> pcells phys (ax b) h ->
    wp (Refill_lower P b) (fun b' => idx b' = 0%nat /\ pcells phys (ax b') (ext n h)).
  Proof.
    intros Hg Hc. pose proof one_lt as H1. pose proof m_lt as Hm. pose proof n_pos as Hn. unfold Refill_lower. cbv zeta. apply wp_bind.
    apply wp_mono with (Q := fun a => pcells phys a (ext n h)); [|intros a Ha; by apply wp_ok].
    assert (Hone : (One_mod_n P = 0 /\ n = 1 \/ One_mod_n P = 1 /\ 2 <= n)%nat).
    { unfold One_mod_n. destruct (decide (n = 1%nat)) as [->|]; [by left|]. right. rewrite Nat.mod_small by lia. lia. }
    set (O1 := One_mod_n P) in *. set (M1 := M_mod_n P) in *.
    assert (Hround : forall a j i1 im, (j < n)%nat -> pcells phys a (ext j h) -> i1 = phys (j + O1) -> im = phys (j + M1) ->
      wp (refill1 P a j (j + n) i1 im) (fun a' => pcells phys a' (ext (S j) h))).
    { intros a j i1 im Hj Ha -> ->. apply (refill_round phys a h j); try done.
      - intros p q Hp Hq. by apply phys_inj.
      - unfold phys. rewrite (proj2 (Nat.ltb_ge (n + j) n)) by lia. lia.
      - unfold phys. rewrite (proj2 (Nat.ltb_ge (n + j) n)) by lia. lia.
      - unfold phys. rewrite (proj2 (Nat.ltb_lt j n)) by lia. lia. }
    assert (Hlast : forall a im, pcells phys a (ext (n - O1) h) -> (O1 = 1%nat -> im = phys (n - O1 + M1)) ->
      wp (if (O1 =? 1)%nat then refill1 P a (n - O1) (n - O1 + n) (n - O1 + O1 - n) im else Ok a) (fun a' => pcells phys a' (ext n h))).
    { intros a im Ha Him. destruct (Nat.eqb_spec O1 1) as [E|E].
      - assert (En : S (n - O1) = n) by lia. eapply wp_mono; [apply (Hround a (n - O1)%nat); [lia|done| |by apply Him]|intros a' Ha'; by rewrite En in Ha'].
        unfold phys. rewrite (proj2 (Nat.ltb_ge (n - O1 + O1) n)) by lia. lia.
      - apply wp_ok. assert (En : (n - O1)%nat = n) by lia. by rewrite En in Ha. }
    destruct (Nat.eqb_spec M1 0) as [EM|EM].
    - apply wp_bind. eapply wp_mono; [apply (fori_inv (fun i a => pcells phys a (ext i h)))|].
      + intros j a Hj Ha. apply Hround; [lia|done| |]; unfold phys; rewrite (proj2 (Nat.ltb_lt _ n)) by lia; lia.
      + done.
      + intros a Ha. rewrite Nat.add_0_l in Ha. apply Hlast; [done|]. intros E. unfold phys. rewrite (proj2 (Nat.ltb_lt _ n)) by lia. lia.
    - apply wp_bind. eapply wp_mono; [apply (fori_inv (fun i a => pcells phys a (ext i h)))|].
      + intros j a Hj Ha. apply Hround; [lia|done| |]; unfold phys; rewrite (proj2 (Nat.ltb_lt _ n)) by lia; lia.
      + done.
      + intros a Ha. rewrite Nat.add_0_l in Ha. apply wp_bind.
        eapply wp_mono; [apply (fori_inv (fun i a => pcells phys a (ext i h)))|].
        * intros j a' Hj Ha'. apply Hround; [lia|done| |]; unfold phys; [rewrite (proj2 (Nat.ltb_lt _ n)) by lia|rewrite (proj2 (Nat.ltb_ge _ n)) by lia]; lia.
        * done.
        * intros a' Ha'. replace (n - M1 + (n - O1 - (n - M1)))%nat with (n - O1)%nat in Ha' by lia. apply Hlast; [done|].
          intros E. unfold phys. rewrite (proj2 (Nat.ltb_ge _ n)) by lia. lia.
  Qed.

  (** the engine holds the history [h] *)
  Inductive mt_inv (b : cbuf) (h : list Z) : Prop :=
  | MI_upper hb k : good hb -> (k <= n)%nat -> h = itr k hb -> idx b = (n + k)%nat ->
      pcells (fun q => q) (ax b) (ext (if decide (k = 0) then 0 else n)%nat hb) -> mt_inv b h
  | MI_lower hb k : good hb -> (0 < k < n)%nat -> h = itr k hb -> idx b = k -> pcells phys (ax b) (ext n hb) -> mt_inv b h.
  Lemma mt_inv_good b h : mt_inv b h -> good h.
  Proof. intros [hb k Hg _ -> _ _|hb k Hg _ -> _ _]; by apply itr_good. Qed.
  Lemma mt_hist b h : mt_inv b h -> hist n b h.
  Proof.
    intros H. pose proof (mt_inv_good b h H) as [Hl _]. pose proof n_pos.
    destruct H as [hb k Hg Hk -> Hi [Ha Hc]|hb k Hg Hk -> Hi [Ha Hc]].
    - split; [done|done|lia|]. intros i x Hx. pose proof (lookup_lt_Some _ _ _ Hx) as Hlt. rewrite Base_hi by lia. rewrite Hi. replace (i + (n + k) - n)%nat with (k + i)%nat by lia.
      apply Hc. destruct (decide (k = 0%nat)) as [->|]; [done|]. rewrite ext_itr by (done || lia). done.
    - split; [done|done|lia|]. intros i x Hx. pose proof (lookup_lt_Some _ _ _ Hx) as Hlt. assert (E : Base n b i = phys (k + i)).
      { unfold Base, phys. rewrite Hi. rewrite (Nat.add_comm k i). done. }
      rewrite E. apply Hc. rewrite ext_itr by (done || lia). done.
  Qed.
  Lemma inv_lower_next a hb k : good hb -> (k < n)%nat -> pcells phys a (ext n hb) -> mt_inv (CBuf (S k) a) (itr (S k) hb).
  Proof.
    intros Hg Hk Hc. destruct (decide (S k = n)) as [E|E].
    - apply (MI_upper _ _ (itr n hb) 0); [by apply itr_good|lia|by rewrite <-E|cbn [idx]; lia|]. rewrite decide_True by done. cbn [ext ax].
      destruct Hc as [Hl Hc]. split; [done|]. intros q x Hq. pose proof (lookup_lt_Some _ _ _ Hq) as Hlt. destruct (itr_good n hb Hg) as [Hlen _]. rewrite Hlen in Hlt.
      replace q with (phys (n + q)) by (unfold phys; rewrite (proj2 (Nat.ltb_ge (n + q) n)) by lia; lia). apply Hc. by rewrite ext_itr.
    - apply (MI_lower _ _ hb (S k)); [done|lia|done|done|done].
  Qed.
  Lemma itr_step h : good h -> (stepf h).1 = tail h ++ [twist h]. Proof. done. Qed.

  Lemma temper_ok x : inr x ->
    (h <~ shr t (Z.land x (WMSK P)) (mt_u P) ;; let res := cast t (Z.lxor (Z.land x (WMSK P)) (Z.land h (mt_d P))) in
     h <~ shl t res (mt_s P) ;; let res := cast t (Z.lxor res (Z.land h (mt_b P))) in
     h <~ shl t res (mt_tt P) ;; let res := cast t (Z.lxor res (Z.land h (mt_c P))) in
     h <~ shr t (Z.land res (WMSK P)) (mt_l P) ;; Ok (cast t (Z.lxor res h)))
    = Ok (mt_temper w (mt_u P) (mt_d P) (mt_s P) (mt_b P) (mt_tt P) (mt_c P) (mt_l P) x).
  Proof.
    intros Hx. pose proof mo_sg as Hs. destruct mo_pow as [Hp _]. pose proof OK as [_ Hw _ _ Hsh Hm].
    apply list.Forall_cons in Hm as [_ Hm]. apply list.Forall_cons in Hm as [Hd Hm]. apply list.Forall_cons in Hm as [Hb Hm]. apply list.Forall_cons in Hm as [Hc _].
    apply list.Forall_cons in Hsh as [Hu Hsh]. apply list.Forall_cons in Hsh as [Hss Hsh]. apply list.Forall_cons in Hsh as [Htt Hsh]. apply list.Forall_cons in Hsh as [Hll _].
    assert (Hpw : w <= wd (promote t)). { unfold promote. destruct (Z.ltb_spec (wd t) 32); cbn [wd s32]; lia. }
    assert (Hshr : forall y k, 0 <= k < wd (promote t) -> shr t y k = Ok (y / 2 ^ k)) by (intros y k Hk; unfold shr; by rewrite decide_True).
    assert (Hshl : forall y k m, 0 <= k < wd (promote t) -> 0 <= m < 2 ^ w -> exists z, shl t y k = Ok z /\ Z.land z m = Z.land (lshift_w w y k) m).
    { intros y k m Hk Hm'. unfold shl. rewrite decide_True by done. eexists. split; [reflexivity|]. rewrite (land_mod _ m w) by (done || lia). unfold lshift_w. f_equal.
      rewrite <-(mod_mod_pow _ w (wd (promote t))) by lia. destruct (cast_mod (promote t) (y * 2 ^ k) ltac:(lia)) as [j ->]. rewrite Z.mod_add by lia. apply mod_mod_pow. lia. }
    assert (Hcs : forall y, inr y -> cast t y = y) by (intros y Hy; apply cast_small; [done|unfold inr in Hy; lia]).
    unfold mt_temper. rewrite !land_WMSK. rewrite (Z.mod_small x) by done. rewrite Hshr by lia. rewrite rbind_ok. cbv zeta.
    set (z1 := Z.lxor x (Z.land (x / 2 ^ mt_u P) (mt_d P))).
    assert (R1 : inr z1) by (apply lxor_range; [lia|done|apply land_range; [lia|done]]). rewrite (Hcs z1 R1).
    destruct (Hshl z1 (mt_s P) (mt_b P)) as (q & -> & E1); [lia|done|]. rewrite rbind_ok. rewrite E1.
    set (z2 := Z.lxor z1 (Z.land (lshift_w w z1 (mt_s P)) (mt_b P))).
    assert (R2 : inr z2) by (apply lxor_range; [lia|done|apply land_range; [lia|done]]). rewrite (Hcs z2 R2).
    destruct (Hshl z2 (mt_tt P) (mt_c P)) as (q2 & -> & E2); [lia|done|]. rewrite rbind_ok. rewrite E2.
    set (z3 := Z.lxor z2 (Z.land (lshift_w w z2 (mt_tt P)) (mt_c P))).
    assert (R3 : inr z3) by (apply lxor_range; [lia|done|apply land_range; [lia|done]]). rewrite (Hcs z3 R3).
    rewrite land_WMSK, (Z.mod_small z3) by done. rewrite Hshr by lia. rewrite rbind_ok. f_equal. apply Hcs. apply lxor_range; [lia|done|]. apply div_range; [lia|done].
  Qed.
  Lemma mt_next_ok b h : mt_inv b h -> exists b', mt_next P b = Ok (b', (stepf h).2) /\ mt_inv b' (stepf h).1.
  Proof.
    intros Hinv. pose proof (mt_inv_good b h Hinv) as Hgh. pose proof n_pos as Hn.
    assert (Hpre : exists b1, (if (idx b =? n)%nat then Refill_upper P b else if (2 * n <=? idx b)%nat then Refill_lower P b else Ok b) = Ok b1 /\
      ax b1 !! idx b1 = Some (Some (twist h)) /\ mt_inv (CBuf (S (idx b1)) (ax b1)) (tail h ++ [twist h])).
    { destruct Hinv as [hb k Hg Hk -> Hi Hc|hb k Hg Hk -> Hi Hc].
      - destruct (decide (k = 0%nat)) as [->|Hk0].
        + rewrite (proj2 (Nat.eqb_eq (idx b) n)) by lia. cbn [ext] in Hc. destruct (wp_exists _ _ (Refill_upper_ok b hb Hg Hc)) as (b1 & -> & Hi1 & Hc1).
          exists b1. split; [done|]. split; [rewrite Hi1, Hi; apply Hc1; by apply (ext_new 0)|].
          apply (MI_upper _ _ hb 1); [done|lia|done|cbn [idx]; lia|]. rewrite decide_False by lia. done.
        + rewrite (proj2 (Nat.eqb_neq (idx b) n)) by lia. destruct (decide (k = n)) as [->|Hkn].
          * rewrite (proj2 (Nat.leb_le (2 * n) (idx b))) by lia. set (h' := itr n hb) in *.
            assert (Hc' : pcells phys (ax b) h').
            { destruct Hc as [Hl Hc]. split; [done|]. intros q x Hq. pose proof (lookup_lt_Some _ _ _ Hq) as Hlt. rewrite (proj1 Hgh) in Hlt.
              unfold phys. rewrite (proj2 (Nat.ltb_lt q n)) by lia. apply Hc. rewrite Nat.add_comm. rewrite ext_itr by (done || lia). done. }
            destruct (wp_exists _ _ (Refill_lower_ok b h' Hgh Hc')) as (b1 & -> & Hi1 & Hc1). exists b1. split; [done|]. rewrite Hi1. split.
            -- replace 0%nat with (phys (n + 0)) by (unfold phys; rewrite (proj2 (Nat.ltb_ge (n + 0) n)) by lia; lia). apply Hc1. by apply (ext_new 0).
            -- by apply (inv_lower_next _ h' 0).
          * rewrite (proj2 (Nat.leb_gt (2 * n) (idx b))) by lia. exists b. split; [done|]. rewrite Hi. split.
            -- apply Hc. apply ext_new; [done|lia].
            -- apply (MI_upper _ _ hb (S k)); [done|lia|done|cbn [idx]; lia|]. rewrite decide_False by lia. done.
      - rewrite (proj2 (Nat.eqb_neq (idx b) n)) by lia. rewrite (proj2 (Nat.leb_gt (2 * n) (idx b))) by lia. exists b. split; [done|]. rewrite Hi. split.
        + replace k with (phys (n + k)) at 1 by (unfold phys; rewrite (proj2 (Nat.ltb_ge (n + k) n)) by lia; lia). apply Hc. apply ext_new; [done|lia].
        + apply (inv_lower_next _ hb k); [done|lia|done]. }
    destruct Hpre as (b1 & E & Hx & Hinv'). unfold mt_next. rewrite E, rbind_ok. rewrite (rdc_ok _ _ _ Hx), rbind_ok. cbv zeta.
    pose proof (temper_ok (twist h) (twist_range h Hgh)) as HT. cbv zeta in HT.
    exists (CBuf (S (idx b1)) (ax b1)). split; [|done].
    revert HT. destruct (shr t (Z.land (twist h) (WMSK P)) (mt_u P)) as [z1| |]; [|done|done]. rewrite !rbind_ok.
    match goal with |- rbind ?X _ = _ -> _ => destruct X as [z2| |] end; [|done|done]. rewrite !rbind_ok.
    match goal with |- rbind ?X _ = _ -> _ => destruct X as [z3| |] end; [|done|done]. rewrite !rbind_ok.
    match goal with |- rbind ?X _ = _ -> _ => destruct X as [z4| |] end; [|done|done]. rewrite !rbind_ok.
    intros HT.
    injection HT as HT. unfold stepf, mt_step. cbn [snd]. fold twist. by rewrite HT.
  Qed.
  Lemma mt_calls_ok k : forall b h, mt_inv b h ->
    exists b', calls (mt_next P) k b = Ok ((outputs stepf k h).1, b') /\ mt_inv b' (outputs stepf k h).2.
  Proof.
    induction k as [|k IH]; intros b h H; cbn [calls outputs]; [eauto|].
    destruct (mt_next_ok b h H) as (b1 & -> & H1). rewrite rbind_ok. destruct (stepf h) as [h1 v]. cbn [fst snd] in *.
    destruct (IH b1 h1 H1) as (b2 & -> & H2). rewrite rbind_ok. destruct (outputs stepf k h1) as [l h2]. cbn [fst snd] in *. eauto.
  Qed.
  Lemma mt_eq_ok x y hx hy : mt_inv x hx -> mt_inv y hy -> mt_eq P x y = Ok (bool_decide (hx = hy)).
  Proof. intros Hx Hy. apply (Equals_ok n n_pos); by apply mt_hist. Qed.
  Lemma mt_lower a h : good h -> length a = (2 * n)%nat -> cells a 0 h -> mt_inv (CBuf n a) h.
  Proof. intros Hg Ha Hc. apply (MI_upper _ _ h 0); [done|lia|done|cbn [idx]; lia|]. rewrite decide_True by done. split; [done|]. exact Hc. Qed.
  Lemma mt_restore_ok x y hx hy : mt_inv x hx -> mt_inv y hy -> save n x = Ok hx /\ mt_inv (mt_restore P hx y) hx.
  Proof.
    intros Hx Hy. pose proof (mt_inv_good _ _ Hx) as Hg. split; [apply (save_ok n n_pos), (mt_hist _ _ Hx)|]. unfold mt_restore.
    assert (E : (fun v => Z.land v (WMSK P)) <$> hx = hx).
    { destruct Hg as [_ Hf]. clear -Hf OK. induction Hf as [|v l Hv Hf IH]; [done|]. rewrite fmap_cons, IH. rewrite land_WMSK. rewrite Z.mod_small by exact Hv. done. }
    rewrite E. unfold restore. destruct Hg as [Hl Hf]. apply mt_lower; [done| |].
    - rewrite app_length, fmap_length, drop_length, (h_ax _ _ _ (mt_hist _ _ Hy)). lia.
    - intros q v Hq. cbn [Nat.add]. rewrite lookup_app_l by (rewrite fmap_length; by apply lookup_lt_Some in Hq). by rewrite list_lookup_fmap, Hq.
  Qed.
End mt.
