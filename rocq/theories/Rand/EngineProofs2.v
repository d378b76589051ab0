(** subtract_with_carry_engine refines the recurrence of the standard. *)
From stdpp Require Import base list list_numbers numbers.
From Coq Require Import ZArith Lia.
From Verif Require Num.Int128Proofs.
From Verif Require Import Base.Res Base.Int Rand.LcgModel Rand.LcgSpec Rand.LcgProofs Rand.EngineModel Rand.EngineSpec Rand.EngineProofs.
Local Open Scope Z_scope.

Lemma fori_inv {S : Type} (I : nat -> S -> Prop) (body : S -> nat -> res S) cnt : forall i a,
  (forall j a, (i <= j < i + cnt)%nat -> I j a -> wp (body a j) (I (Datatypes.S j))) -> I i a -> wp (fori cnt i body a) (I (i + cnt)%nat).
Proof.
  induction cnt as [|cnt IH]; intros i a Hb Ha; cbn [fori]; [by rewrite Nat.add_0_r|].
  apply wp_bind. eapply wp_mono; [apply Hb; [lia|done]|]. intros a' Ha'. rewrite <-Nat.add_succ_comm. apply IH; [|done].
  intros j b Hj. apply Hb. lia.
Qed.
Lemma outputs_len {S R} (step : S -> S * R) k s : length (outputs step k s).1 = k.
Proof.
  revert s. induction k as [|k IH]; intros s; [done|]. cbn [outputs]. destruct (step s) as [s1 v]. specialize (IH s1).
  destruct (outputs step k s1) as [l s2]. cbn in *. by rewrite IH.
Qed.
Lemma outputs_app {S R} (step : S -> S * R) i k s :
  outputs step (i + k) s = ((outputs step i s).1 ++ (outputs step k (outputs step i s).2).1, (outputs step k (outputs step i s).2).2).
Proof.
  revert s. induction i as [|i IH]; intros s; cbn [outputs Nat.add]; [apply surjective_pairing|].
  destruct (step s) as [s1 v]. rewrite IH. destruct (outputs step i s1) as [l s2]. cbn [fst snd]. done.
Qed.
Lemma outputs_slice {S R} (step : S -> S * R) i k N s : (i + k <= N)%nat ->
  (outputs step k (outputs step i s).2).1 = take k (drop i (outputs step N s).1).
Proof.
  intros H. replace N with (i + (k + (N - i - k)))%nat by lia. rewrite outputs_app. cbn [fst].
  rewrite drop_app_alt by (by rewrite outputs_len). rewrite outputs_app. cbn [fst]. by rewrite take_app_alt by (by rewrite outputs_len).
Qed.
Lemma outputs_Forall {S R} (step : S -> S * R) (I : S -> Prop) (Q : R -> Prop) k s :
  (forall s, I s -> I (step s).1 /\ Q (step s).2) -> I s -> Forall Q (outputs step k s).1 /\ I (outputs step k s).2.
Proof.
  intros Hs. revert s. induction k as [|k IH]; intros s Hi; cbn [outputs]; [split; [constructor|done]|].
  destruct (Hs s Hi) as [H1 H2]. destruct (step s) as [s1 v]. cbn in H1, H2. destruct (IH s1 H1) as [H3 H4]. destruct (outputs step k s1) as [l s2].
  cbn in *. split; [by constructor|done].
Qed.

Lemma big_range ws : Forall (fun z => 0 <= z < 2 ^ 32) ws -> 0 <= big ws < 2 ^ (32 * Z.of_nat (length ws)).
Proof.
  induction 1 as [|z ws Hz H IH]; [done|]. cbn [big length]. rewrite Nat2Z.inj_succ. replace (32 * Z.succ (Z.of_nat (length ws))) with (32 + 32 * Z.of_nat (length ws)) by lia.
  rewrite Z.pow_add_r by lia. nia.
Qed.
Lemma groups_len w k cnt ws : length (groups w k cnt ws) = cnt.
Proof. revert ws. induction cnt as [|cnt IH]; intros ws; [done|]. cbn. by rewrite IH. Qed.
Lemma groups_lookup w k cnt ws i : (i < cnt)%nat -> groups w k cnt ws !! i = Some (big (take k (drop (i * k) ws)) mod 2 ^ w).
Proof.
  revert cnt ws. induction i as [|i IH]; intros [|cnt] ws Hi; try lia; [done|]. cbn [groups].
  change ((big (take k ws) mod 2 ^ w :: groups w k cnt (drop k ws)) !! S i) with (groups w k cnt (drop k ws) !! i).
  rewrite IH by lia. by rewrite drop_drop.
Qed.
Lemma groups_range w k cnt ws : 0 <= w -> Forall (fun x => 0 <= x < 2 ^ w) (groups w k cnt ws).
Proof. intros Hw. revert ws. induction cnt as [|cnt IH]; intros ws; [constructor|]. constructor; [apply Z.mod_pos_bound; lia|apply IH]. Qed.
Lemma mod_mod_pow x w v : 0 <= w <= v -> (x mod 2 ^ v) mod 2 ^ w = x mod 2 ^ w.
Proof.
  intros H. replace v with (w + (v - w)) by lia. rewrite Z.pow_add_r by lia. rewrite Z.rem_mul_r by lia.
  rewrite Z.mul_comm, Z.mod_add by lia. by rewrite Z.mod_mod by lia.
Qed.

Lemma rdc_at a i j x : a !! j = Some (Some x) -> i = j -> rdc a i = Ok x.
Proof. intros H ->. by apply rdc_ok. Qed.
(** packing 32-bit words *)
Lemma pack_ok t k ws : t = u16 \/ t = u32 \/ t = u64 -> length ws = k -> (k = 1 \/ k = 2 /\ t = u64)%nat ->
  Forall (fun z => 0 <= z < 2 ^ 32) ws -> pack t k (fun j => default 0 (ws !! j)) = Ok (big ws mod 2 ^ wd t).
Proof.
  intros Ht Hl [->|[-> ->]] Hw.
  - destruct ws as [|z [|? ?]]; try done. unfold pack. cbn [Nat.sub fori default lookup list_lookup big]. f_equal.
    rewrite cast_u by (by destruct Ht as [->|[->| ->]]). f_equal. cbn. lia.
  - destruct ws as [|z [|z1 [|? ?]]]; try done. apply list.Forall_cons in Hw as [Hz Hw]. apply list.Forall_cons in Hw as [Hz1 _].
    unfold pack. change (2 - 1)%nat with 1%nat. cbn [fori]. change ([z; z1] !! 1%nat) with (Some z1). change ([z; z1] !! 0%nat) with (Some z).
    cbn [default]. unfold id. rewrite (cast_small u64 z), (cast_small u64 z1) by (done || (cbn [wd u64]; lia)).
    unfold shl. change (promote u64) with u64. change (32 * Z.of_nat 1) with 32.
    rewrite decide_True by (cbn [wd u64]; lia). rewrite rbind_ok.
    rewrite (cast_small u64 (z1 * 2 ^ 32)) by (done || (cbn [wd u64]; lia)).
    rewrite Int128Proofs.lor_join' by lia. rewrite rbind_ok. f_equal. rewrite cast_u by done. f_equal. cbn [big]. lia.
Qed.

Section swc.
  Context (t : ity) (w : Z) (s r : nat) (SP : swc_params t w s r).
  Lemma sp_sg : sg t = false. Proof. by destruct SP as [[->|[->| ->]] _ _]. Qed.
  Lemma sp_wd : 16 <= wd t <= 64. Proof. destruct SP as [[->|[->| ->]] _ _]; cbn [wd u16 u32 u64]; lia. Qed.
  Lemma Mx_val : swc_Mx t w = if decide (w = wd t) then 0 else 2 ^ w.
  Proof.
    destruct SP as [_ Hw _]. pose proof sp_sg. unfold swc_Mx. rewrite !cast_u by done. rewrite Z.mul_mod_idemp_l by lia.
    assert (Hpw : 2 ^ w = 2 * 2 ^ (w - 1)) by (rewrite <-Z.pow_succ_r by lia; f_equal; lia). rewrite (Z.mul_comm (2 ^ (w - 1)) 2), <-Hpw.
    destruct (decide (w = wd t)) as [->|Hne]; [apply Z.mod_same; lia|]. apply Z.mod_small. split; [lia|]. apply Z.pow_lt_mono_r; lia.
  Qed.
  Definition inw (x : Z) : Prop := 0 <= x < 2 ^ w.
  Lemma pow_w_le : 2 ^ w <= 2 ^ wd t /\ 2 <= 2 ^ w.
  Proof. destruct SP as [_ Hw _]. split; [apply Z.pow_le_mono_r; lia|]. change 2 with (2 ^ 1) at 1. apply Z.pow_le_mono_r; lia. Qed.
  Lemma Setx_ok xis xir c : inw xis -> inw xir -> c = 0 \/ c = 1 ->
    let y := xis - xir - c in Setx t w xis xir c = (y mod 2 ^ w, if y <? 0 then 1 else 0).
  Proof.
    intros H1 H2 Hc y. destruct pow_w_le as [Hp Hp2]. pose proof sp_sg as Hs. unfold inw in *. unfold Setx. rewrite Mx_val.
    rewrite (cast_small u32 c) by (done || (cbn [wd u32]; lia)). rewrite !cast_u by done. set (W := 2 ^ wd t) in *.
    assert (Hy : - 2 ^ w <= y < 2 ^ w) by (subst y; lia).
    assert (Hfin : (y + (if decide (w = wd t) then 0 else 2 ^ w)) mod W = y + 2 ^ w \/ 0 <= y).
    { destruct (Z.lt_ge_cases y 0) as [Hn|]; [|by right]. left. destruct (decide (w = wd t)) as [E|E].
      - assert (HW : W = 2 ^ w) by (by unfold W; rewrite E). rewrite Z.add_0_r. rewrite <-(Z.mod_add y 1 W) by lia. rewrite Z.mod_small; lia.
      - rewrite Z.mod_small; lia. }
    destruct (Z.ltb_spec xis xir) as [Hlt|Hge].
    - assert (Hm1 : (xis - xir) mod W = xis - xir + W) by (rewrite <-(Z.mod_add _ 1 W) by lia; rewrite Z.mod_small; lia).
      assert (Hb : (if (xis - xir) mod W <? c then true else true) = true) by (by destruct (_ <? _)). rewrite Hb.
      assert (Hyn : y < 0) by (subst y; lia). rewrite (proj2 (Z.ltb_lt y 0) Hyn). f_equal.
      rewrite Zplus_mod_idemp_l. rewrite Zminus_mod_idemp_l || idtac.
      replace (((xis - xir) mod W - c + (if decide (w = wd t) then 0 else 2 ^ w)) mod W) with ((y + (if decide (w = wd t) then 0 else 2 ^ w)) mod W).
      + destruct Hfin as [->|]; [|lia]. rewrite <-(Z.mod_add y 1) by lia. rewrite Z.mod_small; lia.
      + rewrite Hm1. replace (xis - xir + W - c + _) with (y + (if decide (w = wd t) then 0 else 2 ^ w) + 1 * W) by (subst y; lia). by rewrite Z.mod_add by lia.
    - rewrite (Z.mod_small (xis - xir)) by lia. destruct (Z.ltb_spec (xis - xir) c) as [Hlt2|Hge2].
      + assert (Hyn : y < 0) by (subst y; lia). rewrite (proj2 (Z.ltb_lt y 0) Hyn). f_equal. rewrite Zplus_mod_idemp_l. fold y.
        destruct Hfin as [->|]; [|lia]. rewrite <-(Z.mod_add y 1) by lia. rewrite Z.mod_small; lia.
      + assert (Hyn : 0 <= y) by (subst y; lia). rewrite (proj2 (Z.ltb_ge y 0) Hyn). fold y. rewrite !Z.mod_small by lia. done.
  Qed.

  Record swc_inv (e : swc) (st : list Z * Z) : Prop := {
    si_hist : hist r (sbuf e) st.1;
    si_carry : carry e = st.2;
    si_c : st.2 = 0 \/ st.2 = 1;
    si_range : Forall inw st.1
  }.
  Lemma el_ok b h i : hist r b h -> (i < r)%nat -> h !! i = Some (el h i).
  Proof. intros H Hi. unfold el. destruct (lookup_lt_is_Some_2 h i) as [x Hx]; [by rewrite (h_len _ _ _ H)|]. by rewrite Hx. Qed.
  Lemma swc_next_ok e st : swc_inv e st ->
    exists e', swc_next t w s r e = Ok (e', (swc_step w s r st).2) /\ swc_inv e' (swc_step w s r st).1.
  Proof.
    intros [Hh Hcar Hc Hr]. destruct st as [h c]. cbn [fst snd] in *. destruct SP as [_ Hw Hlag].
    pose proof (h_idx _ _ _ Hh) as Hi. pose proof (h_ax _ _ _ Hh) as Ha.
    pose proof (h_cell _ _ _ Hh _ _ (el_ok _ _ (r - s)%nat Hh ltac:(lia))) as C1.
    pose proof (h_cell _ _ _ Hh _ _ (el_ok _ _ 0%nat Hh ltac:(lia))) as C2.
    rewrite list.Forall_lookup in Hr. pose proof (Hr _ _ (el_ok _ _ (r - s)%nat Hh ltac:(lia))) as R1. pose proof (Hr _ _ (el_ok _ _ 0%nat Hh ltac:(lia))) as R2.
    set (x1 := el h (r - s)) in *. set (x0 := el h 0) in *. unfold swc_next. cbv zeta.
    pose proof (hist_push r ltac:(lia) (sbuf e) h ((x1 - x0 - c) mod 2 ^ w) Hh) as Hpush. set (ix := nix r (sbuf e)) in *.
    assert (Hix : ix = idx (sbuf e) /\ (ix < 2 * r)%nat \/ ix = 0%nat /\ idx (sbuf e) = (2 * r)%nat).
    { unfold ix, nix. destruct (Nat.leb_spec (2 * r) (idx (sbuf e))); lia. }
    change (if (2 * r <=? idx (sbuf e))%nat then 0%nat else idx (sbuf e)) with ix. clearbody ix.
    match goal with |- context [rbind ?X _] => replace X with (Ok (x1, x0)) end.
    2:{ symmetry. destruct (Nat.ltb_spec ix s) as [Hs1|Hs1].
        - rewrite (rdc_at _ (ix + 2 * r - s) _ x1 C1), rbind_ok, (rdc_at _ (ix + r) _ x0 C2), rbind_ok; [done| |];
            unfold Base; repeat match goal with |- context [(?a <? ?b)%nat] => destruct (Nat.ltb_spec a b) end; lia.
        - destruct (Nat.ltb_spec ix r) as [Hs2|Hs2].
          + rewrite (rdc_at _ (ix - s) _ x1 C1), rbind_ok, (rdc_at _ (ix + r) _ x0 C2), rbind_ok; [done| |];
              unfold Base; repeat match goal with |- context [(?a <? ?b)%nat] => destruct (Nat.ltb_spec a b) end; lia.
          + rewrite (rdc_at _ (ix - s) _ x1 C1), rbind_ok, (rdc_at _ (ix - r) _ x0 C2), rbind_ok; [done| |];
              unfold Base; repeat match goal with |- context [(?a <? ?b)%nat] => destruct (Nat.ltb_spec a b) end; lia. }
    rewrite rbind_ok. rewrite Hcar. rewrite (Setx_ok x1 x0 c R1 R2 Hc). rewrite wrc_ok by lia. rewrite rbind_ok.
    eexists. split; [reflexivity|]. cbn [swc_step fst snd]. fold x1 x0. split; cbn [sbuf carry fst snd].
    - exact Hpush.
    - done.
    - destruct (_ <? 0); auto.
    - apply Forall_app. split; [apply list.Forall_tail; rewrite list.Forall_lookup; exact Hr|]. constructor; [|constructor]. apply Z.mod_pos_bound. lia.
  Qed.

  Lemma lc_params : lcg_params u32 40014 0 2147483563.
  Proof. split; [auto|..]; change (modulus u32 2147483563) with 2147483563; cbn [wd u32]; lia. Qed.
  Lemma lc_words_ok k x : 0 <= x < 2147483563 -> lc_words k x = Ok (outputs lc_step k x).
  Proof.
    revert x. induction k as [|k IH]; intros x Hx; [done|]. cbn [lc_words outputs]. unfold lc_next.
    rewrite (next_ok u32 40014 0 2147483563 x lc_params) by (done || (intros H; discriminate H)). rewrite rbind_ok.
    unfold step. change (modulus u32 2147483563) with 2147483563. rewrite Z.add_0_r. unfold lc_step at 1.
    pose proof (Z.mod_pos_bound (40014 * x) 2147483563 ltac:(lia)) as Hb. rewrite IH by lia. rewrite rbind_ok.
    by destruct (outputs lc_step k ((40014 * x) mod 2147483563)).
  Qed.
  Lemma words_cases : words_of w = 1%nat /\ w <= 32 \/ words_of w = 2%nat /\ t = u64 /\ 32 < w.
  Proof.
    pose proof sp_wd as Hwd. destruct SP as [Ht Hw _]. unfold words_of. destruct (Z.le_gt_cases w 32).
    - left. split; [|done]. replace ((w + 31) / 32) with 1; [done|]. apply Z.div_unique with (w - 1); lia.
    - right. split; [|split; [|done]].
      + replace ((w + 31) / 32) with 2; [done|]. apply Z.div_unique with (w - 33); lia.
      + destruct Ht as [->|[->| ->]]; [cbn in *; lia|cbn in *; lia|done].
  Qed.
  Lemma Get_wc_ok : Get_wc t w = words_of w.
  Proof.
    unfold Get_wc. rewrite Mx_val. destruct SP as [Ht Hw _]. destruct (decide (w = wd t)) as [->|Hne].
    - cbn [Z.eqb]. destruct Ht as [->|[->| ->]]; reflexivity.
    - destruct words_cases as [[-> H1]|(-> & -> & H2)].
      + rewrite (proj2 (Z.eqb_neq (2 ^ w) 0)) by lia. rewrite (proj2 (Z.ltb_ge (2 ^ 32) (2 ^ w))); [done|]. apply Z.pow_le_mono_r; lia.
      + rewrite (proj2 (Z.eqb_neq (2 ^ w) 0)) by lia. rewrite (proj2 (Z.ltb_lt (2 ^ 32) (2 ^ w))); [done|]. apply Z.pow_lt_mono_r; lia.
  Qed.
  (** reduction *)
  Lemma Reduce_ok a k ws : length a = (2 * r)%nat -> cells a 0 (groups (wd t) k r ws) ->
    wp (Reduce t w r a) (fun '(a', c) => length a' = (2 * r)%nat /\ cells a' 0 (groups w k r ws) /\
      c = if el (groups w k r ws) (r - 1) =? 0 then 1 else 0).
  Proof.
    intros Ha Hc. destruct SP as [_ Hw Hlag]. unfold Reduce. apply wp_bind.
    apply wp_mono with (Q := fun a' => length a' = (2 * r)%nat /\ cells a' 0 (groups w k r ws)).
    { rewrite Mx_val. destruct (decide (w = wd t)) as [Ew|Hne].
      - rewrite Z.eqb_refl. apply wp_ok. rewrite Ew. done.
      - rewrite (proj2 (Z.eqb_neq (2 ^ w) 0)) by lia.
        eapply wp_mono; [apply (fori_inv (fun i a' => length a' = (2 * r)%nat /\
            (forall j, (j < r)%nat -> a' !! j = Some (Some (big (take k (drop (j * k) ws)) mod 2 ^ (if decide (j < i)%nat then w else wd t))))))|].
        + intros j a' Hj [Hl Hcl]. rewrite (rdc_ok _ _ _ (Hcl j ltac:(lia))), rbind_ok. rewrite wrc_ok by lia. apply wp_ok. split; [by rewrite insert_length|].
          intros i Hi. destruct (decide (i = j)) as [->|Hij].
          * rewrite list_lookup_insert by lia. do 2 f_equal. rewrite decide_False, decide_True by lia. rewrite mod_mod_pow by lia. done.
          * rewrite list_lookup_insert_ne by done. rewrite Hcl by done. destruct (decide (i < j)%nat); [rewrite decide_True by lia|rewrite decide_False by lia]; done.
        + split; [done|]. intros j Hj. rewrite decide_False by lia. rewrite <-(Nat.add_0_l j) at 1. apply Hc. by apply groups_lookup.
        + intros a' [Hl Hcl]. split; [done|]. intros q x Hq. pose proof (lookup_lt_Some _ _ _ Hq) as Hlt. rewrite groups_len in Hlt.
          rewrite groups_lookup in Hq by done. cbn [Nat.add]. rewrite Hcl by done. rewrite decide_True by lia. congruence. }
    intros a' [Hl Hcl]. rewrite (rdc_ok a' (r - 1) (el (groups w k r ws) (r - 1))).
    - rewrite rbind_ok. apply wp_ok. done.
    - rewrite <-(Nat.add_0_l (r - 1)) at 1. apply Hcl. unfold el. by rewrite groups_lookup by lia.
  Qed.
  Lemma swc_init_inv a c ws : length a = (2 * r)%nat -> cells a 0 (groups w (words_of w) r ws) ->
    c = (if el (groups w (words_of w) r ws) (r - 1) =? 0 then 1 else 0) -> swc_inv (Swc (CBuf r a) c) (swc_init w r ws).
  Proof.
    intros Ha Hc Hcar. destruct SP as [_ Hw Hlag]. split; unfold swc_init; cbn [fst snd sbuf carry].
    - apply hist_lower; [lia|done|apply groups_len|done].
    - done.
    - destruct (_ =? 0); auto.
    - apply groups_range. lia.
  Qed.
  Lemma lc_seed_ok value : 0 <= value -> 0 <= lc_seeded value < 2147483563 /\
    get_seed 0 2147483563 (if value =? 0 then 19780503 else cast u32 (value mod 2147483563)) = lc_seeded value.
  Proof.
    intros Hv. unfold lc_seeded. set (m := 2147483563) in *. destruct (Z.eqb_spec value 0); [done|].
    pose proof (Z.mod_pos_bound value m ltac:(lia)) as Hb. split.
    - destruct (Z.eqb_spec (value mod m) 0); lia.
    - rewrite cast_small by (done || (cbn [wd u32]; lia)). unfold get_seed. change (m =? 0) with false. change (0 =? 0) with true. cbn [andb].
      by rewrite Z.mod_mod by lia.
  Qed.
  Lemma swc_seed_ok e value : length (ax (sbuf e)) = (2 * r)%nat -> 0 <= value ->
    wp (swc_seed t w r value e) (fun e' => swc_inv e' (swc_seeded w r value)).
  Proof.
    intros Ha Hv. pose proof sp_wd as Hwd. pose proof SP as [Ht Hw Hlag]. unfold swc_seed. cbv zeta. destruct (lc_seed_ok value Hv) as [Hx0 ->]. rewrite Get_wc_ok.
    set (x0 := lc_seeded value) in *. set (k := words_of w). set (W := (outputs lc_step (k * r) x0).1).
    assert (HI : forall j, 0 <= (outputs lc_step j x0).2 < 2147483563 /\ Forall (fun z => 0 <= z < 2 ^ 32) (outputs lc_step j x0).1).
    { intros j. destruct (outputs_Forall lc_step (fun x => 0 <= x < 2147483563) (fun z => 0 <= z < 2 ^ 32) j x0) as [H1 H2]; [|done|done].
      intros x Hx. unfold lc_step. cbn. pose proof (Z.mod_pos_bound (40014 * x) 2147483563 ltac:(lia)). lia. }
    apply wp_bind. eapply wp_mono; [apply (fori_inv (fun i (p : list (option Z) * Z) => length p.1 = (2 * r)%nat /\ p.2 = (outputs lc_step (i * k) x0).2 /\
        (forall j, (j < i)%nat -> p.1 !! j = Some (Some (big (take k (drop (j * k) W)) mod 2 ^ wd t)))))|].
    - intros j [a lc] Hj (Hl & Hlc & Hcl). cbn [fst snd] in *. subst lc. rewrite lc_words_ok by apply HI. rewrite rbind_ok.
      pose proof (outputs_slice lc_step (j * k) k (k * r) x0 ltac:(nia)) as Hsl.
      pose proof (outputs_app lc_step (j * k) k x0) as Happ.
      destruct (outputs lc_step k (outputs lc_step (j * k) x0).2) as [ws lc'] eqn:E. cbn [fst snd] in Hsl, Happ. fold W in Hsl.
      assert (Hlw : length ws = k). { rewrite <-(outputs_len lc_step k (outputs lc_step (j * k) x0).2). by rewrite E. }
      assert (Hfw : Forall (fun z => 0 <= z < 2 ^ 32) ws). { rewrite Hsl. apply Forall_take, Forall_drop, HI. }
      rewrite pack_ok; [|done|done| |done].
      2:{ destruct words_cases as [[? _]|(? & ? & _)]; [by left|by right]. }
      rewrite rbind_ok. rewrite wrc_ok by lia. rewrite rbind_ok. apply wp_ok. cbn [fst snd]. split; [by rewrite insert_length|].
      split. { replace (S j * k)%nat with (j * k + k)%nat by lia. by rewrite Happ. }
      intros i Hi. destruct (decide (i = j)) as [->|Hij].
      + rewrite list_lookup_insert by lia. by rewrite <-Hsl.
      + rewrite list_lookup_insert_ne by done. apply Hcl. lia.
    - cbn [fst snd]. split; [done|]. split; [done|]. intros j Hj. lia.
    - intros [a lc] (Hl & _ & Hcl). cbn [fst snd] in *. apply wp_bind.
      eapply wp_mono; [apply (Reduce_ok a k W Hl)|].
      + intros q x Hq. pose proof (lookup_lt_Some _ _ _ Hq) as Hlt. rewrite groups_len in Hlt. rewrite groups_lookup in Hq by done.
        cbn [Nat.add]. rewrite Hcl by done. congruence.
      + intros [a' c] (Hl' & Hc' & Hcar). apply wp_ok. by apply swc_init_inv.
  Qed.
  Lemma swc_seed_seq_ok e gen : length (ax (sbuf e)) = (2 * r)%nat -> gen_ok gen -> (t = u64 -> 32 < w) ->
    wp (swc_seed_seq t w r gen e) (fun e' => swc_inv e' (swc_seeded_seq w r gen)).
  Proof.
    intros Ha Hg Hbig. pose proof sp_wd as Hwd. pose proof SP as [Ht Hw Hlag]. unfold swc_seed_seq. cbv zeta.
    assert (Hk : Z.to_nat ((8 * (wd t / 8) + 31) / 32) = words_of w).
    { destruct words_cases as [[-> H1]|(-> & -> & H2)]; [|done]. destruct Ht as [->|[->| ->]]; [done|done|]. specialize (Hbig eq_refl). lia. }
    rewrite Hk. set (k := words_of w). set (W := gen (k * r)%nat). destruct (Hg (k * r)%nat) as [HlW HfW]. fold W in HlW, HfW.
    unfold swc_seeded_seq. fold k W. apply wp_bind.
    eapply wp_mono; [apply (fori_inv (fun i a => length a = (2 * r)%nat /\
        (forall j, (j < i)%nat -> a !! j = Some (Some ((big (take k (drop (j * k) W)) mod 2 ^ w) mod 2 ^ wd t)))))|].
    - intros j a Hj (Hl & Hcl). set (ws := take k (drop (j * k) W)).
      assert (Hlw : length ws = k) by (unfold ws; rewrite take_length, drop_length; nia).
      assert (Hpk : pack t k (fun j0 => default 0 (W !! (j * k + j0)%nat)) = Ok (big ws mod 2 ^ wd t)).
      { rewrite <-(pack_ok t k ws); [|done|done| |unfold ws; apply Forall_take, Forall_drop, HfW].
        - destruct words_cases as [[Hk1 _]|(Hk2 & -> & _)].
          + assert (Hk1' : k = 1%nat) by exact Hk1. unfold ws. rewrite Hk1'. unfold pack. cbn [Nat.sub fori]. rewrite lookup_take by lia. by rewrite lookup_drop.
          + assert (Hk2' : k = 2%nat) by exact Hk2. unfold ws. rewrite Hk2'. unfold pack. change (2 - 1)%nat with 1%nat. cbn [fori]. rewrite !lookup_take by lia. by rewrite !lookup_drop.
        - destruct words_cases as [[? _]|(? & ? & _)]; [by left|by right]. }
      rewrite Hpk, rbind_ok. rewrite wrc_ok by lia. apply wp_ok. split; [by rewrite insert_length|].
      intros i Hi. destruct (decide (i = j)) as [->|Hij].
      + rewrite list_lookup_insert by lia. do 2 f_equal. fold ws. rewrite Mx_val. destruct pow_w_le.
        pose proof (Z.mod_pos_bound (big ws) (2 ^ w) ltac:(lia)). rewrite (Z.mod_small (big ws mod 2 ^ w)) by lia.
        destruct (decide (w = wd t)) as [Ew|]; [by rewrite Z.eqb_refl, Ew|]. rewrite (proj2 (Z.eqb_neq (2 ^ w) 0)) by lia. by rewrite mod_mod_pow by lia.
      + rewrite list_lookup_insert_ne by done. apply Hcl. lia.
    - split; [done|]. intros j Hj. lia.
    - intros a (Hl & Hcl). apply wp_bind.
      assert (Hc2 : cells a 0 (groups w k r W)).
      { intros q x Hq. pose proof (lookup_lt_Some _ _ _ Hq) as Hlt. rewrite groups_len in Hlt. rewrite groups_lookup in Hq by done.
        cbn [Nat.add]. rewrite Hcl by done. injection Hq as <-. do 2 f_equal. destruct pow_w_le. pose proof (Z.mod_pos_bound (big (take k (drop (q * k) W))) (2 ^ w) ltac:(lia)).
        apply Z.mod_small. lia. }
      (* reducing already reduced values changes nothing *)
      eapply wp_mono; [apply (Reduce_ok a 1 (groups w k r W) Hl)|].
      + intros q x Hq. pose proof (lookup_lt_Some _ _ _ Hq) as Hlt. rewrite groups_len in Hlt. rewrite groups_lookup in Hq by done.
        cbn [Nat.add]. rewrite Hcl by done. injection Hq as <-. do 2 f_equal. rewrite Nat.mul_1_r.
        assert (Hgl : groups w k r W !! q = Some (big (take k (drop (q * k) W)) mod 2 ^ w)) by (by apply groups_lookup).
        rewrite (drop_S _ _ _ Hgl). cbn [take big]. rewrite Z.mul_0_r, Z.add_0_r. done.
      + assert (Hgg : groups w 1 r (groups w k r W) = groups w k r W).
        { apply list_eq_same_length with r; [apply groups_len|apply groups_len|]. intros i x y Hi Hx Hy. rewrite groups_lookup in Hx by done.
          rewrite Nat.mul_1_r in Hx. rewrite (drop_S _ _ _ Hy) in Hx. cbn [take big] in Hx. rewrite groups_lookup in Hy by done.
          injection Hx as <-. injection Hy as <-. rewrite Z.mul_0_r, Z.add_0_r. apply Z.mod_mod. lia. }
        rewrite Hgg. intros [a' c] (Hl' & Hc' & Hcar). apply wp_ok. by apply swc_init_inv.
  Qed.

  (** calls, equality, save and restore *)
  Lemma swc_calls_ok k : forall e st, swc_inv e st ->
    exists e', calls (swc_next t w s r) k e = Ok ((outputs (swc_step w s r) k st).1, e') /\ swc_inv e' (outputs (swc_step w s r) k st).2.
  Proof.
    induction k as [|k IH]; intros e st H; cbn [calls outputs]; [eauto|].
    destruct (swc_next_ok e st H) as (e1 & -> & H1). rewrite rbind_ok. destruct (swc_step w s r st) as [st1 v]. cbn [fst snd] in *.
    destruct (IH e1 st1 H1) as (e2 & -> & H2). rewrite rbind_ok. destruct (outputs (swc_step w s r) k st1) as [l st2]. cbn [fst snd] in *. eauto.
  Qed.
  Lemma swc_eq_ok x y sx sy : swc_inv x sx -> swc_inv y sy -> swc_eq r x y = Ok (bool_decide (sx = sy)).
  Proof.
    intros [H1 H2 _ _] [H3 H4 _ _]. destruct SP as [_ _ Hlag]. unfold swc_eq. rewrite (Equals_ok r ltac:(lia) _ _ _ _ H1 H3), rbind_ok. f_equal.
    rewrite H2, H4. destruct sx as [h c], sy as [h' c']. cbn [fst snd]. destruct (Z.eqb_spec c c') as [->|Hn].
    - rewrite andb_true_r. apply bool_decide_ext. naive_solver.
    - rewrite andb_false_r. symmetry. apply bool_decide_false. naive_solver.
  Qed.
  Lemma swc_restore_ok x y sx sy : swc_inv x sx -> swc_inv y sy -> swc_save r x = Ok sx /\ swc_inv (swc_restore r sx y) sx.
  Proof.
    intros [H1 H2 H2' H2''] [H3 H4 _ _]. destruct SP as [_ _ Hlag]. split.
    - unfold swc_save. rewrite (save_ok r ltac:(lia) _ _ H1), rbind_ok, H2. by destruct sx.
    - split; [|done|done|done]. apply (restore_ok r ltac:(lia) _ _ _ H3). apply (h_len _ _ _ H1).
  Qed.
End swc.
