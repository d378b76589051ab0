From stdpp Require Import base list numbers option decidable.
From Coq Require Import ZArith Lia.
From Verif Require Import Mem.MonoModel.
Local Open Scope Z_scope.

Lemma land_low x k : 0 <= k -> Z.land x (2 ^ k - 1) = x mod 2 ^ k.
Proof. intros Hk. rewrite <- Z.land_ones by done. f_equal. rewrite Z.ones_equiv. lia. Qed.
Lemma land_high x k w : 0 <= k <= w -> 0 <= x < 2 ^ w -> Z.land x (2 ^ w - 2 ^ k) = x - x mod 2 ^ k.
Proof.
  intros Hk Hx. assert (Hm : x - x mod 2 ^ k = x / 2 ^ k * 2 ^ k). { rewrite Z.mod_eq by (apply Z.pow_nonzero; lia). lia. }
  rewrite Hm. replace (2 ^ w - 2 ^ k) with (Z.ones (w - k) * 2 ^ k).
  2:{ rewrite Z.ones_equiv, <- Z.sub_1_r, Z.mul_sub_distr_r, <- Z.pow_add_r by lia. replace (w - k + k) with w by lia. lia. }
  rewrite <- !Z.shiftl_mul_pow2, <- Z.shiftr_div_pow2 by lia.
  apply Z.bits_inj_iff'. intros n Hn. rewrite Z.land_spec, !Z.shiftl_spec by lia.
  destruct (decide (n < k)) as [Hl|Hl].
  - rewrite !(Z.testbit_neg_r _ (n - k)) by lia. apply andb_false_r.
  - rewrite Z.shiftr_spec by lia. replace (n - k + k) with n by lia. rewrite Z.testbit_ones_nonneg by lia.
    destruct (Z.ltb_spec (n - k) (w - k)) as [Hw|Hw]; [apply andb_true_r|]. rewrite andb_false_r. symmetry.
    destruct (decide (x = 0)) as [->|Hne]; [apply Z.bits_0|]. apply Z.bits_above_log2; [lia|].
    apply Z.log2_lt_pow2; [lia|]. eapply Z.lt_le_trans; [apply Hx|]. apply Z.pow_le_mono_r; lia.
Qed.

Section mono.
Context (A : Z) (HA : A = 4 \/ A = 8).
Notation W := (W A). Notation H := (H A). Notation wrap := (wrap A).
Notation Max := (Max_allocation A).
Ltac ww := unfold MonoModel.W, MonoModel.H in *; destruct HA as [-> | ->];
  change (2 ^ (8 * 4)) with 4294967296 in *; change (2 ^ (8 * 8)) with 18446744073709551616 in *.
Lemma wrap_id x : 0 <= x < W -> wrap x = x.
Proof. apply Z.mod_small. Qed.
Lemma wrap_minus x : wrap (wrap x - 1) = wrap (x - 1).
Proof. unfold MonoModel.wrap. apply Zminus_mod_idemp_l. Qed.
Lemma Max_eq : Max = W - A.
Proof. unfold Max_allocation, MonoModel.wrap. ww; reflexivity. Qed.
Lemma land_max x : 0 <= x < W -> Z.land x Max = x - x mod A.
Proof.
  intros Hx. rewrite Max_eq. unfold MonoModel.W in *. destruct HA as [-> | ->].
  - change 4 with (2 ^ 2) at 2 3. apply land_high; [lia|done].
  - change 8 with (2 ^ 3) at 2 3. apply land_high; [lia|done].
Qed.
Definition szok (n : Z) : Prop := 0 <= n <= W - A /\ n mod A = 0.
Lemma up_spec x : 0 <= x <= W - A -> let r := Z.land (wrap (wrap (x + A) - 1)) Max in szok r /\ x <= r < x + A.
Proof.
  intros Hx r. subst r. rewrite wrap_minus, wrap_id by (ww; lia). rewrite land_max by (ww; lia). unfold szok.
  ww; Z.div_mod_to_equations; lia.
Qed.
Lemma Round_ok n : 0 <= n < W -> szok (Round A n) /\ H <= Round A n /\ (n <= Round A n \/ Round A n = W - A).
Proof.
  intros Hn. unfold Round, Min_allocation. rewrite Max_eq. repeat case_decide.
  - unfold szok. ww; Z.div_mod_to_equations; lia.
  - unfold szok. ww; Z.div_mod_to_equations; lia.
  - rewrite <- Max_eq. pose proof (up_spec n ltac:(lia)) as [Hs Hr]. split; [exact Hs|]. split; [ww; lia|lia].
Qed.
Lemma Scale_ok n : 0 <= n < W -> szok (Scale A n) /\ (n + (n + 1) / 2 <= Scale A n < n + (n + 1) / 2 + A \/ Scale A n = W - A).
Proof.
  intros Hn. unfold Scale. 
  assert (Em : wrap (wrap (wrap (Max - A) + 1) / 3 * 2) = (W - 2 * A + 1) / 3 * 2).
  { rewrite Max_eq. rewrite (wrap_id (W - A - A)) by (ww; lia). rewrite (wrap_id (W - A - A + 1)) by (ww; lia).
    rewrite wrap_id by (ww; Z.div_mod_to_equations; lia). by replace (W - A - A + 1) with (W - 2 * A + 1) by lia. }
  rewrite Em. case_decide as Hd.
  - rewrite Max_eq. split; [|lia]. unfold szok. ww; Z.div_mod_to_equations; lia.
  - assert (Hlt : n + (n + 1) / 2 <= W - A) by (ww; Z.div_mod_to_equations; lia).
    rewrite (wrap_id (n + 1)) by (ww; Z.div_mod_to_equations; lia). rewrite (wrap_id (n + (n + 1) / 2)) by (ww; Z.div_mod_to_equations; lia).
    pose proof (up_spec (n + (n + 1) / 2) ltac:(split; [Z.div_mod_to_equations; lia|exact Hlt])) as [Hs Hr]. split; [exact Hs|]. left. exact Hr.
Qed.
Lemma unscaled_ok n : szok n -> szok (unscaled A n) /\ 2 * H <= unscaled A n.
Proof.
  intros [Hn _]. unfold unscaled. pose proof (up_spec (n / 3 * 2) ltac:(Z.div_mod_to_equations; lia)) as [[Hs Hm] Hr].
  unfold Min_allocation. destruct (Z.max_spec (Z.land (wrap (wrap (n / 3 * 2 + A) - 1)) Max) (2 * H)) as [[Hl ->]|[Hl ->]].
  - unfold szok. ww; Z.div_mod_to_equations; lia.
  - unfold szok. lia.
Qed.
Lemma Increase_size_ok s n : szok (nextsz s) -> 0 <= n <= W - A - H -> szok (Increase_size A s n) /\ n + H <= Increase_size A s n /\ nextsz s <= Increase_size A s n.
Proof.
  intros Hs Hn. unfold Increase_size. rewrite (wrap_id (n + H)) by (ww; lia). case_decide as Hd; [|split; [done|lia]].
  pose proof (up_spec (n + H) ltac:(ww; lia)) as [Hs' Hr]. split; [exact Hs'|]. lia.
Qed.
Lemma Max_H : wrap (Max - H) = W - A - H.
Proof. rewrite Max_eq. apply wrap_id. ww; lia. Qed.
Lemma align_ok a n p sp p' sp' : pow2 A a -> 0 <= n < W -> 0 <= p -> 0 <= sp -> p + sp < W -> align A a n p sp = Some (p', sp') ->
  p <= p' /\ p' + sp' = p + sp /\ n <= sp' /\ p' mod a = 0.
Proof.
  intros (k & Hk & ->) Hn Hp Hsp Hps. unfold align.
  assert (Ha : 0 < 2 ^ k < W). { split; [apply Z.pow_pos_nonneg; lia|]. unfold MonoModel.W. apply Z.pow_lt_mono_r; lia. }
  rewrite (wrap_id (2 ^ k - 1)) by lia. rewrite land_low by lia. pose proof (Z.mod_pos_bound p (2 ^ k) ltac:(lia)) as Hb.
  pose proof (Z.div_mod p (2 ^ k) ltac:(lia)) as Hdm.
  set (off := if decide (p mod 2 ^ k <> 0) then wrap (2 ^ k - p mod 2 ^ k) else p mod 2 ^ k).
  assert (Ho : 0 <= off < W /\ (p + off) mod 2 ^ k = 0).
  { subst off. case_decide as Hd.
    - rewrite wrap_id by lia. split; [lia|]. replace (p + (2 ^ k - p mod 2 ^ k)) with ((p / 2 ^ k + 1) * 2 ^ k) by lia. apply Z.mod_mul. lia.
    - assert (E : p mod 2 ^ k = 0) by lia. rewrite E. split; [lia|]. by rewrite Z.add_0_r. }
  clearbody off. destruct Ho as [Ho Hm]. case_decide as Hd; [done|].
  assert (Hso : off <= sp) by lia. rewrite (wrap_id (sp - off)) in * by lia. rewrite wrap_id by lia. intros [= <- <-]. split_and!; try lia; exact Hm.
Qed.
(** the answer is also the best one: when align fails there is no aligned place *)
Lemma align_none a n p sp : pow2 A a -> 0 <= n < W -> 0 <= p -> 0 <= sp -> p + sp < W -> align A a n p sp = None ->
  forall q, p <= q -> q + n <= p + sp -> q mod a <> 0.
Proof.
  intros (k & Hk & ->) Hn Hp Hsp Hps. unfold align.
  assert (Ha : 0 < 2 ^ k < W). { split; [apply Z.pow_pos_nonneg; lia|]. unfold MonoModel.W. apply Z.pow_lt_mono_r; lia. }
  rewrite (wrap_id (2 ^ k - 1)) by lia. rewrite land_low by lia. pose proof (Z.mod_pos_bound p (2 ^ k) ltac:(lia)) as Hb.
  pose proof (Z.div_mod p (2 ^ k) ltac:(lia)) as Hdm.
  set (off := if decide (p mod 2 ^ k <> 0) then wrap (2 ^ k - p mod 2 ^ k) else p mod 2 ^ k).
  assert (Ho : 0 <= off < 2 ^ k /\ (p + off) mod 2 ^ k = 0).
  { subst off. case_decide as Hd.
    - rewrite wrap_id by lia. split; [lia|]. replace (p + (2 ^ k - p mod 2 ^ k)) with ((p / 2 ^ k + 1) * 2 ^ k) by lia. apply Z.mod_mul. lia.
    - assert (E : p mod 2 ^ k = 0) by lia. rewrite E. split; [lia|]. by rewrite Z.add_0_r. }
  clearbody off. destruct Ho as [Ho Hm]. case_decide as Hd; [|done]. intros _ q Hq Hqn Hqm.
  assert (Hge : p + off <= q).
  { pose proof (Z.div_mod q (2 ^ k) ltac:(lia)) as Hdq. pose proof (Z.div_mod (p + off) (2 ^ k) ltac:(lia)) as Hdo.
    rewrite Hqm in Hdq. rewrite Hm in Hdo. destruct (decide (p + off <= q)) as [|Hc]; [done|exfalso].
    assert (q / 2 ^ k < (p + off) / 2 ^ k) by nia. assert (q / 2 ^ k + 1 <= (p + off) / 2 ^ k) by lia. nia. }
  destruct Hd as [Hd|Hd]; [lia|]. destruct (decide (sp < off)) as [|Hd2]; [lia|]. rewrite wrap_id in Hd by lia. lia.
Qed.
Lemma A_pow2 : pow2 A A.
Proof. destruct HA as [-> | ->]; [exists 2|exists 3]; cbn; lia. Qed.
Lemma pow2_max a p : pow2 A a -> p mod Z.max A a = 0 -> p mod a = 0 /\ p mod A = 0.
Proof.
  intros (k & Hk & ->). destruct A_pow2 as (j & Hj & Ej). rewrite Ej. intros Hm.
  assert (Hd : forall i m, 0 <= i <= m -> p mod 2 ^ m = 0 -> p mod 2 ^ i = 0).
  { intros i m Him Hpm. apply Z.mod_divide; [apply Z.pow_nonzero; lia|]. apply Z.mod_divide in Hpm; [|apply Z.pow_nonzero; lia].
    etrans; [|exact Hpm]. exists (2 ^ (m - i)). rewrite <- Z.pow_add_r by lia. f_equal. lia. }
  destruct (decide (j <= k)) as [Hl|Hl].
  - rewrite Z.max_r in Hm by (apply Z.pow_le_mono_r; lia). split; [done|]. eapply Hd; [|exact Hm]. lia.
  - rewrite Z.max_l in Hm by (apply Z.pow_le_mono_r; lia). split; [|done]. eapply Hd; [|exact Hm]. lia.
Qed.
End mono.
