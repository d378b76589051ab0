(** Proofs about the std::bitset model. *)
From stdpp Require Import base list list_numbers numbers decidable.
From Coq Require Import ZArith Lia.
From Verif Require Import Base.Res Base.Int Num.BitModel Num.BitSpec Num.BitProofs Cont.BitsetModel Cont.BitsetSpec.
Local Open Scope nat_scope.

Lemma wp_fup {S} (I : nat -> S -> Prop) (Q : S -> Prop) f n : forall lo a,
  I lo a -> (forall i a, lo <= i < lo + n -> I i a -> wp (f i a) (I (Datatypes.S i))) ->
  (forall a, I (lo + n) a -> Q a) -> wp (fup n lo f a) Q.
Proof.
  induction n as [|n IH]; intros lo a H0 Hs HQ; simpl.
  - apply HQ. by rewrite Nat.add_0_r.
  - apply wp_bind. eapply wp_mono; [apply Hs; [lia|done]|]. intros a' H'. apply IH; [done| |].
    + intros. apply Hs; [lia|done].
    + intros. apply HQ. by rewrite Nat.add_succ_r.
Qed.
Lemma wp_fdown {S} (I : nat -> S -> Prop) (Q : S -> Prop) f n : forall lo a,
  I n a -> (forall i a, i < n -> I (Datatypes.S i) a -> wp (f (lo + i) a) (I i)) ->
  (forall a, I 0 a -> Q a) -> wp (fdown n lo f a) Q.
Proof.
  induction n as [|n IH]; intros lo a H0 Hs HQ; simpl; [by apply HQ|].
  apply wp_bind. eapply wp_mono; [apply Hs; [lia|done]|]. intros a' H'. apply IH; [done| |done].
  intros. apply Hs; [lia|done].
Qed.

Section bitset.
  Context (N : nat).
  Notation B := (Bpw N).
  Notation W := (Words N).
  Notation Ty := (Ty N).
  Implicit Types (a b : list Z) (f g : nat -> bool).
  Definition at_ a k : Z := default 0%Z (a !! k).
  Notation bit w j := (Z.testbit w (Z.of_nat j)).

  Lemma B_cases : B = 32 \/ B = 64.
  Proof. unfold Bpw. destruct (decide _); auto. Qed.
  Lemma Ty_wd : wd Ty = Z.of_nat B /\ sg Ty = false /\ promote Ty = Ty.
  Proof. unfold BitsetModel.Ty, Bpw. destruct (decide _); done. Qed.
  Lemma W_bounds : N <= (W + 1) * B /\ (0 < N -> W * B < N).
  Proof.
    unfold Words. pose proof B_cases as HB. destruct (decide (N = 0)); [lia|].
    pose proof (Nat.div_mod_eq (N - 1) B). pose proof (Nat.mod_upper_bound (N - 1) B). nia.
  Qed.
  Definition good (w : Z) : Prop := (0 <= w)%Z /\ forall j, (Z.of_nat B <= j)%Z -> Z.testbit w j = false.
  Lemma good_range w : good w <-> (0 <= w < 2 ^ Z.of_nat B)%Z.
  Proof.
    split.
    - intros [H0 H]. split; [done|]. destruct (Z.eq_dec w 0) as [->|]; [apply Z.pow_pos_nonneg; lia|].
      apply Z.log2_lt_pow2; [lia|]. destruct (Z.lt_ge_cases (Z.log2 w) (Z.of_nat B)) as [|Hge]; [done|].
      pose proof (H _ Hge) as Hf. rewrite Z.bit_log2 in Hf by lia. done.
    - intros H. split; [lia|]. intros j Hj. by eapply testbit_high.
  Qed.
  Lemma good0 : good 0.
  Proof. split; [lia|]. intros. apply Z.bits_0. Qed.
  Lemma good_land x y : good x -> good y -> good (Z.land x y).
  Proof. intros [H1 H2] [H3 H4]. split; [by apply Z.land_nonneg; left|]. intros j Hj. by rewrite Z.land_spec, H2. Qed.
  Lemma good_lor x y : good x -> good y -> good (Z.lor x y).
  Proof. intros [H1 H2] [H3 H4]. split; [by apply Z.lor_nonneg|]. intros j Hj. by rewrite Z.lor_spec, H2, H4. Qed.
  Lemma good_lxor x y : good x -> good y -> good (Z.lxor x y).
  Proof. intros [H1 H2] [H3 H4]. split; [by apply Z.lxor_nonneg|]. intros j Hj. by rewrite Z.lxor_spec, H2, H4. Qed.
  Lemma good_cast z : good (cast Ty z).
  Proof.
    apply good_range. destruct Ty_wd as (Hw & Hs & _). rewrite cast_u, Hw by done. apply Z.mod_pos_bound, Z.pow_pos_nonneg; lia.
  Qed.
  Lemma bit_cast z j : j < B -> bit (cast Ty z) j = bit z j.
  Proof. intros Hj. destruct Ty_wd as (Hw & Hs & _). rewrite cast_bits, Hw by (done || lia). by rewrite (proj2 (Z.ltb_lt _ _)) by lia. Qed.
  Lemma bit_not z j : j < B -> bit (not_ N z) j = negb (bit z j).
  Proof. intros. unfold not_. rewrite bit_cast by done. apply Z.lnot_spec. lia. Qed.

  Lemma shl_word x k : k < B -> shl Ty x (Z.of_nat k) = Ok (cast Ty (x * 2 ^ Z.of_nat k)).
  Proof. intros Hk. unfold shl. destruct Ty_wd as (Hw & Hs & ->). rewrite decide_True by lia. done. Qed.
  Lemma bit_shl x k j : j < B -> bit (cast Ty (x * 2 ^ Z.of_nat k)) j = if decide (j < k) then false else bit x (j - k).
  Proof.
    intros Hj. rewrite bit_cast by done. destruct (decide (j < k)).
    - apply Z.mul_pow2_bits_low. lia.
    - rewrite Z.mul_pow2_bits by lia. f_equal. lia.
  Qed.
  Lemma shr_word x k : k < B -> shr Ty x (Z.of_nat k) = Ok (x / 2 ^ Z.of_nat k)%Z.
  Proof. intros Hk. destruct Ty_wd as (Hw & Hs & Hp). apply shr_ok. rewrite Hp. lia. Qed.
  Lemma bit_shr x k j : bit (x / 2 ^ Z.of_nat k)%Z j = bit x (j + k).
  Proof. rewrite Z.div_pow2_bits by lia. f_equal. lia. Qed.
  Lemma good_shr x k : good x -> good (x / 2 ^ Z.of_nat k)%Z.
  Proof.
    intros [H1 H2]. split; [apply Z.div_pos; [done|apply Z.pow_pos_nonneg; lia]|].
    intros j Hj. rewrite Z.div_pow2_bits by lia. apply H2. lia.
  Qed.
  Lemma good_bit x j : good x -> B <= j -> bit x j = false.
  Proof. intros [_ H] Hj. apply H. lia. Qed.
  Lemma bits_ext x y : good x -> good y -> (forall j, j < B -> bit x j = bit y j) -> x = y.
  Proof.
    intros [Hx0 Hx] [Hy0 Hy] H. apply Z.bits_inj'. intros j Hj. destruct (Z.lt_ge_cases j (Z.of_nat B)).
    - rewrite <-(Z2Nat.id j) by lia. apply H. lia.
    - by rewrite Hx, Hy.
  Qed.
  Lemma bitmask_ok i : bitmask N i = Ok (2 ^ Z.of_nat (i mod B))%Z /\ i mod B < B.
  Proof.
    pose proof B_cases. assert (i mod B < B) by (apply Nat.mod_upper_bound; lia). split; [|done].
    unfold bitmask. rewrite shl_word by done. apply (f_equal Ok). rewrite Z.mul_1_l.
    destruct Ty_wd as (Hw & Hs & _). apply cast_u_id; [done|]. rewrite Hw. split; [apply Z.pow_nonneg; lia|].
    apply Z.pow_lt_mono_r; lia.
  Qed.
  Lemma bit_mask m j : bit (2 ^ Z.of_nat m) j = bool_decide (j = m).
  Proof. rewrite Z.pow2_bits_eqb by lia. case_bool_decide; [subst; apply Z.eqb_refl|]. apply Z.eqb_neq. lia. Qed.
  Lemma good_mask m : m < B -> good (2 ^ Z.of_nat m).
  Proof. intros. apply good_range. split; [apply Z.pow_nonneg; lia|]. apply Z.pow_lt_mono_r; lia. Qed.
  Lemma lowmask_ok m : m < B -> arith Ty (2 ^ Z.of_nat m - 1) = Ok (Z.ones (Z.of_nat m)).
  Proof.
    intros Hm. destruct Ty_wd as (Hw & Hs & _). unfold arith. rewrite Hs, Hw. apply (f_equal Ok).
    rewrite Z.ones_equiv. apply Z.mod_small. pose proof (proj1 (good_range _) (good_mask m Hm)). 
    assert (0 < 2 ^ Z.of_nat m)%Z by (apply Z.pow_pos_nonneg; lia). lia.
  Qed.
  Lemma bit_ones m j : bit (Z.ones (Z.of_nat m)) j = bool_decide (j < m).
  Proof. case_bool_decide; [apply Z.ones_spec_low; lia|apply Z.ones_spec_high; lia]. Qed.

  (** arrays *)
  Definition wf a : Prop := length a = W + 1 /\ forall k, k <= W -> good (at_ a k).
  Definition tb a k j : bool := bit (at_ a k) j.
  Definition pad f i : bool := if decide (i < N) then f i else false.
  Definition rep a f : Prop := wf a /\ forall k j, k <= W -> j < B -> tb a k j = pad f (k * B + j).
  Lemma rep_iff a f : represents N a f <-> rep a f.
  Proof.
    unfold represents, rep, wf, tb, at_, pad. split.
    - intros (Hl & Hg & Hb). split_and!; [done| |].
      + intros k Hk. destruct (lookup_lt_is_Some_2 a k) as [w Hw]; [lia|]. rewrite Hw. simpl. apply good_range. eauto.
      + intros k j Hk Hj. destruct (lookup_lt_is_Some_2 a k) as [w Hw]; [lia|]. rewrite Hw. simpl. eauto.
    - intros ((Hl & Hg) & Hb). split_and!; [done| |].
      + intros k w Hw. pose proof (lookup_lt_Some _ _ _ Hw). specialize (Hg k ltac:(lia)). rewrite Hw in Hg. by apply good_range.
      + intros k j w Hw Hj. pose proof (lookup_lt_Some _ _ _ Hw). specialize (Hb k j ltac:(lia) Hj). by rewrite Hw in Hb.
  Qed.
  Lemma rdw_ok a k : k < length a -> rdw a k = Ok (at_ a k).
  Proof. intros H. unfold rdw, at_. destruct (lookup_lt_is_Some_2 a k H) as [w ->]. done. Qed.
  Lemma wrw_ok a k w : k < length a -> wrw a k w = Ok (<[k:=w]> a).
  Proof. intros H. unfold wrw. by rewrite decide_True. Qed.
  Lemma at_ins a k w i : k < length a -> at_ (<[k:=w]> a) i = if decide (i = k) then w else at_ a i.
  Proof.
    intros H. unfold at_. destruct (decide (i = k)) as [->|]; [by rewrite list_lookup_insert|by rewrite list_lookup_insert_ne].
  Qed.
  Lemma idx i : i < N -> i / B <= W /\ i mod B < B /\ i = i / B * B + i mod B.
  Proof.
    intros Hi. pose proof B_cases as HB. pose proof W_bounds as [HW _].
    pose proof (Nat.div_mod_eq i B). pose proof (Nat.mod_upper_bound i B ltac:(lia)). split_and!; [|done|lia].
    assert (i / B < W + 1); [|lia]. apply Nat.div_lt_upper_bound; lia.
  Qed.
  Lemma rep_tb a f i : rep a f -> i < N -> tb a (i / B) (i mod B) = f i.
  Proof.
    intros [_ H] Hi. destruct (idx i Hi) as (H1 & H2 & H3). rewrite H by done. rewrite <-H3. unfold pad. by rewrite decide_True.
  Qed.

  Lemma Trim_ok a f : wf a -> (forall k j, k <= W -> j < B -> k * B + j < N -> tb a k j = f (k * B + j)) ->
    wp (Trim N a) (fun a' => rep a' f).
  Proof.
    intros [Hl Hg] Hb. pose proof W_bounds as [HW HW']. pose proof B_cases as HB. unfold Trim.
    destruct (decide (N = 0 \/ N mod B <> 0)) as [Hw|Hw].
    - rewrite rdw_ok by lia. rewrite rbind_ok. destruct (bitmask_ok N) as [-> Hm]. rewrite rbind_ok, lowmask_ok, rbind_ok, wrw_ok by (done || lia).
      simpl. set (m := N mod B) in *. assert (HN : N = W * B + m).
      { destruct (decide (N = 0)) as [->|]; [unfold m, Words; rewrite Nat.mod_0_l by lia; simpl; lia|].
        unfold m. pose proof (Nat.div_mod_eq N B). assert (N / B = W) as E; [|lia].
        symmetry. apply (Nat.div_unique _ _ _ (N - W * B)); lia. }
      split; [split; [by rewrite insert_length|]|].
      + intros k Hk. rewrite at_ins by lia. destruct (decide _); [|auto]. apply good_land; [auto|].
        apply good_range. rewrite Z.ones_equiv. pose proof (proj1 (good_range _) (good_mask m Hm)).
        assert (0 < 2 ^ Z.of_nat m)%Z by (apply Z.pow_pos_nonneg; lia). lia.
      + intros k j Hk Hj. unfold tb, pad. rewrite at_ins by lia. destruct (decide (k = W)) as [->|Hne].
        * rewrite Z.land_spec, bit_ones. destruct (decide (W * B + j < N)).
          -- rewrite bool_decide_true by lia. rewrite andb_true_r. by apply Hb.
          -- rewrite bool_decide_false by lia. apply andb_false_r.
        * rewrite decide_True by nia. apply Hb; [done|done|nia].
    - apply wp_ok. split; [done|]. intros k j Hk Hj. unfold pad.
      assert (N = (W + 1) * B) as HN.
      { assert (N <> 0 /\ N mod B = 0) as [Hn Hm] by (split; [tauto|destruct (decide (N mod B = 0)); tauto]).
        pose proof (Nat.div_mod_eq N B). assert (W < N / B <= W + 1); [|nia]. split.
        - apply Nat.div_lt_upper_bound in HW as _ || idtac. assert (W * B < B * (N / B)) by lia. nia.
        - assert (B * (N / B) <= B * (W + 1)) by lia. nia. }
      rewrite decide_True by nia. apply Hb; [done|done|nia].
  Qed.

  Lemma Subscript_ok a f i : rep a f -> i < N -> Subscript N a i = Ok (f i).
  Proof.
    intros Hr Hi. destruct (idx i Hi) as (H1 & H2 & H3). unfold Subscript. destruct Hr as [[Hl Hg] Hb].
    rewrite rdw_ok, rbind_ok by lia. destruct (bitmask_ok i) as [-> _]. rewrite rbind_ok. apply (f_equal Ok).
    rewrite <-(rep_tb a f i) by done. unfold tb. destruct (bit _ _) eqn:E.
    - apply negb_true_iff, Z.eqb_neq. intros H0. apply (f_equal (fun z => bit z (i mod B))) in H0.
      rewrite Z.land_spec, E, bit_mask, bool_decide_true, Z.bits_0 in H0; done.
    - apply negb_false_iff, Z.eqb_eq. apply Z.bits_inj'. intros j Hj. rewrite Z.land_spec, Z.bits_0.
      rewrite <-(Z2Nat.id j) by lia. rewrite bit_mask. case_bool_decide as Hc; [rewrite Hc, E; done|apply andb_false_r].
  Qed.

  Lemma bitwise_ok (zop : Z -> Z -> Z) (bop : bool -> bool -> bool) a b f g :
    (forall x y, good x -> good y -> good (zop x y)) ->
    (forall x y j, bit (zop x y) j = bop (bit x j) (bit y j)) -> bop false false = false ->
    rep a f -> rep b g ->
    wp (fup (W + 1) 0 (fun i a => x <~ rdw a i ;; y <~ rdw b i ;; wrw a i (zop x y)) a)
      (fun a' => rep a' (fun i => bop (f i) (g i))).
  Proof.
    intros Hgood Hbit Hff [[Hla Hga] Ha] [[Hlb Hgb] Hb].
    apply (wp_fup (fun n a' => length a' = W + 1 /\ forall k, at_ a' k = if decide (k < n) then zop (at_ a k) (at_ b k) else at_ a k)).
    - split; [done|]. intros k. rewrite decide_False by lia. done.
    - intros i a' Hi (Hl & Hat). rewrite !rdw_ok, !rbind_ok, wrw_ok by lia. simpl. split; [by rewrite insert_length|].
      intros k. rewrite at_ins by lia. rewrite !Hat. destruct (decide (k = i)) as [->|].
      + rewrite decide_False, decide_True by lia. done.
      + destruct (decide (k < i)); [rewrite decide_True by lia; done|rewrite decide_False by lia; done].
    - intros a' (Hl & Hat). split; [split; [done|]|].
      + intros k Hk. rewrite Hat, decide_True by lia. auto.
      + intros k j Hk Hj. unfold tb. rewrite Hat, decide_True by lia. rewrite Hbit.
        specialize (Ha k j Hk Hj). specialize (Hb k j Hk Hj). unfold tb in *. rewrite Ha, Hb. unfold pad. by destruct (decide _).
  Qed.

  Lemma shl_eq_ok a f p : rep a f ->
    wp (shl_eq N a p) (fun a' => rep a' (fun i => if decide (i < p) then false else f (i - p))).
  Proof.
    intros [[Hl Hg] Hb]. pose proof B_cases as HB. pose proof W_bounds as [HW HW']. unfold shl_eq. set (q := p / B).
    assert (Hp : p = q * B + p mod B /\ p mod B < B).
    { pose proof (Nat.div_mod_eq p B). pose proof (Nat.mod_upper_bound p B ltac:(lia)). unfold q. lia. }
    set (r := p mod B) in *.
    apply wp_bind.
    assert (H1 : wp (if decide (q <> 0) then
            fdown (W + 1) 0 (fun Wpos a =>
              w <~ (if decide (q <= Wpos) then rdw a (Wpos - q) else Ok 0%Z) ;; wrw a Wpos w) a
          else Ok a) (fun a' => length a' = W + 1 /\ forall k, k <= W -> at_ a' k = if decide (q <= k) then at_ a (k - q) else 0%Z)).
    { destruct (decide (q <> 0)) as [Hq|Hq].
      - apply (wp_fdown (fun n a' => length a' = W + 1 /\ forall k, k <= W ->
          at_ a' k = if decide (n <= k) then (if decide (q <= k) then at_ a (k - q) else 0%Z) else at_ a k)).
        + split; [done|]. intros k Hk. rewrite decide_False by lia. done.
        + intros i a' Hi (Hl' & Hat). simpl. destruct (decide (q <= i)).
          * rewrite rdw_ok, rbind_ok, wrw_ok by lia. simpl. split; [by rewrite insert_length|]. intros k Hk.
            rewrite at_ins by lia. destruct (decide (k = i)) as [->|].
            -- rewrite decide_True by lia. rewrite decide_True by lia. rewrite Hat, decide_False by lia. done.
            -- rewrite Hat by lia. destruct (decide (S i <= k)); [rewrite (decide_True (P := i <= k)) by lia; done|].
               rewrite (decide_False (P := i <= k)) by lia. done.
          * rewrite rbind_ok, wrw_ok by lia. simpl. split; [by rewrite insert_length|]. intros k Hk.
            rewrite at_ins by lia. destruct (decide (k = i)) as [->|].
            -- rewrite decide_True by lia. rewrite decide_False by lia. done.
            -- rewrite Hat by lia. destruct (decide (S i <= k)); [rewrite (decide_True (P := i <= k)) by lia; done|].
               rewrite (decide_False (P := i <= k)) by lia. done.
        + intros a' (Hl' & Hat). split; [done|]. intros k Hk. by rewrite Hat.
      - apply wp_ok. split; [done|]. intros k Hk. rewrite decide_True by lia. f_equal. lia. }
    eapply wp_mono; [exact H1|]. clear H1. intros a1 (Hl1 & Ha1).
    assert (Hg1 : forall k, k <= W -> good (at_ a1 k)).
    { intros k Hk. rewrite Ha1 by done. destruct (decide _); [apply Hg; lia|apply good0]. }
    apply wp_bind.
    assert (H2 : wp (if decide (r <> 0) then
            a <~ fdown W 1 (fun Wpos a =>
              x <~ rdw a Wpos ;; x <~ shl Ty x (Z.of_nat r) ;;
              y <~ rdw a (Wpos - 1) ;; y <~ shr Ty y (Z.of_nat (B - r)) ;; wrw a Wpos (Z.lor x y)) a1 ;;
            x <~ rdw a 0 ;; x <~ shl Ty x (Z.of_nat r) ;; wrw a 0 x
          else Ok a1) (fun a' => wf a' /\ forall k j, k <= W -> j < B -> tb a' k j =
            if decide (r <= j) then tb a1 k (j - r) else if decide (k = 0) then false else tb a1 (k - 1) (j + B - r))).
    { destruct (decide (r <> 0)) as [Hr|Hr].
      - apply wp_bind. apply (wp_fdown (fun n a' => length a' = W + 1 /\ forall k, k <= W ->
          at_ a' k = if decide (n < k) then Z.lor (cast Ty (at_ a1 k * 2 ^ Z.of_nat r)) (at_ a1 (k - 1) / 2 ^ Z.of_nat (B - r))%Z else at_ a1 k)).
        + split; [done|]. intros k Hk. rewrite decide_False by lia. done.
        + intros i a' Hi (Hl' & Hat). replace (1 + i) with (S i) by lia.
          rewrite rdw_ok, rbind_ok, shl_word, rbind_ok, rdw_ok, rbind_ok, shr_word, rbind_ok, wrw_ok by lia. simpl.
          split; [by rewrite insert_length|]. intros k Hk. rewrite at_ins by lia. destruct (decide (k = S i)) as [->|].
          * rewrite (decide_True (P := i < S i)) by lia. rewrite !Hat by lia. rewrite !decide_False by lia. done.
          * rewrite Hat by lia. destruct (decide (S i < k)); [rewrite (decide_True (P := i < k)) by lia; done|].
            rewrite (decide_False (P := i < k)) by lia. done.
        + intros a' (Hl' & Hat). rewrite rdw_ok, rbind_ok, shl_word, rbind_ok, wrw_ok by lia. simpl.
          assert (Hfin : forall k, k <= W -> at_ (<[0:=cast Ty (at_ a' 0 * 2 ^ Z.of_nat r)]> a') k =
            if decide (k = 0) then cast Ty (at_ a1 0 * 2 ^ Z.of_nat r)
            else Z.lor (cast Ty (at_ a1 k * 2 ^ Z.of_nat r)) (at_ a1 (k - 1) / 2 ^ Z.of_nat (B - r))%Z).
          { intros k Hk. rewrite at_ins by lia. destruct (decide (k = 0)); rewrite Hat by lia.
            - by rewrite decide_False by lia.
            - by rewrite decide_True by lia. }
          split; [split; [by rewrite insert_length|]|].
          * intros k Hk. rewrite Hfin by done. destruct (decide _); [apply good_cast|].
            apply good_lor; [apply good_cast|apply good_shr, Hg1; lia].
          * intros k j Hk Hj. unfold tb. rewrite Hfin by done. destruct (decide (k = 0)) as [->|].
            -- rewrite bit_shl by done. destruct (decide (j < r)); [rewrite decide_False by lia; done|].
               rewrite (decide_True (P := r <= j)) by lia. done.
            -- rewrite Z.lor_spec, bit_shl, bit_shr by done. destruct (decide (j < r)).
               ++ rewrite (decide_False (P := r <= j)) by lia. simpl. f_equal. lia.
               ++ rewrite (decide_True (P := r <= j)) by lia. rewrite (good_bit (at_ a1 (k - 1))); [apply orb_false_r|apply Hg1; lia|lia].
      - apply wp_ok. split; [done|]. intros k j Hk Hj. rewrite decide_True by lia. f_equal. lia. }
    eapply wp_mono; [exact H2|]. clear H2. intros a2 (Hwf2 & Hb2).
    apply Trim_ok; [done|]. intros k j Hk Hj HkN. rewrite Hb2 by done.
    assert (Htb : forall k j, k <= W -> j < B -> tb a1 k j = if decide (q <= k) then pad f ((k - q) * B + j) else false).
    { intros k' j' Hk' Hj'. unfold tb. rewrite Ha1 by done. destruct (decide (q <= k')); [apply Hb; lia|apply Z.bits_0]. }
    destruct (decide (r <= j)).
    - rewrite Htb by lia. destruct (decide (q <= k)).
      + unfold pad. rewrite decide_True by nia. rewrite decide_False by nia. f_equal. nia.
      + rewrite decide_True by nia. done.
    - destruct (decide (k = 0)) as [->|].
      + rewrite decide_True by nia. done.
      + rewrite Htb by lia. destruct (decide (q <= k - 1)).
        * unfold pad. rewrite decide_True by nia. rewrite decide_False by nia. f_equal. nia.
        * rewrite decide_True by nia. done.
  Qed.

  Lemma shr_eq_ok a f p : rep a f -> wp (shr_eq N a p) (fun a' => rep a' (fun i => if decide (i + p < N) then f (i + p) else false)).
  Proof.
    intros [[Hl Hg] Hb]. pose proof B_cases as HB. pose proof W_bounds as [HW HW']. unfold shr_eq. set (q := p / B).
    assert (Hp : p = q * B + p mod B /\ p mod B < B).
    { pose proof (Nat.div_mod_eq p B). pose proof (Nat.mod_upper_bound p B ltac:(lia)). unfold q. lia. }
    set (r := p mod B) in *.
    apply wp_bind.
    assert (H1 : wp (if decide (q <> 0) then
            fup (W + 1) 0 (fun Wpos a =>
              w <~ (if decide (q <= W - Wpos) then rdw a (Wpos + q) else Ok 0%Z) ;; wrw a Wpos w) a
          else Ok a) (fun a' => length a' = W + 1 /\ forall k, k <= W -> at_ a' k = if decide (k + q <= W) then at_ a (k + q) else 0%Z)).
    { destruct (decide (q <> 0)) as [Hq|Hq].
      - apply (wp_fup (fun n a' => length a' = W + 1 /\ forall k, k <= W ->
          at_ a' k = if decide (k < n) then (if decide (k + q <= W) then at_ a (k + q) else 0%Z) else at_ a k)).
        + split; [done|]. intros k Hk. rewrite decide_False by lia. done.
        + intros i a' Hi (Hl' & Hat). assert (Hv : wp (if decide (q <= W - i) then rdw a' (i + q) else Ok 0%Z)
            (fun w => w = if decide (i + q <= W) then at_ a (i + q) else 0%Z)).
          { destruct (decide (q <= W - i)).
            - rewrite rdw_ok by lia. simpl. rewrite (decide_True (P := i + q <= W)) by lia. rewrite Hat by lia. by rewrite decide_False by lia.
            - simpl. by rewrite decide_False by lia. }
          apply wp_bind. eapply wp_mono; [exact Hv|]. intros w ->. rewrite wrw_ok by lia. simpl. split; [by rewrite insert_length|].
          intros k Hk. rewrite at_ins by lia. destruct (decide (k = i)) as [->|].
          * by rewrite (decide_True (P := i < S i)) by lia.
          * rewrite Hat by lia. destruct (decide (k < i)); [by rewrite (decide_True (P := k < S i)) by lia|].
            by rewrite (decide_False (P := k < S i)) by lia.
        + intros a' (Hl' & Hat). split; [done|]. intros k Hk. rewrite Hat by done. by rewrite (decide_True (P := k < _)) by lia.
      - apply wp_ok. split; [done|]. intros k Hk. rewrite decide_True by lia. f_equal. lia. }
    eapply wp_mono; [exact H1|]. clear H1. intros a1 (Hl1 & Ha1).
    assert (Hg1 : forall k, k <= W -> good (at_ a1 k)).
    { intros k Hk. rewrite Ha1 by done. destruct (decide _); [apply Hg; lia|apply good0]. }
    assert (Htb : forall k j, k <= W -> j < B -> tb a1 k j = if decide (k + q <= W) then pad f ((k + q) * B + j) else false).
    { intros k' j' Hk' Hj'. unfold tb. rewrite Ha1 by done. destruct (decide (k' + q <= W)); [apply Hb; lia|apply Z.bits_0]. }
    assert (H2 : wp (if decide (r <> 0) then
        a <~ fup W 0 (fun Wpos a =>
          x <~ rdw a Wpos ;; x <~ shr Ty x (Z.of_nat r) ;;
          y <~ rdw a (Wpos + 1) ;; y <~ shl Ty y (Z.of_nat (B - r)) ;; wrw a Wpos (Z.lor x y)) a1 ;;
        x <~ rdw a W ;; x <~ shr Ty x (Z.of_nat r) ;; wrw a W x
      else Ok a1) (fun a' => wf a' /\ forall k j, k <= W -> j < B -> tb a' k j =
            if decide (j + r < B) then tb a1 k (j + r) else if decide (k = W) then false else tb a1 (k + 1) (j + r - B))).
    { destruct (decide (r <> 0)) as [Hr|Hr].
      - apply wp_bind. apply (wp_fup (fun n a' => length a' = W + 1 /\ forall k, k <= W ->
          at_ a' k = if decide (k < n) then Z.lor (at_ a1 k / 2 ^ Z.of_nat r)%Z (cast Ty (at_ a1 (k + 1) * 2 ^ Z.of_nat (B - r))) else at_ a1 k)).
        + split; [done|]. intros k Hk. rewrite decide_False by lia. done.
        + intros i a' Hi (Hl' & Hat).
          rewrite rdw_ok, rbind_ok, shr_word, rbind_ok, rdw_ok, rbind_ok, shl_word, rbind_ok, wrw_ok by lia. simpl.
          split; [by rewrite insert_length|]. intros k Hk. rewrite at_ins by lia. destruct (decide (k = i)) as [->|].
          * rewrite (decide_True (P := i < S i)) by lia. rewrite !Hat by lia. rewrite !decide_False by lia. done.
          * rewrite Hat by lia. destruct (decide (k < i)); [by rewrite (decide_True (P := k < S i)) by lia|].
            by rewrite (decide_False (P := k < S i)) by lia.
        + intros a' (Hl' & Hat). rewrite rdw_ok, rbind_ok, shr_word, rbind_ok, wrw_ok by lia. simpl.
          assert (Hfin : forall k, k <= W -> at_ (<[W:=(at_ a' W / 2 ^ Z.of_nat r)%Z]> a') k =
            if decide (k = W) then (at_ a1 W / 2 ^ Z.of_nat r)%Z
            else Z.lor (at_ a1 k / 2 ^ Z.of_nat r)%Z (cast Ty (at_ a1 (k + 1) * 2 ^ Z.of_nat (B - r)))).
          { intros k Hk. rewrite at_ins by lia. destruct (decide (k = W)); rewrite Hat by lia.
            - by rewrite decide_False by lia.
            - by rewrite decide_True by lia. }
          split; [split; [by rewrite insert_length|]|].
          * intros k Hk. rewrite Hfin by done. destruct (decide _); [apply good_shr, Hg1; lia|].
            apply good_lor; [apply good_shr, Hg1; lia|apply good_cast].
          * intros k j Hk Hj. unfold tb. rewrite Hfin by done. destruct (decide (k = W)) as [->|].
            -- rewrite bit_shr by done. destruct (decide (j + r < B)); [done|]. apply good_bit; [auto|lia].
            -- rewrite Z.lor_spec, bit_shl, bit_shr by done. destruct (decide (j + r < B)).
               ++ rewrite (decide_True (P := j < B - r)) by lia. apply orb_false_r.
               ++ rewrite (decide_False (P := j < B - r)) by lia. rewrite (good_bit (at_ a1 k)); [|auto|lia]. simpl. f_equal. lia.
      - apply wp_ok. split; [done|]. intros k j Hk Hj. rewrite decide_True by lia. f_equal. lia. }
    eapply wp_mono; [exact H2|]. clear H2. intros a2 (Hwf2 & Hb2). split; [done|].
    intros k j Hk Hj. rewrite Hb2 by done. unfold pad at 1.
    destruct (decide (j + r < B)).
    - rewrite Htb by lia. destruct (decide (k + q <= W)).
      + unfold pad. destruct (decide ((k + q) * B + (j + r) < N)).
        * rewrite !decide_True by nia. f_equal. nia.
        * destruct (decide (k * B + j < N)); [|done]. by rewrite decide_False by nia.
      + destruct (decide (k * B + j < N)); [|done]. by rewrite decide_False by nia.
    - destruct (decide (k = W)) as [->|].
      + destruct (decide (W * B + j < N)); [|done]. by rewrite decide_False by nia.
      + rewrite Htb by lia. destruct (decide (k + 1 + q <= W)).
        * unfold pad. destruct (decide ((k + 1 + q) * B + (j + r - B) < N)).
          -- rewrite !decide_True by nia. f_equal. nia.
          -- destruct (decide (k * B + j < N)); [|done]. by rewrite decide_False by nia.
        * destruct (decide (k * B + j < N)); [|done]. by rewrite decide_False by nia.
  Qed.

  Lemma at_map (h : Z -> Z) a k : k < length a -> at_ (h <$> a) k = h (at_ a k).
  Proof. intros H. unfold at_. rewrite list_lookup_fmap. destruct (lookup_lt_is_Some_2 a k H) as [w ->]. done. Qed.
  Lemma set_all_ok a : length a = W + 1 -> wp (set_all N a) (fun a' => rep a' (fun _ => true)).
  Proof.
    intros Hl. apply Trim_ok.
    - split; [by rewrite fmap_length|]. intros k Hk. rewrite at_map by lia. apply good_cast.
    - intros k j Hk Hj _. unfold tb. rewrite at_map by lia. rewrite bit_cast by done. apply Z.bits_m1. lia.
  Qed.
  Lemma reset_all_ok a : length a = W + 1 -> wp (reset_all a) (fun a' => rep a' (fun _ => false)).
  Proof.
    intros Hl. apply wp_ok. split; [split; [by rewrite fmap_length|]|].
    - intros k Hk. rewrite at_map by lia. apply good0.
    - intros k j Hk Hj. unfold tb, pad. rewrite at_map by lia. rewrite Z.bits_0. by destruct (decide _).
  Qed.
  Lemma flip_all_ok a f : rep a f -> wp (flip_all N a) (fun a' => rep a' (fun i => negb (f i))).
  Proof.
    intros [[Hl Hg] Hb]. unfold flip_all. apply wp_bind.
    apply (wp_fup (fun n a' => length a' = W + 1 /\ forall k, at_ a' k = if decide (k < n) then not_ N (at_ a k) else at_ a k)).
    - split; [done|]. intros k. by rewrite decide_False by lia.
    - intros i a' Hi (Hl' & Hat). rewrite rdw_ok, rbind_ok, wrw_ok by lia. simpl. split; [by rewrite insert_length|].
      intros k. rewrite at_ins by lia. destruct (decide (k = i)) as [->|].
      + rewrite (decide_True (P := i < S i)) by lia. by rewrite Hat, decide_False by lia.
      + rewrite Hat. destruct (decide (k < i)); [by rewrite (decide_True (P := k < S i)) by lia|].
        by rewrite (decide_False (P := k < S i)) by lia.
    - intros a' (Hl' & Hat). apply Trim_ok.
      + split; [done|]. intros k Hk. rewrite Hat, decide_True by lia. apply good_cast.
      + intros k j Hk Hj HkN. unfold tb. rewrite Hat, decide_True, bit_not by lia. f_equal.
        specialize (Hb k j Hk Hj). unfold tb, pad in Hb. by rewrite decide_True in Hb.
  Qed.
  Lemma good_not z : good (not_ N z).
  Proof. apply good_cast. Qed.

  Lemma word_upd a f i w (v : bool) : rep a f -> i < N -> good w ->
    (forall j, j < B -> bit w j = if decide (j = i mod B) then v else tb a (i / B) j) ->
    rep (<[i / B := w]> a) (fun k => if decide (k = i) then v else f k).
  Proof.
    intros [[Hl Hg] Hb] Hi Hw Hbit. destruct (idx i Hi) as (H1 & H2 & H3). pose proof B_cases as HB. split; [split; [by rewrite insert_length|]|].
    - intros k Hk. rewrite at_ins by lia. destruct (decide _); auto.
    - intros k j Hk Hj. unfold tb. rewrite at_ins by lia. destruct (decide (k = i / B)) as [->|].
      + rewrite Hbit by done. rewrite Hb by done. unfold pad. destruct (decide (j = i mod B)) as [->|].
        * rewrite <-H3. rewrite decide_True by done. by rewrite decide_True.
        * destruct (decide (i / B * B + j < N)); [|done]. by rewrite decide_False by lia.
      + specialize (Hb k j Hk Hj). unfold tb in Hb. rewrite Hb. unfold pad.
        destruct (decide (k * B + j < N)); [|done]. rewrite decide_False; [done|].
        intros E. apply n. rewrite <-E. rewrite Nat.div_add_l by lia. rewrite Nat.div_small by done. lia.
  Qed.
  Lemma Set_unchecked_ok a f i v : rep a f -> i < N ->
    wp (Set_unchecked N a i v) (fun a' => rep a' (fun k => if decide (k = i) then v else f k)).
  Proof.
    intros Hr Hi. pose proof Hr as [[Hl Hg] Hb]. destruct (idx i Hi) as (H1 & H2 & H3). unfold Set_unchecked.
    rewrite rdw_ok, rbind_ok by lia. destruct (bitmask_ok i) as [-> _]. rewrite rbind_ok, wrw_ok by lia. simpl.
    apply word_upd; try done.
    - destruct v; [apply good_lor|apply good_land]; auto using good_mask, good_not.
    - intros j Hj. destruct v.
      + rewrite Z.lor_spec, bit_mask. destruct (decide (j = i mod B)).
        * rewrite bool_decide_true by done. apply orb_true_r.
        * rewrite bool_decide_false by done. apply orb_false_r.
      + rewrite Z.land_spec, bit_not, bit_mask by done. destruct (decide (j = i mod B)).
        * rewrite bool_decide_true by done. apply andb_false_r.
        * rewrite bool_decide_false by done. apply andb_true_r.
  Qed.
  Lemma Flip_unchecked_ok a f i : rep a f -> i < N ->
    wp (Flip_unchecked N a i) (fun a' => rep a' (fun k => if decide (k = i) then negb (f i) else f k)).
  Proof.
    intros Hr Hi. pose proof Hr as [[Hl Hg] Hb]. destruct (idx i Hi) as (H1 & H2 & H3). unfold Flip_unchecked.
    rewrite rdw_ok, rbind_ok by lia. destruct (bitmask_ok i) as [-> _]. rewrite rbind_ok, wrw_ok by lia. simpl.
    apply word_upd; try done.
    - apply good_lxor; auto using good_mask.
    - intros j Hj. rewrite Z.lxor_spec, bit_mask. destruct (decide (j = i mod B)) as [->|].
      + rewrite bool_decide_true by done. rewrite xorb_true_r. f_equal. by apply (rep_tb a f i).
      + rewrite bool_decide_false by done. apply xorb_false_r.
  Qed.
  Lemma rep_ext a f g : rep a f -> (forall i, i < N -> f i = g i) -> rep a g.
  Proof. intros [Hw Hb] H. split; [done|]. intros k j Hk Hj. rewrite Hb by done. unfold pad. destruct (decide _); auto. Qed.

  (** predicates *)
  Lemma word_zero a f k : rep a f -> k <= W -> at_ a k = 0%Z <-> forall j, j < B -> k * B + j < N -> f (k * B + j) = false.
  Proof.
    intros [[Hl Hg] Hb] Hk. split.
    - intros H0 j Hj HN. specialize (Hb k j Hk Hj). unfold tb, pad in Hb. by rewrite H0, Z.bits_0, decide_True in Hb.
    - intros H. apply bits_ext; [by apply Hg|apply good0|]. intros j Hj. rewrite Z.bits_0. specialize (Hb k j Hk Hj).
      unfold tb, pad in Hb. rewrite Hb. destruct (decide _); auto.
  Qed.
  Lemma fold_or a (P : Z -> bool) n lo : forall (acc : bool), lo + n <= length a ->
    wp (fup n lo (fun i r => x <~ rdw a i ;; Ok (r || P x)) acc)
      (fun r => r = true <-> acc = true \/ exists k, lo <= k < lo + n /\ P (at_ a k) = true).
  Proof.
    intros acc Hn. apply (wp_fup (fun i (r : bool) => r = true <-> acc = true \/ exists k, lo <= k < i /\ P (at_ a k) = true)).
    - split; [by left|]. intros [?|(k & Hk & _)]; [done|lia].
    - intros i r Hi Hr. rewrite rdw_ok, rbind_ok by lia. simpl. rewrite orb_true_iff, Hr. split.
      + intros [[?|(k & Hk & HP)]|HP]; [by left|right; exists k; split; [lia|done]|right; exists i; split; [lia|done]].
      + intros [?|(k & Hk & HP)]; [by left; left|]. destruct (decide (k = i)) as [->|]; [by right|].
        left. right. exists k. split; [lia|done].
    - intros r Hr. exact Hr.
  Qed.
  Lemma fold_and a (P : Z -> bool) n lo : forall (acc : bool), lo + n <= length a ->
    wp (fup n lo (fun i r => x <~ rdw a i ;; Ok (r && P x)) acc)
      (fun r => r = true <-> acc = true /\ forall k, lo <= k < lo + n -> P (at_ a k) = true).
  Proof.
    intros acc Hn. apply (wp_fup (fun i (r : bool) => r = true <-> acc = true /\ forall k, lo <= k < i -> P (at_ a k) = true)).
    - split; [|tauto]. intros. split; [done|]. lia.
    - intros i r Hi Hr. rewrite rdw_ok, rbind_ok by lia. simpl. rewrite andb_true_iff, Hr. split.
      + intros [[? H] HP]. split; [done|]. intros k Hk. destruct (decide (k = i)) as [->|]; [done|]. apply H. lia.
      + intros [? H]. split_and!; [done| |apply H; lia]. intros k Hk. apply H. lia.
    - intros r Hr. exact Hr.
  Qed.
  Lemma any_ok a f : rep a f -> wp (any N a) (fun r => r = true <-> exists i, i < N /\ f i = true).
  Proof.
    intros Hr. pose proof Hr as [[Hl Hg] Hb]. eapply wp_mono; [apply fold_or; lia|]. intros r ->. split.
    - intros [?|(k & Hk & HP)]; [done|]. apply negb_true_iff, Z.eqb_neq in HP.
      assert (Hd : Decision (exists j, j < B /\ k * B + j < N /\ f (k * B + j) = true)).
      { destruct (decide (Exists (fun j => k * B + j < N /\ f (k * B + j) = true) (seq 0 B))) as [H|H].
        - left. apply list.Exists_exists in H as (j & Hj & H). apply elem_of_seq in Hj. exists j. split; [lia|done].
        - right. intros (j & Hj & H'). apply H. apply list.Exists_exists. exists j. split; [apply elem_of_seq; lia|done]. }
      destruct Hd as [(j & Hj & HN & H)|Hno]; [by exists (k * B + j)|]. exfalso. apply HP.
      apply (word_zero a f k Hr ltac:(lia)). intros j Hj HN. destruct (f (k * B + j)) eqn:E; [|done]. exfalso. apply Hno. eauto.
    - intros (i & Hi & Hf). right. destruct (idx i Hi) as (H1 & H2 & H3). exists (i / B). split; [lia|].
      apply negb_true_iff, Z.eqb_neq. intros H0. rewrite (word_zero a f) in H0 by done.
      specialize (H0 _ H2). rewrite <-H3 in H0. rewrite H0 in Hf by done. done.
  Qed.
  Lemma eq_ok a b f g : rep a f -> rep b g -> wp (BitsetModel.eq N a b) (fun r => r = true <-> forall i, i < N -> f i = g i).
  Proof.
    intros Ha Hb. pose proof Ha as [[Hla Hga] Hba]. pose proof Hb as [[Hlb Hgb] Hbb]. unfold BitsetModel.eq.
    apply (wp_fup (fun i (r : bool) => r = true <-> forall k, k < i -> at_ a k = at_ b k)).
    - split; [lia|done].
    - intros i r Hi Hr. rewrite !rdw_ok, !rbind_ok by lia. simpl. rewrite andb_true_iff, Hr, Z.eqb_eq. split.
      + intros [H HP] k Hk. destruct (decide (k = i)) as [->|]; [done|]. apply H. lia.
      + intros H. split; [intros k Hk|]; apply H; lia.
    - intros r ->. split.
      + intros H i Hi. destruct (idx i Hi) as (H1 & H2 & H3). rewrite <-(rep_tb a f i), <-(rep_tb b g i) by done.
        unfold tb. by rewrite H by lia.
      + intros H k Hk. apply bits_ext; [apply Hga; lia|apply Hgb; lia|]. intros j Hj.
        specialize (Hba k j ltac:(lia) Hj). specialize (Hbb k j ltac:(lia) Hj). unfold tb in *. rewrite Hba, Hbb. unfold pad.
        destruct (decide _); auto.
  Qed.
  Lemma word_full a f k : rep a f -> k <= W -> (k + 1) * B <= N ->
    at_ a k = not_ N 0 <-> forall j, j < B -> f (k * B + j) = true.
  Proof.
    intros [[Hl Hg] Hb] Hk HN. split.
    - intros H0 j Hj. specialize (Hb k j Hk Hj). unfold tb, pad in Hb. rewrite H0, bit_not, Z.bits_0, decide_True in Hb by (done || nia). done.
    - intros H. apply bits_ext; [by apply Hg|apply good_not|]. intros j Hj. rewrite bit_not, Z.bits_0 by done. specialize (Hb k j Hk Hj).
      unfold tb, pad in Hb. rewrite Hb. rewrite decide_True by nia. auto.
  Qed.
  Lemma all_ok a f : rep a f -> wp (all N a) (fun r => r = true <-> forall i, i < N -> f i = true).
  Proof.
    intros Hr. pose proof Hr as [[Hl Hg] Hb]. pose proof B_cases as HB. pose proof W_bounds as [HW HW'].
    unfold all. destruct (decide (N = 0)); [simpl; split; [lia|done]|].
    assert (HNW : (N mod B = 0 -> N = (W + 1) * B) /\ (N mod B <> 0 -> N = W * B + N mod B)).
    { pose proof (Nat.div_mod_eq N B) as HD. pose proof (Nat.mod_upper_bound N B ltac:(lia)). specialize (HW' ltac:(lia)). split.
      - intros H0. assert (W < N / B <= W + 1) as HH; [|assert (N / B = W + 1) as E by lia; rewrite E in HD; lia]. split.
        + assert (W * B < B * (N / B)) by lia. nia.
        + assert (B * (N / B) <= B * (W + 1)) by lia. nia.
      - intros H0. assert (N / B = W) as E; [|rewrite E in HD; lia]. symmetry. apply (Nat.div_unique _ _ _ (N - W * B)); [|lia].
        destruct (decide (N - W * B < B)); [done|]. exfalso. apply H0. assert (N = (W + 1) * B) as E by lia. rewrite E at 1. apply Nat.mod_mul. lia. }
    destruct HNW as [HN0 HN1]. case_bool_decide as Hnp.
    - apply wp_bind. eapply wp_mono; [apply fold_and; lia|]. intros r Hrr. assert (Hiff : r = true <-> forall i, i < N -> f i = true).
      { rewrite Hrr. split.
        - intros [_ H] i Hi. destruct (idx i Hi) as (H1 & H2 & H3). rewrite H3.
          apply (word_full a f (i / B)); [done|done|pose proof (HN0 Hnp); nia| |done]. apply Z.eqb_eq, H. lia.
        - intros H. split; [done|]. intros k Hk. apply Z.eqb_eq. apply (word_full a f k); [done|lia|pose proof (HN0 Hnp); nia|].
          intros j Hj. apply H. pose proof (HN0 Hnp). nia. }
      destruct r; simpl; rewrite <-Hiff; done.
    - apply wp_bind. eapply wp_mono; [apply fold_and; lia|]. intros r Hrr. rewrite Nat.add_0_r in Hrr.
      destruct (bitmask_ok N) as [Hbm Hm]. rewrite Hbm. rewrite rdw_ok by lia. set (m := N mod B) in *.
      assert (HNm : N = W * B + m) by auto.
      assert (Hlast : at_ a W = Z.ones (Z.of_nat m) <-> forall j, j < m -> f (W * B + j) = true).
      { split.
        - intros H0 j Hj. specialize (Hb W j ltac:(lia) ltac:(lia)). unfold tb, pad in Hb. rewrite H0, bit_ones, decide_True in Hb by lia.
          rewrite <-Hb. by rewrite bool_decide_true.
        - intros H. apply bits_ext; [by apply Hg| |].
          + apply good_range. rewrite Z.ones_equiv. pose proof (proj1 (good_range _) (good_mask m Hm)).
            assert (0 < 2 ^ Z.of_nat m)%Z by (apply Z.pow_pos_nonneg; lia). lia.
          + intros j Hj. rewrite bit_ones. specialize (Hb W j ltac:(lia) Hj). unfold tb, pad in Hb. rewrite Hb.
            case_bool_decide; [rewrite decide_True by lia; auto|rewrite decide_False by lia; done]. }
      destruct r.
      + rewrite !rbind_ok, lowmask_ok, rbind_ok by done. simpl. rewrite Z.eqb_eq, Hlast. destruct Hrr as [Hrr _].
        destruct (Hrr eq_refl) as [_ Hfull]. split.
        * intros H i Hi. destruct (idx i Hi) as (H1 & H2 & H3). destruct (decide (i / B = W)) as [E|E].
          -- rewrite H3, E. apply H. rewrite E in H3. lia.
          -- rewrite H3. apply (word_full a f (i / B)); [done|done|nia| |done]. apply Z.eqb_eq, Hfull. lia.
        * intros H j Hj. apply H. lia.
      + simpl. split; [done|]. intros H. exfalso. assert (false = true) as E; [|done]. apply Hrr. split; [done|].
        intros k Hk. apply Z.eqb_eq. apply (word_full a f k); [done|lia|nia|]. intros j Hj. apply H. nia.
  Qed.
End bitset.
