(** uniform_int_distribution, shuffle, sample *)
From stdpp Require Import base list numbers list_numbers.
From Coq Require Import ZArith Lia Factorial.
From Verif Require Import Base.Res Base.Int Rand.UniformModel Rand.UniformSpec Rand.UniformCount Rand.UniformProofs.
Local Open Scope Z_scope.

(** *** uniform_int_distribution *)
Section dist.
  Context (ty u : ity) (mn mx : Z).
  Hypothesis Hty : std_ity ty.
  Hypothesis Hu : std_uint u.
  Hypothesis Hr : 0 <= mn < mx /\ mx < 2 ^ wd u.
  Notation n := (wd ty). Notation uty := (make_unsigned ty). Notation V := (values mn mx).
  Lemma n_facts : 8 <= n <= 64 /\ 2 ^ n = 2 * 2 ^ (n - 1) /\ 0 < 2 ^ (n - 1).
  Proof. pose proof (wd_pos ty Hty). split; [done|]. split; [rewrite <-Z.pow_succ_r by lia; f_equal; lia|]. apply Z.pow_pos_nonneg; lia. Qed.
  Lemma uok : rng_ok uty u mn mx.
  Proof. split; [exact Hty|done|done]. Qed.
  Lemma castuty x : cast uty x = x mod 2 ^ n.
  Proof. done. Qed.
  Lemma lxor_top v : 0 <= v < 2 ^ n -> Z.lxor v (2 ^ (n - 1)) = (v + 2 ^ (n - 1)) mod 2 ^ n.
  Proof.
    destruct n_facts as (Hn & Hp & Hpos). intros Hv.
    assert (H1 : forall x, 0 <= x < 2 ^ (n - 1) -> Z.lxor x (2 ^ (n - 1)) = x + 2 ^ (n - 1)).
    { intros x Hx. symmetry. apply Z.add_nocarry_lxor. apply Z.bits_inj'. intros i Hi. rewrite Z.land_spec, Z.bits_0, Z.pow2_bits_eqb by lia. destruct (Z.eqb_spec (n - 1) i) as [<-|]; [|by rewrite andb_false_r].
      destruct (Z.eq_dec x 0) as [->|]; [by rewrite Z.bits_0|]. rewrite Z.bits_above_log2; [done|lia|]. apply Z.log2_lt_pow2; lia. }
    destruct (Z.lt_ge_cases v (2 ^ (n - 1))) as [Hlt|Hge].
    - rewrite H1, Z.mod_small by lia. done.
    - replace v with ((v - 2 ^ (n - 1)) + 2 ^ (n - 1)) at 1 by lia. rewrite <-H1 by lia. rewrite Z.lxor_assoc, Z.lxor_nilpotent, Z.lxor_0_r.
      apply Z.mod_unique with 1; [left|]; lia.
  Qed.
  Lemma top_val : cast uty (-1) / 2 + 1 = 2 ^ (n - 1).
  Proof.
    destruct n_facts as (Hn & Hp & Hpos). rewrite castuty. assert (-1 mod 2 ^ n = 2 ^ n - 1) as -> by (symmetry; apply Z.mod_unique with (-1); lia).
    assert ((2 ^ n - 1) / 2 = 2 ^ (n - 1) - 1) as ->; [|lia]. symmetry. apply Z.div_unique with 1; lia.
  Qed.
  Lemma Adjust_in z : in_t ty z -> Adjust ty (cast uty z) = z - tmin ty.
  Proof.
    destruct n_facts as (Hn & Hp & Hpos). unfold Adjust, in_t, tmin, tmax. rewrite top_val. destruct (sg ty); intros Hz.
    - rewrite !castuty. rewrite lxor_top by (apply Z.mod_pos_bound; lia). rewrite Z.mod_mod by lia. rewrite Z.add_mod_idemp_l by lia. rewrite Z.mod_small by lia. lia.
    - rewrite castuty, Z.mod_small by lia. lia.
  Qed.
  Lemma Adjust_out v : 0 <= v < 2 ^ n -> cast ty (Adjust ty v) = v + tmin ty.
  Proof.
    destruct n_facts as (Hn & Hp & Hpos). intros Hv. unfold Adjust. rewrite top_val. unfold cast, tmin. destruct (sg ty).
    - rewrite lxor_top by done. cbn [sg make_unsigned wd]. rewrite Z.mod_mod by lia. rewrite Z.add_mod_idemp_l by lia.
      replace (v + 2 ^ (n - 1) + 2 ^ (n - 1)) with (v + 1 * 2 ^ n) by lia. rewrite Z.mod_add, Z.mod_small by lia. lia.
    - rewrite Z.mod_small by lia. lia.
  Qed.
  Lemma arith_sum x : 0 <= x < 2 * 2 ^ n -> exists y, arith (promote uty) x = Ok y /\ cast uty y = x mod 2 ^ n /\ (x < 2 ^ n -> y = x).
  Proof.
    destruct n_facts as (Hn & Hp & Hpos). intros Hx. unfold arith, promote. cbn [wd make_unsigned]. destruct (Z.ltb_spec n 32) as [Hlt|Hge].
    - cbn [sg s32]. assert (n <= 16) by (unfold std_ity in Hty; cbn [In] in Hty; lia). assert (2 ^ n <= 2 ^ 16) by (apply Z.pow_le_mono_r; lia). change (2 ^ 16) with 65536 in *.
      rewrite decide_True by (unfold in_t, tmin, tmax; cbn [sg wd s32]; lia). exists x. done.
    - cbn [sg make_unsigned wd]. exists (x mod 2 ^ n). split; [done|]. rewrite castuty, Z.mod_mod by lia. split; [done|]. intros. apply Z.mod_small. lia.
  Qed.
  Context (lo hi : Z).
  Hypothesis Hlo : in_t ty lo. Hypothesis Hhi : in_t ty hi. Hypothesis Hle : lo <= hi.
  Definition gg (x : Z) : Z := cast ty (Adjust ty ((x + (lo - tmin ty)) mod 2 ^ n)).
  Lemma bounds : 0 <= lo - tmin ty /\ hi - tmin ty < 2 ^ n.
  Proof. destruct n_facts as (Hn & Hp & Hpos). unfold in_t, tmin, tmax in *. destruct (sg ty); lia. Qed.
  Lemma gg_val x : 0 <= x <= hi - lo -> gg x = lo + x.
  Proof. pose proof bounds. intros Hx. unfold gg. rewrite Z.mod_small by lia. rewrite Adjust_out by lia. lia. Qed.
  Lemma Eval_unif : exists uu, unif V (Eval ty u mn mx lo hi) (values lo hi) uu.
  Proof.
    destruct n_facts as (Hn & Hp & Hpos). pose proof bounds as Hb. pose proof uok as OK.
    assert (Em1 : cast uty (-1) = 2 ^ n - 1) by (rewrite castuty; symmetry; apply Z.mod_unique with (-1); lia).
    destruct (arith_sum (hi - lo) ltac:(lia)) as (df & Edf & _ & Hdf). specialize (Hdf ltac:(lia)). subst df.
    assert (Hpost : forall x (t : list Z), 0 <= x < 2 ^ n -> (s <~ arith (promote uty) (x + (lo - tmin ty)) ;; Ok (cast ty (Adjust ty (cast uty s)), t)) = Ok (gg x, t)).
    { intros x t Hx. destruct (arith_sum (x + (lo - tmin ty)) ltac:(lia)) as (y & -> & Ey & _). rewrite rbind_ok. unfold gg. by rewrite Ey. }
    assert (Hvals : forall a, a ∈ values lo hi <-> lo <= a <= hi) by (intros a; unfold values; rewrite elem_of_seqZ; lia).
    destruct (Z.eq_dec (hi - lo) (2 ^ n - 1)) as [Efull|Hnf].
    - destruct (Get_all_bits_unif uty u mn mx OK) as (uu & U). set (w := wd (Udiff uty u)) in *. destruct (ud_facts uty u mn mx OK) as (_ & Hw & _ & Hnw & _). fold w in Hw, Hnw. cbn [wd make_unsigned] in Hnw.
      eexists. eapply (unif_ext V (rbnd (Get_all_bits uty u mn mx) (fun r => rret (gg (cast uty r))))).
      + intros t. unfold Eval. cbv zeta. rewrite !Adjust_in by done. replace (hi - tmin ty - (lo - tmin ty)) with (hi - lo) by lia. rewrite Edf, rbind_ok. rewrite (proj2 (Z.eqb_eq (hi - lo) (cast uty (-1)))) by lia.
        unfold rbnd. destruct (Get_all_bits uty u mn mx t) as [[r t']| |]; [|done|done]. rewrite !rbind_ok. rewrite Hpost; [done|]. rewrite castuty. apply Z.mod_pos_bound. lia.
      + apply (unif_map V _ _ uu _ _ (Z.to_nat (2 ^ (w - n))) U); [apply NoDup_seqZ'| | |].
        * intros r _. apply Hvals. rewrite castuty. pose proof (Z.mod_pos_bound r (2 ^ n) ltac:(lia)). rewrite gg_val by lia. lia.
        * intros k Hk%Hvals. replace (2 ^ w) with (2 ^ (w - n) * 2 ^ n) by (rewrite <-Z.pow_add_r by lia; f_equal; lia).
          rewrite <-(sm_mod (2 ^ (w - n)) (2 ^ n) (k - lo)) by (try apply Z.pow_nonneg; lia). apply sm_ext. intros r _. f_equal. apply bool_decide_ext. rewrite castuty. pose proof (Z.mod_pos_bound r (2 ^ n) ltac:(lia)). rewrite gg_val by lia. lia.
        * assert (0 < 2 ^ (w - n)); [|lia]. apply Z.pow_pos_nonneg; lia.
    - set (N := hi - lo + 1). destruct (arith_sum N ltac:(lia)) as (i & Ei & Hi & _). rewrite (Z.mod_small N) in Hi by lia.
      assert (HN : 0 < N /\ in_t uty N) by (unfold in_t, tmin, tmax; cbn [sg make_unsigned wd]; lia).
      destruct (Rng_unif uty u mn mx OK N HN) as (uu & U).
      eexists. eapply (unif_ext V (rbnd (Rng uty u mn mx N) (fun r => rret (gg (cast uty r))))).
      + intros t. unfold Eval. cbv zeta. rewrite !Adjust_in by done. replace (hi - tmin ty - (lo - tmin ty)) with (hi - lo) by lia. rewrite Edf, rbind_ok. rewrite (proj2 (Z.eqb_neq (hi - lo) (cast uty (-1)))) by lia.
        fold N. rewrite Ei, rbind_ok, Hi. unfold rbnd. destruct (Rng uty u mn mx N t) as [[r t']| |]; [|done|done]. rewrite !rbind_ok. rewrite Hpost; [done|]. rewrite castuty. apply Z.mod_pos_bound. lia.
      + apply (unif_map V _ _ uu _ _ 1 U); [apply NoDup_seqZ'| | |lia].
        * intros r Hr'%elem_of_seqZ. apply Hvals. rewrite castuty, Z.mod_small by lia. rewrite gg_val by lia. lia.
        * intros k Hk%Hvals. apply (cnt_one (fun r => gg (cast uty r)) N k (k - lo)); [lia|]. intros r Hr'. rewrite castuty, Z.mod_small by lia. rewrite gg_val by lia. lia.
  Qed.
End dist.

(** *** shuffle *)
Definition swp {A : Type} (l : list A) (i j : nat) : list A :=
  match l !! i, l !! j with Some x, Some y => <[j := x]> (<[i := y]> l) | _, _ => l end.
Section swp.
  Context {A : Type}.
  Local Open Scope nat_scope.
  Implicit Types l : list A.
  Lemma swp_length l i j : length (swp l i j) = length l.
  Proof. unfold swp. destruct (l !! i), (l !! j); rewrite ?insert_length; done. Qed.
  Lemma swp_lookup l i j m : i < length l -> j < length l -> swp l i j !! m = if decide (m = j) then l !! i else if decide (m = i) then l !! j else l !! m.
  Proof.
    intros Hi Hj. destruct (lookup_lt_is_Some_2 l i Hi) as [x Ex]. destruct (lookup_lt_is_Some_2 l j Hj) as [y Ey]. unfold swp. rewrite Ex, Ey.
    destruct (decide (m = j)) as [->|]; [rewrite list_lookup_insert by (rewrite insert_length; done); done|]. rewrite list_lookup_insert_ne by done.
    destruct (decide (m = i)) as [->|]; [by rewrite list_lookup_insert|]. by rewrite list_lookup_insert_ne by done.
  Qed.
  Lemma swp_invol l i j : i < length l -> j < length l -> swp (swp l i j) i j = l.
  Proof.
    intros Hi Hj. apply list_eq. intros m. rewrite swp_lookup by (by rewrite swp_length). rewrite !swp_lookup by done.
    repeat (case_decide; subst; try done).
  Qed.
  Lemma swp_perm l i j : i < length l -> j < length l -> swp l i j ≡ₚ l.
  Proof.
    intros Hi Hj. apply Permutation_inj. split; [apply swp_length|]. exists (fun m => if decide (m = j) then i else if decide (m = i) then j else m). split.
    - intros a b E. repeat (case_decide; subst; try done); congruence.
    - intros m. rewrite swp_lookup by done. repeat (case_decide; subst; try done).
  Qed.
  Lemma swap_at_ok l i j : i < length l -> j < length l -> swap_at l i j = Ok (swp l i j).
  Proof. intros Hi Hj. unfold swap_at, swp. destruct (lookup_lt_is_Some_2 l i Hi) as [x ->]. destruct (lookup_lt_is_Some_2 l j Hj) as [y ->]. done. Qed.
  Lemma swp_same l i : i < length l -> swp l i i = l.
  Proof. intros Hi. apply list_eq. intros m. rewrite swp_lookup by done. repeat (case_decide; subst; try done). Qed.
End swp.
Section shuffle.
  Context {A : Type} `{EqDecision A} (u : ity) (mn mx : Z).
  Hypothesis OK : rng_ok s64 u mn mx.
  Notation V := (values mn mx).
  Definition sstep (k : nat) (l : list A) : rnd (list A) :=
    rbnd (Rng s64 u mn mx (Z.of_nat k + 1)) (fun off =>
    if (0 <=? off) && (off <=? Z.of_nat k) then rlift (if off =? Z.of_nat k then Ok l else swap_at l k (Z.to_nat off)) else fun _ => UB).
  Lemma shuffle_loop_S cnt i (l : list A) t : shuffle_loop u mn mx (S cnt) i l t = rbnd (sstep i l) (shuffle_loop u mn mx cnt (S i)) t.
  Proof.
    cbn [shuffle_loop]. unfold sstep. rewrite rbnd_assoc. unfold rbnd. destruct (Rng s64 u mn mx (Z.of_nat i + 1) t) as [[off r]| |]; [|done|done]. rewrite !rbind_ok. by destruct ((0 <=? off) && (off <=? Z.of_nat i)).
  Qed.
  Lemma shuffle_loop_snoc cnt : forall i (l : list A) t, shuffle_loop u mn mx (S cnt) i l t = rbnd (shuffle_loop u mn mx cnt i l) (sstep (i + cnt)) t.
  Proof.
    induction cnt as [|cnt IH]; intros i l t.
    - rewrite shuffle_loop_S. cbn [shuffle_loop]. rewrite Nat.add_0_r. unfold rbnd at 2. unfold rret. rewrite rbind_ok. unfold rbnd. by destruct (sstep i l t) as [[? ?]| |].
    - rewrite shuffle_loop_S. transitivity (rbnd (sstep i l) (fun l => rbnd (shuffle_loop u mn mx cnt (S i) l) (sstep (i + S cnt))) t).
      + unfold rbnd at 1 2. destruct (sstep i l t) as [[l' r]| |]; [|done|done]. rewrite !rbind_ok. rewrite IH. by rewrite Nat.add_succ_comm.
      + rewrite <-rbnd_assoc. unfold rbnd at 1 3. by rewrite shuffle_loop_S.
  Qed.
  Context (l : list A).
  Hypothesis Hnd : NoDup l.
  Hypothesis Hlen : Z.of_nat (length l) < 2 ^ 63.
  (** the arrangements that agree with [l] from position k on *)
  Definition Pk (k : nat) : list (list A) := remove_dups (filter (fun p => drop k p = drop k l) (permutations l)).
  Lemma Pk_elem k p : p ∈ Pk k <-> p ≡ₚ l /\ drop k p = drop k l.
  Proof. unfold Pk. rewrite elem_of_remove_dups, elem_of_list_filter, permutations_Permutation. split; intros [? ?]; (split; [by symmetry|done]) || done. Qed.
  Lemma idx_ok k : (k < length l)%nat -> 0 < Z.of_nat k + 1 /\ in_t s64 (Z.of_nat k + 1).
  Proof. intros. split; [lia|]. unfold in_t, tmin, tmax. cbn [sg wd s64]. change (64 - 1) with 63. lia. Qed.
  Lemma sstep_eq k p t : (k < length p)%nat -> Forall (fun v => v ∈ V) t -> (k < length l)%nat ->
    sstep k p t = rbnd (Rng s64 u mn mx (Z.of_nat k + 1)) (fun off => rret (swp p k (Z.to_nat off))) t.
  Proof.
    intros Hk Ht Hkl. destruct (Rng_unif s64 u mn mx OK _ (idx_ok k Hkl)) as (uu & U). unfold sstep, rbnd. destruct (Rng s64 u mn mx (Z.of_nat k + 1) t) as [[off r]| |] eqn:E; [|done|done]. rewrite !rbind_ok.
    pose proof (uf_in _ _ _ _ U _ _ _ Ht E) as Hoff%elem_of_seqZ. rewrite (proj2 (Z.leb_le 0 off)) by lia. rewrite (proj2 (Z.leb_le off (Z.of_nat k))) by lia. cbn [andb]. unfold rlift, rret.
    destruct (Z.eqb_spec off (Z.of_nat k)) as [->|]; [rewrite rbind_ok; rewrite Nat2Z.id, swp_same by done; done|]. rewrite swap_at_ok by lia. done.
  Qed.
  Lemma Rng_causal k : (k < length l)%nat -> causal (Rng s64 u mn mx (Z.of_nat k + 1)).
  Proof. intros Hk. destruct (Rng_unif s64 u mn mx OK _ (idx_ok k Hk)) as (uu & U). apply (uf_causal _ _ _ _ U). Qed.
  Lemma sstep_causal k p : (k < length l)%nat -> causal (sstep k p).
  Proof.
    intros Hk. apply causal_bind; [by apply Rng_causal|]. intros t off r _. destruct ((0 <=? off) && (off <=? Z.of_nat k)).
    - split.
      + intros q a Hq t'. unfold rlift in *. destruct (if off =? Z.of_nat k then Ok p else swap_at p k (Z.to_nat off)); [|done|done]. rewrite rbind_ok in *. by injection Hq as -> ->.
      + intros t' a r' Hq. unfold rlift in *. destruct (if off =? Z.of_nat k then Ok p else swap_at p k (Z.to_nat off)); [|done|done]. rewrite rbind_ok in *. injection Hq as -> ->. by exists [].
    - by split.
  Qed.
  Lemma drop_lookup k (p : list A) : drop k p = drop k l <-> forall m, (k <= m)%nat -> p !! m = l !! m.
  Proof.
    split.
    - intros E m Hm. replace m with (k + (m - k))%nat by lia. by rewrite <-!lookup_drop, E.
    - intros H. apply list_eq. intros i. rewrite !lookup_drop. apply H. lia.
  Qed.
  Lemma place_one k p : (k < length l)%nat -> p ∈ Pk (S k) -> exists off, (off <= k)%nat /\ forall o, (o <= k)%nat -> swp p k o ∈ Pk k <-> o = off.
  Proof.
    intros Hk [Hp Hd]%Pk_elem. assert (Hlp : length p = length l) by (by rewrite Hp). rewrite drop_lookup in Hd. destruct (lookup_lt_is_Some_2 l k Hk) as [x Ex].
    assert (Hx : x ∈ p) by (rewrite Hp; by apply elem_of_list_lookup_2 with k). apply elem_of_list_lookup in Hx as [off Eoff]. exists off.
    assert (Hnp : NoDup p) by (by rewrite Hp).
    assert (Ho : (off <= k)%nat).
    { destruct (decide (off <= k)%nat) as [|Hgt]; [done|]. rewrite Hd in Eoff by lia. pose proof (NoDup_lookup _ _ _ _ Hnd Ex Eoff). lia. }
    split; [done|]. intros o Hok. rewrite Pk_elem, drop_lookup. split.
    - intros [_ H]. specialize (H k ltac:(lia)). rewrite swp_lookup in H by lia. destruct (decide (k = o)) as [->|].
      + rewrite Ex in H. by apply (NoDup_lookup _ _ _ _ Hnp H Eoff).
      + rewrite decide_True in H by done. rewrite Ex in H. by apply (NoDup_lookup _ _ _ _ Hnp H Eoff).
    - intros ->. split; [by rewrite (swp_perm p k off) by lia|]. intros m Hm. rewrite swp_lookup by lia. destruct (decide (m = off)) as [->|].
      + assert (off = k) as -> by lia. by rewrite Eoff.
      + destruct (decide (m = k)) as [->|]; [by rewrite Eoff|]. apply Hd. lia.
  Qed.
  Lemma shuffle_unif cnt : (S cnt <= length l)%nat -> exists uu, unif V (shuffle_loop u mn mx cnt 1 l) (Pk (S cnt)) uu.
  Proof.
    induction cnt as [|cnt IH]; intros Hc.
    - exists (delta0). cbn [shuffle_loop].
      assert (HP : forall p, p ∈ Pk 1 <-> p = l).
      { intros p. rewrite Pk_elem, drop_lookup. split; [|by intros ->]. intros [Hp Hd]. assert (Hlp : length p = length l) by (by rewrite Hp).
        destruct p as [|y p], l as [|x l']; try done. assert (p = l') as -> by (apply list_eq; intros i; apply (Hd (S i)); lia).
        apply Permutation_app_inv_r with (l := l') (l1 := [y]) (l2 := [x]) in Hp. apply Permutation_length_1 in Hp. by subst. }
      split; [apply causal_ret|apply NoDup_remove_dups| | | |].
      + intros t a r _ [= <- _]. by apply HP.
      + intros t _. done.
      + intros n a ->%HP. rewrite hits_ret. unfold delta0. apply (f_equal (fun b : bool => if b then 1%nat else 0%nat)), bool_decide_ext. naive_solver.
      + exists 0%nat. unfold delta0. rewrite bool_decide_true by done. lia.
    - destruct IH as (uu & U); [lia|]. set (k := S cnt) in *. destruct (Rng_unif s64 u mn mx OK _ (idx_ok k ltac:(lia))) as (vv & UR).
      assert (Hlk : forall p, p ≡ₚ l -> length p = length l) by (intros p ->; done).
      eexists. eapply unif_ext; [intros t; symmetry; apply shuffle_loop_snoc|]. change (1 + cnt)%nat with k.
      apply (unif_bind V _ (Pk k) uu _ (Pk (S k)) (fun p q => sm (fun off => b2n (bool_decide (swp p k (Z.to_nat off) = q))) (seqZ 0 (Z.of_nat k + 1))) vv 1 U);
        [apply NoDup_remove_dups| | | | | |lia|apply (uf_pos _ _ _ _ UR)].
      + intros t p r _. apply sstep_causal. lia.
      + intros p Hp%Pk_elem t q r Ht E. destruct Hp as [Hp Hd]. pose proof (Hlk p Hp). rewrite sstep_eq in E by (done || lia). unfold rbnd in E. destruct (Rng s64 u mn mx (Z.of_nat k + 1) t) as [[off r']| |] eqn:Er; [|done|done].
        rewrite rbind_ok in E. injection E as <- _. pose proof (uf_in _ _ _ _ UR _ _ _ Ht Er) as Ho%elem_of_seqZ. rewrite Pk_elem. split; [by rewrite (swp_perm p k (Z.to_nat off)) by lia|].
        rewrite drop_lookup in Hd |- *. intros m Hm. rewrite swp_lookup by lia. rewrite !decide_False by lia. apply Hd. lia.
      + intros p Hp%Pk_elem t Ht. destruct Hp as [Hp Hd]. pose proof (Hlk p Hp). rewrite sstep_eq by (done || lia). unfold rbnd. destruct (Rng s64 u mn mx (Z.of_nat k + 1) t) as [[off r']| |] eqn:Er; [done| |done]. by apply (uf_ub _ _ _ _ UR) in Er.
      + intros p q n Hp%Pk_elem _. destruct Hp as [Hp Hd]. pose proof (Hlk p Hp). rewrite (hits_ext V _ (rbnd (Rng s64 u mn mx (Z.of_nat k + 1)) (fun off => rret (swp p k (Z.to_nat off))))) by (intros t Ht; apply sstep_eq; (done || lia)).
        by rewrite (hits_map _ _ _ _ _ _ _ UR).
      + intros q Hq. rewrite sm_swap. destruct (place_one k q ltac:(lia) Hq) as (off & Hoff & Hone). apply Pk_elem in Hq as [Hq _]. pose proof (Hlk q Hq) as Hlq.
        rewrite (sm_ext _ (fun o => b2n (bool_decide (Z.to_nat o = off)))).
        * rewrite (cnt_interval (fun o => bool_decide (Z.to_nat o = off)) (Z.of_nat k + 1) (Z.of_nat off) (Z.of_nat off + 1)); [lia|lia|lia|]. intros x Hx. rewrite bool_decide_eq_true. lia.
        * intros o Ho%elem_of_seqZ. destruct (decide (Z.to_nat o = off)) as [Eo|Eo].
          -- rewrite (bool_decide_true (Z.to_nat o = off)) by done. rewrite (sm_ext _ (fun p => if bool_decide (p = swp q k (Z.to_nat o)) then 1%nat else 0%nat)).
             ++ rewrite sm_one; [done|apply NoDup_remove_dups|]. apply Hone; [lia|done].
             ++ intros p [Hp _]%Pk_elem. pose proof (Hlk p Hp) as Hlp. unfold b2n. apply (f_equal (fun b : bool => if b then 1%nat else 0%nat)), bool_decide_ext.
                split; [intros <-; rewrite swp_invol by lia; done|intros ->; rewrite swp_invol by lia; done].
          -- rewrite (bool_decide_false (Z.to_nat o = off)) by done. apply sm_zero. intros p Hp. pose proof Hp as [Hpp _]%Pk_elem. pose proof (Hlk p Hpp) as Hlp.
             rewrite bool_decide_false; [done|]. intros E. apply Eo. apply Hone; [lia|]. rewrite <-E. rewrite swp_invol by lia. done.
  Qed.
End shuffle.

(** *** sample *)
Section sample.
  Context {A : Type} `{EqDecision A} (u : ity) (mn mx : Z).
  Hypothesis OK : rng_ok s64 u mn mx.
  Notation V := (values mn mx).
  Notation onV t := (Forall (fun v => v ∈ V) t).
  Lemma hits_inj {B C : Type} `{EqDecision B} `{EqDecision C} (F : rnd B) (f : B -> C) n b : (forall x, f x = f b -> x = b) ->
    hits V (rbnd F (fun a => rret (f a))) n (f b) = hits V F n b.
  Proof.
    intros Hf. revert F. induction n as [|n IH]; intros F.
    - rewrite !hits_0. f_equal. unfold exact, rbnd, rret. destruct (F []) as [[x [|]]| |]; try done. rewrite rbind_ok. apply bool_decide_ext. split; [apply Hf|by intros ->].
    - rewrite !hits_S. apply sm_ext. intros v _. apply (IH (D v F)).
  Qed.
  Lemma fact_S k : (fact (S k) = S k * fact k)%nat. Proof. done. Qed.
  Lemma selection_ok (l : list A) : NoDup l -> Z.of_nat (length l) < 2 ^ 63 ->
    exists w : nat -> nat, (exists n, (0 < w n)%nat) /\ forall c, (c <= length l)%nat ->
      (forall out n, out `sublist_of` l -> length out = c -> hits V (selection u mn mx l (Z.of_nat c)) n out = (fact c * fact (length l - c) * w n)%nat) /\
      (forall t, onV t -> selection u mn mx l (Z.of_nat c) t <> UB /\ forall out r, selection u mn mx l (Z.of_nat c) t = Ok (out, r) -> out `sublist_of` l /\ length out = c).
  Proof.
    induction l as [|x l IH]; intros Hnd Hl.
    - exists delta0. split; [exists 0%nat; unfold delta0; rewrite bool_decide_true by done; lia|]. intros c Hc. cbn [length] in Hc. assert (c = 0%nat) as -> by lia. split.
      + intros out n Hs%sublist_nil_r _. subst out. cbn [selection length]. rewrite hits_ret. change (fact 0 * fact (0 - 0))%nat with 1%nat. rewrite Nat.mul_1_l. unfold delta0.
        apply (f_equal (fun b : bool => if b then 1%nat else 0%nat)), bool_decide_ext. naive_solver.
      + intros t _. cbn [selection]. split; [done|]. intros out r [= <- _]. done.
    - apply NoDup_cons in Hnd as [Hx Hnd]. cbn [length] in Hl. destruct (IH Hnd ltac:(lia)) as (w & [n1 Hw] & Hsel). clear IH.
      set (N := length (x :: l)) in *. assert (HN : 0 < Z.of_nat N /\ in_t s64 (Z.of_nat N)) by (unfold N; cbn [length]; split; [lia|]; unfold in_t, tmin, tmax; cbn [sg wd s64]; change (64 - 1) with 63; lia).
      destruct (Rng_unif s64 u mn mx OK _ HN) as (uu & U). pose proof U as [C Hnd' Hin Hub Hh [n2 Hu]].
      exists (conv uu w). split; [exists (n2 + n1)%nat; by apply conv_pos|]. intros c Hc.
      set (G := fun r : Z => if r <? Z.of_nat c then rbnd (selection u mn mx l (Z.of_nat c - 1)) (fun out => rret (x :: out)) else selection u mn mx l (Z.of_nat c)).
      change (selection u mn mx (x :: l) (Z.of_nat c)) with (rbnd (Rng s64 u mn mx (Z.of_nat N)) G).
      (* one element to go less *)
      assert (Hcons : forall c', c = S c' -> Z.of_nat c - 1 = Z.of_nat c') by lia.
      assert (HG : forall r t, 0 <= r < Z.of_nat N -> onV t -> G r t <> UB /\ forall out t', G r t = Ok (out, t') ->
                   out `sublist_of` (x :: l) /\ length out = c /\ (r <? Z.of_nat c = true -> exists o, out = x :: o) /\ (r <? Z.of_nat c = false -> out `sublist_of` l)).
      { intros r t Hr Ht. unfold G. destruct (Z.ltb_spec r (Z.of_nat c)) as [Hlt|Hge].
        - destruct c as [|c']; [lia|]. rewrite (Hcons c' eq_refl). unfold N in Hc. cbn [length] in Hc. destruct (Hsel c' ltac:(lia)) as [_ Hs]. destruct (Hs t Ht) as [Hs1 Hs2]. unfold rbnd.
          destruct (selection u mn mx l (Z.of_nat c') t) as [[o t1]| |] eqn:E; [|done|done]. rewrite rbind_ok. split; [done|]. intros out t' [= <- _]. destruct (Hs2 o t1 eq_refl) as [H1 H2].
          split; [by constructor|]. split; [cbn; lia|]. split; [eauto|done].
        - unfold N in Hr, Hc. cbn [length] in Hr, Hc. destruct (Hsel c ltac:(lia)) as [_ Hs]. destruct (Hs t Ht) as [Hs1 Hs2]. split; [done|]. intros out t' E. destruct (Hs2 out t' E) as [H1 H2].
          split; [by constructor|]. split; [done|]. split; [done|done]. }
      split.
      + intros out n Hsub Hlo. rewrite (hits_conv V n _ G _ out C Hnd' Hin). unfold conv. rewrite <-sm_mul_l. apply sm_ext. intros i _.
        assert (Hg : (sm (fun a => hits V (G a) (n - i) out) (seqZ 0 (Z.of_nat N)) = fact c * fact (N - c) * w (n - i))%nat).
        { set (j := (n - i)%nat). inversion Hsub as [| |x' l1 l2 Hs1]; subst.
          - (* the head is chosen *) cbn [length] in *. rename l1 into o. set (c := S (length o)) in *.
            rewrite (sm_ext _ (fun a => if a <? Z.of_nat c then (fact (length o) * fact (length l - length o) * w j)%nat else 0%nat)).
            + rewrite (sm_ext _ (fun a => fact (length o) * fact (length l - length o) * w j * b2n (a <? Z.of_nat c)%Z)%nat) by (intros a _; destruct (a <? Z.of_nat c); cbn [b2n]; rewrite ?Nat.mul_1_r, ?Nat.mul_0_r; done).
              rewrite sm_mul_l. rewrite (cnt_interval (fun a => a <? Z.of_nat c) (Z.of_nat N) 0 (Z.of_nat c)); [|lia|lia|intros a Ha; rewrite Z.ltb_lt; lia].
              rewrite Z.sub_0_r, Nat2Z.id. unfold c. rewrite fact_S. unfold N. cbn [length]. replace (S (length l) - S (length o))%nat with (length l - length o)%nat by lia. lia.
            + intros a Ha%elem_of_seqZ. destruct (a <? Z.of_nat c) eqn:Ea.
              * unfold G. rewrite Ea. rewrite (Hcons (length o) eq_refl). rewrite (hits_inj _ (fun out => x :: out)) by (intros y [= ->]; done).
                unfold N in Hc. cbn [length] in Hc. by apply (Hsel (length o) ltac:(unfold c in Hc; lia)).
              * apply hits_none. intros t Ht _. unfold exact. destruct (G a t) as [[y [|]]| |] eqn:Eg; try done. destruct (HG a t ltac:(lia) Ht) as [_ Hy]. destruct (Hy _ _ Eg) as (_ & _ & _ & Hy2).
                rewrite bool_decide_false; [done|]. intros ->. apply Hx. specialize (Hy2 Ea). eapply elem_of_submseteq; [left|]. by apply sublist_submseteq.
          - (* the head is not chosen *) rename H1 into Hs1 || idtac.
            assert (Hs : out `sublist_of` l) by done. pose proof (sublist_length _ _ Hs) as Hle. set (c := length out) in *.
            rewrite (sm_ext _ (fun a => fact c * fact (length l - c) * w j * b2n (negb (a <? Z.of_nat c)%Z))%nat).
            + rewrite sm_mul_l. rewrite (cnt_interval (fun a => negb (a <? Z.of_nat c)) (Z.of_nat N) (Z.of_nat c) (Z.of_nat N)); [|unfold N; cbn [length]; lia|lia|intros a Ha; rewrite negb_true_iff, Z.ltb_ge; lia].
              unfold N. cbn [length]. replace (Z.to_nat (Z.of_nat (S (length l)) - Z.of_nat c)) with (S (length l - c)) by lia. replace (S (length l) - c)%nat with (S (length l - c)) by lia. rewrite fact_S. lia.
            + intros a Ha%elem_of_seqZ. destruct (a <? Z.of_nat c) eqn:Ea; cbn [negb b2n].
              * rewrite Nat.mul_0_r. apply hits_none. intros t Ht _. unfold exact. destruct (G a t) as [[y [|]]| |] eqn:Eg; try done. destruct (HG a t ltac:(lia) Ht) as [_ Hy]. destruct (Hy _ _ Eg) as (_ & _ & Hy1 & _).
                rewrite bool_decide_false; [done|]. intros ->. destruct (Hy1 Ea) as (o & ->). apply Hx. eapply elem_of_submseteq; [left|]. by apply sublist_submseteq.
              * unfold G. rewrite Ea. rewrite Nat.mul_1_r. by apply (Hsel c ltac:(lia)). }
        rewrite (sm_ext _ (fun a => uu i * hits V (G a) (n - i) out)%nat) by (intros a Ha; by rewrite Hh). rewrite sm_mul_l, Hg. lia.
      + intros t Ht. unfold rbnd. destruct (Rng s64 u mn mx (Z.of_nat N) t) as [[r t1]| |] eqn:E; [|by apply Hub in E|done]. rewrite rbind_ok.
        pose proof (Hin _ _ _ Ht E) as Hr%elem_of_seqZ. destruct (HG r t1 ltac:(lia) (onV_rest V _ _ _ _ C Ht E)) as [H1 H2]. split; [done|]. intros out t' Eo. destruct (H2 out t' Eo) as (? & ? & _). done.
  Qed.
End sample.
