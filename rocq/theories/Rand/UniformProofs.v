(** _Rng_from_urng_v2 is uniform. *)
From stdpp Require Import base list numbers list_numbers.
From Coq Require Import ZArith Lia.
From Verif Require Import Base.Res Base.Int Rand.UniformModel Rand.UniformSpec Rand.UniformCount.
Local Open Scope Z_scope.

(** *** counting in ranges of integers *)
Lemma seqZ_length' m n : 0 <= n -> length (seqZ m n) = Z.to_nat n.
Proof. intros. by rewrite seqZ_length. Qed.
Lemma cnt_none (p : Z -> bool) m n : (forall x, m <= x < m + n -> p x = false) -> sm (fun x => b2n (p x)) (seqZ m n) = 0%nat.
Proof. intros H. apply sm_zero. intros x Hx%elem_of_seqZ. rewrite H by lia. done. Qed.
Lemma cnt_interval (p : Z -> bool) N lo hi : 0 <= lo <= hi -> hi <= N -> (forall x, 0 <= x < N -> p x = true <-> lo <= x < hi) ->
  sm (fun x => b2n (p x)) (seqZ 0 N) = Z.to_nat (hi - lo).
Proof.
  intros H1 H2 Hp. replace N with (lo + ((hi - lo) + (N - hi))) at 1 by lia. rewrite !seqZ_app' by lia. rewrite !sum_list_with_app, !Z.add_0_l.
  rewrite cnt_none; [|intros x Hx; destruct (p x) eqn:E; [|done]; apply Hp in E; lia].
  rewrite (cnt_none p (lo + (hi - lo))); [|intros x Hx; destruct (p x) eqn:E; [|done]; apply Hp in E; lia].
  rewrite (sm_ext _ (fun _ => 1%nat)). - rewrite sm_const, seqZ_length. lia.
  - intros x Hx%elem_of_seqZ. rewrite (proj2 (Hp x ltac:(lia))) by lia. done.
Qed.
Lemma cnt_one (f : Z -> Z) N k x0 : 0 <= x0 < N -> (forall x, 0 <= x < N -> f x = k <-> x = x0) -> sm (fun x => b2n (bool_decide (f x = k))) (seqZ 0 N) = 1%nat.
Proof.
  intros H Hf. rewrite (cnt_interval (fun x => bool_decide (f x = k)) N x0 (x0 + 1)); [lia|lia|lia|]. intros x Hx. rewrite bool_decide_eq_true, Hf by done. lia.
Qed.
Lemma sm_pair (g : Z -> nat) P Q : 0 <= P -> 0 < Q -> sm (fun r => sm (fun v => g (r * Q + v)) (seqZ 0 Q)) (seqZ 0 P) = sm g (seqZ 0 (P * Q)).
Proof.
  intros HP HQ. revert P HP. apply natlike_ind; [done|]. intros P HP IH. rewrite <-Z.add_1_r. rewrite seqZ_app', sum_list_with_app by lia. rewrite IH.
  rewrite Z.mul_add_distr_r, Z.mul_1_l. rewrite seqZ_app', sum_list_with_app by nia. f_equal. rewrite (sm_seqZ_shift g 0 Q (P * Q)).
  rewrite Z.add_0_l. change (seqZ P 1) with [P]. cbn [sum_list_with]. rewrite Nat.add_0_r. apply sm_ext. intros v _. f_equal. lia.
Qed.
Lemma sm_mod P Q x : 0 <= P -> 0 <= x < Q -> sm (fun z => b2n (bool_decide (z mod Q = x))) (seqZ 0 (P * Q)) = Z.to_nat P.
Proof.
  intros HP Hx. rewrite <-(sm_pair (fun z => b2n (bool_decide (z mod Q = x))) P Q) by lia. rewrite (sm_ext _ (fun _ => 1%nat)).
  - rewrite sm_const, seqZ_length. lia.
  - intros r Hr%elem_of_seqZ. apply (cnt_one (fun v => (r * Q + v) mod Q) Q x x Hx). intros v Hv. rewrite Z.add_comm, Z.mod_add, Z.mod_small by lia. done.
Qed.
Lemma NoDup_seqZ' m n : NoDup (seqZ m n). Proof. apply NoDup_seqZ. Qed.
Lemma mod_pow_pow z a b : 0 <= a <= b -> (z mod 2 ^ b) mod 2 ^ a = z mod 2 ^ a.
Proof.
  intros H. assert (2 ^ b = 2 ^ (b - a) * 2 ^ a) as -> by (rewrite <-Z.pow_add_r by lia; f_equal; lia). assert (0 < 2 ^ a) by (apply Z.pow_pos_nonneg; lia). assert (0 < 2 ^ (b - a)) by (apply Z.pow_pos_nonneg; lia).
  rewrite (Z.mul_comm (2 ^ (b - a))). rewrite Z.rem_mul_r by lia. rewrite Z.mul_comm, Z.mod_add by lia. apply Z.mod_mod. lia.
Qed.

Lemma hits_map {A B : Type} `{EqDecision A} `{EqDecision B} V (F : rnd A) As u (f : A -> B) n b : unif V F As u ->
  hits V (rbnd F (fun a => rret (f a))) n b = (sm (fun a => b2n (bool_decide (f a = b))) As * u n)%nat.
Proof.
  intros [C Hnd Hin Hub Hh _]. rewrite (hits_conv V n F _ As b C Hnd Hin).
  rewrite (sm_ext _ (fun i => sm (fun a => b2n (bool_decide (f a = b))) As * (if bool_decide (i = n) then u i else 0))%nat).
  - rewrite sm_mul_l. rewrite sm_one; [done|apply NoDup_seq|apply elem_of_seq; lia].
  - intros i Hi%elem_of_seq. rewrite <-sm_mul_r. apply sm_ext. intros a Ha. rewrite Hh by done. rewrite hits_ret.
    destruct (decide (i = n)) as [->|Hne].
    + rewrite (bool_decide_true (n = n)) by done. destruct (decide (f a = b)); repeat first [rewrite bool_decide_true by (done || (split; [lia|done])) | rewrite bool_decide_false by (done || (intros [? ?]; done))]; cbn [b2n]; lia.
    + rewrite (bool_decide_false (i = n)) by done. rewrite bool_decide_false by (intros [? _]; lia). lia.
Qed.
Lemma rbnd_assoc {A B C : Type} (F : rnd A) (G : A -> rnd B) (H : B -> rnd C) t : rbnd (rbnd F G) H t = rbnd F (fun a => rbnd (G a) H) t.
Proof. unfold rbnd. by destruct (F t) as [[a r]| |]. Qed.
Lemma rbnd_ret {A : Type} (F : rnd A) t : rbnd F rret t = F t.
Proof. unfold rbnd, rret. by destruct (F t) as [[a r]| |]. Qed.

(** one call of the generator *)
Definition read : rnd Z := fun t => match t with [] => Fuel | v :: t => Ok (v, t) end.
Lemma read_unif V : NoDup V -> V <> [] -> unif V read V (fun n => if bool_decide (n = 1%nat) then 1%nat else 0%nat).
Proof.
  intros Hnd Hne. split; [|done| | | |].
  - split.
    + intros p a Hp t. destruct p as [|v p]; [done|]. injection Hp as -> ->. done.
    + intros t a r E. destruct t as [|v t]; [done|]. injection E as -> ->. by exists [a].
  - intros t a r Ht E. destruct t as [|v t]; [done|]. injection E as -> ->. by apply list.Forall_cons in Ht as [? _].
  - intros t Ht. by destruct t.
  - intros n a Ha. destruct n as [|n]; [done|]. rewrite hits_S. rewrite (sm_ext _ (fun v => (if bool_decide (v = a) then (if bool_decide (S n = 1%nat) then 1%nat else 0%nat) else 0%nat))).
    + by rewrite sm_one.
    + intros v _. change (D v read) with (rret v). rewrite hits_ret. destruct (decide (v = a)) as [->|].
      * rewrite (bool_decide_true (a = a)) by done. destruct n; [by rewrite !bool_decide_true|]. by rewrite !bool_decide_false by (intros ?; lia || (intros [? ?]; lia)).
      * rewrite (bool_decide_false (v = a)) by done. rewrite bool_decide_false; [done|]. by intros [_ ?].
  - exists 1%nat. rewrite bool_decide_true by done. lia.
Qed.

Record rng_ok (d u : ity) (mn mx : Z) : Prop := {
  ro_d : std_ity d;
  ro_u : std_uint u;
  ro_range : 0 <= mn < mx /\ mx < 2 ^ wd u
}.
Section rng.
  Context (d u : ity) (mn mx : Z).
  Hypothesis OK : rng_ok d u mn mx.
  Notation ud := (Udiff d u). Notation w := (wd (Udiff d u)).
  Notation b := (Bits d u mn mx). Notation V := (values mn mx).
  Lemma ud_facts : sg ud = false /\ 8 <= w <= 64 /\ wd u <= w /\ wd d <= w /\ (w = 8 \/ w = 16 \/ w = 32 \/ w = 64).
  Proof.
    destruct OK as [Hd [Hu Hs] _]. unfold Udiff. pose proof (wd_pos d Hd). pose proof (wd_pos u Hu). unfold std_ity in *. cbn [In] in *.
    destruct (Z.ltb_spec (wd u) (wd d)); cbn [sg wd make_unsigned]; (split; [done|]); lia.
  Qed.
  Lemma castud x : cast ud x = x mod 2 ^ w.
  Proof. unfold cast. by rewrite (proj1 ud_facts). Qed.
  Lemma powle a c : 0 <= a <= c -> 0 < 2 ^ a <= 2 ^ c.
  Proof. intros. split; [apply Z.pow_pos_nonneg; lia|]. apply Z.pow_le_mono_r; lia. Qed.
  Lemma V_elem v : v ∈ V <-> mn <= v <= mx.
  Proof. unfold values. rewrite elem_of_seqZ. lia. Qed.
  Lemma calc_bits_ok fuel bits : 1 <= bits <= w -> (Z.to_nat bits <= fuel)%nat -> (0 < fuel)%nat ->
    exists c, calc_bits d u mn mx fuel bits (2 ^ bits - 1) = Ok c /\ 1 <= c <= bits /\ 2 ^ c - 1 <= mx - mn.
  Proof.
    destruct ud_facts as (_ & Hw & Hwu & _). destruct OK as [_ _ Hr].
    revert bits. induction fuel as [|fuel IH]; intros bits Hb Hf Hf0; [lia|]. cbn [calc_bits]. rewrite castud.
    pose proof (powle (wd u) w ltac:(destruct OK as [_ [Hu _] _]; pose proof (wd_pos u Hu); lia)). rewrite Z.mod_small by lia.
    destruct (Z.ltb_spec (mx - mn) (2 ^ bits - 1)) as [Hlt|Hge]; [|exists bits; split; [done|lia]].
    assert (Hb2 : 2 <= bits) by (destruct (Z.eq_dec bits 1) as [->|]; [cbn in Hlt; lia|lia]).
    assert (Ep : 2 ^ bits = 2 * 2 ^ (bits - 1)) by (rewrite <-Z.pow_succ_r by lia; f_equal; lia).
    assert (Ed : (2 ^ bits - 1) / 2 = 2 ^ (bits - 1) - 1). { rewrite Ep. symmetry. apply Z.div_unique with 1; lia. }
    rewrite Ed. destruct (IH (bits - 1) ltac:(lia) ltac:(lia) ltac:(lia)) as (c & -> & Hc1 & Hc2). exists c. split; [done|]. lia.
  Qed.
  Lemma Bits_ok : 1 <= b <= w /\ 2 ^ b - 1 <= mx - mn /\ Bmask d u mn mx = 2 ^ b - 1.
  Proof.
    destruct ud_facts as (_ & Hw & _). assert (E : cast ud (-1) = 2 ^ w - 1).
    { rewrite castud. pose proof (powle 0 w ltac:(lia)). symmetry. apply Z.mod_unique with (-1); lia. }
    destruct (calc_bits_ok 65 w ltac:(lia) ltac:(lia) ltac:(lia)) as (c & Ec & Hc1 & Hc2).
    assert (Eb : b = c) by (unfold Bits, Udiff_bits; by rewrite E, Ec). rewrite Eb. split; [done|]. split; [done|].
    unfold Bmask. rewrite E, Eb. unfold Udiff_bits. assert (Ep : 2 ^ w = 2 ^ c * 2 ^ (w - c)) by (rewrite <-Z.pow_add_r by lia; f_equal; lia).
    pose proof (powle 0 (w - c) ltac:(lia)). symmetry. apply Z.div_unique with (2 ^ (w - c) - 1); [lia|]. rewrite Ep. ring.
  Qed.
  Lemma pow_b : 0 < 2 ^ b <= 2 ^ w.
  Proof. destruct Bits_ok as [? _]. apply powle. lia. Qed.

  (** *** _Get_bits *)
  Definition rdv : rnd Z := rbnd read (fun v => rret (cast ud (v - mn))).
  Lemma Get_bits_W t : Get_bits d u mn mx t = W rdv (fun x => x <=? Bmask d u mn mx) (fun x => x) t.
  Proof.
    unfold W. induction t as [|v t IH]; [done|]. cbn [Get_bits length Wf]. unfold rdv at 1, rbnd, read, rret. rewrite !rbind_ok.
    destruct (cast ud (v - mn) <=? Bmask d u mn mx); [done|]. exact IH.
  Qed.
  Lemma rdv_unif : exists uu, unif V rdv (seqZ 0 (mx - mn + 1)) uu.
  Proof.
    destruct OK as [_ _ Hr]. destruct ud_facts as (_ & Hw & Hwu & _). pose proof (powle (wd u) w ltac:(destruct OK as [_ [Hu _] _]; pose proof (wd_pos u Hu); lia)).
    eexists. eapply (unif_map V read V _ _ (seqZ 0 (mx - mn + 1)) 1).
    - apply read_unif; [apply NoDup_seqZ'|]. unfold values. intros E%(f_equal length). rewrite seqZ_length in E. cbn in E. lia.
    - apply NoDup_seqZ'.
    - intros v Hv%V_elem. rewrite castud, Z.mod_small by lia. apply elem_of_seqZ. lia.
    - intros k Hk%elem_of_seqZ. unfold values. replace (seqZ mn (mx - mn + 1)) with (seqZ (0 + mn) (mx - mn + 1)) by done. rewrite (sm_seqZ_shift _ 0 (mx - mn + 1) mn).
      apply (cnt_one (fun z => cast ud (z + mn - mn)) (mx - mn + 1) k k ltac:(lia)). intros x Hx. rewrite castud, Z.mod_small by lia. lia.
    - lia.
  Qed.
  Lemma Get_bits_unif : exists uu, unif V (Get_bits d u mn mx) (seqZ 0 (2 ^ b)) uu.
  Proof.
    destruct rdv_unif as (u0 & U). destruct Bits_ok as (Hb & Hb2 & HB). pose proof pow_b. eexists. eapply unif_ext; [intros t; symmetry; apply Get_bits_W|].
    assert (Hne : forall x, rdv [] <> Ok (x, [])) by done.
    apply (W_unif V rdv _ _ (uf_causal _ _ _ _ U) Hne) with (1 := U) (m := 1%nat) (k0 := 0).
    - apply NoDup_seqZ'.
    - apply elem_of_seqZ. lia.
    - intros x Hx%elem_of_seqZ Ha%Z.leb_le. apply elem_of_seqZ. lia.
    - intros k Hk%elem_of_seqZ. rewrite (cnt_interval (fun x => (x <=? Bmask d u mn mx) && bool_decide (x = k)) (mx - mn + 1) k (k + 1)); [lia|lia|lia|].
      intros x Hx. rewrite andb_true_iff, Z.leb_le, bool_decide_eq_true. lia.
    - lia.
  Qed.

  (** *** concatenating blocks *)
  Definition Lk (k : nat) : Z := Z.min (Z.of_nat k * b) w.
  Lemma Lk_pos k : (0 < k)%nat -> 1 <= Lk k <= w.
  Proof. destruct Bits_ok as [? _]. unfold Lk. nia. Qed.
  Lemma lor_add x y k : 0 <= k -> 0 <= y < 2 ^ k -> Z.lor (x * 2 ^ k) y = x * 2 ^ k + y.
  Proof.
    intros Hk Hy. rewrite Z.add_nocarry_lxor.
    - rewrite Z.lxor_lor; [done|]. apply Z.bits_inj'. intros i Hi. rewrite Z.land_spec, Z.bits_0. destruct (Z.ltb_spec i k).
      + rewrite Z.mul_pow2_bits_low by done. done.
      + destruct (Z.eq_dec y 0) as [->|]; [by rewrite Z.bits_0, andb_false_r|]. rewrite (Z.bits_above_log2 y i); [by rewrite andb_false_r|lia|]. apply Z.log2_lt_pow2; [lia|]. apply Z.lt_le_trans with (2 ^ k); [lia|]. apply Z.pow_le_mono_r; lia.
    - apply Z.bits_inj'. intros i Hi. rewrite Z.land_spec, Z.bits_0. destruct (Z.ltb_spec i k).
      + rewrite Z.mul_pow2_bits_low by done. done.
      + destruct (Z.eq_dec y 0) as [->|]; [by rewrite Z.bits_0, andb_false_r|]. rewrite (Z.bits_above_log2 y i); [by rewrite andb_false_r|lia|]. apply Z.log2_lt_pow2; [lia|]. apply Z.lt_le_trans with (2 ^ k); [lia|]. apply Z.pow_le_mono_r; lia.
  Qed.
  (** the value of [(r << Bits) | v] *)
  Lemma shl_comb r v : b < w -> 0 <= r < 2 ^ w -> 0 <= v < 2 ^ b -> exists q, shl ud r b = Ok q /\ Z.lor (cast ud q) v = (r * 2 ^ b + v) mod 2 ^ w.
  Proof.
    intros Hbw Hr Hv. destruct ud_facts as (Hs & Hw & _ & _ & Hc). destruct Bits_ok as (Hb & _). unfold shl.
    assert (Hpw : w <= wd (promote ud)) by (unfold promote; destruct (Z.ltb_spec w 32); [cbn [wd s32]; lia|lia]).
    rewrite decide_True by lia. eexists. split; [done|].
    assert (E : cast ud (cast (promote ud) (r * 2 ^ b)) = (r * 2 ^ b) mod 2 ^ w).
    { rewrite castud. destruct (cast_mod (promote ud) (r * 2 ^ b) ltac:(lia)) as (k & ->).
      assert (2 ^ wd (promote ud) = 2 ^ (wd (promote ud) - w) * 2 ^ w) as -> by (rewrite <-Z.pow_add_r by lia; f_equal; lia).
      rewrite Z.mul_assoc, Z.mod_add; [done|]. pose proof (powle 0 w ltac:(lia)). lia. }
    rewrite E. assert (Ew : 2 ^ w = 2 ^ b * 2 ^ (w - b)) by (rewrite <-Z.pow_add_r by lia; f_equal; lia).
    pose proof (powle 0 b ltac:(lia)). pose proof (powle 0 (w - b) ltac:(lia)).
    assert (E2 : (r * 2 ^ b) mod 2 ^ w = (r mod 2 ^ (w - b)) * 2 ^ b).
    { rewrite Ew, (Z.mul_comm r), Z.mul_mod_distr_l by lia. ring. }
    rewrite E2, lor_add by lia. rewrite <-E2. rewrite E2. symmetry. rewrite Ew. pose proof (Z.mod_pos_bound r (2 ^ (w - b)) ltac:(lia)).
    pose proof (Z.div_mod r (2 ^ (w - b)) ltac:(lia)) as Hdm.
    symmetry. apply Z.mod_unique with (r / 2 ^ (w - b)).
    - left. nia.
    - rewrite Hdm at 1. ring.
  Qed.
  Definition comb (r v : Z) : Z := (r * 2 ^ b + v) mod 2 ^ w.
  Lemma more_bits_eq r t : b < w -> 0 <= r < 2 ^ w -> more_bits d u mn mx r t = rbnd (Get_bits d u mn mx) (fun v => rret (comb r v)) t.
  Proof.
    intros Hbw Hr. unfold more_bits, rbnd at 1, rlift. destruct (shl_comb r 0 Hbw Hr ltac:(pose proof pow_b; lia)) as (q & Eq & _). rewrite Eq, !rbind_ok.
    unfold rbnd. destruct (Get_bits d u mn mx t) as [[v t']| |] eqn:E; [|done|done]. rewrite !rbind_ok. unfold rret. do 2 f_equal.
    assert (Hv : 0 <= v < 2 ^ b).
    { clear Eq. revert t' E. induction t as [|x t IH]; intros t' E; [done|]. cbn [Get_bits] in E. destruct (Z.leb_spec (cast ud (x - mn)) (Bmask d u mn mx)); [|by apply (IH t')].
      injection E as <- <-. destruct Bits_ok as (_ & _ & HB). rewrite castud in *. pose proof pow_b. pose proof (Z.mod_pos_bound (x - mn) (2 ^ w) ltac:(lia)). lia. }
    destruct (shl_comb r v Hbw Hr Hv) as (q' & Eq' & E2). rewrite Eq in Eq'. injection Eq' as <-. exact E2.
  Qed.
  Lemma comb_unif (F : rnd Z) k uu : b < w -> (0 < k)%nat -> unif V F (seqZ 0 (2 ^ Lk k)) uu ->
    (forall t r t', F t = Ok (r, t') -> 0 <= r < 2 ^ w) ->
    (exists vv, unif V (rbnd F (more_bits d u mn mx)) (seqZ 0 (2 ^ Lk (S k))) vv) /\
    (forall t r t', rbnd F (more_bits d u mn mx) t = Ok (r, t') -> 0 <= r < 2 ^ w).
  Proof.
    intros Hbw Hk U Hall. destruct Get_bits_unif as (gb & UG). destruct Bits_ok as (Hb & _). pose proof pow_b as Hpb.
    pose proof (Lk_pos k Hk) as HL. pose proof (Lk_pos (S k) ltac:(lia)) as HL'. pose proof (powle (Lk k) w ltac:(lia)) as Hp1. pose proof (powle (Lk (S k)) w ltac:(lia)) as Hp2. split.
    - eexists. apply (unif_bind V F (seqZ 0 (2 ^ Lk k)) uu _ _ (fun r x => sm (fun v => b2n (bool_decide (comb r v = x))) (seqZ 0 (2 ^ b))) gb (Z.to_nat (2 ^ (Lk k + b - Lk (S k))))); [done|apply NoDup_seqZ'| | | | | | |by apply (uf_pos _ _ _ _ UG)].
      + intros t a r E. pose proof (Hall t a r E) as Ha. eapply causal_ext; [intros t'; symmetry; by apply more_bits_eq|]. apply causal_bind; [apply (uf_causal _ _ _ _ UG)|]. intros; apply causal_ret.
      + intros a Ha%elem_of_seqZ t x r Ht E. rewrite more_bits_eq in E by lia. unfold rbnd in E. destruct (Get_bits d u mn mx t) as [[v t']| |] eqn:Eg; [|done|done]. rewrite rbind_ok in E. injection E as <- _.
        pose proof (uf_in _ _ _ _ UG _ _ _ Ht Eg) as Hv%elem_of_seqZ. apply elem_of_seqZ. unfold comb. pose proof (Z.mod_pos_bound (a * 2 ^ b + v) (2 ^ w) ltac:(lia)). split; [lia|].
        destruct (Z.le_gt_cases (Lk k + b) w) as [Hle|Hgt].
        * assert (El : Lk (S k) = Lk k + b) by (unfold Lk in *; lia). assert (E2 : 2 ^ Lk (S k) = 2 ^ Lk k * 2 ^ b) by (rewrite El, Z.pow_add_r by lia; done).
          rewrite Z.mod_small; nia.
        * assert (El : Lk (S k) = w) by (unfold Lk in *; lia). rewrite El. lia.
      + intros a Ha%elem_of_seqZ t Ht. rewrite more_bits_eq by lia. unfold rbnd. destruct (Get_bits d u mn mx t) as [[v t']| |] eqn:Eg; [done| |done]. by apply (uf_ub _ _ _ _ UG) in Eg.
      + intros a x n Ha%elem_of_seqZ _. rewrite (hits_ext V _ (rbnd (Get_bits d u mn mx) (fun v => rret (comb a v)))) by (intros t _; apply more_bits_eq; lia). by rewrite (hits_map _ _ _ _ _ _ _ UG).
      + intros x Hx%elem_of_seqZ. pose proof (sm_pair (fun z => b2n (bool_decide (z mod 2 ^ w = x))) (2 ^ Lk k) (2 ^ b) ltac:(lia) ltac:(lia)) as Esp. cbv beta in Esp |- *. unfold comb. rewrite Esp. clear Esp. rewrite <-Z.pow_add_r by lia.
        destruct (Z.le_gt_cases (Lk k + b) w) as [Hle|Hgt].
        * assert (El : Lk (S k) = Lk k + b) by (unfold Lk in *; lia). rewrite El, Z.sub_diag. rewrite El in Hx. pose proof (powle (Lk k + b) w ltac:(lia)).
          apply (cnt_one (fun z => z mod 2 ^ w) _ x x); [lia|]. intros z Hz. rewrite Z.mod_small by lia. done.
        * assert (El : Lk (S k) = w) by (unfold Lk in *; lia). rewrite El in *. replace (Lk k + b) with ((Lk k + b - w) + w) at 1 by lia. rewrite Z.pow_add_r by lia. apply sm_mod; [|lia].
          apply Z.pow_nonneg. lia.
      + assert (0 < 2 ^ (Lk k + b - Lk (S k))); [|lia]. apply Z.pow_pos_nonneg; [lia|]. unfold Lk in *. lia.
    - intros t r t' E. unfold rbnd in E. destruct (F t) as [[a t1]| |] eqn:Ef; [|done|done]. rewrite rbind_ok in E. rewrite more_bits_eq in E by (done || by apply (Hall t a t1)). unfold rbnd in E.
      destruct (Get_bits d u mn mx t1) as [[v t2]| |]; [|done|done]. rewrite rbind_ok in E. injection E as <- _. unfold comb. apply Z.mod_pos_bound. lia.
  Qed.
  Lemma niter_unif n : forall (F : rnd Z) k uu, b < w -> (0 < k)%nat -> unif V F (seqZ 0 (2 ^ Lk k)) uu -> (forall t r t', F t = Ok (r, t') -> 0 <= r < 2 ^ w) ->
    exists vv, unif V (rbnd F (niter_loop d u mn mx n)) (seqZ 0 (2 ^ Lk (k + n))) vv.
  Proof.
    induction n as [|n IH]; intros F k uu Hbw Hk U Hall.
    - rewrite Nat.add_0_r. exists uu. eapply unif_ext; [intros t; symmetry; apply rbnd_ret|done].
    - destruct (comb_unif F k uu Hbw Hk U Hall) as [(vv & UV) HV]. destruct (IH _ (S k) vv Hbw ltac:(lia) UV HV) as (ww & UW). exists ww. rewrite <-Nat.add_succ_comm.
      eapply unif_ext; [|exact UW]. intros t. apply rbnd_assoc.
  Qed.
  Lemma Get_bits_range t r t' : Get_bits d u mn mx t = Ok (r, t') -> 0 <= r < 2 ^ w.
  Proof.
    revert r t'. induction t as [|x t IH]; intros r t' E; [done|]. cbn [Get_bits] in E. destruct (cast ud (x - mn) <=? Bmask d u mn mx); [|by apply (IH r t')]. injection E as <- _.
    rewrite castud. pose proof pow_b. apply Z.mod_pos_bound. lia.
  Qed.
  (** the random word of _Get_random_product *)
  Definition word (n : nat) : rnd Z := rbnd (Get_bits d u mn mx) (fun r => if b <? w then niter_loop d u mn mx (n - 1) r else rret r).
  Lemma word_unif n : (0 < n)%nat -> (b < w \/ n = 1%nat) -> exists uu, unif V (word n) (seqZ 0 (2 ^ Lk n)) uu.
  Proof.
    intros Hn Hb. destruct Get_bits_unif as (gb & UG). destruct Bits_ok as (Hbr & _). assert (E1 : Lk 1 = b) by (unfold Lk; lia).
    unfold word. destruct (Z.ltb_spec b w) as [Hlt|Hge].
    - destruct (niter_unif (n - 1) (Get_bits d u mn mx) 1 gb Hlt ltac:(lia)) as (vv & U); [by rewrite E1|intros t r t'; apply Get_bits_range|]. exists vv. replace (1 + (n - 1))%nat with n in U by lia. exact U.
    - assert (n = 1%nat) as -> by lia. rewrite E1. exists gb. eapply unif_ext; [intros t; symmetry; apply rbnd_ret|done].
  Qed.

  (** *** operator() *)
  Section index.
    Context (s : Z).
    Hypothesis Hs : 0 < s /\ in_t d s.
    Lemma s_le : s < 2 ^ w.
    Proof.
      destruct Hs as [? [_ H]]. unfold tmax in H. destruct ud_facts as (_ & Hw & _ & Hd & _). destruct OK as [Hd' _ _]. pose proof (wd_pos d Hd'). pose proof (powle (wd d) w ltac:(lia)).
      destruct (sg d); [|lia]. pose proof (powle (wd d - 1) (wd d) ltac:(lia)). lia.
    Qed.
    Lemma mask_step k : (0 < k)%nat -> b < w -> exists q, shl ud (2 ^ Lk k - 1) b = Ok q /\ Z.lor (cast ud q) (Bmask d u mn mx) = 2 ^ Lk (S k) - 1.
    Proof.
      intros Hk Hbw. destruct Bits_ok as (Hb & _ & ->). pose proof (Lk_pos k Hk) as HL. pose proof (powle (Lk k) w ltac:(lia)) as Hp. pose proof pow_b as Hpb.
      destruct (shl_comb (2 ^ Lk k - 1) (2 ^ b - 1) Hbw ltac:(lia) ltac:(lia)) as (q & -> & E). exists q. split; [done|]. rewrite E.
      replace ((2 ^ Lk k - 1) * 2 ^ b + (2 ^ b - 1)) with (2 ^ Lk k * 2 ^ b - 1) by ring. rewrite <-Z.pow_add_r by lia.
      destruct (Z.le_gt_cases (Lk k + b) w) as [Hle|Hgt].
      - assert (El : Lk (S k) = Lk k + b) by (unfold Lk in *; lia). rewrite El. pose proof (powle (Lk k + b) w ltac:(lia)). apply Z.mod_small. lia.
      - assert (El : Lk (S k) = w) by (unfold Lk in *; lia). rewrite El. replace (Lk k + b) with ((Lk k + b - w) + w) by lia. rewrite Z.pow_add_r by lia.
        symmetry. apply Z.mod_unique with (2 ^ (Lk k + b - w) - 1); [lia|ring].
    Qed.
    Lemma mask_loop_ok fuel : forall k, (0 < k)%nat -> b < w -> (Z.to_nat (w - Lk k) < fuel)%nat ->
      exists k', mask_loop d u mn mx fuel s (2 ^ Lk k - 1) k = Ok (2 ^ Lk k' - 1, k') /\ (0 < k')%nat /\ s <= 2 ^ Lk k'.
    Proof.
      pose proof s_le as Hsw. destruct Hs as [Hs0 Hin]. destruct Bits_ok as (Hb & _).
      induction fuel as [|fuel IH]; intros k Hk Hbw Hf; [lia|]. cbn [mask_loop].
      assert (Ea : arith (promote d) (s - 1) = Ok (s - 1)).
      { unfold arith. destruct OK as [Hd _ _]. pose proof (wd_pos d Hd) as Hwd. destruct Hin as [H1 H2]. unfold tmin, tmax in *. unfold promote. destruct (Z.ltb_spec (wd d) 32).
        - cbn [sg s32]. rewrite decide_True; [done|]. unfold in_t, tmin, tmax. cbn [sg wd s32]. pose proof (powle (wd d) 31 ltac:(lia)). pose proof (powle (wd d - 1) 31 ltac:(lia)). destruct (sg d); lia.
        - destruct (sg d) eqn:E; [|rewrite Z.mod_small; [done|lia]]. rewrite decide_True; [done|]. unfold in_t, tmin, tmax. rewrite E. lia. }
      rewrite Ea, rbind_ok. rewrite castud, Z.mod_small by lia. destruct (Z.ltb_spec (2 ^ Lk k - 1) (s - 1)) as [Hlt|Hge]; [|exists k; split; [done|lia]].
      destruct (mask_step k Hk Hbw) as (q & -> & E). rewrite rbind_ok, E. apply IH; [lia|done|].
      assert (Lk k < w). { destruct (Z.le_gt_cases w (Lk k)) as [Hle|]; [|done]. assert (Lk k = w) as El by (unfold Lk in *; lia). rewrite El in Hlt. lia. }
      unfold Lk in *. lia.
    Qed.
    Definition params : res (Z * nat) := if b <? w then mask_loop d u mn mx 65 s (Bmask d u mn mx) 1 else Ok (Bmask d u mn mx, 1%nat).
    Lemma params_ok : exists k, params = Ok (2 ^ Lk k - 1, k) /\ (0 < k)%nat /\ s <= 2 ^ Lk k /\ (b < w \/ k = 1%nat).
    Proof.
      destruct Bits_ok as (Hb & _ & HB). destruct ud_facts as (_ & Hw & _). assert (E1 : Lk 1 = b) by (unfold Lk; lia). unfold params. rewrite HB. destruct (Z.ltb_spec b w) as [Hlt|Hge].
      - destruct (mask_loop_ok 65 1 ltac:(lia) Hlt) as (k & E & Hk & Hsk); [lia|]. rewrite E1 in E. exists k. auto.
      - exists 1%nat. rewrite E1. split; [done|]. split; [lia|]. split; [|by right]. assert (b = w) as -> by lia. pose proof s_le. lia.
    Qed.
    Section k.
      Context (k : nat).
      Hypothesis Hk : (0 < k)%nat.
      Hypothesis Hkb : b < w \/ k = 1%nat.
      Hypothesis HsL : s <= 2 ^ Lk k.
      Notation M := (2 ^ Lk k).
      Notation T := (2 ^ Lk k mod s).
      Notation R := (Get_random_product d u mn mx s k).
      Lemma R_eq t : R t = rbnd (word k) (fun x => rret (x * s)) t.
      Proof.
        unfold Get_random_product, word. change (Udiff_bits d u) with w. rewrite rbnd_assoc. rewrite castud, Z.mod_small by (pose proof s_le; lia). done.
      Qed.
      Lemma R_unif : exists uu, unif V R ((fun x => x * s) <$> seqZ 0 M) uu.
      Proof.
        destruct (word_unif k Hk Hkb) as (uu & U). eexists. eapply unif_ext; [intros t; symmetry; apply R_eq|]. apply (unif_map V (word k) (seqZ 0 M) uu _ _ 1); [done| | | |lia].
        - apply NoDup_fmap_2_strong; [|apply NoDup_seqZ']. intros x y _ _ E. nia.
        - intros x Hx. by apply (elem_of_list_fmap_1 (fun x => x * s)).
        - intros p (x & -> & Hx%elem_of_seqZ)%elem_of_list_fmap. apply (cnt_one (fun y => y * s) M (x * s) x ltac:(lia)). intros y Hy. split; [nia|by intros ->].
      Qed.
      Lemma land_mask p : Z.land (cast ud p) (M - 1) = p mod M.
      Proof.
        pose proof (Lk_pos k Hk). replace (M - 1) with (Z.ones (Lk k)) by (rewrite Z.ones_equiv; lia). rewrite Z.land_ones by lia. rewrite castud. apply mod_pow_pow. lia.
      Qed.
      Definition accp (p : Z) : bool := negb (p mod M <? T).
      Definition outp (p : Z) : Z := cast d (p / M).
      Lemma R_nonempty x : R [] <> Ok (x, []).
      Proof. rewrite R_eq. done. Qed.
      Lemma reject_W n : forall p t, (length t <= n)%nat ->
        ('(p, t) <~ reject_loop d u mn mx (S n) s (M - 1) T k p (p mod M) t ;; Ok (outp p, t)) = if accp p then Ok (outp p, t) else W R accp outp t.
      Proof.
        destruct R_unif as (uu & U). pose proof (uf_causal _ _ _ _ U) as C.
        induction n as [|n IH]; intros p t Hl.
        - destruct t as [|v t]; [|cbn in Hl; lia]. cbn [reject_loop]. unfold accp at 1. destruct (p mod M <? T); cbn [negb]; [|done].
          rewrite (W_eq R accp outp C R_nonempty). unfold rbnd. destruct (R []) as [[x r]| |] eqn:E; [|done|done]. pose proof (causal_nil R x r C E) as ->. by apply R_nonempty in E.
        - cbn [reject_loop]. unfold accp at 1. destruct (p mod M <? T); cbn [negb]; [|done]. rewrite (W_eq R accp outp C R_nonempty). unfold rbnd.
          destruct (R t) as [[x r]| |] eqn:E; [|done|done]. rewrite !rbind_ok. rewrite land_mask. pose proof (R_shorter R C R_nonempty _ _ _ E). specialize (IH x r ltac:(lia)). cbn [reject_loop] in IH. rewrite IH. by destruct (accp x).
      Qed.
      Lemma popcount_ok : popcount ud (M - 1) = Lk k.
      Proof.
        pose proof (Lk_pos k Hk) as HL. unfold popcount. rewrite filter_sm, sm_fmap.
        replace (M - 1) with (Z.ones (Lk k)) by (rewrite Z.ones_equiv; lia).
        assert (E : Z.to_nat w = (Z.to_nat (Lk k) + Z.to_nat (w - Lk k))%nat) by lia. rewrite E, seq_app, sum_list_with_app, Nat.add_0_l.
        rewrite (sm_ext _ (fun _ => 1%nat)) by (intros i Hi%elem_of_seq; rewrite Z.ones_spec_low by lia; done). rewrite sm_const, seq_length.
        rewrite sm_zero by (intros i Hi%elem_of_seq; rewrite Z.ones_spec_high by lia; done). lia.
      Qed.
      Lemma threshold_ok : (m1 <~ arith (usual_arith ud d) (cast (usual_arith ud d) (M - 1) - cast (usual_arith ud d) s) ;; m2 <~ arith (usual_arith ud d) (m1 + 1) ;; Ok (m2 mod cast (usual_arith ud d) s)) = Ok T.
      Proof.
        destruct ud_facts as (Hsg & Hw & _ & Hd & Hc). pose proof (Lk_pos k Hk) as HL. pose proof (powle (Lk k) w ltac:(lia)) as HP. destruct Hs as [Hs0 _]. pose proof s_le as Hsw.
        assert (ET : (M - s) mod s = T). { replace (M - s) with (M + (-1) * s) by lia. apply Z.mod_add. lia. }
        destruct (Z.lt_ge_cases w 32) as [Hlt|Hge].
        - assert (Ect : usual_arith ud d = s32).
          { unfold usual_arith, promote. rewrite (proj2 (Z.ltb_lt w 32)) by done. rewrite (proj2 (Z.ltb_lt (wd d) 32)) by lia. done. }
          rewrite Ect. pose proof (powle w 16 ltac:(lia)) as H16. change (2 ^ 16) with 65536 in H16.
          assert (Hci : forall x, -1 <= x <= 65536 -> cast s32 x = x) by (intros x Hx; apply cast_id; [cbn [wd s32]; lia|unfold in_t, tmin, tmax; cbn [sg wd s32]; lia]).
          rewrite !Hci by lia. unfold arith. cbn [sg s32]. rewrite decide_True by (unfold in_t, tmin, tmax; cbn [sg wd s32]; lia). rewrite rbind_ok.
          rewrite decide_True by (unfold in_t, tmin, tmax; cbn [sg wd s32]; lia). rewrite rbind_ok. f_equal. rewrite <-ET. f_equal. lia.
        - assert (Ect : usual_arith ud d = ud).
          { unfold usual_arith. assert (promote ud = ud) as -> by (unfold promote; by rewrite (proj2 (Z.ltb_ge w 32)) by done).
            assert (wd (promote d) <= w) by (unfold promote; destruct (wd d <? 32); [cbn [wd s32]; lia|lia]). rewrite (proj2 (Z.ltb_ge w (wd (promote d)))) by done.
            destruct (wd (promote d) <? w); [done|]. by rewrite Hsg. }
          rewrite Ect. unfold arith. rewrite Hsg. rewrite !castud. rewrite !(Z.mod_small s) by lia. rewrite (Z.mod_small (M - 1)) by lia. rewrite !rbind_ok. f_equal. rewrite Z.add_mod_idemp_l by lia.
          rewrite (Z.mod_small (M - 1 - s + 1)) by lia. rewrite <-ET. f_equal. lia.
      Qed.
      Lemma Rng_W t : params = Ok (M - 1, k) -> Rng d u mn mx s t = W R accp outp t.
      Proof.
        intros HP. destruct R_unif as (uu & U). pose proof (uf_causal _ _ _ _ U) as C. pose proof s_le as Hsw. destruct Hs as [Hs0 _]. pose proof threshold_ok as HT. unfold Rng. fold params.
        change (Udiff_bits d u) with w. change (if b <? w then mask_loop d u mn mx 65 s (Bmask d u mn mx) 1 else Ok (Bmask d u mn mx, 1%nat)) with params. rewrite HP, rbind_ok.
        rewrite (W_eq R accp outp C R_nonempty). unfold rbnd. destruct (R t) as [[p r]| |] eqn:E; [|done|done]. rewrite !rbind_ok. rewrite land_mask.
        assert (Hgen : (if b <? w then popcount ud (M - 1) else w) = Lk k).
        { rewrite popcount_ok. destruct (Z.ltb_spec b w); [done|]. destruct Bits_ok as (? & _). assert (k = 1%nat) as -> by lia. unfold Lk. lia. }
        rewrite Hgen. fold (outp). rewrite castud, (Z.mod_small s) by lia. destruct (Z.ltb_spec (p mod M) s) as [Hlt|Hge].
        - transitivity ('(p, t) <~ reject_loop d u mn mx (S (length r)) s (M - 1) T k p (p mod M) r ;; Ok (outp p, t)).
          + revert HT. destruct (arith (usual_arith ud d) (cast (usual_arith ud d) (M - 1) - cast (usual_arith ud d) s)) as [m1| |]; [|done|done]. rewrite !rbind_ok.
            destruct (arith (usual_arith ud d) (m1 + 1)) as [m2| |]; [|done|done]. rewrite !rbind_ok. intros [= HT]. rewrite HT. done.
          + rewrite reject_W by lia. by destruct (accp p).
        - rewrite rbind_ok. pose proof (Z.mod_pos_bound M s ltac:(lia)). assert (accp p = true) as ->; [|done]. unfold accp. rewrite (proj2 (Z.ltb_ge _ _)); [done|lia].
      Qed.
      Lemma lemire_count j : 0 <= j < s -> sm (fun x => b2n (accp (x * s) && bool_decide (outp (x * s) = j))) (seqZ 0 M) = Z.to_nat (M / s).
      Proof.
        intros Hj. pose proof s_le as Hsw. destruct Hs as [Hs0 Hin]. pose proof (Lk_pos k Hk) as HL. pose proof (powle 0 (Lk k) ltac:(lia)) as HP. destruct OK as [Hd' _ _]. pose proof (wd_pos d Hd') as Hwd.
        set (q := M / s). pose proof (Z.div_mod M s ltac:(lia)) as Hdm. fold q in Hdm. pose proof (Z.mod_pos_bound M s ltac:(lia)) as HT. set (TT := M mod s) in *.
        set (lo := (j * M + TT + s - 1) / s). pose proof (Z.div_mod (j * M + TT + s - 1) s ltac:(lia)) as Hlo. fold lo in Hlo. pose proof (Z.mod_pos_bound (j * M + TT + s - 1) s ltac:(lia)) as Hlm.
        set (e := (j * M + TT + s - 1) mod s) in *. assert (0 <= q) by (apply Z.div_pos; lia). assert (0 <= lo) by (apply Z.div_pos; nia).
        rewrite (cnt_interval (fun x => accp (x * s) && bool_decide (outp (x * s) = j)) M lo (lo + q)); [f_equal; lia|lia| |].
        - apply Z.lt_succ_r. apply (Z.mul_lt_mono_pos_l s); [lia|]. assert (j * M <= (s - 1) * M) by (apply Z.mul_le_mono_nonneg_r; lia). nia.
        - intros x Hx. unfold accp, outp. rewrite andb_true_iff, negb_true_iff, Z.ltb_ge, bool_decide_eq_true. fold TT.
          assert (Hc : cast d (x * s / M) = x * s / M).
          { apply cast_id; [lia|]. destruct Hin as [_ H2]. split.
            - assert (0 <= x * s / M) by (apply Z.div_pos; nia). assert (tmin d <= 0); [|lia]. unfold tmin. destruct (sg d); [|lia]. pose proof (powle 0 (wd d - 1) ltac:(lia)). lia.
            - assert (x * s / M < s); [|lia]. apply Z.div_lt_upper_bound; [lia|]. nia. }
          rewrite Hc. pose proof (Z.div_mod (x * s) M ltac:(lia)) as Hd1. pose proof (Z.mod_pos_bound (x * s) M ltac:(lia)) as Hd2. split.
          + intros [Ha Hb2]. rewrite Hb2 in Hd1. split.
            * apply Z.lt_succ_r. apply (Z.mul_lt_mono_pos_l s); [lia|]. lia.
            * apply (Z.mul_lt_mono_pos_l s); [lia|]. lia.
          + intros [Ha Hb2]. assert (H1 : s * lo <= s * x) by (apply Z.mul_le_mono_nonneg_l; lia). assert (H2 : s * (x + 1) <= s * (lo + q)) by (apply Z.mul_le_mono_nonneg_l; lia).
            assert (Hq : x * s / M = j). { symmetry. apply Z.div_unique with (x * s - j * M); lia. }
            split; [|done]. rewrite Hq in Hd1. lia.
      Qed.
    End k.
    Lemma Rng_unif : exists uu, unif V (Rng d u mn mx s) (seqZ 0 s) uu.
    Proof.
      destruct params_ok as (k & HP & Hk & HsL & Hkb). destruct (R_unif k Hk Hkb) as (uu & U). pose proof Hs as [Hs0 _].
      pose proof (Lk_pos k Hk) as HL. pose proof (powle 0 (Lk k) ltac:(lia)) as HPw.
      eexists. eapply unif_ext; [intros t; symmetry; by apply (Rng_W k Hk Hkb HsL)|].
      apply (W_unif V _ (accp k) (outp k) (uf_causal _ _ _ _ U) (R_nonempty k Hk Hkb)) with (1 := U) (m := Z.to_nat (2 ^ Lk k / s)) (k0 := 0).
      - apply NoDup_seqZ'.
      - apply elem_of_seqZ. lia.
      - intros p (x & -> & Hx%elem_of_seqZ)%elem_of_list_fmap _. apply elem_of_seqZ. unfold outp. destruct Hs as [_ [Hin1 Hin2]]. destruct OK as [Hd' _ _]. pose proof (wd_pos d Hd') as Hwd.
        assert (0 <= x * s / 2 ^ Lk k) by (apply Z.div_pos; nia). assert (x * s / 2 ^ Lk k < s) by (apply Z.div_lt_upper_bound; nia).
        rewrite cast_id; [lia|lia|]. split; [|lia]. assert (tmin d <= 0); [|lia]. unfold tmin. destruct (sg d); [|lia]. pose proof (powle 0 (wd d - 1) ltac:(lia)). lia.
      - intros j Hj%elem_of_seqZ. rewrite sm_fmap. apply lemire_count; [done..|lia].
      - assert (1 <= 2 ^ Lk k / s); [|lia]. apply Z.div_le_lower_bound; lia.
    Qed.
  End index.

  (** *** _Get_all_bits *)
  Lemma all_bits_loop_eq fuel : forall num, b < w -> (Z.to_nat (w - num) < fuel)%nat ->
    exists n, (forall r t, all_bits_loop d u mn mx fuel num r t = niter_loop d u mn mx n r t) /\ w <= num + Z.of_nat n * b.
  Proof.
    destruct Bits_ok as (Hb & _). induction fuel as [|fuel IH]; intros num Hbw Hf; [lia|]. cbn [all_bits_loop]. change (Udiff_bits d u) with w. destruct (Z.ltb_spec num w) as [Hlt|Hge].
    - destruct (IH (num + b) Hbw ltac:(lia)) as (n & Hn & Hnw). exists (S n). split; [|lia]. intros r t. cbn [niter_loop]. unfold rbnd. destruct (more_bits d u mn mx r t) as [[x r']| |]; [|done|done]. rewrite !rbind_ok. apply Hn.
    - exists 0%nat. split; [done|lia].
  Qed.
  Lemma Get_all_bits_unif : exists uu, unif V (Get_all_bits d u mn mx) (seqZ 0 (2 ^ w)) uu.
  Proof.
    destruct Get_bits_unif as (gb & UG). destruct Bits_ok as (Hb & _). destruct ud_facts as (_ & Hw & _). assert (E1 : Lk 1 = b) by (unfold Lk; lia). unfold Get_all_bits. change (Udiff_bits d u) with w.
    destruct (Z.ltb_spec b w) as [Hlt|Hge].
    - destruct (all_bits_loop_eq 65 b Hlt ltac:(lia)) as (n & Hn & Hnw).
      destruct (niter_unif n (Get_bits d u mn mx) 1 gb Hlt ltac:(lia)) as (vv & U); [by rewrite E1|intros t r t'; apply Get_bits_range|]. exists vv.
      assert (EL : Lk (1 + n) = w) by (unfold Lk; lia). rewrite EL in U. eapply unif_ext; [|exact U]. intros t. unfold rbnd. destruct (Get_bits d u mn mx t) as [[x r']| |]; [|done|done]. rewrite !rbind_ok. by rewrite Hn.
    - assert (Ew : b = w) by lia. exists gb. rewrite <-Ew. eapply unif_ext; [intros t; symmetry; apply rbnd_ret|done].
  Qed.
End rng.
