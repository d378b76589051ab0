(** 128-bit division, remainder, and the operators of the signed and unsigned types. *)
From stdpp Require Import base numbers list.
From Coq Require Import ZArith Znumtheory Lia.
From Verif Require Import Base.Res Base.Arr Base.Int Num.BitModel Num.BitSpec Num.BitProofs Cont.BitsetModel Cont.BitsetProofs
  Num.Int128Model Num.Int128Spec Num.Int128Proofs Num.Int128Proofs2 Num.Int128Proofs3 Num.Int128Proofs4 Num.Int128Proofs5 Num.Int128Proofs6 Num.Int128Proofs7.
Open Scope Z_scope.
Ltac Zify.zify_post_hook ::= idtac.

Lemma uval_pos x : ok128 x -> uval x <> 0 -> 0 < uval x.
Proof. intros H ?. pose proof (uval_range _ H). lia. Qed.

Lemma divide_ok intr dintr num den : ok128 num -> ok128 den -> uval den <> 0 ->
  exists r, divide intr dintr num den = Ok r /\ ok128 r /\ uval r = uval num / uval den.
Proof.
  intros Hn Hd Hz. pose proof (uval_pos _ Hd Hz) as Hp. pose proof Hn as [Hn0 Hn1]. pose proof Hd as [Hd0 Hd1].
  unfold divide. destruct (decide (den.2 >= num.2)) as [D1|D1].
  - destruct (decide (den.2 > num.2)) as [D2|D2].
    + destruct (of_u64_ok 0 ltac:(lia)) as [O1 O2]. eexists. split; [done|]. split; [done|]. rewrite O2. symmetry. apply Z.div_small. unfold uval. lia.
    + assert (E : snd den = snd num) by lia. destruct (decide (num.2 = 0)) as [D3|D3].
      * unfold uval in Hp |- *. rewrite D3 in *. rewrite E in *. rewrite udiv_ok by lia. rewrite rbind_ok.
        assert (0 <= num.1 / den.1 <= num.1). { split; [apply Z.div_pos; lia|]. apply Z.div_le_upper_bound; nia. }
        destruct (of_u64_ok (num.1 / den.1) ltac:(lia)) as [O1 O2]. eexists. split; [done|]. split; [done|].
        fold (uval (of_u64 (num.1 / den.1))). rewrite O2. f_equal; lia.
      * destruct (of_u64_ok (b2z (bool_decide (num.1 >= den.1)))) as [O1 O2]; [case_bool_decide; cbn [b2z]; lia|].
        eexists. split; [done|]. split; [done|]. rewrite O2. symmetry. unfold uval. rewrite E.
        case_bool_decide as D4; cbn [b2z].
        -- apply (divmod_eq _ _ 1 (num.1 - den.1)); lia.
        -- apply (divmod_eq _ _ 0 (num.1 + 2 ^ 64 * num.2)); lia.
  - destruct (decide (den.2 = 0)) as [D2|D2].
    + assert (Eu : uval den = fst den) by (unfold uval; rewrite D2; lia). rewrite Eu.
      destruct (negb dintr && bool_decide (den.1 < 2 ^ 32)) eqn:Eb.
      * apply andb_true_iff in Eb as [_ Eb]. apply bool_decide_eq_true in Eb. rewrite w32_id by lia. apply divide32_ok; [done|lia].
      * apply divide64_ok; [done|lia].
    + assert (H1 : 0 < snd den) by lia. assert (H2 : snd den < snd num) by lia. pose proof (quot_small num den Hn Hd H1 H2) as Hq.
      destruct intr.
      * destruct (intr_ok num den Hn Hd H1 H2) as (high & num' & den' & q0 & n' & br & E1 & E2 & Hdr & O1 & O2 & Hq0 & HC).
        rewrite E1, rbind_ok. cbn [fst snd]. rewrite E2, rbind_ok. destruct HC as [(-> & -> & _)|(-> & -> & _)].
        -- eexists. split; [rewrite decide_False by lia; done|]. split; [apply ok_pair; lia|]. rewrite uval_pair. lia.
        -- eexists. split; [rewrite decide_True by lia; done|]. rewrite w64_id by lia. split; [apply ok_pair; lia|]. rewrite uval_pair. lia.
      * destruct (divide_digits_ok num den [None; None] Hn Hd H1 H2 eq_refl) as (d & u0 & u1 & u2 & u3 & q' & three & E & Hdr & _ & _ & HC).
        rewrite E, rbind_ok. destruct HC as [(-> & a & b & -> & Ha & Hb & Hab)|(-> & a & -> & Ha & Hab)].
        -- rewrite rbind_ok. change (rd _ 1) with (Ok b). rewrite rbind_ok. change (rd _ 0) with (Ok a). rewrite rbind_ok.
           rewrite shl64 by lia. rewrite rbind_ok. unfold okd in *. rewrite lor32 by lia. destruct (of_u64_ok (b * 2 ^ 32 + a) ltac:(lia)) as [O1 O2].
           eexists. split; [done|]. split; [done|]. rewrite O2. lia.
        -- change (wr _ 1 0) with (Ok (full [a; 0])). rewrite rbind_ok. change (rd _ 1) with (Ok 0). rewrite rbind_ok. change (rd _ 0) with (Ok a). rewrite rbind_ok.
           rewrite shl64 by lia. rewrite rbind_ok. unfold okd in *. rewrite lor32 by lia. destruct (of_u64_ok (0 * 2 ^ 32 + a) ltac:(lia)) as [O1 O2].
           eexists. split; [done|]. split; [done|]. rewrite O2. lia.
Qed.

(** shifting the scaled remainder back *)
Lemma unscale r d R : ok128 r -> 0 <= d <= 63 -> uval r = R * 2 ^ d ->
  exists r', unsigned_right_shift r (cast u8 d) = Ok r' /\ ok128 r' /\ uval r' = R.
Proof.
  intros Hr Hd E. rewrite cast_u8_id by lia. destruct (unsigned_right_shift_ok r d Hr ltac:(lia)) as (r' & E' & O & V).
  exists r'. split; [done|]. split; [done|]. rewrite V, E. apply Z.div_mul. pose proof (p2 d ltac:(lia)). lia.
Qed.
Lemma digits_pair u0 u1 u2 u3 : Forall okd [u0; u1; u2; u3] ->
  Z.lor ((u1 * 2 ^ 32) mod 2 ^ 64) u0 = u1 * 2 ^ 32 + u0 /\ Z.lor ((u3 * 2 ^ 32) mod 2 ^ 64) u2 = u3 * 2 ^ 32 + u2 /\
  ok128 (u1 * 2 ^ 32 + u0, u3 * 2 ^ 32 + u2) /\ uval (u1 * 2 ^ 32 + u0, u3 * 2 ^ 32 + u2) = dig [u0; u1; u2; u3].
Proof.
  intros H. repeat match goal with H : Forall _ (_ :: _) |- _ => apply list.Forall_cons in H as [? H] end. unfold okd in *.
  split; [apply lor32; lia|]. split; [apply lor32; lia|]. split; [apply ok_pair; lia|]. rewrite uval_pair. cbn [digits]. lia.
Qed.
Lemma modulo_ok intr dintr num den : ok128 num -> ok128 den -> uval den <> 0 ->
  exists r, modulo intr dintr num den = Ok r /\ ok128 r /\ uval r = uval num mod uval den.
Proof.
  intros Hn Hd Hz. pose proof (uval_pos _ Hd Hz) as Hp. pose proof Hn as [Hn0 Hn1]. pose proof Hd as [Hd0 Hd1].
  unfold modulo. destruct (decide (den.2 >= num.2)) as [D1|D1].
  - destruct (decide (den.2 > num.2)) as [D2|D2].
    + eexists. split; [done|]. split; [done|]. symmetry. apply Z.mod_small. unfold uval. lia.
    + assert (E : snd den = snd num) by lia. destruct (decide (den.1 <= num.1)) as [D3|D3].
      * destruct (decide (num.2 = 0)) as [D4|D4].
        -- assert (Eu : uval den = fst den) by (unfold uval; rewrite E, D4; lia). assert (Eu' : uval num = fst num) by (unfold uval; rewrite D4; lia).
           rewrite Eu, Eu' in *. rewrite umod_ok by lia. rewrite !rbind_ok. pose proof (Z.mod_pos_bound num.1 den.1 Hp).
           destruct (of_u64_ok (num.1 mod den.1) ltac:(lia)) as [O1 O2]. eexists. split; [done|]. done.
        -- rewrite rbind_ok. rewrite w64_id by lia. destruct (of_u64_ok (num.1 - den.1) ltac:(lia)) as [O1 O2]. eexists. split; [done|]. split; [done|].
           rewrite O2. symmetry. unfold uval. rewrite E. apply (divmod_eq _ _ 1 (num.1 - den.1)); lia.
      * eexists. split; [done|]. split; [done|]. symmetry. apply Z.mod_small. unfold uval. lia.
  - destruct (decide (den.2 = 0)) as [D2|D2].
    + assert (Eu : uval den = fst den) by (unfold uval; rewrite D2; lia). rewrite Eu.
      destruct (negb dintr && bool_decide (den.1 < 2 ^ 32)) eqn:Eb.
      * apply andb_true_iff in Eb as [_ Eb]. apply bool_decide_eq_true in Eb. rewrite w32_id by lia. apply modulo32_ok; [done|lia].
      * apply modulo64_ok; [done|lia].
    + assert (H1 : 0 < snd den) by lia. assert (H2 : snd den < snd num) by lia.
      destruct intr.
      * rewrite clz64 by lia. rewrite rbind_ok.
        destruct (intr_ok num den Hn Hd H1 H2) as (high & num' & den' & q0 & n' & br & E1 & E2 & Hdr & O1 & O2 & Hq0 & HC).
        rewrite E1, rbind_ok. cbn [fst snd]. rewrite E2, rbind_ok. cbv zeta. destruct HC as [(-> & _ & HV)|(-> & _ & O3 & HV)].
        -- rewrite decide_False by lia. by apply unscale.
        -- rewrite decide_True by lia. by apply unscale.
      * destruct (divide_digits_ok num den [None; None] Hn Hd H1 H2 eq_refl) as (d & u0 & u1 & u2 & u3 & q' & three & E & Hdr & HF & HV & _).
        rewrite E, rbind_ok. destruct (digits_pair _ _ _ _ HF) as (J1 & J2 & O1 & O2).
        change (rd _ 1) with (Ok u1). rewrite rbind_ok. change (rd _ 0) with (Ok u0). rewrite rbind_ok. rewrite shl64 by lia. rewrite rbind_ok.
        change (rd _ 3) with (Ok u3). rewrite rbind_ok. change (rd _ 2) with (Ok u2). rewrite rbind_ok. rewrite shl64 by lia. rewrite rbind_ok.
        rewrite J1, J2. apply unscale; [done|lia|]. rewrite O2. done.
Qed.

(** rounding up *)
Definition ceil (n d : Z) : Z := - ((- n) / d).
Lemma ceil_eq n d : 0 < d -> ceil n d = n / d + (if decide (n mod d = 0) then 0 else 1).
Proof.
  intros Hd. unfold ceil. case_decide as D.
  - rewrite Z.div_opp_l_z by lia. lia.
  - rewrite Z.div_opp_l_nz by lia. lia.
Qed.
(** the incremented quotient *)
Lemma ceil_step r n d b : ok128 r -> 0 <= n < 2 ^ 128 -> 0 < d -> uval r = n / d -> (b = true <-> n mod d <> 0) ->
  ok128 (if (b : bool) then incr128 r else r) /\ uval (if (b : bool) then incr128 r else r) = ceil n d.
Proof.
  intros Hr Hn Hd E Hb. rewrite ceil_eq by done. destruct b.
  - destruct (incr128_ok r Hr) as [O V]. split; [done|]. rewrite decide_False by tauto. rewrite V, E. apply wrapu_id.
    assert (n mod d <> 0) by tauto. pose proof (split_word n d Hd) as Es. pose proof (Z.mod_pos_bound n d Hd). assert (0 <= n / d) by (apply Z.div_pos; lia).
    assert (2 <= d) by lia. assert (2 * (n / d) <= d * (n / d)) by (apply Z.mul_le_mono_nonneg_r; lia). lia.
  - split; [done|]. destruct (decide _) as [|D]; [lia|]. exfalso. assert (false = true) by tauto. done.
Qed.
Lemma div_ceil32_ok num den : ok128 num -> 0 < den < 2 ^ 32 ->
  exists r, div_ceil32 num den = Ok r /\ ok128 r /\ uval r = ceil (uval num) den.
Proof.
  intros Hn Hd. pose proof (uval_range _ Hn) as Hr. destruct num as [a b]. destruct Hn as [Ha Hb]. cbn [fst snd] in *. unfold div_ceil32. cbn [fst snd].
  destruct (long32 a b den Ha Hb Hd) as (H1 & H2 & H3 & H4 & H5 & H6 & H7 & H8 & H9).
  rewrite udiv_ok by lia. rewrite rbind_ok. rewrite umod_ok by lia. rewrite rbind_ok.
  rewrite shl64 by lia. rewrite rbind_ok. rewrite shr64 by lia. rewrite rbind_ok. cbv zeta. pose proof (w32_range a).
  rewrite (lor32 (b mod den)) by lia. rewrite udiv_ok by lia. rewrite rbind_ok. rewrite shl64 by lia. rewrite rbind_ok.
  rewrite umod_ok by lia. rewrite rbind_ok. rewrite shl64 by lia. rewrite rbind_ok. rewrite (lor32 (_ mod den)) by lia.
  rewrite udiv_ok by lia. rewrite rbind_ok. rewrite (w32_id (_ / den)) by lia. rewrite lor32 by lia.
  rewrite umod_ok by lia. rewrite rbind_ok. rewrite <-H9.
  rewrite uval_pair in Hr.
  destruct (ceil_step ((b mod den * 2 ^ 32 + a / 2 ^ 32) / den * 2 ^ 32 + ((b mod den * 2 ^ 32 + a / 2 ^ 32) mod den * 2 ^ 32 + w32 a) / den, b / den)
     (a + 2 ^ 64 * b) den (bool_decide ((a + 2 ^ 64 * b) mod den <> 0))) as [O V];
    [apply ok_pair; lia|lia|lia|rewrite uval_pair, H8; lia|apply bool_decide_eq_true|].
  rewrite uval_pair. destruct (decide ((a + 2 ^ 64 * b) mod den <> 0)) as [D|D]; [rewrite bool_decide_true in O, V by exact D|rewrite bool_decide_false in O, V by exact D]; eauto.
Qed.
Lemma div_ceil64_ok num den : ok128 num -> 0 < den < 2 ^ 64 ->
  exists r, div_ceil64 num den = Ok r /\ ok128 r /\ uval r = ceil (uval num) den.
Proof.
  intros Hn Hd. pose proof (uval_range _ Hn) as Hr.
  destruct (divide64_ok num den Hn Hd) as (q & Eq & Oq & Vq). destruct (modulo64_ok num den Hn Hd) as (m & Em & Om & Vm).
  unfold divide64, modulo64 in *. unfold div_ceil64. rewrite udiv_ok in * by lia. rewrite rbind_ok in *. rewrite umod_ok in * by lia. rewrite rbind_ok in *.
  destruct Hn as [Hn0 Hn1]. pose proof (Z.mod_pos_bound num.2 den ltac:(lia)).
  rewrite udiv128_ok in * by lia. rewrite rbind_ok in *. injection Eq as <-. injection Em as <-.
  set (rem := (_ + num.1) mod den) in *. assert (Hrem : 0 <= rem < den) by (apply Z.mod_pos_bound; lia).
  destruct (of_u64_ok rem ltac:(lia)) as [_ V]. rewrite V in Vm.
  destruct (ceil_step _ (uval num) den (bool_decide (rem <> 0)) Oq Hr ltac:(lia) Vq) as [O1 O2]. { rewrite <-Vm. apply bool_decide_eq_true. }
  destruct (decide (rem <> 0)) as [D|D]; [rewrite bool_decide_true in O1, O2 by exact D|rewrite bool_decide_false in O1, O2 by exact D]; eauto.
Qed.
Lemma eq128_zero x : ok128 x -> negb (eq128 x (of_u64 0)) = true <-> uval x <> 0.
Proof.
  intros H. destruct (of_u64_ok 0 ltac:(lia)) as [O1 O2]. rewrite eq128_ok by done. rewrite O2. rewrite negb_true_iff. apply bool_decide_eq_false.
Qed.
Lemma scaled_zero R d : 0 <= d -> R * 2 ^ d <> 0 <-> R <> 0.
Proof. intros. pose proof (p2 d ltac:(lia)). split; [intros H1 ->; lia|]. intros H1 H2. apply Z.mul_eq_0 in H2. lia. Qed.
Lemma div_ceil_ok intr dintr num den : ok128 num -> ok128 den -> uval den <> 0 ->
  exists r, div_ceil intr dintr num den = Ok r /\ ok128 r /\ uval r = ceil (uval num) (uval den).
Proof.
  intros Hn Hd Hz. pose proof (uval_pos _ Hd Hz) as Hp. pose proof Hn as [Hn0 Hn1]. pose proof Hd as [Hd0 Hd1]. pose proof (uval_range _ Hn) as Hr.
  unfold div_ceil. destruct (decide (den.2 >= num.2)) as [D1|D1].
  - destruct (decide (den.2 > num.2)) as [D2|D2].
    + destruct (of_u64_ok (b2z (negb (eq128 num (of_u64 0))))) as [O1 O2]. { destruct (negb _); cbn [b2z]; lia. }
      eexists. split; [done|]. split; [done|]. rewrite O2. rewrite ceil_eq by done.
      destruct (divmod_eq (uval num) (uval den) 0 (uval num)) as [-> ->]; [lia|unfold uval; lia|].
      pose proof (eq128_zero num Hn). destruct (negb _); cbn [b2z]; case_decide; try lia; naive_solver.
    + assert (E : snd den = snd num) by lia. destruct (decide (num.2 = 0)) as [D3|D3].
      * assert (Eu : uval den = fst den) by (unfold uval; rewrite E, D3; lia). assert (Eu' : uval num = fst num) by (unfold uval; rewrite D3; lia).
        rewrite Eu, Eu' in *. rewrite udiv_ok by lia. rewrite rbind_ok. rewrite umod_ok by lia. rewrite rbind_ok.
        pose proof (split_word num.1 den.1 Hp) as Es. pose proof (Z.mod_pos_bound num.1 den.1 Hp). assert (0 <= num.1 / den.1) by (apply Z.div_pos; lia).
        assert (1 * (num.1 / den.1) <= den.1 * (num.1 / den.1)) by (apply Z.mul_le_mono_nonneg_r; lia).
        rewrite ceil_eq by lia. case_decide as D4.
        -- rewrite w64_id by lia. destruct (of_u64_ok (num.1 / den.1 + 1) ltac:(lia)) as [O1 O2]. eexists. split; [done|]. split; [done|]. rewrite decide_False by done. done.
        -- destruct (of_u64_ok (num.1 / den.1) ltac:(lia)) as [O1 O2]. eexists. split; [done|]. split; [done|]. rewrite decide_True by lia. lia.
      * rewrite ceil_eq by done. unfold uval in Hp |- *. rewrite E. case_decide as D4.
        -- destruct (of_u64_ok 2 ltac:(lia)) as [O1 O2]. eexists. split; [done|]. split; [done|]. fold (uval (of_u64 2)). rewrite O2.
           destruct (divmod_eq (num.1 + 2 ^ 64 * num.2) (den.1 + 2 ^ 64 * num.2) 1 (num.1 - den.1)) as [-> ->]; [lia|lia|]. rewrite decide_False by lia. lia.
        -- destruct (of_u64_ok 1 ltac:(lia)) as [O1 O2]. eexists. split; [done|]. split; [done|]. fold (uval (of_u64 1)). rewrite O2.
           destruct (decide (num.1 = den.1)) as [D5|D5].
           ++ destruct (divmod_eq (num.1 + 2 ^ 64 * num.2) (den.1 + 2 ^ 64 * num.2) 1 0) as [-> ->]; [lia|lia|]. rewrite decide_True by lia. lia.
           ++ destruct (divmod_eq (num.1 + 2 ^ 64 * num.2) (den.1 + 2 ^ 64 * num.2) 0 (num.1 + 2 ^ 64 * num.2)) as [-> ->]; [lia|lia|]. rewrite decide_False by lia. lia.
  - destruct (decide (den.2 = 0)) as [D2|D2].
    + assert (Eu : uval den = fst den) by (unfold uval; rewrite D2; lia). rewrite Eu.
      destruct (negb dintr && bool_decide (den.1 < 2 ^ 32)) eqn:Eb.
      * apply andb_true_iff in Eb as [_ Eb]. apply bool_decide_eq_true in Eb. rewrite w32_id by lia. apply div_ceil32_ok; [done|lia].
      * apply div_ceil64_ok; [done|lia].
    + assert (H1 : 0 < snd den) by lia. assert (H2 : snd den < snd num) by lia. pose proof (quot_small num den Hn Hd H1 H2) as Hq.
      destruct intr.
      * destruct (intr_ok num den Hn Hd H1 H2) as (high & num' & den' & q0 & n' & br & E1 & E2 & Hdr & O1 & O2 & Hq0 & HC).
        rewrite E1, rbind_ok. cbn [fst snd]. rewrite E2, rbind_ok. destruct HC as [(-> & -> & HV)|(-> & -> & O3 & HV)].
        -- rewrite decide_False by lia. rewrite rbind_ok. eexists. split; [done|].
           apply ceil_step; [apply ok_pair; lia|done|done|rewrite uval_pair; lia|]. rewrite eq128_zero by done. rewrite HV. apply scaled_zero. lia.
        -- rewrite decide_True by lia. rewrite rbind_ok. eexists. split; [done|]. rewrite w64_id by lia.
           apply ceil_step; [apply ok_pair; lia|done|done|rewrite uval_pair; lia|]. rewrite eq128_zero by done. rewrite HV. apply scaled_zero. lia.
      * destruct (divide_digits_ok num den (full [0; 0]) Hn Hd H1 H2 eq_refl) as (d & u0 & u1 & u2 & u3 & q' & three & E & Hdr & HF & HV & HC).
        rewrite E, rbind_ok. destruct (digits_pair _ _ _ _ HF) as (J1 & J2 & O1 & O2).
        assert (HQ : exists a b, q' = full [a; b] /\ okd a /\ okd b /\ a + 2 ^ 32 * b = uval num / uval den).
        { destruct HC as [(_ & a & b & HC)|(_ & a & -> & Ha & Hab)]; [by exists a, b|]. exists a, 0. split; [done|]. split; [done|]. unfold okd. lia. }
        destruct HQ as (a & b & -> & Ha & Hb & Hab). unfold okd in Ha, Hb.
        change (rd _ 1) with (Ok b) at 1. rewrite rbind_ok. change (rd _ 0) with (Ok a) at 1. rewrite rbind_ok. rewrite shl64 by lia. rewrite rbind_ok.
        change (rd _ 1) with (Ok u1). rewrite rbind_ok. change (rd _ 0) with (Ok u0). rewrite rbind_ok. rewrite shl64 by lia. rewrite rbind_ok.
        change (rd _ 3) with (Ok u3). rewrite rbind_ok. change (rd _ 2) with (Ok u2). rewrite rbind_ok. rewrite shl64 by lia. rewrite rbind_ok.
        rewrite J1, J2. rewrite lor32 by lia. rewrite rbind_ok. destruct (of_u64_ok (b * 2 ^ 32 + a) ltac:(lia)) as [O3 O4].
        eexists. split; [done|]. apply ceil_step; [done|done|done|rewrite O4; lia|]. rewrite eq128_zero by done. rewrite O2, HV. apply scaled_zero. lia.
Qed.
