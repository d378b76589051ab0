(** 128-bit division in base 2^32. *)
From stdpp Require Import base numbers list.
From Coq Require Import ZArith Znumtheory Lia.
From Verif Require Import Base.Res Base.Arr Base.Int Num.BitModel Num.BitSpec Num.BitProofs Cont.BitsetModel Cont.BitsetProofs
  Num.Int128Model Num.Int128Spec Num.Int128Proofs Num.Int128Proofs2 Num.Int128Proofs3 Num.Int128Proofs4 Num.Int128Proofs5 Num.Int128Proofs6.
Open Scope Z_scope.
Ltac Zify.zify_post_hook ::= idtac.

Lemma land31 d : Z.land d 31 = d mod 2 ^ 5.
Proof. change 31 with (Z.ones 5). rewrite Z.land_ones by lia. done. Qed.

(** the two shapes of a normalised two-word divisor *)
Lemma den_shape a b : 0 <= a < 2 ^ 64 -> 0 < b < 2 ^ 64 -> let d0 := 64 - bitlen b in let d := d0 mod 2 ^ 5 in
  let v2 := b mod 2 ^ (32 - d) * 2 ^ d + a / 2 ^ (64 - d) in let v3 := w32 (b / 2 ^ (32 - d)) in
  0 <= d <= 31 /\ b / 2 ^ (64 - d) = 0 /\
  (32 <= d0 -> v3 = 0 /\ 2 ^ 31 <= v2) /\ (d0 < 32 -> 2 ^ 31 <= v3).
Proof.
  intros Ha Hb d0 d v2 v3. destruct (norm_word b Hb) as [Hd0 Hn]. fold d0 in Hd0, Hn.
  assert (Hd : 0 <= d <= 31). { unfold d. pose proof (Z.mod_pos_bound d0 (2 ^ 5) ltac:(lia)). lia. }
  split; [done|]. pose proof (p2 d ltac:(lia)) as HD.
  pose proof (sh_val1 b d Hd ltac:(lia)) as Eb. destruct (sh_ok b d Hd ltac:(lia)) as (B1 & B2 & B3 & B4 & B5).
  destruct (sh_ok a d Hd Ha) as (A1 & A2 & A3 & A4 & _). unfold okd in *.
  destruct (Z.lt_ge_cases d0 32) as [Hs|Hs].
  - assert (Ed : d = d0) by (unfold d; apply Z.mod_small; lia). rewrite <-Ed in Hn. fold v3 in Eb, B2.
    split; [|split; [lia|lia]]. lia.
  - assert (Ed : d = d0 - 32). { unfold d. symmetry. apply (Z.mod_unique d0 (2 ^ 5) 1); lia. }
    assert (E : 2 ^ d0 = 2 ^ 32 * 2 ^ d). { rewrite <-Z.pow_add_r by lia. f_equal. lia. }
    rewrite E in Hn. fold v3 in Eb, B2. split; [lia|]. split; [|lia]. intros _. unfold v2. lia.
Qed.

Lemma divide_digits_ok num den q : ok128 num -> ok128 den -> 0 < den.2 -> den.2 < num.2 -> length q = 2%nat ->
  exists d u0 u1 u2 u3 q' three, divide_digits num den q = Ok (d, full [u0; u1; u2; u3; 0], q', three) /\
    0 <= d <= 31 /\ Forall okd [u0; u1; u2; u3] /\ dig [u0; u1; u2; u3] = (uval num mod uval den) * 2 ^ d /\
    ((three = true /\ exists a b, q' = full [a; b] /\ okd a /\ okd b /\ a + 2 ^ 32 * b = uval num / uval den) \/
     (three = false /\ exists a, q' = full [a] ++ drop 1 q /\ okd a /\ a = uval num / uval den)).
Proof.
  destruct num as [x0 x1], den as [y0 y1]. intros [Hx0 Hx1] [Hy0 Hy1] Hy Hlt Hq. cbn [fst snd] in *.
  unfold divide_digits. cbn [fst snd]. rewrite clz64 by lia. rewrite rbind_ok. cbv zeta. rewrite land31.
  destruct (den_shape y0 y1 Hy0 ltac:(lia)) as (Hd & Ev4 & H3 & H4).
  set (d0 := 64 - bitlen y1) in *. set (d := d0 mod 2 ^ 5) in *. pose proof (p2 d ltac:(lia)) as HD.
  do 4 (rewrite shl64 by lia; rewrite rbind_ok; rewrite shr64 by lia; rewrite rbind_ok).
  rewrite !sh_low by lia.
  destruct (sh_join x0 d Hd Hx0 x1 Hx1) as [J1 J2]. destruct (sh_join y0 d Hd Hy0 y1 Hy1) as [J3 J4].
  destruct (sh_ok x1 d Hd Hx1) as (B1 & B2 & B3 & B4 & B5).
  match goal with |- context [rbind ?m _] =>
    assert (Em : m = Ok (x1 mod 2 ^ (32 - d) * 2 ^ d + x0 / 2 ^ (64 - d), x1 / 2 ^ (64 - d), y1 mod 2 ^ (32 - d) * 2 ^ d + y0 / 2 ^ (64 - d))) end.
  { case_decide as D.
    - do 3 (rewrite shr64 by lia; rewrite rbind_ok). rewrite J1, J3, Z.lor_0_l. rewrite !w32_id by lia. done.
    - assert (E0 : d = 0) by lia. rewrite E0 in *. change (64 - 0) with 64. rewrite !(Z.div_small _ (2 ^ 64)) by lia. rewrite !Z.add_0_r. done. }
  rewrite Em, rbind_ok. clear Em.
  destruct (sh_dig x0 x1 d Hd Hx0 Hx1) as [ED EF]. destruct (sh_dig y0 y1 d Hd Hy0 Hy1) as [EVD EVF].
  rewrite Ev4 in EVD, EVF. rewrite <-uval_pair in ED, EVD.
  set (v2 := y1 mod 2 ^ (32 - d) * 2 ^ d + y0 / 2 ^ (64 - d)) in *. set (v3 := w32 (y1 / 2 ^ (32 - d))) in *.
  set (v0 := y0 mod 2 ^ (32 - d) * 2 ^ d) in *. set (v1 := w32 (y0 / 2 ^ (32 - d))) in *.
  set (u0 := x0 mod 2 ^ (32 - d) * 2 ^ d) in *. set (u1 := w32 (x0 / 2 ^ (32 - d))) in *.
  set (u2 := x1 mod 2 ^ (32 - d) * 2 ^ d + x0 / 2 ^ (64 - d)) in *. set (u3 := w32 (x1 / 2 ^ (32 - d))) in *. set (u4 := x1 / 2 ^ (64 - d)) in *.
  assert (HVp : 0 < uval (y0, y1)) by (rewrite uval_pair; lia).
  set (N := uval (x0, x1)) in *. set (V := uval (y0, y1)) in *.
  clearbody v0 v1 v2 v3 u0 u1 u2 u3 u4 N V d0.
  pose proof EF as EF'. pose proof EVF as EVF'. repeat match goal with H : Forall okd (_ :: _) |- _ => apply list.Forall_cons in H as [? H] end.
  unfold okd in *.
  case_bool_decide as D3.
  - destruct (H3 ltac:(lia)) as [E3 Hv2]. clear H3 H4. subst v3.
    assert (EVd : dig [v0; v1; v2] = V * 2 ^ d). { rewrite <-EVD. cbn [digits]. lia. }
    destruct (knuth_ok 3 1 [u0; u1; u2; u3; u4] [v0; v1; v2] [0] q) as (u' & ql & Ek & K1 & K2 & K3 & K4 & K5 & K6); try done; try lia.
    { by repeat (apply list.Forall_cons; split). }
    { by repeat (apply list.Forall_cons; split). }
    { change (drop (1 + 1) _) with [u2; u3; u4]. cbn [digits]. assert (0 <= u4 < 2 ^ 31) by lia. lia. }
    change (1 + 3 + 1)%nat with 5%nat in Ek. change (([v0; v1; v2] ++ [0])) with [v0; v1; v2; 0] in Ek. rewrite Ek, rbind_ok.
    destruct u' as [|r0 [|r1 [|r2 [|]]]]; try done. destruct ql as [|q0 [|q1 [|]]]; try done.
    destruct q as [|qa [|qb [|]]]; try done.
    rewrite ED, EVd in K5, K6. rewrite Z.mul_mod_distr_r in K5 by lia. rewrite Z.div_mul_cancel_r in K6 by lia.
    exists d, r0, r1, r2, 0, (full [q0; q1]), true. split; [done|]. split; [done|].
    repeat match goal with H : Forall _ (_ :: _) |- _ => apply list.Forall_cons in H as [? H] end.
    split; [repeat (apply list.Forall_cons; split); try done; unfold okd; lia|].
    split; [rewrite <-K5; cbn [digits]; lia|]. left. split; [done|]. exists q0, q1. split; [done|]. cbn [digits] in K6. unfold okd in *. lia.
  - specialize (H4 ltac:(lia)). clear H3.
    assert (EVd : dig [v0; v1; v2; v3] = V * 2 ^ d). { rewrite <-EVD. cbn [digits]. lia. }
    destruct (knuth_ok 4 0 [u0; u1; u2; u3; u4] [v0; v1; v2; v3] [] q) as (u' & ql & Ek & K1 & K2 & K3 & K4 & K5 & K6); try done; try lia.
    { by repeat (apply list.Forall_cons; split). }
    { by repeat (apply list.Forall_cons; split). }
    { change (drop (0 + 1) _) with [u1; u2; u3; u4]. cbn [digits]. assert (0 <= u4 < 2 ^ 31) by lia. lia. }
    change (0 + 4 + 1)%nat with 5%nat in Ek. rewrite app_nil_r in Ek. rewrite Ek, rbind_ok.
    destruct u' as [|r0 [|r1 [|r2 [|r3 [|]]]]]; try done. destruct ql as [|q0 [|]]; try done.
    rewrite ED, EVd in K5, K6. rewrite Z.mul_mod_distr_r in K5 by lia. rewrite Z.div_mul_cancel_r in K6 by lia.
    exists d, r0, r1, r2, r3, (full [q0] ++ drop 1 q), false. split; [done|]. split; [done|].
    repeat match goal with H : Forall _ (_ :: _) |- _ => apply list.Forall_cons in H as [? H] end.
    split; [by repeat (apply list.Forall_cons; split)|].
    split; [done|]. right. split; [done|]. exists q0. split; [done|]. cbn [digits] in K6. unfold okd in *. lia.
Qed.

Lemma wrapu_id z : 0 <= z < 2 ^ 128 -> wrapu z = z. Proof. apply Z.mod_small. Qed.
Lemma quot_small num den : ok128 num -> ok128 den -> 0 < den.2 -> den.2 < num.2 -> 0 < uval num / uval den < 2 ^ 64.
Proof.
  intros Hn Hd H1 H2. pose proof (uval_range _ Hn) as Hr. destruct num as [a b], den as [c e]. destruct Hn, Hd. cbn [fst snd] in *. rewrite !uval_pair in *.
  split; [apply Z.div_str_pos; lia|]. apply Z.div_lt_upper_bound; [lia|]. assert (1 <= e) by lia. nia.
Qed.
(** quotient and remainder by estimate, subtract and correct *)
Lemma intr_ok num den : ok128 num -> ok128 den -> 0 < den.2 -> den.2 < num.2 ->
  let d := 64 - bitlen den.2 in let q := uval num / uval den in
  exists high num' den' q0 n' br, estimate64 num den = Ok (high, num', den', (q0, 0)) /\ mulsub64 high num' den' q0 = Ok (n', br) /\
    0 <= d <= 63 /\ ok128 n' /\ ok128 den' /\ 0 <= q0 < 2 ^ 64 /\
    ((br = 0 /\ q0 = q /\ uval n' = uval num mod uval den * 2 ^ d) \/
     (br = 1 /\ q0 = q + 1 /\ ok128 (addback64 n' den') /\ uval (addback64 n' den') = uval num mod uval den * 2 ^ d)).
Proof.
  intros Hn Hd Hd1 Hlt d q. destruct (estimate64_ok num den Hn Hd Hd1 Hlt) as (high & num' & den' & q0 & E & Hdr & Hon & Hod & Hh & Hq0 & EV & EN & Hq).
  fold d q in Hdr, EV, EN, Hq. exists high, num', den', q0. pose proof (p2 d ltac:(lia)) as HD.
  assert (HV : 0 < uval den). { destruct Hd. unfold uval. lia. }
  pose proof (split_word (uval num) (uval den) HV) as Es. fold q in Es. pose proof (Z.mod_pos_bound (uval num) (uval den) HV) as Hm.
  set (R := uval num mod uval den) in *.
  assert (HR : 0 <= R * 2 ^ d < uval den * 2 ^ d). { split; [apply Z.mul_nonneg_nonneg; lia|]. apply Z.mul_lt_mono_pos_r; lia. }
  assert (EX : high * 2 ^ 128 + uval num' - q0 * uval den' = R * 2 ^ d - (q0 - q) * uval den').
  { rewrite EN, EV. rewrite Es at 1. ring. }
  pose proof (uval_range _ Hod) as Hor.
  assert (Hqq : q0 - q = 0 \/ q0 - q = 1) by lia.
  destruct (mulsub64_ok high num' den' q0 Hon Hod Hh Hq0) as (n' & Em & Hon' & Evn).
  { rewrite EX, EV. destruct Hqq as [-> | ->]; lia. }
  rewrite EX in Em, Evn. exists n', (if decide (R * 2 ^ d - (q0 - q) * uval den' < 0) then 1 else 0).
  do 6 (split; [done|]).
  destruct Hqq as [Hq'|Hq']; rewrite Hq' in *.
  - left. rewrite decide_False by lia. split; [done|]. split; [lia|]. rewrite Evn. rewrite wrapu_id; lia.
  - right. rewrite decide_True by lia. split; [done|]. split; [lia|]. destruct (addback64_ok n' den' Hon' Hod) as [O1 O2]. split; [done|].
    rewrite O2, Evn. unfold wrapu. rewrite Zplus_mod_idemp_l. replace (R * 2 ^ d - 1 * uval den' + uval den') with (R * 2 ^ d) by lia. apply Z.mod_small. lia.
Qed.
