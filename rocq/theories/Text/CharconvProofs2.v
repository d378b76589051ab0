From stdpp Require Import base numbers list.
From Coq Require Import ZArith Lia.
From Verif Require Import Base.Res Base.Int Num.BitProofs Num.GcdProofs Chrono.DurationProofs Text.CharconvModel Text.CharconvSpec Text.CharconvProofs.
Open Scope Z_scope.

Lemma pow_half w : 1 <= w -> 2 ^ w = 2 * 2 ^ (w - 1).
Proof. intros. rewrite <-Z.pow_succ_r by lia. f_equal. lia. Qed.
Lemma neg_ok t v : std_ity t -> 0 <= v < 2 ^ wd t -> exists r, arith (usual_arith s32 (make_unsigned t)) (0 - v) = Ok r /\ cast (make_unsigned t) r = (- v) mod 2 ^ wd t.
Proof.
  intros Ht Hv. destruct (decide (wd t < 32)) as [L|L].
  - assert (E : usual_arith s32 (make_unsigned t) = s32). { ity_cases t Ht; cbn in *; (reflexivity || lia). }
    rewrite E. assert (2 ^ wd t <= 2 ^ 31) by (apply Z.pow_le_mono_r; lia). rewrite arith_s32 by lia. eexists. split; [done|]. unfold cast, make_unsigned. cbn [sg wd]. done.
  - assert (E : usual_arith s32 (make_unsigned t) = make_unsigned t). { ity_cases t Ht; cbn in *; (reflexivity || lia). }
    rewrite E. unfold arith, make_unsigned. cbn [sg wd]. eexists. split; [done|]. unfold cast. cbn [sg wd]. rewrite Z.mod_mod; [f_equal; lia|]. apply Z.pow_nonzero; [lia|]. apply wd_pos in Ht. lia.
Qed.
Lemma acc_ok t z : std_ity t -> 0 <= z < 2 ^ wd t -> arith (usual_arith (make_unsigned t) s32) z = Ok z.
Proof.
  intros Ht Hv. destruct (decide (wd t < 32)) as [L|L].
  - assert (E : usual_arith (make_unsigned t) s32 = s32). { ity_cases t Ht; cbn in *; (reflexivity || lia). }
    rewrite E. assert (2 ^ wd t <= 2 ^ 31) by (apply Z.pow_le_mono_r; lia). by rewrite arith_s32 by lia.
  - assert (E : usual_arith (make_unsigned t) s32 = make_unsigned t). { ity_cases t Ht; cbn in *; (reflexivity || lia). }
    rewrite E. unfold arith, make_unsigned. cbn [sg wd]. by rewrite Z.mod_small.
Qed.
Lemma cast_u_small t z : 0 <= z < 2 ^ wd t -> cast (make_unsigned t) z = z.
Proof. intros H. unfold cast, make_unsigned. cbn [sg wd]. by apply Z.mod_small. Qed.
Lemma put_len buf i l b' : put buf i l = Ok b' -> length b' = length buf.
Proof.
  unfold put. destruct (decide _) as [H|H]; [|done]. intros [= <-]. rewrite !app_length, take_length, drop_length. lia.
Qed.

Lemma to_chars_ok win64 t buf v base : std_ity t -> in_t t v -> 2 <= base <= 36 ->
  exists text buf' ptr ec, text_of base v text /\ to_chars win64 t buf v base = Ok (buf', ptr, ec) /\ length buf' = length buf /\
  if decide (length text <= length buf)%nat then buf' = text ++ drop (length text) buf /\ ptr = length text /\ ec = EOk
  else ptr = length buf /\ ec = ETooLarge.
Proof.
  intros Ht Hv Hb. unfold to_chars. rewrite decide_True by lia.
  set (w := Z.to_nat (wd t)). pose proof (wd_pos t Ht) as Hwd. assert (Hwz : Z.of_nat w = wd t) by (unfold w; rewrite Z2Nat.id; lia).
  assert (Hw : (w <= 32 \/ w = 64)%nat) by (ity_cases t Ht; cbn in Hwz; lia).
  assert (Hu : make_unsigned t = Ity (Z.of_nat w) false) by (unfold make_unsigned; by rewrite Hwz).
  assert (Hbd : forall V, 0 <= V < 2 ^ wd t -> exists r ds, base_digits win64 (S w) (make_unsigned t) base V (w, []) = Ok (r, map digit_char ds) /\ numeral base V ds).
  { intros V HV. pose proof (wp_base_digits win64 w base V Hw ltac:(lia) Hb ltac:(by rewrite Hwz)) as H. rewrite <-Hu in H. apply wp_exists in H as ([r l] & E & ds & El & Hn). cbn in El. subst l. eauto. }
  cbv zeta. destruct (decide (sg t = true /\ v < 0)) as [[Hs Hneg]|Hpos].
  - assert (Hr : - 2 ^ (wd t - 1) <= v) by (unfold in_t, tmin in Hv; rewrite Hs in Hv; lia). pose proof (pow_half (wd t) ltac:(lia)) as Hph.
    assert (Ev : cast (make_unsigned t) v = v + 2 ^ wd t). { unfold cast, make_unsigned; cbn [sg wd]. symmetry. apply Z.mod_unique_pos with (-1); lia. }
    destruct (neg_ok t (cast (make_unsigned t) v) Ht) as (r & Er & Ec); [rewrite Ev; lia|].
    assert (Ev2 : cast (make_unsigned t) r = Z.abs v). { rewrite Ec, Ev. symmetry. apply Z.mod_unique_pos with (-1); lia. }
    destruct (Hbd (Z.abs v) ltac:(lia)) as (r0 & ds & Ed & Hn).
    assert (HT : text_of base v (45 :: map digit_char ds)). { exists ds. split; [done|]. by rewrite decide_True by lia. }
    destruct (decide (length buf = 0)%nat) as [E0|E0].
    + exists (45 :: map digit_char ds), buf, (length buf), ETooLarge. repeat (split; [done|]). rewrite decide_False by (cbn; lia). done.
    + destruct buf as [|c0 buf]; [done|]. unfold put at 1. rewrite decide_True by (cbn; lia). rewrite rbind_ok. cbn [take drop app length Nat.add]. rewrite Er, rbind_ok, Ev2, Ed, rbind_ok.
      destruct (decide _) as [L|L].
      * eexists _, _, _, _. split; [exact HT|]. split; [reflexivity|]. split; [done|]. rewrite decide_False by (cbn [length] in *; lia). done.
      * change (drop 0 buf) with buf. unfold put. cbn [length] in L. rewrite decide_True by (cbn [length]; lia). rewrite rbind_ok. eexists _, _, _, _. split; [exact HT|]. split; [reflexivity|].
        cbn [take drop app length Nat.add]. change (take 0 buf) with (@nil Z). cbn [app]. split; [f_equal; rewrite ?app_length, ?drop_length; cbn [length]; lia|]. rewrite decide_True by lia. done.
  - assert (Hnn : 0 <= v). { unfold in_t, tmin in Hv. destruct (sg t); [|lia]. destruct (decide (v < 0)); [|lia]. tauto. }
    assert (Hlt : v < 2 ^ wd t). { unfold in_t, tmax in Hv. pose proof (pow_half (wd t) ltac:(lia)). assert (0 < 2 ^ (wd t - 1)) by (apply Z.pow_pos_nonneg; lia). destruct (sg t); lia. }
    rewrite cast_u_small by lia. destruct (Hbd v ltac:(lia)) as (r0 & ds & Ed & Hn). rewrite Ed, rbind_ok.
    assert (HT : text_of base v (map digit_char ds)). { exists ds. rewrite Z.abs_eq by lia. split; [done|]. by rewrite decide_False by lia. }
    destruct (decide _) as [L|L].
    + eexists _, _, _, _. split; [exact HT|]. split; [reflexivity|]. split; [done|]. rewrite decide_False by lia. done.
    + unfold put. rewrite decide_True by lia. rewrite rbind_ok. eexists _, _, _, _. split; [exact HT|]. split; [reflexivity|]. change (take 0 buf) with (@nil Z). cbn [app Nat.add].
      split; [rewrite ?app_length, ?drop_length; lia|]. rewrite decide_True by lia. done.
Qed.

(** ** from_chars *)
Lemma digit_dec base c : 0 <= c <= 255 -> 2 <= base <= 36 -> exists d, digit_from_char c = Ok d /\
  ((d < base /\ char_digit c = Some d /\ 0 <= d) \/ (base <= d /\ ~ is_digit base c)).
Proof.
  intros Hc Hb. destruct (digit_from_char_ok c Hc) as (d & E & Hd & H). exists d. split; [done|]. destruct (decide (d < base)).
  - left. destruct H as [H|[_ ->]]; [|lia]. split; [done|]. split; [done|lia].
  - right. split; [lia|]. intros (d' & E' & Hd'). destruct H as [H|[H _]]; [|congruence]. assert (d' = d) by congruence. lia.
Qed.
(** the limit on the magnitude *)
Definition lim (t : ity) (neg : bool) : Z := if sg t then (if neg then 2 ^ (wd t - 1) else 2 ^ (wd t - 1) - 1) else 2 ^ wd t - 1.
Lemma lim_range t neg : std_ity t -> 0 <= lim t neg < 2 ^ wd t.
Proof.
  intros Ht. pose proof (wd_pos t Ht). pose proof (pow_half (wd t) ltac:(lia)). assert (0 < 2 ^ (wd t - 1)) by (apply Z.pow_pos_nonneg; lia). unfold lim. destruct (sg t), neg; lia.
Qed.
Lemma lim_in t (neg : bool) n : std_ity t -> (neg = true -> sg t = true) -> 0 <= n -> (in_t t (if neg then - n else n) <-> n <= lim t neg).
Proof.
  intros Ht Hs Hn. pose proof (wd_pos t Ht). pose proof (pow_half (wd t) ltac:(lia)). assert (0 < 2 ^ (wd t - 1)) by (apply Z.pow_pos_nonneg; lia).
  unfold in_t, tmin, tmax, lim. destruct neg; [rewrite Hs by done; lia|]. destruct (sg t); lia.
Qed.

Lemma from_chars_ok t s old base : std_ity t -> 2 <= base <= 36 -> Forall (fun c => 0 <= c <= 255) s ->
  exists (neg : bool) body rest vs, s = (if neg then [45] else []) ++ body ++ rest /\ (neg = true <-> sg t = true /\ s !! 0%nat = Some 45) /\
  Forall2 (fun c d => char_digit c = Some d /\ d < base) body vs /\ (forall c, rest !! 0%nat = Some c -> ~ is_digit base c) /\
  let v := if neg then - numval base vs else numval base vs in
  from_chars t s old base = Ok (
    if decide (body = []) then (0%nat, EInvalid, old)
    else if decide (in_t t v) then (length ((if neg then [45] else []) ++ body), EOk, v)
    else (length ((if neg then [45] else []) ++ body), ERange, old)).
Proof.
  intros Ht Hb Hs. pose proof (wd_pos t Ht) as Hwd. pose proof (pow_half (wd t) ltac:(lia)) as Hph. assert (Hp0 : 0 < 2 ^ (wd t - 1)) by (apply Z.pow_pos_nonneg; lia).
  unfold from_chars. rewrite decide_True by lia. cbv zeta.
  set (neg := bool_decide (sg t = true /\ s !! 0%nat = Some 45)).
  assert (Hneg : neg = true <-> sg t = true /\ s !! 0%nat = Some 45) by apply bool_decide_eq_true.
  assert (Hum : cast (make_unsigned t) (-1) = 2 ^ wd t - 1). { unfold cast, make_unsigned; cbn [sg wd]. symmetry. apply Z.mod_unique_pos with (-1); lia. }
  assert (Him : cast (make_unsigned t) (cast (make_unsigned t) (-1) / 2) = 2 ^ (wd t - 1) - 1).
  { rewrite Hum. replace ((2 ^ wd t - 1) / 2) with (2 ^ (wd t - 1) - 1); [apply cast_u_small; lia|]. apply Z.div_unique_pos with 1; lia. }
  rewrite Him. rewrite acc_ok, rbind_ok by (done || lia). rewrite (cast_u_small t (2 ^ (wd t - 1) - 1 + 1)) by lia. rewrite Hum.
  assert (El : (if sg t then if neg then 2 ^ (wd t - 1) - 1 + 1 else 2 ^ (wd t - 1) - 1 else 2 ^ wd t - 1) = lim t neg) by (unfold lim; destruct (sg t), neg; lia).
  rewrite El. clear El Him Hum. pose proof (lim_range t neg Ht) as HL. set (L := lim t neg) in *.
  rewrite Z.quot_div_nonneg, Z.rem_mod_nonneg by lia.
  assert (Hq : 0 <= L / base <= L) by (split; [apply Z.div_pos; lia|]; apply Z.div_le_upper_bound; nia).
  pose proof (Z.mod_pos_bound L base ltac:(lia)) as Hm. assert (L mod base <= L) by (apply Z.mod_le; lia).
  rewrite !cast_u_small by lia. pose proof (Z.div_mod L base ltac:(lia)) as HLd. set (R := L / base) in *. set (M := L mod base) in *.
  set (sgn := if neg then [45] else []). set (first := if neg then 1%nat else 0%nat).
  assert (Hfirst : first = length sgn) by (unfold first, sgn; destruct neg; done).
  assert (Hsplit : exists s', s = sgn ++ s'). { unfold sgn. destruct neg; [|by exists s]. destruct (proj1 Hneg eq_refl) as [_ H0]. destruct s as [|c s']; [done|]. cbn in H0. injection H0 as ->. by exists s'. }
  match goal with |- context [loop ?f ?b ?x] => assert (Hloop : wp (loop f b x) (fun '(next, value, ov) => exists body rest vs, s = sgn ++ body ++ rest /\ next = length (sgn ++ body) /\
    Forall2 (fun c d => char_digit c = Some d /\ d < base) body vs /\ (forall c, rest !! 0%nat = Some c -> ~ is_digit base c) /\
    (ov = false -> value = numval base vs /\ value <= L) /\ (ov = true -> L < numval base vs))) end.
  { apply (wp_loop (fun '(next, value, ov) => exists body rest vs, s = sgn ++ body ++ rest /\ next = length (sgn ++ body) /\
      Forall2 (fun c d => char_digit c = Some d /\ d < base) body vs /\ 0 <= value <= L /\ (ov = false -> value = numval base vs) /\ (ov = true -> L < numval base vs)) (fun '(next, _, _) => (length s - next)%nat)).
    - intros [[next value] ov] (body & rest & vs & Es & En & Hf & Hval & Hov0 & Hov1). destruct (s !! next) as [c|] eqn:Ec.
      + assert (Erest : exists rest', rest = c :: rest'). { rewrite Es, En, app_assoc, lookup_app_r, Nat.sub_diag in Ec by lia. destruct rest as [|c' rest']; [done|]. injection Ec as ->. eauto. }
        destruct Erest as [rest' ->]. assert (Hc : 0 <= c <= 255) by (rewrite list.Forall_forall in Hs; apply Hs; by eapply elem_of_list_lookup_2).
        destruct (digit_dec base c Hc Hb) as (d & -> & Hd). rewrite rbind_ok. apply lookup_lt_Some in Ec.
        destruct (decide (d >= base)) as [G|G].
        * cbn [wp]. destruct Hd as [?|[_ Hd]]; [lia|]. exists body, (c :: rest'), vs. repeat (split; [done|]). split; [intros c' [= <-]; done|]. split; [intros E; split; [auto|lia]|auto].
        * destruct Hd as [(Hd1 & Hd2 & Hd3)|[? _]]; [|lia].
          assert (Hstep : forall (b : bool) value', 0 <= value' <= L -> (b = false -> value' = numval base vs * base + d) -> (b = true -> L < numval base vs * base + d) ->
            (exists body0 rest0 vs0, s = sgn ++ body0 ++ rest0 /\ S next = length (sgn ++ body0) /\ Forall2 (fun c d => char_digit c = Some d /\ d < base) body0 vs0 /\ 0 <= value' <= L /\
              (b = false -> value' = numval base vs0) /\ (b = true -> L < numval base vs0)) /\ (length s - S next < length s - next)%nat).
          { intros b value' B1 B2 B3. split; [|lia]. exists (body ++ [c]), rest', (vs ++ [d]). rewrite numval_snoc. split; [by rewrite Es, <-!app_assoc|].
            split; [rewrite En, !app_length; cbn; lia|]. split; [by apply Forall2_app; [|constructor]|]. done. }
          assert (Hnv : 0 <= numval base vs). { apply numval_nonneg; [lia|]. clear -Hf. induction Hf as [|c d body vs [H1 H2] _ IH]; constructor; [apply char_digit_range in H1; lia|done]. }
          destruct (decide (value < R \/ value = R /\ d <= M)) as [Y|N].
          -- assert (Hv2 : value * base + d <= L) by nia. rewrite acc_ok, rbind_ok by (done || nia). rewrite acc_ok, rbind_ok by (done || nia). cbn [wp].
             rewrite cast_u_small by nia. apply Hstep; [nia| |].
             ++ intros E. by rewrite <-(Hov0 E).
             ++ intros E. specialize (Hov1 E). nia.
          -- cbn [wp]. apply Hstep; [done|done|]. intros _. destruct ov; [specialize (Hov1 eq_refl); nia|]. rewrite <-Hov0 by done. nia.
      + cbn [wp]. exists body, rest, vs. repeat (split; [done|]). split; [|split; [intros E; split; [auto|lia]|auto]].
        intros c Hc. rewrite Es, En, app_assoc, lookup_app_r, Nat.sub_diag in Ec by lia. congruence.
    - destruct Hsplit as [s' Es]. exists [], s', []. split; [done|]. rewrite app_nil_r. split; [done|]. split; [constructor|]. split; [lia|]. done.
    - lia. }
  apply wp_exists in Hloop as ([[next value] ov] & -> & body & rest & vs & Es & En & Hf & Hr & Hov0 & Hov1). rewrite rbind_ok.
  exists neg, body, rest, vs. split; [done|]. split; [done|]. split; [done|]. split; [done|]. fold sgn. fold first.
  assert (Hnv : 0 <= numval base vs). { apply numval_nonneg; [lia|]. clear -Hf. induction Hf as [|c d body vs [H1 H2] _ IH]; constructor; [apply char_digit_range in H1; lia|done]. }
  rewrite Hfirst, En, app_length. destruct (decide (body = [])) as [->|Nb].
  { rewrite decide_True by (cbn; lia). done. }
  rewrite decide_False. 2: { destruct body; [done|]. cbn. lia. }
  pose proof (lim_in t neg (numval base vs) Ht ltac:(tauto) Hnv) as Hin. fold L in Hin. destruct ov.
  - specialize (Hov1 eq_refl). rewrite decide_False by (rewrite Hin; lia). done.
  - destruct (Hov0 eq_refl) as [-> Hle]. rewrite decide_True by (apply Hin; lia). destruct neg eqn:Eneg.
    + destruct (neg_ok t (numval base vs) Ht) as (r & -> & Ec); [lia|]. rewrite !rbind_ok. f_equal. f_equal. rewrite Ec. apply Hin in Hle.
      destruct (proj1 Hneg eq_refl) as [Hsg _]. unfold cast. rewrite Hsg. unfold in_t, tmin, tmax in Hle. rewrite Hsg in Hle.
      rewrite Z.add_mod_idemp_l by lia. rewrite Z.mod_small by lia. lia.
    + rewrite rbind_ok. f_equal. f_equal. apply cast_id; [lia|]. by apply Hin.
Qed.
