(** C15: duration_cast, floor, ceil, round, comparison and arithmetic of durations. [secs d c]: the length in seconds of [c]
    ticks of type [d], a rational number. [valid], [cast_ok], [common_ok], [fits] (Chrono/DurationSpec.v) say that the
    types exist, the program compiles and the values are representable in the types the standard prescribes. *)
From stdpp Require Import base numbers list.
From Coq Require Import ZArith QArith Lia.
From Verif Require Import Base.Res Base.Int Num.RatioModel Num.RatioProofs Chrono.DurationModel Chrono.DurationSpec Chrono.DurationProofs.
Open Scope Z_scope.

Lemma secs_le a b x y : valid a -> valid b -> ((secs a x <= secs b y)%Q <-> x * dnum a * dden b <= y * dnum b * dden a).
Proof. intros (_ & _ & Ha & _) (_ & _ & Hb & _). unfold Qle, secs; cbn. rewrite !Z2Pos.id by lia. done. Qed.
Lemma secs_lt a b x y : valid a -> valid b -> ((secs a x < secs b y)%Q <-> x * dnum a * dden b < y * dnum b * dden a).
Proof. intros (_ & _ & Ha & _) (_ & _ & Hb & _). unfold Qlt, secs; cbn. rewrite !Z2Pos.id by lia. done. Qed.
Lemma secs_eq a b x y : valid a -> valid b -> ((secs a x == secs b y)%Q <-> x * dnum a * dden b = y * dnum b * dden a).
Proof. intros (_ & _ & Ha & _) (_ & _ & Hb & _). unfold Qeq, secs; cbn. rewrite !Z2Pos.id by lia. done. Qed.

(** truncation toward zero: the result does not exceed the duration in magnitude and is less than a tick off *)
Theorem C15_duration_cast : forall to from c k, valid to -> valid from -> cast_ok to from c -> in_t (drep to) k ->
  (0 <= c -> (secs to k <= secs from c < secs to (k + 1))%Q) -> (c <= 0 -> (secs to (k - 1) < secs from c <= secs to k)%Q) ->
  duration_cast to from c = Ok k.
Proof.
  intros to from c k Ht Hf Hc Hk Hp Hn. pose proof (ticks_den_pos to from Ht Hf) as HD.
  assert (E : ticks_num to from c `quot` ticks_den to from = k); [|rewrite duration_cast_ok, E; [done|done|done|done|by rewrite E]].
  rewrite !secs_le, !secs_lt in Hp, Hn by done. unfold ticks_num, ticks_den in *.
  pose proof Ht as (_ & ? & ? & _). pose proof Hf as (_ & ? & ? & _). destruct (decide (0 <= c)) as [D|D].
  - rewrite Z.quot_div_nonneg by nia. symmetry. apply Z.div_unique_pos with (c * dnum from * dden to - dden from * dnum to * k); lia.
  - assert (Eq : forall z d, z < 0 -> 0 < d -> z `quot` d = - (- z / d)). { intros z d Hz Hd. rewrite <-(Z.quot_div_nonneg (- z)) by lia. rewrite Z.quot_opp_l by lia. lia. }
    rewrite Eq by nia. enough (- (c * dnum from * dden to) / (dden from * dnum to) = - k) by lia. symmetry.
    apply Z.div_unique_pos with (- (c * dnum from * dden to) + dden from * dnum to * k); lia.
Qed.
(** floor: the greatest tick count not above. [t] is the truncated value, of which code and standard require no overflow *)
Theorem C15_floor : forall to from c t f, valid to -> valid from -> cast_ok to from c -> common_ok to from ->
  t = ticks_num to from c `quot` ticks_den to from -> in_t (drep to) t -> fits (common to from) to t -> fits (common to from) from c ->
  in_t (drep to) f -> (secs to f <= secs from c < secs to (f + 1))%Q -> dur_floor to from c = Ok f.
Proof.
  intros to from c t f Ht Hf Hc Hco -> Hit Hft Hfc Hif Hs. pose proof (ticks_den_pos to from Ht Hf) as HD. rewrite secs_le, secs_lt in Hs by done.
  assert (E : ticks_num to from c / ticks_den to from = f). { symmetry. apply Z.div_unique_pos with (ticks_num to from c - ticks_den to from * f); unfold ticks_num, ticks_den in *; lia. }
  rewrite dur_floor_ok, E; try done. by rewrite E.
Qed.
Theorem C15_ceil : forall to from c t f, valid to -> valid from -> cast_ok to from c -> common_ok to from ->
  t = ticks_num to from c `quot` ticks_den to from -> in_t (drep to) t -> fits (common to from) to t -> fits (common to from) from c ->
  in_t (drep to) f -> (secs to (f - 1) < secs from c <= secs to f)%Q -> dur_ceil to from c = Ok f.
Proof.
  intros to from c t f Ht Hf Hc Hco -> Hit Hft Hfc Hif Hs. pose proof (ticks_den_pos to from Ht Hf) as HD. rewrite secs_le, secs_lt in Hs by done.
  assert (E : - (- ticks_num to from c / ticks_den to from) = f).
  { enough (- f = - ticks_num to from c / ticks_den to from) by lia. apply Z.div_unique_pos with (- ticks_num to from c + ticks_den to from * f); unfold ticks_num, ticks_den in *; lia. }
  rewrite dur_ceil_ok, E; try done. by rewrite E.
Qed.
(** round: with [f] the floor, the result is [f] or [f + 1], whichever is nearer, the even one on a tie *)
Theorem C15_round : forall to from c t f, valid to -> valid from -> cast_ok to from c -> common_ok to from ->
  t = ticks_num to from c `quot` ticks_den to from -> in_t (drep to) t -> fits (common to from) from c -> fits (common to from) to 1 ->
  (secs to f <= secs from c < secs to (f + 1))%Q ->
  in_t (drep to) f -> in_t (drep to) (f + 1) -> in_t (drep to) 1 -> fits (common to from) to f -> fits (common to from) to (f + 1) ->
  exists r, dur_round to from c = Ok r /\ (r = f \/ r = f + 1) /\
    ((secs from c - secs to f < secs to (f + 1) - secs from c)%Q -> r = f) /\
    ((secs to (f + 1) - secs from c < secs from c - secs to f)%Q -> r = f + 1) /\
    ((secs from c - secs to f == secs to (f + 1) - secs from c)%Q -> Z.even r = true).
Proof.
  intros to from c t f Ht Hf Hc Hco -> Hit Hfc Hf1 Hs Hif Hif1 Hi1 Hff Hff1. pose proof (ticks_den_pos to from Ht Hf) as HD. rewrite secs_le, secs_lt in Hs by done.
  assert (E : ticks_num to from c / ticks_den to from = f). { symmetry. apply Z.div_unique_pos with (ticks_num to from c - ticks_den to from * f); unfold ticks_num, ticks_den in *; lia. }
  rewrite dur_round_ok; rewrite ?E; try done. eexists. split; [done|]. unfold round_even. rewrite E.
  pose proof Ht as (_ & ? & ? & _). pose proof Hf as (_ & ? & ? & _).
  assert (P : 0 < dden from * dden to) by nia.
  assert (A : forall x y z w : Z, (x * dden to + - y * dden from) * (dden to * dden from) < (z * dden from + - w * dden to) * (dden from * dden to)
     <-> x * dden to - y * dden from < z * dden from - w * dden to).
  { intros x y z w. replace (dden to * dden from) with (dden from * dden to) by lia. rewrite <-Z.mul_lt_mono_pos_r by done. lia. }
  unfold Qminus, Qplus, Qopp, Qlt, Qeq, secs; cbn. rewrite !Pos2Z.inj_mul, !Z2Pos.id by lia. unfold ticks_num, ticks_den in *.
  replace (dden to * dden from) with (dden from * dden to) by lia. rewrite <-!Z.mul_lt_mono_pos_r by done. rewrite Z.mul_cancel_r by lia.
  replace ((c * dnum from * dden to + - (f * dnum to) * dden from)) with (c * dnum from * dden to - dden from * dnum to * f) by lia.
  replace (((f + 1) * dnum to * dden from + - (c * dnum from) * dden to)) with (dden from * dnum to - (c * dnum from * dden to - dden from * dnum to * f)) by lia.
  remember (c * dnum from * dden to - dden from * dnum to * f) as R. remember (dden from * dnum to) as D.
  destruct (decide (2 * R < D)); [repeat split; auto; lia|]. destruct (decide (2 * R = D /\ Z.even f = true)) as [[? Ev]|N]; [repeat split; auto; lia|].
  repeat split; auto; try lia. intros Et. rewrite Z.even_add. destruct (Z.even f) eqn:Ev; [|done]. exfalso. apply N. split; [lia|done].
Qed.
(** comparisons of durations of any two types compare lengths in seconds *)
Theorem C15_compare : forall a b x y, valid a -> valid b -> common_ok a b -> fits (common a b) a x -> fits (common a b) b y ->
  exists lt eq le ge gt, dur_lt a b x y = Ok lt /\ dur_eq a b x y = Ok eq /\ dur_le a b x y = Ok le /\ dur_ge a b x y = Ok ge /\ dur_gt a b x y = Ok gt /\
    (lt = true <-> (secs a x < secs b y)%Q) /\ (eq = true <-> (secs a x == secs b y)%Q) /\ (le = true <-> (secs a x <= secs b y)%Q) /\
    (ge = true <-> (secs b y <= secs a x)%Q) /\ (gt = true <-> (secs b y < secs a x)%Q).
Proof.
  intros a b x y Ha Hb Hc Hx Hy. unfold dur_le, dur_ge, dur_gt. rewrite dur_lt_ok, dur_eq_ok by done.
  rewrite dur_lt_ok; [|done|done|by apply common_ok_comm|rewrite (common_comm b a) by done; done..]. cbn [rbind].
  do 5 eexists. repeat (split; [done|]). rewrite !secs_lt, !secs_le, secs_eq by done. rewrite !negb_true_iff, !bool_decide_eq_true, !bool_decide_eq_false. lia.
Qed.
Theorem C15_add : forall a b x y s, valid a -> valid b -> common_ok a b -> fits (common a b) a x -> fits (common a b) b y ->
  in_t (drep (common a b)) s -> (secs (common a b) s == secs a x + secs b y)%Q -> dur_add a b x y = Ok (common a b, s).
Proof.
  intros a b x y s Ha Hb Hc Hx Hy Hs E. assert (Es : s = x * factor (common a b) a + y * factor (common a b) b).
  { destruct (factor_common a b Ha Hb ltac:(apply Hc)) as [E1 _]. destruct (factor_common b a Hb Ha) as [E2 _]; [rewrite Z.lcm_comm; apply Hc|]. rewrite (common_comm b a) in E2 by done.
    pose proof (valid_common a b Ha Hb ltac:(apply Hc)) as (_ & Hn & Hd & _). destruct Ha as (_ & ? & ? & _), Hb as (_ & ? & ? & _).
    unfold Qeq, Qplus, secs in E; cbn [Qnum Qden] in E. rewrite Pos2Z.inj_mul, !Z2Pos.id in E by lia.
    remember (dnum (common a b)) as n. remember (dden (common a b)) as d. remember (factor (common a b) a) as fa. remember (factor (common a b) b) as fb.
    assert (HK : 0 < n * (dden a * dden b)) by nia.
    apply (Z.mul_reg_r _ _ (n * (dden a * dden b))); [lia|]. transitivity (s * n * (dden a * dden b)); [lia|]. rewrite E.
    transitivity (x * dden b * (dnum a * d) + y * dden a * (dnum b * d)); [lia|]. rewrite <-E1, <-E2. lia. }
  subst s. by apply dur_add_ok.
Qed.
Theorem C15_sub : forall a b x y s, valid a -> valid b -> common_ok a b -> fits (common a b) a x -> fits (common a b) b y ->
  in_t (drep (common a b)) s -> (secs (common a b) s == secs a x - secs b y)%Q -> dur_sub a b x y = Ok (common a b, s).
Proof.
  intros a b x y s Ha Hb Hc Hx Hy Hs E. assert (Es : s = x * factor (common a b) a - y * factor (common a b) b).
  { destruct (factor_common a b Ha Hb ltac:(apply Hc)) as [E1 _]. destruct (factor_common b a Hb Ha) as [E2 _]; [rewrite Z.lcm_comm; apply Hc|]. rewrite (common_comm b a) in E2 by done.
    pose proof (valid_common a b Ha Hb ltac:(apply Hc)) as (_ & Hn & Hd & _). destruct Ha as (_ & ? & ? & _), Hb as (_ & ? & ? & _).
    unfold Qeq, Qminus, Qopp, Qplus, secs in E; cbn [Qnum Qden] in E. rewrite Pos2Z.inj_mul, !Z2Pos.id in E by lia.
    remember (dnum (common a b)) as n. remember (dden (common a b)) as d. remember (factor (common a b) a) as fa. remember (factor (common a b) b) as fb.
    assert (HK : 0 < n * (dden a * dden b)) by nia.
    apply (Z.mul_reg_r _ _ (n * (dden a * dden b))); [lia|]. transitivity (s * n * (dden a * dden b)); [lia|]. rewrite E.
    transitivity (x * dden b * (dnum a * d) - y * dden a * (dnum b * d)); [lia|]. rewrite <-E1, <-E2. lia. }
  subst s. by apply dur_sub_ok.
Qed.
Theorem C15_abs : forall d c, valid d -> sg (drep d) = true -> in_t (drep d) c -> c <> tmin (drep d) -> dur_abs d c = Ok (Z.abs c).
Proof.
  intros d c Hd Hs Hc Hm. destruct (Int.wd_pos (drep d)) as [Hw _]; [apply Hd|]. assert (0 < 2 ^ (wd (drep d) - 1)) by (apply Z.pow_pos_nonneg; lia).
  apply dur_abs_ok; [done|done| |]; unfold in_t, tmin, tmax in *; rewrite Hs in *; lia.
Qed.

(** duration / duration and duration % duration: truncated quotient and remainder of the lengths *)
Theorem C15_divmod : forall a b x y q, valid a -> valid b -> common_ok a b -> fits (common a b) a x -> fits (common a b) b y -> y <> 0 ->
  q = (x * factor (common a b) a) `quot` (y * factor (common a b) b) -> in_t (drep (common a b)) q ->
  exists r, dur_div a b x y = Ok q /\ dur_mod a b x y = Ok (common a b, r) /\
    (secs a x == inject_Z q * secs b y + secs (common a b) r)%Q /\
    (- (if decide (0 <= y)%Z then secs b y else - secs b y) < secs (common a b) r < (if decide (0 <= y)%Z then secs b y else - secs b y))%Q /\
    (0 <= x -> 0 <= r) /\ (x <= 0 -> r <= 0).
Proof.
  intros a b x y q Ha Hb Hc Hx Hy Hy0 -> Hq. destruct (dur_divmod_ok a b x y Ha Hb Hc Hx Hy Hy0 Hq) as (-> & -> & Hr & HY). eexists. do 2 (split; [done|]).
  destruct (factor_common a b Ha Hb ltac:(apply Hc)) as [E1 P1]. destruct (factor_common b a Hb Ha) as [E2 P2]; [rewrite Z.lcm_comm; apply Hc|]. rewrite (common_comm b a) in E2, P2 by done.
  pose proof (valid_common a b Ha Hb ltac:(apply Hc)) as (_ & Hn & Hd & _). destruct Ha as (_ & Hna & Hda & _), Hb as (_ & Hnb & Hdb & _).
  assert (Sa : forall d z, 0 < dden d -> secs d z = Qmake (z * dnum d) (Z.to_pos (dden d))) by done.
  remember (dnum (common a b)) as n eqn:En. remember (dden (common a b)) as d eqn:Ed. remember (factor (common a b) a) as fa. remember (factor (common a b) b) as fb.
  remember (x * fa) as X. remember (y * fb) as Y.
  pose proof (Z.quot_rem' X Y) as Er. remember (X `quot` Y) as q. remember (X `rem` Y) as r.
  assert (Hra : Z.abs r < Z.abs Y). { subst r. by apply Z.rem_bound_abs. }
  assert (Hp : 0 < dden b * n) by nia.
  assert (Hyb : y * dnum b * d = Y * (dden b * n)) by (subst Y; transitivity (y * (fb * (dden b * n))); [rewrite E2|]; lia).
  assert (Hxa : x * dnum a * d = X * (dden a * n)) by (subst X; transitivity (x * (fa * (dden a * n))); [rewrite E1|]; lia).
  assert (HabsY : forall (P : 0 <= y), Z.abs Y = Y) by (intros; apply Z.abs_eq; subst Y; nia).
  assert (HabsY2 : forall (P : ~ 0 <= y), Z.abs Y = - Y) by (intros; apply Z.abs_neq; subst Y; nia).
  split; [|split].
  - unfold Qeq, Qplus, Qmult, inject_Z, secs; cbn [Qnum Qden]. rewrite <-En, <-Ed. rewrite !Pos2Z.inj_mul, !Z2Pos.id by lia.
    change (Z.pos 1) with 1. rewrite !Z.mul_1_l.
    transitivity ((x * dnum a * d) * dden b); [lia|]. rewrite Hxa.
    transitivity ((q * (y * dnum b * d) + r * n * dden b) * dden a); [|lia]. rewrite Hyb, Er. lia.
  - destruct (decide (0 <= y)) as [D|D]; [specialize (HabsY D)|specialize (HabsY2 D)];
    unfold Qlt, Qopp, secs; cbn [Qnum Qden]; rewrite <-En, <-Ed, !Z2Pos.id by lia; split; nia.
  - split; intros Hxs; subst r.
    + apply Z.rem_nonneg; [done|]. subst X. nia.
    + apply Z.rem_nonpos; [done|]. subst X. nia.
Qed.

Definition t_nano := Dty s64 1 1000000000. Definition t_hours := Dty s32 3600 1. Definition t_3 := Dty s32 1 3. Definition t_2 := Dty u8 1 2.
Example C15_sat : valid t_nano /\ valid t_hours /\ valid t_3 /\ cast_ok t_hours t_nano (-5400000000001) /\ common_ok t_hours t_nano /\ fits (common t_hours t_nano) t_hours (-1) /\
  duration_cast t_hours t_nano (-5400000000001) = Ok (-1) /\ dur_floor t_hours t_nano (-5400000000001) = Ok (-2) /\ dur_ceil t_hours t_nano (-5400000000001) = Ok (-1) /\
  dur_round t_hours t_nano (-5400000000001) = Ok (-2) /\ dur_round t_hours t_nano (-5400000000000) = Ok (-2) /\ dur_round t_hours t_nano (-1800000000000) = Ok 0 /\
  dur_lt t_3 t_2 1 1 = Ok true /\ dur_add t_3 t_2 1 1 = Ok (Dty s32 1 6, 5).
Proof. vm_compute. repeat split; try discriminate; auto 10. Qed.
Print Assumptions C15_duration_cast.
Print Assumptions C15_floor.
Print Assumptions C15_ceil.
Print Assumptions C15_round.
Print Assumptions C15_compare.
Print Assumptions C15_add.
Print Assumptions C15_sub.
Print Assumptions C15_abs.
Print Assumptions C15_divmod.
