From stdpp Require Import base numbers list.
From Coq Require Import ZArith Lia Znumtheory.
From Verif Require Import Base.Res Base.Int Num.BitProofs Num.GcdProofs Num.RatioModel Num.RatioProofs Chrono.DurationModel Chrono.DurationSpec.
Open Scope Z_scope.

Lemma valid_reduced d : valid d -> reduced (period d).
Proof. intros (_ & Hn & Hd & Hc). unfold reduced; cbn [fst snd period]. lia. Qed.
Lemma cf_eq to from : valid to -> valid from ->
  0 < cf_gcd to from /\ 0 < cf_num to from /\ 0 < cf_den to from /\ Z.gcd (cf_num to from) (cf_den to from) = 1 /\
  dnum from * dden to = cf_num to from * cf_gcd to from /\ dden from * dnum to = cf_den to from * cf_gcd to from.
Proof.
  intros (_ & Hn & Hd & _) (_ & Hn' & Hd' & _). unfold cf_num, cf_den, cf_gcd.
  assert (0 < dnum from * dden to /\ 0 < dden from * dnum to) as [P1 P2] by nia.
  destruct (gcd_split (dnum from * dden to) (dden from * dnum to) ltac:(lia)) as (x & y & Hg & E1 & E2 & Hc).
  remember (Z.gcd _ _) as g. clear Heqg.
  replace (dnum from * dden to / g) with x by (apply Z.div_unique_exact; lia). replace (dden from * dnum to / g) with y by (apply Z.div_unique_exact; lia).
  repeat split; try done; nia.
Qed.
Lemma ratio_divide_cf to from : valid to -> valid from -> cf_num to from <= imax -> cf_den to from <= imax ->
  ratio_divide (period from) (period to) = Ok (cf_num to from, cf_den to from).
Proof.
  intros Ht Hf Hn Hd. destruct (cf_eq to from Ht Hf) as (Hg & Hpn & Hpd & Hc & E1 & E2).
  pose proof Ht as (_ & Hnt & Hdt & _). pose proof Hf as (_ & Hnf & Hdf & _).
  destruct (ratio_divide_raw (period from) (period to)) as (n & d & Hd0 & Hcd & E & ->); [by apply valid_reduced..|cbn; lia|].
  cbn [fst snd period] in E. rewrite E1, E2 in E.
  assert (E' : n * cf_den to from = cf_num to from * d) by nia. clear E E1 E2.
  assert (D1 : (d | cf_den to from)). { apply (Z.gauss d n); [exists (cf_num to from); lia|by rewrite Z.gcd_comm]. }
  assert (D2 : (cf_den to from | d)). { apply (Z.gauss (cf_den to from) (cf_num to from)); [exists n; lia|by rewrite Z.gcd_comm]. }
  assert (d = cf_den to from) by (apply Z.divide_antisym_nonneg; [lia|lia|done|done]). subst d.
  assert (n = cf_num to from) by nia. subst n. by rewrite decide_True by lia.
Qed.
Lemma cast_rep_cases to from : std_ity (drep to) -> std_ity (drep from) -> cast_rep to from = s64 \/ cast_rep to from = u64.
Proof.
  unfold cast_rep. intros H1 H2. pose proof (common_type_std _ _ H1 H2) as H. destruct (common_type (drep to) (drep from)) as [w s] eqn:E. clear -H.
  unfold std_ity in H; cbn in H. destruct H as [<-|[<-|[<-|[<-|[]]]]]; destruct s; vm_compute; auto.
Qed.
Lemma arith_in t z : std_ity t -> in_t t z -> arith t z = Ok z.
Proof. intros Ht Hz. pose proof (wd_pos t Ht). destruct (wp_exists _ _ (wp_arith t z (fun r => r = z) ltac:(lia) Hz eq_refl)) as (r & -> & ->). done. Qed.
Lemma cast_in t z : std_ity t -> in_t t z -> cast t z = z.
Proof. intros Ht Hz. pose proof (wd_pos t Ht). apply cast_id; [lia|done]. Qed.
Lemma in64 t z : t = s64 \/ t = u64 -> 0 <= z <= imax -> in_t t z.
Proof. rewrite imax_eq. intros [-> | ->]; unfold in_t, tmin, tmax; cbn -[Z.pow]; zpow; lia. Qed.
Lemma in_t_shrink t p z : std_ity t -> in_t t p -> (0 <= z <= p \/ p <= z <= 0) -> in_t t z.
Proof. intros Ht H Hz. destruct (tmax_bound t Ht) as (Hb & _ & H0). unfold in_t in *. lia. Qed.
Lemma quot_shrink z d : 0 < d -> 0 <= z `quot` d <= z \/ z <= z `quot` d <= 0.
Proof.
  intros Hd. destruct (decide (0 <= z)).
  - left. rewrite Z.quot_div_nonneg by lia. split; [apply Z.div_pos; lia|apply Z.div_le_upper_bound; nia].
  - right. replace z with (- - z) by lia. rewrite Z.quot_opp_l by lia. rewrite Z.quot_div_nonneg by lia.
    pose proof (Z.div_pos (- z) d ltac:(lia) Hd). assert (- z / d <= - z) by (apply Z.div_le_upper_bound; nia). lia.
Qed.
Lemma quot_cancel x y g : 0 < g -> 0 < y -> (x * g) `quot` (y * g) = x `quot` y.
Proof. intros Hg Hy. apply Z.quot_mul_cancel_r; lia. Qed.
Lemma ticks_cf to from c : valid to -> valid from ->
  ticks_num to from c = c * cf_num to from * cf_gcd to from /\ ticks_den to from = cf_den to from * cf_gcd to from.
Proof. intros Ht Hf. destruct (cf_eq to from Ht Hf) as (_ & _ & _ & _ & E1 & E2). unfold ticks_num, ticks_den. rewrite <-Z.mul_assoc, E1, E2. lia. Qed.
Lemma duration_cast_ok to from c : valid to -> valid from -> cast_ok to from c ->
  in_t (drep to) (ticks_num to from c `quot` ticks_den to from) ->
  duration_cast to from c = Ok (ticks_num to from c `quot` ticks_den to from).
Proof.
  intros Ht Hf (Hn & Hd & Hc & Hp) Hr. unfold duration_cast. rewrite ratio_divide_cf by done. cbn [rbind].
  destruct (cf_eq to from Ht Hf) as (Hg & Hpn & Hpd & _ & _ & _).
  destruct (ticks_cf to from c Ht Hf) as [E1 E2]. rewrite E1, E2, quot_cancel in * by lia. clear E1 E2.
  pose proof Ht as (Hst & _). pose proof Hf as (Hsf & _).
  pose proof (cast_rep_cases to from Hst Hsf) as HC. fold (cast_rep to from).
  assert (HCs : std_ity (cast_rep to from)). { destruct HC as [-> | ->]; unfold std_ity; cbn; auto. }
  remember (cast_rep to from) as cr eqn:Ecr. clear Ecr. remember (cf_num to from) as n. remember (cf_den to from) as d.
  assert (Hcn : cast cr n = n) by (apply cast_in; [done|apply in64; [done|lia]]).
  assert (Hcd : cast cr d = d) by (apply cast_in; [done|apply in64; [done|lia]]).
  rewrite Hcn, Hcd, (cast_in cr c) by done.
  destruct (decide (d = 1)) as [->|Hd1].
  - rewrite Z.quot_1_r in *. destruct (decide (n = 1)) as [->|Hn1]; [rewrite Z.mul_1_r in *; by rewrite cast_in|].
    rewrite arith_in by done. cbn [rbind]. by rewrite cast_in.
  - rewrite decide_False by lia. destruct (decide (n = 1)) as [->|Hn1].
    + rewrite Z.mul_1_r in *. rewrite arith_in; [cbn [rbind]; by rewrite cast_in|done|]. apply (in_t_shrink cr c); [done|done|]. apply quot_shrink. lia.
    + rewrite (arith_in cr (c * n)) by done. cbn [rbind]. rewrite arith_in; [cbn [rbind]; by rewrite cast_in|done|].
      apply (in_t_shrink cr (c * n)); [done|done|]. apply quot_shrink. lia.
Qed.
(** ** the common type *)
Lemma gcd_lcm_coprime a b x y : Z.gcd a x = 1 -> Z.gcd b y = 1 -> 0 < a -> 0 < b -> 0 < x -> 0 < y -> Z.gcd (Z.gcd a b) (Z.lcm x y) = 1.
Proof.
  intros Hx Hy Pa Pb Px Py.
  assert (R : rel_prime (Z.gcd a b) (x * y)).
  { apply rel_prime_mult; apply Zgcd_1_rel_prime; apply Z.gcd_unique; try lia; try apply Z.divide_1_l; intros q Hq1 Hq2.
    - rewrite <-Hx. apply Z.gcd_greatest; [|done]. etransitivity; [apply Hq1|apply Z.gcd_divide_l].
    - rewrite <-Hy. apply Z.gcd_greatest; [|done]. etransitivity; [apply Hq1|apply Z.gcd_divide_r]. }
  apply Zgcd_1_rel_prime in R. apply Z.gcd_unique; try lia; try apply Z.divide_1_l. intros q Hq1 Hq2. rewrite <-R. apply Z.gcd_greatest; [done|].
  etransitivity; [apply Hq2|]. apply Z.lcm_least; [exists y; lia|exists x; lia].
Qed.
Lemma lcm_pos a b : 0 < a -> 0 < b -> 0 < Z.lcm a b.
Proof. intros Ha Hb. pose proof (Z.lcm_nonneg a b). assert (Z.lcm a b <> 0); [|lia]. intros E. apply Z.lcm_eq_0 in E. lia. Qed.
Lemma gcd_pos a b : 0 < a -> 0 < Z.gcd a b.
Proof. intros Ha. pose proof (Z.gcd_nonneg a b). assert (Z.gcd a b <> 0); [|lia]. intros E. apply Z.gcd_eq_0 in E. lia. Qed.
Lemma gcd_le_l a b : 0 < a -> Z.gcd a b <= a.
Proof. intros Ha. apply Z.divide_pos_le; [done|]. apply Z.gcd_divide_l. Qed.
Lemma valid_common a b : valid a -> valid b -> Z.lcm (dden a) (dden b) <= imax -> valid (common a b).
Proof.
  intros (Hs & Hn & Hd & Hc) (Hs' & Hn' & Hd' & Hc') Hl. unfold valid, common; cbn [drep dnum dden].
  pose proof (lcm_pos (dden a) (dden b) ltac:(lia) ltac:(lia)). pose proof (gcd_pos (dnum a) (dnum b) ltac:(lia)). pose proof (gcd_le_l (dnum a) (dnum b) ltac:(lia)).
  repeat split; try lia; [by apply common_type_std|]. apply gcd_lcm_coprime; try done; lia.
Qed.
Lemma common_duration_ok a b : valid a -> valid b -> Z.lcm (dden a) (dden b) <= imax -> common_duration a b = Ok (common a b).
Proof.
  intros Ha Hb Hl. pose proof (valid_common a b Ha Hb Hl) as HC. destruct Ha as (Hs & Hn & Hd & Hc), Hb as (Hs' & Hn' & Hd' & Hc').
  unfold common_duration, chrono_lcm. rewrite !ratio_gcd_ok by lia. cbn [rbind].
  destruct (lcm_eq (dden a) (dden b) ltac:(lia) ltac:(lia)) as (El & Hg & _). rewrite decide_False by lia.
  rewrite Z.quot_div_nonneg by lia. rewrite !Z.abs_eq in El by lia. rewrite <-El. pose proof (Z.lcm_nonneg (dden a) (dden b)). rewrite arith_s64 by lia. cbn [rbind].
  destruct HC as (_ & Hn0 & Hd0 & Hc0). unfold common in *; cbn [dnum dden] in *.
  destruct (ratio_ok (Z.gcd (dnum a) (dnum b)) (Z.lcm (dden a) (dden b))) as (r & -> & Hr & E); [lia..|]. cbn [rbind]. f_equal.
  rewrite (reduced_unique r (Z.gcd (dnum a) (dnum b), Z.lcm (dden a) (dden b))); [done|done| |done]. unfold reduced; cbn [fst snd]. lia.
Qed.
(** [c] is as fine as [a]: every [a]-tick is a whole number of [c]-ticks *)
Definition finer (c a : dty) : Prop := (dnum c | dnum a) /\ (dden a | dden c).
Lemma finer_l a b : finer (common a b) a.
Proof. split; cbn; [apply Z.gcd_divide_l|apply Z.divide_lcm_l]. Qed.
Lemma finer_r a b : finer (common a b) b.
Proof. split; cbn; [apply Z.gcd_divide_r|apply Z.divide_lcm_r]. Qed.
Lemma factor_eq c a : valid c -> valid a -> finer c a ->
  factor c a * (dden a * dnum c) = dnum a * dden c /\ 1 <= factor c a /\ cf_num c a = factor c a /\ cf_den c a = 1.
Proof.
  intros (_ & Hn & Hd & _) (_ & Hn' & Hd' & _) [[x Ex] [y Ey]]. unfold factor, cf_num, cf_den, cf_gcd.
  assert (0 < x /\ 0 < y) as [Px Py] by (split; nia).
  assert (P : 0 < dden a * dnum c) by nia.
  assert (E : dnum a * dden c = (x * y) * (dden a * dnum c)) by (rewrite Ex, Ey; lia).
  rewrite E, Z.div_mul by lia. split; [done|]. split; [nia|].
  assert (G : Z.gcd (x * y * (dden a * dnum c)) (dden a * dnum c) = dden a * dnum c).
  { rewrite Z.gcd_comm. apply Z.divide_gcd_iff; [lia|]. exists (x * y). lia. }
  rewrite G. rewrite Z.div_mul by lia. rewrite Z.div_same by lia. done.
Qed.
Lemma factor_common a b : valid a -> valid b -> Z.lcm (dden a) (dden b) <= imax ->
  factor (common a b) a * (dden a * dnum (common a b)) = dnum a * dden (common a b) /\ 1 <= factor (common a b) a.
Proof. intros Ha Hb Hl. pose proof (valid_common a b Ha Hb Hl). destruct (factor_eq (common a b) a); [done|done|apply finer_l|]. tauto. Qed.
Lemma rep_sub t1 t2 z : std_ity t1 -> std_ity t2 -> in_t t1 z -> in_t (common_type (common_type t1 t2) s64) z \/ (sg t1 = true /\ t2 = u64).
Proof.
  intros H1 H2 Hz. ity_cases t1 H1; ity_cases t2 H2; 
  first [right; split; reflexivity | left];
  match goal with |- in_t ?c _ => let v := eval vm_compute in c in change c with v end;
  unfold in_t, tmin, tmax in *; cbn -[Z.pow] in *; zpow; lia.
Qed.
(** conversion to a finer type whose representation is the common one *)
Lemma convert_ok c a x (ra rb : ity) : valid c -> valid a -> finer c a -> std_ity rb -> drep c = common_type (drep a) rb \/ drep c = common_type rb (drep a) ->
  factor c a <= imax -> fits c a x -> convert c a x = Ok (x * factor c a).
Proof.
  intros Hc Ha Hfi Hrb Hrep Hk Hx. destruct (factor_eq c a Hc Ha Hfi) as (E & H1 & En & Ed).
  unfold convert. rewrite ratio_divide_cf by (done || rewrite ?En, ?Ed; rewrite ?imax_eq in *; lia). cbn [rbind snd]. rewrite decide_True by done.
  pose proof Hc as (Hsc & _). pose proof Ha as (Hsa & _).
  assert (Q : ticks_num c a x `quot` ticks_den c a = x * factor c a).
  { destruct (ticks_cf c a x Hc Ha) as [-> ->]. rewrite quot_cancel by (rewrite ?Ed; destruct (cf_eq c a Hc Ha); lia). by rewrite En, Ed, Z.quot_1_r. }
  rewrite duration_cast_ok; [by rewrite Q|done|done| |by rewrite Q].
  assert (Hsub : forall z, in_t (drep c) z -> in_t (cast_rep c a) z).
  { intros z Hz. unfold cast_rep. destruct (rep_sub (drep c) (drep a) z Hsc Hsa Hz) as [?|[Hsg Eu]]; [done|].
    exfalso. rewrite Eu in Hrep. clear -Hrep Hrb Hsg. ity_cases rb Hrb; destruct Hrep as [Hrep|Hrep]; rewrite Hrep in Hsg; discriminate. }
  split; [rewrite En; lia|]. split; [rewrite Ed, imax_eq; lia|]. rewrite En. split; apply Hsub; [|done].
  apply (in_t_shrink (drep c) (x * factor c a)); [done|done|]. nia.
Qed.
Lemma convert_l a b x : valid a -> valid b -> common_ok a b -> fits (common a b) a x -> convert (common a b) a x = Ok (x * factor (common a b) a).
Proof.
  intros Ha Hb (Hl & Hk1 & Hk2) Hx. apply (convert_ok _ _ _ (drep a) (drep b)); try done; [by apply valid_common|apply finer_l|by destruct Hb|by left].
Qed.
Lemma convert_r a b x : valid a -> valid b -> common_ok a b -> fits (common a b) b x -> convert (common a b) b x = Ok (x * factor (common a b) b).
Proof.
  intros Ha Hb (Hl & Hk1 & Hk2) Hx. apply (convert_ok _ _ _ (drep a) (drep a)); try done; [by apply valid_common|apply finer_r|by destruct Ha|by right].
Qed.
Lemma common_type_comm t1 t2 : std_ity t1 -> std_ity t2 -> common_type t1 t2 = common_type t2 t1.
Proof. intros H1 H2. ity_cases t1 H1; ity_cases t2 H2; reflexivity. Qed.
Lemma common_comm a b : valid a -> valid b -> common a b = common b a.
Proof. intros (H1 & _) (H2 & _). unfold common. by rewrite (common_type_comm _ _ H1 H2), Z.gcd_comm, Z.lcm_comm. Qed.
Lemma common_ok_comm a b : valid a -> valid b -> common_ok a b -> common_ok b a.
Proof. intros Ha Hb (H1 & H2 & H3). unfold common_ok. rewrite (common_comm b a), Z.lcm_comm by done. tauto. Qed.
Lemma common_self d : valid d -> common d d = d.
Proof.
  intros (Hs & Hn & Hd & _). unfold common. rewrite Z.gcd_diag, Z.lcm_diag, !Z.abs_eq by lia. unfold common_type. rewrite decide_True by done. by destruct d.
Qed.
Lemma factor_self d : valid d -> factor d d = 1.
Proof. intros (Hs & Hn & Hd & _). unfold factor. rewrite Z.mul_comm. apply Z.div_same. nia. Qed.
Lemma common_ok_self d : valid d -> common_ok d d.
Proof. intros Hd. unfold common_ok. rewrite common_self, factor_self by done. destruct Hd as (Hs & Hn & Hd & _). rewrite Z.lcm_diag, imax_eq in *. lia. Qed.
(** order of seconds is order of common ticks *)
Lemma common_order a b x y : valid a -> valid b -> Z.lcm (dden a) (dden b) <= imax ->
  (x * factor (common a b) a < y * factor (common a b) b <-> x * dnum a * dden b < y * dnum b * dden a) /\
  (x * factor (common a b) a = y * factor (common a b) b <-> x * dnum a * dden b = y * dnum b * dden a).
Proof.
  intros Ha Hb Hl. destruct (factor_common a b Ha Hb Hl) as [E1 _].
  assert (E2 : factor (common a b) b * (dden b * dnum (common a b)) = dnum b * dden (common a b)).
  { rewrite (common_comm a b) by done. apply factor_common; [done|done|by rewrite Z.lcm_comm]. }
  pose proof (valid_common a b Ha Hb Hl) as (_ & Hn & Hd & _).
  destruct Ha as (_ & Hn1 & Hd1 & _), Hb as (_ & Hn2 & Hd2 & _).
  remember (factor (common a b) a) as fa. remember (factor (common a b) b) as fb. remember (dnum (common a b)) as n. remember (dden (common a b)) as d.
  clear Heqfa Heqfb Heqn Heqd.
  assert (K : exists K, 0 < K /\ x * fa * K = (x * dnum a * dden b) * d /\ y * fb * K = (y * dnum b * dden a) * d).
  { exists (dden a * dden b * n). split; [nia|]. split.
    - transitivity (x * dden b * (fa * (dden a * n))); [lia|]. rewrite E1. lia.
    - transitivity (y * dden a * (fb * (dden b * n))); [lia|]. rewrite E2. lia. }
  destruct K as (K & HK & K1 & K2). split; split; intros H; nia.
Qed.
Lemma dur_lt_ok a b x y : valid a -> valid b -> common_ok a b -> fits (common a b) a x -> fits (common a b) b y ->
  dur_lt a b x y = Ok (bool_decide (x * dnum a * dden b < y * dnum b * dden a)).
Proof.
  intros Ha Hb Hc Hx Hy. unfold dur_lt. rewrite common_duration_ok by (done || apply Hc). cbn [rbind].
  rewrite convert_l, convert_r by done. cbn [rbind]. f_equal. apply bool_decide_ext. apply common_order; [done|done|apply Hc].
Qed.
Lemma dur_eq_ok a b x y : valid a -> valid b -> common_ok a b -> fits (common a b) a x -> fits (common a b) b y ->
  dur_eq a b x y = Ok (bool_decide (x * dnum a * dden b = y * dnum b * dden a)).
Proof.
  intros Ha Hb Hc Hx Hy. unfold dur_eq. rewrite common_duration_ok by (done || apply Hc). cbn [rbind].
  rewrite convert_l, convert_r by done. cbn [rbind]. f_equal. apply bool_decide_ext. apply common_order; [done|done|apply Hc].
Qed.
Lemma arith_prom t z : std_ity t -> in_t t z -> exists r, arith (promote t) z = Ok r /\ cast t r = z.
Proof.
  intros Ht Hz. exists z. split; [|by apply cast_in]. apply arith_in; [|by apply in_t_promote].
  ity_cases t Ht; vm_compute; auto.
Qed.
Lemma dur_add_ok a b x y : valid a -> valid b -> common_ok a b -> fits (common a b) a x -> fits (common a b) b y ->
  let s := x * factor (common a b) a + y * factor (common a b) b in in_t (drep (common a b)) s -> dur_add a b x y = Ok (common a b, s).
Proof.
  intros Ha Hb Hc Hx Hy s Hs. unfold dur_add. rewrite common_duration_ok by (done || apply Hc). cbn [rbind].
  rewrite convert_l, convert_r by done. cbn [rbind]. fold s.
  destruct (arith_prom (drep (common a b)) s) as (r & -> & E); [by apply valid_common; [| |apply Hc]|done|]. cbn [rbind]. by rewrite E.
Qed.
Lemma dur_sub_ok a b x y : valid a -> valid b -> common_ok a b -> fits (common a b) a x -> fits (common a b) b y ->
  let s := x * factor (common a b) a - y * factor (common a b) b in in_t (drep (common a b)) s -> dur_sub a b x y = Ok (common a b, s).
Proof.
  intros Ha Hb Hc Hx Hy s Hs. unfold dur_sub. rewrite common_duration_ok by (done || apply Hc). cbn [rbind].
  rewrite convert_l, convert_r by done. cbn [rbind]. fold s.
  destruct (arith_prom (drep (common a b)) s) as (r & -> & E); [by apply valid_common; [| |apply Hc]|done|]. cbn [rbind]. by rewrite E.
Qed.
(** ** rounding *)
Lemma ticks_den_pos to from : valid to -> valid from -> 0 < ticks_den to from.
Proof. intros (_ & Hn & Hd & _) (_ & Hn' & Hd' & _). unfold ticks_den. nia. Qed.
Lemma quot_floor z d : 0 < d -> z / d = if decide (z < d * (z `quot` d)) then z `quot` d - 1 else z `quot` d.
Proof.
  intros Hd. destruct (decide (0 <= z)).
  - rewrite Z.quot_div_nonneg by lia. pose proof (Z.mul_div_le z d Hd). rewrite decide_False by lia. done.
  - assert (Eq : z `quot` d = - (- z / d)). { rewrite <-(Z.quot_div_nonneg (- z)) by lia. rewrite Z.quot_opp_l by lia. lia. }
    rewrite Eq. pose proof (Z.div_mod (- z) d ltac:(lia)). pose proof (Z.mod_pos_bound (- z) d Hd).
    destruct (decide _); symmetry; [apply Z.div_unique with (d - (- z) mod d)|apply Z.div_unique with 0]; lia.
Qed.
Lemma quot_ceil z d : 0 < d -> - (- z / d) = if decide (d * (z `quot` d) < z) then z `quot` d + 1 else z `quot` d.
Proof.
  intros Hd. rewrite (quot_floor (- z) d Hd). rewrite Z.quot_opp_l by lia. destruct (decide _), (decide _); lia.
Qed.
Lemma dur_floor_ok to from c : valid to -> valid from -> cast_ok to from c -> common_ok to from ->
  let t := ticks_num to from c `quot` ticks_den to from in
  let f := ticks_num to from c / ticks_den to from in
  in_t (drep to) t -> in_t (drep to) f -> fits (common to from) to t -> fits (common to from) from c ->
  dur_floor to from c = Ok f.
Proof.
  intros Ht Hf Hc Hco t f Hit Hif Hft Hff. unfold dur_floor. rewrite duration_cast_ok by done. cbn [rbind]. fold t.
  unfold dur_gt. rewrite dur_lt_ok; [|done|done|by apply common_ok_comm|rewrite (common_comm from to) by done; done..]. cbn [rbind].
  pose proof (quot_floor (ticks_num to from c) (ticks_den to from) (ticks_den_pos to from Ht Hf)) as E. fold f t in E.
  destruct (bool_decide _) eqn:D.
  - apply bool_decide_eq_true in D. rewrite decide_True in E by (unfold ticks_num, ticks_den in *; lia).
    destruct (arith_prom (drep to) (t - 1)) as (r & -> & Er); [apply Ht|by rewrite <-E|]. cbn [rbind]. by rewrite Er, E.
  - apply bool_decide_eq_false in D. rewrite decide_False in E by (unfold ticks_num, ticks_den in *; lia). by rewrite E.
Qed.
Lemma dur_ceil_ok to from c : valid to -> valid from -> cast_ok to from c -> common_ok to from ->
  let t := ticks_num to from c `quot` ticks_den to from in
  let f := - (- ticks_num to from c / ticks_den to from) in
  in_t (drep to) t -> in_t (drep to) f -> fits (common to from) to t -> fits (common to from) from c ->
  dur_ceil to from c = Ok f.
Proof.
  intros Ht Hf Hc Hco t f Hit Hif Hft Hff. unfold dur_ceil. rewrite duration_cast_ok by done. cbn [rbind]. fold t.
  rewrite dur_lt_ok by done. cbn [rbind].
  pose proof (quot_ceil (ticks_num to from c) (ticks_den to from) (ticks_den_pos to from Ht Hf)) as E. fold f t in E.
  destruct (bool_decide _) eqn:D.
  - apply bool_decide_eq_true in D. rewrite decide_True in E by (unfold ticks_num, ticks_den in *; lia).
    destruct (arith_prom (drep to) (t + 1)) as (r & -> & Er); [apply Ht|by rewrite <-E|]. cbn [rbind]. by rewrite Er, E.
  - apply bool_decide_eq_false in D. rewrite decide_False in E by (unfold ticks_num, ticks_den in *; lia). by rewrite E.
Qed.
(** nearest, ties to even, of the fraction n / d *)
Definition round_even (n d : Z) : Z :=
  let f := n / d in
  let r := n - d * f in
  if decide (2 * r < d) then f else if decide (2 * r = d /\ Z.even f = true) then f else f + 1.
Lemma is_even_ok z : is_even z = Z.even z.
Proof.
  unfold is_even. rewrite Zeven_mod. destruct (decide (0 <= z)).
  - rewrite Z.rem_mod_nonneg by lia. unfold Zeq_bool. case_bool_decide as D; [by rewrite D|]. destruct (z mod 2) eqn:E; done.
  - assert (Eq : z `rem` 2 = - ((- z) mod 2)). { rewrite <-(Z.rem_mod_nonneg (- z)) by lia. rewrite Z.rem_opp_l by lia. lia. }
    rewrite Eq.
    assert (- ((- z) mod 2) = 0 <-> z mod 2 = 0) as H. { pose proof (Z.div_mod z 2 ltac:(lia)). pose proof (Z.div_mod (- z) 2 ltac:(lia)). pose proof (Z.mod_pos_bound z 2 ltac:(lia)). pose proof (Z.mod_pos_bound (- z) 2 ltac:(lia)). lia. }
    case_bool_decide as D; [apply H in D; by rewrite D|]. assert (z mod 2 <> 0) by tauto. unfold Zeq_bool. destruct (z mod 2) eqn:E; done.
Qed.
Lemma convert_self d x : valid d -> in_t (drep d) x -> convert d d x = Ok x.
Proof.
  intros Hd Hx. pose proof (convert_l d d x Hd Hd (common_ok_self d Hd)) as H. unfold fits in H. rewrite common_self, factor_self, Z.mul_1_r in H by done. by apply H.
Qed.
Lemma dur_round_ok to from c : valid to -> valid from -> cast_ok to from c -> common_ok to from ->
  let t := ticks_num to from c `quot` ticks_den to from in
  let f := ticks_num to from c / ticks_den to from in
  in_t (drep to) t -> in_t (drep to) f -> in_t (drep to) (f + 1) -> in_t (drep to) 1 ->
  fits (common to from) to f -> fits (common to from) to (f + 1) -> fits (common to from) from c -> fits (common to from) to 1 ->
  dur_round to from c = Ok (round_even (ticks_num to from c) (ticks_den to from)).
Proof.
  intros Ht Hf Hc Hco t f Hit Hif Hif1 Hi1 Hff Hff1 Hfc Hf1. unfold dur_round.
  pose proof (ticks_den_pos to from Ht Hf) as HD.
  assert (Hft : fits (common to from) to t).
  { pose proof (quot_floor (ticks_num to from c) (ticks_den to from) HD) as E. fold f t in E. destruct (decide _); [by replace t with (f + 1) by lia|by rewrite <-E]. }
  rewrite (dur_floor_ok to from c) by done. cbn [rbind]. fold f.
  rewrite dur_add_ok; [|done|done|by apply common_ok_self|unfold fits; rewrite common_self, factor_self, Z.mul_1_r by done; done..|rewrite common_self, factor_self, !Z.mul_1_r by done; done].
  cbn [rbind fst snd]. rewrite common_self, factor_self, !Z.mul_1_r by done. rewrite convert_self by done. cbn [rbind].
  destruct (factor_common to from Ht Hf ltac:(apply Hco)) as [EK HK].
  pose proof (valid_common to from Ht Hf ltac:(apply Hco)) as HC.
  remember (factor (common to from) to) as K eqn:EKd. remember (factor (common to from) from) as L eqn:ELd.
  (* c*L lies between f*K and (f+1)*K *)
  assert (Hlo : f * K <= c * L).
  { destruct (common_order to from f c Ht Hf ltac:(apply Hco)) as [O1 _]. destruct (common_order from to c f Hf Ht) as [O2 _]; [rewrite Z.lcm_comm; apply Hco|].
    rewrite (common_comm from to), <-EKd, <-ELd in O2 by done. pose proof (Z.mul_div_le (ticks_num to from c) (ticks_den to from) HD) as B. fold f in B. unfold ticks_num, ticks_den in B. lia. }
  assert (Hhi : c * L < (f + 1) * K).
  { destruct (common_order from to c (f + 1) Hf Ht) as [O2 _]; [rewrite Z.lcm_comm; apply Hco|].
    rewrite (common_comm from to), <-EKd, <-ELd in O2 by done. apply O2. pose proof (Z.mul_succ_div_gt (ticks_num to from c) (ticks_den to from) HD) as B. fold f in B. unfold ticks_num, ticks_den in B. lia. }
  unfold fits in Hf1. rewrite <-EKd, Z.mul_1_l in Hf1.
  pose proof Hco as Hco2. apply common_ok_comm in Hco2; [|done..].
  pose proof HC as (HCs & _). destruct (tmax_bound _ HCs) as (_ & _ & Hm0).
  rewrite dur_sub_ok; [|done|done|done|rewrite common_comm by done; done..|].
  2: { rewrite common_comm, <-EKd, <-ELd by done. apply (in_t_shrink _ K); [done|done|]. lia. }
  cbn [rbind].
  rewrite dur_sub_ok; [|done|done|done|done..|].
  2: { rewrite <-EKd, <-ELd by done. apply (in_t_shrink _ K); [done|done|]. lia. }
  cbn [rbind fst snd]. rewrite (common_comm from to), <-EKd, <-ELd by done.
  assert (F : forall z, 0 <= z <= K -> fits (common (common to from) (common to from)) (common to from) z).
  { intros z Hz. unfold fits. rewrite common_self, factor_self, Z.mul_1_r by done. apply (in_t_shrink _ K); [done|done|]. lia. }
  rewrite dur_lt_ok; [|done|done|by apply common_ok_self|apply F; lia..]. cbn [rbind].
  rewrite dur_eq_ok; [|done|done|by apply common_ok_self|apply F; lia..]. cbn [rbind].
  destruct HC as (_ & Hcn & Hcd & _). remember (dnum (common to from)) as cn. remember (dden (common to from)) as cd.
  (* translate to the fraction *)
  assert (T : exists W, 0 < W /\ (c * L - f * K) * W = (ticks_num to from c - ticks_den to from * f) * cd /\ K * W = ticks_den to from * cd).
  { assert (EL : L * (dden from * cn) = dnum from * cd).
    { subst. rewrite (common_comm to from) by done. apply factor_common; [done|done|by rewrite Z.lcm_comm; apply Hco]. }
    exists (dden from * dden to * cn). pose proof Ht as (_ & ? & ? & _). pose proof Hf as (_ & ? & ? & _). split; [nia|].
    unfold ticks_num, ticks_den. split; [|transitivity (dden from * (K * (dden to * cn))); [lia|rewrite EK; lia]].
    transitivity (c * dden to * (L * (dden from * cn)) - f * dden from * (K * (dden to * cn))); [lia|]. rewrite EL, EK. lia. }
  destruct T as (W & HW & T1 & T2).
  unfold round_even. fold f. remember (ticks_num to from c - ticks_den to from * f) as R.
  assert (A1 : c * L - f * K < (f + 1) * K - c * L <-> 2 * R < ticks_den to from) by (split; intros; nia).
  assert (A2 : c * L - f * K = (f + 1) * K - c * L <-> 2 * R = ticks_den to from) by (split; intros; nia).
  assert (Pc : 0 < cn * cd) by (clear -Hcn Hcd; nia).
  assert (B1 : forall u v, u * cn * cd < v * cn * cd <-> u < v) by (intros u v; rewrite <-!Z.mul_assoc; symmetry; by apply Z.mul_lt_mono_pos_r).
  assert (B2 : forall u v, u * cn * cd = v * cn * cd <-> u = v) by (intros u v; rewrite <-!Z.mul_assoc; apply Z.mul_cancel_r; lia).
  rewrite is_even_ok.
  case_bool_decide as D1.
  { rewrite decide_True by (apply A1, B1; done). done. }
  rewrite (decide_False (P := 2 * R < _)) by (intros H; apply D1, B1, A1; done).
  case_bool_decide as D2; cbn [andb].
  - destruct (Z.even f) eqn:Ev; [rewrite decide_True by (split; [apply A2, B2; done|done]); done|]. rewrite decide_False by (intros [_ ?]; done). done.
  - rewrite decide_False; [done|]. intros [? _]. apply D2, B2, A2. done.
Qed.
Lemma dur_abs_ok d c : valid d -> in_t (drep d) c -> in_t (drep d) (Z.abs c) -> in_t (drep d) 0 -> dur_abs d c = Ok (Z.abs c).
Proof.
  intros Hd Hc Ha H0. unfold dur_abs. rewrite dur_lt_ok; [|done|done|by apply common_ok_self|unfold fits; rewrite common_self, factor_self, Z.mul_1_r by done; done..].
  cbn [rbind]. pose proof Hd as (_ & Hn & Hdd & _). assert (0 < dnum d * dden d) by nia. case_bool_decide as D.
  - assert (c < 0) by nia. destruct (arith_prom (drep d) (- c)) as (r & -> & E); [apply Hd|by replace (- c) with (Z.abs c) by lia|]. cbn [rbind]. f_equal. lia.
  - f_equal. nia.
Qed.
Lemma rem_in t x y : std_ity t -> in_t t x -> y <> 0 -> in_t t (x `rem` y).
Proof.
  intros Ht Hx Hy. apply (in_t_shrink t x); [done|done|].
  pose proof (Z.quot_rem' x y) as Er. destruct (decide (0 <= x)).
  - left. pose proof (Z.rem_nonneg x y Hy ltac:(lia)). pose proof (Z.rem_le x y). rewrite <-(Z.rem_abs_r x y) in * by done.
    split; [done|]. apply Z.rem_le; lia.
  - right. pose proof (Z.rem_nonpos x y Hy ltac:(lia)). split; [|done].
    assert (Hm : (- x) `rem` (Z.abs y) <= - x) by (apply Z.rem_le; lia). rewrite Z.rem_abs_r, Z.rem_opp_l in Hm by done. lia.
Qed.
Lemma dur_divmod_ok a b x y : valid a -> valid b -> common_ok a b -> fits (common a b) a x -> fits (common a b) b y -> y <> 0 ->
  let X := x * factor (common a b) a in let Y := y * factor (common a b) b in
  in_t (drep (common a b)) (X `quot` Y) ->
  dur_div a b x y = Ok (X `quot` Y) /\ dur_mod a b x y = Ok (common a b, X `rem` Y) /\ in_t (drep (common a b)) (X `rem` Y) /\ Y <> 0.
Proof.
  intros Ha Hb Hc Hx Hy Hy0 X Y Hq.
  assert (HY : Y <> 0). { destruct (factor_common b a Hb Ha) as [_ K]; [rewrite Z.lcm_comm; apply Hc|]. rewrite (common_comm b a) in K by done. unfold Y. nia. }
  pose proof (valid_common a b Ha Hb ltac:(apply Hc)) as (HCs & _).
  assert (Hr : in_t (drep (common a b)) (X `rem` Y)) by (by apply rem_in).
  unfold dur_div, dur_mod. rewrite common_duration_ok by (done || apply Hc). cbn [rbind].
  rewrite convert_l, convert_r by done. cbn [rbind]. fold X Y. rewrite !(decide_False (P := Y = 0)) by done.
  destruct (arith_prom (drep (common a b)) (X `quot` Y)) as (r & -> & E); [done|done|]. cbn [rbind]. rewrite E, cast_in by done. done.
Qed.
