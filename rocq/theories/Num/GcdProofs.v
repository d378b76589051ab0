From stdpp Require Import base numbers list.
From Coq Require Import ZArith Znumtheory Lia Zify ZifyBool.
From Verif Require Import Base.Res Base.Int Num.BitModel Num.BitSpec Num.BitProofs Num.BitProofs2 Num.GcdModel.
Open Scope Z_scope.
Ltac Zify.zify_post_hook ::= Z.div_mod_to_equations.

Lemma ctz_decomp w v r : 0 <= w -> 0 < v < 2 ^ w -> is_ctz w v r -> 0 <= r < w /\ exists q, 0 <= q /\ v = 2 ^ r * (2 * q + 1).
Proof.
  intros Hw Hv Hr. assert (E : r = hw_tzcnt w v) by (apply (is_ctz_unique w v); [done|apply hw_tzcnt_ctz; lia]).
  destruct v as [|p|p]; [lia| |lia]. cbn [hw_tzcnt] in E. subst r. destruct (lxor_pred p) as [_ (q & Hq & E)].
  split; [|by exists q]. destruct (ctz_pos_spec p) as (H0 & _ & H1). split; [done|].
  destruct (decide (ctz_pos p < w)); [done|]. rewrite (testbit_high w) in H1 by lia. done.
Qed.
Lemma gcd_odd_2 m x q : m = 2 * q + 1 -> Z.gcd m (2 * x) = Z.gcd m x.
Proof.
  intros Hm. apply Z.divide_antisym_nonneg; [apply Z.gcd_nonneg|apply Z.gcd_nonneg|..].
  - apply Z.gcd_greatest; [apply Z.gcd_divide_l|]. apply (Z.gauss _ 2); [apply Z.gcd_divide_r|].
    assert (Hd : (Z.gcd m (2 * x) | m)) by apply Z.gcd_divide_l. remember (Z.gcd m (2 * x)) as d eqn:Ed.
    assert (H2 : (Z.gcd d 2 | 2)) by apply Z.gcd_divide_r. assert (H3 : (Z.gcd d 2 | m)) by (etransitivity; [apply Z.gcd_divide_l|done]).
    pose proof (Z.gcd_nonneg d 2). pose proof (Z.divide_pos_le _ 2 ltac:(lia) H2). destruct H2 as [a Ha]. destruct H3 as [b Hb]. 
    assert (Z.gcd d 2 = 1 \/ Z.gcd d 2 = 2) as [E|E] by (destruct (decide (Z.gcd d 2 = 0)) as [E0|]; [rewrite E0 in Ha; lia|lia]); [done|]. rewrite E in Hb. lia.
  - apply Z.gcd_greatest; [apply Z.gcd_divide_l|]. apply Z.divide_mul_r. apply Z.gcd_divide_r.
Qed.
Lemma gcd_odd_pow k m x q : 0 <= k -> m = 2 * q + 1 -> Z.gcd m (2 ^ k * x) = Z.gcd m x.
Proof.
  intros Hk Hm. revert x. pattern k. apply natlike_ind; [|..|done].
  - intros x. by rewrite Z.pow_0_r, Z.mul_1_l.
  - intros j Hj IH x. rewrite Z.pow_succ_r by done. rewrite <-Z.mul_assoc. rewrite (gcd_odd_2 m _ q) by done. apply IH.
Qed.

Lemma gcd_core_ok ctz u m n : ctz_impl ctz -> std_uint u -> 0 <= m < 2 ^ wd u -> 0 <= n < 2 ^ wd u ->
  gcd_core ctz u m n = Ok (Z.gcd m n).
Proof.
  intros Hc Hu Hm Hn. pose proof Hu as [Hu' Hs]. pose proof (wd_pos u Hu') as Hw. pose proof (promote_wd u Hu') as Hpw.
  unfold gcd_core. case_decide as D1. { subst. by rewrite Z.gcd_0_l, Z.abs_eq by lia. }
  case_decide as D2. { subst. by rewrite Z.gcd_0_r, Z.abs_eq by lia. }
  assert (Hctz : forall v, 0 < v < 2 ^ wd u -> exists r, ctz u v = Ok r /\ 0 <= r < wd u /\ exists q, 0 <= q /\ v = 2 ^ r * (2 * q + 1)).
  { intros v Hv. destruct (wp_exists _ _ (ctz_impl_ok ctz u v Hc Hu ltac:(apply in_u; [done|lia]))) as (r & E & H).
    exists r. split; [done|]. apply ctz_decomp; lia || done. }
  destruct (Hctz m ltac:(lia)) as (a & -> & Ha & qm & Hqm & Em). cbn [rbind].
  destruct (Hctz n ltac:(lia)) as (b & -> & Hb & qn & Hqn & En). cbn [rbind].
  pose proof (pow2_pos a ltac:(lia)) as Hpa. pose proof (pow2_pos b ltac:(lia)) as Hpb.
  rewrite shr_ok by lia. cbn [rbind].
  assert (Hshift : forall v r q, 0 <= r -> 0 <= q -> v = 2 ^ r * (2 * q + 1) -> v / 2 ^ r = 2 * q + 1 /\ 2 * q + 1 <= v).
  { intros v r q Hr Hq ->. pose proof (pow2_pos r Hr). split; [rewrite Z.mul_comm; apply Z.div_mul; lia|nia]. }
  destruct (Hshift m a qm ltac:(lia) Hqm Em) as [E1 E2]. rewrite E1. rewrite cast_u_id by (done || lia).
  remember (2 * qm + 1) as m' eqn:Em'. remember (Z.gcd m' n) as g eqn:Eg.
  (* common factors *)
  assert (HG : Z.gcd m n = 2 ^ (a `min` b) * g).
  { subst g. rewrite Em, En. rewrite (gcd_odd_pow b m' (2 * qn + 1) qm) by (done || lia).
    destruct (Z.le_ge_cases a b) as [Hab|Hab].
    - rewrite Z.min_l by lia. replace (2 ^ b) with (2 ^ a * 2 ^ (b - a)) by (rewrite <-Z.pow_add_r by lia; f_equal; lia).
      rewrite <-Z.mul_assoc, Z.gcd_mul_mono_l_nonneg by lia. rewrite (gcd_odd_pow (b - a) m' (2 * qn + 1) qm) by (done || lia). done.
    - rewrite Z.min_r by lia. replace (2 ^ a) with (2 ^ b * 2 ^ (a - b)) by (rewrite <-Z.pow_add_r by lia; f_equal; lia).
      rewrite <-Z.mul_assoc, Z.gcd_mul_mono_l_nonneg by lia. rewrite Z.gcd_comm, (gcd_odd_pow (a - b) (2 * qn + 1) m' qn) by (done || lia). by rewrite Z.gcd_comm. }
  assert (Hbound : Z.gcd m n <= m). { apply Z.divide_pos_le; [lia|apply Z.gcd_divide_l]. }
  match goal with |- context [loop ?f ?bd ?s] => assert (H : wp (loop f bd s) (fun r => r = Z.gcd m n)) end.
  2: { apply wp_exists in H as (r & -> & ->). done. }
  apply (wp_loop (fun '(m1, n1, z) => (exists q, 0 <= q /\ m1 = 2 * q + 1) /\ 0 < n1 /\ m1 < 2 ^ wd u /\ n1 < 2 ^ wd u /\ 0 <= z < wd u /\
      (exists q, 0 <= q /\ n1 = 2 ^ z * (2 * q + 1)) /\ Z.gcd m1 n1 = g) (fun '(m1, n1, _) => Z.to_nat (m1 + n1 - 1))).
  2: { split; [by exists qm|]. split; [lia|]. split; [lia|]. split; [lia|]. split; [lia|]. split; [by exists qn|done]. }
  2: lia.
  intros [[m1 n1] z] ((q1 & Hq1 & Em1) & Hn1 & Hm1w & Hn1w & Hz & (q2 & Hq2 & En1) & HG1).
  rewrite shr_ok by lia. cbn [rbind]. destruct (Hshift n1 z q2 ltac:(lia) Hq2 En1) as [E3 E4]. rewrite E3, cast_u_id by (done || lia).
  remember (2 * q2 + 1) as n2 eqn:En2.
  assert (HG2 : Z.gcd m1 n2 = g). { rewrite <-HG1, En1. by rewrite (gcd_odd_pow z m1 n2 q1) by (done || lia). }
  set (p := if decide (m1 > n2) then (n2, m1) else (m1, n2)).
  assert (Hp : exists x y, p = (x, y) /\ x <= y /\ x + y = m1 + n2 /\ 0 < x /\ y < 2 ^ wd u /\ Z.gcd x y = g /\ (exists q, 0 <= q /\ x = 2 * q + 1)).
  { unfold p. case_decide.
    - exists n2, m1. rewrite Z.gcd_comm. repeat (split; [done || lia|]). by exists q2.
    - exists m1, n2. repeat (split; [done || lia|]). by exists q1. }
  destruct Hp as (x & y & -> & Hxy & Hsum & Hx & Hy & HG3 & (q3 & Hq3 & Ex)).
  rewrite arith_promote_small by (done || lia). cbn [rbind]. rewrite cast_u_id by (done || lia).
  case_decide as D.
  - assert (x = y) as -> by lia. rewrite Z.gcd_diag, Z.abs_eq in HG3 by lia. subst y.
    rewrite shl_ok by (done || lia). cbn [rbind wp]. rewrite HG. rewrite Z.mul_comm. apply cast_id; [lia|].
    assert (Hr : 0 <= 2 ^ (a `min` b) * g < 2 ^ wd u) by (rewrite <-HG; pose proof (Z.gcd_nonneg m n); lia).
    clear -Hr Hu. revert Hr. generalize (2 ^ (a `min` b) * g). intros k. pattern u. apply uint_cases; [..|done]; unfold in_t, tmin, tmax, promote; cbn; zpow; lia.
  - destruct (Hctz (y - x) ltac:(lia)) as (z' & -> & Hz' & q4 & Hq4 & E5). cbn [rbind wp].
    split; [|lia]. split; [by exists q3|]. split; [lia|]. split; [lia|]. split; [lia|]. split; [done|]. split; [by exists q4|].
    by rewrite Z.gcd_sub_diag_r.
Qed.

Lemma make_unsigned_uint t : std_ity t -> std_uint (make_unsigned t).
Proof. intros H. split; [exact H|done]. Qed.
Lemma abs_u_ok t v : std_ity t -> in_t t v -> abs_u t v = Ok (Z.abs v).
Proof.
  intros Ht Hv. unfold abs_u, in_t, tmin, tmax in *. destruct (sg t) eqn:Es.
  - ity_cases t Ht; cbn in Es; try discriminate; unfold make_unsigned, cast, arith, promote in *; cbn -[Z.pow Z.modulo] in *; zpow; case_decide;
      rewrite ?decide_True by (unfold in_t, tmin, tmax; cbn -[Z.pow]; zpow; lia); cbn [rbind]; f_equal; lia.
  - rewrite Z.abs_eq by lia. done.
Qed.
Lemma usual_arith_std t1 t2 : std_ity t1 -> std_ity t2 -> std_ity (usual_arith t1 t2).
Proof.
  intros H1 H2. ity_cases t1 H1; ity_cases t2 H2; vm_compute; auto.
Qed.
Lemma common_type_std t1 t2 : std_ity t1 -> std_ity t2 -> std_ity (common_type t1 t2).
Proof. intros H1 H2. unfold common_type. case_decide; [done|by apply usual_arith_std]. Qed.
Lemma tmax_bound t : std_ity t -> 0 <= tmax t < 2 ^ wd t /\ (sg t = true -> tmin t = - tmax t - 1) /\ tmin t <= 0.
Proof. intros H. ity_cases t H; unfold tmax, tmin; cbn -[Z.pow]; zpow; lia. Qed.
Lemma gcd_le m n b : Z.abs m <= b -> Z.abs n <= b -> 0 <= Z.gcd m n <= b.
Proof.
  intros Hm Hn. split; [apply Z.gcd_nonneg|]. destruct (decide (m = 0)) as [->|].
  - by rewrite Z.gcd_0_l.
  - assert (Z.gcd m n <= Z.abs m); [|lia]. apply Z.divide_pos_le; [lia|]. apply Z.divide_abs_r, Z.gcd_divide_l.
Qed.
Lemma gcd_ok ctz verify t1 t2 m n : ctz_impl ctz -> std_ity t1 -> std_ity t2 -> in_t t1 m -> in_t t2 n ->
  Z.abs m <= tmax (common_type t1 t2) -> Z.abs n <= tmax (common_type t1 t2) ->
  gcd ctz verify t1 t2 m n = Ok (Z.gcd m n).
Proof.
  intros Hc H1 H2 Hm Hn Hm' Hn'. pose proof (common_type_std t1 t2 H1 H2) as HC. unfold gcd. cbv zeta.
  remember (common_type t1 t2) as c eqn:Ec. clear Ec. destruct (tmax_bound c HC) as (Hb & Hmin & Hmin0).
  assert (E : sg c && verify && (bool_decide (m = tmin c) || bool_decide (n = tmin c)) = false).
  { destruct (sg c); [|done]. destruct verify; [|done]. simpl. rewrite !bool_decide_false; [done|lia|lia]. }
  rewrite E. rewrite !abs_u_ok by done. cbn [rbind]. rewrite !cast_u_id by (done || cbn; lia).
  rewrite (gcd_core_ok ctz) by (done || (by apply make_unsigned_uint) || (cbn; lia)). cbn [rbind]. rewrite Z.gcd_abs_l, Z.gcd_abs_r.
  f_equal. apply cast_id; [pose proof (wd_pos c HC); lia|]. pose proof (gcd_le m n (tmax c) Hm' Hn'). unfold in_t. lia.
Qed.

Lemma lcm_eq m n : m <> 0 -> n <> 0 -> Z.lcm m n = Z.abs m / Z.gcd m n * Z.abs n /\ 0 < Z.gcd m n /\ (Z.gcd m n | Z.abs m).
Proof.
  intros Hm Hn. pose proof (Z.gcd_nonneg m n) as Hg. assert (Hg0 : Z.gcd m n <> 0) by (intros E; apply Z.gcd_eq_0 in E; lia).
  assert (Hd : (Z.gcd m n | Z.abs m)) by (apply Z.divide_abs_r, Z.gcd_divide_l).
  split; [|split; [lia|done]]. rewrite <-(Z.lcm_abs_l m n), <-(Z.lcm_abs_r (Z.abs m) n).
  assert (Hd2 : (Z.gcd m n | Z.abs n)) by (apply Z.divide_abs_r, Z.gcd_divide_r).
  unfold Z.lcm. rewrite Z.gcd_abs_l, Z.gcd_abs_r. destruct Hd as [x Hx]. destruct Hd2 as [y Hy]. remember (Z.gcd m n) as g eqn:Eg.
  rewrite Hx, Hy, !Z.div_mul by done. rewrite Z.abs_eq; [lia|]. rewrite <-Hx. apply Z.mul_nonneg_nonneg; [lia|]. nia.
Qed.
Lemma lcm_ok ctz verify t1 t2 m n : ctz_impl ctz -> std_ity t1 -> std_ity t2 -> in_t t1 m -> in_t t2 n ->
  Z.abs m <= tmax (common_type t1 t2) -> Z.abs n <= tmax (common_type t1 t2) -> Z.lcm m n <= tmax (common_type t1 t2) ->
  lcm ctz verify t1 t2 m n = Ok (Z.lcm m n).
Proof.
  intros Hc H1 H2 Hm Hn Hm' Hn' Hl. pose proof (common_type_std t1 t2 H1 H2) as HC. unfold lcm. cbv zeta.
  remember (common_type t1 t2) as c eqn:Ec. clear Ec. destruct (tmax_bound c HC) as (Hb & Hmin & Hmin0).
  assert (HU : std_uint (make_unsigned c)) by (by apply make_unsigned_uint). remember (make_unsigned c) as u eqn:Eu.
  assert (Hwu : wd u = wd c) by (by subst u). destruct HU as [HU Hus].
  rewrite !abs_u_ok by done. cbn [rbind]. rewrite !cast_u_id by (done || rewrite Hwu; lia).
  case_decide as D.
  { destruct D as [D|D]; [assert (m = 0) as -> by lia|assert (n = 0) as -> by lia]; by rewrite ?Z.lcm_0_l, ?Z.lcm_0_r. }
  assert (Hcu : common_type u u = u) by (unfold common_type; by rewrite decide_True).
  assert (Hmu : tmax u = 2 ^ wd c - 1) by (unfold tmax; by rewrite Hus, Hwu).
  assert (Hiu : forall z, 0 <= z < 2 ^ wd c -> in_t u z). { intros z Hz. apply in_u; [done|]. by rewrite Hwu. }
  rewrite (gcd_ok ctz verify u u); [|done|done|done|apply Hiu; lia|apply Hiu; lia|rewrite Hcu, Hmu, Z.abs_involutive; lia|rewrite Hcu, Hmu, Z.abs_involutive; lia].
  rewrite Z.gcd_abs_l, Z.gcd_abs_r. cbn [rbind].
  destruct (lcm_eq m n ltac:(lia) ltac:(lia)) as (El & Hg & Hd). rewrite decide_False by lia.
  assert (Hq : 0 <= Z.abs m / Z.gcd m n <= Z.abs m). { split; [apply Z.div_pos; lia|apply Z.div_le_upper_bound; nia]. }
  assert (Hl0 : 0 <= Z.lcm m n) by apply Z.lcm_nonneg.
  destruct verify; cbn [negb].
  - rewrite cast_u_id by (done || rewrite Hwu; lia). unfold mul_overflow_u. rewrite decide_False.
    + rewrite <-El. rewrite arith_promote_small by (done || rewrite Hwu; lia). cbn [rbind]. rewrite cast_u_id by (done || rewrite Hwu; lia).
      assert (Hin : in_range c u (Z.lcm m n) = true).
      { unfold in_range. rewrite !(bool_decide_false (Z.lcm m n < _)), !(bool_decide_false (Z.lcm m n > _)) by lia. by rewrite !andb_false_r. }
      rewrite Hin. simpl. f_equal. apply cast_id; [pose proof (wd_pos c HC); lia|]. unfold in_t. lia.
    + intros [Hne Hgt]. rewrite Hmu in Hgt. assert (Z.abs n <= (2 ^ wd c - 1) / (Z.abs m / Z.gcd m n)); [|lia].
      apply Z.div_le_lower_bound; [lia|]. rewrite <-El. lia.
  - rewrite <-El. rewrite arith_promote_small by (done || rewrite Hwu; lia). cbn [rbind]. f_equal. apply cast_id; [pose proof (wd_pos c HC); lia|]. unfold in_t. lia.
Qed.

Lemma arith_castZ t z : std_uint t -> (wd t < 32 -> - 2 ^ 31 <= z < 2 ^ 31) -> exists z', arith (promote t) z = Ok z' /\ cast t z' = z mod 2 ^ wd t.
Proof.
  intros Ht. pattern t. apply uint_cases; [..|done]; cbn [wd u8 u16 u32 u64]; intros Hz; unfold promote; cbn [wd Z.ltb Z.compare Pos.compare Pos.compare_cont u8 u16 u32 u64].
  - specialize (Hz ltac:(lia)). exists z. split; [apply arith_s32; lia|by apply cast_u].
  - specialize (Hz ltac:(lia)). exists z. split; [apply arith_s32; lia|by apply cast_u].
  - eexists. split; [reflexivity|]. unfold cast. simpl. by rewrite Z.mod_mod.
  - eexists. split; [reflexivity|]. unfold cast. simpl. by rewrite Z.mod_mod.
Qed.
Lemma sub_cast t a b : std_ity t -> let u := make_unsigned t in exists d, arith (promote u) (cast u a - cast u b) = Ok d /\ cast u d = (a - b) mod 2 ^ wd t.
Proof.
  intros Ht u. assert (Hu : std_uint u) by (by apply make_unsigned_uint). pose proof (wd_pos t Ht) as Hw.
  assert (Hwu : wd u = wd t) by done. pose proof (pow2_pos (wd t) ltac:(lia)) as Hp.
  destruct (arith_castZ u (cast u a - cast u b) Hu) as (d & E & E2).
  - intros Hlt. rewrite !cast_u by done. rewrite Hwu. pose proof (Z.mod_pos_bound a (2 ^ wd t) Hp). pose proof (Z.mod_pos_bound b (2 ^ wd t) Hp).
    assert (2 ^ wd t <= 2 ^ 31) by (apply Z.pow_le_mono_r; lia). lia.
  - exists d. split; [done|]. rewrite E2, Hwu, !cast_u by done. rewrite Hwu. by rewrite <-Zminus_mod.
Qed.
Lemma in_t_promote t z : std_ity t -> in_t t z -> in_t (promote t) z.
Proof. intros Ht. ity_cases t Ht; unfold promote, in_t, tmin, tmax; cbn -[Z.pow]; zpow; lia. Qed.
Lemma half_in t d : std_ity t -> 0 <= d < 2 ^ wd t -> in_t t (d / 2).
Proof. intros Ht. ity_cases t Ht; unfold in_t, tmin, tmax; cbn -[Z.pow]; zpow; lia. Qed.
Lemma range_width t a b : std_ity t -> in_t t a -> in_t t b -> a - b < 2 ^ wd t.
Proof. intros Ht. ity_cases t Ht; unfold in_t, tmin, tmax; cbn -[Z.pow]; zpow; lia. Qed.
Lemma quot_neg a b : a > b -> Z.quot (b - a) 2 = - ((a - b) / 2).
Proof. intros H. replace (b - a) with (- (a - b)) by lia. rewrite Z.quot_opp_l, Z.quot_div_nonneg by lia. done. Qed.
Lemma quot_nonneg a b : ~ a > b -> Z.quot (b - a) 2 = (b - a) / 2.
Proof. intros H. by rewrite Z.quot_div_nonneg by lia. Qed.
Lemma midpoint_ok t a b : std_ity t -> in_t t a -> in_t t b -> midpoint t a b = Ok (a + Z.quot (b - a) 2).
Proof.
  intros Ht Ha Hb. pose proof (wd_pos t Ht) as Hw. pose proof (promote_wd t Ht) as Hpw. unfold midpoint. cbv zeta. case_decide as D.
  - destruct (sub_cast t a b Ht) as (d & -> & E). cbn [rbind]. rewrite E.
    pose proof (range_width t a b Ht Ha Hb). rewrite Z.mod_small by lia.
    rewrite (cast_id t ((a - b) / 2)) by (lia || apply half_in; done || lia).
    assert (Hi : in_t t (a - (a - b) / 2)) by (unfold in_t in *; lia).
    destruct (wp_exists _ _ (wp_arith (promote t) (a - (a - b) / 2) (fun z => z = a - (a - b) / 2) ltac:(lia) (in_t_promote t _ Ht Hi) eq_refl)) as (r & -> & ->).
    cbn [rbind]. rewrite cast_id by (lia || done). f_equal. first [rewrite quot_neg by done|rewrite quot_nonneg by done]; lia.
  - destruct (sub_cast t b a Ht) as (d & -> & E). cbn [rbind]. rewrite E.
    pose proof (range_width t b a Ht Hb Ha). rewrite Z.mod_small by lia.
    rewrite (cast_id t ((b - a) / 2)) by (lia || apply half_in; done || lia).
    assert (Hi : in_t t (a + (b - a) / 2)) by (unfold in_t in *; lia).
    destruct (wp_exists _ _ (wp_arith (promote t) (a + (b - a) / 2) (fun z => z = a + (b - a) / 2) ltac:(lia) (in_t_promote t _ Ht Hi) eq_refl)) as (r & -> & ->).
    cbn [rbind]. rewrite cast_id by (lia || done). f_equal. first [rewrite quot_neg by done|rewrite quot_nonneg by done]; lia.
Qed.
Lemma midpoint_ptr_ok a b : in_t s64 (b - a) -> in_t s64 (a - b) -> midpoint_ptr a b = Ok (a + Z.quot (b - a) 2).
Proof.
  intros H1 H2. unfold midpoint_ptr. unfold in_t, tmin, tmax in *. cbn -[Z.pow] in *. zpow.
  case_decide; unfold arith; cbn -[Z.pow]; rewrite decide_True by (unfold in_t, tmin, tmax; cbn -[Z.pow]; zpow; lia); cbn [rbind]; rewrite shr_ok by (cbn; lia); cbn [rbind]; zpow; f_equal; first [rewrite quot_neg by done|rewrite quot_nonneg by done]; lia.
Qed.
