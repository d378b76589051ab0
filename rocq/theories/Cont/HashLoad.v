(** The load-factor policy in IEEE single precision. Values are reals rounded to nearest even to 24 bits with minimal exponent -149.
    Overflow to infinity is not modelled: it cannot happen while the bucket counts fit into size_t. *)
From Coq Require Import Reals ZArith Lia Lra.
From Flocq Require Import Core.
From Verif Require Import Cont.HashModel Cont.HashSpec.
Local Open Scope R_scope.

Definition f32_exp : Z -> Z := FLT_exp (-149) 24.
Definition f32 (x : R) : R := round radix2 f32_exp ZnearestE x.
Definition is_f32 (x : R) : Prop := generic_format radix2 f32_exp x.
(** xhash:833-835 load_factor *)
Definition load_factor (size buckets : nat) : R := f32 (f32 (INR size) / f32 (INR buckets)).
(** xhash:1569-1573 _Check_rehash_required_1, 1599-1602 _Min_load_factor_buckets; [mlf] is max_load_factor() *)
Definition float_policy (mlf : R) : policy :=
  Policy (fun n b => Rlt_bool mlf (load_factor n b)) (fun n => Z.to_nat (Zceil (f32 (f32 (INR n) / mlf)))).

Local Instance f32_valid : Valid_exp f32_exp.
Proof. apply FLT_exp_valid. reflexivity. Qed.
Lemma f32_fmt x : is_f32 (f32 x).
Proof. apply generic_format_round; typeclasses eauto. Qed.
Lemma f32_le x y : x <= y -> f32 x <= f32 y.
Proof. apply round_le; typeclasses eauto. Qed.
Lemma f32_id x : is_f32 x -> f32 x = x.
Proof. apply round_generic. typeclasses eauto. Qed.
Lemma pow_fmt (e : Z) : (-149 <= e)%Z -> is_f32 (bpow radix2 e).
Proof. intros H. apply generic_format_bpow. unfold f32_exp, FLT_exp. lia. Qed.
Lemma scale_fmt x (j : Z) : (0 <= j)%Z -> is_f32 x -> is_f32 (x * bpow radix2 j).
Proof.
  intros Hj H. apply generic_format_FLT. apply FLT_format_generic in H; [|reflexivity]. destruct H as [[m e] H1 H2 H3].
  exists (Float radix2 m (e + j)).
  - rewrite H1. unfold F2R. cbn. rewrite bpow_plus. ring.
  - exact H2.
  - cbn in *. lia.
Qed.
Lemma nat_pow j : INR (2 ^ j) = bpow radix2 (Z.of_nat j).
Proof.
  rewrite <- IZR_Zpower by lia. rewrite INR_IZR_INZ. f_equal. rewrite Nat2Z.inj_pow. reflexivity.
Qed.
(** the key fact: rounding never hides that the quotient exceeds a power of two *)
Lemma quot_exact n m (j : Z) : (0 <= j)%Z -> is_f32 n -> is_f32 m -> 0 < m -> f32 (n / m) <= bpow radix2 j -> n / m <= bpow radix2 j.
Proof.
  intros Hj Fn Fm Hm H. destruct (Rle_or_lt (n / m) (bpow radix2 j)) as [|L]; [assumption|exfalso].
  set (x := n / m) in *. set (p := m * bpow radix2 j).
  assert (B0 : 0 < bpow radix2 j) by apply bpow_gt_0.
  assert (Fp : is_f32 p) by (apply scale_fmt; assumption).
  assert (Hp : 0 < p) by (apply Rmult_lt_0_compat; assumption).
  assert (Hnp : p < n). { unfold p, x in *. apply (Rmult_lt_compat_r m) in L; [|assumption]. unfold Rdiv in L. rewrite Rmult_assoc, Rinv_l, Rmult_1_r in L by lra. lra. }
  assert (Hs : p + ulp radix2 f32_exp p <= n). { rewrite <- succ_eq_pos by lra. apply succ_le_lt; try assumption; typeclasses eauto. }
  assert (Hu : p * bpow radix2 (-24) < ulp radix2 f32_exp p).
  { apply Rlt_le_trans with (bpow radix2 (mag radix2 p - 24)).
    - unfold Zminus. rewrite bpow_plus. apply Rmult_lt_compat_r; [apply bpow_gt_0|]. rewrite <- (Rabs_pos_eq p) at 1 by lra. apply bpow_mag_gt.
    - rewrite ulp_neq_0 by lra. unfold cexp, f32_exp, FLT_exp. apply bpow_le. lia. }
  assert (Hx : bpow radix2 j + bpow radix2 (j - 24) < x).
  { apply Rmult_lt_reg_r with m; [assumption|]. unfold x, Rdiv. rewrite Rmult_assoc, Rinv_l, Rmult_1_r by lra.
    replace ((bpow radix2 j + bpow radix2 (j - 24)) * m) with (p + p * bpow radix2 (-24)); [lra|]. unfold p, Zminus. rewrite bpow_plus. change (- (24))%Z with (-24)%Z. ring. }
  destruct (Rlt_or_le x (bpow radix2 (j + 1))) as [L2|L2].
  - assert (MG : mag radix2 x = (j + 1)%Z :> Z). { apply mag_unique. rewrite Rabs_pos_eq by lra. replace (j + 1 - 1)%Z with j by lia. lra. }
    assert (E : Rabs (f32 x - x) <= / 2 * ulp radix2 f32_exp x) by (apply error_le_half_ulp; typeclasses eauto).
    rewrite ulp_neq_0 in E by lra. unfold cexp in E. rewrite MG in E. unfold f32_exp, FLT_exp in E.
    replace (Z.max (j + 1 - 24) (-149)) with (j - 24 + 1)%Z in E by lia. rewrite bpow_plus in E. change (bpow radix2 1) with 2 in E.
    apply Rabs_le_inv in E. assert (0 < bpow radix2 (j - 24)) by apply bpow_gt_0. lra.
  - apply f32_le in L2. rewrite (f32_id (bpow radix2 (j + 1))) in L2 by (apply pow_fmt; lia). assert (bpow radix2 j < bpow radix2 (j + 1)) by (apply bpow_lt; lia). lra.
Qed.
Theorem float_policy_ok mlf : is_f32 mlf -> 0 < mlf -> policy_ok (float_policy mlf).
Proof.
  intros Fm Hm n j H. cbn [float_policy mlfb over] in *. apply Rlt_bool_false. unfold load_factor.
  assert (Hj : f32 (INR (2 ^ j)) = bpow radix2 (Z.of_nat j)). { rewrite nat_pow. apply f32_id, pow_fmt. lia. }
  rewrite Hj. assert (B0 : 0 < bpow radix2 (Z.of_nat j)) by apply bpow_gt_0. rewrite <- (f32_id mlf) by assumption. apply f32_le.
  assert (Q : f32 (INR n) / mlf <= bpow radix2 (Z.of_nat j)).
  { apply quot_exact; try assumption; [lia|apply f32_fmt|].
    apply Rle_trans with (IZR (Zceil (f32 (f32 (INR n) / mlf)))); [apply Zceil_ub|]. rewrite <- IZR_Zpower by lia. apply IZR_le.
    apply Nat2Z.inj_le in H. rewrite Nat2Z.inj_pow in H. change (Z.of_nat 2) with 2%Z in H. change (radix_val radix2) with 2%Z.
    pose proof (Z.le_max_r 0 (Zceil (f32 (f32 (INR n) / mlf)))). rewrite ZifyInst.of_nat_to_nat_eq in H. lia. }
  apply Rmult_le_reg_r with (bpow radix2 (Z.of_nat j)); [assumption|]. unfold Rdiv at 1. rewrite Rmult_assoc, Rinv_l, Rmult_1_r by lra.
  apply (Rmult_le_compat_r mlf) in Q; [|lra]. unfold Rdiv in Q. rewrite Rmult_assoc, Rinv_l, Rmult_1_r in Q by lra. lra.
Qed.
