(** C47: std::ratio arithmetic is exact. [rval] is the rational number a ratio denotes; [reduced]: numerator and denominator
    are representable in intmax_t, the denominator is positive and the fraction is in lowest terms. A result [Ok r] means the
    program compiles; [UB] stands for a rejected program. *)
From stdpp Require Import base numbers list.
From Coq Require Import ZArith QArith Lia.
From Verif Require Import Base.Res Base.Int Num.RatioModel Num.RatioProofs.
Open Scope Z_scope.

Definition rval (r : Z * Z) : Q := Qmake (fst r) (Z.to_pos (snd r)).

Theorem C47_ratio : forall n d, Z.abs n <= imax -> Z.abs d <= imax -> d <> 0 ->
  exists r, ratio n d = Ok r /\ reduced r /\ fst r * d = n * snd r.
Proof. exact ratio_ok. Qed.
Theorem C47_add : forall p q r, reduced p -> reduced q -> ratio_add p q = Ok r -> reduced r /\ (rval r == rval p + rval q)%Q.
Proof.
  intros p q r Hp Hq H. destruct (ratio_add_sound p q r Hp Hq H) as [Hr E]. split; [done|].
  destruct Hp as (Hp & _), Hq as (Hq & _), Hr as (Hr & _). unfold Qeq, rval; cbn. rewrite Pos2Z.inj_mul, !Z2Pos.id by lia. lia.
Qed.
Theorem C47_add_defined : forall p q, reduced p -> reduced q ->
  Z.abs (fst p * snd q) + Z.abs (fst q * snd p) <= imax -> snd p * snd q <= imax -> exists r, ratio_add p q = Ok r.
Proof. exact ratio_add_defined. Qed.
Theorem C47_subtract : forall p q r, reduced p -> reduced q -> ratio_subtract p q = Ok r -> reduced r /\ (rval r == rval p - rval q)%Q.
Proof.
  intros p q r Hp Hq H. destruct (ratio_subtract_sound p q r Hp Hq H) as [Hr E]. split; [done|].
  destruct Hp as (Hp & _), Hq as (Hq & _), Hr as (Hr & _). unfold Qeq, rval; cbn. rewrite Pos2Z.inj_mul, !Z2Pos.id by lia. lia.
Qed.
Theorem C47_subtract_defined : forall p q, reduced p -> reduced q ->
  Z.abs (fst p * snd q) + Z.abs (fst q * snd p) <= imax -> snd p * snd q <= imax -> exists r, ratio_subtract p q = Ok r.
Proof. exact ratio_subtract_defined. Qed.
(** the product and the quotient compile exactly when the reduced result is representable *)
Theorem C47_multiply : forall p q r, reduced p -> reduced q ->
  (ratio_multiply p q = Ok r <-> reduced r /\ (rval r == rval p * rval q)%Q).
Proof.
  intros p q r Hp Hq. destruct (ratio_multiply_raw p q Hp Hq) as (n & d & Hd & Hc & E & _ & ->).
  destruct Hp as (Hp & _), Hq as (Hq & _). split.
  - case_decide as D; [|done]. intros [= <-]. split; [unfold reduced; cbn [fst snd]; lia|].
    unfold Qeq, rval; cbn. rewrite Pos2Z.inj_mul, !Z2Pos.id by lia. lia.
  - intros [Hr Ev]. unfold Qeq, rval in Ev; cbn in Ev. pose proof Hr as (Hdr & Hnr & Hcr). rewrite Pos2Z.inj_mul, !Z2Pos.id in Ev by lia.
    assert (Er : fst r * d = n * snd r).
    { apply (Z.mul_reg_r _ _ (snd p * snd q)); [nia|]. transitivity ((fst r * (snd p * snd q)) * d); [lia|]. rewrite Ev. transitivity (snd r * (fst p * fst q * d)); [lia|]. rewrite <-E. lia. }
    assert (D1 : (d | snd r)). { apply (Z.gauss d n); [exists (fst r); lia|by rewrite Z.gcd_comm]. }
    assert (D2 : (snd r | d)). { apply (Z.gauss (snd r) (fst r)); [exists n; lia|by rewrite Z.gcd_comm]. }
    assert (d = snd r) by (apply Z.divide_antisym_nonneg; [lia|lia|done|done]). subst d. assert (n = fst r) by nia. subst n.
    rewrite decide_True by lia. by destruct r.
Qed.
Theorem C47_divide : forall p q r, reduced p -> reduced q -> fst q <> 0 ->
  (ratio_divide p q = Ok r <-> reduced r /\ (rval r * rval q == rval p)%Q).
Proof.
  intros p q r Hp Hq Hnz. destruct (ratio_divide_raw p q Hp Hq Hnz) as (n & d & Hd & Hc & E & ->).
  destruct Hp as (Hp & _), Hq as (Hq & _). split.
  - case_decide as D; [|done]. intros [= <-]. split; [unfold reduced; cbn [fst snd]; lia|].
    unfold Qeq, rval; cbn. rewrite Pos2Z.inj_mul, !Z2Pos.id by lia. lia.
  - intros [Hr Ev]. unfold Qeq, rval in Ev; cbn in Ev. pose proof Hr as (Hdr & Hnr & Hcr). rewrite Pos2Z.inj_mul, !Z2Pos.id in Ev by lia.
    assert (Er : fst r * d = n * snd r).
    { apply (Z.mul_reg_r _ _ (snd p * fst q)); [nia|]. transitivity ((fst r * fst q * snd p) * d); [lia|]. rewrite Ev. transitivity (snd r * (fst p * snd q * d)); [lia|]. rewrite <-E. lia. }
    assert (D1 : (d | snd r)). { apply (Z.gauss d n); [exists (fst r); lia|by rewrite Z.gcd_comm]. }
    assert (D2 : (snd r | d)). { apply (Z.gauss (snd r) (fst r)); [exists n; lia|by rewrite Z.gcd_comm]. }
    assert (d = snd r) by (apply Z.divide_antisym_nonneg; [lia|lia|done|done]). subst d. assert (n = fst r) by nia. subst n.
    rewrite decide_True by lia. by destruct r.
Qed.
Theorem C47_less : forall p q, reduced p -> reduced q -> exists b, ratio_less p q = Ok b /\ (b = true <-> (rval p < rval q)%Q).
Proof.
  intros p q Hp Hq. rewrite ratio_less_ok by done. eexists. split; [done|]. destruct Hp as (Hp & _), Hq as (Hq & _).
  rewrite bool_decide_eq_true. unfold Qlt, rval; cbn. rewrite !Z2Pos.id by lia. lia.
Qed.
Theorem C47_equal : forall p q, reduced p -> reduced q -> (ratio_equal p q = true <-> (rval p == rval q)%Q).
Proof.
  intros p q Hp Hq. rewrite ratio_equal_ok by done. destruct Hp as (Hp & _), Hq as (Hq & _).
  rewrite bool_decide_eq_true. unfold Qeq, rval; cbn. rewrite !Z2Pos.id by lia. lia.
Qed.

Example C47_sat : reduced (1, 1000000000) /\ reduced (-7, 12) /\ ratio 84 (-144) = Ok (-7, 12) /\
  ratio_add (1, 6) (-7, 12) = Ok (-5, 12) /\ ratio_divide (1, 1000000000) (3600, 1) = Ok (1, 3600000000000) /\
  ratio_multiply (9223372036854775807, 2) (2, 1) = Ok (9223372036854775807, 1) /\
  ratio_multiply (9223372036854775807, 1) (2, 1) = UB /\
  ratio_less (9223372036854775806, 9223372036854775807) (9223372036854775805, 9223372036854775806) = Ok false.
Proof. vm_compute. repeat split; try discriminate; auto. Qed.
Print Assumptions C47_ratio.
Print Assumptions C47_add.
Print Assumptions C47_add_defined.
Print Assumptions C47_subtract.
Print Assumptions C47_subtract_defined.
Print Assumptions C47_multiply.
Print Assumptions C47_divide.
Print Assumptions C47_less.
Print Assumptions C47_equal.
