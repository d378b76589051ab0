(** C++ integer types of a given width and signedness, as implemented by MSVC (32-bit int, two's complement,
    modular narrowing conversions). Values are integers; arithmetic happens in the promoted type and signed overflow
    is [UB]. *)
From Coq Require Import ZArith Lia.
From stdpp Require Import base numbers list.
From Verif Require Import Base.Res.
Open Scope Z_scope.

Record ity := Ity { wd : Z; sg : bool }.
Definition u8 := Ity 8 false. Definition u16 := Ity 16 false. Definition u32 := Ity 32 false. Definition u64 := Ity 64 false.
Definition s8 := Ity 8 true. Definition s16 := Ity 16 true. Definition s32 := Ity 32 true. Definition s64 := Ity 64 true.

Definition tmin (t : ity) : Z := if sg t then - 2 ^ (wd t - 1) else 0.
Definition tmax (t : ity) : Z := if sg t then 2 ^ (wd t - 1) - 1 else 2 ^ wd t - 1.
(** [z] is a value of type [t] *)
Definition in_t (t : ity) (z : Z) : Prop := tmin t <= z <= tmax t.
Global Instance in_t_dec t z : Decision (in_t t z).
Proof. unfold in_t. apply _. Defined.
(** conversion to [t]: the value of [t] congruent modulo 2^width *)
Definition cast (t : ity) (z : Z) : Z :=
  if sg t then (z + 2 ^ (wd t - 1)) mod 2 ^ wd t - 2 ^ (wd t - 1) else z mod 2 ^ wd t.
(** integral promotion *)
Definition promote (t : ity) : ity := if wd t <? 32 then s32 else t.
(** make_unsigned_t *)
Definition make_unsigned (t : ity) : ity := Ity (wd t) false.
(** result of an arithmetic operation performed in type [t] *)
Definition arith (t : ity) (z : Z) : res Z :=
  if sg t then (if decide (in_t t z) then Ok z else UB) else Ok (z mod 2 ^ wd t).
(** common_type_t: equal types are unchanged, otherwise the usual arithmetic conversions *)
Definition usual_arith (t1 t2 : ity) : ity :=
  let p1 := promote t1 in let p2 := promote t2 in
  if wd p1 <? wd p2 then p2 else if wd p2 <? wd p1 then p1 else if sg p1 then p2 else p1.
Definition common_type (t1 t2 : ity) : ity :=
  if decide (wd t1 = wd t2 /\ sg t1 = sg t2) then t1 else usual_arith t1 t2.
(** shifts in the promoted type; an out-of-range count is undefined *)
Definition shl (t : ity) (a k : Z) : res Z :=
  let p := promote t in
  if decide (0 <= k < wd p) then Ok (cast p (a * 2 ^ k)) else UB.
Definition shr (t : ity) (a k : Z) : res Z :=
  let p := promote t in
  if decide (0 <= k < wd p) then Ok (a / 2 ^ k) else UB.

(** the built-in integer types *)
Definition std_ity (t : ity) : Prop := In (wd t) [8; 16; 32; 64].
Definition std_uint (t : ity) : Prop := std_ity t /\ sg t = false.

Lemma pow8 : 2 ^ 8 = 256. Proof. reflexivity. Qed.

Ltac ity_cases t H :=
  let w := fresh "w" in let s := fresh "s" in
  destruct t as [w s]; unfold std_ity in H; cbn in H;
  destruct H as [<-|[<-|[<-|[<-|[]]]]]; destruct s.

(* literal powers *)
Ltac zpow := repeat match goal with
  | |- context [2 ^ ?k] => is_ground k; let v := eval vm_compute in (2 ^ k) in change (2 ^ k) with v
  | H : context [2 ^ ?k] |- _ => is_ground k; let v := eval vm_compute in (2 ^ k) in change (2 ^ k) with v in H
  end.

Lemma wd_pos t : std_ity t -> 8 <= wd t <= 64.
Proof. intros [<-|[<-|[<-|[<-|[]]]]]; lia. Qed.
Lemma cast_range t z : 1 <= wd t -> in_t t (cast t z).
Proof.
  intros Hw. unfold in_t, cast, tmin, tmax. assert (0 < 2 ^ wd t) by (apply Z.pow_pos_nonneg; lia).
  destruct (sg t).
  - assert (2 ^ wd t = 2 * 2 ^ (wd t - 1)) as E. { rewrite <-Z.pow_succ_r by lia. f_equal. lia. }
    pose proof (Z.mod_pos_bound (z + 2 ^ (wd t - 1)) (2 ^ wd t) ltac:(lia)). lia.
  - pose proof (Z.mod_pos_bound z (2 ^ wd t) ltac:(lia)). lia.
Qed.
Lemma cast_id t z : 1 <= wd t -> in_t t z -> cast t z = z.
Proof.
  intros Hw H. unfold in_t, cast, tmin, tmax in *. destruct (sg t).
  - assert (2 ^ wd t = 2 * 2 ^ (wd t - 1)) as E. { rewrite <-Z.pow_succ_r by lia. f_equal. lia. }
    rewrite Z.mod_small; lia.
  - rewrite Z.mod_small; lia.
Qed.
Lemma cast_mod t z : 1 <= wd t -> exists k, cast t z = z + k * 2 ^ wd t.
Proof.
  intros Hw. unfold cast. assert (0 < 2 ^ wd t) by (apply Z.pow_pos_nonneg; lia). destruct (sg t).
  - exists (- ((z + 2 ^ (wd t - 1)) / 2 ^ wd t)). rewrite Z.mod_eq by lia. lia.
  - exists (- (z / 2 ^ wd t)). rewrite Z.mod_eq by lia. lia.
Qed.
Lemma wp_arith t z (Q : Z -> Prop) : 1 <= wd t -> in_t t z -> Q z -> wp (arith t z) Q.
Proof.
  intros Hw H HQ. unfold arith. destruct (sg t) eqn:E.
  - rewrite decide_True by done. done.
  - simpl. unfold in_t, tmin, tmax in H. rewrite E in H. by rewrite Z.mod_small by lia.
Qed.
Lemma promote_wd t : std_ity t -> wd t <= wd (promote t) /\ 32 <= wd (promote t) <= 64.
Proof. intros H. ity_cases t H; unfold promote; simpl; lia. Qed.
