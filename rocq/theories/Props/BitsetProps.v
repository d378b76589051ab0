(** C28: std::bitset operations are exact bitwise operations, for every size.
    [represents N a f]: the object [a] is a valid bitset<N> whose bit i is [f i] (padding bits zero). *)
From stdpp Require Import base list list_numbers numbers decidable.
From Coq Require Import ZArith Lia.
From Verif Require Import Base.Res Base.Int Num.BitModel Num.BitSpec Num.BitProofs Num.BitProofs2 Cont.BitsetModel Cont.BitsetSpec
  Cont.BitsetProofs Cont.BitsetProofs2.
Local Open Scope nat_scope.

Ltac go L := intros; repeat match goal with H : represents _ _ _ |- _ => apply rep_iff in H end;
  apply wp_exists; eapply wp_mono; [eapply L; eauto|]; intros ? ?; repeat (rewrite rep_iff); try done.

(** construction *)
Theorem C28_default N : represents N (ctor0 N) (fun _ => false).
Proof.
  unfold ctor0. split_and!.
  - apply replicate_length.
  - intros k w Hw. apply lookup_replicate in Hw as [-> _]. split; [done|]. apply Z.pow_pos_nonneg; lia.
  - intros k j w Hw _. apply lookup_replicate in Hw as [-> _]. rewrite Z.bits_0. by destruct (decide _).
Qed.
Theorem C28_from_number N v : (0 <= v < 2 ^ 64)%Z ->
  exists a, ctor_ull N v = Ok a /\ represents N a (fun i => Z.testbit v (Z.of_nat i)).
Proof. go ctor_ull_ok. Qed.
(** from a string: refused (invalid_argument) exactly when some character is neither zero nor one; otherwise the
    character at position [n - 1 - i] of the first [n = min (size, N)] characters decides bit [i] *)
Theorem C28_from_string {C} `{EqDecision C} N (e0 e1 : C) a0 s : length a0 = Words N + 1 ->
  exists r, Construct N e0 e1 a0 s = Ok r /\
    match r with
    | Some a => Forall (fun c => c = e0 \/ c = e1) s /\
        represents N a (fun i => let n := Nat.min (length s) N in
                                 if decide (i < n) then bool_decide (s !! (n - 1 - i) = Some e1) else false)
    | None => ~ Forall (fun c => c = e0 \/ c = e1) s
    end.
Proof. go @Construct_ok. destruct a; [|done]. by rewrite rep_iff. Qed.

(** bitwise operators *)
Theorem C28_and N a b f g : represents N a f -> represents N b g ->
  exists r, and_eq N a b = Ok r /\ represents N r (fun i => f i && g i).
Proof. go (bitwise_ok N Z.land andb); [apply good_land|]. intros. apply Z.land_spec. Qed.
Theorem C28_or N a b f g : represents N a f -> represents N b g ->
  exists r, or_eq N a b = Ok r /\ represents N r (fun i => f i || g i).
Proof. go (bitwise_ok N Z.lor orb); [apply good_lor|]. intros. apply Z.lor_spec. Qed.
Theorem C28_xor N a b f g : represents N a f -> represents N b g ->
  exists r, xor_eq N a b = Ok r /\ represents N r (fun i => xorb (f i) (g i)).
Proof. go (bitwise_ok N Z.lxor xorb); [apply good_lxor|]. intros. apply Z.lxor_spec. Qed.
Theorem C28_not N a f : represents N a f -> exists r, flip_all N a = Ok r /\ represents N r (fun i => negb (f i)).
Proof. go flip_all_ok. Qed.
Theorem C28_shl N a f p : represents N a f ->
  exists r, shl_eq N a p = Ok r /\ represents N r (fun i => if decide (i < p) then false else f (i - p)).
Proof. go shl_eq_ok. Qed.
Theorem C28_shr N a f p : represents N a f ->
  exists r, shr_eq N a p = Ok r /\ represents N r (fun i => if decide (i + p < N) then f (i + p) else false).
Proof. go shr_eq_ok. Qed.

(** single bits; None is out_of_range *)
Theorem C28_set_reset_all N a f : represents N a f ->
  (exists r, set_all N a = Ok r /\ represents N r (fun _ => true)) /\
  (exists r, reset_all a = Ok r /\ represents N r (fun _ => false)).
Proof. intros [H _]. split; [go set_all_ok|go reset_all_ok]. Qed.
Theorem C28_set N a f i v : represents N a f ->
  exists r, set_pos N a i v = Ok r /\
    match r with Some a' => i < N /\ represents N a' (fun k => if decide (k = i) then v else f k) | None => N <= i end.
Proof.
  intros H. apply rep_iff in H. unfold set_pos. destruct (decide (N <= i)); [by eexists|].
  destruct (wp_exists _ _ (Set_unchecked_ok N a f i v H ltac:(lia))) as (a' & -> & H'). eexists. split; [done|]. split; [lia|by apply rep_iff].
Qed.
Theorem C28_reset N a f i : represents N a f ->
  exists r, reset_pos N a i = Ok r /\
    match r with Some a' => i < N /\ represents N a' (fun k => if decide (k = i) then false else f k) | None => N <= i end.
Proof. apply (C28_set N a f i false). Qed.
Theorem C28_flip N a f i : represents N a f ->
  exists r, flip_pos N a i = Ok r /\
    match r with Some a' => i < N /\ represents N a' (fun k => if decide (k = i) then negb (f i) else f k) | None => N <= i end.
Proof.
  intros H. apply rep_iff in H. unfold flip_pos. destruct (decide (N <= i)); [by eexists|].
  destruct (wp_exists _ _ (Flip_unchecked_ok N a f i H ltac:(lia))) as (a' & -> & H'). eexists. split; [done|]. split; [lia|by apply rep_iff].
Qed.
Theorem C28_test N a f i : represents N a f -> test N a i = Ok (if decide (N <= i) then None else Some (f i)).
Proof.
  intros H. apply rep_iff in H. unfold test. destruct (decide (N <= i)); [done|]. by rewrite (Subscript_ok N a f) by (done || lia).
Qed.

(** queries *)
Theorem C28_count N pop a f : pop_impl pop -> (Z.of_nat N < 2 ^ 63)%Z -> represents N a f ->
  count N pop a = Ok (Z.of_nat (how_many f N)).
Proof.
  intros Hp HN H. apply rep_iff in H. destruct (Ty_wd N) as (Hw & Hs & _). pose proof (B_cases N). pose proof (W_bounds N) as [_ HW].
  assert (Hwp : wp (count N pop a) (fun c => c = Z.of_nat (how_many f N))); [apply count_ok|destruct (wp_exists _ _ Hwp) as (c & -> & ->); done].
  - intros v Hv. apply pop_impl_ok; try done. split; [|done]. unfold std_ity. rewrite Hw. destruct (B_cases N) as [-> | ->]; simpl; auto 10.
  - destruct (decide (N = 0)) as [->|]; [done|]. specialize (HW ltac:(lia)). change (2 ^ 64)%Z with (2 * 2 ^ 63)%Z. remember (2 ^ 63)%Z as X.
    assert (100 < X)%Z by (subst X; reflexivity). nia.
  - done.
Qed.
Theorem C28_any_none_all N a f : represents N a f ->
  (exists r, any N a = Ok r /\ (r = true <-> exists i, i < N /\ f i = true)) /\
  (exists r, none N a = Ok r /\ (r = true <-> forall i, i < N -> f i = false)) /\
  (exists r, all N a = Ok r /\ (r = true <-> forall i, i < N -> f i = true)).
Proof.
  intros H. apply rep_iff in H. destruct (wp_exists _ _ (any_ok N a f H)) as (r & Hr & Hi). split_and!.
  - eauto.
  - unfold none. rewrite Hr, rbind_ok. eexists. split; [done|]. rewrite negb_true_iff. split.
    + intros -> i Hi'. destruct (f i) eqn:E; [|done]. assert (false = true); [|done]. apply Hi. eauto.
    + intros Hf. destruct r; [|done]. destruct (proj1 Hi eq_refl) as (i & Hi' & E). rewrite Hf in E; done.
  - apply wp_exists. by apply all_ok.
Qed.
Theorem C28_eq N a b f g : represents N a f -> represents N b g ->
  exists r, BitsetModel.eq N a b = Ok r /\ (r = true <-> forall i, i < N -> f i = g i).
Proof. go eq_ok. Qed.
(** conversion to integers: overflow_error exactly when the number does not fit *)
Theorem C28_to_ullong N a f : represents N a f ->
  to_ullong N a = Ok (if decide (number f N < 2 ^ 64)%Z then Some (number f N) else None).
Proof. intros H. apply rep_iff in H. destruct (wp_exists _ _ (to_ullong_ok N a f H)) as (r & -> & ->). done. Qed.
Theorem C28_to_ulong N a f : represents N a f ->
  to_ulong N a = Ok (if decide (number f N < 2 ^ 32)%Z then Some (number f N) else None).
Proof. intros H. apply rep_iff in H. destruct (wp_exists _ _ (to_ulong_ok N a f H)) as (r & -> & ->). done. Qed.
Theorem C28_to_string {C} N (e0 e1 : C) a f : represents N a f ->
  to_string N e0 e1 a = Ok ((fun i => if f (N - 1 - i) then e1 else e0) <$> seq 0 N).
Proof. intros H. apply rep_iff in H. destruct (wp_exists _ _ (to_string_ok N e0 e1 a f H)) as (r & -> & ->). done. Qed.

(** a 70-bit set (two words, padding), shifted across the word boundary *)
Example C28_sat : ctor_ull 70 0xF000000000000001 = Ok [0xF000000000000001; 0]%Z /\
  shl_eq 70 [0xF000000000000001; 0]%Z 5 = Ok [32; 30]%Z /\
  count 70 popcount_fallback [32; 30]%Z = Ok 5%Z /\ to_ullong 70 [32; 30]%Z = Ok None /\ shr_eq 70 [32; 30]%Z 65 = Ok [15; 0]%Z /\
  number (fun i => bool_decide (i = 5 \/ 65 <= i < 69)) 70 = (0xF000000000000001 * 32)%Z /\
  Construct 4 false true [99%Z] [true; false; true] = Ok (Some [5%Z]).
Proof. repeat (split; [vm_compute; reflexivity|]). vm_compute. reflexivity. Qed.

Print Assumptions C28_default.
Print Assumptions C28_from_number.
Print Assumptions C28_from_string.
Print Assumptions C28_and.
Print Assumptions C28_or.
Print Assumptions C28_xor.
Print Assumptions C28_not.
Print Assumptions C28_shl.
Print Assumptions C28_shr.
Print Assumptions C28_set_reset_all.
Print Assumptions C28_set.
Print Assumptions C28_reset.
Print Assumptions C28_flip.
Print Assumptions C28_test.
Print Assumptions C28_count.
Print Assumptions C28_any_none_all.
Print Assumptions C28_eq.
Print Assumptions C28_to_ullong.
Print Assumptions C28_to_ulong.
Print Assumptions C28_to_string.
