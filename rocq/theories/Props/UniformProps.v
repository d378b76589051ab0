(** C35: uniform_int_distribution, shuffle and sample are exactly uniform. *)
From stdpp Require Import base list numbers list_numbers.
From Coq Require Import ZArith Lia.
From Verif Require Import Base.Res Base.Int Rand.UniformModel Rand.UniformSpec Rand.UniformCount Rand.UniformProofs Rand.UniformProofs2 Rand.UniformProofs3.
Local Open Scope Z_scope.

(** a generator: an unsigned result type and min() < max(), any width and any range, powers of two or not *)
Record generator (u : ity) (mn mx : Z) : Prop := { gen_type : std_uint u; gen_range : 0 <= mn < mx /\ mx < 2 ^ wd u }.

(** uniform_int_distribution<ty>(lo, hi): every value of [lo, hi] is returned equally often -- among the sequences of n generator results
    that produce a value, for each n -- nothing outside [lo, hi] is returned, and no sequence leads to undefined behaviour. For all integer
    types of 8 to 64 bits, also when [lo, hi] is the whole type, and all generators, wider or narrower than the type. *)
Theorem C35_uniform_int ty u mn mx lo hi : std_ity ty -> generator u mn mx -> in_t ty lo -> in_t ty hi -> lo <= hi ->
  uniform (values mn mx) (Eval ty u mn mx lo hi) (fun v => lo <= v <= hi).
Proof.
  intros Ht [Hu Hr] H1 H2 Hle. destruct (Eval_unif ty u mn mx Ht Hu Hr lo hi H1 H2 Hle) as (uu & U). eapply unif_uniform; [exact U|]. intros a. unfold values. rewrite elem_of_seqZ. lia.
Qed.
Print Assumptions C35_uniform_int.
(** an 8-bit signed distribution on [-1, 1] from a generator of 0..1 (two calls make two bits, one of the four results is rejected) *)
Example C35_uniform_int_sat : std_ity s8 /\ generator u32 0 1 /\ in_t s8 (-1) /\ in_t s8 1.
Proof. split; [by left|]. split; [split; [split; [|done]|cbn; lia]|]; unfold std_ity, in_t, tmin, tmax; cbn; lia. Qed.
(* kept small: coqchk repeats these computations without the virtual machine *)
Example C35_uniform_int_count : (fun n => hits (values 0 1) (Eval s8 u32 0 1 (-1) 1) n <$> [-1; 0; 1; 2]) <$> [1; 2]%nat = [[0; 0; 0; 0]; [1; 1; 1; 0]]%nat.
Proof. vm_compute. reflexivity. Qed.
(** the whole range of a type *)
Example C35_uniform_int_full : match Eval u8 u32 0 4294967295 0 255 [4294967040 + 17; 5] with Ok (v, t) => v = 17 /\ t = [5] | _ => False end.
Proof. vm_compute. by split. Qed.

(** The primitive under shuffle and sample: an index below [s]. *)
Theorem C35_index d u mn mx s : std_ity d -> generator u mn mx -> 0 < s -> in_t d s ->
  uniform (values mn mx) (Rng d u mn mx s) (fun v => 0 <= v < s).
Proof.
  intros Hd [Hu Hr] Hs Hi. destruct (Rng_unif d u mn mx (Build_rng_ok d u mn mx Hd Hu Hr) s (conj Hs Hi)) as (uu & U). eapply unif_uniform; [exact U|]. intros a. rewrite elem_of_seqZ. lia.
Qed.
Print Assumptions C35_index.
Example C35_index_sat : generator u32 3 4 /\ in_t s64 3 /\
  (fun n => hits (values 3 4) (Rng s64 u32 3 4 3) n <$> [0; 1; 2; 3]) <$> [1; 2]%nat = [[0; 0; 0; 0]; [1; 1; 1; 0]]%nat.
Proof. split; [split; [split; [|done]|]|split; [|vm_compute; reflexivity]]; unfold std_ity, in_t, tmin, tmax; cbn; lia. Qed.

(** shuffle: all arrangements of distinct elements are equally likely, nothing is lost or invented. *)
Theorem C35_shuffle {A : Type} `{EqDecision A} u mn mx (l : list A) : generator u mn mx -> NoDup l -> Z.of_nat (length l) < 2 ^ 63 ->
  uniform (values mn mx) (shuffle u mn mx l) (fun p => p ≡ₚ l).
Proof. intros [Hu Hr]. apply shuffle_uniform. split; [|done|done]. unfold std_ity. cbn. lia. Qed.
Print Assumptions C35_shuffle.
(** Equal elements: shuffle does not look at the elements. (So the arrangement of [f <$> l] is that of the distinct [l].) *)
Theorem C35_shuffle_any {A B : Type} (f : A -> B) u mn mx (l : list A) t :
  shuffle u mn mx (f <$> l) t = match shuffle u mn mx l t with Ok (p, r) => Ok (f <$> p, r) | UB => UB | Fuel => Fuel end.
Proof. apply (shuffle_fmap f). Qed.
Print Assumptions C35_shuffle_any.
Example C35_shuffle_sat : generator u32 0 3 /\ NoDup [10; 20; 30] /\
  (fun n => hits (values 0 3) (shuffle u32 0 3 [10; 20; 30]) n <$> [[10; 20; 30]; [30; 10; 20]]) <$> [1; 2]%nat = [[0; 0]; [2; 2]]%nat.
Proof. split; [split; [split; [|done]|]; unfold std_ity; cbn; lia|]. split; [apply (bool_decide_unpack _); vm_compute; exact I|vm_compute; reflexivity]. Qed.

(** sample on forward iterators: all samples of min(count, n) elements, in their original order, are equally likely. *)
Theorem C35_sample {A : Type} `{EqDecision A} u mn mx (l : list A) count : generator u mn mx -> NoDup l -> Z.of_nat (length l) < 2 ^ 63 ->
  uniform (values mn mx) (sample u mn mx l count) (fun s => s `sublist_of` l /\ length s = Nat.min (Z.to_nat count) (length l)).
Proof. intros [Hu Hr]. apply sample_uniform. split; [|done|done]. unfold std_ity. cbn. lia. Qed.
Print Assumptions C35_sample.
Theorem C35_sample_any {A B : Type} (f : A -> B) u mn mx (l : list A) count t :
  sample u mn mx (f <$> l) count t = match sample u mn mx l count t with Ok (p, r) => Ok (f <$> p, r) | UB => UB | Fuel => Fuel end.
Proof. apply (sample_fmap f). Qed.
Print Assumptions C35_sample_any.
Example C35_sample_sat : (fun n => hits (values 0 1) (sample u32 0 1 [1; 2; 3] 2) n <$> [[1; 2]; [2; 3]; [1]]) <$> [2; 4]%nat = [[0; 0; 0]; [4; 4; 0]]%nat.
Proof. vm_compute. reflexivity. Qed.
(** ranges::sample draws the same sample from the same generator results, and calls the generator at most as often. *)
Theorem C35_ranges_sample {A : Type} u mn mx (l : list A) count t out r : generator u mn mx -> Z.of_nat (length l) < 2 ^ 63 -> Forall (fun v => v ∈ values mn mx) t ->
  sample u mn mx l count t = Ok (out, r) -> exists r', rsample u mn mx l count t = Ok (out, r') /\ r `suffix_of` r'.
Proof. intros [Hu Hr]. apply rsample_eq. split; [|done|done]. unfold std_ity. cbn. lia. Qed.
Print Assumptions C35_ranges_sample.
Example C35_ranges_sample_sat : sample u32 0 255 [1; 2; 3] 1 [5; 250; 200; 9] = Ok ([1], [9]) /\ rsample u32 0 255 [1; 2; 3] 1 [5; 250; 200; 9] = Ok ([1], [250; 200; 9]).
Proof. vm_compute. split; reflexivity. Qed.
