(** C43: random number engines. *)
From stdpp Require Import base list numbers list_numbers.
From Coq Require Import ZArith Lia.
From Verif Require Import Base.Res Base.Int Rand.LcgModel Rand.LcgSpec Rand.LcgProofs Rand.EngineModel Rand.EngineSpec Rand.EngineProofs Rand.EngineProofs2
  Rand.EngineProofs3 Rand.EngineProofs4 Rand.EngineHist.
Local Open Scope Z_scope.

(** *** linear_congruential_engine<t, a, c, m> *)
(** A call moves to (a x + c) mod m, exactly, whichever of the five arithmetic paths the template arguments select; the value is within
    [min(), max()]. With an unsigned short and m = 0 the code multiplies in int, hence the extra hypothesis (see [C43_finding_lcg_u16]). *)
Theorem C43_lcg_next t a c m x : lcg_params t a c m -> 0 <= x < modulus t m -> (t = u16 -> m = 0 -> a * x <= 2147483647) ->
  next t a c m x = Ok (step t a c m x) /\ 0 <= step t a c m x <= lcg_max t m /\
  (* from a state that is not a multiple of a prime modulus, a multiplicative generator never returns less than min() *)
  (c = 0 -> Znumtheory.prime (modulus t m) -> 0 < a -> 0 < x -> lcg_min c <= step t a c m x).
Proof.
  intros P Hx Hno. split; [by apply next_ok|]. pose proof (step_range t a c m x P) as Hr. pose proof (lp_width _ _ _ _ P) as (Hs & Hwd & Hm).
  assert (Emax : lcg_max t m = modulus t m - 1).
  { unfold lcg_max. rewrite cast_u by done. unfold modulus in *. pose proof P as [_ _ _ Hmm]. destruct (Z.eqb_spec m 0) as [->|].
    - symmetry. apply Z.mod_unique with (-1); lia.
    - apply Z.mod_small. lia. }
  split; [lia|]. intros -> Hp Ha H0. cbn [lcg_min Z.eqb]. destruct P as [_ Ha' _ _].
  destruct (Z.eq_dec (step t a 0 m x) 0) as [E|]; [|lia]. exfalso. unfold step in E. rewrite Z.add_0_r in E. apply Z.mod_divide in E; [|lia].
  apply Znumtheory.prime_mult in E as [E|E]; [| |done]; apply Z.divide_pos_le in E; lia.
Qed.
Print Assumptions C43_lcg_next.
Example C43_lcg_next_sat : lcg_params u32 48271 0 2147483647 /\ next u32 48271 0 2147483647 1 = Ok 48271 /\ next u32 48271 0 2147483647 48271 = Ok 182605794.
Proof. split; [split; [right; left; done|unfold modulus; cbn; lia..]|]. split; vm_compute; reflexivity. Qed.
(** the five paths: a = 0; m = 0; minstd; 32-bit; 64-bit; 128-bit *)
Example C43_lcg_paths : next u32 0 7 10 3 = Ok 7 /\ next u32 1664525 1013904223 0 4294967295 = Ok 1012239698 /\ next u32 40014 5 65537 65536 = Ok 25528 /\
  next u32 40014 0 2147483563 2147483562 = Ok 2147443549 /\ next u64 6364136223846793005 1442695040888963407 18446744073709551557 18446744073709551556 = Ok 13525302890751721959.
Proof. vm_compute. repeat split; reflexivity. Qed.
(** unsigned short, m = 0: the product is computed in int and overflows *)
Example C43_finding_lcg_u16 : lcg_params u16 65535 0 0 /\ next u16 65535 0 0 65535 = UB.
Proof. split; [split; [by left|unfold modulus; cbn; lia..]|vm_compute; reflexivity]. Qed.

(** discard(n) leaves the engine as n calls do (the minstd path squares instead of iterating). *)
Theorem C43_lcg_discard t a c m x n : lcg_params t a c m -> (t = u16 -> m = 0 -> a <= 32768) -> 0 <= x < modulus t m -> 0 <= n < 2 ^ 64 ->
  discard t a c m x n = Ok (steps t a c m (Z.to_nat n) x).
Proof. apply discard_ok. Qed.
Print Assumptions C43_lcg_discard.
Example C43_lcg_discard_sat : (x <~ discard u32 48271 0 2147483647 1 9999 ;; next u32 48271 0 2147483647 x) = Ok 399268537.
Proof. vm_compute. reflexivity. Qed.

(** Seeding from a number, and from a seed sequence; the state stays below the modulus. *)
Theorem C43_lcg_seed t a c m : lcg_params t a c m ->
  (forall s, 0 <= s < 2 ^ wd t -> get_seed c m s = seeded t c m s) /\
  (forall gen, gen_ok gen -> m <> 2 ^ 32 -> seed_from_seq t c m gen = seeded t c m (seed_words t m gen)) /\
  (forall s, (c = 0 -> 1 < modulus t m) -> 0 <= seeded t c m s < modulus t m).
Proof.
  intros P. split; [intros s; by apply get_seed_ok with a|]. split; [intros gen Hg Hm; by apply seed_from_seq_ok with a|]. intros s. by apply seeded_range with a.
Qed.
Print Assumptions C43_lcg_seed.
Example C43_lcg_seed_sat : get_seed 0 2147483647 2147483647 = 1 /\ get_seed 0 2147483647 5 = 5 /\
  seed_from_seq u64 0 (2 ^ 40) (fun n => [1; 2; 3; 4; 5]) = 21474836484.
Proof. vm_compute. repeat split; reflexivity. Qed.
(** modulus exactly 2^32: the standard asks for one word (k = 1), the code consumes two *)
Example C43_finding_lcg_words : let gen := fun n : nat => (fun i => Z.of_nat (10 * n + i)) <$> seq 0 n in
  seed_from_seq u64 1 (2 ^ 32) gen = 53 /\ seeded u64 1 (2 ^ 32) (default 0 (gen 4%nat !! 3%nat)) = 43.
Proof. vm_compute. split; reflexivity. Qed.

(** *** subtract_with_carry_engine<t, w, s, r> *)
(** Any history of seedings, calls, discards and state restorations, on an object whose history array starts uninitialised, runs without
    reading an uninitialised or out-of-range cell, returns the values of the standard's recurrence, and the printed state is the
    standard's state. *)
Theorem C43_swc t w s r o ops : swc_params t w s r -> initialises o -> Forall (swc_okop t w r) (o :: ops) ->
  exists e, swc_run t w s r (o :: ops) (Swc (fresh r) 0) = Ok ((swc_history w s r (o :: ops) ([], 0)).1, e) /\
            swc_save r e = Ok (swc_history w s r (o :: ops) ([], 0)).2.
Proof.
  intros SP Hi Hf. destruct (swc_run_inv t w s r o ops SP Hi Hf) as (e & E & H). exists e. split; [done|]. by apply (swc_restore_ok t w s r SP _ _ _ _ H H).
Qed.
Print Assumptions C43_swc.
(** Two engines compare equal iff they are in the same state, however they got there. *)
Theorem C43_swc_eq t w s r o1 ops1 o2 ops2 x y l1 l2 : swc_params t w s r -> initialises o1 -> initialises o2 ->
  Forall (swc_okop t w r) (o1 :: ops1) -> Forall (swc_okop t w r) (o2 :: ops2) ->
  swc_run t w s r (o1 :: ops1) (Swc (fresh r) 0) = Ok (l1, x) -> swc_run t w s r (o2 :: ops2) (Swc (fresh r) 0) = Ok (l2, y) ->
  swc_eq r x y = Ok (bool_decide ((swc_history w s r (o1 :: ops1) ([], 0)).2 = (swc_history w s r (o2 :: ops2) ([], 0)).2)).
Proof.
  intros SP H1 H2 F1 F2 R1 R2. destruct (swc_run_inv t w s r o1 ops1 SP H1 F1) as (x' & E1 & I1). destruct (swc_run_inv t w s r o2 ops2 SP H2 F2) as (y' & E2 & I2).
  rewrite R1 in E1. rewrite R2 in E2. injection E1 as _ <-. injection E2 as _ <-. by apply (swc_eq_ok t w s).
Qed.
Print Assumptions C43_swc_eq.
(** ranlux24_base: the standard requires the 10000th value of a default-constructed engine to be 7937952 *)
Example C43_swc_sat_params : swc_params u32 24 10 24.
Proof. split; [auto|cbn; lia|lia]. Qed.
Example C43_swc_sat : match swc_run u32 24 10 24 [OSeed 19780503; ODiscard (Z.to_nat 9999); OGen 1] (Swc (fresh 24) 0) with Ok (l, _) => l = [7937952] | _ => False end.
Proof. vm_compute; reflexivity. Qed.
(** ranlux48_base: 61839128582725 *)
Example C43_swc_sat48 : match swc_run u64 48 5 12 [OSeed 19780503; ODiscard (Z.to_nat 9999); OGen 1] (Swc (fresh 12) 0) with Ok (l, _) => l = [61839128582725] | _ => False end.
Proof. vm_compute; reflexivity. Qed.
(** a 64-bit result type with w <= 32: the standard asks the seed sequence for r words, the code for 2 r *)
Example C43_finding_swc_words : let gen := fun n : nat => (fun i => Z.of_nat (100 * n + i)) <$> seq 0 n in
  match swc_run u64 24 1 2 [OSeq gen] (Swc (fresh 2) 0) with
  | Ok (_, e) => swc_save 2 e = Ok ([400; 402], 0) /\ swc_seeded_seq 24 2 gen = ([200; 201], 0)
  | _ => False
  end.
Proof. vm_compute. split; reflexivity. Qed.

(** *** mersenne_twister_engine *)
Theorem C43_mt P o ops : mt_ok P -> initialises o -> Forall (mt_okop P) (o :: ops) ->
  exists b, mt_run P (o :: ops) (fresh (mt_n P)) = Ok ((mt_history P (o :: ops) []).1, b) /\ save (mt_n P) b = Ok (mt_history P (o :: ops) []).2.
Proof.
  intros OK Hi Hf. destruct (mt_run_inv P o ops OK Hi Hf) as (b & E & H). exists b. split; [done|]. by apply (mt_restore_ok P OK _ _ _ _ H H).
Qed.
Print Assumptions C43_mt.
Theorem C43_mt_eq P o1 ops1 o2 ops2 x y l1 l2 : mt_ok P -> initialises o1 -> initialises o2 ->
  Forall (mt_okop P) (o1 :: ops1) -> Forall (mt_okop P) (o2 :: ops2) ->
  mt_run P (o1 :: ops1) (fresh (mt_n P)) = Ok (l1, x) -> mt_run P (o2 :: ops2) (fresh (mt_n P)) = Ok (l2, y) ->
  mt_eq P x y = Ok (bool_decide ((mt_history P (o1 :: ops1) []).2 = (mt_history P (o2 :: ops2) []).2)).
Proof.
  intros OK H1 H2 F1 F2 R1 R2. destruct (mt_run_inv P o1 ops1 OK H1 F1) as (x' & E1 & I1). destruct (mt_run_inv P o2 ops2 OK H2 F2) as (y' & E2 & I2).
  rewrite R1 in E1. rewrite R2 in E2. injection E1 as _ <-. injection E2 as _ <-. by apply mt_eq_ok.
Qed.
Print Assumptions C43_mt_eq.
Definition mt19937 : mt_params :=
  MT u32 32 624 397 31 0x9908b0df 11 0xffffffff 7 0x9d2c5680 15 0xefc60000 18 1812433253.
Definition mt19937_64 : mt_params :=
  MT u64 64 312 156 31 0xb5026f5aa96619e9 29 0x5555555555555555 17 0x71d67fffeda60000 37 0xfff7eee000000000 43 6364136223846793005.
Lemma mt19937_ok : mt_ok mt19937 /\ mt_ok mt19937_64.
Proof. split; split; cbn; try lia; try (by auto); repeat (apply list.Forall_cons; split; [cbn; lia|]); by apply list.Forall_nil. Qed.
(** the first values of the default-constructed mt19937 and mt19937_64 *)
Example C43_mt_sat : match mt_run mt19937 [OSeed 5489; OGen 3] (fresh 624) with Ok (l, _) => l = [3499211612; 581869302; 3890346734] | _ => False end.
Proof. vm_compute; reflexivity. Qed.
Example C43_mt_sat64 : match mt_run mt19937_64 [OSeed 5489; OGen 1] (fresh 312) with Ok (l, _) => l = [14514284786278117030] | _ => False end.
Proof. vm_compute; reflexivity. Qed.
(** a shift count equal to the width, which the standard admits (u <= w), is undefined in the code *)
Example C43_finding_mt_shift : let P := MT u32 32 4 1 31 0x9908b0df 32 0xffffffff 7 0x9d2c5680 15 0xefc60000 18 1812433253 in
  match mt_seed P 1 (fresh 4) with Ok b => mt_next P b = UB | _ => False end.
Proof. vm_compute. reflexivity. Qed.
(** unsigned short: the seeding multiplication is computed in int and overflows *)
Example C43_finding_mt_u16 : mt_seed (MT u16 16 4 1 15 1 1 1 1 1 1 1 1 65535) 65535 (fresh 4) = UB.
Proof. vm_compute. reflexivity. Qed.

(** *** discard_block_engine<E, p, r>, over any base engine *)
Lemma outputs_nth {E R : Type} (gen : E -> E * R) N : forall i e, (i < N)%nat -> (outputs gen N e).1 !! i = Some (nth_out gen i e).
Proof.
  induction N as [|N IH]; intros i e Hi; [lia|]. cbn [outputs]. destruct (gen e) as [e1 v] eqn:Eg. destruct (outputs gen N e1) as [l e2] eqn:El. cbn [fst].
  destruct i as [|i]; [unfold nth_out, adv; cbn [outputs snd]; by rewrite Eg|]. change ((v :: l) !! S i) with (l !! i). specialize (IH i e1 ltac:(lia)). rewrite El in IH. cbn [fst] in IH.
  rewrite IH. f_equal. unfold nth_out. f_equal. f_equal. unfold adv. cbn [outputs]. rewrite Eg. by destruct (outputs gen i e1).
Qed.
(** Of every p consecutive values of the base engine the first r are returned, in order. *)
Theorem C43_discard_block {E R : Type} (gen : E -> E * R) (p r k : nat) (e : E) :
  (0 < r <= p)%nat -> Z.of_nat p < 2 ^ 64 -> Z.of_nat p <> 2147483647 ->
  exists vs d, calls (db_next gen (Z.of_nat p) (Z.of_nat r)) k (db_init e) = Ok (vs, d) /\ length vs = k /\
    forall j, (j < k)%nat -> vs !! j = (outputs gen (S (block_index p r j)) e).1 !! block_index p r j.
Proof.
  intros Hr Hp Hp'. destruct (db_calls_ok gen p r Hr (conj Hp' Hp) k e 0 _ (db_init_inv gen p r Hr e)) as (d & E1 & _). eexists _, d. split; [exact E1|].
  split; [by rewrite fmap_length, seq_length|]. intros j Hj. rewrite list_lookup_fmap, lookup_seq_lt by done. cbn [fmap option_fmap option_map Nat.add].
  rewrite outputs_nth by lia. done.
Qed.
Print Assumptions C43_discard_block.
Example C43_discard_block_sat : (fst <$> match calls (db_next (fun x : Z => (x + 1, x)) 5 2) 7 (db_init 100) with Ok p => Some p | _ => None end) =
  Some [100; 101; 105; 106; 110; 111; 115].
Proof. vm_compute. reflexivity. Qed.
