(** C11: includes and the four set operations on sorted ranges.
    For an element [z], [same z l] are the elements of [l] equivalent to [z], in order. *)
From stdpp Require Import base list numbers.
From Coq Require Import Lia.
From Verif Require Import Base.Res Base.Order Base.OrderLemmas Base.Arr Base.Cells Base.Stable
  Alg.SetOpModel Alg.SetOpProofs Props.RotateProps Props.MergeProps.

Section props.
  Context {A : Type} (lt : A -> A -> bool) (SW : StrictWeakOrder lt).
  Implicit Types (l out : list A).

  (** x and y are equivalent: neither is less *)
  Definition same (z : A) (l : list A) : list A := List.filter (fun x => negb (lt z x) && negb (lt x z)) l.

  Lemma at1_intro l (f t : nat) : (f <= t)%nat -> (t <= length l)%nat -> at1 (full l) (full (drop t l)) t f (slice f t l).
  Proof.
    intros H1 H2. exists (full (take f l)). split; [by apply full_split|].
    rewrite full_length, take_length, slice_length; lia.
  Qed.
  Lemma at2_intro l (f t : nat) : (f <= t)%nat -> (t <= length l)%nat -> at2 (full l) (full (drop t l)) t f (slice f t l).
  Proof. apply at1_intro. Qed.

  Theorem C11_set_union : forall l1 f1 t1 l2 f2 t2,
    (f1 <= t1)%nat -> (t1 <= length l1)%nat -> (f2 <= t2)%nat -> (t2 <= length l2)%nat ->
    sorted_range lt f1 t1 l1 -> sorted_range lt f2 t2 l2 ->
    exists out, set_union lt (full l1) f1 t1 (full l2) f2 t2 = Ok out /\ sorted lt out /\
      (* m copies in the first, n in the second: all m of the first, then the last max(n-m,0) of the second *)
      forall z, same z out = same z (slice f1 t1 l1) ++ drop (length (same z (slice f1 t1 l1))) (same z (slice f2 t2 l2)).
  Proof.
    intros l1 f1 t1 l2 f2 t2 H1 H2 H3 H4 S1 S2. apply sorted_range_slice in S1, S2.
    rewrite (set_union_ok lt _ _ _ _ _ _ _ _ _ _ (at1_intro l1 f1 t1 H1 H2) (at2_intro l2 f2 t2 H3 H4)).
    eexists. split; [done|]. split; [by apply setop_sorted|]. intros z. by apply (unionl_fe lt SW).
  Qed.
  Theorem C11_set_intersection : forall l1 f1 t1 l2 f2 t2,
    (f1 <= t1)%nat -> (t1 <= length l1)%nat -> (f2 <= t2)%nat -> (t2 <= length l2)%nat ->
    sorted_range lt f1 t1 l1 -> sorted_range lt f2 t2 l2 ->
    exists out, set_intersection lt (full l1) f1 t1 (full l2) f2 t2 = Ok out /\ sorted lt out /\
      (* the first min(m,n) of the first range *)
      forall z, same z out = take (length (same z (slice f2 t2 l2))) (same z (slice f1 t1 l1)).
  Proof.
    intros l1 f1 t1 l2 f2 t2 H1 H2 H3 H4 S1 S2. apply sorted_range_slice in S1, S2.
    rewrite (set_intersection_ok lt _ _ _ _ _ _ _ _ _ _ (at1_intro l1 f1 t1 H1 H2) (at2_intro l2 f2 t2 H3 H4)).
    eexists. split; [done|]. split; [by apply setop_sorted|]. intros z. by apply (interl_fe lt SW).
  Qed.
  Theorem C11_set_difference : forall l1 f1 t1 l2 f2 t2,
    (f1 <= t1)%nat -> (t1 <= length l1)%nat -> (f2 <= t2)%nat -> (t2 <= length l2)%nat ->
    sorted_range lt f1 t1 l1 -> sorted_range lt f2 t2 l2 ->
    exists out, set_difference lt (full l1) f1 t1 (full l2) f2 t2 = Ok out /\ sorted lt out /\
      (* the last max(m-n,0) of the first range *)
      forall z, same z out = drop (length (same z (slice f2 t2 l2))) (same z (slice f1 t1 l1)).
  Proof.
    intros l1 f1 t1 l2 f2 t2 H1 H2 H3 H4 S1 S2. apply sorted_range_slice in S1, S2.
    rewrite (set_difference_ok lt _ _ _ _ _ _ _ _ _ _ (at1_intro l1 f1 t1 H1 H2) (at2_intro l2 f2 t2 H3 H4)).
    eexists. split; [done|]. split; [by apply setop_sorted|]. intros z. by apply (diffl_fe lt SW).
  Qed.
  Theorem C11_set_symmetric_difference : forall l1 f1 t1 l2 f2 t2,
    (f1 <= t1)%nat -> (t1 <= length l1)%nat -> (f2 <= t2)%nat -> (t2 <= length l2)%nat ->
    sorted_range lt f1 t1 l1 -> sorted_range lt f2 t2 l2 ->
    exists out, set_symmetric_difference lt (full l1) f1 t1 (full l2) f2 t2 = Ok out /\ sorted lt out /\
      (* |m-n| copies: the last m-n of the first range, or the last n-m of the second *)
      forall z, same z out = drop (length (same z (slice f2 t2 l2))) (same z (slice f1 t1 l1)) ++
                             drop (length (same z (slice f1 t1 l1))) (same z (slice f2 t2 l2)).
  Proof.
    intros l1 f1 t1 l2 f2 t2 H1 H2 H3 H4 S1 S2. apply sorted_range_slice in S1, S2.
    rewrite (set_symmetric_difference_ok lt _ _ _ _ _ _ _ _ _ _ (at1_intro l1 f1 t1 H1 H2) (at2_intro l2 f2 t2 H3 H4)).
    eexists. split; [done|]. split; [by apply setop_sorted|]. intros z. by apply (symdl_fe lt SW).
  Qed.
  Theorem C11_includes : forall l1 f1 t1 l2 f2 t2,
    (f1 <= t1)%nat -> (t1 <= length l1)%nat -> (f2 <= t2)%nat -> (t2 <= length l2)%nat ->
    sorted_range lt f1 t1 l1 -> sorted_range lt f2 t2 l2 ->
    exists b, includes lt (full l1) f1 t1 (full l2) f2 t2 = Ok b /\
      (b = true <-> forall z, (length (same z (slice f2 t2 l2)) <= length (same z (slice f1 t1 l1)))%nat).
  Proof.
    intros l1 f1 t1 l2 f2 t2 H1 H2 H3 H4 S1 S2. apply sorted_range_slice in S1, S2.
    rewrite (includes_ok lt _ _ _ _ _ _ _ _ _ _ (at1_intro l1 f1 t1 H1 H2) (at2_intro l2 f2 t2 H3 H4)).
    eexists. split; [done|]. by apply (inclb_fe lt SW).
  Qed.
  (** the contents of an output are determined by these equations: the result is unique *)
  Theorem C11_result_unique : forall out out', sorted lt out -> sorted lt out' ->
    (forall z, same z out' = same z out) -> out' = out.
  Proof. intros out out' H1 H2 H. by apply (sorted_stable_unique lt SW). Qed.
End props.

Example C11_sat : let r := full [1;2;2;2;5]%nat in let s := full [2;2;3;5;5]%nat in
  sorted_range Nat.ltb 0 5 [1;2;2;2;5]%nat /\
  set_union Nat.ltb r 0 5 s 0 5 = Ok [1;2;2;2;3;5;5]%nat /\ set_intersection Nat.ltb r 0 5 s 0 5 = Ok [2;2;5]%nat /\
  set_difference Nat.ltb r 0 5 s 0 5 = Ok [1;2]%nat /\ set_symmetric_difference Nat.ltb r 0 5 s 0 5 = Ok [1;2;3;5]%nat /\
  includes Nat.ltb r 0 5 (full [2;2;5]%nat) 0 3 = Ok true /\ includes Nat.ltb r 0 5 s 0 5 = Ok false.
Proof.
  split; [|vm_compute; done].
  apply sorted_range_slice. repeat (apply sorted_cons; split; [repeat constructor|]). apply sorted_nil.
Qed.

Print Assumptions C11_set_union.
Print Assumptions C11_set_intersection.
Print Assumptions C11_set_difference.
Print Assumptions C11_set_symmetric_difference.
Print Assumptions C11_includes.
Print Assumptions C11_result_unique.
