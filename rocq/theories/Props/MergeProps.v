(** C04: stable_sort sorts stably, C05: merge / inplace_merge are stable merges, whatever buffer they get.
    [sorted], [slice], [same_outside]: Base/Order.v. [stable_eq lt l l']: for every x, the elements equivalent to x
    are the same and in the same order in l and l' (Base/Stable.v); it implies that l' is a permutation of l. *)
From stdpp Require Import base list numbers.
From Coq Require Import Lia.
From Verif Require Import Base.Res Base.Order Base.OrderLemmas Base.Stable Base.Arr Base.Cells
  Alg.SortModel Alg.RotateModel Alg.MergeModel Alg.MergeSpec Alg.MergeProofs Alg.StableSortProofs Props.SortProps.

Section props.
  Context {A : Type} (lt : A -> A -> bool) (SW : StrictWeakOrder lt).
  Implicit Types l : list A.

  (** [cap]: any capacity of the temporary buffer, 0 included *)
  Theorem C04_stable_sort : forall (cap : nat) l first last, (first <= last)%nat -> (last <= length l)%nat ->
    exists l', stable_sort lt cap (full l) first last = Ok (full l') /\
      same_outside first last l l' /\ sorted_range lt first last l' /\
      stable_eq lt (slice first last l) (slice first last l') /\ l' ≡ₚ l.
  Proof.
    intros cap l f t H1 H2.
    destruct (stable_sort_ok lt SW cap (take f l) (slice f t l) (drop t l) f t) as (r & E & Hs & Hst & Hl).
    { rewrite take_length. lia. } { rewrite slice_length by done. lia. }
    rewrite <-(split3 f t l) in E by done. rewrite slice_length in Hl by done.
    destruct (same_outside_split_inv f t l r) as [Hso Hsl]; [done..|].
    eexists. split; [exact E|]. split; [done|]. split; [apply sorted_range_slice; by rewrite Hsl|].
    rewrite Hsl. split; [done|]. apply (slice_perm f t); [done|done|]. rewrite Hsl. by apply (stable_eq_perm lt SW).
  Qed.

  (** the sorted stable rearrangement is unique, so two calls with different buffers agree *)
  Theorem C04_buffer_independent : forall (cap cap' : nat) l first last, (first <= last)%nat -> (last <= length l)%nat ->
    stable_sort lt cap (full l) first last = stable_sort lt cap' (full l) first last.
  Proof.
    intros c c' l f t H1 H2.
    destruct (C04_stable_sort c l f t H1 H2) as (l1 & E1 & O1 & S1 & St1 & _).
    destruct (C04_stable_sort c' l f t H1 H2) as (l2 & E2 & O2 & S2 & St2 & _).
    rewrite E1, E2. do 2 f_equal.
    rewrite (same_outside_split f t l l1), (same_outside_split f t l l2) by done. do 2 f_equal.
    apply sorted_range_slice in S1, S2. apply (sorted_stable_unique lt SW); [done|done|].
    eapply stable_eq_trans; [apply stable_eq_sym; exact St2|exact St1].
  Qed.

  Theorem C05_merge : forall l1 l2 f1 e1 f2 e2,
    (f1 <= e1)%nat -> (e1 <= length l1)%nat -> (f2 <= e2)%nat -> (e2 <= length l2)%nat ->
    sorted_range lt f1 e1 l1 -> sorted_range lt f2 e2 l2 ->
    exists out, merge lt (full l1) f1 e1 (full l2) f2 e2 = Ok out /\
      sorted lt out /\ stable_eq lt (slice f1 e1 l1 ++ slice f2 e2 l2) out /\
      out ≡ₚ slice f1 e1 l1 ++ slice f2 e2 l2.
  Proof.
    intros l1 l2 f1 e1 f2 e2 H1 H2 H3 H4 S1 S2.
    pose proof (merge_ok lt (slice f1 e1 l1) (slice f2 e2 l2) (full (take f1 l1)) (full (drop e1 l1)) (full (take f2 l2)) (full (drop e2 l2)) f1 e1 f2 e2) as E.
    rewrite <-!full_app, <-!split3, !full_length, !take_length, !slice_length in E by done.
    apply sorted_range_slice in S1, S2.
    eexists. split; [apply E; lia|]. split; [by apply (mergel_sorted lt SW)|].
    split; [by apply (mergel_steq lt SW)|]. apply mergel_perm.
  Qed.

  Theorem C05_inplace_merge : forall (cap : nat) l first mid last,
    (first <= mid)%nat -> (mid <= last)%nat -> (last <= length l)%nat ->
    sorted_range lt first mid l -> sorted_range lt mid last l ->
    exists l', inplace_merge lt cap (full l) first mid last = Ok (full l') /\
      same_outside first last l l' /\ sorted_range lt first last l' /\
      stable_eq lt (slice first last l) (slice first last l') /\ l' ≡ₚ l.
  Proof.
    intros cap l f m t H1 H2 H3 S1 S2. apply sorted_range_slice in S1, S2.
    pose proof (inplace_merge_ok lt SW cap (take f l) (slice f m l) (slice m t l) (drop t l) f m t S1 S2) as E.
    rewrite (app_assoc (slice f m l)), <-(slice_app f m t l), <-split3, take_length, !slice_length in E by lia.
    specialize (E ltac:(lia) ltac:(lia) ltac:(lia)).
    assert (Hl : length (mergel lt (slice f m l) (slice m t l)) = (t - f)%nat).
    { rewrite mergel_length, !slice_length by lia. lia. }
    destruct (same_outside_split_inv f t l _ ltac:(lia) H3 Hl) as [Hso Hsl].
    eexists. split; [exact E|]. split; [done|].
    assert (St : stable_eq lt (slice f t l) (mergel lt (slice f m l) (slice m t l))).
    { rewrite (slice_app f m t l) by lia. by apply (mergel_steq lt SW). }
    split; [apply sorted_range_slice; rewrite Hsl; by apply (mergel_sorted lt SW)|].
    rewrite Hsl. split; [done|]. apply (slice_perm f t); [lia|done|]. rewrite Hsl. by apply (stable_eq_perm lt SW).
  Qed.
End props.

(** concrete cases: records compared by the first component only *)
Definition key_lt (x y : nat * nat) : bool := (x.1 <? y.1)%nat.
Lemma key_lt_swo : StrictWeakOrder key_lt.
Proof.
  constructor; unfold key_lt; intros; repeat match goal with
    | H : (_ <? _)%nat = true |- _ => apply Nat.ltb_lt in H
    | H : (_ <? _)%nat = false |- _ => apply Nat.ltb_ge in H end.
  - apply Nat.ltb_irrefl. - apply Nat.ltb_lt. lia.
  - split; apply Nat.ltb_ge; lia.
Qed.
Definition keyed := map (fun i => ((i * 37 + i * i * 13) mod 7, i))%nat (seq 0 70).
Example C04_nontrivial_small_buffer : stable_sort key_lt 5 (full keyed) 0 70 <> Ok (full keyed) /\
  stable_sort key_lt 5 (full keyed) 0 70 = stable_sort key_lt 40 (full keyed) 0 70.
Proof. split; [vm_compute; discriminate|vm_compute; reflexivity]. Qed.
Example C05_hyps : sorted_range key_lt 0 2 [(1,0);(3,1);(1,2);(2,3)]%nat /\ sorted_range key_lt 2 4 [(1,0);(3,1);(1,2);(2,3)]%nat.
Proof. split; apply sorted_range_slice; cbn; rewrite !sorted_cons; repeat split; repeat constructor; apply sorted_nil. Qed.
Example C05_case : inplace_merge key_lt 0 (full [(1,0);(3,1);(1,2);(2,3)]%nat) 0 2 4 = Ok (full [(1,0);(1,2);(2,3);(3,1)]%nat).
Proof. reflexivity. Qed.

Print Assumptions C04_stable_sort.
Print Assumptions C04_buffer_independent.
Print Assumptions C05_merge.
Print Assumptions C05_inplace_merge.
