(** Interleaving semantics shared by the concurrency models.
    A configuration is a shared state and one local state per thread (any number of threads). One step lets one thread
    perform one atomic operation; a step may emit an event. Executions are sequences of steps from an initial
    configuration; the trace is the list of emitted events. Memory is sequentially consistent: the std::atomic
    operations of the modelled code use seq_cst or are argued there to be weaker only for performance. *)
From stdpp Require Import base list numbers option decidable.
From Coq Require Import ZArith Lia.

Section sched.
  Context {S L E : Type} (tstep : nat -> S -> L -> option E -> S -> L -> Prop).
  Definition cfg : Type := S * list L.
  Inductive step : cfg -> list E -> cfg -> Prop :=
    | step_thread i s ts l e s' l' :
        ts !! i = Some l -> tstep i s l e s' l' -> step (s, ts) (option_list e) (s', <[i := l']> ts).
  Inductive steps (c0 : cfg) : list E -> cfg -> Prop :=
    | steps_nil : steps c0 [] c0
    | steps_snoc tr c e c' : steps c0 tr c -> step c e c' -> steps c0 (tr ++ e) c'.

  Lemma steps_inv (I : list E -> cfg -> Prop) c0 :
    I [] c0 -> (forall tr c e c', I tr c -> step c e c' -> I (tr ++ e) c') -> forall tr c, steps c0 tr c -> I tr c.
  Proof. intros H0 Hs tr c H. induction H; [done|]. by eapply Hs. Qed.
  (** a step, thread-wise *)
  Lemma steps_inv' (I : list E -> S -> list L -> Prop) s0 ts0 :
    I [] s0 ts0 ->
    (forall tr s ts i l e s' l', I tr s ts -> ts !! i = Some l -> tstep i s l e s' l' -> I (tr ++ option_list e) s' (<[i := l']> ts)) ->
    forall tr s ts, steps (s0, ts0) tr (s, ts) -> I tr s ts.
  Proof.
    intros H0 Hs tr s ts H. apply (steps_inv (fun tr c => I tr c.1 c.2) (s0, ts0)) in H; [done|done|].
    intros tr' c e c' HI Hst. destruct Hst. simpl in *. by eapply Hs.
  Qed.
  (** the trace is recorded step by step: whatever was emitted was emitted by a step from a reachable configuration *)
  Lemma steps_event c0 tr c : steps c0 tr c -> forall pre e post, tr = pre ++ e :: post ->
    exists c1 c2, steps c0 pre c1 /\ step c1 [e] c2.
  Proof.
    induction 1 as [|tr c es c' Hst IH Hs]; intros pre e post Heq; [by destruct pre|].
    destruct Hs as [i s ts l o s' l' Hl Ht]. destruct o as [x|]; simpl in Heq.
    - destruct post as [|y post _] using rev_ind.
      + apply app_inj_tail in Heq as [-> ->]. exists (s, ts), (s', <[i := l']> ts). split; [done|].
        by apply (step_thread i s ts l (Some e)).
      + rewrite app_comm_cons, app_assoc in Heq. apply app_inj_tail in Heq as [-> _]. by eapply IH.
    - rewrite app_nil_r in Heq. by eapply IH.
  Qed.
  Lemma steps_l c e c1 tr c' : step c e c1 -> steps c1 tr c' -> steps c (e ++ tr) c'.
  Proof.
    intros Hs H. induction H as [|tr c2 e2 c' H IH Hs2]; [rewrite app_nil_r; apply (steps_snoc c [] c e c1); [constructor|done]|].
    rewrite app_assoc. by eapply steps_snoc.
  Qed.
  Lemma steps_length s0 ts0 tr s ts : steps (s0, ts0) tr (s, ts) -> length ts = length ts0.
  Proof.
    intros H. apply (steps_inv (fun _ c => length c.2 = length ts0) (s0, ts0)) in H; [done|done|].
    intros tr' c e c' HI Hst. destruct Hst. simpl in *. by rewrite insert_length.
  Qed.
  (** run thread [i] first *)
  Lemma run i s ts l e s1 l1 tr c' : ts !! i = Some l -> tstep i s l e s1 l1 ->
    steps (s1, <[i := l1]> ts) tr c' -> steps (s, ts) (option_list e ++ tr) c'.
  Proof. intros Hl Ht. apply steps_l. by eapply step_thread. Qed.
End sched.

(** sums of a per-thread quantity over all threads *)
Local Open Scope Z_scope.
Definition sumz {L} (f : L -> Z) (ts : list L) : Z := foldr (fun x acc => f x + acc) 0 ts.
Lemma sumz_app {L} (f : L -> Z) l l' : sumz f (l ++ l') = sumz f l + sumz f l'.
Proof. unfold sumz. induction l; cbn [foldr app]; [done|]. rewrite IHl. lia. Qed.
Lemma sumz_cons {L} (f : L -> Z) x l : sumz f (x :: l) = f x + sumz f l.
Proof. done. Qed.
Lemma sumz_insert {L} (f : L -> Z) ts : forall i x y, ts !! i = Some x -> sumz f (<[i := y]> ts) = sumz f ts - f x + f y.
Proof.
  induction ts as [|z ts IH]; intros [|i] x y Hi; simpl in Hi; try done.
  - injection Hi as ->. change (<[0%nat := y]> (x :: ts)) with (y :: ts). rewrite !sumz_cons. lia.
  - change (<[Datatypes.S i := y]> (z :: ts)) with (z :: <[i := y]> ts). rewrite !sumz_cons, (IH i x y Hi). lia.
Qed.
Lemma sumz_nonneg {L} (f : L -> Z) ts : (forall x, 0 <= f x) -> 0 <= sumz f ts.
Proof. intros H. induction ts; [done|]. rewrite sumz_cons. specialize (H a). lia. Qed.
Lemma sumz_ge {L} (f : L -> Z) ts i x : (forall x, 0 <= f x) -> ts !! i = Some x -> f x <= sumz f ts.
Proof.
  intros H. revert i. induction ts as [|y ts IH]; intros [|i] Hi; simpl in Hi; try done; rewrite sumz_cons.
  - injection Hi as ->. pose proof (sumz_nonneg f ts H). lia.
  - specialize (IH i Hi). specialize (H y). lia.
Qed.
Lemma sumz_zero {L} (f : L -> Z) ts : (forall i x, ts !! i = Some x -> f x = 0) -> sumz f ts = 0.
Proof.
  induction ts as [|y ts IH]; intros H; [done|]. rewrite sumz_cons, (H 0%nat y eq_refl), IH; [done|]. intros i x Hi. by apply (H (Datatypes.S i)).
Qed.
Lemma sumz_le {L} (f g : L -> Z) ts : (forall i x, ts !! i = Some x -> f x <= g x) -> sumz f ts <= sumz g ts.
Proof.
  induction ts as [|y ts IH]; intros H; [done|]. rewrite !sumz_cons. pose proof (H 0%nat y eq_refl). specialize (IH (fun i => H (Datatypes.S i))). lia.
Qed.
Lemma sumz_plus {L} (f g : L -> Z) ts : sumz (fun x => f x + g x) ts = sumz f ts + sumz g ts.
Proof. unfold sumz. induction ts as [|y ts IH]; [done|]. cbn [foldr]. lia. Qed.
(** threads whose state satisfies a (boolean) predicate, all of whose indices lie in [q], are at most [length q] many *)
Lemma sumz_count_le {L} (f : L -> Z) ts : forall (k : nat) (q : list nat), (forall i x, ts !! i = Some x -> f x = 0 \/ (f x = 1 /\ (k + i)%nat ∈ q)) ->
  sumz f ts <= Z.of_nat (length (filter (fun j => k <= j)%nat q)).
Proof.
  induction ts as [|x ts IH]; intros k q H; [cbn; lia|]. rewrite sumz_cons.
  specialize (IH (Datatypes.S k) q). 
  assert (IH' : sumz f ts <= Z.of_nat (length (filter (fun j => Datatypes.S k <= j)%nat q))).
  { apply IH. intros i y Hi. destruct (H (Datatypes.S i) y Hi) as [?|[? Hin]]; [by left|]. right. split; [done|]. by replace (Datatypes.S k + i)%nat with (k + Datatypes.S i)%nat by lia. }
  assert (Hle : forall q' : list nat, (length (filter (fun j => Datatypes.S k <= j)%nat q') <= length (filter (fun j => k <= j)%nat q'))%nat).
  { induction q' as [|j q' IHq]; [done|]. rewrite !filter_cons. destruct (decide (Datatypes.S k <= j)%nat); destruct (decide (k <= j)%nat); simpl; lia. }
  destruct (H 0%nat x eq_refl) as [->|[-> Hin]]; [specialize (Hle q); lia|]. rewrite Nat.add_0_r in Hin.
  assert (Hlt : (length (filter (fun j => Datatypes.S k <= j)%nat q) < length (filter (fun j => k <= j)%nat q))%nat); [|lia].
  clear -Hin Hle. induction q as [|j q IHq]; [by apply elem_of_nil in Hin|]. rewrite !filter_cons. apply elem_of_cons in Hin as [->|Hin].
  - rewrite decide_False by lia. rewrite decide_True by lia. simpl. specialize (Hle q). lia.
  - specialize (IHq Hin). destruct (decide (Datatypes.S k <= j)%nat); destruct (decide (k <= j)%nat); simpl; lia.
Qed.
Lemma sumz_count_le0 {L} (f : L -> Z) ts (q : list nat) : (forall i x, ts !! i = Some x -> f x = 0 \/ (f x = 1 /\ i ∈ q)) ->
  sumz f ts <= Z.of_nat (length q).
Proof.
  intros H. pose proof (sumz_count_le f ts 0 q H) as Hc. etrans; [exact Hc|].
  pose proof (filter_length (fun j => 0 <= j)%nat q). lia.
Qed.
(** conversely, if all indices in the duplicate-free [q] satisfy it, there are at least [length q] many *)
Lemma sumz_count_geZ (q : list nat) : NoDup q -> forall fs : list Z, Forall (fun x => 0 <= x) fs -> (forall i, i ∈ q -> exists x, fs !! i = Some x /\ 1 <= x) ->
  Z.of_nat (length q) <= sumz (fun x => x) fs.
Proof.
  induction 1 as [|j q Hj Hq IH]; intros fs Hf H.
  - simpl. clear -Hf. induction Hf; [done|]. rewrite sumz_cons. lia.
  - destruct (H j) as (x & Hx & H1); [left|]. specialize (IH (<[j := 0]> fs)).
    rewrite (sumz_insert _ _ _ _ _ Hx) in IH. simpl length. cut (Z.of_nat (length q) <= sumz (fun x => x) fs - x + 0); [lia|]. apply IH.
    + by apply Forall_insert.
    + intros i Hi. destruct (H i) as (y & Hy & H1'); [by right|]. exists y. split; [|done]. rewrite list_lookup_insert_ne; [done|]. intros ->. done.
Qed.
Lemma sumz_fmap {L} (f : L -> Z) ts : sumz (fun x => x) (f <$> ts) = sumz f ts.
Proof. induction ts; [done|]. rewrite fmap_cons, !sumz_cons. by rewrite IHts. Qed.
Lemma sumz_count_ge {L} (f : L -> Z) ts (q : list nat) : NoDup q -> (forall x, 0 <= f x) -> (forall i, i ∈ q -> exists x, ts !! i = Some x /\ 1 <= f x) ->
  Z.of_nat (length q) <= sumz f ts.
Proof.
  intros Hq Hf H. rewrite <- sumz_fmap. apply sumz_count_geZ; [done| |].
  - apply Forall_fmap. rewrite list.Forall_forall. intros x _. apply Hf.
  - intros i Hi. destruct (H i Hi) as (x & Hx & H1). exists (f x). by rewrite list_lookup_fmap, Hx.
Qed.
Lemma wf_insert {L} (P : L -> Prop) (ts : list L) i l' :
  (forall j l, ts !! j = Some l -> P l) -> P l' -> forall j l, <[i := l']> ts !! j = Some l -> P l.
Proof.
  intros H Hl j l Hj. destruct (decide (i = j)) as [->|Hne].
  - apply list_lookup_insert_Some in Hj as [(_ & <- & _)|(? & _)]; done.
  - rewrite list_lookup_insert_ne in Hj by done. by eapply H.
Qed.
