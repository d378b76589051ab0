(** C33: mutex, recursive_mutex, timed_mutex, recursive_timed_mutex and shared_timed_mutex, in every interleaving of any number
    of threads. What a user sees is the trace of calls and returns; [depth_of i tr] is the number of locks thread i holds
    after the trace: its successful lock operations minus its calls of unlock. Every prefix of an execution is an execution,
    so the theorems hold at every moment. *)
From stdpp Require Import base list numbers option decidable list_numbers.
From Coq Require Import ZArith Lia.
From Verif Require Import Conc.Sched.
From Verif Require Conc.MutexModel Conc.MutexProofs Conc.TimedMutexModel Conc.TimedMutexProofs Conc.SharedTimedMutexModel Conc.SharedTimedMutexProofs.
Local Open Scope Z_scope.

Lemma thread_of {S L E} (tstep : nat -> S -> L -> option E -> S -> L -> Prop) s0 l0 n tr s ts i :
  steps tstep (s0, replicate n l0) tr (s, ts) -> (i < n)%nat -> exists l, ts !! i = Some l.
Proof. intros Hs Hi. apply lookup_lt_is_Some. rewrite (steps_length _ _ _ _ _ _ Hs), replicate_length. done. Qed.
Ltac go i c := eapply (run _ i); [reflexivity|c|cbn [insert list_insert replicate]].

Section mutex.
  Import MutexModel MutexProofs.
  Context (rec : bool).
  Lemma sec_depth tr s ts i l : KI rec tr s ts -> ts !! i = Some l -> 0 < depth_of i tr -> hold s = Some i.
  Proof.
    intros HI Hl H. rewrite (ki_tr _ _ _ _ HI i l Hl) in H. apply (ki_sec _ _ _ _ HI i l Hl).
    pose proof (ki_wf _ _ _ _ HI i l Hl) as [_ Hw]. destruct l; simpl in *; try done; lia.
  Qed.
  (** at most one owner *)
  Theorem C33_mutex_exclusion n tr s ts i j : steps (mx_step rec) (mx_init n) tr (s, ts) -> (i < n)%nat -> (j < n)%nat -> i <> j ->
    0 < depth_of i tr -> depth_of j tr = 0.
  Proof.
    intros Hs Hi Hj Hne Hd. pose proof (ki_reach rec n tr s ts Hs) as HI. destruct (thread_of _ _ _ _ _ _ _ _ Hs Hi) as [li Hli]. destruct (thread_of _ _ _ _ _ _ _ _ Hs Hj) as [lj Hlj].
    pose proof (sec_depth _ _ _ _ _ HI Hli Hd) as Hh. pose proof (ki_wf _ _ _ _ HI j lj Hlj) as [Hw _]. rewrite <- (ki_tr _ _ _ _ HI j lj Hlj) in Hw.
    destruct (decide (0 < depth_of j tr)) as [Hp|]; [|lia]. pose proof (sec_depth _ _ _ _ _ HI Hlj Hp). congruence.
  Qed.
  (** depth accounting: never negative, below INT_MAX, at most one for std::mutex; while the owner is outside the mutex,
      _Count is exactly its depth *)
  Theorem C33_mutex_depth n tr s ts i : steps (mx_step rec) (mx_init n) tr (s, ts) -> (i < n)%nat ->
    0 <= depth_of i tr < 2147483647 /\ (rec = false -> depth_of i tr <= 1) /\
    (0 < depth_of i tr -> ts !! i = Some (Idle (depth_of i tr)) -> cnt s = depth_of i tr).
  Proof.
    intros Hs Hi. pose proof (ki_reach rec n tr s ts Hs) as HI. destruct (thread_of _ _ _ _ _ _ _ _ Hs Hi) as [li Hli].
    rewrite (ki_tr _ _ _ _ HI i li Hli). split; [|split].
    - pose proof (ki_max _ _ _ _ HI i li Hli) as Hm. destruct (ki_wf _ _ _ _ HI i li Hli) as [Hw _]. unfold IMAX in Hm. lia.
    - intros Hr. by apply (ki_rec _ _ _ _ HI i li Hli).
    - intros H0 Hl. pose proof (ki_cnt _ _ _ _ HI i _ Hl) as Hc. simpl in Hc. rewrite <- Hc; [unfold cof, ud; lia|]. apply (ki_sec _ _ _ _ HI i _ Hl). simpl. lia.
  Qed.
  (** try_lock answers false (and lock throws) only if another thread owns the mutex or is in the middle of a call, or the
      caller itself owns it *)
  Theorem C33_mutex_fail n tr s ts i s' ts' : steps (mx_step rec) (mx_init n) tr (s, ts) -> step (mx_step rec) (s, ts) [EFail i] (s', ts') ->
    0 < depth_of i tr \/ exists j lj, j <> i /\ ts !! j = Some lj /\ (0 < depth_of j tr \/ forall d, lj <> Idle d).
  Proof.
    intros Hs Hst. pose proof (ki_reach rec n tr s ts Hs) as HI. inversion Hst as [i' s0 ts0 l o s1 l' Hl Ht Hq0 Hx]; subst. destruct o as [e|]; [|done]. injection Hx as ->.
    pose proof (ki_tr _ _ _ _ HI _ _ Hl) as Htr. pose proof (ki_wf _ _ _ _ HI _ _ Hl) as [Hw Hw']. pose proof (ki_sec _ _ _ _ HI _ _ Hl) as Hsec. pose proof (ki_cnt _ _ _ _ HI _ _ Hl) as Hcnt.
    inversion Ht; subst; cbn [ud] in *.
    - right. pose proof (ki_srw _ _ _ _ HI) as Hsr. match goal with H : srw _ = true |- _ => rewrite H in Hsr end. symmetry in Hsr. apply bool_decide_eq_true in Hsr as [j Hj]. destruct (ki_dom _ _ _ _ HI j Hj) as [lj Hlj].
      exists j, lj. simpl in Hsec. split; [intros ->; tauto|]. split; [done|]. rewrite (ki_tr _ _ _ _ HI j lj Hlj). pose proof (proj2 (ki_sec _ _ _ _ HI j lj Hlj) Hj) as Hsj.
      destruct lj; simpl in *; try (by right). by left.
    - left. lia.
    - left. simpl in *. rewrite Htr. unfold cof in Hcnt. simpl in Hcnt. unfold IMAX in Hcnt. assert (d + 1 = 2147483647) by (apply Hcnt; tauto). lia.
  Qed.
  (** a thread waiting for the mutex can proceed as soon as every other thread is outside it and does not own it *)
  Theorem C33_mutex_progress n tr s ts i d t : steps (mx_step rec) (mx_init n) tr (s, ts) -> ts !! i = Some (KAcq d t) ->
    (forall j lj, j <> i -> ts !! j = Some lj -> lj = Idle 0) -> exists s' l', mx_step rec i s (KAcq d t) None s' l' /\ hold s' = Some i.
  Proof.
    intros Hs Hl Hall. pose proof (ki_reach rec n tr s ts Hs) as HI.
    assert (hold s = None) as Hh.
    { destruct (hold s) as [j|] eqn:E; [|done]. exfalso. destruct (ki_dom _ _ _ _ HI j E) as [lj Hlj]. pose proof (proj2 (ki_sec _ _ _ _ HI j lj Hlj) E) as Hsj.
      destruct (decide (j = i)) as [->|Hne]; [rewrite Hl in Hlj; injection Hlj as <-; done|]. rewrite (Hall j lj Hne Hlj) in Hsj. simpl in Hsj. lia. }
    pose proof (ki_srw _ _ _ _ HI) as Hsr. rewrite Hh in Hsr. destruct s as [w ti c h]. simpl in *. subst. eexists _, _. split; [apply k_acq|done].
  Qed.
End mutex.
(** satisfiability: recursive_mutex locked twice by thread 0, try_lock of thread 1 fails, thread 0 unlocks *)
Example C33_sat_mutex : exists tr s ts, steps (MutexModel.mx_step true) (MutexModel.mx_init 2) tr (s, ts) /\
  tr = [MutexModel.ELock 0; MutexModel.ELock 0; MutexModel.EFail 1; MutexModel.EUnlock 0] /\ MutexModel.depth_of 0 tr = 1.
Proof.
  Import MutexModel. eexists _, _, _. split; [|split].
  - unfold mx_init. cbn [replicate].
    go 0%nat ltac:(apply (k_call _ _ _ _ false)). go 0%nat ltac:(apply k_test_other; done). go 0%nat ltac:(apply k_acq). go 0%nat ltac:(apply k_inc). rewrite decide_False by lia.
    go 0%nat ltac:(apply k_tid; done). go 0%nat ltac:(apply k_ver; done).
    go 0%nat ltac:(apply (k_call _ _ _ _ false)). go 0%nat ltac:(apply k_test_own; done). go 0%nat ltac:(apply k_inc). rewrite decide_True by lia. go 0%nat ltac:(apply k_ver; done).
    go 1%nat ltac:(apply (k_call _ _ _ _ true)). go 1%nat ltac:(apply k_test_other; done). go 1%nat ltac:(apply k_tryfail; done).
    go 0%nat ltac:(apply k_unlock; lia). go 0%nat ltac:(apply k_udec). constructor.
  - done.
  - done.
Qed.

Section timed.
  Import TimedMutexModel TimedMutexProofs.
  Section rec.
  Context (rec : bool).
  Lemma own_pos tr s ts i l : MI rec tr s ts -> ts !! i = Some l -> 0 < depth_of i tr -> owner s = Some i.
  Proof.
    intros HI Hl H. rewrite (mi_tr _ _ _ _ HI i l Hl) in H. pose proof (mi_own _ _ _ _ HI i l Hl) as Ho. unfold own in Ho.
    case_decide as Hd; [done|]. assert (0 <= extra l) by (destruct l; simpl; try lia; destruct r; lia). lia.
  Qed.
  (** at most one owner *)
  Theorem C33_timed_mutex_exclusion n tr s ts i j : steps (tm_step rec) (tm_init n) tr (s, ts) -> (i < n)%nat -> (j < n)%nat -> i <> j ->
    0 < depth_of i tr -> depth_of j tr = 0.
  Proof.
    intros Hs Hi Hj Hne Hd. pose proof (mi_reach rec n tr s ts Hs) as HI. destruct (thread_of _ _ _ _ _ _ _ _ Hs Hi) as [li Hli]. destruct (thread_of _ _ _ _ _ _ _ _ Hs Hj) as [lj Hlj].
    pose proof (own_pos _ _ _ _ _ HI Hli Hd) as Hh. pose proof (mi_wf _ _ _ _ HI j lj Hlj) as [Hw _]. rewrite <- (mi_tr _ _ _ _ HI j lj Hlj) in Hw.
    destruct (decide (0 < depth_of j tr)) as [Hp|]; [|lia]. pose proof (own_pos _ _ _ _ _ HI Hlj Hp). congruence.
  Qed.
  (** depth accounting: never negative, at most one for timed_mutex; while the owner is outside the mutex, the recursive
      mutex's level is exactly its depth; the mutex is free exactly when no thread owns it or is releasing/acquiring it *)
  Theorem C33_timed_mutex_depth n tr s ts i : steps (tm_step rec) (tm_init n) tr (s, ts) -> (i < n)%nat ->
    0 <= depth_of i tr <= 4294967295 /\ (rec = false -> depth_of i tr <= 1) /\
    (rec = true -> 0 < depth_of i tr -> ts !! i = Some (Idle (depth_of i tr)) -> locked s = depth_of i tr).
  Proof.
    intros Hs Hi. pose proof (mi_reach rec n tr s ts Hs) as HI. destruct (thread_of _ _ _ _ _ _ _ _ Hs Hi) as [li Hli].
    pose proof (own_pos _ _ _ _ _ HI Hli) as Hown. rewrite (mi_tr _ _ _ _ HI i li Hli) in *. pose proof (mi_own _ _ _ _ HI i li Hli) as Ho. pose proof (mi_wf _ _ _ _ HI i li Hli) as [Hw _].
    pose proof (mi_lvl _ _ _ _ HI) as (Hr & _ & _ & Hu). assert (0 <= extra li) by (destruct li; simpl; try lia; destruct r; lia).
    unfold own, lvl, UMAX in *. split; [|split].
    - destruct rec; repeat case_decide; lia.
    - intros ->. repeat case_decide; lia.
    - intros -> H0 Hl. rewrite Hli in Hl. assert (extra li = 0) by (injection Hl as E; by rewrite E). rewrite decide_True in Ho by (by apply Hown). lia.
  Qed.
  (** a lock attempt fails only if some thread (for a recursive mutex possibly the caller, at the maximum depth) owns the mutex
      or has called unlock and not yet released it *)
  Theorem C33_timed_mutex_fail n tr s ts e i s' ts' : steps (tm_step rec) (tm_init n) tr (s, ts) -> step (tm_step rec) (s, ts) [e] (s', ts') -> e = EFail i \/ e = EThrow i ->
    exists j lj, ts !! j = Some lj /\ (0 < depth_of j tr \/ exists d, lj = UAcq d).
  Proof.
    intros Hs Hst He. pose proof (mi_reach rec n tr s ts Hs) as HI. inversion Hst as [i' s0 ts0 l o s1 l' Hl Ht Hq0 Hx]; subst. destruct o as [e'|]; [|done]. injection Hx as ->.
    assert (Hlk : locked s <> 0 /\ inside l = 1 /\ extra l = 0).
    { pose proof (mi_wf _ _ _ _ HI _ _ Hl) as [_ Hw]. inversion Ht; subst; simpl in *; try done; destruct He; done. }
    destruct Hlk as (Hlk & Hin & Hex). pose proof (mi_lvl _ _ _ _ HI) as (Hr & Hn & Hlen & Hu). destruct (owner s) as [j|] eqn:Eo; [|tauto].
    destruct (lookup_lt_is_Some_2 ts j (Hlen j eq_refl)) as [lj Hlj]. exists j, lj. split; [done|]. rewrite (mi_tr _ _ _ _ HI j lj Hlj).
    pose proof (mi_own _ _ _ _ HI j lj Hlj) as Ho. unfold own, lvl in Ho. rewrite decide_True in Ho by done.
    assert (0 < ud lj + extra lj) as Hp by (rewrite Ho; destruct rec; [lia|rewrite decide_False by done; lia]).
    destruct (decide (j = i')) as [->|Hne]; [rewrite Hl in Hlj; injection Hlj as <-; left; lia|].
    pose proof (alone ts i' j l lj _ (mi_held _ _ _ _ HI) Hl Hin Hne Hlj) as H0. destruct lj; simpl in *; try (left; lia). right. eauto.
  Qed.
  (** no lost wake-up: if every thread is outside the mutex or asleep waiting for it, and some thread sleeps that went to
      sleep after testing the mutex (every untimed waiter does, see the finding below), then some thread owns the mutex *)
  Theorem C33_timed_mutex_no_lost_wakeup n tr s ts i d m : steps (tm_step rec) (tm_init n) tr (s, ts) -> mquiescent s ts ->
    ts !! i = Some (LWait d m false) -> exists j, (j < n)%nat /\ 0 < depth_of j tr.
  Proof.
    intros Hs Hqs Hl. pose proof (mi_reach rec n tr s ts Hs) as HI.
    assert (Hz : sumz owed ts = 0). { apply sumz_zero. intros j x Hx. destruct (Hqs j x Hx) as [[d' ->]|[(? & ? & ? & ->) _]]; done. }
    assert (Hlv : sumz lively ts <= Z.of_nat (length (mq s))).
    { apply sumz_count_le0. intros j x Hx. destruct (Hqs j x Hx) as [[d' ->]|[(? & ? & ? & ->) Hj]]; [by left|by right]. }
    assert (Hf : fresh s ts). { destruct (Hqs i _ Hl) as [[d' E]|[_ Hi]]; [done|]. by exists i, d, m. }
    pose proof (mi_live _ _ _ _ HI Hf) as Hlive. assert (locked s <> 0) as Hlk by lia.
    pose proof (mi_lvl _ _ _ _ HI) as (Hr & Hn & Hlen & Hu). destruct (owner s) as [j|] eqn:Eo; [|tauto].
    destruct (lookup_lt_is_Some_2 ts j (Hlen j eq_refl)) as [lj Hlj]. exists j. split.
    { pose proof (Hlen j eq_refl) as Hj. rewrite (steps_length _ _ _ _ _ _ Hs), replicate_length in Hj. done. }
    rewrite (mi_tr _ _ _ _ HI j lj Hlj). pose proof (mi_own _ _ _ _ HI j lj Hlj) as Ho. unfold own, lvl in Ho. rewrite decide_True in Ho by done.
    assert (0 < ud lj + extra lj) as Hp by (rewrite Ho; destruct rec; [lia|rewrite decide_False by done; lia]).
    destruct (Hqs j lj Hlj) as [[d' ->]|[(? & ? & ? & ->) _]]; simpl in *; lia.
  Qed.
  (** an untimed waiter always went to sleep after testing the mutex, so the theorem above covers every thread in lock() *)
  Theorem C33_timed_mutex_untimed_waiters n tr s ts i d m ew : steps (tm_step rec) (tm_init n) tr (s, ts) ->
    ts !! i = Some (LWait d m ew) -> m <> MTimed -> ew = false.
  Proof.
    intros Hs Hl Hm. set (P := fun l => match l with LWait _ MTimed _ => True | LWait _ _ e => e = false | _ => True end).
    assert (HP : forall j l, ts !! j = Some l -> P l).
    { refine (steps_inv' (tm_step rec) (fun _ _ ts => forall j l, ts !! j = Some l -> P l) _ _ _ _ tr s ts Hs).
      - intros j l Hj. by apply lookup_replicate in Hj as [-> _].
      - intros tr' s1 ts1 k l e s' l' IH Hk Ht. apply wf_insert; [done|]. inversion Ht; subst; simpl; try done; try (by destruct rec); try (by destruct m0); try (by destruct n0). }
    specialize (HP i _ Hl). destruct m; simpl in HP; done.
  Qed.
  End rec.
  (** satisfiability: thread 0 locks, thread 1 sleeps in lock(): quiescent, and thread 0 owns the mutex *)
  Example C33_sat_timed_mutex : exists tr s ts, steps (tm_step true) (tm_init 2) tr (s, ts) /\ mquiescent s ts /\
    ts !! 1%nat = Some (LWait 0 MLock false) /\ depth_of 0 tr = 1.
  Proof.
    eexists _, _, _. split; [|split; [|split]].
    - unfold tm_init. cbn [replicate].
      go 0%nat ltac:(apply (m_call _ _ _ _ MLock); done). go 0%nat ltac:(apply m_acq). go 0%nat ltac:(apply m_own_no; done).
      go 0%nat ltac:(apply m_chk_free; done). go 0%nat ltac:(apply m_set). go 0%nat ltac:(apply m_rel_ok).
      go 1%nat ltac:(apply (m_call _ _ _ _ MLock); done). go 1%nat ltac:(apply m_acq). go 1%nat ltac:(apply m_own_no; done). go 1%nat ltac:(apply m_chk_wait; done). constructor.
    - intros [|[|i]] l Hl; simpl in Hl; try done; injection Hl as <-; [left; eauto|right]. split; [eauto|simpl; left].
    - done.
    - done.
  Qed.
  (** FINDING. The no-lost-wakeup property fails for a timed waiter that condition_variable::wait_until put back to sleep after
      an early timeout (mutex:573-587 waits again without testing the predicate; it happens when the remaining time exceeds the
      24-hour clamp of thread:187-198): the mutex is free, nobody is inside it, and the waiter sleeps on. *)
  Example C33_early_timeout_loses_wakeup : exists tr s ts, steps (tm_step false) (tm_init 2) tr (s, ts) /\ mquiescent s ts /\
    ts !! 1%nat = Some (LWait 0 MTimed true) /\ locked s = 0 /\ (forall j, depth_of j tr = 0).
  Proof.
    exists [ELock 0; EUnlock 0], (Mst false 0 None [1%nat]), [Idle 0; LWait 0 MTimed true]. split; [|split; [|split; [|split]]].
    - unfold tm_init. cbn [replicate].
      change [ELock 0; EUnlock 0] with (option_list (@None mev) ++ [ELock 0; EUnlock 0]). go 0%nat ltac:(apply (m_call _ _ _ _ MLock); done).
      change [ELock 0; EUnlock 0] with (option_list (@None mev) ++ [ELock 0; EUnlock 0]). go 0%nat ltac:(apply m_acq).
      change [ELock 0; EUnlock 0] with (option_list (@None mev) ++ [ELock 0; EUnlock 0]). go 0%nat ltac:(apply m_chk_free; done).
      change [ELock 0; EUnlock 0] with (option_list (@None mev) ++ [ELock 0; EUnlock 0]). go 0%nat ltac:(apply m_set).
      change [ELock 0; EUnlock 0] with (option_list (Some (ELock 0)) ++ [EUnlock 0]). go 0%nat ltac:(apply m_rel_ok).
      change [EUnlock 0] with (option_list (@None mev) ++ [EUnlock 0]). go 1%nat ltac:(apply (m_call _ _ _ _ MTimed); done).
      change [EUnlock 0] with (option_list (@None mev) ++ [EUnlock 0]). go 1%nat ltac:(apply m_acq).
      change [EUnlock 0] with (option_list (@None mev) ++ [EUnlock 0]). go 1%nat ltac:(apply m_chk_wait; done).
      change [EUnlock 0] with (option_list (@None mev) ++ [EUnlock 0]). go 1%nat ltac:(apply m_timeout; reflexivity).
      change [EUnlock 0] with (option_list (Some (EUnlock 0)) ++ []). go 0%nat ltac:(apply m_unlock; lia).
      change (@nil mev) with (option_list (@None mev) ++ []). go 0%nat ltac:(apply m_uacq).
      change (@nil mev) with (option_list (@None mev) ++ []). go 0%nat ltac:(apply m_udec).
      change (@nil mev) with (option_list (@None mev) ++ []). go 0%nat ltac:(apply m_urel).
      change (@nil mev) with (option_list (@None mev) ++ []). go 0%nat ltac:(apply m_unotify_none).
      change (@nil mev) with (option_list (@None mev) ++ []). go 1%nat ltac:(apply m_reacq_to).
      change (@nil mev) with (option_list (@None mev) ++ []). go 1%nat ltac:(apply m_early). constructor.
    - intros [|[|i]] l Hl; simpl in Hl; try done; injection Hl as <-; [left; eauto|right]. split; [eauto|simpl; left].
    - done.
    - done.
    - intros j. simpl. case_decide; lia.
  Qed.
End timed.

Section shared.
  Import SharedTimedMutexModel SharedTimedMutexProofs.
  Lemma excl_x tr s ts i l : SI tr s ts -> ts !! i = Some l -> 0 < excl_of i tr -> l = Idle Ex.
  Proof. intros HI Hl H. destruct (si_tr _ _ _ HI i l Hl) as [He _]. rewrite He in H. destruct l; simpl in H; try lia. destruct h; simpl in H; try lia. done. Qed.
  Lemma shared_x tr s ts i l : SI tr s ts -> ts !! i = Some l -> 0 < shared_of i tr -> l = Idle Sh.
  Proof. intros HI Hl H. destruct (si_tr _ _ _ HI i l Hl) as [_ He]. rewrite He in H. destruct l; simpl in H; try lia. destruct h; simpl in H; try lia. done. Qed.
  (** a writer excludes every other writer and every reader; each thread holds at most one lock *)
  Theorem C33_shared_timed_mutex_exclusion n tr s ts i j : steps st_step (st_init n) tr (s, ts) -> (i < n)%nat -> (j < n)%nat ->
    0 <= excl_of i tr <= 1 /\ 0 <= shared_of i tr <= 1 /\
    (0 < excl_of i tr -> shared_of j tr = 0 /\ (i <> j -> excl_of j tr = 0)).
  Proof.
    intros Hs Hi Hj. pose proof (si_reach n tr s ts Hs) as HI. destruct (thread_of _ _ _ _ _ _ _ _ Hs Hi) as [li Hli]. destruct (thread_of _ _ _ _ _ _ _ _ Hs Hj) as [lj Hlj].
    destruct (si_tr _ _ _ HI i li Hli) as [Hei Hsi]. destruct (si_tr _ _ _ HI j lj Hlj) as [Hej Hsj].
    split; [rewrite Hei; destruct (uh li); simpl; lia|]. split; [rewrite Hsi; destruct (uh li); simpl; lia|]. intros Hp.
    pose proof (excl_x _ _ _ _ _ HI Hli Hp) as ->. split.
    - destruct (decide (0 < shared_of j tr)) as [Hs0|]; [|rewrite Hsj in *; destruct (uh lj); simpl in *; lia]. exfalso.
      pose proof (shared_x _ _ _ _ _ HI Hlj Hs0) as ->. pose proof (sumz_ge xown ts i _ xo_nn Hli) as Hx. simpl in Hx. pose proof (si_x _ _ _ HI ltac:(lia)) as H0.
      pose proof (sumz_ge rdr ts j _ rd_nn Hlj) as Hr. rewrite (si_rd _ _ _ HI) in Hr. simpl in Hr. lia.
    - intros Hne. destruct (decide (0 < excl_of j tr)) as [Hs0|]; [|rewrite Hej in *; destruct (uh lj); simpl in *; lia]. exfalso.
      pose proof (excl_x _ _ _ _ _ HI Hlj Hs0) as ->. pose proof (alone wr ts i j _ _ _ wr_nn (si_wr _ _ _ HI) Hli eq_refl (not_eq_sym Hne) Hlj) as Ha. simpl in Ha. lia.
  Qed.
  (** exact accounting: when no thread is inside the mutex, _Readers is the number of threads holding it shared and _Writing
      says whether one holds it exclusively *)
  Theorem C33_shared_timed_mutex_exact n tr s ts : steps st_step (st_init n) tr (s, ts) -> (forall i l, ts !! i = Some l -> exists h, l = Idle h) ->
    readers s = sumz (fun i => shared_of i tr) (seq 0 n) /\ b2z (writing s) = sumz (fun i => excl_of i tr) (seq 0 n).
  Proof.
    intros Hs Hid. pose proof (si_reach n tr s ts Hs) as HI. pose proof (steps_length _ _ _ _ _ _ Hs) as Hlen. rewrite replicate_length in Hlen.
    assert (Hgen : forall (f : sloc -> Z) (g : nat -> Z), (forall i l, ts !! i = Some l -> f l = g i) -> sumz f ts = sumz g (seq 0 n)).
    { intros f g Hfg. rewrite <- Hlen. cut (forall k, (forall i l, ts !! i = Some l -> f l = g (k + i)%nat) -> sumz f ts = sumz g (seq k (length ts))); [intros Hc; by apply Hc|].
      clear. induction ts as [|x ts IH]; intros k H; [done|]. simpl length. rewrite <- cons_seq, !sumz_cons. rewrite (H 0%nat x eq_refl), (IH (S k)); [by rewrite Nat.add_0_r|].
      intros i l Hi. rewrite (H (S i) l Hi). f_equal. lia. }
    rewrite <- (si_rd _ _ _ HI), <- (si_wr _ _ _ HI). split; apply Hgen; intros i l Hl; destruct (si_tr _ _ _ HI i l Hl) as [He Hsh]; destruct (Hid i l Hl) as [h ->].
    - rewrite Hsh. by destruct h.
    - rewrite He. by destruct h.
  Qed.
  (** a lock attempt fails only if another thread owns the mutex (in either way) or is in the middle of a call *)
  Theorem C33_shared_timed_mutex_fail n tr s ts i s' ts' : steps st_step (st_init n) tr (s, ts) -> step st_step (s, ts) [EFail i] (s', ts') ->
    exists j lj, j <> i /\ ts !! j = Some lj /\ (0 < excl_of j tr \/ 0 < shared_of j tr \/ forall h, lj <> Idle h).
  Proof.
    intros Hs Hst. pose proof (si_reach n tr s ts Hs) as HI. inversion Hst as [i' s0 ts0 l o s1 l' Hl Ht Hq0 Hx]; subst. destruct o as [e'|]; [|done]. injection Hx as ->.
    assert (Hex : forall f : sloc -> Z, (forall x, 0 <= f x) -> 0 < sumz f ts -> exists j lj, ts !! j = Some lj /\ 0 < f lj).
    { intros f Hf Hp. clear -Hf Hp. induction ts as [|x ts IH]; [simpl in Hp; lia|]. rewrite sumz_cons in Hp. destruct (decide (0 < f x)); [by exists 0%nat, x|].
      destruct IH as (j & lj & Hj & Hp'); [lia|]. by exists (S j), lj. }
    pose proof (si_wf _ _ _ HI _ _ Hl) as Hw.
    assert (Hr : readers s <> 0 -> rdr l = 0 -> exists j lj, j <> i' /\ ts !! j = Some lj /\ (0 < excl_of j tr \/ 0 < shared_of j tr \/ forall h, lj <> Idle h)).
    { intros Hr H0. pose proof (sumz_nonneg rdr ts rd_nn) as Hn. rewrite (si_rd _ _ _ HI) in Hn. destruct (Hex rdr rd_nn) as (j & lj & Hlj & Hp); [rewrite (si_rd _ _ _ HI); lia|].
      exists j, lj. split; [intros ->; rewrite Hl in Hlj; injection Hlj as <-; lia|]. split; [done|]. destruct (si_tr _ _ _ HI j lj Hlj) as [_ Hsh].
      destruct lj; simpl in Hp; try lia; try (by right; right). destruct h; try lia. right. left. rewrite Hsh. simpl. lia. }
    assert (Hwr : writing s = true -> wr l = 0 -> exists j lj, j <> i' /\ ts !! j = Some lj /\ (0 < excl_of j tr \/ 0 < shared_of j tr \/ forall h, lj <> Idle h)).
    { intros Hwt H0. destruct (Hex wr wr_nn) as (j & lj & Hlj & Hp); [rewrite (si_wr _ _ _ HI), Hwt; simpl; lia|].
      exists j, lj. split; [intros ->; rewrite Hl in Hlj; injection Hlj as <-; lia|]. split; [done|]. destruct (si_tr _ _ _ HI j lj Hlj) as [Hsh _].
      destruct lj; simpl in Hp; try lia; try (by right; right). destruct h; try lia. left. rewrite Hsh. simpl. lia. }
    inversion Ht; subst; simpl in *.
    - destruct h; try done. match goal with H : EFail _ = EFail _ |- _ => injection H as -> end. destruct Hw; auto.
    - apply Hr; [done|done].
  Qed.
  (** no lost wake-up: if every thread is outside the mutex or asleep in it, all sleepers went to sleep after testing their
      condition, and there is a sleeper, then some thread owns the mutex *)
  Theorem C33_shared_timed_mutex_no_lost_wakeup n tr s ts : steps st_step (st_init n) tr (s, ts) -> squiescent s ts ->
    (forall i k m ew, ts !! i = Some (Wait k m ew) -> ew = false) -> (exists i k m ew, ts !! i = Some (Wait k m ew)) ->
    exists j, (j < n)%nat /\ (0 < excl_of j tr \/ 0 < shared_of j tr).
  Proof.
    intros Hs Hqs Hew Hsl. pose proof (si_reach n tr s ts Hs) as HI. pose proof (steps_length _ _ _ _ _ _ Hs) as Hlen. rewrite replicate_length in Hlen.
    assert (Hex : forall f : sloc -> Z, (forall x, 0 <= f x) -> 0 < sumz f ts -> exists j lj, ts !! j = Some lj /\ 0 < f lj).
    { intros f Hf Hp. clear -Hf Hp. induction ts as [|x ts IH]; [simpl in Hp; lia|]. rewrite sumz_cons in Hp. destruct (decide (0 < f x)); [by exists 0%nat, x|].
      destruct IH as (j & lj & Hj & Hp'); [lia|]. by exists (S j), lj. }
    assert (Hz : forall f, (forall h, f (Idle h) = 0) -> (forall k m ew, f (Wait k m ew) = 0) -> sumz f ts = 0).
    { intros f Hf Hw. apply sumz_zero. intros j x Hx. destruct (Hqs j x Hx) as [[h ->]|(? & ? & ? & -> & _)]; done. }
    assert (Hrd : 0 < readers s -> exists j, (j < n)%nat /\ (0 < excl_of j tr \/ 0 < shared_of j tr)).
    { intros Hr. destruct (Hex rdr rd_nn) as (j & lj & Hlj & Hp); [rewrite (si_rd _ _ _ HI); lia|]. exists j. split; [rewrite <- Hlen; by eapply lookup_lt_Some|].
      destruct (si_tr _ _ _ HI j lj Hlj) as [_ Hsh]. destruct (Hqs j lj Hlj) as [[h ->]|(? & ? & ? & -> & _)]; simpl in Hp; [|lia]. destruct h; try lia. right. rewrite Hsh. simpl. lia. }
    assert (HR : fresh KR s ts -> exists j, (j < n)%nat /\ (0 < excl_of j tr \/ 0 < shared_of j tr)).
    { intros Hf. destruct (si_lr _ _ _ HI Hf) as [Hr|Ho]; [auto|]. rewrite Hz in Ho; [lia|done|done]. }
    destruct Hsl as (i & k & m & ew & Hl). pose proof (Hew _ _ _ _ Hl) as ->.
    destruct (Hqs i _ Hl) as [[h E]|(k' & m' & ew' & E & Hi)]; [done|]. injection E as <- <- <-.
    assert (fresh KX s ts \/ fresh KR s ts) as [Hf|Hf]; [|clear Hf|by apply HR].
    { destruct k; [left|right|left]; exists i; eauto. }
    assert (Hfx : k <> KR -> fresh KX s ts) by (intros Hk; exists i, k, m; split; [by destruct k|done]).
    destruct (decide (isR k = 1)) as [Ek|Ek]; [apply HR; destruct k; simpl in Ek; try lia; by exists i, KR, m|].
    destruct (si_lw _ _ _ HI) as [Hw|[Hr|Ho]]; [apply Hfx; by intros ->| | |].
    - destruct (Hex wr wr_nn) as (j & lj & Hlj & Hp); [rewrite (si_wr _ _ _ HI), Hw; simpl; lia|].
      destruct (Hqs j lj Hlj) as [[h ->]|(k2 & m2 & e2 & -> & Hj)]; simpl in Hp.
      + destruct h; try lia. exists j. split; [rewrite <- Hlen; by eapply lookup_lt_Some|]. destruct (si_tr _ _ _ HI j _ Hlj) as [He _]. left. rewrite He. simpl. lia.
      + destruct k2; simpl in Hp; try lia. apply HR. pose proof (Hew _ _ _ _ Hlj) as ->. by exists j, KR, m2.
    - apply Hrd. rewrite Hr. done.
    - rewrite Hz in Ho; [lia|done|done].
  Qed.
  (** satisfiability: two readers; a writer announces itself and sleeps; the mutex is held shared by both *)
  Example C33_sat_shared : exists tr s ts, steps st_step (st_init 3) tr (s, ts) /\ squiescent s ts /\
    ts !! 2%nat = Some (Wait KR MLock false) /\ shared_of 0 tr = 1 /\ shared_of 1 tr = 1 /\ readers s = 2.
  Proof.
    eexists _, _, _. split; [|split; [|split; [|split; [|split]]]].
    - unfold st_init. cbn [replicate].
      go 0%nat ltac:(apply (s_call _ _ KS MLock); done). go 0%nat ltac:(apply s_acq; done). go 0%nat ltac:(apply s_chk_ok; done). go 0%nat ltac:(apply s_inc). go 0%nat ltac:(apply s_rel).
      go 1%nat ltac:(apply (s_call _ _ KS MLock); done). go 1%nat ltac:(apply s_acq; done). go 1%nat ltac:(apply s_chk_ok; done). go 1%nat ltac:(apply s_inc). go 1%nat ltac:(apply s_rel).
      go 2%nat ltac:(apply (s_call _ _ KX MLock); done). go 2%nat ltac:(apply s_acq; done). go 2%nat ltac:(apply s_chk_ok; done). go 2%nat ltac:(apply s_setw).
      go 2%nat ltac:(apply s_chk_wait; done). constructor.
    - intros [|[|[|i]]] l Hl; simpl in Hl; try done; injection Hl as <-; [left; eauto|left; eauto|right]. exists KR, MLock, false. split; [done|simpl; left].
    - done.
    - done.
    - done.
    - done.
  Qed.
End shared.
Print Assumptions C33_mutex_exclusion.
Print Assumptions C33_mutex_depth.
Print Assumptions C33_mutex_fail.
Print Assumptions C33_mutex_progress.
Print Assumptions C33_timed_mutex_exclusion.
Print Assumptions C33_timed_mutex_depth.
Print Assumptions C33_timed_mutex_fail.
Print Assumptions C33_timed_mutex_no_lost_wakeup.
Print Assumptions C33_timed_mutex_untimed_waiters.
Print Assumptions C33_shared_timed_mutex_exclusion.
Print Assumptions C33_shared_timed_mutex_exact.
Print Assumptions C33_shared_timed_mutex_fail.
Print Assumptions C33_shared_timed_mutex_no_lost_wakeup.
