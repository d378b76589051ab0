(** C31: counting_semaphore, latch and barrier, in every interleaving of any number of threads. *)
From stdpp Require Import base list numbers option decidable list_numbers.
From Coq Require Import ZArith Lia.
From Verif Require Import Conc.Sched.
From Verif Require Conc.SemaphoreModel Conc.SemaphoreSpec Conc.SemaphoreProofs Conc.BinSemaphoreProofs.
From Verif Require Conc.LatchModel Conc.LatchProofs Conc.BarrierModel Conc.BarrierProofs.
Local Open Scope Z_scope.

Section semaphore.
  Import SemaphoreModel SemaphoreSpec SemaphoreProofs BinSemaphoreProofs.
  (** successful acquisitions never exceed the initial value plus the permits released by calls already made; the counter
      stays within [0, max()], and no internal check of the code ever fails *)
  Theorem C31_semaphore_safety M desired n tr s ts : 0 <= desired <= M -> steps (sem_step M) (sem_init desired n) tr (s, ts) ->
    acquired tr <= desired + released tr /\ 0 <= counter s <= M /\ (forall i, ts !! i <> Some Failed).
  Proof.
    intros H0 Hs. pose proof (si_reach M desired n tr s ts H0 Hs) as HI. pose proof (si_acct _ _ _ _ _ HI) as Ha. pose proof (si_range _ _ _ _ _ HI) as Hr.
    assert (Hp : 0 <= sumz pend_add ts).
    { pose proof (si_wf _ _ _ _ _ HI) as Hwf. clear -Hwf. induction ts as [|x ts IH]; [done|]. rewrite sumz_cons.
      pose proof (Hwf 0%nat x eq_refl) as Hx. specialize (IH (fun i l => Hwf (S i) l)). destruct x; simpl in *; try done; lia. }
    split; [lia|]. split; [done|]. intros i Hi. by apply (si_wf _ _ _ _ _ HI i Failed).
  Qed.
  (** whenever no thread is inside the semaphore, its counter is exactly initial + released - acquired *)
  Theorem C31_semaphore_exact M desired n tr s ts : 0 <= desired <= M -> steps (sem_step M) (sem_init desired n) tr (s, ts) ->
    (forall i l, ts !! i = Some l -> l = Idle) -> counter s = desired + released tr - acquired tr.
  Proof.
    intros H0 Hs Hid. pose proof (si_acct _ _ _ _ _ (si_reach M desired n tr s ts H0 Hs)) as Ha.
    rewrite (sumz_zero pend_add) in Ha; [lia|]. intros i x Hx. by rewrite (Hid i x Hx).
  Qed.
  (** no lost wake-up: if every thread is outside the semaphore or asleep in it, and some thread is asleep, then no permit
      is available: all permits released so far have been acquired *)
  Theorem C31_semaphore_no_lost_wakeup M desired n tr s ts : 0 <= desired <= M -> steps (sem_step M) (sem_init desired n) tr (s, ts) ->
    quiescent s ts -> (exists i l, ts !! i = Some l /\ asleep s i l) -> counter s = 0 /\ acquired tr = desired + released tr.
  Proof.
    intros H0 Hs Hqs (i & l & Hl & [t ->] & Hi). pose proof (si_reach M desired n tr s ts H0 Hs) as HI.
    pose proof (si_live _ _ _ _ _ HI) as Hlive. destruct (si_range _ _ _ _ _ HI) as [Hr _]. pose proof (si_acct _ _ _ _ _ HI) as Ha.
    assert (Hz : forall f, f Idle = 0 -> (forall t, f (WBlocked t) = 0) -> sumz f ts = 0).
    { intros f Hf Hb. apply sumz_zero. intros j x Hx. destruct (Hqs j x Hx) as [->|[[t' ->] _]]; done. }
    rewrite (Hz owed), (Hz pend_add) in * by done.
    assert (Hlv : sumz lively ts <= Z.of_nat (length (q s))).
    { apply sumz_count_le0. intros j x Hx. destruct (Hqs j x Hx) as [->|[[t' ->] Hj]]; [by left|by right]. }
    assert (q s <> []) as Hne by (intros Hq; rewrite Hq in Hi; by apply elem_of_nil in Hi). specialize (Hlive Hne). lia.
  Qed.
  (** the same for binary_semaphore *)
  Theorem C31_binary_semaphore_safety desired n tr s ts : 0 <= desired <= 1 -> steps bin_step (bin_init desired n) tr (s, ts) ->
    acquired tr <= desired + released tr /\ 0 <= bcounter s <= 1 /\ (forall i, ts !! i <> Some BFailed).
  Proof.
    intros H0 Hs. pose proof (bi_reach desired n tr s ts H0 Hs) as HI. pose proof (bi_acct _ _ _ _ HI) as Ha. pose proof (bi_range _ _ _ _ HI) as Hr.
    assert (0 <= sumz bstore ts) by (apply sumz_nonneg; intros []; simpl; lia).
    assert (0 <= sumz bgot ts). { apply sumz_nonneg. intros []; simpl; try lia. destruct prev as [|[]|]; lia. }
    split; [lia|]. split; [lia|]. intros i Hi. by apply (bi_wf _ _ _ _ HI i BFailed).
  Qed.
  Theorem C31_binary_semaphore_exact desired n tr s ts : 0 <= desired <= 1 -> steps bin_step (bin_init desired n) tr (s, ts) ->
    (forall i l, ts !! i = Some l -> l = BIdle) -> bcounter s = desired + released tr - acquired tr.
  Proof.
    intros H0 Hs Hid. pose proof (bi_acct _ _ _ _ (bi_reach desired n tr s ts H0 Hs)) as Ha.
    rewrite (sumz_zero bstore), (sumz_zero bgot) in Ha; [lia| |]; intros i x Hx; by rewrite (Hid i x Hx).
  Qed.
  Theorem C31_binary_semaphore_no_lost_wakeup desired n tr s ts : 0 <= desired <= 1 -> steps bin_step (bin_init desired n) tr (s, ts) ->
    bquiescent s ts -> (exists i l, ts !! i = Some l /\ basleep s i l) -> bcounter s = 0 /\ acquired tr = desired + released tr.
  Proof.
    intros H0 Hs Hqs (i & l & Hl & [t ->] & Hi). pose proof (bi_reach desired n tr s ts H0 Hs) as HI.
    pose proof (bi_live _ _ _ _ HI) as Hlive. pose proof (bi_range _ _ _ _ HI) as Hr. pose proof (bi_acct _ _ _ _ HI) as Ha.
    assert (Hz : forall f, f BIdle = 0 -> (forall t, f (BBlocked t) = 0) -> sumz f ts = 0).
    { intros f Hf Hb. apply sumz_zero. intros j x Hx. destruct (Hqs j x Hx) as [->|[[t' ->] _]]; done. }
    rewrite (Hz bowed), (Hz bstore), (Hz bgot) in * by done.
    assert (Hlv : sumz blively ts <= Z.of_nat (length (bq s))).
    { apply sumz_count_le0. intros j x Hx. destruct (Hqs j x Hx) as [->|[[t' ->] Hj]]; [by left|by right]. }
    assert (bq s <> []) as Hne by (intros Hq; rewrite Hq in Hi; by apply elem_of_nil in Hi). specialize (Hlive Hne). lia.
  Qed.
  (** satisfiability: thread 0 blocks in acquire; thread 1 releases and wakes it; thread 0 acquires *)
  Ltac go i c := eapply (run _ i); [reflexivity|c|cbn [insert list_insert replicate]].
  Example C31_sat_semaphore : exists tr s ts, steps (sem_step 5) (sem_init 0 2) tr (s, ts) /\
    tr = [ECallAcquire 0; ECallRelease 1 1; ERetRelease 1; ERetAcquire 0 true] /\ counter s = 0.
  Proof.
    eexists _, _, _. split; [|split].
    - unfold sem_init. cbn [replicate].
      go 0%nat ltac:(apply (s_call_acquire _ _ _ false)). go 0%nat ltac:(apply s_aload). cbn [counter].
      go 0%nat ltac:(apply s_atest_wait). go 0%nat ltac:(apply s_winc). go 0%nat ltac:(apply s_wload). cbn [counter]. rewrite decide_True by done.
      go 0%nat ltac:(apply s_wcmp_block).
      go 1%nat ltac:(apply (s_call_release _ _ _ 1); lia). go 1%nat ltac:(apply s_radd; lia). rewrite decide_True by lia.
      go 1%nat ltac:(apply s_rload_all; simpl; lia). go 1%nat ltac:(apply s_rall).
      go 0%nat ltac:(apply s_wwoken; simpl; intros Hx; by apply elem_of_nil in Hx). go 0%nat ltac:(apply s_wdec). go 0%nat ltac:(apply s_aload). cbn [counter].
      go 0%nat ltac:(apply s_atest_try; lia). rewrite decide_True by lia. go 0%nat ltac:(apply s_acas_ok). constructor.
    - done.
    - done.
  Qed.
End semaphore.

Section latch.
  Import LatchModel LatchProofs.
  Lemma latch_done_step s ts e c' expected tr : LI expected tr s ts -> step latch_step (s, ts) [e] c' -> done_ev e -> lcounter s = 0.
  Proof.
    intros HI Hst Hd. inversion Hst as [i s0 ts0 l o s' l' Hl Ht Heq1 Heq2]; subst. destruct o as [e'|]; [|done]. injection Heq2 as ->.
    pose proof (li_wf _ _ _ _ HI i l Hl) as Hw.
    inversion Ht; subst; simpl in *; try done. destruct (bool_decide _) eqn:Hb; [|done]. by apply bool_decide_eq_true in Hb.
  Qed.
  (** wait returns (and try_wait answers true) only after the calls of count_down / arrive_and_wait made before account
      for the whole expected count *)
  Theorem C31_latch_wait expected n tr c pre e post : 0 <= expected -> steps latch_step (latch_init expected n) tr c ->
    tr = pre ++ e :: post -> (exists i, e = ERetWait i \/ e = ETryWait i true) -> expected <= downs pre.
  Proof.
    intros H0 Hs Heq (i & He). destruct (steps_event _ _ _ _ Hs _ _ _ Heq) as ([s1 ts1] & c2 & H1 & H2).
    pose proof (li_reach expected n pre s1 ts1 H0 H1) as HI.
    assert (Hc : lcounter s1 = 0) by (eapply latch_done_step; [done..|]; by destruct He as [-> | ->]).
    pose proof (li_acct _ _ _ _ HI) as Ha. pose proof (lpend_nonneg _ _ (li_wf _ _ _ _ HI)). lia.
  Qed.
  (** once open it stays open, and the counter never goes below zero *)
  Theorem C31_latch_stays_open expected n tr c pre i post : 0 <= expected -> steps latch_step (latch_init expected n) tr c ->
    tr = pre ++ ETryWait i false :: post -> forall j, ERetWait j ∉ pre /\ ETryWait j true ∉ pre.
  Proof.
    intros H0 Hs Heq j. destruct (steps_event _ _ _ _ Hs _ _ _ Heq) as ([s1 ts1] & c2 & H1 & H2).
    pose proof (li_reach expected n pre s1 ts1 H0 H1) as HI.
    assert (Hc : lcounter s1 <> 0).
    { inversion H2 as [i' s0 ts0 l o s' l' Hl Ht Heq1 Heq2]; subst. destruct o as [e'|]; [|done]. injection Heq2 as ->.
      inversion Ht; subst. match goal with H : bool_decide _ = false |- _ => by apply bool_decide_eq_false in H | H : false = bool_decide _ |- _ => symmetry in H; by apply bool_decide_eq_false in H end. }
    split; intros Hin; apply Hc, (li_done _ _ _ _ HI), list.Exists_exists; eexists; (split; [exact Hin|done]).
  Qed.
  Theorem C31_latch_safety expected n tr s ts : 0 <= expected -> steps latch_step (latch_init expected n) tr (s, ts) ->
    0 <= lcounter s <= expected /\ (forall i, ts !! i <> Some LFailed) /\
    ((forall i l, ts !! i = Some l -> l = LIdle) -> lcounter s = expected - downs tr).
  Proof.
    intros H0 Hs. pose proof (li_reach expected n tr s ts H0 Hs) as HI. pose proof (li_acct _ _ _ _ HI) as Ha. pose proof (li_range _ _ _ _ HI).
    split; [|split].
    - split; [done|]. clear -Hs H0. assert (G : forall tr s ts, steps latch_step (latch_init expected n) tr (s, ts) -> lcounter s <= expected); [|by eapply G].
      clear. intros tr s ts Hs. unfold latch_init in Hs.
      apply (steps_inv' _ (fun _ s ts => lcounter s <= expected /\ forall i l, ts !! i = Some l -> match l with LSub _ u => 0 <= u | _ => True end)) in Hs; [apply Hs| |].
      + simpl. split; [done|]. intros i l Hl. apply lookup_replicate in Hl as [-> _]. done.
      + clear. intros tr s ts i l e s' l' [Hc Hw] Hl Ht. split.
        * pose proof (Hw i l Hl). inversion Ht; subst; simpl in *; lia.
        * apply wf_insert; [done|]. inversion Ht; subst; repeat case_decide; try done.
    - intros i Hi. by apply (li_wf _ _ _ _ HI i LFailed).
    - intros Hid. rewrite (sumz_zero lpend) in Ha; [lia|]. intros i x Hx. by rewrite (Hid i x Hx).
  Qed.
  Theorem C31_latch_no_lost_wakeup expected n tr s ts : 0 <= expected -> steps latch_step (latch_init expected n) tr (s, ts) ->
    lquiescent s ts -> (exists i l, ts !! i = Some l /\ lasleep s i l) -> downs tr < expected.
  Proof.
    intros H0 Hs Hqs (i & l & Hl & [t ->] & Hi). pose proof (li_reach expected n tr s ts H0 Hs) as HI.
    assert (Hz : forall f, f LIdle = 0 -> (forall t, f (LBlocked t) = 0) -> sumz f ts = 0).
    { intros f Hf Hb. apply sumz_zero. intros j x Hx. destruct (Hqs j x Hx) as [->|[[t' ->] _]]; done. }
    pose proof (li_acct _ _ _ _ HI) as Ha. pose proof (li_range _ _ _ _ HI) as Hr. pose proof (li_live _ _ _ _ HI) as Hlive.
    rewrite (Hz lpend) in Ha by done. rewrite (Hz lnot) in Hlive by done.
    assert (lq s <> []) as Hne by (intros Hq; rewrite Hq in Hi; by apply elem_of_nil in Hi). specialize (Hlive Hne).
    destruct (decide (lcounter s = 0)) as [E|E]; [specialize (Hlive E); lia|lia].
  Qed.
  Ltac go i c := eapply (run _ i); [reflexivity|c|cbn [insert list_insert replicate]].
  Example C31_sat_latch : exists tr s ts, steps latch_step (latch_init 1 2) tr (s, ts) /\
    tr = [ECallWait 0; ECallDown 1 1; ERetDown 1; ERetWait 0].
  Proof.
    eexists _, _, _. split.
    - unfold latch_init. cbn [replicate].
      go 0%nat ltac:(apply l_call_wait). go 0%nat ltac:(apply l_load; done). cbn [lcounter]. rewrite decide_True by lia.
      go 0%nat ltac:(apply l_atom). cbn [lcounter]. rewrite decide_True by done. go 0%nat ltac:(apply l_cmp_block).
      go 1%nat ltac:(apply (l_call_down _ _ 1); lia). go 1%nat ltac:(apply l_sub; lia). rewrite decide_True by lia. go 1%nat ltac:(apply l_notify).
      go 0%nat ltac:(apply l_woken; simpl; intros Hx; by apply elem_of_nil in Hx). go 0%nat ltac:(apply l_atom). cbn [lcounter]. rewrite decide_False by done.
      go 0%nat ltac:(apply l_load_done; done). constructor.
    - done.
  Qed.
End latch.

Section barrier.
  Import BarrierModel BarrierProofs.
  (** the completion function runs exactly once per phase, in phase order; it runs for phase ph when exactly the expected
      number of arrivals have been made in ph, and never before; the next phase's expected count is the initial one minus the
      arrive_and_drop calls that took effect up to some moment after the last arrival of phase ph *)
  Theorem C31_barrier_completion expected n tr c : 0 <= expected -> steps barrier_step (barrier_init expected n) tr c ->
    (exists k, completed tr = seq 0 k) /\
    forall pre ph next post, tr = pre ++ EFn ph next :: post ->
      completed pre = seq 0 ph /\ expected_of expected pre ph = Some (arrivals ph pre) /\
      exists pre0 mid, pre = pre0 ++ mid /\ arrivals ph pre0 = arrivals ph pre /\ next = expected - drops pre0.
  Proof.
    intros H0 Hs. split.
    - destruct c as [s ts]. pose proof (ri_reach expected n tr s ts H0 Hs) as HI. destruct (ri_compl _ _ _ _ HI) as [Hc _]. eauto.
    - intros pre ph next post Heq. destruct (steps_event _ _ _ _ Hs _ _ _ Heq) as ([s1 ts1] & c2 & H1 & H2).
      pose proof (ri_reach expected n pre s1 ts1 H0 H1) as HI.
      inversion H2 as [i s0 ts0 l o s' l' Hl Ht Heq1 Heq2]; subst. destruct o as [e'|]; [|done]. injection Heq2 as ->.
      inversion Ht; subst; try (destruct k; done).
      pose proof (ri_wf _ _ _ _ HI i _ Hl) as (-> & -> & Hr & pre0 & mid & -> & Ha & ->).
      destruct (ri_compl _ _ _ _ HI) as [Hc Hlen]. destruct (ri_exp _ _ _ _ HI) as (e0 & He0 & Hcur & Hle).
      assert (Hpos : 0 < sumz incompl ts1) by (pose proof (sumz_ge incompl ts1 i _ nn_i Hl) as Hge; simpl in Hge; lia).
      destruct (ri_one _ _ _ _ HI) as [H1le Hc2]. specialize (Hc2 Hpos).
      assert (Hs0 : sumz stored ts1 = 0).
      { pose proof (sumz_le stored incompl (<[i := Idle]> ts1)) as Hsl. rewrite !(sumz_insert _ _ _ _ _ Hl) in Hsl. simpl in Hsl.
        pose proof (sumz_nonneg stored ts1 nn_s). assert (sumz stored ts1 - 0 + 0 <= sumz incompl ts1 - 1 + 0); [|lia]. apply Hsl.
        intros j x _. destruct x; simpl; lia. }
      rewrite Hs0 in Hc. simpl in Hc. rewrite Nat.add_0_r in Hc. split; [done|]. pose proof (bit01 (phase s')).
      split; [rewrite He0; f_equal; lia|]. exists pre0, mid. split; [done|]. split; [done|]. rewrite Z.mul_comm, Z.div_mul; lia.
  Qed.
  (** no arrival is counted in a phase whose completion function has run, and the count of a phase never exceeds its expected
      count *)
  Theorem C31_barrier_arrivals expected n tr c : 0 <= expected -> steps barrier_step (barrier_init expected n) tr c ->
    forall pre i ph u post, tr = pre ++ EArr i ph u :: post ->
      ph ∉ completed pre /\ exists e, expected_of expected pre ph = Some e /\ arrivals ph pre + u <= e.
  Proof.
    intros H0 Hs pre i ph u post Heq. destruct (steps_event _ _ _ _ Hs _ _ _ Heq) as ([s1 ts1] & c2 & H1 & H2).
    pose proof (ri_reach expected n pre s1 ts1 H0 H1) as HI.
    inversion H2 as [i' s0 ts0 l o s' l' Hl Ht Heq1 Heq2]; subst. destruct o as [e'|]; [|done]. injection Heq2 as ->.
    assert (ph = phase s1 /\ 2 * u <= cur s1 /\ 0 < u) as (-> & Hg & Hu).
    { pose proof (ri_wf _ _ _ _ HI i' _ Hl) as Hw. inversion Ht; subst; simpl in *; try done; try (destruct k; done); auto. }
    destruct (ri_compl _ _ _ _ HI) as [Hc Hlen]. destruct (ri_exp _ _ _ _ HI) as (e0 & He0 & Hcur & Hle).
    assert (Hs0 : sumz stored ts1 = 0).
    { destruct (ri_one _ _ _ _ HI) as [H1le Hc2]. pose proof (sumz_le stored incompl ts1) as Hsl.
      pose proof (sumz_nonneg stored ts1 nn_s). assert (sumz stored ts1 <= sumz incompl ts1). { apply Hsl. intros j x _. destruct x; simpl; lia. }
      destruct (decide (0 < sumz incompl ts1)); [specialize (Hc2 ltac:(done)); lia|lia]. }
    rewrite Hs0 in Hc. simpl in Hc. rewrite Nat.add_0_r in Hc. pose proof (bit01 (phase s1)). split.
    - rewrite Hc, elem_of_seq. lia.
    - exists e0. split; [done|lia].
  Qed.
  (** a thread waiting for the end of phase ph returns only after the completion function of ph has run *)
  Theorem C31_barrier_wait expected n tr c : 0 <= expected -> steps barrier_step (barrier_init expected n) tr c ->
    forall pre i ph post, tr = pre ++ ERetWait i ph :: post -> ph ∈ completed pre.
  Proof.
    intros H0 Hs pre i ph post Heq. destruct (steps_event _ _ _ _ Hs _ _ _ Heq) as ([s1 ts1] & c2 & H1 & H2).
    pose proof (ri_reach expected n pre s1 ts1 H0 H1) as HI.
    inversion H2 as [i' s0 ts0 l o s' l' Hl Ht Heq1 Heq2]; subst. destruct o as [e'|]; [|done]. injection Heq2 as ->.
    pose proof (ri_wf _ _ _ _ HI i' _ Hl) as Hw. destruct (ri_compl _ _ _ _ HI) as [Hc Hlen]. destruct (ri_exp _ _ _ _ HI) as (e0 & He0 & Hcur & Hle).
    rewrite Hc, elem_of_seq. assert (ph < phase s1)%nat; [|lia].
    inversion Ht; subst; simpl in *.
    - destruct k; simpl in *; try done. destruct Hw as [Hw _]. match goal with H : Some _ = Some _ |- _ => injection H as ->; subst end. done.
    - destruct Hw as [-> Hw]. destruct (decide (ph = phase s')) as [->|]; [|lia]. exfalso.
      match goal with H : parity _ <> _ |- _ => apply H end. rewrite parity_mod, Hcur, Z.add_comm, Z.mul_comm, Z_mod_plus_full.
      apply Z.mod_small. pose proof (bit01 (phase s')). lia.
  Qed.
  Theorem C31_barrier_safety expected n tr s ts : 0 <= expected -> steps barrier_step (barrier_init expected n) tr (s, ts) ->
    forall i, ts !! i <> Some Failed.
  Proof. intros H0 Hs i Hi. pose proof (ri_reach expected n tr s ts H0 Hs) as HI. by apply (ri_wf _ _ _ _ HI i Failed). Qed.
  (** no lost wake-up: when every thread is outside the barrier or asleep in it, a thread asleep waiting for phase ph (the
      current phase or the one before, as the standard requires) waits for a phase that has not completed *)
  Theorem C31_barrier_no_lost_wakeup expected n tr s ts : 0 <= expected -> steps barrier_step (barrier_init expected n) tr (s, ts) ->
    rquiescent s ts -> forall i ph b c, ts !! i = Some (WBlocked ph b c) -> (length (completed tr) <= S ph)%nat ->
    ph ∉ completed tr /\ exists e, expected_of expected tr ph = Some e /\ (arrivals ph tr < e \/ e = 0).
  Proof.
    intros H0 Hs Hqs i ph b c Hl Hph. pose proof (ri_reach expected n tr s ts H0 Hs) as HI.
    assert (Hz : forall f, f Idle = 0 -> (forall ph b c, f (WBlocked ph b c) = 0) -> sumz f ts = 0).
    { intros f Hf Hb. apply sumz_zero. intros j x Hx. destruct (Hqs j x Hx) as [->|[(? & ? & ? & ->) _]]; done. }
    destruct (ri_compl _ _ _ _ HI) as [Hc _]. rewrite (Hz stored) in Hc by done. simpl in Hc. rewrite Nat.add_0_r in Hc.
    rewrite Hc, seq_length in Hph.
    destruct (Hqs i _ Hl) as [?|[_ Hi]]; [done|]. destruct (ri_q _ _ _ _ HI i Hi) as (p & b' & c' & Hl' & Hb').
    rewrite Hl in Hl'. injection Hl' as <- <- <-. rewrite (Hz notifying) in Hb' by done. destruct Hb' as [Hb'|]; [|lia].
    destruct (ri_wf _ _ _ _ HI i _ Hl) as (-> & _ & Hle). destruct (ri_exp _ _ _ _ HI) as (e0 & He0 & Hcur & Hle').
    assert (Hp : ph = phase s).
    { destruct (decide (ph = phase s)) as [|Hne]; [done|]. assert (phase s = S ph) as Hp by lia. rewrite parity_mod, Hcur in Hb'.
      rewrite Z.add_comm, Z.mul_comm, Z_mod_plus_full, Hp, bit_S in Hb'. pose proof (bit01 ph). rewrite Z.mod_small in Hb' by lia. lia. }
    subst ph. split; [rewrite Hc, elem_of_seq; lia|]. exists e0. split; [done|].
    destruct (decide (arrivals (phase s) tr < e0)) as [|Hge]; [by left|right].
    pose proof (bit01 (phase s)). destruct (busy_reach expected n tr s ts H0 Hs) as [Hb|Hb]; [lia|rewrite (Hz incompl) in Hb by done; lia|].
    rewrite Hb in He0. by injection He0 as <-.
  Qed.
  (** satisfiability: two threads, expected 2; thread 0 arrives and sleeps, thread 1 arrives and completes the phase *)
  Ltac go i c := eapply (run _ i); [reflexivity|c|cbn [insert list_insert replicate]].
  Example C31_sat_barrier : exists tr s ts, steps barrier_step (barrier_init 2 2) tr (s, ts) /\
    tr = [EArr 0 0 1; EArr 1 0 1; EFn 0 2; ERetWait 1 0; ERetWait 0 0].
  Proof.
    eexists _, _, _. split.
    - unfold barrier_init. cbn [replicate].
      go 0%nat ltac:(apply r_call_wait). go 0%nat ltac:(apply r_arr_wait; [lia|done]). rewrite decide_True by lia.
      go 0%nat ltac:(apply r_watom). cbn [cur]. rewrite decide_True by done. go 0%nat ltac:(apply r_wcmp_block).
      go 1%nat ltac:(apply r_call_wait). go 1%nat ltac:(apply r_arr_last; [lia|done]). rewrite decide_True by lia.
      go 1%nat ltac:(apply r_ctotal). cbn [total]. rewrite decide_True by lia.
      go 1%nat ltac:(apply r_cfn). go 1%nat ltac:(apply r_cstore). go 1%nat ltac:(apply r_cnotify). cbn [after fst snd].
      go 0%nat ltac:(apply r_woken; simpl; intros Hx; by apply elem_of_nil in Hx). go 0%nat ltac:(apply r_watom). cbn [cur]. rewrite decide_False by done.
      go 0%nat ltac:(apply r_wload_done; done). constructor.
    - done.
  Qed.
End barrier.

Print Assumptions C31_semaphore_safety.
Print Assumptions C31_semaphore_exact.
Print Assumptions C31_semaphore_no_lost_wakeup.
Print Assumptions C31_binary_semaphore_safety.
Print Assumptions C31_binary_semaphore_exact.
Print Assumptions C31_binary_semaphore_no_lost_wakeup.
Print Assumptions C31_latch_wait.
Print Assumptions C31_latch_stays_open.
Print Assumptions C31_latch_safety.
Print Assumptions C31_latch_no_lost_wakeup.
Print Assumptions C31_barrier_completion.
Print Assumptions C31_barrier_arrivals.
Print Assumptions C31_barrier_wait.
Print Assumptions C31_barrier_safety.
Print Assumptions C31_barrier_no_lost_wakeup.
