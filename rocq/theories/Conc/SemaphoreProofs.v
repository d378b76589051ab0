From stdpp Require Import base list numbers option decidable.
From Coq Require Import ZArith Lia.
From Verif Require Import Conc.Sched Conc.SemaphoreModel Conc.SemaphoreSpec.
Local Open Scope Z_scope.

Definition pend_add (l : sloc) : Z := match l with RAdd u => u | _ => 0 end.
Definition in_wait (l : sloc) : Z := match l with WLoad _ | WCmp _ _ | WBlocked _ | WDec _ => 1 | _ => 0 end.
(* notifications still owed, and awake threads that will look at the counter again (blocked ones included) *)
Definition owed (l : sloc) : Z := match l with RLoad u | ROne u | RAll u => u | _ => 0 end.
Definition lively (l : sloc) : Z :=
  match l with ALoad _ | WBlocked _ | WDec _ => 1 | ATest _ cur | ACas _ cur => if decide (cur = 0) then 0 else 1 | _ => 0 end.
Definition lwf (M : Z) (l : sloc) : Prop :=
  match l with
  | RAdd u | RLoad u | RAll u => 0 < u
  | ROne u => 0 <= u
  | ATest _ cur => 0 <= cur <= M
  | ACas _ cur | TCas cur => 0 < cur <= M
  | WCmp _ cur => cur = 0
  | Failed => False
  | _ => True
  end.
Record SI (M desired : Z) (tr : list sev) (s : sst) (ts : list sloc) : Prop := {
  si_acct : counter s = desired + released tr - sumz pend_add ts - acquired tr;
  si_range : 0 <= counter s <= M;
  si_wf : forall i l, ts !! i = Some l -> lwf M l;
  si_waiting : waiting s = sumz in_wait ts;
  si_nodup : NoDup (q s);
  si_q : forall i, i ∈ q s -> exists t, ts !! i = Some (WBlocked t);
  si_live : q s <> [] -> counter s <= sumz owed ts + sumz lively ts - Z.of_nat (length (q s));
}.

Lemma released_app tr e : released (tr ++ e) = released tr + released e.
Proof. apply sumz_app. Qed.
Lemma acquired_app tr e : acquired (tr ++ e) = acquired tr + acquired e.
Proof. apply sumz_app. Qed.

Section inv.
  Context (M desired : Z).
  Lemma si_init n : 0 <= desired <= M -> SI M desired [] (sem_init desired n).1 (sem_init desired n).2.
  Proof.
    intros H. unfold sem_init. simpl. assert (Hz : forall f, f Idle = 0 -> sumz f (replicate n Idle) = 0).
    { intros f Hf. apply sumz_zero. intros i x Hx. apply lookup_replicate in Hx as [-> _]. done. }
    split; simpl; rewrite ?Hz by done; try lia; try done.
    - intros i l Hl. apply lookup_replicate in Hl as [-> _]. done.
    - constructor.
    - intros i Hi. by apply elem_of_nil in Hi.
  Qed.

  Lemma not_in_q tr s ts i l : SI M desired tr s ts -> ts !! i = Some l -> (forall t, l <> WBlocked t) -> i ∉ q s.
  Proof. intros HI Hl Hn Hi. destruct (si_q _ _ _ _ _ HI i Hi) as [t Ht]. rewrite Hl in Ht. injection Ht as ->. by apply (Hn t). Qed.
  Lemma lively_nonneg l : 0 <= lively l.
  Proof. destruct l; simpl; try lia; by destruct (decide (cur = 0)). Qed.
  Lemma q_ge tr s ts : SI M desired tr s ts -> q s <> [] -> 0 < sumz in_wait ts.
  Proof.
    intros HI Hq. destruct (q s) as [|j qq] eqn:Hs; [done|]. destruct (si_q _ _ _ _ _ HI j) as [t Ht]; [rewrite Hs; left|].
    pose proof (sumz_ge in_wait ts j _ (fun l => ltac:(destruct l; simpl; lia)) Ht). simpl in *. lia.
  Qed.

  Definition blk (l : sloc) : Z := match l with WBlocked _ => 1 | _ => 0 end.
  Lemma q_le tr s ts : SI M desired tr s ts -> Z.of_nat (length (q s)) <= sumz blk ts.
  Proof.
    intros HI. apply sumz_count_ge; [apply HI|intros []; simpl; lia|]. intros i Hi. destruct (si_q _ _ _ _ _ HI i Hi) as [t Ht]. exists (WBlocked t). split; [done|simpl; lia].
  Qed.
  Lemma owed_pos ts : (forall i l, ts !! i = Some l -> lwf M l) -> 0 <= sumz owed ts.
  Proof.
    intros Hwf. induction ts as [|x ts IH]; [done|]. rewrite sumz_cons.
    pose proof (Hwf 0%nat x eq_refl) as Hx. specialize (IH (fun i l => Hwf (S i) l)). destruct x; simpl in *; try done; lia.
  Qed.
  (* the other threads: lively ones include the blocked ones *)
  Lemma others ts i l : ts !! i = Some l -> sumz blk ts - blk l <= sumz lively ts - lively l.
  Proof.
    intros Hl. pose proof (sumz_le blk lively (<[i := Idle]> ts)) as H. rewrite !(sumz_insert _ _ _ _ _ Hl) in H. simpl in H.
    cut (sumz blk ts - blk l + 0 <= sumz lively ts - lively l + 0); [lia|]. apply H. intros j x _. destruct x; simpl; try lia; by case_decide.
  Qed.

  Lemma si_step tr s ts i l e s' l' : SI M desired tr s ts -> ts !! i = Some l -> sem_step M i s l e s' l' ->
    SI M desired (tr ++ option_list e) s' (<[i := l']> ts).
  Proof.
    intros HI Hl Hst. pose proof (not_in_q _ _ _ _ _ HI Hl) as Hnq. pose proof (q_ge _ _ _ HI) as Hqg.
    pose proof (q_le _ _ _ HI) as Hql. pose proof (owed_pos ts (si_wf _ _ _ _ _ HI)) as Hop. pose proof (others ts i l Hl) as Hoth.
    destruct HI as [Hacct Hrange Hwf Hwait Hnd Hq Hlive]. pose proof (Hwf i l Hl) as Hw.
    inversion Hst; subst; simpl in *;
      (split; simpl; rewrite ?app_nil_r, ?released_app, ?acquired_app, ?(sumz_insert _ _ _ _ _ Hl);
       [unfold released, acquired in *; simpl; repeat case_decide; simpl; try lia
       |try lia
       |apply wf_insert; [exact Hwf|simpl; try done; try lia; repeat case_decide; simpl; try done; try lia]
       |simpl; try lia; repeat case_decide; simpl; try lia
       |try done
       |try (intros j Hj; destruct (Hq j Hj) as [t' Ht']; exists t'; rewrite list_lookup_insert_ne; [done|]; intros ->; congruence)
       |simpl; try (intros Hne; specialize (Hlive Hne); specialize (Hqg Hne); repeat case_decide; simpl in *; lia)]).
    all: try constructor; try done.
    all: try (by intros ? ?%elem_of_nil).
    - rewrite H0 in Hnd. by apply list.NoDup_cons in Hnd as [_ ?].
    - (* notify_one: the queue *) intros k Hk. destruct (Hq k) as [t' Ht']; [rewrite H0; by right|]. exists t'.
      rewrite list_lookup_insert_ne; [done|]. intros ->. congruence.
    - intros Hne. apply Permutation_length in H0. simpl in H0. assert (Hne' : qq <> []) by (intros ->; done). specialize (Hlive Hne'). lia.
    - intros Hne. specialize (Hlive Hne). rewrite (decide_False (P := cur = 0)) by done. rewrite decide_True by lia. simpl. rewrite decide_False by done. lia.
    - by apply (Hnq ltac:(done)).
    - intros k Hk. apply elem_of_cons in Hk as [->|Hk].
      + exists timed. apply list_lookup_insert. by eapply lookup_lt_Some.
      + destruct (Hq k Hk) as [t' Ht']. exists t'. rewrite list_lookup_insert_ne; [done|]. intros ->. congruence.
    - intros _. subst c. lia.
    - rewrite H in Hnd. by apply list.NoDup_cons in Hnd as [_ ?].
    - intros k Hk. destruct (Hq k) as [t' Ht']; [rewrite H; by right|]. exists t'.
      rewrite list_lookup_insert_ne; [done|]. intros ->. rewrite H in Hnd. by apply list.NoDup_cons in Hnd as [? _].
    - intros Hne. apply Permutation_length in H. simpl in H. assert (Hne' : qq <> []) by (intros ->; done). specialize (Hlive Hne'). lia.
  Qed.
  Lemma si_reach n tr s ts : 0 <= desired <= M -> steps (sem_step M) (sem_init desired n) tr (s, ts) -> SI M desired tr s ts.
  Proof.
    intros H0 Hs. unfold sem_init in Hs. apply (steps_inv' _ (SI M desired) _ _ (si_init n H0)) in Hs; [done|].
    intros. by eapply si_step.
  Qed.
End inv.
