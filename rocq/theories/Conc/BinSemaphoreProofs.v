From stdpp Require Import base list numbers option decidable.
From Coq Require Import ZArith Lia.
From Verif Require Import Conc.Sched Conc.SemaphoreModel Conc.SemaphoreSpec Conc.SemaphoreProofs.
Local Open Scope Z_scope.

Definition bpend (l : bloc) : Z := match l with BStore => 1 | BTest _ 1 => -1 | _ => 0 end.
Definition bgot (l : bloc) : Z := match l with BTest _ 1 => 1 | _ => 0 end.
Definition bowed (l : bloc) : Z := match l with BNotify => 1 | _ => 0 end.
Definition blively (l : bloc) : Z := match l with BXchg _ | BBlocked _ => 1 | BLoad t => if t then 0 else 1 | _ => 0 end.
Definition bwf (l : bloc) : Prop := match l with BTest _ p => p = 0 \/ p = 1 | BFailed => False | _ => True end.
Definition bblk (l : bloc) : Z := match l with BBlocked _ => 1 | _ => 0 end.
Definition bstore (l : bloc) : Z := match l with BStore => 1 | _ => 0 end.
Record BI (desired : Z) (tr : list sev) (s : bst) (ts : list bloc) : Prop := {
  bi_acct : bcounter s = desired + released tr - sumz bstore ts - sumz bgot ts - acquired tr;
  bi_range : bcounter s = 0 \/ bcounter s = 1;
  bi_wf : forall i l, ts !! i = Some l -> bwf l;
  bi_nodup : NoDup (bq s);
  bi_q : forall i, i ∈ bq s -> exists t, ts !! i = Some (BBlocked t);
  bi_live : bq s <> [] -> bcounter s <= sumz bowed ts + sumz blively ts - Z.of_nat (length (bq s));
}.
Section inv.
  Context (desired : Z).
  Lemma bi_init n : 0 <= desired <= 1 -> BI desired [] (bin_init desired n).1 (bin_init desired n).2.
  Proof.
    intros H. unfold bin_init. simpl. assert (Hz : forall f, f BIdle = 0 -> sumz f (replicate n BIdle) = 0).
    { intros f Hf. apply sumz_zero. intros i x Hx. apply lookup_replicate in Hx as [-> _]. done. }
    split; simpl; rewrite ?Hz by done; try lia; try done.
    - intros i l Hl. apply lookup_replicate in Hl as [-> _]. done.
    - constructor.
    - intros i Hi. by apply elem_of_nil in Hi.
  Qed.
  Lemma bnot_in_q tr s ts i l : BI desired tr s ts -> ts !! i = Some l -> (forall t, l <> BBlocked t) -> i ∉ bq s.
  Proof. intros HI Hl Hn Hi. destruct (bi_q _ _ _ _ HI i Hi) as [t Ht]. rewrite Hl in Ht. injection Ht as ->. by apply (Hn t). Qed.
  Lemma bq_le tr s ts : BI desired tr s ts -> Z.of_nat (length (bq s)) <= sumz bblk ts.
  Proof.
    intros HI. apply sumz_count_ge; [apply HI|intros []; simpl; lia|]. intros i Hi. destruct (bi_q _ _ _ _ HI i Hi) as [t Ht].
    exists (BBlocked t). split; [done|simpl; lia].
  Qed.
  Lemma bothers ts i l : ts !! i = Some l -> sumz bblk ts - bblk l <= sumz blively ts - blively l.
  Proof.
    intros Hl. pose proof (sumz_le bblk blively (<[i := BIdle]> ts)) as H. rewrite !(sumz_insert _ _ _ _ _ Hl) in H. simpl in H.
    cut (sumz bblk ts - bblk l + 0 <= sumz blively ts - blively l + 0); [lia|]. apply H. intros j x _. destruct x; simpl; try lia; by destruct timed.
  Qed.
  Lemma bi_step tr s ts i l e s' l' : BI desired tr s ts -> ts !! i = Some l -> bin_step i s l e s' l' ->
    BI desired (tr ++ option_list e) s' (<[i := l']> ts).
  Proof.
    intros HI Hl Hst. pose proof (bnot_in_q _ _ _ _ _ HI Hl) as Hnq.
    pose proof (bq_le _ _ _ HI) as Hql. pose proof (bothers ts i l Hl) as Hoth.
    assert (Hop : 0 <= sumz bowed ts) by (apply sumz_nonneg; intros []; simpl; lia).
    destruct HI as [Hacct Hrange Hwf Hnd Hq Hlive]. pose proof (Hwf i l Hl) as Hw.
    assert (Hz : forall x : Z, x = 0 \/ x = 1 -> bool_decide (x = 1) = true /\ x = 1 \/ bool_decide (x = 1) = false /\ x = 0).
    { intros x [-> | ->]; [right|left]; done. }
    inversion Hst; subst; simpl in *;
      (split; simpl; rewrite ?app_nil_r, ?released_app, ?acquired_app, ?(sumz_insert _ _ _ _ _ Hl);
       [unfold released, acquired in *; simpl; repeat case_decide; try destruct timed; simpl; try lia
       |try lia
       |apply wf_insert; [exact Hwf|simpl; try done; try lia; repeat case_decide; try destruct timed; simpl; try done; try lia]
       |try done
       |try (intros j Hj; destruct (Hq j Hj) as [t' Ht']; exists t'; rewrite list_lookup_insert_ne; [done|]; intros ->; congruence)
       |simpl; try (intros Hne; specialize (Hlive Hne); repeat case_decide; try destruct timed; simpl in *; lia)]).
    all: try constructor; try done.
    - rewrite H in Hnd. by apply list.NoDup_cons in Hnd as [_ ?].
    - intros k Hk. destruct (Hq k) as [t' Ht']; [rewrite H; by right|]. exists t'.
      rewrite list_lookup_insert_ne; [done|]. intros ->. congruence.
    - intros Hne. apply Permutation_length in H. simpl in H. assert (Hne' : qq <> []) by (intros ->; done). specialize (Hlive Hne'). lia.
    - destruct Hrange as [-> | ->]; lia.
    - destruct Hrange as [-> | ->]; lia.
    - destruct Hw as [-> | ->]; [lia|done].
    - destruct Hw as [-> | ->]; [lia|done].
    - by apply (Hnq ltac:(done)).
    - intros k Hk. apply elem_of_cons in Hk as [->|Hk].
      + exists timed. apply list_lookup_insert. by eapply lookup_lt_Some.
      + destruct (Hq k Hk) as [t' Ht']. exists t'. rewrite list_lookup_insert_ne; [done|]. intros ->. congruence.
    - intros _. lia.
    - rewrite H in Hnd. by apply list.NoDup_cons in Hnd as [_ ?].
    - intros k Hk. destruct (Hq k) as [t' Ht']; [rewrite H; by right|]. exists t'.
      rewrite list_lookup_insert_ne; [done|]. intros ->. rewrite H in Hnd. by apply list.NoDup_cons in Hnd as [? _].
    - intros Hne. apply Permutation_length in H. simpl in H. assert (Hne' : qq <> []) by (intros ->; done). specialize (Hlive Hne').
      destruct timed; simpl; lia.
  Qed.
  Lemma bi_reach n tr s ts : 0 <= desired <= 1 -> steps bin_step (bin_init desired n) tr (s, ts) -> BI desired tr s ts.
  Proof.
    intros H0 Hs. unfold bin_init in Hs. apply (steps_inv' _ (BI desired) _ _ (bi_init n H0)) in Hs; [done|].
    intros. by eapply bi_step.
  Qed.
End inv.
