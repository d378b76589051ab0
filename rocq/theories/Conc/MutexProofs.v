From stdpp Require Import base list numbers option decidable list_numbers.
From Coq Require Import ZArith Lia.
From Verif Require Import Conc.Sched Conc.MutexModel.
Local Open Scope Z_scope.

Definition ud (l : kloc) : Z := match l with Idle d | KTest d _ | KAcq d _ | KInc d _ | KFix d | KTid d _ | KVer d | UDec d | UTid d | URel d => d end.
(** this thread's contribution to _Count *)
Definition cof (l : kloc) : Z := ud l + match l with KFix _ | KTid _ _ | KVer _ | UDec _ => 1 | _ => 0 end.
(** this thread holds the SRW lock *)
Definition sec (l : kloc) : Prop :=
  match l with Idle d | KTest d _ => 0 < d | KAcq _ _ => False | KInc _ _ | KFix _ | KTid _ _ | KVer _ | UDec _ | UTid _ | URel _ => True end.
Definition tidset (l : kloc) : Prop :=
  match l with Idle d | KTest d _ | KInc d _ => 0 < d | KAcq _ _ | KTid _ _ | URel _ => False | _ => True end.
Section inv.
  Context (rec : bool).
  Definition kwf (l : kloc) : Prop :=
    0 <= ud l /\ match l with KAcq d _ | UTid d | URel d | KTid d _ => d = 0 | KFix d => 0 < d /\ rec = false | KVer d => (rec = true \/ d = 0) | _ => True end.
  Record KI (tr : list kev) (s : kst) (ts : list kloc) : Prop := {
    ki_srw : srw s = bool_decide (is_Some (hold s));
    ki_sec : forall i l, ts !! i = Some l -> (sec l <-> hold s = Some i);
    ki_tid : forall i l, ts !! i = Some l -> (tidset l <-> tid s = Some i);
    ki_cnt : forall i l, ts !! i = Some l -> hold s = Some i -> cof l = cnt s;
    ki_cnt0 : hold s = None -> cnt s = 0 /\ tid s = None;
    ki_dom : forall i, hold s = Some i -> exists l, ts !! i = Some l;
    ki_max : forall i l, ts !! i = Some l -> ud l < IMAX;
    ki_wf : forall i l, ts !! i = Some l -> kwf l;
    ki_tr : forall i l, ts !! i = Some l -> depth_of i tr = ud l;
    ki_rec : forall i l, ts !! i = Some l -> rec = false -> ud l <= 1;
    ki_th : forall j, tid s = Some j -> hold s = Some j;
  }.
  Lemma depth_app i a b : depth_of i (a ++ b) = depth_of i a + depth_of i b.
  Proof. apply (sumz_app (fun e => match e with ELock j => if decide (j = i) then 1 else 0 | EUnlock j => if decide (j = i) then -1 else 0 | _ => 0 end)). Qed.
  Lemma ki_frame tr s ts i l e s' l' : KI tr s ts -> ts !! i = Some l ->
    srw s' = bool_decide (is_Some (hold s')) ->
    (forall j, j <> i -> (hold s' = Some j <-> hold s = Some j) /\ (tid s' = Some j <-> tid s = Some j)) ->
    (cnt s' = cnt s \/ hold s = Some i \/ hold s = None) ->
    (sec l' <-> hold s' = Some i) -> (tidset l' <-> tid s' = Some i) -> (hold s' = Some i -> cof l' = cnt s') -> (hold s' = None -> cnt s' = 0 /\ tid s' = None) ->
    ud l' < IMAX -> kwf l' -> (forall j, depth_of j (option_list e) = if decide (j = i) then ud l' - ud l else 0) -> (rec = false -> ud l' <= 1) ->
    (forall j, tid s' = Some j -> hold s' = Some j) ->
    KI (tr ++ option_list e) s' (<[i := l']> ts).
  Proof.
    intros HI Hl Hs Hj Hc Hsec Htid Hcof Hc0 Hmax Hw Hd Hr Hth.
    assert (Hlen : (i < length ts)%nat) by (by eapply lookup_lt_Some).
    assert (Hcase : forall j x, <[i := l']> ts !! j = Some x -> (j = i /\ x = l') \/ (j <> i /\ ts !! j = Some x)).
    { intros j x Hx. destruct (decide (j = i)) as [->|Hne]; [rewrite list_lookup_insert in Hx by done; injection Hx as <-; by left|].
      rewrite list_lookup_insert_ne in Hx by done. by right. }
    split.
    - done.
    - intros j x Hx. destruct (Hcase j x Hx) as [[-> ->]|[Hne Hx']]; [done|]. destruct (Hj j Hne) as [-> _]. by apply (ki_sec _ _ _ HI).
    - intros j x Hx. destruct (Hcase j x Hx) as [[-> ->]|[Hne Hx']]; [done|]. destruct (Hj j Hne) as [_ ->]. by apply (ki_tid _ _ _ HI).
    - intros j x Hx Hh. destruct (Hcase j x Hx) as [[-> ->]|[Hne Hx']]; [by apply Hcof|]. apply Hj in Hh; [|done].
      destruct Hc as [->|[Hc|Hc]]; [by apply (ki_cnt _ _ _ HI j)|congruence|congruence].
    - done.
    - intros j Hh. destruct (decide (j = i)) as [->|Hne]; [exists l'; by apply list_lookup_insert|]. apply Hj in Hh; [|done].
      rewrite list_lookup_insert_ne by done. by apply (ki_dom _ _ _ HI).
    - intros j x Hx. destruct (Hcase j x Hx) as [[-> ->]|[Hne Hx']]; [done|]. by apply (ki_max _ _ _ HI j).
    - intros j x Hx. destruct (Hcase j x Hx) as [[-> ->]|[Hne Hx']]; [done|]. by apply (ki_wf _ _ _ HI j).
    - intros j x Hx. rewrite depth_app, Hd. destruct (Hcase j x Hx) as [[-> ->]|[Hne Hx']].
      + rewrite decide_True by done. rewrite (ki_tr _ _ _ HI i l Hl). lia.
      + rewrite decide_False by done. rewrite (ki_tr _ _ _ HI j x Hx'). lia.
    - intros j x Hx. destruct (Hcase j x Hx) as [[-> ->]|[Hne Hx']]; [done|]. by apply (ki_rec _ _ _ HI j).
    - done.
  Qed.
  Lemma dn i j (e : option kev) : match e with None | Some (EFail _) => True | _ => False end -> depth_of j (option_list e) = if decide (j = i) then 0 else 0.
  Proof. destruct e as [[]|]; try done; intros _; simpl; by case_decide. Qed.
  Lemma ki_step tr s ts i l e s' l' : KI tr s ts -> ts !! i = Some l -> mx_step rec i s l e s' l' -> KI (tr ++ option_list e) s' (<[i := l']> ts).
  Proof.
    intros HI Hl Ht. pose proof (ki_srw _ _ _ HI) as Hs. pose proof (ki_sec _ _ _ HI i l Hl) as Hsec. pose proof (ki_tid _ _ _ HI i l Hl) as Htid.
    pose proof (ki_cnt _ _ _ HI i l Hl) as Hcnt. pose proof (ki_cnt0 _ _ _ HI) as Hc0. pose proof (ki_max _ _ _ HI i l Hl) as Hm.
    pose proof (ki_wf _ _ _ HI i l Hl) as [Hud Hw]. pose proof (ki_rec _ _ _ HI i l Hl) as Hr.
    assert (Hx : sec l -> hold s = Some i /\ cof l = cnt s) by (intros Hq; split; [by apply Hsec|apply Hcnt; by apply Hsec]).
    assert (Hy : hold s = None -> srw s = false) by (intros Hq; rewrite Hs; by rewrite Hq).
    assert (Hz : forall j, hold s = Some j -> srw s = true) by (intros j Hq; rewrite Hs; by rewrite Hq).
    assert (Hw0 : srw s = false -> hold s = None) by (intros Hq; rewrite Hs in Hq; destruct (hold s); [done|done]).
    pose proof (ki_th _ _ _ HI) as Hth.
    assert (Htn : hold s = Some i -> tid s <> Some i -> tid s = None) by (intros Hh Hn; destruct (tid s) as [j|]; [specialize (Hth j eq_refl); congruence|done]).
    clear Hcnt.
    inversion Ht; subst; clear Ht; cbn [sec tidset ud cof srw tid cnt hold] in *; unfold cof, ud in *.
    all: try (destruct Hx as [Hx1 Hx2]; [exact I|]).
    all: try (pose proof (Hw0 eq_refl) as ->; destruct (Hc0 eq_refl) as [-> ->]).
    all: try match goal with |- context [decide ?P] => destruct (decide P) end.
    all: try (destruct rec eqn:Er).
    all: (eapply ki_frame; [exact HI|exact Hl|..]); cbn [srw tid cnt hold]; try done; try (by auto).
    all: try (intros j; simpl; repeat case_decide; subst; try done; lia).
    all: try (by left).
    all: unfold kwf, cof, ud, sec, tidset; cbn [ud]; try (rewrite Er).
    all: clear HI Hl.
    all: try (subst; simpl in *; lia).
    all: try (subst; simpl in *; solve [intuition (congruence || lia)]).
    all: try (assert (0 < d) by lia; subst; simpl in *; solve [intuition (congruence || lia)]).
    all: try (assert (d = 0) by (destruct (decide (0 < d)); [exfalso; intuition congruence|lia]); subst; simpl in *; solve [intuition (congruence || lia)]).
    all: try (assert (ti = None) as -> by (simpl in *; apply Htn; [done|intuition congruence]); intros; simpl in *; solve [intuition (congruence || lia)]).
    all: assert (0 < d) by (unfold IMAX in *; lia); intuition congruence.
  Qed.
  Lemma ki_init n : KI [] (Kst false None 0 None) (replicate n (Idle 0)).
  Proof.
    split; simpl; try done.
    all: intros i l Hl; apply lookup_replicate in Hl as [-> _]; try done.
  Qed.
  Lemma ki_reach n tr s ts : steps (mx_step rec) (mx_init n) tr (s, ts) -> KI tr s ts.
  Proof. apply (steps_inv' (mx_step rec) KI); [apply ki_init|apply ki_step]. Qed.
End inv.
