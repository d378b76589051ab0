From stdpp Require Import base list numbers option decidable list_numbers.
From Coq Require Import ZArith Lia.
From Verif Require Import Conc.Sched Conc.TimedMutexModel.
Local Open Scope Z_scope.

Definition inside (l : mloc) : Z :=
  match l with LOwn _ _ | LInc _ _ | LChk _ _ | LTo _ | LChkTo _ | LSet _ | LRel _ _ | UDec _ | URel _ _ => 1 | _ => 0 end.
Definition ud (l : mloc) : Z :=
  match l with Idle d | LAcq d _ | LOwn d _ | LInc d _ | LChk d _ | LWait d _ _ | LReacq d _ | LReacqTo d | LTo d | LChkTo d | LSet d
    | LRel d _ | UAcq d | UDec d | URel d _ | UNotify d => d end.
Definition extra (l : mloc) : Z := match l with LRel _ ROk | UAcq _ | UDec _ => 1 | _ => 0 end.
Definition owed (l : mloc) : Z := match l with URel _ true | UNotify _ => 1 | _ => 0 end.
Definition lively (l : mloc) : Z := match l with LWait _ _ _ | LReacq _ _ | LChk _ _ | LSet _ => 1 | _ => 0 end.
Definition b2z (b : bool) : Z := if b then 1 else 0.
Definition fresh (s : mst) (ts : list mloc) : Prop := exists j d m, j ∈ mq s /\ ts !! j = Some (LWait d m false).

Section inv.
  Context (rec : bool).
  Definition lvl (s : mst) : Z := if rec then locked s else if decide (locked s = 0) then 0 else 1.
  Definition own (s : mst) (i : nat) : Z := if decide (owner s = Some i) then lvl s else 0.
  Definition mwf (i : nat) (s : mst) (l : mloc) : Prop :=
    0 <= ud l /\
    match l with
    | LChk d _ | LWait d _ _ | LReacq d _ | LReacqTo d | LTo d | LChkTo d => d = 0
    | LSet d => d = 0 /\ locked s = 0
    | LInc _ _ => rec = true /\ owner s = Some i
    | LOwn _ _ => rec = true
    | LAcq d _ => rec = false -> d = 0
    | LRel _ RFail | LRel _ RThrow => locked s <> 0
    | _ => True
    end.
  Record MI (tr : list mev) (s : mst) (ts : list mloc) : Prop := {
    mi_held : sumz inside ts = b2z (held s);
    mi_own : forall i l, ts !! i = Some l -> ud l + extra l = own s i;
    mi_lvl : 0 <= locked s <= UMAX /\ (owner s = None <-> locked s = 0) /\ (forall i, owner s = Some i -> (i < length ts)%nat) /\
      (rec = false -> locked s = 0 \/ locked s = UMAX);
    mi_wf : forall i l, ts !! i = Some l -> mwf i s l;
    mi_tr : forall i l, ts !! i = Some l -> depth_of i tr = ud l;
    mi_nodup : NoDup (mq s);
    mi_q : forall i, i ∈ mq s -> exists d m ew, ts !! i = Some (LWait d m ew);
    mi_live : fresh s ts -> locked s <> 0 \/ 0 < sumz owed ts \/ Z.of_nat (length (mq s)) < sumz lively ts;
  }.
  Lemma in_nn x : 0 <= inside x. Proof. destruct x; simpl; lia. Qed.
  Lemma ow_nn x : 0 <= owed x. Proof. destruct x; simpl; try lia. destruct n; lia. Qed.
  Lemma li_nn x : 0 <= lively x. Proof. destruct x; simpl; lia. Qed.
  Lemma depth_app i a b : depth_of i (a ++ b) = depth_of i a + depth_of i b.
  Proof. apply (sumz_app (fun e => match e with ELock j => if decide (j = i) then 1 else 0 | EUnlock j => if decide (j = i) then -1 else 0 | _ => 0 end)). Qed.
  Lemma alone (ts : list mloc) (i j : nat) l x h : sumz inside ts = b2z h -> ts !! i = Some l -> inside l = 1 -> j <> i -> ts !! j = Some x -> inside x = 0.
  Proof.
    intros Hs Hl H1 Hne Hx. pose proof (sumz_ge inside (<[i := Idle 0]> ts) j x in_nn) as Hj.
    rewrite list_lookup_insert_ne in Hj by done. specialize (Hj Hx). rewrite (sumz_insert _ _ _ _ _ Hl) in Hj. simpl in Hj.
    pose proof (in_nn x). destruct h; simpl in Hs; lia.
  Qed.
  Lemma mi_frame tr s ts i l e s' l' : MI tr s ts -> ts !! i = Some l ->
    b2z (held s') = b2z (held s) - inside l + inside l' ->
    (forall j, j <> i -> own s' j = own s j) -> ((locked s' = locked s /\ owner s' = owner s) \/ inside l = 1) ->
    ud l' + extra l' = own s' i ->
    (0 <= locked s' <= UMAX /\ (owner s' = None <-> locked s' = 0) /\ (forall j, owner s' = Some j -> (j < length ts)%nat) /\ (rec = false -> locked s' = 0 \/ locked s' = UMAX)) ->
    mwf i s' l' -> (forall j, depth_of j (option_list e) = if decide (j = i) then ud l' - ud l else 0) ->
    NoDup (mq s') -> (forall j, j ∈ mq s' -> (j = i /\ exists d m ew, l' = LWait d m ew) \/ (j <> i /\ j ∈ mq s)) ->
    (fresh s' (<[i := l']> ts) -> locked s' <> 0 \/ 0 < sumz owed ts - owed l + owed l' \/ Z.of_nat (length (mq s')) < sumz lively ts - lively l + lively l') ->
    MI (tr ++ option_list e) s' (<[i := l']> ts).
  Proof.
    intros HI Hl Hh Ho Hlo Hdep Hlv Hw Hd Hnd Hq Hlive.
    assert (Hlen : (i < length ts)%nat) by (by eapply lookup_lt_Some).
    assert (Hcase : forall j x, <[i := l']> ts !! j = Some x -> (j = i /\ x = l') \/ (j <> i /\ ts !! j = Some x)).
    { intros j x Hj. destruct (decide (j = i)) as [->|Hne]; [rewrite list_lookup_insert in Hj by done; injection Hj as <-; by left|].
      rewrite list_lookup_insert_ne in Hj by done. by right. }
    split.
    - rewrite (sumz_insert _ _ _ _ _ Hl), (mi_held _ _ _ HI). lia.
    - intros j x Hj. destruct (Hcase j x Hj) as [[-> ->]|[Hne Hx]]; [done|]. rewrite Ho by done. by apply (mi_own _ _ _ HI).
    - rewrite insert_length. done.
    - intros j x Hj. destruct (Hcase j x Hj) as [[-> ->]|[Hne Hx]]; [done|]. pose proof (mi_wf _ _ _ HI j x Hx) as Hwj.
      destruct Hlo as [[H1 H2]|H1]; [unfold mwf in *; by rewrite H1, H2|].
      pose proof (alone ts i j l x _ (mi_held _ _ _ HI) Hl H1 Hne Hx) as H0. destruct x; simpl in H0; try lia; done.
    - intros j x Hj. rewrite depth_app, Hd. destruct (Hcase j x Hj) as [[-> ->]|[Hne Hx]].
      + rewrite decide_True by done. rewrite (mi_tr _ _ _ HI i l Hl). lia.
      + rewrite decide_False by done. rewrite (mi_tr _ _ _ HI j x Hx). lia.
    - done.
    - intros j Hj. destruct (Hq j Hj) as [[-> (d & m & ew & ->)]|[Hne Hj']].
      + exists d, m, ew. by apply list_lookup_insert.
      + destruct (mi_q _ _ _ HI j Hj') as (d & m & ew & Hx). exists d, m, ew. by rewrite list_lookup_insert_ne.
    - rewrite !(sumz_insert _ _ _ _ _ Hl). done.
  Qed.
  (** steps that leave the state of the mutex as it is, up to the internal mutex and the queue *)
  Lemma mi_frame0 tr s ts i l s' l' : MI tr s ts -> ts !! i = Some l -> locked s' = locked s -> owner s' = owner s ->
    b2z (held s') = b2z (held s) - inside l + inside l' -> ud l' = ud l -> extra l' = extra l -> mwf i s' l' ->
    NoDup (mq s') -> (forall j, j ∈ mq s' -> (j = i /\ exists d m ew, l' = LWait d m ew) \/ (j <> i /\ j ∈ mq s)) ->
    (fresh s' (<[i := l']> ts) -> locked s' <> 0 \/ 0 < sumz owed ts - owed l + owed l' \/ Z.of_nat (length (mq s')) < sumz lively ts - lively l + lively l') ->
    MI tr s' (<[i := l']> ts).
  Proof.
    intros HI Hl H1 H2 Hh Hu He Hw Hnd Hq Hlive. rewrite <- (app_nil_r tr). change [] with (option_list (@None mev)).
    assert (Ho : forall j, own s' j = own s j) by (intros j; unfold own, lvl; by rewrite H1, H2).
    eapply (mi_frame tr s ts i l None); try done.
    - by left.
    - rewrite Ho, Hu, He. by apply (mi_own _ _ _ HI).
    - rewrite H1, H2. apply (mi_lvl _ _ _ HI).
    - intros j. simpl. case_decide; lia.
  Qed.
  Lemma q_same (ts : list mloc) (i : nat) l l' (q : list nat) : (forall i, i ∈ q -> exists d m ew, ts !! i = Some (LWait d m ew)) -> ts !! i = Some l -> (forall d m ew, l <> LWait d m ew) ->
    forall j, j ∈ q -> (j = i /\ exists d m ew, l' = LWait d m ew) \/ (j <> i /\ j ∈ q).
  Proof. intros Hq Hl Hn j Hj. right. split; [|done]. intros ->. destruct (Hq i Hj) as (d & m & ew & Hx). rewrite Hl in Hx. injection Hx as ->. by eapply Hn. Qed.
  Lemma fresh_ins s ts i l' s' : mq s' = mq s -> (forall d m, l' <> LWait d m false) -> fresh s' (<[i := l']> ts) -> fresh s ts.
  Proof.
    intros Hq Hn (j & d & m & Hj & Hx). exists j, d, m. rewrite <- Hq. split; [done|]. destruct (decide (j = i)) as [->|Hne].
    - apply list_lookup_insert_Some in Hx as [(_ & Hx & _)|(? & _)]; [|done]. by apply Hn in Hx.
    - by rewrite list_lookup_insert_ne in Hx.
  Qed.
  Lemma fresh_sub s ts i l' s' : (forall j, j ∈ mq s' -> j = i \/ j ∈ mq s) -> (forall d m, l' <> LWait d m false) -> fresh s' (<[i := l']> ts) -> fresh s ts.
  Proof.
    intros Hq Hn (j & d & m & Hj & Hx). destruct (decide (j = i)) as [->|Hne].
    - apply list_lookup_insert_Some in Hx as [(_ & Hx & _)|(? & _)]; [|done]. by apply Hn in Hx.
    - exists j, d, m. destruct (Hq j Hj) as [|Hj']; [done|]. rewrite list_lookup_insert_ne in Hx by done. done.
  Qed.
  (* steps that change neither the owner nor the queue *)
  Ltac go0 Hlive := eapply mi_frame0; [done|done|try (by destruct rec)|try (by destruct rec)|simpl in *; try (destruct rec; simpl; lia); try lia|
    try done; try (by destruct rec)|try done; try (by destruct rec)|
    try (split; simpl in *; [lia|solve [done|auto]])|done|by eapply q_same|
    let Hf := fresh "Hf" in intros Hf; eapply fresh_ins in Hf; [specialize (Hlive Hf)|done|try done; try (by destruct rec)]; simpl in *; try (destruct rec; simpl; lia); try lia].
  Lemma mi_step tr s ts i l e s' l' : MI tr s ts -> ts !! i = Some l -> tm_step rec i s l e s' l' -> MI (tr ++ option_list e) s' (<[i := l']> ts).
  Proof.
    intros HI Hl Ht. pose proof (mi_wf _ _ _ HI i l Hl) as Hw. pose proof (mi_nodup _ _ _ HI) as Hnd. pose proof (mi_q _ _ _ HI) as Hq.
    pose proof (mi_live _ _ _ HI) as Hlive. pose proof (mi_own _ _ _ HI i l Hl) as Hown. pose proof (mi_lvl _ _ _ HI) as Hlvl.
    assert (Hge : Z.of_nat (length (mq s)) <= sumz lively ts).
    { apply sumz_count_ge; [done|apply li_nn|]. intros j Hj. destruct (Hq j Hj) as (d & m & ew & Hx). eexists; split; [done|]. simpl. lia. }
    pose proof (sumz_ge owed ts i l ow_nn Hl) as Hog. pose proof (sumz_ge lively ts i l li_nn Hl) as Hlg.
    pose proof (sumz_ge inside ts i l in_nn Hl) as Hig. rewrite (mi_held _ _ _ HI) in Hig.
    destruct Hw as [Hud Hw].
    inversion Ht; subst; clear Ht; cbn [option_list]; rewrite ?app_nil_r; simpl in Hud, Hw, Hown, Hog, Hlg, Hig.
    - (* call *) go0 Hlive.
    - (* acq *) go0 Hlive. destruct rec eqn:Er; split; simpl in *; auto.
    - (* own yes *) go0 Hlive.
    - (* own no *) assert (d = 0) as -> by (unfold own in Hown; rewrite decide_False in Hown by done; lia). go0 Hlive.
    - (* inc *) destruct Hw as [Er Ho]. simpl in Ho. subst o. unfold own in Hown. simpl in Hown. rewrite decide_True in Hown by done. unfold lvl in Hown. rewrite Er in Hown. simpl in Hown.
      rewrite <- (app_nil_r tr). eapply (mi_frame tr _ ts i _ None); try done; try (by eapply q_same).
      + simpl. lia.
      + intros j Hne. unfold own. simpl. by rewrite !decide_False by congruence.
      + by right.
      + unfold own, lvl. rewrite Er. simpl. rewrite decide_True by done. lia.
      + simpl in *. destruct Hlvl as (? & ? & ? & ?). split_and!; try done; try lia; [split; [done|lia]|congruence].
      + intros j. simpl. case_decide; lia.
      + intros _. left. simpl. simpl in Hlvl. lia.
    - (* full *) assert (locked s' <> 0) by (unfold UMAX in *; lia). go0 Hlive; [by destruct m|]. split; [by destruct m|by destruct m].
    - (* free *) go0 Hlive.
    - (* try *) go0 Hlive.
    - (* wait *) assert (i ∉ q) as Hi. { intros Hi. destruct (Hq i Hi) as (? & ? & ? & Hx). congruence. }
      eapply mi_frame0; try done.
      + simpl in *. destruct h; simpl in *; lia.
      + by constructor.
      + intros j Hj. simpl in Hj. apply elem_of_cons in Hj as [->|Hj]; [left; eauto|right]. split; [by intros ->|done].
      + intros _. by left.
    - (* timeout at once *) go0 Hlive.
    - (* woken *) assert (Hqi : forall j, j ∈ mq s' -> j <> i) by (intros j Hj ->; done).
      eapply mi_frame0; try done.
      + simpl. lia.
      + intros j Hj. right. auto.
      + intros Hf. eapply fresh_ins in Hf; [specialize (Hlive Hf)|done|done]. simpl in *. lia.
    - (* spurious *) simpl in *. rewrite H in Hnd. apply list.NoDup_cons in Hnd as [Hi Hnd]. eapply mi_frame0; try done.
      + simpl. lia.
      + simpl. intros j Hj. right. split; [by intros ->|]. rewrite H. by right.
      + intros Hf. apply (fresh_sub (Mst h l0 o q)) in Hf; [specialize (Hlive Hf)|intros j Hj; right; simpl in *; rewrite H; by right|done]. simpl in *. rewrite H in Hlive. simpl in Hlive. lia.
    - (* timeout *) simpl in *. rewrite H in Hnd. apply list.NoDup_cons in Hnd as [Hi Hnd]. eapply mi_frame0; try done.
      + simpl. lia.
      + simpl. intros j Hj. right. split; [by intros ->|]. rewrite H. by right.
      + intros Hf. apply (fresh_sub (Mst h l0 o q)) in Hf; [specialize (Hlive Hf)|intros j Hj; right; simpl in *; rewrite H; by right|done]. simpl in *. rewrite H in Hlive. simpl in Hlive. lia.
    - (* reacq *) go0 Hlive.
    - (* reacq to *) go0 Hlive.
    - (* early *) assert (i ∉ q) as Hi. { intros Hi. destruct (Hq i Hi) as (? & ? & ? & Hx). congruence. }
      eapply mi_frame0; try done.
      + simpl in *. destruct h; simpl in *; lia.
      + by constructor.
      + intros j Hj. simpl in Hj. apply elem_of_cons in Hj as [->|Hj]; [left; eauto|right]. split; [by intros ->|done].
      + intros Hf. apply (fresh_sub (Mst h l0 o q)) in Hf; [specialize (Hlive Hf)|intros j Hj; simpl in *; by apply elem_of_cons|done]. simpl in *. lia.
    - (* late *) go0 Hlive.
    - (* chkto free *) go0 Hlive.
    - (* chkto fail *) go0 Hlive.
    - (* set *) destruct Hw as [-> Hl0]. simpl in Hl0. subst l0. destruct Hlvl as (Hr & Ho & Hlen & Hu). simpl in Ho. destruct Ho as [_ Ho]. specialize (Ho eq_refl). subst o.
      rewrite <- (app_nil_r tr). eapply (mi_frame tr _ ts i _ None); try done; try (by eapply q_same).
      + simpl. lia.
      + intros j Hne. unfold own. simpl. by rewrite !decide_False by congruence.
      + by right.
      + unfold own, lvl. simpl. rewrite decide_True by done. by destruct rec.
      + simpl. split_and!; [by destruct rec|by destruct rec|split; [done|by destruct rec]| |].
        * intros j [= <-]. by eapply lookup_lt_Some.
        * intros ->. by right.
      + intros j. simpl. case_decide; lia.
      + intros _. left. simpl. by destruct rec.
    - (* rel ok *) eapply (mi_frame tr _ ts i _ (Some (ELock i))); try done; try (by eapply q_same).
      + simpl in *. destruct h; simpl in *; lia.
      + by right.
      + unfold own, lvl in *. simpl in *. lia.
      + split; simpl; [lia|done].
      + intros j. simpl. repeat case_decide; subst; try done; lia.
      + intros Hf. eapply fresh_ins in Hf; [specialize (Hlive Hf)|done|done]. simpl in *. lia.
    - (* rel fail *) eapply (mi_frame tr _ ts i _ (Some (EFail i))); try done; try (by eapply q_same).
      + simpl in *. destruct h; simpl in *; lia.
      + by right.
      + intros j. simpl. repeat case_decide; subst; try done; lia.
      + intros Hf. eapply fresh_ins in Hf; [specialize (Hlive Hf)|done|done]. simpl in *. lia.
    - (* rel throw *) eapply (mi_frame tr _ ts i _ (Some (EThrow i))); try done; try (by eapply q_same).
      + simpl in *. destruct h; simpl in *; lia.
      + by right.
      + intros j. simpl. repeat case_decide; subst; try done; lia.
      + intros Hf. eapply fresh_ins in Hf; [specialize (Hlive Hf)|done|done]. simpl in *. lia.
    - (* unlock *) eapply (mi_frame tr _ ts i _ (Some (EUnlock i))); try done; try (by eapply q_same).
      + simpl in *. lia.
      + by left.
      + unfold own, lvl in *. simpl in *. lia.
      + split; simpl; [lia|done].
      + intros j. simpl. repeat case_decide; subst; try done; lia.
      + intros Hf. eapply fresh_ins in Hf; [specialize (Hlive Hf)|done|done]. simpl in *. lia.
    - (* uacq *) go0 Hlive.
    - (* udec *)
      assert (owner (Mst h l0 o q) = Some i) as Ho. { unfold own in Hown. case_decide; [done|lia]. }
      simpl in Ho. subst o. unfold own in Hown. rewrite decide_True in Hown by done. destruct Hlvl as (Hr & Ho & Hlen & Hu). simpl in *.
      rewrite <- (app_nil_r tr). eapply (mi_frame tr _ ts i _ None); try done.
      + destruct rec; simpl; lia.
      + intros j Hne. unfold own. simpl. rewrite (decide_False (P := Some i = Some j)) by congruence. destruct rec; simpl; repeat case_decide; simpl in *; try done; congruence.
      + by right.
      + unfold own, lvl in *. destruct rec; simpl in *.
        * repeat case_decide; simpl in *; try done; lia.
        * repeat case_decide; simpl in *; try done; lia.
      + unfold lvl in *. destruct rec; simpl in *.
        * split; [lia|]. split; [case_decide; [done|split; [done|lia]]|]. split; [|done]. intros j Hj. case_decide; [done|by apply Hlen].
        * split_and!; try lia; try done.
      + intros j. simpl. case_decide; lia.
      + by destruct rec.
      + replace (mq (if rec then _ else _)) with q by (by destruct rec). by eapply q_same.
      + intros Hf. destruct rec; simpl; [|right; left; lia]. destruct (decide (l0 - 1 = 0)) as [E|E]; [rewrite bool_decide_true by done; right; left; lia|left; done].
    - (* urel *) eapply mi_frame0; try done; try (by eapply q_same).
      + destruct n, h; simpl in *; lia.
      + by destruct n.
      + by destruct n.
      + destruct n; split; done.
      + intros Hf. eapply fresh_ins in Hf; [specialize (Hlive Hf)|done|by destruct n]. destruct n; simpl in *; lia.
    - (* notify *) simpl in *. rewrite H in Hnd. apply list.NoDup_cons in Hnd as [Hi Hnd]. eapply mi_frame0; try done.
      + simpl. lia.
      + simpl. intros j' Hj. right. split; [|rewrite H; by right]. intros ->. destruct (Hq i) as (? & ? & ? & Hx); [rewrite H; by right|]. congruence.
      + intros Hf. right. right. simpl. rewrite H in Hge. simpl in Hge. lia.
    - (* notify none *) go0 Hlive.
      destruct Hf as (j & d' & m & Hj & _). by apply elem_of_nil in Hj.
  Qed.
  Lemma mi_reach n tr s ts : steps (tm_step rec) (tm_init n) tr (s, ts) -> MI tr s ts.
  Proof.
    intros Hs. unfold tm_init in Hs. apply (steps_inv' _ MI) in Hs; [done| |intros; by eapply mi_step].
    assert (Hz : forall f, f (Idle 0) = 0 -> sumz f (replicate n (Idle 0)) = 0).
    { intros f Hf. apply sumz_zero. intros i x Hx. by apply lookup_replicate in Hx as [-> _]. }
    split; simpl; rewrite ?Hz by done; try done.
    - intros i l Hl. by apply lookup_replicate in Hl as [-> _].
    - split_and!; try done. by left.
    - intros i l Hl. apply lookup_replicate in Hl as [-> _]. split; done.
    - intros i l Hl. by apply lookup_replicate in Hl as [-> _].
    - constructor.
    - intros i Hi. by apply elem_of_nil in Hi.
    - intros (j & ? & ? & Hj & _). by apply elem_of_nil in Hj.
  Qed.
End inv.
