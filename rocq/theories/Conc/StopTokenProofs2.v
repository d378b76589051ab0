From stdpp Require Import base list numbers option decidable list_numbers.
From Coq Require Import ZArith Lia.
From Verif Require Import Conc.Sched Conc.StopTokenModel Conc.StopTokenProofs.
Local Open Scope Z_scope.

(** * doubly linked lists *)
Fixpoint dseg (p : option nat) (h : option nat) (nx pv : nat -> option nat) (L : list nat) : Prop :=
  match L with
  | [] => h = None
  | n :: L => h = Some n /\ pv n = p /\ dseg (Some n) (nx n) nx pv L
  end.
Definition dll := dseg None.
Lemma dseg_ext p h nx pv nx' pv' L : dseg p h nx pv L -> (forall n, n ∈ L -> nx' n = nx n) -> (forall n, n ∈ L -> pv' n = pv n) -> dseg p h nx' pv' L.
Proof.
  revert p h. induction L as [|n L IH]; intros p h H H1 H2; [done|]. destruct H as (-> & Hp & H). split; [done|]. split; [rewrite H2 by left; done|].
  rewrite (H1 n) by left. apply IH; [done|..]; intros; [apply H1|apply H2]; by right.
Qed.
(** re-rooting: the first element's back pointer changes *)
Lemma dseg_root p q h nx pv L : NoDup L -> dseg p h nx pv L -> dseg q h nx (updo pv h q) L.
Proof.
  destruct L as [|n L]; [done|]. intros Hd (-> & Hp & H). apply list.NoDup_cons in Hd as [Hn Hd]. simpl. split; [done|]. split; [unfold upd; by rewrite decide_True|].
  eapply dseg_ext; [exact H|done|]. intros m Hm. unfold upd. rewrite decide_False; [done|]. intros ->. done.
Qed.
Lemma dseg_hd p h nx pv L : dseg p h nx pv L -> h = head L.
Proof. destruct L; [done|]. by intros [-> _]. Qed.
Lemma dseg_in_hd p h nx pv L n : dseg p h nx pv L -> h = Some n -> exists L', L = n :: L'.
Proof. destruct L as [|m L]; simpl; [congruence|]. intros (-> & _) [= ->]. eauto. Qed.
Lemma dseg_split p h nx pv L n : dseg p h nx pv L -> n ∈ L -> (h = Some n /\ pv n = p /\ exists L2, L = n :: L2) \/ exists L1 q L2, L = L1 ++ q :: n :: L2 /\ pv n = Some q.
Proof.
  revert p h. induction L as [|m L IH]; intros p h H Hn; [by apply elem_of_nil in Hn|]. destruct H as (-> & Hp & H).
  apply elem_of_cons in Hn as [->|Hn]; [left; split_and!; eauto|]. right.
  destruct (IH _ _ H Hn) as [(H1 & H2 & L2 & ->)|(L1 & q & L2 & -> & H2)].
  - exists [], m, L2. done.
  - exists (m :: L1), q, L2. done.
Qed.
Lemma dseg_next p h nx pv L1 q n L2 z : dseg p h nx pv (L1 ++ q :: n :: L2) -> nx n = Some z -> z ∈ L2.
Proof.
  intros H Hz. revert p h H. induction L1 as [|y L1 IH]; intros p h; simpl.
  - intros (_ & _ & _ & _ & H). destruct L2; simpl in H; [congruence|]. destruct H as [H _]. rewrite H in Hz. injection Hz as ->. left.
  - intros (_ & _ & H). by apply IH in H.
Qed.
(** unlinking n between q and its successor *)
Lemma dseg_mid p h nx pv L1 q n L2 : NoDup (L1 ++ q :: n :: L2) -> dseg p h nx pv (L1 ++ q :: n :: L2) ->
  dseg p h (upd nx q (nx n)) (updo pv (nx n) (Some q)) (L1 ++ q :: L2).
Proof.
  revert p h. induction L1 as [|m L1 IH]; intros p h Hd H; simpl in *.
  - destruct H as (-> & Hp & Hq & Hn & H). apply list.NoDup_cons in Hd as [Hd1 Hd]. apply list.NoDup_cons in Hd as [Hd2 Hd].
    rewrite not_elem_of_cons in Hd1. split; [done|]. split.
    + destruct L2 as [|z L2]; [simpl in H; rewrite H; done|]. destruct H as (Hz & _). rewrite Hz. simpl. unfold upd. rewrite decide_False; [done|].
      intros ->. destruct Hd1 as [_ Hd1]. apply Hd1. left.
    + unfold upd at 1. rewrite decide_True by done.
      apply (dseg_root _ (Some q)) in H; [|done]. eapply dseg_ext; [exact H| |done].
      intros m Hm. unfold upd. rewrite decide_False; [done|]. intros ->. by destruct Hd1.
  - destruct H as (-> & Hp & H). apply list.NoDup_cons in Hd as [Hd1 Hd].
    pose proof (IH _ _ Hd H) as IH'.
    rewrite elem_of_app, !elem_of_cons in Hd1. split; [done|]. split.
    + assert (Hnx : forall z, nx n = Some z -> z ∈ L2).
      { clear -H. intros z Hz. revert H. generalize (Some m), (nx m). induction L1 as [|y L1 IH]; intros p h; simpl.
        - intros (_ & _ & _ & _ & H). destruct L2; simpl in H; [congruence|]. destruct H as [H _]. rewrite H in Hz. injection Hz as ->. left.
        - intros (_ & _ & H). by apply IH in H. }
      destruct (nx n) as [z|] eqn:Ez; [|done]. simpl. unfold upd. rewrite decide_False; [done|]. intros ->. apply Hd1. right. right. right. by apply Hnx.
    + unfold upd at 1. rewrite decide_False by (intros ->; apply Hd1; tauto). done.
Qed.

Definition inL (n : nat) (L : list nat) : Z := if decide (n ∈ L) then 1 else 0.
Lemma inL_nn n L : 0 <= inL n L. Proof. unfold inL. case_decide; lia. Qed.
Lemma inL_in n L : n ∈ L -> inL n L = 1. Proof. intros. unfold inL. by rewrite decide_True. Qed.
Lemma inL_out n L : n ∉ L -> inL n L = 0. Proof. intros. unfold inL. by rewrite decide_False. Qed.
Definition dpre (n : nat) (l : ploc) : Z := match l.2 with Some (DPar m) | Some (DLock m) | Some (DChk m) | Some (DFail m) => one n m | _ => 0 end.
Definition dpost (n : nat) (l : ploc) : Z := match l.2 with Some (DWait m) | Some (DBlk m) | Some (DRet m) => one n m | _ => 0 end.
Lemma dpre_nn n l : 0 <= dpre n l. Proof. destruct l as [c [[]|]]; unfold dpre; simpl; try lia; apply one_nn. Qed.
Lemma dpost_nn n l : 0 <= dpost n l. Proof. destruct l as [c [[]|]]; unfold dpost; simpl; try lia; apply one_nn. Qed.
Lemma dpre_post n l : dactor n l = dpre n l + dpost n l.
Proof. destruct l as [c [[]|]]; unfold dactor, dpre, dpost; simpl; lia. Qed.
Lemma dsum n ts : sumz (dactor n) ts = sumz (dpre n) ts + sumz (dpost n) ts.
Proof. rewrite <- sumz_plus. apply Z.le_antisymm; apply sumz_le; intros; rewrite dpre_post; lia. Qed.
Definition opfail (l : ploc) : bool := match l.2 with Some RFail | Some (DFail _) => true | _ => false end.
Definition isret (n : nat) (l : ploc) : bool := match l.2 with Some (DRet m) => bool_decide (m = n) | _ => false end.
Definition isains (l : ploc) : bool := match l.2 with Some (AIns m) => true | _ => false end.
Definition isrun (n : nat) (l : ploc) : Prop := l.2 = Some (RCall n) \/ (n, true) ∈ l.1.

Record PC (L : list nat) (tr : list pev) (s : pst) (ts : list ploc) : Prop := {
  c_dll : dll (hd s) (nxt s) (prv s) L;
  c_nd : NoDup L;
  c_par : forall n, n ∈ L -> par s n = true;
  c_live : forall n, n ∈ L -> (1 <= rank (lives s n) <= 3)%nat;
  c_le : forall n, runs n tr + inL n L + sumz (pend n) ts <= 1;
  c_unb : forall n, lives s n = Unborn -> runs n tr + inL n L + sumz (pend n) ts = 0;
  c_reg : forall n, lives s n = Ctor \/ lives s n = Alive -> requested s = true \/ (0 < srcs s)%nat -> runs n tr + inL n L + sumz (pend n) ts = 1;
  c_dead : forall n, lives s n = Dead -> sumz (pend n) ts = 0;
  c_out : forall n, n ∉ L -> (rank (lives s n) <= 2)%nat \/ 0 < sumz (dpre n) ts -> prv s n = None /\ (par s n = true -> requested s = true);
  c_dst : forall n, n ∈ L -> sumz (dpost n) ts = 0;
  c_dret : forall i l n, ts !! i = Some l -> isret n l = true -> sumz (pend n) ts = 0 /\ forall j k, ts !! j = Some k -> j <> i -> runon n k = 0;
  c_wins : 0 < wins tr -> L = [] /\ forall i l, ts !! i = Some l -> isains l = false;
  c_ok : forall i l, ts !! i = Some l -> opfail l = false;
  c_run : forall i l n, ts !! i = Some l -> isrun n l -> par s n = true;
}.

Lemma pc_frame L L' tr s ts i l e s' l' : PA tr s ts -> PC L tr s ts -> ts !! i = Some l ->
  dll (hd s') (nxt s') (prv s') L' -> NoDup L' ->
  (forall n, par s n = true -> par s' n = true) ->
  (forall n, n ∈ L' -> par s' n = true /\ (n ∈ L \/ lives s' n = Ctor /\ lives s n = Ctor)) ->
  (forall n, let d := runs n (option_list e) + (inL n L' - inL n L) + (pend n l' - pend n l) in
     d = 0 /\ lives s' n = lives s n \/ d = 0 /\ lives s n = Ctor /\ lives s' n = Alive \/ d = 0 /\ lives s n = Alive /\ lives s' n = Dtor
     \/ d = 0 /\ lives s n = Dtor /\ lives s' n = Dead /\ n ∉ L' /\ sumz (pend n) ts = 0 /\ pend n l' = 0
     \/ d = 1 /\ lives s n = Unborn /\ lives s' n = Ctor \/ d = -1 /\ lives s n = Ctor /\ lives s' n = Ctor /\ requested s' = false /\ srcs s' = 0%nat
     \/ d <= 0 /\ lives s n = Dtor /\ lives s' n = Dtor) ->
  (forall n, pend n l' <= pend n l + (inL n L - inL n L') \/ lives s n = Unborn) ->
  (requested s' = true \/ (0 < srcs s')%nat -> requested s = true \/ (0 < srcs s)%nat) ->
  (requested s = true -> requested s' = true) ->
  (forall n, dpre n l' <= dpre n l \/ lives s n = Alive) ->
  (forall n, n ∉ L' -> n ∉ L /\ prv s' n = prv s n /\ par s' n = par s n \/ prv s' n = None /\ requested s' = true \/ lives s' n = Dtor /\ dpre n l = 1 /\ dpre n l' = 0) ->
  (forall n, n ∈ L' -> dpost n l' = 0) ->
  (forall n, isret n l' = true -> isret n l = false -> sumz (pend n) ts = 0 /\ pend n l' = 0 /\ forall j k, ts !! j = Some k -> j <> i -> runon n k = 0) ->
  (forall n, runon n l' <= runon n l + pend n l) ->
  (0 < wins (option_list e) -> L' = [] /\ isains l' = false /\ forall j k, ts !! j = Some k -> j <> i -> isains k = false) ->
  (0 < wins tr -> requested s = true -> (L = [] -> L' = []) /\ isains l' = false) ->
  opfail l' = false ->
  (forall n, isrun n l' -> par s' n = true) ->
  PC L' (tr ++ option_list e) s' (<[i := l']> ts).
Proof.
  intros HA HC Hl G1 G2 G3 G4 G5 G5' G6 G7 G9 G10 G11 G12 G13 G14 G15 G16 G17.
  assert (Hlen : (i < length ts)%nat) by (by eapply lookup_lt_Some).
  assert (Hlk : forall j k, <[i := l']> ts !! j = Some k -> j = i /\ k = l' \/ j <> i /\ ts !! j = Some k).
  { intros j k Hj. destruct (decide (j = i)) as [->|Hne]; [rewrite list_lookup_insert in Hj by done; left; by injection Hj as ->|]. right. by rewrite list_lookup_insert_ne in Hj. }
  assert (Hrun : forall n, runs n (tr ++ option_list e) = runs n tr + runs n (option_list e)) by (intros; apply ecount_app).
  assert (Hp : forall n, sumz (pend n) (<[i := l']> ts) = sumz (pend n) ts - pend n l + pend n l') by (intros; by apply sumz_insert).
  assert (Hpg : forall n, pend n l <= sumz (pend n) ts) by (intros n; by apply sumz_ge with i; [apply pend_nn|]).
  assert (HpL : forall n, 0 <= pend n l' /\ 0 <= pend n l /\ 0 <= runs n (option_list e) /\ 0 <= runs n tr).
  { intros n. split_and!; try apply pend_nn; apply ecount_nn; intros []; try lia; case_decide; lia. }
  assert (Hreq : 0 < wins tr -> requested s = true).
  { intros H. pose proof (pa_rr _ _ _ HA) as Hr. pose proof (sumz_nonneg rr ts rr_nn). destruct (requested s); simpl in *; [done|lia]. }
  split.
  - done.
  - done.
  - intros n Hn. by apply G4.
  - intros n Hn. destruct (G4 n Hn) as [_ [H|[-> _]]]; [|simpl; lia]. pose proof (c_live _ _ _ _ HC n H) as Hr.
    pose proof (G5 n) as G5n. simpl in G5n. destruct G5n as [[_ ->]|[[_ [_ ->]]|[[_ [_ ->]]|[(_ & _ & _ & Hx & _)|[[_ [_ ->]]|[(_ & _ & -> & _)|(_ & _ & ->)]]]]]]; simpl; try lia; done.
  - intros n. rewrite Hrun, Hp. pose proof (c_le _ _ _ _ HC n) as Hle. pose proof (G5 n) as G5n. simpl in G5n.
    destruct G5n as [[? _]|[[? _]|[[? _]|[(? & _)|[[? [Hu _]]|[(? & _)|(? & _)]]]]]]; try lia. pose proof (c_unb _ _ _ _ HC n Hu). lia.
  - intros n Hu. rewrite Hrun, Hp. pose proof (G5 n) as G5n. simpl in G5n.
    destruct G5n as [[? Hx]|[[? [_ Hx]]|[[? [_ Hx]]|[(? & _ & Hx & _)|[[? [_ Hx]]|[(? & _ & Hx & _)|(? & _ & Hx)]]]]]]; try congruence.
    pose proof (c_unb _ _ _ _ HC n ltac:(congruence)). lia.
  - intros n Hu Hq. rewrite Hrun, Hp. pose proof (G5 n) as G5n. simpl in G5n.
    destruct G5n as [[? Hx]|[[? [Hy Hx]]|[[? [_ Hx]]|[(? & _ & Hx & _)|[[? [Hy Hx]]|[(? & _ & Hx & H1 & H2)|(? & _ & Hx)]]]]]]; try (destruct Hu; congruence).
    + pose proof (c_reg _ _ _ _ HC n ltac:(by rewrite <- Hx) (G6 Hq)). lia.
    + pose proof (c_reg _ _ _ _ HC n ltac:(by left) (G6 Hq)). lia.
    + pose proof (c_unb _ _ _ _ HC n Hy). lia.
    + destruct Hq; [congruence|lia].
  - intros n Hd. rewrite Hp. pose proof (G5 n) as G5n. simpl in G5n. pose proof (HpL n). pose proof (Hpg n).
    destruct G5n as [[Hd0 Hx]|[[? [Hy Hx]]|[[? [_ Hx]]|[(? & _ & Hx & Hy & ? & ?)|[[? [Hy Hx]]|[(? & _ & Hx & H1 & H2)|(? & _ & Hx)]]]]]]; try congruence; try lia.
    pose proof (c_dead _ _ _ _ HC n ltac:(congruence)).
    assert (Hn : n ∉ L). { intros Hn. pose proof (c_live _ _ _ _ HC n Hn) as Hr. rewrite <- Hx, Hd in Hr. simpl in Hr. lia. }
    pose proof (inL_out _ _ Hn). pose proof (inL_nn n L'). lia.
  - intros n Hn Hx. destruct (G10 n Hn) as [(Ho & Hpv & Hpr)|[[? ?]|(H1 & H2 & H3)]]; [|done|].
    + rewrite Hpv, Hpr. cut (prv s n = None /\ (par s n = true -> requested s = true)); [naive_solver|].
      apply (c_out _ _ _ _ HC); [done|]. destruct Hx as [Hx|Hx].
      * left. pose proof (G5 n) as G5n. simpl in G5n.
        destruct G5n as [[? Hy]|[[? [Hy Hz]]|[[? [Hy Hz]]|[(? & Hy & Hz & _)|[[? [Hy Hz]]|[(? & Hy & Hz & H1 & H2)|(? & Hy & Hz)]]]]]]; try rewrite Hy in *; try rewrite Hz in *; simpl in *; lia.
      * rewrite (sumz_insert _ _ _ _ _ Hl) in Hx. destruct (G9 n) as [H|H]; [right; lia|]. left. rewrite H. simpl. lia.
    + exfalso. destruct Hx as [Hx|Hx]; [rewrite H1 in Hx; simpl in Hx; lia|].
      rewrite (sumz_insert _ _ _ _ _ Hl) in Hx. pose proof (dsum n ts) as Hd. rewrite (pa_dact _ _ _ HA) in Hd. pose proof (sumz_nonneg (dpost n) ts (dpost_nn n)).
      destruct (lives s n); simpl in Hd; lia.
  - intros n Hn. rewrite (sumz_insert _ _ _ _ _ Hl), (G11 n Hn). destruct (G4 n Hn) as [_ [H|[_ Hc]]].
    + pose proof (c_dst _ _ _ _ HC n H). pose proof (sumz_ge (dpost n) ts i l (dpost_nn n) Hl). pose proof (dpost_nn n l). lia.
    + pose proof (dsum n ts) as Hd. rewrite (pa_dact _ _ _ HA), Hc in Hd. simpl in Hd. pose proof (sumz_nonneg (dpre n) ts (dpre_nn n)).
      pose proof (sumz_ge (dpost n) ts i l (dpost_nn n) Hl). pose proof (dpost_nn n l). lia.
  - intros j k n Hj Hr. rewrite Hp. pose proof (HpL n) as Hpl. pose proof (Hpg n). apply Hlk in Hj as [[-> ->]|[Hne Hj]].
    + destruct (isret n l) eqn:Er.
      * destruct (c_dret _ _ _ _ HC i l n Hl Er) as [H1 H2]. split.
        -- destruct (G5' n) as [?|Hu]; [|pose proof (pa_dact _ _ _ HA n) as Hd; rewrite Hu in Hd; simpl in Hd; pose proof (sumz_ge (dactor n) ts i l (dactor_nn n) Hl);
             unfold dactor, isret in *; destruct l as [c [[]|]]; simpl in *; try done; apply bool_decide_eq_true in Er as ->; rewrite one_eq in *; lia].
           assert (Hd : dpost n l = 1). { unfold isret, dpost in *. destruct l as [c [[]|]]; simpl in *; try done. apply bool_decide_eq_true in Er as ->. apply one_eq. }
           assert (n ∉ L) as Hn. { intros Hn. pose proof (c_dst _ _ _ _ HC n Hn). pose proof (sumz_ge (dpost n) ts i l (dpost_nn n) Hl). lia. }
           pose proof (inL_out _ _ Hn). pose proof (inL_nn n L'). lia.
        -- intros j k Hj Hne. apply Hlk in Hj as [[-> ->]|[_ Hj]]; [done|]. by eapply H2.
      * destruct (G12 n Hr Er) as (H1 & H2 & H3). split; [lia|]. intros j k Hj Hne. apply Hlk in Hj as [[-> ->]|[_ Hj]]; [done|]. by eapply H3.
    + destruct (c_dret _ _ _ _ HC j k n Hj Hr) as [H1 H2].
      assert (Hd : dpost n k = 1). { unfold isret, dpost in *. destruct k as [c [[]|]]; simpl in *; try done. apply bool_decide_eq_true in Hr as ->. apply one_eq. }
      pose proof (sumz_ge (dpost n) ts j k (dpost_nn n) Hj).
      assert (n ∉ L) as Hn. { intros Hn. pose proof (c_dst _ _ _ _ HC n Hn). lia. }
      pose proof (inL_out _ _ Hn). pose proof (inL_nn n L').
      assert (lives s n <> Unborn) as Hu. { intros Hu. pose proof (pa_dact _ _ _ HA n) as Hda. rewrite Hu, dsum in Hda. simpl in Hda. pose proof (sumz_nonneg (dpre n) ts (dpre_nn n)). lia. }
      destruct (G5' n) as [?|?]; [|done]. split; [lia|].
      intros j' k' Hj' Hne'. apply Hlk in Hj' as [[-> ->]|[_ Hj']]; [|by eapply H2].
      pose proof (H2 i l Hl Hne'). pose proof (G13 n). pose proof (runon_nn n l'). lia.
  - intros Hw. unfold wins in Hw. rewrite ecount_app in Hw. change (0 < wins tr + wins (option_list e)) in Hw.
    destruct (decide (0 < wins tr)) as [Hw1|Hw1].
    + pose proof (Hreq Hw1) as Hrq. destruct (c_wins _ _ _ _ HC Hw1) as [H1 H2]. destruct (G15 Hw1 Hrq) as [H3 H4]. split; [auto|].
      intros j k Hj. apply Hlk in Hj as [[-> ->]|[_ Hj]]; [done|by eapply H2].
    + destruct G14 as (H1 & H2 & H3); [pose proof (wins_nn tr); lia|]. split; [done|]. intros j k Hj. apply Hlk in Hj as [[-> ->]|[Hne Hj]]; [done|by eapply H3].
  - intros j k Hj. apply Hlk in Hj as [[-> ->]|[_ Hj]]; [done|]. by eapply (c_ok _ _ _ _ HC).
  - intros j k n Hj Hr. apply Hlk in Hj as [[-> ->]|[_ Hj]]; [by apply G17|]. apply G3. by eapply (c_run _ _ _ _ HC).
Qed.

Lemma inL_le n L : inL n L <= 1. Proof. unfold inL. case_decide; lia. Qed.
Lemma inL_cons m n L : n ∉ L -> inL m (n :: L) = one m n + inL m L.
Proof.
  intros Hn. unfold inL, one. destruct (decide (n = m)) as [->|Hne]; [rewrite decide_True by left; by rewrite decide_False|].
  destruct (decide (m ∈ L)); [by rewrite decide_True by (by right)|]. rewrite decide_False; [done|]. rewrite elem_of_cons. intros [?|?]; congruence.
Qed.
Lemma inL_mid m L1 q n L2 : NoDup (L1 ++ q :: n :: L2) -> inL m (L1 ++ q :: n :: L2) = one m n + inL m (L1 ++ q :: L2).
Proof.
  intros Hd. assert (Hn : n ∉ L1 ++ q :: L2).
  { apply NoDup_app in Hd as (_ & H1 & H2). apply list.NoDup_cons in H2 as [H2 H3]. apply list.NoDup_cons in H3 as [H3 _]. rewrite not_elem_of_cons in H2.
    rewrite elem_of_app, elem_of_cons. intros [Hx|[->|Hx]]; [|by destruct H2|done]. apply (H1 n Hx). right. left. }
  rewrite <- (inL_cons m n _ Hn). unfold inL. apply decide_ext. rewrite !elem_of_app, !elem_of_cons, !elem_of_app, !elem_of_cons. tauto.
Qed.
Lemma updo_out p h nx pv L v n : dseg p h nx pv L -> n ∉ L -> updo pv h v n = pv n.
Proof. destruct L as [|m L]; simpl; [by intros ->|]. intros (-> & _) Hn. simpl. unfold upd. rewrite decide_False; [done|]. intros ->. apply Hn. left. Qed.
Definition ppre L tr s ts := PA tr s ts /\ PB s ts /\ PC L tr s ts.
Lemma dpar_none L tr s ts n : ppre L tr s ts -> par s n = false -> isC (lives s n) = 0 ->
  n ∉ L /\ sumz (pend n) ts = 0 /\ forall j k, ts !! j = Some k -> runon n k = 0.
Proof.
  intros (HA & HB & HC) Hp Hc. pose proof (pa_act _ _ _ HA n) as Ha. rewrite Hc in Ha.
  assert (Hz : forall j k, ts !! j = Some k -> aop n k.2 = 0 /\ nfalse n k.1 = 0).
  { intros j k Hk. pose proof (sumz_ge (actor n) ts j k (actor_nn n) Hk) as Hg. unfold actor in Hg at 1. pose proof (aop_nn n k.2). pose proof (nfalse_nn n k.1). lia. }
  split_and!.
  - intros Hn. pose proof (c_par _ _ _ _ HC n Hn). congruence.
  - apply sumz_zero. intros j k Hk. destruct (Hz j k Hk) as [H1 _]. pose proof (c_run _ _ _ _ HC j k) as Hr. unfold pend, aop, isrun in *. destruct k as [c [[]|]]; simpl in *; try done.
    unfold one. case_decide; [|done]. subst. rewrite (Hr n Hk) in Hp; [done|by left].
  - intros j k Hk. destruct (Hz j k Hk) as [_ H2]. pose proof (c_run _ _ _ _ HC j k n Hk) as Hr. unfold isrun, runon in *. destruct k as [c o]; simpl in *.
    assert (Ht : forall b, (n, b) ∈ c -> False). { intros [] Hb; [rewrite Hr in Hp by tauto; done|]. apply nfalse_in in Hb. lia. }
    clear -Ht. induction c as [|[x b] c IH]; [done|]. rewrite sumz_cons. simpl. rewrite IH; [|intros b' Hb; apply (Ht b'); by right].
    unfold one. case_decide; [|done]. subst. destruct (Ht b). left.
Qed.
(** nobody but the stopping thread can be running (or about to run) n *)
Lemma notcur_none L tr s ts n i : ppre L tr s ts -> isC (lives s n) = 0 -> cur s <> Some n \/ stopper s = Some i ->
  (forall c o, ts !! i = Some (c, o) -> o <> Some (RCall n)) ->
  sumz (pend n) ts = 0 /\ forall j k, ts !! j = Some k -> j <> i -> runon n k = 0.
Proof.
  intros (HA & HB & HC) Hc Hor Hi. pose proof (pa_act _ _ _ HA n) as Ha. rewrite Hc in Ha.
  assert (Hz : forall j k, ts !! j = Some k -> aop n k.2 = 0 /\ nfalse n k.1 = 0).
  { intros j k Hk. pose proof (sumz_ge (actor n) ts j k (actor_nn n) Hk) as Hg. unfold actor in Hg at 1. pose proof (aop_nn n k.2). pose proof (nfalse_nn n k.1). lia. }
  split.
  - apply sumz_zero. intros j k Hk. destruct (Hz j k Hk) as [H1 _]. pose proof (proj2 HB j k Hk) as [_ _ W]. unfold pend, aop in *. destruct k as [c [[]|]]; simpl in *; try done.
    unfold one. case_decide; [|done]. subst. destruct W as [W1 W2]. destruct Hor as [?|Hs]; [done|]. rewrite Hs in W1. injection W1 as <-. by destruct (Hi _ _ Hk).
  - intros j k Hk Hne. destruct (Hz j k Hk) as [_ H2]. pose proof (proj2 HB j k Hk) as [Wt _ _]. unfold runon in *. destruct k as [c o]; simpl in *.
    assert (Ht : forall b, (n, b) ∈ c -> False). { intros [] Hb; [destruct (Wt n Hb) as [W1 W2]; destruct Hor; congruence|]. apply nfalse_in in Hb. lia. }
    clear -Ht. induction c as [|[x b] c IH]; [done|]. rewrite sumz_cons. simpl. rewrite IH; [|intros b' Hb; apply (Ht b'); by right].
    unfold one. case_decide; [|done]. subst. destruct (Ht b). left.
Qed.
Lemma runs_by_le i n tr : runs_by i n tr <= runs n tr.
Proof. unfold runs_by, runs. apply (sumz_le _ _ tr). intros _ [] _; try lia. repeat case_decide; naive_solver lia. Qed.
Lemma dones_nn i n tr : 0 <= dones_by i n tr.
Proof. apply ecount_nn. intros []; try lia. case_decide; lia. Qed.
Lemma member_none L tr s ts n : ppre L tr s ts -> n ∈ L -> sumz (pend n) ts = 0 /\ forall j k, ts !! j = Some k -> runon n k = 0.
Proof.
  intros (HA & HB & HC) Hn. pose proof (c_le _ _ _ _ HC n) as Hle. rewrite (inL_in _ _ Hn) in Hle.
  pose proof (sumz_nonneg (pend n) ts (pend_nn n)). assert (Hr : 0 <= runs n tr) by (apply ecount_nn; intros []; try lia; case_decide; lia).
  split; [lia|]. intros j k Hk. pose proof (pa_run _ _ _ HA j n k Hk). pose proof (runs_by_le j n tr). pose proof (dones_nn j n tr). pose proof (runon_nn n k). lia.
Qed.
Lemma runs_ol n e : runs n (option_list e) = match e with Some (ERun _ m) => one n m | _ => 0 end.
Proof. destruct e as [[]|]; try done. unfold runs, one, ecount. simpl. case_decide; lia. Qed.
Ltac tg5 Ga Gd := let n0 := fresh "n0" in intros n0; cbn zeta; rewrite runs_ol; specialize (Ga n0); specialize (Gd n0);
  unfold actor, dactor in *; cbn [snd fst] in *;
  repeat match goal with H : context [nfalse n0 ?c] |- _ => lazymatch goal with _ : 0 <= nfalse n0 c |- _ => fail | _ => pose proof (nfalse_nn n0 c) end end;
  unfold actor, dactor, pend, upd, one in *; cbn [snd fst aop] in *; repeat case_decide; subst;
  try (left; split; [lia|done]).
Ltac tg5' Ga Gd := let n0 := fresh "n0" in intros n0; unfold pend, one; simpl; repeat case_decide; subst; try (left; lia); try (by right).
Ltac tg9 := let n0 := fresh "n0" in intros n0; unfold dpre, one; simpl; repeat case_decide; subst; try (left; lia); try (by right).
Ltac tg11 Gpost := let n0 := fresh "n0" in let Hn := fresh "Hn" in intros n0 Hn; pose proof (Gpost n0) as Gpost; unfold dpost, one in *; simpl in *; repeat case_decide; subst; try done; try (exfalso; apply Gpost; [lia|done]).
Ltac tg13 := let n0 := fresh "n0" in intros n0; unfold runon, pend; simpl; unfold one; repeat case_decide; subst; try lia.
Ltac tg17 Gr := let n0 := fresh "n0" in let Hr := fresh "Hr" in intros n0 Hr; destruct Hr as [Hr|Hr]; simpl in Hr;
  [try discriminate Hr | first [apply Gr; right; simpl; exact Hr | apply Gr; right; simpl; apply elem_of_list_further; exact Hr
    | apply elem_of_cons in Hr as [Hr|Hr]; [first [discriminate Hr|injection Hr as ->; apply Gr; left; reflexivity]|apply Gr; right; simpl; exact Hr] | idtac]].
Lemma pc_step L tr s ts i l e s' l' : ppre L tr s ts -> ts !! i = Some l -> sp_step i s l e s' l' -> exists L', PC L' (tr ++ option_list e) s' (<[i := l']> ts).
Proof.
  intros HP Hl Ht. pose proof HP as (HA & HB & HC). pose proof (proj2 HB i l Hl) as [W1 W2 W3].
  assert (Ga : forall n, actor n l <= isC (lives s n)). { intros n. rewrite <- (pa_act _ _ _ HA n). by apply sumz_ge with i; [apply actor_nn|]. }
  assert (Gd : forall n, dactor n l <= isD (lives s n)). { intros n. rewrite <- (pa_dact _ _ _ HA n). by apply sumz_ge with i; [apply dactor_nn|]. }
  pose proof (fun n => c_run _ _ _ _ HC i l n Hl) as Gr. pose proof (fun n => c_dret _ _ _ _ HC i l n Hl) as Gret.
  assert (Grq : 1 <= rr l -> requested s = true).
  { intros H. pose proof (pa_rr _ _ _ HA) as Hr. pose proof (sumz_ge rr ts i l rr_nn Hl). pose proof (wins_nn tr). destruct (requested s); simpl in *; [done|lia]. }
  assert (Gpost : forall n, 1 <= dpost n l -> n ∉ L).
  { intros n H Hn. pose proof (c_dst _ _ _ _ HC n Hn). pose proof (sumz_ge (dpost n) ts i l (dpost_nn n) Hl). lia. }
  pose proof (c_ok _ _ _ _ HC i l Hl) as Gok.
  inversion Ht; subst; clear Ht; try done; try match goal with |- context [if ?rs then RLock else _] => destruct rs end.
  all: try (exists L; eapply (pc_frame L L); [exact HA|exact HC|exact Hl|exact (c_dll _ _ _ _ HC)|exact (c_nd _ _ _ _ HC)|..];
     cbn [hd nxt prv par cur stopper wq lives srcs requested locked set_life set_lock set_srcs set_wq] in *;
     [done|intros n0 Hn0; split; [by apply (c_par _ _ _ _ HC)|by left]|tg5 Ga Gd|tg5' Ga Gd|try done; try lia|try done
     |tg9|intros n0 Hn0; by left|tg11 Gpost|try done|tg13|try done|try (intros _ Hrq; split; [done|]; first [done|congruence])|try done|tg17 Gr]).
  - (* p_ctor *) right. right. right. right. left. split_and!; [lia|done|done].
  - (* p_dtor *) right. right. left. split_and!; [lia|done|done].
  - (* p_rhead_end *) intros _. split; [|split; [done|]].
    + pose proof (dseg_hd _ _ _ _ _ (c_dll _ _ _ _ HC)) as Hh. destruct L; [done|]. simpl in Hh. congruence.
    + intros j k Hk Hne. pose proof (pa_ins2 _ _ _ i j _ k HA ltac:(congruence) Hl Hk) as H2. unfold ins, isains in *. destruct k as [c' [[]|]]; simpl in *; try done. lia.
  - (* p_rhead *) destruct (dseg_in_hd _ _ _ _ _ n (c_dll _ _ _ _ HC)) as [L' ->]; [done|].
    destruct (c_dll _ _ _ _ HC) as (_ & _ & Hd). pose proof (c_nd _ _ _ _ HC) as Hnd. apply list.NoDup_cons in Hnd as [Hn Hnd].
    exists L'. eapply (pc_frame (n :: L') L'); [exact HA|exact HC|exact Hl|..]; cbn [hd nxt prv par cur stopper wq lives srcs requested locked set_list] in *; try done.
    + apply (dseg_root _ None) in Hd; [|done]. eapply dseg_ext; [exact Hd| |done]. intros m Hm. unfold upd. rewrite decide_False; [done|]. by intros ->.
    + intros n0 Hn0. split; [apply (c_par _ _ _ _ HC); by right|left; by right].
    + intros n0. left. rewrite runs_ol, (inL_cons n0 n) by done. unfold pend. simpl. split; [lia|done].
    + intros n0. left. rewrite (inL_cons n0 n) by done. unfold pend. simpl. lia.
    + intros n0. left. unfold dpre. simpl. lia.
    + intros n0 Hn0. rewrite (updo_out _ _ _ _ _ _ _ Hd Hn0). destruct (decide (n0 = n)) as [->|Hne].
      * right. left. split; [done|]. apply Grq. unfold rr. simpl. pose proof (ntrue_nn c). lia.
      * left. split_and!; try done. by rewrite not_elem_of_cons.
    + intros n0. unfold runon, pend. simpl. lia.
    + intros n0 [[= ->]|Hr]; [apply (c_par _ _ _ _ HC); left|]. apply Gr. by right.
  - (* p_rhead_bad *) exfalso. destruct (dseg_in_hd _ _ _ _ _ n (c_dll _ _ _ _ HC)) as [L' ->]; [done|]. destruct (c_dll _ _ _ _ HC) as (_ & ? & _). done.
  - (* afast_none *) try rewrite one_eq in *. do 5 right. left. split_and!; try done; try lia; destruct (lives s' n0); simpl in *; try done; lia.
  - (* achk_none *) try rewrite one_eq in *. do 5 right. left. split_and!; try done; try lia; destruct (lives s n0); simpl in *; try done; lia.
  - (* ains *) specialize (Ga n) as Gan. unfold actor in Gan. simpl in Gan. rewrite one_eq in Gan. pose proof (nfalse_nn n c) as Hnf.
    assert (Hli : li n = Ctor) by (destruct (li n); simpl in *; try done; lia).
    assert (Hn : n ∉ L). { intros Hn. pose proof (c_par _ _ _ _ HC n Hn). simpl in *. congruence. }
    assert (Hpv : pv n = None). { apply (c_out _ _ _ _ HC n Hn). left. simpl. rewrite Hli. simpl. lia. }
    pose proof (c_dll _ _ _ _ HC) as Hd. pose proof (c_nd _ _ _ _ HC) as Hnd. simpl in Hd.
    exists (n :: L). eapply (pc_frame L (n :: L)); [exact HA|exact HC|exact Hl|..]; cbn [hd nxt prv par cur stopper wq lives srcs requested locked set_list] in *; try done.
    + split; [done|]. split; [by rewrite (updo_out _ _ _ _ _ _ _ Hd Hn)|]. unfold upd at 1. rewrite decide_True by done.
      apply (dseg_root _ (Some n)) in Hd; [|done]. eapply dseg_ext; [exact Hd| |done]. intros m Hm. unfold upd. rewrite decide_False; [done|]. by intros ->.
    + apply list.NoDup_cons; done.
    + intros n0 Hp. unfold upd. by case_decide.
    + intros n0 Hn0. unfold upd. apply elem_of_cons in Hn0 as [->|Hn0]; [rewrite decide_True by done; split; [done|by right]|].
      split; [|by left]. case_decide; [done|]. by apply (c_par _ _ _ _ HC).
    + intros n0. left. rewrite runs_ol, (inL_cons n0 n) by done. unfold pend. simpl. split; [lia|done].
    + intros n0. left. rewrite (inL_cons n0 n) by done. unfold pend. simpl. lia.
    + intros n0. left. unfold dpre. simpl. lia.
    + intros n0 Hn0. rewrite not_elem_of_cons in Hn0. destruct Hn0 as [Hne Hn0]. rewrite (updo_out _ _ _ _ _ _ _ Hd Hn0). left. split_and!; try done. unfold upd. by rewrite decide_False.
    + intros n0. unfold runon, pend. simpl. pose proof (one_nn n0 n). lia.
    + intros Hw _. destruct (c_wins _ _ _ _ HC Hw) as [_ Hx]. by specialize (Hx i _ Hl).
    + intros n0 [?|Hr]; [done|]. unfold upd. case_decide; [done|]. apply Gr. by right.
  - (* p_aret *) try rewrite one_eq in *. right. left. split_and!; [lia| |done]. destruct (lives s n); simpl in *; try done; lia.
  - (* dpar_no: post *) exfalso. pose proof (c_par _ _ _ _ HC _ Hn). congruence.
  - intros n0 Hr _. unfold isret in Hr. simpl in Hr. apply bool_decide_eq_true in Hr as ->. specialize (Gd n0). unfold dactor in Gd. simpl in Gd. rewrite one_eq in Gd.
    destruct (dpar_none _ _ _ _ n0 HP) as (H1 & H2 & H3); [done|destruct (lives s' n0); simpl in *; try done; lia|]. split_and!; [done|done|]. intros; by eapply H3.
  - (* dchk_head *) destruct (dseg_in_hd _ _ _ _ _ n (c_dll _ _ _ _ HC)) as [L' ->]; [done|].
    destruct (c_dll _ _ _ _ HC) as (_ & _ & Hd). pose proof (c_nd _ _ _ _ HC) as Hnd. apply list.NoDup_cons in Hnd as [Hn Hnd].
    exists L'. eapply (pc_frame (n :: L') L'); [exact HA|exact HC|exact Hl|..]; cbn [hd nxt prv par cur stopper wq lives srcs requested locked set_list] in *; try done.
    + by apply (dseg_root _ None) in Hd.
    + intros n0 Hn0. split; [apply (c_par _ _ _ _ HC); by right|left; by right].
    + intros n0. cbn zeta. rewrite runs_ol, (inL_cons n0 n) by done. specialize (Gd n0). unfold pend, dactor, one in *. simpl in *. case_decide; [|left; split; [lia|done]].
      do 6 right. split_and!; [lia|..]; destruct (lives s n0); simpl in *; try done; lia.
    + intros n0. left. rewrite (inL_cons n0 n) by done. unfold pend. simpl. pose proof (one_nn n0 n). lia.
    + intros n0. left. unfold dpre. simpl. apply one_nn.
    + intros n0 Hn0. rewrite (updo_out _ _ _ _ _ _ _ Hd Hn0). destruct (decide (n0 = n)) as [->|Hne].
      * right. right. specialize (Gd n). unfold dactor, dpre in *. simpl in *. rewrite one_eq in *. split_and!; try done. destruct (lives s n); simpl in *; try done; lia.
      * left. split_and!; try done. by rewrite not_elem_of_cons.
    + intros n0 Hn0. unfold dpost, one. simpl. case_decide; [|done]. by subst.
    + intros n0 Hr _. unfold isret in Hr. simpl in Hr. apply bool_decide_eq_true in Hr as ->. destruct (member_none _ _ _ _ n0 HP ltac:(left)) as [H1 H2].
      split_and!; [done|done|]. intros; by eapply H2.
    + intros n0. unfold runon, pend. simpl. lia.
    + intros n0 [?|Hr]; [done|]. apply Gr. by right.
  - (* dchk_head_bad *) exfalso. destruct (dseg_in_hd _ _ _ _ _ n (c_dll _ _ _ _ HC)) as [L' ->]; [done|]. destruct (c_dll _ _ _ _ HC) as (_ & ? & _). done.
  - (* dchk_mid *)
    assert (Hn : n ∈ L).
    { destruct (decide (n ∈ L)) as [?|Hn]; [done|]. destruct (c_out _ _ _ _ HC n Hn) as [Hx _]; [|congruence]. right.
      pose proof (sumz_ge (dpre n) ts i _ (dpre_nn n) Hl) as Hg. unfold dpre in Hg at 1. simpl in Hg. rewrite one_eq in Hg. lia. }
    destruct (dseg_split _ _ _ _ _ n (c_dll _ _ _ _ HC) Hn) as [(? & _)|(L1 & q & L2 & -> & Hq)]; [done|].
    assert (q = p) as -> by congruence. pose proof (c_nd _ _ _ _ HC) as Hnd. pose proof (dseg_mid _ _ _ _ _ _ _ _ Hnd (c_dll _ _ _ _ HC)) as Hd.
    assert (Hni : forall m, m ∈ L1 ++ p :: L2 <-> m ∈ L1 ++ p :: n :: L2 /\ m <> n).
    { intros m. pose proof (inL_mid m L1 p n L2 Hnd) as Hi. pose proof (inL_nn m (L1 ++ p :: L2)). unfold inL, one in Hi. repeat case_decide; try lia; intuition congruence. }
    exists (L1 ++ p :: L2). eapply (pc_frame (L1 ++ p :: n :: L2) (L1 ++ p :: L2)); [exact HA|exact HC|exact Hl|..]; cbn [hd nxt prv par cur stopper wq lives srcs requested locked set_list] in *; try done.
    + apply NoDup_app in Hnd as (Hn1 & Hn2 & Hn3). apply list.NoDup_cons in Hn3 as [Hn3 Hn4]. apply list.NoDup_cons in Hn4 as [Hn4 Hn5]. apply NoDup_app. split_and!; [done| |].
      * intros x Hx Hy. apply (Hn2 x Hx). rewrite !elem_of_cons in *. tauto.
      * apply list.NoDup_cons. split; [|done]. intros Hx. apply Hn3. by right.
    + intros n0 Hn0. apply Hni in Hn0 as [Hn0 _]. split; [by apply (c_par _ _ _ _ HC)|by left].
    + intros n0. cbn zeta. rewrite runs_ol, (inL_mid n0) by done. specialize (Gd n0). unfold pend, dactor, one in *. simpl in *. case_decide; [|left; split; [lia|done]].
      do 6 right. split_and!; [lia|..]; destruct (lives s n0); simpl in *; try done; lia.
    + intros n0. left. rewrite (inL_mid n0) by done. unfold pend. simpl. pose proof (one_nn n0 n). lia.
    + intros n0. left. unfold dpre. simpl. apply one_nn.
    + intros n0 Hn0. destruct (decide (n0 = n)) as [->|Hne].
      * right. right. specialize (Gd n). unfold dactor, dpre in *. simpl in *. rewrite one_eq in *. split_and!; try done. destruct (lives s n); simpl in *; try done; lia.
      * left. assert (Hn1 : n0 ∉ L1 ++ p :: n :: L2) by (intros ?; apply Hn0, Hni; done). split_and!; try done.
        destruct (nxt s n) as [z|] eqn:Ez; [|done]. simpl. unfold upd. rewrite decide_False; [done|]. intros ->. apply Hn1.
        rewrite elem_of_app, !elem_of_cons. right. right. right. by eapply dseg_next; [exact (c_dll _ _ _ _ HC)|].
    + intros n0 Hn0. apply Hni in Hn0 as [_ Hn0]. unfold dpost, one. simpl. case_decide; [|done]. by subst.
    + intros n0 Hr _. unfold isret in Hr. simpl in Hr. apply bool_decide_eq_true in Hr as ->. destruct (member_none _ _ _ _ n0 HP Hn) as [H1' H2'].
      split_and!; [done|done|]. intros; by eapply H2'.
    + intros n0. unfold runon, pend. simpl. lia.
    + intros Hw _. destruct (c_wins _ _ _ _ HC Hw) as [Hx _]. by destruct L1.
    + intros n0 [?|Hr]; [done|]. apply Gr. by right.
  - (* dchk_bad *) exfalso. destruct (decide (n ∈ L)) as [Hn|Hn].
    + destruct (dseg_split _ _ _ _ _ n (c_dll _ _ _ _ HC) Hn) as [(? & _)|(L1 & q & L2 & -> & Hq)]; [done|congruence].
    + destruct (c_out _ _ _ _ HC n Hn) as [_ Hx]; [|specialize (Hx W3); congruence]. right.
      pose proof (sumz_ge (dpre n) ts i _ (dpre_nn n) Hl) as Hg. unfold dpre in Hg at 1. simpl in Hg. rewrite one_eq in Hg. lia.
  - (* dchk_done *) exfalso. destruct (dseg_split _ _ _ _ _ n0 (c_dll _ _ _ _ HC)) as [(? & _)|(L1 & q & L2 & -> & Hq)]; [done|done|congruence].
  - intros n0 Hr _. unfold isret in Hr. simpl in Hr. apply bool_decide_eq_true in Hr as ->. specialize (Gd n0). unfold dactor in Gd. simpl in Gd. rewrite one_eq in Gd.
    destruct (notcur_none _ _ _ _ n0 i HP) as (H5 & H6); [destruct (lives s n0); simpl in *; try done; lia|done|intros c' o' Hx; pose proof (eq_trans (eq_sym Hl) Hx); congruence|]. by split_and!.
  - (* dchk_wait *) exfalso. destruct (dseg_split _ _ _ _ _ n0 (c_dll _ _ _ _ HC)) as [(? & _)|(L1 & q & L2 & -> & Hq)]; [done|done|congruence].
  - (* dwait_pass *) intros n0 Hr _. unfold isret in Hr. simpl in Hr. apply bool_decide_eq_true in Hr as ->. specialize (Gd n0). unfold dactor in Gd. simpl in Gd. rewrite one_eq in Gd.
    destruct (notcur_none _ _ _ _ n0 i HP) as (H5 & H6); [destruct (lives s' n0); simpl in *; try done; lia|by left|intros c' o' Hx; pose proof (eq_trans (eq_sym Hl) Hx); congruence|]. by split_and!.
  - (* dret *) right. right. right. left. split_and!; try done; try lia.
    + destruct (lives s n0); simpl in *; try done; lia.
    + apply Gpost. unfold dpost. simpl. rewrite one_eq. lia.
    + apply Gret. unfold isret. simpl. by apply bool_decide_eq_true.
Qed.

Record PI (tr : list pev) (s : pst) (ts : list ploc) : Prop := { pi_a : PA tr s ts; pi_b : PB s ts; pi_c : exists L, PC L tr s ts }.
Lemma ts_init k i l : replicate k (([], None) : ploc) !! i = Some l -> l = ([], None).
Proof. intros H. by apply lookup_replicate_1 in H as [-> _]. Qed.
Lemma sum_init {f : ploc -> Z} k : f ([], None) = 0 -> sumz f (replicate k (([], None) : ploc)) = 0.
Proof. intros H. apply sumz_zero. intros i l Hl. by apply ts_init in Hl as ->. Qed.
Lemma pi_reach k tr s ts : steps sp_step (sp_init k) tr (s, ts) -> PI tr s ts.
Proof.
  intros Hs. refine (steps_inv' sp_step (fun tr s ts => PI tr s ts) _ _ _ _ tr s ts Hs); clear.
  - split.
    + split; simpl; try (rewrite sum_init by done); try done.
      all: try (intros n; rewrite ?sum_init by done; simpl; rewrite ?elem_of_nil; try done; split; intros; try done; lia).
      * intros n. split; [intros [? ?%elem_of_nil]; done|lia].
      * intros i n l Hl. by apply ts_init in Hl as ->.
    + split; [done|]. intros i l Hl. apply ts_init in Hl as ->. split; simpl; try done; intros n Hn; by apply elem_of_nil in Hn.
    + exists []. split; simpl; try done.
      all: try (intros n; rewrite ?sum_init by done; unfold inL; rewrite ?decide_False by apply not_elem_of_nil; simpl; try done; try lia).
      all: try (intros; by match goal with H : _ ∈ [] |- _ => apply elem_of_nil in H end).
      all: try (by intros [?|?]).
      all: try (intros l n Hl; apply ts_init in Hl as ->; done).
      all: try (intros l Hl; apply ts_init in Hl as ->; done).
      * apply NoDup_nil_2.
      * intros l m Hl Hr. by apply ts_init in Hl as ->.
      * intros l m Hl. apply ts_init in Hl as ->. intros [?|Hx]; [done|by apply elem_of_nil in Hx].
  - intros tr s ts i l e s' l' [HA HB [L HC]] Hl Ht. split; [by eapply pa_step|by eapply pb_step|]. eapply pc_step; [by split_and!|done|done].
Qed.

(** layer D: a destructor sleeping on _Current_callback is woken *)
Definition isrnot (l : ploc) : Z := match l.2 with Some RNot => 1 | _ => 0 end.
Definition crr (n : nat) (l : ploc) : Z := rop l.2 + sumz (fun x : nat * bool => if x.2 then one n x.1 else 0) l.1.
Lemma isrnot_nn l : 0 <= isrnot l. Proof. destruct l as [c [[]|]]; unfold isrnot; simpl; lia. Qed.
Lemma crr_nn n l : 0 <= crr n l. Proof. unfold crr. pose proof (rop_nn l.2). assert (0 <= sumz (fun x : nat * bool => if x.2 then one n x.1 else 0) l.1); [|lia]. apply sumz_nonneg. intros [? []]; simpl; [apply one_nn|lia]. Qed.
Record PD (s : pst) (ts : list ploc) : Prop := {
  d_nd : NoDup (wq s);
  d_wq : forall i, i ∈ wq s -> exists c n, ts !! i = Some (c, Some (DBlk n)) /\ (cur s = Some n \/ 0 < sumz isrnot ts);
  d_cur : forall n, cur s = Some n -> 1 <= sumz (crr n) ts }.
Lemma crr_cons n x b c o : crr n ((x, b) :: c, o) = (if b then one n x else 0) + crr n (c, o). Proof. unfold crr. simpl. lia. Qed.
Lemma pd_step tr s ts i l e s' l' : PA tr s ts -> PB s ts -> PD s ts -> ts !! i = Some l -> sp_step i s l e s' l' -> PD s' (<[i := l']> ts).
Proof.
  intros HA HB HD Hl Ht. pose proof (proj2 HB i l Hl) as [W1 W2 W3].
  assert (Hlen : (i < length ts)%nat) by (by eapply lookup_lt_Some).
  assert (Hother : forall q : list nat, (forall j, j ∈ q -> j ∈ wq s) -> (i ∈ q -> False) -> cur s' = cur s -> isrnot l = isrnot l' ->
     forall j, j ∈ q -> exists c n, <[i := l']> ts !! j = Some (c, Some (DBlk n)) /\ (cur s' = Some n \/ 0 < sumz isrnot (<[i := l']> ts))).
  { intros q Hq Hi Hc Hr j Hj. destruct (d_wq _ _ HD j (Hq j Hj)) as (c & n & Hjl & Hor). exists c, n.
    destruct (decide (j = i)) as [->|Hne]; [by destruct Hi|]. rewrite list_lookup_insert_ne by done. split; [done|].
    rewrite (sumz_insert _ _ _ _ _ Hl), Hc. destruct Hor; [by left|right; lia]. }
  assert (Hni : (forall n, l.2 <> Some (DBlk n)) -> i ∉ wq s).
  { intros H Hi. destruct (d_wq _ _ HD i Hi) as (c & n & Hx & _). pose proof (eq_trans (eq_sym Hl) Hx) as Hy. injection Hy as ->. by apply (H n). }
  assert (Hcur : cur s' = cur s -> (forall n, cur s = Some n -> crr n l <= crr n l') -> forall n, cur s' = Some n -> 1 <= sumz (crr n) (<[i := l']> ts)).
  { intros Hc Hr n Hn. rewrite (sumz_insert _ _ _ _ _ Hl). rewrite Hc in Hn. pose proof (d_cur _ _ HD n Hn). specialize (Hr n Hn). lia. }
  pose proof (d_nd _ _ HD) as Hnd.
  inversion Ht; subst; clear Ht; cbn [cur wq set_life set_lock set_srcs set_wq set_list] in *.
  all: try match goal with |- context [if ?rs then RLock else _] => destruct rs end.
  all: split; cbn [cur wq set_life set_lock set_srcs set_wq set_list]; try done.
  all: try (apply Hcur; [done|]; intros n0 Hn0; rewrite ?crr_cons; unfold crr; simpl; lia).
  all: try (apply (Hother _ (fun j H => H)); [apply Hni; by intros ?|done|done]).
  - apply Hcur; [done|]. intros n0 _. rewrite crr_cons. unfold crr. simpl. pose proof (one_nn n0 n). unfold one in *. case_decide; lia.
  - intros j Hj. destruct (d_wq _ _ HD j Hj) as (c' & n & Hjl & _). exists c', n. destruct (decide (j = i)) as [->|Hne].
    + pose proof (eq_trans (eq_sym Hl) Hjl). congruence.
    + rewrite list_lookup_insert_ne by done. split; [done|]. right. rewrite (sumz_insert _ _ _ _ _ Hl). pose proof (sumz_nonneg isrnot ts isrnot_nn). unfold isrnot at 2 3. simpl. lia.
  - intros n _. rewrite (sumz_insert _ _ _ _ _ Hl). pose proof (sumz_ge (crr n) ts i _ (crr_nn n) Hl). pose proof (crr_nn n (c, None)). unfold crr in *. simpl in *. lia.
  - apply NoDup_nil_2.
  - intros j Hj. by apply elem_of_nil in Hj.
  - destruct W3 as [_ W3]. simpl in W3. intros n Hn. congruence.
  - apply Hcur; [done|]. intros n0 Hn0. simpl in W3. destruct W3 as [_ W3]. assert (n0 = n) as -> by congruence. rewrite crr_cons, one_eq. unfold crr. simpl. lia.
  - apply list.NoDup_cons. split; [|done]. apply Hni. by intros ?.
  - intros j Hj. apply elem_of_cons in Hj as [->|Hj]; [exists c, n; rewrite list_lookup_insert by done; split; [done|by left]|]. revert j Hj. apply (Hother _ (fun j H => H)); [apply Hni; by intros ?|done|done].
  - apply (Hother _ (fun j H => H)); done.
  - match goal with H : _ ≡ₚ _ |- _ => rewrite H in Hnd end. by apply list.NoDup_cons in Hnd as [_ ?].
  - match goal with H : _ ≡ₚ _ |- _ => rewrite H in Hnd; rename H into Hq end. apply list.NoDup_cons in Hnd as [Hx ?]. apply Hother; [|done|done|done]. intros j Hj. rewrite Hq. by right.
Qed.
Lemma pd_reach k tr s ts : steps sp_step (sp_init k) tr (s, ts) -> PD s ts.
Proof.
  intros Hs. cut (PI tr s ts /\ PD s ts); [tauto|].
  refine (steps_inv' sp_step (fun tr s ts => PI tr s ts /\ PD s ts) _ _ _ _ tr s ts Hs); clear.
  - split; [apply (pi_reach k); constructor|]. split; simpl; [apply NoDup_nil_2| |done]. intros j Hj. by apply elem_of_nil in Hj.
  - intros tr s ts i l e s' l' [[HA HB [L HC]] HD] Hl Ht. split; [|by eapply pd_step].
    split; [by eapply pa_step|by eapply pb_step|]. eapply pc_step; [by split_and!|done|done].
Qed.
