From stdpp Require Import base list numbers option decidable list_numbers.
From Coq Require Import ZArith Lia.
From Verif Require Import Conc.Sched Conc.LockedPointerModel.
Local Open Scope Z_scope.
Definition incs (l : lploc) : Z := match l with LCs _ => 1 | _ => 0 end.
Definition isnot (l : lploc) : Z := match l with LNotify => 1 | _ => 0 end.
Definition tb (l : lploc) : Prop := match l with LTry _ b => (b <= 2)%nat | _ => True end.
Record LI (v0 : Z) (tr : list lpev) (s : lpst) (ts : list lploc) : Prop := {
  li_bits : (lbits s <= 2)%nat;
  li_cs : sumz incs ts = if decide (lbits s = 0%nat) then 0 else 1;
  li_val : lval s = last_val v0 tr;
  li_csv : forall i v, ts !! i = Some (LCs v) -> v = lval s;
  li_held : forall i l, ts !! i = Some l -> held i tr = incs l;
  li_nd : NoDup (lq s);
  li_q : forall i, i ∈ lq s -> exists v, ts !! i = Some (LBlk v);
  li_wake : forall i, i ∈ lq s -> lbits s = 2%nat \/ 0 < sumz isnot ts;
  li_tb : forall i l, ts !! i = Some l -> tb l }.
Lemma incs_nn l : 0 <= incs l. Proof. destruct l; simpl; lia. Qed.
Lemma isnot_nn l : 0 <= isnot l. Proof. destruct l; simpl; lia. Qed.
Lemma held_app i a b : held i (a ++ b) = held i a + held i b.
Proof. apply (sumz_app (fun e => match e with ELock j _ => if decide (j = i) then 1 else 0 | EUnlock j _ => if decide (j = i) then -1 else 0 end)). Qed.
Lemma li_frame v0 tr s ts i l e s' l' : LI v0 tr s ts -> ts !! i = Some l ->
  (lbits s' <= 2)%nat -> tb l' ->
  (if decide (lbits s' = 0%nat) then 0 else 1) = (if decide (lbits s = 0%nat) then 0 else 1) - incs l + incs l' ->
  (match e with Some (EUnlock _ w) => lval s' = w /\ incs l = 1 | _ => lval s' = lval s end) ->
  (forall v, l' = LCs v -> v = lval s') ->
  (forall j, held j (option_list e) = if decide (j = i) then incs l' - incs l else 0) ->
  NoDup (lq s') -> (forall j, j ∈ lq s' -> j <> i -> j ∈ lq s) -> (i ∈ lq s' -> exists v, l' = LBlk v) ->
  (lq s' <> [] -> lbits s' = 2%nat \/ 0 < isnot l' - isnot l \/ isnot l' = isnot l /\ (lbits s <> 2%nat \/ lbits s' = 2%nat) /\ forall j, j ∈ lq s' -> j ∈ lq s) ->
  LI v0 (tr ++ option_list e) s' (<[i := l']> ts).
Proof.
  intros HI Hl H1 H2 H3 H4 H5 H6 H7 H8 H9 H10.
  assert (Hlen : (i < length ts)%nat) by (by eapply lookup_lt_Some).
  assert (Hlk : forall j k, <[i := l']> ts !! j = Some k -> j = i /\ k = l' \/ j <> i /\ ts !! j = Some k).
  { intros j k Hj. destruct (decide (j = i)) as [->|Hne]; [rewrite list_lookup_insert in Hj by done; left; by injection Hj as ->|]. right. by rewrite list_lookup_insert_ne in Hj. }
  split; try done.
  - rewrite (sumz_insert _ _ _ _ _ Hl), (li_cs _ _ _ _ HI). lia.
  - pose proof (li_val _ _ _ _ HI) as Hv. unfold last_val in *. rewrite foldl_app, <- Hv. destruct e as [[]|]; cbn; [done|tauto|done].
  - intros j v Hj. apply Hlk in Hj as [[-> Hj]|[Hne Hj]]; [by apply H5|]. pose proof (li_csv _ _ _ _ HI j v Hj) as ->.
    destruct e as [[]|]; try done. destruct H4 as [H4 Hc]. exfalso.
    pose proof (sumz_insert incs ts i l LIdle Hl) as Hs. pose proof (li_cs _ _ _ _ HI) as Hcs.
    assert (Hj' : <[i := LIdle]> ts !! j = Some (LCs (lval s))) by (by rewrite list_lookup_insert_ne).
    pose proof (sumz_ge incs _ j _ incs_nn Hj'). simpl in *. case_decide; lia.
  - intros j k Hj. rewrite held_app, H6. apply Hlk in Hj as [[-> ->]|[Hne Hj]].
    + rewrite decide_True by done. rewrite (li_held _ _ _ _ HI i l Hl). lia.
    + rewrite decide_False by done. rewrite (li_held _ _ _ _ HI j k Hj). lia.
  - intros j Hj. destruct (decide (j = i)) as [->|Hne]; [destruct (H9 Hj) as [v ->]; exists v; by rewrite list_lookup_insert|].
    rewrite list_lookup_insert_ne by done. apply (li_q _ _ _ _ HI). by apply H8.
  - intros j Hj. destruct H10 as [?|[?|(E & Hb & Hsub)]]; [intros Hx; rewrite Hx in Hj; by apply elem_of_nil in Hj|by left|right|].
    + rewrite (sumz_insert _ _ _ _ _ Hl). pose proof (sumz_ge isnot ts i l isnot_nn Hl). pose proof (sumz_nonneg isnot ts isnot_nn). lia.
    + destruct (li_wake _ _ _ _ HI j (Hsub j Hj)) as [Hw|Hw]; [destruct Hb; [done|by left]|]. right. rewrite (sumz_insert _ _ _ _ _ Hl). lia.
  - intros j k Hj. apply Hlk in Hj as [[-> ->]|[_ Hj]]; [done|by eapply (li_tb _ _ _ _ HI)].
Qed.
Lemma li_step v0 tr s ts i l e s' l' : LI v0 tr s ts -> ts !! i = Some l -> lp_step i s l e s' l' -> LI v0 (tr ++ option_list e) s' (<[i := l']> ts).
Proof.
  intros HI Hl Ht. pose proof (li_bits _ _ _ _ HI) as Hb. pose proof (li_nd _ _ _ _ HI) as Hnd. pose proof (li_tb _ _ _ _ HI i l Hl) as Htb.
  assert (Hi : i ∈ lq s -> exists v, l = LBlk v). { intros H. destruct (li_q _ _ _ _ HI i H) as [v Hv]. exists v. congruence. }
  assert (Hcs : incs l = 1 -> lbits s <> 0%nat). { intros H. pose proof (sumz_ge incs ts i l incs_nn Hl). pose proof (li_cs _ _ _ _ HI). case_decide; lia. }
  inversion Ht; subst; clear Ht.
  all: try (case_decide).
  all: eapply li_frame; [exact HI|exact Hl|..]; simpl in *; try done; try lia.
  all: try (intros j; unfold held; simpl; repeat case_decide; subst; try done; lia).
  all: try (intros Hx; by destruct (Hi Hx)).
  all: try (intros _; right; right; split_and!; [done|by right|done]).
  all: try (case_decide; [|lia]; done).
  all: try (by left).
  all: try (intros _; by left).
  all: try (intros j Hj; by apply elem_of_nil in Hj).
  all: try (intros Hj; by apply elem_of_nil in Hj).
  all: try (intros Hq; right; right; split; [reflexivity|]; split; [lia|]; done).
  all: try (specialize (Hcs eq_refl); rewrite decide_False by done; lia).
  - intros v1 [= ->]. done.
  - apply list.NoDup_cons. split; [|done]. intros Hx. by destruct (Hi Hx).
  - intros j Hj Hne. by apply elem_of_cons in Hj as [->|Hj].
  - by eauto.
  - match goal with H : _ ≡ₚ _ |- _ => rewrite H in Hnd end. by apply list.NoDup_cons in Hnd as [_ ?].
  - intros j Hj _. match goal with H : _ ≡ₚ _ |- _ => rewrite H end. by right.
  - match goal with H : _ ≡ₚ _ |- _ => rewrite H in Hnd end. apply list.NoDup_cons in Hnd as [? _]. done.
  - intros _. right. right. split; [done|]. split; [lia|]. intros j Hj. match goal with H : _ ≡ₚ _ |- _ => rewrite H end. by right.
Qed.
Lemma li_reach v0 k tr s ts : steps lp_step (lp_init v0 k) tr (s, ts) -> LI v0 tr s ts.
Proof.
  intros Hs. refine (steps_inv' lp_step (LI v0) _ _ _ _ tr s ts Hs); clear.
  - assert (H : forall i l, replicate k LIdle !! i = Some l -> l = LIdle) by (intros i l Hl; by apply lookup_replicate_1 in Hl as [-> _]).
    split; simpl; try done; try lia.
    + apply sumz_zero. intros i l Hl. by rewrite (H _ _ Hl).
    + intros i v Hv. by apply H in Hv.
    + intros i l Hl. by rewrite (H _ _ Hl).
    + apply NoDup_nil_2.
    + intros i Hi. by apply elem_of_nil in Hi.
    + intros i Hi. by apply elem_of_nil in Hi.
    + intros i l Hl. by rewrite (H _ _ Hl).
  - intros tr s ts i l e s' l' HI Hl Ht. by eapply li_step.
Qed.
