From stdpp Require Import base list numbers option decidable.
From Coq Require Import ZArith Lia.
From Verif Require Import Conc.Sched Conc.LatchModel.
Local Open Scope Z_scope.

Definition lpend (l : lloc) : Z := match l with LSub _ u => u | _ => 0 end.
Definition lnot (l : lloc) : Z := match l with LNotify _ => 1 | _ => 0 end.
Definition lwf (c : Z) (l : lloc) : Prop :=
  match l with LSub _ u => 0 <= u | LAtom cur | LCmp cur | LBlocked cur => 0 < cur | LNotify _ => c = 0 | LFailed => False | _ => True end.
Definition done_ev (e : lev) : Prop := match e with ERetWait _ | ETryWait _ true => True | _ => False end.
Record LI (expected : Z) (tr : list lev) (s : lst) (ts : list lloc) : Prop := {
  li_acct : lcounter s = expected - (downs tr - sumz lpend ts);
  li_range : 0 <= lcounter s;
  li_wf : forall i l, ts !! i = Some l -> lwf (lcounter s) l;
  li_nodup : NoDup (lq s);
  li_q : forall i, i ∈ lq s -> exists c, ts !! i = Some (LBlocked c);
  li_live : lq s <> [] -> lcounter s = 0 -> 0 < sumz lnot ts;
  li_done : Exists done_ev tr -> lcounter s = 0;
}.
Lemma downs_app a b : downs (a ++ b) = downs a + downs b.
Proof. apply (sumz_app (fun e => match e with ECallDown _ u => u | _ => 0 end)). Qed.

Section inv.
  Context (expected : Z).
  Lemma li_init n : 0 <= expected -> LI expected [] (latch_init expected n).1 (latch_init expected n).2.
  Proof.
    intros H. unfold latch_init. simpl. assert (Hz : forall f, f LIdle = 0 -> sumz f (replicate n LIdle) = 0).
    { intros f Hf. apply sumz_zero. intros i x Hx. apply lookup_replicate in Hx as [-> _]. done. }
    split; simpl; rewrite ?Hz by done; try lia; try done.
    - intros i l Hl. apply lookup_replicate in Hl as [-> _]. done.
    - constructor.
    - intros i Hi. by apply elem_of_nil in Hi.
    - intros Hx. by inversion Hx.
  Qed.
  Lemma lpend_nonneg c ts : (forall i l, ts !! i = Some l -> lwf c l) -> 0 <= sumz lpend ts.
  Proof.
    intros Hwf. induction ts as [|x ts IH]; [done|]. rewrite sumz_cons.
    pose proof (Hwf 0%nat x eq_refl) as Hx. specialize (IH (fun i l => Hwf (S i) l)). destruct x; simpl in *; try done; lia.
  Qed.
  Lemma li_step tr s ts i l e s' l' : LI expected tr s ts -> ts !! i = Some l -> latch_step i s l e s' l' ->
    LI expected (tr ++ option_list e) s' (<[i := l']> ts).
  Proof.
    intros HI Hl Hst. destruct HI as [Hacct Hrange Hwf Hnd Hq Hlive Hdone].
    assert (Hnq : (forall c, l <> LBlocked c) -> i ∉ lq s).
    { intros Hn Hi. destruct (Hq i Hi) as [t Ht]. rewrite Hl in Ht. injection Ht as ->. by apply (Hn t). }
    pose proof (Hwf i l Hl) as Hw. pose proof (lpend_nonneg _ _ Hwf) as Hpn.
    assert (Hnn : forall x, 0 <= lnot x) by (intros []; simpl; lia).
    pose proof (sumz_nonneg lnot (<[i := l']> ts) Hnn) as Hnn'. rewrite (sumz_insert _ _ _ _ _ Hl) in Hnn'.
    assert (Hq' : lq s' = lq s -> i ∉ lq s -> forall k, k ∈ lq s' -> exists c, <[i := l']> ts !! k = Some (LBlocked c)).
    { intros -> Hi k Hk. destruct (Hq k Hk) as [c Hc]. exists c. rewrite list_lookup_insert_ne; [done|]. by intros ->. }
    assert (Hsame : lcounter s' = lcounter s -> lwf (lcounter s') l' -> forall j x, <[i := l']> ts !! j = Some x -> lwf (lcounter s') x).
    { intros -> Hl'. by apply wf_insert. }
    inversion Hst; subst.
    all: try (split; [simpl in *; rewrite ?app_nil_r, ?downs_app, ?(sumz_insert _ _ _ _ _ Hl); simpl; repeat case_decide; simpl; try lia
       |simpl in *; try lia
       |try (apply Hsame; [done|simpl in *; try done; repeat case_decide; simpl; try done; try lia])
       |try done
       |try (apply Hq'; [done|by apply Hnq])
       |simpl; try (intros Hne Hc; specialize (Hlive Hne Hc); rewrite ?(sumz_insert _ _ _ _ _ Hl); repeat case_decide; simpl in *; lia)
       |simpl in *; intros Hex; apply list.Exists_app in Hex as [Hex|Hex]; [specialize (Hdone Hex); try lia|
          try (by inversion Hex); try (by inversion Hex as [? ? []|? ? Hex']; inversion Hex'); try lia]]).
    all: try constructor; try done.
    all: try (by intros ? ?%elem_of_nil).
    all: try (match goal with Hex : Exists done_ev [_] |- _ => apply list.Exists_exists in Hex as (x & Hx & Hd); apply elem_of_list_singleton in Hx as ->; simpl in Hd; by try done end).
    all: try (match goal with |- forall _ _, <[_ := _]> _ !! _ = _ -> _ => apply wf_insert; simpl in *;
        [intros k x Hx; pose proof (Hwf k x Hx); destruct x; simpl in *; try done; lia|repeat case_decide; simpl; try done; lia] end).
    - simpl in *. intros Hne Hc. rewrite (sumz_insert _ _ _ _ _ Hl). rewrite decide_True by done. simpl. pose proof (sumz_nonneg lnot ts Hnn). lia.
    - simpl in *. intros Hne Hc. rewrite (sumz_insert _ _ _ _ _ Hl). rewrite decide_True by done. simpl. pose proof (sumz_nonneg lnot ts Hnn). lia.
    - by apply (Hnq ltac:(done)).
    - simpl in *. intros k Hk. apply elem_of_cons in Hk as [->|Hk].
      + exists c. apply list_lookup_insert. by eapply lookup_lt_Some.
      + destruct (Hq k Hk) as [t' Ht']. exists t'. rewrite list_lookup_insert_ne; [done|]. intros ->. congruence.
    - simpl in *. lia.
    - by apply Hq'.
    - simpl in *. rewrite H in Hnd. by apply list.NoDup_cons in Hnd as [_ ?].
    - simpl in *. intros k Hk. destruct (Hq k) as [t' Ht']; [rewrite H; by right|]. exists t'.
      rewrite list_lookup_insert_ne; [done|]. intros ->. rewrite H in Hnd. by apply list.NoDup_cons in Hnd as [? _].
    - simpl in *. intros Hne Hc. assert (Hne' : qq <> []). { intros ->. apply Permutation_nil in H. done. }
      specialize (Hlive Hne' Hc). rewrite (sumz_insert _ _ _ _ _ Hl). simpl. lia.
    - apply list.Exists_exists in Hex as (x & Hx & Hd). apply elem_of_list_singleton in Hx as ->. simpl in Hd.
      destruct (bool_decide _) eqn:Hb; [|done]. by apply bool_decide_eq_true in Hb.
  Qed.
  Lemma li_reach n tr s ts : 0 <= expected -> steps latch_step (latch_init expected n) tr (s, ts) -> LI expected tr s ts.
  Proof.
    intros H0 Hs. unfold latch_init in Hs. apply (steps_inv' _ (LI expected) _ _ (li_init n H0)) in Hs; [done|].
    intros. by eapply li_step.
  Qed.
End inv.
