(** C34: stop_source::request_stop and stop_callback, and the lock they use (theorems named C34_lock_...), in every interleaving of any
    number of threads. What a user sees is the trace of calls, returns and callback invocations: [runs n tr] counts the
    invocations of callback n, [runs_by i n] / [dones_by i n] those begun / finished by thread i, [wins tr] how often
    request_stop answered true. Callbacks are user code: inside them a thread may call any operation, also destroy the very
    callback it is running. Every prefix of an execution is an execution, so the theorems hold at every moment. *)
From stdpp Require Import base list numbers option decidable list_numbers.
From Coq Require Import ZArith Lia.
From Verif Require Import Conc.Sched.
From Verif Require Import Conc.StopTokenModel Conc.StopTokenProofs Conc.StopTokenProofs2.
From Verif Require Conc.LockedPointerModel Conc.LockedPointerProofs.
Local Open Scope Z_scope.

(** request_stop answers true at most once *)
Theorem C34_one_winner k tr s ts : steps sp_step (sp_init k) tr (s, ts) -> wins tr <= 1.
Proof.
  intros Hs. pose proof (pa_rr _ _ _ (pi_a _ _ _ (pi_reach k tr s ts Hs))) as H. pose proof (sumz_nonneg rr ts rr_nn). destruct (requested s); simpl in H; lia.
Qed.
(** thread state: inside the winning request_stop call (possibly in a callback it invoked) *)
Definition stopping (l : ploc) : Prop := (exists n, (n, true) ∈ l.1) \/ (exists n, l.2 = Some (RCall n)) \/ l.2 ∈ [Some RTid; Some RLock; Some RCur; Some RNot; Some RHead; Some RFail].
Lemma rr_stopping l : 1 <= rr l -> stopping l.
Proof.
  destruct l as [c o]. unfold rr, stopping. simpl. intros H. destruct (decide (1 <= ntrue c)) as [Hn|Hn].
  - left. clear H. induction c as [|[x b] c IH]; [simpl in Hn; lia|]. rewrite ntrue_cons in Hn. destruct b; [exists x; left|]. simpl in Hn. destruct IH as [n Hn']; [lia|]. exists n. by right.
  - right. assert (1 <= rop o) by lia. destruct o as [[]|]; simpl in *; try lia; first [left; eauto; fail|right; rewrite !elem_of_cons; tauto].
Qed.
Lemma sumz_pos {L} (f : L -> Z) ts : 0 < sumz f ts -> exists i x, ts !! i = Some x /\ 0 < f x.
Proof.
  induction ts as [|y ts IH]; [simpl; lia|]. rewrite sumz_cons. intros H. destruct (decide (0 < f y)); [by exists 0%nat, y|]. destruct IH as (i & x & Hi); [lia|]. by exists (S i), x.
Qed.
(** it answers false only if another call has answered true or is still running the callbacks *)
Theorem C34_loser k tr s ts i c' : steps sp_step (sp_init k) tr (s, ts) -> step sp_step (s, ts) [EReq i false] c' ->
  wins tr = 1 \/ exists j l, ts !! j = Some l /\ stopping l.
Proof.
  intros Hs Hst. pose proof (pa_rr _ _ _ (pi_a _ _ _ (pi_reach k tr s ts Hs))) as H. inversion Hst as [i' s0 ts0 l o s1 l' Hl Ht Hq0 Hx]; subst. destruct o as [e|]; [|done]. injection Hx as ->.
  inversion Ht; subst. match goal with Hr : requested _ = true |- _ => rewrite Hr in H; simpl in H end. destruct (decide (wins tr = 1)) as [|Hne]; [by left|]. right.
  destruct (sumz_pos rr ts) as (j & x & Hj & Hx'); [pose proof (C34_one_winner _ _ _ _ Hs); lia|]. exists j, x. split; [done|]. apply rr_stopping. lia.
Qed.
(** stop_requested() answers true once any request_stop call has returned, and a callback is invoked only then *)
Lemma req_reach k tr s ts : steps sp_step (sp_init k) tr (s, ts) ->
  ((exists i b, EReq i b ∈ tr) \/ (exists i n, ERun i n ∈ tr) \/ (exists i c n, ts !! i = Some (c, Some (ACall n)))) -> requested s = true.
Proof.
  intros Hs. cut (PI tr s ts /\ (((exists i b, EReq i b ∈ tr) \/ (exists i n, ERun i n ∈ tr) \/ (exists i c n, ts !! i = Some (c, Some (ACall n)))) -> requested s = true)); [tauto|].
  refine (steps_inv' sp_step (fun tr s ts => PI tr s ts /\ (((exists i b, EReq i b ∈ tr) \/ (exists i n, ERun i n ∈ tr) \/ (exists i c n, ts !! i = Some (c, Some (ACall n)))) -> requested s = true)) _ _ _ _ tr s ts Hs); clear.
  - split; [apply (pi_reach k); constructor|]. intros [(i & b & H)|[(i & n & H)|(i & c & n & H)]]; [by apply elem_of_nil in H|by apply elem_of_nil in H|by apply ts_init in H].
  - intros tr s ts i l e s' l' [HI IH] Hl Ht. split.
    { destruct HI as [HA HB [L HC]]. split; [by eapply pa_step|by eapply pb_step|]. eapply pc_step; [by split_and!|done|done]. }
    assert (Hm : requested s = true -> requested s' = true) by (intros Hr; inversion Ht; subst; simpl in *; congruence).
    assert (Hrr : 1 <= rr l -> requested s = true).
    { intros H. pose proof (pa_rr _ _ _ (pi_a _ _ _ HI)) as Hr. pose proof (sumz_ge rr ts i l rr_nn Hl). pose proof (wins_nn tr). destruct (requested s); simpl in *; [done|lia]. }
    intros [(j & b & H)|[(j & n & H)|(j & c & n & H)]].
    + apply elem_of_app in H as [H|H]; [apply Hm, IH; left; eauto|]. apply elem_of_ol in H as ->. inversion Ht; subst; simpl in *; [done|]. apply Hrr. unfold rr. simpl. pose proof (ntrue_nn c). lia.
    + apply elem_of_app in H as [H|H]; [apply Hm, IH; right; left; eauto|]. apply elem_of_ol in H as ->. inversion Ht; subst; simpl in *.
      * apply Hrr. unfold rr. simpl. pose proof (ntrue_nn c). lia.
      * apply IH. right. right. eauto.
    + destruct (decide (j = i)) as [->|Hne]; [|rewrite list_lookup_insert_ne in H by done; apply Hm, IH; right; right; eauto].
      rewrite list_lookup_insert in H by (by eapply lookup_lt_Some). injection H as ->. inversion Ht; subst; simpl in *; try done. destruct rs; done.
Qed.
Theorem C34_stop_requested k tr s ts i b : steps sp_step (sp_init k) tr (s, ts) -> EReq i b ∈ tr -> requested s = true.
Proof. intros Hs H. apply (req_reach k tr s ts Hs). left. eauto. Qed.
Theorem C34_run_requested k tr s ts i n : steps sp_step (sp_init k) tr (s, ts) -> ERun i n ∈ tr -> requested s = true.
Proof. intros Hs H. apply (req_reach k tr s ts Hs). right. left. eauto. Qed.
(** no callback is invoked twice *)
Theorem C34_at_most_once k tr s ts n : steps sp_step (sp_init k) tr (s, ts) -> runs n tr <= 1.
Proof.
  intros Hs. destruct (pi_c _ _ _ (pi_reach k tr s ts Hs)) as [L HC]. pose proof (c_le _ _ _ _ HC n). pose proof (inL_nn n L). pose proof (sumz_nonneg (pend n) ts (pend_nn n)). lia.
Qed.
(** nor before its constructor is called *)
Lemma run_pend i s l s' l' n : sp_step i s l (Some (ERun i n)) s' l' -> pend n l = 1.
Proof. intros Ht. inversion Ht; subst; unfold pend; simpl; apply one_eq. Qed.
Lemma run_thread i j s l s' l' n : sp_step i s l (Some (ERun j n)) s' l' -> j = i.
Proof. intros Ht. by inversion Ht. Qed.
Theorem C34_run_registered k tr s ts i n c' : steps sp_step (sp_init k) tr (s, ts) -> step sp_step (s, ts) [ERun i n] c' -> ECtor n ∈ tr.
Proof.
  intros Hs Hst. pose proof (pi_reach k tr s ts Hs) as [HA HB [L HC]]. inversion Hst as [i' s0 ts0 l o s1 l' Hl Ht Hq0 Hx]; subst. destruct o as [e|]; [|done]. injection Hx as ->.
  pose proof (run_thread _ _ _ _ _ _ _ Ht) as ->. pose proof (run_pend _ _ _ _ _ _ Ht) as Hp. apply (pa_ctor _ _ _ HA n). pose proof (c_unb _ _ _ _ HC n) as Hu.
  pose proof (sumz_ge (pend n) ts _ l (pend_nn n) Hl). assert (0 <= runs n tr) by (apply ecount_nn; intros []; try lia; case_decide; lia). pose proof (inL_nn n L).
  destruct (lives s n); simpl; try lia. specialize (Hu eq_refl). lia.
Qed.
(** when request_stop has answered true, every callback that is registered (constructor returned, destructor not called) has
    been invoked exactly once, and that invocation has returned - whether registered before or after the request *)
Theorem C34_exactly_once k tr s ts i n : steps sp_step (sp_init k) tr (s, ts) -> EReq i true ∈ tr -> ECtorEnd n ∈ tr -> EDtor n ∉ tr ->
  runs n tr = 1 /\ forall j, (j < k)%nat -> runs_by j n tr = dones_by j n tr.
Proof.
  intros Hs Hw Hc Hd. pose proof (pi_reach k tr s ts Hs) as [HA HB [L HC]].
  assert (Hwin : 0 < wins tr). { clear -Hw. induction tr as [|e tr IH]; [by apply elem_of_nil in Hw|]. change (wins (e :: tr)) with ((match e with EReq _ true => 1 | _ => 0 end) + wins tr). pose proof (wins_nn tr). apply elem_of_cons in Hw as [<-|Hw]; [lia|]. specialize (IH Hw). destruct e as [? []| | | | | |]; lia. }
  assert (Hl : lives s n = Alive). { apply (pa_ctorend _ _ _ HA n) in Hc. destruct (lives s n) eqn:El; simpl in *; try lia; try done; exfalso; apply Hd, (pa_dtor _ _ _ HA n); rewrite El; simpl; lia. }
  pose proof (pa_rr _ _ _ HA) as Hr. pose proof (sumz_nonneg rr ts rr_nn) as Hrn.
  assert (Hrq : requested s = true) by (destruct (requested s); simpl in Hr; [done|lia]). rewrite Hrq in Hr. simpl in Hr.
  destruct (c_wins _ _ _ _ HC Hwin) as [-> _]. pose proof (c_reg _ _ _ _ HC n ltac:(by right) ltac:(by left)) as Hreg. rewrite inL_out in Hreg by apply not_elem_of_nil.
  assert (Hz : forall j l, ts !! j = Some l -> rr l = 0 /\ actor n l = 0).
  { intros j l Hj. pose proof (sumz_ge rr ts j l rr_nn Hj). pose proof (rr_nn l). pose proof (pa_act _ _ _ HA n) as Ha. rewrite Hl in Ha. simpl in Ha.
    pose proof (sumz_ge (actor n) ts j l (actor_nn n) Hj). pose proof (actor_nn n l). lia. }
  assert (Hp : sumz (pend n) ts = 0).
  { apply sumz_zero. intros j l Hj. destruct (Hz j l Hj) as [H1 H2]. destruct l as [c o]. unfold rr, actor, pend in *. simpl in *. pose proof (ntrue_nn c). pose proof (nfalse_nn n c). pose proof (aop_nn n o). pose proof (rop_nn o).
    destruct o as [[]|]; simpl in *; try lia. }
  split; [lia|]. intros j Hj. destruct (lookup_lt_is_Some_2 ts j) as [l Hjl]; [by rewrite (steps_length _ _ _ _ _ _ Hs), replicate_length|].
  pose proof (pa_run _ _ _ HA j n l Hjl) as Hrun. destruct (Hz j l Hjl) as [H1 H2]. cut (runon n l = 0); [lia|].
  destruct l as [c o]. unfold rr, actor, runon in *. simpl in *. pose proof (rop_nn o). pose proof (aop_nn n o). assert (Ht : ntrue c = 0) by (pose proof (ntrue_nn c); lia). assert (Hf : nfalse n c = 0) by (pose proof (nfalse_nn n c); lia).
  clear -Ht Hf. induction c as [|[x b] c IH]; [done|]. rewrite ntrue_cons in Ht. rewrite nfalse_cons in Hf. pose proof (ntrue_nn c). pose proof (nfalse_nn n c). pose proof (one_nn n x). rewrite sumz_cons. simpl.
  destruct b; simpl in *; [lia|]. rewrite IH; lia.
Qed.
(** once a callback's destructor has returned it is never invoked again *)
Theorem C34_not_after_destruction k tr s ts i n pre post j : steps sp_step (sp_init k) tr (s, ts) -> tr = pre ++ EDtorEnd i n :: post -> ERun j n ∉ post.
Proof.
  intros Hs -> Hin. apply elem_of_list_split in Hin as (p1 & p2 & ->).
  destruct (steps_event sp_step _ _ _ Hs (pre ++ EDtorEnd i n :: p1) (ERun j n) p2) as ([s1 ts1] & c2 & Hs1 & Hst); [by rewrite <- app_assoc|].
  pose proof (pi_reach k _ _ _ Hs1) as [HA HB [L HC]]. inversion Hst as [i' s0 ts0 l o s1' l' Hl Ht Hq0 Hx]; subst. destruct o as [e|]; [|done]. injection Hx as ->.
  pose proof (run_thread _ _ _ _ _ _ _ Ht) as ->. pose proof (run_pend _ _ _ _ _ _ Ht) as Hp.
  assert (Hd : (4 <= rank (lives s1 n))%nat). { apply (pa_dead _ _ _ HA n). exists i. apply elem_of_app. right. left. }
  assert (Hdead : lives s1 n = Dead) by (destruct (lives s1 n); simpl in Hd; try lia; done).
  pose proof (c_dead _ _ _ _ HC n Hdead). pose proof (sumz_ge (pend n) ts1 _ l (pend_nn n) Hl). lia.
Qed.
(** and when the destructor returns, no other thread is still running the callback: the destructor has waited for it *)
Theorem C34_destructor_waits k tr s ts i n c' : steps sp_step (sp_init k) tr (s, ts) -> step sp_step (s, ts) [EDtorEnd i n] c' ->
  forall j, (j < k)%nat -> j <> i -> runs_by j n tr = dones_by j n tr.
Proof.
  intros Hs Hst j Hj Hne. pose proof (pi_reach k tr s ts Hs) as [HA HB [L HC]]. inversion Hst as [i' s0 ts0 l o s1 l' Hl Ht Hq0 Hx]; subst. destruct o as [e|]; [|done]. injection Hx as ->.
  inversion Ht; subst. destruct (c_dret _ _ _ _ HC _ _ n Hl) as [_ H2]; [by apply bool_decide_eq_true|].
  destruct (lookup_lt_is_Some_2 ts j) as [lj Hjl]; [by rewrite (steps_length _ _ _ _ _ _ Hs), replicate_length|].
  pose proof (pa_run _ _ _ HA j n lj Hjl). pose proof (H2 j lj Hjl Hne). lia.
Qed.
(** but it does not wait for ever: if every thread is in user code or asleep in a destructor, then for every thread asleep in
    the destructor of n, another thread is still executing the body of callback n *)
Theorem C34_destructor_wakes k tr s ts i c n : steps sp_step (sp_init k) tr (s, ts) ->
  (forall j l, ts !! j = Some l -> l.2 = None \/ (exists m, l.2 = Some (DBlk m)) /\ j ∈ wq s) ->
  ts !! i = Some (c, Some (DBlk n)) -> exists j, (j < k)%nat /\ dones_by j n tr < runs_by j n tr.
Proof.
  intros Hs Hq Hi. pose proof (pi_reach k tr s ts Hs) as [HA HB _]. pose proof (pd_reach k tr s ts Hs) as HD.
  destruct (Hq i _ Hi) as [?|[_ Hw]]; [done|]. destruct (d_wq _ _ HD i Hw) as (c1 & n1 & Hx & Hor). pose proof (eq_trans (eq_sym Hi) Hx) as Hy. injection Hy as <- <-.
  assert (Hc : cur s = Some n).
  { destruct Hor as [?|Hr]; [done|]. apply sumz_pos in Hr as (j & x & Hj & Hp). destruct (Hq j x Hj) as [H|[[m H] _]]; unfold isrnot in Hp; rewrite H in Hp; lia. }
  pose proof (d_cur _ _ HD n Hc) as Hd. destruct (sumz_pos (crr n) ts) as (j & x & Hj & Hp); [lia|].
  exists j. split; [apply lookup_lt_Some in Hj; by rewrite (steps_length _ _ _ _ _ _ Hs), replicate_length in Hj|].
  pose proof (pa_run _ _ _ HA j n x Hj) as Hrun. cut (0 < runon n x); [lia|].
  unfold crr in Hp. destruct (Hq j x Hj) as [H|[[m H] _]]; rewrite H in Hp; simpl in Hp; unfold runon; destruct x as [c2 o]; simpl in *; clear -Hp.
  all: assert (Hp' : 0 < sumz (fun x : nat * bool => if x.2 then one n x.1 else 0) c2) by lia; clear Hp; eapply Z.lt_le_trans; [exact Hp'|]; apply sumz_le; intros _ [y []] _; simpl; pose proof (one_nn n y); lia.
Qed.
(** and a thread that holds the list lock can always release it *)
Theorem C34_lock_holder_runs k tr s ts : steps sp_step (sp_init k) tr (s, ts) -> locked s = true ->
  exists i l e s' l', ts !! i = Some l /\ sp_step i s l e s' l' /\ l.2 <> None.
Proof.
  intros Hs Hlk. pose proof (pi_reach k tr s ts Hs) as [HA HB [L HC]]. pose proof (pa_ins _ _ _ HA) as Hi. rewrite Hlk in Hi. simpl in Hi.
  destruct (sumz_pos ins ts) as (i & [c o] & Hl & Hp); [lia|]. exists i, (c, o). unfold ins in Hp. simpl in Hp. pose proof (c_ok _ _ _ _ HC i _ Hl) as Hok. unfold opfail in Hok. simpl in Hok.
  destruct s as [sr rq lk h nx pv pa cu st q li]. destruct o as [[]|]; simpl in *; try lia; try done.
  - do 3 eexists. split; [done|]. split; [apply p_rcur|done].
  - do 3 eexists. split; [done|]. split; [apply p_rnot|done].
  - destruct h as [m|].
    + do 3 eexists. split; [done|]. split; [eapply p_rhead; [done|]|done]. simpl. destruct (dseg_in_hd _ _ _ _ _ m (c_dll _ _ _ _ HC)) as [L' ->]; [done|]. destruct (c_dll _ _ _ _ HC) as (_ & ? & _). done.
    + do 3 eexists. split; [done|]. split; [by apply p_rhead_end|done].
  - destruct rq; [do 3 eexists; split; [done|]; split; [by apply p_achk_req|done]|]. destruct (decide (sr = 0%nat)) as [->|Hne].
    + do 3 eexists. split; [done|]. split; [by apply p_achk_none|done].
    + do 3 eexists. split; [done|]. split; [by apply p_achk|done].
  - do 3 eexists. split; [done|]. split; [apply p_ains|done].
  - destruct (decide (h = Some n)) as [->|Hne].
    + destruct (pv n) eqn:Ep; do 3 eexists; (split; [done|]); (split; [|done]); [apply p_dchk_head_bad; simpl; congruence|by apply p_dchk_head].
    + destruct (pv n) eqn:Ep; [do 3 eexists; (split; [done|]); (split; [by eapply p_dchk_mid|done])|].
      destruct rq; [|do 3 eexists; (split; [done|]); (split; [by eapply p_dchk_bad|done])].
      destruct (decide (cu = Some n)) as [->|Hc]; [|do 3 eexists; (split; [done|]); (split; [eapply p_dchk_done; try done; by left|done])].
      destruct (decide (st = Some i)) as [->|Hc]; [do 3 eexists; (split; [done|]); (split; [eapply p_dchk_done; try done; by right|done])|].
      do 3 eexists; (split; [done|]); (split; [eapply p_dchk_wait; done|done]).
Qed.
(** no _STL_INTERNAL_CHECK fails *)
Theorem C34_checks k tr s ts i l : steps sp_step (sp_init k) tr (s, ts) -> ts !! i = Some l -> l.2 <> Some RFail /\ forall n, l.2 <> Some (DFail n).
Proof. intros Hs Hl. destruct (pi_c _ _ _ (pi_reach k tr s ts Hs)) as [L HC]. pose proof (c_ok _ _ _ _ HC i l Hl) as H. unfold opfail in H. destruct l as [c [[]|]]; done. Qed.

Ltac go i c := eapply (run _ i); [reflexivity|c|cbn [insert list_insert replicate srcs requested locked hd nxt prv par cur stopper wq lives set_life set_lock set_srcs set_wq set_list]].
(** two threads, two callbacks: thread 0 registers callback 0; thread 1 requests stop and invokes it; meanwhile thread 0 calls
    its destructor, which goes to sleep; the callback returns, the sleeper is woken; thread 1 then registers callback 1, which
    is invoked at once *)
Definition sat_tr : list pev := [ECtor 0; ECtorEnd 0; ERun 1 0; EDtor 0; EDone 1 0; EReq 1 true; EDtorEnd 0 0; ECtor 1; ERun 1 1; EDone 1 1; ECtorEnd 1].
Example C34_sat : exists s ts, steps sp_step (sp_init 2) sat_tr (s, ts) /\ wins sat_tr = 1 /\ runs 0 sat_tr = 1 /\ runs 1 sat_tr = 1.
Proof.
  do 2 eexists. split; [|by vm_compute]. unfold sat_tr, sp_init. cbn [replicate].
  change [ECtor 0; ECtorEnd 0; ERun 1 0; EDtor 0; EDone 1 0; EReq 1 true; EDtorEnd 0 0; ECtor 1; ERun 1 1; EDone 1 1; ECtorEnd 1] with
    (option_list (Some (ECtor 0)) ++ option_list None ++ option_list None ++ option_list None ++ option_list None ++ option_list (Some (ECtorEnd 0)) ++
     option_list None ++ option_list None ++ option_list None ++ option_list None ++ option_list None ++ option_list None ++ option_list None ++ option_list (Some (ERun 1 0)) ++
     option_list (Some (EDtor 0)) ++ option_list None ++ option_list None ++ option_list None ++ option_list None ++ option_list (Some (EDone 1 0)) ++ option_list None ++ option_list None ++
     option_list None ++ option_list None ++ option_list None ++ option_list (Some (EReq 1 true)) ++ option_list (Some (EDtorEnd 0 0)) ++
     option_list (Some (ECtor 1)) ++ option_list None ++ option_list (Some (ERun 1 1)) ++ option_list (Some (EDone 1 1)) ++ option_list (Some (ECtorEnd 1)) ++ []).
  go 0%nat ltac:(by apply (p_ctor 0 _ _ 0)). go 0%nat ltac:(by apply p_afast). go 0%nat ltac:(by apply p_alock). go 0%nat ltac:(by apply p_achk). go 0%nat ltac:(apply p_ains). go 0%nat ltac:(apply p_aret).
  go 1%nat ltac:(apply p_request; simpl; apply Nat.lt_0_1).
 go 1%nat ltac:(apply p_fetch; apply Nat.lt_0_1). go 1%nat ltac:(apply p_tid). go 1%nat ltac:(by apply p_rlock). go 1%nat ltac:(apply p_rcur). go 1%nat ltac:(apply p_rnot).
  go 1%nat ltac:(by apply p_rhead). go 1%nat ltac:(apply p_rcall).
  go 0%nat ltac:(by apply (p_dtor 0 _ _ 0)). go 0%nat ltac:(by apply p_dpar). go 0%nat ltac:(by apply p_dlock). go 0%nat ltac:(by apply p_dchk_wait). go 0%nat ltac:(by apply p_dwait_block).
  go 1%nat ltac:(apply (p_done 1 _ _ _ true)). go 1%nat ltac:(by apply p_rlock). go 1%nat ltac:(apply p_rcur). go 1%nat ltac:(apply p_rnot).
  go 0%nat ltac:(apply p_dblk_woken; apply not_elem_of_nil). go 0%nat ltac:(by apply p_dwait_pass). go 1%nat ltac:(by apply p_rhead_end).
  go 0%nat ltac:(apply p_dret). go 1%nat ltac:(by apply (p_ctor 1 _ _ 1)). go 1%nat ltac:(by apply p_afast_req). go 1%nat ltac:(apply p_acall). go 1%nat ltac:(apply (p_done 1 _ _ _ false)).
  go 1%nat ltac:(apply p_aret). apply steps_nil.
Qed.

Section locked_pointer.
  Import LockedPointerModel LockedPointerProofs.
  (** at most one thread is between _Lock_and_load and _Store_and_unlock *)
  Theorem C34_lock_exclusion v0 k tr s ts i j : steps lp_step (lp_init v0 k) tr (s, ts) -> (i < k)%nat -> (j < k)%nat -> i <> j ->
    0 <= held i tr <= 1 /\ (held i tr = 1 -> held j tr = 0).
  Proof.
    intros Hs Hi Hj Hne. pose proof (li_reach v0 k tr s ts Hs) as HI.
    destruct (lookup_lt_is_Some_2 ts i) as [li Hli]; [by rewrite (steps_length _ _ _ _ _ _ Hs), replicate_length|]. destruct (lookup_lt_is_Some_2 ts j) as [lj Hlj]; [by rewrite (steps_length _ _ _ _ _ _ Hs), replicate_length|].
    rewrite (li_held _ _ _ _ HI i li Hli), (li_held _ _ _ _ HI j lj Hlj). split; [destruct li; simpl; lia|]. intros H. pose proof (sumz_two incs ts i j li lj incs_nn Hne Hli Hlj). pose proof (li_cs _ _ _ _ HI) as Hc. pose proof (incs_nn lj). case_decide; lia.
  Qed.
  (** _Lock_and_load returns the value stored last *)
  Theorem C34_lock_value v0 k tr s ts i v c' : steps lp_step (lp_init v0 k) tr (s, ts) -> step lp_step (s, ts) [ELock i v] c' -> v = last_val v0 tr.
  Proof.
    intros Hs Hst. pose proof (li_reach v0 k tr s ts Hs) as HI. inversion Hst as [i' s0 ts0 l o s1 l' Hl Ht Hq0 Hx]; subst. destruct o as [e|]; [|done]. injection Hx as ->.
    inversion Ht; subst. apply (li_val _ _ _ _ HI).
  Qed.
  (** no lost wake-up: a thread asleep in _Lock_and_load is there only while some thread holds the lock or is about to call
      notify_all *)
  Theorem C34_lock_wakes v0 k tr s ts i : steps lp_step (lp_init v0 k) tr (s, ts) -> i ∈ lq s ->
    exists j l, ts !! j = Some l /\ (l = LNotify \/ held j tr = 1).
  Proof.
    intros Hs Hi. pose proof (li_reach v0 k tr s ts Hs) as HI. destruct (li_wake _ _ _ _ HI i Hi) as [Hb|Hn].
    - pose proof (li_cs _ _ _ _ HI) as Hc. rewrite Hb in Hc. simpl in Hc. destruct (sumz_pos incs ts) as (j & l & Hj & Hp); [lia|]. exists j, l. split; [done|]. right. rewrite (li_held _ _ _ _ HI j l Hj). destruct l; simpl in *; lia.
    - apply sumz_pos in Hn as (j & l & Hj & Hp). exists j, l. split; [done|]. left. destruct l; simpl in *; try lia; done.
  Qed.
  Example C34_lock_sat : exists s ts, steps lp_step (lp_init 0 2) [ELock 0 0; EUnlock 0 8; ELock 1 8] (s, ts) /\ held 1 [ELock 0 0; EUnlock 0 8; ELock 1 8] = 1.
  Proof.
    do 2 eexists. split; [|by vm_compute]. unfold lp_init. cbn [replicate].
    change [ELock 0 0; EUnlock 0 8; ELock 1 8] with (option_list None ++ option_list None ++ option_list (Some (ELock 0 0)) ++ option_list None ++ option_list None ++ option_list None ++ option_list None ++ option_list (Some (EUnlock 0 8)) ++ option_list None ++
      option_list None ++ option_list None ++ option_list None ++ option_list (Some (ELock 1 8)) ++ []).
    go 0%nat ltac:(apply lp_call). go 0%nat ltac:(apply lp_load). go 0%nat ltac:(apply lp_cas0). go 1%nat ltac:(apply lp_call). go 1%nat ltac:(apply lp_load). go 1%nat ltac:(apply lp_cas1). go 1%nat ltac:(apply lp_wait_block).
    go 0%nat ltac:(apply (lp_unlock 0 _ _ _ _ 8)). go 0%nat ltac:(apply lp_notify). go 1%nat ltac:(apply lp_woken; apply not_elem_of_nil). go 1%nat ltac:(by apply lp_wait_pass). go 1%nat ltac:(apply lp_load). go 1%nat ltac:(apply lp_cas0).
    apply steps_nil.
  Qed.
End locked_pointer.

Print Assumptions C34_one_winner.
Print Assumptions C34_loser.
Print Assumptions C34_stop_requested.
Print Assumptions C34_run_requested.
Print Assumptions C34_at_most_once.
Print Assumptions C34_run_registered.
Print Assumptions C34_exactly_once.
Print Assumptions C34_not_after_destruction.
Print Assumptions C34_destructor_waits.
Print Assumptions C34_destructor_wakes.
Print Assumptions C34_lock_holder_runs.
Print Assumptions C34_checks.
Print Assumptions C34_lock_exclusion.
Print Assumptions C34_lock_value.
Print Assumptions C34_lock_wakes.
