(** C41: a promise's result is stored once and is what every get() returns; waiting ends when it is stored, and it is stored at the
    latest when the promise is destroyed; the shared state is destroyed once, by its last user; deferred functions run once.
    [freach dc deferred tr x]: state [x] is reached after history [tr] (events in order) by any number of threads using one promise, its
    future or shared_futures, or the future of async(launch::deferred, f), in any interleaving. [dc]: is the result type default constructible. *)
From stdpp Require Import base list numbers option decidable.
From Coq Require Import ZArith Lia.
From Verif Require Import Conc.FutureModel Conc.FutureSpec Conc.FutureProofs Conc.FutureProofs2.

Section props.
Context {V : Type} (dc deferred : bool).
Implicit Types (tr : list (fev V)) (x : fst_ V).

Lemma freach_inv tr x : freach dc deferred tr x -> inv dc deferred tr x.
Proof. induction 1 as [|tr x e y Hr IH Hs]; [apply inv_init|]. by apply (inv_step dc deferred tr x e y). Qed.
Lemma freach_ev tr x : freach dc deferred tr x -> forall t1 e t2, tr = t1 ++ e :: t2 -> fevok deferred t1 e.
Proof.
  induction 1 as [|tr x e y Hr IH Hs]; intros t1 e' t2 E.
  - by destruct t1.
  - destruct (inv_step dc deferred tr x e y (freach_inv _ _ Hr) Hs) as [_ He]. destruct e as [e|]; cbn [evl] in E; [|rewrite app_nil_r in E; by eapply IH].
    destruct t2 as [|e2 t2 _] using rev_ind.
    + apply app_inj_tail in E as [-> ->]. done.
    + rewrite app_comm_cons, app_assoc in E. apply app_inj_tail in E as [-> _]. by eapply IH.
Qed.

(** a result is stored at most once: by set_value, set_exception, the destructor of the promise or the deferred function *)
Theorem C41_set_once tr x t1 r t2 : freach dc deferred tr x -> tr = t1 ++ ESet r :: t2 -> no_result t1.
Proof. intros Hr E. exact (freach_ev _ _ Hr _ _ _ E). Qed.
(** set_value and set_exception fail with promise_already_satisfied only if there is a result (and, by C41_set_once, always then) *)
Theorem C41_already_satisfied tr x t1 t2 : freach dc deferred tr x -> tr = t1 ++ ESetThrow :: t2 -> exists r, result t1 r.
Proof. intros Hr E. exact (freach_ev _ _ Hr _ _ _ E). Qed.
(** get() returns the value that was stored *)
Theorem C41_get tr x t1 v t2 : freach dc deferred tr x -> tr = t1 ++ EGet v :: t2 -> result t1 (Val v).
Proof. intros Hr E. exact (freach_ev _ _ Hr _ _ _ E). Qed.
(** or throws the exception that was stored *)
Theorem C41_get_exception tr x t1 e t2 : freach dc deferred tr x -> tr = t1 ++ EGetExc e :: t2 -> result t1 (Exc e).
Proof. intros Hr E. exact (freach_ev _ _ Hr _ _ _ E). Qed.
(** wait() returns only when there is a result *)
Theorem C41_wait tr x t1 t2 : freach dc deferred tr x -> tr = t1 ++ EWaited :: t2 -> exists r, result t1 r.
Proof. intros Hr E. exact (freach_ev _ _ Hr _ _ _ E). Qed.
(** wait_for and wait_until tell the truth: ready, not yet, or the deferred function has not been called *)
Theorem C41_wait_for tr x t1 s t2 : freach dc deferred tr x -> tr = t1 ++ EStatus s :: t2 ->
  match s with StReady => exists r, result t1 r | StTimeout => no_result t1 | StDeferred => deferred = true /\ no_result t1 /\ ERun ∉ t1 end.
Proof. intros Hr E. pose proof (freach_ev _ _ Hr _ _ _ E) as H. by destruct s. Qed.
(** the deferred function is called at most once *)
Theorem C41_deferred_once tr x t1 t2 : freach dc deferred tr x -> tr = t1 ++ ERun :: t2 -> deferred = true /\ ERun ∉ t1.
Proof. intros Hr E. exact (freach_ev _ _ Hr _ _ _ E). Qed.
(** get_future succeeds the first time only *)
Theorem C41_get_future_once tr x t1 e t2 : freach dc deferred tr x -> tr = t1 ++ e :: t2 -> (e = EFuture -> EFuture ∉ t1) /\ (e = EFutureThrow -> EFuture ∈ t1).
Proof. intros Hr E. pose proof (freach_ev _ _ Hr _ _ _ E) as H. by split; intros ->. Qed.
(** a future that refers to the state is never refused (no_state, future_already_retrieved), get() never returns a value that nobody
    stored, and no exception ever leaves the destructor of a promise *)
Theorem C41_never tr x e : freach dc deferred tr x -> e ∈ tr -> e <> ENoState /\ e <> EGetAgain /\ e <> EGarbage /\ e <> ETerminate.
Proof. intros Hr (t1 & t2 & E)%elem_of_list_split. pose proof (freach_ev _ _ Hr _ _ _ E) as H. split_and!; intros ->; exact H. Qed.
(** once the promise has been destroyed there is a result: broken_promise if nothing else *)
Theorem C41_broken_promise tr x : freach dc deferred tr x -> deferred = false -> prom x = false -> ADtor1 ∉ acts x -> ADtor2 ∉ acts x -> exists r, result tr r.
Proof.
  intros Hr Hd Hp H1 H2. pose proof (freach_inv _ _ Hr) as HI. eapply evs_ex; [apply HI|]. apply (v_brk _ _ _ _ HI Hd). rewrite Hp.
  assert (csum dt1 (acts x) = 0). { destruct (csum dt1 (acts x)) eqn:E; [done|]. destruct (csum_pos dt1 (acts x)) as (a & Ha & Hx); [lia|]. destruct a; cbn in Hx; try lia. done. }
  assert (csum dt2 (acts x) = 0). { destruct (csum dt2 (acts x)) eqn:E; [done|]. destruct (csum_pos dt2 (acts x)) as (a & Ha & Hx); [lia|]. destruct a; cbn in Hx; try lia. done. }
  cbn. lia.
Qed.
(** no lost wake-up: when there is a result, nobody is blocked *)
Theorem C41_no_lost_wakeup tr x r k : freach dc deferred tr x -> result tr r -> ABlk k ∉ acts x.
Proof.
  intros Hr Hs Hb. pose proof (freach_inv _ _ Hr) as HI. assert (Hrd : ready (shs x) = true).
  { destruct (ready (shs x)) eqn:E; [done|]. pose proof (ready_no _ _ _ (v_res _ _ _ _ HI) E) as E'. apply setsof_elem in Hs. rewrite E' in Hs. by apply elem_of_nil in Hs. }
  pose proof (v_blk _ _ _ _ HI Hrd). pose proof (csum_elem blk _ _ Hb). cbn in *. lia.
Qed.

(** the event with which a waiting operation ends *)
Definition ends (k : kind) (r : outc V) (e : fev V) : Prop :=
  match k with KW => e = EWaited | _ => match r with Val v => e = EGet v | Exc x => e = EGetExc x end end.
(** operations that wait *)
Definition waits (k : kind) (a : pc V) : Prop := a = AWait0 k \/ a = ARun k \/ (exists r, a = AStore r k) \/ a = ALoop k \/ a = ABlk k \/ (a = ARead k /\ k <> KW).

Lemma step_of tr x l1 a l2 e s' r : freach dc deferred tr x -> acts x = l1 ++ a :: l2 -> astep dc deferred (shs x) a e s' r false ->
  freach dc deferred (tr ++ evl e) (FS s' (prom x) (pret x) (nf x) (shrd x) (l1 ++ r ++ l2)).
Proof. intros Hr E Ha. eapply freach_step; [exact Hr|]. pose proof (fs_act dc deferred x l1 a l2 e s' r false E Ha) as H. by rewrite map_wake_false in H. Qed.

Lemma loop_ends tr x r k l1 l2 : freach dc deferred tr x -> result tr r -> acts x = l1 ++ ALoop k :: l2 ->
  exists tr' y e, freach dc deferred (tr ++ tr') y /\ e ∈ tr' /\ ends k r e /\ acts y = l1 ++ finish k ++ l2.
Proof.
  intros Hr Hs E. pose proof (freach_inv _ _ Hr) as HI. pose proof (v_res _ _ _ _ HI) as R. apply setsof_elem in Hs.
  destruct (resok_one _ _ _ R) as [E0|(r0 & E0)]; rewrite E0 in *; [by apply elem_of_nil in Hs|]. apply elem_of_list_singleton in Hs as <-.
  assert (HkW : k = KW \/ k <> KW) by (destruct k; auto). destruct HkW as [-> | Hk].
  - exists [EWaited]. eexists _, EWaited. split; [|split; [by left|split; [done|]]].
    + apply (step_of tr x l1 (ALoop KW) l2 (Some EWaited)); [done..|]. apply as_loop_wait. destruct r; apply R.
    + done.
  - destruct r as [v|ex].
    + destruct R as (R1 & R2 & R3 & _). pose proof (step_of tr x l1 (ALoop k) l2 None _ [ARead k] Hr E (as_loop_val _ _ _ k Hk R3 R2)) as H1. cbn [evl] in H1. rewrite app_nil_r in H1.
      exists [EGet v]. eexists _, (EGet v). split; [|split; [by left|split; [by destruct k|]]].
      * apply (step_of tr _ l1 (ARead k) l2 (Some (EGet v)) (shs x) (finish k) H1); [done|]. by apply as_read.
      * done.
    + destruct R as (R1 & R2 & R3 & _). exists [EGetExc ex]. eexists _, (EGetExc ex). split; [|split; [by left|split; [by destruct k|]]].
      * apply (step_of tr x l1 (ALoop k) l2 (Some (EGetExc ex)) (shs x) (finish k) Hr E). by apply as_loop_exc.
      * done.
Qed.
(** and every wait() and get() then ends with that result by its own steps, whatever other threads do or do not do *)
Theorem C41_returns tr x r k a l1 l2 : freach dc deferred tr x -> result tr r -> waits k a -> acts x = l1 ++ a :: l2 ->
  exists tr' y e, freach dc deferred (tr ++ tr') y /\ e ∈ tr' /\ ends k r e /\ acts y = l1 ++ finish k ++ l2.
Proof.
  intros Hr Hs Hw E. pose proof (freach_inv _ _ Hr) as HI. pose proof (v_res _ _ _ _ HI) as R. pose proof Hs as Hs'. apply setsof_elem in Hs'.
  destruct (resok_one _ _ _ R) as [E0|(r0 & E0)]; rewrite E0 in *; [by apply elem_of_nil in Hs'|]. apply elem_of_list_singleton in Hs' as <-.
  assert (Hin : a ∈ acts x) by (rewrite E; apply elem_of_app; right; left).
  assert (Hrun : csum run (acts x) + csum sto (acts x) = 0 /\ negb (running (shs x)) && deferred = false).
  { destruct deferred eqn:Ed.
    - destruct (v_def _ _ _ _ HI eq_refl) as (_ & _ & H & _). rewrite E0 in H. cbn in H. destruct (running (shs x)); cbn in *; split; try lia; done.
    - split; [apply (v_ndef _ _ _ _ HI eq_refl)|apply andb_false_r]. }
  destruct Hrun as [Hz Hnr].
  destruct Hw as [-> |[-> |[[r0 ->]|[-> |[-> |[-> Hk]]]]]].
  - (* before the critical section *)
    assert (HkW : k = KW \/ k <> KW) by (destruct k; auto). destruct HkW as [-> | Hk].
    + pose proof (step_of tr x l1 (AWait0 KW) l2 None _ _ Hr E (as_wait _ _ _)) as H1. unfold maybe_run in H1. rewrite Hnr in H1. cbn [evl] in H1. rewrite app_nil_r in H1.
      apply (loop_ends tr _ r KW l1 l2 H1 Hs). done.
    + assert (Hu : k = KU -> retrieved (shs x) = false).
      { intros ->. assert (H1 : 1 <= csum w0u (acts x)) by (pose proof (csum_elem w0u _ _ Hin); cbn in *; lia). pose proof (w0u_ug (acts x)).
        destruct (shrd x) eqn:Esd; [pose proof (v_sh _ _ _ _ HI Esd); lia|]. apply (v_uq _ _ _ _ HI Esd). lia. }
      destruct (exn (shs x)) as [ex|] eqn:Ex.
      * pose proof (exn_yes _ _ _ _ R Ex) as [= ->]. exists [EGetExc ex]. eexists _, (EGetExc ex). split; [|split; [by left|split; [by destruct k|]]].
        -- apply (step_of tr x l1 (AWait0 k) l2 (Some (EGetExc ex)) (shs x) (finish k) Hr E). by apply as_get_exc.
        -- done.
      * pose proof (step_of tr x l1 (AWait0 k) l2 None _ _ Hr E (as_get _ _ _ k Hk Hu Ex)) as H1. unfold maybe_run, set_retrieved in H1. cbn [running] in H1. rewrite Hnr in H1. cbn [evl] in H1. rewrite app_nil_r in H1.
        apply (loop_ends tr _ r k l1 l2 H1 Hs). done.
  - pose proof (csum_elem run _ _ Hin). cbn in *. lia.
  - pose proof (csum_elem sto _ _ Hin). cbn in *. lia.
  - by apply (loop_ends tr x).
  - by destruct (C41_no_lost_wakeup tr x r k).
  - destruct r as [v|ex]; [|exfalso; destruct (v_rd _ _ _ _ HI) as [v Hv]; [pose proof (csum_elem rdn _ _ Hin); cbn in *; lia|congruence]].
    destruct R as (R1 & _). exists [EGet v]. eexists _, (EGet v).
    split; [|split; [by left|split; [by destruct k|]]].
    + apply (step_of tr x l1 (ARead k) l2 (Some (EGet v)) (shs x) (finish k) Hr E). by apply as_read.
    + done.
Qed.

(** while an object refers to the shared state or an operation is under way, the state has not been destroyed *)
Theorem C41_lifetime tr x : freach dc deferred tr x -> prom x = true \/ 1 <= nf x \/ acts x <> [] -> EDestroy ∉ tr.
Proof.
  intros Hr H. pose proof (freach_inv _ _ Hr) as HI. assert (Hg : gone (shs x) = false).
  { destruct (gone (shs x)) eqn:Eg; [|done]. apply (v_gone _ _ _ _ HI) in Eg. rewrite (v_refs _ _ _ _ HI) in Eg. destruct H as [Hp|[Hn|Ha]].
    - rewrite Hp in Eg. cbn in Eg. lia.
    - lia.
    - destruct (acts x) as [|a l] eqn:Ea; [done|]. assert (Hin : a ∈ acts x) by (rewrite Ea; left). rewrite <- Ea in *.
      pose proof (csum_elem own _ _ Hin) as H1. pose proof (csum_elem bor _ _ Hin) as H2. pose proof (csum_elem stn _ _ Hin) as H3.
      pose proof (v_bor _ _ _ _ HI) as H4. pose proof (v_set _ _ _ _ HI) as H5.
      destruct (prom x); [cbn in Eg; lia|]. specialize (H5 eq_refl). destruct (Nat.le_gt_cases 1 (csum bor (acts x))) as [Hb|Hb]; [specialize (H4 Hb); lia|].
      assert (own a + bor a + stn a >= 1); [|lia]. unfold bor, stn. destruct a; cbn; try lia; destruct k; cbn; lia. }
  apply (ev_notin isDes); [|done]. rewrite (v_des _ _ _ _ HI), Hg. done.
Qed.
(** when nothing refers to it any more it has been destroyed, once *)
Theorem C41_no_leak tr x : freach dc deferred tr x -> prom x = false -> nf x = 0 -> acts x = [] -> EDestroy ∈ tr.
Proof.
  intros Hr Hp Hn Ha. pose proof (freach_inv _ _ Hr) as HI. pose proof (v_refs _ _ _ _ HI) as Hrf. rewrite Hp, Hn, Ha in Hrf. cbn in Hrf.
  pose proof (v_des _ _ _ _ HI) as Hd. rewrite (proj2 (v_gone _ _ _ _ HI) Hrf) in Hd. destruct (cev_ex isDes tr) as (e & He & Hx); [cbn in Hd; lia|]. by destruct e.
Qed.
Theorem C41_destroyed_once tr x t1 t2 : freach dc deferred tr x -> tr = t1 ++ EDestroy :: t2 -> EDestroy ∉ t1.
Proof. intros Hr E. exact (freach_ev _ _ Hr _ _ _ E). Qed.
End props.

(** one more step *)
Lemma sat_step {V} dc de tr (x : fst_ V) e y tr' : freach dc de tr x -> fstep dc de x e y -> tr ++ evl e = tr' -> freach dc de tr' y.
Proof. intros Hr Hs <-. by apply (freach_step _ _ _ x). Qed.
Tactic Notation "sats" constr(R) uconstr(e) := refine (sat_step _ _ _ _ (e : option (fev nat)) _ _ R _ _); [|reflexivity].
Lemma sat_act {V} dc de tr s0 p q n sd l1 (a : pc V) l2 e s' r b tr' l :
  freach dc de tr (FS s0 p q n sd (l1 ++ a :: l2)) -> astep dc de s0 a e s' r b -> tr ++ evl e = tr' -> map (wake b) (l1 ++ r ++ l2) = l ->
  freach dc de tr' (FS s' p q n sd l).
Proof. intros Hr Hs <- <-. apply (freach_step _ _ _ (FS s0 p q n sd (l1 ++ a :: l2))); [done|]. by apply (fs_act _ _ (FS s0 p q n sd (l1 ++ a :: l2)) l1 a l2). Qed.
Tactic Notation "sata" constr(R) uconstr(e) uconstr(l1) uconstr(a) uconstr(l2) uconstr(s') uconstr(l) uconstr(r) :=
  refine (sat_act _ _ _ _ _ _ _ _ l1 a l2 (e : option (fev nat)) s' l r _ _ R _ _ _); [|reflexivity|reflexivity].
Definition s0 (r : Z) : sh nat := Sh r None None false false false false false.
Definition s1 : sh nat := Sh 2 None None true false false true false.
Definition s2 (r : Z) (g : bool) : sh nat := Sh r (Some 5) None true true true true g.
Example C41_sat : freach true false [EFuture; ESet (Val 5); EGet 5; EDestroy] (FS (s2 0 true) false true 0 false []).
Proof.
  assert (R0 : freach true false [] (FS (s0 1) true false 0 false [])) by exact (freach_init _ _).
  assert (R1 : freach true false [EFuture] (FS (s0 2) true true 1 false [])).
  { sats R0 (Some EFuture).  by apply (fs_future true false (FS (s0 1) true false 0 false [])). }
  assert (R2 : freach true false [EFuture] (FS (s0 2) true true 0 false [AWait0 KU])).
  { sats R1 (@None (fev nat)).  apply (fs_get true false (FS (s0 2) true true 1 false [])); [done..|]. by intros a ?%elem_of_nil. }
  assert (R3 : freach true false [EFuture] (FS s1 true true 0 false [ALoop KU])).
  { sata R2 None [] (AWait0 KU) [] s1 [ALoop KU] false. by apply (as_get true false (s0 2) KU). }
  assert (R4 : freach true false [EFuture] (FS s1 true true 0 false [ABlk KU])).
  { sata R3 None [] (ALoop KU) [] s1 [ABlk KU] false. by apply (as_loop_block true false s1 KU). }
  assert (R5 : freach true false [EFuture] (FS s1 true true 0 false [ABlk KU; ASet (Val 5)])).
  { sats R4 (@None (fev nat)).  by apply (fs_set true false (FS s1 true true 0 false [ABlk KU]) (Val 5)). }
  assert (R6 : freach true false [EFuture; ESet (Val 5)] (FS (s2 2 false) true true 0 false [ALoop KU])).
  { sata R5 (Some (ESet (Val 5))) [ABlk KU] (ASet (Val 5)) [] (s2 2 false) [] true. by apply (as_set true false s1 (Val 5)). }
  assert (R7 : freach true false [EFuture; ESet (Val 5)] (FS (s2 2 false) false true 0 false [ALoop KU; ADtor1])).
  { sats R6 (@None (fev nat)).  apply (fs_pdtor true false (FS (s2 2 false) true true 0 false [ALoop KU])); [done|]. by intros a ->%elem_of_list_singleton. }
  assert (R8 : freach true false [EFuture; ESet (Val 5)] (FS (s2 2 false) false true 0 false [ALoop KU; ARel])).
  { sata R7 None [ALoop KU] ADtor1 [] (s2 2 false) [ARel] false. by apply (as_dtor_ready true false (s2 2 false)). }
  assert (R9 : freach true false [EFuture; ESet (Val 5)] (FS (s2 1 false) false true 0 false [ALoop KU])).
  { sata R8 None [ALoop KU] ARel [] (s2 1 false) [] false. by apply (as_rel true false (s2 2 false)). }
  assert (R10 : freach true false [EFuture; ESet (Val 5)] (FS (s2 1 false) false true 0 false [ARead KU])).
  { sata R9 None [] (ALoop KU) [] (s2 1 false) [ARead KU] false. by apply (as_loop_val true false (s2 1 false) KU). }
  assert (R11 : freach true false [EFuture; ESet (Val 5); EGet 5] (FS (s2 1 false) false true 0 false [ARel])).
  { sata R10 (Some (EGet 5)) [] (ARead KU) [] (s2 1 false) [ARel] false. by apply (as_read true false _ KU). }
  sata R11 (Some EDestroy) [] ARel [] (s2 0 true) [] false. by apply (as_rel_last true false (s2 1 false)).
Qed.
(** a deferred function: wait_for reports it, wait calls it, it throws, get rethrows *)
Definition d1 (rn rt rd : bool) (x : option exc) : sh nat := Sh 1 None x rt rd rd rn false.
Example C41_sat_deferred : freach (V:=nat) true true [EStatus StDeferred; ERun; ESet (Exc (EUser 7)); EWaited; EGetExc (EUser 7); EDestroy]
  (FS (Sh 0 None (Some (EUser 7)) false true true true true) false true 0 false []).
Proof.
  assert (R0 : freach true true [] (FS (d1 false false false None) false true 1 false [])) by exact (freach_init _ _).
  assert (R1 : freach true true [] (FS (d1 false false false None) false true 1 false [AWf])).
  { sats R0 (@None (fev nat)).  by apply (fs_wait_for true true (FS (d1 false false false None) false true 1 false [])). }
  assert (R2 : freach true true [EStatus StDeferred] (FS (d1 false false false None) false true 1 false [])).
  { sata R1 (Some (EStatus StDeferred)) [] AWf [] (d1 false false false None) [] false. by apply as_wf_deferred. }
  assert (R3 : freach true true [EStatus StDeferred] (FS (d1 false false false None) false true 1 false [AWait0 KW])).
  { sats R2 (@None (fev nat)).  by apply (fs_wait true true (FS (d1 false false false None) false true 1 false [])). }
  assert (R4 : freach true true [EStatus StDeferred] (FS (d1 true false false None) false true 1 false [ARun KW])).
  { sata R3 None [] (AWait0 KW) [] (d1 true false false None) [ARun KW] false. apply (as_wait true true (d1 false false false None)). }
  assert (R5 : freach true true [EStatus StDeferred; ERun] (FS (d1 true false false None) false true 1 false [AStore (Exc (EUser 7)) KW])).
  { sata R4 (Some ERun) [] (ARun KW) [] (d1 true false false None) [AStore (Exc (EUser 7)) KW] false. apply as_run. }
  assert (R6 : freach true true [EStatus StDeferred; ERun; ESet (Exc (EUser 7))] (FS (d1 true false true (Some (EUser 7))) false true 1 false [ALoop KW])).
  { sata R5 (Some (ESet (Exc (EUser 7)))) [] (AStore (Exc (EUser 7)) KW) [] (d1 true false true (Some (EUser 7))) [ALoop KW] true. by apply as_store. }
  assert (R7 : freach true true [EStatus StDeferred; ERun; ESet (Exc (EUser 7)); EWaited] (FS (d1 true false true (Some (EUser 7))) false true 1 false [])).
  { sata R6 (Some EWaited) [] (ALoop KW) [] (d1 true false true (Some (EUser 7))) [] false. by apply as_loop_wait. }
  assert (R8 : freach true true [EStatus StDeferred; ERun; ESet (Exc (EUser 7)); EWaited] (FS (d1 true false true (Some (EUser 7))) false true 0 false [AWait0 KU])).
  { sats R7 (@None (fev nat)).  apply (fs_get true true (FS (d1 true false true (Some (EUser 7))) false true 1 false [])); [done..|]. by intros a ?%elem_of_nil. }
  assert (R9 : freach true true [EStatus StDeferred; ERun; ESet (Exc (EUser 7)); EWaited; EGetExc (EUser 7)] (FS (d1 true false true (Some (EUser 7))) false true 0 false [ARel])).
  { sata R8 (Some (EGetExc (EUser 7))) [] (AWait0 KU) [] (d1 true false true (Some (EUser 7))) [ARel] false. by apply (as_get_exc true true _ KU). }
  sata R9 (Some EDestroy) [] ARel [] (Sh 0 None (Some (EUser 7)) false true true true true) [] false. by apply (as_rel_last true true (d1 true false true (Some (EUser 7)))).
Qed.

Print Assumptions C41_set_once.
Print Assumptions C41_already_satisfied.
Print Assumptions C41_get.
Print Assumptions C41_get_exception.
Print Assumptions C41_wait.
Print Assumptions C41_wait_for.
Print Assumptions C41_deferred_once.
Print Assumptions C41_get_future_once.
Print Assumptions C41_never.
Print Assumptions C41_broken_promise.
Print Assumptions C41_no_lost_wakeup.
Print Assumptions C41_returns.
Print Assumptions C41_lifetime.
Print Assumptions C41_no_leak.
Print Assumptions C41_destroyed_once.
