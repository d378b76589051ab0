From stdpp Require Import base list numbers option decidable list_numbers.
From Coq Require Import ZArith Lia.
From Verif Require Import Conc.Sched Conc.SharedTimedMutexModel.
Local Open Scope Z_scope.

Definition b2z (b : bool) : Z := if b then 1 else 0.
Definition inside (l : sloc) : Z :=
  match l with Chk _ _ | To _ | ChkTo _ | SetW _ | Inc | Undo | Rel _ | USet | URel _ | VDec | VRel _ => 1 | _ => 0 end.
Definition isR (k : kind) : Z := match k with KR => 1 | _ => 0 end.
(** this thread is the writer for which _Writing is set *)
Definition wr (l : sloc) : Z :=
  match l with Idle Ex | Rel Ex | UAcq | USet | Undo => 1 | Acq k _ | Chk k _ | Wait k _ _ | Reacq k _ | ReacqTo k | To k | ChkTo k => isR k | _ => 0 end.
Definition rdr (l : sloc) : Z := match l with Idle Sh | Rel Sh | VAcq | VDec => 1 | _ => 0 end.
Definition xown (l : sloc) : Z := match l with Idle Ex | Rel Ex | UAcq | USet => 1 | _ => 0 end.
Definition owW (l : sloc) : Z := match l with URel _ | UNot _ | VRel NWrite | VNot NWrite => 1 | _ => 0 end.
Definition owR (l : sloc) : Z := match l with VRel NRead | VNot NRead => 1 | _ => 0 end.
Definition uh (l : sloc) : own := match l with Idle h => h | _ => No end.
Definition eZ (h : own) : Z := match h with Ex => 1 | _ => 0 end.
Definition sZ (h : own) : Z := match h with Sh => 1 | _ => 0 end.
Definition fresh (k : kind) (s : sst) (ts : list sloc) : Prop := exists j k' m, j ∈ qof k s /\ ts !! j = Some (Wait k' m false).
Definition swf (s : sst) (l : sloc) : Prop :=
  match l with
  | SetW m => writing s = false /\ (m = MTry -> readers s = 0)
  | Inc => writing s = false /\ readers s < RMAX
  | Undo => readers s <> 0
  | Rel No => writing s = true \/ readers s <> 0
  | Chk k m | Acq k m | Wait k m _ | Reacq k m => k = KR -> m <> MTry
  | _ => True
  end.
Record SI (tr : list sev) (s : sst) (ts : list sloc) : Prop := {
  si_held : sumz inside ts = b2z (held s);
  si_wr : sumz wr ts = b2z (writing s);
  si_rd : sumz rdr ts = readers s;
  si_max : readers s <= RMAX;
  si_x : 0 < sumz xown ts -> readers s = 0;
  si_wf : forall i l, ts !! i = Some l -> swf s l;
  si_tr : forall i l, ts !! i = Some l -> excl_of i tr = eZ (uh l) /\ shared_of i tr = sZ (uh l);
  si_nd : forall k, NoDup (qof k s);
  si_q : forall k i, i ∈ qof k s -> exists k' m ew, ts !! i = Some (Wait k' m ew) /\ (k' = KR <-> k = KR);
  si_lw : fresh KX s ts -> writing s = true \/ readers s = RMAX \/ 0 < sumz owW ts;
  si_lr : fresh KR s ts -> 0 < readers s \/ 0 < sumz owR ts;
}.
Lemma in_nn x : 0 <= inside x. Proof. destruct x; simpl; lia. Qed.
Lemma wr_nn x : 0 <= wr x. Proof. destruct x; simpl; try lia; try destruct h; try destruct k; simpl; lia. Qed.
Lemma rd_nn x : 0 <= rdr x. Proof. destruct x; simpl; try lia; destruct h; lia. Qed.
Lemma xo_nn x : 0 <= xown x. Proof. destruct x; simpl; try lia; destruct h; lia. Qed.
Lemma ow_nn x : 0 <= owW x. Proof. destruct x; simpl; try lia; destruct n; lia. Qed.
Lemma or_nn x : 0 <= owR x. Proof. destruct x; simpl; try lia; destruct n; lia. Qed.
Lemma xo_wr x : xown x <= wr x. Proof. destruct x; simpl; try lia; try destruct h; try destruct k; simpl; lia. Qed.
Lemma excl_app i a b : excl_of i (a ++ b) = excl_of i a + excl_of i b.
Proof. apply (sumz_app (fun e => match e with ELock j => if decide (j = i) then 1 else 0 | EUnlock j => if decide (j = i) then -1 else 0 | _ => 0 end)). Qed.
Lemma shared_app i a b : shared_of i (a ++ b) = shared_of i a + shared_of i b.
Proof. apply (sumz_app (fun e => match e with ELockS j => if decide (j = i) then 1 else 0 | EUnlockS j => if decide (j = i) then -1 else 0 | _ => 0 end)). Qed.
Lemma alone (f : sloc -> Z) (ts : list sloc) (i j : nat) l x h : (forall x, 0 <= f x) -> sumz f ts = b2z h -> ts !! i = Some l -> f l = 1 -> j <> i -> ts !! j = Some x -> f x = 0.
Proof.
  intros Hnn Hs Hl H1 Hne Hx.
  assert (Hg : f l + f x <= sumz f ts).
  { clear -Hnn Hl Hx Hne. revert i j Hl Hx Hne. induction ts as [|y ts IH]; intros [|i] [|j] Hl Hx Hne; simpl in Hl, Hx; try done; rewrite sumz_cons.
    - injection Hl as ->. pose proof (sumz_ge f ts j x Hnn Hx). lia.
    - injection Hx as ->. pose proof (sumz_ge f ts i l Hnn Hl). lia.
    - assert (Hne2 : j <> i) by congruence; specialize (IH i j Hl Hx Hne2). specialize (Hnn y). lia. }
  pose proof (Hnn x). destruct h; simpl in Hs; lia.
Qed.
Lemma si_frame tr s ts i l e s' l' : SI tr s ts -> ts !! i = Some l ->
  b2z (held s') = b2z (held s) - inside l + inside l' ->
  b2z (writing s') = b2z (writing s) - wr l + wr l' ->
  readers s' = readers s - rdr l + rdr l' -> readers s' <= RMAX ->
  ((writing s' = writing s /\ readers s' = readers s) \/ inside l = 1) ->
  (0 < sumz xown ts - xown l + xown l' -> readers s' = 0) ->
  swf s' l' ->
  (forall j, excl_of j (option_list e) = if decide (j = i) then eZ (uh l') - eZ (uh l) else 0) ->
  (forall j, shared_of j (option_list e) = if decide (j = i) then sZ (uh l') - sZ (uh l) else 0) ->
  (forall k, NoDup (qof k s')) ->
  (forall k j, j ∈ qof k s' -> (j = i /\ exists k' m ew, l' = Wait k' m ew /\ (k' = KR <-> k = KR)) \/ (j <> i /\ j ∈ qof k s)) ->
  ((exists k m, l' = Wait k m false /\ k <> KR) \/ (fresh KX s ts /\ wq s' <> []) -> writing s' = true \/ readers s' = RMAX \/ 0 < sumz owW ts - owW l + owW l') ->
  ((exists m, l' = Wait KR m false) \/ (fresh KR s ts /\ rq s' <> []) -> 0 < readers s' \/ 0 < sumz owR ts - owR l + owR l') ->
  SI (tr ++ option_list e) s' (<[i := l']> ts).
Proof.
  intros HI Hl H1 H2 H3 Hmx Hlo Hx Hw He Hs Hnd Hq HW HR.
  assert (Hlen : (i < length ts)%nat) by (by eapply lookup_lt_Some).
  assert (Hcase : forall j x, <[i := l']> ts !! j = Some x -> (j = i /\ x = l') \/ (j <> i /\ ts !! j = Some x)).
  { intros j x Hj. destruct (decide (j = i)) as [->|Hne]; [rewrite list_lookup_insert in Hj by done; injection Hj as <-; by left|].
    rewrite list_lookup_insert_ne in Hj by done. by right. }
  assert (Hfr : forall k, fresh k s' (<[i := l']> ts) -> (exists k' m, l' = Wait k' m false /\ (k' = KR <-> k = KR)) \/ (fresh k s ts /\ qof k s' <> [])).
  { intros k (j & k' & m & Hj & Hx'). destruct (Hq k j Hj) as [[-> (k2 & m2 & ew & E & Hk)]|[Hne Hj']].
    - rewrite list_lookup_insert in Hx' by done. injection Hx' as ->. injection E as -> -> <-. left. eauto.
    - rewrite list_lookup_insert_ne in Hx' by done. right. split; [by exists j, k', m|]. intros E. rewrite E in Hj. by apply elem_of_nil in Hj. }
  split.
  - rewrite (sumz_insert _ _ _ _ _ Hl), (si_held _ _ _ HI). lia.
  - rewrite (sumz_insert _ _ _ _ _ Hl), (si_wr _ _ _ HI). lia.
  - rewrite (sumz_insert _ _ _ _ _ Hl), (si_rd _ _ _ HI). lia.
  - done.
  - rewrite (sumz_insert _ _ _ _ _ Hl). done.
  - intros j x Hj. destruct (Hcase j x Hj) as [[-> ->]|[Hne Hxx]]; [done|]. pose proof (si_wf _ _ _ HI j x Hxx) as Hwj.
    destruct Hlo as [[E1 E2]|E1]; [unfold swf in *; by rewrite E1, E2|].
    pose proof (alone inside ts i j l x _ in_nn (si_held _ _ _ HI) Hl E1 Hne Hxx) as H0. destruct x; simpl in H0; try lia; done.
  - intros j x Hj. rewrite excl_app, shared_app, He, Hs. destruct (Hcase j x Hj) as [[-> ->]|[Hne Hxx]].
    + rewrite !decide_True by done. destruct (si_tr _ _ _ HI i l Hl) as [-> ->]. lia.
    + rewrite !decide_False by done. destruct (si_tr _ _ _ HI j x Hxx) as [-> ->]. lia.
  - done.
  - intros k j Hj. destruct (Hq k j Hj) as [[-> (k' & m & ew & -> & Hk)]|[Hne Hj']].
    + exists k', m, ew. split; [|done]. by apply list_lookup_insert.
    + destruct (si_q _ _ _ HI k j Hj') as (k' & m & ew & Hxx & Hk). exists k', m, ew. by rewrite list_lookup_insert_ne.
  - rewrite (sumz_insert _ _ _ _ _ Hl). intros Hf. apply HW. destruct (Hfr KX Hf) as [(k' & m & -> & Hk)|?]; [|by right]. left. exists k', m. split; [done|]. intros ->. by destruct Hk as [Hk _]; specialize (Hk eq_refl).
  - rewrite (sumz_insert _ _ _ _ _ Hl). intros Hf. apply HR. destruct (Hfr KR Hf) as [(k' & m & -> & Hk)|?]; [|by right]. left. exists m. by destruct Hk as [_ Hk]; rewrite Hk.
Qed.
Lemma ev_none j i : forall x : Z, excl_of j (option_list (@None sev)) = if decide (j = i) then x - x else 0.
Proof. intros x. simpl. case_decide; lia. Qed.
Lemma q_same s (ts : list sloc) (i : nat) l l' : (forall k i, i ∈ qof k s -> exists k' m ew, ts !! i = Some (Wait k' m ew) /\ (k' = KR <-> k = KR)) -> ts !! i = Some l -> (forall k m ew, l <> Wait k m ew) ->
  forall k j, j ∈ qof k s -> (j = i /\ exists k' m ew, l' = Wait k' m ew /\ (k' = KR <-> k = KR)) \/ (j <> i /\ j ∈ qof k s).
Proof. intros Hq Hl Hn k j Hj. right. split; [|done]. intros ->. destruct (Hq k i Hj) as (k' & m & ew & Hx & _). rewrite Hl in Hx. injection Hx as ->. by eapply Hn. Qed.
Notation qok ts s := (forall k i, i ∈ qof k s -> exists k' m ew, ts !! i = Some (Wait k' m ew) /\ (k' = KR <-> k = KR)).
Lemma q_same2 s s' (ts : list sloc) (i : nat) l l' : qok ts s -> ts !! i = Some l -> (forall k m ew, l <> Wait k m ew) -> rq s' = rq s -> wq s' = wq s ->
  forall k j, j ∈ qof k s' -> (j = i /\ exists k' m ew, l' = Wait k' m ew /\ (k' = KR <-> k = KR)) \/ (j <> i /\ j ∈ qof k s).
Proof. intros Hq Hl Hn E1 E2 k j. assert (qof k s' = qof k s) as -> by (by destruct k). by eapply q_same. Qed.
Lemma q_push s s' (ts : list sloc) (i : nat) l k m ew : qok ts s -> ts !! i = Some l -> (forall k m ew, l <> Wait k m ew) ->
  s' = seth false (setq k (i :: qof k s) s) ->
  forall k0 j, j ∈ qof k0 s' -> (j = i /\ exists k' m' ew', Wait k m ew = Wait k' m' ew' /\ (k' = KR <-> k0 = KR)) \/ (j <> i /\ j ∈ qof k0 s).
Proof.
  intros Hq Hl Hn -> k0 j Hj. destruct (decide (j = i)) as [->|Hne].
  - left. split; [done|]. exists k, m, ew. split; [done|]. destruct k, k0; try done; exfalso; cbn in Hj.
    all: first [destruct (Hq KR i Hj) as (? & ? & ? & Hx & _)|destruct (Hq KX i Hj) as (? & ? & ? & Hx & _)]; rewrite Hl in Hx; injection Hx as ->; by eapply Hn.
  - right. split; [done|]. destruct k, k0; cbn in Hj |- *; try done; by apply elem_of_cons in Hj as [|].
Qed.
Lemma nd_push s s' (ts : list sloc) (i : nat) l k : qok ts s -> ts !! i = Some l -> (forall k m ew, l <> Wait k m ew) -> (forall k, NoDup (qof k s)) ->
  s' = seth false (setq k (i :: qof k s) s) -> forall k0, NoDup (qof k0 s').
Proof.
  intros Hq Hl Hn Hnd -> k0.
  assert (Hi : forall k, i ∉ qof k s). { intros k' Hj. destruct (Hq k' i Hj) as (? & ? & ? & Hx & _). rewrite Hl in Hx; injection Hx as ->; by eapply Hn. }
  destruct k, k0; cbn; try (constructor; [apply (Hi KX)||apply (Hi KR)|]); first [apply (Hnd KX)|apply (Hnd KR)].
Qed.
Lemma q_pop s s' (i : nat) k q' l' : (forall k, NoDup (qof k s)) -> (forall k', isR k' = isR k \/ i ∉ qof k' s) -> qof k s ≡ₚ i :: q' -> s' = setq k q' s ->
  (forall k, NoDup (qof k s')) /\
  forall k0 j, j ∈ qof k0 s' -> (j = i /\ exists k' m' ew', l' = Wait k' m' ew' /\ (k' = KR <-> k0 = KR)) \/ (j <> i /\ j ∈ qof k0 s).
Proof.
  intros Hnd Hk Hp ->. pose proof (Hnd k) as Hndk. rewrite Hp in Hndk. apply list.NoDup_cons in Hndk as [Hi Hndk].
  assert (Hc : forall k0, qof k0 (setq k q' s) = if decide (isR k0 = isR k) then q' else qof k0 s).
  { intros k0. by destruct k, k0. }
  split.
  - intros k0. rewrite Hc. by case_decide.
  - intros k0 j. rewrite Hc. case_decide as Hd; intros Hj; right.
    + split; [by intros ->|]. assert (qof k0 s = qof k s) as -> by (by destruct k0, k). rewrite Hp. by right.
    + split; [|done]. intros ->. destruct (Hk k0); done.
Qed.
Lemma q_other s (ts : list sloc) (i : nat) k m ew : qok ts s -> ts !! i = Some (Wait k m ew) -> forall k', isR k' = isR k \/ i ∉ qof k' s.
Proof.
  intros Hq Hl k'. destruct (decide (i ∈ qof k' s)) as [Hi|Hi]; [left|by right]. destruct (Hq k' i Hi) as (k2 & m2 & ew2 & Hx & Hk).
  rewrite Hl in Hx. injection Hx as <- <- <-. destruct k, k'; try done; exfalso; destruct Hk as [Hk1 Hk2]; (by specialize (Hk1 eq_refl)) || (by specialize (Hk2 eq_refl)).
Qed.
Lemma q_woken s (ts : list sloc) (i : nat) k m ew l' : qok ts s -> ts !! i = Some (Wait k m ew) -> i ∉ qof k s ->
  forall k0 j, j ∈ qof k0 s -> (j = i /\ exists k' m' ew', l' = Wait k' m' ew' /\ (k' = KR <-> k0 = KR)) \/ (j <> i /\ j ∈ qof k0 s).
Proof.
  intros Hq Hl Hn k0 j Hj. right. split; [|done]. intros ->. destruct (q_other s ts i k m ew Hq Hl k0); [|done]. apply Hn. by destruct k, k0.
Qed.
Lemma q_sub s s' (ts : list sloc) (i : nat) l l' : qok ts s -> ts !! i = Some l -> (forall k m ew, l <> Wait k m ew) -> (forall k j, j ∈ qof k s' -> j ∈ qof k s) ->
  forall k j, j ∈ qof k s' -> (j = i /\ exists k' m ew, l' = Wait k' m ew /\ (k' = KR <-> k = KR)) \/ (j <> i /\ j ∈ qof k s).
Proof. intros Hq Hl Hn Hs k j Hj. apply Hs in Hj. by eapply q_same. Qed.
Lemma qof_seth b k s : qof k (seth b s) = qof k s. Proof. by destruct k. Qed.
Lemma si_step tr s ts i l e s' l' : SI tr s ts -> ts !! i = Some l -> st_step i s l e s' l' -> SI (tr ++ option_list e) s' (<[i := l']> ts).
Proof.
  intros HI Hl Ht. pose proof (si_wf _ _ _ HI i l Hl) as Hw. pose proof (si_nd _ _ _ HI) as Hnd. pose proof (si_q _ _ _ HI) as Hq.
  pose proof (si_lw _ _ _ HI) as HW. pose proof (si_lr _ _ _ HI) as HR. pose proof (si_max _ _ _ HI) as Hmx. pose proof (si_x _ _ _ HI) as Hx.
  pose proof (sumz_ge owW ts i l ow_nn Hl) as Gow. pose proof (sumz_ge owR ts i l or_nn Hl) as Gor.
  pose proof (sumz_ge inside ts i l in_nn Hl) as Gin. rewrite (si_held _ _ _ HI) in Gin.
  pose proof (sumz_ge wr ts i l wr_nn Hl) as Gwr. rewrite (si_wr _ _ _ HI) in Gwr.
  pose proof (sumz_ge rdr ts i l rd_nn Hl) as Grd. rewrite (si_rd _ _ _ HI) in Grd.
  pose proof (sumz_ge xown ts i l xo_nn Hl) as Gxo.
  pose proof (sumz_le xown wr ts (fun _ x _ => xo_wr x)) as Gxw. rewrite (si_wr _ _ _ HI) in Gxw.
  pose proof (sumz_nonneg rdr ts rd_nn) as Grn. rewrite (si_rd _ _ _ HI) in Grn.
  assert (Hfw : fresh KR s ts -> writing s = true).
  { intros (j & k' & m & Hj & Hx'). destruct (Hq KR j Hj) as (k2 & m2 & ew & Hx2 & Hk). rewrite Hx' in Hx2. injection Hx2 as <- <- <-.
    pose proof (sumz_ge wr ts j _ wr_nn Hx') as G. rewrite (si_wr _ _ _ HI) in G. destruct Hk as [_ Hk]. rewrite Hk in G by done. simpl in G. destruct (writing s); simpl in G; [done|lia]. }
  destruct s as [hd rd wg rqq wqq].
  inversion Ht; subst; clear Ht; cbn [option_list]; simpl in Hw, Gow, Gor, Gin, Gwr, Grd, Gxo.
  all: try match goal with k : kind |- _ => destruct k end.
  all: try match goal with m : mode |- _ => destruct m end.
  all: try match goal with h : own |- _ => destruct h end.
  all: try match goal with h : ntf |- _ => destruct h end.
  all: try match goal with f : bool, H : context [URel ?f] |- _ => destruct f end.
  all: try match goal with f : bool, H : context [UNot ?f] |- _ => destruct f end.
  all: cbn [readers writing] in Hw, Hmx, Grd, Grn.
  all: try (rewrite (Z.mod_small (rd + 1)) by (unfold RMAX in *; lia)).
  all: try (rewrite (Z.mod_small (rd - 1)) by (unfold RMAX in *; lia)).
  all: repeat match goal with |- context [decide ?P] => destruct (decide P) end.
  all: try (exfalso; by (done || (apply Hw; done) || congruence)).
  all: unfold ready in *; cbn [next held readers writing seth setq qof rq wq] in *.
  all: try (eapply si_frame; [exact HI|exact Hl|..]; [..|try (by eapply q_same)|try (intros [(? & ? & E & ?)|[Hf Hne]]; [try discriminate E|specialize (HW Hf)])|try (intros [(? & E)|[Hf Hne]]; [try discriminate E|specialize (HR Hf); specialize (Hfw Hf)])]).
  all: cbn [held readers writing seth rq wq] in *; try done.
  all: try (intros j; simpl; repeat case_decide; subst; try done; lia).
  all: try (by left).
  all: try (by right).
  all: try (by apply Hnd).
  all: try (intros [|]; simpl; first [apply (Hnd KX)|apply (Hnd KR)]).
  all: try (simpl in *; lia).
  all: subst; try (simpl in *; lia).
  all: try (destruct hd; simpl in *; lia).
  all: try (destruct wg; simpl in *; solve [done|lia|auto]).
  all: try (eapply q_same2; [exact Hq|exact Hl|done|done|done]).
  all: try (eapply q_push; [exact Hq|exact Hl|done|done]).
  all: try (eapply nd_push; [exact Hq|exact Hl|done|exact Hnd|]; first [instantiate (1 := KX); done|instantiate (1 := KR); done|instantiate (1 := KS); done]).
  all: try (split; [tauto|intros _; destruct H; assert (rd <= 0) by tauto; lia]).
  all: try (left; destruct wg; [done|exfalso; tauto]).
  all: try (eapply q_woken; [exact Hq|exact Hl|done]).
  all: try (eapply (q_pop (Sst hd rd wg rqq wqq)); [exact Hnd|by eapply q_other|done|done]).
  all: try (split; cbn; [tauto|intros _; assert (rd <= 0) by tauto; lia]).
  all: try (eapply (q_pop (Sst hd rd wg rqq wqq) _ i KX _ (Idle No)); [exact Hnd|by eapply q_other|done|done]).
  all: try (eapply (q_pop (Sst hd rd wg rqq wqq) _ i KR _ (Idle No)); [exact Hnd|by eapply q_other|done|done]).
  all: try (eapply (q_pop (Sst hd rd wg rqq wqq) _ i KS _ (Idle No)); [exact Hnd|by eapply q_other|done|done]).
  all: try (intros k0; destruct k0; cbn; solve [apply NoDup_nil_2|apply (Hnd KR)]).
  all: try (intros j'; simpl; repeat case_decide; subst; try done; lia).
  all: try (eapply q_sub; [exact Hq|exact Hl|done|]; intros [] j' Hj'; cbn in Hj' |- *; first [done|by apply elem_of_nil in Hj'|rewrite H; by right]).
  all: try (cbn; destruct wg; [by left|right; intros ->; tauto]).
  all: try (cbn; destruct wg; [by left|right; intros ->; match goal with H : ~ _ |- _ => apply H end; split; [done|lia]]).
  all: try (cbn; destruct wg; [by left|right; intros ->; match goal with H : ~ _ |- _ => apply H end; split; done]).
  all: try (intros _; by apply Hw).
  all: idtac.
  all: match goal with H : _ ≡ₚ _ :: _ |- _ => rename H into Hperm end.
  all: pose proof (Hnd KR) as Hndr; cbn in Hndr; rewrite Hperm in Hndr; apply list.NoDup_cons in Hndr as [Hi Hndr].
  - intros k0; destruct k0; cbn; solve [done|apply (Hnd KX)].
  - eapply q_sub; [exact Hq|exact Hl|done|]. intros [] j' Hj'; cbn in Hj' |- *; first [done|rewrite Hperm; by right].
  - exfalso. destruct q1 as [|j' q1]; [done|].
    destruct (Hq KR j) as (k1 & m1 & e1 & Hx1 & Hk1); [cbn; rewrite Hperm; left|]. destruct (Hq KR j') as (k2 & m2 & e2 & Hx2 & Hk2); [cbn; rewrite Hperm; right; left|].
    assert (k1 = KR) as -> by tauto. assert (k2 = KR) as -> by tauto.
    assert (j' <> j) as Hjj by (intros ->; apply Hi; left).
    pose proof (alone wr ts j j' _ _ _ wr_nn (si_wr _ _ _ HI) Hx1 eq_refl Hjj Hx2) as Habs. simpl in Habs. lia.
Qed.
Lemma si_reach n tr s ts : steps st_step (st_init n) tr (s, ts) -> SI tr s ts.
Proof.
  intros Hs. unfold st_init in Hs. apply (steps_inv' _ SI) in Hs; [done| |intros; by eapply si_step].
  assert (Hz : forall f, f (Idle No) = 0 -> sumz f (replicate n (Idle No)) = 0).
  { intros f Hf. apply sumz_zero. intros i x Hx. by apply lookup_replicate in Hx as [-> _]. }
  split; cbn [held readers writing rq wq]; rewrite ?Hz by done; try done.
  - intros i l Hl. apply lookup_replicate in Hl as [-> _]. done.
  - intros i l Hl. apply lookup_replicate in Hl as [-> _]. done.
  - intros []; apply NoDup_nil_2.
  - intros [] i Hi; by apply elem_of_nil in Hi.
  - intros (j & ? & ? & Hj & _). by apply elem_of_nil in Hj.
  - intros (j & ? & ? & Hj & _). by apply elem_of_nil in Hj.
Qed.
