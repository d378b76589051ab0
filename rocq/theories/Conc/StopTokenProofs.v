From stdpp Require Import base list numbers option decidable list_numbers.
From Coq Require Import ZArith Lia.
From Verif Require Import Conc.Sched Conc.StopTokenModel.
Local Open Scope Z_scope.

Definition b2z (b : bool) : Z := if b then 1 else 0.
Definition one (n m : nat) : Z := if decide (m = n) then 1 else 0.
Definition ins (l : ploc) : Z := match l.2 with Some (AChk _) | Some (AIns _) | Some RCur | Some RNot | Some RHead | Some (DChk _) | Some RFail | Some (DFail _) => 1 | _ => 0 end.
Definition ntrue (c : list (nat * bool)) : Z := sumz (fun x => b2z x.2) c.
Definition rop (o : option pop) : Z := match o with Some RTid | Some RLock | Some RCur | Some RNot | Some RHead | Some (RCall _) | Some RFail => 1 | _ => 0 end.
Definition rr (l : ploc) : Z := rop l.2 + ntrue l.1.
Definition aop (n : nat) (o : option pop) : Z :=
  match o with Some (AFast m) | Some (ALock m) | Some (AChk m) | Some (AIns m) | Some (ACall m) | Some (ARet m) => one n m | _ => 0 end.
Definition nfalse (n : nat) (c : list (nat * bool)) : Z := sumz (fun x : nat * bool => if x.2 then 0 else one n x.1) c.
Definition actor (n : nat) (l : ploc) : Z := aop n l.2 + nfalse n l.1.
Definition dactor (n : nat) (l : ploc) : Z :=
  match l.2 with Some (DPar m) | Some (DLock m) | Some (DChk m) | Some (DWait m) | Some (DBlk m) | Some (DRet m) | Some (DFail m) => one n m | _ => 0 end.
Definition pend (n : nat) (l : ploc) : Z :=
  match l.2 with Some (AFast m) | Some (ALock m) | Some (AChk m) | Some (AIns m) | Some (ACall m) | Some (RCall m) => one n m | _ => 0 end.
Definition runon (n : nat) (l : ploc) : Z := sumz (fun x : nat * bool => one n x.1) l.1.
Definition isC (v : life) : Z := match v with Ctor => 1 | _ => 0 end.
Definition isD (v : life) : Z := match v with Dtor => 1 | _ => 0 end.
Definition rank (v : life) : nat := match v with Unborn => 0 | Ctor => 1 | Alive => 2 | Dtor => 3 | Dead => 4 end.
Lemma one_nn n m : 0 <= one n m. Proof. unfold one. case_decide; lia. Qed.
Lemma ins_nn l : 0 <= ins l. Proof. destruct l as [c [[]|]]; simpl; unfold ins; simpl; lia. Qed.
Lemma ntrue_nn c : 0 <= ntrue c. Proof. apply sumz_nonneg. intros [? []]; simpl; lia. Qed.
Lemma nfalse_nn n c : 0 <= nfalse n c. Proof. apply sumz_nonneg. intros [? []]; simpl; [lia|apply one_nn]. Qed.
Lemma rop_nn o : 0 <= rop o. Proof. destruct o as [[]|]; simpl; lia. Qed.
Lemma rr_nn l : 0 <= rr l. Proof. unfold rr. pose proof (rop_nn l.2). pose proof (ntrue_nn l.1). lia. Qed.
Lemma aop_nn n o : 0 <= aop n o. Proof. destruct o as [[]|]; simpl; try lia; apply one_nn. Qed.
Lemma actor_nn n l : 0 <= actor n l. Proof. unfold actor. pose proof (aop_nn n l.2). pose proof (nfalse_nn n l.1). lia. Qed.
Lemma dactor_nn n l : 0 <= dactor n l. Proof. destruct l as [c [[]|]]; unfold dactor; simpl; try lia; apply one_nn. Qed.
Lemma pend_nn n l : 0 <= pend n l. Proof. destruct l as [c [[]|]]; unfold pend; simpl; try lia; apply one_nn. Qed.
Lemma runon_nn n l : 0 <= runon n l. Proof. apply sumz_nonneg. intros []; apply one_nn. Qed.
Lemma one_eq n : one n n = 1. Proof. unfold one. by rewrite decide_True. Qed.
Lemma ecount_app f a b : ecount f (a ++ b) = ecount f a + ecount f b.
Proof. apply (sumz_app f). Qed.

Record PA (tr : list pev) (s : pst) (ts : list ploc) : Prop := {
  pa_ins : sumz ins ts = b2z (locked s);
  pa_rr : sumz rr ts + wins tr = b2z (requested s);
  pa_act : forall n, sumz (actor n) ts = isC (lives s n);
  pa_dact : forall n, sumz (dactor n) ts = isD (lives s n);
  pa_ctor : forall n, ECtor n ∈ tr <-> (1 <= rank (lives s n))%nat;
  pa_ctorend : forall n, ECtorEnd n ∈ tr <-> (2 <= rank (lives s n))%nat;
  pa_dtor : forall n, EDtor n ∈ tr <-> (3 <= rank (lives s n))%nat;
  pa_dead : forall n, (exists i, EDtorEnd i n ∈ tr) <-> (4 <= rank (lives s n))%nat;
  pa_run : forall i n l, ts !! i = Some l -> runs_by i n tr - dones_by i n tr = runon n l;
}.
Lemma runon_cons n x b c o : runon n ((x, b) :: c, o) = one n x + runon n (c, o). Proof. done. Qed.
Lemma rr_cons n b c o : rr ((n, b) :: c, o) = b2z b + rr (c, o). Proof. unfold rr, ntrue. simpl. lia. Qed.
Lemma elem_of_ol {A} (x : A) (e : option A) : x ∈ option_list e <-> e = Some x.
Proof. destruct e; cbn; rewrite ?elem_of_list_singleton, ?elem_of_nil; split; intros H; by inversion H. Qed.
Lemma nfalse_cons n x b c : nfalse n ((x, b) :: c) = (if b then 0 else one n x) + nfalse n c. Proof. done. Qed.
Lemma ntrue_cons x b c : ntrue ((x, b) :: c) = b2z b + ntrue c. Proof. done. Qed.
Lemma pa_frame tr s ts i l e s' l' : PA tr s ts -> ts !! i = Some l ->
  b2z (locked s') = b2z (locked s) - ins l + ins l' ->
  b2z (requested s') = b2z (requested s) - rr l + rr l' + wins (option_list e) ->
  (forall n, isC (lives s' n) = isC (lives s n) - actor n l + actor n l') ->
  (forall n, isD (lives s' n) = isD (lives s n) - dactor n l + dactor n l') ->
  (forall n, rank (lives s' n) = rank (lives s n) /\ match e with Some (ECtor m) | Some (ECtorEnd m) | Some (EDtor m) | Some (EDtorEnd _ m) => m <> n | _ => True end \/
     match e with Some (ECtor m) => m = n /\ rank (lives s n) = 0%nat /\ rank (lives s' n) = 1%nat
                | Some (ECtorEnd m) => m = n /\ rank (lives s n) = 1%nat /\ rank (lives s' n) = 2%nat
                | Some (EDtor m) => m = n /\ rank (lives s n) = 2%nat /\ rank (lives s' n) = 3%nat
                | Some (EDtorEnd _ m) => m = n /\ rank (lives s n) = 3%nat /\ rank (lives s' n) = 4%nat
                | _ => False end) ->
  (forall j n, runs_by j n (option_list e) - dones_by j n (option_list e) = if decide (j = i) then runon n l' - runon n l else 0) ->
  PA (tr ++ option_list e) s' (<[i := l']> ts).
Proof.
  intros HI Hl H1 H2 H3 H4 H5 H6.
  assert (Hlen : (i < length ts)%nat) by (by eapply lookup_lt_Some).
  split.
  - rewrite (sumz_insert _ _ _ _ _ Hl), (pa_ins _ _ _ HI). lia.
  - rewrite (sumz_insert _ _ _ _ _ Hl). unfold wins in *. rewrite ecount_app. pose proof (pa_rr _ _ _ HI) as Hr. unfold wins in Hr. lia.
  - intros n. rewrite (sumz_insert _ _ _ _ _ Hl), (pa_act _ _ _ HI). rewrite H3. lia.
  - intros n. rewrite (sumz_insert _ _ _ _ _ Hl), (pa_dact _ _ _ HI). rewrite H4. lia.
  - intros n. rewrite elem_of_app, (pa_ctor _ _ _ HI). rewrite elem_of_ol. destruct e as [[]|]; destruct (H5 n) as [[-> ?]|Hx]; try done; try (destruct Hx as (-> & E1 & E2); rewrite E1, E2); (split; [intros [?|[=]]|intros ?; first [by left|by right|left; lia|done]]; first [done|lia|congruence]).
  - intros n. rewrite elem_of_app, (pa_ctorend _ _ _ HI). rewrite elem_of_ol. destruct e as [[]|]; destruct (H5 n) as [[-> ?]|Hx]; try done; try (destruct Hx as (-> & E1 & E2); rewrite E1, E2); (split; [intros [?|[=]]|intros ?; first [by left|by right|left; lia|done]]; first [done|lia|congruence]).
  - intros n. rewrite elem_of_app, (pa_dtor _ _ _ HI). rewrite elem_of_ol. destruct e as [[]|]; destruct (H5 n) as [[-> ?]|Hx]; try done; try (destruct Hx as (-> & E1 & E2); rewrite E1, E2); (split; [intros [?|[=]]|intros ?; first [by left|by right|left; lia|done]]; first [done|lia|congruence]).
  - intros n. assert (Ha : (exists j, EDtorEnd j n ∈ tr ++ option_list e) <-> (exists j, EDtorEnd j n ∈ tr) \/ exists j, e = Some (EDtorEnd j n)).
    { split.
      - intros (j & Hj). apply elem_of_app in Hj as [Hj|Hj]; [left; eauto|]. apply elem_of_ol in Hj. right; eauto.
      - intros [(j & Hj)|(j & ->)]; exists j; apply elem_of_app; [by left|right; left]. }
    rewrite Ha, (pa_dead _ _ _ HI). destruct (H5 n) as [[-> Hx]|Hx].
    + split; [|by left]. intros [?|(j & ->)]; done.
    + destruct e as [[]|]; try done; destruct Hx as (-> & E1 & E2); rewrite E1, E2.
      all: split; [intros [?|(j & Hj)]; [lia|try done; lia]|intros ?; try lia]. right; eauto.
  - intros j n x Hx. unfold runs_by, dones_by in *. rewrite !ecount_app. specialize (H6 j n). destruct (decide (j = i)) as [->|Hne].
    + rewrite list_lookup_insert in Hx by done. injection Hx as <-. pose proof (pa_run _ _ _ HI i n l Hl) as Hr. unfold runs_by, dones_by in Hr. lia.
    + rewrite list_lookup_insert_ne in Hx by done. pose proof (pa_run _ _ _ HI j n x Hx) as Hr. unfold runs_by, dones_by in Hr. lia.
Qed.
Lemma pa_step tr s ts i l e s' l' : PA tr s ts -> ts !! i = Some l -> sp_step i s l e s' l' -> PA (tr ++ option_list e) s' (<[i := l']> ts).
Proof.
  intros HI Hl Ht.
  pose proof (sumz_ge ins ts i l ins_nn Hl) as Gin. rewrite (pa_ins _ _ _ HI) in Gin.
  assert (Ga : forall n, actor n l <= isC (lives s n)). { intros n. rewrite <- (pa_act _ _ _ HI n). by apply sumz_ge with i; [apply actor_nn|]. }
  assert (Gd : forall n, dactor n l <= isD (lives s n)). { intros n. rewrite <- (pa_dact _ _ _ HI n). by apply sumz_ge with i; [apply dactor_nn|]. }
  inversion Ht; subst; clear Ht.
  all: (eapply pa_frame; [exact HI|exact Hl|..]).
  all: cbn [locked requested lives set_life set_lock set_srcs set_wq set_list].
  all: try (intros j0 n0; unfold runs_by, dones_by, ecount, runon; cbn; unfold one; repeat case_decide; intuition (subst; try congruence; try lia); fail).
  all: try (intros n0; specialize (Ga n0); specialize (Gd n0)).
  all: unfold ins, rr, actor, dactor in *; simpl fst in *; simpl snd in *; rewrite ?nfalse_cons, ?ntrue_cons in *.
  all: try match goal with H : context [nfalse ?n ?c] |- _ => pose proof (nfalse_nn n c) end; try match goal with |- context [ntrue ?c] => pose proof (ntrue_nn c) end.
  all: try match goal with |- context [if ?b then RLock else _] => destruct b end.
  all: unfold rop, aop, wins, ecount, b2z, one, upd in *; cbn [foldr option_list] in *; try lia.
  all: try match goal with |- context [if ?b then 1 else 0] => destruct b end; simpl in *; try done; try lia.
  all: try (left; split; done).
  all: repeat case_decide; subst; try (by left); try lia.
  all: try match goal with H : lives _ _ = _ |- _ => rewrite H in * end.
  all: try match goal with |- context [lives ?s ?n] => destruct (lives s n) end.
  all: simpl in *; try lia; try (left; split; congruence); try (right; split_and!; try done; lia).
Qed.

Lemma sumz_two {L} (f : L -> Z) (ts : list L) (i j : nat) x y : (forall x, 0 <= f x) -> i <> j -> ts !! i = Some x -> ts !! j = Some y -> f x + f y <= sumz f ts.
Proof.
  intros Hf Hij Hx Hy. revert i j Hij Hx Hy. induction ts as [|z ts IH]; intros i j Hij Hx Hy; [done|]. rewrite sumz_cons.
  destruct i as [|i], j as [|j]; simpl in Hx, Hy; try done.
  - injection Hx as ->. pose proof (sumz_ge f ts j y Hf Hy). lia.
  - injection Hy as ->. pose proof (sumz_ge f ts i x Hf Hx). lia.
  - pose proof (IH i j ltac:(congruence) Hx Hy). specialize (Hf z). lia.
Qed.
Lemma ecount_nn f tr : (forall e, 0 <= f e) -> 0 <= ecount f tr.
Proof. apply (sumz_nonneg f). Qed.
Lemma wins_nn tr : 0 <= wins tr. Proof. apply ecount_nn. intros [? []| | | | | |]; lia. Qed.
Lemma nfalse_in n c : (n, false) ∈ c -> 1 <= nfalse n c.
Proof.
  induction c as [|[x b] c IH]; intros H; [by apply elem_of_nil in H|]. rewrite nfalse_cons. pose proof (nfalse_nn n c). pose proof (one_nn n x).
  apply elem_of_cons in H as [[= <- <-]|H]; [rewrite one_eq; lia|]. specialize (IH H). destruct b; lia.
Qed.
Lemma ntrue_in n c : (n, true) ∈ c -> 1 <= ntrue c.
Proof.
  induction c as [|[x b] c IH]; intros H; [by apply elem_of_nil in H|]. rewrite ntrue_cons. pose proof (ntrue_nn c).
  apply elem_of_cons in H as [[= <- <-]|H]; [simpl; lia|]. specialize (IH H). destruct b; simpl; lia.
Qed.
Lemma pa_rr1 tr s ts i l : PA tr s ts -> ts !! i = Some l -> rr l <= 1.
Proof. intros HI Hl. pose proof (sumz_ge rr ts i l rr_nn Hl). pose proof (pa_rr _ _ _ HI). pose proof (wins_nn tr). destruct (requested s); simpl in *; lia. Qed.
Lemma pa_rr2 tr s ts i j l k : PA tr s ts -> i <> j -> ts !! i = Some l -> ts !! j = Some k -> 1 <= rr l -> rr k = 0.
Proof.
  intros HI Hij Hl Hk H1. pose proof (sumz_two rr ts i j l k rr_nn Hij Hl Hk). pose proof (pa_rr _ _ _ HI). pose proof (wins_nn tr). pose proof (rr_nn k).
  destruct (requested s); simpl in *; lia.
Qed.
Lemma pa_ins2 tr s ts i j l k : PA tr s ts -> i <> j -> ts !! i = Some l -> ts !! j = Some k -> 1 <= ins l -> ins k = 0.
Proof.
  intros HI Hij Hl Hk H1. pose proof (sumz_two ins ts i j l k ins_nn Hij Hl Hk). pose proof (pa_ins _ _ _ HI). pose proof (ins_nn k).
  destruct (locked s); simpl in *; lia.
Qed.
Lemma pa_act2 tr s ts i j l k n : PA tr s ts -> i <> j -> ts !! i = Some l -> ts !! j = Some k -> 1 <= actor n l -> actor n k = 0.
Proof.
  intros HI Hij Hl Hk H1. pose proof (sumz_two (actor n) ts i j l k (actor_nn n) Hij Hl Hk). pose proof (pa_act _ _ _ HI n). pose proof (actor_nn n k).
  destruct (lives s n); simpl in *; lia.
Qed.

(** layer B: what each thread's program point says about the shared state *)
Record WB (i : nat) (s : pst) (l : ploc) : Prop := {
  wb_t : forall n, (n, true) ∈ l.1 -> cur s = Some n /\ stopper s = Some i;
  wb_f : forall n, (n, false) ∈ l.1 -> par s n = false;
  wb_op : match l.2 with
          | Some RLock | Some RCur => stopper s = Some i
          | Some RNot | Some RHead | Some RFail => stopper s = Some i /\ cur s = hd s
          | Some (RCall n) => stopper s = Some i /\ cur s = Some n
          | Some (AFast n) | Some (ALock n) | Some (AChk n) | Some (AIns n) | Some (ACall n) => par s n = false
          | Some (DLock n) | Some (DChk n) | Some (DFail n) => par s n = true
          | _ => True
          end }.
Definition PB (s : pst) (ts : list ploc) : Prop := (forall n, lives s n = Unborn -> par s n = false) /\ forall i l, ts !! i = Some l -> WB i s l.
Lemma rop_le l : rop l.2 <= rr l. Proof. unfold rr. pose proof (ntrue_nn l.1). lia. Qed.
Lemma wb_other j s s' l : WB j s l -> (cur s' = cur s /\ stopper s' = stopper s \/ rr l = 0) ->
  (forall n, par s' n = par s n \/ actor n l = 0 /\ par s' n = true) -> (hd s' = hd s \/ ins l = 0) -> WB j s' l.
Proof.
  intros [W1 W2 W3] H1 H2 H3. split.
  - intros n Hn. destruct H1 as [[-> ->]|H1]; [by apply W1|]. apply ntrue_in in Hn. unfold rr in H1. pose proof (rop_nn l.2). lia.
  - intros n Hn. destruct (H2 n) as [->|[H4 _]]; [by apply W2|]. apply nfalse_in in Hn. unfold actor in H4. pose proof (aop_nn n l.2). lia.
  - destruct l as [c [o|]]; [|done]. unfold rr, actor, ins in *. simpl in *. pose proof (ntrue_nn c) as Hn.
    destruct o; simpl in *; try done.
    all: try (destruct H1 as [[H6 H7]|H1]; [rewrite ?H6, ?H7|lia]; try done); try (destruct H3 as [->|H3]; [|lia]); try done.
    all: destruct (H2 n) as [->|[H4 H5]]; try done.
    all: rewrite one_eq in H4; pose proof (nfalse_nn n c); lia.
Qed.
Lemma pb_step tr s ts i l e s' l' : PA tr s ts -> PB s ts -> ts !! i = Some l -> sp_step i s l e s' l' -> PB s' (<[i := l']> ts).
Proof.
  intros HA [HU HB] Hl Ht. pose proof (HB i l Hl) as W. pose proof (pa_rr1 _ _ _ _ _ HA Hl) as R1. split.
  { intros n. assert (Ga : actor n l <= isC (lives s n)). { rewrite <- (pa_act _ _ _ HA n). by apply sumz_ge with i; [apply actor_nn|]. }
    specialize (HU n). inversion Ht; subst; clear Ht; simpl in *; try done; unfold upd; try case_decide; try done.
    subst. intros Hx. rewrite Hx in Ga. unfold actor in Ga. simpl in Ga. rewrite one_eq in Ga. pose proof (nfalse_nn n0 c). lia. }
  intros j k Hk. destruct (decide (j = i)) as [->|Hne].
  - rewrite list_lookup_insert in Hk by (by eapply lookup_lt_Some). injection Hk as <-. destruct W as [W1 W2 W3].
    assert (Gt : forall n c, l.1 = c -> 1 <= rop l.2 -> (n, true) ∈ c -> False).
    { intros n c <- Hr Hn. apply ntrue_in in Hn. unfold rr in R1. lia. }
    inversion Ht; subst; clear Ht; simpl in *; try (split; simpl; (done || tauto || (intros; apply W1; by right) || (intros; apply W2; by right) || idtac)).
    + by apply HU.
    + destruct rs; [|done]. apply (W1 n). left.
    + intros n Hn. exfalso. eapply Gt; [done| |done]; lia.
    + intros n Hn. exfalso. eapply Gt; [done| |done]; lia.
    + destruct W3 as [? ->]. done.
    + intros n0 Hn. apply elem_of_cons in Hn as [[= ->]|Hn]; [tauto|by apply W1].
    + intros n0 Hn. apply elem_of_cons in Hn as [[= ->]|Hn]. by apply W2.
    + intros n0 Hn. unfold upd. case_decide; [|by apply W2]. subst. pose proof (pa_act _ _ _ HA n) as Ha. pose proof (sumz_ge (actor n) ts i _ (actor_nn n) Hl) as Hg.
      unfold actor in Hg at 1. simpl in Hg. rewrite one_eq in Hg. apply nfalse_in in Hn. destruct (lives _ n) in Ha; simpl in Ha; lia.
    + intros n0 Hn. apply elem_of_cons in Hn as [[= ->]|Hn]. by apply W1.
    + intros n0 Hn. apply elem_of_cons in Hn as [[= ->]|Hn]; [done|by apply W2].
  - rewrite list_lookup_insert_ne in Hk by done. apply (wb_other j s); [by apply HB|..].
    + assert (Hr : 1 <= rr l -> rr k = 0) by (eapply pa_rr2; [exact HA| |exact Hl|exact Hk]; congruence). inversion Ht; subst; clear Ht; simpl; try (by left); right; apply Hr; unfold rr; simpl; pose proof (ntrue_nn c); lia.
    + intros n. assert (Hr : 1 <= actor n l -> actor n k = 0) by (eapply pa_act2; [exact HA| |exact Hl|exact Hk]; congruence). inversion Ht; subst; clear Ht; simpl; try (by left).
      unfold upd. case_decide; [|by left]. subst. right. split; [|done]. apply Hr. unfold actor. simpl. rewrite one_eq. pose proof (nfalse_nn n0 c). lia.
    + assert (Hr : 1 <= ins l -> ins k = 0) by (eapply pa_ins2; [exact HA| |exact Hl|exact Hk]; congruence). inversion Ht; subst; clear Ht; simpl; try (by left); right; apply Hr; unfold ins; simpl; lia.
Qed.
