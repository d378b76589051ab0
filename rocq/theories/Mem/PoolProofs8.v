From stdpp Require Import base list numbers list_numbers option decidable sorting.
From Coq Require Import ZArith Lia.
From Verif Require Import Mem.MonoModel Mem.MonoProofs Mem.PoolModel Mem.PoolSpec Mem.PoolProofs Mem.PoolProofs2 Mem.PoolProofs3 Mem.PoolProofs4 Mem.PoolProofs5 Mem.PoolProofs6 Mem.PoolProofs7.
Local Open Scope Z_scope.

Section pool.
Context (A : Z) (HA : A = 4 \/ A = 8).
Notation W := (W A). Notation wrap := (wrap A). Notation PMAX := (PTRDIFF_MAX A).
Notation pool_ok := (pool_ok A). Notation PI := (PI A). Notation okall := (okall A).

Lemma preach_ok tr s : ps_reach A tr s -> PI tr s /\ okall [] tr.
Proof.
  induction 1 as [s Hi|tr s ev s' Hr [HI Hok] Hst]; [split; [by apply (init_ok A HA)|done]|].
  destruct (step_ok A HA tr s ev s' HI Hst) as [H1 H2]. split; [done|]. apply (proj2 (okall_app A HA [] tr ev)). done.
Qed.
Lemma reach_ev tr s t1 e t2 : ps_reach A tr s -> tr = t1 ++ e :: t2 -> evok A t1 e.
Proof. intros Hr E. destruct (preach_ok tr s Hr) as [_ H]. by eapply (okall_split A HA). Qed.
(** calls to upstream are answered by [up] *)
Lemma P_allocate_up mb P o up P' o' ev r q k b : P_allocate A mb P o up = (P', o', ev, r) -> EUp q k b ∈ ev -> up k b = Some q.
Proof.
  intros E Hq. unfold P_allocate in E. cbv zeta in E.
  assert (Hg : match Increase_capacity A mb P o up with
     | inl P' => (P', o, [], RThrow)
     | inr (P', o', ev) => match p_chunks P' with
        | c :: _ => if avail c then let '(P'', o'', b) := P_take A P' c o' in (P'', o'', ev, ROk b) else (P', o', ev, RStuck)
        | [] => (P', o', ev, RStuck) end end = (P', o', ev, r) -> up k b = Some q).
  { clear E. unfold Increase_capacity. cbv zeta. destruct (up _ _) as [p|] eqn:Eu; intros E; [|injection E as <- <- <- <-; by apply elem_of_nil in Hq].
    cbn [p_chunks] in E. match type of E with context [avail ?c] => destruct (avail c) end.
    - match type of E with context [P_take A ?x ?c ?o] => destruct (P_take A x c o) as [[? ?] ?] end. injection E as <- <- <- <-. apply elem_of_list_singleton in Hq. injection Hq as -> -> ->. done.
    - injection E as <- <- <- <-. apply elem_of_list_singleton in Hq. injection Hq as -> -> ->. done. }
  destruct (p_unfull P) as [h|]; [|by apply Hg]. destruct (fromc h (p_chunks P)) as [|c0 l]; [injection E as <- <- <- <-; by apply elem_of_nil in Hq|].
  destruct (scan (c0 :: l)) as [c|]; [|by apply Hg]. destruct (P_take A P c o) as [[? ?] ?]. injection E as <- <- <- <-. by apply elem_of_nil in Hq.
Qed.
Lemma do_allocate_up s n a up emp s' ev r q k b : do_allocate A s n a up emp = (s', ev, r) -> EUp q k b ∈ ev -> up k b = Some q.
Proof.
  intros E Hq. unfold do_allocate in E. cbv zeta in E. case_decide.
  - destruct (find_pool (flog A n a) (pools s)) as [pre rest].
    assert (Hrun : forall P post, (let '(P', o', ev, r) := P_allocate A (maxb s) P (own s) up in (Pst (maxb s) (largest s) (pre ++ P' :: post) (over s) o', ev, r)) = (s', ev, r) -> up k b = Some q).
    { intros P post E0. destruct (P_allocate A (maxb s) P (own s) up) as [[[P' o'] ev0] r0] eqn:Ea. injection E0 as <- <- <-. by eapply P_allocate_up. }
    assert (Hfr : forall post, (if emp then let '(P', o', ev, r) := P_allocate A (maxb s) (Pool (flog A n a) None [] 4 None) (own s) up in (Pst (maxb s) (largest s) (pre ++ P' :: post) (over s) o', ev, r) else (s, [], RThrow)) = (s', ev, r) -> up k b = Some q).
    { intros post E0. destruct emp; [by apply (Hrun (Pool (flog A n a) None [] 4 None) post)|]. injection E0 as <- <- <-. by apply elem_of_nil in Hq. }
    destruct rest as [|P post]; [by apply (Hfr [])|]. case_decide; [by apply (Hrun P post)|by apply (Hfr (P :: post))].
  - unfold Allocate_oversized in E. destruct (Prepare_oversized A n a) as [[k0 b0]|]; [|injection E as <- <- <-; by apply elem_of_nil in Hq].
    destruct (up k0 b0) as [p|] eqn:Eu; injection E as <- <- <-; [|by apply elem_of_nil in Hq]. apply elem_of_list_singleton in Hq. injection Hq as -> -> ->. done.
Qed.
(** a pool with a free block hands one out without asking upstream *)
Lemma P_allocate_free N mb P o up : pool_ok N P -> (exists c, c ∈ p_chunks P /\ c_fcnt c <> 0) -> exists P' o' p, P_allocate A mb P o up = (P', o', [], ROk p).
Proof.
  intros HP (c & Hc & Hf). unfold P_allocate. cbv zeta. pose proof (pk_unfull _ _ _ HP) as Hu. destruct (p_unfull P) as [h|]; [|by pose proof (Hu c Hc)].
  destruct Hu as (u & Huin & Euh & Hbig). destruct (fromc_spec h (p_chunks P)) as [(l1 & u' & l2 & Ecs & Eu' & Ef)|[_ Hno]]; [|exfalso; by apply (Hno u)].
  rewrite Ef. assert (u' = u) as ->. { eapply (hdr_inj A HA N P); [done|rewrite Ecs; apply elem_of_app; right; by left|done|congruence]. }
  pose proof (scan_spec (u :: l2)) as Hs. destruct (scan (u :: l2)) as [c'|].
  - destruct (P_take A P c' o) as [[P2 o2] b]. by eexists _, _, _.
  - exfalso. apply Hf. pose proof Hc as Hc'. rewrite Ecs in Hc'. apply elem_of_app in Hc' as [Hc'|Hc'].
    + apply Hbig; [done|]. pose proof (pk_sorted _ _ _ HP) as Hso. rewrite Ecs in Hso.
      clear -Hso Hc'. induction l1 as [|y l1 IH]; [by apply elem_of_nil in Hc'|]. rewrite <- app_comm_cons, fmap_cons in Hso. inversion Hso as [|? ? Hs' Hall]; subst.
      apply elem_of_cons in Hc' as [-> | Hx]; [|by apply IH]. rewrite Forall_forall in Hall. apply Hall. apply elem_of_list_fmap. exists u. split; [done|]. apply elem_of_app. right. by left.
    + specialize (Hs c Hc'). destruct (decide (c_fcnt c = 0)) as [?|Hn]; [done|]. apply (avail_fcnt A _ c (pk_chunks _ _ _ HP c Hc)) in Hn. congruence.
Qed.
Lemma find_pool_in tr s P : PI tr s -> P ∈ pools s -> exists pre post, find_pool (p_log P) (pools s) = (pre, P :: post) /\ pools s = pre ++ P :: post.
Proof.
  intros HI HP. destruct (find_pool (p_log P) (pools s)) as [pre rest] eqn:Ef. destruct (find_pool_spec _ _ _ _ (pi_sorted _ _ _ HI) Ef) as (Es & Hpre & Hrest).
  pose proof (pi_sorted _ _ _ HI) as Hs. assert (HPr : P ∈ rest). { rewrite Es in HP. apply elem_of_app in HP as [HP|HP]; [|done]. pose proof (Hpre P HP). lia. }
  destruct rest as [|Q post]; [by apply elem_of_nil in HPr|]. exists pre, post. apply elem_of_cons in HPr as [<- | HPr]; [done|]. exfalso.
  pose proof (Hrest Q ltac:(by left)). assert (p_log Q < p_log P); [|lia]. rewrite Es, fmap_app, fmap_cons in Hs.
  clear -Hs HPr. induction pre as [|y pre IH]; cbn in Hs; inversion Hs as [|? ? Hs' Hall]; subst; [|by apply IH].
  rewrite Forall_forall in Hall. apply Hall, elem_of_list_fmap. by exists P.
Qed.
Lemma reuse tr s p n a s' ev n' a' up emp : PI tr s -> (p, n, a) ∈ live tr -> n <= largest s -> do_deallocate A s p n a = Some (s', ev) ->
  n' <= largest s -> flog A n' a' = flog A n a -> exists s'' q, do_allocate A s' n' a' up emp = (s'', [], ROk q).
Proof.
  intros HI Hl Hn E Hn' Ef. destruct (dealloc_ok A HA tr s p n a HI Hl) as (s2 & ev2 & E2 & HI2 & _ & Em & El & Hx). rewrite E in E2. injection E2 as <- <-.
  destruct (Hx Hn) as (P & HP & EP & Hc). unfold do_allocate. rewrite decide_True by lia. cbv zeta. rewrite Ef, <- EP.
  destruct (find_pool_in _ _ P HI2 HP) as (pre & post & Efp & _). rewrite Efp, decide_True by done.
  destruct (P_allocate_free _ (maxb s') P (own s') up (pi_pools _ _ _ HI2 P HP) Hc) as (P' & o' & q & Ea). rewrite Ea. by eexists _, _.
Qed.
End pool.
