(** C30: shared_ptr / weak_ptr ownership, in every interleaving of any number of threads, objects and control blocks. *)
From stdpp Require Import base list numbers option decidable list_numbers.
From Coq Require Import ZArith Lia.
From Verif Require Import Conc.Sched Conc.SharedPtrModel Conc.SharedPtrProofs.
Local Open Scope Z_scope.

(** nobody is inside an operation *)
Definition all_idle (ts : list (list ins)) : Prop := forall i k, ts !! i = Some k -> k = [].

(** no operation ever touches a deleted control block, and nothing is destroyed or deleted twice *)
Theorem C30_safety m n tr s ts : steps sp_step (sp_init m n) tr (s, ts) ->
  (forall i k, ts !! i = Some k -> Fault ∉ k) /\
  forall b, (count (is_destroy b) tr <= 1)%nat /\ (count (is_free b) tr <= 1)%nat.
Proof.
  intros Hs. pose proof (pi_reach m n tr s ts Hs) as HI. split.
  - intros i k Hk Hin. apply elem_of_list_lookup in Hin as [j Hj]. exact (pi_wf _ _ _ HI i k Hk j _ Hj).
  - intros b. pose proof (pi_ed _ _ _ HI b) as H1. pose proof (pi_ef _ _ _ HI b) as H2. unfold D, F in *.
    split; [destruct (blocks s !! b) as [x|]; [destruct (live x)|]; lia|destruct (blocks s !! b) as [x|]; [destruct (freed x)|]; lia].
Qed.
(** while any shared_ptr object owns b its resource has not been destroyed; while any pointer object refers to b the
    control block has not been deleted *)
Theorem C30_alive m n tr s ts b : steps sp_step (sp_init m n) tr (s, ts) ->
  (0 < owners Strong s b -> EDestroy b ∉ tr) /\ (0 < owners Strong s b + owners Weak s b -> EFree b ∉ tr).
Proof.
  intros Hs. pose proof (pi_reach m n tr s ts Hs) as HI. pose proof (pi_ed _ _ _ HI b) as H1. pose proof (pi_ef _ _ _ HI b) as H2.
  pose proof (owners_nn Strong s b). pose proof (owners_nn Weak s b).
  assert (Hin : forall f e, f e = true -> e ∈ tr -> (0 < count f tr)%nat).
  { intros f e Hf He. unfold count. apply elem_of_list_In in He. assert (In e (List.filter f tr)) as Hi by (apply filter_In; done).
    destruct (List.filter f tr); [done|simpl; lia]. }
  split; intros Ho He.
  - pose proof (Hin (is_destroy b) (EDestroy b) (bool_decide_eq_true_2 _ eq_refl) He) as Hc.
    pose proof (pi_uses _ _ _ HI b) as Hu. pose proof (tot_nn _ ts (so_nn b)). pose proof (pi_dy _ _ _ HI b) as Hd. pose proof (tot_nn _ ts (dy_nn b)).
    unfold pos in Hd. rewrite decide_True in Hd by lia. assert (N s b <= 1) by (unfold N; destruct (blocks s !! b); lia). lia.
  - pose proof (Hin (is_free b) (EFree b) (bool_decide_eq_true_2 _ eq_refl) He) as Hc.
    pose proof (weak_pos _ _ _ HI b ltac:(lia)) as Hw. pose proof (pi_de _ _ _ HI b) as Hd. pose proof (tot_nn _ ts (de_nn b)).
    unfold pos in Hd. rewrite decide_True in Hd by lia. assert (N s b <= 1) by (unfold N; destruct (blocks s !! b); lia). lia.
Qed.
Lemma idle_tot f ts : all_idle ts -> tot f ts = 0.
Proof. intros H. apply sumz_zero. intros i k Hk. by rewrite (H i k Hk). Qed.
(** nothing leaks: when no operation is in progress, the resource has been destroyed exactly once if no shared_ptr object
    owns b, and the block deleted exactly once if no pointer object refers to it; use_count is the number of owners *)
Theorem C30_released m n tr s ts b : steps sp_step (sp_init m n) tr (s, ts) -> all_idle ts -> (b < length (blocks s))%nat ->
  (owners Strong s b = 0 -> count (is_destroy b) tr = 1%nat) /\
  (owners Strong s b = 0 -> owners Weak s b = 0 -> count (is_free b) tr = 1%nat) /\
  forall i v kd p rd s' k' e, vars s !! v = Some (Some (Var kd p (Some b) rd)) -> sp_step i s [] (Some (EUse v e)) s' k' -> e = owners Strong s b.
Proof.
  intros Hs Hid Hb. pose proof (pi_reach m n tr s ts Hs) as HI.
  pose proof (pi_ed _ _ _ HI b) as H1. pose proof (pi_ef _ _ _ HI b) as H2. pose proof (pi_uses _ _ _ HI b) as Hu. pose proof (pi_weaks _ _ _ HI b) as Hw.
  pose proof (pi_dy _ _ _ HI b) as Hd. pose proof (pi_de _ _ _ HI b) as He. rewrite idle_tot in Hu, Hw, Hd, He by done.
  assert (HN : N s b = 1) by (unfold N; by destruct (lookup_lt_is_Some_2 _ _ Hb) as [x ->]). rewrite HN in *.
  split; [|split].
  - intros Ho. unfold pos in *. repeat case_decide; lia.
  - intros Ho Ho'. unfold pos in *. repeat case_decide; lia.
  - intros i v kd p rd s' k' e Hv Hst. inversion Hst; subst; try done; try (by destruct v0).
    match goal with H : vars s' !! v = Some (Some (Var _ _ ?r _)) |- _ => rewrite Hv in H; injection H as <- <- <- <- end.
    assert (0 < W s' b) as Hpos.
    { apply (weak_pos _ _ _ HI). pose proof (owners_ge Strong s' b v _ Hv) as Ho1. pose proof (owners_ge Weak s' b v _ Hv) as Ho2.
      rewrite owns_var, is_eq in Ho1, Ho2. destruct kd; simpl in *; lia. }
    destruct (weak_block _ _ _ HI b Hpos) as [x Hx]. rewrite Hx. apply block_inv in Hx as [Hx _]. unfold U in Hu. rewrite Hx in Hu. lia.
Qed.
(** the resource is destroyed only when the last owner is gone, and the block is deleted only after that *)
Theorem C30_destroy_last m n tr c pre b post : steps sp_step (sp_init m n) tr c -> tr = pre ++ EDestroy b :: post ->
  exists s1 ts1, steps sp_step (sp_init m n) pre (s1, ts1) /\ owners Strong s1 b = 0.
Proof.
  intros Hs Heq. destruct (steps_event _ _ _ _ Hs _ _ _ Heq) as ([s1 ts1] & c2 & H1 & H2). exists s1, ts1. split; [done|].
  pose proof (pi_reach m n pre s1 ts1 H1) as HI.
  inversion H2 as [i s0 ts0 l o s' l' Hl Ht Heq1 Heq2]; subst. destruct o as [e'|]; [|done]. injection Heq2 as ->.
  inversion Ht; subst. pose proof (tot_ge_top _ ts1 i _ _ (dy_nn b) Hl) as Hd. simpl in Hd. rewrite is_eq in Hd.
  pose proof (pi_dy _ _ _ HI b) as HH. pose proof (pi_uses _ _ _ HI b) as Hu. pose proof (owners_nn Strong s1 b). pose proof (tot_nn _ ts1 (so_nn b)).
  assert (N s1 b <= 1) by (unfold N; destruct (blocks s1 !! b); lia). assert (0 <= D s1 b) by (unfold D; destruct (blocks s1 !! b) as [[? ? [] ?]|]; simpl; lia).
  unfold pos in HH. case_decide; lia.
Qed.
Theorem C30_free_after_destroy m n tr c pre b post : steps sp_step (sp_init m n) tr c -> tr = pre ++ EFree b :: post -> EDestroy b ∈ pre.
Proof.
  intros Hs Heq. destruct (steps_event _ _ _ _ Hs _ _ _ Heq) as ([s1 ts1] & c2 & H1 & H2).
  pose proof (pi_reach m n pre s1 ts1 H1) as HI.
  inversion H2 as [i s0 ts0 l o s' l' Hl Ht Heq1 Heq2]; subst. destruct o as [e'|]; [|done]. injection Heq2 as ->.
  inversion Ht; subst. pose proof (tot_ge_top _ ts1 i _ _ (de_nn b) Hl) as Hd. simpl in Hd. rewrite is_eq in Hd.
  pose proof (pi_de _ _ _ HI b) as HH. pose proof (pi_dy _ _ _ HI b) as HD. pose proof (pi_uses _ _ _ HI b) as Hu. pose proof (pi_weaks _ _ _ HI b) as Hw.
  pose proof (owners_nn Strong s1 b). pose proof (owners_nn Weak s1 b). pose proof (tot_nn _ ts1 (so_nn b)). pose proof (tot_nn _ ts1 (wo_nn b)).
  assert (N s1 b <= 1) by (unfold N; destruct (blocks s1 !! b); lia). assert (0 <= F s1 b) by (unfold F; destruct (blocks s1 !! b) as [[? ? ? []]|]; simpl; lia).
  assert (Hle : tot (dy b) ts1 <= tot (wo b) ts1).
  { apply sumz_le. intros j k0 _. apply sumz_le. intros ? c0 _. destruct c0; simpl; try lia; try apply is_nn; destruct kd; try lia; apply is_nn. }
  pose proof (tot_nn _ ts1 (dy_nn b)).
  assert (HD1 : D s1 b = 1) by (unfold pos in *; repeat case_decide; lia).
  pose proof (pi_ed _ _ _ HI b) as Hed. rewrite HD1 in Hed.
  destruct (List.filter (is_destroy b) pre) as [|e l] eqn:E; unfold count in Hed; rewrite E in Hed; [simpl in Hed; lia|].
  assert (In e (List.filter (is_destroy b) pre)) as Hi by (rewrite E; by left). apply filter_In in Hi as [Hi1 Hi2].
  destruct e; simpl in Hi2; try done. apply bool_decide_eq_true in Hi2 as ->. by apply elem_of_list_In.
Qed.
(** lock(): it succeeds only if the resource has not been destroyed, and then the result owns it; it fails only when no
    shared_ptr object owns the resource, and once it has failed it never succeeds again *)
Theorem C30_lock m n tr c pre v b ok post : steps sp_step (sp_init m n) tr c -> tr = pre ++ ELock v b ok :: post ->
  if ok then EDestroy b ∉ pre /\ (forall w, ELock w b false ∉ pre)
  else exists s1 ts1, steps sp_step (sp_init m n) pre (s1, ts1) /\ owners Strong s1 b = 0.
Proof.
  intros Hs Heq. destruct (steps_event _ _ _ _ Hs _ _ _ Heq) as ([s1 ts1] & c2 & H1 & H2).
  pose proof (pi_reach m n pre s1 ts1 H1) as HI.
  assert (Hexp : forall w, ELock w b false ∈ pre -> U s1 b = 0 /\ N s1 b = 1).
  { clear -H1. unfold sp_init in H1.
    apply (steps_inv' _ (fun tr s ts => PI tr s ts /\ forall w, ELock w b false ∈ tr -> U s b = 0 /\ N s b = 1)) in H1; [apply H1| |].
    - split; [|by intros w Hw%elem_of_nil]. by apply (pi_reach m n), steps_nil.
    - intros tr s ts i k e s' k' [HI HJ] Hl Ht. split; [by eapply pi_step|].
      intros w Hw. apply elem_of_app in Hw as [Hw|Hw].
      + destruct (HJ w Hw) as [HU HN]. clear HJ Hw.
        assert (Hsb : forall b0 x y, block s b0 = Some x -> (b0 = b -> uses y = 0) -> U (setb s b0 y) b = 0 /\ N (setb s b0 y) b = 1).
        { intros b0 x y Hx Hy. apply block_inv in Hx as [Hx _]. rewrite (U_setb _ _ x), (N_setb _ _ x) by done. split; [|done]. case_decide; [subst; by apply Hy|done]. }
        assert (Hu0 : forall b0 x, block s b0 = Some x -> b0 = b -> uses x = 0).
        { intros b0 x Hx ->. apply block_inv in Hx as [Hx _]. unfold U in HU. by rewrite Hx in HU. }
        pose proof (pi_uses _ _ _ HI b) as Hus. pose proof (owners_nn Strong s b) as Hon. pose proof (tot_nn _ ts (so_nn b)) as Htn.
        inversion Ht; subst; try done;
          try (match goal with H : block s ?b0 = Some ?x |- _ /\ _ => apply (Hsb b0 x); [done|]; simpl; intros ->; first [by apply (Hu0 b)|exfalso] end).
        * unfold U, N in *. simpl. destruct (blocks s !! b) as [x|] eqn:Hx; [|done]. erewrite lookup_app_l_Some; done.
        * pose proof (pi_wf _ _ _ HI i _ Hl 0%nat _ eq_refl) as (y & Hy & Hyr & Hyk). specialize (Hyk eq_refl).
          pose proof (owners_ge Strong s b v _ Hy) as Hge. destruct y; simpl in *; subst. rewrite decide_True in Hge by done. lia.
        * pose proof (pi_wf _ _ _ HI i _ Hl 0%nat _ eq_refl) as [_ Hc]. apply Hc. by apply (Hu0 b).
        * pose proof (pi_wf _ _ _ HI i _ Hl 0%nat _ eq_refl) as Hc. apply Hc. by apply (Hu0 b).
        * pose proof (tot_ge_top _ ts i _ _ (so_nn b) Hl) as Hd. simpl in Hd. rewrite is_eq in Hd. lia.
      + destruct e as [e|]; simpl in Hw; [|by apply elem_of_nil in Hw]. apply elem_of_list_singleton in Hw as <-.
        inversion Ht; subst; match goal with H : block _ _ = Some _ |- _ => apply block_inv in H as [Hx _] end; unfold U, N; rewrite Hx; done. }
  inversion H2 as [i s0 ts0 l o s' l' Hl Ht Heq1 Heq2]; subst. destruct o as [e'|]; [|done]. injection Heq2 as ->.
  pose proof (pi_uses _ _ _ HI b) as Hu. pose proof (owners_nn Strong s1 b). pose proof (tot_nn _ ts1 (so_nn b)).
  destruct ok.
  - inversion Ht; subst. match goal with H : block _ _ = Some _ |- _ => apply block_inv in H as [Hx _] end.
    pose proof (pi_wf _ _ _ HI i _ Hl 0%nat _ eq_refl) as [_ Hc]. unfold U in Hu. rewrite Hx in Hu. split.
    + intros He. pose proof (pi_ed _ _ _ HI b) as Hed. pose proof (pi_dy _ _ _ HI b) as Hd. pose proof (tot_nn _ ts1 (dy_nn b)).
      assert (0 < count (is_destroy b) pre)%nat.
      { unfold count. apply elem_of_list_In in He. assert (In (EDestroy b) (List.filter (is_destroy b) pre)) as Hi by (apply filter_In; split; [done|exact (bool_decide_eq_true_2 _ eq_refl)]).
        destruct (List.filter (is_destroy b) pre); [done|simpl; lia]. }
      unfold U, N, pos in Hd. rewrite Hx in Hd. rewrite decide_True in Hd by lia. lia.
    + intros w0 Hw. destruct (Hexp w0 Hw) as [HU _]. unfold U in HU. rewrite Hx in HU. lia.
  - exists s1, ts1. split; [done|]. inversion Ht; subst; match goal with H : block _ _ = Some _ |- _ => apply block_inv in H as [Hx _] end; unfold U in Hu; rewrite Hx in Hu; lia.
Qed.

(** satisfiability: thread 1 locks while thread 0 drops the last shared_ptr between its load and its compare-exchange *)
Ltac go i c := eapply (run _ i); [reflexivity|c|cbn [insert list_insert replicate setv setb vars blocks uses weaks live freed app release finish]].
Example C30_sat : exists s ts, steps sp_step (sp_init 3 2) [EDestroy 0; ELock 1 0 false; EFree 0] (s, ts) /\ all_idle ts /\ length (blocks s) = 1%nat.
Proof.
  assert (H : exists tr s ts, steps sp_step (sp_init 3 2) tr (s, ts) /\ tr = [EDestroy 0; ELock 1 0 false; EFree 0] /\ all_idle ts /\ length (blocks s) = 1%nat).
  { eexists _, _, _. split.
    - unfold sp_init. cbn [replicate].
      go 0%nat ltac:(apply (p_new _ _ _ 0%nat 7); [by left|done]). 
      go 0%nat ltac:(eapply (p_copy _ _ _ 0%nat 1%nat Weak Strong 7 _ 0 7 false); [by left|reflexivity|by left|done]).
      go 0%nat ltac:(eapply p_incwref; reflexivity). go 0%nat ltac:(apply p_put; reflexivity). go 0%nat ltac:(eapply p_endread; reflexivity).
      go 1%nat ltac:(eapply (p_lock _ _ _ 1%nat 2%nat); [by left|reflexivity]).
      go 1%nat ltac:(eapply p_lockload; [reflexivity|done]).
      go 0%nat ltac:(eapply (p_destroy _ _ _ 0%nat); [by left|reflexivity]).
      go 0%nat ltac:(eapply p_decref; reflexivity). rewrite decide_True by done. go 0%nat ltac:(eapply p_dtor; reflexivity).
      go 1%nat ltac:(eapply p_lockcas_fail; [reflexivity|done|done]). go 1%nat ltac:(apply p_put; reflexivity). go 1%nat ltac:(eapply p_endread; reflexivity).
      go 0%nat ltac:(eapply p_dtor_end). go 0%nat ltac:(eapply p_decwref; reflexivity). rewrite decide_False by done.
      go 0%nat ltac:(eapply (p_destroy _ _ _ 1%nat); [by left|reflexivity]). go 0%nat ltac:(eapply p_decwref; reflexivity). rewrite decide_True by done.
      go 0%nat ltac:(eapply p_delete; reflexivity). apply steps_nil.
    - split; [done|]. split; [|done]. intros [|[|i]] k Hk; [by injection Hk as <-|by injection Hk as <-|destruct i; done]. }
  destruct H as (tr & s & ts & H & -> & H'). eauto.
Qed.

Print Assumptions C30_safety.
Print Assumptions C30_alive.
Print Assumptions C30_released.
Print Assumptions C30_destroy_last.
Print Assumptions C30_free_after_destroy.
Print Assumptions C30_lock.
