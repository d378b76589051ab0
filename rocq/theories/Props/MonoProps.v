(** C36: std::pmr::monotonic_buffer_resource hands out disjoint aligned memory and gives every upstream block back exactly once.
    [mb_reach A b0 n0 tr s]: history [tr] (allocations, throws, releases, client writes to its own memory and calls to the upstream
    resource, in order) is possible for a resource with initial buffer [b0, b0+n0) (n0 = 0: none); A = sizeof(void-star), 4 or 8.
    Destruction is a final release(). Any upstream resource is covered that returns fresh, disjoint, aligned blocks (or throws). *)
From stdpp Require Import base list numbers option decidable.
From Coq Require Import ZArith Lia.
From Verif Require Import Mem.MonoModel Mem.MonoSpec Mem.MonoProofs Mem.MonoProofs2.
Local Open Scope Z_scope.

Section props.
Context (A : Z) (HA : A = 4 \/ A = 8) (b0 n0 : Z).

(** allocate(n, a) returns an a-aligned non-null address *)
Theorem C36_aligned tr s t1 p n a t2 : mb_reach A b0 n0 tr s -> tr = t1 ++ EAlloc p n a :: t2 -> p mod a = 0 /\ 0 < p /\ p + n <= W A.
Proof. intros Hr E. destruct (reach_inv A HA b0 n0 tr s Hr) as [_ He]. pose proof (He _ _ _ E) as Hx. cbn [evok] in Hx. tauto. Qed.
(** the n bytes lie in the initial buffer or in one upstream block that has not been given back *)
Theorem C36_contained tr s t1 p n a t2 : mb_reach A b0 n0 tr s -> tr = t1 ++ EAlloc p n a :: t2 -> in_initial b0 n0 p n \/ in_block t1 p n.
Proof. intros Hr E. destruct (reach_inv A HA b0 n0 tr s Hr) as [_ He]. pose proof (He _ _ _ E) as Hx. cbn [evok] in Hx. tauto. Qed.
(** they overlap no allocation made since the last release *)
Theorem C36_disjoint tr s t1 p n a t2 q m : mb_reach A b0 n0 tr s -> tr = t1 ++ EAlloc p n a :: t2 -> (q, m) ∈ live t1 -> disj p n q m.
Proof. intros Hr E Hq. destruct (reach_inv A HA b0 n0 tr s Hr) as [_ He]. pose proof (He _ _ _ E) as Hx. cbn [evok] in Hx. destruct Hx as (_ & _ & _ & Hd & _). by apply Hd. Qed.
(** memory handed out stays valid until the next release: its block is still owned *)
Theorem C36_stays_valid tr s p n : mb_reach A b0 n0 tr s -> (p, n) ∈ live tr -> in_initial b0 n0 p n \/ in_block tr p n.
Proof.
  intros Hr Hl. destruct (reach_inv A HA b0 n0 tr s Hr) as [HI _]. destruct (mi_fresh _ _ _ _ _ HI p n Hl) as (_ & _ & [Hp|(q & m & a & Hb & Hq & Hm)]); [by left|].
  right. exists q, m, a. split; [done|]. pose proof (H_pos A HA). lia.
Qed.
(** upstream->deallocate is only called on an outstanding block, with the size and alignment it was requested with: no double free *)
Theorem C36_frees_match tr s t1 p n a t2 : mb_reach A b0 n0 tr s -> tr = t1 ++ EUpFree p n a :: t2 -> (p, n, a) ∈ outst t1.
Proof. intros Hr E. destruct (reach_inv A HA b0 n0 tr s Hr) as [_ He]. exact (He _ _ _ E). Qed.
(** when release returns, every upstream block has been given back *)
Theorem C36_release_frees_all tr s t1 t2 : mb_reach A b0 n0 tr s -> tr = t1 ++ ERelease :: t2 -> outst t1 = [].
Proof. intros Hr E. destruct (reach_inv A HA b0 n0 tr s Hr) as [_ He]. exact (He _ _ _ E). Qed.
(** release can always run to completion, and never reads bookkeeping that the client, or a deallocation, has overwritten *)
Theorem C36_release_safe tr s : mb_reach A b0 n0 tr s ->
  ~ pfault A (chunks s) (hdr s) /\ exists ev s', mb_step A b0 n0 tr s (ev ++ [ERelease]) s' /\ outst (tr ++ ev ++ [ERelease]) = [].
Proof.
  intros Hr. destruct (reach_inv A HA b0 n0 tr s Hr) as [HI _]. destruct (pops_chain A HA b0 n0 _ _ _ (mi_blocks _ _ _ _ _ HI) (mi_chain _ _ _ _ _ HI)) as ((hd' & Hp) & Hnf & _).
  split; [done|]. destruct (decide (chunks s = 0)) as [Hz|Hz].
  - exists [], s. split; [by apply (mb_release_empty A b0 n0 tr s)|]. cbn [app]. rewrite outst_app. cbn [foldl outst1].
    pose proof (mi_chain _ _ _ _ _ HI) as Hcc. pose proof (mi_blocks _ _ _ _ _ HI) as Hbb. pose proof (H_pos A HA). destruct (outst tr) as [|[[q m] b] B]; [done|]. cbn [chain blocks_ok] in *. lia.
  - eexists _, _. split; [eapply mb_release; [exact Hz|exact Hp]|]. rewrite outst_app, foldl_app, (frees_outst A HA b0 n0) by apply HI. done.
Qed.
(** an allocation that throws changes nothing; it throws only for an impossible size, or because upstream threw *)
Theorem C36_throw tr s n a up s' ev : mb_reach A b0 n0 tr s -> 0 <= n < W A -> pow2 A a -> do_allocate A s n a up = (s', ev, None) ->
  s' = s /\ ev = [] /\ (W A - 4 * A < n \/ up = None).
Proof.
  intros Hr Hn Ha Hdo. destruct (reach_inv A HA b0 n0 tr s Hr) as [HI _].
  destruct (alloc_cases A HA b0 n0 _ _ _ _ _ _ _ _ HI Hn Ha Hdo) as [(p' & sp & E & _)|[(p' & k & E & _)|(_ & -> & -> & Hw)]]; [done..|].
  split; [done|]. split; [done|]. unfold H in Hw. destruct Hw as [Hw|[Hw _]]; [left; lia|by right].
Qed.
(** upstream is asked for memory only when no aligned place of the size is left in the current buffer *)
Theorem C36_uses_buffer tr s n a k b : mb_reach A b0 n0 tr s -> 0 <= n < W A -> pow2 A a -> asks A s n a = Some (k, b) -> cur s <> 0 ->
  forall q, cur s <= q -> q + n <= cur s + space s -> q mod a <> 0.
Proof.
  intros Hr Hn Ha Has Hc. destruct (reach_inv A HA b0 n0 tr s Hr) as [HI _]. pose proof (mi_pos _ _ _ _ _ HI) as (P1 & P2 & P3). unfold asks in Has.
  destruct (align A a n (cur s) (space s)) as [[p sp]|] eqn:E.
  - apply (align_ok A) in E; [|done..]. destruct (decide (p <> 0)); [done|]. lia.
  - by eapply (align_none A).
Qed.
(** each upstream request is at least one and a half times the previous one (or the largest possible): geometric growth *)
Theorem C36_geometric_growth tr s t1 p n a t2 p1 n1 a1 l : mb_reach A b0 n0 tr s -> tr = t1 ++ EUp p n a :: t2 -> outst t1 = (p1, n1, a1) :: l ->
  2 * n >= 3 * n1 \/ n = W A - A.
Proof.
  intros Hr E Ho. destruct (reach_inv A HA b0 n0 tr s Hr) as [_ He]. pose proof (He _ _ _ E) as Hx. cbn [evok] in Hx. destruct Hx as (_ & _ & Hg).
  destruct (Hg _ _ _ _ Ho) as [Hx|Hx]; [left|by right]. Z.div_mod_to_equations. lia.
Qed.
(** blocks are requested with at least pointer alignment and in multiples of it, so the bookkeeping stored at their end is aligned *)
Theorem C36_requests_aligned tr s t1 p n a t2 : mb_reach A b0 n0 tr s -> tr = t1 ++ EUp p n a :: t2 -> n mod A = 0 /\ A <= a.
Proof. intros Hr E. destruct (reach_inv A HA b0 n0 tr s Hr) as [_ He]. pose proof (He _ _ _ E) as Hx. cbn [evok] in Hx. tauto. Qed.
End props.

(** a history in which an initial buffer is exhausted, two blocks are requested, the client writes, and everything is released *)
Definition x0 : mbst := Mb 1000 64 (Scale 8 64) 0 (fun _ => None).
Definition x1 : mbst := fst (fst (do_allocate 8 x0 40 8 None)).
Definition x2 : mbst := fst (fst (do_allocate 8 x1 40 16 (Some 4096))).
Definition x3 : mbst := Mb (cur x2) (space x2) (nextsz x2) (chunks x2) (clobber 8 4096 40 (hdr x2)).
Definition x4 : mbst := fst (fst (do_allocate 8 x3 200 8 (Some 8192))).
Example C36_sat : exists s, mb_reach 8 1000 64
  [EAlloc 1000 40 8; EUp 4096 96 16; EAlloc 4096 40 16; EWrite 4096 40; EUp 8192 224 8; EAlloc 8192 200 8; EUpFree 8192 224 8; EUpFree 4096 96 16; ERelease] s /\
  live [EAlloc 1000 40 8; EUp 4096 96 16; EAlloc 4096 40 16] = [(4096, 40); (1000, 40)].
Proof.
  eexists. split; [|reflexivity].
  assert (P3 : pow2 8 8) by (exists 3; cbn; lia). assert (P4 : pow2 8 16) by (exists 4; cbn; lia).
  assert (R0 : mb_reach 8 1000 64 [] x0). { apply mb_reach_init. apply (mb_init_buffer 8 1000 64); [lia|lia|reflexivity]. }
  assert (R1 : mb_reach 8 1000 64 [EAlloc 1000 40 8] x1).
  { apply (mb_reach_step 8 1000 64 [] x0 ([] ++ [EAlloc 1000 40 8])); [done|]. apply (mb_alloc 8 1000 64 [] x0 40 8 None); [split; [lia|reflexivity]|done|intros; discriminate|vm_compute; reflexivity]. }
  assert (R2 : mb_reach 8 1000 64 [EAlloc 1000 40 8; EUp 4096 96 16; EAlloc 4096 40 16] x2).
  { apply (mb_reach_step 8 1000 64 _ x1 ([EUp 4096 96 16] ++ [EAlloc 4096 40 16]) x2) in R1; [exact R1|]. apply (mb_alloc 8 1000 64 _ x1 40 16 (Some 4096)); [split; [lia|reflexivity]|done| |vm_compute; reflexivity].
    intros k b q E [= <-]. vm_compute in E. injection E as <- <-. split_and!; [lia|vm_compute; discriminate|reflexivity|unfold disj; lia|]. intros q m b Hb. by apply elem_of_nil in Hb. }
  assert (R3 : mb_reach 8 1000 64 [EAlloc 1000 40 8; EUp 4096 96 16; EAlloc 4096 40 16; EWrite 4096 40] x3).
  { apply (mb_reach_step 8 1000 64 _ x2 [EWrite 4096 40] x3) in R2; [exact R2|]. apply (mb_write 8 1000 64 _ x2 4096 40 4096 40); [|lia..]. apply elem_of_cons. by left. }
  assert (R4 : mb_reach 8 1000 64 [EAlloc 1000 40 8; EUp 4096 96 16; EAlloc 4096 40 16; EWrite 4096 40; EUp 8192 224 8; EAlloc 8192 200 8] x4).
  { apply (mb_reach_step 8 1000 64 _ x3 ([EUp 8192 224 8] ++ [EAlloc 8192 200 8]) x4) in R3; [exact R3|]. apply (mb_alloc 8 1000 64 _ x3 200 8 (Some 8192)); [split; [lia|reflexivity]|done| |vm_compute; reflexivity].
    intros k b q E [= <-]. vm_compute in E. injection E as <- <-. split_and!; [lia|vm_compute; discriminate|reflexivity|unfold disj; lia|].
    intros q m b [Ex|Hb]%elem_of_cons; [injection Ex as -> -> ->; unfold disj; lia|by apply elem_of_nil in Hb]. }
  refine (mb_reach_step 8 1000 64 _ x4 ([EUpFree 8192 224 8; EUpFree 4096 96 16] ++ [ERelease]) _ R4 _).
  eapply (mb_release 8 1000 64); [vm_compute; discriminate|].
  apply (pops_next 8 8392 _ 4168 224 8); [done|vm_compute; reflexivity|].
  apply (pops_next 8 4168 _ 0 96 16); [done|vm_compute; reflexivity|]. apply pops_end.
Qed.

Print Assumptions C36_aligned.
Print Assumptions C36_contained.
Print Assumptions C36_disjoint.
Print Assumptions C36_stays_valid.
Print Assumptions C36_frees_match.
Print Assumptions C36_release_frees_all.
Print Assumptions C36_release_safe.
Print Assumptions C36_throw.
Print Assumptions C36_uses_buffer.
Print Assumptions C36_geometric_growth.
Print Assumptions C36_requests_aligned.
