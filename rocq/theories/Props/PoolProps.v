(** C37: std::pmr::unsynchronized_pool_resource hands out disjoint aligned memory from upstream blocks it owns, keeps its own data
    out of the client's way, gives each upstream block back exactly once and only when nothing in it is in use, and reuses freed memory.
    [ps_reach A tr s]: history [tr] (allocations, throws, deallocations, releases, client writes to its own memory and calls to the
    upstream resource, in order) is possible for a resource with any options; A = sizeof(void-star), 4 or 8.
    Destruction is a final release(). Any upstream resource is covered that returns fresh, disjoint, aligned blocks (or throws). *)
From stdpp Require Import base list numbers option decidable.
From Coq Require Import ZArith Lia.
From Verif Require Import Mem.MonoModel Mem.PoolModel Mem.PoolSpec Mem.PoolProofs Mem.PoolProofs4 Mem.PoolProofs6 Mem.PoolProofs7 Mem.PoolProofs8.
Local Open Scope Z_scope.

Section props.
Context (A : Z) (HA : A = 4 \/ A = 8).

(** allocate(n, a) returns an a-aligned non-null address *)
Theorem C37_aligned tr s t1 p n a t2 : ps_reach A tr s -> tr = t1 ++ EAlloc p n a :: t2 -> p mod a = 0 /\ 0 < p /\ p + n <= W A.
Proof. intros Hr E. pose proof (reach_ev A HA tr s _ _ _ Hr E) as Hx. cbn [evok] in Hx. tauto. Qed.
(** the n bytes lie in one upstream block that has not been given back *)
Theorem C37_contained tr s t1 p n a t2 : ps_reach A tr s -> tr = t1 ++ EAlloc p n a :: t2 -> in_block t1 p n.
Proof. intros Hr E. pose proof (reach_ev A HA tr s _ _ _ Hr E) as Hx. cbn [evok] in Hx. tauto. Qed.
(** they overlap no allocation that has been neither deallocated nor released *)
Theorem C37_disjoint tr s t1 p n a t2 q m b : ps_reach A tr s -> tr = t1 ++ EAlloc p n a :: t2 -> (q, m, b) ∈ live t1 -> disj p n q m.
Proof. intros Hr E Hq. pose proof (reach_ev A HA tr s _ _ _ Hr E) as Hx. cbn [evok] in Hx. destruct Hx as (_ & _ & _ & Hd & _). by eapply Hd. Qed.
(** memory handed out stays valid until it is deallocated or released *)
Theorem C37_stays_valid tr s p n a : ps_reach A tr s -> (p, n, a) ∈ live tr -> in_block tr p n.
Proof.
  intros Hr Hl. destruct (preach_ok A HA tr s Hr) as [HI _]. destruct (live_in A HA tr s p n a HI Hl) as (_ & [[q m] b] & Hx & B1 & B2). by exists q, m, b.
Qed.
(** upstream->deallocate is only called on an outstanding block, with the size and alignment it was requested with: no double free *)
Theorem C37_frees_match tr s t1 p n a t2 : ps_reach A tr s -> tr = t1 ++ EUpFree p n a :: t2 -> (p, n, a) ∈ outst t1.
Proof. intros Hr E. by apply (reach_ev A HA tr s _ _ _ Hr E). Qed.
(** and never on a block in which an allocation is still in use *)
Theorem C37_no_free_in_use tr s t1 p n a t2 q m b : ps_reach A tr s -> tr = t1 ++ EUpFree p n a :: t2 -> (q, m, b) ∈ live t1 -> disj p n q m.
Proof. intros Hr E. pose proof (reach_ev A HA tr s _ _ _ Hr E) as [_ Hd]. apply Hd. Qed.
(** when release returns, every upstream block has been given back *)
Theorem C37_release_frees_all tr s t1 t2 : ps_reach A tr s -> tr = t1 ++ ERelEnd :: t2 -> outst t1 = [].
Proof. intros Hr E. exact (reach_ev A HA tr s _ _ _ Hr E). Qed.
(** the bytes in which the resource keeps its own data (chunk and oversized headers, links of free blocks, owner pointers at the end of
    blocks) overlap no live allocation: a client that stays in its allocations cannot damage them *)
Theorem C37_own_data tr s q m p n a : ps_reach A tr s -> own_data A s q m -> (p, n, a) ∈ live tr -> disj q m p n.
Proof. intros Hr Ho Hl. destruct (preach_ok A HA tr s Hr) as [HI _]. eapply (live_own A HA tr s HI); [done|]. by apply (pi_live _ _ _ HI). Qed.
(** allocate never follows a bad pointer and never loops for ever: it returns memory or throws *)
Theorem C37_alloc_total tr s n a up emp : ps_reach A tr s -> req_ok A s n a -> nups tr < W A ->
  (forall k b q, up k b = Some q -> up_ok A tr q k b) ->
  exists s' ev, (exists p, do_allocate A s n a up emp = (s', ev, ROk p) /\ ps_reach A (tr ++ ev ++ [EAlloc p n a]) s') \/
                (do_allocate A s n a up emp = (s', ev, RThrow) /\ ps_reach A (tr ++ ev ++ [EThrow n a]) s').
Proof.
  intros Hr Hreq HN Hup. destruct (preach_ok A HA tr s Hr) as [HI _]. destruct (do_allocate A s n a up emp) as [[s' ev] r] eqn:E.
  assert (Hev : forall q k b, EUp q k b ∈ ev -> up_ok A tr q k b). { intros q k b Hq. apply Hup. by eapply (do_allocate_up A). }
  pose proof (alloc_ok A HA tr s n a up emp s' ev r HI Hreq HN E Hev) as Hx. exists s', ev. destruct r as [p| |]; [left|right|done].
  - exists p. split; [done|]. eapply ps_reach_step; [exact Hr|]. by eapply ps_alloc.
  - split; [done|]. eapply ps_reach_step; [exact Hr|]. by eapply ps_throw.
Qed.
(** deallocate of a live allocation always finds where the memory came from *)
Theorem C37_dealloc_total tr s p n a : ps_reach A tr s -> (p, n, a) ∈ live tr ->
  exists s' ev, do_deallocate A s p n a = Some (s', ev) /\ ps_reach A (tr ++ EDealloc p n a :: ev) s'.
Proof.
  intros Hr Hl. destruct (preach_ok A HA tr s Hr) as [HI _]. destruct (dealloc_ok A HA tr s p n a HI Hl) as (s' & ev & E & _). exists s', ev. split; [done|].
  eapply ps_reach_step; [exact Hr|]. by apply ps_dealloc.
Qed.
(** an allocation throws only because upstream threw, the vector of pools could not grow, or the size is impossible; it then leaves
    nothing behind: no upstream block has been requested *)
Theorem C37_throw tr s n a up emp s' ev : ps_reach A tr s -> req_ok A s n a -> nups tr < W A -> (forall k b q, up k b = Some q -> up_ok A tr q k b) ->
  do_allocate A s n a up emp = (s', ev, RThrow) -> ev = [] /\ (emp = false \/ (exists k b, up k b = None) \/ W A - 5 * A < n).
Proof.
  intros Hr Hreq HN Hup E. destruct (preach_ok A HA tr s Hr) as [HI _].
  assert (Hev : forall q k b, EUp q k b ∈ ev -> up_ok A tr q k b). { intros q k b Hq. apply Hup. by eapply (do_allocate_up A). }
  pose proof (alloc_ok A HA tr s n a up emp s' ev RThrow HI Hreq HN E Hev) as (_ & Hx). exact Hx.
Qed.
(** memory is reused: right after deallocating a pooled block, a request of the same size and alignment (or any other of the same
    block size) succeeds without asking upstream, whatever upstream would answer *)
Theorem C37_reuse tr s p n a s' ev n' a' up emp : ps_reach A tr s -> (p, n, a) ∈ live tr -> n <= largest s -> do_deallocate A s p n a = Some (s', ev) ->
  n' <= largest s -> flog A n' a' = flog A n a -> exists s'' q, do_allocate A s' n' a' up emp = (s'', [], ROk q).
Proof. intros Hr. destruct (preach_ok A HA tr s Hr) as [HI _]. by apply (reuse A HA tr). Qed.
(** a request to upstream for a pool is for at most max_blocks_per_chunk blocks, each big enough for the request, plus seven words *)
Theorem C37_chunk_bound tr s n a up emp s' q k b ev p : ps_reach A tr s -> req_ok A s n a -> nups tr < W A -> (forall k b q, up k b = Some q -> up_ok A tr q k b) ->
  n <= largest s -> do_allocate A s n a up emp = (s', ev, ROk p) -> EUp q k b ∈ ev -> exists cap, 1 <= cap <= maxb s /\ k = cap * b + 7 * A /\ n + A <= b.
Proof.
  intros Hr Hreq HN Hup Hn E Hq. destruct (preach_ok A HA tr s Hr) as [HI _].
  assert (Hev : forall q k b, EUp q k b ∈ ev -> up_ok A tr q k b). { intros ? ? ? Hq'. apply Hup. by eapply (do_allocate_up A). }
  pose proof (alloc_ok A HA tr s n a up emp s' ev (ROk p) HI Hreq HN E Hev) as (_ & _ & [-> | (q' & k' & b' & -> & _ & Hx)]); [by apply elem_of_nil in Hq|].
  apply elem_of_list_singleton in Hq. injection Hq as -> -> ->. by apply Hx.
Qed.
(** upstream is asked for a positive size, a multiple of that of a pointer, and a power of two alignment, at least that of a pointer: the
    chunk and oversized headers, which lie seven and four words before the end of the block, are aligned *)
Theorem C37_requests tr s t1 p n a t2 : ps_reach A tr s -> tr = t1 ++ EUp p n a :: t2 -> 0 < n < W A /\ n mod A = 0 /\ pow2 A a /\ A <= a.
Proof. intros Hr E. exact (reach_ev A HA tr s _ _ _ Hr E). Qed.
(** options(): a sensible max_blocks_per_chunk is kept, anything else means no limit; largest_required_pool_block becomes a power of
    two between the pointer size and the limit, not below the value asked for unless that exceeds the limit *)
Theorem C37_options m l : 0 <= m < W A -> 0 <= l < W A ->
  Setup_max A m = (if decide (1 <= m <= PTRDIFF_MAX A) then m else PTRDIFF_MAX A) /\
  pow2 A (Setup_largest A l) /\ A <= Setup_largest A l <= W A / 32 /\ (l <= W A / 32 -> l <= Setup_largest A l) /\
  (A < l <= W A / 32 -> Setup_largest A l < 2 * l) /\ (l = 0 -> Setup_largest A l = W A / 32).
Proof.
  intros Hm Hl. pose proof (Setup_ok A HA m l Hm Hl) as [_ Hlg]. pose proof (W_big A HA) as HWb. pose proof (PMAX_eq A HA) as HPM.
  split.
  { unfold Setup_max. destruct (decide (m = 0)) as [-> | ].
    - assert (E : wrap A (0 - 1) = W A - 1) by (unfold wrap, W; destruct HA as [-> | ->]; reflexivity). rewrite E. rewrite decide_True by lia. by rewrite decide_False by lia.
    - rewrite pwrap_id by lia. repeat case_decide; lia. }
  assert (Elim : Z.shiftr (PTRDIFF_MAX A) 4 + 1 = W A / 32) by (unfold PTRDIFF_MAX, W; destruct HA as [-> | ->]; reflexivity).
  assert (E0 : wrap A (0 - 1) = W A - 1) by (unfold wrap, W; destruct HA as [-> | ->]; reflexivity).
  assert (E32 : W A / 32 = 2 ^ (8 * A - 5) /\ W A = 2 ^ (8 * A)) by (unfold W; destruct HA as [-> | ->]; split; reflexivity).
  assert (HWd : W A / 32 * 32 = W A) by (Z.div_mod_to_equations; lia).
  assert (PA : pow2 A A) by (destruct HA as [-> | ->]; [exists 2|exists 3]; done).
  unfold Setup_largest in *. rewrite Elim in *. destruct (decide (l = 0)) as [-> | Hl0].
  - rewrite E0 in *. rewrite decide_False in * by lia. rewrite decide_True in * by lia. split; [exists (8 * A - 5); split; [lia|apply E32]|]. split; [lia|]. lia.
  - rewrite (pwrap_id A (l - 1)) in * by lia. case_decide as H1; [split; [done|lia]|]. case_decide as H2; [split; [exists (8 * A - 5); split; [lia|apply E32]|]; lia|].
    destruct (clog2_spec A l ltac:(lia)) as [[H3 H4] H5]. rewrite Z.shiftl_mul_pow2, Z.mul_1_l in * by lia.
    split; [|lia]. exists (clog2 A l). split; [|done]. split; [lia|]. assert (Hlt : 2 ^ clog2 A l < 2 ^ (8 * A)) by lia. apply Z.pow_lt_mono_r_iff in Hlt; lia.
Qed.
End props.

(** a history with a pooled and an oversized allocation, a write, both deallocations, a reuse and a release *)
Definition w0 : pst := Pst (Setup_max 8 0) (Setup_largest 8 100) [] [] (fun _ => None).
Definition upA (p k b : Z) : Z -> Z -> option Z := fun k' b' => if decide (k' = k /\ b' = b) then Some p else None.
Definition r1 := do_allocate 8 w0 10 8 (upA 4096 184 32) true.
Definition w1 : pst := r1.1.1.
Definition r2 := do_allocate 8 w1 1000 16 (upA 8192 1032 16) true.
Definition w2 : pst := r2.1.1.
Definition w3 : pst := Pst (maxb w2) (largest w2) (pools w2) (over w2) (clob 8 4096 10 (own w2)).
Definition w4 : pst := (default (w3, []) (do_deallocate 8 w3 4096 10 8)).1.
Definition r5 := do_allocate 8 w4 12 4 (fun _ _ => None) false.
Definition w5 : pst := r5.1.1.
Definition w6 : pst := (default (w5, []) (do_deallocate 8 w5 8192 1000 16)).1.
Lemma triple_eq {X Y Z} (x : X * Y * Z) y z : x.1.2 = y -> x.2 = z -> x = (x.1.1, y, z).
Proof. destruct x as [[? ?] ?]; cbn. by intros -> ->. Qed.
Lemma dd_eq s p n a d ev : (do_deallocate 8 s p n a ≫= fun x => Some x.2) = Some ev -> do_deallocate 8 s p n a = Some ((default d (do_deallocate 8 s p n a)).1, ev).
Proof. destruct (do_deallocate 8 s p n a) as [[? ?]|]; cbn; [by intros [= ->]|done]. Qed.
Example C37_sat : exists s, ps_reach 8
  [EUp 4096 184 32; EAlloc 4096 10 8; EUp 8192 1032 16; EAlloc 8192 1000 16; EWrite 4096 10; EDealloc 4096 10 8; EAlloc 4096 12 4;
   EDealloc 8192 1000 16; EUpFree 8192 1032 16; ERelBegin; EUpFree 4096 184 32; ERelEnd] s.
Proof.
  eexists. assert (P2 : pow2 8 4) by (exists 2; cbn; lia). assert (P3 : pow2 8 8) by (exists 3; cbn; lia). assert (P4 : pow2 8 16) by (exists 4; cbn; lia).
  assert (Hlg : largest w0 = 128 /\ W 8 = 18446744073709551616) by (split; reflexivity).
  assert (R0 : ps_reach 8 [] w0) by (apply ps_reach_init, ps_init_options; lia).
  assert (R1 : ps_reach 8 [EUp 4096 184 32; EAlloc 4096 10 8] w1).
  { apply (ps_reach_step 8 [] w0 ([EUp 4096 184 32] ++ [EAlloc 4096 10 8])); [done|]. eapply (ps_alloc 8 [] w0 10 8 (upA 4096 184 32) true); [| | |apply triple_eq; vm_compute; reflexivity].
    - split; [lia|]. split; [done|]. intros _. vm_compute. discriminate.
    - reflexivity.
    - intros q k b E%elem_of_list_singleton. injection E as -> -> ->. split; [lia|]. split; [vm_compute; discriminate|]. split; [reflexivity|]. by intros ? ? ? ?%elem_of_nil. }
  assert (R2 : ps_reach 8 [EUp 4096 184 32; EAlloc 4096 10 8; EUp 8192 1032 16; EAlloc 8192 1000 16] w2).
  { apply (ps_reach_step 8 _ w1 ([EUp 8192 1032 16] ++ [EAlloc 8192 1000 16]) w2) in R1; [exact R1|]. eapply (ps_alloc 8 _ w1 1000 16 (upA 8192 1032 16) true); [| | |apply triple_eq; vm_compute; reflexivity].
    - split; [lia|]. split; [done|]. intros _. vm_compute. discriminate.
    - reflexivity.
    - intros q k b E%elem_of_list_singleton. injection E as -> -> ->. split; [lia|]. split; [vm_compute; discriminate|]. split; [reflexivity|].
      intros q m b [Ex|Hb]%elem_of_cons; [injection Ex as -> -> ->; unfold disj; lia|by apply elem_of_nil in Hb]. }
  assert (R3 : ps_reach 8 [EUp 4096 184 32; EAlloc 4096 10 8; EUp 8192 1032 16; EAlloc 8192 1000 16; EWrite 4096 10] w3).
  { apply (ps_reach_step 8 _ w2 [EWrite 4096 10] w3) in R2; [exact R2|]. apply (ps_write 8 _ w2 4096 10 8); [|lia..]. right. by left. }
  assert (R4 : ps_reach 8 [EUp 4096 184 32; EAlloc 4096 10 8; EUp 8192 1032 16; EAlloc 8192 1000 16; EWrite 4096 10; EDealloc 4096 10 8] w4).
  { apply (ps_reach_step 8 _ w3 [EDealloc 4096 10 8] w4) in R3; [exact R3|]. apply (ps_dealloc 8 _ w3 4096 10 8 w4 []); [right; by left|]. apply dd_eq. vm_compute. reflexivity. }
  assert (R5 : ps_reach 8 [EUp 4096 184 32; EAlloc 4096 10 8; EUp 8192 1032 16; EAlloc 8192 1000 16; EWrite 4096 10; EDealloc 4096 10 8; EAlloc 4096 12 4] w5).
  { apply (ps_reach_step 8 _ w4 ([] ++ [EAlloc 4096 12 4]) w5) in R4; [exact R4|]. eapply (ps_alloc 8 _ w4 12 4 (fun _ _ => None) false); [| | |apply triple_eq; vm_compute; reflexivity].
    - split; [lia|]. split; [done|]. intros _. vm_compute. discriminate.
    - reflexivity.
    - by intros q k b ?%elem_of_nil. }
  assert (R6 : ps_reach 8 [EUp 4096 184 32; EAlloc 4096 10 8; EUp 8192 1032 16; EAlloc 8192 1000 16; EWrite 4096 10; EDealloc 4096 10 8; EAlloc 4096 12 4; EDealloc 8192 1000 16; EUpFree 8192 1032 16] w6).
  { apply (ps_reach_step 8 _ w5 [EDealloc 8192 1000 16; EUpFree 8192 1032 16] w6) in R5; [exact R5|]. apply (ps_dealloc 8 _ w5 8192 1000 16 w6 [EUpFree 8192 1032 16]); [vm_compute; right; left|]. apply dd_eq. vm_compute. reflexivity. }
  refine (ps_reach_step 8 _ w6 [ERelBegin; EUpFree 4096 184 32; ERelEnd] _ R6 _).
  assert (E : release_frees 8 w6 = [EUpFree 4096 184 32]) by (vm_compute; reflexivity).
  pose proof (ps_release 8 [EUp 4096 184 32; EAlloc 4096 10 8; EUp 8192 1032 16; EAlloc 8192 1000 16; EWrite 4096 10; EDealloc 4096 10 8; EAlloc 4096 12 4; EDealloc 8192 1000 16; EUpFree 8192 1032 16] w6) as Hrel.
  rewrite E in Hrel. exact Hrel.
Qed.

(** Finding: zero-size requests. allocate(0, 8) is given a block of one word, which holds both the owner pointer and, once the block is
    free, the link of the free list; taking the block from the free list does not restore the owner pointer, so the second
    deallocate reads whatever is there: here a lost word. Hence the hypothesis 0 < n in [req_ok]. *)
Definition z1 : pst := (do_allocate 8 w0 0 8 (upA 4096 88 8) true).1.1.
Definition z2 : pst := (default (z1, []) (do_deallocate 8 z1 4096 0 8)).1.
Definition z3 : pst := (do_allocate 8 z2 0 8 (fun _ _ => None) true).1.1.
Example C37_finding_zero_size : (do_allocate 8 w0 0 8 (upA 4096 88 8) true).2 = ROk 4096 /\ (do_allocate 8 z2 0 8 (fun _ _ => None) true).2 = ROk 4096 /\
  (do_deallocate 8 z1 4096 0 8 ≫= fun x => Some x.2) = Some [] /\ do_deallocate 8 z3 4096 0 8 = None.
Proof. vm_compute. done. Qed.
(** Finding: 32 bits, alignment 2^30. The first chunk is meant to hold four blocks of 2^30 bytes; the size wraps to zero, upstream is
    asked for 28 bytes, and the block returned is not inside them. Hence the bound on the alignment of pooled requests in [req_ok]. *)
Example C37_finding_huge_alignment : let r := do_allocate 4 (Pst (Setup_max 4 0) (Setup_largest 4 0) [] [] (fun _ => None)) 100 (2 ^ 30) (upA (2 ^ 30) 28 (2 ^ 30)) true in
  r.1.2 = [EUp (2 ^ 30) 28 (2 ^ 30)] /\ r.2 = ROk (2 ^ 30).
Proof. vm_compute. done. Qed.

Print Assumptions C37_aligned.
Print Assumptions C37_contained.
Print Assumptions C37_disjoint.
Print Assumptions C37_stays_valid.
Print Assumptions C37_frees_match.
Print Assumptions C37_no_free_in_use.
Print Assumptions C37_release_frees_all.
Print Assumptions C37_own_data.
Print Assumptions C37_alloc_total.
Print Assumptions C37_dealloc_total.
Print Assumptions C37_throw.
Print Assumptions C37_reuse.
Print Assumptions C37_chunk_bound.
Print Assumptions C37_requests.
Print Assumptions C37_options.
