(** basic_string: reallocation, and the frame of operations in place. *)
From stdpp Require Import base list numbers gmap.
From Coq Require Import Lia.
From Verif Require Import Text.StringModel Text.StringSpec Text.StringProofs.
Local Open Scope nat_scope.
Local Notation "x <-- m ;; k" := (bind m (fun x => k)) (at level 100, m at next level, right associativity).
Local Notation "m ;;; k" := (bind m (fun _ => k)) (at level 100, right associativity).

Section s.
  Context {E : Type} (nul : E) (SSO msk mx smax : nat).
  Notation ST := (@ST E). Notation M := (@M E). Notation region := (@region E).
  Context (orc : gmap nat region -> nat -> option (nat * Z * nat)).
  Context (HA : allocator_ok mx orc) (Hsm : 2 * mx + 2 <= smax) (HSSO : SSO <= mx).
  Implicit Types s : ST.
  Implicit Types d : list (option E).
  Notation shape := (shape SSO mx). Notation rep := (rep nul SSO mx).

  Lemma wp_growth requested old (Q : nat -> ST -> Prop) X s : requested <= mx -> old <= mx ->
    (forall g, requested <= g <= mx -> (old + old / 2) `min` mx <= g -> Q g s) -> wp (Calculate_growth msk smax requested old mx) Q X s.
  Proof.
    intros H1 H2 HQ. unfold Calculate_growth. pose proof (le_lor requested msk). pose proof (div2_le old). rewrite <-Nat.div2_div in HQ.
    apply wp_if; intros HP; [apply wp_ret, HQ; lia|]. apply wp_bind, wp_usub; [lia|].
    apply wp_if; intros HP'; [apply wp_ret, HQ; lia|]. apply wp_bind, wp_uadd; [lia|]. apply wp_ret, HQ; lia.
  Qed.
  Lemma wp_alloc exact cap (Q : nat * nat -> ST -> Prop) (X : err -> ST -> Prop) s : wfm s -> SSO < cap <= mx ->
    (orc (sheap s) (cap + 1) = None -> X BadAlloc s) ->
    (forall b bs c s', smem s b = None -> cap <= c <= mx -> (exact = true -> c = cap) ->
       (forall r g, smem s r = Some g -> disjoint_ranges bs (c + 1) (rbase g) (length (rdata g))) ->
       smem s' b = Some (Region bs true (replicate (c + 1) None)) -> (forall r, r <> b -> smem s' r = smem s r) -> sstr s' = sstr s -> Q (b, c) s') ->
    wp (Allocate_for_capacity SSO smax orc exact cap) Q X s.
  Proof.
    intros Hw Hc HX HQ. unfold Allocate_for_capacity. rewrite decide_True by lia. apply wp_bind, wp_uadd; [lia|]. apply wp_bind. unfold wp at 1, allocate.
    destruct (orc (sheap s) (cap + 1)) as [[[b bs] k]|] eqn:Eo; [|by apply HX].
    destruct (HA _ _ _ _ _ Eo) as (Hb & Hk & Hd). specialize (Hk ltac:(lia)). cbn [fst snd]. set (k' := if exact then cap + 1 else k).
    assert (Hk' : cap + 1 <= k' <= mx + 1 /\ k' <= k `max` (cap + 1)) by (unfold k'; destruct exact; lia).
    apply wp_bind, wp_usub; [cbn; lia|]. apply wp_ret. cbn [fst snd]. apply (HQ b bs (k' - 1)); cbn; [done|lia| | | | |done].
    - unfold k'. intros ->. lia.
    - intros r g Hg. specialize (Hd r g Hg). unfold disjoint_ranges in *. lia.
    - rewrite smem_ins. by replace (k' - 1 + 1) with k' by lia.
    - intros r Hr. by rewrite smem_ins_ne.
  Qed.
  Lemma wp_dealloc b cap g (Q : unit -> ST -> Prop) (X : err -> ST -> Prop) s : smem s b = Some g -> rheap g = true -> length (rdata g) = cap + 1 -> SSO < cap <= mx ->
    (forall s', smem s' b = None -> (forall r, r <> b -> smem s' r = smem s r) -> sstr s' = sstr s -> Q tt s') -> wp (Deallocate_for_capacity SSO smax b cap) Q X s.
  Proof.
    intros Hb Hh Hl Hc HQ. unfold Deallocate_for_capacity. rewrite decide_True by lia. apply wp_bind, wp_uadd; [lia|]. unfold wp, deallocate. rewrite Hb.
    rewrite decide_True by done. apply HQ; cbn; [by rewrite smem_del| |done]. intros r Hr. by rewrite smem_del_ne.
  Qed.
  Lemma wp_bx_ptr this b (Q : nat -> ST -> Prop) X s : sblk (sstr s this) = Some b -> Q b s -> wp (bx_ptr this) Q X s.
  Proof. intros Hb HQ. unfold bx_ptr. apply wp_bind, wp_get. by rewrite Hb. Qed.
  Lemma wp_bx_buf this (Q : ptr -> ST -> Prop) X s : sblk (sstr s this) = None -> Q (this, 0) s -> wp (bx_buf this) Q X s.
  Proof. intros Hb HQ. unfold bx_buf. apply wp_bind, wp_get. by rewrite Hb. Qed.
  Lemma wp_assign_ptr this b b0 (Q : unit -> ST -> Prop) X s : sblk (sstr s this) = Some b0 ->
    (forall s', (forall r, smem s' r = smem s r) -> sstr s' this = StrVal (ssz (sstr s this)) (sres (sstr s this)) (Some b) -> (forall t, t <> this -> sstr s' t = sstr s t) -> Q tt s') ->
    wp (assign_ptr this b) Q X s.
  Proof.
    intros Hb HQ. unfold assign_ptr. apply wp_bind. eapply wp_bx_ptr; [done|]. apply wp_bind, wp_get. unfold wp, set. apply HQ; cbn; [done|by rewrite upd_eq|].
    intros t Ht. by rewrite upd_ne.
  Qed.
  Lemma wp_union this ob g (Q : unit -> ST -> Prop) (X : err -> ST -> Prop) s : smem s this = Some g ->
    (forall s', smem s' this = Some (Region (rbase g) (rheap g) (replicate (SSO + 1) None)) -> (forall r, r <> this -> smem s' r = smem s r) ->
       sstr s' this = StrVal (ssz (sstr s this)) (sres (sstr s this)) ob -> (forall t, t <> this -> sstr s' t = sstr s t) -> Q tt s') ->
    wp (v <-- get this ;; set this (StrVal (ssz v) (sres v) ob) ;;; set_data this (replicate (SSO + 1) None)) Q X s.
  Proof.
    intros Hg HQ. apply wp_bind, wp_get. unfold wp, set, bind, set_data. cbn [sheap sstr]. rewrite smem_St, Hg. apply HQ; cbn.
    - by rewrite smem_ins.
    - intros r Hr. by rewrite smem_ins_ne.
    - by rewrite upd_eq.
    - intros t Ht. by rewrite upd_ne.
  Qed.
  Lemma wp_Construct_ptr this b g (Q : unit -> ST -> Prop) (X : err -> ST -> Prop) s : smem s this = Some g -> sblk (sstr s this) = None ->
    (forall s', smem s' this = Some (Region (rbase g) (rheap g) (replicate (SSO + 1) None)) -> (forall r, r <> this -> smem s' r = smem s r) ->
       sstr s' this = StrVal (ssz (sstr s this)) (sres (sstr s this)) (Some b) -> (forall t, t <> this -> sstr s' t = sstr s t) -> Q tt s') ->
    wp (Construct_ptr SSO this b) Q X s.
  Proof. intros Hg Hb HQ. unfold Construct_ptr. apply wp_bind, wp_bx_buf; [done|]. by eapply wp_union. Qed.
  Lemma wp_Switch_to_buf this b g (Q : unit -> ST -> Prop) (X : err -> ST -> Prop) s : smem s this = Some g -> sblk (sstr s this) = Some b ->
    (forall s', smem s' this = Some (Region (rbase g) (rheap g) (replicate (SSO + 1) None)) -> (forall r, r <> this -> smem s' r = smem s r) ->
       sstr s' this = StrVal (ssz (sstr s this)) (sres (sstr s this)) None -> (forall t, t <> this -> sstr s' t = sstr s t) -> Q tt s') ->
    wp (Switch_to_buf SSO this) Q X s.
  Proof. intros Hg Hb HQ. unfold Switch_to_buf. apply wp_bind. eapply wp_bx_ptr; [done|]. by eapply wp_union. Qed.

  (** *** frames and shapes *)
  Lemma owned1 s this b : owned s [this] b <-> sblk (sstr s this) = Some b.
  Proof. unfold owned. split; [intros (t & Ht%elem_of_list_singleton & ?); by subst|]. intros H. exists this. split; [by apply elem_of_list_singleton|done]. Qed.
  Lemma shape_start s this d : shape s this d -> exists bs hp, owning s this (cur this (sstr s this)) bs hp s (sstr s this) d /\
     smem s (cur this (sstr s this)) = Some (Region bs hp d) /\ hp = bool_decide (is_Some (sblk (sstr s this))).
  Proof.
    intros (_ & _ & _ & (g & Hg & Hd & Hh) & _). exists (rbase g), (rheap g). destruct g as [bs hp d0]. cbn in *. subst d0. split_and!; done.
  Qed.
  Lemma shape_blk_ne s this d b : shape s this d -> sblk (sstr s this) = Some b -> b <> this.
  Proof.
    intros ((g & Hg & Hh & _) & _ & _ & (g' & Hg' & _ & Hh') & _) Hb ->. unfold cur in Hg'. rewrite Hb in Hg', Hh'. cbn in *. rewrite Hg in Hg'. injection Hg' as ->.
    rewrite Hh in Hh'. done.
  Qed.
  Lemma wfm_ext s s' : wfm s -> (forall r g', smem s' r = Some g' -> exists g, smem s r = Some g /\ rbase g = rbase g' /\ length (rdata g) = length (rdata g')) -> wfm s'.
  Proof.
    intros Hw H r1 r2 g1 g2 Hne H1 H2. destruct (H _ _ H1) as (h1 & Hh1 & <- & <-), (H _ _ H2) as (h2 & Hh2 & <- & <-). by apply (Hw r1 r2).
  Qed.
  Lemma inplace_done s s' this d bs hp n d' : wfm s -> shape s this d ->
    smem s (cur this (sstr s this)) = Some (Region bs hp d) ->
    owning s this (cur this (sstr s this)) bs hp s' (StrVal n (sres (sstr s this)) (sblk (sstr s this))) d' ->
    n <= sres (sstr s this) -> length d' = length d -> shape s' this d' /\ frame [this] s s' /\ wfm s'.
  Proof.
    intros Hw Hsh Hg (H1 & H2 & H3 & H4) Hn Hl. pose proof Hsh as ((g0 & Hg0 & Hh0 & Hl0) & Hsz & Hd & (g & Hg' & Hdd & Hh) & Hb).
    rewrite Hg' in Hg. injection Hg as ->. cbn in *. unfold StringSpec.shape, frame. cbv zeta. split_and!.
    - unfold sso_ok. destruct (decide (this = cur this (sstr s this))) as [Et|Et].
      + exists (Region bs hp d'). split; [rewrite <-H1; f_equal; exact Et|]. rewrite <-Et, Hg0 in Hg'. injection Hg' as ->. cbn in *. split; [done|]. lia.
      + rewrite H2 by done. eauto.
    - rewrite H3. cbn. lia.
    - rewrite H3. cbn. lia.
    - rewrite H3. cbn. lia.
    - rewrite H3. cbn. unfold cur in H1. cbn in H1. exists (Region bs hp d'). unfold cur. cbn. done.
    - rewrite H3. cbn. done.
    - intros t Ht. apply H4. intros ->. apply Ht. by apply elem_of_list_singleton.
    - intros r Hr Ho _. apply H2. rewrite owned1 in Ho. unfold cur. intros ->. destruct (sblk (sstr s this)) eqn:Eb; cbn in *; [done|]. apply Hr. by apply elem_of_list_singleton.
    - intros b Hb' Hnb. rewrite owned1 in Hb', Hnb. rewrite H3 in Hb'. done.
    - intros b Hb' Hnb. rewrite owned1 in Hb', Hnb. rewrite H3 in Hnb. done.
    - eapply wfm_ext; [done|]. intros r g' Hr. destruct (decide (r = cur this (sstr s this))) as [->|Er].
      + rewrite H1 in Hr. injection Hr as <-. eexists. split; [done|]. cbn. done.
      + rewrite H2 in Hr by done. eauto.
  Qed.
  (** the new block has become the string's storage, the old one is gone *)
  Lemma realloc_done0 s s' this bs b v' d' : wfm s -> sso_ok SSO s this -> smem s b = None ->
    (forall r g, smem s r = Some g -> disjoint_ranges bs (length d') (rbase g) (length (rdata g))) ->
    smem s' b = Some (Region bs true d') -> sstr s' this = v' -> sblk v' = Some b -> ssz v' <= sres v' <= mx -> SSO < sres v' -> length d' = sres v' + 1 ->
    (forall t, t <> this -> sstr s' t = sstr s t) ->
    (forall r, r <> this -> r <> b -> sblk (sstr s this) <> Some r -> smem s' r = smem s r) ->
    (forall b0, sblk (sstr s this) = Some b0 -> smem s' b0 = None) ->
    (exists g g', smem s this = Some g /\ smem s' this = Some g' /\ rbase g' = rbase g /\ rheap g' = rheap g /\ length (rdata g') = length (rdata g)) ->
    shape s' this d' /\ frame [this] s s' /\ wfm s'.
  Proof.
    intros Hw Hsh Hb Hdj Hb' Hv' Hblk Hsz HS Hl Hs' Hmem Hold (g & g' & Hg & Hg' & Hbase & Hheap & Hlen).
    pose proof Hsh as (g0 & Hg0 & Hh0 & Hl0). rewrite Hg in Hg0. injection Hg0 as ->.
    assert (Hbt : b <> this) by (intros ->; congruence).
    unfold StringSpec.shape, frame. cbv zeta. split_and!.
    - exists g'. split; [done|]. split; congruence.
    - rewrite Hv'. lia.
    - rewrite Hv'. lia.
    - by rewrite Hv'.
    - rewrite Hv'. eexists. unfold cur. rewrite Hblk. cbn. split_and!; done.
    - rewrite Hv', Hblk. done.
    - intros t Ht. apply Hs'. intros ->. apply Ht. by apply elem_of_list_singleton.
    - intros r Hr Ho Ho'. rewrite owned1 in Ho, Ho'. rewrite Hv', Hblk in Ho'. apply Hmem; [|congruence|done]. intros ->. apply Hr. by apply elem_of_list_singleton.
    - intros r Ho' Ho. rewrite owned1 in Ho, Ho'. rewrite Hv', Hblk in Ho'. by injection Ho' as <-.
    - intros r Ho Ho'. rewrite owned1 in Ho. by apply Hold.
    - assert (Hcase : forall r h, smem s' r = Some h -> (r = b /\ h = Region bs true d') \/ (r <> b /\ exists h0, smem s r = Some h0 /\ rbase h0 = rbase h /\ length (rdata h0) = length (rdata h))).
      { intros r h Hr. destruct (decide (r = b)) as [->|Er]; [left; split; [done|congruence]|right]. split; [done|].
        destruct (decide (r = this)) as [->|Et]; [exists g0; split; [done|]; split; congruence|].
        destruct (decide (sblk (sstr s this) = Some r)) as [Es|Es]; [rewrite (Hold _ Es) in Hr; done|]. rewrite Hmem in Hr by done. eauto. }
      intros r1 r2 h1 h2 Hne H1 H2. destruct (Hcase _ _ H1) as [[-> ->]|(Hn1 & k1 & K1 & <- & <-)], (Hcase _ _ H2) as [[-> ->]|(Hn2 & k2 & K2 & <- & <-)]; try done.
      + cbn. by apply (Hdj _ _ K2).
      + cbn. pose proof (Hdj _ _ K1) as HH. unfold disjoint_ranges in *. lia.
      + by apply (Hw r1 r2).
  Qed.

  Lemma realloc_done s s' this d bs b v' d' : wfm s -> shape s this d -> smem s b = None ->
    (forall r g, smem s r = Some g -> disjoint_ranges bs (length d') (rbase g) (length (rdata g))) ->
    smem s' b = Some (Region bs true d') -> sstr s' this = v' -> sblk v' = Some b -> ssz v' <= sres v' <= mx -> SSO < sres v' -> length d' = sres v' + 1 ->
    (forall t, t <> this -> sstr s' t = sstr s t) ->
    (forall r, r <> this -> r <> b -> sblk (sstr s this) <> Some r -> smem s' r = smem s r) ->
    (forall b0, sblk (sstr s this) = Some b0 -> smem s' b0 = None) ->
    (exists g g', smem s this = Some g /\ smem s' this = Some g' /\ rbase g' = rbase g /\ rheap g' = rheap g /\ length (rdata g') = length (rdata g)) ->
    shape s' this d' /\ frame [this] s s' /\ wfm s'.
  Proof. intros Hw (Hsh & _). by apply realloc_done0. Qed.

  (** reallocation: [fn] prepares the new buffer *)
  Definition prepares s this n P (fn : ptr -> M unit) : Prop := forall b bs cap s1,
    smem s b = None -> n <= cap <= mx -> owning s this b bs true s1 (StrVal n cap (sblk (sstr s this))) (replicate (cap + 1) None) ->
    wp (fn (b, 0)) (fun _ s2 => exists d', owning s this b bs true s2 (StrVal n cap (sblk (sstr s this))) d' /\ length d' = cap + 1 /\ P d') (fun _ _ => False) s1.
  Definition reallocated s this n (P : list (option E) -> Prop) s' : Prop :=
    exists d' cap b, shape s' this d' /\ P d' /\ sstr s' this = StrVal n cap (Some b) /\ frame [this] s s' /\ wfm s' /\
      (sres (sstr s this) + sres (sstr s this) / 2) `min` mx <= cap /\ n <= cap.
  Definition not_reallocated s n (e : err) s' : Prop :=
    s' = s /\ match e with LengthError => mx < n | BadAlloc => n <= mx /\ exists k, n < k <= mx + 1 /\ orc (sheap s) k = None | OutOfRange => False end.
  Lemma realloc_tail (T : M unit) s this d b bs cap n s2 d' (P : list (option E) -> Prop) :
    wfm s -> shape s this d -> smem s b = None -> SSO < cap <= mx -> n <= cap ->
    (sres (sstr s this) + sres (sstr s this) / 2) `min` mx <= cap ->
    (forall r g, smem s r = Some g -> disjoint_ranges bs (cap + 1) (rbase g) (length (rdata g))) ->
    owning s this b bs true s2 (StrVal n cap (sblk (sstr s this))) d' -> length d' = cap + 1 -> P d' ->
    (forall b0, sblk (sstr s this) = Some b0 -> T = (Deallocate_for_capacity SSO smax b0 (sres (sstr s this)) ;;; assign_ptr this b)) ->
    (sblk (sstr s this) = None -> T = Construct_ptr SSO this b) ->
    wp T (fun _ s' => reallocated s this n P s') (not_reallocated s n) s2.
  Proof.
    intros Hw Hsh Hb Hcap Hn Hgr Hdj (O1 & O2 & O3 & O4) Hl HP HT1 HT2.
    pose proof Hsh as ((g0 & Hg0 & Hh0 & Hl0) & Hsz0 & Hd & (gd & Hgd & Hdd & Hh) & Hb0).
    assert (Hbt : b <> this) by (intros ->; congruence). unfold cur in Hgd.
    destruct (sblk (sstr s this)) as [b0|] eqn:Eb; cbn in Hgd.
    - rewrite (HT1 b0 eq_refl). assert (Hb0t : b0 <> this) by (by eapply shape_blk_ne). assert (Hb0b : b0 <> b) by (intros ->; congruence).
      apply wp_bind. eapply wp_dealloc; [rewrite O2 by done; exact Hgd| rewrite Hh; apply bool_decide_true; eauto|rewrite Hdd; lia|lia|]. intros s3 D1 D2 D3.
      eapply wp_assign_ptr; [rewrite D3, O3; done|]. intros s4 A1 A2 A3. rewrite D3, O3 in A2. cbn in A2.
      destruct (realloc_done s s4 this d bs b (StrVal n cap (Some b)) d') as (R1 & R2 & R3); try done.
      + by rewrite Hl.
      + rewrite A1, D2 by done. done.
      + cbn. lia.
      + cbn. lia.
      + intros t Ht. rewrite A3, D3, O4; done.
      + intros r Hr1 Hr2 Hr3. rewrite A1, D2, O2 by congruence. done.
      + intros b1 Hb1. rewrite Eb in Hb1. injection Hb1 as ->. by rewrite A1.
      + exists g0, g0. rewrite A1, D2, O2 by done. done.
      + exists d', cap, b. done.
    - rewrite (HT2 eq_refl). eapply wp_Construct_ptr; [rewrite O2 by done; exact Hg0|by rewrite O3|]. intros s3 C1 C2 C3 C4. rewrite O3 in C3. cbn in C3.
      destruct (realloc_done s s3 this d bs b (StrVal n cap (Some b)) d') as (R1 & R2 & R3); try done.
      + by rewrite Hl.
      + rewrite C2 by done. done.
      + cbn. lia.
      + cbn. lia.
      + intros t Ht. rewrite C4, O4; done.
      + intros r Hr1 Hr2 Hr3. rewrite C2, O2 by congruence. done.
      + intros b1 Hb1. by rewrite Eb in Hb1.
      + exists g0. eexists. split; [done|]. split; [exact C1|]. cbn. rewrite replicate_length. done.
      + exists d', cap, b. done.
  Qed.
  Lemma wp_grow_by s this d inc fn (P : list (option E) -> Prop) : wfm s -> shape s this d -> sres (sstr s this) < ssz (sstr s this) + inc ->
    prepares s this (ssz (sstr s this) + inc) P (fun new => fn new (cur this (sstr s this), 0) (ssz (sstr s this))) ->
    wp (Reallocate_grow_by SSO msk mx smax orc this inc fn) (fun _ s' => reallocated s this (ssz (sstr s this) + inc) P s')
       (not_reallocated s (ssz (sstr s this) + inc)) s.
  Proof.
    intros Hw Hsh Hinc Hfn. unfold Reallocate_grow_by. pose proof Hsh as ((g0 & Hg0 & Hh0 & Hl0) & Hsz0 & Hd & (gd & Hgd & Hdd & Hh) & Hb0).
    apply wp_bind, wp_get. apply wp_bind, wp_usub; [lia|]. apply wp_if; intros Hx; [apply wp_throw; split; [done|lia]|]. apply wp_bind, wp_uadd; [lia|].
    apply wp_bind, wp_growth; [lia|lia|]. intros g Hg1 Hg2. apply wp_bind.
    assert (HS : SSO <= sres (sstr s this)) by (destruct (sblk (sstr s this)); lia).
    apply wp_alloc; [done|lia| |].
    { intros Eo. split; [done|]. split; [lia|]. exists (g + 1). split; [lia|done]. }
    intros b bs cap s1 Hb Hcap _ Hdj A1 A2 A3. cbn [fst snd].
    assert (O : owning s this b bs true s1 (sstr s this) (replicate (cap + 1) None)) by (split_and!; [done|done|by rewrite A3|intros; by rewrite A3]).
    apply wp_bind. eapply own_set_size; [exact O|]. intros s1' O1. apply wp_bind. eapply own_set_res; [exact O1|]. intros s1'' O2. cbn [ssz sres sblk] in *.
    apply wp_if; intros Hold.
    - destruct (sblk (sstr s this)) as [b0|] eqn:Eb; [|lia]. apply wp_bind. eapply own_bx_ptr; [exact O2|done|]. apply wp_bind.
      eapply wp_mono; [|intros ? s2 H; exact H|done]. unfold prepares in Hfn. unfold cur in Hfn. rewrite Eb in Hfn. cbn [default] in Hfn.
      eapply wp_mono; [apply (Hfn b bs cap s1''); [done|lia|exact O2]| |done]. cbn beta. intros ? s2 (d' & O3 & Hl & HP).
      eapply (realloc_tail _ s this d b bs cap _ s2 d' P); try done; try lia.
      + by rewrite Eb.
      + intros b1 Hb1. rewrite Eb in Hb1. by injection Hb1 as ->.
      + by rewrite Eb.
    - destruct (sblk (sstr s this)) as [b0|] eqn:Eb; [lia|]. apply wp_bind. eapply own_bx_buf; [exact O2|done|]. apply wp_bind.
      unfold prepares, cur in Hfn. rewrite Eb in Hfn. cbn [default] in Hfn.
      eapply wp_mono; [apply (Hfn b bs cap s1''); [done|lia|exact O2]| |done]. cbn beta. intros ? s2 (d' & O3 & Hl & HP).
      eapply (realloc_tail _ s this d b bs cap _ s2 d' P); try done; try lia.
      + by rewrite Eb.
      + by rewrite Eb.
  Qed.
  Lemma wp_realloc_for s this d n fn (P : list (option E) -> Prop) : wfm s -> shape s this d -> sres (sstr s this) < n ->
    prepares s this n P (fun new => fn new n) ->
    wp (Reallocate_for SSO msk mx smax orc this n fn) (fun _ s' => reallocated s this n P s') (not_reallocated s n) s.
  Proof.
    intros Hw Hsh Hinc Hfn. unfold Reallocate_for. pose proof Hsh as ((g0 & Hg0 & Hh0 & Hl0) & Hsz0 & Hd & (gd & Hgd & Hdd & Hh) & Hb0).
    apply wp_if; intros Hx; [apply wp_throw; split; [done|lia]|]. apply wp_bind, wp_get.
    apply wp_bind, wp_growth; [lia|lia|]. intros g Hg1 Hg2. apply wp_bind.
    assert (HS : SSO <= sres (sstr s this)) by (destruct (sblk (sstr s this)); lia).
    apply wp_alloc; [done|lia| |].
    { intros Eo. split; [done|]. split; [lia|]. exists (g + 1). split; [lia|done]. }
    intros b bs cap s1 Hb Hcap _ Hdj A1 A2 A3. cbn [fst snd].
    assert (O : owning s this b bs true s1 (sstr s this) (replicate (cap + 1) None)) by (split_and!; [done|done|by rewrite A3|intros; by rewrite A3]).
    apply wp_bind. eapply own_set_size; [exact O|]. intros s1' O1. apply wp_bind. eapply own_set_res; [exact O1|]. intros s1'' O2. cbn [ssz sres sblk] in *.
    apply wp_bind. eapply wp_mono; [apply (Hfn b bs cap s1''); [done|lia|exact O2]| |done]. cbn beta. intros ? s2 (d' & O3 & Hl & HP).
    apply wp_if; intros Hold.
    - destruct (sblk (sstr s this)) as [b0|] eqn:Eb; [|lia]. apply wp_bind. eapply own_bx_ptr; [exact O3|done|].
      eapply (realloc_tail _ s this d b bs cap _ s2 d' P); try done; try lia.
      + by rewrite Eb.
      + intros b1 Hb1. rewrite Eb in Hb1. by injection Hb1 as ->.
      + by rewrite Eb.
    - destruct (sblk (sstr s this)) as [b0|] eqn:Eb; [lia|].
      eapply (realloc_tail _ s this d b bs cap _ s2 d' P); try done; try lia.
      + by rewrite Eb.
      + by rewrite Eb.
  Qed.
End s.
