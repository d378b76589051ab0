(** basic_string: frames, reserve, shrink_to_fit, resize_and_overwrite, element access, destruction. *)
From stdpp Require Import base list numbers gmap.
From Coq Require Import Lia.
From Verif Require Import Text.StringModel Text.StringSpec Text.StringProofs Text.StringProofs2 Text.StringProofs3 Text.StringProofs4.
Local Open Scope nat_scope.

Section frame.
  Context {E : Type} (nul : E) (SSO mx : nat).
  Notation ST := (@ST E).
  Implicit Types s : ST.
  Notation shape := (shape SSO mx). Notation rep := (rep nul SSO mx).
  Lemma owned_dec s T b : owned s T b \/ ~ owned s T b.
  Proof.
    induction T as [|t T IH]; [right; intros (t & Ht & _); by apply elem_of_nil in Ht|].
    destruct (decide (sblk (sstr s t) = Some b)) as [Et|Et]; [left; exists t; split; [by left|done]|].
    destruct IH as [(u & Hu & Hb)|IH]; [left; exists u; split; [by right|done]|right]. intros (u & Hu & Hb). apply elem_of_cons in Hu as [->|Hu]; [done|]. apply IH. by exists u.
  Qed.
  Lemma frame_trans T s s' s'' : (forall t, t ∈ T -> smem s' t <> None) -> frame T s s' -> frame T s' s'' -> frame T s s''.
  Proof.
    intros HT (A1 & A2 & A3 & A4) (B1 & B2 & B3 & B4). split_and!.
    - intros t Ht. by rewrite B1, A1.
    - intros r Hr H1 H2. destruct (owned_dec s' T r) as [Ho|Ho]; [|by rewrite B2, A2]. rewrite (A3 r), (B4 r); done.
    - intros b H1 H2. destruct (owned_dec s' T b) as [Ho|Ho]; [by apply A3|]. pose proof (B3 b H1 Ho) as Hn. rewrite <-A2; [done| |done|done]. intros Hb. by apply (HT b).
    - intros b H1 H2. destruct (owned_dec s' T b) as [Ho|Ho]; [by apply B4|]. pose proof (A4 b H1 Ho) as Hn. rewrite B2; [done| |done|done]. intros Hb. by apply (HT b).
  Qed.
  Lemma frame_weaken T T' s s' : (forall t, t ∈ T -> t ∈ T') -> frame T s s' -> frame T' s s'.
  Proof.
    intros HT (A1 & A2 & A3 & A4).
    assert (Hm : forall s0 b, owned s0 T b -> owned s0 T' b) by (intros s0 b (t & Ht & Hb); exists t; auto).
    split_and!.
    - intros t Ht. apply A1. auto.
    - intros r Hr H1 H2. apply A2; auto.
    - intros b (t & Ht & Hb) H2. apply A3; [|auto]. destruct (decide (t ∈ T)) as [Hi|Hi]; [by exists t|]. rewrite A1 in Hb by done. exfalso. apply H2. by exists t.
    - intros b (t & Ht & Hb) H2. apply A4; [|auto]. destruct (decide (t ∈ T)) as [Hi|Hi]; [by exists t|]. rewrite <-A1 in Hb by done. exfalso. apply H2. by exists t.
  Qed.
  Lemma frame_refl T s : frame T s s.
  Proof. by split_and!. Qed.
  (** a string that is not operated on keeps its characters *)
  Lemma frame_other T s s' u l : frame T s s' -> rep s u l -> u ∉ T -> (forall t, t ∈ T -> apart s t u /\ sblk (sstr s t) <> Some u /\ sblk (sstr s u) <> Some t) -> rep s' u l.
  Proof.
    intros (A1 & A2 & A3 & A4) (d & Hsh & Hr) Hu Hap. pose proof Hsh as ((g0 & Hg0 & Hh0 & Hl0) & Hsz0 & Hd & (gd & Hgd & Hdd & Hh) & Hb0).
    assert (Hcur : forall r, r = u \/ r = cur u (sstr s u) -> smem s' r = smem s r).
    { assert (Hgen : forall r g, smem s r = Some g -> r ∉ T -> ~ owned s T r -> smem s' r = smem s r).
      { intros r g Hg Hr1 Hr2. apply A2; [done|done|]. intros Ho. rewrite (A3 r) in Hg; done. }
      intros r [-> | ->].
      - eapply Hgen; [done|done|]. intros (t & Ht & Hb). by destruct (Hap t Ht) as (_ & ? & _).
      - eapply Hgen; [done| |].
        + unfold cur. destruct (sblk (sstr s u)) eqn:Eb; cbn; [|done]. intros Ht. destruct (Hap _ Ht) as (_ & _ & ?). congruence.
        + intros (t & Ht & Hb). destruct (Hap t Ht) as ((_ & Hx) & Hy & _). unfold cur in Hb. destruct (sblk (sstr s u)) eqn:Eb; cbn in Hb; [by apply (Hx _ Hb)|done]. }
    exists d. assert (Hsh' : shape s' u d).
    { unfold StringSpec.shape, sso_ok. cbv zeta. rewrite (A1 u Hu), (Hcur u), (Hcur (cur u (sstr s u))) by auto. exact Hsh. }
    split; [done|]. by rewrite (A1 u Hu).
  Qed.
End frame.

Section ops.
  Context {E : Type} (nul : E) (SSO msk mx smax : nat).
  Notation ST := (@ST E). Notation M := (@M E). Notation region := (@region E).
  Context (orc : gmap nat region -> nat -> option (nat * Z * nat)).
  Context (HA : allocator_ok mx orc) (Hsm : 2 * mx + 2 <= smax) (HSSO : SSO <= mx).
  Implicit Types s : ST.
  Implicit Types d c : list (option E).
  Implicit Types l m : list E.
  Notation shape := (shape SSO mx). Notation rep := (rep nul SSO mx). Notation leaves := (leaves nul SSO mx). Notation no_room := (no_room mx orc).
  Notation wp_grow_by := (wp_grow_by SSO msk mx smax orc HA Hsm HSSO).
  Notation inplace_done := (inplace_done SSO mx smax Hsm HSSO).

  Lemma leaves_wp this s l' P R (cm : M unit) : wp cm (fun _ s' => leaves this s l' P R (Ok tt s')) (fun e s' => leaves this s l' P R (Throw e s')) s -> leaves this s l' P R (cm s).
  Proof. unfold wp. destruct (cm s) as [[] s'|e s'|]; done. Qed.
  Lemma wp_frame {A} (c : M A) Q X s : wp c Q X s -> wp c Q X s. Proof. done. Qed.
  (** the string has become small, the old block is gone *)
  Lemma small_done s s' this bs n d' : wfm s -> sso_ok SSO s this -> (exists g, smem s this = Some g /\ rbase g = bs) -> smem s' this = Some (Region bs false d') ->
    length d' = SSO + 1 -> sstr s' this = StrVal n SSO None -> n <= SSO -> (forall t, t <> this -> sstr s' t = sstr s t) ->
    (forall r, r <> this -> sblk (sstr s this) <> Some r -> smem s' r = smem s r) ->
    (forall b0, sblk (sstr s this) = Some b0 -> smem s' b0 = None) -> shape s' this d' /\ frame [this] s s' /\ wfm s'.
  Proof.
    intros Hw (g0 & Hg0 & Hh0 & Hl0) (g & Hg & <-) Hg' Hl Hv Hn Hs' Hmem Hold. rewrite Hg in Hg0. injection Hg0 as <-.
    unfold StringSpec.shape, frame. cbv zeta. rewrite Hv. cbn [ssz sres sblk]. split_and!; [|lia|lia|lia| |done| | | | |].
    - eexists. split; [exact Hg'|]. cbn. done.
    - eexists. split; [exact Hg'|]. done.
    - intros t Ht. apply Hs'. intros ->. apply Ht. by apply elem_of_list_singleton.
    - intros r Hr Ho _. rewrite owned1 in Ho. apply Hmem; [|done]. intros ->. apply Hr. by apply elem_of_list_singleton.
    - intros b Ho. rewrite owned1, Hv in Ho. done.
    - intros b Ho _. rewrite owned1 in Ho. by apply Hold.
    - eapply wfm_ext; [done|]. intros r g' Hr. destruct (decide (r = this)) as [->|Er].
      + rewrite Hg' in Hr. injection Hr as <-. exists g. cbn. split_and!; [done|done|lia].
      + destruct (decide (sblk (sstr s this) = Some r)) as [Es|Es]; [rewrite (Hold _ Es) in Hr; done|]. rewrite Hmem in Hr by done. eauto.
  Qed.
  Lemma sso_live s this d : shape s this d -> forall t, t ∈ [this] -> smem s t <> None.
  Proof. intros ((g & Hg & _) & _) t ->%elem_of_list_singleton. congruence. Qed.

  Theorem reserve_ok s this l newcap : wfm s -> rep s this l ->
    leaves this s l (fun s' => newcap <= capacity s' this /\ (newcap <= capacity s this -> s' = s)) (fun e => capacity s this < newcap /\ no_room s newcap e)
      (reserve SSO msk mx smax orc this newcap s).
  Proof.
    intros Hw Hrep. pose proof Hrep as Hrep0. start Hrep. apply leaves_wp. unfold reserve, capacity. step. eapply own_get; [exact O0|]. apply wp_if; intros Hc.
    { apply wp_ret. split_and!; try done. }
    step. apply wp_usub; [lia|]. apply wp_bind.
    eapply wp_mono; [eapply (wp_grow_by s this d _ _ (fun d' => result nul d' l)); [done|exact Hsh|lia|]| |].
    - intros b bs' cap s1 Hb Hcap O1. step. apply wp_uadd; [lia|].
      eapply own_copy; [exact O1|eapply src_old; [done|exact HD|]| | |]; [lia|len|cbn; congruence|]. intros s2 O2. eexists. split; [exact O2|]. split; [len|].
      split; [intros i; lens; intros Hi|lens]; lk; fin.
    - intros ? s1 (d' & cap & b & Hsh1 & [Hh1 Hnul1] & Hv1 & Hf1 & Hw1 & Hg1 & Hn1).
      destruct (shape_start SSO mx s1 this d' Hsh1) as (bs1 & hp1 & O1 & HD1 & _). eapply own_set_size; [exact O1|]. intros s2 O2.
      destruct (inplace_done s1 s2 this d' bs1 hp1 (ssz (sstr s this)) d') as (R1 & R2 & R3); [done|done|done|exact O2|rewrite Hv1; cbn; lia|done|].
      destruct O2 as (_ & _ & O2 & _). split_and!; [|apply (frame_trans _ s s1); [by eapply sso_live|exact Hf1|done]|done|rewrite O2, Hv1; cbn; lia|lia].
      exists d'. split_and!; [done|rewrite O2; cbn; lia|done|done].
    - intros e s1 (-> & He). split; [done|]. split; [lia|]. unfold StringSpec.no_room. replace newcap with (ssz (sstr s this) + (newcap - ssz (sstr s this))) by lia. by destruct e.
  Qed.
  Lemma wp_Become_small s this l b (Q : unit -> ST -> Prop) X : wfm s -> rep s this l -> sblk (sstr s this) = Some b -> length l <= SSO ->
    (forall s', rep s' this l -> frame [this] s s' -> wfm s' -> sstr s' this = StrVal (length l) SSO None -> Q tt s') -> wp (Become_small SSO smax this) Q X s.
  Proof.
    intros Hw Hrep Eb Hl HQ. start Hrep. unfold Become_small. pose proof (shape_blk_ne SSO mx s this d b Hsh Eb) as Hbt.
    pose proof Hsh as ((g0 & Hg0 & Hh0 & Hl0) & _). rewrite Eb in Hblk. assert (Hcb : cur this (sstr s this) = b) by (unfold cur; by rewrite Eb). rewrite Hcb in *.
    step. eapply wp_bx_ptr; [exact Eb|]. step. eapply wp_Switch_to_buf; [exact Hg0|exact Eb|]. intros s1 A1 A2 A3 A4.
    step. apply wp_get. rewrite A3. step. eapply wp_bx_buf; [by rewrite A3|]. step. apply wp_uadd; [lia|].
    assert (O1 : owning s1 this this (rbase g0) (rheap g0) s1 (StrVal (ssz (sstr s this)) (sres (sstr s this)) None) (replicate (SSO + 1) None)) by (split_and!; done).
    step. eapply (own_copy _ _ _ _ _ _ _ _ _ _ _ (cells d 0 (ssz (sstr s this) + 1))); [exact O1| |len|cbn; congruence|].
    { split; [len|]. right. right. split; [done|]. exists (Region bs hp d). rewrite A2 by done. cbn. split_and!; [done|lia|done]. }
    intros s2 (B1 & B2 & B3 & B4). step. eapply (wp_dealloc SSO mx smax); [done|done|rewrite B2 by done; rewrite A2 by done; exact HD|cbn; rewrite Hhp; apply bool_decide_true; by rewrite Eb|cbn; lia|lia|].
    intros s3 C1 C2 C3.
    set (d' := splice (replicate (SSO + 1) None) 0 (cells d 0 (ssz (sstr s this) + 1))) in *.
    assert (O3 : owning s3 this this (rbase g0) (rheap g0) s3 (StrVal (ssz (sstr s this)) (sres (sstr s this)) None) d') by (split_and!; [rewrite C2 by done; done|done|by rewrite C3|done]).
    eapply own_set_res; [exact O3|]. intros s4 (D1 & D2 & D3 & D4). cbn [ssz sblk] in D3. rewrite Hh0 in D1.
    destruct (small_done s s4 this (rbase g0) (ssz (sstr s this)) d') as (R1 & R2 & R3); try done.
    + apply Hsh.
    + eauto.
    + unfold d'. len.
    + lia.
    + intros t Ht. rewrite D4, C3, B4, A4; done.
    + intros r Hr1 Hr2. rewrite D2, C2, B2, A2 by congruence. done.
    + intros b0 Hb0. assert (b0 = b) as -> by congruence. rewrite D2 by done. done.
    + apply HQ; try done; [|by rewrite Hlen]. exists d'. split_and!; [done|rewrite D3; cbn; lia| |]; [intros i Hi|]; unfold d'; lk; fin.
  Qed.
  Theorem reserve0_ok s this l : wfm s -> rep s this l ->
    leaves this s l (fun s' => (l = [] -> capacity s' this = SSO) /\ (l <> [] -> s' = s)) (fun _ => False) (reserve0 SSO smax this s).
  Proof.
    intros Hw Hrep. pose proof Hrep as Hrep0. start Hrep. apply leaves_wp. unfold reserve0, capacity. step. eapply own_get; [exact O0|]. unfold large. apply wp_if; intros Hc.
    - destruct Hc as [Hz Hlg]. apply bool_decide_eq_true in Hlg. destruct (sblk (sstr s this)) as [b|] eqn:Eb; [|lia].
      eapply wp_Become_small; [done|exact Hrep0|exact Eb|lia|]. intros s' H1 H2 H3 H4. split_and!; try done; [by rewrite H4|]. intros Hne. destruct l; [done|cbn in *; lia].
    - apply wp_ret. split_and!; try done; idtac. intros ->. cbn in *. destruct (sblk (sstr s this)); [|done]. exfalso. apply Hc. split; [lia|]. by apply bool_decide_eq_true.
  Qed.
  Theorem shrink_to_fit_ok s this l : wfm s -> rep s this l ->
    leaves this s l (fun s' => capacity s' this <= capacity s this /\ (length l <= SSO -> capacity s' this = SSO) /\ (SSO < length l -> capacity s' this <= Nat.lor (length l) msk))
      (fun e => e = BadAlloc /\ SSO < length l /\ exists k, length l < k <= mx + 1 /\ orc (sheap s) k = None) (shrink_to_fit SSO msk mx smax orc this s).
  Proof.
    intros Hw Hrep. pose proof Hrep as Hrep0. start Hrep. apply leaves_wp. unfold shrink_to_fit, capacity. step. eapply own_get; [exact O0|]. unfold large.
    destruct (bool_decide (SSO < sres (sstr s this))) eqn:Hlg; [apply bool_decide_eq_true in Hlg|apply bool_decide_eq_false in Hlg].
    2:{ apply wp_ret. split_and!; try done; destruct (sblk (sstr s this)); lia. }
    destruct (sblk (sstr s this)) as [b|] eqn:Eb; [|lia]. apply wp_if; intros Hc.
    { eapply wp_Become_small; [done|exact Hrep0|exact Eb|lia|]. intros s' H1 H2 H3 H4. unfold StringSpec.leaves. rewrite H4. cbn. split_and!; try done; lia. }
    pose proof (le_lor (ssz (sstr s this)) msk) as Hlor. rewrite <-Hlen in *.
    apply wp_if; intros Ht; [|apply wp_ret; split_and!; try done; lia].
    assert (Hcb : cur this (sstr s this) = b) by (unfold cur; by rewrite Eb). rewrite Hcb in *. pose proof (shape_blk_ne SSO mx s this d b Hsh Eb) as Hbt.
    pose proof Hsh as ((g0 & Hg0 & Hh0 & Hl0) & _).
    apply wp_bind. eapply (wp_alloc SSO mx smax orc HA Hsm HSSO); [done|lia| |].
    { intros Eo. split_and!; [done|done|lia|]. eexists. split; [|exact Eo]. lia. }
    intros nb nbs cap s1 Hnb Hcap Hex Hdj A1 A2 A3. specialize (Hex eq_refl). simp.
    assert (Hne : nb <> b) by congruence. assert (Hnt : nb <> this) by congruence.
    step. eapply wp_bx_ptr; [by rewrite A3|]. step. apply wp_uadd; [lia|].
    assert (O1 : owning s this nb nbs true s1 (sstr s this) (replicate (cap + 1) None)) by (split_and!; [done|done|by rewrite A3|intros; by rewrite A3]).
    step. eapply own_copy; [exact O1|eapply src_old; [done|exact HD|]| | |]; [lia|len|cbn; congruence|]. intros s2 (B1 & B2 & B3 & B4).
    set (d' := splice _ _ _) in B1. assert (Hd' : length d' = cap + 1) by (unfold d'; len).
    step. eapply (wp_dealloc SSO mx smax); [done|done|rewrite B2 by done; exact HD|cbn; rewrite Hhp; by apply bool_decide_true|cbn; lia|lia|]. intros s3 C1 C2 C3.
    step. eapply wp_assign_ptr; [rewrite C3, B3; exact Eb|]. intros s4 D1 D2 D3. rewrite C3, B3 in D2.
    assert (O4 : owning s4 this nb nbs true s4 (sstr s4 this) d') by (split_and!; [rewrite D1, C2 by done; done|done|done|done]).
    eapply own_set_res; [exact O4|]. intros s5 (F1 & F2 & F3 & F4). rewrite D2 in F3. cbn [ssz sblk] in F3.
    destruct (realloc_done SSO mx smax Hsm HSSO s s5 this d nbs nb (StrVal (ssz (sstr s this)) cap (Some nb)) d') as (R1 & R2 & R3); try done; try (cbn; lia).
    - by rewrite Hd'.
    - intros t Ht'. rewrite F4, D3, C3, B4; done.
    - intros r Hr1 Hr2 Hr3. rewrite F2, D1, C2, B2 by congruence. done.
    - intros b0 Hb0. assert (b0 = b) as -> by congruence. rewrite F2, D1 by done. done.
    - exists g0, g0. rewrite F2, D1, C2, B2 by done. done.
    - unfold StringSpec.leaves. rewrite F3. cbn [sres]. split_and!; try done; try lia.
      exists d'. split_and!; [done|rewrite F3; cbn; lia| |]; [intros i Hi|]; unfold d'; lk; fin.
  Qed.
  (** also the destructor: nothing is owned afterwards *)
  Lemma wp_Tidy s this l (Q : unit -> ST -> Prop) X : wfm s -> rep s this l -> (forall s', rep s' this [] -> frame [this] s s' -> wfm s' -> sstr s' this = StrVal 0 SSO None -> Q tt s') ->
    wp (Tidy_deallocate nul SSO smax this) Q X s.
  Proof.
    intros Hw Hrep HQ. start Hrep. unfold Tidy_deallocate. pose proof Hsh as ((g0 & Hg0 & Hh0 & Hl0) & _). step. eapply own_get; [exact O0|]. unfold large.
    apply wp_bind.
    assert (Hrest : forall s1 d1, smem s1 this = Some (Region (rbase g0) false d1) -> length d1 = SSO + 1 -> sblk (sstr s1 this) = None -> (forall t, t <> this -> sstr s1 t = sstr s t) ->
      (forall r, r <> this -> sblk (sstr s this) <> Some r -> smem s1 r = smem s r) -> (forall b0, sblk (sstr s this) = Some b0 -> b0 <> this /\ smem s1 b0 = None) ->
      wp (bind (set_size this 0) (fun _ => bind (set_res this SSO) (fun _ => bind (bx_buf this) (fun p => put p nul)))) Q X s1).
    { intros s1 d1 H1 H2 H3 H4 H5 H6. assert (O1 : owning s1 this this (rbase g0) false s1 (sstr s1 this) d1) by (split_and!; done).
      step. eapply own_set_size; [exact O1|]. intros s2 O2. step. eapply own_set_res; [exact O2|]. intros s3 O3. cbn [ssz sres sblk] in O3. rewrite H3 in O3.
      step. eapply own_bx_buf; [exact O3|done|]. eapply own_put; [exact O3|lia|]. intros s4 (F1 & F2 & F3 & F4).
      destruct (small_done s s4 this (rbase g0) 0 (splice d1 0 [Some nul])) as (R1 & R2 & R3); try done.
      - apply Hsh.
      - eauto.
      - len.
      - lia.
      - intros t Ht. rewrite F4, H4; done.
      - intros r Hr1 Hr2. rewrite F2, H5; done.
      - intros b0 Hb0. destruct (H6 _ Hb0). rewrite F2; done.
      - apply HQ; try done. eexists. split; [exact R1|]. split; [by rewrite F3|]. split; [intros i Hi; cbn in Hi; lia|]. cbn [length]. lk; done. }
    destruct (sblk (sstr s this)) as [b|] eqn:Eb.
    - rewrite bool_decide_true by done. pose proof (shape_blk_ne SSO mx s this d b Hsh Eb) as Hbt. assert (Hcb : cur this (sstr s this) = b) by (unfold cur; by rewrite Eb). rewrite Hcb in *.
      step. eapply wp_bx_ptr; [exact Eb|]. step. eapply (wp_dealloc SSO mx smax); [done|done|exact HD|cbn; rewrite Hhp; by apply bool_decide_true|cbn; lia|lia|]. intros s1 C1 C2 C3.
      eapply wp_Switch_to_buf; [rewrite C2 by done; exact Hg0|by rewrite C3|]. intros s2 D1 D2 D3 D4. rewrite Hh0 in D1. eapply Hrest; [exact D1|len|by rewrite D3| | |].
      + intros t Ht. rewrite D4, C3; done.
      + intros r Hr1 Hr2. rewrite D2, C2 by congruence. done.
      + intros b0 Hb0. injection Hb0 as <-. split; [done|]. rewrite D2; done.
    - rewrite bool_decide_false by lia. apply wp_ret. destruct g0 as [bs0 hp0 d0]. cbn in *. subst hp0. eapply Hrest; try done.
  Qed.
  Theorem Tidy_ok s this l : wfm s -> rep s this l -> leaves this s [] (fun s' => sstr s' this = StrVal 0 SSO None) (fun _ => False) (Tidy_deallocate nul SSO smax this s).
  Proof. intros Hw Hrep. apply leaves_wp. eapply wp_Tidy; [done|done|]. intros s' H1 H2 H3 H4. done. Qed.

  Theorem resize_and_overwrite_ok s this l n op out : wfm s -> rep s this l ->
    (forall c, length c = n -> (forall i, i < length l -> i < n -> c !! i = Some (l !! i)) -> exists rest, op c = ((Some <$> out) ++ rest, length out) /\ length out + length rest = n) ->
    leaves this s out (fun s' => n <= capacity s' this /\ (n <= capacity s this -> capacity s' this = capacity s this /\ data s' this = data s this)) (fun e => capacity s this < n /\ no_room s n e)
      (resize_and_overwrite nul SSO msk mx smax orc this n op s).
  Proof.
    intros Hw Hrep Hop. start Hrep. apply leaves_wp. unfold resize_and_overwrite, capacity, data. step. eapply own_get; [exact O0|]. apply wp_bind.
    assert (Hrest : forall s1 d1 bs1 hp1 s0, wfm s0 -> shape s0 this d1 -> smem s0 (cur this (sstr s0 this)) = Some (Region bs1 hp1 d1) -> frame [this] s s0 -> sblk (sstr s0 this) = sblk (sstr s this) \/ sres (sstr s this) < n ->
       n <= sres (sstr s0 this) -> (n <= sres (sstr s this) -> sres (sstr s0 this) = sres (sstr s this)) ->
       owning s0 this (cur this (sstr s0 this)) bs1 hp1 s1 (StrVal n (sres (sstr s0 this)) (sblk (sstr s0 this))) d1 -> (forall i, i < length l -> i < n -> d1 !! i = Some (l !! i)) ->
       wp (bind (Myptr SSO this) (fun p => bind (load p n) (fun c0 => let '(c1, r) := op c0 in if decide (length c1 = n) then bind (store p c1) (fun _ => Eos nul SSO this r) else ub)))
         (fun _ s' => leaves this s out (fun s' => n <= sres (sstr s' this) /\ (n <= sres (sstr s this) -> sres (sstr s' this) = sres (sstr s this) /\ (cur this (sstr s' this), 0) = (cur this (sstr s this), 0)))
            (fun e => sres (sstr s this) < n /\ no_room s n e) (Ok tt s'))
         (fun e s' => leaves this s out (fun s' => n <= sres (sstr s' this) /\ (n <= sres (sstr s this) -> sres (sstr s' this) = sres (sstr s this) /\ (cur this (sstr s' this), 0) = (cur this (sstr s this), 0)))
            (fun e => sres (sstr s this) < n /\ no_room s n e) (Throw e s')) s1).
    { intros s1 d1 bs1 hp1 s0 Hw0 Hsh0 HD0 Hf0 Hdat Hn0 Hn1 O1 Hpre. pose proof Hsh0 as (_ & Hsz0 & Hd0 & _ & Hblk0). cbn [ssz sres sblk] in *.
      step. eapply own_Myptr; [exact O1|done|done|]. step.
      assert (Hl : wp (load (cur this (sstr s0 this), 0) n) (fun c s2 => s2 = s1 /\ c = cells d1 0 n) (fun _ _ => False) s1).
      { destruct O1 as (O1 & _). unfold wp, load, bind, get_data. cbn [fst snd]. rewrite O1. cbn [rdata]. rewrite decide_True by lia. done. }
      eapply wp_mono; [exact Hl| |done]. intros c s2 [-> ->].
      destruct (Hop (cells d1 0 n)) as (rest & Hop1 & Hop2); [len| |].
      { intros i Hi1 Hi2. rewrite lookup_cells, decide_True by done. cbn. by apply Hpre. }
      rewrite Hop1. rewrite decide_True by (rewrite app_length, fmap_length; done). apply wp_bind. eapply own_store; [exact O1|rewrite app_length, fmap_length; lia|]. intros s2 O2.
      unfold Eos. step. eapply own_set_size; [exact O2|]. intros s3 O3. step. eapply own_Myptr; [exact O3|done|done|]. simp. cbn [sres sblk] in O3.
      assert (Hls : length (splice d1 0 ((Some <$> out) ++ rest)) = length d1) by (rewrite splice_length; [done|rewrite app_length, fmap_length; lia]).
      eapply own_put; [exact O3|lia|]. intros s4 O4.
      destruct (inplace_done s0 s4 this d1 bs1 hp1 (length out) (splice (splice d1 0 ((Some <$> out) ++ rest)) (0 + length out) [Some nul])) as (R1 & R2 & R3); try done; [lia|rewrite splice_length; cbn [length]; lia|].
      pose proof (proj1 (proj2 (proj2 O4))) as Hv4. unfold StringSpec.leaves. rewrite Hv4. cbn [sres]. split_and!; [|apply (frame_trans _ s s0); [by eapply sso_live|exact Hf0|done]|done|done|].
      - eexists. split; [exact R1|]. split; [by rewrite Hv4|]. split.
        + intros i Hi. rewrite lookup_splice by (cbn [length]; lia). cbn [length]. rewrite decide_False by lia. rewrite lookup_splice by (rewrite app_length, fmap_length; lia).
          rewrite decide_True by (rewrite app_length, fmap_length; lia). replace (0 + i - 0) with i by lia. rewrite lookup_app_l by (rewrite fmap_length; lia).
          rewrite list_lookup_fmap. destruct (out !! i) eqn:Eo; [done|]. apply lookup_ge_None in Eo. lia.
        + rewrite lookup_splice by (cbn [length]; lia). cbn [length]. rewrite decide_True by lia. replace (length out - (0 + length out)) with 0 by lia. done.
      - intros Hle. split; [by apply Hn1|]. unfold cur. cbn [sblk]. destruct Hdat as [->|?]; [done|lia]. }
    apply wp_if; intros Hc.
    - step. apply wp_usub; [lia|].
      eapply wp_mono; [eapply (wp_grow_by s this d _ _ (fun d' => result nul d' l)); [done|exact Hsh|lia|]| |].
      + intros b bs' cap s1 Hb Hcap O1. step. apply wp_uadd; [lia|].
        eapply own_copy; [exact O1|eapply src_old; [done|exact HD|]| | |]; [lia|len|cbn; congruence|]. intros s2 O2. eexists. split; [exact O2|]. split; [len|].
        split; [intros i; lens; intros Hi|lens]; lk; fin.
      + intros ? s1 (d' & cap & b & Hsh1 & [Hh1 Hnul1] & Hv1 & Hf1 & Hw1 & Hg1 & Hn1). rewrite (Nat.add_comm _ (n - _)), Nat.sub_add in Hv1 by lia.
        destruct (shape_start SSO mx s1 this d' Hsh1) as (bs1 & hp1 & O1 & HD1 & _). eapply (Hrest s1 d' bs1 hp1 s1); try done.
        * by right.
        * rewrite Hv1. cbn. lia.
        * lia.
        * rewrite Hv1 in O1 |- *. cbn. exact O1.
        * intros i Hi _. by apply Hh1.
      + intros e s1 (-> & He). split; [done|]. split; [lia|]. unfold StringSpec.no_room. replace n with (ssz (sstr s this) + (n - ssz (sstr s this))) by lia. by destruct e.
    - eapply own_set_size; [exact O0|]. intros s1 O1. eapply (Hrest s1 d bs hp s); try done; [by left|lia|]. intros i Hi _. by apply Hhold.
  Qed.

  (** element access *)
  Theorem at_ok s this l off : rep s this l ->
    match at_ SSO this off s with Ok x s' => s' = s /\ off < length l /\ x = l !! off | Throw e s' => s' = s /\ e = OutOfRange /\ length l <= off | UB => False end.
  Proof.
    intros Hrep. start Hrep. unfold at_, Check_offset_exclusive.
    assert (HH : wp (bind (bind (get this) (fun v => if decide (ssz v <= off) then throw OutOfRange else ret tt)) (fun _ => bind (Myptr SSO this) (fun p => bind (load (padd p off) 1) (fun q => match q with [x] => ret x | _ => ub end))))
       (fun x s' => s' = s /\ off < length l /\ x = l !! off) (fun e s' => s' = s /\ e = OutOfRange /\ length l <= off) s).
    { apply wp_bind. apply wp_bind. eapply own_get; [exact O0|]. apply wp_if; intros Hc; [apply wp_throw; split_and!; [done|done|lia]|]. apply wp_ret.
      apply wp_bind. eapply own_Myptr; [exact O0|done|done|]. apply wp_bind. eapply own_load; [exact O0|lia|apply src_self; cbn; lia|]. cbn [padd fst snd].
      destruct (cells d (0 + off) 1) as [|c [|]] eqn:Ec; [| |]; [pose proof (cells_length d (0 + off) 1 ltac:(lia)) as Hx; rewrite Ec in Hx; done| |pose proof (cells_length d (0 + off) 1 ltac:(lia)) as Hx; rewrite Ec in Hx; done].
      apply wp_ret. split_and!; [done|lia|]. pose proof (lookup_cells d (0 + off) 1 0) as Hx. rewrite Ec, decide_True in Hx by lia. cbn in Hx. rewrite Nat.add_0_r in Hx. specialize (Hhold off ltac:(lia)). cbn in Hhold. congruence. }
    unfold wp in HH. by destruct (bind _ _ s).
  Qed.
  Theorem index_ok s this l off : rep s this l -> off <= length l ->
    match index SSO this off s with Ok x s' => s' = s /\ x = (l ++ [nul]) !! off | _ => False end.
  Proof.
    intros Hrep Hoff. start Hrep. unfold index.
    assert (HH : wp (bind (Myptr SSO this) (fun p => bind (load (padd p off) 1) (fun q => match q with [x] => ret x | _ => ub end)))
       (fun x s' => s' = s /\ x = (l ++ [nul]) !! off) (fun e s' => False) s).
    { apply wp_bind. eapply own_Myptr; [exact O0|done|done|]. apply wp_bind. eapply own_load; [exact O0|lia|apply src_self; cbn; lia|]. cbn [padd fst snd].
      destruct (cells d (0 + off) 1) as [|c [|]] eqn:Ec; [| |]; [pose proof (cells_length d (0 + off) 1 ltac:(lia)) as Hx; rewrite Ec in Hx; done| |pose proof (cells_length d (0 + off) 1 ltac:(lia)) as Hx; rewrite Ec in Hx; done].
      apply wp_ret. split_and!; [done|]. pose proof (lookup_cells d (0 + off) 1 0) as Hx. rewrite Ec, decide_True in Hx by lia. cbn in Hx. rewrite Nat.add_0_r in Hx.
      rewrite lookup_app'. destruct (decide (off < length l)) as [Hlt|Hlt]; [specialize (Hhold off ltac:(lia)); cbn in Hhold; congruence|].
      replace off with (length l) in * by lia. rewrite Nat.sub_diag. cbn. congruence. }
    unfold wp in HH. by destruct (bind _ _ s).
  Qed.
End ops.
