(** Pushing and popping at both ends. *)
From stdpp Require Import base list numbers decidable.
From Coq Require Import ZArith Lia.
From Verif Require Import Base.Res Base.Int Cont.ObjMem Cont.ObjMemProofs Cont.DequeModel Cont.DequeSpec Cont.DequeProofs
  Cont.DequeProofs2.
Local Open Scope nat_scope.

Lemma mod_succ n b : b <> 0 -> (n + 1) mod b <> 0 -> n mod b + 1 = (n + 1) mod b.
Proof.
  intros Hb Hne. pose proof (Nat.div_mod n b Hb) as E. pose proof (Nat.mod_upper_bound n b Hb) as Hu.
  destruct (decide (n mod b + 1 = b)) as [Ee|].
  - exfalso. apply Hne. rewrite E. replace (b * (n / b) + n mod b + 1) with ((n / b + 1) * b) by lia. by apply Nat.mod_mul.
  - apply (Nat.mod_unique _ _ (n / b)); lia.
Qed.

Section ends.
  Context {A : Type} (T : traits) (B : nat) (maxb : Z).
  Context (HB : exists k, B = 2 ^ k) (Hmax : (8 <= maxb < 2 ^ 63)%Z).
  Notation state := (st A deq).
  Implicit Types (s : state) (l : list (option A)) (d : deq).
  Notation shape := (shape B maxb).
  Notation dholds := (dholds B maxb).
  Notation why_throw := (why_throw B maxb).
  Notation own := (own B).
  Notation eaddr := (eaddr B).
  Notation same_objects := (same_objects B).

  Lemma so_refl s n : same_objects s s 0 0 n.
  Proof. intros k Hk. done. Qed.
  Lemma so_trans s1 s2 s3 n : same_objects s1 s2 0 0 n -> same_objects s2 s3 0 0 n -> same_objects s1 s3 0 0 n.
  Proof. intros H1 H2 k Hk. rewrite H2 by done. by apply H1. Qed.

  Lemma dholds_len s l : dholds s l -> dsize (loc s) = length l.
  Proof. intros [H _]. apply H. Qed.
  Lemma dholds_same s s' l : dholds s l -> loc s' = loc s -> brk s <= brk s' -> (forall q, mem s' q = mem s q) -> dholds s' l.
  Proof. intros [H1 H2] E Hb Hm. split; rewrite E; [done|]. eapply own_ext; [exact H2|done|done|done|done]. Qed.

  Lemma mask_ok s l (Q : unit -> state -> Prop) (E : state -> Prop) :
    dholds s l -> Mapsize (loc s) <> 0 ->
    (forall s', dholds s' l -> same_objects s s' 0 0 (length l) -> (calm s -> calm s') ->
      doff (loc s') = doff (loc s) mod (Mapsize (loc s) * B) -> Mapsize (loc s') = Mapsize (loc s) -> Q tt s') ->
    wpx (mput (Deq (dmap (loc s)) (Nat.land (doff (loc s)) (Mapsize (loc s) * B - 1)) (dsize (loc s)))) s Q E.
  Proof.
    intros [Hs Ho] Hm HQ. pose proof (B_pos B HB) as HBp. destruct (cap_pow B maxb HB _ _ Hs Hm) as [k Hk].
    replace (Nat.land (doff (loc s)) (Mapsize (loc s) * B - 1)) with (doff (loc s) mod (Mapsize (loc s) * B))
      by (rewrite Hk; symmetry; apply land_mask).
    set (d := loc s) in *. apply wpx_put. intros s1 Hm1 Hb1 Hl1 Hc1.
    assert (Hc0 : Mapsize d * B <> 0) by lia.
    pose proof (Nat.mod_upper_bound (doff d) (Mapsize d * B) Hc0) as Hub.
    assert (Hea : forall i, eaddr (loc s1) i = eaddr d i).
    { intros i. rewrite Hl1. unfold DequeSpec.eaddr. simpl.
      etransitivity; [|apply (slot_mod B HBp d (doff d mod (Mapsize d * B) + i)); [done|]].
      - done.
      - by rewrite Nat.add_mod_idemp_l by done. }
    assert (HmB : (doff d mod (Mapsize d * B)) mod B = doff d mod B) by (apply mod_ring_B; lia).
    apply HQ.
    - split.
      + rewrite Hl1. destruct Hs as [S1 S2 S3 S4 S5 S6]. split; simpl; try done.
        * intros Hn. rewrite (S4 Hn). apply Nat.mod_0_l. done.
        * unfold Mapsize in *. simpl. rewrite HmB. done.
        * right. match goal with |- context [Mapsize (Deq ?a ?b ?c)] => change (Mapsize (Deq a b c)) with (Mapsize d) end.
          pose proof (mod_ring B (Mapsize d) (doff d) ltac:(lia) Hm) as Er. pose proof (Nat.mod_upper_bound (doff d / B) (Mapsize d) Hm) as Hu.
          set (z := (doff d / B) mod Mapsize d) in *. clearbody z. assert (B * S z <= B * Mapsize d) by (apply Nat.mul_le_mono_l; lia). lia.
      + eapply own_ext; [exact Ho| |lia|by intros q; rewrite Hm1|done].
        rewrite Hl1. done.
    - intros i Hi. by rewrite !Hea.
    - auto.
    - by rewrite Hl1.
    - by rewrite Hl1.
  Qed.

  Lemma ensure_block_ok s l o (Q : unit -> state -> Prop) (E : state -> Prop) :
    dholds s l -> Mapsize (loc s) <> 0 ->
    (forall i, i < length l -> o mod (Mapsize (loc s) * B) <> (doff (loc s) + i) mod (Mapsize (loc s) * B)) ->
    (forall s', dholds s' l -> same_objects s s' 0 0 (length l) -> (calm s -> calm s') ->
      doff (loc s') = doff (loc s) -> Mapsize (loc s') = Mapsize (loc s) ->
      forall b r, slot B (loc s') o = Some (b + r) -> b ∈ blocks (loc s') -> r < B ->
        (forall i, i < length l -> eaddr (loc s') i <> Some (b + r)) -> Q tt s') ->
    (forall s', same s s' -> (forall q, mem s' q = mem s q) -> ~ calm s -> E s') ->
    wpx (ensure_block B (Getblock B (loc s) o)) s Q E.
  Proof.
    intros [Hs Ho] Hm Hne HQ HE. pose proof (B_pos B HB) as HBp.
    unfold ensure_block. apply wpx_bind, wpx_loc. rewrite (Getblock_mod B maxb _ (length l)) by done.
    set (d := loc s) in *. pose proof (Nat.mod_upper_bound (o / B) (Mapsize d) Hm) as Hj.
    set (j := (o / B) mod Mapsize d) in *.
    destruct (lookup_lt_is_Some_2 (dmap d) j Hj) as [x Hx]. rewrite Hx.
    destruct x as [b|].
    - apply wpx_ret. apply (HQ s) with b (o mod B); try done.
      + unfold slot. fold d. fold j. by rewrite Hx.
      + apply elem_of_blocks. by exists j.
      + apply Nat.mod_upper_bound. lia.
      + intros i Hi He. apply (Hne i Hi). eapply (slot_inj B HBp d); [apply Ho|apply Ho|done| |exact He].
        unfold slot. fold d. fold j. by rewrite Hx.
    - apply wpx_bind, wpx_alloc; [|intros s1 Hs1 Hm1 Hc; apply HE; done].
      intros s1 Hb1 Hl1 Hc1 Hm1. apply wpx_put. intros s2 Hm2 Hb2 Hl2 Hc2.
      assert (Hms : Mapsize (loc s2) = Mapsize d).
      { rewrite Hl2. unfold Mapsize. simpl. apply insert_length. }
      assert (Hea : forall i, i < length l -> eaddr (loc s2) i = eaddr d i).
      { intros i Hi. unfold DequeSpec.eaddr, slot. rewrite Hms. rewrite Hl2. simpl.
        destruct (decide (j = ((doff d + i) / B) mod Mapsize d)) as [Ej|Hnj].
        - exfalso. destruct (ow_in _ _ _ _ _ _ Ho i Hi) as (b & r & Hb & Hr & Hf).
          unfold DequeSpec.eaddr, slot in Hf. rewrite <-Ej, Hx in Hf. done.
        - by rewrite list_lookup_insert_ne. }
      assert (Hbl : blocks (loc s2) ≡ₚ brk s :: blocks d).
      { rewrite Hl2. unfold blocks. simpl. by apply (NoDup_omap_insert (dmap d)). }
      assert (Ho2 : own (brk s :: blocks d) (brk s + B) (mem s2) (eaddr d) l).
      { apply (own_alloc B _ _ (mem s)); [done|done|]. intros q. rewrite Hm2. apply Hm1. }
      assert (Hown : own (blocks (loc s2)) (brk s2) (mem s2) (eaddr (loc s2)) l).
      { eapply own_ext; [exact Ho2|by rewrite Hbl|lia|done|done]. }
      assert (Hslot : slot B (loc s2) o = Some (brk s + o mod B)).
      { unfold slot. rewrite Hms. fold j. rewrite Hl2. simpl. by rewrite list_lookup_insert. }
      assert (Hd2 : dholds s2 l).
      { split; [|done]. destruct Hs as [S1 S2 S3 S4 S5 S6].
        split; rewrite ?Hms; rewrite ?Hl2; try done. }
      assert (Hoff : doff (loc s2) = doff d) by (by rewrite Hl2).
      apply (HQ s2) with (brk s) (o mod B); try done.
      + auto.
      + rewrite Hbl. by left.
      + apply Nat.mod_upper_bound. lia.
      + intros i Hi He. apply (Hne i Hi). rewrite <-Hms, <-Hoff. eapply (slot_inj B HBp (loc s2)); [apply Hown|apply Hown|by rewrite Hms|exact Hslot|exact He].
  Qed.

  (** constructing the new element at [p]: on success [p] holds [v] and the old elements are [l1]; on failure they are [lE] *)
  Definition mk_ok s l (mk : nat -> M A deq unit) l1 v lE : Prop :=
    length l1 = length l /\ length lE = length l /\
    forall s1 p, dholds s1 l -> same_objects s s1 0 0 (length l) -> (calm s -> calm s1) -> mem s1 p = Raw ->
      wpx (mk p) s1
        (fun _ s2 => same s1 s2 /\ exists m1, own (blocks (loc s1)) (brk s1) m1 (eaddr (loc s1)) l1 /\
           forall q, mem s2 q = if decide (q = p) then Obj v else m1 q)
        (fun s2 => same s1 s2 /\ ~ calm s /\ own (blocks (loc s1)) (brk s1) (mem s2) (eaddr (loc s1)) lE).

  Definition emplace_exn s l lE s' : Prop :=
    why_throw s (length l) /\ (dholds s' l \/ dholds s' lE) /\ same_objects s s' 0 0 (length l).

  Lemma Emplace_back_ok s l mk l1 v lE : dholds s l -> mk_ok s l mk l1 v lE ->
    wpx (Emplace_back_internal B maxb mk) s
      (fun _ s' => dholds s' (l1 ++ [v]) /\ (calm s -> calm s') /\ same_objects s s' 0 0 (length l))
      (emplace_exn s l lE).
  Proof.
    intros H (Hl1 & HlE & Hmk). pose proof (B_pos B HB) as HBp. unfold Emplace_back_internal. apply wpx_bind, wpx_loc.
    apply wpx_bind. pose proof (dholds_len _ _ H) as Hn. rewrite Hn.
    assert (Hgo : forall s1, dholds s1 l -> same_objects s s1 0 0 (length l) -> (calm s -> calm s1) -> Mapsize (loc s1) <> 0 ->
      doff (loc s1) mod B + length l < Mapsize (loc s1) * B ->
      wpx (d <<- mloc ;;
        mput (Deq (dmap d) (Nat.land (doff d) (Mapsize d * B - 1)) (dsize d)) ;;;
        d <<- mloc ;;
        let Newoff := doff d + dsize d in
        ensure_block B (Getblock B d Newoff) ;;;
        p <<- Address_subscript B Newoff ;;
        mk p ;;;
        d <<- mloc ;;
        mput (Deq (dmap d) (doff d) (dsize d + 1))) s1
      (fun _ s' => dholds s' (l1 ++ [v]) /\ (calm s -> calm s') /\ same_objects s s' 0 0 (length l))
      (emplace_exn s l lE)).
    { intros s1 H1 Hso1 Hc1 Hms1 Hroom. apply wpx_bind, wpx_loc. apply wpx_bind, (mask_ok s1 l); [done|done|].
      intros s2 H2 Hso2 Hc2 Ho2 Hms2.
      assert (HoB : doff (loc s2) mod B = doff (loc s1) mod B).
      { rewrite Ho2. apply mod_ring_B; lia. }
      assert (Holt : doff (loc s2) < Mapsize (loc s1) * B).
      { rewrite Ho2. apply Nat.mod_upper_bound. lia. }
      apply wpx_bind, wpx_loc. cbv zeta. rewrite (dholds_len _ _ H2). apply wpx_bind, (ensure_block_ok s2 l); [done|lia| | |].
      { intros i Hi He. apply mod_window in He; lia. }
      2:{ intros s3 (Hb3 & Hl3 & Hc3) Hm3 Hc. split; [left; intros ?; apply Hc; auto|]. split.
          - left. eapply dholds_same; [exact H2|done|lia|done].
          - eapply so_trans; [exact Hso1|]. eapply so_trans; [exact Hso2|]. intros k Hk. by rewrite Hl3. }
      intros s3 H3 Hso3 Hc3 Ho3 Hms3 b r Hslot Hb Hr Hnotin.
      apply wpx_bind. rewrite <-Ho3 in Hslot |- *.
      eapply wpx_addr; [apply H3|lia|exact Hslot|].
      assert (Hso : same_objects s s3 0 0 (length l)) by (eapply so_trans; [exact Hso1|eapply so_trans; [exact Hso2|exact Hso3]]).
      apply wpx_bind. eapply wpx_mono; [apply Hmk; [exact H3|exact Hso|auto|]| |].
      - destruct H3 as [_ Ho]. by apply (ow_raw _ _ _ _ _ _ Ho).
      - intros [] s4 ((Hb4 & Hl4 & Hc4) & m1 & Hown & Hm4). apply wpx_bind, wpx_loc. apply wpx_put.
        intros s5 Hm5 Hb5 Hl5 Hc5. split; [split|split].
        + rewrite Hl5, Hl4. destruct H3 as [[S1 S2 S3 S4 S5 S6] _]. rewrite Hl4 in *. rewrite app_length. simpl.
          split; simpl; try done.
          * lia.
          * lia.
          * unfold Mapsize in *. simpl. rewrite Ho3, HoB. lia.
          * right. unfold Mapsize in *. simpl. rewrite Hms3, Hms2, Ho3.
            pose proof (Nat.div_mod (doff (loc s2)) B). 
            assert (doff (loc s2) / B <= length (dmap (loc s1)) - 1).
            { assert (doff (loc s2) / B < length (dmap (loc s1))); [|lia]. apply Nat.div_lt_upper_bound; lia. }
            nia.
        + apply (own_ext B (blocks (loc s3)) (brk s3) (mem s5) (eaddr (loc s3))).
          * apply (own_snoc B _ _ m1 _ _ b r); try done.
            -- unfold DequeSpec.eaddr. by rewrite Hl1.
            -- rewrite Hl1. done.
            -- intros q. rewrite Hm5. apply Hm4.
          * rewrite Hl5, Hl4. done.
          * rewrite Hb5, Hb4. done.
          * done.
          * intros i Hi. rewrite Hl5, Hl4. done.
        + auto 10.
        + eapply so_trans; [exact Hso|]. intros k Hk. rewrite Hl5, Hl4. done.
      - intros s4 ((Hb4 & Hl4 & Hc4) & Hc & Hown). split; [by left|]. split.
        + right. split; rewrite Hl4; [rewrite HlE; apply H3|]. by rewrite Hb4.
        + eapply so_trans; [exact Hso|]. intros k Hk. rewrite Hl4. done. }
    unfold mwhen. destruct (((doff (loc s) + length l) mod B =? 0) && (Mapsize (loc s) <=? (length l + B) / B)) eqn:Eg.
    - apply andb_prop in Eg as [_ Eg%Nat.leb_le].
      apply (Growmap_ok B maxb HB Hmax s l); [done|done| |].
      + intros s1 Hb1 Hm1 Hc1 H1 Ho1 Hso1 Hms1 Hr1 Hr1'. apply Hgo; try done; lia.
      + intros s1 (Hb1 & Hl1' & Hc1) Hm1 Hw. split; [done|]. split.
        * left. eapply dholds_same; [exact H|done|lia|done].
        * intros k Hk. by rewrite Hl1'.
    - apply wpx_ret. assert (Hms : Mapsize (loc s) <> 0 /\ doff (loc s) mod B + length l < Mapsize (loc s) * B).
      { destruct H as [Hs _]. pose proof (sh_fit _ _ _ _ Hs) as Hf. apply andb_false_iff in Eg.
        rewrite Nat.add_mod in Eg by lia.
        destruct (decide (Mapsize (loc s) = 0)) as [E0|Hne].
        { exfalso. rewrite E0 in *. assert (length l = 0) by lia.
          destruct Eg as [Eg|Eg]; [apply Nat.eqb_neq in Eg|apply Nat.leb_gt in Eg; lia].
          apply Eg. rewrite (sh_off0 _ _ _ _ Hs) by done. replace (length l) with 0 by lia. rewrite Nat.mod_0_l by lia. by rewrite Nat.mod_0_l by lia. }
        split; [done|].
        destruct Eg as [Eg|Eg].
        - apply Nat.eqb_neq in Eg. destruct (decide (doff (loc s) mod B + length l = Mapsize (loc s) * B)) as [Ee|]; [|lia].
          exfalso. apply Eg. rewrite Nat.add_mod_idemp_r by lia. rewrite Ee. by apply Nat.mod_mul; lia.
        - apply Nat.leb_gt in Eg. pose proof (Nat.mod_upper_bound (doff (loc s)) B).
          pose proof (Nat.mul_succ_div_gt (length l + B) B). nia. }
      destruct Hms. apply Hgo; done.
  Qed.

  Lemma Emplace_front_ok s l mk l1 v lE : dholds s l -> mk_ok s l mk l1 v lE ->
    wpx (Emplace_front_internal B maxb mk) s
      (fun _ s' => dholds s' (v :: l1) /\ (calm s -> calm s') /\ same_objects s s' 0 1 (length l))
      (emplace_exn s l lE).
  Proof.
    intros H (Hl1 & HlE & Hmk). pose proof (B_pos B HB) as HBp. unfold Emplace_front_internal. apply wpx_bind, wpx_loc.
    apply wpx_bind. pose proof (dholds_len _ _ H) as Hn. rewrite Hn.
    assert (Hgo : forall s1, dholds s1 l -> same_objects s s1 0 0 (length l) -> (calm s -> calm s1) -> Mapsize (loc s1) <> 0 ->
      (doff (loc s1) mod B = 0 -> length l + B <= Mapsize (loc s1) * B) ->
      wpx (d <<- mloc ;;
        mput (Deq (dmap d) (Nat.land (doff d) (Mapsize d * B - 1)) (dsize d)) ;;;
        d <<- mloc ;;
        let Newoff := (if negb (doff d =? 0) then doff d else Mapsize d * B) - 1 in
        ensure_block B (Getblock B d Newoff) ;;;
        p <<- Address_subscript B Newoff ;;
        mk p ;;;
        d <<- mloc ;;
        mput (Deq (dmap d) Newoff (dsize d + 1))) s1
      (fun _ s' => dholds s' (v :: l1) /\ (calm s -> calm s') /\ same_objects s s' 0 1 (length l))
      (emplace_exn s l lE)).
    { intros s1 H1 Hso1 Hc1 Hms1 Hroom. apply wpx_bind, wpx_loc. apply wpx_bind, (mask_ok s1 l); [done|done|].
      intros s2 H2 Hso2 Hc2 Ho2 Hms2.
      assert (HoB : doff (loc s2) mod B = doff (loc s1) mod B).
      { rewrite Ho2. apply mod_ring_B; lia. }
      assert (Holt : doff (loc s2) < Mapsize (loc s1) * B).
      { rewrite Ho2. apply Nat.mod_upper_bound. lia. }
      pose proof (sh_fit _ _ _ _ (proj1 H2)) as Hf2. rewrite Hms2 in Hf2.
      apply wpx_bind, wpx_loc. cbv zeta. rewrite Hms2.
      set (c := Mapsize (loc s1) * B) in *. assert (Hc0 : c <> 0) by lia.
      set (No := (if negb (doff (loc s2) =? 0) then doff (loc s2) else c) - 1).
      assert (HNo : No + 1 = doff (loc s2) \/ No + 1 = c /\ doff (loc s2) = 0).
      { unfold No. destruct (doff (loc s2) =? 0) eqn:E0; simpl.
        - apply Nat.eqb_eq in E0. right. lia.
        - apply Nat.eqb_neq in E0. left. lia. }
      assert (HNlt : No < c) by lia. clearbody No.
      assert (HNB : No mod B + length l + 1 <= c).
      { assert (HcB : c mod B = 0) by (apply Nat.mod_mul; lia).
        destruct (decide (doff (loc s2) mod B = 0)) as [E0|Hne0].
        - rewrite HoB in E0. pose proof (Hroom E0). pose proof (Nat.mod_upper_bound No B). lia.
        - destruct HNo as [HNo|[_ HNo]]; [|rewrite HNo, Nat.mod_0_l in Hne0; lia].
          assert (No mod B + 1 = doff (loc s2) mod B); [|lia].
          rewrite <-HNo in Hne0 |- *. apply mod_succ; [lia|done]. }
      apply wpx_bind, (ensure_block_ok s2 l); [done|lia| | |].
      { intros i Hi He. rewrite Hms2 in He. fold c in He.
        assert (Hw : (No + 0) mod c = (No + (1 + i)) mod c).
        { rewrite Nat.add_0_r, He. destruct HNo as [<-|[HNo ->]]; [f_equal; lia|].
          replace (No + (1 + i)) with (i + 1 * c) by lia. rewrite Nat.mod_add by done. done. }
        apply mod_window in Hw; lia. }
      2:{ intros s3 (Hb3 & Hl3 & Hc3) Hm3 Hc. split; [left; intros ?; apply Hc; auto|]. split.
          - left. eapply dholds_same; [exact H2|done|lia|done].
          - eapply so_trans; [exact Hso1|]. eapply so_trans; [exact Hso2|]. intros k Hk. by rewrite Hl3. }
      intros s3 H3 Hso3 Hc3 Ho3 Hms3 b r Hslot Hb Hr Hnotin.
      apply wpx_bind.
      eapply wpx_addr; [apply H3|lia|exact Hslot|].
      assert (Hso : same_objects s s3 0 0 (length l)) by (eapply so_trans; [exact Hso1|eapply so_trans; [exact Hso2|exact Hso3]]).
      apply wpx_bind. eapply wpx_mono; [apply Hmk; [exact H3|exact Hso|auto|]| |].
      - destruct H3 as [_ Ho]. by apply (ow_raw _ _ _ _ _ _ Ho).
      - intros [] s4 ((Hb4 & Hl4 & Hc4) & m1 & Hown & Hm4). apply wpx_bind, wpx_loc. apply wpx_put.
        intros s5 Hm5 Hb5 Hl5 Hc5.
        assert (HfS : forall i, eaddr (loc s5) (S i) = eaddr (loc s3) i).
        { intros i. rewrite Hl5. unfold DequeSpec.eaddr. simpl. rewrite Hl4.
          etransitivity; [|apply (slot_mod B HBp (loc s3) (No + S i) (doff (loc s3) + i)); [lia|]].
          - done.
          - rewrite Hms3, Hms2, Ho3. fold c. destruct HNo as [<-|[HNo ->]]; [f_equal; lia|].
            replace (No + S i) with (i + 1 * c) by lia. rewrite Nat.mod_add by done. done. }
        split; [split|split].
        + rewrite Hl5. destruct H3 as [[S1 S2 S3 S4 S5 S6] _]. rewrite Hl4 in *. simpl.
          split; simpl; try done.
          * lia.
          * unfold Mapsize at 1; simpl. fold (Mapsize (loc s3)). rewrite Hms3, Hms2. fold c. lia.
          * right. unfold Mapsize; simpl. fold (Mapsize (loc s3)). rewrite Hms3, Hms2.
            pose proof (Nat.div_mod No B).
            assert (No / B <= Mapsize (loc s1) - 1).
            { assert (No / B < Mapsize (loc s1)); [|lia]. apply Nat.div_lt_upper_bound; lia. }
            unfold c in *. nia.
        + apply (own_ext B (blocks (loc s3)) (brk s3) (mem s5) (eaddr (loc s5))).
          * apply (own_cons B _ _ m1 (eaddr (loc s3)) _ _ b r); try done.
            -- unfold DequeSpec.eaddr. rewrite Hl5. simpl. rewrite Nat.add_0_r. rewrite Hl4. exact Hslot.
            -- rewrite Hl1. done.
            -- intros q. rewrite Hm5. apply Hm4.
          * rewrite Hl5, Hl4. done.
          * rewrite Hb5, Hb4. done.
          * done.
          * done.
        + auto 10.
        + intros k Hk. change (1 + k) with (S k). rewrite HfS. by apply Hso.
      - intros s4 ((Hb4 & Hl4 & Hc4) & Hc & Hown). split; [by left|]. split.
        + right. split; rewrite Hl4; [rewrite HlE; apply H3|]. by rewrite Hb4.
        + eapply so_trans; [exact Hso|]. intros k Hk. rewrite Hl4. done. }
    unfold mwhen. destruct ((doff (loc s) mod B =? 0) && (Mapsize (loc s) <=? (length l + B) / B)) eqn:Eg.
    - apply andb_prop in Eg as [_ Eg%Nat.leb_le].
      apply (Growmap_ok B maxb HB Hmax s l); [done|done| |].
      + intros s1 Hb1 Hm1 Hc1 H1 Ho1 Hso1 Hms1 Hr1 Hr1'. apply Hgo; try done; lia.
      + intros s1 (Hb1 & Hl1' & Hc1) Hm1 Hw. split; [done|]. split.
        * left. eapply dholds_same; [exact H|done|lia|done].
        * intros k Hk. by rewrite Hl1'.
    - apply wpx_ret. assert (Hms : Mapsize (loc s) <> 0 /\ (doff (loc s) mod B = 0 -> length l + B <= Mapsize (loc s) * B)).
      { destruct H as [Hs _]. pose proof (sh_fit _ _ _ _ Hs) as Hf. apply andb_false_iff in Eg.
        destruct (decide (Mapsize (loc s) = 0)) as [E0|Hne].
        { exfalso. rewrite E0 in *. assert (length l = 0) by lia.
          destruct Eg as [Eg|Eg]; [apply Nat.eqb_neq in Eg|apply Nat.leb_gt in Eg; lia].
          apply Eg. rewrite (sh_off0 _ _ _ _ Hs) by done. by rewrite Nat.mod_0_l by lia. }
        split; [done|]. intros Em.
        destruct Eg as [Eg|Eg].
        - apply Nat.eqb_neq in Eg. done.
        - apply Nat.leb_gt in Eg. pose proof (Nat.mul_succ_div_gt (length l + B) B). nia. }
      destruct Hms. apply Hgo; done.
  Qed.

  Lemma pop_back_ok s l v (Q : unit -> state -> Prop) (E : state -> Prop) : dholds s (l ++ [v]) ->
    (forall s', same_objects s s' 0 0 (length l) -> dholds s' l -> (calm s -> calm s') -> dmap (loc s') = dmap (loc s) -> Q tt s') ->
    wpx (pop_back B) s Q E.
  Proof.
    intros H HQ. pose proof (dholds_len _ _ H) as Hn. rewrite app_length in Hn. simpl in Hn.
    unfold pop_back. apply wpx_bind, wpx_loc. apply wpx_bind. rewrite Hn.
    replace (doff (loc s) + (length l + 1) - 1) with (doff (loc s) + length l) by lia.
    apply (wpx_elem B maxb s (l ++ [v])); [done|rewrite app_length; simpl; lia|]. intros p Hp Hmp.
    apply wpx_bind. eapply wpx_destroy; [exact Hmp|]. intros s1 (Hb1 & Hl1 & Hc1) Hm1.
    apply wpx_put. intros s2 Hm2 Hb2 Hl2 Hc2.
    replace (length l + 1 - 1) with (length l) in * by lia.
    assert (Hea : forall i, i < length l -> eaddr (loc s2) i = eaddr (loc s) i).
    { intros i Hi. rewrite Hl2. rewrite decide_False by lia. done. }
    destruct H as [[S1 S2 S3 S4 S5 S6] Ho]. rewrite app_length in *. simpl in *.
    apply HQ; [intros k Hk; by apply Hea| | |].
    - split.
      + rewrite Hl2. split; simpl; try done.
        * intros E0. by rewrite decide_True.
        * destruct (decide (length l = 0)) as [E0|]; [|unfold Mapsize in *; simpl; lia].
          rewrite Nat.mod_0_l; [unfold Mapsize in *; simpl; lia|]. pose proof (B_pos B HB); lia.
        * destruct S6 as [S6|S6]; [by left|]. right. unfold Mapsize in *; simpl. destruct (decide _); lia.
      + eapply own_ext; [eapply (own_unsnoc B _ _ _ _ _ _ _ (mem s2) Ho Hp)| | | |exact Hea].
        * intros q. rewrite Hm2. apply Hm1.
        * by rewrite Hl2.
        * lia.
        * done.
    - auto.
    - by rewrite Hl2.
  Qed.
  Lemma pop_front_ok s l v (Q : unit -> state -> Prop) (E : state -> Prop) : dholds s (v :: l) ->
    (forall s', same_objects s s' 1 0 (length l) -> dholds s' l -> (calm s -> calm s') -> dmap (loc s') = dmap (loc s) -> Q tt s') ->
    wpx (pop_front B) s Q E.
  Proof.
    intros H HQ. pose proof (dholds_len _ _ H) as Hn. simpl in Hn.
    unfold pop_front. apply wpx_bind, wpx_loc. apply wpx_bind. rewrite Hn.
    replace (doff (loc s)) with (doff (loc s) + 0) at 1 by lia.
    apply (wpx_elem B maxb s (v :: l)); [done|simpl; lia|]. intros p Hp Hmp.
    apply wpx_bind. eapply wpx_destroy; [exact Hmp|]. intros s1 (Hb1 & Hl1 & Hc1) Hm1.
    apply wpx_put. intros s2 Hm2 Hb2 Hl2 Hc2.
    replace (S (length l) - 1) with (length l) in * by lia.
    assert (Hea : forall i, i < length l -> eaddr (loc s2) i = eaddr (loc s) (S i)).
    { intros i Hi. rewrite Hl2. rewrite decide_False by lia. unfold DequeSpec.eaddr. simpl.
      unfold slot. unfold Mapsize. simpl. replace (doff (loc s) + 1 + i) with (doff (loc s) + S i) by lia. done. }
    destruct H as [[S1 S2 S3 S4 S5 S6] Ho]. simpl in *. pose proof (B_pos B HB) as HBp.
    apply HQ; [intros k Hk; by apply Hea| | |].
    - split.
      + rewrite Hl2. split; simpl; try done.
        * intros E0. by rewrite decide_True.
        * destruct (decide (length l = 0)) as [E0|]; unfold Mapsize in *; simpl.
          -- rewrite Nat.mod_0_l; lia.
          -- assert ((doff (loc s) + 1) mod B <= doff (loc s) mod B + 1); [|lia].
             rewrite <-Nat.add_mod_idemp_l by lia. apply Nat.mod_le; lia.
        * destruct S6 as [S6|S6]; [by left|]. right. unfold Mapsize in *; simpl. destruct (decide _); lia.
      + eapply own_ext; [eapply (own_uncons B _ _ _ _ _ _ _ _ (mem s2) Ho Hp)| | | |].
        * exact Hea.
        * intros q. rewrite Hm2. apply Hm1.
        * by rewrite Hl2.
        * lia.
        * done.
        * done.
    - auto.
    - by rewrite Hl2.
  Qed.
End ends.
