(** Growing the map, allocating blocks, pushing and popping at both ends. *)
From stdpp Require Import base list numbers decidable.
From Coq Require Import ZArith Lia.
From Verif Require Import Base.Res Base.Int Cont.ObjMem Cont.ObjMemProofs Cont.DequeModel Cont.DequeSpec Cont.DequeProofs.
Local Open Scope nat_scope.

Lemma blit_lookup {X} (nm src : list X) p i : p + length src <= length nm ->
  (take p nm ++ src ++ drop (p + length src) nm) !! i =
  if decide (p <= i < p + length src) then src !! (i - p) else nm !! i.
Proof.
  intros Hl. destruct (decide (i < p)).
  - rewrite decide_False by lia. rewrite lookup_app_l by (rewrite take_length; lia). by rewrite lookup_take.
  - rewrite lookup_app_r by (rewrite take_length; lia). rewrite take_length_le by lia.
    destruct (decide (i < p + length src)).
    + rewrite decide_True by lia. by rewrite lookup_app_l by lia.
    + rewrite decide_False by lia. rewrite lookup_app_r by lia. rewrite lookup_drop. f_equal. lia.
Qed.
Lemma mapM_id_Some {X} (l : list X) : mapM (M := option) id (Some <$> l : list (option X)) = Some l.
Proof. induction l as [|x l IH]; [done|]. change (Some <$> x :: l) with (Some x :: (Some <$> l)). simpl. rewrite IH. done. Qed.
Lemma ucopy_ok om f l nm p : f <= l <= length om -> p + (l - f) <= length nm ->
  exists nm', ucopy om f l nm p = Ok (nm', p + (l - f)) /\ length nm' = length nm /\
    forall i, nm' !! i = if decide (p <= i < p + (l - f)) then Some <$> om !! (i - p + f) else nm !! i.
Proof.
  intros Hf Hp. unfold ucopy. rewrite !(proj2 (Nat.leb_le _ _)) by lia. cbn [andb].
  set (src := Some <$> take (l - f) (drop f om) : list (option (option nat))).
  assert (Hl : length src = l - f) by (unfold src; rewrite fmap_length, take_length, drop_length; lia).
  eexists. split; [reflexivity|]. split.
  - rewrite !app_length, take_length, drop_length, Hl. lia.
  - intros i. rewrite <-Hl. rewrite (blit_lookup nm src) by lia. destruct (decide (p <= i < p + length src)); [|done].
    unfold src. rewrite list_lookup_fmap, lookup_take, lookup_drop by lia. do 2 f_equal. lia.
Qed.
Lemma uclear_ok nm p n : p + n <= length nm ->
  exists nm', uclear nm p n = Ok nm' /\ length nm' = length nm /\
    forall i, nm' !! i = if decide (p <= i < p + n) then Some (Some None) else nm !! i.
Proof.
  intros Hp. unfold uclear. rewrite !(proj2 (Nat.leb_le _ _)) by lia.
  eexists. split; [reflexivity|]. split.
  - rewrite !app_length, take_length, drop_length, replicate_length. lia.
  - intros i. pose proof (blit_lookup nm (replicate n (Some None)) p i) as E. rewrite replicate_length in E.
    rewrite E by lia. destruct (decide (p <= i < p + n)); [|done]. apply lookup_replicate_2. lia.
Qed.

(** the new map: nulls, then the old map rotated so that the first used block keeps its unmasked index, then nulls *)
Lemma Grow_copy_eq om k Count : k <= length om -> k <= Count ->
  Grow_copy om k (length om + Count) Count =
  Ok (replicate k None ++ drop k om ++ take k om ++ replicate (Count - k) None).
Proof.
  intros Hk HkC. unfold Grow_copy.
  destruct (ucopy_ok om k (length om) (replicate (length om + Count) None) k) as (n1 & -> & L1 & H1); [lia|rewrite replicate_length; lia|].
  rewrite rbind_ok. rewrite replicate_length in L1. cbn iota. rewrite (proj2 (Nat.leb_le _ _)) by lia.
  destruct (ucopy_ok om 0 k n1 (k + (length om - k))) as (n2 & -> & L2 & H2); [lia|lia|]. rewrite rbind_ok. cbn iota.
  destruct (uclear_ok n2 (k + (length om - k) + (k - 0)) (Count - k)) as (n3 & -> & L3 & H3); [lia|]. rewrite rbind_ok.
  destruct (uclear_ok n3 0 k) as (n4 & -> & L4 & H4); [lia|]. rewrite rbind_ok.
  replace n4 with (Some <$> (replicate k None ++ drop k om ++ take k om ++ replicate (Count - k) None) : list (option (option nat))).
  { by rewrite mapM_id_Some. }
  apply list_eq. intros i. rewrite H4, H3, H2, H1, list_lookup_fmap.
  destruct (decide (i < k)).
  { rewrite decide_True by lia. rewrite lookup_app_l by (rewrite replicate_length; lia). by rewrite lookup_replicate_2. }
  rewrite decide_False by lia. rewrite lookup_app_r by (rewrite replicate_length; lia). rewrite replicate_length.
  destruct (decide (i < length om)).
  { rewrite decide_False by lia. rewrite decide_False by lia. rewrite decide_True by lia.
    rewrite lookup_app_l by (rewrite drop_length; lia). rewrite lookup_drop. do 2 f_equal. lia. }
  rewrite lookup_app_r by (rewrite drop_length; lia). rewrite drop_length.
  destruct (decide (i < length om + k)).
  { rewrite decide_False by lia. rewrite decide_True by lia.
    rewrite lookup_app_l by (rewrite take_length; lia). rewrite lookup_take by lia. do 2 f_equal. lia. }
  rewrite lookup_app_r by (rewrite take_length; lia). rewrite take_length.
  destruct (decide (i < length om + Count)).
  { rewrite decide_True by lia. by rewrite lookup_replicate_2 by lia. }
  rewrite decide_False by lia. rewrite decide_False by lia. rewrite decide_False by lia.
  rewrite !lookup_ge_None_2 by (rewrite replicate_length; lia). done.
Qed.
Lemma grown_lookup (om : list (option nat)) k Count i : k <= length om -> k <= i < k + length om ->
  (replicate k None ++ drop k om ++ take k om ++ replicate (Count - k) None) !! i = om !! (i mod length om).
Proof.
  intros Hk Hi. rewrite lookup_app_r by (rewrite replicate_length; lia). rewrite replicate_length.
  destruct (decide (i < length om)).
  - rewrite lookup_app_l by (rewrite drop_length; lia). rewrite lookup_drop. rewrite Nat.mod_small by lia. f_equal. lia.
  - rewrite lookup_app_r by (rewrite drop_length; lia). rewrite drop_length.
    rewrite lookup_app_l by (rewrite take_length; lia). rewrite lookup_take by lia. f_equal.
    symmetry. replace i with (i - length om + 1 * length om) at 1 by lia. rewrite Nat.mod_add by lia. rewrite Nat.mod_small by lia. lia.
Qed.
Lemma omap_replicate_None n : omap id (replicate n (None : option nat)) = [].
Proof. induction n; done. Qed.
Lemma grown_blocks (om : list (option nat)) k Count :
  omap id (replicate k None ++ drop k om ++ take k om ++ replicate (Count - k) None) ≡ₚ omap id om.
Proof.
  rewrite !omap_app, !omap_replicate_None, app_nil_r. cbn [app].
  rewrite (Permutation_app_comm (omap id (drop k om))). rewrite <-omap_app, take_drop. done.
Qed.

Lemma Grow_scale_0 maxb : (8 <= maxb < 2 ^ 63)%Z -> Grow_scale maxb 0 1 = Ok (Some 8).
Proof.
  intros Hm. unfold Grow_scale.
  assert (C : forall n, (Z.of_nat n <= 4)%Z -> (cast u64 (maxb - Z.of_nat n) <? Z.of_nat n)%Z = false).
  { intros n Hn. apply Z.ltb_ge. unfold cast, u64; simpl. rewrite Z.mod_small by lia. lia. }
  change (1 + 8) with 9. cbn [Nat.ltb Nat.leb].
  rewrite loop_S. cbn [Nat.sub Nat.ltb Nat.leb orb Minimum_map_size]. rewrite (C 1) by lia. rewrite rbind_ok. cbn [Nat.mul Nat.add].
  rewrite loop_S. cbn [Nat.sub Nat.ltb Nat.leb orb Minimum_map_size]. rewrite (C 2) by lia. rewrite rbind_ok. cbn [Nat.mul Nat.add].
  rewrite loop_S. cbn [Nat.sub Nat.ltb Nat.leb orb Minimum_map_size]. rewrite (C 4) by lia. rewrite rbind_ok. cbn [Nat.mul Nat.add].
  rewrite loop_S. reflexivity.
Qed.
Lemma Grow_scale_S maxb ms : (8 <= maxb < 2 ^ 63)%Z -> 8 <= ms -> (Z.of_nat ms <= maxb)%Z ->
  Grow_scale maxb ms 1 = Ok (if decide (maxb < 2 * Z.of_nat ms)%Z then None else Some (ms * 2)).
Proof.
  intros Hm H8 Hms. unfold Grow_scale.
  change (1 + 8) with 9. rewrite (proj2 (Nat.ltb_lt 0 ms)) by lia.
  rewrite loop_S. rewrite Nat.sub_diag. change (0 <? 1) with true. cbn [orb].
  assert (C : cast u64 (maxb - Z.of_nat ms) = (maxb - Z.of_nat ms)%Z).
  { unfold cast, u64; simpl. rewrite Z.mod_small by lia. done. }
  rewrite C. destruct (decide (maxb < 2 * Z.of_nat ms)%Z).
  - rewrite (proj2 (Z.ltb_lt _ _)) by lia. done.
  - rewrite (proj2 (Z.ltb_ge _ _)) by lia. rewrite rbind_ok. rewrite loop_S.
    rewrite (proj2 (Nat.ltb_ge _ 1)) by lia. unfold Minimum_map_size. rewrite (proj2 (Nat.ltb_ge _ 8)) by lia. done.
Qed.

Lemma wpx_lift {A L X} (r : res X) (x : X) (s : st A L) (Q : X -> st A L -> Prop) (E : st A L -> Prop) :
  r = Ok x -> Q x s -> wpx (fun s => rbind r (fun x => Ok (s, Some x))) s Q E.
Proof. intros -> H. exact H. Qed.

Section ends.
  Context {A : Type} (T : traits) (B : nat) (maxb : Z).
  Context (HB : exists k, B = 2 ^ k) (Hmax : (8 <= maxb < 2 ^ 63)%Z).
  Notation state := (st A deq).
  Implicit Types (s : state) (l : list (option A)) (d : deq).
  Notation shape := (shape B maxb).
  Notation dholds := (dholds B maxb).

  Lemma B_pos : 0 < B.
  Proof. destruct HB as [k ->]. apply Nat.neq_0_lt_0. apply Nat.pow_nonzero. lia. Qed.
  Lemma ms8 d n : shape d n -> Mapsize d <> 0 -> 8 <= Mapsize d.
  Proof.
    intros [_ [H|(k & -> & Hk)] _ _ _ _] Hm; [done|]. change 8 with (2 ^ 3). apply Nat.pow_le_mono_r; lia.
  Qed.
  Lemma cap_pow d n : shape d n -> Mapsize d <> 0 -> exists k, Mapsize d * B = 2 ^ k.
  Proof.
    intros [_ [H|(k & -> & Hk)] _ _ _ _] Hm; [done|]. destruct HB as [kb ->]. exists (k + kb). by rewrite Nat.pow_add_r.
  Qed.
  Lemma Getblock_mod d n o : shape d n -> Mapsize d <> 0 -> Getblock B d o = (o / B) mod Mapsize d.
  Proof. intros [_ [H|(k & E & Hk)] _ _ _ _] Hm; [done|]. unfold Getblock. rewrite E. apply land_mask. Qed.

  Lemma wpx_addr s n o p (Q : nat -> state -> Prop) (E : state -> Prop) :
    shape (loc s) n -> Mapsize (loc s) <> 0 -> slot B (loc s) o = Some p -> Q p s -> wpx (Address_subscript B o) s Q E.
  Proof.
    intros Hs Hm Ho HQ. unfold Address_subscript. apply wpx_bind, wpx_loc.
    rewrite (Getblock_mod _ n) by done. unfold slot in Ho. destruct (dmap (loc s) !! _) as [[b|]|]; try done.
    injection Ho as <-. by apply wpx_ret.
  Qed.
  (** the address of an element *)
  Lemma wpx_elem s l i (Q : nat -> state -> Prop) (E : state -> Prop) :
    dholds s l -> i < length l -> (forall p, eaddr B (loc s) i = Some p -> mem s p = Obj (cont l i) -> Q p s) ->
    wpx (Address_subscript B (doff (loc s) + i)) s Q E.
  Proof.
    intros [Hs Ho] Hi HQ. destruct (ow_in _ _ _ _ _ _ Ho i Hi) as (b & r & Hb & Hr & Hf).
    eapply wpx_addr; [exact Hs| |exact Hf|].
    - intros E0. pose proof (sh_fit _ _ _ _ Hs). lia.
    - apply HQ; [done|]. by apply (ow_elem _ _ _ _ _ _ Ho).
  Qed.

  (** exceptions: something was scheduled to throw, or the map cannot grow any more *)
  Definition why_throw s (n : nat) : Prop := ~ calm s \/ (Z.of_nat B * maxb < 2 * (Z.of_nat n + Z.of_nat B))%Z.

  Lemma ring_room d n : shape d n -> Mapsize d <= (n + B) / B -> Mapsize d * B <= n + B.
  Proof.
    intros _ H. pose proof B_pos. pose proof (Nat.mul_div_le (n + B) B).
    apply Nat.le_trans with (((n + B) / B) * B); [by apply Nat.mul_le_mono_r|lia].
  Qed.

  Lemma Growmap_ok s l (Q : unit -> state -> Prop) (E : state -> Prop) :
    dholds s l -> Mapsize (loc s) <= (length l + B) / B ->
    (forall s', brk s' = brk s -> (forall q, mem s' q = mem s q) -> (calm s -> calm s') ->
       dholds s' l -> doff (loc s') = doff (loc s) -> same_objects B s s' 0 0 (length l) ->
       0 < Mapsize (loc s') -> length l + B <= Mapsize (loc s') * B -> doff (loc s') mod B + length l < Mapsize (loc s') * B ->
       Q tt s') ->
    (forall s', same s s' -> (forall q, mem s' q = mem s q) -> why_throw s (length l) -> E s') ->
    wpx (Growmap B maxb 1) s Q E.
  Proof.
    intros [Hs Ho] Hms HQ HE. pose proof B_pos as HBp. unfold Growmap. apply wpx_bind, wpx_loc.
    set (d := loc s) in *. pose proof (ring_room d (length l) Hs Hms) as Hroom.
    destruct (decide (Mapsize d = 0)) as [E0|Hne].
    - rewrite E0. apply wpx_bind. eapply wpx_lift; [by apply Grow_scale_0|].
      apply wpx_bind, wpx_tick; [|intros s1 Hs1 Hm1 Hc; apply HE; [done|done|by left]].
      intros s1 (Hb1&Hl1&Hc1) Hm1. apply wpx_bind.
      assert (Hfit := sh_fit _ _ _ _ Hs). rewrite E0 in Hfit. assert (Hl0 : length l = 0) by lia.
      assert (l = []) as -> by (by destruct l). clear Hl0. simpl in *.
      assert (Hoff := sh_off0 _ _ _ _ Hs eq_refl).
      unfold Mapsize in E0. assert (Hd : dmap d = []) by (by destruct (dmap d)).
      rewrite Hoff, Nat.div_0_l by lia. rewrite Hd.
      eapply wpx_lift; [apply (Grow_copy_eq [] 0 8); simpl; lia|]. simpl.
      apply wpx_put. intros s2 Hm2 Hb2 Hl2 Hc2. apply HQ.
      + congruence.
      + intros q. rewrite Hm2. apply Hm1.
      + auto.
      + split; rewrite Hl2.
        * split; simpl; try done.
          -- by apply sh_size in Hs.
          -- right. exists 3. split; [done|lia].
          -- unfold Mapsize; simpl. lia.
          -- rewrite Nat.mod_0_l; lia.
          -- right. lia.
        * eapply own_ext; [exact Ho| | | |].
          -- unfold blocks. rewrite Hd. done.
          -- rewrite Hb2, Hb1. done.
          -- intros q. rewrite Hm2. apply Hm1.
          -- intros i Hi. simpl in Hi. lia.
      + by rewrite Hl2.
      + intros k Hk. lia.
      + rewrite Hl2. unfold Mapsize; simpl. lia.
      + rewrite Hl2. unfold Mapsize; simpl. lia.
      + rewrite Hl2. unfold Mapsize; simpl. rewrite Nat.mod_0_l; lia.
    - pose proof (ms8 _ _ Hs Hne) as H8. pose proof (sh_max _ _ _ _ Hs) as Hmx.
      apply wpx_bind. eapply wpx_lift; [by apply Grow_scale_S|].
      destruct (decide (maxb < 2 * Z.of_nat (Mapsize d))%Z) as [Hlt|Hge].
      { apply wpx_throw, HE; [done|done|right]. nia. }
      apply wpx_bind, wpx_tick; [|intros s1 Hs1 Hm1 Hc; apply HE; [done|done|by left]].
      intros s1 (Hb1&Hl1&Hc1) Hm1. apply wpx_bind.
      assert (Hoff : doff d <= Mapsize d * B).
      { destruct (sh_off _ _ _ _ Hs) as [?|Hof]; [done|]. lia. }
      assert (Hk : doff d / B <= Mapsize d).
      { rewrite Nat.mul_comm in Hoff. by apply Nat.div_le_upper_bound; [lia|]. }
      replace (Mapsize d * 2 - Mapsize d) with (Mapsize d) by lia.
      replace (Mapsize d * 2) with (length (dmap d) + Mapsize d) by (unfold Mapsize; lia).
      eapply wpx_lift; [apply Grow_copy_eq; [exact Hk|exact Hk]|].
      apply wpx_put. intros s2 Hm2 Hb2 Hl2 Hc2.
      set (nm := replicate (doff d / B) None ++ drop (doff d / B) (dmap d) ++ take (doff d / B) (dmap d) ++ replicate (Mapsize d - doff d / B) None) in *.
      assert (Hnm : length nm = Mapsize d * 2).
      { unfold nm. rewrite !app_length, !replicate_length, drop_length, take_length. unfold Mapsize in *. lia. }
      assert (Hf := sh_fit _ _ _ _ Hs). pose proof (Nat.mod_upper_bound (doff d) B).
      assert (Hea : forall i, i < length l -> eaddr B (loc s2) i = eaddr B d i).
      { intros i Hi. rewrite Hl2. unfold eaddr, slot. unfold Mapsize at 1. simpl. rewrite Hnm.
        assert (Hlo : doff d / B <= (doff d + i) / B) by (apply Nat.div_le_mono; lia).
        assert (Hhi : (doff d + i) / B < doff d / B + Mapsize d).
        { apply Nat.div_lt_upper_bound; [lia|]. pose proof (Nat.div_mod (doff d) B). nia. }
        rewrite (Nat.mod_small ((doff d + i) / B)) by lia.
        unfold nm. by rewrite grown_lookup by (unfold Mapsize in *; lia). }
      apply HQ.
      + congruence.
      + intros q. rewrite Hm2. apply Hm1.
      + auto.
      + split.
        * rewrite Hl2. split; simpl; unfold Mapsize; simpl; rewrite ?Hnm.
          -- by apply sh_size in Hs.
          -- right. destruct (sh_ms _ _ _ _ Hs) as [?|(k & Ek & ?)]; [done|]. exists (S k). rewrite Ek. simpl. split; lia.
          -- lia.
          -- apply (sh_off0 _ _ _ _ Hs).
          -- nia.
          -- right. nia.
        * eapply own_ext; [exact Ho| | | |exact Hea].
          -- unfold blocks. rewrite Hl2. simpl. symmetry. apply grown_blocks.
          -- rewrite Hb2, Hb1. done.
          -- intros q. rewrite Hm2. apply Hm1.
      + by rewrite Hl2.
      + intros k Hk'. by apply Hea.
      + rewrite Hl2. unfold Mapsize; simpl. lia.
      + rewrite Hl2. unfold Mapsize; simpl. rewrite Hnm. nia.
      + rewrite Hl2. unfold Mapsize; simpl. rewrite Hnm. nia.
  Qed.
End ends.
