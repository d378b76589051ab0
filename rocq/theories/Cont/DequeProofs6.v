(** deque::shrink_to_fit: unused blocks are freed, the map may be reallocated; contents and references are kept. *)
From stdpp Require Import base list list_numbers numbers decidable.
From Coq Require Import ZArith Lia.
From Verif Require Import Base.Res Base.Int Cont.ObjMem Cont.ObjMemProofs Cont.DequeModel Cont.DequeSpec Cont.DequeProofs
  Cont.DequeProofs2 Cont.DequeProofs3 Cont.DequeProofs4 Cont.DequeProofs5.
Local Open Scope nat_scope.

Lemma grow_pow (U : nat) : forall fuel k, U < fuel + 2 ^ k -> 0 < fuel ->
  exists n, loop fuel (fun n => if n <? U then Ok (inl (n * 2)) else Ok (inr n)) (2 ^ k) = Ok n /\ U <= n /\ exists k', k <= k' /\ n = 2 ^ k'.
Proof.
  induction fuel as [|fuel IH]; intros k H H0; [lia|]. rewrite loop_S.
  destruct (2 ^ k <? U) eqn:E; [apply Nat.ltb_lt in E|apply Nat.ltb_ge in E].
  - rewrite rbind_ok. replace (2 ^ k * 2) with (2 ^ S k) by (rewrite Nat.pow_succ_r'; lia).
    destruct fuel as [|fuel]; [lia|].
    destruct (IH (S k)) as (n & Hn & Hu & k' & Hk & ->); [|lia|].
    + rewrite Nat.pow_succ_r'. pose proof (Nat.pow_nonzero 2 k). lia.
    + exists (2 ^ k'). split; [done|]. split; [done|]. exists k'. split; [lia|done].
  - rewrite rbind_ok. exists (2 ^ k). split; [done|]. split; [done|]. by exists k.
Qed.

Section shrink.
  Context {A : Type} (B : nat) (maxb : Z).
  Context (HB : exists k, B = 2 ^ k) (Hmax : (8 <= maxb < 2 ^ 63)%Z).
  Notation state := (st A deq).
  Implicit Types (s : state) (l : list (option A)) (d : deq).
  Notation shape := (shape B maxb).
  Notation dholds := (dholds B maxb).
  Notation own := (own B).
  Notation eaddr := (eaddr B).
  Notation same_objects := (same_objects B).

  (** the used block numbers (not reduced modulo the map size) *)
  Definition ublk s := doff (loc s) / B.
  Definition uend s l := (doff (loc s) + length l - 1) / B + 1.
  Lemma used_facts s l : dholds s l -> l <> [] -> Mapsize (loc s) <> 0 /\ ublk s < uend s l /\ uend s l <= ublk s + Mapsize (loc s) /\
    (forall i, i < length l -> ublk s <= (doff (loc s) + i) / B < uend s l) /\
    doff (loc s) mod B + length l <= (uend s l - ublk s) * B.
  Proof.
    intros [Hs Ho] Hl. pose proof (B_pos B HB) as HBp. assert (HB0 : B <> 0) by lia.
    assert (0 < length l) by (destruct l; [done|simpl; lia]).
    pose proof (sh_fit _ _ _ _ Hs) as Hf. unfold ublk, uend. set (o := doff (loc s)) in *. set (n := length l) in *.
    set (ms := Mapsize (loc s)) in *.
    assert (Hms : ms <> 0) by (intros E; rewrite E in Hf; lia). split; [done|].
    pose proof (Nat.div_mod o B HB0) as E1. pose proof (Nat.mod_upper_bound o B HB0) as E2.
    assert (Hle : forall a b, a <= b -> a / B <= b / B) by (intros; by apply Nat.div_le_mono).
    split; [pose proof (Hle o (o + n - 1)); lia|]. split; [|split].
    - assert ((o + n - 1) / B < o / B + ms); [|lia]. apply Nat.div_lt_upper_bound; [done|]. rewrite Nat.mul_add_distr_l.
      assert (B * ms = ms * B) by lia. lia.
    - intros i Hi. pose proof (Hle o (o + i)). pose proof (Hle (o + i) (o + n - 1)). lia.
    - pose proof (Nat.div_mod (o + n - 1) B HB0) as E3. pose proof (Nat.mod_upper_bound (o + n - 1) B HB0) as E4.
      pose proof (Hle o (o + n - 1)). set (x := o / B) in *. set (y := (o + n - 1) / B) in *.
      replace (y + 1 - x) with (y - x + 1) by lia. rewrite Nat.mul_add_distr_r, Nat.mul_sub_distr_r, Nat.mul_1_l.
      rewrite (Nat.mul_comm y B), (Nat.mul_comm x B). lia.
  Qed.

  Definition freed s l t s' : Prop :=
    dholds s' l /\ same_objects s s' 0 0 (length l) /\ doff (loc s') = doff (loc s) /\ Mapsize (loc s') = Mapsize (loc s) /\
    dsize (loc s') = dsize (loc s) /\ (calm s -> calm s') /\
    (forall k, k < t -> dmap (loc s') !! ((uend s l + k) mod Mapsize (loc s)) = Some None) /\
    (forall i, i < length l -> dmap (loc s') !! (((doff (loc s) + i) / B) mod Mapsize (loc s)) = dmap (loc s) !! (((doff (loc s) + i) / B) mod Mapsize (loc s))).
  Lemma free_blocks_ok s l : dholds s l -> l <> [] -> forall fuel t s1, ublk s + Mapsize (loc s) - uend s l - t < fuel ->
    t <= ublk s + Mapsize (loc s) - uend s l -> freed s l t s1 ->
    wpx (free_blocks B fuel ((uend s l + t) mod Mapsize (loc s)) (ublk s mod Mapsize (loc s)) (Mapsize (loc s) - 1)) s1
      (fun _ s' => freed s l (ublk s + Mapsize (loc s) - uend s l) s') (fun _ => False).
  Proof.
    intros H Hl. destruct (used_facts s l H Hl) as (Hms & Hu1 & Hu2 & Hui & Hfit). pose proof (B_pos B HB) as HBp.
    assert (Hpow : exists k, Mapsize (loc s) = 2 ^ k).
    { destruct H as [Hs _]. destruct (sh_ms _ _ _ _ Hs) as [|(k & Hk & _)]; [done|by exists k]. }
    set (ms := Mapsize (loc s)) in *. set (a := ublk s) in *. set (b := uend s l) in *.
    assert (Hmask : forall x, Nat.land x (ms - 1) = x mod ms) by (intros x; destruct Hpow as [k Ek]; rewrite Ek; apply land_mask).
    induction fuel as [|fuel IH]; intros t s1 Hf Ht HF; [lia|]. cbn [free_blocks].
    destruct (decide (t = a + ms - b)) as [->|Hne].
    - replace (b + (a + ms - b)) with (a + 1 * ms) by lia. rewrite Nat.mod_add, Nat.eqb_refl by done. by apply wpx_ret.
    - rewrite (proj2 (Nat.eqb_neq _ _)).
      2:{ intros E. replace (b + t) with (a + (b + t - a)) in E by lia.
          replace (a mod ms) with ((a + 0) mod ms) in E by (f_equal; lia). apply mod_window in E; lia. }
      set (i := (b + t) mod ms) in *. assert (Hi : i < ms) by (by apply Nat.mod_upper_bound).
      destruct HF as (H1 & Hso1 & Hof1 & Hms1 & Hsz1 & Hc1 & Hno1 & Hke1). fold ms in Hms1, Hno1, Hke1. fold b in Hno1.
      assert (Hui' : forall j, j < length l -> ((doff (loc s) + j) / B) mod ms <> i).
      { intros j Hj E. specialize (Hui j Hj). unfold i in E.
        replace ((doff (loc s) + j) / B) with (a + ((doff (loc s) + j) / B - a)) in E by lia.
        replace (b + t) with (a + (b + t - a)) in E by lia. apply mod_window in E; lia. }
      assert (Hnext : Nat.land (i + 1) (ms - 1) = (b + S t) mod ms).
      { rewrite Hmask. unfold i. rewrite Nat.add_mod_idemp_l by done. f_equal. lia. }
      apply wpx_bind, wpx_loc. apply wpx_bind. rewrite Hnext.
      assert (Hin : is_Some (dmap (loc s1) !! i)) by (apply lookup_lt_is_Some; change (i < Mapsize (loc s1)); by rewrite Hms1).
      destruct Hin as [x Hx]. rewrite Hx. destruct x as [p|].
      + assert (Helt : forall j q, j < length l -> eaddr (loc s1) j = Some q -> ~ p <= q < p + B).
        { intros j q Hj Hq Hin. destruct H1 as [Hs1 Ho1]. unfold eaddr in Hq. destruct (slot_block B HBp _ _ _ Hq) as (b' & Hb' & -> & Hr & Hlk).
          assert (b' = p) as ->.
          { destruct (decide (b' = p)); [done|]. exfalso.
            assert (Hp : p ∈ blocks (loc s1)) by (apply elem_of_blocks; by eexists).
            destruct (ow_disj _ _ _ _ _ _ Ho1 b' p Hb' Hp); [done|lia|lia]. }
          pose proof (map_inj _ _ _ _ (ow_nodup _ _ _ _ _ _ Ho1) Hlk Hx) as E. rewrite Hof1, Hms1 in E. by apply (Hui' j). }
        assert (Hperm : blocks (loc s1) ≡ₚ p :: omap id (<[i:=None]> (dmap (loc s1)))) by (by apply omap_insert_None).
        destruct H1 as [Hs1 Ho1].
        assert (Ho2 : own (p :: omap id (<[i:=None]> (dmap (loc s1)))) (brk s1) (mem s1) (eaddr (loc s1)) l) by (eapply own_ext; [exact Ho1|exact Hperm|done|done|done]).
        apply wpx_bind, wpx_dealloc.
        * intros q Hq. replace q with (p + (q - p)) by lia. apply (ow_raw _ _ _ _ _ _ Ho2); [left|lia|].
          intros j Hj E. apply (Helt j _ Hj E). lia.
        * intros s2 (Hb2 & Hl2 & Hc2) Hm2. apply wpx_put. intros s3 Hm3 Hb3 Hl3 Hc3.
          assert (Ho3 : own (omap id (<[i:=None]> (dmap (loc s1)))) (brk s1) (mem s2) (eaddr (loc s1)) l) by (eapply own_dealloc; [exact Ho2|exact Helt|exact Hm2]).
          assert (Hms3 : Mapsize (loc s3) = ms) by (rewrite Hl3; unfold Mapsize in *; simpl; rewrite insert_length; done).
          assert (Hlk3 : forall j, j <> i -> dmap (loc s3) !! j = dmap (loc s1) !! j).
          { intros j Hj. rewrite Hl3. simpl. by rewrite list_lookup_insert_ne. }
          assert (Hso3 : same_objects s1 s3 0 0 (length l)).
          { intros j Hj. unfold DequeSpec.eaddr, slot. rewrite Hms3, Hms1.
            assert (Hof3 : doff (loc s3) = doff (loc s)) by (by rewrite Hl3). rewrite Hof3, Hof1, !Nat.add_0_l.
            rewrite Hlk3; [done|by apply Hui']. }
          apply IH; [lia|lia|]. split; [split|].
          -- destruct Hs1 as [X1 X2 X3 X4 X5 X6]. rewrite Hms1 in *.
             split; rewrite ?Hms3; [by rewrite Hl3|done|done|by rewrite Hl3|by rewrite Hl3|by rewrite Hl3].
          -- eapply own_ext; [exact Ho3|by rewrite Hl3|lia|by intros; rewrite Hm3|].
             intros j Hj. apply (Hso3 j Hj).
          -- split; [eapply so_comp; [exact Hso1|exact Hso3]|]. rewrite Hms3. split; [rewrite Hl3; done|]. split; [done|]. split; [by rewrite Hl3|].
             split; [auto|]. split.
             ++ fold ms b. intros k Hk. destruct (decide ((b + k) mod ms = i)) as [->|].
                ** rewrite Hl3. simpl. apply list_lookup_insert. change (i < Mapsize (loc s1)). by rewrite Hms1.
                ** rewrite Hlk3 by done. apply Hno1. destruct (decide (k = t)) as [->|]; [done|lia].
             ++ fold ms. intros j Hj. rewrite Hlk3 by (by apply Hui'). by apply Hke1.
      + apply wpx_ret. apply IH; [lia|lia|]. split; [done|]. split; [done|]. split; [done|]. split; [done|]. split; [done|]. split; [done|].
        split; [|done]. fold ms b. intros k Hk. destruct (decide (k = t)) as [->|]; [done|]. apply Hno1. lia.
  Qed.

  Lemma shrink_to_fit_ok s l : dholds s l ->
    wpx (shrink_to_fit B) s (fun _ s' => dholds s' l /\ (calm s -> calm s') /\ same_objects s s' 0 0 (length l) /\
         (forall b, b ∈ blocks (loc s') -> exists i p, i < length l /\ eaddr (loc s') i = Some p /\ b <= p < b + B))
      (fun s' => ~ calm s /\ dholds s' l /\ same_objects s s' 0 0 (length l)).
  Proof.
    intros H. unfold shrink_to_fit. apply wpx_bind, wpx_loc. rewrite (dholds_len _ _ _ _ H).
    pose proof (B_pos B HB) as HBp. assert (HB0 : B <> 0) by lia.
    destruct (length l =? 0) eqn:E0.
    { apply Nat.eqb_eq, nil_length_inv in E0. subst l. unfold mwhen.
      assert (Hnb : forall s', dmap (loc s') = [] -> forall b, b ∈ blocks (loc s') -> exists i p, i < length (A := option A) [] /\ eaddr (loc s') i = Some p /\ b <= p < b + B).
      { intros s' Hd b Hb. unfold blocks in Hb. rewrite Hd in Hb. by apply elem_of_nil in Hb. }
      destruct (Mapsize (loc s) =? 0) eqn:Em; simpl.
      - apply Nat.eqb_eq in Em. destruct (empty_unalloc _ _ s H Em) as [Hd _]. apply wpx_ret. split; [done|]. split; [done|]. split; [apply so_refl|by apply Hnb].
      - apply (Reset_map_ok B maxb HB Hmax s); [done|]. intros s' H' Hc Hd _ _. split; [done|]. split; [done|]. split; [intros k Hk; simpl in Hk; lia|by apply Hnb]. }
    apply Nat.eqb_neq in E0. assert (Hl : l <> []) by (by intros ->).
    destruct (used_facts s l H Hl) as (Hms & Hu1 & Hu2 & Hui & Hfit).
    assert (Hpow : exists k, Mapsize (loc s) = 2 ^ k).
    { destruct H as [Hs _]. destruct (sh_ms _ _ _ _ Hs) as [|(k & Hk & _)]; [done|by exists k]. }
    change (doff (loc s) / B) with (ublk s). change ((doff (loc s) + length l - 1) / B + 1) with (uend s l).
    assert (Hmask : forall x, Nat.land x (Mapsize (loc s) - 1) = x mod Mapsize (loc s)) by (intros x; destruct Hpow as [k Ek]; rewrite Ek; apply land_mask).
    rewrite !Hmask. apply wpx_bind.
    rewrite <-(Nat.add_0_r (uend s l)) at 1.
    eapply wpx_mono; [apply (free_blocks_ok s l H Hl _ 0 s); [lia|lia|]| |].
    { split; [done|]. split; [apply so_refl|]. repeat (split; [done|]). split; [intros; lia|done]. }
    2:{ done. }
    intros [] s1 (H1 & Hso1 & Hof1 & Hms1 & Hsz1 & Hc1 & Hno1 & Hke1).
    set (ms := Mapsize (loc s)) in *. set (a := ublk s) in *. set (b := uend s l) in *.
    set (U := b - a) in *.
    destruct (grow_pow U (U + 1) 3) as (N & HN & HUN & k & Hk & EN); [simpl; lia|lia|].
    apply wpx_bind. eapply wpx_lift; [exact HN|].
    (* every remaining block holds an element *)
    assert (Hused : forall j p, dmap (loc s1) !! j = Some (Some p) -> exists i, i < length l /\ ((doff (loc s) + i) / B) mod ms = j).
    { intros j p Hj. assert (Hjm : j < ms) by (apply lookup_lt_Some in Hj; unfold Mapsize in Hms1; lia).
      assert (exists c, c < ms /\ (a + c) mod ms = j) as (c & Hc & Hcj).
      { pose proof (Nat.mod_upper_bound a ms Hms). pose proof (Nat.div_mod a ms Hms) as Ea.
        destruct (decide (a mod ms <= j)).
        - exists (j - a mod ms). split; [lia|]. replace (a + (j - a mod ms)) with (j + (a / ms) * ms) by lia.
          rewrite Nat.mod_add by done. by apply Nat.mod_small.
        - exists (j + ms - a mod ms). split; [lia|]. replace (a + (j + ms - a mod ms)) with (j + (a / ms + 1) * ms) by lia.
          rewrite Nat.mod_add by done. by apply Nat.mod_small. }
      destruct (decide (c < U)) as [HcU|].
      - unfold U in HcU. set (o := doff (loc s)) in *.
        exists (if decide (c = 0) then 0 else (a + c) * B - o).
        pose proof (Nat.div_mod o B HB0) as Eo. change (o / B) with a in Eo. pose proof (Nat.mod_upper_bound o B HB0) as Er.
        assert (Hbd : (b - 1) * B <= o + length l - 1).
        { unfold b, uend. fold o. rewrite Nat.add_sub, Nat.mul_comm. by apply Nat.mul_div_le. }
        destruct (decide (c = 0)) as [->|].
        + split; [lia|]. rewrite Nat.add_0_r in *. done.
        + assert (Hac : (a + c) * B <= (b - 1) * B) by (apply Nat.mul_le_mono_r; lia).
          assert (Hlo : o < (a + c) * B) by nia.
          split; [lia|]. replace (o + ((a + c) * B - o)) with ((a + c) * B) by lia. by rewrite Nat.div_mul.
      - exfalso. assert (dmap (loc s1) !! ((b + (c - U)) mod ms) = Some None) as E by (apply Hno1; lia).
        replace (b + (c - U)) with (a + c) in E by lia. rewrite Hcj in E. congruence. }
    assert (Hblk1 : forall p, p ∈ blocks (loc s1) -> exists i q, i < length l /\ eaddr (loc s1) i = Some q /\ p <= q < p + B).
    { intros p Hp. apply elem_of_blocks in Hp as (j & Hj). destruct (Hused j p Hj) as (i & Hi & Hij).
      exists i, (p + (doff (loc s) + i) mod B). split; [done|]. split.
      - unfold DequeSpec.eaddr, slot. rewrite Hof1, Hms1, Hij, Hj. done.
      - pose proof (Nat.mod_upper_bound (doff (loc s) + i) B HB0). lia. }
    destruct (ms <=? N) eqn:ENm; [apply wpx_ret; done|]. apply Nat.leb_gt in ENm.
    apply wpx_bind, wpx_tick; [|intros s2 (Hb2 & Hl2 & Hc2) Hm2 Hc; split; [auto|]; split; [eapply dholds_same; [exact H1|done|lia|done]|];
      intros i Hi; rewrite Hl2; by apply Hso1].
    intros s2 (Hb2 & Hl2 & Hc2) Hm2. apply wpx_bind, wpx_loc. rewrite Hl2.
    set (used := (fun k => default None (dmap (loc s1) !! ((a + k) mod ms))) <$> seq 0 U).
    assert (Hmap : mapM (M := option) (fun b0 => dmap (loc s1) !! Nat.land (a mod ms + b0) (ms - 1)) (seq 0 U) = Some used).
    { apply mapM_Some_2. unfold used. apply Forall2_fmap_r. apply Forall_Forall2_diag. apply list.Forall_forall. intros x _.
      rewrite Hmask. rewrite Nat.add_mod_idemp_l by done.
      assert (is_Some (dmap (loc s1) !! ((a + x) mod ms))) as [y Hy].
      { apply lookup_lt_is_Some. unfold Mapsize in Hms1. rewrite Hms1. by apply Nat.mod_upper_bound. }
      simpl. rewrite Hy. done. }
    rewrite Hmap. apply wpx_put. intros s3 Hm3 Hb3 Hl3 Hc3.
    assert (Hul : length used = U) by (unfold used; rewrite fmap_length, seq_length; done).
    assert (Hms3 : Mapsize (loc s3) = N).
    { rewrite Hl3. unfold Mapsize. cbn [dmap]. rewrite app_length, replicate_length, Hul. lia. }
    assert (Hulk : forall c, c < U -> used !! c = Some (default None (dmap (loc s1) !! ((a + c) mod ms)))).
    { intros c Hc. unfold used. rewrite list_lookup_fmap, lookup_seq_lt by done. done. }
    (* the blocks are the same *)
    assert (Hperm : blocks (loc s1) ≡ₚ blocks (loc s3)).
    { set (r := a mod ms). assert (Hr : r < ms) by (by apply Nat.mod_upper_bound).
      assert (Hrot : drop r (dmap (loc s1)) ++ take r (dmap (loc s1)) = used ++ replicate (ms - U) None).
      { assert (Hlen : length (dmap (loc s1)) = ms) by exact Hms1.
        apply list_eq_same_length with (n := ms).
        - rewrite app_length, replicate_length, Hul. lia.
        - rewrite app_length, drop_length, take_length. lia.
        - intros i x y Hi Hx Hy.
          assert (Hx' : dmap (loc s1) !! ((a + i) mod ms) = Some x).
          { assert (Hai : (a + i) mod ms = if decide (r + i < ms) then r + i else r + i - ms).
            { rewrite <-(Nat.add_mod_idemp_l a i ms) by done. change (a mod ms) with r. destruct (decide (r + i < ms)).
              - by apply Nat.mod_small.
              - replace (r + i) with (r + i - ms + 1 * ms) at 1 by lia. rewrite Nat.mod_add by done. apply Nat.mod_small. lia. }
            rewrite Hai. destruct (decide (r + i < ms)).
            - rewrite lookup_app_l in Hx by (rewrite drop_length; lia). by rewrite lookup_drop in Hx.
            - rewrite lookup_app_r in Hx by (rewrite drop_length; lia). rewrite drop_length, lookup_take in Hx by lia.
              rewrite <-Hx. f_equal. lia. }
          destruct (decide (i < U)).
          + rewrite lookup_app_l, Hulk, Hx' in Hy by lia. simpl in Hy. congruence.
          + rewrite lookup_app_r, lookup_replicate_2 in Hy by lia. injection Hy as <-.
            specialize (Hno1 (i - U) ltac:(lia)). replace (b + (i - U)) with (a + i) in Hno1 by lia. congruence. }
      unfold blocks. rewrite Hl3. cbn [dmap]. rewrite <-(take_drop r (dmap (loc s1))) at 1. rewrite Permutation_app_comm, Hrot.
      rewrite !omap_app. apply Permutation_app; [done|].
      assert (Hnil : forall n, omap id (replicate n (None : option nat)) = []) by (induction n; done).
      rewrite !Hnil. done. }
    assert (Hso3 : same_objects s1 s3 0 0 (length l)).
    { intros i Hi. unfold DequeSpec.eaddr, slot. rewrite Hms3, Hms1.
      assert (Hof3 : doff (loc s3) = doff (loc s) mod B) by (rewrite Hl3; cbn [doff]; by rewrite Hof1).
      rewrite Hof3, Hof1, !Nat.add_0_l, Hl3. cbn [dmap].
      set (o := doff (loc s)) in *.
      assert (Ediv : (o + i) / B = a + (o mod B + i) / B).
      { rewrite (Nat.div_mod o B HB0) at 1. change (o / B) with a. replace (B * a + o mod B + i) with (a * B + (o mod B + i)) by lia.
        by rewrite Nat.div_add_l. }
      assert (Emod : (o mod B + i) mod B = (o + i) mod B) by (by rewrite Nat.add_mod_idemp_l).
      assert (Hlt : (o mod B + i) / B < U).
      { specialize (Hui i Hi). fold o in Hui. lia. }
      rewrite Emod, Ediv. rewrite (Nat.mod_small ((o mod B + i) / B)) by lia.
      rewrite lookup_app_l by lia. rewrite Hulk by done.
      assert (is_Some (dmap (loc s1) !! ((a + (o mod B + i) / B) mod ms))) as [y Hy].
      { apply lookup_lt_is_Some. unfold Mapsize in Hms1. rewrite Hms1. by apply Nat.mod_upper_bound. }
      rewrite Hy. done. }
    assert (H3 : dholds s3 l).
    { destruct H1 as [Hs1 Ho1]. split.
      - destruct Hs1 as [X1 X2 X3 X4 X5 X6]. rewrite Hms1 in *.
        assert (Hd3 : doff (loc s3) = doff (loc s) mod B) by (rewrite Hl3; cbn [doff]; by rewrite Hof1).
        pose proof (Nat.mod_upper_bound (doff (loc s)) B HB0).
        assert (U * B <= N * B) by (apply Nat.mul_le_mono_r; lia). assert (1 * B <= N * B) by (apply Nat.mul_le_mono_r; lia).
        split; rewrite ?Hms3, ?Hd3.
        + rewrite Hl3. done.
        + right. exists k. done.
        + lia.
        + done.
        + rewrite Nat.mod_mod by done. lia.
        + right. lia.
      - eapply own_ext; [exact Ho1|exact Hperm|lia| |].
        + intros q. by rewrite Hm3, Hm2.
        + intros i Hi. apply (Hso3 i Hi). }
    split; [done|]. split; [auto|]. split; [eapply so_comp; [exact Hso1|exact Hso3]|].
    intros p Hp. rewrite <-Hperm in Hp. destruct (Hblk1 p Hp) as (i & q & Hi & Hq & Hin). exists i, q. split; [done|]. split; [|done].
    rewrite <-Hq. apply (Hso3 i Hi).
  Qed.
End shrink.
