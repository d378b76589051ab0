(** basic_string: insert and replace with a source that may be part of the string itself. *)
From stdpp Require Import base list numbers gmap.
From Coq Require Import Lia.
From Verif Require Import Text.StringModel Text.StringSpec Text.StringProofs Text.StringProofs2 Text.StringProofs3.
Local Open Scope nat_scope.

Ltac dd := repeat match goal with |- context [decide ?P] => destruct (decide P); try (exfalso; lia) end.

Section pure.
  Context {E : Type} (nul : E).
  Implicit Types d c : list (option E).
  Implicit Types l m L : list E.
  Lemma splice_any d o c n j : length c = n -> o + n <= length d -> splice d o c !! j = if decide (o <= j < o + n) then c !! (j - o) else d !! j.
  Proof. intros <- H. by apply lookup_splice. Qed.
  Lemma splice_cells d c o k n j : o + n <= length d -> k + n <= length c -> splice d o (cells c k n) !! j = if decide (o <= j < o + n) then c !! (k + (j - o)) else d !! j.
  Proof. intros H1 H2. rewrite (splice_any _ _ _ n) by (by rewrite ?cells_length). destruct (decide _); [|done]. rewrite lookup_cells. by rewrite decide_True by lia. Qed.
  (** [L] is [l] with [n] characters from [off] on replaced by [m] *)
  Definition is_replaced l off n m L : Prop := length L = length l - n + length m /\ forall j, j < length l - n + length m -> L !! j = if decide (j < off) then l !! j else if decide (j < off + length m) then m !! (j - off) else l !! (j + n - length m).
  Lemma replace_self d l m off n k sh L : is_replaced l off n m L -> holds d 0 l -> d !! length l = Some (Some nul) -> off + n <= length l -> n < length m ->
    length l - n + length m < length d -> k + length m <= length l + 1 -> holds d k m ->
    (sh = length m /\ k + sh <= off) \/ (sh = 0 /\ off + n <= k) \/ (k + sh = off + n /\ sh <= length m) ->
    let d1 := splice d (off + n + (length m - n)) (cells d (off + n) (length l - n - off + 1)) in
    let d2 := splice d1 off (cells d1 k sh) in
    let d3 := splice d2 (off + sh) (cells d2 (k + (length m - n + sh)) (length m - sh)) in
    result nul d3 L.
  Proof.
    intros [HL HR] Hhold Hnul Hoff Hgr Hcap Hk Hh Hsh d1 d2 d3.
    assert (A1 : forall j, d1 !! j = if decide (off + length m <= j < length l + length m - n + 1) then d !! (j + n - length m) else d !! j).
    { intros j. unfold d1. rewrite splice_cells by lia. dd; [f_equal; lia|done]. }
    assert (Hd1 : length d1 = length d) by (unfold d1; rewrite splice_length; rewrite ?cells_length; lia). clearbody d1.
    assert (A2 : forall j, d2 !! j = if decide (off <= j < off + sh) then d1 !! (k + (j - off)) else d1 !! j).
    { intros j. unfold d2. rewrite splice_cells by lia. done. }
    assert (Hd2 : length d2 = length d) by (unfold d2; rewrite splice_length; rewrite ?cells_length; lia). clearbody d2.
    assert (A3 : forall j, d3 !! j = if decide (off + sh <= j < off + length m) then d2 !! (k + (length m - n) + j - off) else d2 !! j).
    { intros j. unfold d3. rewrite splice_cells by lia. dd; [f_equal; lia|done]. }
    clearbody d3. unfold result. rewrite HL. split.
    - intros j. rewrite HL. intros Hj. rewrite HR by done. cbn [Nat.add]. rewrite A3. destruct Hsh as [Hsh|[Hsh|Hsh]]; dd; rewrite A2; dd; rewrite A1; dd; fin.
    - rewrite A3; dd; rewrite A2; dd; rewrite A1; dd; fin.
  Qed.
  Lemma replace_other d c l m off n L : is_replaced l off n m L -> holds d 0 l -> d !! length l = Some (Some nul) -> length l < length d -> off + n <= length l ->
    length l - n + length m < length d -> holds c 0 m -> length c = length m ->
    result nul (splice (splice d (off + length m) (cells d (off + n) (length l - n - off + 1))) off c) L.
  Proof.
    intros [HL HR] Hhold Hnul Hld Hoff Hcap Hh Hc.
    assert (A : forall j, splice (splice d (off + length m) (cells d (off + n) (length l - n - off + 1))) off c !! j =
      if decide (off <= j < off + length m) then c !! (j - off) else if decide (off + length m <= j < length l + length m - n + 1) then d !! (j + n - length m) else d !! j).
    { intros j. rewrite (splice_any _ _ _ (length m)) by (rewrite ?splice_length; rewrite ?cells_length; lia). destruct (decide _); [done|]. rewrite splice_cells by lia. dd; [f_equal; lia|done]. }
    unfold result. rewrite HL. split.
    - intros j. rewrite HL. intros Hj. rewrite HR by done. cbn [Nat.add]. rewrite A. dd; fin.
    - rewrite A; dd; fin.
  Qed.
  Lemma replace_new d dn c l m off n L : is_replaced l off n m L -> holds d 0 l -> d !! length l = Some (Some nul) -> length l < length d -> off + n <= length l ->
    length l - n + length m < length dn -> holds c 0 m -> length c = length m ->
    result nul (splice (splice (splice dn 0 (cells d 0 off)) off c) (off + length m) (cells d (off + n) (length l - n - off + 1))) L.
  Proof.
    intros [HL HR] Hhold Hnul Hld Hoff Hcap Hh Hc.
    set (e1 := splice dn 0 (cells d 0 off)). assert (He1 : length e1 = length dn) by (unfold e1; rewrite splice_length; rewrite ?cells_length; lia).
    assert (A1 : forall j, e1 !! j = if decide (j < off) then d !! j else dn !! j).
    { intros j. unfold e1. rewrite splice_cells by lia. dd; [f_equal; lia|done]. }
    set (e2 := splice e1 off c). assert (He2 : length e2 = length dn) by (unfold e2; rewrite splice_length; lia).
    assert (A2 : forall j, e2 !! j = if decide (off <= j < off + length m) then c !! (j - off) else e1 !! j).
    { intros j. unfold e2. rewrite (splice_any _ _ _ (length m)) by lia. done. }
    clearbody e1 e2. unfold result. rewrite HL. split.
    - intros j. rewrite HL. intros Hj. rewrite HR by done. cbn [Nat.add]. rewrite splice_cells by lia. dd; try rewrite A2; dd; try rewrite A1; dd; fin.
    - rewrite splice_cells by lia. dd; fin.
  Qed.
  Lemma replace_shrink d c l m off n L : is_replaced l off n m L -> holds d 0 l -> d !! length l = Some (Some nul) -> length l < length d -> off + n <= length l ->
    length m < n -> holds c 0 m -> length c = length m ->
    let d1 := splice d off c in result nul (splice d1 (off + length m) (cells d1 (off + n) (length l - n - off + 1))) L.
  Proof.
    intros [HL HR] Hhold Hnul Hld Hoff Hcap Hh Hc d1.
    assert (A1 : forall j, d1 !! j = if decide (off <= j < off + length m) then c !! (j - off) else d !! j).
    { intros j. unfold d1. rewrite (splice_any _ _ _ (length m)) by lia. done. }
    assert (Hd1 : length d1 = length d) by (unfold d1; rewrite splice_length; lia). clearbody d1. unfold result. rewrite HL. split.
    - intros j. rewrite HL. intros Hj. rewrite HR by done. cbn [Nat.add]. rewrite splice_cells by lia. dd; rewrite A1; dd; fin.
    - rewrite splice_cells by lia. dd; rewrite A1; dd; fin.
  Qed.
  Lemma replaced_is l off nx n m : off <= length l -> n = nx `min` (length l - off) -> is_replaced l off n m (replaced l off nx m).
  Proof.
    intros Hoff Hn. split; [unfold replaced; rewrite !app_length, take_length, drop_length; lia|].
    intros j Hj. unfold replaced. rewrite lookup_app', take_length, lookup_app', lookup_drop, lookup_take'. replace (off `min` length l) with off by lia.
    destruct (decide (j < off)); [done|]. destruct (decide (j - off < length m)); [rewrite decide_True by lia; done|]. rewrite decide_False by lia. f_equal. lia.
  Qed.
End pure.

Section ops.
  Context {E : Type} (nul : E) (SSO msk mx smax : nat).
  Notation ST := (@ST E). Notation M := (@M E). Notation region := (@region E).
  Context (orc : gmap nat region -> nat -> option (nat * Z * nat)).
  Context (HA : allocator_ok mx orc) (Hsm : 2 * mx + 2 <= smax) (HSSO : SSO <= mx).
  Implicit Types s : ST.
  Implicit Types d c : list (option E).
  Implicit Types l m : list E.
  Notation shape := (shape SSO mx). Notation rep := (rep nul SSO mx). Notation effect := (effect nul SSO mx orc).
  Notation eff_grow_by := (eff_grow_by nul SSO msk mx smax orc HA Hsm HSSO).
  Notation eff_ok_inplace := (eff_ok_inplace nul SSO mx smax orc Hsm HSSO).

  (** where the source is, relative to the string *)
  Lemma source_where s this d bs hp p m : wfm s -> shape s this d -> smem s (cur this (sstr s this)) = Some (Region bs hp d) -> source s this p m -> m <> [] ->
    (fst p = cur this (sstr s this) /\ snd p + length m <= ssz (sstr s this) + 1 /\ holds d (snd p) m) \/
    (fst p <> cur this (sstr s this) /\ exists g, smem s (fst p) = Some g /\ snd p + length m <= length (rdata g) /\ holds (rdata g) (snd p) m /\
       disjoint_ranges (rbase g) (length (rdata g)) bs (length d)).
  Proof.
    intros Hw Hsh HD ([->|(g & Hg & Hh)] & Hal) Hm; [done|]. destruct (decide (fst p = cur this (sstr s this))) as [Ep|Ep]; [left|right].
    - split; [done|]. split; [by apply Hal|]. rewrite Ep, HD in Hg. by injection Hg as <-.
    - split; [done|]. exists g. split; [done|]. split; [by apply holds_bound|]. split; [done|]. apply (Hw _ _ _ _ Ep Hg HD).
  Qed.
  Theorem insert_ok s this l off p m : wfm s -> rep s this l -> source s this p m ->
    effect this s (off <= length l) (inserted l off m) (insert SSO msk mx smax orc this off p (length m) s).
  Proof.
    intros Hw Hrep Hsrc. start Hrep. apply eff_wp. unfold insert, Check_offset. step. apply wp_bind. eapply own_get; [exact O0|]. apply wp_if; intros Hoff.
    { apply wp_throw. split; [done|]. lia. }
    apply wp_ret. assert (HL : length (inserted l off m) = length l + length m) by (unfold inserted; len).
    step. eapply own_get; [exact O0|]. step. apply wp_usub; [lia|]. apply wp_if; intros Hc.
    - step. apply wp_uadd; [lia|]. step. eapply own_set_size; [exact O0|]. intros s1 O1. step. eapply own_Myptr; [exact O1|done|done|]. cbn [ssz sres sblk] in *.
      step. eapply own_addr; [exact O1|]. intros a Ha1 Ha2. step. eapply own_addr; [exact O1|]. intros i Hi _. specialize (Hi eq_refl). cbn [fst snd] in Hi.
      step. eapply own_addr; [exact O1|]. intros o Ho _. specialize (Ho eq_refl). cbn [fst snd] in Ho.
      set (sh := if decide _ then _ else _). 
      step. apply wp_usub; [lia|]. step. apply wp_uadd; [lia|]. step. eapply own_move; [exact O1|apply src_self|lia|]; [lia|]. intros s2 O2. simp.
      set (d1 := splice d _ _) in *. assert (Hd1 : length d1 = length d) by (unfold d1; len).
      assert (Hfinish : forall s3 d2, owning s this (cur this (sstr s this)) bs hp s3 (StrVal (ssz (sstr s this) + length m) (sres (sstr s this)) (sblk (sstr s this))) d2 ->
                length d2 = length d -> result nul d2 (inserted l off m) -> effect this s (off <= length l) (inserted l off m) (Ok tt s3)).
      { intros s3 d2 O3 Hl Hres. eapply (eff_ok_inplace _ _ this d); [done|done|lia|exact HD|rewrite HL, Hlen; exact O3|lia|done|done]. }
      destruct (decide (m = [])) as [->|Hm].
      + assert (Hsh0 : sh = 0) by (unfold sh; cbn [length]; destruct (decide _); [done|]; destruct (decide _); [done|]; cbn [length] in *; lia). rewrite Hsh0. cbn [length] in *.
        step. eapply own_copy; [exact O2|apply src_nil|lia|by left|]. intros s3 O3. step. apply wp_usub; [lia|]. simp.
        eapply own_copy; [exact O3|apply src_nil|rewrite splice_nil; lia|by left|]. intros s4 O4. rewrite !splice_nil in O4. eapply Hfinish; [exact O4|done|].
        unfold result. rewrite HL. split; [intros j; rewrite HL; intros Hj|]; unfold inserted, d1; lk; fin.
      + destruct (source_where s this d bs hp p m Hw Hsh HD Hsrc Hm) as [(Hp & Hk & Hh)|(Hp & g & Hg & Hb & Hh & Hdj)].
        * specialize (Ha1 Hp). destruct p as [D k]. cbn [fst snd] in *. subst D.
          assert (Hm1 : 0 < length m) by (destruct m; [done|cbn; lia]).
          assert (Hshk : (sh = length m /\ k + sh <= off) \/ (sh = 0 /\ off <= k) \/ (k + sh = off /\ sh < length m)) by (unfold sh; destruct (decide _); [left; lia|right]; destruct (decide _); lia). clearbody sh.
          step. eapply own_copy; [exact O2|apply (src_self s _ d1 k sh); lia|lia|intros _; cbn [fst snd]; lia|]. intros s3 O3. step. apply wp_usub; [lia|]. simp.
          eapply own_copy; [exact O3|apply src_self; len|len|intros _; cbn [snd]; lia|]. intros s4 O4. eapply Hfinish; [exact O4|len|].
          unfold result. rewrite HL. split; [intros j; rewrite HL; intros Hj|]; unfold inserted, d1; lk; fin.
        * specialize (Ha2 g Hp Hg). assert (Hsh0 : sh = length m) by (unfold sh, disjoint_ranges in *; destruct (decide _); [done|]; lia). rewrite Hsh0.
          step. eapply (own_copy _ _ _ _ _ _ _ _ _ _ _ (cells (rdata g) (snd p) (length m))); [exact O2| |lia|done|].
          { split; [by apply cells_length|]. right. right. split; [done|]. exists g. done. }
          intros s3 O3. step. apply wp_usub; [lia|]. simp. replace (length m - length m) with 0 by lia.
          eapply own_copy; [exact O3|apply src_nil|len|by left|]. intros s4 O4. rewrite splice_nil in O4. eapply Hfinish; [exact O4|len|].
          unfold result. rewrite HL. split; [intros j; rewrite HL; intros Hj|]; unfold inserted, d1; lk; fin.
    - eapply eff_grow_by; [done|exact Hsh|lia|lia|lia|]. rewrite HL. intros b bs' cap s1 Hb Hcap O1.
      step. eapply own_copy; [exact O1|eapply src_old; [done|exact HD|]| | |]; [lia|len|cbn; congruence|]. intros s2 O2.
      destruct (src_new s b (splice (replicate (cap + 1) None) 0 (cells d 0 off)) p m Hb (proj1 Hsrc)) as (c & Hc1 & Hc2). pose proof (proj1 Hc1) as Hc3.
      step. eapply own_copy; [exact O2|exact Hc1|len|intros; eapply new_no_overlap; [exact Hb|exact (proj1 Hsrc)|done|done]|]. intros s3 O3. step. apply wp_usub; [lia|]. step. apply wp_uadd; [lia|]. simp.
      eapply own_copy; [exact O3|eapply src_old; [done|exact HD|]| | |]; [lia|len|cbn; congruence|]. intros s4 O4.
      eexists. split; [exact O4|]. split; [len|]. unfold result. rewrite HL. split; [intros i; rewrite HL; intros Hi|]; unfold inserted; lk; fin.
  Qed.

  Theorem replace_ok s this l off nx p m : wfm s -> rep s this l -> source s this p m ->
    (let n := nx `min` (length l - off) in fst p = fst (data s this) -> length (replaced l off nx m) <= capacity s this ->
       length m <= n \/ snd p + length m <= off \/ off + n <= snd p + length m) ->
    effect this s (off <= length l) (replaced l off nx m) (replace SSO msk mx smax orc this off nx p (length m) s).
  Proof.
    intros Hw Hrep Hsrc Hsafe. cbv zeta in Hsafe. start Hrep. apply eff_wp. unfold replace, Check_offset, Clamp_suffix_size. step. apply wp_bind. eapply own_get; [exact O0|]. apply wp_if; intros Hoff.
    { apply wp_throw. split; [done|]. lia. }
    apply wp_ret. step. apply wp_bind. eapply own_get; [exact O0|]. step. apply wp_usub; [lia|]. apply wp_ret.
    pose proof (replaced_is l off nx _ m ltac:(lia) eq_refl) as HRR. rewrite Hlen in Hsafe, HRR. set (n := nx `min` (ssz (sstr s this) - off)) in *.
    assert (Hn : off + n <= length l) by lia. pose proof (proj1 HRR) as HL.
    unfold capacity, data in Hsafe. cbn [fst] in Hsafe. rewrite HL in Hsafe. set (L := replaced l off nx m) in *. clearbody L n.
    assert (Hfinish : forall s3 k d2, k = length l - n + length m -> owning s this (cur this (sstr s this)) bs hp s3 (StrVal k (sres (sstr s this)) (sblk (sstr s this))) d2 ->
                length d2 = length d -> k <= sres (sstr s this) -> result nul d2 L -> effect this s (off <= length l) L (Ok tt s3)).
    { intros s3 k d2 -> O3 Hl Hk Hres. eapply (eff_ok_inplace _ _ this d); [done|done|lia|exact HD|rewrite HL; exact O3|lia|done|done]. }
    apply wp_if; intros Heq.
    - step. eapply own_Myptr; [exact O0|done|done|]. simp.
      destruct (source_cells SSO mx s this d p m Hsh Hsrc) as (c & Hc1 & Hc2). pose proof (proj1 Hc1) as Hc3.
      eapply own_move; [exact O0|exact Hc1|lia|]. intros s1 O1. rewrite (sstr_eta (sstr s this)) in O1. eapply Hfinish; [|exact O1|len|lia|]; [lia|].
      destruct HRR as [_ HR]. unfold result. rewrite HL. split.
      + intros j; rewrite HL; intros Hj; rewrite HR by done. rewrite (splice_any _ _ _ (length m)) by lia. dd; fin.
      + rewrite (splice_any _ _ _ (length m)) by lia. dd; fin.
    - step. eapply own_get; [exact O0|]. step. apply wp_usub; [lia|]. step. apply wp_usub; [lia|]. step. apply wp_uadd; [lia|]. apply wp_if; intros Hlt.
      + step. eapply own_Myptr; [exact O0|done|done|]. step.
        destruct (source_cells SSO mx s this d p m Hsh Hsrc) as (c & Hc1 & Hc2). pose proof (proj1 Hc1) as Hc3.
        eapply own_move; [exact O0|exact Hc1|lia|]. intros s1 O1. step. eapply own_move; [exact O1|apply src_self; len|len|]. intros s2 O2.
        step. apply wp_usub; [lia|]. step. apply wp_usub; [lia|]. eapply own_set_size; [exact O2|]. intros s3 O3. cbn [sres sblk] in O3. eapply Hfinish; [|exact O3|len|lia|]; [lia|].
        rewrite <-Hlen. cbn [Nat.add]. eapply replace_shrink; try done; lia.
      + step. apply wp_usub; [lia|]. step. apply wp_usub; [lia|]. apply wp_if; intros Hc.
        * step. apply wp_uadd; [lia|]. step. eapply own_set_size; [exact O0|]. intros s1 O1. step. eapply own_Myptr; [exact O1|done|done|]. cbn [ssz sres sblk] in *.
          step. eapply own_addr; [exact O1|]. intros a Ha1 Ha2. step. eapply own_addr; [exact O1|]. intros i Hi _. specialize (Hi eq_refl). cbn [fst snd] in Hi.
          step. eapply own_addr; [exact O1|]. intros f Hf _. specialize (Hf eq_refl). cbn [fst snd] in Hf.
          step. eapply own_addr; [exact O1|]. intros o Ho _. specialize (Ho eq_refl). cbn [fst snd] in Ho.
          set (sh := if decide _ then _ else _). step. eapply own_move; [exact O1|apply src_self|lia|]; [lia|]. intros s2 O2. simp.
          set (d1 := splice d _ _) in *. assert (Hd1 : length d1 = length d) by (unfold d1; len).
          assert (Hm1 : 0 < length m) by lia. assert (Hm : m <> []) by (intros ->; cbn in Hm1; lia).
          destruct (source_where s this d bs hp p m Hw Hsh HD Hsrc Hm) as [(Hp & Hk & Hh)|(Hp & g & Hg & Hb & Hh & Hdj)].
          -- specialize (Ha1 Hp). destruct p as [D k]. cbn [fst snd] in *. specialize (Hsafe Hp ltac:(lia)). subst D.
             assert (Hshk : (sh = length m /\ k + sh <= off) \/ (sh = 0 /\ off + n <= k) \/ (k + sh = off + n /\ sh <= length m)) by (unfold sh; destruct (decide _); [left; lia|right]; destruct (decide _); lia). clearbody sh.
             clear Ha1 Ha2 Hi Hf Ho Hsafe a i f o.
             step. eapply own_move; [exact O2|apply (src_self s _ d1 k sh); lia|lia|]. intros s3 O3. step. apply wp_usub; [lia|]. simp.
             set (d2 := splice d1 _ _) in *. assert (Hd2 : length d2 = length d) by (unfold d2; clearbody d1; rewrite splice_length; rewrite ?cells_length; lia).
             eapply own_copy; [exact O3|apply src_self; lia|lia|intros _; cbn [snd]; lia|]. intros s4 O4.
             eapply Hfinish; [|exact O4| |lia|]; [lia|clearbody d2; rewrite splice_length; rewrite ?cells_length; lia|].
             unfold d2, d1. rewrite <-Hlen. cbn [Nat.add]. eapply replace_self; try done; lia.
          -- specialize (Ha2 g Hp Hg). assert (Hsh0 : sh = length m) by (unfold sh, disjoint_ranges in *; destruct (decide _); [done|]; lia). rewrite Hsh0. clear Ha1 Ha2 Hi Hf Ho Hsafe.
             step. eapply (own_move _ _ _ _ _ _ _ _ _ _ _ (cells (rdata g) (snd p) (length m))); [exact O2| |lia|].
             { split; [by apply cells_length|]. right. right. split; [done|]. exists g. done. }
             intros s3 O3. step. apply wp_usub; [lia|]. simp. replace (length m - length m) with 0 by lia.
             eapply own_copy; [exact O3|apply src_nil|rewrite splice_length; rewrite ?cells_length; lia|by left|]. intros s4 O4. rewrite splice_nil in O4.
             eapply Hfinish; [|exact O4|rewrite splice_length; rewrite ?cells_length; lia|lia|]; [lia|].
             unfold d1. rewrite <-Hlen. cbn [Nat.add]. replace (off + n + (length m - n)) with (off + length m) by lia. eapply replace_other; try done; [lia|lia| |by apply cells_length]. by apply holds_cells.
        * eapply eff_grow_by; [done|exact Hsh|lia|lia|lia|]. rewrite HL. intros b bs' cap s1 Hb Hcap O1. clear Hsafe Hfinish.
          step. eapply own_copy; [exact O1|eapply src_old; [done|exact HD|]| | |]; [lia|len|cbn; congruence|]. intros s2 O2.
          destruct (src_new s b (splice (replicate (cap + 1) None) 0 (cells d 0 off)) p m Hb (proj1 Hsrc)) as (c & Hc1 & Hc2). pose proof (proj1 Hc1) as Hc3.
          step. eapply own_copy; [exact O2|exact Hc1|len|intros; eapply new_no_overlap; [exact Hb|exact (proj1 Hsrc)|done|done]|]. intros s3 O3. step. apply wp_usub; [lia|].
          step. apply wp_usub; [lia|]. step. apply wp_uadd; [lia|]. simp.
          eapply own_copy; [exact O3|eapply src_old; [done|exact HD|]| | |]; [lia|len|cbn; congruence|]. intros s4 O4.
          eexists. split; [exact O4|]. split; [len|]. rewrite <-Hlen. cbn [Nat.add]. eapply replace_new; try done; [lia|rewrite replicate_length; lia].
  Qed.
  Theorem replace_ch_ok s this l off nx k x : wfm s -> rep s this l -> k <= smax ->
    effect this s (off <= length l) (replaced l off nx (replicate k x)) (replace_ch SSO msk mx smax orc this off nx k x s).
  Proof.
    intros Hw Hrep Hks. start Hrep. apply eff_wp. unfold replace_ch, Check_offset, Clamp_suffix_size. step. apply wp_bind. eapply own_get; [exact O0|]. apply wp_if; intros Hoff.
    { apply wp_throw. split; [done|]. lia. }
    apply wp_ret. step. apply wp_bind. eapply own_get; [exact O0|]. step. apply wp_usub; [lia|]. apply wp_ret.
    pose proof (replaced_is l off nx _ (replicate k x) ltac:(lia) eq_refl) as HRR. rewrite Hlen in HRR. set (n := nx `min` (ssz (sstr s this) - off)) in *.
    assert (Hn : off + n <= length l) by lia. pose proof (proj1 HRR) as HL. rewrite replicate_length in HL. set (L := replaced l off nx (replicate k x)) in *. clearbody L n.
    assert (Hc1 : length (replicate k (Some x)) = k) by apply replicate_length. assert (Hc2 : holds (replicate k (Some x)) 0 (replicate k x)).
    { intros i. rewrite replicate_length. intros Hi. rewrite !lookup_replicate_2 by lia. done. }
    assert (Hfinish : forall s3 q d2, q = length l - n + k -> owning s this (cur this (sstr s this)) bs hp s3 (StrVal q (sres (sstr s this)) (sblk (sstr s this))) d2 ->
                length d2 = length d -> q <= sres (sstr s this) -> result nul d2 L -> effect this s (off <= length l) L (Ok tt s3)).
    { intros s3 q d2 -> O3 Hl Hk Hres. eapply (eff_ok_inplace _ _ this d); [done|done|lia|exact HD|rewrite HL; exact O3|lia|done|done]. }
    pose proof (replace_other nul d (replicate k (Some x)) l (replicate k x) off n L HRR Hhold Hnul) as RO.
    pose proof (fun dn => replace_new nul d dn (replicate k (Some x)) l (replicate k x) off n L HRR Hhold Hnul) as RN. rewrite replicate_length in *.
    apply wp_if; intros Heq.
    - step. eapply own_Myptr; [exact O0|done|done|]. simp. destruct HRR as [_ HR]. rewrite replicate_length in HR.
      eapply own_fill; [exact O0|lia|]. intros s1 O1. rewrite (sstr_eta (sstr s this)) in O1. eapply Hfinish; [|exact O1|len|lia|]; [lia|].
      unfold result. rewrite HL. split.
      + intros j; rewrite HL; intros Hj; rewrite HR by done. rewrite (splice_any _ _ _ k) by lia. dd; rewrite ?lookup_replicate_2 by lia; fin.
      + rewrite (splice_any _ _ _ k) by lia. dd; fin.
    - step. eapply own_get; [exact O0|]. step. apply wp_usub; [lia|]. apply wp_if; intros Hlt.
      + step. apply wp_uadd; [lia|]. step. apply wp_usub; [lia|]. step. eapply own_set_size; [exact O0|]. intros s1 O1. cbn [sres sblk] in O1. step. eapply own_Myptr; [exact O1|done|done|].
        step. apply wp_usub; [lia|]. step. apply wp_usub; [lia|]. step. apply wp_uadd; [lia|]. step. eapply own_move; [exact O1|apply src_self|lia|]; [lia|]. intros s2 O2. simp.
        eapply own_fill; [exact O2|len|]. intros s3 O3. eapply Hfinish; [|exact O3|len|lia|]; [lia|]. rewrite <-Hlen. cbn [Nat.add]. apply RO; [lia|lia|lia|done|done].
      + step. apply wp_usub; [lia|]. eapply eff_grow_by; [done|exact Hsh|lia|lia|lia|]. rewrite HL. intros b bs' cap s1 Hb Hcap O1. clear Hfinish RO.
        step. eapply own_copy; [exact O1|eapply src_old; [done|exact HD|]| | |]; [lia|len|cbn; congruence|]. intros s2 O2.
        step. eapply own_fill; [exact O2|len|]. intros s3 O3. step. apply wp_usub; [lia|]. step. apply wp_usub; [lia|]. step. apply wp_uadd; [lia|]. simp.
        eapply own_copy; [exact O3|eapply src_old; [done|exact HD|]| | |]; [lia|len|cbn; congruence|]. intros s4 O4.
        eexists. split; [exact O4|]. split; [len|]. rewrite <-Hlen. cbn [Nat.add]. apply RN; try done; [lia|rewrite replicate_length; lia].
  Qed.
End ops.
