(** basic_string: constructors from characters, concatenation, copy assignment. *)
From stdpp Require Import base list numbers gmap.
From Coq Require Import Lia.
From Verif Require Import Text.StringModel Text.StringSpec Text.StringProofs Text.StringProofs2 Text.StringProofs3 Text.StringProofs4 Text.StringProofs5 Text.StringProofs6.
Local Open Scope nat_scope.

Ltac lenx := cbn [fst snd]; len.

Section ops.
  Context {E : Type} (nul : E) (SSO msk mx smax : nat).
  Notation ST := (@ST E). Notation M := (@M E). Notation region := (@region E).
  Context (canmemcpy : bool).
  Context (orc : gmap nat region -> nat -> option (nat * Z * nat)).
  Context (HA : allocator_ok mx orc) (Hsm : 2 * mx + 2 <= smax) (HSSO : SSO <= mx).
  Implicit Types s : ST.
  Implicit Types d c : list (option E).
  Implicit Types l m : list E.
  Notation shape := (shape SSO mx). Notation rep := (rep nul SSO mx). Notation sso_ok := (sso_ok SSO). Notation raw := (raw SSO).
  Notation constructs := (constructs nul SSO mx orc).

  Lemma constructs_wp this s V l' (cm : M unit) : wp cm (fun _ s' => constructs this s V l' (Ok tt s')) (fun e s' => constructs this s V l' (Throw e s')) s -> constructs this s V l' (cm s).
  Proof. unfold wp. destruct (cm s) as [[] s'|e s'|]; done. Qed.

  (** a new string with its characters in the object itself *)
  Lemma new_small s s' this bs n d' (V : Prop) l' : V -> wfm s -> raw s this -> (exists g, smem s this = Some g /\ rbase g = bs) -> smem s' this = Some (Region bs false d') ->
    length d' = SSO + 1 -> sstr s' this = StrVal n SSO None -> n <= SSO -> (forall t, t <> this -> sstr s' t = sstr s t) -> (forall r, r <> this -> smem s' r = smem s r) ->
    n = length l' -> result nul d' l' -> constructs this s V l' (Ok tt s').
  Proof.
    intros HV Hw [Hso Hnb] Hg Hg' Hl Hv Hn Hs Hm Hlen [R1 R2].
    destruct (small_done SSO mx smax Hsm HSSO s s' this bs n d') as (S1 & S2 & S3); try done; [intros; by apply Hm|congruence|].
    unfold StringSpec.constructs, capacity. rewrite Hv. cbn. split_and!; try done. exists d'. split_and!; try done. rewrite Hv. cbn. lia.
  Qed.
  Lemma new_large s s' this bs b n cap d' (V : Prop) l' : V -> wfm s -> raw s this -> smem s b = None ->
    (forall r g, smem s r = Some g -> disjoint_ranges bs (length d') (rbase g) (length (rdata g))) ->
    smem s' b = Some (Region bs true d') -> sstr s' this = StrVal n cap (Some b) -> n <= cap <= mx -> SSO < cap -> length d' = cap + 1 ->
    (forall t, t <> this -> sstr s' t = sstr s t) -> (forall r, r <> this -> r <> b -> smem s' r = smem s r) ->
    (exists g g', smem s this = Some g /\ smem s' this = Some g' /\ rbase g' = rbase g /\ rheap g' = rheap g /\ length (rdata g') = length (rdata g)) ->
    n = length l' -> result nul d' l' -> constructs this s V l' (Ok tt s').
  Proof.
    intros HV Hw [Hso Hnb] Hb Hdj Hb' Hv Hn HS Hl Hs Hm Hg Hlen [R1 R2].
    destruct (realloc_done0 SSO mx smax Hsm HSSO s s' this bs b (StrVal n cap (Some b)) d') as (S1 & S2 & S3); try done; [intros; by apply Hm|congruence|].
    unfold StringSpec.constructs, capacity. rewrite Hv. cbn. split_and!; try done; [|lia]. exists d'. split_and!; try done. rewrite Hv. cbn. lia.
  Qed.

  (** the argument of a constructor gives the characters [l] *)
  Definition arg_ok s (this : nat) (arg : strategy (E := E)) l : Prop :=
    match arg with
    | From_char x => l = replicate (length l) x
    | From_ptr p => reads s p l /\ (l = [] \/ fst p <> this)
    | From_string p => reads s p (l ++ [nul]) /\ fst p <> this /\ (length l <= SSO -> exists g, smem s (fst p) = Some g /\ snd p + (SSO + 1) <= length (rdata g))
    end.
  (** characters read from elsewhere *)
  Lemma other_src s0 D d p m : reads s0 p m -> (m = [] \/ fst p <> D) -> exists c, srcc s0 D d p (length m) c /\ holds c 0 m.
  Proof.
    intros [->|(g & Hg & Hh)] Hne; [exists []; split; [split; [done|by left]|intros i Hi; cbn in Hi; lia]|].
    destruct (decide (m = [])) as [->|Hm]; [exists []; split; [split; [done|by left]|intros i Hi; cbn in Hi; lia]|]. destruct Hne as [|Hne]; [done|].
    pose proof (holds_bound _ _ _ Hm Hh). exists (cells (rdata g) (snd p) (length m)). split; [|by apply holds_cells]. split; [by apply cells_length|]. right. right. split; [done|]. exists g. done.
  Qed.
  Lemma replicate_holds l x : l = replicate (length l) x -> holds (replicate (length l) (Some x)) 0 l.
  Proof. intros H i Hi. cbn. rewrite lookup_replicate_2 by lia. f_equal. symmetry. rewrite H. by apply lookup_replicate_2. Qed.
  Lemma splice_result d c l : length l < length d -> length c = length l -> holds c 0 l -> result nul (splice (splice d 0 c) (length l) [Some nul]) l.
  Proof.
    intros H1 H2 H3. split.
    - intros i Hi. rewrite (splice_any _ _ _ 1) by (rewrite ?splice_length; cbn; lia). rewrite decide_False by lia. rewrite (splice_any _ _ _ (length l)) by lia. rewrite decide_True by lia. rewrite Nat.sub_0_r. by apply H3.
    - rewrite (splice_any _ _ _ 1) by (rewrite ?splice_length; cbn; lia). rewrite decide_True by lia. by rewrite Nat.sub_diag.
  Qed.
  Lemma string_result d c l k : length c = k -> length l < k <= length d -> holds c 0 (l ++ [nul]) -> result nul (splice d 0 c) l.
  Proof.
    intros <- H2 H3. assert (Hi : forall i, i < length c -> splice d 0 c !! i = c !! i) by (intros i Hi; rewrite (splice_any _ _ _ (length c)) by lia; rewrite decide_True by lia; by rewrite Nat.sub_0_r). split.
    - intros i Hl. rewrite Hi by lia. pose proof (H3 i ltac:(rewrite app_length; cbn; lia)) as HX. cbn in HX |- *. rewrite HX. by rewrite lookup_app_l.
    - rewrite Hi by lia. pose proof (H3 (length l) ltac:(rewrite app_length; cbn; lia)) as HX. cbn in HX. rewrite HX. rewrite lookup_app_r by lia. by rewrite Nat.sub_diag.
  Qed.
  Lemma cells_prefix g o l k : holds (rdata g) o l -> length l <= k -> o + k <= length (rdata g) -> holds (cells (rdata g) o k) 0 l.
  Proof. intros H1 H2 H3 i Hi. rewrite lookup_cells, decide_True by lia. by apply H1. Qed.

  Theorem Construct_ok s this arg l : wfm s -> raw s this -> arg_ok s this arg l -> constructs this s True l (Construct nul SSO msk mx smax orc this arg (length l) s).
  Proof.
    intros Hw Hraw Harg. pose proof Hraw as [(g0 & Hg0 & Hh0 & Hl0) Hnb]. apply constructs_wp. unfold Construct, fresh. apply wp_bind, wp_set.
    set (s1 := St (sheap s) (upd (sstr s) this (StrVal 0 0 None))). assert (Hfail : forall e, match e with OutOfRange => False | LengthError => mx < length l | BadAlloc => SSO < length l <= mx /\ exists n, length l < n <= mx + 1 /\ orc (sheap s) n = None end ->
      constructs this s True l (Throw e s1)).
    { intros e He. split; [done|]. split; [intros t Ht; unfold s1; by us|]. split; [split; [exists g0; done|unfold s1; by us]|]. destruct e; naive_solver. }
    apply wp_if; intros H1; [apply wp_throw; by apply Hfail|]. apply wp_if; intros H2.
    - assert (O1 : owning s1 this this (rbase g0) (rheap g0) s1 (StrVal 0 0 None) (rdata g0)) by (split_and!; [unfold s1; rewrite smem_St, Hg0; by destruct g0|done|unfold s1; by us|done]).
      apply wp_bind. eapply own_set_size; [exact O1|]. intros s2 O2. apply wp_bind. eapply own_set_res; [exact O2|]. intros s3 O3. cbn [ssz sres sblk] in O3. apply wp_bind. eapply own_bx_buf; [exact O3|done|].
      assert (Hfinish : forall s4 d', owning s1 this this (rbase g0) (rheap g0) s4 (StrVal (length l) SSO None) d' -> length d' = SSO + 1 -> result nul d' l -> constructs this s True l (Ok tt s4)).
      { intros s4 d' (O41 & O42 & O43 & O44) Hd' Hr. rewrite Hh0 in O41. eapply (new_small s s4 this (rbase g0) (length l) d'); try done; [eauto|].
        intros t Ht. rewrite O44 by done. unfold s1. by us. }
      destruct arg as [x|p|p]; cbn in Harg.
      + apply wp_bind. eapply own_fill; [exact O3|lia|]. intros s4 O4. cbn [padd fst snd]. eapply own_put; [exact O4|lenx|]. intros s5 O5. eapply Hfinish; [exact O5|lenx|].
        apply splice_result; [lia|apply replicate_length|]. by apply replicate_holds.
      + destruct Harg as [Hr Hne]. destruct (other_src s1 this (rdata g0) p l) as (c & Hc1 & Hc2); [done|done|]. pose proof (proj1 Hc1) as Hc3.
        apply wp_bind. eapply own_copy; [exact O3|exact Hc1|lenx|intros Ep; left; destruct Hne as [->|]; [done|congruence]|]. intros s4 O4. cbn [padd fst snd].
        eapply own_put; [exact O4|lenx|]. intros s5 O5. eapply Hfinish; [exact O5|lenx|]. apply splice_result; [lia|done|done].
      + destruct Harg as ([Hnil|(g & Hg & Hh)] & Hne & Hk); [by destruct l|]. destruct (Hk ltac:(lia)) as (g' & Hg' & Hk'). assert (g' = g) as -> by congruence.
        eapply (own_copy _ _ _ _ _ _ _ _ _ _ _ (cells (rdata g) (snd p) (SSO + 1))); [exact O3| |lia|congruence|].
        { split; [by apply cells_length|]. right. right. split; [done|]. by exists g. }
        intros s4 O4. eapply Hfinish; [exact O4|lenx|]. eapply string_result; [by apply cells_length|lia|]. apply cells_prefix; [done|rewrite app_length; cbn; lia|lia].
    - apply wp_bind, (wp_growth SSO msk mx smax Hsm HSSO); [lia|lia|]. intros gr Hgr1 _. apply wp_bind. eapply (wp_alloc SSO mx smax orc HA Hsm HSSO); [done|lia| |].
      { intros Eo. apply Hfail. split; [lia|]. exists (gr + 1). split; [lia|done]. }
      intros b bs cap s2 Hb Hcap _ Hdj A1 A2 A3. cbn [fst snd]. change (smem s1) with (smem s) in *. assert (Hbt : b <> this) by congruence.
      apply wp_bind. eapply (wp_Construct_ptr SSO); [rewrite A2 by done; exact Hg0|rewrite A3; unfold s1; by us|]. intros s3 B1 B2 B3 B4.
      assert (O3 : owning s3 this b bs true s3 (sstr s3 this) (replicate (cap + 1) None)) by (split_and!; [rewrite B2 by done; done|done|done|done]).
      apply wp_bind. eapply own_set_size; [exact O3|]. intros s4 O4. apply wp_bind. eapply own_set_res; [exact O4|]. intros s5 O5. cbn [ssz sres sblk] in O5. rewrite B3 in O5. cbn [sblk] in O5.
      assert (Hmem3 : forall r g, smem s r = Some g -> r <> this -> smem s3 r = Some g) by (intros r g Hr Hne; rewrite B2, A2 by congruence; done).
      assert (Hfinish : forall s6 d', owning s3 this b bs true s6 (StrVal (length l) cap (Some b)) d' -> length d' = cap + 1 -> result nul d' l -> constructs this s True l (Ok tt s6)).
      { intros s6 d' (O61 & O62 & O63 & O64) Hd' Hr. eapply (new_large s s6 this bs b (length l) cap d'); try done; try lia.
        - by rewrite Hd'.
        - intros t Ht. rewrite O64, B4, A3 by done. unfold s1. by us.
        - intros r Hr1 Hr2. rewrite O62, B2, A2 by done. done.
        - exists g0. eexists. split; [done|]. split; [rewrite O62 by done; exact B1|]. cbn. split_and!; try done. rewrite replicate_length. lia. }
      destruct arg as [x|p|p]; cbn in Harg.
      + apply wp_bind. eapply own_fill; [exact O5|lenx|]. intros s6 O6. cbn [padd fst snd]. eapply own_put; [exact O6|lenx|]. intros s7 O7.
        eapply Hfinish; [exact O7|lenx|].
        apply splice_result; [lenx|apply replicate_length|]. by apply replicate_holds.
      + destruct Harg as [Hr Hne]. assert (Hpb : fst p <> b \/ l = []) by (destruct Hr as [->|(g & Hg & _)]; [by right|left; congruence]).
        assert (Hr3 : reads s3 p l). { destruct Hr as [->|(g & Hg & Hh)]; [by left|]. destruct Hne as [->|Hne]; [by left|]. right. exists g. split; [by apply Hmem3|done]. }
        destruct (other_src s3 b (replicate (cap + 1) None) p l) as (c & Hc1 & Hc2); [done|naive_solver|]. pose proof (proj1 Hc1) as Hc3.
        apply wp_bind. eapply own_copy; [exact O5|exact Hc1|lenx|intros Ep; left; destruct Hpb as [ | -> ]; [congruence|done]|]. intros s6 O6. cbn [padd fst snd].
        eapply own_put; [exact O6|lenx|]. intros s7 O7.
        eapply Hfinish; [exact O7|lenx|]. apply splice_result; [lenx|done|done].
      + destruct Harg as ([Hnil|(g & Hg & Hh)] & Hne & _); [by destruct l|]. assert (Hpb : fst p <> b) by congruence. assert (Hb' : snd p + length (l ++ [nul]) <= length (rdata g)) by (apply holds_bound; [by destruct l|done]).
        rewrite app_length in Hb'. cbn in Hb'. apply wp_bind, wp_uadd; [lia|].
        eapply (own_copy _ _ _ _ _ _ _ _ _ _ _ (cells (rdata g) (snd p) (length l + 1))); [exact O5| |lenx|congruence|].
        { split; [by apply cells_length|]. right. right. split; [done|]. exists g. split; [by apply Hmem3|done]. }
        intros s6 O6. eapply Hfinish; [exact O6|lenx|].
        eapply string_result; [by apply cells_length|lenx|]. apply cells_prefix; [done|rewrite app_length; cbn; lia|lia].
  Qed.

  (** what the constructor does not depend on: the old sizes of [this] *)
  Lemma constructs_pre s s0 this (V : Prop) l' r : sheap s0 = sheap s -> (forall t, t <> this -> sstr s0 t = sstr s t) -> sblk (sstr s0 this) = sblk (sstr s this) -> constructs this s0 V l' r -> constructs this s V l' r.
  Proof.
    intros Hm Hs Hb. assert (Hm2 : forall r0, smem s0 r0 = smem s r0) by (intros; unfold smem; by rewrite Hm). destruct r as [u s'|e s'|]; [| |done].
    - intros (HV & Hr & (F1 & F2 & F3 & F4) & Hw & Hc). split_and!; try done.
      assert (Ho : forall b, owned s [this] b <-> owned s0 [this] b) by (intros b; by rewrite !owned1, Hb).
      split_and!.
      + intros t Ht. rewrite F1 by done. apply Hs. intros ->. apply Ht. by left.
      + intros r Hr' H1 H2. rewrite <-Hm2. apply F2; [done|by rewrite <-Ho|done].
      + intros b H1 H2. rewrite <-Hm2. apply F3; [done|by rewrite <-Ho].
      + intros b H1 H2. apply F4; [by rewrite <-Ho|done].
    - intros (Hm' & Hs' & Hraw & He). split; [congruence|]. split; [intros t Ht; rewrite Hs', Hs; done|]. split; [done|]. destruct e; try done. by rewrite Hm in He.
  Qed.
  Lemma cur_ne s this right_ l : raw s this -> this <> right_ -> rep s right_ l -> cur right_ (sstr s right_) <> this.
  Proof.
    intros [(g & Hg & Hh & _) _] Hne Hrep. unfold cur. destruct (sblk (sstr s right_)) as [b|] eqn:Eb; cbn; [|done]. destruct (rep_blk _ _ _ _ _ _ _ Hrep Eb) as (g' & Hg' & Hh'). congruence.
  Qed.
  Lemma string_arg s this right_ l : raw s this -> this <> right_ -> rep s right_ l -> arg_ok s this (From_string (data s right_)) l.
  Proof.
    intros Hraw Hne Hrep. split; [by apply (rep_reads nul SSO mx)|]. split; [by eapply cur_ne|]. intros _. destruct Hrep as (d & (_ & Hsz & Hd & (g & Hg & Hgd & _) & Hb) & _). exists g. cbn. split; [done|]. rewrite Hgd.
    destruct (sblk (sstr s right_)); lia.
  Qed.
  Theorem copy_construct_ok s this right_ l : this <> right_ -> wfm s -> raw s this -> rep s right_ l -> constructs this s True l (copy_construct nul SSO msk mx smax orc this right_ s).
  Proof.
    intros Hne Hw Hraw Hrep. apply constructs_wp. unfold copy_construct. apply wp_bind. eapply wp_Myptr; [exact Hrep|]. apply wp_bind, wp_get. pose proof (rep_sizes _ _ _ _ _ _ Hrep) as (<- & _).
    pose proof (Construct_ok s this (From_string (data s right_)) l Hw Hraw (string_arg _ _ _ _ Hraw Hne Hrep)) as HH. unfold wp. destruct (Construct _ _ _ _ _ _ _ _ _ s) as [[]| |]; done.
  Qed.
  Lemma rep_other_size s s0 this right_ l : sheap s0 = sheap s -> (forall t, t <> this -> sstr s0 t = sstr s t) -> this <> right_ -> rep s right_ l -> rep s0 right_ l.
  Proof. intros Hm Hs Hne (d & Hsh & Hr). assert (Hm2 : forall r0, smem s0 r0 = smem s r0) by (intros; unfold smem; by rewrite Hm). exists d. unfold StringSpec.shape, StringSpec.sso_ok in *. cbv zeta in *. by rewrite !Hm2, (Hs right_) by done. Qed.
  Theorem substr_construct_ok s this right_ l off n : this <> right_ -> wfm s -> raw s this -> rep s right_ l ->
    constructs this s (off <= length l) (sub l off n) (substr_construct nul SSO msk mx smax orc this right_ off n s).
  Proof.
    intros Hne Hw Hraw Hrep. apply constructs_wp. unfold substr_construct, fresh. apply wp_bind, wp_set. set (s1 := St _ _).
    assert (Hr1 : rep s1 right_ l) by (eapply rep_other_size; [| |done|exact Hrep]; [done|]; intros t Ht; unfold s1; by us).
    assert (Hraw1 : raw s1 this) by (split; [exact (proj1 Hraw)|unfold s1; by us]). pose proof (rep_sizes _ _ _ _ _ _ Hr1) as (Hlen & _).
    unfold Check_offset, Clamp_suffix_size. apply wp_bind. apply wp_bind, wp_get. apply wp_if; intros Hc.
    { apply wp_throw. split; [done|]. split; [intros t Ht; unfold s1; by us|]. split; [done|]. lia. }
    apply wp_ret. apply wp_bind. eapply wp_Myptr; [exact Hr1|]. apply wp_bind, wp_bind, wp_get. apply wp_bind, wp_usub; [lia|]. apply wp_ret.
    assert (Hn : n `min` (ssz (sstr s1 right_) - off) = length (sub l off n)) by (unfold sub; rewrite take_length, drop_length; lia). rewrite Hn.
    pose proof (Construct_ok s1 this (From_ptr (padd (data s1 right_) off)) (sub l off n) Hw Hraw1) as HH. 
    assert (HH' : constructs this s (off <= length l) (sub l off n) (Construct nul SSO msk mx smax orc this (From_ptr (padd (data s1 right_) off)) (length (sub l off n)) s1)).
    { assert (HX : constructs this s True (sub l off n) (Construct nul SSO msk mx smax orc this (From_ptr (padd (data s1 right_) off)) (length (sub l off n)) s1)).
      { eapply constructs_pre; [..|apply HH]; [done| | |]. { intros t Ht. unfold s1. by us. } { unfold s1. us. by rewrite (proj2 Hraw). }
        split; [apply reads_part; by eapply (rep_text nul SSO mx)|]. right. by apply (cur_ne s1 this right_ l). }
      destruct (Construct _ _ _ _ _ _ _ _ _ s1) as [u s2|e s2|]; [| |done].
      - destruct HX as (_ & HX). split; [lia|done].
      - destruct HX as (X1 & X2 & X3 & X4). split_and!; try done. assert (Hoff : off <= length l) by lia. destruct e; tauto. }
    unfold wp. destruct (Construct _ _ _ _ _ _ _ _ _ s1) as [[]| |]; done.
  Qed.
  Theorem copy_assign_ok s this right_ l m : wfm s -> rep s this m -> rep s right_ l -> apart s this right_ ->
    effect nul SSO mx orc this s True l (copy_assign nul SSO msk mx smax orc this right_ s).
  Proof.
    intros Hw Hrep1 Hrep2 [Hne Hap]. unfold copy_assign. rewrite decide_False by done. apply eff_wp. apply wp_bind. eapply wp_Myptr; [exact Hrep2|]. apply wp_bind, wp_get. pose proof (rep_sizes _ _ _ _ _ _ Hrep2) as (<- & _).
    assert (HH : effect nul SSO mx orc this s True l (assign nul SSO msk mx smax orc this (data s right_) (length l) s)).
    { eapply assign_ok; try done. split; [by eapply (rep_text nul SSO mx)|]. cbn. intros Hc. exfalso. unfold cur in Hc. destruct (sblk (sstr s right_)) as [b|] eqn:Eb, (sblk (sstr s this)) as [b'|] eqn:Eb'; cbn in Hc.
      - by apply (Hap b'); congruence.
      - destruct (rep_blk _ _ _ _ _ _ _ Hrep2 Eb) as (g & Hg & Hh). destruct (rep_sso _ _ _ _ _ _ Hrep1) as (g' & Hg' & Hh' & _). congruence.
      - destruct (rep_blk _ _ _ _ _ _ _ Hrep1 Eb') as (g & Hg & Hh). destruct (rep_sso _ _ _ _ _ _ Hrep2) as (g' & Hg' & Hh' & _). congruence.
      - done. }
    unfold wp. destruct (assign _ _ _ _ _ _ _ _ _ s) as [[]| |]; done.
  Qed.

  (** operator+ *)
  Theorem concat_ok s this p l q m : wfm s -> raw s this -> length l <= mx -> reads s p l -> (l = [] \/ fst p <> this) -> reads s q m -> (m = [] \/ fst q <> this) ->
    match concat nul SSO msk mx smax orc this p (length l) q (length m) s with
    | Throw LengthError s' => s' = s /\ mx < length l + length m
    | r => constructs this s True (l ++ m) r
    end.
  Proof.
    intros Hw Hraw Hlm Hp Hpn Hq Hqn. pose proof Hraw as [(g0 & Hg0 & Hh0 & Hl0) Hnb].
    assert (HH : wp (concat nul SSO msk mx smax orc this p (length l) q (length m)) (fun _ s' => constructs this s True (l ++ m) (Ok tt s'))
      (fun e s' => match e with LengthError => s' = s /\ mx < length l + length m | _ => constructs this s True (l ++ m) (Throw e s') end) s).
    2:{ unfold wp in HH. destruct (concat _ _ _ _ _ _ _ _ _ _ _ s) as [[] ?|e ?|]; [done| |done]. by destruct e. }
    unfold concat. apply wp_bind, wp_usub; [lia|]. apply wp_if; intros H1; [apply wp_throw; split; [done|lia]|]. unfold fresh. apply wp_bind, wp_set. set (s1 := St _ _).
    apply wp_bind, wp_uadd; [lia|]. assert (HL : length (l ++ m) = length l + length m) by apply app_length. apply wp_bind.
    assert (Hcommon : forall s0 D bs hp s2 v dn cap, owning s0 this D bs hp s2 v dn -> length dn = cap + 1 -> length l + length m <= cap -> reads s0 p l -> reads s0 q m -> (l = [] \/ fst p <> D) -> (m = [] \/ fst q <> D) ->
       (forall s3 d', owning s0 this D bs hp s3 (StrVal (length l + length m) cap (sblk v)) d' -> length d' = cap + 1 -> result nul d' (l ++ m) -> constructs this s True (l ++ m) (Ok tt s3)) ->
       wp (bind (set_size this (length l + length m)) (fun _ => bind (set_res this cap) (fun _ => bind (copy (D, 0) p (length l)) (fun _ => bind (copy (padd (D, 0) (length l)) q (length m)) (fun _ => put (padd (D, 0) (length l + length m)) nul)))))
         (fun _ s' => constructs this s True (l ++ m) (Ok tt s')) (fun e s' => match e with LengthError => s' = s /\ mx < length l + length m | _ => constructs this s True (l ++ m) (Throw e s') end) s2).
    { intros s0 D bs hp s2 v dn cap O2 Hdn Hcap Hp0 Hq0 Hpn0 Hqn0 Hfin. apply wp_bind. eapply own_set_size; [exact O2|]. intros s3 O3. apply wp_bind. eapply own_set_res; [exact O3|]. intros s4 O4. cbn [ssz sres sblk] in O4.
      destruct (other_src s0 D dn p l Hp0 Hpn0) as (c & Hc1 & Hc2). pose proof (proj1 Hc1) as Hc3.
      apply wp_bind. eapply own_copy; [exact O4|exact Hc1|lenx|intros Ep; cbn in Ep; left; destruct Hpn0 as [->|]; [done|congruence]|]. intros s5 O5. cbn [padd fst snd].
      destruct (other_src s0 D (splice dn 0 c) q m Hq0 Hqn0) as (c' & Hc1' & Hc2'). pose proof (proj1 Hc1') as Hc3'.
      apply wp_bind. eapply own_copy; [exact O5|exact Hc1'|lenx|intros Ep; cbn in Ep; left; destruct Hqn0 as [->|]; [done|congruence]|]. intros s6 O6.
      eapply own_put; [exact O6|lenx|]. intros s7 O7. eapply Hfin; [exact O7|lenx|].
      set (e1 := splice dn 0 c) in *. assert (He1 : length e1 = length dn) by (unfold e1; lenx).
      assert (A1 : forall j, e1 !! j = if decide (j < length l) then c !! j else dn !! j).
      { intros j. unfold e1. rewrite (splice_any _ _ _ (length l)) by lia. dd; [f_equal; lia|done]. }
      cbn [Nat.add fst snd] in *. set (e2 := splice e1 (length l) c') in *. assert (He2 : length e2 = length dn) by (unfold e2; lenx).
      assert (A2 : forall j, e2 !! j = if decide (length l <= j < length l + length m) then c' !! (j - length l) else e1 !! j).
      { intros j. unfold e2. rewrite (splice_any _ _ _ (length m)) by lia. done. }
      clearbody e1 e2. split.
      - intros j. rewrite HL. intros Hj. rewrite (splice_any _ _ _ 1) by (cbn; lia). cbn [Nat.add]. dd. rewrite A2. rewrite lookup_app'. dd; [|rewrite A1; dd]; fin.
      - rewrite HL. rewrite (splice_any _ _ _ 1) by (cbn; lia). dd. by rewrite Nat.sub_diag. }
    apply wp_if; intros H2.
    - apply wp_bind, (wp_growth SSO msk mx smax Hsm HSSO); [lia|lia|]. intros gr Hgr1 _. apply wp_bind. eapply (wp_alloc SSO mx smax orc HA Hsm HSSO); [done|lia| |].
      { intros Eo. split; [done|]. split; [intros t Ht; unfold s1; by us|]. split; [split; [exists g0; done|unfold s1; by us]|]. split; [done|]. split; [lia|]. exists (gr + 1). split; [lia|done]. }
      intros b bs cap s2 Hb Hcap _ Hdj A1 A2 A3. cbn [fst snd]. change (smem s1) with (smem s) in *. assert (Hbt : b <> this) by congruence.
      apply wp_bind. eapply (wp_Construct_ptr SSO); [rewrite A2 by done; exact Hg0|rewrite A3; unfold s1; by us|]. intros s3 B1 B2 B3 B4. apply wp_ret.
      assert (Hmem3 : forall r g, smem s r = Some g -> r <> this -> smem s3 r = Some g) by (intros r g Hr Hne; rewrite B2, A2 by congruence; done).
      assert (Hrd : forall p0 l0, reads s p0 l0 -> (l0 = [] \/ fst p0 <> this) -> reads s3 p0 l0).
      { intros p0 [|z l0] Ha Hb'; [by left|]. destruct Ha as [|(g & Hg & Hh)]; [done|]. destruct Hb' as [|Hne]; [done|]. right. exists g. split; [by apply Hmem3|done]. }
      assert (Hnb' : forall p0 l0, reads s p0 l0 -> l0 = [] \/ fst p0 <> b) by (intros p0 l0 [->|(g & Hg & _)]; [by left|right; congruence]).
      eapply (Hcommon s3 b bs true s3 (sstr s3 this) (replicate (cap + 1) None) cap); [split_and!; [rewrite B2 by done; done|done|done|done]|by rewrite replicate_length|lia|by apply Hrd|by apply Hrd|by eapply Hnb'|by eapply Hnb'|].
      rewrite B3. cbn [sblk]. intros s6 d' (O61 & O62 & O63 & O64) Hd' Hr. eapply (new_large s s6 this bs b (length l + length m) cap d'); try done; try lia.
        + by rewrite Hd'.
        + intros t Ht. rewrite O64, B4, A3 by done. unfold s1. by us.
        + intros r Hr1 Hr2. rewrite O62, B2, A2 by done. done.
        + exists g0. eexists. split; [done|]. split; [rewrite O62 by done; exact B1|]. cbn. split_and!; try done. rewrite replicate_length. lia.
    - apply wp_bind, wp_bx_buf; [unfold s1; by us|]. apply wp_ret.
      assert (O1 : owning s1 this this (rbase g0) (rheap g0) s1 (StrVal 0 0 None) (rdata g0)) by (split_and!; [unfold s1; rewrite smem_St, Hg0; by destruct g0|done|unfold s1; by us|done]).
      eapply (Hcommon s1 this _ _ s1 _ _ SSO O1); [done|lia|done|done|done|done|]. cbn [sblk].
      intros s4 d' (O41 & O42 & O43 & O44) Hd' Hr. rewrite Hh0 in O41. eapply (new_small s s4 this (rbase g0) (length l + length m) d'); try done; [eauto|lia|].
      intros t Ht. rewrite O44 by done. unfold s1. by us.
  Qed.
End ops.
