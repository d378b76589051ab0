(** basic_string: construction, moves, swap. *)
From stdpp Require Import base list numbers gmap.
From Coq Require Import Lia.
From Verif Require Import Text.StringModel Text.StringSpec Text.StringProofs Text.StringProofs2 Text.StringProofs3 Text.StringProofs4 Text.StringProofs5.
Local Open Scope nat_scope.

Ltac us := repeat (cbn [sheap sstr ssz sres sblk rbase rheap rdata fst snd padd]; first [rewrite upd_eq | rewrite upd_ne by congruence | rewrite smem_ins | rewrite smem_ins_ne by congruence | rewrite smem_St]); cbn [sheap sstr ssz sres sblk rbase rheap rdata fst snd padd].

Section gen.
  Context {E : Type} (nul : E) (SSO mx : nat).
  Notation ST := (@ST E). Notation M := (@M E).
  Implicit Types s : ST.
  Implicit Types d c : list (option E).
  Implicit Types l m : list E.
  Notation shape := (shape SSO mx). Notation rep := (rep nul SSO mx). Notation sso_ok := (sso_ok SSO).
  Lemma frame_same T s s' : (forall t, t ∉ T -> sstr s' t = sstr s t) -> (forall r, r ∉ T -> smem s' r = smem s r) -> (forall b, owned s' T b <-> owned s T b) -> frame T s s'.
  Proof. intros H1 H2 H3. split_and!; [done|intros; by apply H2| |]; intros b; rewrite H3; done. Qed.
  Lemma owned2 s a b x : owned s [a; b] x <-> sblk (sstr s a) = Some x \/ sblk (sstr s b) = Some x.
  Proof.
    unfold owned. split.
    - intros (t & Ht & Hx). apply elem_of_cons in Ht as [->|Ht]; [by left|]. apply elem_of_list_singleton in Ht as ->. by right.
    - intros [H|H]; [exists a|exists b]; (split; [|done]); [by left|by right; left].
  Qed.
  Lemma rep_moved s s' a b m : rep s a m -> sstr s' b = sstr s a -> sso_ok s' b -> (forall x, sblk (sstr s a) = Some x -> smem s' x = smem s x) ->
    (sblk (sstr s a) = None -> exists g, smem s' b = Some g /\ holds (rdata g) 0 m /\ rdata g !! length m = Some (Some nul)) -> rep s' b m.
  Proof.
    intros (d & Hsh & Hlen & Hh & Hn) Hv Hso H1 H2. pose proof Hsh as (_ & Hsz0 & Hd & (gd & Hgd & Hdd & Hhp) & Hb0). unfold cur in Hgd.
    destruct (sblk (sstr s a)) as [x|] eqn:Ex.
    - exists d. unfold StringSpec.shape. cbv zeta. rewrite Hv, Ex. unfold cur. rewrite Ex. cbn. cbn in Hgd.
      split_and!; try done; try lia. exists gd. rewrite (H1 _ eq_refl). rewrite Hhp. done.
    - destruct (H2 eq_refl) as (g & Hg & Hh' & Hn'). destruct Hso as (g' & Hg' & Hheap & Hl). rewrite Hg in Hg'. injection Hg' as <-.
      exists (rdata g). unfold StringSpec.shape. cbv zeta. rewrite Hv, Ex. unfold cur. rewrite Ex. cbn.
      split_and!; try done; try lia; [by exists g|]. exists g. done.
  Qed.
  Lemma rep_sso s a l : rep s a l -> sso_ok s a. Proof. by intros (d & (H & _) & _). Qed.
  Lemma rep_blk s a l b : rep s a l -> sblk (sstr s a) = Some b -> exists g, smem s b = Some g /\ rheap g = true.
  Proof.
    intros (d & (_ & _ & _ & (g & Hg & _ & Hh) & _) & _) Hb. exists g. unfold cur in Hg. rewrite Hb in Hg, Hh. split; [done|]. rewrite Hh. by apply bool_decide_true.
  Qed.
  Lemma rep_small s a l : rep s a l -> sblk (sstr s a) = None -> exists g, smem s a = Some g /\ rheap g = false /\ length (rdata g) = SSO + 1 /\ holds (rdata g) 0 l /\ rdata g !! length l = Some (Some nul) /\ length l = ssz (sstr s a) /\ sres (sstr s a) = SSO.
  Proof.
    intros (d & ((g0 & Hg0 & Hh0 & Hl0) & _ & _ & (g & Hg & Hd & Hh) & Hb0) & Hlen & Hho & Hn) Hb. unfold cur in Hg. rewrite Hb in *. cbn in Hg. rewrite Hg in Hg0. injection Hg0 as <-.
    exists g. subst d. done.
  Qed.
  Lemma rep_sizes s a l : rep s a l -> length l = ssz (sstr s a) /\ ssz (sstr s a) <= sres (sstr s a) <= mx /\ SSO <= sres (sstr s a) /\ (match sblk (sstr s a) with None => sres (sstr s a) = SSO | Some b => SSO < sres (sstr s a) end).
  Proof. intros (d & (_ & Hsz & _ & _ & Hb) & Hlen & _). split_and!; try done; try lia. destruct (sblk (sstr s a)); lia. Qed.
  Lemma rep_large s a l : rep s a l -> large SSO (sstr s a) = bool_decide (is_Some (sblk (sstr s a))).
  Proof.
    intros H%rep_sizes. destruct H as (_ & _ & _ & H). unfold large. destruct (sblk (sstr s a)); [rewrite !bool_decide_true; done|]. rewrite !bool_decide_false; [done| |lia]. by intros [? ?].
  Qed.
  Lemma rep_reads s a l : rep s a l -> reads s (data s a) (l ++ [nul]).
  Proof.
    intros (d & (_ & _ & _ & (g & Hg & Hd & _) & _) & Hlen & Hh & Hn). right. exists g. cbn [data fst snd]. split; [done|]. rewrite Hd. intros i. rewrite app_length. cbn. intros Hi.
    rewrite lookup_app'. destruct (decide (i < length l)); [by apply Hh|]. replace i with (length l) by lia. rewrite Nat.sub_diag. done.
  Qed.
  Lemma reads_part s p l off n : reads s p l -> reads s (padd p off) (take n (drop off l)).
  Proof.
    intros [->|(g & Hg & Hh)]; [left; rewrite drop_nil; by rewrite take_nil|]. right. exists g. cbn. split; [done|]. intros i. rewrite take_length, drop_length. intros Hi.
    rewrite lookup_take by lia. rewrite lookup_drop. rewrite <-Nat.add_assoc. apply Hh. lia.
  Qed.
  Lemma reads_take s p l n : reads s p l -> reads s p (take n l).
  Proof. intros H%(reads_part _ _ _ 0 n). cbn in H. rewrite drop_0 in H. destruct p as [r o]. unfold padd in H. cbn in H. by rewrite Nat.add_0_r in H. Qed.
  Lemma rep_text s a l : rep s a l -> reads s (data s a) l.
  Proof. intros H%rep_reads. apply (reads_take _ _ _ (length l)) in H. by rewrite take_app in H. Qed.
  Lemma reads_ext s s' p l : smem s' (fst p) = smem s (fst p) -> reads s p l -> reads s' p l.
  Proof. intros H [->|(g & Hg & Hh)]; [by left|right]. exists g. by rewrite H. Qed.
  Lemma wp_Myptr s a l (Q : ptr -> ST -> Prop) X : rep s a l -> Q (data s a) s -> wp (Myptr SSO a) Q X s.
  Proof.
    intros Hr HQ. destruct Hr as (d & Hsh & _). destruct (shape_start _ _ _ _ _ Hsh) as (bs & hp & O0 & HD & Hhp). pose proof Hsh as (_ & _ & _ & _ & Hblk).
    eapply own_Myptr; [exact O0|done|done|exact HQ].
  Qed.
  Lemma wp_set s a v (Q : unit -> ST -> Prop) X : Q tt (St (sheap s) (upd (sstr s) a v)) -> wp (set a v) Q X s.
  Proof. done. Qed.
  Lemma wp_set_size s a n (Q : unit -> ST -> Prop) X : Q tt (St (sheap s) (upd (sstr s) a (StrVal n (sres (sstr s a)) (sblk (sstr s a))))) -> wp (set_size a n) Q X s.
  Proof. done. Qed.
  Lemma wp_set_res s a n (Q : unit -> ST -> Prop) X : Q tt (St (sheap s) (upd (sstr s) a (StrVal (ssz (sstr s a)) n (sblk (sstr s a))))) -> wp (set_res a n) Q X s.
  Proof. done. Qed.
  Lemma wp_get_data s a g (Q : list (option E) -> ST -> Prop) X : smem s a = Some g -> Q (rdata g) s -> wp (get_data a) Q X s.
  Proof. intros H HQ. unfold wp, get_data. by rewrite H. Qed.
  Lemma wp_set_data s a g d (Q : unit -> ST -> Prop) X : smem s a = Some g -> Q tt (St (<[a := Region (rbase g) (rheap g) d]> (sheap s)) (sstr s)) -> wp (set_data a d) Q X s.
  Proof. intros H HQ. unfold wp, set_data. by rewrite H. Qed.
  Lemma wp_store s p g c (Q : unit -> ST -> Prop) X : smem s (fst p) = Some g -> snd p + length c <= length (rdata g) ->
    Q tt (St (<[(fst p) := Region (rbase g) (rheap g) (splice (rdata g) (snd p) c)]> (sheap s)) (sstr s)) -> wp (store p c) Q X s.
  Proof. intros H H2 HQ. unfold wp, store, bind, get_data, set_data. rewrite H. rewrite decide_True by done. by rewrite H. Qed.
  Lemma wp_load s p g n (Q : list (option E) -> ST -> Prop) X : smem s (fst p) = Some g -> snd p + n <= length (rdata g) -> Q (cells (rdata g) (snd p) n) s -> wp (load p n) Q X s.
  Proof. intros H H2 HQ. unfold wp, load, bind, get_data. rewrite H. by rewrite decide_True. Qed.
  Lemma wp_copy s p q g h n (Q : unit -> ST -> Prop) X : n <> 0 -> fst p <> fst q -> smem s (fst p) = Some g -> smem s (fst q) = Some h -> snd p + n <= length (rdata g) -> snd q + n <= length (rdata h) ->
    Q tt (St (<[(fst p) := Region (rbase g) (rheap g) (splice (rdata g) (snd p) (cells (rdata h) (snd q) n))]> (sheap s)) (sstr s)) -> wp (copy p q n) Q X s.
  Proof.
    intros Hn Hne Hg Hh H1 H2 HQ. unfold copy. rewrite decide_False by done. rewrite decide_False by naive_solver. unfold move. rewrite decide_False by done.
    apply wp_bind. eapply wp_load; [done|done|]. eapply wp_store; [done|by rewrite cells_length|done].
  Qed.
End gen.

Section ops.
  Context {E : Type} (nul : E) (SSO msk mx smax : nat).
  Notation ST := (@ST E). Notation M := (@M E). Notation region := (@region E).
  Context (canmemcpy : bool).
  Context (orc : gmap nat region -> nat -> option (nat * Z * nat)).
  Context (HA : allocator_ok mx orc) (Hsm : 2 * mx + 2 <= smax) (HSSO : SSO <= mx).
  Implicit Types s : ST.
  Implicit Types d c : list (option E).
  Implicit Types l m : list E.
  Notation shape := (shape SSO mx). Notation rep := (rep nul SSO mx). Notation sso_ok := (sso_ok SSO). Notation raw := (raw SSO).
  Notation constructs := (constructs nul SSO mx orc).

  (** *** _Take_contents *)
  Definition taken (this right_ : nat) s l s' : Prop :=
    rep s' this l /\ rep s' right_ [] /\ frame [this; right_] s s' /\ wfm s' /\
    capacity s' this = capacity s right_ /\ sstr s' right_ = StrVal 0 SSO None /\
    sblk (sstr s' this) = sblk (sstr s right_).
  Lemma take_done s s' this right_ l gt gr dt dr : this <> right_ -> wfm s -> raw s this -> rep s right_ l ->
    smem s this = Some gt -> smem s right_ = Some gr ->
    smem s' this = Some (Region (rbase gt) false dt) -> length dt = SSO + 1 -> smem s' right_ = Some (Region (rbase gr) false dr) -> length dr = SSO + 1 ->
    dr !! 0 = Some (Some nul) -> (sblk (sstr s right_) = None -> holds dt 0 l /\ dt !! length l = Some (Some nul)) ->
    sstr s' this = sstr s right_ -> sstr s' right_ = StrVal 0 SSO None -> (forall t, t <> this -> t <> right_ -> sstr s' t = sstr s t) ->
    (forall r, r <> this -> r <> right_ -> smem s' r = smem s r) -> taken this right_ s l s'.
  Proof.
    intros Hne Hw [Hso Hnb] Hrep Hgt Hgr Ht Hlt Hr Hlr Hnr Hsm' Hv1 Hv2 Hvo Hmo.
    assert (Hd : forall b, sblk (sstr s right_) = Some b -> b <> this /\ b <> right_).
    { intros b Hb. destruct (rep_blk _ _ _ _ _ _ _ Hrep Hb) as (g & Hg & Hh). destruct Hso as (g1 & Hg1 & Hh1 & _). destruct (rep_sso _ _ _ _ _ _ Hrep) as (g2 & Hg2 & Hh2 & _).
      split; intros ->; congruence. }
    unfold taken. split_and!.
    - eapply rep_moved; [exact Hrep|done| | |].
      + eexists. split; [exact Ht|]. done.
      + intros x Hx. destruct (Hd x Hx). by apply Hmo.
      + intros Hx. eexists. split; [exact Ht|]. by apply Hsm'.
    - exists dr. unfold StringSpec.shape. cbv zeta. rewrite Hv2. cbn. split_and!; [|lia|lia|lia| |done|done| |done].
      + eexists. split; [exact Hr|]. done.
      + eexists. split; [exact Hr|]. done.
      + intros i Hi. cbn in Hi. lia.
    - apply frame_same.
      + intros t Ht'. apply Hvo; intros ->; apply Ht'; [by left|by right; left].
      + intros t Ht'. apply Hmo; intros ->; apply Ht'; [by left|by right; left].
      + intros b. rewrite !owned2, Hv1, Hv2, Hnb. cbn. naive_solver.
    - eapply wfm_ext; [done|]. intros r g' Hg'. destruct (decide (r = this)) as [->|].
      { exists gt. rewrite Ht in Hg'. injection Hg' as <-. cbn. destruct Hso as (g1 & Hg1 & _ & Hl1). rewrite Hgt in Hg1. injection Hg1 as <-. split_and!; try done. by rewrite Hl1. }
      destruct (decide (r = right_)) as [->|].
      { exists gr. rewrite Hr in Hg'. injection Hg' as <-. cbn. destruct (rep_sso _ _ _ _ _ _ Hrep) as (g1 & Hg1 & _ & Hl1). rewrite Hgr in Hg1. injection Hg1 as <-. split_and!; try done. by rewrite Hl1. }
      rewrite Hmo in Hg' by done. eauto.
    - unfold capacity. by rewrite Hv1.
    - done.
    - by rewrite Hv1.
  Qed.
  Lemma wp_Take s this right_ l (Q : unit -> ST -> Prop) X : this <> right_ -> wfm s -> raw s this -> rep s right_ l -> (forall s', taken this right_ s l s' -> Q tt s') ->
    wp (Take_contents nul SSO smax canmemcpy this right_) Q X s.
  Proof.
    intros Hne Hw Hraw Hrep HQ. pose proof Hraw as [(gt & Hgt & Hht & Hlt) Hnb]. pose proof (rep_sso _ _ _ _ _ _ Hrep) as (gr & Hgr & Hhr & Hlr).
    pose proof (rep_sizes _ _ _ _ _ _ Hrep) as (Hlen & Hsz & HS & Hblk). unfold Take_contents. apply wp_bind, wp_get. destruct canmemcpy.
    - apply wp_bind, wp_set. apply wp_bind. eapply wp_get_data; [done|]. apply wp_bind. eapply wp_set_data; [done|]. apply wp_bind, wp_set_size. apply wp_bind, wp_set_res. us.
      apply wp_bind. unfold union_buf. apply wp_bind, wp_get. apply wp_bind, wp_set. eapply wp_set_data; [us; exact Hgr|]. us. eapply wp_store; [us; done|us; rewrite replicate_length; cbn; lia|]. us.
      apply HQ. eapply (take_done _ _ _ _ _ gt gr (rdata gr) (splice (replicate (SSO + 1) None) 0 [Some nul])); try done.
      + us. by rewrite Hht.
      + us. by rewrite Hhr.
      + rewrite splice_length; rewrite replicate_length; cbn; lia.
      + intros Hb. destruct (rep_small _ _ _ _ _ _ Hrep Hb) as (g & Hg & _ & _ & H1 & H2 & _). assert (g = gr) as -> by congruence. done.
      + by us.
      + by us.
      + intros t H1 H2. by us.
      + intros r H1 H2. by us.
    - apply wp_bind. rewrite (rep_large _ _ _ _ _ _ Hrep). destruct (sblk (sstr s right_)) as [b|] eqn:Eb.
      + rewrite bool_decide_true by done. destruct (rep_blk _ _ _ _ _ _ _ Hrep Eb) as (g & Hg & Hh).
        assert (Hbt : b <> this) by congruence. assert (Hbr : b <> right_) by congruence.
        apply wp_bind. eapply wp_bx_ptr; [done|]. apply wp_bind. eapply (wp_Construct_ptr SSO); [done|done|]. intros s1 A1 A2 A3 A4.
        eapply (wp_Switch_to_buf SSO); [rewrite A2 by done; done|rewrite A4 by done; done|]. intros s2 B1 B2 B3 B4.
        apply wp_bind, wp_set_res. apply wp_bind, wp_set_size. apply wp_bind, wp_set_size. apply wp_bind, wp_set_res. us. apply wp_bind, wp_bx_buf; [us; by rewrite B3|].
        eapply wp_store; [us; exact B1|us; rewrite replicate_length; cbn; lia|]. us. apply HQ.
        eapply (take_done _ _ _ _ _ gt gr (replicate (SSO + 1) None) (splice (replicate (SSO + 1) None) 0 [Some nul])); try done.
        * us. rewrite B2, A1 by done. by rewrite Hht.
        * by rewrite replicate_length.
        * us. by rewrite Hhr.
        * rewrite splice_length; rewrite replicate_length; cbn; lia.
        * congruence.
        * us. rewrite B4, A3 by done. cbn. destruct (sstr s right_). cbn in *. by subst.
        * us. by rewrite B3.
        * intros t H1 H2. us. by rewrite B4, A4.
        * intros r H1 H2. us. by rewrite B2, A2.
      + rewrite bool_decide_false by (by intros [? ?]). apply wp_bind, wp_bx_buf; [done|]. apply wp_bind, wp_bx_buf; [done|]. destruct (rep_small _ _ _ _ _ _ Hrep Eb) as (g & Hg & _ & _ & H1 & H2 & _).
        assert (g = gr) as -> by congruence.
        apply wp_bind, wp_uadd; [lia|]. eapply wp_copy; [lia|done|done|done|cbn; lia|cbn; lia|].
        apply wp_bind, wp_set_res. apply wp_bind, wp_set_size. apply wp_bind, wp_set_size. apply wp_bind, wp_set_res. us. apply wp_bind, wp_bx_buf; [by us|].
        eapply wp_store; [us; exact Hgr|cbn; lia|]. us. apply HQ.
        eapply (take_done _ _ _ _ _ gt gr (splice (rdata gt) 0 (cells (rdata gr) 0 (ssz (sstr s right_) + 1))) (splice (rdata gr) 0 [Some nul])); try done.
        * us. by rewrite Hht.
        * rewrite splice_length; rewrite ?cells_length; lia.
        * us. by rewrite Hhr.
        * rewrite splice_length; cbn; lia.
        * intros _. split; [intros i Hi; rewrite splice_cells by lia; rewrite decide_True by lia; rewrite Nat.sub_0_r; by apply H1|].
          rewrite splice_cells by lia. rewrite decide_True by lia. rewrite Nat.sub_0_r. done.
        * us. rewrite Hnb. destruct (sstr s right_). cbn in *. by subst.
        * us. by rewrite Eb.
        * intros t H3 H4. by us.
        * intros r H3 H4. by us.
  Qed.
  Lemma taken_mono this right_ s s0 l s' : (forall r, smem s0 r = smem s r) -> (forall t, t <> this -> sstr s0 t = sstr s t) -> sblk (sstr s this) = sblk (sstr s0 this) -> this <> right_ -> taken this right_ s0 l s' -> taken this right_ s l s'.
  Proof.
    intros Hm Hs Hb Hne (H1 & H2 & (F1 & F2 & F3 & F4) & H4 & H5 & H6 & H7). unfold taken, capacity in *. rewrite (Hs right_) in * by done. split_and!; try done.
    assert (Hos : forall b, owned s [this; right_] b <-> owned s0 [this; right_] b) by (intros b; rewrite !owned2, (Hs right_), Hb by done; done).
    split_and!.
    - intros t Ht. rewrite F1 by done. apply Hs. intros ->. apply Ht. by left.
    - intros r Hr Ho Ho'. rewrite <-Hm. apply F2; [done| |done]. by rewrite <-Hos.
    - intros b Ho Ho'. rewrite <-Hm. apply F3; [done|]. by rewrite <-Hos.
    - intros b Ho Ho'. apply F4; [|done]. by rewrite <-Hos.
  Qed.
  Theorem move_construct_ok s this right_ l : this <> right_ -> wfm s -> raw s this -> rep s right_ l ->
    match move_construct nul SSO smax canmemcpy this right_ s with Ok _ s' => taken this right_ s l s' | _ => False end.
  Proof.
    intros Hne Hw Hraw Hrep. assert (HH : wp (move_construct nul SSO smax canmemcpy this right_) (fun _ s' => taken this right_ s l s') (fun _ _ => False) s).
    { unfold move_construct. apply wp_bind. unfold fresh. apply wp_set. destruct Hraw as [Hso Hnb]. eapply (wp_Take _ _ _ l); [done|done| | |].
      - split; [done|]. us. done.
      - destruct Hrep as (d & Hsh & Hr). exists d. unfold StringSpec.shape in *. cbv zeta in *. us. done.
      - intros s' Ht. eapply taken_mono; [|..|exact Ht]; us; try done. intros t Ht'. by us. }
    unfold wp in HH. by destruct (move_construct _ _ _ _ _ _ s).
  Qed.
  Theorem move_assign_ok s this right_ l m : wfm s -> rep s this m -> rep s right_ l -> apart s this right_ ->
    match move_assign nul SSO smax canmemcpy this right_ s with Ok _ s' =>
      rep s' this l /\ rep s' right_ [] /\ frame [this; right_] s s' /\ wfm s' /\ capacity s' this = capacity s right_ /\ sblk (sstr s' this) = sblk (sstr s right_) | _ => False end.
  Proof.
    intros Hw Hrep1 Hrep2 [Hne Hap]. assert (HH : wp (move_assign nul SSO smax canmemcpy this right_) (fun _ s' =>
      rep s' this l /\ rep s' right_ [] /\ frame [this; right_] s s' /\ wfm s' /\ capacity s' this = capacity s right_ /\ sblk (sstr s' this) = sblk (sstr s right_)) (fun _ _ => False) s).
    { unfold move_assign. rewrite decide_False by done. apply wp_bind. eapply (wp_Tidy nul SSO mx smax Hsm HSSO); [done|exact Hrep1|]. intros s1 H1 H2 H3 H4.
      pose proof (rep_sso _ _ _ _ _ _ Hrep1) as (gt & Hgt & Hht & Hlt). pose proof (rep_sso _ _ _ _ _ _ Hrep2) as (gr & Hgr & Hhr & Hlr).
      assert (Hr1 : rep s1 right_ l).
      { eapply frame_other; [exact H2|done| |].
        - intros Hx. apply elem_of_list_singleton in Hx. congruence.
        - intros t ->%elem_of_list_singleton. split_and!; [done| |].
          + intros Hb. destruct (rep_blk _ _ _ _ _ _ _ Hrep1 Hb) as (g & ? & ?). congruence.
          + intros Hb. destruct (rep_blk _ _ _ _ _ _ _ Hrep2 Hb) as (g & ? & ?). congruence. }
      eapply (wp_Take s1 _ _ l); [done|done|split; [by eapply rep_sso|by rewrite H4]|done|]. intros s' (T1 & T2 & T3 & T4 & T5 & T6 & T7).
      assert (Hsame : sstr s1 right_ = sstr s right_) by (apply H2; intros Hx; apply elem_of_list_singleton in Hx; congruence).
      unfold capacity in *. rewrite Hsame in *. split_and!; try done. apply (frame_trans _ s s1); [| |done].
      - intros t Ht. apply elem_of_cons in Ht as [->|Ht]; [destruct (rep_sso _ _ _ _ _ _ H1) as (? & ? & _); congruence|]. apply elem_of_list_singleton in Ht as ->.
        destruct (rep_sso _ _ _ _ _ _ Hr1) as (? & ? & _); congruence.
      - eapply frame_weaken; [|exact H2]. intros t ->%elem_of_list_singleton. by left. }
    unfold wp in HH. by destruct (move_assign _ _ _ _ _ _ s).
  Qed.

  (** *** swap *)
  Definition swapped (a b : nat) s l m s' : Prop :=
    rep s' a m /\ rep s' b l /\ frame [a; b] s s' /\ wfm s' /\ capacity s' a = capacity s b /\ capacity s' b = capacity s a /\
    sblk (sstr s' a) = sblk (sstr s b) /\ sblk (sstr s' b) = sblk (sstr s a).
  Lemma swap_done s s' a b l m ga gb da db : wfm s -> rep s a l -> rep s b m -> a <> b -> smem s a = Some ga -> smem s b = Some gb ->
    smem s' a = Some (Region (rbase ga) false da) -> length da = SSO + 1 -> smem s' b = Some (Region (rbase gb) false db) -> length db = SSO + 1 ->
    (sblk (sstr s b) = None -> holds da 0 m /\ da !! length m = Some (Some nul)) -> (sblk (sstr s a) = None -> holds db 0 l /\ db !! length l = Some (Some nul)) ->
    sstr s' a = sstr s b -> sstr s' b = sstr s a -> (forall t, t <> a -> t <> b -> sstr s' t = sstr s t) -> (forall r, r <> a -> r <> b -> smem s' r = smem s r) -> swapped a b s l m s'.
  Proof.
    intros Hw Ha Hb Hne Hga Hgb Hga' Hla Hgb' Hlb H1 H2 Hva Hvb Hvo Hmo.
    pose proof (rep_sso _ _ _ _ _ _ Ha) as (ga0 & Hga0 & Hha & Hla0). pose proof (rep_sso _ _ _ _ _ _ Hb) as (gb0 & Hgb0 & Hhb & Hlb0). rewrite Hga in Hga0. rewrite Hgb in Hgb0. injection Hga0 as <-. injection Hgb0 as <-.
    assert (Hda : forall x, sblk (sstr s a) = Some x -> x <> a /\ x <> b) by (intros x Hx; destruct (rep_blk _ _ _ _ _ _ _ Ha Hx) as (g & Hg & Hh); split; intros ->; congruence).
    assert (Hdb : forall x, sblk (sstr s b) = Some x -> x <> a /\ x <> b) by (intros x Hx; destruct (rep_blk _ _ _ _ _ _ _ Hb Hx) as (g & Hg & Hh); split; intros ->; congruence).
    unfold swapped, capacity. rewrite Hva, Hvb. split_and!; try done.
    - eapply rep_moved; [exact Hb|done|eexists; split; [exact Hga'|done]| |].
      + intros x Hx. destruct (Hdb x Hx). by apply Hmo.
      + intros Hx. eexists. split; [exact Hga'|]. by apply H1.
    - eapply rep_moved; [exact Ha|done|eexists; split; [exact Hgb'|done]| |].
      + intros x Hx. destruct (Hda x Hx). by apply Hmo.
      + intros Hx. eexists. split; [exact Hgb'|]. by apply H2.
    - apply frame_same.
      + intros t Ht'. apply Hvo; intros ->; apply Ht'; [by left|by right; left].
      + intros t Ht'. apply Hmo; intros ->; apply Ht'; [by left|by right; left].
      + intros x. rewrite !owned2, Hva, Hvb. tauto.
    - eapply wfm_ext; [done|]. intros r g' Hg'. destruct (decide (r = a)) as [->|].
      { exists ga. rewrite Hga' in Hg'. injection Hg' as <-. cbn. split_and!; try done. by rewrite Hla0. }
      destruct (decide (r = b)) as [->|].
      { exists gb. rewrite Hgb' in Hg'. injection Hg' as <-. cbn. split_and!; try done. by rewrite Hlb0. }
      rewrite Hmo in Hg' by done. eauto.
  Qed.
  Lemma wp_large_small s a b l m x (Q : unit -> ST -> Prop) X : rep s a l -> rep s b m -> a <> b -> sblk (sstr s a) = Some x -> sblk (sstr s b) = None ->
    (forall s' ga gb da db, smem s a = Some ga -> smem s b = Some gb -> smem s' a = Some (Region (rbase ga) false da) -> length da = SSO + 1 -> smem s' b = Some (Region (rbase gb) false db) -> length db = SSO + 1 ->
       holds da 0 m /\ da !! length m = Some (Some nul) -> sstr s' a = StrVal (ssz (sstr s a)) (sres (sstr s a)) None -> sstr s' b = StrVal (ssz (sstr s b)) (sres (sstr s b)) (Some x) ->
       (forall t, t <> a -> t <> b -> sstr s' t = sstr s t) -> (forall r, r <> a -> r <> b -> smem s' r = smem s r) -> Q tt s') ->
    wp (Swap_bx_large_with_small SSO a b) Q X s.
  Proof.
    intros Ha Hb Hne Hx Hn HQ. destruct (rep_small _ _ _ _ _ _ Hb Hn) as (gb & Hgb & Hhb & Hlb & H1 & H2 & Hlm & Hrm). pose proof (rep_sso _ _ _ _ _ _ Ha) as (ga & Hga & Hha & Hla).
    pose proof (rep_sizes _ _ _ _ _ _ Hb) as (_ & Hsz & _).
    unfold Swap_bx_large_with_small. apply wp_bind. eapply wp_bx_ptr; [done|]. apply wp_bind. eapply (wp_Switch_to_buf SSO); [done|done|]. intros s1 A1 A2 A3 A4.
    apply wp_bind, wp_bx_buf; [by rewrite A3|]. apply wp_bind, wp_bx_buf; [by rewrite A4|]. apply wp_bind. eapply wp_copy; [lia|done|exact A1|cbn; rewrite A2 by done; exact Hgb|cbn; rewrite replicate_length; lia|cbn; lia|]. us.
    eapply (wp_Construct_ptr SSO); [us; rewrite A2 by done; done|us; by rewrite A4|]. intros s2 B1 B2 B3 B4. us.
    eapply (HQ s2 ga gb (splice (replicate (SSO + 1) None) 0 (cells (rdata gb) 0 (SSO + 1))) (replicate (SSO + 1) None)); try done.
    - rewrite B2 by done. us. rewrite Hha. done.
    - rewrite splice_length; rewrite ?cells_length; rewrite ?replicate_length; lia.
    - rewrite B1. by rewrite Hhb.
    - by rewrite replicate_length.
    - split; [intros i Hi|]; rewrite splice_cells by (rewrite ?replicate_length; lia); rewrite decide_True by lia; rewrite Nat.sub_0_r; [by apply H1|done].
    - rewrite B4 by done. us. by rewrite A3.
    - rewrite B3. us. by rewrite A4.
    - intros t Ht1 Ht2. rewrite B4 by done. us. by rewrite A4.
    - intros r Hr1 Hr2. rewrite B2 by done. us. by rewrite A2.
  Qed.
  Theorem swap_ok s a b l m : wfm s -> rep s a l -> rep s b m -> a <> b ->
    match swap SSO smax canmemcpy a b s with Ok _ s' => swapped a b s l m s' | _ => False end.
  Proof.
    intros Hw Ha Hb Hne.
    pose proof (rep_sso _ _ _ _ _ _ Ha) as (ga & Hga & Hha & Hla). pose proof (rep_sso _ _ _ _ _ _ Hb) as (gb & Hgb & Hhb & Hlb).
    pose proof (rep_sizes _ _ _ _ _ _ Ha) as (Hlla & Hsza & HSa & Hblka). pose proof (rep_sizes _ _ _ _ _ _ Hb) as (Hllb & Hszb & HSb & Hblkb).
    assert (HH : wp (swap SSO smax canmemcpy a b) (fun _ s' => swapped a b s l m s') (fun _ _ => False) s).
    { unfold swap. rewrite decide_False by done. apply wp_bind, wp_get. apply wp_bind, wp_get. destruct canmemcpy.
      - apply wp_bind. eapply wp_get_data; [done|]. apply wp_bind. eapply wp_get_data; [done|]. apply wp_bind, wp_set. apply wp_bind. eapply wp_set_data; [done|]. us. apply wp_bind, wp_set. eapply wp_set_data; [us; done|]. us.
        eapply (swap_done _ _ _ _ _ _ ga gb (rdata gb) (rdata ga)); try done; us; rewrite ?Hha, ?Hhb; try done.
        + intros Hx. destruct (rep_small _ _ _ _ _ _ Hb Hx) as (g & Hg & _ & _ & H1 & H2 & _). assert (g = gb) as -> by congruence. done.
        + intros Hx. destruct (rep_small _ _ _ _ _ _ Ha Hx) as (g & Hg & _ & _ & H1 & H2 & _). assert (g = ga) as -> by congruence. done.
        + intros t H1 H2. by us.
        + intros t H1 H2. by us.
      - rewrite (rep_large _ _ _ _ _ _ Ha), (rep_large _ _ _ _ _ _ Hb). apply wp_bind.
        assert (Heta : forall v : strval, StrVal (ssz v) (sres v) (sblk v) = v) by (by intros []).
        destruct (sblk (sstr s a)) as [x|] eqn:Ea, (sblk (sstr s b)) as [y|] eqn:Eb; first [rewrite bool_decide_true by done | rewrite bool_decide_false by (by intros [? ?])]; try first [rewrite bool_decide_true by done | rewrite bool_decide_false by (by intros [? ?])].
        + apply wp_bind. eapply wp_bx_ptr; [done|]. apply wp_bind. eapply wp_bx_ptr; [done|]. apply wp_bind. eapply wp_assign_ptr; [done|]. intros s1 A1 A2 A3. eapply wp_assign_ptr; [rewrite A3 by done; done|]. intros s2 B1 B2 B3.
          apply wp_bind, wp_set_size. apply wp_bind, wp_set_size. apply wp_bind, wp_set_res. apply wp_set_res. us.
          eapply (swap_done _ _ _ _ _ _ ga gb (rdata ga) (rdata gb)); try done; us; rewrite ?B1, ?A1, ?Hga, ?Hgb; try done.
          * destruct ga; cbn in *; by subst.
          * destruct gb; cbn in *; by subst.
          * congruence.
          * congruence.
          * rewrite B3, A2 by done. cbn. rewrite <-Eb. apply Heta.
          * rewrite B2. cbn. rewrite <-Ea. apply Heta.
          * intros t H1 H2. us. by rewrite B3, A3.
          * intros r H1 H2. us. by rewrite B1, A1.
        + eapply (wp_large_small s a b l m); [done..|]. intros s' ga' gb' da db Hga' Hgb' C1 C2 C3 C4 C5 C6 C7 C8 C9.
          apply wp_bind, wp_set_size. apply wp_bind, wp_set_size. apply wp_bind, wp_set_res. apply wp_set_res. us. assert (ga' = ga) as -> by congruence. assert (gb' = gb) as -> by congruence.
          eapply (swap_done _ _ _ _ _ _ ga gb da db); try done; us; try done.
          * congruence.
          * rewrite C6. cbn. rewrite <-Eb. apply Heta.
          * rewrite C7. cbn. rewrite <-Ea. apply Heta.
          * intros t H1 H2. us. by rewrite C8.
        + eapply (wp_large_small s b a m l); [done..|]. intros s' gb' ga' db da Hgb' Hga' C1 C2 C3 C4 C5 C6 C7 C8 C9.
          apply wp_bind, wp_set_size. apply wp_bind, wp_set_size. apply wp_bind, wp_set_res. apply wp_set_res. us. assert (ga' = ga) as -> by congruence. assert (gb' = gb) as -> by congruence.
          eapply (swap_done _ _ _ _ _ _ ga gb da db); try done; us; try done.
          * congruence.
          * rewrite C7. cbn. rewrite <-Eb. apply Heta.
          * rewrite C6. cbn. rewrite <-Ea. apply Heta.
          * intros t H1 H2. us. by rewrite C8.
          * intros r H1 H2. us. by rewrite C9.
        + destruct (rep_small _ _ _ _ _ _ Ha Ea) as (g & Hg & _ & _ & A1 & A2 & _ & HrA). assert (g = ga) as -> by congruence. destruct (rep_small _ _ _ _ _ _ Hb Eb) as (g & Hg' & _ & _ & B1 & B2 & _ & HrB). assert (g = gb) as -> by congruence.
          apply wp_bind, wp_bx_buf; [done|]. apply wp_bind, wp_bx_buf; [done|]. apply wp_bind, wp_uadd; [lia|]. apply wp_bind, wp_uadd; [lia|].
          apply wp_bind. eapply wp_load; [exact Hga|cbn; lia|]. apply wp_bind. eapply wp_copy; [lia|done|exact Hga|exact Hgb|cbn; lia|cbn; lia|]. us. eapply wp_store; [us; exact Hgb|cbn; rewrite cells_length; lia|]. us.
          apply wp_bind, wp_set_size. apply wp_bind, wp_set_size. apply wp_bind, wp_set_res. apply wp_set_res. us.
          eapply (swap_done _ _ _ _ _ _ ga gb (splice (rdata ga) 0 (cells (rdata gb) 0 (ssz (sstr s b) + 1))) (splice (rdata gb) 0 (cells (rdata ga) 0 (ssz (sstr s a) + 1)))); try done; us; rewrite ?Hha, ?Hhb; try done.
          * rewrite splice_length; rewrite ?cells_length; lia.
          * rewrite splice_length; rewrite ?cells_length; lia.
          * intros _. split; [intros i Hi|]; rewrite splice_cells by lia; rewrite decide_True by lia; rewrite Nat.sub_0_r; [by apply B1|done].
          * intros _. split; [intros i Hi|]; rewrite splice_cells by lia; rewrite decide_True by lia; rewrite Nat.sub_0_r; [by apply A1|done].
          * rewrite Ea, <-Eb. apply Heta.
          * rewrite Eb, <-Ea. apply Heta.
          * intros t H1 H2. by us.
          * intros r H1 H2. by us. }
    unfold wp in HH. by destruct (swap _ _ _ _ _ s).
  Qed.
End ops.
