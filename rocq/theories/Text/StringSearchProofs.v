From stdpp Require Import base list numbers decidable.
From Coq Require Import ZArith Lia.
From Verif Require Import Base.Res Base.Int Text.StringSearchModel Text.StringSearchSpec.
Local Open Scope nat_scope.

Lemma rdc_ok a i c : a !! i = Some c -> rdc a i = Ok c.
Proof. unfold rdc. by intros ->. Qed.
Lemma rdc_lt a i : i < length a -> exists c, a !! i = Some c /\ rdc a i = Ok c.
Proof. intros H. destruct (lookup_lt_is_Some_2 a i H) as [c Hc]. exists c. split; [done|]. by apply rdc_ok. Qed.

Lemma occurs_iff hay needle i :
  occurs hay needle i <-> i + length needle <= length hay /\ take (length needle) (drop i hay) = needle.
Proof.
  split.
  - intros (pre & post & -> & <-). rewrite !app_length. split; [lia|].
    rewrite drop_app. by rewrite take_app.
  - intros [Hl Ht]. exists (take i hay), (drop (i + length needle) hay). split.
    + rewrite <- Ht at 1. rewrite <- (take_drop i hay) at 1. f_equal.
      rewrite <- drop_drop. rewrite (take_drop (length needle) (drop i hay)). done.
    + rewrite take_length. lia.
Qed.

Section s.
  Context (narrow : bool).
  Notation key := (okey narrow).
  Notation cmp := (tcompare narrow).

  (* compare on the substrings starting at i, j *)
  Lemma tcompare_ok a b n : forall i j, i + n <= length a -> j + n <= length b ->
    exists c, cmp a i b j n = Ok c /\
     ((c = 0%Z /\ take n (drop i a) = take n (drop j b)) \/
      (c <> 0%Z /\ exists p x y, p < n /\ take p (drop i a) = take p (drop j b) /\ a !! (i + p) = Some x /\ b !! (j + p) = Some y /\ x <> y /\
         c = if decide (key x < key y)%Z then (-1)%Z else 1%Z)).
  Proof.
    induction n as [|n IH]; intros i j Hi Hj; simpl.
    - exists 0%Z. split; [done|]. left. done.
    - destruct (rdc_lt a i) as (x & Hx & ->); [lia|]. destruct (rdc_lt b j) as (y & Hy & ->); [lia|]. rewrite !rbind_ok.
      destruct (decide (x <> y)) as [Hne|He].
      + eexists. split; [done|]. right. split; [by destruct (decide _)|]. exists 0, x, y. rewrite !Nat.add_0_r. split_and!; try done. lia.
      + apply dec_stable in He. subst y. destruct (IH (S i) (S j)) as (c & Hc & H); [lia..|]. exists c. split; [done|].
        rewrite (drop_S a x i Hx), (drop_S b x j Hy). simpl. destruct H as [[-> He]|(Hc0 & p & x' & y' & Hp & Ht & Hx' & Hy' & Hne & Hcc)].
        * left. by rewrite He.
        * right. split; [done|]. exists (S p), x', y'. simpl. rewrite Ht. rewrite !Nat.add_succ_r. split_and!; try done. lia.
  Qed.
  Lemma tcompare_eq0 a b n i j : i + n <= length a -> j + n <= length b ->
    exists c, cmp a i b j n = Ok c /\ (c = 0%Z <-> take n (drop i a) = take n (drop j b)).
  Proof.
    intros Hi Hj. destruct (tcompare_ok a b n i j Hi Hj) as (c & Hc & H). exists c. split; [done|].
    destruct H as [[-> He]|(Hc0 & p & x & y & Hp & _ & Hx & Hy & Hne & _)]; [done|].
    split; [done|]. intros He. exfalso. apply Hne.
    assert (H : take n (drop i a) !! p = take n (drop j b) !! p) by by rewrite He.
    rewrite !lookup_take, !lookup_drop in H by lia. rewrite Hx, Hy in H. congruence.
  Qed.
  (* at a needle position *)
  Lemma tcompare_occurs hay needle m : m + length needle <= length hay ->
    exists c, cmp hay m needle 0 (length needle) = Ok c /\ (c = 0%Z <-> occurs hay needle m).
  Proof.
    intros H. destruct (tcompare_eq0 hay needle (length needle) m 0) as (c & Hc & Hi); [lia..|].
    exists c. split; [done|]. rewrite Hi, occurs_iff. change (drop 0 needle) with needle. rewrite firstn_all.
    split; [done|]. by intros [_ ?].
  Qed.

  Lemma tfind_ok a ch n : forall i, i + n <= length a -> exists r, tfind a i n ch = Ok r /\
    match r with
    | Some m => i <= m < i + n /\ a !! m = Some ch /\ forall j, i <= j < m -> a !! j <> Some ch
    | None => forall j, i <= j < i + n -> a !! j <> Some ch
    end.
  Proof.
    induction n as [|n IH]; intros i Hi; simpl.
    - exists None. split; [done|]. lia.
    - destruct (rdc_lt a i) as (x & Hx & ->); [lia|]. rewrite rbind_ok. destruct (decide (x = ch)) as [->|Hne].
      + exists (Some i). split; [done|]. split; [lia|]. split; [done|]. lia.
      + destruct (IH (S i)) as (r & -> & Hr); [lia|]. exists r. split; [done|]. destruct r as [m|].
        * destruct Hr as (Hm & Hmc & Hn). split; [lia|]. split; [done|]. intros j Hj. destruct (decide (j = i)) as [->|]; [congruence|apply Hn; lia].
        * intros j Hj. destruct (decide (j = i)) as [->|]; [congruence|apply Hr; lia].
  Qed.

  Lemma occurs_head hay needle c0 m : needle !! 0 = Some c0 -> occurs hay needle m -> hay !! m = Some c0.
  Proof.
    intros H0 (pre & post & -> & <-). rewrite lookup_app_r by lia. rewrite Nat.sub_diag.
    rewrite lookup_app_l; [done|]. by apply lookup_lt_Some in H0.
  Qed.
  Lemma occurs_bound hay needle m : occurs hay needle m -> m + length needle <= length hay.
  Proof. rewrite occurs_iff. by intros [? _]. Qed.

  Lemma find_ok hay start needle : exists r,
    Traits_find narrow hay start needle = Ok r /\ first_match (occurs hay needle) start r.
  Proof.
    unfold Traits_find.
    destruct (decide (length hay < length needle \/ length hay - length needle < start)) as [H|H].
    { exists None. split; [done|]. intros j Hj Ho. apply occurs_bound in Ho. lia. }
    destruct (decide (length needle = 0)) as [H0|H0].
    { exists (Some start). split; [done|]. split; [lia|]. split; [|lia]. rewrite occurs_iff, H0. split; [lia|].
      destruct needle; [done|discriminate]. }
    apply wp_exists. destruct (rdc_lt needle 0) as (c0 & Hc0 & Hr0); [lia|].
    apply (wp_loop (fun m => start <= m <= length hay - length needle + 1 /\ forall j, start <= j < m -> ~ occurs hay needle j)
             (fun m => length hay + 1 - m)).
    - intros m [Hm Hn]. rewrite bool_decide_true by lia. simpl rassert. rewrite rbind_ok, Hr0, rbind_ok.
      destruct (tfind_ok hay c0 (length hay - length needle + 1 - m) m) as (r & -> & Hr); [lia|]. rewrite rbind_ok.
      destruct r as [m'|].
      + destruct Hr as (Hm' & Hc & Hlt). destruct (tcompare_occurs hay needle m') as (c & -> & Hoc); [lia|]. rewrite rbind_ok.
        assert (Hj : forall j, start <= j < m' -> ~ occurs hay needle j).
        { intros j Hj Ho. destruct (decide (j < m)); [by apply (Hn j); [lia|]|].
          apply (Hlt j); [lia|]. by eapply occurs_head. }
        destruct (decide (c = 0%Z)) as [Hz|Hz]; apply wp_ok; cbv beta iota.
        * split; [lia|]. split; [tauto|]. done.
        * split; [|lia]. split; [lia|]. intros j Hj'. destruct (decide (j = m')) as [->|]; [tauto|]. apply Hj. lia.
      + apply wp_ok; cbv beta iota. intros j Hj Ho. destruct (decide (j < m)); [by apply (Hn j); [lia|]|].
        pose proof (occurs_bound _ _ _ Ho). apply (Hr j); [lia|]. by eapply occurs_head.
    - split; lia.
    - lia.
  Qed.

  Lemma find_ch_ok hay start ch : exists r,
    Traits_find_ch hay start ch = Ok r /\ first_match (fun i => hay !! i = Some ch) start r.
  Proof.
    unfold Traits_find_ch. destruct (decide (length hay <= start)) as [H|H].
    - exists None. split; [done|]. intros j Hj Hl. apply lookup_lt_Some in Hl. lia.
    - destruct (tfind_ok hay ch (length hay - start) start) as (r & -> & Hr); [lia|]. exists r. split; [done|].
      destruct r as [m|].
      + destruct Hr as (? & ? & ?). split; [lia|]. done.
      + intros j Hj Hl. apply (Hr j); [|done]. apply lookup_lt_Some in Hl. lia.
  Qed.

  Lemma scan_up_ok hay f (P : Z -> Prop) n : (forall c, c ∈ hay -> exists b, f c = Ok b /\ (b = true <-> P c)) ->
    forall lo, lo + n = length hay -> exists r,
    scan_up hay n lo f = Ok r /\ first_match (fun i => exists c, hay !! i = Some c /\ P c) lo r.
  Proof.
    intros Hf. induction n as [|n IH]; intros lo Hlo; simpl.
    - exists None. split; [done|]. intros j Hj (c & Hl & _). apply lookup_lt_Some in Hl. lia.
    - destruct (rdc_lt hay lo) as (x & Hx & ->); [lia|]. rewrite rbind_ok.
      destruct (Hf x) as (b & -> & Hb); [by eapply elem_of_list_lookup_2|]. rewrite rbind_ok. destruct b.
      + exists (Some lo). split; [done|]. split; [lia|]. split; [|lia]. exists x. split; [done|]. by apply Hb.
      + assert (Hnx : ~ P x) by (intros HP; apply Hb in HP; done).
        destruct (IH (S lo)) as (r & -> & Hr); [lia|]. exists r. split; [done|].
        assert (Hnlo : ~ exists c, hay !! lo = Some c /\ P c) by (intros (c & Hc & HP); congruence).
        destruct r as [m|].
        * destruct Hr as (Hm & HP & Hn). split; [lia|]. split; [done|]. intros j Hj. destruct (decide (j = lo)) as [->|]; [done|]. apply Hn. lia.
        * intros j Hj. destruct (decide (j = lo)) as [->|]; [done|]. apply Hr. lia.
  Qed.

  Lemma scan_down_ok f (P : nat -> Prop) : forall hi, (forall m, m <= hi -> exists b, f m = Ok b /\ (b = true <-> P m)) ->
    exists r, scan_down hi f = Ok r /\ last_match P hi r.
  Proof.
    induction hi as [|hi IH]; intros Hf; simpl.
    - destruct (Hf 0) as (b & -> & Hb); [lia|]. rewrite rbind_ok. destruct b.
      + exists (Some 0). split; [done|]. split; [lia|]. split; [by apply Hb|lia].
      + exists None. split; [done|]. intros j Hj HP. replace j with 0 in HP by lia. apply Hb in HP. done.
    - destruct (Hf (S hi)) as (b & -> & Hb); [lia|]. rewrite rbind_ok. destruct b.
      + exists (Some (S hi)). split; [done|]. split; [lia|]. split; [by apply Hb|lia].
      + assert (Hn : ~ P (S hi)) by (intros HP; apply Hb in HP; done).
        destruct IH as (r & -> & Hr); [intros m Hm; apply Hf; lia|]. exists r. split; [done|]. destruct r as [m|].
        * destruct Hr as (? & ? & Hlt). split; [lia|]. split; [done|]. intros j Hj. destruct (decide (j = S hi)) as [->|]; [done|]. apply Hlt; lia.
        * intros j Hj. destruct (decide (j = S hi)) as [->|]; [done|]. apply Hr; lia.
  Qed.

  Lemma last_match_clamp (P : nat -> Prop) hi hi' r : (forall j, P j -> j <= hi') ->
    last_match P (hi `min` hi') r -> last_match P hi r.
  Proof.
    intros HP. destruct r as [i|]; simpl.
    - intros (Hi & Hp & Hn). split; [lia|]. split; [done|]. intros j Hj Hpj. apply (Hn j); [|done]. specialize (HP j Hpj). lia.
    - intros Hn j Hj Hpj. apply (Hn j); [|done]. specialize (HP j Hpj). lia.
  Qed.

  Lemma rfind_ok hay start needle : exists r,
    Traits_rfind narrow hay start needle = Ok r /\ last_match (occurs hay needle) start r.
  Proof.
    unfold Traits_rfind. destruct (decide (length needle = 0)) as [H0|H0].
    { exists (Some (start `min` length hay)). split; [done|]. split; [lia|]. split.
      - rewrite occurs_iff, H0. split; [lia|]. destruct needle; [done|discriminate].
      - intros j Hj Ho. apply occurs_bound in Ho. lia. }
    destruct (decide (length hay < length needle)).
    { exists None. split; [done|]. intros j _ Ho. apply occurs_bound in Ho. lia. }
    match goal with |- context [scan_down ?h ?f] => destruct (scan_down_ok f (occurs hay needle) h) as (r & -> & Hr) end.
    - intros m Hm. destruct (rdc_lt hay m) as (x & Hx & ->); [lia|]. destruct (rdc_lt needle 0) as (y & Hy & ->); [lia|].
      rewrite !rbind_ok. destruct (decide (x = y)) as [->|Hne].
      + destruct (tcompare_occurs hay needle m) as (c & -> & Hc); [lia|]. rewrite rbind_ok. eexists. split; [done|].
        rewrite bool_decide_eq_true. done.
      + exists false. split; [done|]. split; [done|]. intros Ho. apply (occurs_head _ _ y) in Ho; [|done]. congruence.
    - exists r. split; [done|]. eapply last_match_clamp; [|exact Hr]. intros j Ho. apply occurs_bound in Ho. lia.
  Qed.

  Lemma rscan_ok hay start f (P : Z -> Prop) : length hay <> 0 ->
    (forall c, c ∈ hay -> exists b, f c = Ok b /\ (b = true <-> P c)) ->
    exists r, scan_down (start `min` (length hay - 1)) (fun m => c <~ rdc hay m ;; f c) = Ok r /\
              last_match (fun i => exists c, hay !! i = Some c /\ P c) start r.
  Proof.
    intros Hl Hf.
    match goal with |- context [scan_down ?h ?f] => destruct (scan_down_ok f (fun i => exists c, hay !! i = Some c /\ P c) h) as (r & -> & Hr) end.
    - intros m Hm. destruct (rdc_lt hay m) as (x & Hx & ->); [lia|]. rewrite rbind_ok.
      destruct (Hf x) as (b & -> & Hb); [by eapply elem_of_list_lookup_2|]. exists b. split; [done|]. rewrite Hb. split.
      + intros HP. eauto.
      + intros (c & Hc & HP). congruence.
    - exists r. split; [done|]. eapply last_match_clamp; [|exact Hr]. intros j (c & Hc & _). apply lookup_lt_Some in Hc. lia.
  Qed.

  Lemma first_match_ext (P P' : nat -> Prop) lo r : (forall i, P i <-> P' i) -> first_match P lo r -> first_match P' lo r.
  Proof.
    intros He. destruct r as [i|]; simpl.
    - intros (? & ? & Hn). split; [done|]. split; [by apply He|]. intros j Hj. rewrite <- He. by apply Hn.
    - intros Hn j Hj. rewrite <- He. by apply Hn.
  Qed.
  Lemma last_match_ext (P P' : nat -> Prop) lo r : (forall i, P i <-> P' i) -> last_match P lo r -> last_match P' lo r.
  Proof.
    intros He. destruct r as [i|]; simpl.
    - intros (? & ? & Hn). split; [done|]. split; [by apply He|]. intros j Hj. rewrite <- He. by apply Hn.
    - intros Hn j Hj. rewrite <- He. by apply Hn.
  Qed.

  Lemma rfind_ch_ok hay start ch : exists r,
    Traits_rfind_ch hay start ch = Ok r /\ last_match (fun i => hay !! i = Some ch) start r.
  Proof.
    unfold Traits_rfind_ch. destruct (decide (length hay = 0)) as [H0|H0].
    { exists None. split; [done|]. intros j _ Hl. apply lookup_lt_Some in Hl. lia. }
    destruct (rscan_ok hay start (fun x => Ok (bool_decide (x = ch))) (fun x => x = ch)) as (r & -> & Hr); [done| |].
    - intros c _. eexists. split; [done|]. by rewrite bool_decide_eq_true.
    - exists r. split; [done|]. eapply last_match_ext; [|exact Hr]. intros i. split; [by intros (c & ? & ->)|eauto].
  Qed.
  Lemma find_not_ch_ok hay start ch : exists r,
    Traits_find_not_ch hay start ch = Ok r /\ first_match (char_not_in hay [ch]) start r.
  Proof.
    unfold Traits_find_not_ch. destruct (decide (length hay <= start)).
    { exists None. split; [done|]. intros j Hj (c & Hl & _). apply lookup_lt_Some in Hl. lia. }
    destruct (scan_up_ok hay (fun c => Ok (negb (bool_decide (c = ch)))) (fun c => c ∉ [ch]) (length hay - start)) with (lo := start) as (r & -> & Hr); [|lia|].
    - intros c _. eexists. split; [done|]. rewrite elem_of_list_singleton. case_bool_decide; split; auto; done.
    - exists r. done.
  Qed.
  Lemma rfind_not_ch_ok hay start ch : exists r,
    Traits_rfind_not_ch hay start ch = Ok r /\ last_match (char_not_in hay [ch]) start r.
  Proof.
    unfold Traits_rfind_not_ch. destruct (decide (length hay = 0)).
    { exists None. split; [done|]. intros j Hj (c & Hl & _). apply lookup_lt_Some in Hl. lia. }
    destruct (rscan_ok hay start (fun c => Ok (negb (bool_decide (c = ch)))) (fun c => c ∉ [ch])) as (r & -> & Hr); [done| |].
    - intros c _. eexists. split; [done|]. rewrite elem_of_list_singleton. case_bool_decide; split; auto; done.
    - exists r. done.
  Qed.
End s.

Section bitmap.
  Context (t : ity) (handled : bool) (Ht : char_type t).

  Lemma cast_u8_range c : (0 <= cast u8 c < 256)%Z.
  Proof. unfold cast. simpl. apply Z.mod_pos_bound. done. Qed.
  Lemma cast_u8_inj c c' : is_char t = true -> in_t t c -> in_t t c' -> cast u8 c = cast u8 c' -> c = c'.
  Proof.
    unfold is_char. rewrite bool_decide_eq_true. intros Hw. unfold in_t, tmin, tmax. rewrite Hw.
    unfold cast. simpl. intros H1 H2 He. destruct (sg t); simpl in *; change (Z.pow_pos 2 7) with 128%Z in *; change (Z.pow_pos 2 8) with 256%Z in *; Z.div_mod_to_equations; lia.
  Qed.

  Definition bmrep (bm : list bool) (l : list Z) : Prop :=
    length bm = 256 /\ forall k, k < 256 -> (bm !! k = Some true <-> exists c, c ∈ l /\ Z.of_nat k = cast u8 c).

  Lemma bm_set_ok bm l c : bmrep bm l -> exists bm', bm_set bm (cast u8 c) = Ok bm' /\ bmrep bm' (c :: l).
  Proof.
    intros [Hl Hb]. unfold bm_set. pose proof (cast_u8_range c). rewrite decide_True by lia. eexists. split; [done|].
    split; [by rewrite insert_length|]. intros k Hk. destruct (decide (k = Z.to_nat (cast u8 c))) as [->|Hne].
    - rewrite list_lookup_insert by lia. split; [|done]. intros _. exists c. split; [left|]. lia.
    - rewrite list_lookup_insert_ne by done. rewrite Hb by done. split.
      + intros (c' & ? & ?). exists c'. split; [by right|done].
      + intros (c' & Hc' & He). apply elem_of_cons in Hc' as [->|]; [lia|]. eauto.
  Qed.
  Lemma wide_small c : is_char t = false -> in_t t c -> (c < 256)%Z -> cast u8 c = c.
  Proof.
    unfold is_char. rewrite bool_decide_eq_false. intros Hw Hc Hlt. destruct Ht as [_ [?|Hs]]; [done|].
    unfold in_t, tmin in Hc. rewrite Hs in Hc. unfold cast. simpl. change (Z.pow_pos 2 8) with 256%Z. apply Z.mod_small. lia.
  Qed.
  Lemma bm_mark_ok needle : string_of t needle -> forall bm l, bmrep bm l ->
    exists ok bm', bm_mark t bm needle = Ok (ok, bm') /\
      (ok = true -> bmrep bm' (rev needle ++ l) /\ (is_char t = false -> Forall (fun c => c < 256)%Z needle)).
  Proof.
    induction 1 as [|c needle Hc Hn IH]; intros bm l Hr; simpl.
    - eexists _, _. split; [done|]. intros _. split; [done|]. constructor.
    - destruct (bm_set_ok bm l c Hr) as (bm1 & Hs & Hr1). destruct (IH bm1 (c :: l) Hr1) as (ok & bm' & Hm & Hok).
      rewrite Hs, !rbind_ok. rewrite <- app_assoc. simpl. destruct (is_char t) eqn:Hi.
      + eexists _, _. split; [done|]. intros E. destruct (Hok E) as [? _]. split; done.
      + destruct (decide (256 <= c)%Z).
        * eexists _, _. split; [done|]. done.
        * eexists _, _. split; [done|]. intros E. destruct (Hok E) as [? Hf]. split; [done|]. intros _. constructor; [lia|auto].
  Qed.
  Lemma bmrep_empty : bmrep bm_empty [].
  Proof.
    split; [apply replicate_length|]. intros k Hk. unfold bm_empty. rewrite lookup_replicate_2 by done. split; [done|].
    intros (c & Hc & _). by apply elem_of_nil in Hc.
  Qed.
  Lemma in_needle_ok needle c : exists b, in_needle needle c = Ok b /\ (b = true <-> c ∈ needle).
  Proof.
    unfold in_needle. destruct (tfind_ok needle c (length needle) 0) as (r & -> & Hr); [lia|]. rewrite rbind_ok.
    eexists. split; [done|]. rewrite bool_decide_eq_true. destruct r as [m|].
    - split; [|eauto]. intros _. destruct Hr as (_ & Hm & _). by eapply elem_of_list_lookup_2.
    - split; [intros [? ?]; done|]. intros [i Hi]%elem_of_list_lookup. exfalso. apply (Hr i); [|done]. apply lookup_lt_Some in Hi. lia.
  Qed.
  Lemma membership_ok needle : string_of t needle -> exists f, membership t handled needle = Ok f /\
    forall c, in_t t c -> exists b, f c = Ok b /\ (b = true <-> c ∈ needle).
  Proof.
    intros Hn. unfold membership. destruct handled; [|eexists; split; [done|]; intros; apply in_needle_ok].
    destruct (bm_mark_ok needle Hn bm_empty [] bmrep_empty) as (ok & bm & -> & Hok). rewrite rbind_ok.
    destruct ok; [|eexists; split; [done|]; intros; apply in_needle_ok].
    destruct (Hok eq_refl) as [[Hl Hb] Hsm]. eexists. split; [done|]. intros c Hc. unfold bm_match, bm_get.
    pose proof (cast_u8_range c) as Hr.
    assert (Hrev : forall c', c' ∈ rev needle ++ [] <-> c' ∈ needle).
    { intros c'. rewrite app_nil_r. by rewrite !elem_of_list_In, <- in_rev. }
    destruct (is_char t) eqn:Hi.
    - rewrite decide_True by lia. destruct (lookup_lt_is_Some_2 bm (Z.to_nat (cast u8 c))) as [b Hbl]; [lia|]. rewrite Hbl.
      exists b. split; [done|]. assert (Hbt : b = true <-> bm !! Z.to_nat (cast u8 c) = Some true) by (rewrite Hbl; split; congruence).
      rewrite Hbt, Hb by lia. split.
      + intros (c' & Hc' & He). apply Hrev in Hc'. rewrite (cast_u8_inj c c'); [done|done|done| |lia].
        unfold string_of in Hn. rewrite list.Forall_forall in Hn. by apply Hn.
      + intros Hin. exists c. split; [by apply Hrev|lia].
    - destruct (decide (c < 256)%Z) as [Hlt|Hge].
      + pose proof (wide_small c Hi Hc Hlt) as Hcc. rewrite decide_True by lia.
        destruct (lookup_lt_is_Some_2 bm (Z.to_nat c)) as [b Hbl]; [lia|]. rewrite Hbl.
        exists b. split; [done|]. assert (Hbt : b = true <-> bm !! Z.to_nat c = Some true) by (rewrite Hbl; split; congruence).
        rewrite Hbt, Hb by lia. split.
        * intros (c' & Hc' & He). apply Hrev in Hc'. specialize (Hsm eq_refl). rewrite list.Forall_forall in Hsm.
          unfold string_of in Hn. rewrite list.Forall_forall in Hn.
          rewrite (wide_small c') in He; [|done|by apply Hn|by apply Hsm]. replace c with c' by lia. done.
        * intros Hin. exists c. split; [by apply Hrev|lia].
      + exists false. split; [done|]. split; [done|]. intros Hin. specialize (Hsm eq_refl). rewrite list.Forall_forall in Hsm.
        specialize (Hsm c Hin). simpl in Hsm. lia.
  Qed.

  Context (hay needle : list Z) (start : nat) (Hh : string_of t hay) (Hn : string_of t needle).
  Let hay_in c : c ∈ hay -> in_t t c.
  Proof. unfold string_of in Hh. rewrite list.Forall_forall in Hh. auto. Qed.

  Lemma ffo_ok : exists r, Traits_find_first_of t handled hay start needle = Ok r /\ first_match (char_in hay needle) start r.
  Proof.
    unfold Traits_find_first_of. destruct (decide (length needle = 0 \/ length hay <= start)) as [H|H].
    { exists None. split; [done|]. intros j Hj (c & Hl & Hc). destruct H as [H|H].
      - destruct needle; [by apply elem_of_nil in Hc|discriminate].
      - apply lookup_lt_Some in Hl. lia. }
    destruct (membership_ok needle Hn) as (f & -> & Hf). rewrite rbind_ok.
    destruct (scan_up_ok hay f (fun c => c ∈ needle) (length hay - start)) with (lo := start) as (r & -> & Hr); [|lia|].
    - intros c Hc. apply Hf. auto.
    - exists r. done.
  Qed.
  Lemma flo_ok : exists r, Traits_find_last_of t handled hay start needle = Ok r /\ last_match (char_in hay needle) start r.
  Proof.
    unfold Traits_find_last_of. destruct (decide (length needle = 0 \/ length hay = 0)) as [H|H].
    { exists None. split; [done|]. intros j Hj (c & Hl & Hc). destruct H as [H|H].
      - destruct needle; [by apply elem_of_nil in Hc|discriminate].
      - apply lookup_lt_Some in Hl. lia. }
    destruct (membership_ok needle Hn) as (f & -> & Hf). rewrite rbind_ok.
    destruct (rscan_ok hay start f (fun c => c ∈ needle)) as (r & -> & Hr); [lia| |].
    - intros c Hc. apply Hf. auto.
    - exists r. done.
  Qed.
  Let neg_ok f : (forall c, in_t t c -> exists b, f c = Ok b /\ (b = true <-> c ∈ needle)) ->
    forall c, c ∈ hay -> exists b, (b <~ f c ;; Ok (negb b)) = Ok b /\ (b = true <-> c ∉ needle).
  Proof.
    intros Hf c Hc. destruct (Hf c) as (b & -> & Hb); [auto|]. rewrite rbind_ok. exists (negb b). split; [done|].
    rewrite <- Hb. by destruct b.
  Qed.
  Lemma ffno_ok : exists r, Traits_find_first_not_of t handled hay start needle = Ok r /\ first_match (char_not_in hay needle) start r.
  Proof.
    unfold Traits_find_first_not_of. destruct (decide (length hay <= start)) as [H|H].
    { exists None. split; [done|]. intros j Hj (c & Hl & Hc). apply lookup_lt_Some in Hl. lia. }
    destruct (membership_ok needle Hn) as (f & -> & Hf). rewrite rbind_ok.
    destruct (scan_up_ok hay (fun c => b <~ f c ;; Ok (negb b)) (fun c => c ∉ needle) (length hay - start)) with (lo := start) as (r & -> & Hr); [|lia|].
    - by apply neg_ok.
    - exists r. done.
  Qed.
  Lemma flno_ok : exists r, Traits_find_last_not_of t handled hay start needle = Ok r /\ last_match (char_not_in hay needle) start r.
  Proof.
    unfold Traits_find_last_not_of. destruct (decide (length hay = 0)) as [H|H].
    { exists None. split; [done|]. intros j Hj (c & Hl & Hc). apply lookup_lt_Some in Hl. lia. }
    destruct (membership_ok needle Hn) as (f & -> & Hf). rewrite rbind_ok.
    destruct (rscan_ok hay start (fun c => b <~ f c ;; Ok (negb b)) (fun c => c ∉ needle)) as (r & -> & Hr); [lia| |].
    - by apply neg_ok.
    - exists r. done.
  Qed.
End bitmap.

Section cmp.
  Context (t : ity) (narrow : bool) (Hnw : narrow = true -> wd t = 8%Z).
  Notation key := (okey narrow).
  Lemma key_order c : key c = char_order narrow c.
  Proof. unfold okey, char_order, cast. simpl. done. Qed.
  Lemma key_inj x y : in_t t x -> in_t t y -> key x = key y -> x = y.
  Proof.
    unfold okey. destruct narrow; [|done]. intros. eapply (cast_u8_inj t); try done. unfold is_char.
    apply bool_decide_eq_true. auto.
  Qed.

  Lemma equal_ok l r : exists b, Traits_equal narrow l r = Ok b /\ (b = true <-> l = r).
  Proof.
    unfold Traits_equal. destruct (decide (length l <> length r)) as [H|H].
    { exists false. split; [done|]. split; [done|]. by intros ->. }
    destruct (decide (length l = 0)) as [H0|H0].
    { exists true. split; [done|]. split; [|done]. intros _. destruct l, r; simpl in *; try done; lia. }
    apply dec_stable in H. destruct (tcompare_eq0 narrow l r (length l) 0 0) as (c & -> & Hc); [lia..|].
    rewrite rbind_ok. eexists. split; [done|]. rewrite bool_decide_eq_true, Hc.
    change (drop 0 l) with l. change (drop 0 r) with r. by rewrite firstn_all, H, firstn_all.
  Qed.

  Lemma lex_app p l r k : lex_lt k l r -> lex_lt k (p ++ l) (p ++ r).
  Proof. induction p; simpl; [done|]. intros. apply lex_tail. auto. Qed.
  Lemma split_at (l : list Z) p x : l !! p = Some x -> l = take p l ++ x :: drop (S p) l.
  Proof. intros H. symmetry. by apply take_drop_middle. Qed.

  Lemma compare_ok l r : string_of t l -> string_of t r ->
    exists c, Traits_compare narrow l r = Ok c /\ three_way (char_order narrow) l r c.
  Proof.
    intros Hl Hr. unfold Traits_compare.
    destruct (tcompare_ok narrow l r (length l `min` length r) 0 0) as (c & -> & H); [lia..|]. rewrite rbind_ok.
    change (drop 0 l) with l in H. change (drop 0 r) with r in H. destruct H as [[-> He]|(Hc0 & p & x & y & Hp & Ht & Hx & Hy & Hne & Hc)].
    - rewrite decide_False by (intros H; by apply H). destruct (decide (length l < length r)) as [H1|H1].
      + exists (-1)%Z. split; [done|]. left. split; [lia|]. rewrite Nat.min_l in He by lia. rewrite firstn_all in He.
        rewrite <- (take_drop (length l) r). rewrite <- He. rewrite <- (app_nil_r l) at 1. apply lex_app.
        destruct (drop (length l) r) as [|z w] eqn:Hd; [|constructor].
        apply (f_equal length) in Hd. rewrite drop_length in Hd. simpl in Hd. lia.
      + destruct (decide (length r < length l)) as [H2|H2].
        * exists 1%Z. split; [done|]. right. right. split; [lia|]. rewrite Nat.min_r in He by lia. rewrite (firstn_all r) in He.
          rewrite <- (take_drop (length r) l). rewrite He. rewrite <- (app_nil_r r) at 1. apply lex_app.
          destruct (drop (length r) l) as [|z w] eqn:Hd; [|constructor].
          apply (f_equal length) in Hd. rewrite drop_length in Hd. simpl in Hd. lia.
        * exists 0%Z. split; [done|]. right. left. split; [done|]. rewrite Nat.min_l in He by lia. rewrite firstn_all in He.
          replace (length l) with (length r) in He by lia. by rewrite firstn_all in He.
    - rewrite decide_True by done. exists c. split; [done|]. simpl in Hx, Hy.
      assert (Hkey : key x <> key y).
      { intros E. apply Hne. apply key_inj; [| |done].
        - unfold string_of in Hl. rewrite list.Forall_lookup in Hl. eauto.
        - unfold string_of in Hr. rewrite list.Forall_lookup in Hr. eauto. }
      rewrite (split_at l p x Hx), (split_at r p y Hy). rewrite Ht. rewrite Hc. rewrite (key_order x), (key_order y) in Hkey. rewrite (key_order x), (key_order y).
      destruct (decide (char_order narrow x < char_order narrow y)%Z).
      + left. split; [lia|]. apply lex_app. by apply lex_head.
      + right. right. split; [lia|]. apply lex_app. apply lex_head. lia.
  Qed.

  Lemma starts_with_ok s r : exists b, starts_with narrow s r = Ok b /\ (b = true <-> r `prefix_of` s).
  Proof.
    unfold starts_with. destruct (decide (length s < length r)) as [H|H].
    { exists false. split; [done|]. split; [done|]. intros Hp. apply prefix_length in Hp. lia. }
    destruct (tcompare_eq0 narrow s r (length r) 0 0) as (c & -> & Hc); [lia..|]. rewrite rbind_ok. eexists. split; [done|].
    rewrite bool_decide_eq_true, Hc. change (drop 0 s) with s. change (drop 0 r) with r. rewrite (firstn_all r). split.
    - intros <-. exists (drop (length r) s). by rewrite take_drop.
    - intros [k ->]. by rewrite take_app.
  Qed.
  Lemma ends_with_ok s r : exists b, ends_with narrow s r = Ok b /\ (b = true <-> r `suffix_of` s).
  Proof.
    unfold ends_with. destruct (decide (length s < length r)) as [H|H].
    { exists false. split; [done|]. split; [done|]. intros Hp. apply suffix_length in Hp. lia. }
    destruct (tcompare_eq0 narrow s r (length r) (length s - length r) 0) as (c & -> & Hc); [lia..|]. rewrite rbind_ok. eexists. split; [done|].
    rewrite bool_decide_eq_true, Hc. change (drop 0 r) with r. rewrite (firstn_all r).
    rewrite (take_ge (drop _ s)) by (rewrite drop_length; lia). split.
    - intros <-. exists (take (length s - length r) s). by rewrite take_drop.
    - intros [k ->]. rewrite app_length. replace (length k + length r - length r) with (length k) by lia. by rewrite drop_app.
  Qed.
  Lemma starts_with_ch_ok s ch : exists b, starts_with_ch s ch = Ok b /\ (b = true <-> [ch] `prefix_of` s).
  Proof.
    unfold starts_with_ch. destruct s as [|c s]; simpl.
    - exists false. split; [done|]. split; [done|]. intros [k Hk]. discriminate.
    - eexists. split; [done|]. rewrite bool_decide_eq_true. split; [intros ->; by exists s|]. intros [k Hk]. by injection Hk.
  Qed.
  Lemma ends_with_ch_ok s ch : exists b, ends_with_ch s ch = Ok b /\ (b = true <-> [ch] `suffix_of` s).
  Proof.
    unfold ends_with_ch. destruct (decide (s = [])) as [->|Hs].
    - exists false. split; [done|]. split; [done|]. intros [k Hk]. by destruct k.
    - destruct (rdc_lt s (length s - 1)) as (c & Hc & ->); [destruct s; simpl; [done|lia]|]. rewrite rbind_ok. eexists. split; [done|].
      rewrite bool_decide_eq_true. rewrite <- last_lookup_pred in Hc || rewrite Nat.sub_1_r, <- last_lookup in Hc.
      apply last_Some in Hc as [s' ->]. split; [intros ->; by exists s'|]. intros [k Hk]. by apply app_inj_2 in Hk as [_ [=]].
  Qed.
  Lemma contains_ok s r : exists b, contains narrow s r = Ok b /\ (b = true <-> exists i, occurs s r i).
  Proof.
    unfold contains. destruct (find_ok narrow s 0 r) as (p & -> & Hp). rewrite rbind_ok. eexists. split; [done|].
    rewrite negb_true_iff, bool_decide_eq_false. destruct p as [i|].
    - split; [|done]. intros _. exists i. apply Hp.
    - split; [done|]. intros [i Hi]. exfalso. apply (Hp i); [lia|done].
  Qed.
  Lemma contains_ch_ok s ch : exists b, contains_ch s ch = Ok b /\ (b = true <-> ch ∈ s).
  Proof.
    unfold contains_ch. destruct (find_ch_ok s 0 ch) as (p & -> & Hp). rewrite rbind_ok. eexists. split; [done|].
    rewrite negb_true_iff, bool_decide_eq_false. destruct p as [i|].
    - split; [|done]. intros _. destruct Hp as (_ & Hi & _). by eapply elem_of_list_lookup_2.
    - split; [done|]. intros [i Hi]%elem_of_list_lookup. exfalso. apply (Hp i); [lia|done].
  Qed.
  Lemma tlength_ok a n : a !! n = Some 0%Z -> (forall i, i < n -> exists c, a !! i = Some c /\ c <> 0%Z) ->
    char_length a = Ok n.
  Proof.
    intros Hz Hnz. unfold char_length. assert (G : forall k fuel, k <= n -> n - k < fuel -> tlength fuel a k k = Ok n).
    { intros k fuel. revert k. induction fuel as [|fuel IH]; intros k Hk Hf; [lia|]. simpl.
      destruct (decide (k = n)) as [->|].
      - rewrite (rdc_ok _ _ _ Hz), rbind_ok. rewrite decide_False; [done|]. intros H; by apply H.
      - destruct (Hnz k) as (c & Hc & Hcz); [lia|]. rewrite (rdc_ok _ _ _ Hc), rbind_ok, decide_True by done. apply IH; lia. }
    apply G; [lia|]. apply lookup_lt_Some in Hz. lia.
  Qed.
End cmp.
