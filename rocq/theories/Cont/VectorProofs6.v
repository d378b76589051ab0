(** Proofs about the std::vector model: erase, resize, reserve, shrink_to_fit, assign, clear, destruction. *)
From stdpp Require Import base list list_numbers numbers decidable.
From Coq Require Import ZArith Lia.
From Verif Require Import Base.Res Base.Int Cont.ObjMem Cont.ObjMemProofs Cont.VectorModel Cont.VectorSpec
  Cont.VectorProofs Cont.VectorProofs2 Cont.VectorProofs3 Cont.VectorProofs4.
Local Open Scope nat_scope.

Section vector.
  Context {A : Type} (T : traits) (maxsz : Z).
  Context (Hmax : (0 < maxsz < 2 ^ 63)%Z).
  Notation st := (st A vec).
  Notation holds := (holds (A := A) maxsz).
  Implicit Types (s : st) (l : list (option A)) (E : st -> Prop).

  Ltac open H F Lst En :=
    facts H;
    let E := fresh "EL" in destruct (loc _) as [F Lst En] eqn:E in *.

  (** same storage *)
  Definition kept s s' : Prop := myfirst (loc s') = myfirst (loc s) /\ myend (loc s') = myend (loc s) /\ (calm s -> calm s').

  (** truncation after the objects [n, length l) were destroyed *)
  Lemma trunc s l s' n : holds s l -> n <= length l ->
    loc s' = Vec (myfirst (loc s)) (myfirst (loc s) + n) (myend (loc s)) -> brk s' = brk s ->
    (forall q, mem s' q = if decide (myfirst (loc s) + n <= q < mylast (loc s)) then Raw else mem s q) ->
    holds s' (take n l).
  Proof.
    intros H Hn Hl Hb Hm. facts H.
    eapply (holds_intro maxsz s l s'); rewrite ?take_length_le by done; try done; try lia.
    - intros q Hq. rewrite Hm. decs. rewrite cont_take by lia. eapply holds_obj; [done|lia].
    - intros q Hq. rewrite Hm. decs; [done|]. eapply holds_raw; [done|lia].
    - intros q Hq. rewrite Hm. decs. done.
  Qed.

  Lemma pop_back_ok s l x : holds s (l ++ [x]) ->
    wpx pop_back s (fun _ s' => holds s' l /\ kept s s') (fun _ => False).
  Proof.
    intros H. facts H. rewrite app_length in Fl. simpl in Fl.
    unfold pop_back, last_. apply wpx_bind, wpx_bind, wpx_loc, wpx_ret.
    eapply wpx_bind, wpx_destroy; [eapply holds_obj; [exact H|lia]|].
    intros s1 (Hb1 & Hl1 & Hc1) Hm1. apply set_last_ok. intros s2 Hm2 Hb2 Hl2 Hc2. rewrite Hl1 in Hl2. split.
    - replace l with (take (length l) (l ++ [x])) by (by rewrite take_app).
      eapply (trunc s); try done.
      + rewrite app_length; lia.
      + rewrite Hl2. f_equal. lia.
      + congruence.
      + intros q. rewrite Hm2, Hm1. decs; done.
    - unfold kept. rewrite Hl2. auto.
  Qed.

  Lemma clear_ok s l : holds s l ->
    wpx clear s (fun _ s' => holds s' [] /\ kept s s') (fun _ => False).
  Proof.
    intros H. facts H. unfold clear. apply wpx_bind, wpx_loc.
    destruct (decide (myfirst (loc s) = mylast (loc s))).
    - apply wpx_ret. assert (length l = 0) by lia. destruct l; [|simpl in *; lia]. done.
    - apply wpx_bind, wpx_Destroy_range.
      { intros q Hq. eexists. by eapply holds_obj. }
      intros s1 (Hb1 & Hl1 & Hc1) Hm1. apply set_last_ok. intros s2 Hm2 Hb2 Hl2 Hc2. rewrite Hl1 in Hl2. split.
      + change (@nil (option A)) with (take 0 l). eapply (trunc s); try done; try lia; try congruence.
        * rewrite Hl2. f_equal. lia.
        * intros q. rewrite Hm2, Hm1. decs; done.
      + unfold kept. rewrite Hl2. auto.
  Qed.

  (** Tidy / the destructor: everything is destroyed and deallocated *)
  Lemma Tidy_ok s l : holds s l ->
    wpx Tidy s (fun _ s' => (forall q, mem s' q = Unalloc) /\ loc s' = Vec 0 0 0 /\ brk s' = brk s /\ (calm s -> calm s'))
      (fun _ => False).
  Proof.
    intros H. facts H. unfold Tidy. apply wpx_bind, wpx_loc.
    destruct (decide (myfirst (loc s) = 0)) as [Hz|Hz].
    - apply wpx_ret. pose proof (h_null _ _ _ H Hz). split_and!; auto.
      + intros q. eapply holds_un; [exact H|lia].
      + destruct (loc s). simpl in *. f_equal; lia.
    - apply wpx_bind, wpx_Destroy_range.
      { intros q Hq. eexists. by eapply holds_obj. }
      intros s1 (Hb1 & Hl1 & Hc1) Hm1. apply wpx_bind, wpx_dealloc.
      { intros q Hq. rewrite Hm1. decs; [done|]. eapply holds_raw; [done|lia]. }
      intros s2 (Hb2 & Hl2 & Hc2) Hm2. apply wpx_put. intros s3 Hm3 Hb3 Hl3 Hc3. split_and!; try congruence; auto.
      intros q. rewrite Hm3, Hm2, Hm1. decs; [done|]. eapply holds_un; [done|lia].
  Qed.
  Lemma Tidy_holds s' : (forall q, mem s' q = Unalloc) -> loc s' = Vec 0 0 0 -> 0 < brk s' -> holds s' [].
  Proof. intros Hm Hl Hb. split; rewrite ?Hl; simpl; try lia. intros q. decs. apply Hm. Qed.

  Lemma erased_cont l i j k : i <= j <= length l -> k < length l - (j - i) ->
    cont (take i l ++ drop j l) k = if decide (k < i) then cont l k else cont l (k + (j - i)).
  Proof.
    intros H Hk. rewrite cont_app, take_length_le by lia. decs; [by apply cont_take|].
    rewrite cont_drop. f_equal. lia.
  Qed.

  Definition eexn s l s' : Prop := mathrow T = true /\ ~ calm s /\ loc s' = loc s /\ exists l', length l' = length l /\ holds s' l'.

  Lemma erase_core s l i j (k : nat -> M A vec nat) (Q : nat -> st -> Prop) :
    holds s l -> i < j <= length l ->
    (forall s' , loc s' = loc s -> brk s' = brk s -> (calm s -> calm s') ->
       (forall q, myfirst (loc s) <= q < mylast (loc s) - (j - i) -> mem s' q = Obj (cont (take i l ++ drop j l) (q - myfirst (loc s)))) ->
       (forall q, mylast (loc s) - (j - i) <= q < mylast (loc s) -> exists w, mem s' q = Obj w) ->
       (forall q, ~ myfirst (loc s) <= q < mylast (loc s) -> mem s' q = mem s q) ->
       wpx (k (mylast (loc s) - (j - i))) s' Q (eexn s l)) ->
    wpx (x <<- Move_unchecked T (myfirst (loc s) + j) (mylast (loc s)) (myfirst (loc s) + i) ;; k x) s Q (eexn s l).
  Proof.
    intros H Hij HQ. facts H. apply wpx_bind, wpx_Move_unchecked; try lia.
    - intros q Hq. eexists. eapply holds_obj; [done|lia].
    - intros s1 (Hb1 & Hl1 & Hc1) Hmv Ho Hf _.
      replace (myfirst (loc s) + i + (mylast (loc s) - (myfirst (loc s) + j))) with (mylast (loc s) - (j - i)) in * by lia.
      apply HQ; try done.
      + intros q Hq. rewrite erased_cont by lia. decs.
        * rewrite Hf by lia. eapply holds_obj; [done|lia].
        * rewrite Hmv by lia. erewrite (holds_obj maxsz s l) by (done || lia). do 2 f_equal. lia.
      + intros q Hq. apply Hf. lia.
    - intros Ht Hc s1 (Hb1 & Hl1 & Hc1) Ho Hf. split_and!; try done.
      eapply (shape_intro maxsz s l s1); try done; try lia.
      + rewrite Hl1. by eapply loc_eta.
      + intros q Hq. destruct (decide (myfirst (loc s) + i <= q)); [apply Ho; lia|]. rewrite Hf by lia. eexists. eapply holds_obj; [done|lia].
      + intros q Hq. rewrite Hf by lia. eapply holds_raw; [done|lia].
      + intros q Hq. rewrite Hf by lia. done.
  Qed.
  Lemma erase_fin s l i j s' s2 :
    holds s l -> i < j <= length l ->
    (forall q, myfirst (loc s) <= q < mylast (loc s) - (j - i) -> mem s' q = Obj (cont (take i l ++ drop j l) (q - myfirst (loc s)))) ->
    (forall q, ~ myfirst (loc s) <= q < mylast (loc s) -> mem s' q = mem s q) ->
    (forall q, mem s2 q = if decide (mylast (loc s) - (j - i) <= q < mylast (loc s)) then Raw else mem s' q) ->
    loc s2 = Vec (myfirst (loc s)) (mylast (loc s) - (j - i)) (myend (loc s)) -> brk s2 = brk s ->
    holds s2 (take i l ++ drop j l).
  Proof.
    intros H Hij Hs Hf Hm Hl Hb. facts H.
    assert (Hlen : length (take i l ++ drop j l) = length l - (j - i)).
    { rewrite app_length, take_length_le, drop_length by lia. lia. }
    eapply (holds_intro maxsz s l s2); rewrite ?Hlen; try done; try lia.
    - rewrite Hl. f_equal. lia.
    - intros q Hq. rewrite Hm. decs. apply Hs. lia.
    - intros q Hq. rewrite Hm. decs; [done|]. rewrite Hf by lia. eapply holds_raw; [done|lia].
    - intros q Hq. rewrite Hm. decs. apply Hf. lia.
  Qed.

  Lemma erase1_ok s l i : holds s l -> i < length l ->
    wpx (erase1 T (myfirst (loc s) + i)) s
      (fun p s' => holds s' (take i l ++ drop (S i) l) /\ p = myfirst (loc s') + i /\ kept s s') (eexn s l).
  Proof.
    intros H Hi. facts H. unfold erase1, last_. apply wpx_bind, wpx_bind, wpx_loc, wpx_ret.
    rewrite <-Nat.add_assoc. eapply (erase_core s l i (i + 1) (fun _ => _)); [done|lia|].
    intros s1 Hl1 Hb1 Hc1 Hs1 Ho1 Hf1.
    destruct (Ho1 (mylast (loc s) - 1)) as [w Hw]; [lia|].
    eapply wpx_bind, wpx_destroy; [done|]. intros s2 (Hb2 & Hl2 & Hc2) Hm2.
    apply wpx_bind, set_last_ok. intros s3 Hm3 Hb3 Hl3 Hc3. apply wpx_ret.
    rewrite Hl2, Hl1 in Hl3. split_and!.
    - replace (S i) with (i + 1) by lia. eapply (erase_fin s l i (i + 1) s1 s3); try done; try lia; try congruence.
      + intros q. rewrite Hm3, Hm2. decs; done.
      + rewrite Hl3. f_equal. lia.
    - by rewrite Hl3.
    - unfold kept. rewrite Hl3. auto 10.
  Qed.
  Lemma erase_range_ok s l i j : holds s l -> i <= j <= length l ->
    wpx (erase_range T (myfirst (loc s) + i) (myfirst (loc s) + j)) s
      (fun p s' => holds s' (take i l ++ drop j l) /\ p = myfirst (loc s') + i /\ kept s s') (eexn s l).
  Proof.
    intros H Hi. facts H. unfold erase_range, last_.
    destruct (decide (myfirst (loc s) + i <> myfirst (loc s) + j)).
    2:{ apply wpx_ret. assert (i = j) as -> by lia. rewrite take_drop. done. }
    apply wpx_bind, wpx_bind, wpx_loc, wpx_ret.
    eapply (erase_core s l i j (fun x => _ x)); [done|lia|].
    intros s1 Hl1 Hb1 Hc1 Hs1 Ho1 Hf1.
    apply wpx_bind, wpx_Destroy_range; [done|]. intros s2 (Hb2 & Hl2 & Hc2) Hm2.
    apply wpx_bind, set_last_ok. intros s3 Hm3 Hb3 Hl3 Hc3. apply wpx_ret.
    rewrite Hl2, Hl1 in Hl3. split_and!.
    - eapply (erase_fin s l i j s1 s3); try done; try lia.
      + intros q. rewrite Hm3, Hm2. decs; done.
    - by rewrite Hl3.
    - unfold kept. rewrite Hl3. auto 10.
  Qed.

  (** _Reallocate, for reserve and shrink_to_fit *)
  Definition strong_exn s l s' : Prop :=
    loc s' = loc s /\ (exists l', length l' = length l /\ holds s' l') /\ (strong_type T -> holds s' l).
  Lemma Reallocate_ok s l C :
    holds s l -> length l <= C -> 0 < C -> (Z.of_nat C <= maxsz)%Z ->
    wpx (Reallocate T C) s (fun _ s' => holds s' l /\ capacity s' = C /\ (calm s -> calm s'))
      (fun s' => ~ calm s /\ strong_exn s l s').
  Proof.
    intros H HlC HC HCm. facts H. unfold Reallocate. apply wpx_bind, wpx_loc, wpx_bind.
    eapply wpx_alloc_new; [exact H| |].
    2:{ intros Hc s1 Hh1 Hl1. split; [done|]. split; [done|]. split; eauto. }
    intros s1 Hbu. pose proof Hbu as (Hl1 & Hb1 & _ & Hc1 & Hm1).
    assert (Hbu' : built s l (brk s) C (brk s + length l) (brk s + length l) (fun _ => None) s1).
    { split_and!; try done. intros q. rewrite Hm1. decs; done. }
    apply wpx_bind, wpx_on_throw. eapply (relocate_strong T maxsz); try done; try lia.
    - intros s2 (Hb2 & Hl2 & Hc2) Hnew Hold Hfr.
      eapply (Change_array_ok maxsz s l (brk s) _ C l); try done; try lia; try congruence.
      + intros q Hq. rewrite Hnew by done. decs; done.
      + intros s3 Hh Hl3 Hc3. split; [done|]. split; [|auto]. unfold capacity. rewrite Hl3. simpl. lia.
    - intros Hc s2 Hs2 Hnew Hfr Hold Hstr. apply wpx_dealloc.
      + intros q Hq. rewrite Hnew by done. rewrite Hm1. decs. done.
      + intros s3 Hs3 Hm3. split; [auto|].
        assert (Hl2 : loc s2 = loc s) by (rewrite (proj1 (proj2 Hs2)); done).
        assert (Hb2 : brk s2 = brk s + C) by (rewrite (proj1 Hs2); done).
        pose proof (after_fail maxsz s l (brk s) C s2 s3 H eq_refl Hl2 Hb2 Hfr Hold Hs3 Hm3) as [Hbasic Hsame].
        split; [rewrite (proj1 (proj2 Hs3)); done|]. split; [done|].
        intros Hst. apply Hsame. intros q Hq. rewrite Hstr by done. rewrite Hm1. decs. done.
  Qed.
  Lemma reserve_ok s l N : holds s l -> (0 <= N < 2 ^ 64)%Z ->
    wpx (reserve T maxsz N) s
      (fun _ s' => holds s' l /\ capacity s' = Nat.max (capacity s) (Z.to_nat N) /\
         ((N <= Z.of_nat (capacity s))%Z -> loc s' = loc s) /\ (calm s -> calm s'))
      (fun s' => (~ calm s \/ (maxsz < N)%Z) /\ strong_exn s l s').
  Proof.
    intros H HN. facts H. unfold reserve. apply wpx_bind, wpx_loc.
    replace (vcap (loc s)) with (Z.of_nat (capacity s)) by done.
    destruct (Z.ltb_spec (Z.of_nat (capacity s)) N).
    - destruct (Z.ltb_spec maxsz N).
      { apply wpx_throw. split; [by right|]. split; [done|]. split; eauto. }
      eapply wpx_mono; [apply (Reallocate_ok s l (Z.to_nat N)); try done; unfold capacity in *; lia| |].
      + intros [] s' (Hh & HC & Hc). split_and!; auto; lia.
      + intros s' (Hc & Hs). auto.
    - apply wpx_ret. split_and!; auto. lia.
  Qed.
  Lemma shrink_to_fit_ok s l : holds s l ->
    wpx (shrink_to_fit T) s
      (fun _ s' => holds s' l /\ capacity s' = length l /\ (calm s -> calm s'))
      (fun s' => ~ calm s /\ strong_exn s l s').
  Proof.
    intros H. facts H. unfold shrink_to_fit. apply wpx_bind, wpx_loc.
    destruct (decide (mylast (loc s) <> myend (loc s))).
    - destruct (decide (myfirst (loc s) = mylast (loc s))).
      + assert (length l = 0) by lia. destruct l; [|simpl in *; lia].
        eapply wpx_mono; [apply (Tidy_ok s []); done| |done].
        intros [] s' (Hm & Hl & Hb & Hc). split_and!; auto.
        * apply Tidy_holds; [done|done|lia].
        * unfold capacity. rewrite Hl. done.
      + eapply wpx_mono; [apply (Reallocate_ok s l (mylast (loc s) - myfirst (loc s))); try done; lia| |auto].
        intros [] s' (Hh & HC & Hc). split_and!; auto; lia.
    - apply wpx_ret. split_and!; auto. unfold capacity. lia.
  Qed.

  (** resize *)
  Definition resized l (n : nat) (v : option A) : list (option A) := take n l ++ replicate (n - length l) v.
  Lemma resize_ok s l N a v : holds s l -> arg_is s a v -> (0 <= N < 2 ^ 64)%Z ->
    wpx (resize T maxsz N a) s
      (fun _ s' => holds s' (resized l (Z.to_nat N) v) /\ grown maxsz s s' (Z.to_nat N) /\ (calm s -> calm s'))
      (fun s' => (~ calm s \/ (maxsz < N)%Z) /\ strong_exn s l s').
  Proof.
    intros H Ha HN. facts H. unfold resize. apply wpx_bind, wpx_loc.
    set (n := Z.to_nat N). assert (EN : N = Z.of_nat n) by lia. clearbody n. subst N. rewrite ?Nat2Z.id.
    unfold vsize. replace (mylast (loc s) - myfirst (loc s)) with (length l) by lia.
    unfold resized. destruct (Z.ltb_spec (Z.of_nat n) (Z.of_nat (length l))).
    { apply wpx_bind, wpx_Destroy_range.
      { intros q Hq. eexists. eapply holds_obj; [done|lia]. }
      intros s1 (Hb1 & Hl1 & Hc1) Hm1. apply set_last_ok. intros s2 Hm2 Hb2 Hl2 Hc2. rewrite Hl1 in Hl2.
      replace (n - length l) with 0 by lia. rewrite app_nil_r. split_and!.
      - eapply (trunc s); try done; try lia; try congruence.
        intros q. rewrite Hm2, Hm1. decs; done.
      - unfold grown, capacity. rewrite Hl2. simpl. decs.
      - auto. }
    destruct (Z.ltb_spec (Z.of_nat (length l)) (Z.of_nat n)).
    2:{ apply wpx_ret. assert (n = length l) as -> by lia. rewrite take_ge, Nat.sub_diag, app_nil_r by lia.
        split_and!; try done. unfold grown, capacity. decs. }
    rewrite take_ge by lia.
    unfold vcap. destruct (Z.ltb_spec (Z.of_nat (myend (loc s) - myfirst (loc s))) (Z.of_nat n)) as [Hre|Hre].
    - unfold Resize_reallocate. destruct (Z.ltb_spec maxsz (Z.of_nat n)).
      { apply wpx_throw. split; [by right|]. split; [done|]. split; eauto. }
      apply wpx_bind, wpx_loc. rewrite Nat2Z.id.
      destruct (growth_bounds maxsz Hmax (vcap (loc s)) (Z.of_nat n)) as (HC0 & HC1 & HC2 & HC3); [unfold vcap; lia|lia|].
      set (C := Z.to_nat (Calculate_growth _ _ _)) in *. clearbody C.
      replace (mylast (loc s) - myfirst (loc s)) with (length l) by lia.
      apply wpx_bind. eapply wpx_alloc_new; [exact H| |].
      2:{ intros Hc s1 Hh1 Hl1. split; [by left|]. split; [done|]. split; eauto. }
      intros s1 Hbu1. pose proof Hbu1 as (Hl1 & Hb1 & _ & Hc1 & Hm1).
      apply wpx_bind, wpx_rguard, (wpx_Uninitialized_fill_n _ _ _ _ v).
      { eapply (arg_is_alloc maxsz s); [exact H|done|]. intros q Hq. rewrite Hm1. decs; [|done]. exfalso. apply Hq.
        eapply holds_un; [exact H|lia]. }
      { intros q Hq. rewrite Hm1. decs. done. }
      2:{ intros Hcs s2 Hs2 Hm2. split; [|split; [lia|]].
          - intros q Hq. rewrite Hm2, Hm1. decs. done.
          - intros s3 Hs3 Hm3. destruct (fail_strong maxsz s l (brk s) C 0 0 (fun _ => None) s1 s3) as [Hh Hlo]; try done.
            + eauto using same_trans.
            + intros q. rewrite Hm3. decs; [done|]. by rewrite Hm2.
            + split; [left; auto|]. split; [done|]. split; eauto. }
      intros s2 Hs2 Hm2.
      assert (Hbu2 : built s l (brk s) C (brk s + length l) (brk s + n) (fun _ => v) s2).
      { split; [by rewrite (proj1 (proj2 Hs2))|]. split; [by rewrite (proj1 Hs2)|]. split; [done|]. split.
        - intros. apply Hs2. auto.
        - intros q. rewrite Hm2, Hm1. decs; done. }
      replace (brk s + length l + (n - length l)) with (brk s + n) by lia.
      apply wpx_bind, wpx_rguard. eapply (relocate_strong T maxsz); try done; try lia.
      + intros s3 (Hb3 & Hl3 & Hc3) Hnew Hold Hfr. destruct Hs2 as (Hb2 & Hl2 & Hc2).
        assert (Hlen : length (l ++ replicate (n - length l) v) = n) by (rewrite app_length, replicate_length; lia).
        eapply (Change_array_ok maxsz s l (brk s) _ C (l ++ replicate (n - length l) v)); try done; try lia; try congruence.
        * intros q Hq. rewrite Hlen. rewrite Hnew by done. decs; try done; rewrite cont_app; decs; try done.
          rewrite cont_replicate by lia. done.
        * intros s4 Hh Hl4 Hc4. split_and!; auto. unfold grown, capacity. rewrite Hl4. simpl. decs.
          unfold growth, vcap in HC3. rewrite <-HC3. lia.
      + intros Hc s3 Hs3 Hnew Hfr Hold Hstr. pose proof Hbu2 as (Hl2' & Hb2' & _ & Hc2' & Hm2'). split; [|split; [lia|]].
        * intros q Hq. rewrite Hnew by done. rewrite Hm2'. decs; [by eexists|done].
        * intros s4 Hs4 Hm4. split; [left; auto|].
          assert (Hl3 : loc s3 = loc s) by (rewrite (proj1 (proj2 Hs3)); done).
          assert (Hb3 : brk s3 = brk s + C) by (rewrite (proj1 Hs3); done).
          pose proof (after_fail maxsz s l (brk s) C s3 s4 H eq_refl Hl3 Hb3 Hfr Hold Hs4 Hm4) as [Hbasic Hsame].
          split; [rewrite (proj1 (proj2 Hs4)); done|]. split; [done|].
          intros Hst. apply Hsame. intros q Hq. rewrite Hstr by done. rewrite Hm2'. decs. done.
    - replace (Z.to_nat (Z.of_nat n - Z.of_nat (length l))) with (n - length l) by lia.
      apply wpx_bind, (wpx_Uninitialized_fill_n _ _ _ _ v); [done| | |].
      + intros q Hq. eapply holds_raw; [done|lia].
      + intros s1 (Hb1 & Hl1 & Hc1) Hm1. apply set_last_ok. intros s2 Hm2 Hb2 Hl2 Hc2. rewrite Hl1 in Hl2.
        split_and!.
        * eapply (holds_intro maxsz s l s2); rewrite ?app_length, ?replicate_length; try done; try lia; try congruence.
          { rewrite Hl2. f_equal. lia. }
          { intros q Hq. rewrite Hm2, Hm1. rewrite cont_app. decs.
            - rewrite cont_replicate by lia. done.
            - eapply holds_obj; [done|lia]. }
          { intros q Hq. rewrite Hm2, Hm1. decs. eapply holds_raw; [done|lia]. }
          { intros q Hq. rewrite Hm2, Hm1. decs. done. }
        * unfold grown, capacity. rewrite Hl2. simpl. decs.
        * auto.
      + intros Hc s1 Hs1 Hm1. split; [by left|]. assert (holds s1 l) by by eapply holds_same.
        split; [apply Hs1|]. split; eauto.
  Qed.

  (** assign *)
  Lemma Clear_and_reserve_ok s l n : holds s l -> 0 < n -> (Z.of_nat (capacity s) < Z.of_nat n)%Z ->
    wpx (Clear_and_reserve_geometric maxsz (Z.of_nat n)) s
      (fun _ s' => holds s' [] /\ grown maxsz s s' n /\ n <= capacity s' /\ (calm s -> calm s'))
      (fun s' => (~ calm s \/ (maxsz < Z.of_nat n)%Z) /\ exists l', holds s' l').
  Proof.
    intros H Hn Hcap. facts H. unfold Clear_and_reserve_geometric. apply wpx_bind, wpx_loc.
    destruct (Z.ltb_spec maxsz (Z.of_nat n)).
    { apply wpx_throw. split; [by right|]. eauto. }
    destruct (growth_bounds maxsz Hmax (vcap (loc s)) (Z.of_nat n)) as (HC0 & HC1 & HC2 & HC3); [unfold vcap; lia|lia|].
    set (C := Z.to_nat (Calculate_growth _ _ _)) in *. clearbody C.
    assert (Hrest : forall s1, (forall q, mem s1 q = Unalloc) -> loc s1 = Vec 0 0 0 -> brk s1 = brk s -> (calm s -> calm s1) ->
      wpx (Newvec <<- alloc C;; mput (Vec Newvec Newvec (Newvec + C))) s1
      (fun _ s' => holds s' [] /\ grown maxsz s s' n /\ n <= capacity s' /\ (calm s -> calm s'))
      (fun s' => (~ calm s \/ (maxsz < Z.of_nat n)%Z) /\ exists l', holds s' l')).
    { intros s1 Hm1 Hl1 Hb1 Hc1. apply wpx_bind, wpx_alloc.
      - intros s2 Hb2 Hl2 Hc2 Hm2. apply wpx_put. intros s3 Hm3 Hb3 Hl3 Hc3. split_and!.
        + split; rewrite ?Hl3; simpl; try lia. intros q. rewrite Hm3, Hm2. decs; [done|]. apply Hm1.
        + unfold grown, capacity in *. rewrite Hl3. simpl. decs. unfold growth, vcap in HC3. rewrite <-HC3. lia.
        + unfold capacity. rewrite Hl3. simpl. lia.
        + auto.
      - intros s2 (Hb2 & Hl2 & Hc2) Hm2 Hc. split; [auto|]. exists []. apply Tidy_holds; try congruence; try lia. }
    apply wpx_bind. destruct (decide (myfirst (loc s) = 0)) as [Hz|Hz].
    - apply wpx_ret. pose proof (h_null _ _ _ H Hz). apply Hrest; auto.
      + intros q. eapply holds_un; [exact H|lia].
      + destruct (loc s). simpl in *. f_equal; lia.
    - apply wpx_bind, wpx_Destroy_range.
      { intros q Hq. eexists. by eapply holds_obj. }
      intros s1 (Hb1 & Hl1 & Hc1) Hm1. apply wpx_bind, wpx_dealloc.
      { intros q Hq. rewrite Hm1. decs; [done|]. eapply holds_raw; [done|lia]. }
      intros s2 (Hb2 & Hl2 & Hc2) Hm2. apply wpx_put. intros s3 Hm3 Hb3 Hl3 Hc3. apply Hrest; try congruence; auto.
      intros q. rewrite Hm3, Hm2, Hm1. decs; [done|]. eapply holds_un; [done|lia].
  Qed.

  Lemma wpx_copy_assign_n (vs : list (option A)) d s (Q : unit -> st -> Prop) E :
    (forall q, d <= q < d + length vs -> exists v, mem s q = Obj v) ->
    (forall s', same s s' -> (forall q, mem s' q = if decide (d <= q < d + length vs) then Obj (cont vs (q - d)) else mem s q) -> Q tt s') ->
    (~ calm s -> forall s', same s s' ->
       (forall q, d <= q < d + length vs -> exists v, mem s' q = Obj v) ->
       (forall q, ~ d <= q < d + length vs -> mem s' q = mem s q) -> E s') ->
    wpx (copy_assign_n vs d) s Q E.
  Proof.
    intros Hobj HQ HE. unfold copy_assign_n.
    apply (wpx_for (fun k s' => same s s' /\ forall q, mem s' q = if decide (d <= q < d + k) then Obj (cont vs (q - d)) else mem s q)).
    - split; [done|]. intros q. decs; done.
    - intros k s' Hk (Hs & Hm). rewrite cont_lookup by done. destruct (Hobj (d + k)) as [w Hw]; [lia|].
      apply (wpx_copy_assign _ _ w); [rewrite Hm; decs; done| |].
      + intros s'' Hs' Hm'. split; [by eapply same_trans|]. intros q. rewrite Hm', Hm. decs; try done. subst. do 2 f_equal. lia.
      + intros Hc s'' Hs' Hm'. apply HE; [by intros ?; apply Hc, Hs|eauto using same_trans| |].
        * intros q Hq. rewrite Hm', Hm. decs; try by eexists. apply Hobj; lia.
        * intros q Hq. rewrite Hm', Hm. decs; done.
    - intros s' (Hs & Hm). apply HQ; done.
  Qed.

  Definition aexn s n s' : Prop := (~ calm s \/ (maxsz < Z.of_nat n)%Z) /\ exists l', holds s' l'.
  Lemma assign_range_ok s l vs : holds s l -> (Z.of_nat (length vs) < 2 ^ 64)%Z ->
    wpx (assign_range T maxsz vs) s
      (fun _ s' => holds s' vs /\ grown maxsz s s' (length vs) /\ (calm s -> calm s')) (aexn s (length vs)).
  Proof.
    intros H HN. facts H. unfold assign_range. apply wpx_bind, wpx_loc. unfold vcap.
    destruct (Z.ltb_spec (Z.of_nat (myend (loc s) - myfirst (loc s))) (Z.of_nat (length vs))) as [Hre|Hre].
    - apply wpx_bind. eapply wpx_mono; [apply (Clear_and_reserve_ok s l (length vs)); try done; lia| |].
      2:{ intros s' He. exact He. }
      intros [] s1 (H1 & Hg & Hcap & Hc1). apply wpx_bind, wpx_bind, wpx_loc, wpx_ret.
      unfold capacity in Hcap. pose proof (h_last _ _ _ H1) as Hl1. simpl in Hl1.
      apply wpx_bind, wpx_Uninitialized_copy_n.
      + intros q Hq. eapply holds_raw; [exact H1|lia].
      + intros s2 (Hb2 & Hl2 & Hc2) Hm2. apply set_last_ok. intros s3 Hm3 Hb3 Hl3 Hc3. rewrite Hl2 in Hl3. split_and!.
        * eapply (holds_intro maxsz s1 [] s3); try done; try lia; try congruence.
          { intros q Hq. rewrite Hm3, Hm2. decs. done. }
          { intros q Hq. rewrite Hm3, Hm2. decs. eapply holds_raw; [exact H1|lia]. }
          { intros q Hq. rewrite Hm3, Hm2. decs. done. }
        * unfold grown, capacity in *. rewrite Hl3. simpl. done.
        * auto.
      + intros Hc s2 Hs2 Hm2. split; [auto|]. exists []. by eapply holds_same.
    - destruct (decide (mylast (loc s) - myfirst (loc s) < length vs)).
      + replace (mylast (loc s) - myfirst (loc s)) with (length l) by lia.
        assert (Htl : length (take (length l) vs) = length l) by (rewrite take_length_le; lia).
        apply wpx_bind, wpx_copy_assign_n; rewrite ?Htl.
        { intros q Hq. eexists. eapply holds_obj; [done|lia]. }
        2:{ intros Hc s1 (Hb1 & Hl1 & Hc1) Ho1 Hf1. split; [by left|].
            destruct (shape_intro maxsz s l s1 (length l)) as (l' & _ & Hl'); try done; try lia; eauto.
            - rewrite Hl1. by eapply loc_eta.
            - intros q Hq. rewrite Hf1 by lia. eapply holds_raw; [done|lia].
            - intros q Hq. apply Hf1. lia. }
        intros s1 (Hb1 & Hl1 & Hc1) Hm1.
        assert (H1 : holds s1 (take (length l) vs)).
        { eapply (holds_intro maxsz s l s1); rewrite ?Htl; try done; try lia.
          - rewrite Hl1. by eapply loc_eta.
          - intros q Hq. rewrite Hm1. decs. done.
          - intros q Hq. rewrite Hm1. decs. eapply holds_raw; [done|lia].
          - intros q Hq. rewrite Hm1. decs. done. }
        apply wpx_bind, wpx_Uninitialized_copy_n; rewrite ?drop_length.
        { intros q Hq. rewrite Hm1. decs. eapply holds_raw; [done|lia]. }
        * intros s2 (Hb2 & Hl2 & Hc2) Hm2. apply set_last_ok. intros s3 Hm3 Hb3 Hl3 Hc3. rewrite Hl2, Hl1 in Hl3. split_and!.
          { eapply (holds_intro maxsz s l s3); try done; try lia; try congruence.
            - rewrite Hl3. f_equal. lia.
            - intros q Hq. rewrite Hm3, Hm2. decs.
              + rewrite cont_drop. do 2 f_equal. lia.
              + rewrite Hm1. decs. rewrite cont_take by lia. done.
            - intros q Hq. rewrite Hm3, Hm2. decs. rewrite Hm1. decs. eapply holds_raw; [done|lia].
            - intros q Hq. rewrite Hm3, Hm2. decs. rewrite Hm1. decs. done. }
          { unfold grown, capacity. rewrite Hl3. simpl. decs. }
          { auto. }
        * intros Hc s2 Hs2 Hm2. split; [auto|]. eexists. by eapply holds_same.
      + apply wpx_bind, wpx_copy_assign_n.
        { intros q Hq. eexists. eapply holds_obj; [done|lia]. }
        2:{ intros Hc s1 (Hb1 & Hl1 & Hc1) Ho1 Hf1. split; [by left|].
            destruct (shape_intro maxsz s l s1 (length l)) as (l' & _ & Hl'); try done; try lia; eauto.
            - rewrite Hl1. by eapply loc_eta.
            - intros q Hq. destruct (decide (q < myfirst (loc s) + length vs)); [apply Ho1; lia|]. rewrite Hf1 by lia.
              eexists. eapply holds_obj; [done|lia].
            - intros q Hq. rewrite Hf1 by lia. eapply holds_raw; [done|lia].
            - intros q Hq. apply Hf1. lia. }
        intros s1 (Hb1 & Hl1 & Hc1) Hm1. apply wpx_bind, wpx_Destroy_range.
        { intros q Hq. rewrite Hm1. decs. eexists. eapply holds_obj; [done|lia]. }
        intros s2 (Hb2 & Hl2 & Hc2) Hm2. apply set_last_ok. intros s3 Hm3 Hb3 Hl3 Hc3. rewrite Hl2, Hl1 in Hl3. split_and!.
        * eapply (holds_intro maxsz s l s3); try done; try lia; try congruence.
          { intros q Hq. rewrite Hm3, Hm2. decs. rewrite Hm1. decs. done. }
          { intros q Hq. rewrite Hm3, Hm2. decs; [done|]. rewrite Hm1. decs. eapply holds_raw; [done|lia]. }
          { intros q Hq. rewrite Hm3, Hm2. decs. rewrite Hm1. decs. done. }
        * unfold grown, capacity. rewrite Hl3. simpl. decs.
        * auto.
  Qed.

  Lemma assign_n_ok s l N v : holds s l -> (0 <= N < 2 ^ 64)%Z ->
    wpx (assign_n T maxsz N v) s
      (fun _ s' => holds s' (replicate (Z.to_nat N) v) /\ grown maxsz s s' (Z.to_nat N) /\ (calm s -> calm s'))
      (aexn s (Z.to_nat N)).
  Proof.
    intros H HN. facts H. unfold assign_n. apply wpx_bind, wpx_loc. unfold vcap.
    set (n := Z.to_nat N). assert (EN : N = Z.of_nat n) by lia. clearbody n. subst N. rewrite ?Nat2Z.id.
    assert (Hrl : length (replicate n v) = n) by apply replicate_length.
    destruct (Z.ltb_spec (Z.of_nat (myend (loc s) - myfirst (loc s))) (Z.of_nat n)) as [Hre|Hre].
    - apply wpx_bind. eapply wpx_mono; [apply (Clear_and_reserve_ok s l n); try done; lia| |].
      2:{ intros s' He. exact He. }
      intros [] s1 (H1 & Hg & Hcap & Hc1). apply wpx_bind, wpx_bind, wpx_loc, wpx_ret.
      unfold capacity in Hcap. pose proof (h_last _ _ _ H1) as Hl1. simpl in Hl1.
      apply wpx_bind, (wpx_Uninitialized_fill_n _ _ _ _ v); [done| | |].
      + intros q Hq. eapply holds_raw; [exact H1|lia].
      + intros s2 (Hb2 & Hl2 & Hc2) Hm2. apply set_last_ok. intros s3 Hm3 Hb3 Hl3 Hc3. rewrite Hl2 in Hl3. split_and!.
        * eapply (holds_intro maxsz s1 [] s3); rewrite ?Hrl; try done; try lia; try congruence.
          { intros q Hq. rewrite Hm3, Hm2. decs. rewrite cont_replicate by lia. done. }
          { intros q Hq. rewrite Hm3, Hm2. decs. eapply holds_raw; [exact H1|lia]. }
          { intros q Hq. rewrite Hm3, Hm2. decs. done. }
        * unfold grown, capacity in *. rewrite Hl3. simpl. done.
        * auto.
      + intros Hc s2 Hs2 Hm2. split; [auto|]. exists []. by eapply holds_same.
    - unfold vsize. destruct (Z.ltb_spec (Z.of_nat (mylast (loc s) - myfirst (loc s))) (Z.of_nat n)).
      + apply wpx_bind, wpx_fill; [lia| | |].
        { intros q Hq. eexists. eapply holds_obj; [done|lia]. }
        2:{ intros Hc s1 (Hb1 & Hl1 & Hc1) Ho1 Hf1. split; [by left|].
            destruct (shape_intro maxsz s l s1 (length l)) as (l' & _ & Hl'); try done; try lia; eauto.
            - rewrite Hl1. by eapply loc_eta.
            - intros q Hq. apply Ho1. lia.
            - intros q Hq. rewrite Hf1 by lia. eapply holds_raw; [done|lia].
            - intros q Hq. apply Hf1. lia. }
        intros s1 (Hb1 & Hl1 & Hc1) Hm1.
        assert (H1 : holds s1 (replicate (length l) v)).
        { eapply (holds_intro maxsz s l s1); rewrite ?replicate_length; try done; try lia.
          - rewrite Hl1. by eapply loc_eta.
          - intros q Hq. rewrite Hm1. decs. rewrite cont_replicate by lia. done.
          - intros q Hq. rewrite Hm1. decs. eapply holds_raw; [done|lia].
          - intros q Hq. rewrite Hm1. decs. done. }
        replace (Z.to_nat (Z.of_nat n - Z.of_nat (mylast (loc s) - myfirst (loc s)))) with (n - length l) by lia.
        apply wpx_bind, (wpx_Uninitialized_fill_n _ _ _ _ v); [done| | |].
        { intros q Hq. rewrite Hm1. decs. eapply holds_raw; [done|lia]. }
        * intros s2 (Hb2 & Hl2 & Hc2) Hm2. apply set_last_ok. intros s3 Hm3 Hb3 Hl3 Hc3. rewrite Hl2, Hl1 in Hl3. split_and!.
          { eapply (holds_intro maxsz s l s3); rewrite ?Hrl; try done; try lia; try congruence.
            - rewrite Hl3. f_equal. lia.
            - intros q Hq. rewrite cont_replicate by lia. rewrite Hm3, Hm2. decs; [done|]. rewrite Hm1. decs. done.
            - intros q Hq. rewrite Hm3, Hm2. decs. rewrite Hm1. decs. eapply holds_raw; [done|lia].
            - intros q Hq. rewrite Hm3, Hm2. decs. rewrite Hm1. decs. done. }
          { unfold grown, capacity. rewrite Hl3. simpl. decs. }
          { auto. }
        * intros Hc s2 Hs2 Hm2. split; [auto|]. eexists. by eapply holds_same.
      + rewrite ?Nat2Z.id. apply wpx_bind, wpx_fill; [lia| | |].
        { intros q Hq. eexists. eapply holds_obj; [done|lia]. }
        2:{ intros Hc s1 (Hb1 & Hl1 & Hc1) Ho1 Hf1. split; [by left|].
            destruct (shape_intro maxsz s l s1 (length l)) as (l' & _ & Hl'); try done; try lia; eauto.
            - rewrite Hl1. by eapply loc_eta.
            - intros q Hq. destruct (decide (q < myfirst (loc s) + n)); [apply Ho1; lia|]. rewrite Hf1 by lia.
              eexists. eapply holds_obj; [done|lia].
            - intros q Hq. rewrite Hf1 by lia. eapply holds_raw; [done|lia].
            - intros q Hq. apply Hf1. lia. }
        intros s1 (Hb1 & Hl1 & Hc1) Hm1. apply wpx_bind, wpx_Destroy_range.
        { intros q Hq. rewrite Hm1. decs. eexists. eapply holds_obj; [done|lia]. }
        intros s2 (Hb2 & Hl2 & Hc2) Hm2. apply set_last_ok. intros s3 Hm3 Hb3 Hl3 Hc3. rewrite Hl2, Hl1 in Hl3. split_and!.
        * eapply (holds_intro maxsz s l s3); rewrite ?Hrl; try done; try lia; try congruence.
          { intros q Hq. rewrite Hm3, Hm2. decs. rewrite Hm1. decs. rewrite cont_replicate by lia. done. }
          { intros q Hq. rewrite Hm3, Hm2. decs; [done|]. rewrite Hm1. decs. eapply holds_raw; [done|lia]. }
          { intros q Hq. rewrite Hm3, Hm2. decs. rewrite Hm1. decs. done. }
        * unfold grown, capacity. rewrite Hl3. simpl. decs.
        * auto.
  Qed.
End vector.
