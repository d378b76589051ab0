(** Proofs about the std::vector model: insert(count), insert(range). *)
From stdpp Require Import base list list_numbers numbers decidable.
From Coq Require Import ZArith Lia.
From Verif Require Import Base.Res Base.Int Cont.ObjMem Cont.ObjMemProofs Cont.VectorModel Cont.VectorSpec
  Cont.VectorProofs Cont.VectorProofs2 Cont.VectorProofs3.
Local Open Scope nat_scope.

Ltac facts H :=
  let f1 := fresh "Fl" in let f2 := fresh "Fe" in let f3 := fresh "Fb" in let f4 := fresh "Fz" in let f5 := fresh "Fm" in
  pose proof (h_last _ _ _ H) as f1; pose proof (h_end _ _ _ H) as f2; pose proof (h_brk _ _ _ H) as f3;
  pose proof (h_brk0 _ _ _ H) as f4; pose proof (h_max _ _ _ H) as f5.
(* unfold known pointers *)
Ltac vl := repeat match goal with
  | E : loc ?s = Vec _ _ _ |- context [loc ?s] => rewrite E
  | E : loc ?s = Vec _ _ _, H : context [loc ?s] |- _ => assert_fails (constr_eq H E); rewrite E in H
  end; cbn [myfirst mylast myend] in *.

Section vector.
  Context {A : Type} (T : traits) (maxsz : Z).
  Context (Hmax : (0 < maxsz < 2 ^ 63)%Z).
  Notation st := (st A vec).
  Notation holds := (holds (A := A) maxsz).
  Notation rexn := (rexn T maxsz).
  Notation ins_ok := (ins_ok maxsz).
  Notation ins_exn := (ins_exn T maxsz).
  Implicit Types (s : st) (l : list (option A)) (E : st -> Prop).

  Lemma finish_insert' s0 l off vs f N C s (back : bool) :
    holds s0 l -> off <= length l -> length l + length vs <= C -> 0 < C -> (Z.of_nat C <= maxsz)%Z ->
    built s0 l N C (N + off) (N + off + length vs) f s ->
    (forall i, i < length vs -> f (off + i) = cont vs i) ->
    (back = true <-> length vs = 1 /\ off = length l) ->
    wpx ((if back
          then rguard N C (N + off) (N + off + length vs) (move_or_copy T (myfirst (loc s0)) (mylast (loc s0)) N) ;;; mret tt
          else rguard N C (N + off) (N + off + length vs) (Uninitialized_move T (myfirst (loc s0)) (myfirst (loc s0) + off) N) ;;;
               rguard N C N (N + off + length vs)
                 (Uninitialized_move T (myfirst (loc s0) + off) (mylast (loc s0)) (N + off + length vs)) ;;; mret tt) ;;;
         Change_array N (length l + length vs) C) s
      (fun _ s' => holds s' (take off l ++ vs ++ drop off l) /\
         loc s' = Vec N (N + (length l + length vs)) (N + C) /\ (calm s0 -> calm s'))
      (rexn s0 l off (length vs)).
  Proof.
    intros H Hoff HlC HC HCm Hbu Hf Hback. apply wpx_bind.
    assert (HF := finish_insert T maxsz s0 l off vs f N C s back (mret tt)
        (fun _ s' => holds s' (take off l ++ vs ++ drop off l) /\
         loc s' = Vec N (N + (length l + length vs)) (N + C) /\ (calm s0 -> calm s')) H Hoff HlC HC HCm Hbu Hf Hback).
    specialize (HF (fun s' Hh Hl Hc => conj Hh (conj Hl Hc))).
    apply wpx_bind_inv in HF. eapply wpx_mono; [exact HF| |done].
    intros [] s' H'. apply wpx_bind_inv in H'. eapply wpx_mono; [exact H'| |done]. intros [] s'' H''. exact H''.
  Qed.

  (** the part of insert(count)/insert(range) that reallocates *)
  Lemma insert_realloc_ok s l off vs (back : bool) (mk : nat -> M A vec nat) :
    holds s l -> off <= length l -> 0 < length vs -> myend (loc s) - mylast (loc s) < length vs ->
    (back = true <-> length vs = 1 /\ off = length l) ->
    (forall s1 (Q : nat -> st -> Prop) E d,
       (forall q, mem s q <> Unalloc -> mem s1 q = mem s q) ->
       (forall q, d <= q < d + length vs -> mem s1 q = Raw) ->
       (forall s', same s1 s' -> (forall q, mem s' q = if decide (d <= q < d + length vs) then Obj (cont vs (q - d)) else mem s1 q) ->
          Q (d + length vs) s') ->
       (~ calm s1 -> forall s', same s1 s' -> (forall q, mem s' q = mem s1 q) -> E s') -> wpx (mk d) s1 Q E) ->
    wpx (if (zsub maxsz (Z.of_nat (length l)) <? Z.of_nat (length vs))%Z then mthrow_
         else
           Newvec <<- alloc (Z.to_nat (Calculate_growth maxsz (vcap (loc s)) (zadd (Z.of_nat (length l)) (Z.of_nat (length vs))))) ;;
           rguard Newvec (Z.to_nat (Calculate_growth maxsz (vcap (loc s)) (zadd (Z.of_nat (length l)) (Z.of_nat (length vs)))))
             (Newvec + off + length vs) (Newvec + off + length vs) (mk (Newvec + off)) ;;;
           (if back
            then rguard Newvec (Z.to_nat (Calculate_growth maxsz (vcap (loc s)) (zadd (Z.of_nat (length l)) (Z.of_nat (length vs)))))
                   (Newvec + off) (Newvec + off + length vs) (move_or_copy T (myfirst (loc s)) (mylast (loc s)) Newvec) ;;; mret tt
            else rguard Newvec (Z.to_nat (Calculate_growth maxsz (vcap (loc s)) (zadd (Z.of_nat (length l)) (Z.of_nat (length vs)))))
                   (Newvec + off) (Newvec + off + length vs) (Uninitialized_move T (myfirst (loc s)) (myfirst (loc s) + off) Newvec) ;;;
                 rguard Newvec (Z.to_nat (Calculate_growth maxsz (vcap (loc s)) (zadd (Z.of_nat (length l)) (Z.of_nat (length vs)))))
                   Newvec (Newvec + off + length vs)
                   (Uninitialized_move T (myfirst (loc s) + off) (mylast (loc s)) (Newvec + off + length vs)) ;;; mret tt) ;;;
           Change_array Newvec (Z.to_nat (zadd (Z.of_nat (length l)) (Z.of_nat (length vs))))
             (Z.to_nat (Calculate_growth maxsz (vcap (loc s)) (zadd (Z.of_nat (length l)) (Z.of_nat (length vs)))))) s
      (fun _ s' => ins_ok s l off vs (myfirst (loc s') + off) s') (rexn s l off (length vs)).
  Proof.
    intros H Hoff Hn Hun Hback Hmk. facts H.
    rewrite zsub_ok by (zpow; lia).
    destruct (Z.ltb_spec (maxsz - Z.of_nat (length l)) (Z.of_nat (length vs))).
    { apply wpx_throw. split; [right; lia|]. split; [done|]. split; eauto. }
    replace (zadd (Z.of_nat (length l)) (Z.of_nat (length vs))) with (Z.of_nat (length l + length vs)) by (rewrite zadd_ok; zpow; lia).
    rewrite Nat2Z.id.
    destruct (growth_bounds maxsz Hmax (vcap (loc s)) (Z.of_nat (length l + length vs))) as (HC0 & HC1 & HC2 & HC3); [unfold vcap; lia|lia|].
    set (C := Z.to_nat (Calculate_growth _ _ _)) in *. clearbody C.
    apply wpx_bind. eapply wpx_alloc_new; [exact H| |].
    2:{ intros Hc s1 Hh1 Hl1. split; [by left|]. split; [done|]. split; [eauto|done]. }
    intros s1 Hbu1. pose proof Hbu1 as (Hl1 & Hb1 & _ & Hc1 & Hm1).
    apply wpx_bind, wpx_rguard, Hmk.
    { intros q Hq. rewrite Hm1. decs; [|done]. exfalso. apply Hq. eapply holds_un; [exact H|lia]. }
    { intros q Hq. rewrite Hm1. decs. done. }
    2:{ intros Hcs s2 Hs2 Hm2. split; [|split; [lia|]].
        - intros q Hq. rewrite Hm2, Hm1. decs. done.
        - intros s3 Hs3 Hm3. destruct (fail_strong maxsz s l (brk s) C 0 0 (fun _ => None) s1 s3) as [Hh Hlo]; try done.
          + eauto using same_trans.
          + intros q. rewrite Hm3. decs; [done|]. by rewrite Hm2.
          + split; [left; eauto using calm_contra|]. split; [done|]. split; eauto. }
    intros s2 Hs2 Hm2.
    eapply wpx_mono; [eapply (finish_insert' s l off vs (fun i => cont vs (i - off)) (brk s) C s2 back); try done; try lia| |done].
    - split; [by rewrite (proj1 (proj2 Hs2))|]. split; [by rewrite (proj1 Hs2)|]. split; [done|]. split.
      + intros. apply Hs2. auto.
      + intros q. rewrite Hm2, Hm1. decs; try done. do 2 f_equal. lia.
    - intros i Hi. f_equal. lia.
    - intros [] s' (Hh & Hlo & Hc). split_and!; try done. unfold grown, capacity. rewrite Hlo. simpl.
      destruct (decide _); [lia|]. unfold growth, vcap in HC3. rewrite <-HC3. lia.
  Qed.

  Lemma ins_inplace s l s' off vs p :
    holds s l -> off <= length l -> p = myfirst (loc s) + off ->
    loc s' = Vec (myfirst (loc s)) (myfirst (loc s) + (length l + length vs)) (myend (loc s)) -> brk s' = brk s ->
    myfirst (loc s) + (length l + length vs) <= myend (loc s) ->
    (forall q, myfirst (loc s) <= q < myfirst (loc s) + (length l + length vs) -> mem s' q = Obj (
       if decide (q < myfirst (loc s) + off) then cont l (q - myfirst (loc s))
       else if decide (q < myfirst (loc s) + off + length vs) then cont vs (q - myfirst (loc s) - off)
       else cont l (q - myfirst (loc s) - length vs))) ->
    (forall q, myfirst (loc s) + (length l + length vs) <= q < myend (loc s) -> mem s' q = Raw) ->
    (forall q, ~ myfirst (loc s) <= q < myend (loc s) -> mem s' q = mem s q) ->
    (calm s -> calm s') -> ins_ok s l off vs p s'.
  Proof.
    intros H Hoff -> Hl Hb Hle Ho Hr Hu Hc.
    assert (Hlen : length (take off l ++ vs ++ drop off l) = length l + length vs).
    { rewrite !app_length, take_length_le, drop_length by done. lia. }
    split_and!.
    - eapply holds_intro; rewrite ?Hlen; try done.
      intros q Hq. rewrite Ho by done. rewrite inserted_cont by lia. decs; done.
    - rewrite Hl. done.
    - unfold grown, capacity. rewrite Hl. simpl. decs.
    - done.
  Qed.

  Lemma bexn_ins s l s' off n (X : Prop) :
    bexn maxsz s l s' -> ~ (strong_type T /\ n = 1 /\ off = length l) -> ~ X -> ins_exn s l off n X s'.
  Proof. intros (Hc & Hf & He & Hh) Hn HX. split_and!; auto. intros [?|?]; done. Qed.
  Lemma strong_ins s l s' off n (X : Prop) :
    ~ calm s -> loc s' = loc s -> holds s' l -> ins_exn s l off n X s'.
  Proof. intros Hc Hl Hh. unfold VectorProofs3.ins_exn. rewrite Hl. split_and!; eauto. Qed.

  Lemma insert_n_ok s l off Count a v :
    holds s l -> arg_is s a v -> off <= length l -> (0 <= Count < 2 ^ 64)%Z ->
    wpx (insert_n T maxsz (myfirst (loc s) + off) Count a) s (ins_ok s l off (replicate (Z.to_nat Count) v))
      (ins_exn s l off (Z.to_nat Count) False).
  Proof.
    intros H Ha Hoff HCount. facts H. unfold insert_n. apply wpx_bind, wpx_loc.
    replace (myfirst (loc s) + off - myfirst (loc s)) with off by lia.
    replace (vsize (loc s)) with (Z.of_nat (length l)) by (unfold vsize; lia).
    set (n := Z.to_nat Count). assert (HCn : Count = Z.of_nat n) by lia. clearbody n. subst Count.
    remember (replicate n v) as vs eqn:Evs. assert (Hvs : length vs = n) by (rewrite Evs; apply replicate_length).
    rewrite ?Nat2Z.id.
    apply wpx_bind. destruct (decide (Z.of_nat n = 0%Z)) as [Hz|Hz].
    { apply wpx_ret. apply wpx_bind, wpx_loc, wpx_ret. assert (Hn0 : n = 0) by lia. rewrite Hn0 in Hvs, Evs. clear Hz Hn0 n HCount.
      eapply ins_inplace; try done; rewrite ?Hvs; try lia.
      - rewrite Nat.add_0_r. by eapply loc_eta.
      - intros q Hq. rewrite (holds_obj maxsz s l) by (try done; lia). f_equal. decs; [done|]. f_equal. lia.
      - intros q Hq. eapply holds_raw; [done|]. lia. }
    destruct (Z.ltb_spec (Z.of_nat (myend (loc s) - mylast (loc s))) (Z.of_nat n)).
    { rewrite <-Hvs.
      eapply wpx_mono.
      - eapply (insert_realloc_ok s l off vs _ (fun d => Uninitialized_fill_n T d (length vs) a)); try done; try lia.
        + rewrite Hvs. rewrite Bool.andb_true_iff, !bool_decide_eq_true. lia.
        + intros s1 Q E d Hm1 Hr HQ HE. apply (wpx_Uninitialized_fill_n _ _ _ _ v).
          * by eapply (arg_is_alloc maxsz s).
          * done.
          * intros s' Hs' Hm'. apply HQ; [done|]. intros q. rewrite Hm'. decs; [|done]. rewrite Evs.
            rewrite cont_replicate by lia. done.
          * done.
      - intros [] s' Hi. apply wpx_bind, wpx_loc, wpx_ret. rewrite ?Hvs in *. exact Hi.
      - intros s' Hr. apply rexn_ins; [done|]. rewrite ?Hvs in *. done. }
    destruct (bool_decide (Z.of_nat n = 1%Z) && bool_decide (myfirst (loc s) + off = mylast (loc s))) eqn:Eone.
    { apply Bool.andb_true_iff in Eone as [E1 E2]. apply bool_decide_eq_true in E1, E2.
      assert (Hn1 : n = 1) by lia. rewrite Hn1 in *. assert (off = length l) as -> by lia.
      apply wpx_bind. eapply wpx_mono; [apply (Emplace_back_ok T maxsz s l a v); [done|done|lia]| |].
      - intros p s' (Hh & Hp & Hf & He & Hc). apply wpx_ret, wpx_bind, wpx_loc, wpx_ret. split_and!; try done.
        + rewrite Evs, take_ge, drop_ge, app_nil_r by lia. done.
        + unfold grown, capacity. rewrite Hvs. decs.
      - intros s' (Hc & Hlo & Hh). by apply strong_ins. }
    assert (Hnb : ~ (strong_type T /\ n = 1 /\ off = length l)).
    { apply Bool.andb_false_iff in Eone as [E1|E1]; apply bool_decide_eq_false in E1; lia. }
    clear Eone.
    apply wpx_bind, (wpx_temp_arg _ _ v); [done| |].
    2:{ intros _ Hc s1 Hs1 Hm1. apply strong_ins; [done|apply Hs1|by eapply holds_same]. }
    intros s1 Hs1 Hm1. assert (H1 : holds s1 l) by by eapply holds_same.
    destruct Hs1 as (Hb1 & Hl1 & Hc1).
    destruct (loc s) as [F Lst En] eqn:EL. vl.
    assert (Hx : forall s', bexn maxsz s1 l s' -> ins_exn s l off n False s').
    { intros s' (Hc & Hf & He & Hh). apply bexn_ins; [|done|auto]. split; [auto|]. vl. eauto. }
    assert (Hobj1 : forall q, F <= q < Lst -> mem s1 q = Obj (cont l (q - F))).
    { intros q Hq. rewrite (holds_obj maxsz s1 l) by (try done; vl; lia). vl. done. }
    assert (Hraw1 : forall q, Lst <= q < En -> mem s1 q = Raw).
    { intros q Hq. eapply holds_raw; [done|]. vl. lia. }
    assert (Hgoal : forall s', loc s' = Vec F (F + (length l + n)) En -> brk s' = brk s ->
      (forall q, F <= q < F + (length l + n) -> mem s' q = Obj (if decide (q < F + off) then cont l (q - F)
         else if decide (q < F + off + n) then v else cont l (q - F - n))) ->
      (forall q, F + (length l + n) <= q < En -> mem s' q = Raw) ->
      (forall q, ~ F <= q < En -> mem s' q = mem s1 q) -> (calm s -> calm s') ->
      wpx (v' <<- mloc;; mret (myfirst v' + off)) s' (ins_ok s l off vs) (ins_exn s l off n False)).
    { intros s' Hl' Hb' Ho' Hr' Hu' Hc'. apply wpx_bind, wpx_loc, wpx_ret.
      eapply ins_inplace; try done; rewrite ?Hvs; vl; try done; try lia.
      - intros q Hq. rewrite Ho' by done. decs; try done. f_equal. rewrite Evs. rewrite cont_replicate by lia. done.
      - intros q Hq. rewrite Hu' by done. by rewrite Hm1. }
    destruct (Z.ltb_spec (Z.of_nat (Lst - (F + off))) (Z.of_nat n)).
    - replace (Z.to_nat (Z.of_nat n - Z.of_nat (Lst - (F + off)))) with (n - (length l - off)) by lia.
      set (k := n - (length l - off)). assert (Hk : k + (length l - off) = n) by lia. clearbody k.
      apply wpx_bind, (wpx_Uninitialized_fill_n _ _ _ _ v); [done| | |].
      { intros q Hq. apply Hraw1. lia. }
      2:{ intros Hc s2 Hs2 Hm2. apply strong_ins; [auto|rewrite (proj1 (proj2 Hs2)); vl; done|]. by eapply holds_same. }
      intros s2 (Hb2 & Hl2 & Hc2) Hm2. apply wpx_bind, set_last_ok. intros s3 Hm3 Hb3 Hl3 Hc3. vl.
      apply wpx_bind, wpx_Uninitialized_move; try lia.
      { intros q Hq. rewrite Hm3, Hm2. decs. eexists. apply Hobj1. lia. }
      { intros q Hq. rewrite Hm3, Hm2. decs. apply Hraw1. lia. }
      2:{ intros Ht Hc s4 (Hb4 & Hl4 & Hc4) Ho4 Hf4. apply Hx. apply (bexn_intro maxsz s1 l s4 (length l + k)); vl; try done; try congruence; try lia.
          - auto.
          - f_equal. lia.
          - intros q Hq. destruct (decide (F + off <= q < Lst)); [apply Ho4; lia|]. rewrite Hf4 by lia. rewrite Hm3, Hm2.
            decs; eexists; [done|]. apply Hobj1. lia.
          - intros q Hq. rewrite Hf4 by lia. rewrite Hm3, Hm2. decs. apply Hraw1. lia.
          - intros q Hq. rewrite Hf4 by lia. rewrite Hm3, Hm2. decs. done. }
      intros s4 (Hb4 & Hl4 & Hc4) Hm4. apply wpx_bind, set_last_ok. intros s5 Hm5 Hb5 Hl5 Hc5. vl.
      replace (Lst + k + (Lst - (F + off))) with (F + (length l + n)) in Hl5 by lia.
      assert (Hobj5 : forall q, F <= q < F + (length l + n) -> exists w, mem s5 q = Obj w).
      { intros q Hq. rewrite Hm5, Hm4. decs; try by eexists.
        - rewrite Hm3, Hm2. decs. eexists. apply Hobj1. lia.
        - rewrite Hm3, Hm2. decs; eexists; [done|]. apply Hobj1. lia. }
      assert (Hoth5 : forall q, ~ F <= q < F + (length l + n) -> mem s5 q = mem s1 q).
      { intros q Hq. rewrite Hm5, Hm4. decs. rewrite Hm3, Hm2. decs. done. }
      apply wpx_fill; try lia.
      + intros q Hq. apply Hobj5. lia.
      + intros s6 (Hb6 & Hl6 & Hc6) Hm6. vl. apply Hgoal; try done; try congruence.
        * intros q Hq. rewrite Hm6. decs; try done.
          { rewrite Hm5, Hm4. decs. rewrite Hm3, Hm2. decs. apply Hobj1. lia. }
          { rewrite Hm5, Hm4. decs. rewrite Hm3, Hm2. decs. done. }
          { rewrite Hm5, Hm4. decs. rewrite Hm3, Hm2. decs. rewrite Hobj1 by lia. do 2 f_equal. lia. }
        * intros q Hq. rewrite Hm6. decs. rewrite Hoth5 by lia. apply Hraw1. lia.
        * intros q Hq. rewrite Hm6. decs. rewrite Hoth5 by lia. done.
        * auto 10.
      + intros Hc s6 (Hb6 & Hl6 & Hc6) Ho6 Hf6. vl. apply Hx. apply (bexn_intro maxsz s1 l s6 (length l + n)); vl; try done; try congruence; try lia.
        * auto 10.
        * intros q Hq. destruct (decide (F + off <= q < Lst)); [apply Ho6; lia|]. rewrite Hf6 by lia. by apply Hobj5.
        * intros q Hq. rewrite Hf6, Hoth5 by lia. apply Hraw1. lia.
        * intros q Hq. rewrite Hf6, Hoth5 by lia. done.
    - apply wpx_bind, wpx_Uninitialized_move; try lia.
      { intros q Hq. eexists. apply Hobj1. lia. }
      { intros q Hq. apply Hraw1. lia. }
      2:{ intros Ht Hc s4 (Hb4 & Hl4 & Hc4) Ho4 Hf4. apply Hx. apply (bexn_intro maxsz s1 l s4 (length l)); vl; try done; try congruence; try lia.
          - intros q Hq. destruct (decide (Lst - n <= q < Lst)); [apply Ho4; lia|]. rewrite Hf4 by lia. eexists. apply Hobj1. lia.
          - intros q Hq. rewrite Hf4 by lia. apply Hraw1. lia.
          - intros q Hq. rewrite Hf4 by lia. done. }
      intros s2 (Hb2 & Hl2 & Hc2) Hm2. apply wpx_bind, set_last_ok. intros s3 Hm3 Hb3 Hl3 Hc3. vl.
      replace (Lst + (Lst - (Lst - n))) with (F + (length l + n)) in Hl3 by lia.
      assert (Hobj3 : forall q, F <= q < F + (length l + n) -> exists w, mem s3 q = Obj w).
      { intros q Hq. rewrite Hm3, Hm2. decs; try by eexists.
        - eexists. apply Hobj1. lia.
        - eexists. apply Hobj1. lia. }
      assert (Hoth3 : forall q, ~ F <= q < F + (length l + n) -> mem s3 q = mem s1 q).
      { intros q Hq. rewrite Hm3, Hm2. decs. done. }
      apply wpx_bind, wpx_Move_backward; try lia.
      { intros q Hq. apply Hobj3. lia. }
      2:{ intros Ht Hc s4 (Hb4 & Hl4 & Hc4) Ho4 Hf4. vl. apply Hx. apply (bexn_intro maxsz s1 l s4 (length l + n)); vl; try done; try congruence; try lia.
          - auto.
          - intros q Hq. destruct (decide (F + off <= q < Lst)); [apply Ho4; lia|]. rewrite Hf4 by lia. by apply Hobj3.
          - intros q Hq. rewrite Hf4, Hoth3 by lia. apply Hraw1. lia.
          - intros q Hq. rewrite Hf4, Hoth3 by lia. done. }
      intros s4 (Hb4 & Hl4 & Hc4) Hmv4 Ho4 Hf4. vl.
      assert (Hobj4 : forall q, F <= q < F + (length l + n) -> exists w, mem s4 q = Obj w).
      { intros q Hq. destruct (decide (F + off <= q < Lst)); [apply Ho4; lia|]. rewrite Hf4 by lia. by apply Hobj3. }
      apply wpx_fill; try lia.
      + intros q Hq. apply Hobj4. lia.
      + intros s6 (Hb6 & Hl6 & Hc6) Hm6. vl. apply Hgoal; try done; try congruence.
        * intros q Hq. rewrite Hm6. decs; try done.
          { rewrite Hf4 by lia. rewrite Hm3, Hm2. decs. apply Hobj1. lia. }
          { destruct (decide (q < Lst)).
            - rewrite Hmv4 by lia. rewrite Hm3, Hm2. decs. rewrite Hobj1 by lia. do 2 f_equal. lia.
            - rewrite Hf4 by lia. rewrite Hm3, Hm2. decs. rewrite Hobj1 by lia. do 2 f_equal. lia. }
        * intros q Hq. rewrite Hm6. decs. rewrite Hf4, Hoth3 by lia. apply Hraw1. lia.
        * intros q Hq. rewrite Hm6. decs. rewrite Hf4, Hoth3 by lia. done.
        * auto 10.
      + intros Hc s6 (Hb6 & Hl6 & Hc6) Ho6 Hf6. vl. apply Hx. apply (bexn_intro maxsz s1 l s6 (length l + n)); vl; try done; try congruence; try lia.
        * auto 10.
        * intros q Hq. destruct (decide (F + off <= q < F + off + n)); [apply Ho6; lia|]. rewrite Hf6 by lia. by apply Hobj4.
        * intros q Hq. rewrite Hf6, Hf4, Hoth3 by lia. apply Hraw1. lia.
        * intros q Hq. rewrite Hf6, Hf4, Hoth3 by lia. done.
  Qed.
End vector.
