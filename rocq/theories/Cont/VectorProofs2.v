(** Proofs about the std::vector model: reallocating operations. *)
From stdpp Require Import base list list_numbers numbers decidable.
From Coq Require Import ZArith Lia.
From Verif Require Import Base.Res Base.Int Cont.ObjMem Cont.ObjMemProofs Cont.VectorModel Cont.VectorSpec Cont.VectorProofs.
Local Open Scope nat_scope.

Section vector.
  Context {A : Type} (T : traits) (maxsz : Z).
  Context (Hmax : (0 < maxsz < 2 ^ 63)%Z).
  Notation st := (st A vec).
  Notation holds := (holds (A := A) maxsz).
  Implicit Types (s : st) (l : list (option A)) (E : st -> Prop).

  Ltac facts H :=
    pose proof (h_last _ _ _ H); pose proof (h_end _ _ _ H); pose proof (h_brk _ _ _ H); pose proof (h_brk0 _ _ _ H);
    pose proof (h_max _ _ _ H).

  Lemma arg_is_alloc s s' a v l : holds s l -> arg_is s a v ->
    (forall q, mem s q <> Unalloc -> mem s' q = mem s q) -> arg_is s' a v.
  Proof. intros H Ha Hm. destruct a; simpl in *; try done. rewrite Hm; congruence. Qed.

  (** allocation of the new block *)
  Lemma wpx_alloc_new s0 l C (Q : nat -> st -> Prop) E :
    holds s0 l ->
    (forall s, built s0 l (brk s0) C 0 0 (fun _ => None) s -> Q (brk s0) s) ->
    (~ calm s0 -> forall s, holds s l -> loc s = loc s0 -> E s) ->
    wpx (alloc C) s0 Q E.
  Proof.
    intros H HQ HE. apply wpx_alloc.
    - intros s' Hb Hl Hc Hm. apply HQ. repeat split; try done; intros q; rewrite Hm; decs; done.
    - intros s' Hs Hm Hc. apply HE; [done| |apply Hs]. by eapply holds_same.
  Qed.

  Lemma fail_strong s0 l N C b e f s s' : holds s0 l -> built s0 l N C b e f s ->
    same s s' -> (forall q, mem s' q = if decide (N <= q < N + C) then Unalloc else mem s q) ->
    holds s' l /\ loc s' = loc s0.
  Proof.
    intros H (Hl & Hb & HN & Hc & Hm) Hs Hm'. facts H. split.
    - eapply (after_fail maxsz s0 l N C s s'); try done.
      + intros q Hq _. rewrite Hm. decs. done.
      + intros q Hq. rewrite Hm. decs. eexists. by eapply holds_obj.
      + intros q Hq. rewrite Hm. decs. done.
    - rewrite (proj1 (proj2 Hs)). done.
  Qed.

  Lemma calm_contra s s' : (calm s -> calm s') -> ~ calm s' -> ~ calm s.
  Proof. auto. Qed.

  Lemma growth_bounds c n : (0 <= c <= maxsz)%Z -> (0 < n <= maxsz)%Z ->
    let C := Z.to_nat (Calculate_growth maxsz c n) in
    0 < C /\ Z.to_nat n <= C /\ (Z.of_nat C <= maxsz)%Z /\ Z.of_nat C = growth maxsz c n.
  Proof.
    intros Hc Hn C. pose proof (growth_ge maxsz c n) as H1. pose proof (growth_le maxsz c n) as H2.
    unfold C. rewrite Calculate_growth_ok by lia. lia.
  Qed.

  (** result of inserting [n] elements at offset [off] *)
  Lemma inserted_cont l off (vs : list (option A)) i : off <= length l -> i < length l + length vs ->
    cont (take off l ++ vs ++ drop off l) i =
    if decide (i < off) then cont l i else if decide (i < off + length vs) then cont vs (i - off) else cont l (i - length vs).
  Proof.
    intros Ho Hi. rewrite cont_app, take_length_le by done. decs.
    - by apply cont_take.
    - rewrite cont_app. decs. done.
    - rewrite cont_app. decs. rewrite cont_drop. f_equal. lia.
  Qed.

  Definition rexn s l (off n : nat) s' : Prop :=
    (~ calm s \/ (maxsz < Z.of_nat (length l + n))%Z) /\ loc s' = loc s /\
    (exists l', length l' = length l /\ holds s' l') /\
    (mthrow T = false \/ (strong_type T /\ n = 1 /\ off = length l) -> holds s' l).

  (** the relocation and swap of the arrays, after the new elements are in place *)
  Lemma finish_insert {Y} s0 l off vs f N C s back (k : M A vec Y) (Q : Y -> st -> Prop) :
    holds s0 l -> off <= length l -> length l + length vs <= C -> 0 < C -> (Z.of_nat C <= maxsz)%Z ->
    built s0 l N C (N + off) (N + off + length vs) f s ->
    (forall i, i < length vs -> f (off + i) = cont vs i) ->
    (back = true <-> length vs = 1 /\ off = length l) ->
    (forall s', holds s' (take off l ++ vs ++ drop off l) ->
       loc s' = Vec N (N + (length l + length vs)) (N + C) -> (calm s0 -> calm s') -> wpx k s' Q (rexn s0 l off (length vs))) ->
    wpx ((if back
          then rguard N C (N + off) (N + off + length vs) (move_or_copy T (myfirst (loc s0)) (mylast (loc s0)) N) ;;; mret tt
          else rguard N C (N + off) (N + off + length vs) (Uninitialized_move T (myfirst (loc s0)) (myfirst (loc s0) + off) N) ;;;
               rguard N C N (N + off + length vs)
                 (Uninitialized_move T (myfirst (loc s0) + off) (mylast (loc s0)) (N + off + length vs)) ;;; mret tt) ;;;
         Change_array N (length l + length vs) C ;;; k) s Q (rexn s0 l off (length vs)).
  Proof.
    intros H Hoff HlC HC HCm Hbu Hf Hback HQ. facts H.
    pose proof Hbu as (Hl & Hb & HN & Hc & Hm).
    assert (Hlen : length (take off l ++ vs ++ drop off l) = length l + length vs).
    { rewrite !app_length, take_length_le, drop_length by done. lia. }
    assert (Hfin : forall s', same s s' ->
       (forall q, N <= q < N + C -> mem s' q =
          if decide (q < N + (length l + length vs)) then
            Obj (if decide (q < N + off) then cont l (q - N)
                 else if decide (q < N + off + length vs) then f (q - N) else cont l (q - N - length vs))
          else Raw) ->
       (forall q, myfirst (loc s0) <= q < mylast (loc s0) -> exists w, mem s' q = Obj w) ->
       (forall q, ~ N <= q < N + C -> ~ myfirst (loc s0) <= q < mylast (loc s0) -> mem s' q = mem s0 q) ->
       wpx (Change_array N (length l + length vs) C ;;; k) s' Q (rexn s0 l off (length vs))).
    { intros s' Hs' Hnew Hold Hfr. apply wpx_bind.
      eapply (Change_array_ok maxsz) with (l' := take off l ++ vs ++ drop off l); try done; try lia.
      - by rewrite (proj1 (proj2 Hs')).
      - by rewrite (proj1 Hs').
      - intros q Hq. rewrite Hnew, Hlen by done. decs; try done; rewrite inserted_cont by lia; decs; try done.
        f_equal. rewrite <-Hf by lia. f_equal. lia.
      - rewrite Hlen. intros s2 Hh Hl2 Hc2. apply HQ; try done. intros Hcc. apply Hc2, Hs'. auto. }
    apply wpx_bind. destruct back.
    - destruct Hback as [[Hn Hoe] _]; [done|].
      apply wpx_bind, wpx_rguard. eapply (relocate_strong T maxsz) with (f := f); try done; try lia.
      + intros s' Hs' Hnew Hold Hfr. apply wpx_ret. apply Hfin; try done.
        intros q Hq. rewrite Hnew by done. decs; done.
      + intros Hcs s1 Hs1 Hnew Hfr Ho Hstr. split; [|split; [lia|]].
        * intros q Hq. rewrite Hnew by done. rewrite Hm. decs; [by eexists|done].
        * intros s2 Hs2 Hm2.
          assert (Hl1 : loc s1 = loc s0) by (rewrite (proj1 (proj2 Hs1)); done).
          assert (Hb1 : brk s1 = brk s0 + C) by (rewrite (proj1 Hs1); done).
          pose proof (after_fail maxsz s0 l N C s1 s2 H HN Hl1 Hb1 Hfr Ho Hs2 Hm2) as [Hbasic Hsame].
          split; [left; eauto using calm_contra|]. split; [rewrite (proj1 (proj2 Hs2)); done|]. split; [done|].
          intros Hst. apply Hsame. intros q Hq. rewrite Hstr; [rewrite Hm; decs; done|].
          destruct Hst as [?|[? _]]; [by left|done].
    - apply (relocate_parts T maxsz s0 l N C off (length vs) f); try done; try lia.
      intros Ht Hcs s' l' Hl' Hh Hlo. split; [left; eauto using calm_contra|]. split; [congruence|]. split; [eauto|].
      intros [?|(_ & ? & ?)]; [congruence|]. assert (false = true) by by apply Hback. done.
  Qed.

  Lemma vcap_nat s : vcap (loc s) = Z.of_nat (capacity s).
  Proof. done. Qed.

  (** push_back / emplace / insert of one element when the storage is full *)
  Lemma Emplace_reallocate_ok s l off a v :
    holds s l -> arg_is s a v -> mylast (loc s) = myend (loc s) -> off <= length l ->
    wpx (Emplace_reallocate T maxsz (myfirst (loc s) + off) a) s
      (fun p s' => holds s' (take off l ++ [v] ++ drop off l) /\ p = myfirst (loc s') + off /\
         Z.of_nat (capacity s') = growth maxsz (Z.of_nat (capacity s)) (Z.of_nat (length l + 1)) /\ (calm s -> calm s'))
      (rexn s l off 1).
  Proof.
    intros H Ha Hfull Hoff. facts H. unfold Emplace_reallocate.
    apply wpx_bind, wpx_loc. rewrite vcap_nat.
    replace (vsize (loc s)) with (Z.of_nat (length l)) by (unfold vsize; lia).
    replace (myfirst (loc s) + off - myfirst (loc s)) with off by lia.
    destruct (decide (Z.of_nat (length l) = maxsz)) as [Hm|Hm].
    { apply wpx_throw. split; [right; lia|]. split; [done|]. split; eauto. }
    assert (Hcap : capacity s = length l) by (unfold capacity; lia).
    replace (zadd (Z.of_nat (length l)) 1) with (Z.of_nat (length l + 1)) by (rewrite zadd_ok; zpow; lia).
    rewrite Nat2Z.id. rewrite Hcap.
    destruct (growth_bounds (Z.of_nat (length l)) (Z.of_nat (length l + 1))) as (HC0 & HC1 & HC2 & HC3); [lia|lia|].
    set (C := Z.to_nat (Calculate_growth _ _ _)) in *. clearbody C.
    apply wpx_bind. eapply wpx_alloc_new; [exact H| |].
    2:{ intros Hc s1 Hh1 Hl1. split; [by left|]. split; [done|]. split; [eauto|done]. }
    intros s1 Hbu1. pose proof Hbu1 as (Hl1 & Hb1 & _ & Hc1 & Hm1). set (N := brk s) in *.
    apply wpx_bind, wpx_rguard, (wpx_construct_arg _ _ _ v).
    { eapply arg_is_alloc; [exact H|done|]. intros q Hq. rewrite Hm1. decs; [|done]. exfalso. apply Hq. eapply holds_un; [exact H|lia]. }
    { rewrite Hm1. decs. done. }
    2:{ intros _ Hcs s2 Hs2 Hm2. split; [|split; [lia|]].
        - intros q Hq. rewrite Hm2, Hm1. decs. done.
        - intros s3 Hs3 Hm3. destruct (fail_strong s l N C 0 0 (fun _ => None) s1 s3) as [Hh Hlo]; try done.
          + eauto using same_trans.
          + intros q. rewrite Hm3. decs; [done|]. by rewrite Hm2.
          + split; [left; eauto using calm_contra|]. split; [done|]. split; eauto. }
    intros s2 Hs2 Hm2.
    assert (Hbu2 : built s l N C (N + off) (N + off + length [v]) (fun _ => v) s2).
    { split; [by rewrite (proj1 (proj2 Hs2))|]. split; [by rewrite (proj1 Hs2)|]. split; [done|]. split.
      - intros. apply Hs2. auto.
      - intros q. rewrite Hm2, Hm1. simpl. decs; done. }
    pose proof (fun back k Q => finish_insert (Y:=nat) s l off [v] (fun _ => v) N C s2 back k Q H Hoff) as Hfin.
    simpl length in Hfin. rewrite <-Nat.add_assoc in Hfin.
    destruct (decide (myfirst (loc s) + off = mylast (loc s))) as [Hbk|Hbk].
    - apply (Hfin true); try done; try lia.
      + by rewrite Nat.add_assoc.
      + intros i Hi. by destruct i; [|lia].
      + intros s' Hh Hlo Hc. apply wpx_ret. rewrite Hlo. simpl. split_and!; try done.
        unfold capacity. rewrite Hlo. simpl. lia.
    - apply (Hfin false); try done; try lia.
      + by rewrite Nat.add_assoc.
      + intros i Hi. by destruct i; [|lia].
      + intros s' Hh Hlo Hc. apply wpx_ret. rewrite Hlo. simpl. split_and!; try done.
        unfold capacity. rewrite Hlo. simpl. lia.
  Qed.

  (** construction at the end within capacity *)
  Lemma Emplace_back_ok s l a v :
    holds s l -> arg_is s a v -> mylast (loc s) < myend (loc s) ->
    wpx (Emplace_back_with_unused_capacity T a) s
      (fun p s' => holds s' (l ++ [v]) /\ p = myfirst (loc s') + length l /\
         myfirst (loc s') = myfirst (loc s) /\ myend (loc s') = myend (loc s) /\ (calm s -> calm s'))
      (fun s' => ~ calm s /\ loc s' = loc s /\ holds s' l).
  Proof.
    intros H Ha Hlt. facts H. unfold Emplace_back_with_unused_capacity, last_.
    apply wpx_bind, wpx_bind, wpx_loc, wpx_ret. apply wpx_bind, (wpx_construct_arg _ _ _ v); [done| | |].
    - eapply holds_raw; [exact H|lia].
    - intros s1 Hs1 Hm1. apply wpx_bind, set_last_ok. intros s2 Hm2 Hb2 Hl2 Hc2. apply wpx_ret.
      rewrite Hl2. simpl. rewrite (proj1 (proj2 Hs1)). repeat split; try done; try lia.
      + rewrite Hl2, app_length. simpl. rewrite (proj1 (proj2 Hs1)). lia.
      + rewrite Hl2. simpl. rewrite (proj1 (proj2 Hs1)). lia.
      + intros q. rewrite Hm2, Hm1, Hl2. simpl. rewrite (proj1 (proj2 Hs1)).
        destruct (decide (q = mylast (loc s))).
        * decs. rewrite lookup_app_r by lia. replace (q - _ - _) with 0 by lia. done.
        * rewrite (h_mem _ _ _ H). decs; try done. rewrite lookup_app_l by lia. done.
      + rewrite Hl2. simpl. rewrite (proj1 (proj2 Hs1)). lia.
      + rewrite Hl2. simpl. rewrite (proj1 (proj2 Hs1)), Hb2, (proj1 Hs1). lia.
      + rewrite Hb2, (proj1 Hs1). lia.
      + rewrite Hl2. simpl. rewrite (proj1 (proj2 Hs1)). apply (h_null _ _ _ H).
      + intros. apply Hc2, Hs1. done.
    - intros _ Hc s1 Hs1 Hm1. split_and!; [done|apply Hs1|]. by eapply holds_same.
  Qed.

  Lemma push_back_ok s l a v :
    holds s l -> arg_is s a v ->
    wpx (push_back T maxsz a) s
      (fun p s' => holds s' (l ++ [v]) /\ p = myfirst (loc s') + length l /\ grown maxsz s s' (length l + 1) /\ (calm s -> calm s'))
      (rexn s l (length l) 1).
  Proof.
    intros H Ha. facts H. unfold push_back. apply wpx_bind, wpx_loc.
    destruct (decide (mylast (loc s) <> myend (loc s))).
    - eapply wpx_mono; [apply (Emplace_back_ok s l a v); [done|done|lia]| |].
      + intros p s' (Hh & Hp & Hf & He & Hc). split_and!; try done. unfold grown, capacity. decs.
      + intros s' (Hc & Hlo & Hh). split; [by left|]. split; [done|]. split; eauto.
    - replace (mylast (loc s)) with (myfirst (loc s) + length l) by lia.
      eapply wpx_mono; [apply (Emplace_reallocate_ok s l (length l) a v); [done|done|lia|lia]| |done].
      intros p s' (Hh & Hp & Hg & Hc). rewrite take_ge, drop_ge, app_nil_r in Hh by lia.
      split_and!; try done. unfold grown. decs; [unfold capacity in *; lia|exact Hg].
  Qed.
End vector.
