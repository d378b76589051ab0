(** Proofs about the std::vector model: insert(range). *)
From stdpp Require Import base list list_numbers numbers decidable.
From Coq Require Import ZArith Lia.
From Verif Require Import Base.Res Base.Int Cont.ObjMem Cont.ObjMemProofs Cont.VectorModel Cont.VectorSpec
  Cont.VectorProofs Cont.VectorProofs2 Cont.VectorProofs3 Cont.VectorProofs4.
Local Open Scope nat_scope.

Section vector.
  Context {A : Type} (T : traits) (maxsz : Z).
  Context (Hmax : (0 < maxsz < 2 ^ 63)%Z).
  Notation st := (st A vec).
  Notation holds := (holds (A := A) maxsz).
  Notation rexn := (rexn T maxsz).
  Notation ins_ok := (ins_ok maxsz).
  Notation ins_exn := (ins_exn T maxsz).
  Implicit Types (s : st) (l : list (option A)) (E : st -> Prop).

  Lemma insert_range_ok s l off vs :
    holds s l -> off <= length l -> (Z.of_nat (length vs) < 2 ^ 64)%Z ->
    wpx (insert_range T maxsz (myfirst (loc s) + off) vs) s (ins_ok s l off vs)
      (ins_exn s l off (length vs) (nothrow_moves T)).
  Proof.
    intros H Hoff HCount. facts H. unfold insert_range. apply wpx_bind, wpx_loc.
    replace (myfirst (loc s) + off - myfirst (loc s)) with off by lia.
    replace (vsize (loc s)) with (Z.of_nat (length l)) by (unfold vsize; lia).
    apply wpx_bind. destruct (decide (Z.of_nat (length vs) = 0%Z)) as [Hz|Hz].
    { apply wpx_ret. apply wpx_bind, wpx_loc, wpx_ret. assert (Hvs : length vs = 0) by lia.
      eapply ins_inplace; try done; rewrite ?Hvs; try lia.
      - rewrite Nat.add_0_r. by eapply loc_eta.
      - intros q Hq. rewrite (holds_obj maxsz s l) by (try done; lia). f_equal. decs; [done|]. f_equal. lia.
      - intros q Hq. eapply holds_raw; [done|]. lia. }
    destruct (Z.ltb_spec (Z.of_nat (myend (loc s) - mylast (loc s))) (Z.of_nat (length vs))).
    { eapply wpx_mono.
      - eapply (insert_realloc_ok T maxsz Hmax s l off vs _ (fun d => Uninitialized_copy_n T vs d)); try done; try lia.
        + rewrite Bool.andb_true_iff, !bool_decide_eq_true. lia.
        + intros s1 Q E d Hm1 Hr HQ HE. by apply wpx_Uninitialized_copy_n.
      - intros [] s' Hi. apply wpx_bind, wpx_loc, wpx_ret. exact Hi.
      - intros s' Hr. by apply rexn_ins; [|done]. }
    pose proof (loc_eta maxsz s l H) as Eeta.
    set (n := length vs) in *. assert (Hn : n = length vs) by done. clearbody n.
    destruct (loc s) as [F Lst En] eqn:EL. cbn [myfirst mylast myend] in *.
    assert (Hobj1 : forall q, F <= q < Lst -> mem s q = Obj (cont l (q - F))).
    { intros q Hq. rewrite (holds_obj maxsz s l) by (try done; vl; lia). vl. done. }
    assert (Hraw1 : forall q, Lst <= q < En -> mem s q = Raw).
    { intros q Hq. eapply holds_raw; [done|]. vl. lia. }
    assert (Hgoal : forall s', loc s' = Vec F (F + (length l + n)) En -> brk s' = brk s ->
      (forall q, F <= q < F + (length l + n) -> mem s' q = Obj (if decide (q < F + off) then cont l (q - F)
         else if decide (q < F + off + n) then cont vs (q - F - off) else cont l (q - F - n))) ->
      (forall q, F + (length l + n) <= q < En -> mem s' q = Raw) ->
      (forall q, ~ F <= q < En -> mem s' q = mem s q) -> (calm s -> calm s') ->
      wpx (v' <<- mloc;; mret (myfirst v' + off)) s' (ins_ok s l off vs) (ins_exn s l off n (nothrow_moves T))).
    { intros s' Hl' Hb' Ho' Hr' Hu' Hc'. apply wpx_bind, wpx_loc, wpx_ret.
      eapply ins_inplace; try done; rewrite <-?Hn; vl; try done; try lia. }
    (* restored: same contents *)
    assert (Hres : forall s', loc s' = Vec F Lst En -> brk s' = brk s -> ~ calm s ->
      (forall q, F <= q < Lst -> mem s' q = Obj (cont l (q - F))) ->
      (forall q, ~ F <= q < Lst -> mem s' q = mem s q) -> ins_exn s l off n (nothrow_moves T) s').
    { intros s' Hl' Hb' Hc' Ho' Hf'. apply strong_ins; [done|by vl|].
      eapply (holds_intro maxsz s l s'); vl; try done; try lia.
      - intros q Hq. apply Ho'. lia.
      - intros q Hq. rewrite Hf' by lia. apply Hraw1. lia.
      - intros q Hq. apply Hf'. lia. }
    (* broken: some valid contents of length k *)
    assert (Hbrk : forall s' k, loc s' = Vec F (F + k) En -> brk s' = brk s -> ~ calm s ->
      (mthrow T = true \/ mathrow T = true) -> off < length l -> F + k <= En ->
      (forall q, F <= q < F + k -> exists w, mem s' q = Obj w) ->
      (forall q, F + k <= q < En -> mem s' q = Raw) ->
      (forall q, ~ F <= q < En -> mem s' q = mem s q) -> ins_exn s l off n (nothrow_moves T) s').
    { intros s' k Hl' Hb' Hc' Ht Ho Hk Hob' Hr' Hu'. apply bexn_ins.
      - eapply (bexn_intro maxsz s l s' k); vl; done.
      - lia.
      - intros [Ht1 Ht2]. rewrite Ht1, Ht2 in Ht. by destruct Ht. }
    destruct (Z.ltb_spec (Z.of_nat n) (Z.of_nat (Lst - (F + off)))).
    - apply wpx_bind, wpx_Uninitialized_move; try lia.
      { intros q Hq. eexists. apply Hobj1. lia. }
      { intros q Hq. apply Hraw1. lia. }
      2:{ intros Ht Hc s2 (Hb2 & Hl2 & Hc2) Ho2 Hf2. apply (Hbrk s2 (length l)); vl; auto; try lia.
          - intros q Hq. destruct (decide (Lst - n <= q < Lst)); [apply Ho2; lia|]. rewrite Hf2 by lia. eexists. apply Hobj1. lia.
          - intros q Hq. rewrite Hf2 by lia. apply Hraw1. lia.
          - intros q Hq. rewrite Hf2 by lia. done. }
      intros s2 (Hb2 & Hl2 & Hc2) Hm2. apply wpx_bind, set_last_ok. intros s3 Hm3 Hb3 Hl3 Hc3. vl.
      replace (Lst + (Lst - (Lst - n))) with (F + (length l + n)) in Hl3 by lia.
      assert (Hobj3 : forall q, F <= q < F + (length l + n) -> exists w, mem s3 q = Obj w).
      { intros q Hq. rewrite Hm3, Hm2. decs; eexists; first [done|apply Hobj1; lia]. }
      assert (Hoth3 : forall q, ~ F <= q < F + (length l + n) -> mem s3 q = mem s q).
      { intros q Hq. rewrite Hm3, Hm2. decs. done. }
      apply wpx_bind, wpx_Move_backward; try lia.
      { intros q Hq. apply Hobj3. lia. }
      2:{ intros Ht Hc s4 (Hb4 & Hl4 & Hc4) Ho4 Hf4. vl. apply (Hbrk s4 (length l + n)); vl; auto; try lia; try congruence.
          - intros q Hq. destruct (decide (F + off <= q < Lst)); [apply Ho4; lia|]. rewrite Hf4 by lia. by apply Hobj3.
          - intros q Hq. rewrite Hf4, Hoth3 by lia. apply Hraw1. lia.
          - intros q Hq. rewrite Hf4, Hoth3 by lia. done. }
      intros s4 (Hb4 & Hl4 & Hc4) Hmv4 Ho4 Hf4. vl.
      assert (Hlow4 : forall q, F <= q < F + off -> mem s4 q = Obj (cont l (q - F))).
      { intros q Hq. rewrite Hf4 by lia. rewrite Hm3, Hm2. decs. apply Hobj1. lia. }
      assert (Hhigh4 : forall q, F + off + n <= q < F + (length l + n) -> mem s4 q = Obj (cont l (q - F - n))).
      { intros q Hq. destruct (decide (q < Lst)).
        - rewrite Hmv4 by lia. rewrite Hm3, Hm2. decs. rewrite Hobj1 by lia. do 2 f_equal. lia.
        - rewrite Hf4 by lia. rewrite Hm3, Hm2. decs. rewrite Hobj1 by lia. do 2 f_equal. lia. }
      assert (Hoth4 : forall q, ~ F <= q < F + (length l + n) -> mem s4 q = mem s q).
      { intros q Hq. rewrite Hf4, Hoth3 by lia. done. }
      apply wpx_bind, wpx_Destroy_range.
      { intros q Hq. apply Ho4. lia. }
      intros s5 (Hb5 & Hl5 & Hc5) Hm5. vl.
      apply wpx_bind, wpx_on_throw, wpx_Uninitialized_copy_n; rewrite <-?Hn.
      { intros q Hq. rewrite Hm5. decs. done. }
      + intros s6 (Hb6 & Hl6 & Hc6) Hm6. vl. apply wpx_ret. apply Hgoal; try done; try congruence.
        * intros q Hq. rewrite Hm6. decs.
          { do 2 f_equal. lia. }
          { rewrite Hm5. decs. apply Hlow4. lia. }
          { rewrite Hm5. decs. apply Hhigh4. lia. }
        * intros q Hq. rewrite Hm6, Hm5. decs. rewrite Hoth4 by lia. apply Hraw1. lia.
        * intros q Hq. rewrite Hm6, Hm5. decs. rewrite Hoth4 by lia. done.
        * auto 10.
      + intros Hc s6 (Hb6 & Hl6 & Hc6) Hm6. vl.
        assert (Hcs : ~ calm s) by auto 10.
        apply wpx_bind, wpx_on_throw, wpx_Uninitialized_move; try lia.
        { intros q Hq. rewrite Hm6, Hm5. decs. eexists. apply Hhigh4. lia. }
        { intros q Hq. rewrite Hm6, Hm5. decs. done. }
        2:{ intros Ht _ s7 (Hb7 & Hl7 & Hc7) Ho7 Hf7. vl. apply wpx_bind, wpx_bind, wpx_loc, wpx_ret. vl.
            apply wpx_bind, wpx_Destroy_range.
            { intros q Hq. destruct (decide (q < F + off + 2 * n)); [apply Ho7; lia|]. rewrite Hf7 by lia. rewrite Hm6, Hm5. decs.
              eexists. apply Hhigh4. lia. }
            intros s8 (Hb8 & Hl8 & Hc8) Hm8. vl. apply set_last_ok. intros s9 Hm9 Hb9 Hl9 Hc9. vl.
            apply (Hbrk s9 off); vl; auto; try lia; try congruence.
            - intros q Hq. rewrite Hm9, Hm8. decs. rewrite Hf7 by lia. rewrite Hm6, Hm5. decs. eexists. apply Hlow4. lia.
            - intros q Hq. rewrite Hm9, Hm8. decs; [done|]. rewrite Hf7 by lia. rewrite Hm6, Hm5. decs; [done|].
              rewrite Hoth4 by lia. apply Hraw1. lia.
            - intros q Hq. rewrite Hm9, Hm8. decs. rewrite Hf7 by lia. rewrite Hm6, Hm5. decs.
              rewrite Hoth4 by lia. done. }
        intros s7 (Hb7 & Hl7 & Hc7) Hm7. vl.
        assert (Hlow7 : forall q, F <= q < F + off + n -> mem s7 q = Obj (cont l (q - F))).
        { intros q Hq. rewrite Hm7. decs.
          - rewrite Hm6, Hm5. decs. rewrite Hhigh4 by lia. do 2 f_equal. lia.
          - rewrite Hm6, Hm5. decs. apply Hlow4. lia. }
        assert (Hhigh7 : forall q, F + off + 2 * n <= q < F + (length l + n) -> mem s7 q = Obj (cont l (q - F - n))).
        { intros q Hq. rewrite Hm7. decs. rewrite Hm6, Hm5. decs. apply Hhigh4. lia. }
        assert (Hobj7 : forall q, F <= q < F + (length l + n) -> exists w, mem s7 q = Obj w).
        { intros q Hq. destruct (decide (q < F + off + n)); [eexists; apply Hlow7; lia|].
          destruct (decide (F + off + 2 * n <= q)); [eexists; apply Hhigh7; lia|]. rewrite Hm7. decs. by eexists. }
        assert (Hoth7 : forall q, ~ F <= q < F + (length l + n) -> mem s7 q = mem s q).
        { intros q Hq. rewrite Hm7. decs. rewrite Hm6, Hm5. decs. apply Hoth4. lia. }
        apply wpx_bind, wpx_bind, wpx_loc, wpx_ret. vl.
        apply wpx_bind, wpx_Move_unchecked; try lia.
        { intros q Hq. apply Hobj7. lia. }
        2:{ intros Ht _ s8 (Hb8 & Hl8 & Hc8) Ho8 Hf8. vl. apply (Hbrk s8 (length l + n)); vl; auto; try lia; try congruence.
            - intros q Hq. destruct (decide (F + off + n <= q)); [apply Ho8; lia|]. rewrite Hf8 by lia. apply Hobj7. lia.
            - intros q Hq. rewrite Hf8, Hoth7 by lia. apply Hraw1. lia.
            - intros q Hq. rewrite Hf8, Hoth7 by lia. done. }
        intros s8 (Hb8 & Hl8 & Hc8) Hmv8 Ho8 Hf8 _. vl.
        apply wpx_bind, wpx_Destroy_range.
        { intros q Hq. apply Ho8. lia. }
        intros s9 (Hb9 & Hl9 & Hc9) Hm9. vl. apply set_last_ok. intros s10 Hm10 Hb10 Hl10 Hc10. vl.
        apply Hres; vl; auto; try congruence.
        * intros q Hq. rewrite Hm10, Hm9. decs. destruct (decide (q < F + off + n)).
          { rewrite Hf8 by lia. apply Hlow7. lia. }
          rewrite Hmv8 by lia. rewrite Hhigh7 by lia. do 2 f_equal. lia.
        * intros q Hq. rewrite Hm10, Hm9. decs.
          { symmetry. apply Hraw1. lia. }
          rewrite Hf8 by lia. apply Hoth7. lia.
    - apply wpx_bind, wpx_Uninitialized_move; try lia.
      { intros q Hq. eexists. apply Hobj1. lia. }
      { intros q Hq. apply Hraw1. lia. }
      2:{ intros Ht Hc s2 (Hb2 & Hl2 & Hc2) Ho2 Hf2.
          destruct (decide (off = length l)).
          { apply Hres; vl; auto. intros q Hq. rewrite Hf2 by lia. apply Hobj1. lia. intros q Hq. apply Hf2. lia. }
          apply (Hbrk s2 (length l)); vl; auto; try lia.
          - intros q Hq. destruct (decide (F + off <= q < Lst)); [apply Ho2; lia|]. rewrite Hf2 by lia. eexists. apply Hobj1. lia.
          - intros q Hq. rewrite Hf2 by lia. apply Hraw1. lia.
          - intros q Hq. rewrite Hf2 by lia. done. }
      intros s2 (Hb2 & Hl2 & Hc2) Hm2. apply wpx_bind, set_last_ok. intros s3 Hm3 Hb3 Hl3 Hc3. vl.
      replace (F + off + n + (Lst - (F + off))) with (F + (length l + n)) in Hl3 by lia.
      apply wpx_bind, wpx_Destroy_range.
      { intros q Hq. rewrite Hm3, Hm2. decs. by eexists. }
      intros s5 (Hb5 & Hl5 & Hc5) Hm5. vl.
      assert (Hlow5 : forall q, F <= q < F + off -> mem s5 q = Obj (cont l (q - F))).
      { intros q Hq. rewrite Hm5. decs. rewrite Hm3, Hm2. decs. apply Hobj1. lia. }
      assert (Hraw5 : forall q, F + off <= q < F + off + n -> mem s5 q = Raw).
      { intros q Hq. rewrite Hm5. decs; [done|]. rewrite Hm3, Hm2. decs. apply Hraw1. lia. }
      assert (Hhigh5 : forall q, F + off + n <= q < F + (length l + n) -> mem s5 q = Obj (cont l (q - F - n))).
      { intros q Hq. rewrite Hm5. decs. rewrite Hm3, Hm2. decs. rewrite Hobj1 by lia. do 2 f_equal. lia. }
      assert (Hoth5 : forall q, ~ F <= q < F + (length l + n) -> mem s5 q = mem s q).
      { intros q Hq. rewrite Hm5. decs. rewrite Hm3, Hm2. decs. done. }
      apply wpx_bind, wpx_on_throw, wpx_Uninitialized_copy_n; rewrite <-?Hn; [done| |].
      + intros s6 (Hb6 & Hl6 & Hc6) Hm6. vl. apply wpx_ret. apply Hgoal; try done; try congruence.
        * intros q Hq. rewrite Hm6. decs; [do 2 f_equal; lia|apply Hlow5; lia|apply Hhigh5; lia].
        * intros q Hq. rewrite Hm6. decs. rewrite Hoth5 by lia. apply Hraw1. lia.
        * intros q Hq. rewrite Hm6. decs. rewrite Hoth5 by lia. done.
        * auto 10.
      + intros Hc s6 (Hb6 & Hl6 & Hc6) Hm6. vl.
        assert (Hcs : ~ calm s) by auto 10.
        apply wpx_bind, wpx_bind, wpx_loc, wpx_ret. vl.
        apply wpx_bind, wpx_on_throw, wpx_Uninitialized_move; try lia.
        { intros q Hq. rewrite Hm6. eexists. apply Hhigh5. lia. }
        { intros q Hq. rewrite Hm6. apply Hraw5. lia. }
        2:{ intros Ht _ s7 (Hb7 & Hl7 & Hc7) Ho7 Hf7. vl. apply wpx_bind, wpx_bind, wpx_loc, wpx_ret. vl.
            apply wpx_bind, wpx_Destroy_range.
            { intros q Hq. apply Ho7. lia. }
            intros s8 (Hb8 & Hl8 & Hc8) Hm8. vl. apply set_last_ok. intros s9 Hm9 Hb9 Hl9 Hc9. vl.
            assert (Hlow9 : forall q, F <= q < F + off -> mem s9 q = Obj (cont l (q - F))).
            { intros q Hq. rewrite Hm9, Hm8. decs. rewrite Hf7 by lia. rewrite Hm6. apply Hlow5. lia. }
            assert (Hraw9 : forall q, F + off <= q < F + (length l + n) -> mem s9 q = Raw).
            { intros q Hq. rewrite Hm9, Hm8. decs; [done|]. rewrite Hf7 by lia. rewrite Hm6. apply Hraw5. lia. }
            assert (Hoth9 : forall q, ~ F <= q < F + (length l + n) -> mem s9 q = mem s q).
            { intros q Hq. rewrite Hm9, Hm8. decs. rewrite Hf7 by lia. rewrite Hm6. apply Hoth5. lia. }
            destruct (decide (off = length l)).
            { apply Hres; vl; auto; try congruence.
              - intros q Hq. apply Hlow9. lia.
              - intros q Hq. destruct (decide (F <= q < F + (length l + n))); [rewrite Hraw9 by lia; symmetry; apply Hraw1; lia|].
                apply Hoth9. lia. }
            apply (Hbrk s9 off); vl; auto; try lia; try congruence.
            - intros q Hq. eexists. by apply Hlow9.
            - intros q Hq. destruct (decide (q < F + (length l + n))); [apply Hraw9; lia|]. rewrite Hoth9 by lia. apply Hraw1. lia.
            - intros q Hq. apply Hoth9. lia. }
        intros s7 (Hb7 & Hl7 & Hc7) Hm7. vl.
        apply wpx_bind, wpx_Destroy_range.
        { intros q Hq. rewrite Hm7. decs. by eexists. }
        intros s8 (Hb8 & Hl8 & Hc8) Hm8. vl. apply set_last_ok. intros s9 Hm9 Hb9 Hl9 Hc9. vl.
        apply Hres; vl; auto; try congruence.
        * intros q Hq. rewrite Hm9, Hm8. decs. rewrite Hm7. decs.
          { rewrite Hm6, Hhigh5 by lia. do 2 f_equal. lia. }
          { rewrite Hm6. apply Hlow5. lia. }
        * intros q Hq. rewrite Hm9, Hm8. decs.
          { symmetry. apply Hraw1. lia. }
          rewrite Hm7. decs. rewrite Hm6. destruct (decide (q < F + off + n /\ F <= q)); [rewrite Hraw5 by lia; symmetry; apply Hraw1; lia|].
          apply Hoth5. lia.
  Qed.
End vector.
