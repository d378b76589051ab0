(** Proofs about the std::vector model: in-place modifiers, range insertion, assignment, resizing, erasure. *)
From stdpp Require Import base list list_numbers numbers decidable.
From Coq Require Import ZArith Lia.
From Verif Require Import Base.Res Base.Int Cont.ObjMem Cont.ObjMemProofs Cont.VectorModel Cont.VectorSpec
  Cont.VectorProofs Cont.VectorProofs2.
Local Open Scope nat_scope.

Section vector.
  Context {A : Type} (T : traits) (maxsz : Z).
  Context (Hmax : (0 < maxsz < 2 ^ 63)%Z).
  Notation st := (st A vec).
  Notation holds := (holds (A := A) maxsz).
  Notation rexn := (rexn T maxsz).
  Implicit Types (s : st) (l : list (option A)) (E : st -> Prop).

  Ltac facts H :=
    let f1 := fresh "Fl" in let f2 := fresh "Fe" in let f3 := fresh "Fb" in let f4 := fresh "Fz" in let f5 := fresh "Fm" in
    pose proof (h_last _ _ _ H) as f1; pose proof (h_end _ _ _ H) as f2; pose proof (h_brk _ _ _ H) as f3;
    pose proof (h_brk0 _ _ _ H) as f4; pose proof (h_max _ _ _ H) as f5.

  (* unfold known pointers *)
  Ltac vl := repeat match goal with
    | E : loc ?s = Vec _ _ _ |- context [loc ?s] => rewrite E
    | E : loc ?s = Vec _ _ _, H : context [loc ?s] |- _ => assert_fails (constr_eq H E); rewrite E in H
    end; cbn [myfirst mylast myend] in *.

  Lemma wpx_bind_inv {X Y} (m : M A vec X) (f : X -> M A vec Y) s (Q : Y -> st -> Prop) E :
    wpx (mbind m f) s Q E -> wpx m s (fun x s' => wpx (f x) s' Q E) E.
  Proof. unfold wpx, mbind. destruct (m s) as [[s' [x|]]| |]; simpl; auto. Qed.

  (** a state over the same storage *)
  Lemma holds_intro s l s' l' :
    holds s l -> loc s' = Vec (myfirst (loc s)) (myfirst (loc s) + length l') (myend (loc s)) -> brk s' = brk s ->
    myfirst (loc s) + length l' <= myend (loc s) ->
    (forall q, myfirst (loc s) <= q < myfirst (loc s) + length l' -> mem s' q = Obj (cont l' (q - myfirst (loc s)))) ->
    (forall q, myfirst (loc s) + length l' <= q < myend (loc s) -> mem s' q = Raw) ->
    (forall q, ~ myfirst (loc s) <= q < myend (loc s) -> mem s' q = mem s q) -> holds s' l'.
  Proof.
    intros H Hl Hb Hle Ho Hr Hu. facts H. split; rewrite ?Hl, ?Hb; simpl; try done.
    - intros q. decs; [by rewrite Ho|by rewrite Hr|]. rewrite Hu by lia. eapply holds_un; [exact H|lia].
    - apply (h_null _ _ _ H).
  Qed.
  Lemma shape_intro s l s' n :
    holds s l -> loc s' = Vec (myfirst (loc s)) (myfirst (loc s) + n) (myend (loc s)) -> brk s' = brk s ->
    myfirst (loc s) + n <= myend (loc s) ->
    (forall q, myfirst (loc s) <= q < myfirst (loc s) + n -> exists w, mem s' q = Obj w) ->
    (forall q, myfirst (loc s) + n <= q < myend (loc s) -> mem s' q = Raw) ->
    (forall q, ~ myfirst (loc s) <= q < myend (loc s) -> mem s' q = mem s q) ->
    exists l', length l' = n /\ holds s' l'.
  Proof.
    intros H Hl Hb Hle Ho Hr Hu. facts H. apply (shape_holds maxsz s' (loc s')). rewrite Hl. repeat split; simpl; try done; try lia.
    - apply (h_null _ _ _ H).
    - intros q Hq. rewrite Hu by done. by eapply holds_un.
  Qed.
  Lemma loc_eta s l : holds s l -> loc s = Vec (myfirst (loc s)) (myfirst (loc s) + length l) (myend (loc s)).
  Proof. intros H. rewrite <-(h_last _ _ _ H). by destruct (loc s). Qed.

  (** exception inside an operation that keeps the storage: basic guarantee *)
  Definition bexn s l s' : Prop :=
    ~ calm s /\ myfirst (loc s') = myfirst (loc s) /\ myend (loc s') = myend (loc s) /\ exists l', holds s' l'.
  Lemma bexn_intro s l s' n :
    holds s l -> ~ calm s -> loc s' = Vec (myfirst (loc s)) (myfirst (loc s) + n) (myend (loc s)) -> brk s' = brk s ->
    myfirst (loc s) + n <= myend (loc s) ->
    (forall q, myfirst (loc s) <= q < myfirst (loc s) + n -> exists w, mem s' q = Obj w) ->
    (forall q, myfirst (loc s) + n <= q < myend (loc s) -> mem s' q = Raw) ->
    (forall q, ~ myfirst (loc s) <= q < myend (loc s) -> mem s' q = mem s q) -> bexn s l s'.
  Proof.
    intros H Hc Hl Hb Hle Ho Hr Hu. destruct (shape_intro s l s' n) as (l' & Hl' & Hh); try done.
    split; [done|]. rewrite Hl. simpl. eauto.
  Qed.

  (** combined outcome of insertion of [vs] at [off] *)
  Definition ins_ok s l off (vs : list (option A)) (p : nat) s' : Prop :=
    holds s' (take off l ++ vs ++ drop off l) /\ p = myfirst (loc s') + off /\
    grown maxsz s s' (length l + length vs) /\ (calm s -> calm s').
  (** [X]: further conditions under which the strong guarantee holds *)
  Definition ins_exn s l off n (X : Prop) s' : Prop :=
    (~ calm s \/ (maxsz < Z.of_nat (length l + n))%Z) /\ myfirst (loc s') = myfirst (loc s) /\
    myend (loc s') = myend (loc s) /\ (exists l', holds s' l') /\
    (strong_type T /\ n = 1 /\ off = length l \/ X -> holds s' l).

  Lemma rexn_ins s l off n (X : Prop) s' : (X -> nothrow_moves T) -> rexn s l off n s' -> ins_exn s l off n X s'.
  Proof.
    intros HX (H1 & H2 & (l' & _ & H3) & H4). unfold ins_exn. rewrite H2. split_and!; try done; [by exists l'|].
    intros [?|HX']; apply H4; [by right|]. left. by apply HX. Qed.

  Lemma emplace_ok s l off a v :
    holds s l -> arg_is s a v -> off <= length l ->
    wpx (emplace T maxsz (myfirst (loc s) + off) a) s (ins_ok s l off [v]) (ins_exn s l off 1 (nothrow_moves T)).
  Proof.
    intros H Ha Hoff. facts H. unfold emplace. apply wpx_bind, wpx_loc.
    destruct (decide (mylast (loc s) <> myend (loc s))) as [Hne|Hne].
    2:{ eapply wpx_mono; [eapply (Emplace_reallocate_ok T maxsz Hmax s l off a v); try done; lia| |].
        - intros p s' (Hh & Hp & Hg & Hc). split_and!; try done. unfold grown. simpl length.
          decs; [unfold capacity in *; lia|exact Hg].
        - intros s' Hr. by apply rexn_ins; [|done]. }
    destruct (decide (myfirst (loc s) + off = mylast (loc s))) as [Hbk|Hbk].
    { assert (off = length l) as -> by lia. apply wpx_bind, wpx_bind.
      eapply wpx_mono; [apply (Emplace_back_ok T maxsz s l a v); [done|done|lia]| |].
      - intros p s' (Hh & Hp & Hf & He & Hc). apply wpx_ret, wpx_ret. split_and!.
        + rewrite take_ge, drop_ge, app_nil_r by lia. done.
        + lia.
        + unfold grown, capacity. simpl length. decs.
        + done.
      - intros s' (Hc & Hlo & Hh). unfold ins_exn. rewrite Hlo. split_and!; eauto. }
    apply wpx_bind, wpx_bind, (wpx_temp_arg _ _ v); [done| |].
    2:{ intros _ Hc s1 Hs1 Hm1. unfold ins_exn. rewrite (proj1 (proj2 Hs1)).
        assert (holds s1 l) by by eapply holds_same. split_and!; eauto. }
    intros s1 Hs1 Hm1. assert (H1 : holds s1 l) by by eapply holds_same.
    destruct Hs1 as (Hb1 & Hl1 & Hc1).
    assert (Hx : forall s', (mthrow T = true \/ mathrow T = true) -> bexn s1 l s' -> ins_exn s l off 1 (nothrow_moves T) s').
    { intros s' Ht (Hc & Hf & He & Hh). unfold ins_exn. rewrite Hf, He, Hl1. split_and!; eauto.
      intros [?|[Ht1 Ht2]]; [lia|]. rewrite Ht1, Ht2 in Ht. by destruct Ht. }
    destruct (loc s) as [F Lst Z'] eqn:EL. vl.
    apply wpx_bind, (wpx_move_construct _ _ _ (cont l (length l - 1))).
    { rewrite (holds_obj maxsz s1 l) by (try done; vl; lia). vl. do 2 f_equal. lia. }
    { eapply holds_raw; [exact H1|vl; lia]. }
    2:{ intros Ht Hc s2 Hs2 Hm2. apply Hx; [by left|]. eapply (bexn_intro s1 l s2 (length l)); try done.
        - rewrite (proj1 (proj2 Hs2)). by eapply loc_eta.
        - apply Hs2.
        - vl. lia.
        - intros q Hq. rewrite Hm2. decs; [by eexists|]. eexists. eapply holds_obj; [done|]. vl. lia.
        - intros q Hq. rewrite Hm2. vl. decs. eapply holds_raw; [done|]. vl. lia.
        - intros q Hq. rewrite Hm2. vl. decs. done. }
    intros s2 Hs2 Hm2. destruct Hs2 as (Hb2 & Hl2 & Hc2).
    apply wpx_bind, set_last_ok. intros s3 Hm3 Hb3 Hl3 Hc3. vl.
    assert (Hobj1 : forall q, F <= q < Lst -> mem s1 q = Obj (cont l (q - F))).
    { intros q Hq. rewrite (holds_obj maxsz s1 l) by (try done; vl; lia). vl. done. }
    assert (Hobj3 : forall q, F <= q < Lst + 1 -> exists w, mem s3 q = Obj w).
    { intros q Hq. rewrite Hm3, Hm2. decs; try by eexists. eexists. apply Hobj1. lia. }
    assert (Hoth : forall q, ~ F <= q < Lst + 1 -> mem s3 q = mem s1 q).
    { intros q Hq. rewrite Hm3, Hm2. decs. done. }
    (* any later exception: length l + 1 objects *)
    assert (Hx3 : forall s', mathrow T = true -> ~ calm s3 -> loc s' = loc s3 -> brk s' = brk s3 ->
       (forall q, F <= q < Lst + 1 -> exists w, mem s' q = Obj w) ->
       (forall q, ~ F <= q < Lst + 1 -> mem s' q = mem s3 q) -> ins_exn s l off 1 (nothrow_moves T) s').
    { intros s' Ht Hc Hl' Hb' Ho' Hf'. apply Hx; [by right|]. eapply (bexn_intro s1 l s' (length l + 1)); try done; vl.
      - auto.
      - vl. f_equal. lia.
      - congruence.
      - lia.
      - intros q Hq. apply Ho'. lia.
      - intros q Hq. rewrite Hf', Hoth by lia. eapply holds_raw; [done|]. vl. lia.
      - intros q Hq. rewrite Hf', Hoth by lia. done. }
    apply wpx_bind, wpx_Move_backward; try lia.
    { intros q Hq. apply Hobj3. lia. }
    2:{ intros Ht Hc s4 Hs4 Ho4 Hf4. apply Hx3; [done|done|apply Hs4|apply Hs4| |].
        - intros q Hq. destruct (decide (F + off <= q < Lst)); [apply Ho4; lia|]. rewrite Hf4 by lia. by apply Hobj3.
        - intros q Hq. apply Hf4. lia. }
    intros s4 Hs4 Hmv4 Ho4 Hf4.
    destruct (Ho4 (F + off)) as [w Hw]; [lia|].
    assert (Hfin : forall s5, same s4 s5 -> (forall q, mem s5 q = mem s4 q) ->
      wpx (poke (F + off) v) s5 (fun _ s' => wpx (mret (F + off)) s' (ins_ok s l off [v]) (ins_exn s l off 1 (nothrow_moves T))) (ins_exn s l off 1 (nothrow_moves T))).
    { intros s5 Hs5 Hm5. eapply wpx_poke; [by rewrite Hm5|]. intros s6 Hs6 Hm6. apply wpx_ret.
      assert (Hs46 : same s4 s6) by eauto using same_trans. destruct Hs46 as (Hb6 & Hl6 & Hc6).
      destruct Hs4 as (Hb4 & Hl4 & Hc4).
      split_and!.
      - eapply (holds_intro s1 l s6); try done; vl;
          rewrite ?app_length, ?take_length_le, ?drop_length by lia; simpl length.
        + vl. f_equal. lia.
        + congruence.
        + lia.
        + intros q Hq. rewrite inserted_cont by (simpl; lia). simpl length. rewrite Hm6.
          destruct (decide (q = F + off)).
          { decs. subst q. replace (F + off - F - off) with 0 by lia. done. }
          rewrite Hm5. destruct (decide (F + off < q < Lst)).
          { rewrite Hmv4 by lia. rewrite Hm3, Hm2. decs. rewrite Hobj1 by lia. do 2 f_equal. lia. }
          rewrite Hf4 by lia. rewrite Hm3, Hm2. decs.
          { do 2 f_equal. lia. }
          { rewrite Hobj1 by lia. done. }
        + intros q Hq. rewrite Hm6. decs. rewrite Hm5, Hf4, Hoth by lia. eapply holds_raw; [done|]. vl. lia.
        + intros q Hq. rewrite Hm6. decs. rewrite Hm5, Hf4, Hoth by lia. done.
      - vl. done.
      - unfold grown, capacity. vl. simpl. decs.
      - auto 10. }
    apply wpx_bind, wpx_on_throw. unfold mwhen. destruct (mathrow T) eqn:Ema.
    - apply wpx_tick; [by intros; apply Hfin|].
      intros s5 Hs5 Hm5 Hc. eapply wpx_poke; [by rewrite Hm5|]. intros s6 Hs6 Hm6.
      assert (Hs36 : same s3 s6) by eauto using same_trans. apply Hx3; [done| |apply Hs36|apply Hs36| |].
      + intros Hcc. apply Hc. by apply Hs4.
      + intros q Hq. rewrite Hm6. decs; [by eexists|]. rewrite Hm5.
        destruct (decide (F + off <= q < Lst)); [apply Ho4; lia|]. rewrite Hf4 by lia. by apply Hobj3.
      + intros q Hq. rewrite Hm6. decs. rewrite Hm5. apply Hf4. lia.
    - apply wpx_ret. by apply Hfin.
  Qed.
End vector.
