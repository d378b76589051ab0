(** C23: std::vector is a sequence: contents, growth, exception guarantees, absence of leaks and UB. *)
From stdpp Require Import base list list_numbers numbers decidable.
From Coq Require Import ZArith Lia.
From Verif Require Import Base.Res Base.Int Cont.ObjMem Cont.ObjMemProofs Cont.VectorModel Cont.VectorSpec
  Cont.VectorProofs Cont.VectorProofs2 Cont.VectorProofs3 Cont.VectorProofs4 Cont.VectorProofs5 Cont.VectorProofs6.
Local Open Scope nat_scope.

Section vector.
  Context {A : Type} (T : traits) (maxsz : Z).
  Context (Hmax : (0 < maxsz < 2 ^ 63)%Z).
  Notation state := (st A vec).
  Implicit Types (s : state) (l : list (option A)).

  Lemma arg_val s l a : holds maxsz s l -> uarg_ok (length l) a -> arg_is s (uarg_arg s a) (uarg_val l a).
  Proof.
    intros H Ha. destruct a; try done. simpl in *. facts H. erewrite (holds_obj maxsz s l) by (done || lia).
    unfold cont. do 4 f_equal. lia.
  Qed.
  Lemma wpx_it (m : M A vec nat) (f : M A vec (option nat)) s (Q : option nat -> state -> Prop) (E : state -> Prop) :
    f s = mbind m (fun p => mbind first_ (fun f => mret (Some (p - f)))) s ->
    wpx m s (fun p s' => Q (Some (p - myfirst (loc s'))) s') E -> wpx f s Q E.
  Proof.
    intros Hf H. unfold wpx. rewrite Hf. apply (wpx_bind m). eapply wpx_mono; [exact H| |done].
    intros p s' HQ. apply wpx_bind, wpx_bind, wpx_loc, wpx_ret, wpx_ret, HQ.
  Qed.
  Lemma wpx_un (m : M A vec unit) (f : M A vec (option nat)) s (Q : option nat -> state -> Prop) (E : state -> Prop) :
    f s = mbind m (fun _ => mret None) s ->
    wpx m s (fun _ s' => Q None s') E -> wpx f s Q E.
  Proof.
    intros Hf H. unfold wpx. rewrite Hf. apply (wpx_bind m). eapply wpx_mono; [exact H| |done].
    intros [] s' HQ. apply wpx_ret, HQ.
  Qed.

  Definition ok_post s l (op : vop A) (r : option nat) s' : Prop :=
    holds maxsz s' (vop_sem op l) /\ r = vop_ret (length l) op /\ vop_growth maxsz (length l) op s s'.
  Definition exn_post s l (op : vop A) s' : Prop :=
    (~ quiet s \/ (maxsz < vop_need (length l) op)%Z) /\ ~ vop_nothrow T op /\ (exists l', holds maxsz s' l') /\
      (vop_strong T (length l) op -> holds maxsz s' l /\ loc s' = loc s).

  Lemma holds_loc s s' l : holds maxsz s l -> holds maxsz s' l ->
    myfirst (loc s') = myfirst (loc s) -> myend (loc s') = myend (loc s) -> loc s' = loc s.
  Proof.
    intros H H' Hf He. facts H. pose proof (h_last _ _ _ H') as Hl.
    destruct (loc s) as [a b c], (loc s') as [a' b' c']; simpl in *. f_equal; lia.
  Qed.

  Lemma vexec_ok s l op : holds maxsz s l -> vop_pre (length l) op ->
    wpx (vexec T maxsz op) s (ok_post s l op) (exn_post s l op).
  Proof.
    intros H Hp. pose proof (h_last _ _ _ H) as Fl.
    assert (Hq : calm s = quiet s) by done.
    assert (Hins : forall off n (X P : Prop) s', ins_exn T maxsz s l off n X s' ->
      (P -> strong_type T /\ n = 1 /\ off = length l \/ X) ->
      (exists l', holds maxsz s' l') /\ (P -> holds maxsz s' l /\ loc s' = loc s)).
    { intros off n X P s' (_ & Hf & He & Hex & Hst) HP. split; [done|].
      intros HPP. pose proof (Hst (HP HPP)) as Hh. split; [done|]. by eapply holds_loc. }
    assert (Hrex : forall off n (P : Prop) s', rexn T maxsz s l off n s' ->
      (P -> strong_type T /\ n = 1 /\ off = length l) ->
      (exists l', holds maxsz s' l') /\ (P -> holds maxsz s' l /\ loc s' = loc s)).
    { intros off n P s' (_ & Hl & (l' & _ & Hl') & Hst) HP. split; [by exists l'|].
      intros HPP. split; [|done]. apply Hst. right. by apply HP. }
    assert (Hstr : forall s', strong_exn T maxsz s l s' -> (exists l', holds maxsz s' l') /\ (strong_type T -> holds maxsz s' l /\ loc s' = loc s)).
    { intros s' (Hl & (l' & _ & Hl') & Hst). split; [by exists l'|]. intros ?. auto. }
    unfold ok_post, exn_post. destruct op as [a| |k a|k c a|k xs|k|i j|c a|c| |c x|xs|]; simpl in Hp; simpl vop_nothrow; simpl vop_strong.
    - eapply wpx_it; [done|]. eapply wpx_mono; [apply (push_back_ok T maxsz Hmax s l _ (uarg_val l a)); [done|by apply arg_val]| |].
      + intros p s' (Hh & -> & Hg & _). split_and!; [done|simpl; f_equal; lia|]. simpl.
        replace (Z.to_nat (Z.of_nat (length l) + 1)) with (length l + 1) by lia. done.
      + intros s' He. pose proof He as (Hc & _). split; [|split; [tauto|apply (Hrex _ _ _ s' He); auto]].
        simpl. rewrite Nat2Z.inj_add in Hc. done.
    - destruct l as [|x l _] using rev_ind; [simpl in Hp; lia|].
      eapply wpx_un; [done|]. eapply wpx_mono; [apply (pop_back_ok maxsz s l x); done| |done].
      intros [] s' (Hh & Hf & He & _). simpl. rewrite app_length, Nat.add_sub, take_app. split_and!; try done.
    - destruct Hp as [Hk Ha]. eapply wpx_it; [done|].
      eapply wpx_mono; [apply (emplace_ok T maxsz Hmax s l k _ (uarg_val l a)); [done|by apply arg_val|done]| |].
      + intros p s' (Hh & -> & Hg & _). split_and!; [done|simpl; f_equal; lia|]. simpl in *.
        replace (Z.to_nat (Z.of_nat (length l) + 1)) with (length l + 1) by lia. done.
      + intros s' He. pose proof He as (Hc & _). split; [|split; [tauto|apply (Hins _ _ _ _ s' He); tauto]].
        simpl. rewrite Nat2Z.inj_add in Hc. done.
    - destruct Hp as (Hk & Ha & Hc). eapply wpx_it; [done|]. unfold size_t in Hc.
      eapply wpx_mono; [apply (insert_n_ok T maxsz Hmax s l k c _ (uarg_val l a)); [done|by apply arg_val|done|done]| |].
      + intros p s' (Hh & -> & Hg & _). split_and!; [done|simpl; f_equal; lia|]. simpl in *.
        rewrite replicate_length in Hg. replace (Z.to_nat (Z.of_nat (length l) + c)) with (length l + Z.to_nat c) by lia. done.
      + intros s' He. pose proof He as (Hcc & _). split; [|split; [tauto|apply (Hins _ _ _ _ s' He)]].
        * simpl. rewrite Nat2Z.inj_add, Z2Nat.id in Hcc by lia. done.
        * intros (? & -> & ->). left. done.
    - destruct Hp as (Hk & Hc). eapply wpx_it; [done|]. unfold size_t in Hc.
      assert (Hl : length (Some <$> xs : list (option A)) = length xs) by apply fmap_length.
      eapply wpx_mono; [apply (insert_range_ok T maxsz Hmax s l k (Some <$> xs)); [done|done|lia]| |].
      + intros p s' (Hh & -> & Hg & _). split_and!; [done|simpl; f_equal; lia|]. simpl in *.
        rewrite Hl in Hg. replace (Z.to_nat (Z.of_nat (length l) + Z.of_nat (length xs))) with (length l + length xs) by lia. done.
      + intros s' He. rewrite Hl in He. pose proof He as (Hcc & _). split; [|split; [tauto|apply (Hins _ _ _ _ s' He); tauto]].
        simpl. rewrite Nat2Z.inj_add in Hcc. done.
    - eapply wpx_it; [done|]. eapply wpx_mono; [apply (erase1_ok T maxsz s l k); done| |].
      + intros p s' (Hh & -> & Hf & He & _). split_and!; [done|simpl; f_equal; lia|].
        unfold vop_growth, grown. rewrite decide_True; [done|simpl; lia].
      + intros s' (Hma & Hc & Hl & l' & _ & Hl'). split_and!; [by left|congruence|by eexists|tauto].
    - eapply wpx_it; [done|]. eapply wpx_mono; [apply (erase_range_ok T maxsz s l i j); done| |].
      + intros p s' (Hh & -> & Hf & He & _). split_and!; [done|simpl; f_equal; lia|].
        unfold vop_growth, grown. rewrite decide_True; [done|simpl; lia].
      + intros s' (Hma & Hc & Hl & l' & _ & Hl'). split_and!; [by left|congruence|by eexists|tauto].
    - destruct Hp as (Hc & Ha). eapply wpx_un; [done|].
      eapply wpx_mono; [apply (resize_ok T maxsz Hmax s l c _ (uarg_val l a)); [done|by apply arg_val|done]| |].
      + intros [] s' (Hh & Hg & _). done.
      + intros s' (Hcc & He). split; [done|split; [tauto|by apply Hstr]].
    - eapply wpx_un; [done|]. eapply wpx_mono; [apply (reserve_ok T maxsz Hmax s l c); done| |].
      + intros [] s' (Hh & Hg & Hg' & _). split; [done|]. split; [done|]. split; [done|]. intros ?. by rewrite Hg'.
      + intros s' (Hcc & He). split; [done|split; [tauto|by apply Hstr]].
    - eapply wpx_un; [done|]. eapply wpx_mono; [apply (shrink_to_fit_ok T maxsz Hmax s l); done| |].
      + intros [] s' (Hh & Hg & _). done.
      + intros s' (Hcc & He). split; [by left|split; [tauto|by apply Hstr]].
    - eapply wpx_un; [done|]. eapply wpx_mono; [apply (assign_n_ok T maxsz Hmax s l c); done| |].
      + intros [] s' (Hh & Hg & _). done.
      + intros s' (Hcc & He). unfold size_t in Hp. rewrite Z2Nat.id in Hcc by lia. split_and!; done || tauto.
    - assert (Hl : length (Some <$> xs : list (option A)) = length xs) by apply fmap_length. unfold size_t in Hp.
      eapply wpx_un; [done|]. eapply wpx_mono; [apply (assign_range_ok T maxsz Hmax s l (Some <$> xs)); [done|lia]| |].
      + intros [] s' (Hh & Hg & _). rewrite Hl in Hg. split_and!; try done. simpl. by rewrite Nat2Z.id.
      + intros s' (Hcc & He). rewrite Hl in Hcc. split_and!; done || tauto.
    - eapply wpx_un; [done|]. eapply wpx_mono; [apply (clear_ok maxsz s l); done| |done].
      intros [] s' (Hh & Hf & He & _). split_and!; try done.
  Qed.

  Lemma holds_empty o : holds maxsz (empty_vec (A := A) o) [].
  Proof. split; try (simpl; lia). intros q. rewrite !decide_False by (simpl; lia). done. Qed.

  (** One call, from any state that represents a sequence, with any schedule of exceptions. *)
  Theorem C23_step s l op o : holds maxsz s l -> vop_pre (length l) op ->
    exists s' r, vexec T maxsz op (with_orc s o) = Ok (s', r) /\
      match r with
      | Some i =>      (* returned: the new contents, the returned position, and the storage are as specified *)
          holds maxsz s' (vop_sem op l) /\ i = vop_ret (length l) op /\ vop_growth maxsz (length l) op s s'
      | None =>        (* threw: only because something was scheduled to throw or max_size was exceeded *)
          (true ∈ o \/ (maxsz < vop_need (length l) op)%Z) /\ ~ vop_nothrow T op /\
          (exists l', holds maxsz s' l') /\                             (* basic guarantee, no leak *)
          (vop_strong T (length l) op -> holds maxsz s' l /\ loc s' = loc s)   (* strong guarantee *)
      end.
  Proof.
    intros H Hp. assert (H' : holds maxsz (with_orc s o) l) by (by destruct H; split).
    pose proof (vexec_ok _ l op H' Hp) as Hw. apply wp_exists in Hw as ([s' r] & He & HQ). exists s', r. split; [done|].
    destruct r as [i|]; simpl in HQ; [destruct op; apply HQ|].
    destruct HQ as ([Hc|Hc] & Hn & He' & Hs); split_and!; auto. left.
    destruct (decide (true ∈ o)) as [|Ho]; [done|]. exfalso. apply Hc. unfold quiet. simpl. apply list.Forall_forall.
    intros [] Hin; done.
  Qed.

  (** Whatever the history of calls and exceptions, the vector always represents some sequence no longer than its
      capacity, which never exceeds max_size(); no call within its preconditions is undefined; destruction then frees
      everything. *)
  Theorem C23_history s : vreachable T maxsz s ->
    (exists l, holds maxsz s l /\ length l <= capacity s /\ (Z.of_nat (capacity s) <= maxsz)%Z) /\
    (forall op o, vop_pre (mylast (loc s) - myfirst (loc s)) op ->
       exists s' r, vexec T maxsz op (with_orc s o) = Ok (s', r)) /\
    (exists s', Tidy (with_orc s []) = Ok (s', Some tt) /\ forall q, mem s' q = Unalloc).
  Proof.
    intros Hr. assert (Hh : exists l, holds maxsz s l).
    { induction Hr as [o|s op o s' r Hr [l IH] Hp He].
      - exists []. by apply holds_empty.
      - rewrite (h_last _ _ _ IH), Nat.add_comm, Nat.add_sub in Hp.
        destruct (C23_step s l op o IH Hp) as (s1 & r1 & He1 & HQ). rewrite He in He1. injection He1 as <- <-.
        destruct r as [i|]; [eexists; apply HQ|]. apply HQ. }
    destruct Hh as [l Hh]. split; [|split].
    - exists l. split; [done|]. pose proof (h_last _ _ _ Hh). pose proof (h_end _ _ _ Hh). pose proof (h_max _ _ _ Hh).
      unfold capacity. lia.
    - intros op o Hp. rewrite (h_last _ _ _ Hh), Nat.add_comm, Nat.add_sub in Hp.
      destruct (C23_step s l op o Hh Hp) as (s1 & r1 & He1 & HQ). eauto.
    - assert (H' : holds maxsz (with_orc s []) l) by (by destruct Hh; split).
      pose proof (Tidy_ok maxsz _ l H') as Hw. apply wp_exists in Hw as ([s' r] & He & HQ). exists s'.
      destruct r as [[]|]; simpl in HQ; [|done]. split; [done|apply HQ].
  Qed.

  (** A whole program without exceptions is a fold over lists. *)
  Fixpoint vrun (ops : list (vop A)) s : res state :=
    match ops with
    | [] => Ok s
    | op :: ops => rbind (vexec T maxsz op (with_orc s [])) (fun '(s', r) => match r with Some _ => vrun ops s' | None => UB end)
    end.
  Fixpoint vhist_ok (ops : list (vop A)) l : Prop :=
    match ops with
    | [] => True
    | op :: ops => vop_pre (length l) op /\ (vop_need (length l) op <= maxsz)%Z /\ vhist_ok ops (vop_sem op l)
    end.
  Theorem C23_program ops : vhist_ok ops [] ->
    exists s, vrun ops (empty_vec []) = Ok s /\ holds maxsz s (fold_left (fun l op => vop_sem op l) ops []).
  Proof.
    assert (Hg : forall ops s l, holds maxsz s l -> vhist_ok ops l ->
      exists s', vrun ops s = Ok s' /\ holds maxsz s' (fold_left (fun l op => vop_sem op l) ops l)).
    { clear ops. induction ops as [|op ops IH]; intros s l H Hok; [by exists s|]. destruct Hok as (Hp & Hn & Hok).
      destruct (C23_step s l op [] H Hp) as (s' & r & He & HQ).
      simpl. rewrite He, rbind_ok. destruct r as [i|].
      2:{ exfalso. destruct HQ as ([Hin|Hin] & _); [by apply elem_of_nil in Hin|lia]. }
      destruct HQ as (Hh & _). by apply IH. }
    intros Hok. apply Hg; try done. by apply holds_empty.
  Qed.
End vector.

(** A non-trivial program: growth twice, a self-referencing insertion, a throwing push_back in the middle. *)
Definition ex_traits : traits := Traits true true true.
Definition ex_prog : list (vop nat) :=
  [OPushBack (UCopy 1); OPushBack (UMove 2); OEmplace 1 (UElem 1); OInsertN 0 3 (UElem 2); OErase 1 3; OReserve 9;
   OInsertR 2 [7; 8]; OResize 4 (UCopy 0); OShrink; OResize 6 (UElem 3)].
Example C23_sat_program : vhist_ok 1000 ex_prog [].
Proof. vm_compute. repeat split; try (intro; discriminate); repeat constructor. Qed.
Example C23_sat_run :
  fold_left (fun l op => vop_sem op l) ex_prog [] = [Some 2; Some 1; Some 7; Some 8; Some 8; Some 8].
Proof. reflexivity. Qed.
Example C23_sat_reachable : exists s, vreachable (A := nat) ex_traits 1000 s /\ mylast (loc s) - myfirst (loc s) = 2
  /\ exists s' , vexec ex_traits 1000 (OPushBack (UElem 0)) (with_orc s [false; false; true]) = Ok (s', None)
        /\ vop_strong ex_traits 2 (OPushBack (UElem (A := nat) 0)) /\ brk s < brk s'.
Proof.
  eexists. split; [|split; [|eexists; split; [|split]]].
  - eapply (vr_step _ _ _ (OPushBack (UCopy 2)) []); [eapply (vr_step _ _ _ (OPushBack (UCopy 1)) [false]); [apply (vr_empty _ _ [])|exact I|vm_compute; reflexivity]|exact I|].
    vm_compute. reflexivity.
  - reflexivity.
  - vm_compute. reflexivity.
  - right. reflexivity.
  - simpl. lia.
Qed.

Print Assumptions C23_step.
Print Assumptions C23_history.
Print Assumptions C23_program.
