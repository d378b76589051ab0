(** lexically_normal: the stack reduction is the normalisation of the standard. *)
From stdpp Require Import base list numbers relations.
From Coq Require Import ZArith Lia.
From Verif Require Import Base.Res Path.PathModel Path.PathSpec Path.PathProofs Path.PathProofs2 Path.PathProofs3 Path.PathProofs4 Path.PathProofs5 Path.PathProofs6 Path.PathProofs7.
Local Open Scope nat_scope.

Definition nodot (ns : list text) : list text := filter (fun n => n <> dot) ns.
Definition lastdot (ns : list text) (tr : bool) : bool := tr || bool_decide (list.last ns = Some dot).
Lemma nodot_cons n ns : n <> dot -> nodot (n :: ns) = n :: nodot ns.
Proof. intros. unfold nodot. by rewrite filter_cons_True. Qed.
Lemma nodot_dot ns : nodot (dot :: ns) = nodot ns.
Proof. unfold nodot. rewrite filter_cons_False; [done|]. by intros []. Qed.
Lemma nodot_nil ns : nodot ns = [] -> ns = [] \/ list.last ns = Some dot.
Proof.
  induction ns as [|n ns IH]; [by left|]. right. destruct (decide (n = dot)) as [->|Hn]; [|rewrite nodot_cons in H by done; done].
  rewrite nodot_dot in H. destruct (IH H) as [->|Hl]; [done|]. destruct ns; [done|]. done.
Qed.
Lemma lastdot_cons n ns tr : ns <> [] -> lastdot (n :: ns) tr = lastdot ns tr.
Proof. intros. unfold lastdot. by destruct ns. Qed.
Lemma nodot_mem ns x : x ∈ nodot ns -> x <> dot /\ x ∈ ns.
Proof. unfold nodot. by intros ?%elem_of_list_filter. Qed.

(** dots are skipped *)
Lemma red_nodot root ns tr : forall kept, red root kept ns tr = red root kept (nodot ns) (lastdot ns tr).
Proof.
  induction ns as [|n ns IH]; intros kept; [done|].
  destruct (decide (n = dot)) as [->|Hn].
  - rewrite nodot_dot. destruct ns as [|m ns].
    + cbn. by destruct tr.
    + rewrite lastdot_cons by done. rewrite <-IH. done.
  - rewrite nodot_cons by done. cbn [red]. rewrite !(bool_decide_false (n = dot)) by done.
    destruct ns as [|m ns].
    + unfold lastdot. change (list.last [n]) with (Some n). rewrite (bool_decide_false (Some n = Some dot)) by congruence. rewrite orb_false_r. done.
    + rewrite (lastdot_cons n) by done. set (ns' := m :: ns) in *.
      assert (Hf : match nodot ns' with [] => negb (lastdot ns' tr) | _ => false end = false).
      { destruct (nodot ns') eqn:E; [|done]. apply nodot_nil in E as [E|E]; [done|]. unfold lastdot. rewrite E, bool_decide_true by done. by rewrite orb_true_r. }
      rewrite Hf.
      by rewrite <-!IH.
Qed.

Lemma tokens_split n ns tr : exists s, tokens (n :: ns) tr = n :: s ++ tokens ns tr /\ (s = [[]] \/ (s = [] /\ ns = [] /\ tr = false)).
Proof.
  destruct ns as [|m ns]; [destruct tr|].
  - exists [[]]. split; [done|by left].
  - exists []. split; [done|by right].
  - exists [[]]. rewrite tokens_cons by done. split; [done|by left].
Qed.
Lemma all_seps_tokens s ns tr : s = [[]] \/ (s = [] /\ ns = [] /\ tr = false) -> all_seps s (tokens ns tr).
Proof. intros [->|(-> & -> & ->)]; [by left|by right]. Qed.
(** step 4 *)
Lemma rm_dot_frame a v w : rm_dot v w -> rm_dot (a ++ v) (a ++ w).
Proof. destruct 1 as [a0 s b H]. rewrite !app_assoc. by constructor. Qed.
Lemma rm_dots ns tr : forall kept, nodot kept = kept -> rtc rm_dot (tokens kept true ++ tokens ns tr) (tokens (kept ++ nodot ns) (lastdot ns tr || bool_decide (ns = []))).
Proof.
  induction ns as [|n ns IH]; intros kept Hk.
  - rewrite orb_true_r, !app_nil_r. apply rtc_refl.
  - rewrite (bool_decide_false (n :: ns = [])), orb_false_r by done.
    destruct (decide (n = dot)) as [->|Hn].
    + rewrite nodot_dot. destruct (tokens_split dot ns tr) as (s & -> & Hs).
      eapply rtc_l; [apply (RM_dot (tokens kept true) s (tokens ns tr)); by apply all_seps_tokens|].
      destruct ns as [|m ns].
      * cbn [nodot tokens]. rewrite app_nil_r. unfold nodot. simpl filter. rewrite app_nil_r. unfold lastdot. simpl list.last. rewrite bool_decide_true, orb_true_r by done. apply rtc_refl.
      * rewrite lastdot_cons by done. specialize (IH kept Hk). by rewrite (bool_decide_false (m :: ns = [])), orb_false_r in IH by done.
    + destruct ns as [|m ns].
      * rewrite nodot_cons by done. unfold lastdot. change (list.last [n]) with (Some n). rewrite (bool_decide_false (Some n = Some dot)), orb_false_r by congruence. unfold nodot. simpl filter.
        rewrite tokens_app by done. apply rtc_refl.
      * rewrite lastdot_cons by done. specialize (IH (kept ++ [n])). rewrite (bool_decide_false (m :: ns = [])), orb_false_r in IH by done.
        rewrite nodot_cons by done. rewrite tokens_cons by done. rewrite (tokens_app kept [n] true), <-!app_assoc in IH by done. apply IH.
        unfold nodot in *. rewrite filter_app, Hk. f_equal. by rewrite filter_cons_True.
Qed.
Lemma exhausted_dot ns tr : Forall (fun n => n <> []) ns -> exhausted rm_dot (tokens ns tr) (tokens (nodot ns) (lastdot ns tr)).
Proof.
  intros Hne. split.
  - pose proof (rm_dots ns tr [] eq_refl) as H. destruct ns as [|n ns]; [apply rtc_refl|].
    by rewrite (bool_decide_false (n :: ns = [])), orb_false_r in H by done.
  - intros u Hu. assert (Hd : dot ∈ tokens (nodot ns) (lastdot ns tr)).
    { inversion Hu as [a s b H E]. apply elem_of_app. right. by constructor. }
    apply elem_tokens in Hd as [|Hd]; [done|]. by apply nodot_mem in Hd as [].
Qed.

(** step 5 *)
Lemma rm_dotdots ns tr : Forall (fun n => n <> [] /\ n <> dot) ns -> forall kept, Forall (fun n => n <> []) kept ->
  rtc rm_dotdot (tokens kept true ++ tokens ns tr) (tokens (red false kept ns tr).1 (red false kept ns tr).2).
Proof.
  induction ns as [|n ns IH]; intros Hns kept Hk.
  { cbn [red fst snd tokens]. rewrite app_nil_r. apply rtc_refl. }
  apply list.Forall_cons in Hns as [[Hn0 Hn] Hns]. specialize (IH Hns).
  destruct (tokens_split n ns tr) as (s & Es & Hs). rewrite Es. cbn [red]. rewrite (bool_decide_false (n = dot)) by done.
  set (fin := match ns with [] => negb tr | _ => false end).
  assert (Hfin : if fin then s = [] /\ ns = [] else s = [[]]).
  { unfold fin. destruct Hs as [->|(-> & -> & ->)]; [|done]. destruct ns; [|done]. destruct tr; [done|]. discriminate Es. }
  assert (Hpush : rtc rm_dotdot (tokens kept true ++ n :: s ++ tokens ns tr)
     (tokens (if fin then (kept ++ [n], false) else red false (kept ++ [n]) ns tr).1 (if fin then (kept ++ [n], false) else red false (kept ++ [n]) ns tr).2)).
  { destruct fin.
    - destruct Hfin as [-> ->]. cbn [fst snd tokens app]. rewrite tokens_app by done. apply rtc_refl.
    - subst s. cbn [app]. specialize (IH (kept ++ [n])). rewrite tokens_app, <-app_assoc in IH by done. apply IH.
      apply list.Forall_app. split; [done|]. by repeat constructor. }
  destruct (negb (bool_decide (n = dotdot))) eqn:E; [done|].
  apply negb_false_iff, bool_decide_eq_true in E. subst n. destruct (removable kept) eqn:Er; [|done].
  destruct (removable_spec kept Er) as (k & m & -> & Hm & ->). apply list.Forall_app in Hk as [Hk Hm0]. apply list.Forall_cons in Hm0 as [Hm0 _].
  rewrite tokens_snoc_true, <-app_assoc. cbn [app].
  eapply rtc_l; [apply (RM_dotdot (tokens k true) m s (tokens ns tr)); [done|done|by apply all_seps_tokens]|].
  destruct fin; [|by apply IH]. destruct Hfin as [_ ->]. cbn [tokens fst snd]. rewrite app_nil_r. apply rtc_refl.
Qed.

(** the shape of the kept names: ".." only in front (and none if there is a root directory) *)
Definition shape (root : bool) (ks : list text) : Prop :=
  exists i nn, ks = replicate i dotdot ++ nn /\ Forall (fun n => n <> dotdot) nn /\ (root = true -> i = 0).
Lemma shape_snoc root ks n : n <> dotdot -> shape root ks -> shape root (ks ++ [n]).
Proof.
  intros Hn (i & nn & -> & H & Hr). exists i, (nn ++ [n]). rewrite app_assoc. split; [done|]. split; [|done]. apply list.Forall_app. split; [done|]. by repeat constructor.
Qed.
Lemma shape_removelast root ks : shape root ks -> shape root (removelast ks).
Proof.
  intros (i & nn & -> & H & Hr). destruct nn as [|m nn _] using rev_ind.
  - rewrite app_nil_r. destruct i as [|i]; [by exists 0, []|]. rewrite replicate_S_end, removelast_snoc. exists i, []. rewrite app_nil_r. split; [done|]. split; [done|]. intros ?. exfalso. specialize (Hr H0). lia.
  - rewrite app_assoc, removelast_snoc. exists i, nn. apply list.Forall_app in H as [? _]. done.
Qed.
Lemma shape_dots root ks : shape root ks -> removable ks = false -> exists i, ks = replicate i dotdot /\ (root = true -> i = 0).
Proof.
  intros (i & nn & -> & H & Hr) Hrm. exists i. split; [|done]. destruct nn as [|m nn _] using rev_ind; [by rewrite app_nil_r|]. exfalso.
  unfold removable in Hrm. rewrite app_assoc, last_snoc in Hrm. apply negb_false_iff, bool_decide_eq_true in Hrm.
  apply list.Forall_app in H as [_ H]. by apply list.Forall_cons in H as [? _].
Qed.
Lemma red_shape root ns tr : forall kept, shape root kept -> shape root (red root kept ns tr).1.
Proof.
  induction ns as [|n ns IH]; intros kept Hk; [done|]. cbn [red].
  set (fin := match ns with [] => negb tr | _ => false end). clearbody fin.
  destruct (bool_decide (n = dot)); [destruct fin; [done|by apply IH]|].
  destruct (negb (bool_decide (n = dotdot))) eqn:E.
  { apply negb_true_iff, bool_decide_eq_false in E. destruct fin; [|apply IH]; by apply shape_snoc. }
  destruct (removable kept) eqn:Er; [destruct fin; [|apply IH]; by apply shape_removelast|].
  destruct root; cbn [negb]; [destruct fin; [done|by apply IH]|].
  destruct (shape_dots _ _ Hk Er) as (i & -> & _).
  assert (Hs : shape false (replicate i dotdot ++ [dotdot])).
  { exists (S i), []. rewrite replicate_S_end, app_nil_r. done. }
  destruct fin; [done|by apply IH].
Qed.
Lemma tokens_dotdot ks b a n c : tokens ks b = a ++ n :: [] :: dotdot :: c -> n <> [] -> Forall (fun n => n <> []) ks ->
  exists k1 k2, ks = k1 ++ n :: dotdot :: k2.
Proof.
  revert a. induction ks as [|k ks IH]; intros a H Hn Hks; [by destruct a|]. apply list.Forall_cons in Hks as [Hk Hks].
  destruct (tokens_split k ks b) as (s & Es & Hs). rewrite Es in H. destruct a as [|x a]; cbn [app] in H.
  - injection H as -> H. destruct Hs as [->|(-> & -> & ->)]; [|done]. cbn [app] in H. injection H as H.
    destruct ks as [|m ks]; [done|]. destruct (tokens_split m ks b) as (s' & Es' & _). rewrite Es' in H. injection H as -> _.
    exists [], ks. done.
  - injection H as _ H. destruct Hs as [->|(-> & -> & ->)].
    + cbn [app] in H. destruct a as [|y a]; cbn [app] in H; [by injection H as <- _|]. injection H as _ H.
      destruct (IH a H Hn Hks) as (k1 & k2 & ->). by exists (k :: k1), k2.
    + cbn [tokens app] in H. by destruct a.
Qed.
Lemma shape_adj root k1 n k2 : shape root (k1 ++ n :: dotdot :: k2) -> n = dotdot.
Proof.
  intros (i & nn & H & Hnn & _). destruct (decide (n = dotdot)) as [|Hn]; [done|]. exfalso. revert i H.
  induction k1 as [|x k1 IH]; intros i H.
  - destruct i as [|i]; cbn [replicate app] in H; [|by injection H].
    subst nn. rewrite !list.Forall_cons in Hnn. by destruct Hnn as (_ & ? & _).
  - destruct i as [|i]; cbn [replicate app] in H.
    + subst nn. apply list.Forall_cons in Hnn as [_ Hnn]. apply list.Forall_app in Hnn as [_ Hnn]. rewrite !list.Forall_cons in Hnn. by destruct Hnn as (_ & ? & _).
    + injection H as _ H. eauto.
Qed.
Lemma exhausted_dotdot ns tr : Forall (fun n => n <> [] /\ n <> dot) ns ->
  exhausted rm_dotdot (tokens ns tr) (tokens (red false [] ns tr).1 (red false [] ns tr).2).
Proof.
  intros Hns. split; [apply (rm_dotdots ns tr Hns []); by constructor|]. intros u Hu.
  assert (Hne : Forall (fun n => n <> []) (red false [] ns tr).1).
  { apply red_nonempty; [|by constructor]. eapply list.Forall_impl; [exact Hns|]. by intros ? []. }
  inversion Hu as [a n s b Hn Hnd Hs E]. symmetry in E. apply tokens_dotdot in E as (k1 & k2 & E); [|done|done].
  apply Hnd, (shape_adj false k1 n k2). rewrite <-E. apply red_shape. by exists 0, [].
Qed.

(** step 6 *)
Lemma red_root ns tr : forall i nn, Forall (fun n => n <> dotdot) nn ->
  exists j mm b b', red false (replicate i dotdot ++ nn) ns tr = (replicate j dotdot ++ mm, b) /\ red true nn ns tr = (mm, b') /\
    Forall (fun n => n <> dotdot) mm /\ (mm = [] \/ b = b').
Proof.
  induction ns as [|n ns IH]; intros i nn Hnn.
  { exists i, nn, true, true. split; [done|]. split; [done|]. split; [done|by right]. }
  cbn [red]. set (fin := match ns with [] => negb tr | _ => false end). clearbody fin.
  destruct (bool_decide (n = dot)).
  { destruct fin; [|by apply IH]. exists i, nn, true, true. split; [done|]. split; [done|]. split; [done|by right]. }
  destruct (negb (bool_decide (n = dotdot))) eqn:E.
  { apply negb_true_iff, bool_decide_eq_false in E. rewrite <-app_assoc.
    assert (Hnn' : Forall (fun n => n <> dotdot) (nn ++ [n])) by (apply list.Forall_app; split; [done|by repeat constructor]).
    destruct fin; [|by apply IH]. exists i, (nn ++ [n]), false, false. split; [done|]. split; [done|]. split; [done|by right]. }
  destruct nn as [|m nn _] using rev_ind.
  - rewrite app_nil_r. assert (removable (replicate i dotdot) = false) as ->.
    { destruct i as [|i]; [done|]. unfold removable. by rewrite replicate_S_end, last_snoc. }
    change (removable []) with false. cbn [negb]. rewrite <-replicate_S_end.
    destruct fin; [|specialize (IH (S i) [] Hnn); by rewrite app_nil_r in IH].
    exists (S i), [], false, true. rewrite app_nil_r. split; [done|]. split; [done|]. split; [done|by left].
  - assert (Hm : m <> dotdot) by (apply list.Forall_app in Hnn as [_ H]; by apply list.Forall_cons in H as [? _]).
    rewrite app_assoc. unfold removable. rewrite !last_snoc, bool_decide_false by done. cbn [negb]. rewrite !removelast_snoc.
    apply list.Forall_app in Hnn as [Hnn _]. destruct fin; [|by apply IH].
    exists i, nn, true, true. split; [done|]. split; [done|]. split; [done|by right].
Qed.
Lemma rm_roots i mm b : rtc rm_root_dotdot (tokens (replicate i dotdot ++ mm) b) (tokens mm b).
Proof.
  induction i as [|i IH]; [apply rtc_refl|]. cbn [replicate app]. destruct (tokens_split dotdot (replicate i dotdot ++ mm) b) as (s & -> & Hs).
  eapply rtc_l; [|exact IH]. apply (RM_root_dotdot [] s). by apply all_seps_tokens.
Qed.
Lemma exhausted_root ns tr : Forall (fun n => n <> []) ns ->
  exhausted rm_root_dotdot (tokens (red false [] ns tr).1 (red false [] ns tr).2) (tokens (red true [] ns tr).1 (red true [] ns tr).2).
Proof.
  intros Hne. destruct (red_root ns tr 0 [] ltac:(by constructor)) as (j & mm & b & b' & H1 & H2 & Hmm & Hb). cbn [replicate app] in H1.
  assert (Hmn : Forall (fun n => n <> []) mm).
  { pose proof (red_nonempty true ns tr [] Hne ltac:(by constructor)) as H. by rewrite H2 in H. }
  rewrite H1, H2. cbn [fst snd]. replace (tokens mm b') with (tokens mm b) by (by destruct Hb as [->| ->]). split; [apply rm_roots|].
  intros u Hu. assert (Hd : dotdot ∈ tokens mm b).
  { inversion Hu as [a s c H E]. apply elem_of_app. right. by constructor. }
  apply elem_tokens in Hd as [|Hd]; [done|]. by rewrite list.Forall_forall in Hmm; apply Hmm in Hd.
Qed.

(** steps 4-7 *)
Lemma nf_normal root ns tr : Forall (fun n => n <> []) ns -> Normal root (tokens ns tr) (tokens (nf root ns tr).1 (nf root ns tr).2).
Proof.
  intros Hne. unfold nf. cbn [fst snd].
  set (ns' := nodot ns). set (tr' := lastdot ns tr).
  assert (Hns' : Forall (fun n => n <> [] /\ n <> dot) ns').
  { rewrite list.Forall_forall in Hne |- *. intros x [? ?]%nodot_mem. split; [by apply Hne|done]. }
  exists (tokens ns' tr'), (tokens (red false [] ns' tr').1 (red false [] ns' tr').2), (tokens (red root [] ns tr).1 (red root [] ns tr).2).
  split; [by apply exhausted_dot|]. split; [by apply exhausted_dotdot|]. split.
  { rewrite (red_nodot root ns tr). fold ns' tr'. destruct root; [|done]. apply exhausted_root. eapply list.Forall_impl; [exact Hns'|]. by intros ? []. }
  pose proof (red_nonempty root ns tr [] Hne ltac:(by constructor)) as Hk.
  destruct (red root [] ns tr) as [ks b]. cbn [fst snd] in *. destruct ks as [|m k _] using rev_ind.
  - right. split; [|by destruct b]. intros a Ha. destruct b; by destruct a.
  - rewrite last_snoc. apply list.Forall_app in Hk as [_ Hm]. apply list.Forall_cons in Hm as [Hm _]. destruct b; cbn [andb].
    + destruct (decide (m = dotdot)) as [->|Hd].
      * left. rewrite bool_decide_true by done. cbn [negb]. rewrite tokens_snoc_true, tokens_snoc_false. by exists (tokens k true).
      * right. rewrite bool_decide_false by congruence. cbn [negb]. split; [|done]. rewrite tokens_snoc_true. intros a Ha.
        apply app_inj_2 in Ha as [_ Ha]; [|done]. by injection Ha as ->.
    + right. split; [|done]. rewrite tokens_snoc_false. intros a Ha.
      apply (f_equal list.last) in Ha. rewrite last_snoc in Ha.
      change (a ++ [[46%Z; 46%Z]; []]) with (a ++ [[46%Z; 46%Z]] ++ [[]]) in Ha. rewrite app_assoc in Ha.
      rewrite last_snoc in Ha. by injection Ha as ->.
Qed.
