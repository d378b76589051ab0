(** lexically_normal: idempotence. *)
From stdpp Require Import base list numbers relations.
From Coq Require Import ZArith Lia.
From Verif Require Import Base.Res Path.PathModel Path.PathSpec Path.PathProofs Path.PathProofs2 Path.PathProofs3 Path.PathProofs4 Path.PathProofs5 Path.PathProofs6 Path.PathProofs7 Path.PathProofs8 Path.PathProofs9.
Local Open Scope nat_scope.

Lemma red_fix root ns b : forall kept, shape root (kept ++ ns) -> Forall (fun n => n <> dot) ns -> ns <> [] -> red root kept ns b = (kept ++ ns, b).
Proof.
  induction ns as [|n ns IH]; intros kept Hs Hd Hne; [done|]. apply list.Forall_cons in Hd as [Hn Hd]. cbn [red].
  rewrite (bool_decide_false (n = dot)) by done.
  assert (Hgo : (if match ns with [] => negb b | _ => false end then (kept ++ [n], false) else red root (kept ++ [n]) ns b) = (kept ++ n :: ns, b)).
  { destruct ns as [|m ns]; [by destruct b|]. rewrite IH; [by rewrite <-app_assoc|by rewrite <-app_assoc|done|done]. }
  destruct (negb (bool_decide (n = dotdot))) eqn:E; [done|]. apply negb_false_iff, bool_decide_eq_true in E. subst n.
  assert (Hr : removable kept = false).
  { unfold removable. destruct kept as [|m k _] using rev_ind; [done|]. rewrite last_snoc. apply negb_false_iff, bool_decide_eq_true.
    rewrite <-app_assoc in Hs. by apply shape_adj in Hs. }
  rewrite Hr. destruct root; [|done]. exfalso. destruct Hs as (i & nn & E & Hnn & Hi). rewrite (Hi eq_refl) in E. cbn [replicate app] in E.
  rewrite <-E in Hnn. apply list.Forall_app in Hnn as [_ Hnn]. by apply list.Forall_cons in Hnn as [? _].
Qed.
Lemma nf_tokens_fix root ns tr : let r := nf root ns tr in
  tokens (nf root r.1 (r.2 && bool_decide (r.1 <> []))).1 (nf root r.1 (r.2 && bool_decide (r.1 <> []))).2 = tokens r.1 r.2.
Proof.
  cbv zeta. destruct (nf_shape root ns tr) as (i & nn & E & Hnn & Hi & Hl).
  destruct (nf root ns tr) as [ks b]. cbn [fst snd] in *. destruct (decide (ks = [])) as [->|Hk].
  - rewrite bool_decide_false by (by intros []). rewrite andb_false_r. done.
  - rewrite bool_decide_true, andb_true_r by done. unfold nf. rewrite red_fix.
    + cbn [fst snd app]. destruct b; [|done]. rewrite bool_decide_false by (by apply Hl). done.
    + cbn [app]. exists i, nn. split; [done|]. split; [|done]. eapply list.Forall_impl; [exact Hnn|]. by intros ? [].
    + rewrite E. apply list.Forall_app. split; [|eapply list.Forall_impl; [exact Hnn|]; by intros ? []].
      apply list.Forall_forall. intros x Hx. apply elem_of_replicate in Hx as [-> _]. done.
    + done.
Qed.

Lemma Filenames_forall (P : Z -> Prop) rel ns tr : Filenames rel ns tr -> Forall P rel -> Forall (Forall P) ns.
Proof.
  induction 1 as [|n Hn|n s Hn Hs|n s r m ns tr Hn Hs H IH]; intros HP.
  - by apply list.Forall_nil.
  - apply list.Forall_cons. split; [done|]. by apply list.Forall_nil.
  - apply list.Forall_app in HP as [? _]. apply list.Forall_cons. split; [done|]. by apply list.Forall_nil.
  - apply list.Forall_app in HP as [? HP]. apply list.Forall_app in HP as [_ HP]. apply list.Forall_cons. split; [done|]. by apply IH.
Qed.
Lemma spell_forall (P : Z -> Prop) v : P 92%Z -> Forall (Forall P) v -> Forall P (spell v).
Proof.
  intros H92. induction 1 as [|n v Hn Hv IH]; [by apply list.Forall_nil|]. destruct n as [|c n].
  - rewrite spell_sep. by apply list.Forall_cons.
  - rewrite spell_cons by done. by apply list.Forall_app.
Qed.
Lemma preferred_forall (P : Z -> Prop) t : P 92%Z -> Forall P t -> Forall P (preferred t).
Proof.
  intros H92. induction 1 as [|c t Hc _ IH]; [by apply list.Forall_nil|]. unfold preferred in *. rewrite fmap_cons. apply list.Forall_cons. split; [|done].
  by destruct (Z.eqb c 47).
Qed.

Lemma normal_parsed t rn dr rel ns tr : wide t -> Parsed t rn dr rel ns tr -> t <> [] ->
  (rn <> [] \/ forall n, n ∈ ns -> ~ looks_like_root dr n) ->
  exists r rel' ks b, lexically_normal t = Ok r /\ Parsed r (preferred rn) (dirsep dr) rel' ks b /\
    (forall d, (dr <> [] -> d = []) -> resolve d ks = resolve d ns) /\
    (r = dot \/ exists i nn, ks = replicate i dotdot ++ nn /\ Forall (fun n => n <> dot /\ n <> dotdot) nn /\
       (dr <> [] -> i = 0) /\ (b = true -> list.last ks <> Some dotdot)) /\
    lexically_normal r = Ok r /\ (forall n, n ∈ ks -> n = dot \/ n ∈ ns).
Proof.
  intros Hw HP Ht Hroot. pose proof (lexically_normal_ok t rn dr rel ns tr Hw HP Ht) as HN.
  set (root := nonempty dr) in *. set (ks := (nf root ns tr).1) in *. set (b := (nf root ns tr).2) in *.
  set (rel' := spell (tokens ks b)) in *. set (s := preferred rn ++ dirsep dr ++ rel') in *.
  destruct HP as [Et Hrn Hdir Hrel Hns].
  pose proof (Filenames_spell ks b (nf_names root ns tr (Filenames_names _ _ _ Hns))) as Hf'. fold rel' in Hf'.
  assert (Hmem : forall n, n ∈ ks -> n ∈ ns).
  { intros n Hn. apply red_mem in Hn as [Hn|Hn]; [by apply elem_of_nil in Hn|done]. }
  assert (Hrn' : RootName (preferred rn) (dirsep dr ++ rel')).
  { destruct Hrn as [Hrn|[-> Hno]].
    - left. eapply root_kept; [exact Hns|exact Hf'|done|done| |done]. intros E. unfold ks. by rewrite E.
    - apply (noroot_kept dr rel' ks _ Hf'). intros n Hn. destruct Hroot as [?|Hroot]; [done|]. apply Hroot. by apply Hmem. }
  assert (HPs : Parsed s (preferred rn) (dirsep dr) rel' ks (b && bool_decide (ks <> []))).
  { split; [done|done|apply dirsep_seps|by eapply Filenames_nostart|done]. }
  assert (Hroot_iff : dr <> [] <-> root = true) by (unfold root; by destruct dr).
  destruct (nf_shape root ns tr) as (i & nn & E & Hnn & Hi & Hl). fold ks b in E, Hl.
  destruct (decide (s = [])) as [Es|Es].
  - rewrite Es in HN. cbn [or_dot] in HN. unfold s in Es. apply app_eq_nil in Es as [Erp Es]. apply app_eq_nil in Es as [Eds Erl].
    assert (Ern : rn = []) by (by destruct rn). assert (Edr : dr = []) by (unfold dirsep in Eds; by destruct dr). subst rn dr.
    assert (Eks : ks = []).
    { rewrite Erl in Hf'. inversion Hf' as [E1|n Hn E1|n s' Hn _ E1|n s' r' m ns' tr' Hn _ _ E1]; [done|..]; exfalso;
        destruct (name_hd _ Hn) as (? & ? & En & _); rewrite En in E1; done. }
    assert (Hdot : Parsed dot [] [] dot [dot] false).
    { assert (Hnm : name dot). { split; [done|]. apply list.Forall_cons. split; [intros [?|?]; lia|by apply list.Forall_nil]. }
      split; [done| |by apply list.Forall_nil| |by apply F_last].
      - apply (noroot_kept [] dot [dot] false); [by apply F_last|]. intros n Hn (c & r & -> & _). apply elem_of_list_singleton in Hn. done.
      - rewrite <-(app_nil_r dot). by apply name_nostart. }
    exists dot, dot, [dot], false. split; [done|]. split; [done|]. split; [|split; [by left|split; [done|]]].
    + intros d Hd. rewrite <-(nf_resolve root ns tr d) by (intros ?; apply Hd; by apply Hroot_iff). fold ks. by rewrite Eks.
    + intros n Hn. apply elem_of_list_singleton in Hn. by left.
  - assert (Eor : or_dot s = s) by (by destruct s). rewrite Eor in HN.
    exists s, rel', ks, (b && bool_decide (ks <> [])). split; [done|]. split; [done|]. split; [|split; [|split]].
    + intros d Hd. apply nf_resolve. intros ?. apply Hd. by apply Hroot_iff.
    + right. exists i, nn. split; [done|]. split; [done|]. split; [intros ?; apply Hi; by apply Hroot_iff|]. intros [? _]%andb_true_iff. by apply Hl.
    + assert (Hws : wide s).
      { assert (H92 : (0 <= 92 < 65536)%Z) by lia. unfold wide in *. rewrite Et in Hw. apply list.Forall_app in Hw as [Hw1 Hw]. apply list.Forall_app in Hw as [_ Hw3].
        unfold s. apply list.Forall_app. split; [by apply (preferred_forall (fun c => (0 <= c < 65536)%Z))|]. apply list.Forall_app. split.
        - unfold dirsep. destruct (nonempty dr); [|by apply list.Forall_nil]. apply list.Forall_cons. split; [done|by apply list.Forall_nil].
        - apply (spell_forall (fun c => (0 <= c < 65536)%Z)); [done|]. apply list.Forall_forall. intros n Hn. apply elem_tokens in Hn as [->|Hn]; [by apply list.Forall_nil|].
          apply Hmem in Hn. pose proof (Filenames_forall _ _ _ _ Hns Hw3) as Hall. rewrite list.Forall_forall in Hall. by apply Hall. }
      rewrite (lexically_normal_ok s _ _ _ _ _ Hws HPs Es). rewrite preferred_idem.
      assert (Hdd : nonempty (dirsep dr) = nonempty dr) by (by destruct dr).
      assert (dirsep (dirsep dr) = dirsep dr) as -> by (by destruct dr). rewrite Hdd. fold root.
      pose proof (nf_tokens_fix root ns tr) as Hfix. cbv zeta in Hfix. fold ks b in Hfix. rewrite Hfix. fold rel'. fold s. by rewrite Eor.
    + intros n Hn. right. by apply Hmem.
Qed.
