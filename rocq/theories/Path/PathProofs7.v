(** lexically_normal: the stack reduction is the normalisation of the standard. *)
From stdpp Require Import base list numbers relations.
From Coq Require Import ZArith Lia.
From Verif Require Import Base.Res Path.PathModel Path.PathSpec Path.PathProofs Path.PathProofs2 Path.PathProofs3 Path.PathProofs4 Path.PathProofs5 Path.PathProofs6.
Local Open Scope nat_scope.

Lemma red_mem root ns tr x : forall kept, x ∈ (red root kept ns tr).1 -> x ∈ kept \/ x ∈ ns.
Proof.
  induction ns as [|n ns IH]; intros kept; cbn [red]; [by left|].
  set (fin := match ns with [] => negb tr | _ => false end). clearbody fin.
  assert (Hrl : forall k, x ∈ removelast k -> x ∈ k).
  { intros k. destruct k as [|m k _] using rev_ind; [done|]. rewrite removelast_snoc. intros ?. apply elem_of_app. by left. }
  assert (Hsn : x ∈ kept ++ [n] -> x ∈ kept \/ x ∈ n :: ns).
  { intros [?|Hx]%elem_of_app; [by left|]. apply elem_of_list_singleton in Hx as ->. right; by constructor. }
  destruct (bool_decide (n = dot)); [|destruct (negb (bool_decide (n = dotdot))) eqn:E].
  - destruct fin; cbn [fst]; [by left|]. intros [?|?]%IH; [by left|right; by constructor].
  - destruct fin; cbn [fst]; [done|]. intros [?|?]%IH; [by apply Hsn|right; by constructor].
  - apply negb_false_iff, bool_decide_eq_true in E. subst n. destruct (removable kept).
    + destruct fin; cbn [fst]; [intros ?; left; by apply Hrl|]. intros [?|?]%IH; [left; by apply Hrl|right; by constructor].
    + destruct root; cbn [negb].
      * destruct fin; cbn [fst]; [by left|]. intros [?|?]%IH; [by left|right; by constructor].
      * destruct fin; cbn [fst]; [done|]. intros [?|?]%IH; [by apply Hsn|right; by constructor].
Qed.

(** the result: filenames, and whether a separator follows them *)
Definition nf (root : bool) (ns : list text) (tr : bool) : list text * bool :=
  let r := red root [] ns tr in (r.1, r.2 && negb (bool_decide (list.last r.1 = Some dotdot))).

Lemma tokens_last_false ks : ks <> [] -> list.last (tokens ks false) = list.last ks.
Proof.
  intros H. destruct ks as [|m ks _] using rev_ind; [done|]. rewrite tokens_app by done. cbn [tokens]. by rewrite !last_snoc.
Qed.
Lemma tokens_snoc_true k m : tokens (k ++ [m]) true = tokens k true ++ [m; []].
Proof. by rewrite tokens_app by done. Qed.
Lemma tokens_snoc_false k m : tokens (k ++ [m]) false = tokens k true ++ [m].
Proof. by rewrite tokens_app by done. Qed.

Lemma step7_ok ks b : Forall (fun n => n <> []) ks ->
  (let vec := tokens ks b in
   match list.last vec, vec !! (length vec - 2) with
   | Some [], Some v => if (2 <=? length vec) && bool_decide (v = dotdot) then take (length vec - 1) vec else vec
   | _, _ => vec
   end) = tokens ks (b && negb (bool_decide (list.last ks = Some dotdot))).
Proof.
  intros Hne. cbv zeta. destruct ks as [|m k _] using rev_ind; [by destruct b|].
  apply list.Forall_app in Hne as [_ [Hm _]%list.Forall_cons]. rewrite (last_snoc m k). destruct b; cbn [andb].
  - rewrite tokens_snoc_true. set (T := tokens k true).
    replace (length (T ++ [m; []])) with (length T + 2) by (rewrite app_length; simpl; lia).
    replace (length T + 2 - 2) with (length T) by lia. rewrite list_lookup_middle by done.
    replace (length T + 2 - 1) with (length (T ++ [m])) by (rewrite app_length; simpl; lia).
    rewrite (proj2 (Nat.leb_le 2 _)) by lia. cbn [andb].
    replace (T ++ [m; []]) with ((T ++ [m]) ++ [[]]) by (by rewrite <-app_assoc). rewrite last_snoc.
    destruct (decide (m = dotdot)) as [->|Hd].
    + rewrite !bool_decide_true by done. cbn [negb]. rewrite take_app. by rewrite tokens_snoc_false.
    + rewrite !bool_decide_false by congruence. cbn [negb]. rewrite tokens_snoc_true. unfold T. by rewrite <-app_assoc.
  - rewrite tokens_snoc_false, last_snoc. by destruct m.
Qed.

Lemma flatten_spell v : flatten v = spell v.
Proof. done. Qed.
Lemma preferred_ok t : make_preferred t = preferred t.
Proof. done. Qed.
Definition dirsep (rd : text) : text := if nonempty rd then [92%Z] else [].
Definition or_dot (s : text) : text := match s with [] => [46%Z] | _ => s end.

Lemma Filenames_nonempty rel ns tr : Filenames rel ns tr -> Forall (fun n => n <> []) ns.
Proof. induction 1 as [|n Hn|n s Hn Hs|n s r m ns tr Hn Hs H IH]; repeat constructor; try apply Hn. all: by inversion IH. Qed.
Lemma red_nonempty root ns tr kept : Forall (fun n => n <> []) ns -> Forall (fun n => n <> []) kept -> Forall (fun n => n <> []) (red root kept ns tr).1.
Proof.
  rewrite !list.Forall_forall. intros H1 H2 x [?|?]%red_mem; auto.
Qed.
Lemma lexically_normal_ok t rn dr rel ns tr : wide t -> Parsed t rn dr rel ns tr -> t <> [] ->
  lexically_normal t = Ok (or_dot (preferred rn ++ dirsep dr ++ spell (tokens (nf (nonempty dr) ns tr).1 (nf (nonempty dr) ns tr).2))).
Proof.
  intros Hw HP Ht. pose proof (parsed_rne HP Hw) as Hfr. pose proof (parsed_len HP) as Hlen.
  destruct HP as [Et Hroot Hdir Hrel Hns]. unfold lexically_normal.
  destruct t as [|t0 t']; [done|]. set (t := t0 :: t') in *. clearbody t.
  rewrite Hfr, rbind_ok. cbv zeta.
  assert (Htk : take (length rn) t = rn) by (rewrite Et; apply take_app). rewrite Htk, preferred_ok.
  match goal with |- context [rbind (if length rn =? length t then _ else ?y) ?k] =>
    set (A := if length rn =? length t then Ok (preferred rn, false, length rn) else y); set (K := k) end.
  assert (HA : A = Ok (preferred rn ++ dirsep dr, nonempty dr, length (rn ++ dr))).
  { unfold A, dirsep. destruct dr as [|c dr'].
    - cbn [nonempty]. rewrite !app_nil_r. destruct rel as [|c rel'].
      + rewrite (proj2 (Nat.eqb_eq _ _)); [done|]. simpl in Hlen. lia.
      + rewrite (proj2 (Nat.eqb_neq _ _)) by (simpl in Hlen; lia). rewrite (rd_app t rn c rel') by done. rewrite rbind_ok.
        rewrite (proj2 (slash_nosep c)); [done|]. intros Hc. apply Hrel. by exists c, rel'.
    - rewrite (proj2 (Nat.eqb_neq _ _)) by (simpl in Hlen; lia). rewrite (rd_app t rn c (dr' ++ rel)) by done. rewrite rbind_ok.
      apply list.Forall_cons in Hdir as [Hc Hdir]. rewrite (proj2 (slash_sep c) Hc).
      replace (S (length rn)) with (length (rn ++ [c])) by (rewrite app_length; simpl; lia).
      rewrite (find_if_not_ok _ t (rn ++ [c]) dr' rel); [|rewrite Et; by rewrite <-!app_assoc|by apply slash_all|by apply stops_sep].
      rewrite rbind_ok. f_equal. f_equal. rewrite !app_length. simpl. lia. }
  rewrite HA, rbind_ok. unfold K.
  rewrite (split_loop_ok t rel ns tr Hns); [|by rewrite Et, app_assoc|rewrite Hlen, app_length; lia]. rewrite rbind_ok, app_nil_l.
  pose proof (Filenames_nonempty _ _ _ Hns) as Hne.
  destruct (dots_loop_ok (nonempty dr) ns tr Hne (S (length (tokens ns tr))) [] []) as (w & ne & Hd & Htake).
  { clear. cut (length ns <= length (tokens ns tr)); [lia|]. induction ns as [|n ns IH]; [done|]. destruct ns; [by destruct tr; simpl; lia|].
    rewrite tokens_cons by done. cbn [length] in *. lia. }
  change (2 * length []) with 0 in Hd. cbn [tokens app Nat.add] in Hd. rewrite Hd, rbind_ok, Htake.
  rewrite (step7_ok (red (nonempty dr) [] ns tr).1); [|by apply red_nonempty].
  rewrite flatten_spell. unfold nf. cbn [fst snd]. rewrite <-app_assoc. unfold or_dot.
  match goal with |- match ?s with _ => _ end = _ => generalize s end. by intros [].
Qed.
