(** lexically_normal: the loops compute a stack reduction of the filenames, which is the normalisation of the standard. *)
From stdpp Require Import base list numbers relations.
From Coq Require Import ZArith Lia.
From Verif Require Import Base.Res Path.PathModel Path.PathSpec Path.PathProofs Path.PathProofs2 Path.PathProofs3 Path.PathProofs4 Path.PathProofs5.
Local Open Scope nat_scope.

(** tokens *)
Lemma tokens_cons n ns tr : ns <> [] -> tokens (n :: ns) tr = n :: [] :: tokens ns tr.
Proof. by destruct ns. Qed.
Lemma tokens_true n ns : tokens (n :: ns) true = n :: [] :: tokens ns true.
Proof. by destruct ns. Qed.
Lemma tokens_app a b tr : b <> [] -> tokens (a ++ b) tr = tokens a true ++ tokens b tr.
Proof.
  intros Hb. induction a as [|n a IH]; [done|]. rewrite tokens_true, <-app_comm_cons, tokens_cons; [by rewrite IH|]. by destruct a.
Qed.
Lemma tokens_len a : length (tokens a true) = 2 * length a.
Proof. induction a as [|n a IH]; [done|]. rewrite tokens_true. cbn [length]. lia. Qed.
Lemma tokens_pos ns tr : ns <> [] -> tokens ns tr <> [].
Proof. by destruct ns as [|n [|]]. Qed.
Lemma elem_tokens x ns tr : x ∈ tokens ns tr -> x = [] \/ x ∈ ns.
Proof.
  induction ns as [|n ns IH]; [by intros ?%elem_of_nil|]. destruct ns as [|m ns].
  - simpl. intros [->|H]%elem_of_cons; [right; by constructor|]. destruct tr; [|by apply elem_of_nil in H].
    apply elem_of_list_singleton in H. by left.
  - rewrite tokens_cons by done. intros [->|[->|H]%elem_of_cons]%elem_of_cons; [right; by constructor|by left|].
    destruct (IH H) as [?|?]; [by left|right; by constructor].
Qed.

(** step 3: the vector of views *)
Lemma split_seps t s : forall k p vec v, t = p ++ s ++ v -> Forall sep s -> list.last vec = Some [] ->
  split_loop (length s + k) t vec (length p) = split_loop k t vec (length (p ++ s)).
Proof.
  induction s as [|c s IH]; intros k p vec v Ht Hs Hl; [by rewrite app_nil_r|].
  apply list.Forall_cons in Hs as [Hc Hs]. cbn [length Nat.add split_loop].
  rewrite (proj2 (Nat.eqb_neq _ _)) by (rewrite Ht, app_length; simpl; lia).
  rewrite (rd_app t p c (s ++ v)) by done. rewrite rbind_ok, (proj2 (slash_sep c) Hc), Hl.
  replace (S (length p)) with (length (p ++ [c])) by (rewrite app_length; simpl; lia).
  rewrite (IH k (p ++ [c]) vec v); [by rewrite <-app_assoc|by rewrite Ht, <-!app_assoc|done|done].
Qed.
Lemma split_seps1 t s k p vec v : t = p ++ s ++ v -> seps s -> (exists x vec', vec = vec' ++ [x] /\ x <> []) ->
  split_loop (length s + k) t vec (length p) = split_loop k t (vec ++ [[]]) (length (p ++ s)).
Proof.
  intros Ht [Hs0 Hs] (x & vec' & Hv & Hx). destruct s as [|c s]; [done|]. apply list.Forall_cons in Hs as [Hc Hs].
  cbn [length Nat.add split_loop].
  rewrite (proj2 (Nat.eqb_neq _ _)) by (rewrite Ht, app_length; simpl; lia).
  rewrite (rd_app t p c (s ++ v)) by done. rewrite rbind_ok, (proj2 (slash_sep c) Hc).
  assert (Hl : list.last vec = Some x) by (rewrite Hv; apply last_snoc). rewrite Hl. destruct x as [|y x]; [done|].
  replace (S (length p)) with (length (p ++ [c])) by (rewrite app_length; simpl; lia).
  rewrite (split_seps t s k (p ++ [c]) (vec ++ [[]]) v); [by rewrite <-app_assoc|by rewrite Ht, <-!app_assoc|done|apply last_snoc].
Qed.
Lemma split_name t n k p vec v : t = p ++ n ++ v -> name n -> (v = [] \/ starts_with_sep v) ->
  split_loop (S k) t vec (length p) = split_loop k t (vec ++ [n]) (length (p ++ n)).
Proof.
  intros Ht Hn Hv. cbn [split_loop]. destruct (name_hd n Hn) as (c & n' & En & Hc).
  rewrite (proj2 (Nat.eqb_neq _ _)) by (rewrite Ht, En, app_length; simpl; lia).
  rewrite (rd_app t p c (n' ++ v)) by (by rewrite Ht, En). rewrite rbind_ok, (proj2 (slash_nosep c) Hc).
  replace (S (length p)) with (length (p ++ [c])) by (rewrite app_length; simpl; lia).
  rewrite (find_name t (p ++ [c]) n' v); [|rewrite Ht, En; by rewrite <-!app_assoc|destruct Hn as [_ Hn]; rewrite En in Hn; by apply list.Forall_cons in Hn as [_ ?]|done].
  rewrite rbind_ok. rewrite (view_ok t p n v); [|done|done|rewrite En, app_length; simpl; lia]. rewrite rbind_ok.
  f_equal. rewrite En, !app_length. simpl. lia.
Qed.
Lemma split_loop_ok t rel ns tr : Filenames rel ns tr -> forall k p vec, t = p ++ rel -> length rel < k ->
  split_loop k t vec (length p) = Ok (vec ++ tokens ns tr).
Proof.
  induction 1 as [|n Hn|n s Hn Hs|n s r m ns tr Hn Hs H IH]; intros k p vec Ht Hk.
  - destruct k; [lia|]. cbn [split_loop]. rewrite app_nil_r in Ht. rewrite Ht, Nat.eqb_refl. simpl. by rewrite app_nil_r.
  - destruct k as [|[|k]]; [lia|destruct (name_hd n Hn) as (? & ? & -> & _); simpl in Hk; lia|].
    rewrite (split_name t n (S k) p vec []) by (rewrite ?app_nil_r; auto). cbn [split_loop]. by rewrite Ht, Nat.eqb_refl.
  - rewrite app_length in Hk. destruct (name_hd n Hn) as (? & ? & En & _). assert (Hn1 : 0 < length n) by (rewrite En; simpl; lia).
    destruct k as [|k]; [lia|]. rewrite (split_name t n k p vec s); [|done|done|].
    + replace k with (length s + S (k - length s - 1)) by lia. rewrite (split_seps1 t s _ (p ++ n) (vec ++ [n]) []).
      * cbn [split_loop]. rewrite Ht, <-app_assoc, Nat.eqb_refl. by rewrite <-app_assoc.
      * by rewrite Ht, app_nil_r, <-!app_assoc.
      * done.
      * exists n, vec. split; [done|]. apply Hn.
    + right. destruct Hs as [H0 H2]. destruct s as [|c s]; [done|]. exists c, s. split; [done|]. by apply list.Forall_cons in H2 as [? _].
  - rewrite !app_length in Hk. destruct (name_hd n Hn) as (? & ? & En & _). assert (Hn1 : 0 < length n) by (rewrite En; simpl; lia).
    destruct k as [|k]; [lia|]. rewrite (split_name t n k p vec (s ++ r)); [|done|done|].
    + replace k with (length s + (k - length s)) by lia. rewrite (split_seps1 t s _ (p ++ n) (vec ++ [n]) r).
      * rewrite (IH (k - length s) ((p ++ n) ++ s)); [|by rewrite Ht, <-!app_assoc|lia].
        rewrite (tokens_cons n) by done. f_equal. by rewrite <-!app_assoc.
      * by rewrite Ht, <-!app_assoc.
      * done.
      * exists n, vec. split; [done|]. apply Hn.
    + right. destruct Hs as [H0 H2]. destruct s as [|c s]; [done|]. exists c, (s ++ r). split; [done|]. by apply list.Forall_cons in H2 as [? _].
Qed.

(** steps 4-6 as a stack reduction; the flag of the result: does a separator follow? *)
Definition removable (kept : list text) : bool := match list.last kept with Some m => negb (bool_decide (m = dotdot)) | None => false end.
Fixpoint red (root : bool) (kept ns : list text) (tr : bool) : list text * bool :=
  match ns with
  | [] => (kept, true)
  | n :: ns' =>
    let fin := match ns' with [] => negb tr | _ => false end in
    if bool_decide (n = dot) then (if fin then (kept, true) else red root kept ns' tr)
    else if negb (bool_decide (n = dotdot)) then (if fin then (kept ++ [n], false) else red root (kept ++ [n]) ns' tr)
    else if removable kept then (if fin then (removelast kept, true) else red root (removelast kept) ns' tr)
    else if negb root then (if fin then (kept ++ [dotdot], false) else red root (kept ++ [dotdot]) ns' tr)
    else (if fin then (kept, true) else red root kept ns' tr)
  end.

Lemma removelast_snoc {A} (l : list A) x : removelast (l ++ [x]) = l.
Proof. by rewrite removelast_app, app_nil_r by done. Qed.
Lemma removable_spec kept : removable kept = true -> exists k m, kept = k ++ [m] /\ m <> dotdot /\ removelast kept = k.
Proof.
  unfold removable. destruct kept as [|m k _] using rev_ind; [done|]. rewrite last_snoc. intros H. exists k, m. split; [done|].
  split; [|apply removelast_snoc]. apply negb_true_iff, bool_decide_eq_false in H. done.
Qed.
Lemma vset_ok v a x b y : v = a ++ x :: b -> vset v (length a) y = Ok (a ++ y :: b).
Proof.
  intros ->. unfold vset. rewrite (proj2 (Nat.ltb_lt _ _)) by (rewrite app_length; simpl; lia). f_equal.
  rewrite insert_app_r_alt by lia. by rewrite Nat.sub_diag.
Qed.
Lemma vget_ok v a x b : v = a ++ x :: b -> vget v (length a) = Ok x.
Proof. intros ->. unfold vget. by rewrite list_lookup_middle. Qed.

Lemma dots_loop_ok root ns tr : Forall (fun n => n <> []) ns -> forall k kept J, length ns < k ->
  exists w ne, dots_loop k root (tokens kept true ++ tokens J true ++ tokens ns tr) (2 * length kept) (2 * length kept + 2 * length J) = Ok (w, ne) /\
    take ne w = tokens (red root kept ns tr).1 (red root kept ns tr).2.
Proof.
  intros Hns k. revert ns Hns. induction k as [|k IH]; intros ns Hns kept J Hk; [lia|]. cbn [dots_loop].
  set (vec := tokens kept true ++ tokens J true ++ tokens ns tr).
  assert (Hlv : length vec = 2 * length kept + 2 * length J + length (tokens ns tr)) by (unfold vec; rewrite !app_length, !tokens_len; lia).
  destruct ns as [|n ns].
  { rewrite (proj2 (Nat.eqb_eq _ _)) by (rewrite Hlv; simpl; lia). exists vec, (2 * length kept). split; [done|]. unfold vec.
    rewrite <-tokens_len, take_app. done. }
  apply list.Forall_cons in Hns as [Hn Hns].
  rewrite (proj2 (Nat.eqb_neq _ _)) by (rewrite Hlv; pose proof (tokens_pos (n :: ns) tr ltac:(done)); destruct (tokens (n :: ns) tr); [done|simpl; lia]).
  assert (Htok : exists rest, tokens (n :: ns) tr = n :: rest /\ (rest = [] <-> match ns with [] => negb tr | _ => false end = true) /\
    (rest <> [] -> rest = [] :: tokens ns tr)).
  { destruct ns as [|m ns]; [destruct tr; simpl|rewrite tokens_cons by done].
    - exists [[]]. split; [done|]. split; [done|]. done.
    - exists []. split; [done|]. split; [done|]. done.
    - exists ([] :: tokens (m :: ns) tr). split; [done|]. split; [done|]. done. }
  destruct Htok as (rest & Etok & Hfin & Hrest).
  assert (Hp : 2 * length kept + 2 * length J = length (tokens kept true ++ tokens J true)) by (rewrite app_length, !tokens_len; lia).
  assert (Hvec : vec = (tokens kept true ++ tokens J true) ++ n :: rest) by (unfold vec; rewrite Etok; by rewrite app_assoc).
  rewrite Hp, (vget_ok vec _ n rest Hvec), rbind_ok. rewrite <-Hp.
  set (fin := match ns with [] => negb tr | _ => false end) in *.
  assert (Hat : (S (2 * length kept + 2 * length J) =? length vec) = fin).
  { rewrite Hlv, Etok. cbn [length]. destruct fin.
    - apply Nat.eqb_eq. rewrite (proj2 Hfin eq_refl). cbn [length]. lia.
    - apply Nat.eqb_neq. destruct rest; [|cbn [length]; lia]. by discriminate (proj1 Hfin eq_refl). }
  rewrite Hat. cbn [red]. fold fin.
  (* [continue kept' vec']: the loop goes on with one more name consumed *)
  assert (Hcont : forall kept' J' v' ne p, fin = false -> v' = tokens kept' true ++ tokens J' true ++ tokens ns tr ->
     ne = 2 * length kept' -> p = 2 * length kept' + 2 * length J' -> exists w ne', dots_loop k root v' ne p = Ok (w, ne') /\
       take ne' w = tokens (red root kept' ns tr).1 (red root kept' ns tr).2).
  { intros kept' J' v' ne p _ -> -> ->. apply IH; [done|simpl in Hk; lia]. }
  assert (Hmore : fin = false -> rest = [] :: tokens ns tr).
  { intros Hf. apply Hrest. intros Hr. apply Hfin in Hr. rewrite Hf in Hr. done. }
  assert (Hskip : fin = false -> vec = tokens kept true ++ tokens (J ++ [n]) true ++ tokens ns tr).
  { intros Hf. rewrite Hvec, (Hmore Hf), tokens_app by done. simpl. by rewrite <-!app_assoc. }
  (* writing a name at _New_end *)
  assert (Hset : forall el, exists v', vset vec (2 * length kept) el = Ok v' /\
     length v' = length vec /\ take (S (2 * length kept)) v' = tokens (kept ++ [el]) false /\
     (fin = false -> exists J', v' = tokens (kept ++ [el]) true ++ tokens J' true ++ tokens ns tr /\ length J' = length J)).
  { intros el. rewrite <-(tokens_len kept). destruct J as [|j J'].
    - exists (tokens kept true ++ el :: rest). split; [apply (vset_ok vec _ n rest); by rewrite Hvec, app_nil_r|]. split; [|split].
      + rewrite Hvec, app_nil_r, !app_length. done.
      + replace (S (length (tokens kept true))) with (length (tokens kept true ++ [el])) by (rewrite app_length; simpl; lia).
        change (tokens kept true ++ el :: rest) with (tokens kept true ++ [el] ++ rest). rewrite app_assoc, take_app. by rewrite tokens_app by done.
      + intros Hf. exists []. split; [|done]. rewrite (Hmore Hf), tokens_app by done. simpl. by rewrite <-!app_assoc.
    - assert (Hv2 : vec = tokens kept true ++ j :: [] :: tokens J' true ++ n :: rest).
      { rewrite Hvec, tokens_true. by rewrite <-!app_assoc. }
      exists (tokens kept true ++ el :: [] :: tokens J' true ++ n :: rest). split; [by apply (vset_ok vec _ j)|]. split; [|split].
      + rewrite Hv2, !app_length. done.
      + replace (S (length (tokens kept true))) with (length (tokens kept true ++ [el])) by (rewrite app_length; simpl; lia).
        change (tokens kept true ++ el :: [] :: tokens J' true ++ n :: rest) with (tokens kept true ++ [el] ++ ([] :: tokens J' true ++ n :: rest)). rewrite app_assoc, take_app. by rewrite tokens_app by done.
      + intros Hf. exists (J' ++ [n]). split; [|rewrite app_length; simpl; lia]. rewrite (Hmore Hf). rewrite tokens_app by done.
        rewrite (tokens_app J' [n]) by done. simpl. by rewrite <-!app_assoc. }
  assert (HlJ : length (J ++ [n]) = S (length J)) by (rewrite app_length; simpl; lia).
  assert (Htake : take (2 * length kept) vec = tokens kept true) by (unfold vec; rewrite <-tokens_len, take_app; done).
  destruct (bool_decide (n = dot)).
  { destruct fin; [by exists vec, (2 * length kept)|].
    apply (Hcont kept (J ++ [n])); [done|by apply Hskip|done|rewrite HlJ; lia]. }
  destruct (negb (bool_decide (n = dotdot))) eqn:Edd.
  { destruct (Hset n) as (v' & Hv' & Hlv' & Htk & Hco). rewrite Hv', rbind_ok.
    destruct fin; [exists v', (S (2 * length kept)); done|]. destruct (Hco eq_refl) as (J2 & EJ & LJ).
    apply (Hcont (kept ++ [n]) J2); [done|done|rewrite app_length; simpl; lia|rewrite app_length, LJ; simpl; lia]. }
  apply negb_false_iff, bool_decide_eq_true in Edd. subst n.
  assert (Hrem : (if 2 * length kept =? 0 then Ok false else if 2 * length kept <? 2 then UB else v <~ vget vec (2 * length kept - 2) ;; Ok (negb (bool_decide (v = dotdot)))) = Ok (removable kept)).
  { destruct kept as [|m kept' _] using rev_ind; [done|]. rewrite app_length. cbn [length].
    rewrite (proj2 (Nat.eqb_neq _ _)) by lia. rewrite (proj2 (Nat.ltb_ge _ _)) by lia.
    replace (2 * (length kept' + 1) - 2) with (length (tokens kept' true)) by (rewrite tokens_len; lia).
    rewrite (vget_ok vec (tokens kept' true) m ([] :: tokens J true ++ tokens (dotdot :: ns) tr)).
    - rewrite rbind_ok. unfold removable. by rewrite last_snoc.
    - unfold vec. rewrite tokens_app by done. simpl. by rewrite <-!app_assoc. }
  rewrite Hrem, rbind_ok. destruct (removable kept) eqn:Er.
  { destruct (removable_spec kept Er) as (k' & m & Hkm & Hm & Hrl). rewrite Hrl.
    assert (Hlk0 : length kept = S (length k')) by (rewrite Hkm, app_length; simpl; lia).
    assert (Hlk : 2 * length kept - 2 = 2 * length k') by (rewrite Hkm, app_length; simpl; lia). rewrite Hlk.
    destruct fin.
    - exists vec, (2 * length k'). split; [done|]. unfold vec. rewrite Hkm, tokens_app by done. rewrite <-app_assoc, <-(tokens_len k'), take_app. done.
    - apply (Hcont k' (m :: J ++ [dotdot])); [done| |done|cbn [length]; rewrite HlJ; lia].
      rewrite (Hskip eq_refl), Hkm, (tokens_app k' [m]) by done. rewrite (tokens_true m (J ++ [dotdot])). rewrite <-app_assoc. done. }
  destruct root; cbn [negb].
  { destruct fin; [by exists vec, (2 * length kept)|].
    apply (Hcont kept (J ++ [dotdot])); [done|by apply Hskip|done|rewrite HlJ; lia]. }
  destruct (Hset dotdot) as (v' & Hv' & Hlv' & Htk & Hco). rewrite Hv', rbind_ok.
  destruct fin; [exists v', (S (2 * length kept)); done|]. destruct (Hco eq_refl) as (J2 & EJ & LJ).
  apply (Hcont (kept ++ [dotdot]) J2); [done|done|rewrite app_length; simpl; lia|rewrite app_length, LJ; simpl; lia].
Qed.
