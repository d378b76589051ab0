(** Iteration: ++ visits the elements, -- undoes it. *)
From stdpp Require Import base list numbers.
From Coq Require Import ZArith Lia.
From Verif Require Import Base.Res Path.PathModel Path.PathSpec Path.PathProofs Path.PathProofs2 Path.PathProofs3 Path.PathProofs4.
Local Open Scope nat_scope.

(** consecutive iterators *)
Fixpoint chain (t : text) (l : list piter) : Prop :=
  match l with
  | a :: ((b :: _) as l) => incr t a = Ok b /\ decr t b = Ok a /\ pos a < pos b /\ chain t l
  | _ => True
  end.

Lemma name_hd n : name n -> exists c n', n = c :: n' /\ ~ sep c.
Proof. intros [H0 H]. destruct n as [|c n']; [done|]. exists c, n'. split; [done|]. by apply list.Forall_cons in H as [? _]. Qed.
Lemma seps_last s : seps s -> exists s' c, s = s' ++ [c] /\ sep c /\ Forall sep s'.
Proof.
  intros [H0 H]. destruct s as [|c s _] using rev_ind; [done|]. exists s, c. apply Forall_app in H as [H1 H2].
  apply list.Forall_cons in H2 as [H2 _]. done.
Qed.
Lemma Filenames_nil ns tr : Filenames [] ns tr -> ns = [] /\ tr = false.
Proof.
  remember [] as r eqn:E. destruct 1 as [|n [Hn _]|n s [Hn _] _|n s r m ns tr [Hn _] _ _]; [done|done|..]; by destruct n.
Qed.
Lemma find_name t a n r : t = a ++ n ++ r -> Forall (fun c => ~ sep c) n -> (r = [] \/ starts_with_sep r) ->
  find_if Is_slash t (length a) = Ok (length a + length n).
Proof.
  intros Ht Hn Hr. apply (find_if_ok _ t a n r); [done|by apply slash_none|]. destruct Hr as [->|(c & r' & -> & Hc)]; [done|]. by apply slash_sep.
Qed.

Lemma skip_ok t k : forall p s r, t = p ++ s ++ r -> Forall sep s -> length s < k ->
  (r = [] -> s <> []) ->
  (r = [] -> skip_slashes k t (length p) = Ok (PIter (length t - 1) [])) /\
  (forall n r', r = n ++ r' -> name n -> (r' = [] \/ starts_with_sep r') -> skip_slashes k t (length p) = Ok (PIter (length p + length s) n)).
Proof.
  induction k as [|k IH]; intros p s r Ht Hs Hk Hrs; [lia|]. cbn [skip_slashes]. destruct s as [|c s].
  - split; [intros Hr; by destruct (Hrs Hr)|]. intros n r' -> Hn Hr'. destruct (name_hd n Hn) as (c & n' & -> & Hc).
    rewrite (rd_app t p c (n' ++ r')) by done. rewrite rbind_ok. rewrite (proj2 (slash_nosep c) Hc).
    rewrite (find_name t p (c :: n') r') by (done || apply Hn). rewrite rbind_ok.
    rewrite (view_ok t p (c :: n') r' (length p) (length p + length (c :: n'))) by done. rewrite rbind_ok. by rewrite Nat.add_0_r.
  - apply list.Forall_cons in Hs as [Hc Hs]. rewrite (rd_app t p c (s ++ r)) by done. rewrite rbind_ok, (proj2 (slash_sep c) Hc).
    assert (Hlen : length t = length p + S (length s) + length r) by (rewrite Ht, !app_length; simpl; lia).
    assert (Ht' : t = (p ++ [c]) ++ s ++ r) by (rewrite Ht; by rewrite <-app_assoc).
    assert (Hl : S (length p) = length (p ++ [c])) by (rewrite app_length; simpl; lia).
    split.
    + intros ->. simpl in Hlen. destruct (S (length p) =? length t) eqn:E; [apply Nat.eqb_eq in E; do 2 f_equal; lia|].
      apply Nat.eqb_neq in E. rewrite Hl. apply (IH (p ++ [c]) s []); try done; [simpl in Hk; lia|]. intros _ ->. simpl in *. lia.
    + intros n r' -> Hn Hr'. destruct (name_hd n Hn) as (x & n' & -> & Hx). rewrite (proj2 (Nat.eqb_neq _ _)) by (simpl in Hlen; lia).
      rewrite Hl. destruct (IH (p ++ [c]) s ((x :: n') ++ r')) as [_ H]; try done; [simpl in Hk; lia|].
      rewrite (H (x :: n') r') by done. rewrite <-Hl. simpl length. do 2 f_equal. lia.
Qed.

Section iter.
  Context {t rn rd rel : text} {ns : list text} {tr : bool} (P : Parsed t rn rd rel ns tr) (Hw : wide t).

  Lemma next_end p : p = length t -> next_filename t p = Ok (end_ t).
  Proof. intros ->. unfold next_filename. by rewrite Nat.eqb_refl. Qed.
  Lemma next_magic p s : t = p ++ s -> seps s -> next_filename t (length p) = Ok (PIter (length t - 1) []).
  Proof.
    intros Ht [Hs0 Hs]. unfold next_filename. assert (Hlen : length t = length p + length s) by (rewrite Ht; apply app_length).
    rewrite (proj2 (Nat.eqb_neq _ _)) by (destruct s; [done|]; simpl in Hlen; lia).
    apply (skip_ok t _ p s []); try done; [by rewrite app_nil_r|lia].
  Qed.
  Lemma next_name p s n r : t = p ++ s ++ n ++ r -> Forall sep s -> name n -> (r = [] \/ starts_with_sep r) ->
    next_filename t (length p) = Ok (PIter (length p + length s) n).
  Proof.
    intros Ht Hs Hn Hr. unfold next_filename. assert (Hlen : length t = length p + length s + length n + length r) by (rewrite Ht, !app_length; lia).
    destruct (name_hd n Hn) as (c & n' & En & _).
    rewrite (proj2 (Nat.eqb_neq _ _)) by (rewrite En in Hlen; simpl in Hlen; lia).
    destruct (skip_ok t (S (length t)) p s (n ++ r)) as [_ H]; [done|done|lia|rewrite En; done|]. by apply (H n r).
  Qed.

  (** ++ on a filename *)
  Lemma incr_name p n r : t = p ++ n ++ r -> name n -> length rn + length rd <= length p ->
    incr t (PIter (length p) n) = next_filename t (length p + length n).
  Proof.
    intros Ht Hn Hp. unfold incr. cbn [pos elem]. destruct (length p =? 0) eqn:E0.
    - apply Nat.eqb_eq in E0. rewrite (parsed_rne P Hw), rbind_ok, (parsed_fnot P), rbind_ok.
      replace (length rn) with 0 by lia. done.
    - destruct (name_hd n Hn) as (c & n' & -> & Hc). rewrite (rd_app t p c (n' ++ r)) by done.
      rewrite rbind_ok, (proj2 (slash_nosep c) Hc). done.
  Qed.
  Lemma incr_magic p c : t = p ++ [c] -> sep c -> p <> [] -> incr t (PIter (length t - 1) []) = Ok (end_ t).
  Proof.
    intros Ht Hc Hp. assert (Hl : length t - 1 = length p) by (rewrite Ht, app_length; simpl; lia). rewrite Hl. unfold incr. cbn [pos elem].
    rewrite (proj2 (Nat.eqb_neq _ _)) by (destruct p; [done|simpl; lia]). rewrite (rd_app t p c []) by done.
    rewrite rbind_ok, (proj2 (slash_sep c) Hc). simpl. unfold end_. do 2 f_equal. rewrite Ht, app_length. simpl. lia.
  Qed.
  (** -- to a filename *)
  Lemma decr_name p n s r q : t = p ++ n ++ s ++ r -> length rn + length rd <= length p -> name n -> Forall sep s ->
    (length p = length rn + length rd \/ exists p' c, p = p' ++ [c] /\ sep c) -> (s <> [] -> r <> []) ->
    decr t (PIter (length (p ++ n ++ s)) q) = Ok (PIter (length p) n).
  Proof.
    intros Ht Hp Hn Hs Hpe Hr. unfold decr. rewrite (parsed_rne P Hw), rbind_ok, (parsed_fnot P), rbind_ok. cbn [pos].
    assert (Hn1 : 0 < length n) by (destruct (name_hd n Hn) as (? & ? & -> & _); simpl; lia).
    assert (Hlen : length (p ++ n ++ s) = length p + length n + length s) by (rewrite !app_length; lia).
    rewrite (proj2 (Nat.eqb_neq (length (p ++ n ++ s)) (length rn + length rd))) by lia. rewrite andb_false_r.
    rewrite (proj2 (Nat.eqb_neq (length (p ++ n ++ s)) (length rn))) by lia. rewrite andb_false_r.
    assert (Hlt : length t = length p + length n + length s + length r) by (rewrite Ht, !app_length; lia).
    assert (Hmagic : (if length (p ++ n ++ s) =? length t then (if length (p ++ n ++ s) =? 0 then UB else c <~ PathModel.rd t (length (p ++ n ++ s) - 1) ;; Ok (Is_slash c)) else Ok false) = Ok false).
    { destruct (length (p ++ n ++ s) =? length t) eqn:E; [|done]. apply Nat.eqb_eq in E. assert (r = []) by (destruct r; [done|simpl in Hlt; lia]).
      assert (s = []) as -> by (destruct s; [done|]; by destruct Hr). subst r. rewrite (proj2 (Nat.eqb_neq (length (p ++ n ++ [])) 0)) by lia.
      destruct n as [|c n _] using rev_ind; [simpl in Hn1; lia|]. rewrite !app_nil_r in *.
      replace (length (p ++ n ++ [c]) - 1) with (length (p ++ n)) by (rewrite !app_length; simpl; lia).
      rewrite (rd_app t (p ++ n) c []) by (rewrite Ht; by rewrite <-app_assoc). rewrite rbind_ok. f_equal. apply slash_nosep.
      destruct Hn as [_ Hn]. apply Forall_app in Hn as [_ Hn]. by apply list.Forall_cons in Hn as [? _]. }
    rewrite Hmagic, rbind_ok. clear Hmagic.
    pose proof (pa_text _ _ _ _ _ _ P) as Et.
    assert (Hpre : exists p', p = (rn ++ rd) ++ p').
    { exists (drop (length rn + length rd) p). rewrite <-(take_drop (length rn + length rd) p) at 1. f_equal.
      assert (Ht2 : take (length rn + length rd) t = rn ++ rd) by (rewrite Et, app_assoc; replace (length rn + length rd) with (length (rn ++ rd)) by (by rewrite app_length); apply take_app).
      rewrite <-Ht2, Ht. by rewrite take_app_le by lia. }
    destruct Hpre as [p' Hp']. rewrite <-(app_length rn rd).
    replace (length (p ++ n ++ s)) with (length (rn ++ rd) + length (p' ++ n) + length s) by (rewrite Hp', !app_length; lia).
    rewrite (back_ok Is_slash t (rn ++ rd) (p' ++ n) s r).
    - rewrite rbind_ok. rewrite (app_length p' n), Nat.add_assoc.
      rewrite (back_ok _ t (rn ++ rd) p' n (s ++ r)).
      + rewrite rbind_ok. rewrite (view_ok t p n (s ++ r)); [rewrite rbind_ok; do 2 f_equal; rewrite Hp', !app_length; lia|done|rewrite Hp', !app_length; lia|rewrite Hp', !app_length; lia].
      + rewrite Ht, Hp'. by rewrite <-!app_assoc.
      + destruct Hn as [_ Hn]. eapply list.Forall_impl; [exact Hn|]. intros c Hc. by apply not_nosep.
      + destruct p' as [|c p' _] using rev_ind; [by left|]. right. exists p', c. split; [done|].
        destruct Hpe as [Hpe|(p2 & c2 & Hp2 & Hc2)]; [rewrite Hp', !app_length in Hpe; simpl in Hpe; lia|].
        rewrite Hp', app_assoc in Hp2. apply app_inj_tail in Hp2 as [_ ->]. by rewrite (proj2 (slash_sep c2) Hc2).
    - rewrite Ht, Hp'. by rewrite <-!app_assoc.
    - by apply slash_all.
    - right. destruct n as [|c n _] using rev_ind; [simpl in Hn1; lia|]. exists (p' ++ n), c. split; [by rewrite app_assoc|].
      apply slash_nosep. destruct Hn as [_ Hn]. apply Forall_app in Hn as [_ Hn]. by apply list.Forall_cons in Hn as [? _].
  Qed.
  (** -- to the empty element after a trailing separator *)
  Lemma decr_magic p n s : t = p ++ n ++ s -> length rn + length rd <= length p -> name n -> seps s ->
    decr t (end_ t) = Ok (PIter (length t - 1) []).
  Proof.
    intros Ht Hp Hn Hs. unfold decr. rewrite (parsed_rne P Hw), rbind_ok, (parsed_fnot P), rbind_ok. cbn [pos end_].
    assert (Hn1 : 0 < length n) by (destruct (name_hd n Hn) as (? & ? & -> & _); simpl; lia).
    destruct (seps_last s Hs) as (s' & c & -> & Hc & _).
    assert (Hlt : length t = length p + length n + length s' + 1) by (rewrite Ht, !app_length; simpl; lia).
    rewrite (proj2 (Nat.eqb_neq (length t) (length rn + length rd))) by lia. rewrite andb_false_r.
    rewrite (proj2 (Nat.eqb_neq (length t) (length rn))) by lia. rewrite andb_false_r.
    rewrite Nat.eqb_refl, (proj2 (Nat.eqb_neq (length t) 0)) by lia.
    replace (length t - 1) with (length (p ++ n ++ s')) by (rewrite Hlt, !app_length; lia).
    rewrite (rd_app t (p ++ n ++ s') c []) by (rewrite Ht; by rewrite <-!app_assoc). rewrite rbind_ok, (proj2 (slash_sep c) Hc). done.
  Qed.

  Lemma rel_chain r ms u : Filenames r ms u -> r <> [] -> forall p, t = p ++ r -> length rn + length rd <= length p ->
    (length p = length rn + length rd \/ exists p' c, p = p' ++ [c] /\ sep c) ->
    exists its, chain t (its ++ [end_ t]) /\ elem <$> its = els ms u /\ head its = Some (PIter (length p) (default [] (head ms))).
  Proof.
    induction 1 as [|n Hn|n s Hn Hs|n s r m ms u Hn Hs H IH]; intros Hne p Ht Hp Hpe; [done|..].
    - exists [PIter (length p) n]. split; [|done]. simpl. split; [|split; [|split; [|done]]].
      + rewrite (incr_name p n []) by (rewrite ?app_nil_r; done). apply next_end. rewrite Ht. by rewrite app_length.
      + unfold end_. replace (length t) with (length (p ++ n ++ [])) by (rewrite app_nil_r; by rewrite Ht).
        apply (decr_name p n [] [] []); try done. rewrite !app_nil_r. done.
      + rewrite Ht, app_length. destruct (name_hd n Hn) as (? & ? & -> & _). simpl. lia.
    - exists [PIter (length p) n; PIter (length t - 1) []]. split; [|done]. simpl.
      assert (Hn1 : 0 < length n) by (destruct (name_hd n Hn) as (? & ? & -> & _); simpl; lia).
      destruct (seps_last s Hs) as (s' & c & Es & Hc & Hs').
      assert (Hlt : length t = length p + length n + length s' + 1) by (rewrite Ht, Es, !app_length; simpl; lia).
      split; [|split; [|split; [|split; [|split; [|split; [|done]]]]]].
      + rewrite (incr_name p n s) by done. replace (length p + length n) with (length (p ++ n)) by apply app_length.
        apply (next_magic (p ++ n) s); [|done]. rewrite Ht. by rewrite app_assoc.
      + replace (length t - 1) with (length (p ++ n ++ s')) by (rewrite !app_length; lia).
        apply (decr_name p n s' [c] []); try done. by rewrite Ht, Es.
      + lia.
      + apply (incr_magic (p ++ n ++ s') c); [rewrite Ht, Es; by rewrite <-!app_assoc|done|]. destruct n; [simpl in Hn1; lia|]. by destruct p.
      + by apply (decr_magic p n s).
      + lia.
    - assert (Hn1 : 0 < length n) by (destruct (name_hd n Hn) as (? & ? & -> & _); simpl; lia).
      assert (Hr : r <> []) by (intros ->; by apply Filenames_nil in H as [? _]).
      assert (Hm : exists r', r = m ++ r' /\ name m /\ (r' = [] \/ starts_with_sep r')).
      { inversion H as [|? Hm|? s2 Hm Hs2|? s2 r2 ? ? ? Hm Hs2]; subst.
        - exists []. rewrite app_nil_r. split; [done|]. split; [done|by left].
        - exists s2. split; [done|]. split; [done|]. right. destruct Hs2 as [Hz0 Hz2]. destruct s2 as [|c s2]; [done|]. exists c, s2. split; [done|]. by apply list.Forall_cons in Hz2 as [? _].
        - exists (s2 ++ r2). split; [done|]. split; [done|]. right. destruct Hs2 as [Hz0 Hz2]. destruct s2 as [|c s2]; [done|]. exists c, (s2 ++ r2). split; [done|]. by apply list.Forall_cons in Hz2 as [? _]. }
      destruct Hm as (r' & Er & Hm & Hr').
      destruct (IH Hr (p ++ n ++ s)) as (its & Hch & Hel & Hhd).
      + rewrite Ht. by rewrite <-!app_assoc.
      + rewrite app_length. lia.
      + right. destruct (seps_last s Hs) as (s' & c & -> & Hc & _). exists (p ++ n ++ s'), c. split; [by rewrite <-!app_assoc|done].
      + exists (PIter (length p) n :: its). split; [|split; [rewrite fmap_cons, Hel; done|done]].
        destruct its as [|i0 its]; [done|]. simpl in Hhd. injection Hhd as ->. change ((PIter (length p) n :: PIter (length (p ++ n ++ s)) (default [] (Some m)) :: its) ++ [end_ t]) with (PIter (length p) n :: PIter (length (p ++ n ++ s)) m :: (its ++ [end_ t])).
        split; [|split; [|split; [|exact Hch]]].
        * rewrite (incr_name p n (s ++ r)) by done. replace (length p + length n) with (length (p ++ n)) by apply app_length.
          rewrite (next_name (p ++ n) s m r'); [|rewrite Ht, Er; by rewrite <-!app_assoc|apply Hs|done|done]. do 2 f_equal. rewrite !app_length. lia.
        * by apply (decr_name p n s r m); [|lia|done|apply Hs| |].
        * cbn [pos]. rewrite !app_length. lia.
  Qed.

  Lemma begin_ok : exists its, begin t = Ok (default (end_ t) (head its)) /\ chain t (its ++ [end_ t]) /\ elem <$> its = elements rn rd ns tr.
  Proof.
    pose proof (pa_text _ _ _ _ _ _ P) as Et. pose proof (pa_names _ _ _ _ _ _ P) as F.
    (* iterators of the relative path *)
    assert (Hrel : exists its, chain t (its ++ [end_ t]) /\ elem <$> its = els ns tr /\
      ((rel = [] /\ its = []) \/ exists n r', rel = n ++ r' /\ name n /\ (r' = [] \/ starts_with_sep r') /\ head its = Some (PIter (length (rn ++ rd)) n))).
    { destruct (decide (rel = [])) as [Hr|Hr].
      - exists []. split; [done|]. split; [|by left]. rewrite Hr in F. apply Filenames_nil in F as [-> ->]. done.
      - destruct (rel_chain rel ns tr F Hr (rn ++ rd)) as (its & H1 & H2 & H3).
        + rewrite Et. by rewrite app_assoc.
        + by rewrite app_length.
        + left. by rewrite app_length.
        + exists its. split; [done|]. split; [done|]. right.
          inversion F as [|? Hm|? s2 Hm Hs2|? s2 r2 ? ? ? Hm Hs2]; subst; [done|..].
          * exists rel, []. rewrite app_nil_r. split; [done|]. split; [done|]. split; [by left|done].
          * exists n, s2. split; [done|]. split; [done|]. split; [|done]. right. destruct Hs2 as [Hx0 Hx2]. destruct s2 as [|c s2]; [done|]. exists c, s2. split; [done|]. by apply list.Forall_cons in Hx2 as [? _].
          * exists n, (s2 ++ r2). split; [done|]. split; [done|]. split; [|done]. right. destruct Hs2 as [Hx0 Hx2]. destruct s2 as [|c s2]; [done|]. exists c, (s2 ++ r2). split; [done|]. by apply list.Forall_cons in Hx2 as [? _]. }
    destruct Hrel as (its & Hch & Hel & Hhd).
    set (first := default (end_ t) (head its)).
    assert (Hfirst : pos first = length (rn ++ rd)).
    { unfold first. destruct Hhd as [[Hr ->]|(n & r' & _ & _ & _ & ->)]; [|done]. simpl. rewrite Et, Hr, app_nil_r. done. }
    assert (Hnext : next_filename t (length (rn ++ rd)) = Ok first).
    { unfold first. destruct Hhd as [[Hr ->]|(n & r' & Hr & Hn & Hr' & ->)].
      - apply next_end. rewrite Et, Hr, app_nil_r. done.
      - rewrite (next_name (rn ++ rd) [] n r'); [simpl; by rewrite Nat.add_0_r|rewrite Et, Hr; simpl; by rewrite <-app_assoc|done|done|done]. }
    assert (Hlrr : length (rn ++ rd) = length rn + length rd) by apply app_length.
    (* prepend the root directory *)
    assert (Hdir : exists its2, chain t (its2 ++ [end_ t]) /\ elem <$> its2 = opt rd ++ els ns tr /\
      (rd = [] /\ its2 = its \/ rd <> [] /\ head its2 = Some (PIter (length rn) rd))).
    { destruct (decide (rd = [])) as [Hd|Hd].
      - exists its. split; [done|]. split; [rewrite Hd; done|]. by left.
      - exists (PIter (length rn) rd :: its). split; [|split; [rewrite fmap_cons, Hel; by destruct rd|by right]].
        assert (Hgoal : incr t (PIter (length rn) rd) = Ok first /\ decr t first = Ok (PIter (length rn) rd) /\ length rn < pos first).
        { assert (Hd1 : 0 < length rd) by (destruct rd; [done|simpl; lia]). split; [|split; [|lia]].
          - unfold incr. cbn [pos elem]. destruct (length rn =? 0) eqn:E0.
            + apply Nat.eqb_eq in E0. rewrite (parsed_rne P Hw), rbind_ok, (parsed_fnot P), rbind_ok. rewrite E0. simpl.
              rewrite <-Hnext. f_equal. lia.
            + pose proof (pa_dir _ _ _ _ _ _ P) as Hdd. destruct rd as [|c rd0] eqn:Erd; [done|]. apply list.Forall_cons in Hdd as [Hc _].
              rewrite (rd_app t rn c (rd0 ++ rel)) by done. rewrite rbind_ok, (proj2 (slash_sep c) Hc). cbn [length Nat.eqb]. rewrite <-Hnext. f_equal. simpl in Hlrr. lia.
          - unfold decr. rewrite (parsed_rne P Hw), rbind_ok, (parsed_fnot P), rbind_ok. rewrite Hfirst, Hlrr, Nat.eqb_refl.
            rewrite (proj2 (Nat.eqb_neq (length rn) _)) by lia. cbn [negb andb].
            rewrite (view_ok t rn rd rel) by done. done. }
        destruct Hgoal as (G1 & G2 & G3). unfold first in *. destruct its as [|i0 its]; simpl in *; [done|]. split; [done|]. split; [done|]. split; done. }
    destruct Hdir as (its2 & Hch2 & Hel2 & Hhd2).
    destruct (decide (rn = [])) as [Hrn|Hrn].
    - exists its2. split; [|split; [done|]].
      + unfold begin. rewrite (parsed_rne P Hw), rbind_ok. rewrite Hrn in *. cbn [length Nat.eqb].
        pose proof (parsed_fnot P) as Hfn. cbn [length] in Hfn. rewrite Hfn, rbind_ok. simpl in Hlrr, Et. simpl Nat.add.
        destruct Hhd2 as [[Hd ->]|[Hd ->]].
        * rewrite Hd in *. cbn [length Nat.eqb]. fold first. destruct Hhd as [[Hr Hi]|(n & r' & Hr & Hn & Hr' & Hi)].
          -- unfold first. rewrite Hi. rewrite Et, Hr. done.
          -- unfold first. rewrite Hi. pose proof (find_name t [] n r' ltac:(by rewrite Et, Hr) (proj2 Hn) Hr') as Hfi. cbn [length] in Hfi. rewrite Hfi, rbind_ok.
             rewrite (view_ok t [] n r'); [done|by rewrite Et, Hr|done|done].
        * rewrite (proj2 (Nat.eqb_neq _ _)) by (destruct rd; [done|simpl; lia]). rewrite rbind_ok.
          rewrite (view_ok t [] rd rel) by done. done.
      + rewrite Hel2, Hrn. done.
    - exists (PIter 0 rn :: its2). split; [|split].
      + unfold begin. rewrite (parsed_rne P Hw), rbind_ok. rewrite (proj2 (Nat.eqb_neq _ _)) by (destruct rn; [done|simpl; lia]).
        rewrite rbind_ok. rewrite (view_ok t [] rn (rd ++ rel)) by done. done.
      + set (second := default (end_ t) (head its2)).
        assert (Hgoal : incr t (PIter 0 rn) = Ok second /\ decr t second = Ok (PIter 0 rn) /\ 0 < pos second).
        { assert (Hn1 : 0 < length rn) by (destruct rn; [done|simpl; lia]).
          assert (Hsec : pos second = length rn).
          { unfold second. destruct Hhd2 as [[Hd ->]|[Hd ->]]; [|done]. fold first. rewrite Hfirst, Hd, app_nil_r. done. }
          split; [|split; [|lia]].
          - unfold incr. cbn [pos elem Nat.eqb]. rewrite (parsed_rne P Hw), rbind_ok, (parsed_fnot P), rbind_ok.
            rewrite (proj2 (Nat.eqb_neq (length rn) 0)) by lia. cbn [negb andb]. unfold second. destruct Hhd2 as [[Hd ->]|[Hd ->]].
            + rewrite Hd. simpl. rewrite Nat.add_0_r, Nat.eqb_refl. cbn [negb]. fold first. rewrite <-Hnext, Hd, app_nil_r. done.
            + rewrite (proj2 (Nat.eqb_neq (length rn) _)) by (destruct rd; [done|simpl; lia]). cbn [negb].
              rewrite (view_ok t rn rd rel) by done. done.
          - unfold decr. rewrite (parsed_rne P Hw), rbind_ok, (parsed_fnot P), rbind_ok. rewrite Hsec.
            assert (Hc : negb (length rn =? length rn + length rd) && (length rn =? length rn + length rd) = false) by (by destruct (length rn =? _)).
            rewrite Hc. rewrite (proj2 (Nat.eqb_neq (length rn) 0)) by lia. rewrite Nat.eqb_refl. cbn [negb andb].
            rewrite (view_ok t [] rn (rd ++ rel)) by done. done. }
        destruct Hgoal as (G1 & G2 & G3). unfold second in *. destruct its2 as [|i0 its2]; simpl in *; [done|]. split; [done|]. split; [done|]. split; done.
      + rewrite fmap_cons, Hel2. unfold elements, els. destruct rn; done.
  Qed.
End iter.
