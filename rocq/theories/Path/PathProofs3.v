(** Extension, operator/= and operator/. *)
From stdpp Require Import base list numbers.
From Coq Require Import ZArith Lia.
From Verif Require Import Base.Res Path.PathModel Path.PathSpec Path.PathProofs Path.PathProofs2.
Local Open Scope nat_scope.

Lemma no_dot_split (m : text) : (~ 46%Z ∈ m) \/ exists m1 m2, m = m1 ++ 46%Z :: m2 /\ ~ 46%Z ∈ m2.
Proof.
  induction m as [|c m IH]; [left; by intros ?%elem_of_nil|]. destruct IH as [IH|(m1 & m2 & -> & Hm2)].
  - destruct (decide (c = 46%Z)) as [->|Hc]; [right; by exists [], m|]. left. by intros [?|?]%elem_of_cons.
  - right. by exists (c :: m1), m2.
Qed.

(** [m] is still to be scanned from its end; the scanned part [m'] has no dot *)
Lemma Find_extension_loop_ok t a c0 m m' r ads : t = a ++ c0 :: m ++ m' ++ r ->
  (~ 46%Z ∈ m -> Find_extension_loop (S (length m)) t (length a) (length a + S (length m)) ads = Ok ads) /\
  (forall m1 m2, m = m1 ++ 46%Z :: m2 -> ~ 46%Z ∈ m2 ->
    Find_extension_loop (S (length m)) t (length a) (length a + S (length m)) ads = Ok (length a + S (length m1))).
Proof.
  intros Ht. revert m' Ht. induction m as [|c m IH] using rev_ind; intros m' Ht; split.
  - intros _. simpl. replace (length a + 1 - 1) with (length a) by lia. by rewrite Nat.eqb_refl.
  - intros [|? ?] m2; done.
  - intros Hn. rewrite app_length. cbn [length]. rewrite Nat.add_1_r. cbn [Find_extension_loop].
    replace (length a + S (S (length m)) - 1) with (length (a ++ c0 :: m)) by (rewrite app_length; simpl; lia).
    rewrite (proj2 (Nat.eqb_neq _ _)) by (rewrite app_length; simpl; lia).
    rewrite (rd_app t _ c (m' ++ r)) by (rewrite Ht; simpl; by rewrite <-!app_assoc). rewrite rbind_ok.
    rewrite (proj2 (Z.eqb_neq c 46)) by (intros ->; apply Hn; apply elem_of_app; right; by constructor).
    rewrite app_length. cbn [length]. apply (IH (c :: m')); [rewrite Ht; by rewrite <-!app_assoc|].
    intros Hin. apply Hn, elem_of_app. by left.
  - intros m1 m2 Hm Hm2. rewrite app_length. cbn [length]. rewrite Nat.add_1_r. cbn [Find_extension_loop].
    replace (length a + S (S (length m)) - 1) with (length (a ++ c0 :: m)) by (rewrite app_length; simpl; lia).
    rewrite (proj2 (Nat.eqb_neq _ _)) by (rewrite app_length; simpl; lia).
    rewrite (rd_app t _ c (m' ++ r)) by (rewrite Ht; simpl; by rewrite <-!app_assoc). rewrite rbind_ok.
    destruct m2 as [|x m2 _] using rev_ind.
    + apply app_inj_tail in Hm as [-> ->]. rewrite Z.eqb_refl. rewrite app_length. simpl. done.
    + rewrite app_comm_cons, app_assoc in Hm. apply app_inj_tail in Hm as [-> ->].
      rewrite (proj2 (Z.eqb_neq x 46)) by (intros ->; apply Hm2; apply elem_of_app; right; by constructor).
      rewrite (app_length a). cbn [length]. eapply (IH (x :: m')); [rewrite Ht; by rewrite <-!app_assoc|done|].
      intros Hin. apply Hm2, elem_of_app. by left.
Qed.
Lemma Find_extension_ok t a core r : t = a ++ core ++ r ->
  exists st ex, Extension core st ex /\ Find_extension t (length a) (length a + length core) = Ok (length a + length st).
Proof.
  intros Ht. unfold Find_extension. rewrite (proj2 (Nat.ltb_ge _ _)) by lia.
  destruct core as [|c0 core].
  { exists [], []. split; [split; [done|left; split; [done|right; done]]|]. simpl. rewrite Nat.add_0_r, Nat.eqb_refl. done. }
  rewrite (proj2 (Nat.eqb_neq _ _)) by (simpl; lia).
  destruct core as [|c core _] using rev_ind.
  { exists [c0], []. split.
    - split; [done|]. left. split; [done|]. right. intros c r0 [= <- <-]. by intros ?%elem_of_nil.
    - simpl. replace (length a + 1 - 1) with (length a) by lia. by rewrite Nat.eqb_refl. }
  cbn [length]. rewrite app_length. cbn [length].
  rewrite (proj2 (Nat.eqb_neq _ _)) by (simpl; lia).
  replace (length a + S (length core + 1) - 1) with (length (a ++ c0 :: core)) by (rewrite app_length; simpl; lia).
  rewrite (rd_app t _ c r) by (rewrite Ht; simpl; by rewrite <-!app_assoc). rewrite rbind_ok.
  destruct (c =? 46)%Z eqn:Ec.
  - apply Z.eqb_eq in Ec as ->. destruct core as [|c1 core].
    + replace (length (a ++ [c0]) - 1) with (length a) by (rewrite app_length; simpl; lia). rewrite Nat.eqb_refl.
      rewrite (rd_app t a c0 (46%Z :: r)) by (rewrite Ht; done). rewrite !rbind_ok. destruct (c0 =? 46)%Z eqn:E0.
      * apply Z.eqb_eq in E0 as ->. exists [46%Z; 46%Z], []. split; [split; [done|left; split; [done|by left]]|]. simpl. done.
      * exists [c0], [46%Z]. split; [|rewrite app_length; done]. split; [done|]. right.
        split; [intros [= ->]; done|]. split; [done|]. exists []. split; [done|]. by intros ?%elem_of_nil.
    + rewrite (proj2 (Nat.eqb_neq _ _)) by (rewrite app_length; simpl; lia). rewrite rbind_ok.
      exists (c0 :: c1 :: core), [46%Z]. split; [|rewrite app_length; done]. split; [done|]. right.
      split; [by destruct core|]. split; [done|]. exists []. split; [done|]. by intros ?%elem_of_nil.
  - apply Z.eqb_neq in Ec.
    replace (length (a ++ c0 :: core) - length a) with (S (length core)) by (rewrite app_length; simpl; lia).
    rewrite app_length. cbn [length].
    destruct (Find_extension_loop_ok t a c0 core [c] r (length a + S (length core + 1))) as [Hno Hyes].
    { rewrite Ht. simpl. by rewrite <-!app_assoc. }
    destruct (no_dot_split core) as [Hnd|(m1 & m2 & Hm & Hm2)].
    + rewrite Hno by done. exists (c0 :: core ++ [c]), []. split; [|simpl; rewrite app_length; done].
      split; [by rewrite app_nil_r|]. left. split; [done|]. right. intros x y [= <- <-] [?|Hx]%elem_of_app; [done|].
      by apply elem_of_list_singleton in Hx.
    + rewrite (Hyes m1 m2) by done. exists (c0 :: m1), (46%Z :: m2 ++ [c]). split; [|done]. split; [rewrite Hm; simpl; by rewrite <-app_assoc|].
      right. split; [|split; [done|]].
      * intros [= -> He]. destruct core; [by destruct m1|]. destruct core; done.
      * exists (m2 ++ [c]). split; [done|]. intros [?|Hx]%elem_of_app; [done|]. by apply elem_of_list_singleton in Hx.
Qed.

Section parsed.
  Context {t rn rd rel : text} {ns : list text} {tr : bool} (P : Parsed t rn rd rel ns tr) (Hw : wide t).
  Lemma split_filename_ok dirs f : rel = dirs ++ f -> Forall (fun c => ~ sep c) f -> (dirs = [] \/ exists d c, dirs = d ++ [c] /\ sep c) ->
    exists st ex ads, f = st ++ ex ++ ads /\ ~ 58%Z ∈ st ++ ex /\ (ads = [] \/ exists r, ads = 58%Z :: r) /\ Extension (st ++ ex) st ex /\
      split_filename t = Ok (length rn + length rd + length dirs, length rn + length rd + length dirs + length st,
                             length rn + length rd + length dirs + length st + length ex).
  Proof.
    intros Hrel Hf Hd. unfold split_filename. rewrite (Find_filename_ok P Hw dirs f) by done. rewrite rbind_ok.
    set (p := fun c => negb (c =? 58)%Z). pose proof (pre_post p f) as Epp. set (core := pre p f) in *. set (ads := post p f) in *.
    assert (Ht : t = (rn ++ rd ++ dirs) ++ core ++ ads) by (rewrite (pa_text _ _ _ _ _ _ P), Hrel, <-Epp; by rewrite <-!app_assoc).
    assert (Hl : length rn + length rd + length dirs = length (rn ++ rd ++ dirs)) by (rewrite !app_length; lia). rewrite Hl.
    rewrite (find_if_pre _ t _ (core ++ ads)) by done. rewrite rbind_ok. rewrite Epp. fold p. fold core.
    destruct (Find_extension_ok t (rn ++ rd ++ dirs) core ads Ht) as (st & ex & Hex & He). rewrite He, rbind_ok.
    exists st, ex, ads. pose proof Hex as [Hc _]. split; [rewrite app_assoc, <-Hc; done|]. split; [|split; [|split]].
    - rewrite <-Hc. intros Hin. pose proof (pre_all p f) as Ha. rewrite list.Forall_forall in Ha. specialize (Ha _ Hin). done.
    - pose proof (post_stops p f) as Hs. fold ads in Hs. destruct ads as [|x ads']; [by left|]. right. exists ads'. f_equal.
      simpl in Hs. unfold p in Hs. apply negb_false_iff, Z.eqb_eq in Hs. done.
    - by rewrite <-Hc.
    - do 2 f_equal. rewrite Hc, (app_length st ex). lia.
  Qed.
  Lemma stem_extension_ok f : filename t = Ok f ->
    exists st ex ads, f = st ++ ex ++ ads /\ ~ 58%Z ∈ st ++ ex /\ (ads = [] \/ exists r, ads = 58%Z :: r) /\ Extension (st ++ ex) st ex /\
      stem t = Ok st /\ extension t = Ok ex.
  Proof.
    destruct (rel_split (rel := rel)) as (dirs & f' & Hrel & Hf & Hd). rewrite (filename_ok P Hw dirs f') by done. intros [= <-].
    destruct (split_filename_ok dirs f' Hrel Hf Hd) as (st & ex & ads & Hfe & Hcol & Hads & Hex & He).
    exists st, ex, ads. split; [done|]. split; [done|]. split; [done|]. split; [done|].
    unfold stem, extension. rewrite He, !rbind_ok. split.
    - apply (view_ok t (rn ++ rd ++ dirs) st (ex ++ ads)); [|rewrite !app_length; lia|rewrite !app_length; lia].
      rewrite (pa_text _ _ _ _ _ _ P), Hrel, Hfe. by rewrite <-!app_assoc.
    - apply (view_ok t (rn ++ rd ++ dirs ++ st) ex ads); [|rewrite !app_length; lia|rewrite !app_length; lia].
      rewrite (pa_text _ _ _ _ _ _ P), Hrel, Hfe. by rewrite <-!app_assoc.
  Qed.
End parsed.

(** comparison of texts *)
Lemma range_compare_lex a b : range_compare a b = cmp_text a b.
Proof.
  unfold cmp_text. revert b. induction a as [|x a IH]; intros [|y b]; simpl; try done. rewrite IH. unfold cmpZ.
  destruct (x <? y)%Z eqn:E1; [apply Z.ltb_lt in E1; rewrite (Z.sgn_neg (x - y)) by lia; done|].
  destruct (y <? x)%Z eqn:E2; [apply Z.ltb_lt in E2; rewrite (Z.sgn_pos (x - y)) by lia; done|].
  apply Z.ltb_ge in E1, E2. replace (x - y)%Z with 0%Z by lia. done.
Qed.
Lemma cmpZ_refl x : cmpZ x x = 0%Z.
Proof. unfold cmpZ. by rewrite Z.sub_diag. Qed.
Lemma cmpZ_eq x y : cmpZ x y = 0%Z -> x = y.
Proof. unfold cmpZ. intros H. apply Z.sgn_null_iff in H. lia. Qed.
Lemma lex_eq {A} (cmp : A -> A -> Z) : (forall x y, cmp x y = 0%Z -> x = y) -> forall a b, lex cmp a b = 0%Z -> a = b.
Proof.
  intros Hc. induction a as [|x a IH]; intros [|y b]; simpl; try done.
  destruct (cmp x y =? 0)%Z eqn:E; [|intros H; by rewrite H in E].
  apply Z.eqb_eq, Hc in E as ->. by intros ->%IH.
Qed.
Lemma lex_refl {A} (cmp : A -> A -> Z) : (forall x, cmp x x = 0%Z) -> forall a, lex cmp a a = 0%Z.
Proof. intros Hc. induction a as [|x a IH]; simpl; [done|]. rewrite Hc. simpl. done. Qed.
Lemma cmp_text_eq a b : cmp_text a b = 0%Z <-> a = b.
Proof. split; [apply lex_eq, cmpZ_eq|intros ->; apply lex_refl, cmpZ_refl]. Qed.

(** the filename according to the list of names *)
Lemma Filenames_last rel ns tr : Filenames rel ns tr -> exists dirs f, rel = dirs ++ f /\ Forall (fun c => ~ sep c) f /\
  (dirs = [] \/ exists d c, dirs = d ++ [c] /\ sep c) /\ (f = if tr then [] else default [] (list.last ns)) /\
  (f = [] <-> tr = true \/ ns = []).
Proof.
  induction 1 as [|n [Hn0 Hn]|n s [Hn0 Hn] [Hs0 Hs]|n s r m ns tr [Hn0 Hn] [Hs0 Hs] H IH].
  - exists [], []. split; [done|]. split; [done|]. split; [by left|]. split; [done|]. tauto.
  - exists [], n. split; [done|]. split; [done|]. split; [by left|]. split; [done|]. split; [done|]. by intros [?|?].
  - exists (n ++ s), []. split; [by rewrite app_nil_r|]. split; [done|]. split; [|split; [done|tauto]]. right.
    destruct s as [|c s _] using rev_ind; [done|]. exists (n ++ s), c. split; [by rewrite app_assoc|].
    apply Forall_app in Hs as [_ Hs]. by apply list.Forall_cons in Hs as [? _].
  - destruct IH as (dirs & f & -> & Hf & Hd & Hfe & Hiff). exists (n ++ s ++ dirs), f. split; [by rewrite <-!app_assoc|]. split; [done|].
    split; [|split; [|split; [|by intros [->|?]; [apply Hiff; by left|]]]].
    + right. destruct Hd as [->|(d & c & -> & Hc)].
      * destruct s as [|c s _] using rev_ind; [done|]. exists (n ++ s), c. split; [by rewrite app_nil_r, app_assoc|].
        apply Forall_app in Hs as [_ Hs]. by apply list.Forall_cons in Hs as [? _].
      * exists (n ++ s ++ d), c. split; [by rewrite <-!app_assoc|done].
    + rewrite Hfe. by destruct tr.
    + intros [?|?]%Hiff; [by left|done].
Qed.

Lemma append_ok t rn rd rel ns tr o rn' rd' rel' ns' tr' : wide t -> wide o -> Parsed t rn rd rel ns tr -> Parsed o rn' rd' rel' ns' tr' ->
  append t o = Ok (append_spec t rn rd ns tr o rn' rd' rel').
Proof.
  intros Ht Ho P P'. unfold append, append_spec. rewrite (is_absolute_ok P' Ho), rbind_ok. fold (absolute rn' rd').
  destruct (absolute rn' rd') eqn:Ea; [done|]. rewrite (parsed_rne P Ht), rbind_ok, (parsed_rne P' Ho), rbind_ok.
  rewrite range_compare_lex. pose proof (pa_text _ _ _ _ _ _ P) as Et. pose proof (pa_text _ _ _ _ _ _ P') as Eo.
  assert (E1 : take (length rn) t = rn) by (rewrite Et; apply take_app).
  assert (E2 : take (length rn') o = rn') by (rewrite Eo; apply take_app).
  assert (E3 : drop (length rn') o = rd' ++ rel') by (rewrite Eo; apply drop_app).
  rewrite E1, E2, E3. simpl orb.
  assert (Hc : negb (length rn' =? 0) && negb (cmp_text rn rn' =? 0)%Z = nonempty rn' && bool_decide (rn' <> rn)).
  { f_equal; [by destruct rn'|]. destruct (decide (rn' = rn)) as [->|Hne].
    - rewrite bool_decide_false by tauto. by rewrite (proj2 (cmp_text_eq rn rn)).
    - rewrite bool_decide_true by done. apply negb_true_iff, Z.eqb_neq. by intros ?%cmp_text_eq. }
  rewrite Hc. clear Hc. destruct (nonempty rn' && bool_decide (rn' <> rn)); [done|].
  assert (Hs : (if length rn' =? length o then Ok false else c <~ PathModel.rd o (length rn') ;; Ok (Is_slash c)) = Ok (nonempty rd')).
  { destruct rd' as [|x rd'].
    - destruct rel' as [|y rel'].
      + rewrite Eo, !app_nil_r, Nat.eqb_refl. done.
      + rewrite (proj2 (Nat.eqb_neq _ _)) by (rewrite Eo, !app_length; simpl; lia).
        rewrite (rd_app o rn' y rel') by done. rewrite rbind_ok. f_equal. apply slash_nosep. intros Hy.
        apply (pa_rel _ _ _ _ _ _ P'). by exists y, rel'.
    - rewrite (proj2 (Nat.eqb_neq _ _)) by (rewrite Eo, !app_length; simpl; lia).
      rewrite (rd_app o rn' x (rd' ++ rel')) by done. rewrite rbind_ok. f_equal. apply slash_sep.
      pose proof (pa_dir _ _ _ _ _ _ P') as Hd. by apply list.Forall_cons in Hd as [? _]. }
  rewrite Hs, rbind_ok. destruct rd' as [|x rd'']; cbn [nonempty]; [|done]. rewrite !(app_nil_l rel').
  destruct (length rn =? length t) eqn:El.
  - apply Nat.eqb_eq in El. rewrite (parsed_len P) in El. assert (rd = [] /\ rel = []) as [-> ->].
    { destruct rd; [|simpl in El; lia]. destruct rel; [done|simpl in El; lia]. }
    assert (Hns : ns = []) by (pose proof (pa_names _ _ _ _ _ _ P) as F; inversion F as [|? [? _]|? ? [? _]|? ? ? ? ? ? [? _]]; subst; try done; by destruct n).
    rewrite Hns. cbn [nonempty negb]. rewrite andb_false_r, orb_false_r. simpl andb. unfold absolute.
    destruct (3 <=? length rn) eqn:E3'.
    + apply Nat.leb_le in E3'. rewrite (proj2 (Nat.eqb_neq _ _)) by lia. destruct rn; [simpl in E3'; lia|done].
    + apply Nat.leb_gt in E3'. destruct (length rn =? 2) eqn:E2'; [done|]. destruct rn as [|a rn0] eqn:Ern; [done|]. exfalso.
      apply Nat.eqb_neq in E2'. destruct (pa_root _ _ _ _ _ _ P) as [Hr|[? _]]; [|done]. inversion Hr; subst; simpl in *; lia.
  - apply Nat.eqb_neq in El. destruct (Filenames_last _ _ _ (pa_names _ _ _ _ _ _ P)) as (dirs & f & Hrel & Hf & Hd & _ & Hfe).
    assert (Hlast : exists a c, t = a ++ [c] /\ (sep c <-> f = [])).
    { destruct f as [|c f _] using rev_ind.
      - rewrite app_nil_r in Hrel. destruct Hd as [->|(d & c & -> & Hc)].
        + subst rel. destruct rd as [|c rd _] using rev_ind; [exfalso; apply El; rewrite (parsed_len P); simpl; lia|].
          exists (rn ++ rd), c. split; [rewrite Et, app_nil_r; by rewrite app_assoc|]. split; [done|]. intros _.
          pose proof (pa_dir _ _ _ _ _ _ P) as Hdd. apply Forall_app in Hdd as [_ Hdd]. by apply list.Forall_cons in Hdd as [? _].
        + exists (rn ++ rd ++ d), c. split; [rewrite Et, Hrel; by rewrite <-!app_assoc|]. done.
      - exists (rn ++ rd ++ dirs ++ f), c. split; [rewrite Et, Hrel; by rewrite <-!app_assoc|]. apply Forall_app in Hf as [_ Hf].
        apply list.Forall_cons in Hf as [Hc _]. split; [done|]. intros He. by destruct f. }
    destruct Hlast as (a & c & Ha & Hc). 
    replace (length t - 1) with (length a) by (rewrite Ha, app_length; simpl; lia).
    rewrite (rd_app t a c []) by done. rewrite rbind_ok.
    assert (Hroot : negb (nonempty rd) && absolute rn rd = true -> rel = []).
    { intros [Hrd Hab]%andb_true_iff. destruct rd; [|done]. unfold absolute in Hab. destruct (length rn =? 2) eqn:E2'; [done|].
      destruct (pa_root _ _ _ _ _ _ P) as [Hr|[-> _]]; [|done]. simpl in Hr. destruct rel as [|y rel0]; [done|]. exfalso.
      apply (pa_rel _ _ _ _ _ _ P). inversion Hr; subst.
      - simpl in E2'. done.
      - by exists y, rel0.
      - match goal with H : _ \/ starts_with_sep _ |- _ => destruct H; done end. }
    assert (Hfn : (negb tr && match ns with [] => false | _ => true end) = true <-> f <> []).
    { rewrite Hfe. destruct tr; simpl; [split; [done|intros H; exfalso; apply H; by left]|]. destruct ns; [split; [done|intros H; exfalso; apply H; by right]|].
      split; [|done]. intros _ [?|?]; done. }
    destruct (Is_slash c) eqn:Esc; cbn [negb].
    + apply slash_sep, Hc in Esc. destruct (negb tr && _) eqn:Eb; [exfalso; by apply Hfn|]. rewrite orb_false_r.
      destruct (negb (nonempty rd) && absolute rn rd) eqn:Er; [|done]. exfalso. specialize (Hroot eq_refl). subst rel.
      apply andb_true_iff in Er as [Er _]. destruct rd; [|done]. apply El. rewrite (parsed_len P), Hroot. simpl. lia.
    + apply slash_nosep in Esc. rewrite (proj2 Hfn) by (intros ->; apply Esc; by apply Hc). rewrite orb_true_r. done.
Qed.
