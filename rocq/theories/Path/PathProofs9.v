(** lexically_normal: meaning, normal form, idempotence. *)
From stdpp Require Import base list numbers relations.
From Coq Require Import ZArith Lia.
From Verif Require Import Base.Res Path.PathModel Path.PathSpec Path.PathProofs Path.PathProofs2 Path.PathProofs3 Path.PathProofs4 Path.PathProofs5 Path.PathProofs6 Path.PathProofs7 Path.PathProofs8.
Local Open Scope nat_scope.

Lemma resolve_app d a b : resolve d (a ++ b) = resolve (resolve d a) b.
Proof. unfold resolve. by rewrite fold_left_app. Qed.
Lemma resolve_normal d n : n <> dot -> n <> dotdot -> resolve d [n] = d ++ [n].
Proof. intros. unfold resolve. cbn [fold_left]. unfold go. by rewrite !bool_decide_false. Qed.
Lemma red_resolve root ns tr : forall d kept, (root = true -> d = []) -> shape root kept -> Forall (fun n => n <> dot) kept ->
  resolve d (red root kept ns tr).1 = resolve d (kept ++ ns).
Proof.
  induction ns as [|n ns IH]; intros d kept Hd Hk Hdot; [by rewrite app_nil_r|]. cbn [red].
  set (fin := match ns with [] => negb tr | _ => false end).
  assert (Hfin : fin = true -> ns = []) by (unfold fin; by destruct ns). clearbody fin.
  assert (Hsplit : resolve d (kept ++ n :: ns) = resolve (resolve d (kept ++ [n])) ns).
  { rewrite <-resolve_app. by rewrite <-app_assoc. }
  assert (Hstep : forall kept', shape root kept' -> Forall (fun n => n <> dot) kept' -> resolve d kept' = resolve d (kept ++ [n]) ->
    resolve d (red root kept' ns tr).1 = resolve d (kept ++ n :: ns)).
  { intros kept' H1 H2 H3. rewrite IH by done. rewrite resolve_app, H3. by rewrite Hsplit. }
  assert (Hend : fin = true -> resolve d (kept ++ n :: ns) = resolve d (kept ++ [n])) by (intros ->%Hfin; done).
  destruct (bool_decide (n = dot)) eqn:E1.
  { apply bool_decide_eq_true in E1 as ->.
    assert (Hs : resolve d kept = resolve d (kept ++ [dot])) by (by rewrite resolve_app).
    destruct fin; [by rewrite Hend|by apply Hstep]. }
  apply bool_decide_eq_false in E1.
  assert (Hdot' : Forall (fun n => n <> dot) (kept ++ [n])) by (apply list.Forall_app; split; [done|by repeat constructor]).
  destruct (negb (bool_decide (n = dotdot))) eqn:E2.
  { apply negb_true_iff, bool_decide_eq_false in E2. destruct fin; [by rewrite Hend|]. apply Hstep; [by apply shape_snoc|done|done]. }
  apply negb_false_iff, bool_decide_eq_true in E2. subst n.
  assert (Hup : forall a, resolve d (a ++ [dotdot]) = removelast (resolve d a)) by (intros; by rewrite resolve_app).
  destruct (removable kept) eqn:Er.
  { pose proof (shape_removelast _ _ Hk) as Hk'. destruct (removable_spec kept Er) as (k & m & -> & Hm & Erl). rewrite Erl in *.
    apply list.Forall_app in Hdot as [Hk2 Hmd]. apply list.Forall_cons in Hmd as [Hmd _].
    assert (Hs : resolve d k = resolve d ((k ++ [m]) ++ [dotdot])).
    { rewrite Hup, resolve_app, resolve_normal, removelast_snoc by done. done. }
    destruct fin; [by rewrite Hend|by apply Hstep]. }
  destruct root; cbn [negb].
  { destruct (shape_dots _ _ Hk Er) as (i & -> & Hi). rewrite (Hi eq_refl) in *. rewrite (Hd eq_refl) in *.
    destruct fin; [by rewrite Hend|]. by apply Hstep. }
  destruct (shape_dots _ _ Hk Er) as (i & -> & _).
  assert (Hs : shape false (replicate i dotdot ++ [dotdot])).
  { exists (S i), []. rewrite replicate_S_end, app_nil_r. done. }
  destruct fin; [by rewrite Hend|by apply Hstep].
Qed.
Lemma nf_resolve root ns tr d : (root = true -> d = []) -> resolve d (nf root ns tr).1 = resolve d ns.
Proof. intros Hd. unfold nf. cbn [fst]. apply red_resolve; [done|by exists 0, []|by constructor]. Qed.

Lemma red_nodots root ns tr : Forall (fun n => n <> dot) (red root [] ns tr).1.
Proof.
  rewrite red_nodot. apply list.Forall_forall. intros x [Hx|Hx]%red_mem; [by apply elem_of_nil in Hx|]. by apply nodot_mem in Hx as [].
Qed.
(** what the normal form looks like *)
Lemma nf_shape root ns tr : exists i nn, (nf root ns tr).1 = replicate i dotdot ++ nn /\ Forall (fun n => n <> dot /\ n <> dotdot) nn /\
  (root = true -> i = 0) /\ ((nf root ns tr).2 = true -> list.last (nf root ns tr).1 <> Some dotdot).
Proof.
  unfold nf. cbn [fst snd]. destruct (red_shape root ns tr [] ltac:(by exists 0, [])) as (i & nn & E & Hnn & Hr).
  pose proof (red_nodots root ns tr) as Hnd. exists i, nn. split; [done|]. split; [|split; [done|]].
  - rewrite E in Hnd. apply list.Forall_app in Hnd as [_ Hnd]. by apply list.Forall_and.
  - intros [_ H]%andb_true_iff. by apply negb_true_iff, bool_decide_eq_false in H.
Qed.

(** the text of the result decomposes into the filenames of the result *)
Lemma Filenames_names rel ns tr : Filenames rel ns tr -> Forall name ns.
Proof.
  induction 1 as [|n Hn|n s Hn Hs|n s r m ns tr Hn Hs H IH].
  - apply list.Forall_nil. done.
  - apply list.Forall_cons. split; [done|]. by apply list.Forall_nil.
  - apply list.Forall_cons. split; [done|]. by apply list.Forall_nil.
  - apply list.Forall_cons. done.
Qed.
Lemma spell_cons n v : n <> [] -> spell (n :: v) = n ++ spell v.
Proof. intros. unfold spell. rewrite fmap_cons. by destruct n. Qed.
Lemma spell_sep v : spell ([] :: v) = 92%Z :: spell v.
Proof. done. Qed.
Lemma seps1 : seps [92%Z].
Proof. split; [done|]. apply list.Forall_cons. split; [by right|]. by apply list.Forall_nil. Qed.
Lemma Filenames_spell ks b : Forall name ks -> Filenames (spell (tokens ks b)) ks (b && bool_decide (ks <> [])).
Proof.
  induction 1 as [|k ks Hk Hks IH]; [rewrite bool_decide_false by (by intros []); rewrite andb_false_r; constructor|].
  rewrite bool_decide_true, andb_true_r by done. destruct ks as [|m ks].
  - cbn [tokens]. rewrite spell_cons by apply Hk. destruct b.
    + apply F_dir; [done|apply seps1].
    + change (spell []) with (@nil Z). rewrite app_nil_r. by apply F_last.
  - rewrite bool_decide_true, andb_true_r in IH by done. rewrite tokens_cons by done. rewrite spell_cons by apply Hk. rewrite spell_sep.
    apply (F_cons k [92%Z]); [done|apply seps1|done].
Qed.
Lemma nf_names root ns tr : Forall name ns -> Forall name (nf root ns tr).1.
Proof. intros H. rewrite list.Forall_forall in H |- *. unfold nf. cbn [fst]. intros x [Hx|Hx]%red_mem; [by apply elem_of_nil in Hx|auto]. Qed.
Lemma name_nostart n r : name n -> ~ starts_with_sep (n ++ r).
Proof. intros Hn (c & s & E & Hc). destruct (name_hd n Hn) as (c' & n' & -> & Hc'). by injection E as -> _. Qed.
Lemma Filenames_nostart rel ns tr : Filenames rel ns tr -> ~ starts_with_sep rel.
Proof.
  destruct 1 as [|n Hn|n s Hn Hs|n s r m ns tr Hn Hs H].
  - by intros (? & ? & ? & _).
  - rewrite <-(app_nil_r n). by apply name_nostart.
  - by apply name_nostart.
  - by apply name_nostart.
Qed.
Lemma dirsep_seps dr : Forall sep (dirsep dr).
Proof. unfold dirsep. destruct (nonempty dr); [apply seps1|by apply list.Forall_nil]. Qed.

(** the root name of the input survives *)
Lemma preferred_nosep w : Forall (fun c => ~ sep c) w -> preferred w = w.
Proof.
  induction 1 as [|c w Hc _ IH]; [done|]. unfold preferred in *. rewrite fmap_cons, IH. f_equal.
  destruct (Z.eqb_spec c 47); [|done]. subst c. exfalso. apply Hc. by left.
Qed.
Lemma preferred_sep c : sep c -> (if Z.eqb c 47 then 92 else c)%Z = 92%Z.
Proof. intros [->| ->]; done. Qed.
Lemma preferred_nsep c : ~ sep c -> (if Z.eqb c 47 then 92 else c)%Z = c.
Proof. intros H. destruct (Z.eqb_spec c 47); [|done]. subst c. exfalso. apply H. by left. Qed.
Lemma preferred_idem t : preferred (preferred t) = preferred t.
Proof.
  unfold preferred. rewrite <-list_fmap_compose. apply list_fmap_ext. intros ? x _. simpl. destruct (Z.eqb_spec x 47); [done|].
  by rewrite (proj2 (Z.eqb_neq _ _)).
Qed.
Lemma root_kept rn dr rel ns tr rel' ks b : Filenames rel ns tr -> Filenames rel' ks b -> Forall sep dr -> ~ starts_with_sep rel ->
  (ns = [] -> ks = []) -> nonempty_root rn (dr ++ rel) -> nonempty_root (preferred rn) (dirsep dr ++ rel').
Proof.
  intros Hf Hf' Hd Hrel Hk Hn. remember (dr ++ rel) as rest eqn:Er.
  destruct Hn as [c r Hl|a b' c s r Ha Hbc Hs Hr|a b' c w r Ha Hb Hc Hw Hr].
  - unfold preferred. rewrite !fmap_cons. cbn [fmap list_fmap]. rewrite preferred_nsep; [by constructor|]. unfold sep, letter in *. lia.
  - unfold preferred. rewrite !fmap_cons. cbn [fmap list_fmap]. rewrite (preferred_sep a Ha).
    assert (Hdr : dr <> []).
    { intros ->. cbn [app] in Er. apply Hrel. exists s, r. done. }
    unfold dirsep. destruct dr as [|d0 dr0]; [done|]. cbn [nonempty app]. apply NR_device.
    + by right.
    + destruct Hbc as [[Hb Hc]|[-> ->]]; [left|by right]. rewrite (preferred_sep b' Hb). split; [by right|]. destruct Hc as [->| ->]; [by left|by right].
    + by right.
    + by apply Filenames_nostart in Hf'.
  - unfold preferred. rewrite !fmap_cons. change (_ <$> w) with (preferred w). rewrite (preferred_sep a Ha), (preferred_sep b' Hb), (preferred_nsep c Hc), preferred_nosep by done.
    apply NR_server; try done; try by right.
    subst r. unfold dirsep. destruct dr as [|d0 dr0]; cbn [nonempty app] in *.
    + left. destruct Hr as [Hr|Hr]; [|by destruct Hrel]. subst rel. inversion Hf; subst.
      * rewrite (Hk eq_refl) in Hf'. by inversion Hf'.
      * by destruct H as [].
      * match goal with H : name ?n |- _ => destruct (name_hd n H) as (? & ? & -> & _) end. done.
      * match goal with H : name ?n |- _ => destruct (name_hd n H) as (? & ? & -> & _) end. done.
    + right. exists 92%Z, rel'. split; [done|by right].
Qed.

Lemma cut2 n z x y s r : name n -> starts_with_sep z -> ~ sep x -> ~ sep y -> sep s -> n ++ z = x :: y :: s :: r -> n = [x; y].
Proof.
  intros [Hn0 Hn] (c & z' & -> & Hc) Hx Hy Hs E. destruct n as [|n0 [|n1 [|n2 n]]]; [done| | |]; cbn [app] in E.
  - injection E as _ <- _. done.
  - by injection E as -> -> _ _.
  - injection E as _ _ -> _. rewrite !list.Forall_cons in Hn. by destruct Hn as (_ & _ & ? & _).
Qed.
Lemma seps_start s r : seps s -> starts_with_sep (s ++ r).
Proof. intros [H0 H]. destruct s as [|x s]; [done|]. exists x, (s ++ r). apply list.Forall_cons in H as [? _]. done. Qed.
Lemma noroot_kept dr rel' ks b : Filenames rel' ks b -> (forall n, n ∈ ks -> ~ looks_like_root dr n) -> RootName [] (dirsep dr ++ rel').
Proof.
  intros Hf Hn. right. split; [done|]. intros rn r E HR. pose proof (Filenames_nostart _ _ _ Hf) as Hst. pose proof (Filenames_names _ _ _ Hf) as Hnm.
  unfold looks_like_root, dirsep in *. destruct dr as [|d0 dr0]; cbn [nonempty app] in E.
  - destruct HR as [c r Hl|a b' c s r Ha _ _ _|a b' c w r Ha _ _ _ _].
    + assert (Hk : exists n ks' z, ks = n :: ks' /\ rel' = n ++ z /\ (z = [] \/ exists c z', z = c :: z' /\ sep c)).
      { destruct Hf as [|n Hm|n s Hm Hs|n s r' m ns tr Hm Hs H].
        - done.
        - exists n, [], []. rewrite app_nil_r. split; [done|]. split; [done|by left].
        - exists n, [], s. split; [done|]. split; [done|]. right. destruct Hs as [Hs0 Hs]. destruct s as [|x s]; [done|].
          exists x, s. apply list.Forall_cons in Hs as [? _]. done.
        - exists n, (m :: ns), (s ++ r'). split; [done|]. split; [done|]. right. destruct Hs as [Hs0 Hs]. destruct s as [|x s]; [done|].
          exists x, (s ++ r'). apply list.Forall_cons in Hs as [? _]. done. }
      destruct Hk as (n & ks' & z & -> & -> & Hz). apply (Hn n); [by constructor|].
      apply list.Forall_cons in Hnm as [[Hn0 Hnn] _]. destruct n as [|x [|y n]]; [done| |]; cbn [app] in E.
      * injection E as -> E. destruct Hz as [->|(c' & z' & -> & Hc')]; [done|]. injection E as -> _. by destruct Hc'.
      * injection E as -> -> _. by exists c, n.
    + apply Hst. exists a, ([b'; c] ++ s :: r). done.
    + apply Hst. exists a, (b' :: c :: w ++ r). done.
  - destruct HR as [c r Hl|a b' c s r Ha Hbc Hs _|a b' c w r Ha Hb _ _ _]; injection E as <- E.
    + unfold letter in Hl. lia.
    + destruct Hbc as [[Hb _]|[-> ->]]; [apply Hst; exists b', (c :: s :: r); by subst|]. subst rel'.
      assert (Hk : exists ks', ks = [63%Z; 63%Z] :: ks').
      { inversion Hf as [|n Hm E1|n s' Hm Hs' E1|n s' r' m ns tr Hm Hs' H E1].
        - exfalso. destruct Hm as [_ Hm]. rewrite !list.Forall_cons in Hm. by destruct Hm as (_ & _ & ? & _).
        - rewrite (cut2 n s' 63 63 s r Hm); [by exists []|rewrite <-(app_nil_r s'); by apply seps_start|intros [?|?]; lia|intros [?|?]; lia|done|done].
        - rewrite (cut2 n (s' ++ r') 63 63 s r Hm); [by eexists|by apply seps_start|intros [?|?]; lia|intros [?|?]; lia|done|done]. }
      destruct Hk as [ks' ->]. apply (Hn [63%Z; 63%Z]); [by constructor|done].
    + apply Hst. exists b', (c :: w ++ r). by subst.
Qed.
