(** C38, C39: std::filesystem::path, lexical operations. Code units: '.' 46, '/' 47, ':' 58, '?' 63, '\' 92. *)
From stdpp Require Import base list numbers relations.
From Coq Require Import ZArith Lia.
From Verif Require Import Base.Res Path.PathModel Path.PathSpec Path.PathProofs Path.PathProofs2 Path.PathProofs3 Path.PathProofs4 Path.PathProofs5
  Path.PathProofs6 Path.PathProofs7 Path.PathProofs8 Path.PathProofs9 Path.PathProofs10.
Local Open Scope nat_scope.

(** Every text is a path: the grammar gives it exactly one decomposition. *)
Theorem C38_parse t : wide t -> exists rn dr rel ns tr, Parsed t rn dr rel ns tr /\
  forall rn' dr' rel' ns' tr', Parsed t rn' dr' rel' ns' tr' -> rn' = rn /\ dr' = dr /\ rel' = rel /\ ns' = ns /\ tr' = tr.
Proof.
  intros Hw. destruct (Parsed_total t) as (rn & dr & rel & ns & tr & P). exists rn, dr, rel, ns, tr. split; [done|].
  intros rn' dr' rel' ns' tr' P'.
  pose proof (root_name_ok P Hw) as R1. rewrite (root_name_ok P' Hw) in R1. injection R1 as ->.
  pose proof (root_directory_ok P Hw) as R2. rewrite (root_directory_ok P' Hw) in R2. injection R2 as ->.
  pose proof (relative_path_ok P Hw) as R3. rewrite (relative_path_ok P' Hw) in R3. injection R3 as ->.
  split; [done|]. split; [done|]. split; [done|].
  pose proof (pa_names _ _ _ _ _ _ P) as F. pose proof (pa_names _ _ _ _ _ _ P') as F'.
  pose proof (split_loop_ok rel rel ns tr F (S (length rel)) [] [] eq_refl ltac:(lia)) as S1.
  rewrite (split_loop_ok rel rel ns' tr' F' (S (length rel)) [] [] eq_refl ltac:(lia)) in S1. injection S1 as S1.
  pose proof (Filenames_nonempty _ _ _ F) as N. pose proof (Filenames_nonempty _ _ _ F') as N'.
  destruct (decide (rel = [])) as [->|Hrel].
  { apply Filenames_nil in F as [-> ->]. apply Filenames_nil in F' as [-> ->]. done. }
  assert (Hne : ns <> []). { intros ->. inversion F. by subst. }
  assert (Hne' : ns' <> []). { intros ->. inversion F'. by subst. }
  clear -S1 N N' Hne Hne'. revert ns Hne S1 N. induction N' as [|n' ns' Hn' _ IH]; [done|]. intros ns Hne S1 N. destruct ns as [|n ns]; [done|].
  apply list.Forall_cons in N as [Hn N].
  destruct (tokens_split n ns tr) as (s & E & Hs). destruct (tokens_split n' ns' tr') as (s' & E' & Hs'). rewrite E, E' in S1. injection S1 as -> S1.
  destruct Hs as [->|(-> & -> & ->)], Hs' as [->|(-> & -> & ->)]; cbn [app tokens] in S1; try done.
  injection S1 as S1. destruct ns' as [|m' ns'].
  - destruct ns as [|m ns]; [|by destruct (tokens_split m ns tr) as (? & E2 & _); rewrite E2 in S1].
    destruct tr', tr; done.
  - destruct ns as [|m ns]; [by destruct (tokens_split m' ns' tr') as (? & E2 & _); rewrite E2 in S1|].
    destruct (IH ltac:(done) (m :: ns) ltac:(done) S1 N) as [-> ->]. done.
Qed.

(** The decomposition functions return the parts of the grammar; the parts reassemble the text. *)
Theorem C38_decompose t rn dr rel ns tr : wide t -> Parsed t rn dr rel ns tr ->
  root_name t = Ok rn /\ root_directory t = Ok dr /\ relative_path t = Ok rel /\ t = rn ++ dr ++ rel /\ root_path t = Ok (rn ++ dr) /\
  filename t = Ok (if tr then [] else default [] (list.last ns)) /\
  is_absolute t = Ok (absolute rn dr) /\
  (exists d s f, parent_path t = Ok (rn ++ dr ++ d) /\ filename t = Ok f /\ rel = d ++ s ++ f /\
     Forall sep s /\ ~ (exists c, list.last d = Some c /\ sep c) /\ Forall (fun c => ~ sep c) f) /\
  (exists f st ex ads, filename t = Ok f /\ stem t = Ok st /\ extension t = Ok ex /\ f = st ++ ex ++ ads /\
     ~ 58%Z ∈ st ++ ex /\ (ads = [] \/ exists r, ads = 58%Z :: r) /\ Extension (st ++ ex) st ex).
Proof.
  intros Hw P. split; [by apply (root_name_ok P)|]. split; [by apply (root_directory_ok P)|]. split; [by apply (relative_path_ok P)|].
  split; [apply P|]. split; [by apply (root_path_ok P)|].
  destruct (Filenames_last rel ns tr (pa_names _ _ _ _ _ _ P)) as (dirs & f & Hrel & Hf & Hd & Ef & _).
  pose proof (filename_ok P Hw dirs f Hrel Hf Hd) as HF.
  split; [by rewrite HF, Ef|]. split; [by apply (is_absolute_ok P)|]. split.
  - destruct (rel_split3 (rel := rel)) as (d & s & f' & Hrel' & Hf' & Hs & Hd' & Hsd). exists d, s, f'.
    split; [by apply (parent_path_ok P Hw d s f')|]. split.
    { apply (filename_ok P Hw (d ++ s) f'); [by rewrite <-app_assoc|done|]. destruct s as [|c s0 _] using rev_ind.
      - left. by rewrite (Hsd eq_refl).
      - right. exists (d ++ s0), c. split; [by rewrite app_assoc|]. apply list.Forall_app in Hs as [_ Hs]. by apply list.Forall_cons in Hs as [? _]. }
    split; [done|]. split; [done|]. split; [|done]. intros (c & Hl & Hc). destruct Hd' as [->|(d' & c' & -> & Hc')]; [done|].
    rewrite last_snoc in Hl. by injection Hl as ->.
  - destruct (stem_extension_ok P Hw f HF) as (st & ex & ads & ? & ? & ? & ? & ? & ?). exists f, st, ex, ads. done.
Qed.
Print Assumptions C38_parse.
Print Assumptions C38_decompose.

(** Iteration: begin() to end() visits exactly the elements of the grammar, and decrementing undoes incrementing. *)
Theorem C38_iterate t rn dr rel ns tr : wide t -> Parsed t rn dr rel ns tr ->
  exists its, begin t = Ok (default (end_ t) (head its)) /\ elem <$> its = elements rn dr ns tr /\
    (forall i a b, (its ++ [end_ t]) !! i = Some a -> (its ++ [end_ t]) !! S i = Some b ->
       incr t a = Ok b /\ decr t b = Ok a /\ pos a < pos b).
Proof.
  intros Hw P. destruct (begin_ok P Hw) as (its & H1 & H2 & H3). exists its. split; [done|]. split; [done|].
  generalize dependent (its ++ [end_ t]). clear. intros l Hl. induction l as [|x l IH]; intros i a b Ha Hb; [done|].
  destruct i as [|i].
  - injection Ha as ->. destruct l as [|y l]; [done|]. injection Hb as ->. by destruct Hl as (? & ? & ? & _).
  - destruct l as [|y l]; [done|]. apply (IH (proj2 (proj2 (proj2 Hl))) i); done.
Qed.
Print Assumptions C38_iterate.

(** operator/= follows [fs.path.append]; operator/ gives the same text. *)
Theorem C38_append t rn dr rel ns tr o rn' dr' rel' ns' tr' :
  wide t -> wide o -> Parsed t rn dr rel ns tr -> Parsed o rn' dr' rel' ns' tr' ->
  append t o = Ok (append_spec t rn dr ns tr o rn' dr' rel') /\ slash t o = append t o.
Proof. intros Ht Ho P P'. split; [by eapply append_ok|by apply slash_append]. Qed.
Print Assumptions C38_append.

(** compare orders by root name, root directory and elements; equality of paths is equality of these, so it ignores how
    many separators are written and which ones; and equal paths have equal hash values. *)
Theorem C38_compare a rn dr rel ns tr b rn' dr' rel' ns' tr' :
  wide a -> wide b -> Parsed a rn dr rel ns tr -> Parsed b rn' dr' rel' ns' tr' ->
  exists z, compare a b = Ok z /\ Z.sgn z = cmp_path rn dr ns tr rn' dr' ns' tr' /\
    (z = 0%Z <-> rn = rn' /\ nonempty dr = nonempty dr' /\ ns ++ (if tr then [[]] else []) = ns' ++ (if tr' then [[]] else [])).
Proof.
  intros Ha Hb P P'. destruct (compare_ok a rn dr rel ns tr b rn' dr' rel' ns' tr' Ha Hb P P') as (z & Hz & Hs). exists z. split; [done|]. split; [done|].
  rewrite <-(cmp_path_eq rn dr ns tr rn' dr' ns' tr'), <-Hs. lia.
Qed.
Theorem C38_hash {H : Type} (fnv : H -> Z -> H) basis a b : wide a -> wide b -> compare a b = Ok 0%Z ->
  exists h, hash_value fnv basis a = Ok h /\ hash_value fnv basis b = Ok h.
Proof.
  intros Ha Hb Hc. destruct (Parsed_total a) as (rn & dr & rel & ns & tr & P). destruct (Parsed_total b) as (rn' & dr' & rel' & ns' & tr' & P').
  destruct (compare_ok a rn dr rel ns tr b rn' dr' rel' ns' tr' Ha Hb P P') as (z & Hz & Hs). rewrite Hc in Hz. injection Hz as <-.
  change (Z.sgn 0) with 0%Z in Hs. symmetry in Hs. apply cmp_path_eq in Hs as (-> & Hd & He).
  rewrite (hash_ok fnv basis a rn' dr rel ns tr Ha P), (hash_ok fnv basis b rn' dr' rel' ns' tr' Hb P'), Hd, He. by eexists.
Qed.
Print Assumptions C38_compare.
Print Assumptions C38_hash.

(** removing the filename does not change the root *)
Lemma remove_filename_parsed t rn dr rel ns tr dirs f : Parsed t rn dr rel ns tr -> rel = dirs ++ f -> Forall (fun c => ~ sep c) f ->
  exists ns' tr', Parsed (rn ++ dr ++ dirs) rn dr dirs ns' tr'.
Proof.
  intros P Hrel Hf. destruct P as [Et Hrn Hdr Hst Hns].
  assert (Hst' : ~ starts_with_sep dirs).
  { intros (c & r & -> & Hc). apply Hst. exists c, (r ++ f). by rewrite Hrel. }
  assert (Hff : ~ starts_with_sep f).
  { intros (c & r & -> & Hc). by apply list.Forall_cons in Hf as [? _]. }
  destruct (Filenames_total dirs Hst') as (ns' & tr' & HF). exists ns', tr'. split; [done| |done|done|done].
  subst rel. rewrite app_assoc in Hrn. set (rest := dr ++ dirs) in *.
  destruct Hrn as [Hrn|[-> Hno]].
  - left. remember (rest ++ f) as rf eqn:Erf. destruct Hrn as [c r Hl|a b c s r Ha Hbc Hs Hr|a b c w r Ha Hb Hc Hw Hr].
    + by apply NR_drive.
    + destruct rest as [|x rest'].
      { cbn [app] in Erf. exfalso. apply Hff. exists s, r. done. }
      injection Erf as <- ->. apply NR_device; try done. intros (y & r' & -> & Hy). apply Hr. exists y, (r' ++ f). done.
    + apply NR_server; try done. subst r. destruct rest as [|x rest']; [by left|]. right. destruct Hr as [?|(y & r' & E & Hy)]; [done|].
      injection E as -> _. by exists y, rest'.
  - right. split; [done|]. intros rn' r' E HR. remember r' as r0 eqn:Er0. destruct HR as [c r Hl|a b c s r Ha Hbc Hs Hr|a b c w r Ha Hb Hc Hw Hr]; subst.
    + apply (Hno [c; 58%Z] (r' ++ f)); [by rewrite E|]. by apply NR_drive.
    + apply (Hno [a; b; c] (s :: r ++ f)); [by rewrite E, <-app_assoc|]. apply NR_device; try done.
      intros (y & r2 & E2 & Hy). destruct r as [|z r]; [apply Hff; by exists y, r2|]. injection E2 as -> _. apply Hr. by exists y, r.
    + destruct Hr as [->|(y & r2 & -> & Hy)].
      * apply (Hno (a :: b :: c :: (w ++ f)) []); [rewrite E; simpl; by rewrite !app_nil_r|].
        apply NR_server; try done; [by apply list.Forall_app|by left].
      * apply (Hno (a :: b :: c :: w) ((y :: r2) ++ f)); [by rewrite E, <-app_assoc|]. apply NR_server; try done. right. by exists y, (r2 ++ f).
Qed.
(** The modifiers: remove_filename, replace_filename, replace_extension. *)
Theorem C38_modify t r rn dr rel ns tr : wide t -> Parsed t rn dr rel ns tr ->
  exists d f st ex ads, t = d ++ f /\ f = st ++ ex ++ ads /\ filename t = Ok f /\ stem t = Ok st /\ extension t = Ok ex /\
    remove_filename t = Ok d /\ filename d = Ok [] /\ replace_filename t r = append d r /\
    remove_extension t = Ok (d ++ st) /\
    replace_extension t r = Ok (d ++ st ++ (if bool_decide (r <> [] /\ head r <> Some 46%Z) then [46%Z] else []) ++ r).
Proof.
  intros Hw P. destruct (rel_split (rel := rel)) as (dirs & f & Hrel & Hf & Hd).
  pose proof (Find_filename_ok P Hw dirs f Hrel Hf Hd) as HFF. pose proof (filename_ok P Hw dirs f Hrel Hf Hd) as HF.
  destruct (split_filename_ok P Hw dirs f Hrel Hf Hd) as (st & ex & ads & Ef & _ & _ & Hex & HS).
  destruct (stem_extension_ok P Hw f HF) as (st' & ex' & ads' & Ef' & _ & _ & Hex' & Hst & Hext).
  set (d := rn ++ dr ++ dirs).
  assert (Et : t = d ++ f) by (rewrite (pa_text _ _ _ _ _ _ P), Hrel; unfold d; by rewrite <-!app_assoc).
  assert (Hld : length rn + length dr + length dirs = length d) by (unfold d; rewrite !app_length; lia). rewrite Hld in *.
  assert (st' = st /\ ex' = ex) as [-> ->].
  { revert Hst Hext. unfold stem, extension. rewrite HS, rbind_ok. rewrite (view_ok t d st (ex ++ ads)); [|by rewrite Et, Ef|done|done].
    rewrite rbind_ok. rewrite (view_ok t (d ++ st) ex ads); [|by rewrite Et, Ef, <-!app_assoc|by rewrite app_length|by rewrite app_length].
    intros [= ->] [= ->]. done. }
  assert (Htd : take (length d) t = d) by (rewrite Et; apply take_app).
  assert (Hte : take (length d + length st) t = d ++ st).
  { rewrite Et, Ef, <-app_length. rewrite app_assoc. apply take_app. }
  assert (HRM : remove_filename t = Ok d) by (unfold remove_filename; by rewrite HFF, rbind_ok, Htd).
  assert (HRE : remove_extension t = Ok (d ++ st)) by (unfold remove_extension; by rewrite HS, rbind_ok, Hte).
  exists d, f, st, ex, ads. split; [done|]. split; [done|]. split; [done|]. split; [done|]. split; [done|]. split; [done|]. split; [|split; [|split; [done|]]].
  - destruct (remove_filename_parsed t rn dr rel ns tr dirs f P Hrel Hf) as (ns' & tr' & P').
    assert (Hwd : wide d) by (rewrite Et in Hw; unfold wide in Hw; by apply list.Forall_app in Hw as [? _]).
    apply (filename_ok P' Hwd dirs []); [by rewrite app_nil_r|by apply list.Forall_nil|done].
  - unfold replace_filename. by rewrite HRM, rbind_ok.
  - unfold replace_extension. rewrite HRE, rbind_ok. f_equal. rewrite <-!app_assoc. do 2 f_equal. destruct r as [|c r]; [done|]. cbn [head].
    destruct (Z.eqb_spec c 46) as [->|Hc]; [rewrite bool_decide_false; [done|tauto]|]. rewrite bool_decide_true; [done|]. split; [done|]. congruence.
Qed.
Print Assumptions C38_modify.

(** lexically_normal computes the normalisation of [fs.path.generic]/6: root name with preferred separators, one separator for
    the root directory, then the filenames and separators left after removing dots, name/.. pairs, leading ".." under a root
    directory and a separator after a last ".."; "." if nothing is left. *)
Theorem C39_normal t rn dr rel ns tr : wide t -> Parsed t rn dr rel ns tr -> t <> [] ->
  exists w, Normal (nonempty dr) (tokens ns tr) w /\
    let s := preferred rn ++ (if nonempty dr then [92%Z] else []) ++ spell w in
    lexically_normal t = Ok (match s with [] => [46%Z] | _ => s end).
Proof.
  intros Hw P Ht. eexists. split; [|apply (lexically_normal_ok t rn dr rel ns tr Hw P Ht)].
  apply nf_normal. eapply Filenames_nonempty, P.
Qed.
Theorem C39_empty : lexically_normal [] = Ok [].
Proof. done. Qed.
Print Assumptions C39_normal.
Print Assumptions C39_empty.

(** Unless a filename could be mistaken for a root name once it comes first, the result has the same root, its filenames
    lead to the same place from every directory (from the root directory if there is one), it is in normal form (no ".",
    ".." only in front and not under a root directory, no separator after a last ".."), and normalising it again changes
    nothing. *)
Theorem C39_result t rn dr rel ns tr : wide t -> Parsed t rn dr rel ns tr -> t <> [] ->
  (rn <> [] \/ forall n, n ∈ ns -> ~ looks_like_root dr n) ->
  exists r rel' ks b, lexically_normal t = Ok r /\
    Parsed r (preferred rn) (if nonempty dr then [92%Z] else []) rel' ks b /\
    (forall d, (dr <> [] -> d = []) -> resolve d ks = resolve d ns) /\
    (r = [46%Z] \/ exists i nn, ks = replicate i [46%Z; 46%Z] ++ nn /\ Forall (fun n => n <> [46%Z] /\ n <> [46%Z; 46%Z]) nn /\
       (dr <> [] -> i = 0) /\ (b = true -> list.last ks <> Some [46%Z; 46%Z])) /\
    lexically_normal r = Ok r.
Proof.
  intros Hw P Ht Hr. destruct (normal_parsed t rn dr rel ns tr Hw P Ht Hr) as (r & rel' & ks & b & H1 & H2 & H3 & H4 & H5 & _).
  exists r, rel', ks, b. done.
Qed.
Print Assumptions C39_result.

(** The exception is real. "./c:." normalises to "c:.", where "c:" is now a root name, which normalises to "c:"; and
    "/??//x", a rooted path without root name, normalises to "\??\x", whose root name is "\??". *)
Example C39_not_idempotent :
  lexically_normal [46; 47; 99; 58; 46]%Z = Ok [99; 58; 46]%Z /\ lexically_normal [99; 58; 46]%Z = Ok [99; 58]%Z /\
  root_name [46; 47; 99; 58; 46]%Z = Ok [] /\ root_name [99; 58; 46]%Z = Ok [99; 58]%Z.
Proof. vm_compute. done. Qed.
Example C39_root_changes :
  root_name [47; 63; 63; 47; 47; 120]%Z = Ok [] /\ lexically_normal [47; 63; 63; 47; 47; 120]%Z = Ok [92; 63; 63; 92; 120]%Z /\
  root_name [92; 63; 63; 92; 120]%Z = Ok [92; 63; 63]%Z.
Proof. vm_compute. done. Qed.
(** "p /= p" is allowed by the standard. With p = "/abc" the terminator written by erase replaces the first character; and
    if push_back has to reallocate, the pointers into the old buffer dangle. *)
Example C38_self_append_finding :
  append [47; 97; 98; 99]%Z [47; 97; 98; 99]%Z = Ok [47; 97; 98; 99]%Z /\ append_self 7 [47; 97; 98; 99]%Z = Ok [0; 97; 98; 99]%Z /\
  append_self 7 [97; 98; 99; 100; 101; 102; 103]%Z = UB.
Proof. vm_compute. done. Qed.

(** The hypotheses are met: "C:/a/./b//..\c.txt", "//srv/x" and "../a/" *)
Example C38_sat : let t := [67; 58; 47; 97; 47; 46; 47; 98; 47; 47; 46; 46; 92; 99; 46; 116; 120; 116]%Z in
  wide t /\ Parsed t [67; 58]%Z [47]%Z (drop 3 t) [[97]; [46]; [98]; [46; 46]; [99; 46; 116; 120; 116]]%Z false /\
  lexically_normal t = Ok [67; 58; 92; 97; 92; 99; 46; 116; 120; 116]%Z /\ extension t = Ok [46; 116; 120; 116]%Z.
Proof.
  cbv zeta. split; [repeat (apply list.Forall_cons; split; [lia|]); by apply list.Forall_nil|]. split; [|vm_compute; done].
  assert (Hn : forall l, l <> [] -> forallb (fun c => negb ((c =? 47) || (c =? 92))%Z) l = true -> name l).
  { intros l Hl H. split; [done|]. apply list.Forall_forall. intros x Hx [->| ->]; apply elem_of_list_In in Hx;
      by (rewrite forallb_forall in H; apply H in Hx). }
  assert (Hs : forall l, l <> [] -> forallb (fun c => ((c =? 47) || (c =? 92))%Z) l = true -> seps l).
  { intros l Hl H. split; [done|]. apply list.Forall_forall. intros x Hx; apply elem_of_list_In in Hx;
      rewrite forallb_forall in H; apply H in Hx. apply orb_true_iff in Hx as [Hx%Z.eqb_eq|Hx%Z.eqb_eq]; [by left|by right]. }
  split; [done| | | |].
  - left. apply NR_drive. left. lia.
  - by apply Hs.
  - intros (c & r & E & Hc). injection E as <- _. destruct Hc; lia.
  - change (drop 3 _) with ([97] ++ [47] ++ [46] ++ [47] ++ [98] ++ [47; 47] ++ [46; 46] ++ [92] ++ [99; 46; 116; 120; 116])%Z.
    repeat (apply F_cons; [by apply Hn|by apply Hs|]). apply F_last. by apply Hn.
Qed.
Example C38_sat_server : Parsed [47; 47; 115]%Z [47; 47; 115]%Z [] [] [] false /\ append [47; 47; 115]%Z [120]%Z = Ok [47; 47; 115; 92; 120]%Z.
Proof.
  split; [|done]. split; [done| |by apply list.Forall_nil| |apply F_nil].
  - left. apply NR_server; [by left|by left|intros [?|?]; lia|by apply list.Forall_nil|by left].
  - by intros (? & ? & ? & _).
Qed.
Example C39_sat : lexically_normal [46; 46; 47; 97; 47; 46; 46; 47; 46; 46; 47]%Z = Ok [46; 46; 92; 46; 46]%Z.
Proof. vm_compute. done. Qed.
