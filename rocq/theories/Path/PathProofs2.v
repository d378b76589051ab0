(** Decomposition: root name, root directory, relative path, parent path, filename, stem, extension, is_absolute. *)
From stdpp Require Import base list numbers.
From Coq Require Import ZArith Lia.
From Verif Require Import Base.Res Path.PathModel Path.PathSpec Path.PathProofs.
Local Open Scope nat_scope.

Lemma not_nosep c : negb (Is_slash c) = true <-> ~ sep c.
Proof. rewrite negb_true_iff. apply slash_nosep. Qed.
Lemma sep_dec c : Decision (sep c).
Proof. destruct (Is_slash c) eqn:E; [left; by apply slash_sep|right; by apply slash_nosep]. Qed.

Lemma span_sep l : exists s r, l = s ++ r /\ Forall sep s /\ ~ starts_with_sep r.
Proof.
  exists (pre Is_slash l), (post Is_slash l). split; [by rewrite pre_post|]. split; [apply slash_all, pre_all|apply stops_sep, post_stops].
Qed.
Lemma span_name l : exists n r, l = n ++ r /\ Forall (fun c => ~ sep c) n /\ (r = [] \/ starts_with_sep r).
Proof.
  exists (pre (fun c => negb (Is_slash c)) l), (post (fun c => negb (Is_slash c)) l). split; [by rewrite pre_post|]. split.
  - eapply list.Forall_impl; [apply pre_all|]. intros c Hc. by apply not_nosep.
  - pose proof (post_stops (fun c => negb (Is_slash c)) l) as H. destruct (post _ l) as [|c r]; [by left|]. right. exists c, r.
    split; [done|]. apply slash_sep. simpl in H. by destruct (Is_slash c).
Qed.
Lemma starts_nonempty r : starts_with_sep r -> exists s r', r = s ++ r' /\ seps s /\ ~ starts_with_sep r'.
Proof.
  intros (c & r0 & -> & Hc). destruct (span_sep r0) as (s & r' & -> & Hs & Hr'). exists (c :: s), r'. split; [done|]. split; [|done].
  split; [done|]. by constructor.
Qed.

Lemma Filenames_total rel : ~ starts_with_sep rel -> exists ns tr, Filenames rel ns tr.
Proof.
  remember (length rel) as k eqn:Hk. assert (Hle : length rel <= k) by lia. clear Hk. revert rel Hle.
  induction k as [|k IH]; intros rel Hle Hs.
  - destruct rel; [|simpl in Hle; lia]. exists [], false. constructor.
  - destruct rel as [|c rel]; [exists [], false; constructor|].
    destruct (span_name (c :: rel)) as (n & r & He & Hn & Hr).
    assert (Hname : name n).
    { split; [|done]. intros ->. simpl in He. subst r. destruct Hr as [?|Hr]; done. }
    destruct Hr as [->|Hr].
    + rewrite app_nil_r in He. rewrite He. exists [n], false. by constructor.
    + destruct (starts_nonempty r Hr) as (s & r' & -> & Hss & Hr').
      destruct r' as [|c' r'].
      * rewrite app_nil_r in He. rewrite He. exists [n], true. by constructor.
      * assert (Hlen : length (c' :: r') <= k).
        { apply (f_equal length) in He. rewrite !app_length in He. destruct Hname as [Hn0 _]. destruct n; [done|]. simpl in *. lia. }
        destruct (IH _ Hlen Hr') as (ns & tr & Hf). destruct ns as [|m ns]; [inversion Hf|].
        exists (n :: m :: ns), tr. rewrite He. by constructor.
Qed.
Lemma Parsed_total t : exists rn rd rel ns tr, Parsed t rn rd rel ns tr.
Proof.
  destruct (span_sep (drop (rnl t) t)) as (rd & rel & He & Hrd & Hrel). destruct (Filenames_total rel Hrel) as (ns & tr & Hf).
  exists (take (rnl t) t), rd, rel, ns, tr. split; try done.
  - by rewrite <-He, take_drop.
  - apply RootName_iff. rewrite <-He, take_drop. rewrite take_length. pose proof (rnl_le t). lia.
Qed.

Section parsed.
  Context {t rn rd rel : text} {ns : list text} {tr : bool} (P : Parsed t rn rd rel ns tr) (Hw : wide t).

  Lemma parsed_rne : Find_root_name_end t = Ok (length rn).
  Proof. rewrite Find_root_name_end_ok by done. f_equal. rewrite (pa_text _ _ _ _ _ _ P). apply RootName_iff, (pa_root _ _ _ _ _ _ P). Qed.
  Lemma parsed_fnot : find_if_not Is_slash t (length rn) = Ok (length rn + length rd).
  Proof.
    eapply (find_if_not_ok _ _ rn rd rel); [apply P|apply slash_all, P|apply stops_sep, P].
  Qed.
  Lemma parsed_rel : Find_relative_path t = Ok (length rn + length rd).
  Proof. unfold Find_relative_path. rewrite parsed_rne, rbind_ok. apply parsed_fnot. Qed.
  Lemma parsed_len : length t = length rn + length rd + length rel.
  Proof. rewrite (pa_text _ _ _ _ _ _ P), !app_length. lia. Qed.

  Lemma root_name_ok : root_name t = Ok rn.
  Proof. unfold root_name. rewrite parsed_rne, rbind_ok. by apply (view_ok t [] rn (rd ++ rel)); [apply P| |]. Qed.
  Lemma root_directory_ok : root_directory t = Ok rd.
  Proof. unfold root_directory. rewrite parsed_rne, rbind_ok, parsed_fnot, rbind_ok. by apply (view_ok t rn rd rel); [apply P| |]. Qed.
  Lemma root_path_ok : root_path t = Ok (rn ++ rd).
  Proof.
    unfold root_path. rewrite parsed_rel, rbind_ok. apply (view_ok t [] (rn ++ rd) rel); [rewrite (pa_text _ _ _ _ _ _ P); simpl; by rewrite app_assoc|done|].
    rewrite app_length. done.
  Qed.
  Lemma relative_path_ok : relative_path t = Ok rel.
  Proof.
    unfold relative_path. rewrite parsed_rel, rbind_ok. apply (view_ok t (rn ++ rd) rel []).
    - rewrite (pa_text _ _ _ _ _ _ P), app_nil_r. by rewrite app_assoc.
    - by rewrite app_length.
    - by rewrite app_length, parsed_len.
  Qed.

  (** [rel = dirs ++ f]: everything up to the last separator, and the filename *)
  Lemma rel_split : exists dirs f, rel = dirs ++ f /\ Forall (fun c => ~ sep c) f /\ (dirs = [] \/ exists d c, dirs = d ++ [c] /\ sep c).
  Proof.
    exists (rev (post (fun c => negb (Is_slash c)) (rev rel))), (rev (pre (fun c => negb (Is_slash c)) (rev rel))).
    split; [rewrite <-rev_app_distr, pre_post, rev_involutive; done|]. split.
    - apply Forall_rev. eapply list.Forall_impl; [apply pre_all|]. intros c Hc. by apply not_nosep.
    - pose proof (post_stops (fun c => negb (Is_slash c)) (rev rel)) as H. destruct (post _ (rev rel)) as [|c r]; [by left|].
      right. exists (rev r), c. split; [done|]. simpl in H. apply slash_sep. by destruct (Is_slash c).
  Qed.
  Lemma Find_filename_ok dirs f : rel = dirs ++ f -> Forall (fun c => ~ sep c) f -> (dirs = [] \/ exists d c, dirs = d ++ [c] /\ sep c) ->
    Find_filename t = Ok (length rn + length rd + length dirs).
  Proof.
    intros Hrel Hf Hd. unfold Find_filename. rewrite parsed_rel, rbind_ok.
    replace (length t) with (length (rn ++ rd) + length dirs + length f) by (rewrite parsed_len, Hrel, !app_length; lia).
    rewrite <-(app_length rn rd). apply (back_ok _ t (rn ++ rd) dirs f []).
    - rewrite (pa_text _ _ _ _ _ _ P), Hrel, app_nil_r. by rewrite <-!app_assoc.
    - eapply list.Forall_impl; [exact Hf|]. intros c Hc. by apply not_nosep.
    - destruct Hd as [->|(d & c & -> & Hc)]; [by left|]. right. exists d, c. split; [done|]. by rewrite (proj2 (slash_sep c) Hc).
  Qed.
  Lemma filename_ok dirs f : rel = dirs ++ f -> Forall (fun c => ~ sep c) f -> (dirs = [] \/ exists d c, dirs = d ++ [c] /\ sep c) ->
    filename t = Ok f.
  Proof.
    intros Hrel Hf Hd. unfold filename. rewrite (Find_filename_ok dirs f) by done. rewrite rbind_ok.
    apply (view_ok t (rn ++ rd ++ dirs) f []).
    - rewrite (pa_text _ _ _ _ _ _ P), Hrel, app_nil_r. by rewrite <-!app_assoc.
    - rewrite !app_length. lia.
    - rewrite parsed_len, Hrel, !app_length. lia.
  Qed.
  Lemma parent_path_ok d s f : rel = d ++ s ++ f -> Forall (fun c => ~ sep c) f -> Forall sep s -> (d = [] \/ exists d' c, d = d' ++ [c] /\ ~ sep c) ->
    (s = [] -> d = []) -> parent_path t = Ok (rn ++ rd ++ d).
  Proof.
    intros Hrel Hf Hs Hd Hsd. unfold parent_path.
    assert (Hds : d ++ s = [] \/ exists d0 c, d ++ s = d0 ++ [c] /\ sep c).
    { destruct s as [|c s' _] using rev_ind; [left; rewrite (Hsd eq_refl); done|]. right. exists (d ++ s'), c. split; [by rewrite app_assoc|].
      apply Forall_app in Hs as [_ Hs]. by apply list.Forall_cons in Hs as [? _]. }
    pose proof (Find_filename_ok (d ++ s) f) as Hff. unfold Find_filename in Hff. rewrite parsed_rel in Hff. rewrite rbind_ok in Hff. rewrite parsed_rel, rbind_ok.
    rewrite Hff; [|by rewrite Hrel, app_assoc|done|done]. rewrite rbind_ok.
    replace (length rn + length rd + length (d ++ s)) with (length (rn ++ rd) + length d + length s) by (rewrite !app_length; lia).
    rewrite <-(app_length rn rd). rewrite (back_ok _ t (rn ++ rd) d s f).
    - rewrite rbind_ok. apply (view_ok t [] (rn ++ rd ++ d) (s ++ f)); [|done|rewrite !app_length; simpl; lia].
      rewrite (pa_text _ _ _ _ _ _ P), Hrel. simpl. by rewrite <-!app_assoc.
    - rewrite (pa_text _ _ _ _ _ _ P), Hrel. by rewrite <-!app_assoc.
    - by apply slash_all.
    - destruct Hd as [->|(d' & c & -> & Hc)]; [by left|]. right. exists d', c. split; [done|]. by apply slash_nosep.
  Qed.
  (** the filename, together with the separators in front of it *)
  Lemma rel_split3 : exists d s f, rel = d ++ s ++ f /\ Forall (fun c => ~ sep c) f /\ Forall sep s /\
    (d = [] \/ exists d' c, d = d' ++ [c] /\ ~ sep c) /\ (s = [] -> d = []).
  Proof.
    destruct rel_split as (dirs & f & Hrel & Hf & Hd).
    set (s := rev (pre Is_slash (rev dirs))). set (d := rev (post Is_slash (rev dirs))).
    assert (He : dirs = d ++ s) by (unfold d, s; rewrite <-rev_app_distr, pre_post, rev_involutive; done).
    exists d, s, f. split; [rewrite Hrel, He; by rewrite <-app_assoc|]. split; [done|]. split; [apply Forall_rev, slash_all, pre_all|]. split.
    - unfold d. pose proof (post_stops Is_slash (rev dirs)) as H. destruct (post _ (rev dirs)) as [|c r]; [by left|].
      right. exists (rev r), c. split; [done|]. simpl in H. by apply slash_nosep.
    - intros Hs0. destruct Hd as [Hd|(d0 & c & Hd & Hc)]; [rewrite He, Hs0, app_nil_r in Hd; done|].
      exfalso. unfold s in Hs0. rewrite Hd, rev_app_distr in Hs0. simpl in Hs0. rewrite (proj2 (slash_sep c) Hc) in Hs0.
      simpl in Hs0. by destruct (rev (pre Is_slash (rev d0))).
  Qed.

  Lemma root_name_2 : length rn = 2 <-> exists c, rn = [c; 58%Z] /\ letter c.
  Proof.
    split; [|by intros (c & -> & _)]. intros H2. destruct (pa_root _ _ _ _ _ _ P) as [Hr|[-> _]]; [|done].
    inversion Hr; subst; simpl in H2; try lia. eauto.
  Qed.
  Lemma is_absolute_ok : is_absolute t = Ok (if length rn =? 2 then nonempty rd else nonempty rn).
  Proof.
    unfold is_absolute, Has_drive_letter_prefix. pose proof parsed_rne as Hrne. pose proof root_name_2 as R2. rewrite Hrne.
    pose proof (pa_text _ _ _ _ _ _ P) as Hp. pose proof parsed_len as Hlen. destruct (2 <=? length t) eqn:E2.
    - apply Nat.leb_le in E2. clear Hlen. destruct t as [|c0 [|c1 r]]; [simpl in E2; lia|simpl in E2; lia|].
      assert (H01 : (0 <= c0 < 65536)%Z /\ (0 <= c1 < 65536)%Z).
      { unfold wide in Hw. rewrite !list.Forall_cons in Hw. tauto. }
      pose proof (Is_drive_prefix_ok (c0 :: c1 :: r) [] c0 c1 r eq_refl (proj1 H01) (proj2 H01)) as E. cbn [length] in E. rewrite E, rbind_ok.
      rewrite Find_root_name_end_ok in Hrne by done. injection Hrne as Hrne. cbn [rnl] in Hrne.
      destruct (drive c0 c1) eqn:Ed.
      + rewrite <-Hrne. change (2 =? 2) with true. cbv iota.
        assert (Hr : r = rd ++ rel).
        { destruct rn as [|a [|b [|]]]; simpl in Hrne; try lia. simpl in Hp. by injection Hp as -> -> ->. }
        destruct r as [|c2 r].
        * simpl. destruct rd; [done|]. discriminate Hr.
        * simpl. unfold PathModel.rd. simpl. f_equal.
          pose proof (pa_dir _ _ _ _ _ _ P) as Hdd. pose proof (pa_rel _ _ _ _ _ _ P) as Hrr. destruct rd as [|x rd'].
          -- simpl in Hr. apply slash_nosep. intros Hc2. apply Hrr. exists c2, r. done.
          -- simpl in Hr. injection Hr as <- _. apply slash_sep. by apply list.Forall_cons in Hdd as [? _].
      + rewrite rbind_ok. destruct (length rn =? 2) eqn:El.
        * exfalso. apply Nat.eqb_eq, R2 in El as (c & -> & Hl). simpl in Hp. injection Hp as Hc0 Hc1 _. rewrite Hc0, Hc1 in Ed.
          rewrite (proj2 (drive_spec c 58)) in Ed; done.
        * f_equal. by destruct rn.
    - rewrite !rbind_ok. apply Nat.leb_gt in E2. destruct (length rn =? 2) eqn:El; [apply Nat.eqb_eq in El; lia|].
      f_equal. by destruct rn.
  Qed.
End parsed.
