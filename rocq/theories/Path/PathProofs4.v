(** operator/ agrees with operator/=; compare is the element-wise order; equal paths hash equally. *)
From stdpp Require Import base list numbers.
From Coq Require Import ZArith Lia.
From Verif Require Import Base.Res Path.PathModel Path.PathSpec Path.PathProofs Path.PathProofs2 Path.PathProofs3.
Local Open Scope nat_scope.

Lemma slash_append l r : wide l -> wide r -> slash l r = append l r.
Proof.
  intros Hl Hr. unfold slash. destruct r as [|c0 r]; [reflexivity|]. cbn [length Nat.eqb]. 
  destruct (Has_drive_letter_prefix (c0 :: r)) as [d| |] eqn:Ed.
  2,3: exfalso; unfold Has_drive_letter_prefix in Ed; destruct r as [|c1 r]; simpl in Ed; discriminate.
  rewrite rbind_ok. destruct d; [by rewrite rbind_ok|]. change (rd (c0 :: r) 0) with (Ok c0). rewrite !rbind_ok.
  destruct (Is_slash c0) eqn:S0; [done|]. cbn [negb].
  destruct (Parsed_total (c0 :: r)) as (rn' & rd' & rel' & ns' & tr' & P').
  destruct (Parsed_total l) as (rn & rd & rel & ns & tr & P).
  rewrite (append_ok l rn rd rel ns tr (c0 :: r) rn' rd' rel' ns' tr') by done.
  assert (Hnl : rnl (c0 :: r) = 0).
  { destruct r as [|c1 r]; [done|]. simpl. rewrite S0. simpl.
    unfold wide in Hr. rewrite !list.Forall_cons in Hr. destruct Hr as (Hw0 & Hw1 & _).
    unfold Has_drive_letter_prefix in Ed. simpl in Ed. pose proof (Is_drive_prefix_ok (c0 :: c1 :: r) [] c0 c1 r eq_refl Hw0 Hw1) as E.
    cbn [length] in E. rewrite E in Ed. injection Ed as ->. done. }
  assert (Hrn' : rn' = []).
  { pose proof (proj1 (RootName_iff _ _) (pa_root _ _ _ _ _ _ P')) as E. rewrite <-(pa_text _ _ _ _ _ _ P'), Hnl in E. by destruct rn'. }
  subst rn'. pose proof (pa_text _ _ _ _ _ _ P') as Er. simpl in Er.
  assert (Hrd' : rd' = []).
  { destruct rd' as [|x rd']; [done|]. exfalso. simpl in Er. injection Er as -> _. pose proof (pa_dir _ _ _ _ _ _ P') as Hd.
    apply list.Forall_cons in Hd as [Hd _]. apply slash_sep in Hd. by rewrite Hd in S0. }
  subst rd'. simpl in Er. rewrite Er. unfold append_spec. cbn [nonempty absolute length Nat.eqb orb andb].
  pose proof (pa_text _ _ _ _ _ _ P) as El. pose proof (parsed_len P) as Ell.
  set (needs := (negb (nonempty rd) && absolute rn rd) || (negb tr && match ns with [] => false | _ => true end)).
  assert (Hj : (if length l =? 2 then Is_drive_prefix l 0 else Ok false) = Ok ((length l =? 2) && (length rn =? 2))).
  { destruct (length l =? 2) eqn:E2; [|done]. apply Nat.eqb_eq in E2. destruct l as [|a [|b [|]]]; simpl in E2; try lia.
    unfold wide in Hl. rewrite !list.Forall_cons in Hl. destruct Hl as (Ha & Hb & _).
    pose proof (Is_drive_prefix_ok [a; b] [] a b [] eq_refl Ha Hb) as E. cbn [length] in E. rewrite E. f_equal.
    pose proof (proj1 (RootName_iff _ _) (pa_root _ _ _ _ _ _ P)) as Er'. rewrite <-El in Er'. rewrite <-Er'. simpl.
    destruct (drive a b); [done|]. by destruct (Is_slash a). }
  rewrite Hj, rbind_ok. clear Hj.
  assert (Hneed : (if negb (length l =? 0) && negb ((length l =? 2) && (length rn =? 2)) then c <~ PathModel.rd l (length l - 1) ;; Ok (negb (Is_slash c)) else Ok false) = Ok needs).
  { destruct (Filenames_last _ _ _ (pa_names _ _ _ _ _ _ P)) as (dirs & f & Hrel & Hf & Hd & _ & Hfe).
    assert (Hfn : (negb tr && match ns with [] => false | _ => true end) = bool_decide (f <> [])).
    { apply eq_true_iff_eq. rewrite bool_decide_eq_true, Hfe. destruct tr; simpl; [split; [done|intros H; exfalso; apply H; by left]|]. destruct ns; [split; [done|intros H; exfalso; apply H; by right]|].
      split; [|done]. intros _ [?|?]; done. }
    unfold needs. rewrite Hfn. clear needs Hfn Hfe.
    destruct (decide (rd = [] /\ rel = [])) as [[-> ->]|Hne].
    - assert (f = []) as -> by (destruct f; [done|]; by destruct dirs). rewrite bool_decide_false by tauto. rewrite orb_false_r. simpl in Ell.
      rewrite !Nat.add_0_r in Ell. cbn [nonempty negb andb]. unfold absolute. rewrite Ell. rewrite !app_nil_r in El.
      destruct (length rn =? 2) eqn:E2; [simpl; by rewrite andb_false_r|]. simpl andb. cbn [negb]. rewrite andb_true_r.
      destruct rn as [|a rn0] eqn:Ern; [done|]. cbn [length Nat.eqb negb nonempty].
      destruct (pa_root _ _ _ _ _ _ P) as [Hroot|[? _]]; [|done]. simpl in Hroot.
      assert (Hlast : exists z c, l = z ++ [c] /\ ~ sep c).
      { inversion Hroot as [c r0 Hlc| |a' b' c' w' r' Ha Hb Hc Hw' Hrr]; subst; [simpl in E2; done|].
        destruct w' as [|y w' _] using rev_ind; [exists [a; b'], c'; done|].
        exists (a :: b' :: c' :: w'), y. split; [done|]. apply Forall_app in Hw' as [_ Hw']. by apply list.Forall_cons in Hw' as [? _]. }
      destruct Hlast as (z & c & Hz & Hc). replace (S (length rn0) - 1) with (length z).
      + rewrite (rd_app l z c []) by done. rewrite rbind_ok. f_equal. by apply not_nosep.
      + rewrite El in Hz. apply (f_equal length) in Hz. rewrite app_length in Hz. simpl in Hz. lia.
    - assert (Hlast : exists a c, l = a ++ [c] /\ (sep c <-> f = [])).
      { destruct f as [|c f _] using rev_ind.
        - rewrite app_nil_r in Hrel. destruct Hd as [->|(d & c & -> & Hc)].
          + subst rel. destruct rd as [|c rd _] using rev_ind; [exfalso; by apply Hne|].
            exists (rn ++ rd), c. split; [rewrite El, app_nil_r; by rewrite app_assoc|]. split; [done|]. intros _.
            pose proof (pa_dir _ _ _ _ _ _ P) as Hdd. apply Forall_app in Hdd as [_ Hdd]. by apply list.Forall_cons in Hdd as [? _].
          + exists (rn ++ rd ++ d), c. split; [rewrite El, Hrel; by rewrite <-!app_assoc|]. done.
        - exists (rn ++ rd ++ dirs ++ f), c. split; [rewrite El, Hrel; by rewrite <-!app_assoc|]. apply Forall_app in Hf as [_ Hf].
          apply list.Forall_cons in Hf as [Hc _]. split; [done|]. intros He. by destruct f. }
      destruct Hlast as (a & c & Ha & Hc).
      assert (Hcond : negb (length l =? 0) && negb ((length l =? 2) && (length rn =? 2)) = true).
      { rewrite (proj2 (Nat.eqb_neq _ 0)) by (rewrite Ha, app_length; simpl; lia). cbn [negb andb]. apply negb_true_iff, andb_false_iff.
        destruct (length l =? 2) eqn:E2; [|by left]. right. apply Nat.eqb_eq in E2. apply Nat.eqb_neq. intros E2'. apply Hne.
        split; [destruct rd; [done|simpl in Ell; lia]|destruct rel; [done|simpl in Ell; lia]]. }
      rewrite Hcond. replace (length l - 1) with (length a) by (rewrite Ha, app_length; simpl; lia).
      rewrite (rd_app l a c []) by done. rewrite rbind_ok. f_equal.
      assert (Hroot : negb (nonempty rd) && absolute rn rd = true -> rel = []).
      { intros [Hrd Hab]%andb_true_iff. destruct rd; [|done]. unfold absolute in Hab. destruct (length rn =? 2) eqn:E2'; [done|].
        destruct (pa_root _ _ _ _ _ _ P) as [Hrt|[-> _]]; [|done]. simpl in Hrt. destruct rel as [|y rel0]; [done|]. exfalso.
        apply (pa_rel _ _ _ _ _ _ P). inversion Hrt; subst.
        - simpl in E2'. done.
        - by exists y, rel0.
        - match goal with H : _ \/ starts_with_sep _ |- _ => destruct H; done end. }
      destruct (negb (nonempty rd) && absolute rn rd) eqn:Eab.
      { exfalso. apply Hne. split; [|by apply Hroot]. apply andb_true_iff in Eab as [Er' _]. by destruct rd. }
      simpl orb. apply eq_true_iff_eq. rewrite not_nosep, bool_decide_eq_true, Hc. done. }
  rewrite Hneed, rbind_ok. by destruct needs.
Qed.

(** the relative path with every run of separators squeezed into one -1 *)
Fixpoint code (after : bool) (l : text) : list Z :=
  match l with
  | [] => []
  | c :: l => if Is_slash c then (if after then [] else [(-1)%Z]) ++ code true l else c :: code false l
  end.
Lemma code_true l : code true l = code false (post Is_slash l).
Proof. induction l as [|c l IH]; simpl; [done|]. destruct (Is_slash c) eqn:E; simpl; [done|]. by rewrite E. Qed.
Lemma code_name n r : Forall (fun c => ~ sep c) n -> forall b, n <> [] -> code b (n ++ r) = n ++ code false r.
Proof.
  intros H. assert (Hf : code false (n ++ r) = n ++ code false r).
  { induction n as [|c n IH]; simpl; [done|]. apply list.Forall_cons in H as [Hc H]. rewrite (proj2 (slash_nosep c) Hc). by rewrite IH. }
  intros b Hn. destruct n as [|c n]; [done|]. simpl in *. apply list.Forall_cons in H as [Hc H]. rewrite (proj2 (slash_nosep c) Hc) in *. done.
Qed.
Lemma code_seps s r : Forall sep s -> code true (s ++ r) = code true r.
Proof. induction s as [|c s IH]; simpl; [done|]. intros H. apply list.Forall_cons in H as [Hc H]. rewrite (proj2 (slash_sep c) Hc). simpl. by apply IH. Qed.
Lemma code_seps1 s r : seps s -> code false (s ++ r) = (-1)%Z :: code true r.
Proof. intros [H0 H]. destruct s as [|c s]; [done|]. simpl. apply list.Forall_cons in H as [Hc H]. rewrite (proj2 (slash_sep c) Hc). simpl. by rewrite code_seps. Qed.
Fixpoint inter (e : list text) : list Z := match e with [] => [] | [x] => x | x :: e => x ++ (-1)%Z :: inter e end.
Definition els (ns : list text) (tr : bool) : list text := ns ++ (if tr then [[]] else []).
Lemma inter_cons x e : e <> [] -> inter (x :: e) = x ++ (-1)%Z :: inter e.
Proof. by destruct e. Qed.
Lemma code_inter rel ns tr : Filenames rel ns tr -> forall b, code b rel = inter (els ns tr).
Proof.
  induction 1 as [|n [Hn0 Hn]|n s [Hn0 Hn] Hs|n s r m ns tr [Hn0 Hn] Hs H IH]; intros b.
  - by destruct b.
  - rewrite <-(app_nil_r n) at 1. rewrite code_name by done. simpl. by rewrite app_nil_r.
  - rewrite code_name by done. rewrite <-(app_nil_r s). rewrite code_seps1 by done. done.
  - rewrite code_name by done. rewrite code_seps1 by done. rewrite (IH true). unfold els. simpl. done.
Qed.

Lemma lex_inter x xs y ys : (forall z, z ∈ x :: xs -> Forall (fun c => 0 <= c)%Z z) -> (forall z, z ∈ y :: ys -> Forall (fun c => 0 <= c)%Z z) ->
  lex cmpZ (inter (x :: xs)) (inter (y :: ys)) = lex cmp_text (x :: xs) (y :: ys).
Proof.
  revert y x ys. induction xs as [|x' xs IH]; intros y x ys Hx Hy.
  - (* [x] on the left *)
    assert (Hxx : Forall (fun c => 0 <= c)%Z x) by (apply Hx; by constructor).
    assert (Hyy : Forall (fun c => 0 <= c)%Z y) by (apply Hy; by constructor). clear Hx.
    destruct ys as [|y' ys].
    + simpl. destruct (cmp_text x y =? 0)%Z eqn:E; [by apply Z.eqb_eq|done].
    + rewrite (inter_cons y) by done. cbn [inter]. cbn [lex].
      clear Hy. revert y Hyy. induction x as [|c x IHx]; intros [|d y] Hyy; simpl; try done.
      * apply list.Forall_cons in Hxx as [Hc _]. unfold cmpZ. rewrite Z.sgn_pos by lia. done.
      * apply list.Forall_cons in Hxx as [Hc Hxx]. apply list.Forall_cons in Hyy as [Hd Hyy].
        unfold cmp_text. cbn [lex]. fold cmp_text. destruct (cmpZ c d =? 0)%Z eqn:E; [|by rewrite E]. apply (IHx Hxx y Hyy).
  - assert (Hxx : Forall (fun c => 0 <= c)%Z x) by (apply Hx; by constructor).
    assert (Hyy : Forall (fun c => 0 <= c)%Z y) by (apply Hy; by constructor).
    rewrite (inter_cons x) by done. destruct ys as [|y' ys].
    + cbn [inter]. cbn [lex]. clear Hx Hy. revert y Hyy. induction x as [|c x IHx]; intros [|d y] Hyy; simpl; try done.
      * apply list.Forall_cons in Hyy as [Hd _]. unfold cmpZ. rewrite Z.sgn_neg by lia. done.
      * apply list.Forall_cons in Hxx as [Hc Hxx]. apply list.Forall_cons in Hyy as [Hd Hyy].
        unfold cmp_text. cbn [lex]. fold cmp_text. destruct (cmpZ c d =? 0)%Z eqn:E; [|by rewrite E]. apply (IHx Hxx y Hyy).
    + rewrite (inter_cons y) by done.
      assert (Hrec : lex cmpZ (inter (x' :: xs)) (inter (y' :: ys)) = lex cmp_text (x' :: xs) (y' :: ys)).
      { apply IH; intros z Hz; [apply Hx|apply Hy]; by constructor. }
      change (lex cmp_text (x :: x' :: xs) (y :: y' :: ys)) with (if (cmp_text x y =? 0)%Z then lex cmp_text (x' :: xs) (y' :: ys) else cmp_text x y).
      rewrite <-Hrec. clear Hrec IH Hx Hy. generalize (inter (x' :: xs)) (inter (y' :: ys)). intros u v.
      revert y Hyy. induction x as [|c x IHx]; intros [|d y] Hyy; simpl; try done.
      * apply list.Forall_cons in Hyy as [Hd _]. unfold cmpZ. rewrite Z.sgn_neg by lia. done.
      * apply list.Forall_cons in Hxx as [Hc _]. unfold cmpZ. rewrite Z.sgn_pos by lia. done.
      * apply list.Forall_cons in Hxx as [Hc Hxx]. apply list.Forall_cons in Hyy as [Hd Hyy].
        unfold cmp_text. cbn [lex]. fold cmp_text. destruct (cmpZ c d =? 0)%Z eqn:E; [|by rewrite E]. apply (IHx Hxx y Hyy).
Qed.
Lemma Filenames_all rel ns tr (Q : Z -> Prop) : Filenames rel ns tr -> Forall Q rel -> forall z, z ∈ els ns tr -> Forall Q z.
Proof.
  unfold els. induction 1 as [|n [Hn0 Hn]|n s [Hn0 Hn] Hs|n s r m ns tr [Hn0 Hn] Hs H IH]; intros HQ z Hz.
  - by apply elem_of_nil in Hz.
  - simpl in Hz. by apply elem_of_list_singleton in Hz as ->.
  - apply Forall_app in HQ as [HQ _]. simpl in Hz. apply elem_of_cons in Hz as [->|Hz]; [done|]. apply elem_of_list_singleton in Hz as ->. done.
  - apply Forall_app in HQ as [HQ HQ2]. apply Forall_app in HQ2 as [_ HQ2]. simpl in Hz. apply elem_of_cons in Hz as [->|Hz]; [done|]. by apply IH.
Qed.
Lemma Filenames_hd rel ns tr : Filenames rel ns tr -> (rel = [] /\ els ns tr = []) \/ exists n e, els ns tr = n :: e /\ name n.
Proof. destruct 1; [by left|right..]; unfold els; simpl; eauto. Qed.
Lemma lex_code rel1 ns1 tr1 rel2 ns2 tr2 : Filenames rel1 ns1 tr1 -> Filenames rel2 ns2 tr2 -> wide rel1 -> wide rel2 ->
  lex cmpZ (code false rel1) (code false rel2) = lex cmp_text (els ns1 tr1) (els ns2 tr2).
Proof.
  intros F1 F2 W1 W2. rewrite (code_inter _ _ _ F1), (code_inter _ _ _ F2).
  assert (A1 : forall z, z ∈ els ns1 tr1 -> Forall (fun c => 0 <= c)%Z z).
  { apply (Filenames_all _ _ _ _ F1). eapply list.Forall_impl; [exact W1|]. intros c [? _]. done. }
  assert (A2 : forall z, z ∈ els ns2 tr2 -> Forall (fun c => 0 <= c)%Z z).
  { apply (Filenames_all _ _ _ _ F2). eapply list.Forall_impl; [exact W2|]. intros c [? _]. done. }
  destruct (Filenames_hd _ _ _ F1) as [[_ E1]|(n1 & e1 & E1 & [N1 _])], (Filenames_hd _ _ _ F2) as [[_ E2]|(n2 & e2 & E2 & [N2 _])]; rewrite E1, E2.
  - done.
  - destruct n2 as [|c n2]; [done|]. by destruct e2.
  - destruct n1 as [|c n1]; [done|]. by destruct e1.
  - apply lex_inter; [by rewrite <-E1|by rewrite <-E2].
Qed.

(** the comparison loop, at suffixes [u] of [a] and [v] of [b] *)
Lemma compare_loop_ok a b n : forall p u q v, a = p ++ u -> b = q ++ v -> wide u -> wide v -> length u < n ->
  exists z, compare_loop n a b (length p) (length q) = Ok z /\ Z.sgn z = lex cmpZ (code false u) (code false v).
Proof.
  induction n as [|n IH]; intros p u q v Ha Hb Hu Hv Hn; [lia|]. cbn [compare_loop].
  destruct u as [|x u].
  { rewrite app_nil_r in Ha. rewrite <-Ha, Nat.eqb_refl. simpl orb. cbv iota.
    destruct v as [|y v].
    - rewrite app_nil_r in Hb. rewrite <-Hb, Nat.eqb_refl. exists 0%Z. done.
    - rewrite (proj2 (Nat.eqb_neq _ _)) by (rewrite Hb, app_length; simpl; lia). exists (-1)%Z. split; [done|]. simpl.
      by destruct (Is_slash y). }
  rewrite (proj2 (Nat.eqb_neq (length p) _)) by (rewrite Ha, app_length; simpl; lia).
  destruct v as [|y v].
  { rewrite app_nil_r in Hb. rewrite <-Hb, Nat.eqb_refl. exists 1%Z. split; [done|]. simpl. by destruct (Is_slash x). }
  rewrite (proj2 (Nat.eqb_neq (length q) _)) by (rewrite Hb, app_length; simpl; lia). simpl orb. cbv iota.
  rewrite (rd_app a p x u Ha), (rd_app b q y v Hb), !rbind_ok.
  apply list.Forall_cons in Hu as [Hx Hu]. apply list.Forall_cons in Hv as [Hy Hv].
  assert (Ha' : a = (p ++ [x]) ++ u) by (rewrite Ha; by rewrite <-app_assoc).
  assert (Hb' : b = (q ++ [y]) ++ v) by (rewrite Hb; by rewrite <-app_assoc).
  assert (Hlp : S (length p) = length (p ++ [x])) by (rewrite app_length; simpl; lia).
  assert (Hlq : S (length q) = length (q ++ [y])) by (rewrite app_length; simpl; lia).
  destruct (Is_slash x) eqn:Sx, (Is_slash y) eqn:Sy; cbn [b2z negb].
  - change (negb (1 - 1 =? 0)%Z) with false. cbv iota. rewrite Hlp, Hlq.
    rewrite (find_if_not_ok Is_slash a (p ++ [x]) (pre Is_slash u) (post Is_slash u)); [|by rewrite pre_post|apply pre_all|apply post_stops].
    rewrite rbind_ok.
    rewrite (find_if_not_ok Is_slash b (q ++ [y]) (pre Is_slash v) (post Is_slash v)); [|by rewrite pre_post|apply pre_all|apply post_stops].
    rewrite rbind_ok. rewrite <-!app_length.
    destruct (IH ((p ++ [x]) ++ pre Is_slash u) (post Is_slash u) ((q ++ [y]) ++ pre Is_slash v) (post Is_slash v)) as (z & Hz & Hs).
    + rewrite Ha', <-!app_assoc. by rewrite pre_post.
    + rewrite Hb', <-!app_assoc. by rewrite pre_post.
    + rewrite <-(pre_post Is_slash u) in Hu. by apply Forall_app in Hu as [_ ?].
    + rewrite <-(pre_post Is_slash v) in Hv. by apply Forall_app in Hv as [_ ?].
    + pose proof (f_equal length (pre_post Is_slash u)) as E. rewrite app_length in E. simpl in Hn. lia.
    + exists z. split; [exact Hz|]. rewrite Hs. simpl. rewrite Sx, Sy. simpl. by rewrite !code_true.
  - exists (-1)%Z. split; [done|]. simpl. rewrite Sx, Sy. simpl. unfold cmpZ. rewrite (Z.sgn_neg (-1 - y)) by lia. done.
  - exists 1%Z. split; [done|]. simpl. rewrite Sx, Sy. simpl. unfold cmpZ. rewrite (Z.sgn_pos (x - -1)) by lia. done.
  - change (negb (0 - 0 =? 0)%Z) with false. cbv iota. destruct (x - y =? 0)%Z eqn:Exy; cbn [negb].
    + rewrite Hlp, Hlq. destruct (IH (p ++ [x]) u (q ++ [y]) v) as (z & Hz & Hs); try done; [simpl in Hn; lia|]. exists z. split; [done|].
      rewrite Hs. simpl. rewrite Sx, Sy. simpl. unfold cmpZ at 2. apply Z.eqb_eq in Exy. by rewrite Exy.
    + exists (x - y)%Z. split; [done|]. simpl. rewrite Sx, Sy. simpl. unfold cmpZ. apply Z.eqb_neq in Exy.
      rewrite (proj2 (Z.eqb_neq (Z.sgn (x - y)) 0)); [done|]. by rewrite Z.sgn_null_iff.
Qed.
Lemma cmp_text_sgn a b : Z.sgn (cmp_text a b) = cmp_text a b.
Proof.
  unfold cmp_text. revert b. induction a as [|x a IH]; intros [|y b]; simpl; try done.
  destruct (cmpZ x y =? 0)%Z eqn:E; [done|]. unfold cmpZ. by rewrite Z.sgn_sgn.
Qed.
Lemma cmp_text_range a b : (cmp_text a b = -1 \/ cmp_text a b = 0 \/ cmp_text a b = 1)%Z.
Proof. rewrite <-cmp_text_sgn. destruct (Z.sgn_spec (cmp_text a b)) as [[_ ->]|[[_ ->]|[_ ->]]]; auto. Qed.

Lemma compare_ok a rn rd rel ns tr b rn' rd' rel' ns' tr' : wide a -> wide b -> Parsed a rn rd rel ns tr -> Parsed b rn' rd' rel' ns' tr' ->
  exists z, compare a b = Ok z /\ Z.sgn z = cmp_path rn rd ns tr rn' rd' ns' tr'.
Proof.
  intros Ha Hb P P'. unfold compare, cmp_path. rewrite (parsed_rne P Ha), rbind_ok, (parsed_rne P' Hb), rbind_ok.
  pose proof (pa_text _ _ _ _ _ _ P) as Et. pose proof (pa_text _ _ _ _ _ _ P') as Eo.
  assert (E1 : take (length rn) a = rn) by (rewrite Et; apply take_app).
  assert (E2 : take (length rn') b = rn') by (rewrite Eo; apply take_app).
  rewrite E1, E2, range_compare_lex. unfold then_ at 1. destruct (cmp_text rn rn' =? 0)%Z eqn:Ec; cbn [negb].
  2:{ exists (cmp_text rn rn'). split; [done|]. apply cmp_text_sgn. }
  rewrite (parsed_fnot P), rbind_ok, (parsed_fnot P'), rbind_ok.
  assert (H1 : negb (length rn =? length rn + length rd) = nonempty rd).
  { destruct rd as [|x rd0]; simpl; [rewrite Nat.add_0_r; by rewrite Nat.eqb_refl|]. apply negb_true_iff, Nat.eqb_neq. lia. }
  assert (H2 : negb (length rn' =? length rn' + length rd') = nonempty rd').
  { destruct rd' as [|x rd0]; simpl; [rewrite Nat.add_0_r; by rewrite Nat.eqb_refl|]. apply negb_true_iff, Nat.eqb_neq. lia. }
  rewrite H1, H2. unfold then_. destruct (b2z (nonempty rd) - b2z (nonempty rd') =? 0)%Z eqn:Eb; cbn [negb].
  2:{ exists (b2z (nonempty rd) - b2z (nonempty rd'))%Z. split; [done|]. by destruct (nonempty rd), (nonempty rd'). }
  assert (Hcb : cmp_bool (nonempty rd) (nonempty rd') = 0%Z) by (by destruct (nonempty rd), (nonempty rd')).
  rewrite Hcb. change (0 =? 0)%Z with true. cbv iota. rewrite <-!app_length.
  assert (Hwr : wide rel) by (unfold wide in Ha; rewrite Et in Ha; apply Forall_app in Ha as [_ Ha]; by apply Forall_app in Ha as [_ Ha]).
  assert (Hwr' : wide rel') by (unfold wide in Hb; rewrite Eo in Hb; apply Forall_app in Hb as [_ Hb]; by apply Forall_app in Hb as [_ Hb]).
  destruct (compare_loop_ok a b (S (length a)) (rn ++ rd) rel (rn' ++ rd') rel') as (z & Hz & Hs); try done.
  - rewrite Et. by rewrite app_assoc.
  - rewrite Eo. by rewrite app_assoc.
  - rewrite (parsed_len P). lia.
  - exists z. split; [done|]. rewrite Hs. by apply lex_code; [apply P|apply P'| |].
Qed.
Lemma cmp_path_eq rn rd ns tr rn' rd' ns' tr' : cmp_path rn rd ns tr rn' rd' ns' tr' = 0%Z <->
  rn = rn' /\ nonempty rd = nonempty rd' /\ els ns tr = els ns' tr'.
Proof.
  unfold cmp_path, then_. split.
  - destruct (cmp_text rn rn' =? 0)%Z eqn:E1; [|intros H; by rewrite H in E1]. apply Z.eqb_eq, cmp_text_eq in E1.
    destruct (cmp_bool (nonempty rd) (nonempty rd') =? 0)%Z eqn:E2; [|intros H; by rewrite H in E2].
    intros H. apply lex_eq in H; [|intros x y; apply cmp_text_eq]. split; [done|]. split; [|done].
    by destruct (nonempty rd), (nonempty rd').
  - intros (-> & Hd & He). rewrite (proj2 (cmp_text_eq _ _) eq_refl), Z.eqb_refl. rewrite Hd. unfold cmp_bool. rewrite cmpZ_refl, Z.eqb_refl.
    unfold els in He. rewrite He. apply lex_refl. intros x. by apply cmp_text_eq.
Qed.

(** hash_value *)
Definition unsep (z : Z) : Z := if (z =? -1)%Z then 92%Z else z.
Lemma hash_loop_ok {H} (fnv : H -> Z -> H) t p u b v : t = p ++ u -> wide u ->
  hash_loop fnv (length u) t (length p) b v = Ok (fold_left fnv (unsep <$> code b u) v).
Proof.
  revert p b v. induction u as [|c u IH]; intros p b v Ht Hu; [done|]. cbn [hash_loop length]. rewrite (rd_app t p c u Ht), rbind_ok.
  apply list.Forall_cons in Hu as [Hc Hu].
  assert (Hl : S (length p) = length (p ++ [c])) by (rewrite app_length; simpl; lia). rewrite Hl.
  assert (Ht' : t = (p ++ [c]) ++ u) by (rewrite Ht; by rewrite <-app_assoc).
  simpl code. destruct (Is_slash c).
  - destruct b; rewrite IH by done; done.
  - rewrite IH by done. simpl. f_equal. f_equal. unfold unsep. by rewrite (proj2 (Z.eqb_neq c (-1))) by lia.
Qed.
Lemma hash_ok {H} (fnv : H -> Z -> H) basis t rn rd rel ns tr : wide t -> Parsed t rn rd rel ns tr ->
  hash_value fnv basis t = Ok (fold_left fnv (unsep <$> (if nonempty rd then [(-1)%Z] else []) ++ inter (els ns tr)) (fold_left fnv rn basis)).
Proof.
  intros Hw P. unfold hash_value. rewrite (parsed_rne P Hw), rbind_ok. pose proof (pa_text _ _ _ _ _ _ P) as Et.
  assert (E1 : take (length rn) t = rn) by (rewrite Et; apply take_app). rewrite E1.
  replace (length t - length rn) with (length (rd ++ rel)) by (rewrite (parsed_len P), app_length; lia).
  rewrite (hash_loop_ok fnv t rn (rd ++ rel)); [|done|rewrite Et in Hw; unfold wide in Hw; by apply Forall_app in Hw as [_ ?]].
  do 3 f_equal. destruct rd as [|x rd0] eqn:Erd.
  - simpl. apply code_inter, P.
  - rewrite code_seps1 by (split; [done|apply P]). simpl. f_equal. apply code_inter, P.
Qed.
