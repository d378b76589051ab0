(** Insertion: the repair loop and _Insert_node. *)
From stdpp Require Import base list numbers option decidable.
From Coq Require Import Lia.
From Verif Require Import Base.Res Base.Order Cont.TreeModel Cont.TreeSpec Cont.TreeProofs Cont.TreeProofs2.

Section tree.
Context {V : Type}.
Implicit Types (h : heap V) (t l r : tree V).
Notation frame := (@frame V).
(** K accepts a subtree with root colour c and black height n *)
Inductive kb : color -> nat -> list frame -> Prop :=
  | kb_nil n : kb Black n []
  | kb_FLr n x v r K : kb Red n K -> rb Black n r -> kb Black n (FL Red x v r :: K)
  | kb_FRr n l x v K : kb Red n K -> rb Black n l -> kb Black n (FR Red l x v :: K)
  | kb_FLb c c' n x v r K : kb Black (S n) K -> rb c' n r -> kb c n (FL Black x v r :: K)
  | kb_FRb c c' n l x v K : kb Black (S n) K -> rb c' n l -> kb c n (FR Black l x v :: K).
Lemma rb_col c n t : rb c n t -> col t = c.
Proof. by destruct 1. Qed.
Lemma kb_weak n K : kb Red n K -> kb Black n K.
Proof. inversion 1; subst; econstructor; eauto. Qed.
Lemma rb_up K : forall c n t, rb c n t -> kb c n K -> exists m, rb Black m (plug K t).
Proof.
  induction K as [|f K IH]; intros c n t Ht Hk.
  - inversion Hk; subst. eauto.
  - inversion Hk; subst; cbn [plug fill]; eapply IH; eauto; econstructor; eauto.
Qed.
Lemma rb_down K : forall n t, rb Black n (plug K t) -> exists c m, rb c m t /\ kb c m K.
Proof.
  induction K as [|f K IH]; intros n t H.
  - exists Black, n. split; [done|constructor].
  - cbn [plug] in H. apply IH in H as (c & m & Ht & Hk). destruct f as [c' x v r|c' l x v]; cbn [fill] in Ht; inversion Ht; subst; eexists _, _; (split; [eassumption|]); econstructor; eauto.
Qed.
Ltac rd pf := let X := fresh in pose proof pf as X; cbn [root] in X; rewrite X, rbind_ok; clear X; cbn [parK fptr root].
Ltac wr pf h' H' := apply wp_bind; eapply wp_mono; [apply pf|]; intros h' H'.
Ltac dF := rewrite decide_False by done.
Ltac dT := rewrite decide_True by done.
Ltac inord := cbn [plug fill]; rewrite !inorder_plug; cbn [inorder]; rewrite <- ?app_assoc; cbn [app]; rewrite <- ?app_assoc; cbn [app]; rewrite <- ?app_assoc; try done.
Lemma isE_E t : isE t = true <-> t = E.
Proof. by destruct t. Qed.

Definition ifix_post D mn mx (K : list frame) (whole : tree V) (res : (heap V * nat) + heap V) : Prop :=
  match res with
  | inl (h', p) => exists K' l' v' r' n', rep D mn mx h' (plug K' (T Red l' p v' r')) /\ rb Black n' l' /\ rb Black n' r' /\ kb Black n' K' /\
      inorder (plug K' (T Red l' p v' r')) = inorder whole /\ length K' < length K
  | inr h' => exists t' c n', rep D mn mx h' t' /\ rb c n' t' /\ inorder t' = inorder whole
  end.
Lemma node_ne_l D mn mx h K c l x v r : rep D mn mx h (plug K (T c l x v r)) -> x <> root l /\ x <> root r /\ x <> 0 /\ (root l <> 0 -> root l <> root r).
Proof.
  intros H%rep_z. pose proof (zr_nd _ _ _ _ _ _ H) as Hn. rewrite ptrs_T in Hn. apply list.NoDup_cons in Hn as [H0 Hn]. rewrite elem_of_app, elem_of_cons in H0.
  apply list.NoDup_app in Hn as (_ & _ & Hn). apply list.NoDup_cons in Hn as [Hx Hn]. rewrite elem_of_app in Hx. apply list.NoDup_app in Hn as (_ & Hlr & _).
  destruct (tr_root_in l) as [El|El], (tr_root_in r) as [Er|Er]; rewrite ?El, ?Er; split_and!; try (intros Hc; rewrite ?Hc in *; tauto).
  - intros Hl Hc. apply (Hlr _ El). rewrite Hc. done.
Qed.
Lemma Insert_fix_ok D mn mx h K l x v r n : rep D mn mx h (plug K (T Red l x v r)) -> rb Black n l -> rb Black n r -> kb Black n K ->
  wp (Insert_fix h x) (ifix_post D mn mx K (plug K (T Red l x v r))).
Proof.
  intros H Hl Hr HK. unfold Insert_fix. rewrite (Pz _ _ _ _ _ _ _ _ _ _ H), rbind_ok.
  rewrite (parcol D mn mx h K ltac:(right; eauto 10)), rbind_ok.
  inversion HK as [n'|n' y w s K' HK' Hs|n' s y w K' HK' Hs|c c' n' y w s K' HK' Hs|c c' n' s y w K' HK' Hs]; subst; cbn [parK fptr].
  - rewrite decide_False by done. cbn. exists (T Red l x v r), Red, n. split_and!; try done. by constructor.
  - dT. rewrite rbind_ok. cbn [parK fptr]. rd (Pz D mn mx h K' Red (T Red l x v r) y w s H).
    inversion HK' as [| | |c c' n' z u sib K2 HK2 Hsib|c c' n' sib z u K2 HK2 Hsib]; subst; cbn [parK fptr].
    + rd (Lz D mn mx h K2 Black (T Red (T Red l x v r) y w s) z u sib H).
      dT. rd (Rz D mn mx h K2 Black (T Red (T Red l x v r) y w s) z u sib H).
      rd (colz D mn mx h (FR Black (T Red (T Red l x v r) y w s) z u :: K2) sib H). rewrite (rb_col _ _ _ Hsib).
      destruct c'.
      * dT. inversion Hsib as [|? sl sx sv sr Hsl Hsr|]; subst. cbn [root].
        wr (setC_z D mn mx h (FL Black z u (T Red sl sx sv sr) :: K2) Red (T Red l x v r) y w s Black H) h1 H1.
        wr (setC_z D mn mx h1 (FR Black (T Black (T Red l x v r) y w s) z u :: K2) Red sl sx sv sr Black H1) h2 H2.
        wr (setC_z D mn mx h2 K2 Black (T Black (T Red l x v r) y w s) z u (T Black sl sx sv sr) Red H2) h3 H3.
        cbn [wp ifix_post]. eexists K2, _, u, _, (S n). split_and!; [exact H3| | |done|by inord|cbn; lia]; (econstructor; [|first [done|by constructor]]); first [done|by constructor].
      * dF.
        rd (Rz D mn mx h (FL Black z u sib :: K2) Red (T Red l x v r) y w s H).
        pose proof (node_ne_l D mn mx h (FL Black z u sib :: K2) Red (T Red l x v r) y w s H) as (_ & _ & _ & Hne). cbn [root] in Hne.
        assert (Hx0 : x <> 0) by (eapply node_ne_l; exact H). rewrite decide_False by (by apply Hne). rewrite rbind_ok.
        rd (Pz D mn mx h (FL Red y w s :: FL Black z u sib :: K2) Red l x v r H).
        wr (setC_z D mn mx h (FL Black z u sib :: K2) Red (T Red l x v r) y w s Black H) h1 H1.
        rd (Pz D mn mx h1 (FL Black y w s :: FL Black z u sib :: K2) Red l x v r H1).
        rd (Pz D mn mx h1 (FL Black z u sib :: K2) Black (T Red l x v r) y w s H1).
        wr (setC_z D mn mx h1 K2 Black (T Black (T Red l x v r) y w s) z u sib Red H1) h2 H2.
        wr (rrot_z D mn mx h2 K2 Red sib z u Black s y w (T Red l x v r) H2) h3 H3.
        cbn [wp ifix_post]. exists (FL Black y w (T Red s z u sib) :: K2), l, v, r, n.
        split_and!; try done; [econstructor; [done|by constructor]|by inord|cbn; lia].
    + rd (Lz D mn mx h K2 Black sib z u (T Red (T Red l x v r) y w s) H).
      pose proof (node_ne_l D mn mx h K2 Black sib z u (T Red (T Red l x v r) y w s) H) as (_ & _ & _ & Hg). assert (Hy0 : y <> 0) by (refine (proj1 (proj2 (proj2 (node_ne_l D mn mx h (FR Black sib z u :: K2) Red (T Red l x v r) y w s H))))). cbn [root] in Hg.
      rewrite decide_False by (intros Ec; destruct (decide (root sib = 0)); [congruence|by apply Hg]). rewrite rbind_ok.
      rd (colz D mn mx h (FL Black z u (T Red (T Red l x v r) y w s) :: K2) sib H). rewrite (rb_col _ _ _ Hsib).
      destruct c'.
      * dT. inversion Hsib as [|? sl sx sv sr Hsl Hsr|]; subst. cbn [root].
        wr (setC_z D mn mx h (FR Black (T Red sl sx sv sr) z u :: K2) Red (T Red l x v r) y w s Black H) h1 H1.
        wr (setC_z D mn mx h1 (FL Black z u (T Black (T Red l x v r) y w s) :: K2) Red sl sx sv sr Black H1) h2 H2.
        wr (setC_z D mn mx h2 K2 Black (T Black sl sx sv sr) z u (T Black (T Red l x v r) y w s) Red H2) h3 H3.
        cbn [wp ifix_post]. eexists K2, _, u, _, (S n). split_and!; [exact H3| | |done|by inord|cbn; lia]; (econstructor; [|first [done|by constructor]]); first [done|by constructor].
      * dF.
        rd (Lz D mn mx h (FR Black sib z u :: K2) Red (T Red l x v r) y w s H).
        dT.
        apply wp_bind. wr (rrot_z D mn mx h (FR Black sib z u :: K2) Red s y w Red r x v l H) h1 H1. cbn [wp].
        rd (Pz D mn mx h1 (FR Red l x v :: FR Black sib z u :: K2) Red r y w s H1).
        wr (setC_z D mn mx h1 (FR Black sib z u :: K2) Red l x v (T Red r y w s) Black H1) h2 H2.
        rd (Pz D mn mx h2 (FR Black l x v :: FR Black sib z u :: K2) Red r y w s H2).
        rd (Pz D mn mx h2 (FR Black sib z u :: K2) Black l x v (T Red r y w s) H2).
        wr (setC_z D mn mx h2 K2 Black sib z u (T Black l x v (T Red r y w s)) Red H2) h3 H3.
        wr (lrot_z D mn mx h3 K2 Red sib z u Black l x v (T Red r y w s) H3) h4 H4.
        cbn [wp ifix_post]. exists (FR Black (T Red sib z u l) x v :: K2), r, w, s, n.
        split_and!; try done; [econstructor; [done|by constructor]|by inord|cbn; lia].
  - dT. rewrite rbind_ok. cbn [parK fptr]. rd (Pz D mn mx h K' Red s y w (T Red l x v r) H).
    inversion HK' as [| | |c c' n' z u sib K2 HK2 Hsib|c c' n' sib z u K2 HK2 Hsib]; subst; cbn [parK fptr].
    + rd (Lz D mn mx h K2 Black (T Red s y w (T Red l x v r)) z u sib H).
      dT. rd (Rz D mn mx h K2 Black (T Red s y w (T Red l x v r)) z u sib H).
      rd (colz D mn mx h (FR Black (T Red s y w (T Red l x v r)) z u :: K2) sib H). rewrite (rb_col _ _ _ Hsib).
      destruct c'.
      * dT. inversion Hsib as [|? sl sx sv sr Hsl Hsr|]; subst. cbn [root].
        wr (setC_z D mn mx h (FL Black z u (T Red sl sx sv sr) :: K2) Red s y w (T Red l x v r) Black H) h1 H1.
        wr (setC_z D mn mx h1 (FR Black (T Black s y w (T Red l x v r)) z u :: K2) Red sl sx sv sr Black H1) h2 H2.
        wr (setC_z D mn mx h2 K2 Black (T Black s y w (T Red l x v r)) z u (T Black sl sx sv sr) Red H2) h3 H3.
        cbn [wp ifix_post]. eexists K2, _, u, _, (S n). split_and!; [exact H3| | |done|by inord|cbn; lia]; (econstructor; [|first [done|by constructor]]); first [done|by constructor].
      * dF.
        rd (Rz D mn mx h (FL Black z u sib :: K2) Red s y w (T Red l x v r) H).
        dT.
        apply wp_bind. wr (lrot_z D mn mx h (FL Black z u sib :: K2) Red s y w Red l x v r H) h1 H1. cbn [wp].
        rd (Pz D mn mx h1 (FL Red x v r :: FL Black z u sib :: K2) Red s y w l H1).
        wr (setC_z D mn mx h1 (FL Black z u sib :: K2) Red (T Red s y w l) x v r Black H1) h2 H2.
        rd (Pz D mn mx h2 (FL Black x v r :: FL Black z u sib :: K2) Red s y w l H2).
        rd (Pz D mn mx h2 (FL Black z u sib :: K2) Black (T Red s y w l) x v r H2).
        wr (setC_z D mn mx h2 K2 Black (T Black (T Red s y w l) x v r) z u sib Red H2) h3 H3.
        wr (rrot_z D mn mx h3 K2 Red sib z u Black r x v (T Red s y w l) H3) h4 H4.
        cbn [wp ifix_post]. exists (FL Black x v (T Red r z u sib) :: K2), s, w, l, n.
        split_and!; try done; [econstructor; [done|by constructor]|by inord|cbn; lia].
    + rd (Lz D mn mx h K2 Black sib z u (T Red s y w (T Red l x v r)) H).
      pose proof (node_ne_l D mn mx h K2 Black sib z u (T Red s y w (T Red l x v r)) H) as (_ & _ & _ & Hg). assert (Hy0 : y <> 0) by (refine (proj1 (proj2 (proj2 (node_ne_l D mn mx h (FR Black sib z u :: K2) Red s y w (T Red l x v r) H))))). cbn [root] in Hg.
      rewrite decide_False by (intros Ec; destruct (decide (root sib = 0)); [congruence|by apply Hg]). rewrite rbind_ok.
      rd (colz D mn mx h (FL Black z u (T Red s y w (T Red l x v r)) :: K2) sib H). rewrite (rb_col _ _ _ Hsib).
      destruct c'.
      * dT. inversion Hsib as [|? sl sx sv sr Hsl Hsr|]; subst. cbn [root].
        wr (setC_z D mn mx h (FR Black (T Red sl sx sv sr) z u :: K2) Red s y w (T Red l x v r) Black H) h1 H1.
        wr (setC_z D mn mx h1 (FL Black z u (T Black s y w (T Red l x v r)) :: K2) Red sl sx sv sr Black H1) h2 H2.
        wr (setC_z D mn mx h2 K2 Black (T Black sl sx sv sr) z u (T Black s y w (T Red l x v r)) Red H2) h3 H3.
        cbn [wp ifix_post]. eexists K2, _, u, _, (S n). split_and!; [exact H3| | |done|by inord|cbn; lia]; (econstructor; [|first [done|by constructor]]); first [done|by constructor].
      * dF.
        rd (Lz D mn mx h (FR Black sib z u :: K2) Red s y w (T Red l x v r) H).
        pose proof (node_ne_l D mn mx h (FR Black sib z u :: K2) Red s y w (T Red l x v r) H) as (_ & _ & _ & Hne). cbn [root] in Hne.
        assert (Hx0 : x <> 0) by (eapply node_ne_l; exact H). rewrite decide_False by (intros Ec; destruct (decide (root s = 0)); [congruence|by apply Hne]). rewrite rbind_ok.
        rd (Pz D mn mx h (FR Red s y w :: FR Black sib z u :: K2) Red l x v r H).
        wr (setC_z D mn mx h (FR Black sib z u :: K2) Red s y w (T Red l x v r) Black H) h1 H1.
        rd (Pz D mn mx h1 (FR Black s y w :: FR Black sib z u :: K2) Red l x v r H1).
        rd (Pz D mn mx h1 (FR Black sib z u :: K2) Black s y w (T Red l x v r) H1).
        wr (setC_z D mn mx h1 K2 Black sib z u (T Black s y w (T Red l x v r)) Red H1) h2 H2.
        wr (lrot_z D mn mx h2 K2 Red sib z u Black s y w (T Red l x v r) H2) h3 H3.
        cbn [wp ifix_post]. exists (FR Black (T Red sib z u s) y w :: K2), l, v, r, n.
        split_and!; try done; [econstructor; [done|by constructor]|by inord|cbn; lia].
  - dF. cbn [wp ifix_post]. destruct (rb_up (FL Black y w s :: K') Red n (T Red l x v r)) as [m Hm]; [by constructor|by econstructor|]. eauto 10.
  - dF. cbn [wp ifix_post]. destruct (rb_up (FR Black s y w :: K') Red n (T Red l x v r)) as [m Hm]; [by constructor|by econstructor|]. eauto 10.
Qed.
Lemma lenK (K : list frame) : length K <= length (kptrs K).
Proof.
  induction K as [|[c x v r|c l x v] K IH]; [cbn; lia| |]; [rewrite kptrs_FL|rewrite kptrs_FR]; cbn [length]; rewrite app_length; lia.
Qed.
Lemma Insert_loop D mn mx whole : forall fuel h K l x v r n, rep D mn mx h (plug K (T Red l x v r)) -> rb Black n l -> rb Black n r -> kb Black n K -> inorder (plug K (T Red l x v r)) = whole ->
  length K < fuel -> wp (loop fuel (fun '(h, p) => Insert_fix h p) (h, x)) (fun h' => exists t' c n', rep D mn mx h' t' /\ rb c n' t' /\ inorder t' = whole).
Proof.
  induction fuel as [|fuel IH]; intros h K l x v r n H Hl Hr HK Hin Hf; [lia|]. cbn [loop]. apply wp_bind. eapply wp_mono; [by eapply Insert_fix_ok|].
  intros [[h' p]|h']; cbn [ifix_post wp].
  - intros (K' & l' & v' & r' & n' & H' & Hl' & Hr' & HK' & Hin' & Hlen). eapply IH; try done; [congruence|lia].
  - intros (t' & c & n' & H' & Hb & Hin'). exists t', c, n'. split_and!; try done. congruence.
Qed.
Lemma rb_blacken c n t : rb c n t -> t = E \/ exists l x v r m, t = T c l x v r /\ rb Black m (T Black l x v r).
Proof. destruct 1; [by left|right; eexists _, _, _, _, _; split; [done|econstructor; eauto]..]. Qed.
Lemma root_blacken D mn mx h t c n : rep D mn mx h t -> rb c n t ->
  wp (root <~ P h head ;; setC h root Black) (fun h' => exists t' m, rep D mn mx h' t' /\ rb Black m t' /\ inorder t' = inorder t).
Proof.
  intros H Hb. unfold head. rewrite (Ph _ _ _ _ _ H), rbind_ok. destruct (rb_blacken _ _ _ Hb) as [->|(l & x & v & r & m & -> & Hb')]; cbn [root].
  - eapply wp_mono; [by eapply setC_nil|]. intros h' H'. exists E, 0. split_and!; try done. constructor.
  - eapply wp_mono; [apply (setC_z D mn mx h [] c l x v r Black H)|]. intros h' H'. eexists _, _. split; [exact H'|]. split; [exact Hb'|done].
Qed.
Definition side (K : list frame) (ch : child) : Prop := match K with [] => True | FL _ _ _ _ :: _ => ch = CLeft | FR _ _ _ _ :: _ => ch = CRight end.
Lemma last_snoc_app (a b : list nat) x : list.last (a ++ x :: b) = if decide (b = []) then Some x else list.last b.
Proof.
  case_decide as Hb; [subst; apply last_snoc|]. destruct b as [|y b] using rev_ind; [done|]. clear IHb.
  change (a ++ x :: b ++ [y]) with (a ++ (x :: b) ++ [y]). rewrite app_assoc, !last_snoc. done.
Qed.
Lemma head_app (a b : list nat) x : (a ++ x :: b) !! 0 = if decide (a = []) then Some x else a !! 0.
Proof. by destruct a. Qed.
Lemma Insert_node_ok D (s : tst V) K ch new v n : rep D (minp (inorder (plug K E))) (maxp (inorder (plug K E))) (mem s) (plug K E) -> rb Black n (plug K E) ->
  mem s new = Some (Node 0 0 0 Red false (Some v)) -> new ∉ 0 :: ptrs (plug K E) -> msize s = length (inorder (plug K E)) -> side K ch ->
  wp (Insert_node s (parK K, ch) new) (fun s' => exists t' m, inorder t' = before K ++ (new, v) :: after K /\ rb Black m t' /\
    rep D (minp (inorder t')) (maxp (inorder t')) (mem s') t' /\ msize s' = S (msize s)).
Proof.
  intros H Hb Hnew Hni Hsz Hside. unfold Insert_node. cbn [fst snd]. set (mn := minp _) in *. set (mx := maxp _) in *.
  destruct (rb_down _ _ _ Hb) as (c0 & n0 & Hb0 & HK). inversion Hb0; subst c0 n0. pose proof (isSome_dom D _ _ _ (rep_dom _ _ _ _ _ H) Hnew) as HDn.
  unfold setP at 1, ld. rewrite Hnew, rbind_ok, rbind_ok. cbn [nleft nparent nright ncolor nisnil nval]. set (h1 := upd (mem s) new _).
  assert (Hn0 : new <> 0). { intros ->. apply Hni. apply elem_of_cons. by left. }
  assert (Hnk : new ∉ kptrs K). { intros Hin. apply Hni. rewrite ptrs_plug. apply elem_of_cons. right. apply elem_of_app. by left. }
  pose proof H as Hz%rep_z. destruct Hz as [HD Hkr _ Hnd]. cbn [root] in Hkr.
  assert (Hk1 : krep h1 mn mx 0 K). { eapply krep_frame; [| |exact Hkr]; [by apply upd_ne|]. intros z Hz. apply upd_ne. congruence. }
  assert (HD1 : forall p, is_Some (h1 p) <-> D p) by (by apply upd_dom).
  assert (Hn1 : h1 new = Some (Node 0 (parK K) 0 Red false (Some v))) by apply upd_eq.
  assert (Hnd1 : NoDup (0 :: kptrs K ++ ptrs (T Red E new v E))).
  { unfold ptrs at 1. cbn. rewrite app_nil_r in Hnd. rewrite <- Permutation_cons_append. apply list.NoDup_cons in Hnd as [? ?]. rewrite !list.NoDup_cons, elem_of_cons. split_and!; [|done|done]. intros [?|?]; [congruence|done]. }
  assert (Hndk : NoDup (0 :: kptrs K)). { by rewrite app_nil_r in Hnd. }
  assert (HlenK : length K <= msize s).
  { rewrite Hsz, inorder_plug. cbn [inorder]. pose proof (lenK K) as Hlk. unfold kptrs in Hlk. rewrite app_length, !fmap_length in Hlk. rewrite !app_length. lia. }
  destruct K as [|f K'].
  - rewrite decide_True by done. cbn [parK] in *. cbn [krep] in Hk1.
    unfold setL, ld, head. rewrite Hk1, rbind_ok, rbind_ok. cbn [nleft nparent nright ncolor nisnil nval].
    unfold setP, ld. rewrite upd_eq, rbind_ok, rbind_ok. cbn [nleft nparent nright ncolor nisnil nval].
    unfold setR, ld. rewrite upd_eq, rbind_ok, rbind_ok. cbn [nleft nparent nright ncolor nisnil nval].
    unfold setC, ld. rewrite !upd_ne by done. rewrite Hn1, rbind_ok, rbind_ok. cbn [wp mem msize nleft nparent nright ncolor nisnil nval].
    exists (T Black E new v E), 1. split_and!; [done|econstructor; constructor| |done]. cbn.
    assert (HD0 : D 0) by (by eapply isSome_dom). constructor.
    + repeat (apply upd_dom; [done|]). done.
    + by rewrite upd_ne, upd_eq by done.
    + cbn. by rewrite upd_eq.
    + unfold ptrs. cbn. rewrite !list.NoDup_cons, !elem_of_cons. split_and!; [|apply not_elem_of_nil|apply NoDup_nil_2]. intros [?|Hc]; [done|by apply elem_of_nil in Hc].
  - set (K := f :: K') in *. assert (Hpk : parK K ∈ kptrs K) by apply fptr_in. assert (Hpk0 : parK K <> 0). { intros E. rewrite E in Hpk. apply list.NoDup_cons in Hndk. tauto. }
    rewrite decide_False by done. rewrite bool_decide_true by (unfold K in Hside; destruct f; cbn in Hside; by rewrite Hside). cbn [rassert]. rewrite rbind_ok.
    set (h2 := relinkK h1 mn mx K new).
    assert (H2 : rep D mn mx h2 (plug K (T Red E new v E))).
    { apply rep_z. constructor; [by eapply relinkK_dom|by eapply relinkK_krep| |done]. cbn [tr root]. split_and!; try done. unfold h2. rewrite relinkK_ne; [done|]. congruence. }
    set (l' := before K ++ (new, v) :: after K). assert (Hl' : inorder (plug K (T Red E new v E)) = l') by (by rewrite inorder_plug).
    match goal with |- wp (rbind ?c _) _ => assert (Hlink : wp c (fun h' => rep D (minp l') (maxp l') h' (plug K (T Red E new v E)))) end.
    { assert (H01 : h1 0 = Some (Node mn (rootK 0 K) mx Black true None)) by (by apply krep_head).
      destruct f as [c x w r|c l x w]; subst K; cbn [side parK fptr krep] in *; subst ch; destruct Hk1 as (Hx & Hr & _).
      - rewrite decide_False by done. unfold L at 1, ld. rewrite Hx, rbind_ok, rbind_ok. cbn [nleft]. unfold Isnil, ld. rewrite H01, rbind_ok, rbind_ok. cbn [nisnil rassert]. rewrite rbind_ok.
        unfold setL at 1, ld. rewrite Hx, rbind_ok, rbind_ok. cbn [nleft nparent nright ncolor nisnil nval]. change (upd h1 x _) with h2.
        unfold head. rewrite (Lh _ _ _ _ _ H2), rbind_ok.
        assert (Emx : maxp l' = mx). { unfold l', mx, maxp. rewrite inorder_plug. cbn [inorder app before after]. rewrite !fmap_app, !fmap_cons. cbn [fst]. rewrite !last_snoc_app. rewrite (decide_False (P := _ :: _ = [])) by done. f_equal. exact (last_snoc_app [] _ x). }
        assert (Emn : minp l' = if decide (x = mn) then new else mn).
        { unfold l', mn, minp. rewrite inorder_plug. cbn [inorder app before after]. rewrite !fmap_app, !fmap_cons, !head_app. cbn [fst].
          destruct (decide ((before K').*1 = [])) as [Eb|Eb]; cbn [default]; [by rewrite decide_True|]. rewrite decide_False; [done|].
          destruct (before K').*1 as [|z zs] eqn:Ez; [done|]. cbn. intros <-. rewrite kptrs_FL in Hndk. apply list.NoDup_cons in Hndk as [_ Hndk]. apply list.NoDup_cons in Hndk as [Hc _]. apply Hc.
          apply elem_of_app. right. unfold kptrs. rewrite Ez. apply elem_of_cons. by left. }
        rewrite Emx, Emn. case_decide as Hd; [by eapply set_mn|done].
      - rewrite decide_True by done. unfold R at 1, ld. rewrite Hx, rbind_ok, rbind_ok. cbn [nright]. unfold Isnil, ld. rewrite H01, rbind_ok, rbind_ok. cbn [nisnil rassert]. rewrite rbind_ok.
        unfold setR at 1, ld. rewrite Hx, rbind_ok, rbind_ok. cbn [nleft nparent nright ncolor nisnil nval]. change (upd h1 x _) with h2.
        unfold head. rewrite (Rh _ _ _ _ _ H2), rbind_ok.
        assert (Emn : minp l' = mn). { unfold l', mn, minp. rewrite inorder_plug. cbn [inorder app before after]. rewrite !fmap_app, !fmap_cons. cbn [fst]. rewrite <- !app_assoc, !fmap_nil. cbn [app]. destruct (before K').*1, (inorder l).*1; done. }
        assert (Emx : maxp l' = if decide (x = mx) then new else mx).
        { unfold l', mx, maxp. rewrite inorder_plug. cbn [inorder app before after]. rewrite !fmap_app, !fmap_cons, !fmap_nil, last_snoc_app. cbn [fst].
          rewrite <- !app_assoc. cbn [app]. rewrite (app_assoc (before K').*1). rewrite last_snoc_app.
          destruct (decide ((after K').*1 = [])) as [Eb|Eb]; cbn [default]; [by rewrite decide_True|]. rewrite decide_False; [done|].
          destruct (after K').*1 as [|z zs _] eqn:Ez using rev_ind; [done|]. rewrite last_snoc. cbn. intros <-. rewrite kptrs_FR in Hndk. apply list.NoDup_cons in Hndk as [_ Hndk]. apply list.NoDup_cons in Hndk as [Hc _]. apply Hc.
          apply elem_of_app. right. unfold kptrs. rewrite Ez. apply elem_of_app. right. apply elem_of_app. right. apply elem_of_cons. by left. }
        rewrite Emx, Emn. case_decide as Hd; [by eapply set_mx|done]. }
    apply wp_bind. eapply wp_mono; [exact Hlink|]. intros h3 H3.
    apply wp_bind. eapply wp_mono; [eapply (Insert_loop D _ _ l' _ h3 K E new v E 0); [exact H3|constructor|constructor|done|done|]|].
    { lia. }
    intros h4 (t' & c & m & H4 & Hb4 & Hin4).
    pose proof (root_blacken _ _ _ _ _ _ _ H4 Hb4) as Hrb. unfold head in *. rewrite (Ph _ _ _ _ _ H4), rbind_ok in *. apply wp_bind. eapply wp_mono; [exact Hrb|]. intros h5 (t5 & m5 & H5 & Hb5 & Hin5).
    cbn [wp]. exists t5, m5. rewrite Hin5, Hin4. split_and!; done.
Qed.
End tree.
