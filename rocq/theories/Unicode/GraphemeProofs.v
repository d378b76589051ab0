(** Proofs about the grapheme cluster iterator: the automata and the break rules against UAX #29. *)
From Coq Require Import Lia ZArith.
From stdpp Require Import base list numbers.
From Verif.Unicode Require Import UtfModel UtfSpec GraphemeModel GraphemeSpec.
Local Open Scope Z_scope.

Section proofs.
Context (gbp_of : Z -> gbp) (incb_of : Z -> incb) (extpic_of : Z -> bool).

Notation gb9c_left := (gb9c_left incb_of).
Notation gb11_left := (gb11_left gbp_of extpic_of).
Notation odd_ris := (odd_ris gbp_of).
Notation no_boundary := (no_boundary gbp_of incb_of extpic_of).
Notation ctl := (ctl gbp_of).

(** ** The automata *)
Definition run9 (pre : list Z) : st9 := fold_left (fun s c => fst (gb9c_match s (incb_of c))) pre S9Start.
Definition run11 (pre : list Z) : st11 :=
  fold_left (fun s c => fst (gb11_match s (gbp_of c) (extpic_of c))) pre S11Start.

Lemma run9_snoc pre c : run9 (pre ++ [c]) = fst (gb9c_match (run9 pre) (incb_of c)).
Proof. unfold run9. by rewrite fold_left_app. Qed.
Lemma run11_snoc pre c : run11 (pre ++ [c]) = fst (gb11_match (run11 pre) (gbp_of c) (extpic_of c)).
Proof. unfold run11. by rewrite fold_left_app. Qed.

Definition con_left (pre : list Z) : Prop :=
  exists p c mid, pre = p ++ c :: mid /\ incb_of c = IConsonant /\ Forall (fun x => incb_of x = IExtend) mid.

Lemma snoc_cons_inv (pre p mid : list Z) (x c : Z) :
  pre ++ [x] = p ++ c :: mid ->
  (mid = [] /\ p = pre /\ c = x) \/ exists mid', mid = mid' ++ [x] /\ pre = p ++ c :: mid'.
Proof.
  destruct mid as [|m mid] using rev_ind; intros H.
  - left. apply app_inj_tail in H as [-> ->]. done.
  - right. exists mid. rewrite app_comm_cons, app_assoc in H. apply app_inj_tail in H as [-> ->]. done.
Qed.

Lemma con_left_snoc pre x : con_left (pre ++ [x]) <->
  incb_of x = IConsonant \/ (con_left pre /\ incb_of x = IExtend).
Proof.
  split.
  - intros (p & c & mid & H & Hc & Hm). apply snoc_cons_inv in H as [(-> & -> & ->) | (m & -> & ->)].
    + by left.
    + apply Forall_app in Hm as [Hm Hx]. apply Forall_cons_1 in Hx as [Hx _]. right. split; [|done].
      by exists p, c, m.
  - intros [H | [(p & c & mid & -> & Hc & Hm) Hx]].
    + exists pre, x, []. split_and!; [done|done|constructor].
    + exists p, c, (mid ++ [x]). split_and!; [by rewrite <- app_assoc|done|]. apply Forall_app. split; [done|].
      by constructor.
Qed.
Lemma gb9c_left_snoc pre x : gb9c_left (pre ++ [x]) <->
  (con_left pre /\ incb_of x = ILinker) \/ (gb9c_left pre /\ (incb_of x = IExtend \/ incb_of x = ILinker)).
Proof.
  split.
  - intros (p & c & mid & H & Hc & Hm & Hl). apply snoc_cons_inv in H as [(-> & -> & ->) | (m & -> & ->)].
    + by apply Exists_nil in Hl.
    + apply Forall_app in Hm as [Hm Hx]. apply Forall_cons_1 in Hx as [Hx _].
      destruct (decide (Exists (fun x => incb_of x = ILinker) m)) as [Hl' | Hl'].
      * right. split; [|done]. by exists p, c, m.
      * left. apply Exists_app in Hl as [Hl | Hl]; [done|]. apply Exists_cons in Hl as [Hl | Hl]; [|by apply Exists_nil in Hl].
        split; [|done]. exists p, c, m. split_and!; [done|done|].
        apply Forall_forall. intros y Hy. rewrite Forall_forall in Hm. destruct (Hm y Hy) as [? | Hy']; [done|].
        exfalso. apply Hl'. apply Exists_exists. by exists y.
  - intros [[(p & c & mid & -> & Hc & Hm) Hx] | [(p & c & mid & -> & Hc & Hm & Hl) Hx]].
    + exists p, c, (mid ++ [x]). split_and!; [by rewrite <- app_assoc|done| |].
      * apply Forall_app. split; [|by constructor; [right|constructor]].
        eapply Forall_impl; [|exact Hm]. intros y Hy. by left.
      * apply Exists_app. right. by constructor.
    + exists p, c, (mid ++ [x]). split_and!; [by rewrite <- app_assoc|done| |].
      * apply Forall_app. split; [done|by constructor; [|constructor]].
      * apply Exists_app. by left.
Qed.

Lemma con_not_gb9c pre : con_left pre -> gb9c_left pre -> False.
Proof.
  induction pre as [|x pre IH] using rev_ind.
  - intros (p & c & mid & H & _) _. by destruct p.
  - intros H1 H2. apply con_left_snoc in H1. apply gb9c_left_snoc in H2.
    destruct H1 as [H1 | [H1 H1']], H2 as [[H2 H2'] | [H2 [H2' | H2']]]; try congruence. eauto.
Qed.

Lemma run9_spec pre : match run9 pre with
  | S9Start => ~ con_left pre /\ ~ gb9c_left pre
  | S9Consonant => con_left pre
  | S9Linker => gb9c_left pre
  end.
Proof.
  induction pre as [|x pre IH] using rev_ind.
  - cbn. split; intros (p & c & mid & H & _); by destruct p.
  - rewrite run9_snoc. pose proof (con_left_snoc pre x) as H1. pose proof (gb9c_left_snoc pre x) as H2.
    pose proof (con_not_gb9c pre) as H3.
    destruct (run9 pre), (incb_of x) eqn:Ex; cbn; naive_solver.
Qed.

Lemma match9_spec pre l : snd (gb9c_match (run9 pre) (incb_of l)) = true <-> gb9c_left (pre ++ [l]).
Proof.
  pose proof (run9_spec (pre ++ [l])) as H. rewrite run9_snoc in H.
  assert (Hm : snd (gb9c_match (run9 pre) (incb_of l)) = true <->
               fst (gb9c_match (run9 pre) (incb_of l)) = S9Linker).
  { destruct (run9 pre), (incb_of l); cbn; done. }
  rewrite Hm. destruct (fst (gb9c_match (run9 pre) (incb_of l))).
  - split; [done|tauto].
  - split; [done|]. intros Hg. exfalso. by apply (con_not_gb9c (pre ++ [l])).
  - tauto.
Qed.

Definition ext_left (pre : list Z) : Prop :=
  exists p e ext, pre = p ++ e :: ext /\ extpic_of e = true /\ Forall (fun x => gbp_of x = Extend) ext.
Definition ext2_left (pre : list Z) : Prop :=
  exists p e1 ext1 e2 ext2, pre = p ++ e1 :: ext1 ++ e2 :: ext2 /\ extpic_of e1 = true /\
    Forall (fun x => gbp_of x = Extend) ext1 /\ extpic_of e2 = true /\ Forall (fun x => gbp_of x = Extend) ext2.

Lemma ext_left_snoc pre x : ext_left (pre ++ [x]) <-> extpic_of x = true \/ (ext_left pre /\ gbp_of x = Extend).
Proof.
  split.
  - intros (p & c & mid & H & Hc & Hm). apply snoc_cons_inv in H as [(-> & -> & ->) | (m & -> & ->)].
    + by left.
    + apply Forall_app in Hm as [Hm Hx]. apply Forall_cons_1 in Hx as [Hx _]. right. split; [|done].
      by exists p, c, m.
  - intros [H | [(p & c & mid & -> & Hc & Hm) Hx]].
    + exists pre, x, []. split_and!; [done|done|constructor].
    + exists p, c, (mid ++ [x]). split_and!; [by rewrite <- app_assoc|done|]. apply Forall_app. split; [done|].
      by constructor.
Qed.
Lemma ext2_left_intro pre x : ext_left pre -> extpic_of x = true -> ext2_left (pre ++ [x]).
Proof.
  intros (p & e & ext & -> & He & Hx) Hxe. exists p, e, ext, x, []. split_and!; [|done..|constructor].
  by rewrite <- app_assoc.
Qed.
Lemma ext2_left_snoc pre x : ext2_left pre -> gbp_of x = Extend -> ext2_left (pre ++ [x]).
Proof.
  intros (p & e1 & ext1 & e2 & ext2 & -> & H1 & H2 & H3 & H4) Hx.
  exists p, e1, ext1, e2, (ext2 ++ [x]). split_and!; [|done..|].
  - rewrite <- app_assoc. cbn [app]. by rewrite <- app_assoc.
  - apply Forall_app. split; [done|by constructor].
Qed.
Lemma gb11_left_snoc pre x : gb11_left (pre ++ [x]) <-> ext_left pre /\ gbp_of x = ZWJ.
Proof.
  split.
  - intros (p & e & ext & z & H & He & Hx & Hz).
    rewrite app_comm_cons, app_assoc in H. apply app_inj_tail in H as [-> ->]. split; [|done]. by exists p, e, ext.
  - intros [(p & e & ext & -> & He & Hx) Hz]. exists p, e, ext, x. split_and!; [|done..].
    by rewrite <- app_assoc.
Qed.

Context (Hzwj : forall c, gbp_of c = ZWJ -> extpic_of c = false).

Lemma run11_spec pre : match run11 pre with
  | S11Start => ext_left pre -> ext2_left pre
  | S11ExtPic => ext_left pre
  end.
Proof.
  induction pre as [|x pre IH] using rev_ind.
  - cbn. intros (p & c & mid & H & _). by destruct p.
  - rewrite run11_snoc. destruct (run11 pre) eqn:E; unfold gb11_match.
    + destruct (extpic_of x) eqn:Ex; cbn [fst].
      * apply ext_left_snoc. by left.
      * rewrite ext_left_snoc. intros [? | [H1 H2]]; [congruence|]. apply ext2_left_snoc; [|done]. by apply IH.
    + repeat case_decide; cbn [fst].
      * rewrite ext_left_snoc. intros [Hx | [_ Hx]]; [|congruence].
        rewrite Hzwj in Hx by done. done.
      * rewrite ext_left_snoc. intros [Hx | [_ Hx]]; [|done]. by apply ext2_left_intro.
      * apply ext_left_snoc. right. split; [done|]. destruct (decide (gbp_of x = Extend)); tauto.
Qed.

Lemma match11_sound pre l : snd (gb11_match (run11 pre) (gbp_of l) (extpic_of l)) = true -> gb11_left (pre ++ [l]).
Proof.
  pose proof (run11_spec pre) as H. rewrite gb11_left_snoc. destruct (run11 pre); unfold gb11_match.
  - by destruct (extpic_of l).
  - repeat case_decide; cbn [snd]; done.
Qed.
Lemma match11_complete pre l : gb11_left (pre ++ [l]) ->
  snd (gb11_match (run11 pre) (gbp_of l) (extpic_of l)) = true \/ (ext2_left pre /\ gbp_of l = ZWJ).
Proof.
  pose proof (run11_spec pre) as H. rewrite gb11_left_snoc. intros [He Hl]. destruct (run11 pre); unfold gb11_match.
  - right. split; [by apply H|done].
  - left. by rewrite decide_True.
Qed.

(** ** Regional indicators *)
Fixpoint trc (l : list Z) : nat := match l with [] => O | x :: xs => if decide (gbp_of x = RI) then S (trc xs) else O end.
Definition tri (pre : list Z) : nat := trc (rev pre).
Lemma tri_snoc pre x : tri (pre ++ [x]) = if decide (gbp_of x = RI) then S (tri pre) else O.
Proof. unfold tri. rewrite rev_app_distr. done. Qed.
Lemma tri_split pre : exists p ris, pre = p ++ ris /\ Forall (fun x => gbp_of x = RI) ris /\
  (forall q x, p = q ++ [x] -> gbp_of x <> RI) /\ length ris = tri pre.
Proof.
  induction pre as [|x pre IH] using rev_ind.
  - exists [], []. split_and!; [done|constructor| |done]. intros q x H. by destruct q.
  - rewrite tri_snoc. case_decide as Hx.
    + destruct IH as (p & ris & -> & Hr & Hp & Hl). exists p, (ris ++ [x]). split_and!; [by rewrite app_assoc| |done|].
      * apply Forall_app. split; [done|by constructor].
      * rewrite app_length. cbn [length]. lia.
    + exists (pre ++ [x]), []. split_and!; [by rewrite app_nil_r|constructor| |done].
      intros q y H. apply app_inj_tail in H as [_ ->]. done.
Qed.
Lemma tri_run p ris : Forall (fun x => gbp_of x = RI) ris -> (forall q x, p = q ++ [x] -> gbp_of x <> RI) ->
  tri (p ++ ris) = length ris.
Proof.
  intros Hr Hp. induction ris as [|x ris IH] using rev_ind.
  - rewrite app_nil_r. destruct p as [|y p] using rev_ind; [done|]. rewrite tri_snoc. rewrite decide_False; [done|].
    by eapply Hp.
  - apply Forall_app in Hr as [Hr Hx]. apply Forall_cons_1 in Hx as [Hx _].
    rewrite app_assoc, tri_snoc, decide_True by done. rewrite IH by done. rewrite app_length. cbn [length]. lia.
Qed.
Lemma odd_ris_tri pre : odd_ris pre <-> Nat.odd (tri pre) = true.
Proof.
  split.
  - intros (p & ris & -> & Hr & Hp & Ho). by rewrite tri_run.
  - intros Ho. destruct (tri_split pre) as (p & ris & -> & Hr & Hp & Hl). exists p, ris.
    split_and!; [done..|]. by rewrite Hl.
Qed.

(** ** The rules *)
Lemma if_false (b k : bool) : (if b then false else k) = false <-> b = true \/ k = false.
Proof. destruct b; intuition congruence. Qed.
Lemma if_true (b k : bool) : (if b then true else k) = false <-> b = false /\ k = false.
Proof. destruct b; intuition congruence. Qed.
Lemma bd_true (P : Prop) `{Decision P} : bool_decide P = true <-> P.
Proof. apply bool_decide_eq_true. Qed.
Lemma odd_mod n : negb (n mod 2 =? 0)%nat = true <-> Nat.odd n = true.
Proof.
  rewrite negb_true_iff, Nat.eqb_neq, Nat.odd_spec.
  split.
  - intros H. exists (n / 2)%nat. pose proof (Nat.div_mod n 2). pose proof (Nat.mod_upper_bound n 2). lia.
  - intros [m ->]. rewrite Nat.add_comm, Nat.mul_comm, Nat.mod_add by lia. done.
Qed.

Lemma break_here_false m9 m11 n l r : break_here m9 m11 n (gbp_of l) (gbp_of r) (extpic_of r) = false <->
  (gbp_of l = CR /\ gbp_of r = LF)
  \/ (~ ctl l /\ ~ ctl r /\
      ((gbp_of l = L /\ (gbp_of r = L \/ gbp_of r = V \/ gbp_of r = LV \/ gbp_of r = LVT))
       \/ ((gbp_of l = LV \/ gbp_of l = V) /\ (gbp_of r = V \/ gbp_of r = T))
       \/ ((gbp_of l = LVT \/ gbp_of l = T) /\ gbp_of r = T)
       \/ (gbp_of r = Extend \/ gbp_of r = ZWJ)
       \/ gbp_of r = SpacingMark
       \/ gbp_of l = Prepend
       \/ m9 = true
       \/ (m11 = true /\ extpic_of r = true)
       \/ ((gbp_of l = RI /\ gbp_of r = RI) /\ Nat.odd n = true))).
Proof.
  unfold break_here. rewrite !if_false, !if_true, !if_false.
  assert (Hctl : forall c, is_ctl (gbp_of c) = false <-> ~ ctl c).
  { intros c. unfold is_ctl, GraphemeSpec.ctl. rewrite !orb_false_iff, !bool_decide_eq_false. tauto. }
  rewrite !Hctl. rewrite !andb_true_iff, !orb_true_iff, !bd_true, odd_mod.
  intuition congruence.
Qed.
End proofs.
