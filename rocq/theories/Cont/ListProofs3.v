(** Splicing. *)
From stdpp Require Import base list numbers option decidable.
From Coq Require Import Lia.
From Verif Require Import Base.Res Cont.ListModel Cont.ListSpec Cont.ListProofs Cont.ListProofs2.
Local Open Scope nat_scope.

Section proofs.
Context {V : Type}.
Implicit Types (h : heap V) (l a b c d m x y : list (nat * V)) (K : list (nat * nat)).

(** [h'] is [h] with the links of [K] established and no other link changed *)
Definition relinked h h' K : Prop :=
  (forall p q, (p, q) ∈ K -> link h' p q) /\ (forall p, p ∉ K.*1 -> nx h' p = nx h p) /\ (forall p, p ∉ K.*2 -> pv h' p = pv h p) /\
  (forall p, vl h' p = vl h p) /\ (forall p, p ∉ K.*1 ++ K.*2 -> h' p = h p).
Lemma relinked_perm h h' K K' : relinked h h' K -> K ≡ₚ K' -> relinked h h' K'.
Proof.
  intros (R1 & R2 & R3 & R4 & R5) E. split_and!; try done.
  - intros p q. rewrite <- E. apply R1.
  - intros p. rewrite <- E. apply R2.
  - intros p. rewrite <- E. apply R3.
  - intros p. rewrite <- E. apply R5.
Qed.
Lemma chain_relinked h h' K ps : relinked h h' K -> chain h ps ->
  (forall p q, link h p q -> p ∈ K.*1 -> q ∈ K.*2) -> (forall q, q ∈ tail ps -> q ∉ K.*2) -> chain h' ps.
Proof.
  intros (R1 & R2 & R3 & _) C H1 H2. eapply chain_mono; [exact C|]. intros p q Hp Hq L.
  pose proof (H2 q Hq) as Hn. pose proof L as [L1 L2]. split; [rewrite R2|rewrite R3]; try done.
  intros X. apply Hn. eapply H1; done.
Qed.
Lemma link_fun h p q q' : link h p q -> link h p q' -> q = q'.
Proof. intros [? _] [? _]. congruence. Qed.
Lemma link_inj h p p' q : link h p q -> link h p' q -> p = p'.
Proof. intros [_ ?] [_ ?]. congruence. Qed.

Lemma Splice3_ok h before first last fp lp bp :
  link h fp first -> link h lp last -> link h bp before -> before <> first -> before <> last -> first <> last ->
  exists h', Splice3 h before first last = Ok h' /\ relinked h h' [(fp, last); (lp, before); (bp, first)].
Proof.
  intros L1 L2 L3 D1 D2 D3.
  assert (fp <> lp) by (intros ->; eapply D3, link_fun; done).
  assert (bp <> lp) by (intros ->; eapply D2, link_fun; done).
  assert (bp <> fp) by (intros ->; eapply D1, link_fun; done).
  unfold Splice3. rewrite bool_decide_true by done. cbn [rassert]. rewrite rbind_ok.
  destruct L1 as [N1 P1], L2 as [N2 P2], L3 as [N3 P3].
  rewrite (P_ok _ _ _ P1), rbind_ok.
  destruct (setN_ok h fp last) as (h1 & -> & A1 & A2 & A3 & A4). { eauto. } rewrite rbind_ok.
  rewrite (P_ok h1 last lp), rbind_ok by by rewrite A2.
  destruct (setN_ok h1 lp before) as (h2 & -> & B1 & B2 & B3 & B4). { rewrite A1, N2. case_decide; eauto. } rewrite rbind_ok.
  rewrite (P_ok h2 before bp), rbind_ok by by rewrite B2, A2.
  destruct (setN_ok h2 bp first) as (h3 & -> & C1 & C2 & C3 & C4). { rewrite B1, A1, N3. repeat case_decide; eauto. } rewrite rbind_ok.
  destruct (setP_ok h3 before lp) as (h4 & -> & E1 & E2 & E3 & E4). { rewrite C2, B2, A2, P3. eauto. } rewrite rbind_ok.
  destruct (setP_ok h4 last fp) as (h5 & -> & F1 & F2 & F3 & F4). { rewrite E2, C2, B2, A2, P2. case_decide; eauto. } rewrite rbind_ok.
  destruct (setP_ok h5 first bp) as (h6 & -> & G1 & G2 & G3 & G4). { rewrite F2, E2, C2, B2, A2, P1. repeat case_decide; eauto. }
  exists h6. split; [done|].
  assert (NX : forall p, nx h6 p = if decide (p = bp) then Some first else if decide (p = lp) then Some before else if decide (p = fp) then Some last else nx h p).
  { intros p. by rewrite G1, F1, E1, C1, B1, A1. }
  assert (PV : forall p, pv h6 p = if decide (p = first) then Some bp else if decide (p = last) then Some fp else if decide (p = before) then Some lp else pv h p).
  { intros p. by rewrite G2, F2, E2, C2, B2, A2. }
  split_and!.
  - intros p q Hpq. rewrite !elem_of_cons in Hpq. split.
    + rewrite NX. destruct Hpq as [[= -> ->]|[[= -> ->]|[[= -> ->]|Hx%elem_of_nil]]]; [| | |done]; by repeat case_decide.
    + rewrite PV. destruct Hpq as [[= -> ->]|[[= -> ->]|[[= -> ->]|Hx%elem_of_nil]]]; [| | |done]; by repeat case_decide.
  - intros p Hp. cbn in Hp. rewrite !not_elem_of_cons in Hp. rewrite NX. repeat case_decide; naive_solver.
  - intros p Hp. cbn in Hp. rewrite !not_elem_of_cons in Hp. rewrite PV. repeat case_decide; naive_solver.
  - intros p. by rewrite G3, F3, E3, C3, B3, A3.
  - intros p Hp. cbn in Hp. rewrite !not_elem_of_cons in Hp. destruct Hp as (?&?&?&?&?&?&_). by rewrite G4, F4, E4, C4, B4, A4.
Qed.

Lemma nodup_tail {A} (z : list A) q : NoDup z -> q ∈ tail z -> head z <> Some q.
Proof. destruct z as [|e z]; [done|]. cbn. intros [H _]%list.NoDup_cons Hq [= ->]. done. Qed.
Lemma tail_in {A} (z : list A) q : q ∈ tail z -> q ∈ z.
Proof. destruct z; [done|]. by right. Qed.
Lemma vals_relinked h h' K l : relinked h h' K -> Forall (fun z => vl h z.1 = Some z.2) l -> Forall (fun z => vl h' z.1 = Some z.2) l.
Proof. intros (_ & _ & _ & E & _) F. eapply list.Forall_impl; [exact F|]. intros z Hz. by rewrite E. Qed.
Lemma head_ptrs hd l : l <> [] -> head (l.*1) = Some (fst_of hd l).
Proof. by destruct l. Qed.

(** swapping two adjacent segments *)
Lemma swap_ring h h' hd a x y c : x <> [] -> y <> [] -> ring h hd (a ++ x ++ y ++ c) ->
  relinked h h' [(lst_of hd a, fst_of hd y); (lst_of hd y, fst_of hd x); (lst_of hd x, fst_of hd c)] ->
  ring h' hd (a ++ y ++ x ++ c).
Proof.
  intros Hx Hy R E. pose proof (ring_nodup _ _ _ R) as ND. destruct R as (ND0 & Z & C & F).
  assert (PM : (a ++ y ++ x ++ c).*1 ≡ₚ (a ++ x ++ y ++ c).*1).
  { rewrite !ptrs_app. f_equiv. rewrite !app_assoc. f_equiv. apply Permutation_app_comm. }
  assert (PMl : a ++ y ++ x ++ c ≡ₚ a ++ x ++ y ++ c).
  { f_equiv. rewrite !app_assoc. f_equiv. apply Permutation_app_comm. }
  assert (H1 : x ++ y ++ c <> []) by by destruct x.
  assert (H2 : y ++ c <> []) by by destruct y.
  apply chain_cut in C as (C1 & C2 & L). apply chain_mid in C2 as (C2 & C3 & L2); [|done]. apply chain_mid in C3 as (C3 & C4 & L3); [|done].
  rewrite !ptrs_app, <- !app_assoc in ND.
  apply list.NoDup_app in ND as (NDa & NDa' & ND). apply list.NoDup_app in ND as (NDx & NDx' & ND). apply list.NoDup_app in ND as (NDy & NDy' & NDc).
  assert (Fx : fst_of hd x ∈ x.*1) by by apply fst_of_in_ne.
  assert (Fy : fst_of hd y ∈ y.*1) by by apply fst_of_in_ne.
  pose proof (fst_of_in hd c) as Fc.
  rewrite (fst_of_app hd x), (fst_of_ne _ hd x) in L by done. rewrite (fst_of_app hd y), (fst_of_ne _ hd y) in L2 by done.
  assert (Cl : forall p q, link h p q -> p ∈ [lst_of hd a; lst_of hd y; lst_of hd x] -> q ∈ [fst_of hd y; fst_of hd x; fst_of hd c]).
  { intros p q Lpq Hp. rewrite !elem_of_cons in Hp. rewrite !elem_of_cons.
    destruct Hp as [->|[->|[->|Hp%elem_of_nil]]]; [| | |done].
    - right; left. by eapply link_fun.
    - right; right; left. by eapply link_fun.
    - left. by eapply link_fun. }
  split_and!.
  - by rewrite PM.
  - by rewrite PM.
  - apply chain_cut. rewrite (fst_of_app hd y), (fst_of_ne _ hd y) by done. split_and!.
    + eapply chain_relinked; [exact E|exact C1|exact Cl|]. cbn [tail]. intros q Hq X. cbn in X.
      apply (NDa' q Hq). rewrite !elem_of_cons in X. destruct X as [->|[->|[->|X%elem_of_nil]]]; [| | |done]; rewrite !elem_of_app in *; naive_solver.
    + apply chain_mid; [done|]. rewrite (fst_of_app hd x), (fst_of_ne _ hd x) by done. split_and!; [|apply chain_mid; [done|]; split_and!|].
      * eapply chain_relinked; [exact E|exact C3|exact Cl|]. intros q Hq X. cbn in X. pose proof (tail_in _ _ Hq) as Hq'.
        rewrite !elem_of_cons in X. destruct X as [->|[->|[->|X%elem_of_nil]]]; [| | |done].
        -- apply (nodup_tail _ _ NDy Hq). by apply head_ptrs.
        -- apply (NDx' _ Fx). rewrite !elem_of_app. auto.
        -- by apply (NDy' _ Hq').
      * eapply chain_relinked; [exact E|exact C2|exact Cl|]. intros q Hq X. cbn in X. pose proof (tail_in _ _ Hq) as Hq'.
        rewrite !elem_of_cons in X. destruct X as [->|[->|[->|X%elem_of_nil]]]; [| | |done].
        -- apply (NDx' _ Hq'). rewrite !elem_of_app. auto.
        -- apply (nodup_tail _ _ NDx Hq). by apply head_ptrs.
        -- apply (NDx' _ Hq'). rewrite !elem_of_app in *. naive_solver.
      * eapply chain_relinked; [exact E|exact C4|exact Cl|]. intros q Hq X. cbn in X. pose proof (tail_in _ _ Hq) as Hq'.
        rewrite !elem_of_cons in X. destruct X as [->|[->|[->|X%elem_of_nil]]]; [| | |done].
        -- by apply (NDy' _ Fy).
        -- apply (NDx' _ Fx). rewrite !elem_of_app in *. naive_solver.
        -- apply (nodup_tail _ _ NDc Hq). apply head_hd.
      * apply (proj1 E). right; right; left.
      * apply (proj1 E). right; left.
    + apply (proj1 E). left.
  - eapply vals_relinked; [exact E|]. by rewrite PMl.
Qed.

(** moving a segment to another ring *)
Lemma move_ring h h' (h1 : nat) a b (h2 : nat) c m d : m <> [] -> ring h h1 (a ++ b) -> ring h h2 (c ++ m ++ d) -> disj h1 (a ++ b) h2 (c ++ m ++ d) ->
  relinked h h' [(lst_of h2 c, fst_of h2 d); (lst_of h2 m, fst_of h1 b); (lst_of h1 a, fst_of h2 m)] ->
  ring h' h1 (a ++ m ++ b) /\ ring h' h2 (c ++ d).
Proof.
  intros Hm R1 R2 D E. pose proof (ring_nodup _ _ _ R1) as N1. pose proof (ring_nodup _ _ _ R2) as N2.
  destruct R1 as (ND1 & Z1 & C1 & F1), R2 as (ND2 & Z2 & C2 & F2).
  apply chain_cut in C1 as (Ca & Cb & L1). apply chain_cut in C2 as (Cc & C2 & L2). apply chain_mid in C2 as (Cm & Cd & L3); [|done].
  rewrite (fst_of_app h2 m), (fst_of_ne _ h2 m) in L2 by done.
  rewrite !ptrs_app, <- !app_assoc in N1. rewrite !ptrs_app, <- !app_assoc in N2.
  apply list.NoDup_app in N1 as (NDa & NDa' & NDb). apply list.NoDup_app in N2 as (NDc & NDc' & N2). apply list.NoDup_app in N2 as (NDm & NDm' & NDd).
  assert (Fm : fst_of h2 m ∈ m.*1) by by apply fst_of_in_ne.
  pose proof (fst_of_in h1 b) as Fb. pose proof (fst_of_in h2 d) as Fd.
  assert (D' : forall p, p ∈ h1 :: a.*1 ++ b.*1 -> p ∈ h2 :: c.*1 ++ m.*1 ++ d.*1 -> False).
  { intros p. specialize (D p). by rewrite !ptrs_app in D. }
  assert (Cl : forall p q, link h p q -> p ∈ [lst_of h2 c; lst_of h2 m; lst_of h1 a] -> q ∈ [fst_of h2 d; fst_of h1 b; fst_of h2 m]).
  { intros p q Lpq Hp. rewrite !elem_of_cons in Hp. rewrite !elem_of_cons.
    destruct Hp as [->|[->|[->|Hp%elem_of_nil]]]; [| | |done].
    - right; right; left. by eapply link_fun.
    - left. by eapply link_fun.
    - right; left. by eapply link_fun. }
  assert (S1 : forall p, p ∈ b.*1 ++ [h1] -> p ∈ h1 :: a.*1 ++ b.*1).
  { intros p. rewrite elem_of_cons, !elem_of_app, elem_of_list_singleton. naive_solver. }
  assert (S1a : forall p, p ∈ a.*1 -> p ∈ h1 :: a.*1 ++ b.*1).
  { intros p. rewrite elem_of_cons, !elem_of_app. naive_solver. }
  assert (S2 : forall p, p ∈ d.*1 ++ [h2] -> p ∈ h2 :: c.*1 ++ m.*1 ++ d.*1).
  { intros p. rewrite elem_of_cons, !elem_of_app, elem_of_list_singleton. naive_solver. }
  assert (S2m : forall p, p ∈ m.*1 -> p ∈ h2 :: c.*1 ++ m.*1 ++ d.*1).
  { intros p. rewrite elem_of_cons, !elem_of_app. naive_solver. }
  assert (S2c : forall p, p ∈ c.*1 -> p ∈ h2 :: c.*1 ++ m.*1 ++ d.*1).
  { intros p. rewrite elem_of_cons, !elem_of_app. naive_solver. }
  assert (Y1 : forall q, q ∈ h1 :: a.*1 ++ b.*1 -> q = fst_of h2 d -> False) by (intros q Hq ->; eauto).
  assert (Y2 : forall q, q ∈ h1 :: a.*1 ++ b.*1 -> q = fst_of h2 m -> False) by (intros q Hq ->; eauto).
  assert (Y3 : forall q, q ∈ h2 :: c.*1 ++ m.*1 ++ d.*1 -> q = fst_of h1 b -> False) by (intros q Hq ->; eauto).
  assert (Ka : chain h' (h1 :: a.*1)).
  { eapply chain_relinked; [exact E|exact Ca|exact Cl|]. cbn [tail]. intros q Hq X. cbn in X.
    rewrite !elem_of_cons in X. destruct X as [X|[X|[X|X%elem_of_nil]]]; [| | |done]; try (eapply Y1; [|exact X]; solve [eauto]); try (eapply Y2; [|exact X]; solve [eauto]); try (eapply Y3; [|exact X]; solve [eauto]); rewrite X in *. by apply (NDa' _ Hq). }
  assert (Kb : chain h' (b.*1 ++ [h1])).
  { eapply chain_relinked; [exact E|exact Cb|exact Cl|]. intros q Hq X. cbn in X. pose proof (tail_in _ _ Hq) as Hq'.
    rewrite !elem_of_cons in X. destruct X as [X|[X|[X|X%elem_of_nil]]]; [| | |done]; try (eapply Y1; [|exact X]; solve [eauto]); try (eapply Y2; [|exact X]; solve [eauto]); try (eapply Y3; [|exact X]; solve [eauto]); rewrite X in *.
    apply (nodup_tail _ _ NDb Hq). apply head_hd. }
  assert (Km : chain h' (m.*1)).
  { eapply chain_relinked; [exact E|exact Cm|exact Cl|]. intros q Hq X. cbn in X. pose proof (tail_in _ _ Hq) as Hq'.
    rewrite !elem_of_cons in X. destruct X as [X|[X|[X|X%elem_of_nil]]]; [| | |done]; try (eapply Y1; [|exact X]; solve [eauto]); try (eapply Y2; [|exact X]; solve [eauto]); try (eapply Y3; [|exact X]; solve [eauto]); rewrite X in *.
    - by apply (NDm' _ Hq').
    - apply (nodup_tail _ _ NDm Hq). by apply head_ptrs. }
  assert (Kc : chain h' (h2 :: c.*1)).
  { eapply chain_relinked; [exact E|exact Cc|exact Cl|]. cbn [tail]. intros q Hq X. cbn in X.
    rewrite !elem_of_cons in X. destruct X as [X|[X|[X|X%elem_of_nil]]]; [| | |done]; try (eapply Y1; [|exact X]; solve [eauto]); try (eapply Y2; [|exact X]; solve [eauto]); try (eapply Y3; [|exact X]; solve [eauto]); rewrite X in *.
    - apply (NDc' _ Hq). apply elem_of_app. auto.
    - apply (NDc' _ Hq). apply elem_of_app. auto. }
  assert (Kd : chain h' (d.*1 ++ [h2])).
  { eapply chain_relinked; [exact E|exact Cd|exact Cl|]. intros q Hq X. cbn in X. pose proof (tail_in _ _ Hq) as Hq'.
    rewrite !elem_of_cons in X. destruct X as [X|[X|[X|X%elem_of_nil]]]; [| | |done]; try (eapply Y1; [|exact X]; solve [eauto]); try (eapply Y2; [|exact X]; solve [eauto]); try (eapply Y3; [|exact X]; solve [eauto]); rewrite X in *.
    - apply (nodup_tail _ _ NDd Hq). apply head_hd.
    - by apply (NDm' _ Fm). }
  assert (PM1 : h1 :: (a ++ m ++ b).*1 ≡ₚ m.*1 ++ h1 :: a.*1 ++ b.*1).
  { rewrite !ptrs_app. rewrite <- Permutation_middle. f_equiv. rewrite !app_assoc. f_equiv. apply Permutation_app_comm. }
  split; split_and!.
  - rewrite PM1. apply list.NoDup_app. rewrite <- ptrs_app. split_and!; try done.
    intros p Hp X. eapply D'; [|by apply S2m]. by rewrite <- ptrs_app.
  - rewrite PM1, not_elem_of_app. rewrite <- ptrs_app. split; [|done]. intros X. apply Z2. rewrite !ptrs_app. by apply S2m.
  - apply chain_cut. rewrite (fst_of_app h1 m), (fst_of_ne _ h2 m) by done. split_and!; [done| |].
    + apply chain_mid; [done|]. split_and!; try done. rewrite (lst_of_ne _ h2) by done. apply (proj1 E). right; left.
    + apply (proj1 E). right; right; left.
  - eapply vals_relinked; [exact E|]. rewrite !Forall_app in *. naive_solver.
  - rewrite !ptrs_app in *. change (h2 :: c.*1 ++ m.*1 ++ d.*1) with ([h2] ++ c.*1 ++ m.*1 ++ d.*1) in ND2.
    change (h2 :: c.*1 ++ d.*1) with ([h2] ++ c.*1 ++ d.*1). rewrite !list.NoDup_app in *. setoid_rewrite not_elem_of_app in ND2. setoid_rewrite not_elem_of_app. naive_solver.
  - intros X. apply Z2. rewrite !ptrs_app in *. rewrite elem_of_cons, !elem_of_app in *. naive_solver.
  - apply chain_cut. split_and!; try done. apply (proj1 E). left.
  - eapply vals_relinked; [exact E|]. rewrite !Forall_app in *. naive_solver.
Qed.
End proofs.
