(** _Merge_same, _Sort, sort, merge. *)
From stdpp Require Import base list numbers option decidable.
From Coq Require Import Lia.
From Verif Require Import Base.Res Base.Order Base.OrderLemmas Base.Stable Alg.MergeSpec.
From Verif Require Import Cont.ListModel Cont.ListSpec Cont.ListProofs Cont.ListProofs2 Cont.ListProofs3 Cont.ListProofs4.
Local Open Scope nat_scope.

Section proofs.
Context {V : Type} (lt : V -> V -> bool).
Implicit Types (h : heap V) (l a b c d m : list (nat * V)) (x y z : nat * V).
(** comparison of list entries by their values *)
Definition ltp x y : bool := lt x.2 y.2.

Lemma mergel_run x m1 (Y : list (nat * V)) m2 : Forall (fun y => ltp y x = true) Y -> mergel ltp (x :: m1) (Y ++ m2) = Y ++ mergel ltp (x :: m1) m2.
Proof. induction 1 as [|y Y Hy HY IH]; [done|]. cbn [app]. rewrite mergel_lt by done. by rewrite IH. Qed.
Lemma mergel_skip y (K : list (nat * V)) m1 m2 : Forall (fun k => ltp y k = false) K -> mergel ltp (K ++ m1) (y :: m2) = K ++ mergel ltp m1 (y :: m2).
Proof. induction 1 as [|k K Hk HK IH]; [done|]. cbn [app]. rewrite mergel_ge by done. by rewrite IH. Qed.

Lemma Skip_ok h hd m1 : forall a x y b fuel, ring h hd (a ++ (x :: m1) ++ y :: b) -> length m1 < fuel ->
  exists K R, m1 = K ++ R /\ Forall (fun k => ltp y k = false) K /\ (forall r R', R = r :: R' -> ltp y r = true) /\
    Skip lt fuel h x.1 y.1 = Ok (match R with [] => None | r :: _ => Some r.1 end).
Proof.
  induction m1 as [|z m1 IH]; intros a x y b fuel R Hf; (destruct fuel as [|fuel]; [cbn in Hf; lia|]); unfold Skip;
    (match goal with |- context [loop (S fuel) ?B _] => set (BB := B) end); rewrite loop_S; unfold BB at 1.
  - rewrite (N_ok h x.1 y.1), rbind_ok by apply (ring_nx _ _ _ _ _ R). rewrite decide_True, rbind_ok by done.
    exists [], []. by split_and!.
  - rewrite (N_ok h x.1 z.1), rbind_ok by apply (ring_nx _ _ _ _ _ R).
    assert (Dz : z.1 <> y.1).
    { assert (R' : ring h hd ((a ++ [x]) ++ (z :: m1) ++ y :: b)) by by rewrite <- app_assoc.
      by apply (ring_distinct h hd _ (z :: m1) (y :: b) R'). }
    rewrite decide_False by done.
    rewrite (Val_ok h y.1 y.2) by (apply (ring_val _ _ _ _ R); rewrite !elem_of_app; right; right; left).
    rewrite (Val_ok h z.1 z.2) by (apply (ring_val _ _ _ _ R); rewrite !elem_of_app; right; left; right; left).
    rewrite !rbind_ok. destruct (lt y.2 z.2) eqn:E; cbn [negb].
    + exists [], (z :: m1). split_and!; try done. by intros r R' [= <- <-].
    + rewrite rbind_ok. destruct (IH (a ++ [x]) z y b fuel) as (K & Q & -> & HK & HQ & ES).
      { rewrite <- app_assoc. exact R. } { cbn in Hf. lia. }
      exists (z :: K), Q. split_and!; try done. by constructor.
Qed.
Lemma Run_ok h hd m2 : forall a x c y b fuel, ring h hd (a ++ x :: c ++ (y :: m2) ++ b) -> length m2 < fuel ->
  exists Q R, m2 = Q ++ R /\ Forall (fun k => ltp k x = true) Q /\ (forall r R', R = r :: R' -> ltp r x = false) /\
    Run lt fuel h x.1 y.1 (fst_of hd b) = Ok (fst_of hd (R ++ b)).
Proof.
  induction m2 as [|z m2 IH]; intros a x c y b fuel R Hf; (destruct fuel as [|fuel]; [cbn in Hf; lia|]); unfold Run;
    (match goal with |- context [loop (S fuel) ?B _] => set (BB := B) end); rewrite loop_S; unfold BB at 1.
  - assert (R2 : ring h hd ((a ++ x :: c) ++ y :: b)) by by rewrite <- app_assoc.
    rewrite (N_ok _ _ _ (ring_nx _ _ _ _ _ R2)), rbind_ok. rewrite decide_True, rbind_ok by done.
    exists [], []. by split_and!.
  - assert (R2 : ring h hd ((a ++ x :: c) ++ y :: (z :: m2) ++ b)) by by rewrite <- app_assoc.
    rewrite (N_ok h y.1 z.1), rbind_ok by apply (ring_nx _ _ _ _ _ R2).
    assert (Dz : z.1 <> fst_of hd b).
    { assert (R3 : ring h hd (((a ++ x :: c) ++ [y]) ++ (z :: m2) ++ b)) by by rewrite <- app_assoc.
      by apply (ring_distinct h hd _ (z :: m2) b R3). }
    rewrite decide_False by done.
    rewrite (Val_ok h z.1 z.2) by (apply (ring_val _ _ _ _ R2); rewrite !elem_of_app; right; right; left).
    rewrite (Val_ok h x.1 x.2) by (apply (ring_val _ _ _ _ R2); rewrite !elem_of_app; left; right; left).
    rewrite !rbind_ok. destruct (lt z.2 x.2) eqn:E.
    + rewrite rbind_ok. destruct (IH a x (c ++ [y]) z b fuel) as (Q & Q2 & -> & HK & HQ & ES).
      { rewrite <- app_assoc. exact R. } { cbn in Hf. lia. }
      exists (z :: Q), Q2. split_and!; try done. by constructor.
    + exists [], (z :: m2). split_and!; try done. by intros r R' [= <- <-].
Qed.

Lemma frame_trans h h1 h2 (ps : list nat) : frame h h1 ps -> frame h1 h2 ps -> frame h h2 ps.
Proof. intros F1 F2 p Hp. rewrite F2 by done. auto. Qed.
Lemma frame_perm h h1 (ps ps' : list nat) : frame h h1 ps -> ps ≡ₚ ps' -> frame h h1 ps'.
Proof. intros F1 E p Hp. apply F1. by rewrite E. Qed.
Lemma Merge_loop_ok hd b n : forall F h a x m1 y m2 fuel, length m2 <= n -> ring h hd (a ++ (x :: m1) ++ (y :: m2) ++ b) -> ltp y x = true ->
  length m1 < F -> length m2 < F -> length m2 < fuel ->
  exists h', loop fuel (fun '(h, first, mid) =>
        mid' <~ Run lt F h first mid (fst_of hd b) ;;
        h <~ Splice3 h first mid mid' ;;
        if decide (mid' = fst_of hd b) then Ok (inr h)
        else o <~ Skip lt F h first mid' ;;
             match o with None => Ok (inr h) | Some first => Ok (inl (h, first, mid')) end) (h, x.1, y.1) = Ok h' /\ ring h' hd (a ++ mergel ltp (x :: m1) (y :: m2) ++ b) /\
    frame h h' (hd :: (a ++ (x :: m1) ++ (y :: m2) ++ b).*1).
Proof.
  induction n as [n IH] using lt_wf_ind. intros F h a x m1 y m2 fuel Hn R Hlt HF1 HF2 Hf.
  destruct fuel as [|fuel]; [lia|]. rewrite loop_S.
  destruct (Run_ok h hd m2 a x m1 y b F) as (Q & M2 & -> & HQ & HM & ER); [exact R|done|].
  rewrite ER, rbind_ok. rewrite (app_comm_cons Q M2 y) in *.
  assert (R2 : ring h hd (a ++ (x :: m1) ++ (y :: Q) ++ (M2 ++ b))) by by rewrite (app_assoc (y :: Q)).
  destruct (Splice3_swap_l h hd a (x :: m1) (y :: Q) (M2 ++ b)) as (h1 & E1 & R1 & F1); [done|done|exact R2|].
  cbn [fst_of] in E1. rewrite E1, rbind_ok.
  assert (HQ' : Forall (fun k => ltp k x = true) (y :: Q)) by by constructor.
  rewrite (mergel_run x m1 (y :: Q) M2 HQ').
  rewrite (app_assoc (y :: Q)) in F1.
  destruct M2 as [|y' M2].
  - cbn [app]. rewrite decide_True, rbind_ok by done. exists h1. split; [done|]. rewrite mergel_nil_r. rewrite <- app_assoc. done.
  - assert (Dy : y'.1 <> fst_of hd b).
    { change ((y' :: M2) ++ b) with ([y'] ++ M2 ++ b) in R1. rewrite !app_assoc in R1. rewrite <- (app_assoc _ [y']), <- (app_assoc _ _ b) in R1.
      by apply (ring_distinct h1 hd _ (y' :: M2) b R1). }
    cbn [app fst_of]. rewrite decide_False by done.
    destruct (Skip_ok h1 hd m1 (a ++ y :: Q) x y' (M2 ++ b) F) as (K & M1 & -> & HK & HM1 & ES).
    { rewrite <- app_assoc. exact R1. } { done. }
    rewrite ES, rbind_ok.
    specialize (HM y' M2 eq_refl).
    assert (HK' : Forall (fun k => ltp y' k = false) (x :: K)) by by constructor.
    rewrite (app_comm_cons K M1 x) in *. rewrite (mergel_skip y' (x :: K) M1 M2 HK').
    destruct M1 as [|x' M1].
    + rewrite rbind_ok. exists h1. split; [done|]. rewrite mergel_nil_l. rewrite !app_nil_r in *. split; [|exact F1].
      rewrite <- !app_assoc. exact R1.
    + specialize (HM1 x' M1 eq_refl). rewrite rbind_ok.
      destruct (IH (length M2)) with (F := F) (h := h1) (a := a ++ (y :: Q) ++ (x :: K)) (x := x') (m1 := M1) (y := y') (m2 := M2) (fuel := fuel) as (h2 & E2 & R3 & F3); try done.
      { rewrite app_length in Hn. cbn in Hn. lia. }
      { rewrite <- !app_assoc. rewrite <- !app_assoc in R1. exact R1. }
      { rewrite app_length in HF1. cbn in HF1. lia. }
      { rewrite app_length in HF2. cbn in HF2. lia. }
      { rewrite app_length in Hf. cbn in Hf. lia. }
      exists h2. split; [done|]. split.
      * rewrite <- !app_assoc in R3. rewrite <- !app_assoc. exact R3.
      * eapply frame_trans; [exact F1|]. eapply frame_perm; [exact F3|]. apply Permutation_cons; [done|]. apply fmap_Permutation.
        change (a ++ x :: (K ++ x' :: M1) ++ y :: (Q ++ y' :: M2) ++ b) with (a ++ ((x :: K) ++ (x' :: M1)) ++ ((y :: Q) ++ (y' :: M2)) ++ b).
        clear. generalize (y :: Q) (x :: K) (x' :: M1) (y' :: M2). intros l1 l2 l3 l4. solve_Permutation.
Qed.

Lemma Merge_same_ok h hd a m1 m2 b fuel : m1 <> [] -> m2 <> [] -> ring h hd (a ++ m1 ++ m2 ++ b) -> length m1 + length m2 < fuel ->
  exists h', Merge_same lt fuel h (fst_of hd m1) (fst_of hd m2) (fst_of hd b) = Ok (h', fst_of hd (mergel ltp m1 m2)) /\
    ring h' hd (a ++ mergel ltp m1 m2 ++ b) /\ frame h h' (hd :: (a ++ m1 ++ m2 ++ b).*1).
Proof.
  intros H1 H2 R Hf. destruct m1 as [|x m1]; [done|]. destruct m2 as [|y m2]; [done|]. cbn [fst_of]. cbn [length] in Hf.
  unfold Merge_same. rewrite bool_decide_true.
  2:{ split; [apply (ring_distinct _ _ _ _ _ R); done|]. rewrite app_assoc in R. apply (ring_distinct _ _ _ _ _ R). done. }
  cbn [rassert]. rewrite rbind_ok.
  rewrite (Val_ok h y.1 y.2), rbind_ok by (apply (ring_val _ _ _ _ R); rewrite !elem_of_app; right; right; left; left).
  rewrite (Val_ok h x.1 x.2), rbind_ok by (apply (ring_val _ _ _ _ R); rewrite !elem_of_app; right; left; left).
  destruct (lt y.2 x.2) eqn:E.
  - rewrite rbind_ok.
    destruct (Merge_loop_ok hd b (length m2) fuel h a x m1 y m2 fuel) as (h' & E' & R' & F'); try done; try lia.
    rewrite E', rbind_ok. exists h'. rewrite (mergel_lt ltp x m1 y m2 E) in *. done.
  - destruct (Skip_ok h hd m1 a x y (m2 ++ b) fuel) as (K & M1 & -> & HK & HM1 & ES); [exact R|lia|].
    rewrite ES, !rbind_ok.
    assert (HK' : Forall (fun k => ltp y k = false) (x :: K)) by by constructor.
    rewrite (app_comm_cons K M1 x) in *. rewrite (mergel_skip y (x :: K) M1 m2 HK').
    destruct M1 as [|x' M1].
    + rewrite mergel_nil_l, app_nil_r in *. exists h. split; [done|]. rewrite <- app_assoc. split; [exact R|done].
    + specialize (HM1 x' M1 eq_refl).
      destruct (Merge_loop_ok hd b (length m2) fuel h (a ++ x :: K) x' M1 y m2 fuel) as (h' & E' & R' & F'); try done.
      { rewrite <- !app_assoc in *. exact R. } { rewrite app_length in Hf. cbn in Hf. lia. } { lia. } { lia. }
      rewrite E', rbind_ok. exists h'. split; [done|]. rewrite <- !app_assoc in *. done.
Qed.

(** sorting by halves *)
Fixpoint msort (fuel : nat) l : list (nat * V) :=
  match fuel with
  | 0 => l
  | S f => if decide (length l < 2) then l else mergel ltp (msort f (take (length l / 2) l)) (msort f (drop (length l / 2) l))
  end.
Lemma msort_perm fuel : forall l, msort fuel l ≡ₚ l.
Proof.
  induction fuel as [|f IH]; intros l; [done|]. cbn [msort]. case_decide; [done|]. rewrite mergel_perm, !IH. by rewrite take_drop.
Qed.
Lemma setN_same h hd l p q : ring h hd l -> nx h p = Some q -> exists h', setN h p q = Ok h' /\ ring h' hd l /\ frame h h' [p].
Proof.
  intros (ND & Z & C & F) Hp. destruct (setN_ok h p q) as (h' & E & A1 & A2 & A3 & A4); [eauto|].
  exists h'. split; [done|]. split.
  - split_and!; try done.
    + eapply chain_mono; [exact C|]. intros p' q' _ _ [L1 L2]. split; [rewrite A1|by rewrite A2]. case_decide; [|done]. subst. congruence.
    + eapply list.Forall_impl; [exact F|]. intros z Hz. by rewrite A3.
  - intros z Hz. apply A4. by apply not_elem_of_cons in Hz as [].
Qed.
Lemma Sort_ok fuel : forall h hd a m b ref var, length m < fuel -> ring h hd (a ++ m ++ b) ->
  match ref with Some p => p = lst_of hd a | None => var = fst_of hd (m ++ b) end ->
  exists h' var', Sort lt fuel h ref var (length m) = Ok (h', var', fst_of hd b) /\ ring h' hd (a ++ msort fuel m ++ b) /\
    frame h h' (hd :: (a ++ m ++ b).*1) /\ (ref = None -> var' = fst_of hd (msort fuel m ++ b)).
Proof.
  induction fuel as [|f IH]; intros h hd a m b ref var Hf R Href; [lia|]. cbn [Sort msort].
  assert (GR : forall h' m' var', ring h' hd (a ++ m' ++ b) -> (match ref with Some p => p = lst_of hd a | None => var' = fst_of hd (m' ++ b) end) ->
     getref h' ref var' = Ok (fst_of hd (m' ++ b))).
  { intros h' m' var' R' Hr. unfold getref. destruct ref as [p|]; [|by rewrite Hr]. subst p. apply N_ok. by apply ring_link. }
  destruct (decide (length m = 0)) as [E0|E0].
  { apply nil_length_inv in E0 as ->. rewrite (GR h [] var R Href), rbind_ok. rewrite decide_True by (cbn; lia). exists h, var. split_and!; try done. by intros ->. }
  destruct (decide (length m = 1)) as [E1|E1].
  { destruct m as [|x [|? ?]]; [done| |done]. rewrite (GR h [x] var R Href), rbind_ok. cbn [app fst_of].
    rewrite (N_ok _ _ _ (ring_nx _ _ _ _ _ R)), rbind_ok. rewrite decide_True by (cbn; lia). exists h, var. split_and!; try done. intros ->. by rewrite Href. }
  rewrite decide_False by lia.
  set (n1 := length m / 2).
  assert (Hn1 : n1 < length m /\ 0 < n1).
  { unfold n1. split; [apply Nat.div_lt; lia|]. apply Nat.div_str_pos. lia. }
  destruct Hn1 as [Hn1 Hn0].
  assert (El : length (take n1 m) = n1) by (rewrite take_length; lia).
  assert (Er : length (drop n1 m) = length m - n1) by by rewrite drop_length.
  assert (R0 : ring h hd (a ++ take n1 m ++ drop n1 m ++ b)) by by rewrite (app_assoc (take n1 m)), take_drop.
  destruct (IH h hd a (take n1 m) (drop n1 m ++ b) ref var) as (h1 & v1 & E2 & R1 & F1 & V1); [lia|exact R0| |].
  { destruct ref; [done|]. by rewrite (app_assoc (take n1 m)), take_drop. }
  rewrite El in E2. rewrite E2, rbind_ok. set (l1 := msort f (take n1 m)) in *.
  destruct (IH h1 hd (a ++ l1) (drop n1 m) b None (fst_of hd (drop n1 m ++ b))) as (h2 & v2 & E3 & R2 & F2 & V2); [lia|by rewrite <- app_assoc|done|].
  rewrite Er in E3. rewrite E3, rbind_ok. set (l2 := msort f (drop n1 m)) in *. specialize (V2 eq_refl). subst v2.
  rewrite <- app_assoc in R2.
  assert (P1 : l1 ≡ₚ take n1 m) by apply msort_perm. assert (P2 : l2 ≡ₚ drop n1 m) by apply msort_perm.
  assert (N1 : l1 <> []). { intros X. rewrite X in P1. apply Permutation_length in P1. rewrite El in P1. rewrite nil_length in P1. lia. }
  assert (N2 : l2 <> []). { intros X. rewrite X in P2. apply Permutation_length in P2. rewrite Er in P2. rewrite nil_length in P2. lia. }
  assert (EG : getref h2 ref v1 = Ok (fst_of hd l1)).
  { unfold getref. destruct ref as [p|].
    - subst p. apply N_ok. pose proof (ring_link _ _ _ _ R2) as [X _]. rewrite fst_of_app, (fst_of_ne _ hd) in X by done. exact X.
    - rewrite (V1 eq_refl). rewrite fst_of_app, (fst_of_ne _ hd) by done. done. }
  rewrite EG, rbind_ok.
  destruct (Merge_same_ok h2 hd a l1 l2 b (S (length m))) as (h3 & E4 & R3 & F3); [done|done|exact R2| |].
  { rewrite P1, P2, El, Er. lia. }
  rewrite (fst_of_app hd l2), (fst_of_ne _ hd l2) by done. rewrite E4, rbind_ok.
  assert (N3 : mergel ltp l1 l2 <> []).
  { intros X. apply (f_equal length) in X. rewrite mergel_length in X. destruct l1; [done|]. cbn in X. lia. }
  assert (PM : forall l0 l3, l0 ≡ₚ take n1 m -> l3 ≡ₚ drop n1 m -> hd :: (a ++ l0 ++ l3 ++ b).*1 ≡ₚ hd :: (a ++ m ++ b).*1).
  { intros l0 l3 -> ->. by rewrite (app_assoc (take n1 m)), take_drop. }
  assert (FF : frame h h3 (hd :: (a ++ m ++ b).*1)).
  { eapply frame_trans; [eapply frame_perm; [exact F1|by apply PM]|]. eapply frame_trans; [eapply frame_perm; [exact F2|rewrite <- app_assoc; by apply PM]|].
    eapply frame_perm; [exact F3|by apply PM]. }
  destruct ref as [p|].
  - subst p. pose proof (ring_link _ _ _ _ R3) as [X _]. rewrite fst_of_app, (fst_of_ne _ hd) in X by done.
    destruct (setN_same _ _ _ _ _ R3 X) as (h4 & -> & R4 & F4). rewrite rbind_ok.
    eexists _, _. split; [done|]. split_and!; try done.
    eapply frame_trans; [exact FF|]. eapply frame_weaken; [exact F4|]. intros z ->%elem_of_list_singleton. apply in_lst.
  - rewrite rbind_ok. eexists _, _. split; [done|]. split_and!; try done. intros _. rewrite fst_of_app. by apply fst_of_ne.
Qed.

Context (SW : StrictWeakOrder lt).
Lemma ltp_swo : StrictWeakOrder ltp.
Proof.
  destruct SW as [A B C]. split; unfold ltp.
  - intros x. apply A.
  - intros x y z. apply B.
  - intros x y z. apply C.
Qed.
Lemma sort_small l : length l < 2 -> sorted ltp l.
Proof. destruct l as [|x [|y l]]; [done| |cbn; lia]. intros _. apply sorted_cons. split; [constructor|done]. Qed.
Lemma msort_sorted fuel : forall l, length l < fuel -> sorted ltp (msort fuel l) /\ stable_eq ltp l (msort fuel l).
Proof.
  induction fuel as [|f IH]; intros l Hf; [lia|]. cbn [msort]. case_decide as D.
  { split; [by apply sort_small|done]. }
  assert (Hn : length l / 2 < length l /\ 0 < length l / 2).
  { split; [apply Nat.div_lt; lia|]. apply Nat.div_str_pos. lia. }
  destruct (IH (take (length l / 2) l)) as [S1 T1]. { rewrite take_length. lia. }
  destruct (IH (drop (length l / 2) l)) as [S2 T2]. { rewrite drop_length. lia. }
  split; [by apply mergel_sorted; [apply ltp_swo| |]|].
  eapply stable_eq_trans; [|apply mergel_steq; [apply ltp_swo|exact S1]].
  rewrite <- (take_drop (length l / 2) l) at 1. by apply stable_eq_app.
Qed.
Lemma sort_ok h s l : is_list h s l ->
  exists h' l', sort lt h s = Ok h' /\ is_list h' s l' /\ sorted ltp l' /\ stable_eq ltp l l' /\ l' ≡ₚ l /\ frame h h' (lhead s :: l.*1).
Proof.
  intros [R Sz]. unfold sort. rewrite Sz.
  destruct (Sort_ok (S (length l)) h (lhead s) [] l [] (Some (lhead s)) null) as (h' & v' & E & R' & F & _); rewrite ?app_nil_r in *; try done; [lia|].
  rewrite E, rbind_ok. exists h', (msort (S (length l)) l). cbn [app] in R'.
  destruct (msort_sorted (S (length l)) l) as [S1 S2]; [lia|].
  split; [done|]. split; [split; [done|by rewrite msort_perm]|]. split_and!; try done. apply msort_perm.
Qed.
Lemma merge_ok h s l r l2 : is_list h s l -> is_list h r l2 -> disj (lhead s) l (lhead r) l2 ->
  exists h' s' r', merge lt h s r = Ok (h', s', r') /\ lhead s' = lhead s /\ lhead r' = lhead r /\
    is_list h' s' (mergel ltp l l2) /\ is_list h' r' [] /\ frame h h' ((lhead s :: l.*1) ++ (lhead r :: l2.*1)).
Proof.
  intros L1 L2 D. unfold merge. pose proof (disj_size_head _ _ _ _ _ L1 L2 D) as Hh. rewrite decide_False by done.
  destruct (decide (l2 = [])) as [->|Hl].
  { rewrite decide_True by by rewrite (proj2 L2). eexists _, _, _. split; [done|]. rewrite mergel_nil_r. by split_and!. }
  rewrite decide_False by (rewrite (proj2 L2); by destruct l2).
  rewrite (N_ok _ _ _ (ring_first _ _ _ (proj1 L2))), rbind_ok.
  destruct (Splice_other h s l [] r [] l2 [] (lsize r)) as (h1 & E1 & X1 & X2 & X3); rewrite ?app_nil_r in *; try done. { apply L2. }
  cbn [app fst_of] in *. rewrite E1, rbind_ok. cbn [lhead lsize] in *.
  rewrite (N_ok h1 (lhead s) (fst_of (lhead s) (l ++ l2))), rbind_ok by apply (ring_first _ _ _ (proj1 X1)).
  destruct (decide (l = [])) as [->|Hn].
  - cbn [app] in *. rewrite (fst_of_ne _ (lhead r)) by done. rewrite decide_False by naive_solver.
    eexists _, _, _. split; [done|]. cbn [mergel]. by split_and!.
  - assert (Dn : fst_of (lhead s) (l ++ l2) <> fst_of (lhead r) l2).
    { rewrite fst_of_app, (fst_of_ne _ (lhead s)) by done. intros X. eapply D; [right; by apply (fst_of_in_ne (lhead s))|]. rewrite X. right. by apply fst_of_in_ne. }
    rewrite decide_True by done. rewrite rbind_ok.
    destruct (Merge_same_ok h1 (lhead s) [] l l2 [] (S (lsize s + lsize r))) as (h2 & E2 & R2 & F2); try done.
    { rewrite app_nil_r. apply X1. } { rewrite (proj2 L1), (proj2 L2). lia. }
    cbn [fst_of app] in *. rewrite !app_nil_r in *. rewrite fst_of_app, (fst_of_ne _ (lhead s) l), (fst_of_ne (lhead r) (lhead s) l2) by done.
    rewrite E2, rbind_ok. eexists _, _, _. split; [done|]. cbn [lhead]. split_and!; try done.
    + split; [done|]. cbn [lsize]. rewrite (proj2 L1), (proj2 L2). by rewrite mergel_length.
    + split; [|cbn; lia]. eapply ring_frame; [apply X2|]. cbn [lhead]. intros p Hp. apply F2. intros X.
      apply elem_of_cons in Hp as [->|Hp%elem_of_nil]; [|done]. rewrite ptrs_app in X. apply elem_of_cons in X as [X|X]; [done|].
      apply elem_of_app in X as [X|X]; [eapply D; [by right|left]|].
      destruct L2 as [[ND _] _]. by apply list.NoDup_cons in ND as [].
    + eapply frame_trans; [exact X3|]. eapply frame_weaken; [exact F2|]. intros p Hp. rewrite ptrs_app in Hp.
      rewrite !elem_of_cons, !elem_of_app in *. rewrite !elem_of_cons. naive_solver.
Qed.
Lemma merge_self h s : merge lt h s s = Ok (h, s, s).
Proof. unfold merge. by rewrite decide_True. Qed.
End proofs.
