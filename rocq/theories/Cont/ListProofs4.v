(** The splice functions, _Merge_same, _Sort, merge, reverse. *)
From stdpp Require Import base list numbers option decidable.
From Coq Require Import Lia.
From Verif Require Import Base.Res Cont.ListModel Cont.ListSpec Cont.ListProofs Cont.ListProofs2 Cont.ListProofs3.
Local Open Scope nat_scope.

Section proofs.
Context {V : Type}.
Implicit Types (h : heap V) (l a b c d m x y : list (nat * V)) (K : list (nat * nat)).

Lemma frame_relinked h h' K (ps : list nat) : relinked h h' K -> (forall p q, (p, q) ∈ K -> p ∈ ps /\ q ∈ ps) -> frame h h' ps.
Proof.
  intros (_ & _ & _ & _ & F) H p Hp. apply F. intros X. apply Hp. apply elem_of_app in X as [X|X];
    apply elem_of_list_fmap in X as ([p1 p2] & -> & X); apply H in X; naive_solver.
Qed.
Lemma ring_distinct h hd a x b : ring h hd (a ++ x ++ b) -> x <> [] -> fst_of hd x <> fst_of hd b.
Proof.
  intros R Hx E. apply ring_nodup in R. rewrite !ptrs_app, <- !app_assoc in R.
  apply list.NoDup_app in R as (_ & _ & R). apply list.NoDup_app in R as (_ & R & _).
  eapply R; [by apply (fst_of_in_ne hd)|]. rewrite E. apply fst_of_in.
Qed.
Lemma Splice3_swap_r h hd a x y c : x <> [] -> y <> [] -> ring h hd (a ++ x ++ y ++ c) ->
  exists h', Splice3 h (fst_of hd c) (fst_of hd x) (fst_of hd y) = Ok h' /\ ring h' hd (a ++ y ++ x ++ c) /\ frame h h' (hd :: (a ++ x ++ y ++ c).*1).
Proof.
  intros Hx Hy R. pose proof (ring_link _ _ _ _ R) as L1. rewrite fst_of_app, (fst_of_ne _ hd) in L1 by done.
  pose proof R as R'. rewrite app_assoc in R'. pose proof (ring_link _ _ _ _ R') as L2.
  rewrite lst_of_app, (lst_of_ne _ hd x), fst_of_app, (fst_of_ne _ hd y) in L2 by done.
  pose proof R' as R2. rewrite app_assoc in R2. pose proof (ring_link _ _ _ _ R2) as L3.
  rewrite lst_of_app, (lst_of_ne _ hd y) in L3 by done.
  pose proof (ring_distinct _ _ _ _ _ R Hx) as D1. rewrite fst_of_app, (fst_of_ne _ hd y) in D1 by done.
  pose proof (ring_distinct _ _ _ _ _ R' Hy) as D2.
  pose proof R as R3. rewrite (app_assoc x) in R3. pose proof (ring_distinct _ _ _ _ _ R3) as D3. rewrite fst_of_app, (fst_of_ne _ hd x) in D3 by done.
  destruct (Splice3_ok h (fst_of hd c) (fst_of hd x) (fst_of hd y) _ _ _ L1 L2 L3) as (h' & E & RL).
  { intros X. symmetry in X. revert X. apply D3. by destruct x. } { congruence. } { done. }
  exists h'. split; [done|]. split.
  - eapply swap_ring; [exact Hx|exact Hy|exact R|]. eapply relinked_perm; [exact RL|].
    rewrite (perm_swap (lst_of hd y, fst_of hd x)). done.
  - eapply frame_relinked; [exact RL|].
    pose proof (in_lst hd a (x ++ y ++ c)) as I1. pose proof (in_lst hd (a ++ x) (y ++ c)) as I2. pose proof (in_lst hd (a ++ x ++ y) c) as I3.
    pose proof (in_fst hd a (x ++ y ++ c)) as J1. pose proof (in_fst hd (a ++ x) (y ++ c)) as J2. pose proof (in_fst hd (a ++ x ++ y) c) as J3.
    rewrite <- !app_assoc in *. rewrite !lst_of_app in *. rewrite !fst_of_app in *.
    rewrite (lst_of_ne _ hd y) in I3 by done. rewrite (lst_of_ne _ hd x) in I2 by done.
    rewrite (fst_of_ne _ hd y) in J2 by done. rewrite (fst_of_ne _ hd x) in J1 by done.
    intros p q Hpq. rewrite !elem_of_cons in Hpq.
    destruct Hpq as [[= -> ->]|[[= -> ->]|[[= -> ->]|Hpq%elem_of_nil]]]; done.
Qed.
(** the same swap, written as moving the second segment forward *)
Lemma Splice3_swap_l h hd a x y c : x <> [] -> y <> [] -> ring h hd (a ++ x ++ y ++ c) ->
  exists h', Splice3 h (fst_of hd x) (fst_of hd y) (fst_of hd c) = Ok h' /\ ring h' hd (a ++ y ++ x ++ c) /\ frame h h' (hd :: (a ++ x ++ y ++ c).*1).
Proof.
  intros Hx Hy R. pose proof (ring_link _ _ _ _ R) as L1. rewrite fst_of_app, (fst_of_ne _ hd) in L1 by done.
  pose proof R as R'. rewrite app_assoc in R'. pose proof (ring_link _ _ _ _ R') as L2.
  rewrite lst_of_app, (lst_of_ne _ hd x), fst_of_app, (fst_of_ne _ hd y) in L2 by done.
  pose proof R' as R2. rewrite app_assoc in R2. pose proof (ring_link _ _ _ _ R2) as L3.
  rewrite lst_of_app, (lst_of_ne _ hd y) in L3 by done.
  pose proof (ring_distinct _ _ _ _ _ R Hx) as D1. rewrite fst_of_app, (fst_of_ne _ hd y) in D1 by done.
  pose proof (ring_distinct _ _ _ _ _ R' Hy) as D2.
  pose proof R as R3. rewrite (app_assoc x) in R3. pose proof (ring_distinct _ _ _ _ _ R3) as D3. rewrite fst_of_app, (fst_of_ne _ hd x) in D3 by done.
  destruct (Splice3_ok h (fst_of hd x) (fst_of hd y) (fst_of hd c) _ _ _ L2 L3 L1) as (h' & E & RL).
  { done. } { apply D3. by destruct x. } { done. }
  exists h'. split; [done|]. split.
  - eapply swap_ring; [exact Hx|exact Hy|exact R|]. eapply relinked_perm; [exact RL|].
    apply (Permutation_rev [_; _; _]).
  - eapply frame_relinked; [exact RL|].
    pose proof (in_lst hd a (x ++ y ++ c)) as I1. pose proof (in_lst hd (a ++ x) (y ++ c)) as I2. pose proof (in_lst hd (a ++ x ++ y) c) as I3.
    pose proof (in_fst hd a (x ++ y ++ c)) as J1. pose proof (in_fst hd (a ++ x) (y ++ c)) as J2. pose proof (in_fst hd (a ++ x ++ y) c) as J3.
    rewrite <- !app_assoc in *. rewrite !lst_of_app in *. rewrite !fst_of_app in *.
    rewrite (lst_of_ne _ hd y) in I3 by done. rewrite (lst_of_ne _ hd x) in I2 by done.
    rewrite (fst_of_ne _ hd y) in J2 by done. rewrite (fst_of_ne _ hd x) in J1 by done.
    intros p q Hpq. rewrite !elem_of_cons in Hpq.
    destruct Hpq as [[= -> ->]|[[= -> ->]|[[= -> ->]|Hpq%elem_of_nil]]]; done.
Qed.
Lemma Splice3_move h (h1 : nat) a b (h2 : nat) c m d : m <> [] -> ring h h1 (a ++ b) -> ring h h2 (c ++ m ++ d) -> disj h1 (a ++ b) h2 (c ++ m ++ d) ->
  exists h', Splice3 h (fst_of h1 b) (fst_of h2 m) (fst_of h2 d) = Ok h' /\ ring h' h1 (a ++ m ++ b) /\ ring h' h2 (c ++ d) /\
    frame h h' ((h1 :: (a ++ b).*1) ++ (h2 :: (c ++ m ++ d).*1)).
Proof.
  intros Hm R1 R2 D. pose proof (ring_link _ _ _ _ R1) as L1. pose proof (ring_link _ _ _ _ R2) as L2. rewrite fst_of_app, (fst_of_ne _ h2) in L2 by done.
  pose proof R2 as R2'. rewrite app_assoc in R2'. pose proof (ring_link _ _ _ _ R2') as L3. rewrite lst_of_app, (lst_of_ne _ h2 m) in L3 by done.
  pose proof (in_fst h1 a b) as J1. pose proof (in_lst h1 a b) as I1.
  pose proof (in_fst h2 c (m ++ d)) as J2. pose proof (in_lst h2 c (m ++ d)) as I2.
  pose proof (in_fst h2 (c ++ m) d) as J3. pose proof (in_lst h2 (c ++ m) d) as I3. rewrite <- app_assoc in J3, I3.
  rewrite fst_of_app, (fst_of_ne _ h2) in J2 by done. rewrite lst_of_app, (lst_of_ne _ h2) in I3 by done.
  destruct (Splice3_ok h (fst_of h1 b) (fst_of h2 m) (fst_of h2 d) _ _ _ L2 L3 L1) as (h' & E & RL).
  { intros X. rewrite X in J1. by apply (D _ J1). } { intros X. rewrite X in J1. by apply (D _ J1). } { by eapply ring_distinct. }
  exists h'. split; [done|]. destruct (move_ring _ _ _ _ _ _ _ _ _ Hm R1 R2 D RL) as [? ?]. split_and!; try done.
  eapply frame_relinked; [exact RL|]. intros p q Hpq. rewrite !elem_of_cons in Hpq. rewrite !elem_of_app.
  destruct Hpq as [[= -> ->]|[[= -> ->]|[[= -> ->]|Hpq%elem_of_nil]]]; [auto|auto|auto|done].
Qed.

Lemma disj_size_head h s l r l' : is_list h s l -> is_list h r l' -> disj (lhead s) l (lhead r) l' -> lhead s <> lhead r.
Proof. intros _ _ D E. apply (D (lhead s)); [left|]. rewrite E. left. Qed.

(** splice between two lists *)
Lemma Splice_other h s a b r c m d n : m <> [] -> is_list h s (a ++ b) -> is_list h r (c ++ m ++ d) -> disj (lhead s) (a ++ b) (lhead r) (c ++ m ++ d) ->
  n = length m ->
  exists h', Splice h s r false (fst_of (lhead s) b) (fst_of (lhead r) m) (fst_of (lhead r) d) n =
      Ok (h', Lst (lhead s) (lsize s + n), Lst (lhead r) (lsize r - n)) /\
    is_list h' (Lst (lhead s) (lsize s + n)) (a ++ m ++ b) /\ is_list h' (Lst (lhead r) (lsize r - n)) (c ++ d) /\
    frame h h' ((lhead s :: (a ++ b).*1) ++ (lhead r :: (c ++ m ++ d).*1)).
Proof.
  intros Hm [R1 S1] [R2 S2] D ->. unfold Splice.
  destruct (Splice3_move _ _ _ _ _ _ _ _ Hm R1 R2 D) as (h' & -> & R1' & R2' & F). rewrite rbind_ok.
  exists h'. split; [done|]. rewrite !app_length in S1. rewrite !app_length in S2.
  split; [split; [done|cbn [lsize]; rewrite !app_length; lia]|]. split; [split; [done|cbn [lsize]; rewrite !app_length; lia]|]. done.
Qed.
Lemma splice_all_ok h s a b r l : is_list h s (a ++ b) -> is_list h r l -> disj (lhead s) (a ++ b) (lhead r) l ->
  exists h' s' r', splice_all h s r (fst_of (lhead s) b) = Ok (h', s', r') /\ lhead s' = lhead s /\ lhead r' = lhead r /\
    is_list h' s' (a ++ l ++ b) /\ is_list h' r' [] /\ frame h h' ((lhead s :: (a ++ b).*1) ++ (lhead r :: l.*1)).
Proof.
  intros L1 L2 D. unfold splice_all. pose proof (disj_size_head _ _ _ _ _ L1 L2 D) as Hh.
  destruct (decide (l = [])) as [->|Hl].
  - rewrite decide_False by (rewrite (proj2 L2); naive_solver). eexists _, _, _. split_and!; try done.
  - rewrite decide_True by (rewrite (proj2 L2); split; [done|]; by destruct l).
    rewrite (N_ok _ _ _ (ring_first _ _ _ (proj1 L2))), rbind_ok.
    destruct (Splice_other h s a b r [] l [] (lsize r)) as (h' & E & X1 & X2 & X3); rewrite ?app_nil_r in *; cbn [app] in *; try done.
    { apply L2. }
    eexists _, _, _. split; [exact E|]. by split_and!.
Qed.
Lemma splice_one_ok h s a b r c (x : nat * V) d : is_list h s (a ++ b) -> is_list h r (c ++ x :: d) -> disj (lhead s) (a ++ b) (lhead r) (c ++ x :: d) ->
  exists h' s' r', splice_one h s r (fst_of (lhead s) b) x.1 = Ok (h', s', r') /\ lhead s' = lhead s /\ lhead r' = lhead r /\
    is_list h' s' (a ++ x :: b) /\ is_list h' r' (c ++ d) /\ frame h h' ((lhead s :: (a ++ b).*1) ++ (lhead r :: (c ++ x :: d).*1)).
Proof.
  intros L1 L2 D. unfold splice_one. pose proof (disj_size_head _ _ _ _ _ L1 L2 D) as Hh.
  rewrite (N_ok _ _ _ (ring_nx _ _ _ _ _ (proj1 L2))), rbind_ok. rewrite decide_True by auto. rewrite bool_decide_false by done.
  destruct (Splice_other h s a b r c [x] d 1) as (h' & E & X1 & X2 & X3); try done.
  eexists _, _, _. split; [exact E|]. by split_and!.
Qed.
Lemma count_loop h hd c m d : ring h hd (c ++ m ++ d) -> forall fuel n, length m < fuel ->
  loop fuel (fun '(p, n) => if decide (p = fst_of hd d) then Ok (inr n) else q <~ N h p ;; Ok (inl (q, S n))) (fst_of (fst_of hd d) m, n) = Ok (n + length m).
Proof.
  intros R fuel. revert c R. revert m. induction fuel as [|fuel IH]; intros m c R n Hf; [lia|].
  rewrite loop_S. destruct m as [|x m].
  - cbn [fst_of]. rewrite decide_True by done. rewrite rbind_ok. f_equal. cbn. lia.
  - change (fst_of (fst_of hd d) (x :: m)) with x.1.
    pose proof (ring_distinct _ _ _ _ _ R ltac:(done)) as Dx. rewrite decide_False by done.
    rewrite (N_ok h x.1 (fst_of hd (m ++ d))) by apply (ring_nx _ _ c x (m ++ d) R).
    rewrite !rbind_ok, fst_of_app. rewrite (IH m (c ++ [x])); [f_equal; cbn; lia|by rewrite <- app_assoc|cbn in Hf; lia].
Qed.
Lemma ring_whole h hd c m d : ring h hd (c ++ m ++ d) -> m <> [] -> fst_of hd m = fst_of hd (c ++ m ++ d) -> fst_of hd d = hd -> c = [] /\ d = [].
Proof.
  intros R Hm E1 E2. split.
  - destruct c as [|x c]; [done|]. exfalso.
    pose proof (ring_distinct _ _ [] (x :: c) (m ++ d) R ltac:(done)) as X. apply X. rewrite fst_of_app, (fst_of_ne _ hd m) by done. by rewrite E1.
  - destruct d as [|x d]; [done|]. exfalso. cbn in E2. destruct R as (ND & _). rewrite !ptrs_app in ND. apply list.NoDup_cons in ND as [ND _].
    apply ND. rewrite <- E2. apply elem_of_app; right. apply elem_of_app; right. left.
Qed.
Lemma splice_range_ok h s a b r c m d : is_list h s (a ++ b) -> is_list h r (c ++ m ++ d) -> disj (lhead s) (a ++ b) (lhead r) (c ++ m ++ d) ->
  exists h' s' r', splice_range h s r (fst_of (lhead s) b) (fst_of (fst_of (lhead r) d) m) (fst_of (lhead r) d) = Ok (h', s', r') /\
    lhead s' = lhead s /\ lhead r' = lhead r /\
    is_list h' s' (a ++ m ++ b) /\ is_list h' r' (c ++ d) /\ frame h h' ((lhead s :: (a ++ b).*1) ++ (lhead r :: (c ++ m ++ d).*1)).
Proof.
  intros L1 L2 D. unfold splice_range. pose proof (disj_size_head _ _ _ _ _ L1 L2 D) as Hh.
  destruct (decide (m = [])) as [->|Hm].
  - cbn [fst_of app]. rewrite decide_False by naive_solver. eexists _, _, _. by split_and!.
  - rewrite (fst_of_ne _ (lhead r)) by done. pose proof (ring_distinct _ _ _ _ _ (proj1 L2) Hm) as Dm.
    rewrite decide_True by auto.
    assert (E : (if decide (lhead s ≠ lhead r)
       then
        f <~ N h (lhead r);;
        (if decide (fst_of (lhead r) m = f ∧ fst_of (lhead r) d = lhead r)
         then Ok (lsize r)
         else
          loop (S (lsize r))
            (λ '(p, n),
               if decide (p = fst_of (lhead r) d)
               then Ok (inr n)
               else q <~ N h p;; Ok (inl (q, S n))) 
            (fst_of (lhead r) m, 0))
       else Ok 0) = Ok (length m)).
    { rewrite decide_True by done. rewrite (N_ok _ _ _ (ring_first _ _ _ (proj1 L2))), rbind_ok.
      destruct (decide (fst_of (lhead r) m = fst_of (lhead r) (c ++ m ++ d) ∧ fst_of (lhead r) d = lhead r)) as [[E1 E2]|_].
      - destruct (ring_whole _ _ _ _ _ (proj1 L2) Hm E1 E2) as [-> ->]. rewrite (proj2 L2), app_nil_r. done.
      - rewrite (fst_of_ne (lhead r) (fst_of (lhead r) d) m) by done. rewrite (count_loop _ _ _ _ _ (proj1 L2)); [done|].
        rewrite (proj2 L2), !app_length. lia. }
    rewrite E, rbind_ok. rewrite bool_decide_false by done.
    destruct (Splice_other h s a b r c m d (length m)) as (h' & E' & X1 & X2 & X3); try done.
    eexists _, _, _. split; [exact E'|]. by split_and!.
Qed.

(** splice within one list *)
Lemma splice_range_same_r h s a m b c : is_list h s (a ++ m ++ b ++ c) ->
  exists h', splice_range h s s (fst_of (lhead s) c) (fst_of (lhead s) (m ++ b ++ c)) (fst_of (lhead s) (b ++ c)) = Ok (h', s, s) /\
    is_list h' s (a ++ b ++ m ++ c) /\ frame h h' (lhead s :: (a ++ m ++ b ++ c).*1).
Proof.
  intros [R Sz]. unfold splice_range.
  destruct (decide (m = [])) as [->|Hm].
  { cbn [app]. rewrite decide_False by naive_solver. exists h. by split_and!. }
  destruct (decide (b = [])) as [->|Hb].
  { cbn [app] in *. rewrite decide_False by naive_solver. exists h. by split_and!. }
  pose proof R as R'. rewrite app_assoc in R'.
  pose proof (ring_distinct _ _ _ _ _ R' Hb) as D1. pose proof (ring_distinct _ _ _ _ _ R Hm) as D2.
  rewrite (fst_of_app _ b), (fst_of_ne _ (lhead s) b) in D2 |- * by done.
  rewrite (fst_of_app _ m), (fst_of_ne _ (lhead s) m) by done.
  rewrite decide_True by auto. rewrite decide_False by naive_solver. rewrite rbind_ok, bool_decide_true by done. unfold Splice.
  destruct (Splice3_swap_r _ _ _ _ _ _ Hm Hb R) as (h' & -> & R2 & F). rewrite rbind_ok. exists h'. split; [done|]. split; [|done].
  split; [done|]. rewrite Sz, !app_length. lia.
Qed.
Lemma splice_range_same_l h s a b m c : is_list h s (a ++ b ++ m ++ c) -> b <> [] \/ m = [] ->
  exists h', splice_range h s s (fst_of (lhead s) (b ++ m ++ c)) (fst_of (lhead s) (m ++ c)) (fst_of (lhead s) c) = Ok (h', s, s) /\
    is_list h' s (a ++ m ++ b ++ c) /\ frame h h' (lhead s :: (a ++ b ++ m ++ c).*1).
Proof.
  intros [R Sz] Hbm. unfold splice_range.
  destruct (decide (m = [])) as [->|Hm].
  { cbn [app]. rewrite decide_False by naive_solver. exists h. by split_and!. }
  assert (Hb : b <> []) by naive_solver.
  pose proof R as R'. rewrite app_assoc in R'.
  pose proof (ring_distinct _ _ _ _ _ R' Hm) as D1.
  pose proof R as R3. rewrite (app_assoc b) in R3. pose proof (ring_distinct _ _ _ _ _ R3) as D3. rewrite fst_of_app, (fst_of_ne _ (lhead s) b) in D3 by done.
  rewrite (fst_of_app _ m), (fst_of_ne _ (lhead s) m) by done.
  rewrite (fst_of_app _ b), (fst_of_ne _ (lhead s) b) by done.
  rewrite decide_True by (split; [done|right; apply D3; by destruct b]). rewrite decide_False by naive_solver. rewrite rbind_ok, bool_decide_true by done. unfold Splice.
  destruct (Splice3_swap_l _ _ _ _ _ _ Hb Hm R) as (h' & -> & R2 & F). rewrite rbind_ok. exists h'. split; [done|]. split; [|done].
  split; [done|]. rewrite Sz, !app_length. lia.
Qed.
Lemma splice_one_same_r h s a (z : nat * V) b c : is_list h s (a ++ z :: b ++ c) ->
  exists h', splice_one h s s (fst_of (lhead s) c) z.1 = Ok (h', s, s) /\
    is_list h' s (a ++ b ++ z :: c) /\ frame h h' (lhead s :: (a ++ z :: b ++ c).*1).
Proof.
  intros [R Sz]. unfold splice_one. rewrite (N_ok _ _ _ (ring_nx _ _ _ _ _ R)), rbind_ok.
  destruct (decide (b = [])) as [->|Hb].
  { cbn [app] in *. rewrite decide_False by naive_solver. exists h. by split_and!. }
  change (a ++ z :: b ++ c) with (a ++ [z] ++ b ++ c) in R. pose proof R as R'. rewrite app_assoc in R'.
  pose proof (ring_distinct _ _ _ _ _ R' Hb) as D1.
  pose proof R as R3. rewrite (app_assoc [z]) in R3. pose proof (ring_distinct _ _ _ _ _ R3 ltac:(done)) as D3. cbn in D3.
  rewrite (fst_of_app _ b), (fst_of_ne _ (lhead s) b) by done.
  rewrite decide_True by auto. rewrite bool_decide_true by done. unfold Splice.
  destruct (Splice3_swap_r _ _ _ _ _ _ (ltac:(done) : [z] <> []) Hb R) as (h' & E & R2 & F). cbn [fst_of] in E. rewrite E, rbind_ok. exists h'. split; [done|]. split; [|done].
  split; [done|]. rewrite Sz, !app_length. cbn. rewrite !app_length. lia.
Qed.
Lemma splice_one_same_l h s a b (z : nat * V) c : is_list h s (a ++ b ++ z :: c) ->
  exists h', splice_one h s s (fst_of (lhead s) (b ++ z :: c)) z.1 = Ok (h', s, s) /\
    is_list h' s (a ++ z :: b ++ c) /\ frame h h' (lhead s :: (a ++ b ++ z :: c).*1).
Proof.
  intros [R Sz]. unfold splice_one. rewrite (N_ok h z.1 (fst_of (lhead s) c)), rbind_ok by (rewrite app_assoc in R; apply (ring_nx _ _ _ _ _ R)).
  destruct (decide (b = [])) as [->|Hb].
  { cbn [app fst_of] in *. rewrite decide_False by naive_solver. exists h. by split_and!. }
  change (a ++ b ++ z :: c) with (a ++ b ++ [z] ++ c) in R. pose proof R as R'.
  pose proof (ring_distinct _ _ _ _ _ R Hb) as D1. cbn in D1.
  pose proof R as R3. rewrite (app_assoc b) in R3. pose proof (ring_distinct _ _ _ _ _ R3) as D3. rewrite fst_of_app, (fst_of_ne _ (lhead s) b) in D3 by done.
  rewrite (fst_of_app _ b), (fst_of_ne _ (lhead s) b) by done.
  rewrite decide_True by (right; split; [done|apply D3; by destruct b]). rewrite bool_decide_true by done. unfold Splice.
  destruct (Splice3_swap_l _ _ _ _ _ _ Hb (ltac:(done) : [z] <> []) R) as (h' & E & R2 & F). cbn [fst_of] in E. rewrite E, rbind_ok. exists h'. split; [done|]. split; [|done].
  split; [done|]. rewrite Sz, !app_length. cbn. rewrite !app_length. lia.
Qed.
End proofs.
