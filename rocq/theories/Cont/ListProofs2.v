(** Insertion, erasure of one node, splicing. *)
From stdpp Require Import base list numbers option decidable.
From Coq Require Import Lia.
From Verif Require Import Base.Res Cont.ListModel Cont.ListSpec Cont.ListProofs.
Local Open Scope nat_scope.

Section proofs.
Context {V : Type}.
Implicit Types (h : heap V) (l a b c d m : list (nat * V)).

(** the effect on all links at once *)
Definition eff h h' (fn fp : nat -> option nat) (fr : list nat) : Prop :=
  (forall x, nx h' x = match fn x with Some q => Some q | None => nx h x end) /\
  (forall x, pv h' x = match fp x with Some q => Some q | None => pv h x end) /\
  (forall x, vl h' x = vl h x) /\ (forall x, x ∉ fr -> h' x = h x).

Lemma Transfer_before_eff h new bef aft :
  pv h bef = Some aft -> is_Some (nx h new) -> is_Some (nx h aft) -> new <> bef -> new <> aft ->
  exists h', Transfer_before h new bef = Ok h' /\
    eff h h' (fun x => if decide (x = aft) then Some new else if decide (x = new) then Some bef else None)
             (fun x => if decide (x = bef) then Some new else if decide (x = new) then Some aft else None) [new; bef; aft].
Proof.
  intros Hp Hn Ha N1 N2. unfold Transfer_before. rewrite (P_ok _ _ _ Hp), rbind_ok.
  destruct (setN_ok h new bef Hn) as (h1 & -> & A1 & A2 & A3 & A4). rewrite rbind_ok.
  destruct (setP_ok h1 new aft) as (h2 & -> & B1 & B2 & B3 & B4). { rewrite A2. by destruct Hn as [? ?%nx_pv]. } rewrite rbind_ok.
  destruct (setP_ok h2 bef new) as (h3 & -> & C1 & C2 & C3 & C4). { rewrite B2, A2, Hp. case_decide; eauto. } rewrite rbind_ok.
  destruct (setN_ok h3 aft new) as (h4 & -> & D1 & D2 & D3 & D4). { rewrite C1, B1, A1. case_decide; eauto. }
  exists h4. split; [done|]. split_and!; intros x.
  - rewrite D1, C1, B1, A1. by repeat case_decide.
  - rewrite D2, C2, B2, A2. by repeat case_decide.
  - by rewrite D3, C3, B3, A3.
  - rewrite !not_elem_of_cons. intros (X1 & X2 & X3 & _). by rewrite D4, C4, B4, A4.
Qed.

(** chains survive when none of their inner targets is relinked *)
Lemma chain_eff h h' fn fp fr ps : eff h h' fn fp fr -> chain h ps ->
  (forall p q, p ∈ ps -> q ∈ tail ps -> link h p q -> fn p = None /\ fp q = None) -> chain h' ps.
Proof.
  intros (E1 & E2 & _) C H. eapply chain_mono; [exact C|]. intros p q Hp Hq L.
  destruct (H p q Hp Hq L) as [F1 F2]. destruct L. split; [rewrite E1, F1|rewrite E2, F2]; done.
Qed.
Lemma chain_cons h p ps : chain h (p :: ps) <-> chain h ps /\ (forall q, head ps = Some q -> link h p q).
Proof. destruct ps as [|q ps]; cbn; naive_solver. Qed.
Lemma chain_cut h hd a b : chain h (hd :: (a ++ b).*1 ++ [hd]) <->
  chain h (hd :: a.*1) /\ chain h (b.*1 ++ [hd]) /\ link h (lst_of hd a) (fst_of hd b).
Proof.
  rewrite fmap_app, <- app_assoc. change (hd :: a.*1 ++ b.*1 ++ [hd]) with ((hd :: a.*1) ++ (b.*1 ++ [hd])).
  rewrite chain_app. setoid_rewrite last_hd. setoid_rewrite head_hd. naive_solver.
Qed.
(** middle segments *)
Lemma chain_mid h hd m b : m <> [] -> chain h ((m ++ b).*1 ++ [hd]) <->
  chain h (m.*1) /\ chain h (b.*1 ++ [hd]) /\ link h (lst_of hd m) (fst_of hd b).
Proof.
  intros Hm. rewrite fmap_app, <- app_assoc, chain_app.
  assert (E : list.last (m.*1) = Some (lst_of hd m)).
  { unfold lst_of. destruct m as [|x m' _] using rev_ind; [done|]. rewrite last_snoc, fmap_app. change ([x].*1) with [x.1]. by rewrite last_snoc. }
  setoid_rewrite E. setoid_rewrite head_hd. naive_solver.
Qed.
Lemma chain_pre h hd a m : m <> [] -> chain h (hd :: (a ++ m).*1) <->
  chain h (hd :: a.*1) /\ chain h (m.*1) /\ link h (lst_of hd a) (fst_of hd m).
Proof.
  intros Hm. rewrite fmap_app. change (hd :: a.*1 ++ m.*1) with ((hd :: a.*1) ++ m.*1). rewrite chain_app.
  setoid_rewrite last_hd. assert (E : head (m.*1) = Some (fst_of hd m)) by by destruct m.
  setoid_rewrite E. naive_solver.
Qed.

Lemma ptrs_app a b : (a ++ b).*1 = a.*1 ++ b.*1.
Proof. apply fmap_app. Qed.

Lemma insert_ring h h' hd a b new v :
  ring h hd (a ++ b) -> new ∉ hd :: (a ++ b).*1 -> new <> 0 -> vl h new = Some v ->
  eff h h' (fun x => if decide (x = lst_of hd a) then Some new else if decide (x = new) then Some (fst_of hd b) else None)
           (fun x => if decide (x = fst_of hd b) then Some new else if decide (x = new) then Some (lst_of hd a) else None)
           [new; fst_of hd b; lst_of hd a] ->
  ring h' hd (a ++ (new, v) :: b) /\ frame h h' (new :: hd :: (a ++ b).*1).
Proof.
  intros R Hnew Hz Hv E. pose proof (ring_nodup _ _ _ R) as ND. destruct R as (ND0 & Z & C & F).
  assert (Hl : lst_of hd a ∈ hd :: (a ++ b).*1).
  { rewrite ptrs_app. pose proof (lst_of_in hd a) as X. apply elem_of_cons in X as [->|X]; [left|]. right. apply elem_of_app; auto. }
  assert (Hf : fst_of hd b ∈ hd :: (a ++ b).*1).
  { rewrite ptrs_app. pose proof (fst_of_in hd b) as X. apply elem_of_app in X as [X|X]; [right; apply elem_of_app; auto|]. apply elem_of_list_singleton in X as ->. left. }
  pose proof C as C'. apply chain_cut in C as (C1 & C2 & L).
  rewrite ptrs_app, <- app_assoc in ND. apply list.NoDup_app in ND as (NDa & NDab & NDb).
  split.
  - split_and!.
    + rewrite ptrs_app in *. change (((new, v) :: b).*1) with (new :: b.*1). change (hd :: a.*1 ++ new :: b.*1) with ((hd :: a.*1) ++ new :: b.*1).
      rewrite <- (Permutation_middle (hd :: a.*1) (b.*1) new). apply list.NoDup_cons. split; [exact Hnew|exact ND0].
    + rewrite ptrs_app in *. change (((new, v) :: b).*1) with (new :: b.*1). change (hd :: a.*1 ++ new :: b.*1) with ((hd :: a.*1) ++ new :: b.*1).
      rewrite <- (Permutation_middle (hd :: a.*1) (b.*1) new). apply not_elem_of_cons. split; [congruence|exact Z].
    + apply chain_cut. split_and!.
      * eapply chain_eff; [exact E|exact C1|]. cbn [tail]. intros p q Hp Hq Lpq.
        assert (q <> fst_of hd b). { intros ->. eapply NDab; [exact Hq|apply fst_of_in]. }
        assert (q <> new). { intros ->. apply Hnew. right. rewrite ptrs_app. apply elem_of_app; auto. }
        assert (p <> new). { intros ->. apply Hnew. apply elem_of_cons in Hp as [->|Hp]; [left|]. right. rewrite ptrs_app. apply elem_of_app; auto. }
        cbn beta. rewrite !decide_False; try done. intros ->. destruct L as [L _], Lpq as [Lq _]. congruence.
      * change (((new, v) :: b).*1 ++ [hd]) with (new :: (b.*1 ++ [hd])). apply chain_cons. split.
        -- eapply chain_eff; [exact E|exact C2|]. intros p q Hp Hq Lpq.
           assert (q <> fst_of hd b).
           { intros ->. destruct b as [|[y w] b]; [cbn in Hq; by apply elem_of_nil in Hq|]. cbn in Hq, NDb. by apply list.NoDup_cons in NDb as []. }
           assert (Hb : forall x, x ∈ b.*1 ++ [hd] -> x <> new).
           { intros x Hx ->. apply Hnew. rewrite ptrs_app. apply elem_of_app in Hx as [Hx|Hx]; [right; apply elem_of_app; auto|]. apply elem_of_list_singleton in Hx as ->. left. }
           assert (q ∈ b.*1 ++ [hd]). { destruct (b.*1 ++ [hd]); [done|]. by right. }
           assert (q <> new) by auto. assert (p <> new) by auto.
           cbn beta. rewrite !decide_False; try done. intros ->. destruct L as [L _], Lpq as [Lq _]. congruence.
        -- intros q. rewrite head_hd. intros [= <-]. destruct E as (E1 & E2 & _). split.
           ++ rewrite E1. rewrite decide_False by (intros ->; done). by rewrite decide_True.
           ++ rewrite E2. by rewrite decide_True.
      * destruct E as (E1 & E2 & _). split.
        -- rewrite E1. by rewrite decide_True.
        -- rewrite E2. cbn. rewrite decide_False by (intros ->; done). by rewrite decide_True.
    + destruct E as (_ & _ & E3 & _).
      apply Forall_app in F as [F1 F2]. apply Forall_app. split; [|constructor].
      * eapply list.Forall_impl; [exact F1|]. intros x Hx. by rewrite E3.
      * by rewrite E3.
      * eapply list.Forall_impl; [exact F2|]. intros x Hx. by rewrite E3.
  - destruct E as (_ & _ & _ & E4). intros p Hp. apply not_elem_of_cons in Hp as [Hp1 Hp2].
    apply E4. rewrite !not_elem_of_cons. split_and!; try done; [congruence..|apply not_elem_of_nil].
Qed.

Lemma New_ring h hd l new v h' : ring h hd l -> h new = None -> New h new v = Ok h' -> ring h' hd l /\ new ∉ hd :: l.*1.
Proof.
  intros R Hn E. destruct (New_ok h new v Hn) as (h1 & E1 & _ & _ & _ & Fr). rewrite E1 in E. injection E as <-.
  assert (Hni : new ∉ hd :: l.*1). { intros Hi. destruct (ring_alloc _ _ _ _ R Hi) as [? X]. congruence. }
  split; [|done]. eapply ring_frame; [exact R|]. intros p Hp. apply Fr. intros ->. done.
Qed.
Lemma Emplace_ok h s a b new v : is_list h s (a ++ b) -> h new = None -> new <> 0 ->
  exists h', Emplace h s (fst_of (lhead s) b) new v = Ok (h', Lst (lhead s) (S (lsize s)), new) /\
    is_list h' (Lst (lhead s) (S (lsize s))) (a ++ (new, v) :: b) /\ frame h h' (new :: lhead s :: (a ++ b).*1).
Proof.
  intros [R Sz] Hn Hz. unfold Emplace. destruct (New_ok h new v Hn) as (h1 & E1 & NX & PV & VL & Fr).
  rewrite E1, rbind_ok. destruct (New_ring _ _ _ _ _ _ R Hn E1) as [R1 Hni].
  destruct (ring_link _ _ _ _ R1) as [L1 L2].
  assert (X1 : new <> fst_of (lhead s) b).
  { intros ->. apply Hni. rewrite ptrs_app. pose proof (fst_of_in (lhead s) b) as X. apply elem_of_app in X as [X|X]; [right; apply elem_of_app; auto|]. apply elem_of_list_singleton in X as ->. left. }
  assert (X2 : new <> lst_of (lhead s) a).
  { intros ->. apply Hni. rewrite ptrs_app. pose proof (lst_of_in (lhead s) a) as X. apply elem_of_cons in X as [->|X]; [left|]. right. apply elem_of_app; auto. }
  destruct (Transfer_before_eff h1 new (fst_of (lhead s) b) (lst_of (lhead s) a)) as (h2 & E2 & Ef); try done.
  { rewrite NX, decide_True by done. by eexists. }
  rewrite E2, rbind_ok. exists h2. split; [done|].
  destruct (insert_ring h1 h2 (lhead s) a b new v R1 Hni Hz) as [R2 Fr2]; [|done|].
  { by rewrite VL, decide_True. }
  split; [split; [done|]|].
  - cbn. rewrite Sz, !app_length. cbn. lia.
  - intros p Hp. rewrite Fr2 by done. apply Fr. apply not_elem_of_cons in Hp. naive_solver.
Qed.

(** removing a node from its ring *)
Lemma remove_ring h h' hd a x b :
  ring h hd (a ++ x :: b) ->
  eff h h' (fun y => if decide (y = lst_of hd a) then Some (fst_of hd b) else None)
           (fun y => if decide (y = fst_of hd b) then Some (lst_of hd a) else None) [fst_of hd b; lst_of hd a] ->
  ring h' hd (a ++ b) /\ frame h h' (hd :: (a ++ b).*1).
Proof.
  intros R E. pose proof (ring_nodup _ _ _ R) as ND. pose proof (ring_nx _ _ _ _ _ R) as Nx. pose proof (ring_pv _ _ _ _ _ R) as Px.
  destruct R as (ND0 & Z & C & F).
  assert (Hl : lst_of hd a ∈ hd :: (a ++ b).*1).
  { rewrite ptrs_app. pose proof (lst_of_in hd a) as X. apply elem_of_cons in X as [->|X]; [left|]. right. apply elem_of_app; auto. }
  assert (Hf : fst_of hd b ∈ hd :: (a ++ b).*1).
  { rewrite ptrs_app. pose proof (fst_of_in hd b) as X. apply elem_of_app in X as [X|X]; [right; apply elem_of_app; auto|]. apply elem_of_list_singleton in X as ->. left. }
  apply chain_cut in C as (C1 & C2 & L).
  change ((x :: b).*1 ++ [hd]) with (x.1 :: (b.*1 ++ [hd])) in C2. apply chain_cons in C2 as [C2 L2].
  specialize (L2 (fst_of hd b) (head_hd hd b)). cbn in L.
  rewrite ptrs_app, <- app_assoc in ND. apply list.NoDup_app in ND as (NDa & NDab & NDb).
  change ((x :: b).*1 ++ [hd]) with (x.1 :: (b.*1 ++ [hd])) in NDb, NDab. apply list.NoDup_cons in NDb as [NDx NDb].
  rewrite ptrs_app in ND0, Z. change ((x :: b).*1) with (x.1 :: b.*1) in ND0, Z.
  change (hd :: a.*1 ++ x.1 :: b.*1) with ((hd :: a.*1) ++ x.1 :: b.*1) in ND0, Z.
  rewrite <- (Permutation_middle (hd :: a.*1) (b.*1) x.1) in ND0, Z. apply list.NoDup_cons in ND0 as [ND1 ND2]. apply not_elem_of_cons in Z as [Z1 Z2].
  split.
  - split_and!.
    + by rewrite ptrs_app.
    + by rewrite ptrs_app.
    + apply chain_cut. split_and!.
      * eapply chain_eff; [exact E|exact C1|]. cbn [tail]. intros p q Hp Hq Lpq. cbn beta.
        assert (q <> fst_of hd b). { intros ->. eapply NDab; [exact Hq|right; apply fst_of_in]. }
        assert (q <> x.1). { intros ->. eapply NDab; [exact Hq|left]. }
        rewrite !decide_False; try done. intros ->. destruct L as [L _], Lpq as [Lq _]. congruence.
      * eapply chain_eff; [exact E|exact C2|]. intros p q Hp Hq Lpq. cbn beta.
        assert (q <> fst_of hd b).
        { intros ->. destruct b as [|[y w] b]; [cbn in Hq; by apply elem_of_nil in Hq|]. cbn in Hq, NDb. by apply list.NoDup_cons in NDb as []. }
        assert (q ∈ b.*1 ++ [hd]). { destruct (b.*1 ++ [hd]); [done|]. by right. }
        assert (q <> x.1) by congruence.
        rewrite !decide_False; try done. intros ->. destruct L as [L _], Lpq as [Lq _]. congruence.
      * destruct E as (E1 & E2 & _). split.
        -- rewrite E1. by rewrite decide_True.
        -- rewrite E2. by rewrite decide_True.
    + destruct E as (_ & _ & E3 & _).
      apply Forall_app in F as [F1 F2]. apply list.Forall_cons in F2 as [_ F2]. apply Forall_app. split.
      * eapply list.Forall_impl; [exact F1|]. intros y Hy. by rewrite E3.
      * eapply list.Forall_impl; [exact F2|]. intros y Hy. by rewrite E3.
  - destruct E as (_ & _ & _ & E4). intros p Hp. 
    apply E4. rewrite !not_elem_of_cons. split_and!; try done; [congruence..|apply not_elem_of_nil].
Qed.
Lemma ring_x_notin h hd a x b : ring h hd (a ++ x :: b) -> x.1 ∉ hd :: (a ++ b).*1.
Proof.
  intros (ND0 & _). rewrite ptrs_app in *. change ((x :: b).*1) with (x.1 :: b.*1) in ND0.
  change (hd :: a.*1 ++ x.1 :: b.*1) with ((hd :: a.*1) ++ x.1 :: b.*1) in ND0.
  rewrite <- (Permutation_middle (hd :: a.*1) (b.*1) x.1) in ND0. by apply list.NoDup_cons in ND0 as [ND1 ND2].
Qed.
Lemma in_lst hd a b : lst_of hd a ∈ hd :: (a ++ b).*1.
Proof. rewrite ptrs_app. pose proof (lst_of_in hd a) as X. apply elem_of_cons in X as [->|X]; [left|]. right. apply elem_of_app; auto. Qed.
Lemma in_fst hd a b : fst_of hd b ∈ hd :: (a ++ b).*1.
Proof. rewrite ptrs_app. pose proof (fst_of_in hd b) as X. apply elem_of_app in X as [X|X]; [right; apply elem_of_app; auto|]. apply elem_of_list_singleton in X as ->. left. Qed.

(** unlink, in the order of _Unchecked_erase and of _Unlinknode *)
Lemma unlink_eff h p pp r : nx h p = Some r -> pv h p = Some pp -> is_Some (nx h pp) -> is_Some (pv h r) -> pp <> p -> r <> p ->
  exists h1 h2, setN h pp r = Ok h1 /\ N h1 p = Ok r /\ P h1 p = Ok pp /\ setP h1 r pp = Ok h2 /\
    eff h h2 (fun y => if decide (y = pp) then Some r else None) (fun y => if decide (y = r) then Some pp else None) [r; pp].
Proof.
  intros Hn Hp Hi1 Hi2 D1 D2.
  destruct (setN_ok h pp r Hi1) as (h1 & E1 & A1 & A2 & A3 & A4).
  destruct (setP_ok h1 r pp) as (h2 & E2 & B1 & B2 & B3 & B4). { by rewrite A2. }
  exists h1, h2. split_and!; try done.
  - apply N_ok. rewrite A1, decide_False by done. done.
  - apply P_ok. by rewrite A2.
  - split_and!; intros x.
    + rewrite B1, A1. by case_decide.
    + rewrite B2, A2. by case_decide.
    + by rewrite B3, A3.
    + rewrite !not_elem_of_cons. intros (X1 & X2 & _). by rewrite B4, A4.
Qed.
Lemma unlink_ring h hd a x b : ring h hd (a ++ x :: b) -> 
  exists h1 h2, setN h (lst_of hd a) (fst_of hd b) = Ok h1 /\ N h1 x.1 = Ok (fst_of hd b) /\ P h1 x.1 = Ok (lst_of hd a) /\
    setP h1 (fst_of hd b) (lst_of hd a) = Ok h2 /\ ring h2 hd (a ++ b) /\ frame h h2 (hd :: (a ++ b).*1).
Proof.
  intros R. pose proof (ring_x_notin _ _ _ _ _ R) as Hx. pose proof (ring_nx _ _ _ _ _ R) as Nx. pose proof (ring_pv _ _ _ _ _ R) as Px.
  pose proof (in_lst hd a b) as I1. pose proof (in_fst hd a b) as I2.
  assert (Sub : forall p, p ∈ hd :: (a ++ b).*1 -> is_Some (h p)).
  { intros p Hp. eapply ring_alloc; [exact R|]. rewrite ptrs_app in *. apply elem_of_cons in Hp as [->|Hp]; [left|right]. apply elem_of_app in Hp as [?|?]; apply elem_of_app; [auto|]. right. by right. }
  destruct (unlink_eff h x.1 (lst_of hd a) (fst_of hd b)) as (h1 & h2 & E1 & E2 & E3 & E4 & Ef); try done.
  { unfold nx. destruct (Sub _ I1) as [? ->]. cbn. eauto. } { unfold pv. destruct (Sub _ I2) as [? ->]. cbn. eauto. }
  { intros X. by rewrite X in I1. } { intros X. by rewrite X in I2. }
  exists h1, h2. destruct (remove_ring _ _ _ _ _ _ R Ef) as [R2 F2]. by split_and!.
Qed.
Lemma length_mid a x b : length (a ++ x :: b) = S (length (a ++ b)).
Proof. rewrite !app_length. cbn. lia. Qed.
Lemma frame_weaken h h' (ps ps' : list nat) : frame h h' ps -> (forall p, p ∈ ps -> p ∈ ps') -> frame h h' ps'.
Proof. intros F S p Hp. apply F. intros X. auto. Qed.
Lemma sub_mid hd a x b (p : nat) : p ∈ hd :: (a ++ b).*1 -> p ∈ hd :: (a ++ x :: b).*1.
Proof.
  rewrite !ptrs_app, fmap_cons. intros Hp. apply elem_of_cons in Hp as [->|Hp]; [left|right].
  apply elem_of_app in Hp as [?|?]; apply elem_of_app; [auto|]. right. by right.
Qed.
Lemma in_mid hd a x b : x.1 ∈ hd :: (a ++ x :: b).*1.
Proof. right. rewrite ptrs_app. apply elem_of_app. right. left. Qed.
Lemma Erase1_ok h s a x b : is_list h s (a ++ x :: b) ->
  exists h', Erase1 h s x.1 = Ok (h', Lst (lhead s) (lsize s - 1), fst_of (lhead s) b) /\
    is_list h' (Lst (lhead s) (lsize s - 1)) (a ++ b) /\ frame h h' (lhead s :: (a ++ x :: b).*1) /\ h' x.1 = None.
Proof.
  intros [R Sz]. unfold Erase1. rewrite (N_ok _ _ _ (ring_nx _ _ _ _ _ R)), rbind_ok, (P_ok _ _ _ (ring_pv _ _ _ _ _ R)), rbind_ok.
  destruct (unlink_ring _ _ _ _ _ R) as (h1 & h2 & -> & E2 & E3 & E4 & R2 & F2). rewrite rbind_ok, E3, rbind_ok, E4, rbind_ok.
  pose proof (ring_x_notin _ _ _ _ _ R) as Hx.
  destruct (Free_ok h2 x.1 x.2) as (h3 & -> & G1 & G2).
  { unfold vl. rewrite F2 by done. apply (ring_val _ _ _ _ R). apply elem_of_app. right. left. }
  rewrite rbind_ok. exists h3. split; [done|]. split_and!; try done.
  - split; cbn [lhead lsize]; [|rewrite Sz, length_mid; lia]. eapply ring_frame; [exact R2|]. intros p Hp. apply G2. intros ->. done.
  - intros p Hp. rewrite G2.
    + apply F2. intros X. apply Hp. by apply sub_mid.
    + intros ->. apply Hp, in_mid.
Qed.
Lemma erase_ok h s a x b : is_list h s (a ++ x :: b) ->
  exists h', erase h s x.1 = Ok (h', Lst (lhead s) (lsize s - 1), fst_of (lhead s) b) /\
    is_list h' (Lst (lhead s) (lsize s - 1)) (a ++ b) /\ frame h h' (lhead s :: (a ++ x :: b).*1) /\ h' x.1 = None.
Proof.
  intros [R Sz]. unfold erase, Unlinknode. rewrite (N_ok _ _ _ (ring_nx _ _ _ _ _ R)), rbind_ok, (P_ok _ _ _ (ring_pv _ _ _ _ _ R)), !rbind_ok.
  destruct (unlink_ring _ _ _ _ _ R) as (h1 & h2 & -> & E2 & E3 & E4 & R2 & F2). rewrite rbind_ok, E2, rbind_ok, E3, rbind_ok, E4, !rbind_ok.
  pose proof (ring_x_notin _ _ _ _ _ R) as Hx.
  destruct (Free_ok h2 x.1 x.2) as (h3 & -> & G1 & G2).
  { unfold vl. rewrite F2 by done. apply (ring_val _ _ _ _ R). apply elem_of_app. right. left. }
  rewrite rbind_ok. exists h3. split; [done|]. split_and!; try done.
  - split; cbn [lhead lsize]; [|rewrite Sz, length_mid; lia]. eapply ring_frame; [exact R2|]. intros p Hp. apply G2. intros ->. done.
  - intros p Hp. rewrite G2.
    + apply F2. intros X. apply Hp. by apply sub_mid.
    + intros ->. apply Hp, in_mid.
Qed.
Lemma push_back_ok h s l new v : is_list h s l -> h new = None -> new <> 0 ->
  exists h', push_back h s new v = Ok (h', Lst (lhead s) (S (lsize s)), new) /\
    is_list h' (Lst (lhead s) (S (lsize s))) (l ++ [(new, v)]) /\ frame h h' (new :: lhead s :: l.*1).
Proof. intros L Hn Hz. pose proof (Emplace_ok h s l [] new v) as X. rewrite app_nil_r in X. apply (X L Hn Hz). Qed.
Lemma push_front_ok h s l new v : is_list h s l -> h new = None -> new <> 0 ->
  exists h', push_front h s new v = Ok (h', Lst (lhead s) (S (lsize s)), new) /\
    is_list h' (Lst (lhead s) (S (lsize s))) ((new, v) :: l) /\ frame h h' (new :: lhead s :: l.*1).
Proof.
  intros L Hn Hz. unfold push_front. rewrite (N_ok _ _ _ (ring_first _ _ _ (proj1 L))), rbind_ok.
  apply (Emplace_ok h s [] l new v L Hn Hz).
Qed.
Lemma pop_front_ok h s x l : is_list h s (x :: l) ->
  exists h', pop_front h s = Ok (h', Lst (lhead s) (lsize s - 1)) /\
    is_list h' (Lst (lhead s) (lsize s - 1)) l /\ frame h h' (lhead s :: (x :: l).*1) /\ h' x.1 = None.
Proof.
  intros L. unfold pop_front. rewrite (N_ok _ _ _ (ring_first _ _ _ (proj1 L))), rbind_ok.
  destruct (Erase1_ok h s [] x l L) as (h' & E & ?). exists h'. cbn [fst_of]. by rewrite E.
Qed.
Lemma pop_back_ok h s x l : is_list h s (l ++ [x]) ->
  exists h', pop_back h s = Ok (h', Lst (lhead s) (lsize s - 1)) /\
    is_list h' (Lst (lhead s) (lsize s - 1)) l /\ frame h h' (lhead s :: (l ++ [x]).*1) /\ h' x.1 = None.
Proof.
  intros L. unfold pop_back. rewrite (P_ok _ _ _ (ring_last _ _ _ (proj1 L))), rbind_ok.
  destruct (Erase1_ok h s l x [] L) as (h' & E & H). exists h'. rewrite lst_of_app. cbn. rewrite E. split; [done|]. by rewrite app_nil_r in H.
Qed.
End proofs.
