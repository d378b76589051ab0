(** reverse, range erase, clear, remove_if, unique, range insertion. *)
From stdpp Require Import base list numbers option decidable.
From Coq Require Import Lia.
From Verif Require Import Base.Res Cont.ListModel Cont.ListSpec Cont.ListProofs Cont.ListProofs2 Cont.ListProofs3 Cont.ListProofs4 Cont.ListProofs5.
Local Open Scope nat_scope.

Section proofs.
Context {V : Type}.
Implicit Types (h : heap V) (l a b c d m w : list (nat * V)) (x y z : nat * V) (K : list (nat * nat)).

(** * reverse *)
Lemma chain_rev h h' ps : chain h ps -> (forall p, p ∈ ps -> nx h' p = pv h p /\ pv h' p = nx h p) -> chain h' (rev ps).
Proof.
  induction ps as [|p ps IH]; [done|]. intros C H. cbn [rev]. apply chain_app. split_and!.
  - apply IH; [|intros; apply H; by right]. destruct ps; [done|]. apply C.
  - done.
  - intros q r Hq [= <-]. destruct ps as [|p' ps]; [done|]. cbn [rev] in Hq. rewrite last_snoc in Hq. injection Hq as <-.
    destruct C as [[L1 L2] _]. split; [rewrite (proj1 (H p' ltac:(right; left)))|rewrite (proj2 (H p ltac:(left)))]; done.
Qed.
Lemma reverse_loop h hd l : ring h hd l -> forall E D p h' fuel, hd :: l.*1 = D ++ p :: E -> length E < fuel ->
  (forall x : nat, x ∈ D -> nx h' x = pv h x /\ pv h' x = nx h x) -> (forall x : nat, x ∉ D -> h' x = h x) -> (forall x : nat, vl h' x = vl h x) ->
  exists h2, loop fuel (fun '(h, p) =>
    next <~ N h p ;; prev <~ P h p ;; h <~ setN h p prev ;; h <~ setP h p next ;;
    if decide (next = hd) then Ok (inr h) else Ok (inl (h, next))) (h', p) = Ok h2 /\
    (forall x : nat, x ∈ hd :: l.*1 -> nx h2 x = pv h x /\ pv h2 x = nx h x) /\ (forall x : nat, x ∉ hd :: l.*1 -> h2 x = h x) /\ (forall x : nat, vl h2 x = vl h x).
Proof.
  intros R E. induction E as [|q E IH]; intros D p h' fuel HL Hf HD HN HV; (destruct fuel as [|fuel]; [cbn in Hf; lia|]).
  all: pose proof (proj1 R) as ND; rewrite HL in ND; apply list.NoDup_app in ND as (_ & ND1 & ND2).
  all: assert (HpD : p ∉ D) by (intros X; apply (ND1 p X); left).
  all: pose proof (proj1 (proj2 (proj2 R))) as C; change (hd :: l.*1 ++ [hd]) with ((hd :: l.*1) ++ [hd]) in C; rewrite HL, <- app_assoc in C;
    apply chain_app in C as (_ & C & _).
  all: assert (Hi : p ∈ hd :: l.*1) by (rewrite HL; apply elem_of_app; right; left).
  all: destruct (ring_alloc _ _ _ _ R Hi) as [n Hn].
  all: rewrite loop_S.
  all: assert (Hnp : nx h' p = nx h p /\ pv h' p = pv h p) by (unfold nx, pv; rewrite HN by done; done); destruct Hnp as [Hnx Hpv].
  all: assert (Hp' : pv h' p = Some (nprev n)) by (rewrite Hpv; unfold pv; by rewrite Hn).
  - destruct C as [[L1 L2] _]. rewrite (N_ok h' p hd), rbind_ok by by rewrite Hnx. rewrite (P_ok _ _ _ Hp'), rbind_ok.
    destruct (setN_ok h' p (nprev n)) as (h1 & -> & A1 & A2 & A3 & A4). { rewrite Hnx. eauto. } rewrite rbind_ok.
    destruct (setP_ok h1 p hd) as (h2 & -> & B1 & B2 & B3 & B4). { rewrite A2, Hp'. eauto. } rewrite rbind_ok.
    rewrite decide_True, rbind_ok by done. exists h2. split; [done|]. rewrite HL. split_and!; intros x.
    + intros Hx. rewrite B1, A1, B2, A2. destruct (decide (x = p)) as [->|Hne].
      * rewrite <- Hpv, Hp', L1. done.
      * apply HD. apply elem_of_app in Hx as [Hx|Hx]; [done|]. by apply elem_of_list_singleton in Hx.
    + rewrite not_elem_of_app, not_elem_of_cons. intros (X1 & X2 & _). rewrite B4, A4 by done. by apply HN.
    + by rewrite B3, A3.
  - destruct C as [[L1 L2] _]. rewrite (N_ok h' p q), rbind_ok by by rewrite Hnx. rewrite (P_ok _ _ _ Hp'), rbind_ok.
    destruct (setN_ok h' p (nprev n)) as (h1 & -> & A1 & A2 & A3 & A4). { rewrite Hnx. eauto. } rewrite rbind_ok.
    destruct (setP_ok h1 p q) as (h2 & -> & B1 & B2 & B3 & B4). { rewrite A2, Hp'. eauto. } rewrite rbind_ok.
    assert (Hq : q <> hd).
    { intros ->. pose proof (proj1 R) as ND. rewrite HL in ND. destruct D as [|d0 D].
      - cbn in HL. injection HL as <- ?. apply list.NoDup_cons in ND as [ND _]. apply ND. left.
      - cbn in HL. injection HL as <- ?. apply list.NoDup_cons in ND as [ND _]. apply ND. apply elem_of_app. right. right. left. }
    rewrite decide_False, rbind_ok by done.
    apply (IH (D ++ [p])).
    + by rewrite <- app_assoc.
    + cbn in Hf. lia.
    + intros x Hx. rewrite B1, A1, B2, A2. destruct (decide (x = p)) as [->|Hne].
      * rewrite <- Hpv, Hp', L1. done.
      * apply HD. apply elem_of_app in Hx as [Hx|Hx]; [done|]. by apply elem_of_list_singleton in Hx.
    + intros x. rewrite not_elem_of_app, elem_of_list_singleton. intros (X1 & X2). rewrite B4, A4 by done. by apply HN.
    + intros x. by rewrite B3, A3.
Qed.
Lemma reverse_ok h s l : is_list h s l ->
  exists h', reverse h s = Ok h' /\ is_list h' s (rev l) /\ frame h h' (lhead s :: l.*1).
Proof.
  intros [R Sz]. unfold reverse.
  destruct (reverse_loop h (lhead s) l R (l.*1) [] (lhead s) h (S (lsize s))) as (h2 & E & H1 & H2 & H3); try done.
  { rewrite fmap_length. lia. } { intros x Hx%elem_of_nil. done. }
  exists h2. split; [done|]. split; [|done]. destruct R as (ND & Z & C & F).
  assert (EP : (rev l).*1 = rev (l.*1)) by apply map_rev.
  split; [|by rewrite rev_length]. split_and!.
  - rewrite EP. rewrite <- Permutation_rev. done.
  - rewrite EP. rewrite <- Permutation_rev. done.
  - rewrite EP. replace (lhead s :: rev (l.*1) ++ [lhead s]) with (rev (lhead s :: l.*1 ++ [lhead s])).
    + eapply chain_rev; [exact C|]. intros p Hp. apply H1. change (lhead s :: l.*1 ++ [lhead s]) with ((lhead s :: l.*1) ++ [lhead s]) in Hp.
      apply elem_of_app in Hp as [Hp|Hp]; [done|]. apply elem_of_list_singleton in Hp as ->. left.
    + cbn [rev]. rewrite rev_app_distr. done.
  - rewrite <- Permutation_rev. eapply list.Forall_impl; [exact F|]. intros x Hx. by rewrite H3.
Qed.

(** * freeing a singly linked segment *)
Fixpoint nseg h w (e : nat) : Prop :=
  match w with
  | [] => True
  | x :: w' => nx h x.1 = Some (fst_of e w') /\ vl h x.1 = Some x.2 /\ nseg h w' e
  end.
Lemma nseg_frame h h' w e : nseg h w e -> (forall p, p ∈ w.*1 -> h' p = h p) -> nseg h' w e.
Proof.
  induction w as [|x w IH]; [done|]. intros (H1 & H2 & H3) F. unfold nx, vl in *. cbn [nseg]. unfold nx, vl. rewrite F by left.
  split_and!; try done. apply IH; [done|]. intros p Hp. apply F. by right.
Qed.
Lemma nseg_ring h hd a m b : ring h hd (a ++ m ++ b) -> nseg h m (fst_of hd b).
Proof.
  revert a. induction m as [|x m IH]; intros a R; [done|]. cbn [nseg]. split_and!.
  - rewrite <- fst_of_app. apply (ring_nx h hd a x (m ++ b) R).
  - apply (ring_val _ _ _ _ R). apply elem_of_app. right. left.
  - apply (IH (a ++ [x])). by rewrite <- app_assoc.
Qed.
Lemma free_step h (x : nat) v : vl h x = Some v -> exists h', Free h x = Ok h' /\ h' x = None /\ frame h h' [x].
Proof. intros H. destruct (Free_ok _ _ _ H) as (h' & E & H1 & H2). exists h'. split_and!; try done. intros p Hp. apply H2. by apply not_elem_of_cons in Hp as []. Qed.
Lemma free_loop (e : nat) : forall w h fuel, nseg h w e -> NoDup (w.*1) -> e ∉ w.*1 -> length w < fuel ->
  exists h', loop fuel (fun '(h, p) => if decide (p = e) then Ok (inr h) else next <~ N h p ;; h <~ Free h p ;; Ok (inl (h, next))) (h, fst_of e w) = Ok h' /\
    freed h' (w.*1) /\ frame h h' (w.*1).
Proof.
  intros w. induction w as [|x w IH]; intros h fuel S ND He Hf; (destruct fuel as [|fuel]; [cbn in Hf; lia|]); rewrite loop_S.
  - cbn [fst_of]. rewrite decide_True, rbind_ok by done. exists h. split_and!; try done. intros p Hp%elem_of_nil. done.
  - destruct S as (S1 & S2 & S3). cbn [fst_of]. change ((x :: w).*1) with (x.1 :: w.*1) in *. apply list.NoDup_cons in ND as [ND1 ND2]. apply not_elem_of_cons in He as [He1 He2].
    rewrite decide_False by done. rewrite (N_ok _ _ _ S1), rbind_ok. destruct (free_step _ _ _ S2) as (h1 & -> & F1 & F2). rewrite !rbind_ok.
    destruct (IH h1 fuel) as (h2 & E & X1 & X2); try done.
    { eapply nseg_frame; [exact S3|]. intros p Hp. apply F2. rewrite elem_of_list_singleton. intros ->. done. } { cbn in Hf. lia. }
    exists h2. split; [done|]. split.
    + intros p Hp. apply elem_of_cons in Hp as [->|Hp]; [|by apply X1]. rewrite X2 by done. done.
    + intros p Hp. apply not_elem_of_cons in Hp as [Hp1 Hp2]. rewrite X2 by done. apply F2. by rewrite elem_of_list_singleton.
Qed.
Lemma erase_loop (e : nat) : forall w h n fuel x, nseg h (x :: w) e -> NoDup ((x :: w).*1) -> e ∉ (x :: w).*1 -> length w < fuel ->
  exists h', loop fuel (fun '(h, first, n) => next <~ N h first ;; h <~ Free h first ;;
         if decide (next = e) then Ok (inr (h, S n)) else Ok (inl (h, next, S n))) (h, x.1, n) = Ok (h', n + S (length w)) /\
    freed h' ((x :: w).*1) /\ frame h h' ((x :: w).*1).
Proof.
  intros w. induction w as [|y w IH]; intros h n fuel x S ND He Hf; (destruct fuel as [|fuel]; [cbn in Hf; lia|]); rewrite loop_S.
  - destruct S as (S1 & S2 & _). rewrite (N_ok _ _ _ S1), rbind_ok. destruct (free_step _ _ _ S2) as (h1 & -> & F1 & F2). rewrite !rbind_ok.
    cbn [fst_of]. rewrite decide_True, rbind_ok by done. exists h1. split; [f_equal; cbn; f_equal; lia|]. split; [|done].
    intros p Hp. apply elem_of_list_singleton in Hp as ->. done.
  - destruct S as (S1 & S2 & S3). change ((x :: y :: w).*1) with (x.1 :: (y :: w).*1) in *. apply list.NoDup_cons in ND as [ND1 ND2]. apply not_elem_of_cons in He as [He1 He2].
    rewrite (N_ok _ _ _ S1), rbind_ok. destruct (free_step _ _ _ S2) as (h1 & -> & F1 & F2). rewrite !rbind_ok.
    cbn [fst_of]. rewrite decide_False by (intros X; apply He2; rewrite <- X; left). rewrite rbind_ok.
    destruct (IH h1 (Datatypes.S n) fuel y) as (h2 & E & X1 & X2); try done.
    { eapply nseg_frame; [exact S3|]. intros p Hp. apply F2. rewrite elem_of_list_singleton. intros ->. done. } { cbn in Hf. lia. }
    exists h2. split; [rewrite E; do 2 f_equal; cbn; lia|]. split.
    + intros p Hp. apply elem_of_cons in Hp as [->|Hp]; [|by apply X1]. rewrite X2 by done. done.
    + intros p Hp. apply not_elem_of_cons in Hp as [Hp1 Hp2]. rewrite X2 by done. apply F2. by rewrite elem_of_list_singleton.
Qed.

(** * removing a segment *)
Lemma chain_relinked2 h h' K ps : relinked h h' K -> chain h ps ->
  (forall p q, link h p q -> q ∈ tail ps -> p ∉ K.*1) -> (forall q, q ∈ tail ps -> q ∉ K.*2) -> chain h' ps.
Proof.
  intros (R1 & R2 & R3 & _) C H1 H2. eapply chain_mono; [exact C|]. intros p q Hp Hq L.
  pose proof (H2 q Hq) as Hn. pose proof (H1 p q L Hq). pose proof L as [L1 L2]. split; [rewrite R2|rewrite R3]; done.
Qed.
Lemma seg_notin h hd a m b (p : nat) : ring h hd (a ++ m ++ b) -> p ∈ m.*1 -> p ∉ hd :: (a ++ b).*1.
Proof.
  intros (ND & _) Hp X. rewrite !ptrs_app in *. apply list.NoDup_cons in ND as [ND1 ND2].
  apply elem_of_cons in X as [->|X]; [apply ND1; rewrite !elem_of_app; auto|].
  apply list.NoDup_app in ND2 as (_ & Na & ND2). apply list.NoDup_app in ND2 as (_ & Nm & _).
  apply elem_of_app in X as [X|X]; [apply (Na p X); rewrite elem_of_app; auto|]. by apply (Nm p Hp).
Qed.
Lemma seg_ring h h' hd a m b : ring h hd (a ++ m ++ b) -> relinked h h' [(lst_of hd a, fst_of hd b)] -> ring h' hd (a ++ b).
Proof.
  intros R E. pose proof (ring_nodup _ _ _ R) as ND. pose proof R as (ND0 & Z & C & F).
  destruct (decide (m = [])) as [->|Hm].
  { cbn [app] in *. split_and!; try done.
    - pose proof (ring_link _ _ _ _ R) as [LL1 LL2]. destruct E as (E1 & E2 & E3 & _). eapply chain_mono; [exact C|]. intros p q _ _ [L1 L2].
      split.
      + destruct (decide (p = lst_of hd a)) as [->|Hne]; [|rewrite E2; [done|cbn; by rewrite elem_of_list_singleton]].
        assert (q = fst_of hd b) by congruence. subst q. apply E1. left.
      + destruct (decide (q = fst_of hd b)) as [->|Hne]; [|rewrite E3; [done|cbn; by rewrite elem_of_list_singleton]].
        assert (p = lst_of hd a) by congruence. subst p. apply E1. left.
    - by eapply vals_relinked. }
  apply chain_cut in C as (Ca & C & L1). apply chain_mid in C as (Cm & Cb & L2); [|done].
  rewrite (fst_of_app hd m), (fst_of_ne _ hd m) in L1 by done.
  rewrite !ptrs_app, <- !app_assoc in ND. apply list.NoDup_app in ND as (NDa & NDa' & ND). apply list.NoDup_app in ND as (NDm & NDm' & NDb).
  assert (Fm : fst_of hd m ∈ m.*1) by by apply fst_of_in_ne. pose proof (fst_of_in hd b) as Fb.
  split_and!.
  - rewrite !ptrs_app in *. change (hd :: a.*1 ++ m.*1 ++ b.*1) with ([hd] ++ a.*1 ++ m.*1 ++ b.*1) in ND0.
    change (hd :: a.*1 ++ b.*1) with ([hd] ++ a.*1 ++ b.*1). rewrite !list.NoDup_app in *. setoid_rewrite not_elem_of_app in ND0. setoid_rewrite not_elem_of_app. naive_solver.
  - intros X. apply Z. rewrite !ptrs_app in *. rewrite elem_of_cons, !elem_of_app in *. naive_solver.
  - apply chain_cut. split_and!.
    + eapply chain_relinked2; [exact E|exact Ca| |]; cbn [tail fmap list_fmap fst snd].
      * intros p q Lpq Hq. rewrite elem_of_list_singleton. intros ->. rewrite (link_fun _ _ _ _ Lpq L1) in Hq.
        apply (NDa' _ Hq). apply elem_of_app. auto.
      * intros q Hq. rewrite elem_of_list_singleton. intros ->. apply (NDa' _ Hq). apply elem_of_app. auto.
    + eapply chain_relinked2; [exact E|exact Cb| |]; cbn [fmap list_fmap fst snd].
      * intros p q Lpq Hq. rewrite elem_of_list_singleton. intros ->. rewrite (link_fun _ _ _ _ Lpq L1) in Hq.
        apply tail_in in Hq. by apply (NDm' _ Fm).
      * intros q Hq. rewrite elem_of_list_singleton. intros ->. apply (nodup_tail _ _ NDb Hq). apply head_hd.
    + apply (proj1 E). left.
  - eapply vals_relinked; [exact E|]. rewrite !Forall_app in *. naive_solver.
Qed.
(** connecting two nodes *)
Lemma connect_ok h p q : is_Some (nx h p) -> is_Some (pv h q) -> exists h1 h2, setN h p q = Ok h1 /\ setP h1 q p = Ok h2 /\ relinked h h2 [(p, q)].
Proof.
  intros Hp Hq. destruct (setN_ok h p q Hp) as (h1 & E1 & A1 & A2 & A3 & A4).
  destruct (setP_ok h1 q p) as (h2 & E2 & B1 & B2 & B3 & B4). { by rewrite A2. }
  exists h1, h2. split; [done|]. split; [done|]. split_and!.
  - intros p' q' X. apply elem_of_list_singleton in X. injection X as -> ->. split; [by rewrite B1, A1, decide_True|by rewrite B2, decide_True].
  - intros x. cbn. rewrite elem_of_list_singleton. intros Hx. by rewrite B1, A1, decide_False.
  - intros x. cbn. rewrite elem_of_list_singleton. intros Hx. by rewrite B2, A2, decide_False.
  - intros x. by rewrite B3, A3.
  - intros x. cbn. rewrite !not_elem_of_cons. intros (? & ? & _). by rewrite B4, A4.
Qed.
Lemma ring_some_nx h hd l p : ring h hd l -> p ∈ hd :: l.*1 -> is_Some (nx h p).
Proof. intros R Hp. destruct (ring_alloc _ _ _ _ R Hp) as [n Hn]. unfold nx. rewrite Hn. cbn. eauto. Qed.
Lemma ring_some_pv h hd l p : ring h hd l -> p ∈ hd :: l.*1 -> is_Some (pv h p).
Proof. intros R Hp. destruct (ring_alloc _ _ _ _ R Hp) as [n Hn]. unfold pv. rewrite Hn. cbn. eauto. Qed.

Lemma Erase_ok h s a m b : is_list h s (a ++ m ++ b) ->
  exists h', Erase h s (fst_of (fst_of (lhead s) b) m) (fst_of (lhead s) b) = Ok (h', Lst (lhead s) (lsize s - length m), fst_of (lhead s) b) /\
    is_list h' (Lst (lhead s) (lsize s - length m)) (a ++ b) /\ frame h h' (lhead s :: (a ++ m ++ b).*1) /\ freed h' (m.*1).
Proof.
  intros [R Sz]. unfold Erase. destruct m as [|x m].
  { cbn [fst_of]. rewrite decide_True by done. exists h. cbn [length]. rewrite Nat.sub_0_r. destruct s. split; [done|]. split_and!; try done. intros p Hp%elem_of_nil. done. }
  pose proof (ring_distinct _ _ _ _ _ R ltac:(done)) as Dx. cbn [fst_of] in Dx |- *. rewrite decide_False by done.
  rewrite (P_ok _ _ _ (ring_pv _ _ _ _ _ R)), rbind_ok.
  pose proof (in_lst (lhead s) a ((x :: m) ++ b)) as I1. pose proof (in_fst (lhead s) (a ++ x :: m) b) as I2. rewrite <- app_assoc in I2.
  destruct (connect_ok h (lst_of (lhead s) a) (fst_of (lhead s) b)) as (h1 & h2 & -> & E2 & RL); [by eapply ring_some_nx|by eapply ring_some_pv|].
  rewrite rbind_ok, E2, rbind_ok. clear E2 h1. pose proof (seg_ring _ _ _ _ _ _ R RL) as R2.
  assert (Hs : forall p, p ∈ (x :: m).*1 -> p ∉ lhead s :: (a ++ b).*1) by (intros p; by apply (seg_notin h)).
  assert (I3 : lst_of (lhead s) a ∈ lhead s :: (a ++ b).*1) by apply in_lst. assert (I4 : fst_of (lhead s) b ∈ lhead s :: (a ++ b).*1) by apply in_fst.
  assert (Fr : frame h h2 (lhead s :: (a ++ b).*1)).
  { eapply frame_relinked; [exact RL|]. intros p q X. apply elem_of_list_singleton in X. by injection X as -> ->. }
  destruct (erase_loop (fst_of (lhead s) b) m h2 0 (S (lsize s)) x) as (h3 & E3 & F3 & G3).
  { eapply nseg_frame; [eapply nseg_ring; exact R|]. intros p Hp. apply Fr. by apply Hs. }
  { pose proof (proj1 R) as ND. rewrite !ptrs_app in ND. apply list.NoDup_cons in ND as [_ ND]. apply list.NoDup_app in ND as (_ & _ & ND). by apply list.NoDup_app in ND as (ND & _). }
  { intros X. by apply (Hs _ X). }
  { rewrite Sz, !app_length. cbn [length]. lia. }
  rewrite E3, rbind_ok. exists h3. split; [done|]. split_and!; try done.
  - split; [|cbn [lsize]; rewrite Sz, !app_length; cbn [length]; lia].
    eapply ring_frame; [exact R2|]. intros p Hp. apply G3. intros X. by apply (Hs p X).
  - intros p Hp. rewrite G3, Fr; [done| |].
    + intros X. apply Hp. rewrite !ptrs_app in *. rewrite elem_of_cons, !elem_of_app in *. naive_solver.
    + intros X. apply Hp. rewrite !ptrs_app. rewrite elem_of_cons, !elem_of_app. naive_solver.
Qed.
Lemma ring_nil_set h hd h1 h2 : hd <> 0 -> is_Some (nx h hd) -> setN h hd hd = Ok h1 -> setP h1 hd hd = Ok h2 -> ring h2 hd [].
Proof.
  intros Hz Hn E1 E2. destruct (setN_ok h hd hd Hn) as (h1' & E1' & A1 & A2 & A3 & A4). rewrite E1 in E1'. injection E1' as <-.
  destruct (setP_ok h1 hd hd) as (h2' & E2' & B1 & B2 & B3 & B4). { rewrite A2. by destruct Hn as [? ?%nx_pv]. } rewrite E2 in E2'. injection E2' as <-.
  split_and!; try done.
  - apply NoDup_singleton.
  - rewrite elem_of_list_singleton. done.
  - cbn. split; [|done]. split; [by rewrite B1, A1, decide_True|by rewrite B2, decide_True].
Qed.
Lemma clear_ok h s l : is_list h s l ->
  exists h', clear h s = Ok (h', Lst (lhead s) 0) /\ is_list h' (Lst (lhead s) 0) [] /\ frame h h' (lhead s :: l.*1) /\ freed h' (l.*1).
Proof.
  intros [R Sz]. unfold clear. rewrite (P_ok _ _ _ (ring_last _ _ _ R)), rbind_ok.
  assert (Hz : lhead s <> 0) by (eapply ring_nz; [exact R|left]).
  destruct (setN_ok h (lst_of (lhead s) l) null) as (h1 & -> & A1 & A2 & A3 & A4). { eapply ring_some_nx; [exact R|]. apply lst_of_in. }
  rewrite rbind_ok.
  assert (S1 : N h1 (lhead s) = Ok (fst_of null l) /\ nseg h1 l null).
  { destruct (decide (l = [])) as [->|Hl].
    - split; [|done]. apply N_ok. rewrite A1, decide_True by done. done.
    - assert (Hh : lhead s <> lst_of (lhead s) l).
      { intros X. pose proof (lst_of_in_ne (lhead s) l Hl) as Y. rewrite <- X in Y. destruct R as (ND & _). by apply list.NoDup_cons in ND as []. }
      split.
      + apply N_ok. rewrite A1, decide_False by done. rewrite (fst_of_ne _ (lhead s)) by done. apply (ring_first _ _ _ R).
      + destruct l as [|x l' _] using rev_ind; [done|]. rewrite lst_of_app in *. cbn in Hh, A1, A4. clear Hl.
        assert (Hg : forall c b, l' = b ++ c -> nseg h1 (c ++ [x]) null).
        { intros c. induction c as [|y c IHc]; intros b ->.
          - cbn. split_and!; [by rewrite A1, decide_True| |done]. rewrite A3. apply (ring_val _ _ _ _ R). apply elem_of_app. right. left.
          - cbn [app nseg]. split_and!.
            + rewrite A1, decide_False.
              * rewrite (ring_nx h (lhead s) b y (c ++ [x])); [|by rewrite <- app_assoc in R]. by destruct c.
              * intros X. pose proof (ring_x_notin h (lhead s) (b ++ y :: c) x [] R) as Y. apply Y. rewrite <- X. rewrite app_nil_r. apply in_mid.
            + rewrite A3. apply (ring_val _ _ _ _ R). rewrite !elem_of_app. left. right. left.
            + apply (IHc (b ++ [y])). by rewrite <- app_assoc. }
        apply (Hg l' []). done. }
  destruct S1 as [-> S1]. rewrite rbind_ok.
  assert (ND : NoDup (l.*1)) by (destruct R as (ND & _); by apply list.NoDup_cons in ND as []).
  destruct (free_loop null l h1 (S (lsize s)) S1 ND) as (h2 & E2 & F2 & G2).
  { intros X. eapply (ring_nz _ _ _ null R); [by right|done]. } { lia. }
  rewrite E2, rbind_ok.
  assert (Hh : lhead s ∉ l.*1) by (destruct R as (ND' & _); by apply list.NoDup_cons in ND' as []).
  assert (Hn2 : is_Some (nx h2 (lhead s))).
  { unfold nx. rewrite G2 by done. fold (nx h1 (lhead s)). rewrite A1. case_decide; [eauto|]. rewrite (ring_first _ _ _ R). eauto. }
  destruct (setN_ok h2 (lhead s) (lhead s) Hn2) as (h3 & E3 & B1 & B2 & B3 & B4). rewrite E3, rbind_ok.
  destruct (setP_ok h3 (lhead s) (lhead s)) as (h4 & E4 & C1 & C2 & C3 & C4). { rewrite B2. by destruct Hn2 as [? ?%nx_pv]. } rewrite E4, rbind_ok.
  exists h4. split; [done|]. split_and!.
  - split; [|done]. cbn [lhead]. eapply ring_nil_set; done.
  - intros p Hp. rewrite not_elem_of_cons in Hp. destruct Hp as [Hp1 Hp2]. rewrite C4, B4, G2, A4; try done.
    intros ->. pose proof (lst_of_in (lhead s) l) as X. apply elem_of_cons in X as [X|X]; done.
  - intros p Hp. rewrite C4, B4; [by apply F2| |]; intros ->; done.
Qed.
End proofs.
