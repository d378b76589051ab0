(** remove_if, unique, range insertion. *)
From stdpp Require Import base list numbers option decidable.
From Coq Require Import Lia.
From Verif Require Import Base.Res Cont.ListModel Cont.ListSpec Cont.ListProofs Cont.ListProofs2 Cont.ListProofs3 Cont.ListProofs4 Cont.ListProofs5 Cont.ListProofs6.
Local Open Scope nat_scope.

Section proofs.
Context {V : Type}.
Implicit Types (h : heap V) (l a b c d m w : list (nat * V)) (x y z : nat * V) (K : list (nat * nat)).

Lemma nseg_app h u w e : nseg h (u ++ w) e <-> nseg h u (fst_of e w) /\ nseg h w e.
Proof. induction u as [|x u IH]; cbn [app nseg]; [naive_solver|]. rewrite fst_of_app, IH. naive_solver. Qed.
(** the pending nodes of a removal operation *)
Definition opof w : nat * option nat := (fst_of 0 w, match list.last w with None => None | Some y => Some y.1 end).
Definition pend h w (ps : list nat) : Prop := nseg h w 0 /\ NoDup (w.*1) /\ 0 ∉ w.*1 /\ (forall p, p ∈ w.*1 -> p ∈ ps -> False).

Lemma Transfer_back_ok h hd a x b w n : ring h hd (a ++ x :: b) -> pend h w (hd :: (a ++ x :: b).*1) ->
  exists h', Transfer_back h n (opof w) x.1 = Ok (h', n - 1, opof (w ++ [x]), fst_of hd b) /\
    ring h' hd (a ++ b) /\ pend h' (w ++ [x]) (hd :: (a ++ b).*1) /\ frame h h' ((hd :: (a ++ x :: b).*1) ++ w.*1).
Proof.
  intros R (PS & PN & PZ & PD). pose proof (ring_x_notin _ _ _ _ _ R) as Hx. unfold Transfer_back.
  pose proof (ring_nx _ _ _ _ _ R) as Nx. pose proof (ring_pv _ _ _ _ _ R) as Px.
  rewrite (N_ok _ _ _ Nx), rbind_ok.
  pose proof (in_lst hd a b) as I1. pose proof (in_fst hd a b) as I2.
  pose proof (sub_mid hd a x b _ I1) as I1'. pose proof (sub_mid hd a x b _ I2) as I2'.
  assert (D1 : lst_of hd a <> x.1) by congruence. assert (D2 : fst_of hd b <> x.1) by congruence.
  destruct (setN_ok h x.1 null) as (h1 & -> & A1 & A2 & A3 & A4); [eauto|]. rewrite rbind_ok.
  rewrite (P_ok h1 x.1 (lst_of hd a)), rbind_ok by by rewrite A2.
  destruct (setN_ok h1 (lst_of hd a) (fst_of hd b)) as (h2 & -> & B1 & B2 & B3 & B4).
  { rewrite A1, decide_False by done. by eapply ring_some_nx. } rewrite rbind_ok.
  destruct (setP_ok h2 (fst_of hd b) (lst_of hd a)) as (h3 & -> & C1 & C2 & C3 & C4).
  { rewrite B2, A2. by eapply ring_some_pv. } rewrite rbind_ok.
  assert (R3 : ring h3 hd (a ++ b)).
  { assert (RL : relinked h (upd h3 x.1 (h x.1)) [(lst_of hd a, fst_of hd b)]).
    { assert (Un : forall p, nx (upd h3 x.1 (h x.1)) p = if decide (p = x.1) then nx h p else nx h3 p).
      { intros p. unfold nx, upd. case_decide; [by subst|done]. }
      assert (Up : forall p, pv (upd h3 x.1 (h x.1)) p = if decide (p = x.1) then pv h p else pv h3 p).
      { intros p. unfold pv, upd. case_decide; [by subst|done]. }
      assert (Uv : forall p, vl (upd h3 x.1 (h x.1)) p = if decide (p = x.1) then vl h p else vl h3 p).
      { intros p. unfold vl, upd. case_decide; [by subst|done]. }
      split_and!.
      - intros p q X. apply elem_of_list_singleton in X. injection X as -> ->. split.
        + rewrite Un, decide_False by done. by rewrite C1, B1, decide_True.
        + rewrite Up, decide_False by done. by rewrite C2, decide_True.
      - intros p. cbn. rewrite elem_of_list_singleton. intros Hp. rewrite Un. case_decide; [done|]. rewrite C1, B1, A1, !decide_False by done. done.
      - intros p. cbn. rewrite elem_of_list_singleton. intros Hp. rewrite Up. case_decide; [done|]. rewrite C2, decide_False by done. by rewrite B2, A2.
      - intros p. rewrite Uv. case_decide; [done|]. by rewrite C3, B3, A3.
      - intros p. cbn. rewrite !not_elem_of_cons. intros (X1 & X2 & _). unfold upd. case_decide; [by subst|]. by rewrite C4, B4, A4. }
    eapply ring_frame; [eapply (seg_ring h _ hd a [x] b); [exact R|exact RL]|].
    intros p Hp. unfold upd. rewrite decide_False; [done|]. intros ->. done. }
  assert (F3 : frame h h3 (hd :: (a ++ x :: b).*1)).
  { intros p Hp. rewrite C4, B4, A4; [done| | |]; intros ->; apply Hp; [apply in_mid|done|done]. }
  assert (Nx3 : nx h3 x.1 = Some 0). { rewrite C1, B1, decide_False by done. by rewrite A1, decide_True. }
  assert (Vx3 : vl h3 x.1 = Some x.2). { rewrite C3, B3, A3. apply (ring_val _ _ _ _ R). apply elem_of_app. right. left. }
  assert (Hxw : x.1 ∉ w.*1). { intros X. eapply PD; [exact X|]. apply in_mid. }
  assert (Fw : forall p, p ∈ w.*1 -> h3 p = h p). { intros p Hp. apply F3. intros X. by eapply PD. }
  assert (PN' : NoDup ((w ++ [x]).*1)).
  { rewrite ptrs_app. change ([x].*1) with [x.1]. apply list.NoDup_app. split_and!; [done| |apply NoDup_singleton]. intros p Hp X. apply elem_of_list_singleton in X as ->. done. }
  assert (PZ' : 0 ∉ (w ++ [x]).*1).
  { rewrite ptrs_app. change ([x].*1) with [x.1]. rewrite not_elem_of_app, elem_of_list_singleton. split; [done|]. intros E. eapply (ring_nz _ _ _ x.1 R); [apply in_mid|done]. }
  assert (PD' : forall p, p ∈ (w ++ [x]).*1 -> p ∈ hd :: (a ++ b).*1 -> False).
  { intros p. rewrite ptrs_app, elem_of_app. intros [Hp|Hp] Hq.
    - eapply PD; [exact Hp|]. by apply sub_mid.
    - apply elem_of_list_singleton in Hp as ->. done. }
  unfold opof. rewrite last_snoc. cbn [snd fst]. destruct (list.last w) as [y|] eqn:El.
  - assert (w <> []) as Hw by by destruct w.
    destruct w as [|y' w' _] using rev_ind; [done|]. rewrite last_snoc in El. injection El as ->.
    assert (Hy : y.1 ∈ (w' ++ [y]).*1) by (rewrite ptrs_app; apply elem_of_app; right; left).
    assert (Dyx : y.1 <> x.1) by congruence.
    apply nseg_app in PS as [PS1 (PS2 & PS3 & _)].
    destruct (setN_ok h3 y.1 x.1) as (h4 & -> & G1 & G2 & G3 & G4). { unfold nx. rewrite Fw by done. fold (nx h y.1). rewrite PS2. eauto. }
    rewrite !rbind_ok. exists h4. split; [|split; [|split]].
    + do 3 f_equal. f_equal. rewrite !fst_of_app. by destruct w'.
    + eapply ring_frame; [exact R3|]. intros p Hp. apply G4. intros ->. eapply PD; [exact Hy|]. by apply sub_mid.
    + split_and!; try done. rewrite <- app_assoc. apply nseg_app. cbn [app fst_of].
      assert (Hyw : y.1 ∉ w'.*1).
      { rewrite ptrs_app in PN. apply list.NoDup_app in PN as (_ & X & _). intros Y. apply (X _ Y). left. }
      split.
      * eapply nseg_frame; [exact PS1|]. intros p Hp. rewrite G4 by (intros ->; done). apply Fw. rewrite ptrs_app. apply elem_of_app. auto.
      * cbn [nseg fst_of]. split_and!; try done.
        -- by rewrite G1, decide_True.
        -- rewrite G3. unfold vl. rewrite Fw by done. done.
        -- by rewrite G1, decide_False.
        -- by rewrite G3.
    + intros p Hp. rewrite not_elem_of_app in Hp. destruct Hp as [Hp1 Hp2]. rewrite G4 by (intros ->; done). by apply F3.
  - apply last_None in El as ->. rewrite !rbind_ok. exists h3. split; [done|]. split_and!; try done.
    intros p Hp. apply F3. intros X. apply Hp. apply elem_of_app. by left.
Qed.

Lemma Remove_dtor_ok h w ps fuel : pend h w ps -> length w < fuel ->
  exists h', Remove_dtor fuel h (opof w) = Ok h' /\ freed h' (w.*1) /\ frame h h' (w.*1).
Proof. intros (PS & PN & PZ & _) Hf. by apply (free_loop 0 w h fuel). Qed.

Notation keepf pred := (List.filter (fun x : nat * V => negb (pred x.2))).
Notation dropf pred := (List.filter (fun x : nat * V => pred x.2)).
Lemma filter_cons {A} (f : A -> bool) (x : A) (t : list A) : List.filter f (x :: t) = if f x then x :: List.filter f t else List.filter f t.
Proof. done. Qed.
Lemma remove_loop hd (pred : V -> bool) c : forall h k w n fuel, ring h hd (k ++ c) -> pend h w (hd :: (k ++ c).*1) -> length c < fuel ->
  exists h', loop fuel (fun '(h, n, op, first) =>
       if decide (first = hd) then Ok (inr (h, n, op))
       else next <~ N h first ;; v <~ Val h first ;;
            '(h, n, op) <~ (if pred v then '(h, n, op, _) <~ Transfer_back h n op first ;; Ok (h, n, op) else Ok (h, n, op)) ;;
            Ok (inl (h, n, op, next))) (h, n, opof w, fst_of hd c) = Ok (h', n - length (dropf pred c), opof (w ++ dropf pred c)) /\
    ring h' hd (k ++ keepf pred c) /\ pend h' (w ++ dropf pred c) (hd :: (k ++ keepf pred c).*1) /\
    frame h h' ((hd :: (k ++ c).*1) ++ w.*1).
Proof.
  induction c as [|x c IH]; intros h k w n fuel R Pd Hf; (destruct fuel as [|fuel]; [cbn in Hf; lia|]); rewrite loop_S.
  - cbn [fst_of]. rewrite decide_True, rbind_ok by done. exists h. cbn [List.filter]. rewrite !app_nil_r in *. cbn [length]. rewrite Nat.sub_0_r. by split_and!.
  - cbn [fst_of].
    assert (Hh : x.1 <> hd). { intros X. apply (ring_x_notin _ _ _ _ _ R). rewrite X. left. }
    rewrite decide_False by done. rewrite (N_ok _ _ _ (ring_nx _ _ _ _ _ R)), rbind_ok.
    rewrite (Val_ok h x.1 x.2), rbind_ok by (apply (ring_val _ _ _ _ R); apply elem_of_app; right; left).
    rewrite !filter_cons. destruct (pred x.2) eqn:Ep; cbn [negb].
    + destruct (Transfer_back_ok _ _ _ _ _ _ n R Pd) as (h1 & -> & R1 & P1 & F1). rewrite !rbind_ok.
      destruct (IH h1 k (w ++ [x]) (n - 1) fuel R1 P1) as (h2 & E2 & R2 & P2 & F2). { cbn in Hf. lia. }
      exists h2. rewrite <- app_assoc in E2, P2. cbn [app] in E2, P2. split; [rewrite E2; cbn [length]; do 3 f_equal; lia|]. split_and!; try done.
      eapply frame_trans; [exact F1|]. eapply frame_weaken; [exact F2|]. intros p Hp. rewrite (ptrs_app w), !(elem_of_app _ _ p) in Hp. rewrite elem_of_app.
      destruct Hp as [Hp|[Hp|Hp]]; [left; by apply sub_mid|by right|]. left. apply elem_of_list_singleton in Hp as ->. apply in_mid.
    + rewrite !rbind_ok.
      assert (EA : k ++ x :: c = (k ++ [x]) ++ c) by by rewrite <- app_assoc. rewrite EA in *.
      destruct (IH h (k ++ [x]) w n fuel R Pd) as (h2 & E2 & R2 & P2 & F2). { cbn in Hf. lia. }
      exists h2. rewrite <- app_assoc in R2. rewrite <- (app_assoc k) in P2. split; [exact E2|]. split; [exact R2|]. split; [exact P2|exact F2].
Qed.
Lemma filter_len_split (f : nat * V -> bool) l : length (List.filter f l) + length (List.filter (fun x => negb (f x)) l) = length l.
Proof. induction l as [|x l IH]; [done|]. rewrite !filter_cons. destruct (f x); cbn [negb length]; lia. Qed.
Lemma remove_if_ok h s l (pred : V -> bool) : is_list h s l ->
  exists h', remove_if pred h s = Ok (h', Lst (lhead s) (length (keepf pred l)), length l - length (keepf pred l)) /\
    is_list h' (Lst (lhead s) (length (keepf pred l))) (keepf pred l) /\ freed h' ((dropf pred l).*1) /\ frame h h' (lhead s :: l.*1).
Proof.
  intros [R Sz]. unfold remove_if. rewrite (N_ok _ _ _ (ring_first _ _ _ R)), rbind_ok.
  destruct (remove_loop (lhead s) pred l h [] [] (lsize s) (S (lsize s)) R) as (h1 & E1 & R1 & P1 & F1).
  { split_and!; try done; [apply NoDup_nil_2|apply not_elem_of_nil|]. intros p Hp%elem_of_nil. done. } { lia. }
  cbn [app] in *. change (opof []) with (null, @None nat) in E1. rewrite E1, rbind_ok.
  pose proof (filter_len_split (fun x => pred x.2) l) as HL. cbn beta in HL.
  destruct (Remove_dtor_ok _ _ _ (S (lsize s)) P1) as (h2 & -> & D2 & F2). { lia. }
  rewrite rbind_ok. exists h2. rewrite Sz. replace (length l - length (dropf pred l)) with (length (keepf pred l)) by lia.
  split; [done|]. split_and!; try done.
  - split; [|done]. cbn [lhead]. eapply ring_frame; [exact R1|]. intros p Hp. apply F2. intros X. destruct P1 as (_ & _ & _ & PD). by eapply PD.
  - rewrite app_nil_r in F1. intros p Hp. rewrite F2, F1; [done|done|]. intros X. apply Hp. right.
    apply elem_of_list_fmap in X as (y & -> & Hy). apply elem_of_list_fmap. exists y. split; [done|]. apply elem_of_list_In in Hy. apply filter_In in Hy as [Hy _]. by apply elem_of_list_In.
Qed.

(** what unique drops *)
Fixpoint udrop (eq : V -> V -> bool) x l : list (nat * V) :=
  match l with
  | [] => []
  | y :: r => if eq x.2 y.2 then y :: udrop eq x r else udrop eq y r
  end.
Lemma uniq_split eq x l : uniq_from eq x l ++ udrop eq x l ≡ₚ x :: l.
Proof.
  revert x. induction l as [|y l IH]; intros x; cbn [uniq_from udrop]; [done|]. destruct (eq x.2 y.2).
  - rewrite <- Permutation_middle. rewrite IH. apply perm_swap.
  - cbn [app]. by rewrite IH.
Qed.
Lemma unique_loop hd (pred : V -> V -> bool) c : forall h k x w n fuel, ring h hd (k ++ x :: c) -> pend h w (hd :: (k ++ x :: c).*1) -> length c < fuel ->
  exists h', loop fuel (fun '(h, n, op, prev, nd) =>
       if decide (nd = hd) then Ok (inr (h, n, op))
       else u <~ Val h prev ;; v <~ Val h nd ;;
            if pred u v then '(h, n, op, next) <~ Transfer_back h n op nd ;; Ok (inl (h, n, op, prev, next))
            else next <~ N h nd ;; Ok (inl (h, n, op, nd, next))) (h, n, opof w, x.1, fst_of hd c) = Ok (h', n - length (udrop pred x c), opof (w ++ udrop pred x c)) /\
    ring h' hd (k ++ uniq_from pred x c) /\ pend h' (w ++ udrop pred x c) (hd :: (k ++ uniq_from pred x c).*1) /\
    frame h h' ((hd :: (k ++ x :: c).*1) ++ w.*1).
Proof.
  induction c as [|y c IH]; intros h k x w n fuel R Pd Hf; (destruct fuel as [|fuel]; [cbn in Hf; lia|]); rewrite loop_S; cbn [uniq_from udrop].
  - cbn [fst_of]. rewrite decide_True, rbind_ok by done. exists h. rewrite !app_nil_r in *. cbn [length]. rewrite Nat.sub_0_r. by split_and!.
  - cbn [fst_of].
    assert (EA : k ++ x :: y :: c = (k ++ [x]) ++ y :: c) by by rewrite <- app_assoc.
    assert (R' : ring h hd ((k ++ [x]) ++ y :: c)) by by rewrite <- EA.
    assert (Hh : y.1 <> hd). { intros X. apply (ring_x_notin _ _ _ _ _ R'). rewrite X. left. }
    rewrite decide_False by done.
    rewrite (Val_ok h x.1 x.2), rbind_ok by (apply (ring_val _ _ _ _ R); apply elem_of_app; right; left).
    rewrite (Val_ok h y.1 y.2), rbind_ok by (apply (ring_val _ _ _ _ R); apply elem_of_app; right; right; left).
    destruct (pred x.2 y.2) eqn:Ep.
    + rewrite EA in Pd. destruct (Transfer_back_ok _ _ _ _ _ _ n R' Pd) as (h1 & -> & R1 & P1 & F1). rewrite !rbind_ok.
      rewrite <- app_assoc in R1, P1. cbn [app] in R1, P1.
      destruct (IH h1 k x (w ++ [y]) (n - 1) fuel R1 P1) as (h2 & E2 & R2 & P2 & F2). { cbn in Hf. lia. }
      exists h2. rewrite <- app_assoc in E2, P2. cbn [app] in E2, P2. split; [rewrite E2; cbn [length]; do 3 f_equal; lia|]. split_and!; try done.
      rewrite EA. eapply frame_trans; [exact F1|]. eapply frame_weaken; [exact F2|]. intros p Hp. rewrite (ptrs_app w), !(elem_of_app _ _ p) in Hp. rewrite elem_of_app.
      destruct Hp as [Hp|[Hp|Hp]]; [|by right|].
      * left. apply sub_mid. by rewrite <- app_assoc.
      * left. apply elem_of_list_singleton in Hp as ->. apply in_mid.
    + rewrite (N_ok _ _ _ (ring_nx _ _ _ _ _ R')), !rbind_ok.
      rewrite EA in *.
      destruct (IH h (k ++ [x]) y w n fuel R Pd) as (h2 & E2 & R2 & P2 & F2). { cbn in Hf. lia. }
      exists h2. rewrite <- app_assoc in R2. rewrite <- (app_assoc k) in P2. split; [exact E2|]. split; [exact R2|]. split; [exact P2|exact F2].
Qed.
Lemma unique_ok h s l (pred : V -> V -> bool) : is_list h s l ->
  exists h', unique pred h s = Ok (h', Lst (lhead s) (length (uniq pred l)), length l - length (uniq pred l)) /\
    is_list h' (Lst (lhead s) (length (uniq pred l))) (uniq pred l) /\ (forall p, p ∈ l.*1 -> p ∉ (uniq pred l).*1 -> h' p = None) /\ frame h h' (lhead s :: l.*1).
Proof.
  intros [R Sz]. unfold unique. rewrite (N_ok _ _ _ (ring_first _ _ _ R)), rbind_ok. destruct l as [|x l].
  { cbn [fst_of]. rewrite (N_ok _ _ _ (ring_first _ _ _ R)), rbind_ok. rewrite Sz. cbn [length]. rewrite loop_S. cbn [fst_of]. rewrite decide_True, !rbind_ok by done.
    unfold Remove_dtor. rewrite loop_S. cbn [fst]. rewrite decide_True by done. rewrite !rbind_ok. exists h. split; [done|]. split_and!; try done. }
  cbn [fst_of]. rewrite (N_ok h x.1 (fst_of (lhead s) l)), rbind_ok by apply (ring_nx _ _ [] _ _ R).
  destruct (unique_loop (lhead s) pred l h [] x [] (lsize s) (S (lsize s)) R) as (h1 & E1 & R1 & P1 & F1).
  { split_and!; try done; [apply NoDup_nil_2|apply not_elem_of_nil|]. intros p Hp%elem_of_nil. done. } { rewrite Sz. cbn. lia. }
  cbn [app] in *. change (opof []) with (null, @None nat) in E1. rewrite E1, rbind_ok.
  pose proof (Permutation_length (uniq_split pred x l)) as HL. rewrite app_length in HL.
  destruct (Remove_dtor_ok _ _ _ (S (lsize s)) P1) as (h2 & -> & D2 & F2). { lia. }
  rewrite rbind_ok. exists h2. cbn [uniq]. rewrite Sz. replace (length (x :: l) - length (udrop pred x l)) with (length (uniq_from pred x l)) by lia.
  split; [done|]. split_and!; try done.
  - split; [|done]. cbn [lhead]. eapply ring_frame; [exact R1|]. intros p Hp. apply F2. intros X. destruct P1 as (_ & _ & _ & PD). by eapply PD.
  - intros p Hp Hq. apply D2. change (p ∈ (x :: l).*1) in Hp. rewrite <- (uniq_split pred x l), ptrs_app in Hp. apply elem_of_app in Hp as [Hp|Hp]; done.
  - rewrite app_nil_r in F1. intros p Hp. rewrite F2, F1; [done|done|]. intros X. apply Hp. right.
    change (p ∈ (x :: l).*1). rewrite <- (uniq_split pred x l), ptrs_app. apply elem_of_app. auto.
Qed.

(** * range insertion *)
Definition good h m : Prop := chain h (m.*1) /\ NoDup (m.*1) /\ 0 ∉ m.*1 /\ Forall (fun z => vl h z.1 = Some z.2) m /\ Forall (fun z => is_Some (nx h z.1)) m.
Lemma Append_range_ok vs : forall h news m, length news = length vs -> good h m -> NoDup news -> 0 ∉ news -> (forall p, p ∈ news -> h p = None) ->
  (forall p, p ∈ m.*1 -> p ∈ news -> False) ->
  exists h', Append_range h (length m, fst_of 0 m, lst_of 0 m) news vs = Ok (h', (length m + length vs, fst_of 0 (m ++ zip news vs), lst_of 0 (m ++ zip news vs))) /\
    good h' (m ++ zip news vs) /\ frame h h' (m.*1 ++ news).
Proof.
  induction vs as [|v vs IH]; intros h news m HL G ND HZ Hn Hd.
  - destruct news; [|done]. cbn. rewrite !app_nil_r, Nat.add_0_r. exists h. by split_and!.
  - destruct news as [|q news]; [done|]. cbn [Append_range]. cbn in HL. apply list.NoDup_cons in ND as [ND1 ND2]. apply not_elem_of_cons in HZ as [HZ1 HZ2].
    destruct (New_ok h q v) as (h1 & -> & A1 & A2 & A3 & A4); [apply Hn; left|]. rewrite rbind_ok.
    destruct G as (G1 & G2 & G3 & G4 & G5).
    assert (Hqm : q ∉ m.*1). { intros X. eapply Hd; [exact X|left]. }
    destruct m as [|x0 m0 _] using rev_ind.
    + cbn [length fst_of]. rewrite decide_True by done.
      destruct (IH h1 news [(q, v)]) as (h2 & E2 & G2' & F2); try done.
      { lia. }
      { split_and!; try done; cbn.
        - apply NoDup_singleton.
        - rewrite elem_of_list_singleton. done.
        - constructor; [cbn; by rewrite A3, decide_True|done].
        - constructor; [cbn; rewrite A1, decide_True by done; eauto|done]. }
      { intros p Hp. rewrite A4; [apply Hn; by right|]. intros ->. done. }
      { intros p Hp%elem_of_list_singleton Hq. cbn in Hp. subst p. done. }
      cbn in E2. cbn. exists h2. split; [exact E2|]. split; [exact G2'|]. intros p Hp. apply not_elem_of_cons in Hp as [Hp1 Hp2]. rewrite F2; [by apply A4|]. cbn. by apply not_elem_of_cons.
    + rewrite app_length, Nat.add_1_r. rewrite decide_False by lia.
      assert (El : lst_of 0 (m0 ++ [x0]) = x0.1) by by rewrite lst_of_app. rewrite El.
      assert (Hx0 : x0.1 ∈ (m0 ++ [x0]).*1) by (rewrite ptrs_app; apply elem_of_app; right; left).
      assert (D0 : x0.1 <> q) by congruence.
      destruct (setN_ok h1 x0.1 q) as (h2 & -> & B1 & B2 & B3 & B4).
      { rewrite A1, decide_False by done. apply Forall_app in G5 as [_ G5]. by apply list.Forall_cons in G5 as []. } rewrite rbind_ok.
      destruct (setP_ok h2 q x0.1) as (h3 & -> & C1 & C2 & C3 & C4). { rewrite B2, A2, decide_True by done. eauto. } rewrite rbind_ok.
      assert (EQ : S (S (length m0)) = length ((m0 ++ [x0]) ++ [(q, v)])) by (rewrite !app_length; cbn; lia).
      destruct (IH h3 news ((m0 ++ [x0]) ++ [(q, v)])) as (h4 & E4 & G4' & F4); try done.
      { lia. }
      { split_and!.
        - rewrite ptrs_app. change ([(q, v)].*1) with [q]. apply chain_app. split_and!; [|done|].
          + eapply chain_mono; [exact G1|]. intros p' q' Hp' Hq' [L1 L2]. split.
            * rewrite C1, B1, A1. assert (p' <> q) by congruence. assert (q' <> q) by (apply tail_in in Hq'; congruence).
              rewrite (decide_False (P := p' = q)) by done. destruct (decide (p' = x0.1)) as [->|]; [|done]. exfalso.
              (* the last node has no successor inside the chain *)
              rewrite ptrs_app in Hp', Hq', G2, G1. change ([x0].*1) with [x0.1] in *.
              apply list.NoDup_app in G2 as (N1 & N2 & _). 
              assert (CC : forall u, chain h (u ++ [x0.1]) -> NoDup (u ++ [x0.1]) -> forall r, r ∈ tail (u ++ [x0.1]) -> link h x0.1 r -> False).
              { clear. intros u. induction u as [|e u IHu]; intros C N r Hr L; [by apply elem_of_nil in Hr|].
                change ((e :: u) ++ [x0.1]) with (e :: (u ++ [x0.1])) in *. cbn [tail] in Hr. apply list.NoDup_cons in N as [Ne N].
                apply chain_cons in C as [C Le].
                destruct (decide (Some r = head (u ++ [x0.1]))) as [Hd|Hd].
                - specialize (Le r (eq_sym Hd)). rewrite (link_inj _ _ _ _ Le L) in Ne. apply Ne. apply elem_of_app. right. left.
                - apply (IHu C N r); [|done]. destruct (u ++ [x0.1]); [by apply elem_of_nil in Hr|]. cbn in Hd |- *. apply elem_of_cons in Hr as [->|Hr]; [by destruct Hd|done]. }
              eapply (CC (m0.*1)); [exact G1| |exact Hq'|split; [exact L1|exact L2]].
              apply list.NoDup_app. split_and!; [done|done|apply NoDup_singleton].
            * rewrite C2, B2, A2. assert (q' <> q) by (apply tail_in in Hq'; congruence). by rewrite !decide_False by done.
          + intros p' q'. rewrite ptrs_app. change ([x0].*1) with [x0.1]. rewrite last_snoc. intros [= <-] [= <-]. split.
            * rewrite C1, B1, decide_True by done. done.
            * rewrite C2, decide_True by done. done.
        - rewrite ptrs_app. apply list.NoDup_app. split_and!; [done| |apply NoDup_singleton]. intros p Hp X. apply elem_of_list_singleton in X. cbn in X. subst. done.
        - rewrite ptrs_app. apply not_elem_of_app. split; [done|]. cbn. rewrite elem_of_list_singleton. done.
        - apply Forall_app. split; [|constructor; [|done]].
          + apply list.Forall_forall. intros z Hz. rewrite C3, B3, A3. rewrite decide_False; [by apply (proj1 (list.Forall_forall _ _) G4)|].
            intros X. apply Hqm. rewrite <- X. apply elem_of_list_fmap. eauto.
          + cbn. by rewrite C3, B3, A3, decide_True.
        - apply Forall_app. split; [|constructor; [|done]].
          + apply list.Forall_forall. intros z Hz. rewrite C1, B1, A1. repeat case_decide; eauto. by apply (proj1 (list.Forall_forall _ _) G5).
          + cbn. rewrite C1, B1, A1. repeat case_decide; eauto. done. }
      { intros p Hp. rewrite C4, B4, A4; [apply Hn; by right| | |]; intros ->; try done. eapply Hd; [exact Hx0|by right]. }
      { intros p Hp Hq. rewrite ptrs_app in Hp. apply elem_of_app in Hp as [Hp|Hp]; [eapply Hd; [exact Hp|by right]|].
        apply elem_of_list_singleton in Hp. cbn in Hp. subst. done. }
      rewrite <- EQ in E4. rewrite (fst_of_app 0 (m0 ++ [x0]) [(q, v)]) in E4. rewrite (fst_of_ne _ 0 (m0 ++ [x0])) in E4 by by destruct m0.
      rewrite (lst_of_app 0 (m0 ++ [x0]) [(q, v)]) in E4. change (lst_of (lst_of 0 (m0 ++ [x0])) [(q, v)]) with q in E4.
      assert (EZ : ((m0 ++ [x0]) ++ [(q, v)]) ++ zip news vs = (m0 ++ [x0]) ++ zip (q :: news) (v :: vs)) by by rewrite <- (app_assoc (m0 ++ [x0])).
      rewrite EZ in E4. rewrite EZ in G4'.
      replace (S (S (length m0)) + length vs) with (S (length m0) + length (v :: vs)) in E4 by (cbn [length]; lia).
      exists h4. split; [exact E4|]. split; [exact G4'|].
      intros p Hp. rewrite not_elem_of_app in Hp. destruct Hp as [Hp1 Hp2]. apply not_elem_of_cons in Hp2 as [Hp2 Hp3].
      rewrite F4, C4, B4, A4; try done.
      * intros ->. apply Hp1. done.
      * rewrite not_elem_of_app. split; [|done]. rewrite (ptrs_app (m0 ++ [x0])), not_elem_of_app. split; [done|]. cbn. by rewrite elem_of_list_singleton.
Qed.
Lemma insert_range_ok h s a b news (vs : list V) : is_list h s (a ++ b) -> length news = length vs -> NoDup news -> 0 ∉ news -> (forall p, p ∈ news -> h p = None) ->
  exists h' s', insert_range h s (fst_of (lhead s) b) news vs = Ok (h', s', fst_of (fst_of (lhead s) b) (zip news vs)) /\ lhead s' = lhead s /\
    is_list h' s' (a ++ zip news vs ++ b) /\ frame h h' (news ++ lhead s :: (a ++ b).*1).
Proof.
  intros [R Sz] HL ND HZ Hn. unfold insert_range.
  destruct (Append_range_ok vs h news [] HL) as (h1 & E1 & G & F1); try done.
  { split_and!; try done; [apply NoDup_nil_2|apply not_elem_of_nil]. } { intros p Hp%elem_of_nil. done. }
  cbn [app length fst_of] in *. change (Append_range h (0, 0, lst_of 0 []) news vs) with (Append_range h (0, null, null) news vs) in E1. rewrite E1, rbind_ok. unfold Attach_before.
  set (m := zip news vs) in *. cbn [Nat.add].
  assert (Hnr : forall p, p ∈ news -> p ∉ lhead s :: (a ++ b).*1).
  { intros p Hp X. destruct (ring_alloc _ _ _ _ R X) as [n E]. rewrite Hn in E; done. }
  assert (Em : m.*1 = news). { unfold m. apply fst_zip. lia. }
  assert (Elm : length m = length vs). { unfold m. rewrite zip_with_length. lia. }
  assert (R1 : ring h1 (lhead s) (a ++ b)). { eapply ring_frame; [exact R|]. intros p Hp. apply F1. cbn. intros X. by apply (Hnr p X). }
  destruct (decide (length vs = 0)) as [E0|E0].
  { assert (m = []) as -> by (apply nil_length_inv; lia). cbn [fst_of app]. eexists _, _. split; [done|]. split_and!; try done.
    intros p Hp. apply F1. intros X. apply Hp. apply elem_of_app. by left. }
  assert (Hm : m <> []). { intros X. rewrite X in Elm. cbn in Elm. lia. }
  destruct G as (G1 & G2 & G3 & G4 & G5).
  pose proof (in_lst (lhead s) a b) as I1. pose proof (in_fst (lhead s) a b) as I2.
  assert (J1 : fst_of 0 m ∈ m.*1) by by apply fst_of_in_ne. assert (J2 : lst_of 0 m ∈ m.*1) by by apply lst_of_in_ne.
  destruct (ring_link _ _ _ _ R1) as [L1 L2]. rewrite (P_ok _ _ _ L2), rbind_ok.
  assert (Hmr : forall p, p ∈ m.*1 -> p ∉ lhead s :: (a ++ b).*1) by by rewrite Em.
  assert (Sm : forall p, p ∈ m.*1 -> is_Some (nx h1 p)).
  { intros p (z & -> & Hz)%elem_of_list_fmap. by apply (proj1 (list.Forall_forall _ _) G5). }
  destruct (setP_ok h1 (fst_of 0 m) (lst_of (lhead s) a)) as (h2 & -> & A1 & A2 & A3 & A4). { destruct (Sm _ J1) as [? X%nx_pv]. done. } rewrite rbind_ok.
  destruct (setN_ok h2 (lst_of (lhead s) a) (fst_of 0 m)) as (h3 & -> & B1 & B2 & B3 & B4). { rewrite A1, L1. eauto. } rewrite rbind_ok.
  destruct (setN_ok h3 (lst_of 0 m) (fst_of (lhead s) b)) as (h4 & -> & C1 & C2 & C3 & C4). { rewrite B1, A1. case_decide; eauto. } rewrite rbind_ok.
  destruct (setP_ok h4 (fst_of (lhead s) b) (lst_of 0 m)) as (h5 & -> & E5 & E2 & E3 & E4). { rewrite C2, B2, A2, L2. case_decide; eauto. } rewrite rbind_ok.
  assert (D1 : lst_of 0 m <> lst_of (lhead s) a). { intros X. apply (Hmr _ J2). by rewrite X. }
  assert (D2 : fst_of 0 m <> fst_of (lhead s) b). { intros X. apply (Hmr _ J1). by rewrite X. }
  assert (NX : forall p, nx h5 p = if decide (p = lst_of 0 m) then Some (fst_of (lhead s) b) else if decide (p = lst_of (lhead s) a) then Some (fst_of 0 m) else nx h1 p).
  { intros p. by rewrite E5, C1, B1, A1. }
  assert (PV : forall p, pv h5 p = if decide (p = fst_of (lhead s) b) then Some (lst_of 0 m) else if decide (p = fst_of 0 m) then Some (lst_of (lhead s) a) else pv h1 p).
  { intros p. by rewrite E2, C2, B2, A2. }
  assert (VL : forall p, vl h5 p = vl h1 p). { intros p. by rewrite E3, C3, B3, A3. }
  rewrite (fst_of_ne (fst_of (lhead s) b) 0 m) by done. eexists _, _. split; [done|]. cbn [lhead]. split; [done|].
  pose proof (ring_nodup _ _ _ R1) as NDr. destruct R1 as (N0 & Z0 & C0 & F0). apply chain_cut in C0 as (Ca & Cb & LL).
  rewrite ptrs_app, <- app_assoc in NDr. apply list.NoDup_app in NDr as (NDa & NDa' & NDb).
  assert (Pm : lhead s :: (a ++ m ++ b).*1 ≡ₚ m.*1 ++ lhead s :: (a ++ b).*1).
  { rewrite !ptrs_app. rewrite <- Permutation_middle. f_equiv. rewrite !app_assoc. f_equiv. apply Permutation_app_comm. }
  split; [split|].
  - cbn [lhead]. split_and!.
    + rewrite Pm. apply list.NoDup_app. split_and!; try done.
    + rewrite Pm. apply not_elem_of_app. done.
    + apply chain_cut. split_and!; [|apply chain_mid; [done|]; split_and!|].
      * eapply chain_mono; [exact Ca|]. cbn [tail]. intros p q Hp Hq [X1 X2].
        assert (Hp' : p ∈ lhead s :: (a ++ b).*1). { rewrite ptrs_app, elem_of_cons, elem_of_app. rewrite elem_of_cons in Hp. naive_solver. }
        assert (Hq' : q ∈ lhead s :: (a ++ b).*1). { rewrite ptrs_app, elem_of_cons, elem_of_app. naive_solver. }
        assert (q <> fst_of (lhead s) b). { intros ->. apply (NDa' _ Hq). apply fst_of_in. }
        split; [rewrite NX|rewrite PV].
        -- rewrite decide_False by (intros ->; by apply (Hmr _ J2)). rewrite decide_False; [done|]. intros ->. congruence.
        -- rewrite decide_False by done. rewrite decide_False; [done|]. intros ->. by apply (Hmr _ J1).
      * assert (ND' : NoDup (m.*1)) by by rewrite Em. clear -G1 NX PV Hmr I1 I2 Hm ND' J1 J2 D1 D2.
        (* links inside the new segment *)
        assert (CC : forall p q u v, m.*1 = u ++ p :: q :: v -> p <> lst_of 0 m /\ q <> fst_of 0 m).
        { intros p q u v E. split.
          - intros ->. assert (X : list.last (m.*1) = Some (lst_of 0 m)).
            { unfold lst_of. rewrite last_ptrs. destruct (list.last m) eqn:El; [done|]. by apply last_None in El. }
            rewrite E in X, ND'. assert (Y : list.last (q :: v) = Some (lst_of 0 m)). { rewrite last_app_ne in X by done. exact X. }
            apply last_Some_elem_of in Y. apply list.NoDup_app in ND' as (_ & _ & ND'). by apply list.NoDup_cons in ND' as [].
          - intros ->. destruct m as [|z m']; [done|]. cbn in E, ND'. destruct u as [|e u]; cbn in E.
            + injection E as E0 E. apply list.NoDup_cons in ND' as [Nd _]. apply Nd. rewrite E. left.
            + injection E as E0 E. apply list.NoDup_cons in ND' as [Nd _]. apply Nd. rewrite E. apply elem_of_app. right. right. left. }
        assert (Hg : forall v u, m.*1 = u ++ v -> chain h1 v -> chain h5 v).
        { intros v. induction v as [|p v IH]; intros u E C; [done|]. destruct v as [|q v]; [done|]. destruct C as [[X1 X2] C]. split; [|apply (IH (u ++ [p])); [by rewrite <- app_assoc|done]].
          destruct (CC p q u v E) as [Y1 Y2].
          assert (p ∈ m.*1). { rewrite E. apply elem_of_app. right. left. } assert (q ∈ m.*1). { rewrite E. apply elem_of_app. right. right. left. }
          split; [rewrite NX|rewrite PV].
          - rewrite decide_False by done. rewrite decide_False; [done|]. intros ->. by apply (Hmr (lst_of (lhead s) a)).
          - rewrite decide_False by (intros ->; by apply (Hmr (fst_of (lhead s) b))). by rewrite decide_False. }
        by apply (Hg (m.*1) []).
      * eapply chain_mono; [exact Cb|]. intros p q Hp Hq [X1 X2].
        assert (Hp' : p ∈ lhead s :: (a ++ b).*1). { rewrite ptrs_app, elem_of_cons, elem_of_app. rewrite elem_of_app, elem_of_list_singleton in Hp. naive_solver. }
        assert (Hq' : q ∈ lhead s :: (a ++ b).*1). { apply tail_in in Hq. rewrite ptrs_app, elem_of_cons, elem_of_app. rewrite elem_of_app, elem_of_list_singleton in Hq. naive_solver. }
        assert (q <> fst_of (lhead s) b). { intros ->. apply (nodup_tail _ _ NDb Hq). apply head_hd. }
        split; [rewrite NX|rewrite PV].
        -- rewrite decide_False by (intros ->; by apply (Hmr _ J2)). rewrite decide_False; [done|]. intros ->. congruence.
        -- rewrite decide_False by done. rewrite decide_False; [done|]. intros ->. by apply (Hmr _ J1).
      * rewrite (lst_of_ne _ 0) by done. split; [rewrite NX|rewrite PV]; by rewrite decide_True.
      * rewrite (fst_of_app _ m), (fst_of_ne (fst_of (lhead s) b) 0 m) by done. split; [rewrite NX|rewrite PV].
        -- rewrite decide_False by done. by rewrite decide_True.
        -- rewrite decide_False by done. by rewrite decide_True.
    + apply Forall_app in F0 as [Fa Fb]. rewrite !Forall_app.
      split_and!; [eapply list.Forall_impl; [exact Fa|]|eapply list.Forall_impl; [exact G4|]|eapply list.Forall_impl; [exact Fb|]]; intros z Hz; cbn beta; rewrite VL; exact Hz.
  - cbn [lsize]. rewrite Sz, !app_length. lia.
  - intros p Hp. rewrite not_elem_of_app in Hp. destruct Hp as [Hp1 Hp2].
    assert (p ∉ m.*1) by by rewrite Em. rewrite E4, C4, B4, A4, F1; try done; intros ->; done.
Qed.
End proofs.
