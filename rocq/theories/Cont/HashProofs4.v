(** Insertion of a node and rehashing. *)
From stdpp Require Import base list numbers option decidable.
From Coq Require Import Lia.
From Verif Require Import Base.Res Cont.ListModel Cont.ListSpec Cont.ListProofs Cont.ListProofs2 Cont.ListProofs3 Cont.ListProofs4 Cont.ListProofs5 Cont.HashModel Cont.HashSpec Cont.HashProofs Cont.HashProofs2 Cont.HashProofs3.
Local Open Scope nat_scope.

Ltac exactA F := let X := fresh in pose proof F as X; repeat progress (try rewrite <- !app_assoc in X; cbn [app] in X); repeat progress (try rewrite <- !app_assoc; cbn [app]); exact X.
Section ins.
Context {K V : Type} (kfn : V -> K) (hash : K -> nat) (keq : K -> K -> bool) (HO : hash_ok hash keq).
Implicit Types (h : heap V) (l a c d m A C M G D R : list (nat * V)) (x y z : nat * V) (P : nat * V -> bool) (t : tbl).
Notation yes P := (Forall (fun x : nat * V => P x = true)).
Notation no P := (Forall (fun x : nat * V => P x = false)).
Notation inb := (inb kfn hash).
Notation eqk := (eqk kfn keq).
Notation key x := (kfn (snd x)).
Notation hd t := (lhead (tl t)).
Notation wf := (wf kfn hash keq).
Notation vec_ok := (vec_ok kfn hash).
Notation grp := (grp kfn hash keq).
Notation tgtk := (tgtk kfn hash keq).
Notation group := (group kfn keq).

(** links of the new node *)
Lemma link4_eff h new bef aft :
  pv h bef = Some aft -> is_Some (nx h new) -> is_Some (nx h aft) -> new <> bef -> new <> aft ->
  exists h1 h2 h3 h4, setN h new bef = Ok h1 /\ setP h1 new aft = Ok h2 /\ setN h2 aft new = Ok h3 /\ setP h3 bef new = Ok h4 /\
    eff h h4 (fun x : nat => if decide (x = aft) then Some new else if decide (x = new) then Some bef else None)
             (fun x : nat => if decide (x = bef) then Some new else if decide (x = new) then Some aft else None) [new; bef; aft].
Proof.
  intros Hp Hn Ha N1 N2.
  destruct (setN_ok h new bef Hn) as (h1 & E1 & A1 & A2 & A3 & A4).
  destruct (setP_ok h1 new aft) as (h2 & E2 & B1 & B2 & B3 & B4). { rewrite A2. by destruct Hn as [? ?%nx_pv]. }
  destruct (setN_ok h2 aft new) as (h3 & E3 & D1 & D2 & D3 & D4). { rewrite B1, A1. case_decide; eauto. }
  destruct (setP_ok h3 bef new) as (h4 & E4 & C1 & C2 & C3 & C4). { rewrite D2, B2, A2, Hp. case_decide; eauto. }
  exists h1, h2, h3, h4. do 4 (split; [done|]). split_and!; intros x.
  - rewrite C1, D1, B1, A1. by repeat case_decide.
  - rewrite C2, D2, B2, A2. by repeat case_decide.
  - by rewrite C3, D3, B3, A3.
  - rewrite !not_elem_of_cons. intros (X1 & X2 & X3 & _). by rewrite C4, D4, B4, A4.
Qed.
Lemma Insert_ok h t A M1 M2 C new v : wf h t (A ++ M1 ++ M2 ++ C) -> tgtk (tmax t) (kfn v) A M1 M2 C ->
  vl h new = Some v -> new ∉ hd t :: (A ++ M1 ++ M2 ++ C).*1 -> new <> 0 ->
  exists h' t', Insert_new_node_before h t (hash (kfn v)) (fst_of (hd t) (M2 ++ C)) new = Ok (h', t', new) /\
    wf h' t' ((A ++ M1) ++ (new, v) :: M2 ++ C) /\ hd t' = hd t /\ tmax t' = tmax t /\ frame h h' (new :: hd t :: (A ++ M1 ++ M2 ++ C).*1).
Proof.
  intros ([R Sz] & Sh & Hv & G)%wf_iff T Hval Hni Hz. unfold Insert_new_node_before.
  assert (R0 : ring h (hd t) ((A ++ M1) ++ M2 ++ C)) by (rewrite <- app_assoc; done).
  destruct (ring_link _ _ _ _ R0) as [L1 L2]. rewrite (P_ok _ _ _ L2), rbind_ok.
  rewrite (app_assoc A M1) in Hni.
  assert (X1 : new <> fst_of (hd t) (M2 ++ C)). { intros ->. apply Hni. apply in_fst. }
  assert (X2 : new <> lst_of (hd t) (A ++ M1)). { intros ->. apply Hni. apply in_lst. }
  destruct (link4_eff h new (fst_of (hd t) (M2 ++ C)) (lst_of (hd t) (A ++ M1))) as (h1 & h2 & h3 & h4 & E1 & E2 & E3 & E4 & Ef); try done.
  { unfold vl in Hval. unfold nx. destruct (h new); [by eexists|done]. }
  cbv zeta. rewrite E1, rbind_ok, E2, rbind_ok, E3, rbind_ok, E4, rbind_ok. rewrite (shape_land _ _ Sh).
  set (n := tmax t) in *. set (b := hash (kfn v) mod n).
  assert (Hn : n <> 0) by by apply shape_nz. assert (Hb : b < n) by by apply shape_lt. assert (Lv : length (tv t) = 2 * n) by apply Hv.
  rewrite (vec_lo kfn hash n (hd t) (tv t) _ b), (vec_hi kfn hash n (hd t) (tv t) _ b) by done. rewrite rbind_ok, rbind_ok.
  pose proof (filter_mid kfn hash keq n (new, v) A M1 M2 C T) as F. cbn [snd] in F. fold b in F. rewrite F.
  destruct (insert_ring h h4 (hd t) (A ++ M1) (M2 ++ C) new v R0 Hni Hz Hval Ef) as [R4 Fr].
  assert (DONE : forall vec, vec_ok n (hd t) vec ((A ++ M1) ++ (new, v) :: M2 ++ C) ->
    wf h4 (Tbl (Lst (hd t) (S (lsize (tl t)))) vec (tmask t) n) ((A ++ M1) ++ (new, v) :: M2 ++ C)).
  { intros vec Hvec. apply wf_iff. split; [|split; [|split]]; try done.
    - split; [exact R4|]. cbn. rewrite Sz, !app_length. cbn. rewrite app_length. lia.
    - by apply tgt_grp. }
  assert (FR : frame h h4 (new :: hd t :: (A ++ M1 ++ M2 ++ C).*1)) by (rewrite (app_assoc A M1); exact Fr).
  pose proof T as (HA & HM & HC & HP).
  destruct (decide (M1 ++ M2 = [])) as [EM|NM].
  { apply app_eq_nil in EM as [-> ->]. rewrite decide_True by done. rewrite vwr_ok by lia. rewrite rbind_ok, vwr_ok by (rewrite insert_length; lia). rewrite rbind_ok.
    eexists _, _. split; [done|]. split; [|done]. apply DONE. rewrite app_nil_r. cbn [app]. apply (vec_ins_empty kfn hash keq n (hd t) (tv t) (new, v) A C); done. }
  assert (Rm : ring h (hd t) (A ++ (M1 ++ M2) ++ C)) by (rewrite <- app_assoc; done).
  rewrite decide_False.
  2:{ destruct (fst_of_ptr (hd t) (M1 ++ M2) NM) as (x & Hx & ->). eapply ring_ptr_hd; [exact Rm|]. apply elem_of_app; right. apply elem_of_app; by left. }
  destruct M1 as [|y1 M1].
  { cbn [app] in *. rewrite decide_True by (rewrite fst_of_app; by apply fst_of_ne). rewrite vwr_ok by lia. rewrite rbind_ok.
    eexists _, _. split; [done|]. split; [|done]. apply DONE. rewrite app_nil_r. apply (vec_ins_front kfn hash keq n (hd t) (tv t) (new, v) A M2 C); done. }
  rewrite decide_False.
  2:{ cbn [app fst_of]. destruct (decide (M2 ++ C = [])) as [E0|NE0].
      - rewrite E0. cbn. eapply ring_ptr_hd; [exact Rm|]. apply elem_of_app; right. left.
      - destruct (fst_of_ptr (hd t) (M2 ++ C) NE0) as (x & Hx & ->). eapply (ring_ptr_ne h (hd t) (A ++ y1 :: M1) y1 (M2 ++ C)); [done| |done]. apply elem_of_app; right; left. }
  destruct M2 as [|y2 M2].
  { rewrite app_nil_r. rewrite decide_True by (rewrite lst_of_app; by apply lst_of_ne). rewrite vwr_ok by lia. rewrite rbind_ok.
    eexists _, _. split; [done|]. split; [|done]. apply DONE. cbn [app]. apply (vec_ins_back kfn hash keq n (hd t) (tv t) (new, v) A (y1 :: M1) C); done. }
  rewrite decide_False.
  2:{ rewrite !lst_of_app. destruct (lst_of_ptr (lst_of (hd t) (y1 :: M1)) (y2 :: M2)) as (x & Hx & ->); [done|]. destruct (lst_of_ptr (lst_of (hd t) A) (y1 :: M1)) as (w & Hw & ->); [done|].
      intros X. refine (ring_ptr_ne h (hd t) (A ++ y1 :: M1) w ((y2 :: M2) ++ C) x _ _ _ (eq_sym X)); [done|apply elem_of_app; by right|apply elem_of_app; by left]. }
  rewrite rbind_ok. eexists _, _. split; [done|]. split; [|done]. apply DONE. by apply vec_ins_mid with (keq := keq).
Qed.

(** ** one step of rehashing *)
Lemma swap1 h p a m x c : ring h p (a ++ m ++ x :: c) -> m <> [] ->
  exists h', Splice3 h (fst_of p m) x.1 (fst_of p c) = Ok h' /\ ring h' p (a ++ x :: m ++ c) /\ frame h h' (p :: (a ++ m ++ x :: c).*1).
Proof. intros R Hm. apply (Splice3_swap_l h p a m [x] c); done. Qed.
Lemma rehash_one_ok h t Q x R : is_list h (tl t) (Q ++ x :: R) -> shape t -> vec_ok (tmax t) (hd t) (tv t) Q -> grp (tmax t) Q ->
  exists h' vec Q', rehash_one kfn hash keq h t x.1 (fst_of (hd t) R) = Ok (h', vec) /\ is_list h' (tl t) (Q' ++ R) /\
    vec_ok (tmax t) (hd t) vec Q' /\ grp (tmax t) Q' /\ joined kfn keq x Q Q' /\ frame h h' (hd t :: (Q ++ x :: R).*1).
Proof.
  intros [Rg Sz] Sh Hv G. unfold rehash_one. set (n := tmax t) in *. set (b := hash (key x) mod n).
  assert (Hn : n <> 0) by by apply shape_nz. assert (Hb : b < n) by by apply shape_lt. assert (Lv : length (tv t) = 2 * n) by apply Hv.
  rewrite (Val_ok _ _ _ (ring_val _ _ _ x Rg ltac:(apply elem_of_app; right; left))), rbind_ok. unfold bucket. rewrite (shape_land _ _ Sh). fold n b.
  cbv zeta. rewrite (vec_lo kfn hash n (hd t) (tv t) Q b) by done. rewrite rbind_ok.
  destruct (bucket_seg kfn hash keq n Q b G) as (A & C & EL & HA & HC). set (M := List.filter (inb n b) Q) in *.
  assert (HM : yes (inb n b) M) by apply lf_all.
  assert (FIN : forall h' vec A' M1 M2 C', Q = A' ++ M1 ++ M2 ++ C' -> tgtk n (key x) A' M1 M2 C' -> no (eqk (key x)) M2 ->
    ring h' (hd t) (((A' ++ M1) ++ x :: M2 ++ C') ++ R) -> vec_ok n (hd t) vec ((A' ++ M1) ++ x :: M2 ++ C') -> frame h h' (hd t :: (Q ++ x :: R).*1) ->
    exists h'' vec' Q', @Ok (heap V * list nat) (h', vec) = Ok (h'', vec') /\ is_list h'' (tl t) (Q' ++ R) /\ vec_ok n (hd t) vec' Q' /\ grp n Q' /\ joined kfn keq x Q Q' /\ frame h h'' (hd t :: (Q ++ x :: R).*1)).
  { intros h' vec A' M1 M2 C' EQ T HN R' V' F'. exists h', vec, ((A' ++ M1) ++ x :: M2 ++ C'). split; [done|]. split; [|split; [done|split; [|split; [|done]]]].
    - split; [done|]. rewrite Sz, EQ, !app_length. cbn. rewrite !app_length. lia.
    - rewrite EQ in G. by apply tgt_grp.
    - split; [rewrite EQ; rewrite (app_assoc A' M1); symmetry; apply Permutation_middle|]. intros k. rewrite EQ. by eapply tgt_last. }
  assert (TOLD : frame h h (hd t :: (Q ++ x :: R).*1)) by by intros ? _.
  destruct (decide (M = [])) as [EM|NM].
  { rewrite EM. rewrite decide_True by done. rewrite vwr_ok by lia. rewrite rbind_ok, vwr_ok by (rewrite insert_length; lia). rewrite rbind_ok.
    assert (HQ : no (inb n b) Q) by (rewrite EL, EM; by apply Forall_app).
    assert (T : tgtk n (key x) Q [] [] []). { split; [exact HQ|]. split; [constructor|]. split; [constructor|]. by left. }
    apply (FIN h _ Q [] [] []); try done.
    - by rewrite !app_nil_r.
    - cbn [app]. rewrite app_nil_r, <- app_assoc. exact Rg.
    - pose proof (vec_ins_empty kfn hash keq n (hd t) (tv t) x Q []) as X. rewrite app_nil_r in X. cbn [app]. rewrite app_nil_r. by apply X. }
  assert (Rm : ring h (hd t) (A ++ M ++ C ++ x :: R)) by (rewrite EL in Rg; rewrite <- !app_assoc in Rg; done).
  rewrite decide_False.
  2:{ destruct (fst_of_ptr (hd t) M NM) as (w & Hw & ->). eapply ring_ptr_hd; [exact Rm|]. apply elem_of_app; right. apply elem_of_app; by left. }
  rewrite (vec_hi kfn hash n (hd t) (tv t) Q b) by done. rewrite rbind_ok. fold M.
  destruct (exists_last NM) as (M' & y & EM).
  assert (Hlst : lst_of (hd t) M = y.1) by (rewrite EM, lst_of_app; done). rewrite Hlst.
  assert (Ry : ring h (hd t) ((A ++ M') ++ y :: C ++ x :: R)) by (rewrite EM in Rm; exactA Rm).
  rewrite (Val_ok _ _ _ (ring_val _ _ _ y Ry ltac:(apply elem_of_app; right; left))), rbind_ok. fold (eqk (key x) y).
  destruct (eqk (key x) y) eqn:Ey.
  { rewrite (N_ok _ _ _ (ring_nx _ _ _ _ _ Ry)), rbind_ok.
    assert (T : tgtk n (key x) A M [] C). { split; [exact HA|]. split; [by rewrite app_nil_r|]. split; [exact HC|]. right; right. by exists M', y. }
    assert (V' : vec_ok n (hd t) (<[2 * b + 1 := x.1]> (tv t)) ((A ++ M) ++ x :: C)).
    { apply (vec_ins_back kfn hash keq n (hd t) (tv t) x A M C); try done. by rewrite <- EL. }
    destruct C as [|c0 C].
    - cbn [app fst_of]. rewrite decide_False by (cbn; tauto). rewrite rbind_ok, vwr_ok by lia. rewrite rbind_ok.
      apply (FIN h _ A M [] []); try done. exactA Rm.
    - rewrite decide_True.
      2:{ cbn [app fst_of]. eapply (ring_ptr_ne h (hd t) (A ++ M ++ c0 :: C) c0 (x :: R)); [exactA Rm| |left]. apply elem_of_app; right. apply elem_of_app; right. left. }
      destruct (swap1 h (hd t) (A ++ M) (c0 :: C) x R) as (h' & E' & R' & F'); [exactA Rm|done|].
      change (fst_of (hd t) ((c0 :: C) ++ x :: R)) with (fst_of (hd t) (c0 :: C)). rewrite E', rbind_ok, vwr_ok by lia. rewrite rbind_ok.
      apply (FIN h' _ A M [] (c0 :: C)); try done.
      + exactA R'.
      + rewrite EL. exactA F'. }
  (* the inner loop *)
  assert (LP : forall N1 y N2 fuel, M = N1 ++ y :: N2 -> no (eqk (key x)) (y :: N2) -> length N1 < fuel ->
    exists h' vec M1 M2, loop fuel (fun ib =>
        if decide (fst_of (hd t) M = ib) then h <~ Splice3 h ib x.1 (fst_of (hd t) R) ;; vec <~ vwr (tv t) (2 * b) x.1 ;; Ok (inr (h, vec))
        else ib <~ ListModel.P h ib ;; w <~ Val h ib ;;
          if keq (key x) (kfn w) then ib <~ N h ib ;; h <~ Splice3 h ib x.1 (fst_of (hd t) R) ;; Ok (inr (h, tv t))
          else Ok (inl ib)) y.1 = Ok (h', vec) /\ M = M1 ++ M2 /\ tgtk n (key x) A M1 M2 C /\ no (eqk (key x)) M2 /\
      ring h' (hd t) (((A ++ M1) ++ x :: M2 ++ C) ++ R) /\ vec_ok n (hd t) vec ((A ++ M1) ++ x :: M2 ++ C) /\ frame h h' (hd t :: (Q ++ x :: R).*1)).
  { clear y EM Hlst Ry Ey M'. induction N1 as [|y' N1 IH] using rev_ind; intros y N2 fuel EM HN HF; (destruct fuel as [|fuel]; [lia|]);
      match goal with |- context [loop (S fuel) ?B _] => set (BB := B) end; rewrite loop_S; unfold BB at 1.
    - cbn [app] in EM. rewrite decide_True by by rewrite EM.
      assert (T : tgtk n (key x) A [] M C). { split; [exact HA|]. split; [done|]. split; [exact HC|]. right; left. split_and!; try done. by rewrite EM. }
      destruct (swap1 h (hd t) A (M ++ C) x R) as (h' & E' & R' & F'); [exactA Rm|by destruct M|].
      replace y.1 with (fst_of (hd t) (M ++ C)) by by rewrite EM. rewrite E', rbind_ok, vwr_ok by lia. rewrite rbind_ok, rbind_ok.
      exists h', (<[2 * b := x.1]> (tv t)), [], M. split; [done|]. split; [done|]. split; [done|]. split; [by rewrite EM|]. split; [|split].
      + rewrite app_nil_r. rewrite <- !app_assoc in *. cbn [app]. rewrite <- app_assoc. exact R'.
      + rewrite app_nil_r. apply (vec_ins_front kfn hash keq n (hd t) (tv t) x A M C); try done. by rewrite <- EL.
      + rewrite EL. exactA F'.
    - assert (Rz : ring h (hd t) ((A ++ N1 ++ [y']) ++ y :: N2 ++ C ++ x :: R)) by (rewrite EM in Rm; exactA Rm).
      assert (Rz' : ring h (hd t) ((A ++ N1) ++ y' :: y :: N2 ++ C ++ x :: R)) by (exactA Rz).
      rewrite decide_False.
      2:{ rewrite EM, fst_of_app, (fst_of_ne _ (hd t)) by (by destruct N1). destruct (fst_of_ptr (hd t) (N1 ++ [y'])) as (w & Hw & ->); [by destruct N1|].
          eapply (ring_ptr_ne h (hd t) (A ++ N1 ++ [y'])); [exact Rz|apply elem_of_app; by right|left]. }
      rewrite (P_ok _ _ _ (ring_pv _ _ _ _ _ Rz)), rbind_ok. rewrite !lst_of_app. change (lst_of _ [y']) with y'.1.
      rewrite (Val_ok _ _ _ (ring_val _ _ _ y' Rz' ltac:(apply elem_of_app; right; left))), rbind_ok. fold (eqk (key x) y').
      destruct (eqk (key x) y') eqn:Ey.
      + rewrite (N_ok _ _ _ (ring_nx _ _ _ _ _ Rz')), rbind_ok. cbn [fst_of].
        destruct (swap1 h (hd t) (A ++ N1 ++ [y']) ((y :: N2) ++ C) x R) as (h' & E' & R' & F'); [exactA Rz|done|].
        cbn [app fst_of] in E'. rewrite E', rbind_ok, rbind_ok.
        assert (T : tgtk n (key x) A (N1 ++ [y']) (y :: N2) C). { split; [exact HA|]. split; [by rewrite <- EM|]. split; [exact HC|]. right; right. by exists N1, y'. }
        exists h', (tv t), (N1 ++ [y']), (y :: N2). split; [done|]. split; [done|]. split; [done|]. split; [done|]. split; [|split].
        * rewrite <- !app_assoc in *. cbn [app] in *. exactA R'.
        * apply (vec_ins_mid kfn hash keq n (hd t) (tv t) x A (N1 ++ [y']) (y :: N2) C); try done; [by destruct N1|]. rewrite (app_assoc (N1 ++ [y'])), <- EM, <- EL. done.
        * rewrite EL, EM. rewrite <- !app_assoc in *. cbn [app] in *. exactA F'.
      + rewrite rbind_ok. apply (IH y' (y :: N2) fuel).
        * rewrite EM. by rewrite <- app_assoc.
        * by constructor.
        * rewrite app_length in HF. cbn in HF. lia. }
  destruct (LP M' y [] (S (lsize (tl t)))) as (h' & vec & M1 & M2 & E' & EM' & T & HN & R' & V' & F').
  { done. } { by repeat constructor. } { rewrite Sz, EL, EM, !app_length. cbn. lia. }
  rewrite E'. apply (FIN h' vec A M1 M2 C); try done. rewrite EL at 1. rewrite EM'. by rewrite <- app_assoc.
Qed.

(** ** the whole rehash *)
Lemma joined_perm x l l' : joined kfn keq x l l' -> l' ≡ₚ x :: l.
Proof. by intros [? _]. Qed.
Lemma rehash_loop hd0 : forall R h t Q fuel, hd t = hd0 -> is_list h (tl t) (Q ++ R) -> shape t -> vec_ok (tmax t) (hd t) (tv t) Q -> grp (tmax t) Q -> length R < fuel ->
  exists h' t' l', loop fuel (fun '(h, t, inserted) =>
    if decide (inserted = hd t) then Ok (inr (h, t))
    else next <~ N h inserted ;; '(h, vec) <~ rehash_one kfn hash keq h t inserted next ;; Ok (inl (h, set_v t vec, next))) (h, t, fst_of (hd t) R) = Ok (h', t') /\
    wf h' t' l' /\ tl t' = tl t /\ tmax t' = tmax t /\ same_contents kfn keq (Q ++ R) l' /\ frame h h' (hd t :: (Q ++ R).*1).
Proof.
  induction R as [|x R IH]; intros h t Q fuel Eh L Sh Hv G HF; (destruct fuel as [|fuel]; [lia|]);
    match goal with |- context [loop (S fuel) ?B _] => set (BB := B) end; rewrite loop_S; unfold BB at 1.
  - rewrite app_nil_r in *. cbn [fst_of]. rewrite decide_True by done. rewrite rbind_ok. exists h, t, Q. split; [done|]. split; [by apply wf_iff|]. do 2 (split; [done|]). split; [done|]. by intros ? _.
  - cbn [fst_of]. pose proof (proj1 L) as Rg. rewrite decide_False.
    2:{ eapply ring_ptr_hd; [exact Rg|]. apply elem_of_app; right; left. }
    rewrite (N_ok _ _ _ (ring_nx _ _ _ _ _ Rg)), rbind_ok.
    destruct (rehash_one_ok h t Q x R L Sh Hv G) as (h1 & vec & Q' & E1 & L1 & V1 & G1 & [J1 J2] & F1). rewrite E1, rbind_ok, rbind_ok.
    assert (PP : Q' ++ R ≡ₚ Q ++ x :: R). { rewrite J1. cbn. by rewrite Permutation_middle. }
    destruct (IH h1 (set_v t vec) Q' fuel) as (h' & t' & l' & E' & W' & Et & Em & [S1 S2] & F'); try done. { cbn in HF. lia. }
    exists h', t', l'. split; [exact E'|]. split; [done|]. split; [done|]. split; [done|]. split; [split|].
    + rewrite <- S1. by symmetry.
    + intros k. rewrite S2. unfold HashSpec.group in *. rewrite !lf_app, J2, lf_cons. rewrite <- app_assoc. by destruct (eqk k x).
    + eapply frame_trans; [exact F1|]. eapply frame_perm; [exact F'|]. cbn. by rewrite PP.
Qed.
Lemma pow_ceil n : 8 <= n -> n <= 2 ^ Ceiling_of_log_2 n /\ 3 <= Ceiling_of_log_2 n.
Proof.
  intros Hn. unfold Ceiling_of_log_2, Floor_of_log_2. rewrite Nat.log2_lor. change (Nat.log2 1) with 0. rewrite Nat.max_0_r.
  destruct (Nat.log2_spec (n - 1)) as [_ H]; [lia|]. split.
  - change (1 + Nat.log2 (n - 1)) with (S (Nat.log2 (n - 1))). lia.
  - change 3 with (1 + Nat.log2 7). apply Nat.add_le_mono_l, Nat.log2_le_mono. lia.
Qed.
Lemma vec_ok_nil n p k : k = 2 * n -> vec_ok n p (replicate k p) [].
Proof. intros ->. split; [by rewrite replicate_length|]. intros b Hb. cbn [List.filter fst_of]. rewrite !lookup_replicate_2 by lia. done. Qed.
Lemma Forced_rehash_ok h t l n : is_list h (tl t) l -> length (tv t) = 2 * tmax t -> 8 <= n -> tmax t <= n ->
  exists h' t' l', Forced_rehash kfn hash keq h t n = Ok (h', t') /\ wf h' t' l' /\ tl t' = tl t /\ n <= tmax t' /\ tmax t' = 2 ^ Ceiling_of_log_2 n /\
    same_contents kfn keq l l' /\ frame h h' (hd t :: l.*1).
Proof.
  intros L Lv Hn Hm. unfold Forced_rehash. cbv zeta. cbn [tl]. pose proof (proj1 L) as Rg. rewrite (N_ok _ _ _ (ring_first _ _ _ Rg)), rbind_ok.
  destruct (pow_ceil n Hn) as [P1 P2]. set (m := 2 ^ Ceiling_of_log_2 n) in *.
  set (t0 := Tbl (tl t) (Assign_grow (tv t) (2 * m) (hd t)) (m - 1) m).
  destruct (rehash_loop (hd t) l h t0 [] (S (lsize (tl t)))) as (h' & t' & l' & E & W & Et & Em & S & F); try done.
  - by exists (Ceiling_of_log_2 n).
  - apply vec_ok_nil. change (tmax t0) with m. case_decide; lia.
  - apply grp_nil.
  - rewrite (proj2 L). lia.
  - exists h', t', l'. split; [exact E|]. split; [done|]. split; [done|]. split; [by rewrite Em|]. split; [by rewrite Em|]. done.
Qed.
Lemma Desired_ge pol t s : 8 <= tmax t -> 8 <= Desired_grow pol t s /\ tmax t <= Desired_grow pol t s.
Proof. intros. unfold Desired_grow, min_buckets. repeat case_decide; lia. Qed.
Lemma shape_8 t : shape t -> 8 <= tmax t.
Proof. intros (j & Hj & -> & _). change 8 with (2 ^ 3). by apply Nat.pow_le_mono_r. Qed.
Lemma same_refl l : same_contents kfn keq l l.
Proof. by split. Qed.
Lemma maybe_rehash_ok pol h t l : wf h t l ->
  exists h' t' l' re, maybe_rehash kfn hash keq pol h t = Ok (h', t', re) /\ wf h' t' l' /\ tl t' = tl t /\ same_contents kfn keq l l' /\
    frame h h' (hd t :: l.*1) /\ tmax t <= tmax t' /\ (policy_ok pol -> over pol (S (length l)) (tmax t') = false) /\ (re = false -> h' = h /\ t' = t /\ l' = l).
Proof.
  intros W. pose proof W as (L & Sh & Hv & G)%wf_iff. unfold maybe_rehash. destruct (over pol _ _) eqn:EO.
  - destruct (Desired_ge pol t (S (lsize (tl t))) (shape_8 _ Sh)) as [D1 D2].
    destruct (Forced_rehash_ok h t l (Desired_grow pol t (S (lsize (tl t)))) L (proj1 Hv) D1 D2) as (h' & t' & l' & E & W' & Et & Hge & Hpw & S & F).
    rewrite E, rbind_ok. exists h', t', l', true. split_and!; try done; [lia|]. intros HP. rewrite Hpw. apply HP. rewrite <- Hpw. rewrite (proj2 L) in Hge. etrans; [|exact Hge]. unfold Desired_grow. repeat case_decide; lia.
  - exists h, t, l, false. split_and!; try done. intros _. by rewrite <- (proj2 L).
Qed.
Lemma rehash_ok pol h t l n : wf h t l ->
  exists h' t' l', rehash kfn hash keq pol h t n = Ok (h', t') /\ wf h' t' l' /\ tl t' = tl t /\ n <= tmax t' /\ mlfb pol (length l) <= tmax t' /\ tmax t <= tmax t' /\
    same_contents kfn keq l l' /\ frame h h' (hd t :: l.*1).
Proof.
  intros W. pose proof W as (L & Sh & Hv & G)%wf_iff. unfold rehash. rewrite (proj2 L). case_decide.
  - exists h, t, l. split_and!; try done; lia.
  - pose proof (shape_8 _ Sh). destruct (Forced_rehash_ok h t l (Nat.max (mlfb pol (length l)) n) L (proj1 Hv)) as (h' & t' & l' & E & W' & Et & Hm & _ & S & F); [lia|lia|].
    exists h', t', l'. split_and!; try done; try lia.
Qed.
End ins.
