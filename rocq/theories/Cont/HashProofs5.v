(** Insertion, removal of one element, extraction and reinsertion of nodes. *)
From stdpp Require Import base list numbers option decidable.
From Coq Require Import Lia.
From Verif Require Import Base.Res Cont.ListModel Cont.ListSpec Cont.ListProofs Cont.ListProofs2 Cont.ListProofs3 Cont.ListProofs4 Cont.ListProofs5 Cont.ListProofs6 Cont.HashModel Cont.HashSpec Cont.HashProofs Cont.HashProofs2 Cont.HashProofs3 Cont.HashProofs4.
Local Open Scope nat_scope.

Section ops.
Context {K V : Type} (kfn : V -> K) (hash : K -> nat) (keq : K -> K -> bool) (HO : hash_ok hash keq).
Implicit Types (h : heap V) (l a c d m A C M G D R : list (nat * V)) (x y z : nat * V) (P : nat * V -> bool) (t : tbl).
Notation yes P := (Forall (fun x : nat * V => P x = true)).
Notation no P := (Forall (fun x : nat * V => P x = false)).
Notation inb := (inb kfn hash).
Notation eqk := (eqk kfn keq).
Notation key x := (kfn (snd x)).
Notation hd t := (lhead (tl t)).
Notation wf := (wf kfn hash keq).
Notation vec_ok := (vec_ok kfn hash).
Notation grp := (grp kfn hash keq).
Notation tgtk := (tgtk kfn hash keq).
Notation group := (group kfn keq).
Notation placed := (placed kfn keq).
Notation same_contents := (same_contents kfn keq).

Lemma wf_frame h h' t l : wf h t l -> (forall p, p ∈ hd t :: l.*1 -> h' p = h p) -> wf h' t l.
Proof. intros ([R Sz] & H)%wf_iff HF. apply wf_iff. split; [|exact H]. split; [|done]. by eapply ring_frame. Qed.
Lemma ins_after_none (p : nat) x l : p ∉ l.*1 -> ins_after p x l = l ++ [x].
Proof.
  induction l as [|y l IH]; [done|]. rewrite fmap_cons, not_elem_of_cons. intros [H1 H2]. cbn [ins_after app]. rewrite decide_False by congruence. by rewrite IH.
Qed.
Lemma ins_after_mid y x a c : y.1 ∉ a.*1 -> ins_after y.1 x (a ++ y :: c) = a ++ y :: x :: c.
Proof.
  induction a as [|z a IH]; cbn [ins_after app]; [by rewrite decide_True|]. rewrite fmap_cons, not_elem_of_cons. intros [H1 H2]. rewrite decide_False by congruence. by rewrite IH.
Qed.
Lemma group_elem k l x : x ∈ group k l <-> x ∈ l /\ eqk k x = true.
Proof. apply lf_in. Qed.
Lemma group_nil k l : no (eqk k) l -> group k l = [].
Proof. apply lf_no. Qed.
Lemma ring_ptr_inj h p l x y : ring h p l -> x ∈ l -> y ∈ l -> x.1 = y.1 -> x = y.
Proof.
  intros R Hx Hy E. pose proof (ring_val _ _ _ _ R Hx) as V1. pose proof (ring_val _ _ _ _ R Hy) as V2. destruct x as [p1 v1], y as [p2 v2]. cbn in *. congruence.
Qed.
Lemma same_hint hint t t' l l' : same_contents l l' -> hd t' = hd t -> hint_ok hint t l -> hint_ok hint t' l'.
Proof. intros [P _] E. unfold hint_ok. destruct hint as [p|]; [|done]. rewrite E, P. done. Qed.
Lemma placed_same hint x l l1 l' : same_contents l l1 -> placed hint x l1 l' -> placed hint x l l'.
Proof. intros [S1 S2] [P1 P2]. split; [by rewrite P1, S1|]. intros k. by rewrite P2, S2. Qed.

Lemma target_ok h t l hint k : wf h t l -> hint_ok hint t l ->
  exists bef dup, find_target kfn keq h t hint k (hash k) = Ok (bef, dup) /\
    ((dup = 0 /\ group k l = []) \/ (exists y, y ∈ l /\ eqk k y = true /\ dup = y.1 /\ dup <> 0)) /\
    forall h1 new v, kfn v = k -> wf h1 t l -> vl h1 new = Some v -> new ∉ hd t :: l.*1 -> new <> 0 ->
      exists h' t' l', Insert_new_node_before h1 t (hash k) bef new = Ok (h', t', new) /\ wf h' t' l' /\ hd t' = hd t /\ tmax t' = tmax t /\
        placed hint (new, v) l l' /\ frame h1 h' (new :: hd t :: l.*1).
Proof.
  intros W HH. pose proof W as (L & Sh & Hv & G)%wf_iff.
  assert (X : exists A M1 M2 C bef dup, find_target kfn keq h t hint k (hash k) = Ok (bef, dup) /\ l = A ++ M1 ++ M2 ++ C /\ bef = fst_of (hd t) (M2 ++ C) /\
    tgtk (tmax t) k A M1 M2 C /\
    ((dup = 0 /\ no (eqk k) l) \/ (exists M y, M1 = M ++ [y] /\ eqk k y = true /\ dup = y.1 /\ dup <> 0)) /\
    ((exists y p, hint = Some p /\ y ∈ l /\ y.1 = p /\ eqk k y = true /\ dup = p) \/ ((forall y p, hint = Some p -> y ∈ l -> y.1 = p -> eqk k y = false) /\ no (eqk k) M2))).
  { destruct hint as [p|]; cbn [find_target].
    - destruct (Find_hint_ok kfn hash keq HO h t l k p L Sh Hv G HH) as (A & M1 & M2 & C & bef & dup & E & EL & EB & T & HD & HX).
      exists A, M1, M2, C, bef, dup. do 5 (split; [done|]). destruct HX as [(y & ? & ? & ? & ?)|[HX ?]]; [left; by exists y, p|right]. split; [|done]. intros y q [= ->]. apply HX.
    - destruct (Find_last_ok kfn hash keq HO h t l k L Sh Hv G) as (A & M1 & M2 & C & bef & dup & E & EL & EB & T & HN & HD).
      exists A, M1, M2, C, bef, dup. do 5 (split; [done|]). right. done. }
  destruct X as (A & M1 & M2 & C & bef & dup & E & EL & EB & T & HD & HX). exists bef, dup. split; [exact E|]. split.
  { destruct HD as [[-> HD]|(M & y & -> & Ey & -> & Hz)]; [left; split; [done|by apply group_nil]|right]. exists y. split_and!; try done. rewrite EL. apply elem_of_app; right. apply elem_of_app; left. apply elem_of_app; right; left. }
  intros h1 new v <- W1 Hval Hni Hz. rewrite EL in W1, Hni.
  destruct (Insert_ok kfn hash keq HO h1 t A M1 M2 C new v W1 T Hval Hni Hz) as (h' & t' & E' & W' & Eh & Em & F).
  exists h', t', ((A ++ M1) ++ (new, v) :: M2 ++ C). rewrite EB. split; [exact E'|]. split; [done|]. split; [done|]. split; [done|]. split; [|by rewrite EL].
  split. { rewrite EL, (app_assoc A M1). symmetry. apply Permutation_middle. }
  intros k. rewrite (tgt_group kfn keq). destruct (eqk k (new, v)) eqn:Ek.
  2:{ cbn [app]. unfold HashSpec.group. rewrite EL, (app_assoc A M1), (lf_app _ (A ++ M1)). done. }
  assert (EG : forall z, eqk (kfn v) z = eqk k z). { intros z. apply (eqk_same kfn hash keq HO k (new, v) z Ek). }
  destruct HX as [(y & p & -> & Hy & Ep & Ey & Hd)|[HX HN]].
  - destruct HD as [[-> HD]|(M & y' & EM & Ey' & Hd' & Hz')]. { exfalso. apply (list.Forall_forall) with (x := y) in HD; [|done]. congruence. }
    subst M1. assert (y'.1 = p) as <- by congruence.
    assert (EE : group k l = group k (A ++ M) ++ y' :: group k (M2 ++ C)).
    { unfold HashSpec.group. rewrite EL. rewrite <- !app_assoc. cbn [app]. rewrite (app_assoc A M), lf_app, lf_cons. rewrite <- EG, Ey'. by rewrite lf_app. }
    cbn [place]. rewrite EE, ins_after_mid.
    + rewrite (app_assoc A M). unfold HashSpec.group at 1. rewrite lf_app, lf_cons, <- EG, Ey'. cbn [List.filter]. rewrite <- app_assoc. done.
    + intros HI. apply elem_of_list_fmap in HI as (z & Ez & Hz1). apply group_elem in Hz1 as [Hz1 _].
      pose proof (proj1 L) as R. rewrite EL in R.
      assert (RR : ring h (hd t) ((A ++ M) ++ y' :: M2 ++ C)) by exactA R.
      eapply (ring_ptr_ne h (hd t) (A ++ M) z (y' :: M2 ++ C) y'); [exact RR|done|left|done].
  - assert (EE : group k (M2 ++ C) = []).
    { apply group_nil. apply Forall_app. split; [eapply list.Forall_impl; [exact HN|]; cbn beta; intros z; by rewrite EG|].
      destruct T as (_ & _ & HC & _). apply (no_eqk_of_inb kfn hash keq HO) in HC. eapply list.Forall_impl; [exact HC|]; cbn beta; intros z; by rewrite EG. }
    assert (E2 : group k l = group k (A ++ M1)). { rewrite EL, (app_assoc A M1). unfold HashSpec.group in *. by rewrite lf_app, EE, app_nil_r. }
    rewrite EE, app_nil_r, <- E2. destruct hint as [p|]; [|done]. cbn [place]. symmetry. apply ins_after_none.
    intros HI. apply elem_of_list_fmap in HI as (z & Ez & Hz1). apply group_elem in Hz1 as [Hz1 Hz2]. rewrite <- EG in Hz2. rewrite (HX z p) in Hz2; congruence.
Qed.

Lemma wf_New h t l new v : wf h t l -> h new = None -> exists h1, New h new v = Ok h1 /\ wf h1 t l /\ new ∉ hd t :: l.*1 /\ vl h1 new = Some v /\ frame h h1 [new].
Proof.
  intros W Hn. pose proof W as (L & _)%wf_iff. destruct (New_ok h new v Hn) as (h1 & E1 & _ & _ & VL & Fr).
  destruct (New_ring _ _ _ _ _ _ (proj1 L) Hn E1) as [_ Hni]. exists h1. split; [done|]. split; [|split; [done|split]].
  - eapply wf_frame; [exact W|]. intros p Hp. apply Fr. by intros ->.
  - rewrite VL. by rewrite decide_True.
  - intros p Hp. apply Fr. by apply not_elem_of_cons in Hp as [].
Qed.
Lemma frame_more h h1 h' (new : nat) (ps qs : list nat) : frame h h1 (new :: ps) -> frame h1 h' (new :: qs) -> qs ≡ₚ ps -> frame h h' (new :: ps).
Proof. intros F1 F2 E p Hp. rewrite F2; [by apply F1|]. by rewrite E. Qed.
Lemma frame_1 h h1 (new : nat) (ps : list nat) : frame h h1 [new] -> frame h h1 (new :: ps).
Proof. intros F p Hp. apply F. intros X. apply Hp. apply elem_of_list_singleton in X as ->. left. Qed.
Lemma frame_cons h h1 (new : nat) (ps : list nat) : frame h h1 ps -> frame h h1 (new :: ps).
Proof. intros F p Hp. apply F. intros X. apply Hp. by right. Qed.

Lemma emplace_multi_ok pol h t l hint new v : wf h t l -> hint_ok hint t l -> h new = None -> new <> 0 ->
  exists h' t' l', emplace_multi kfn hash keq pol h t hint new v = Ok (h', t', new) /\ wf h' t' l' /\ hd t' = hd t /\ tmax t <= tmax t' /\
    placed hint (new, v) l l' /\ frame h h' (new :: hd t :: l.*1) /\ (policy_ok pol -> over pol (S (length l)) (tmax t') = false).
Proof.
  intros W HH Hn Hz. unfold emplace_multi. destruct (wf_New h t l new v W Hn) as (h1 & E1 & W1 & Hni & VL & F1). rewrite E1, rbind_ok. cbv zeta.
  destruct (maybe_rehash_ok kfn hash keq HO pol h1 t l W1) as (h2 & t2 & l2 & re & E2 & W2 & Et & S2 & F2 & M2 & O2 & _). rewrite E2, rbind_ok.
  assert (EH : hd t2 = hd t) by by rewrite Et.
  destruct (target_ok h2 t2 l2 hint (kfn v) W2 (same_hint _ _ _ _ _ S2 EH HH)) as (bef & dup & E3 & _ & HI). rewrite E3, rbind_ok.
  destruct (HI h2 new v eq_refl W2) as (h' & t' & l' & E4 & W4 & H4 & M4 & P4 & F4).
  - unfold vl. by rewrite (F2 new Hni).
  - rewrite EH, <- (proj1 S2). done.
  - done.
  - exists h', t', l'. split; [exact E4|]. split; [done|]. split; [congruence|]. split; [lia|]. split; [by eapply placed_same|]. split; [|by rewrite M4].
    eapply frame_more; [|exact F4|].
    + eapply frame_trans; [by apply frame_1|by apply frame_cons].
    + rewrite EH. by rewrite (proj1 S2).
Qed.

(** what a unique insertion does *)
Lemma emplace_key_ok pol h t l hint new v : wf h t l -> hint_ok hint t l -> h new = None -> new <> 0 ->
  (exists y, y ∈ l /\ eqk (kfn v) y = true /\ emplace_key kfn hash keq pol h t hint new v = Ok (h, t, y.1, false)) \/
  (group (kfn v) l = [] /\ exists h' t' l', emplace_key kfn hash keq pol h t hint new v = Ok (h', t', new, true) /\ wf h' t' l' /\ hd t' = hd t /\ tmax t <= tmax t' /\
    placed None (new, v) l l' /\ frame h h' (new :: hd t :: l.*1) /\ (policy_ok pol -> over pol (S (length l)) (tmax t') = false)).
Proof.
  intros W HH Hn Hz. unfold emplace_key. cbv zeta. destruct (target_ok h t l hint (kfn v) W HH) as (bef & dup & E0 & HD & HI0). rewrite E0, rbind_ok.
  destruct HD as [[-> HG]|(y & Hy & Ey & -> & Hy0)].
  2:{ left. exists y. rewrite decide_True by done. done. }
  right. split; [done|]. rewrite decide_False by (intros X; by apply X). destruct (wf_New h t l new v W Hn) as (h1 & E1 & W1 & Hni & VL & F1). rewrite E1, rbind_ok.
  destruct (maybe_rehash_ok kfn hash keq HO pol h1 t l W1) as (h2 & t2 & l2 & re & E2 & W2 & Et & S2 & F2 & M2 & O2 & Hre). rewrite E2, rbind_ok.
  assert (EH : hd t2 = hd t) by by rewrite Et.
  assert (VL2 : vl h2 new = Some v) by (unfold vl; by rewrite (F2 new Hni)).
  assert (Hni2 : new ∉ hd t2 :: l2.*1) by (rewrite EH, <- (proj1 S2); done).
  assert (X : exists bef' dup' h' t' l', (if re then find_target kfn keq h2 t2 hint (kfn v) (hash (kfn v)) else Ok (bef, 0)) = Ok (bef', dup') /\
     Insert_new_node_before h2 t2 (hash (kfn v)) bef' new = Ok (h', t', new) /\ wf h' t' l' /\ hd t' = hd t2 /\ tmax t' = tmax t2 /\ placed hint (new, v) l2 l' /\ frame h2 h' (new :: hd t2 :: l2.*1)).
  { destruct re.
    - destruct (target_ok h2 t2 l2 hint (kfn v) W2 (same_hint _ _ _ _ _ S2 EH HH)) as (bef' & dup' & E3 & _ & HI).
      destruct (HI h2 new v eq_refl W2 VL2 Hni2 Hz) as (h' & t' & l' & E4 & W4). by exists bef', dup', h', t', l'.
    - destruct (Hre eq_refl) as (-> & -> & ->). destruct (HI0 h1 new v eq_refl W1 VL Hni Hz) as (h' & t' & l' & E4 & W4). by exists bef, 0, h', t', l'. }
  destruct X as (bef' & dup' & h' & t' & l' & -> & E4 & W4 & H4 & M4 & P4 & F4). rewrite rbind_ok, E4, rbind_ok.
  exists h', t', l'. split; [done|]. split; [done|]. split; [congruence|]. split; [lia|]. split.
  - apply (placed_same _ _ l l2 l' S2) in P4. destruct P4 as [P4 P5]. split; [done|]. intros k. rewrite P5. destruct (eqk k (new, v)) eqn:Ek; [|done].
    assert (EG : group k l = []). { apply group_nil. unfold HashSpec.group in HG. apply lf_nil in HG. eapply list.Forall_impl; [exact HG|]. cbn beta. intros z. pose proof (eqk_same kfn hash keq HO k (new, v) z Ek) as X. cbn [snd] in X. by rewrite X. }
    rewrite EG. by destruct hint.
  - split; [|by rewrite M4]. eapply frame_more; [|exact F4|].
    + eapply frame_trans; [by apply frame_1|by apply frame_cons].
    + rewrite EH. by rewrite (proj1 S2).
Qed.
Lemma emplace_val_ok pol h t l hint new v : wf h t l -> hint_ok hint t l -> h new = None -> new <> 0 ->
  (exists y h', y ∈ l /\ eqk (kfn v) y = true /\ emplace_val kfn hash keq pol h t hint new v = Ok (h', t, y.1, false) /\ wf h' t l /\ forall p, h' p = h p) \/
  (group (kfn v) l = [] /\ exists h' t' l', emplace_val kfn hash keq pol h t hint new v = Ok (h', t', new, true) /\ wf h' t' l' /\ hd t' = hd t /\ tmax t <= tmax t' /\
    placed None (new, v) l l' /\ frame h h' (new :: hd t :: l.*1) /\ (policy_ok pol -> over pol (S (length l)) (tmax t') = false)).
Proof.
  intros W HH Hn Hz. unfold emplace_val. cbv zeta. destruct (wf_New h t l new v W Hn) as (h1 & E1 & W1 & Hni & VL & F1). rewrite E1, rbind_ok.
  destruct (target_ok h1 t l hint (kfn v) W1 HH) as (bef & dup & E0 & HD & HI0). rewrite E0, rbind_ok.
  destruct HD as [[-> HG]|(y & Hy & Ey & -> & Hy0)].
  2:{ left. rewrite decide_True by done. destruct (Free_ok h1 new v VL) as (h2 & -> & G1 & G2). rewrite rbind_ok.
      assert (X : forall p, h2 p = h p). { intros p. destruct (decide (p = new)) as [->|Hp]; [congruence|]. rewrite (G2 p Hp). apply F1. by intros X%elem_of_list_singleton. }
      exists y, h2. split; [done|]. split; [done|]. split; [done|]. split; [|done]. eapply wf_frame; [exact W|]. intros p _. apply X. }
  right. split; [done|]. rewrite decide_False by (intros X; by apply X).
  destruct (maybe_rehash_ok kfn hash keq HO pol h1 t l W1) as (h2 & t2 & l2 & re & E2 & W2 & Et & S2 & F2 & M2 & O2 & Hre). rewrite E2, rbind_ok.
  assert (EH : hd t2 = hd t) by by rewrite Et.
  assert (VL2 : vl h2 new = Some v) by (unfold vl; by rewrite (F2 new Hni)).
  assert (Hni2 : new ∉ hd t2 :: l2.*1) by (rewrite EH, <- (proj1 S2); done).
  assert (X : exists bef' dup' h' t' l', (if re then find_target kfn keq h2 t2 hint (kfn v) (hash (kfn v)) else Ok (bef, 0)) = Ok (bef', dup') /\
     Insert_new_node_before h2 t2 (hash (kfn v)) bef' new = Ok (h', t', new) /\ wf h' t' l' /\ hd t' = hd t2 /\ tmax t' = tmax t2 /\ placed hint (new, v) l2 l' /\ frame h2 h' (new :: hd t2 :: l2.*1)).
  { destruct re.
    - destruct (target_ok h2 t2 l2 hint (kfn v) W2 (same_hint _ _ _ _ _ S2 EH HH)) as (bef' & dup' & E3 & _ & HI).
      destruct (HI h2 new v eq_refl W2 VL2 Hni2 Hz) as (h' & t' & l' & E4 & W4). by exists bef', dup', h', t', l'.
    - destruct (Hre eq_refl) as (-> & -> & ->). destruct (HI0 h1 new v eq_refl W1 VL Hni Hz) as (h' & t' & l' & E4 & W4). by exists bef, 0, h', t', l'. }
  destruct X as (bef' & dup' & h' & t' & l' & -> & E4 & W4 & H4 & M4 & P4 & F4). rewrite rbind_ok, E4, rbind_ok.
  exists h', t', l'. split; [done|]. split; [done|]. split; [congruence|]. split; [lia|]. split.
  - apply (placed_same _ _ l l2 l' S2) in P4. destruct P4 as [P4 P5]. split; [done|]. intros k. rewrite P5. destruct (eqk k (new, v)) eqn:Ek; [|done].
    assert (EG : group k l = []). { apply group_nil. unfold HashSpec.group in HG. apply lf_nil in HG. eapply list.Forall_impl; [exact HG|]. cbn beta. intros z. pose proof (eqk_same kfn hash keq HO k (new, v) z Ek) as X. cbn [snd] in X. by rewrite X. }
    rewrite EG. by destruct hint.
  - split; [|by rewrite M4]. eapply frame_more; [|exact F4|].
    + eapply frame_trans; [by apply frame_1|by apply frame_cons].
    + rewrite EH. by rewrite (proj1 S2).
Qed.
(** reinsertion of a node that is in no list *)
Lemma insert_node_ok multi pol h t l node v : wf h t l -> vl h node = Some v -> node ∉ hd t :: l.*1 -> node <> 0 ->
  (multi = false /\ exists y, y ∈ l /\ eqk (kfn v) y = true /\ insert_node kfn hash keq multi pol h t node = Ok (h, t, y.1, false)) \/
  ((multi = false -> group (kfn v) l = []) /\ exists h' t' l', insert_node kfn hash keq multi pol h t node = Ok (h', t', node, true) /\ wf h' t' l' /\ hd t' = hd t /\ tmax t <= tmax t' /\
    placed None (node, v) l l' /\ frame h h' (node :: hd t :: l.*1) /\ (policy_ok pol -> over pol (S (length l)) (tmax t') = false)).
Proof.
  intros W VL Hni Hz. unfold insert_node. rewrite (Val_ok _ _ _ VL), rbind_ok. cbv zeta.
  destruct (target_ok h t l None (kfn v) W I) as (bef & dup & E0 & HD & HI0). cbn [find_target] in E0. rewrite E0, rbind_ok.
  destruct (negb multi && bool_decide (dup <> null)) eqn:ED.
  { apply andb_true_iff in ED as [EM ED]. apply bool_decide_eq_true in ED. destruct multi; [done|]. left. split; [done|].
    destruct HD as [[-> HG]|(y & Hy & Ey & -> & Hy0)]; [by destruct ED|]. by exists y. }
  right. split.
  { intros ->. cbn in ED. apply bool_decide_eq_false in ED. destruct HD as [[-> HG]|(y & Hy & Ey & -> & Hy0)]; [done|]. by destruct ED. }
  destruct (maybe_rehash_ok kfn hash keq HO pol h t l W) as (h2 & t2 & l2 & re & E2 & W2 & Et & S2 & F2 & M2 & O2 & Hre). rewrite E2, rbind_ok.
  assert (EH : hd t2 = hd t) by by rewrite Et.
  assert (VL2 : vl h2 node = Some v) by (unfold vl; by rewrite (F2 node Hni)).
  assert (Hni2 : node ∉ hd t2 :: l2.*1) by (rewrite EH, <- (proj1 S2); done).
  assert (X : exists bef' dup' h' t' l', (if re then Find_last kfn keq h2 t2 (kfn v) (hash (kfn v)) else Ok (bef, dup)) = Ok (bef', dup') /\
     Insert_new_node_before h2 t2 (hash (kfn v)) bef' node = Ok (h', t', node) /\ wf h' t' l' /\ hd t' = hd t2 /\ tmax t' = tmax t2 /\ placed None (node, v) l2 l' /\ frame h2 h' (node :: hd t2 :: l2.*1)).
  { destruct re.
    - destruct (target_ok h2 t2 l2 None (kfn v) W2 I) as (bef' & dup' & E3 & _ & HI). cbn [find_target] in E3.
      destruct (HI h2 node v eq_refl W2 VL2 Hni2 Hz) as (h' & t' & l' & E4 & W4). by exists bef', dup', h', t', l'.
    - destruct (Hre eq_refl) as (-> & -> & ->). destruct (HI0 h node v eq_refl W VL Hni Hz) as (h' & t' & l' & E4 & W4). by exists bef, dup, h', t', l'. }
  destruct X as (bef' & dup' & h' & t' & l' & -> & E4 & W4 & H4 & M4 & P4 & F4). rewrite rbind_ok, E4, rbind_ok.
  exists h', t', l'. split; [done|]. split; [done|]. split; [congruence|]. split; [lia|]. split; [by eapply placed_same|]. split; [|by rewrite M4].
  eapply frame_more; [|exact F4|].
  - by apply frame_cons.
  - rewrite EH. by rewrite (proj1 S2).
Qed.

(** ** removal of one element *)
Lemma fst_app_ne p a c : a <> [] -> fst_of p (a ++ c) = fst_of p a.
Proof. by destruct a. Qed.
Lemma lst_app_ne p a c : c <> [] -> lst_of p (a ++ c) = lst_of p c.
Proof. intros H. destruct (exists_last H) as (c' & z & ->). by rewrite app_assoc, !lst_of_app. Qed.
Lemma split_at n a x c : NoDup (a ++ x :: c).*1 -> grp n (a ++ x :: c) ->
  exists A M1 M2 C, a = A ++ M1 /\ c = M2 ++ C /\ List.filter (inb n (hash (key x) mod n)) (a ++ x :: c) = M1 ++ x :: M2 /\
    no (inb n (hash (key x) mod n)) A /\ yes (inb n (hash (key x) mod n)) (M1 ++ x :: M2) /\ no (inb n (hash (key x) mod n)) C.
Proof.
  intros ND G. set (b := hash (key x) mod n). assert (Hx : inb n b x = true) by by apply inb_true.
  exists (List.filter (fun z => negb (inb n b z)) a).
  destruct (bucket_seg kfn hash keq n (a ++ x :: c) b G) as (A & C & EL & HA & HC). set (M := List.filter (inb n b) (a ++ x :: c)) in *.
  assert (HM : yes (inb n b) M) by apply lf_all.
  assert (HyM : x ∈ M). { apply lf_in. split; [|done]. apply elem_of_app; right; left. }
  apply elem_of_list_split in HyM as (N1 & N2 & EM).
  assert (EE : a = A ++ N1 /\ c = N2 ++ C).
  { rewrite EM in EL. assert (EL' : a ++ x :: c = (A ++ N1) ++ x :: N2 ++ C) by exactA EL.
    assert (Q : forall (u1 u2 v1 v2 : list (nat * V)), u1 ++ x :: v1 = u2 ++ x :: v2 -> NoDup (u1 ++ x :: v1).*1 -> u1 = u2 /\ v1 = v2).
    { clear. induction u1 as [|w u1 IH]; intros [|w2 u2] v1 v2 E ND; cbn [app] in *.
      - by injection E.
      - injection E as E1 E2. subst w2. exfalso. rewrite E2 in ND. rewrite fmap_cons, fmap_app, fmap_cons in ND. apply list.NoDup_cons in ND as [ND _]. apply ND. apply elem_of_app; right; left.
      - injection E as E1 E2. subst w. exfalso. rewrite fmap_cons, fmap_app, fmap_cons in ND. apply list.NoDup_cons in ND as [ND _]. apply ND. apply elem_of_app; right; left.
      - injection E as E1 E2. subst w2. rewrite fmap_cons in ND. apply list.NoDup_cons in ND as [_ ND]. destruct (IH _ _ _ E2 ND) as [-> ->]. done. }
    by apply Q. }
  destruct EE as [-> ->]. rewrite EM in HM.
  assert (EA : List.filter (fun z => negb (inb n b z)) (A ++ N1) = A).
  { rewrite lf_app. rewrite (lf_yes _ A), (lf_no _ N1); [by rewrite app_nil_r| |].
    - apply Forall_app in HM as [HM _]. eapply list.Forall_impl; [exact HM|]. cbn beta. by intros z ->.
    - eapply list.Forall_impl; [exact HA|]. cbn beta. by intros z ->. }
  exists N1, N2, C. rewrite EA. split_and!; done.
Qed.
Lemma Erase_bucket_ok h t a x c : is_list h (tl t) (a ++ x :: c) -> shape t -> vec_ok (tmax t) (hd t) (tv t) (a ++ x :: c) -> grp (tmax t) (a ++ x :: c) ->
  exists vec, Erase_bucket h t x.1 (hash (key x) mod tmax t) = Ok (set_v t vec) /\ vec_ok (tmax t) (hd t) vec (a ++ c).
Proof.
  intros L Sh Hv G. set (n := tmax t) in *. destruct (split_at n a x c) as (A & M1 & M2 & C & -> & -> & EF & HA & HM & HC); [destruct L as [(ND & _) _]; by apply list.NoDup_cons in ND as []|done|].
  pose proof (proj1 L) as R. set (b := hash (key x) mod n) in *.
  assert (Hn : n <> 0) by by apply shape_nz. assert (Hb : b < n) by by apply shape_lt. assert (Lv : length (tv t) = 2 * n) by apply Hv.
  unfold Erase_bucket. rewrite (vec_lo kfn hash n (hd t) (tv t) _ b), (vec_hi kfn hash n (hd t) (tv t) _ b) by done. rewrite rbind_ok, rbind_ok, EF.
  assert (EF' : List.filter (inb n b) ((A ++ M1) ++ M2 ++ C) = M1 ++ M2).
  { apply Forall_app in HM as [HM1 HM2]. apply list.Forall_cons in HM2 as [_ HM2]. rewrite !lf_app, (lf_no _ A), (lf_no _ C), (lf_yes _ M1), (lf_yes _ M2) by done. by rewrite app_nil_r. }
  assert (OTH : forall b', b' <> b -> List.filter (inb n b') ((A ++ M1) ++ M2 ++ C) = List.filter (inb n b') ((A ++ M1) ++ x :: M2 ++ C)).
  { intros b' Hne. symmetry. apply filter_other. by apply inb_other. }
  assert (HNE1 : forall z, z ∈ M1 -> z.1 <> x.1). { intros z Hz. eapply (ring_ptr_ne h (hd t) (A ++ M1)); [exact R|apply elem_of_app; by right|left]. }
  assert (HNE2 : forall z, z ∈ M2 -> z.1 <> x.1). { intros z Hz. assert (R' : ring h (hd t) ((A ++ M1 ++ [x]) ++ M2 ++ C)) by exactA R. intros Q. symmetry in Q. revert Q.
    eapply (ring_ptr_ne h (hd t) (A ++ M1 ++ [x])); [exact R'| |apply elem_of_app; by left]. apply elem_of_app; right. apply elem_of_app; right; left. }
  assert (EN : N h x.1 = Ok (fst_of (hd t) (M2 ++ C))) by apply N_ok, (ring_nx _ _ _ _ _ R).
  assert (EP : ListModel.P h x.1 = Ok (lst_of (hd t) (A ++ M1))) by apply P_ok, (ring_pv _ _ _ _ _ R).
  destruct (decide (M2 = [])) as [->|NM2].
  - change (M1 ++ [x]) with (M1 ++ [x]). rewrite lst_of_app. change (lst_of (lst_of (hd t) M1) [x]) with x.1. rewrite decide_True by done.
    destruct (decide (M1 = [])) as [->|NM1].
    + cbn [app fst_of]. rewrite decide_True by done. rewrite vwr_ok, rbind_ok by lia. rewrite vwr_ok, rbind_ok by (rewrite insert_length; lia).
      eexists. split; [done|]. eapply (vec_upd kfn hash n (hd t) (tv t) _ _ b (hd t) (hd t)); try done.
      * by rewrite !insert_length.
      * intros i H1 H2. by rewrite !list_lookup_insert_ne by lia.
      * cbn [app] in EF'. rewrite EF'. rewrite list_lookup_insert_ne by lia. by rewrite list_lookup_insert by lia.
      * cbn [app] in EF'. rewrite EF'. by rewrite list_lookup_insert by (rewrite insert_length; lia).
    + rewrite fst_app_ne by done. destruct (fst_of_ptr (hd t) M1 NM1) as (w & Hw & Ew). rewrite Ew. rewrite decide_False by by apply HNE1.
      rewrite EP, rbind_ok, vwr_ok, rbind_ok by lia. eexists. split; [done|].
      eapply (vec_upd kfn hash n (hd t) (tv t) _ _ b (hd t) (hd t)); try done.
      * by rewrite !insert_length.
      * intros i H1 H2. by rewrite !list_lookup_insert_ne by lia.
      * rewrite EF', app_nil_r. rewrite list_lookup_insert_ne by lia. destruct Hv as [_ Hv]. rewrite (proj1 (Hv b Hb)), EF. by rewrite fst_app_ne.
      * rewrite EF', app_nil_r. rewrite list_lookup_insert by lia. by rewrite lst_app_ne.
  - rewrite lst_app_ne by done. change (x :: M2) with ([x] ++ M2). rewrite lst_app_ne by done. destruct (lst_of_ptr (hd t) M2 NM2) as (w & Hw & Ew). rewrite Ew. rewrite decide_False by by apply HNE2.
    destruct (decide (M1 = [])) as [->|NM1].
    + cbn [app fst_of]. rewrite decide_True by done. rewrite EN, rbind_ok, vwr_ok, rbind_ok by lia.
      eexists. split; [done|]. eapply (vec_upd kfn hash n (hd t) (tv t) _ _ b (hd t) (hd t)); try done.
      * by rewrite !insert_length.
      * intros i H1 H2. by rewrite !list_lookup_insert_ne by lia.
      * cbn [app] in EF'. rewrite EF'. rewrite list_lookup_insert by lia. by rewrite fst_app_ne.
      * cbn [app] in EF'. rewrite EF'. rewrite list_lookup_insert_ne by lia. destruct Hv as [_ Hv]. rewrite (proj2 (Hv b Hb)), EF. cbn [app]. change (x :: M2) with ([x] ++ M2). by rewrite lst_app_ne.
    + rewrite fst_app_ne by done. destruct (fst_of_ptr (hd t) M1 NM1) as (w1 & Hw1 & Ew1). rewrite Ew1. rewrite decide_False by by apply HNE1.
      exists (tv t). split; [by destruct t|]. eapply (vec_upd kfn hash n (hd t) (tv t) _ _ b (hd t) (hd t)); try done.
      * rewrite EF'. destruct Hv as [_ Hv]. rewrite (proj1 (Hv b Hb)), EF. by rewrite !fst_app_ne.
      * rewrite EF'. destruct Hv as [_ Hv]. rewrite (proj2 (Hv b Hb)), EF. rewrite !lst_app_ne by done. change (x :: M2) with ([x] ++ M2). by rewrite lst_app_ne.
Qed.
Lemma sub_1 a x c : sublist (a ++ c) (a ++ x :: c).
Proof. apply sublist_app; [done|]. by apply sublist_cons. Qed.
Lemma erase1_ok h t a x c : wf h t (a ++ x :: c) ->
  exists h' t', erase1 kfn hash h t x.1 = Ok (h', t', fst_of (hd t) c) /\ wf h' t' (a ++ c) /\ hd t' = hd t /\ tmax t' = tmax t /\
    h' x.1 = None /\ frame h h' (hd t :: (a ++ x :: c).*1).
Proof.
  intros (L & Sh & Hv & G)%wf_iff. unfold erase1, bucket. rewrite (Val_ok _ _ _ (ring_val _ _ _ x (proj1 L) ltac:(apply elem_of_app; right; left))), rbind_ok.
  rewrite (shape_land _ _ Sh). destruct (Erase_bucket_ok h t a x c L Sh Hv G) as (vec & E & V'). rewrite E, rbind_ok. cbn [set_v tl].
  destruct (Erase1_ok h (tl t) a x c L) as (h' & E' & L' & F' & N'). rewrite E', rbind_ok. eexists _, _. split; [done|]. split; [|split_and!; done].
  apply wf_iff. split; [done|]. split; [done|]. split; [done|]. eapply grp_sub; [apply sub_1|done].
Qed.
Lemma Unlinknode_ok h s a x c : is_list h s (a ++ x :: c) ->
  exists h', Unlinknode h s x.1 = Ok (h', Lst (lhead s) (lsize s - 1)) /\ is_list h' (Lst (lhead s) (lsize s - 1)) (a ++ c) /\ frame h h' (lhead s :: (a ++ c).*1) /\ x.1 ∉ lhead s :: (a ++ c).*1.
Proof.
  intros [R Sz]. unfold Unlinknode. rewrite (P_ok _ _ _ (ring_pv _ _ _ _ _ R)), rbind_ok, (N_ok _ _ _ (ring_nx _ _ _ _ _ R)), rbind_ok.
  destruct (unlink_ring _ _ _ _ _ R) as (h1 & h2 & -> & E2 & E3 & E4 & R2 & F2). rewrite rbind_ok, E2, rbind_ok, E3, rbind_ok, E4, !rbind_ok.
  exists h2. split; [done|]. split; [split; [done|]|split; [done|]].
  - cbn [lsize]. rewrite Sz, !app_length. cbn [length]. lia.
  - apply (ring_x_notin _ _ _ _ _ R).
Qed.
Lemma unlink_ok h t a x c : wf h t (a ++ x :: c) ->
  exists t1 h' s, Erase_bucket h t x.1 (Nat.land (hash (key x)) (tmask t)) = Ok t1 /\ Unlinknode h (tl t1) x.1 = Ok (h', s) /\ wf h' (set_l t1 s) (a ++ c) /\ lhead s = hd t /\ tmax t1 = tmax t /\
    tmask t1 = tmask t /\ vl h' x.1 = Some x.2 /\ x.1 ∉ hd t :: (a ++ c).*1 /\ frame h h' (hd t :: (a ++ c).*1).
Proof.
  intros (L & Sh & Hv & G)%wf_iff.
  rewrite (shape_land _ _ Sh). destruct (Erase_bucket_ok h t a x c L Sh Hv G) as (vec & E & V').
  destruct (Unlinknode_ok h (tl t) a x c L) as (h' & E' & L' & F' & N'). exists (set_v t vec), h', (Lst (hd t) (lsize (tl t) - 1)). split; [done|]. split; [done|]. split; [|split_and!; try done].
  - apply wf_iff. split; [done|]. split; [done|]. split; [done|]. eapply grp_sub; [apply sub_1|done].
  - unfold vl. rewrite F' by done. apply (ring_val _ _ _ _ (proj1 L)). apply elem_of_app. right. left.
Qed.
Lemma extract_at_ok h t a x c : wf h t (a ++ x :: c) ->
  exists h' t', extract_at kfn hash h t x.1 = Ok (h', t', x.1) /\ wf h' t' (a ++ c) /\ hd t' = hd t /\ tmax t' = tmax t /\
    vl h' x.1 = Some x.2 /\ x.1 ∉ hd t :: (a ++ c).*1 /\ frame h h' (hd t :: (a ++ c).*1).
Proof.
  intros W. unfold extract_at, bucket. pose proof W as (L & _)%wf_iff. rewrite (Val_ok _ _ _ (ring_val _ _ _ x (proj1 L) ltac:(apply elem_of_app; right; left))), rbind_ok.
  destruct (unlink_ok h t a x c W) as (t1 & h' & s & E1 & E2 & W' & Hs & M1 & M2 & V' & Hni & F). rewrite E1, rbind_ok, E2, rbind_ok. exists h', (set_l t1 s). split; [done|]. split_and!; done.
Qed.
End ops.
