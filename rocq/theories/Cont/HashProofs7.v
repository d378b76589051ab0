(** Removal of ranges and of keys, clear, extraction by key. *)
From stdpp Require Import base list numbers option decidable.
From Coq Require Import Lia.
From Verif Require Import Base.Res Cont.ListModel Cont.ListSpec Cont.ListProofs Cont.ListProofs2 Cont.ListProofs3 Cont.ListProofs4 Cont.ListProofs5 Cont.ListProofs6 Cont.HashModel Cont.HashSpec Cont.HashProofs Cont.HashProofs2 Cont.HashProofs3 Cont.HashProofs4 Cont.HashProofs5 Cont.HashProofs6.
Local Open Scope nat_scope.

Section ops.
Context {K V : Type} (kfn : V -> K) (hash : K -> nat) (keq : K -> K -> bool) (HO : hash_ok hash keq).
Implicit Types (h : heap V) (l a c d m A C M G D R S : list (nat * V)) (x y z : nat * V) (P : nat * V -> bool) (t : tbl).
Notation yes P := (Forall (fun x : nat * V => P x = true)).
Notation no P := (Forall (fun x : nat * V => P x = false)).
Notation inb := (inb kfn hash).
Notation eqk := (eqk kfn keq).
Notation key x := (kfn (snd x)).
Notation hd t := (lhead (tl t)).
Notation wf := (wf kfn hash keq).
Notation vec_ok := (vec_ok kfn hash).
Notation grp := (grp kfn hash keq).
Notation group := (group kfn keq).

Lemma node_ext h h' (p : nat) : nx h p = nx h' p -> pv h p = pv h' p -> vl h p = vl h' p -> h p = h' p.
Proof.
  unfold nx, pv, vl. destruct (h p) as [[n1 p1 v1]|], (h' p) as [[n2 p2 v2]|]; cbn; intros E1 E2 E3; try done. congruence.
Qed.
Lemma seg_notin h p a m c (q : nat) : ring h p (a ++ m ++ c) -> q ∈ m.*1 -> q ∉ p :: (a ++ c).*1.
Proof.
  intros (ND & _) Hq Q. apply list.NoDup_cons in ND as [N1 N2]. rewrite !fmap_app in *. apply elem_of_cons in Q as [->|Q].
  - apply N1. apply elem_of_app; right. apply elem_of_app; by left.
  - apply list.NoDup_app in N2 as (_ & N2 & N3). apply list.NoDup_app in N3 as (_ & N3 & _). apply elem_of_app in Q as [Q|Q].
    + apply (N2 q Q). apply elem_of_app; by left.
    + by apply (N3 q Hq).
Qed.
Lemma fin_ok h0 h t a m c vec : is_list h0 (tl t) (a ++ m ++ c) -> shape t -> grp (tmax t) (a ++ m ++ c) -> frame h0 h m.*1 -> freed h m.*1 -> vec_ok (tmax t) (hd t) vec (a ++ c) ->
  exists h' t', erase_fin h t vec (length (a ++ c)) (lst_of (hd t) a) (fst_of (hd t) c) (fst_of (hd t) c) = Ok (h', t', fst_of (hd t) c) /\
    wf h' t' (a ++ c) /\ hd t' = hd t /\ tmax t' = tmax t /\ freed h' m.*1 /\ frame h0 h' (hd t :: (a ++ m ++ c).*1).
Proof.
  intros [R Sz] Sh G Fr Fd Hv.
  assert (IA : lst_of (hd t) a ∈ hd t :: (a ++ c).*1) by apply in_lst.
  assert (IC : fst_of (hd t) c ∈ hd t :: (a ++ c).*1) by apply in_fst.
  assert (MM : forall p, p ∈ m.*1 -> p ∉ hd t :: (a ++ c).*1) by (intros p Hp; by eapply seg_notin).
  assert (SM : forall p, p ∈ hd t :: (a ++ c).*1 -> h p = h0 p). { intros p Hp. apply Fr. intros Q. by apply (MM p Q). }
  assert (AL : forall p, p ∈ hd t :: (a ++ c).*1 -> is_Some (h0 p)).
  { intros p Hp. eapply ring_alloc; [exact R|]. rewrite !fmap_app in *. apply elem_of_cons in Hp as [->|Hp]; [left|right]. apply elem_of_app in Hp as [Hp|Hp]; apply elem_of_app; [by left|right; apply elem_of_app; by right]. }
  assert (AN : forall p, p ∈ hd t :: (a ++ c).*1 -> is_Some (nx h p) /\ is_Some (pv h p) /\ is_Some (nx h0 p) /\ is_Some (pv h0 p)).
  { intros p Hp. unfold nx, pv. rewrite (SM p Hp). destruct (AL p Hp) as [n ->]. cbn. eauto. }
  destruct (connect_ok h (lst_of (hd t) a) (fst_of (hd t) c)) as (h1 & h2 & E1 & E2 & RL); [by apply AN|by apply AN|].
  destruct (connect_ok h0 (lst_of (hd t) a) (fst_of (hd t) c)) as (k1 & k2 & _ & _ & RK); [by apply AN|by apply AN|].
  pose proof (seg_ring h0 k2 (hd t) a m c R RK) as RC.
  assert (R2 : ring h2 (hd t) (a ++ c)).
  { eapply ring_frame; [exact RC|]. intros p Hp. pose proof (SM p Hp) as EP.
    destruct RL as (L1 & L2 & L3 & L4 & _), RK as (K1 & K2 & K3 & K4 & _).
    specialize (L1 _ _ ltac:(left)). specialize (K1 _ _ ltac:(left)). destruct L1 as [L1 L1'], K1 as [K1 K1'].
    apply node_ext.
    - destruct (decide (p = lst_of (hd t) a)) as [->|Hne]; [congruence|]. rewrite L2, K2 by (intros X%elem_of_list_singleton; done). unfold nx. by rewrite EP.
    - destruct (decide (p = fst_of (hd t) c)) as [->|Hne]; [congruence|]. rewrite L3, K3 by (intros X%elem_of_list_singleton; done). unfold pv. by rewrite EP.
    - rewrite L4, K4. unfold vl. by rewrite EP. }
  assert (FR : frame h h2 (hd t :: (a ++ c).*1)).
  { intros p Hp. apply RL. intros Q. apply Hp. cbn in Q. apply elem_of_cons in Q as [->|Q]; [done|]. by apply elem_of_list_singleton in Q as ->. }
  unfold erase_fin. rewrite E1, rbind_ok, E2, rbind_ok. eexists _, _. split; [done|]. split; [|split; [done|split; [done|split]]].
  - apply wf_iff. cbn [tl tmax tv lhead]. split; [done|]. split; [done|]. split; [done|]. eapply grp_sub; [apply sub_mid_del|exact G].
  - intros p Hp. rewrite FR by by apply MM. by apply Fd.
  - intros p Hp. rewrite not_elem_of_cons, !fmap_app, !not_elem_of_app in Hp. destruct Hp as (Hp1 & Hp2 & Hp3 & Hp4). rewrite FR; [by apply Fr|]. rewrite not_elem_of_cons, fmap_app, not_elem_of_app. done.
Qed.

Lemma range_loop_ok h0 t a c F0 : forall N m1 m2 h vec fuel, length m2 <= N -> length m2 < fuel -> length m2 <= F0 ->
  is_list h0 (tl t) (a ++ m1 ++ m2 ++ c) -> shape t -> grp (tmax t) (a ++ m1 ++ m2 ++ c) ->
  vec_ok (tmax t) (hd t) vec (a ++ m2 ++ c) -> frame h0 h m1.*1 -> freed h m1.*1 ->
  (forall z, list.head m2 = Some z -> no (inb (tmax t) (hash (key z) mod tmax t)) a) ->
  exists h' vec', loop fuel (fun '(h, vec, sz, next) =>
        if decide (next = fst_of (hd t) c) then Ok (inr (h, vec, sz, next))
        else
          v <~ Val h next ;;
          let b := bucket hash t (kfn v) in
          hi <~ vrd vec (2 * b + 1) ;;
          '(h, sz, next, full) <~ drain F0 h sz next hi (fst_of (hd t) c) ;;
          if negb full then vec <~ vwr vec (2 * b) next ;; Ok (inr (h, vec, sz, next))
          else vec <~ vwr vec (2 * b) (hd t) ;; vec <~ vwr vec (2 * b + 1) (hd t) ;; Ok (inl (h, vec, sz, next))) (h, vec, length (a ++ m2 ++ c), fst_of (hd t) (m2 ++ c)) =
      Ok (h', vec', length (a ++ c), fst_of (hd t) c) /\ vec_ok (tmax t) (hd t) vec' (a ++ c) /\ frame h0 h' (m1 ++ m2).*1 /\ freed h' (m1 ++ m2).*1.
Proof.
  induction N as [|N IH]; intros m1 m2 h vec fuel HN Hf HF0 L Sh G Hv Fr Fd HH; (destruct fuel as [|fuel]; [lia|]);
    match goal with |- context [loop (S fuel) ?B _] => set (BB := B) in * end; rewrite loop_S; unfold BB at 1.
  { destruct m2; [|cbn in HN; lia]. cbn [app]. rewrite decide_True by done. rewrite rbind_ok. exists h, vec. rewrite app_nil_r. done. }
  destruct m2 as [|y r].
  { cbn [app]. rewrite decide_True by done. rewrite rbind_ok. exists h, vec. rewrite app_nil_r. done. }
  destruct (bucket_step kfn hash keq h0 h t a m1 y r c vec F0 L Sh G Hv Fr Fd HF0) as (M1 & hi & h' & sz' & VY & LO & HI & (A & EA & HA) & NEQ & YM1 & CASES).
  change (fst_of (hd t) ((y :: r) ++ c)) with y.1.
  assert (M1 = []) as ->.
  { specialize (HH y eq_refl). destruct M1 as [|w M1]; [done|]. rewrite EA in HH. apply Forall_app in HH as [_ HH]. apply list.Forall_cons in HH as [HH _]. apply list.Forall_cons in YM1 as [YM1 _]. congruence. }
  pose proof (proj1 Hv) as Lv. pose proof (shape_lt t (hash (key y)) Sh) as Hb.
  rewrite decide_False.
  2:{ intros Q. pose proof (proj1 L) as R. assert (R' : ring h0 (hd t) ((a ++ m1) ++ (y :: r) ++ c)) by exactA R.
      pose proof (seg_notin h0 (hd t) (a ++ m1) (y :: r) c y.1 R') as X. apply X; [rewrite fmap_cons; left|]. rewrite Q. apply in_fst. }
  rewrite (Val_ok _ _ _ VY), rbind_ok. cbv zeta. unfold bucket. rewrite (shape_land _ _ Sh), HI, rbind_ok.
  destruct CASES as [(m0 & m3 & NE & Em & ED & Es & F' & G' & V' & H')|(ED & Es & F' & G' & V')]; rewrite ED, rbind_ok; cbn [negb].
  - rewrite decide_True in V' by done. rewrite vwr_ok, rbind_ok by lia. rewrite vwr_ok, rbind_ok by (rewrite insert_length; lia). rewrite rbind_ok. rewrite Es.
    assert (LM : length m3 < length (y :: r)). { rewrite Em, app_length. destruct m0; [done|]. cbn [length]. lia. }
    assert (EQ : a ++ (m1 ++ m0) ++ m3 ++ c = a ++ m1 ++ (y :: r) ++ c). { rewrite Em. by rewrite <- !app_assoc. }
    destruct (IH (m1 ++ m0) m3 h' _ fuel ltac:(lia) ltac:(lia) ltac:(lia) ltac:(by rewrite EQ) Sh ltac:(by rewrite EQ) V' F' G' H') as (h2 & vec2 & E2 & V2 & F2 & G2).
    exists h2, vec2. split; [exact E2|]. split; [done|]. rewrite <- app_assoc, <- Em in F2, G2. done.
  - rewrite decide_True in V' by done. rewrite vwr_ok, rbind_ok by lia. rewrite rbind_ok, Es. eexists _, _. split; [done|]. done.
Qed.

Lemma erase_range_ok h t a m c : wf h t (a ++ m ++ c) ->
  exists h' t', erase_range kfn hash h t (fst_of (hd t) (m ++ c)) (fst_of (hd t) c) = Ok (h', t', fst_of (hd t) c) /\
    wf h' t' (a ++ c) /\ hd t' = hd t /\ tmax t' = tmax t /\ freed h' m.*1 /\ frame h h' (hd t :: (a ++ m ++ c).*1).
Proof.
  intros W. pose proof W as (L & Sh & Hv & G)%wf_iff. unfold erase_range. destruct m as [|y r].
  { cbn [app]. rewrite decide_True by done. exists h, t. split; [done|]. split; [exact W|]. split; [done|]. split; [done|]. split; [by intros p ?%elem_of_nil|by intros p]. }
  change (fst_of (hd t) ((y :: r) ++ c)) with y.1. pose proof (proj1 L) as R.
  rewrite decide_False.
  2:{ intros Q. pose proof (seg_notin h (hd t) a (y :: r) c y.1 R) as X. apply X; [rewrite fmap_cons; left|]. rewrite Q. apply in_fst. }
  cbv zeta. rewrite (P_ok _ _ _ (ring_pv h (hd t) a y (r ++ c) R)), rbind_ok.
  assert (Lr : length (y :: r) <= S (lsize (tl t))). { rewrite (proj2 L), !app_length. lia. }
  destruct (bucket_step kfn hash keq h h t a [] y r c (tv t) (S (lsize (tl t))) L Sh G Hv ltac:(by intros p) ltac:(by intros p ?%elem_of_nil) Lr)
    as (M1 & hi & h' & sz' & VY & LO & HI & (A & EA & HA) & NEQ & YM1 & CASES).
  pose proof (proj1 Hv) as Lv. pose proof (shape_lt t (hash (key y)) Sh) as Hb.
  rewrite (Val_ok _ _ _ VY), rbind_ok. unfold bucket at 1 2 3 4 5 6 7 8. rewrite (shape_land t (hash (key y)) Sh), LO, rbind_ok, HI, rbind_ok.
  rewrite (proj2 L).
  destruct CASES as [(m0 & m3 & NE & Em & ED & Es & F' & G' & V' & H')|(ED & Es & F' & G' & V')]; rewrite (proj2 L) in ED; rewrite ED, rbind_ok; cbn [negb].
  - assert (EV : (if bool_decide ((if decide (M1 = []) then y.1 else fst_of (hd t) M1) = y.1) then
        vec <~ vwr (tv t) (2 * (hash (key y) mod tmax t)) (hd t);; vwr vec (2 * (hash (key y) mod tmax t) + 1) (hd t)
        else vwr (tv t) (2 * (hash (key y) mod tmax t) + 1) (lst_of (hd t) a)) =
        Ok (if decide (M1 = []) then <[2 * (hash (key y) mod tmax t) + 1 := hd t]> (<[2 * (hash (key y) mod tmax t) := hd t]> (tv t)) else <[2 * (hash (key y) mod tmax t) + 1 := lst_of (hd t) a]> (tv t))).
    { destruct (decide (M1 = [])).
      - rewrite bool_decide_true by done. rewrite vwr_ok, rbind_ok by lia. by rewrite vwr_ok by (rewrite insert_length; lia).
      - rewrite bool_decide_false by by apply NEQ. by rewrite vwr_ok by lia. }
    rewrite EV, rbind_ok. rewrite Es.
    assert (EQ : a ++ m0 ++ m3 ++ c = a ++ (y :: r) ++ c). { rewrite Em. by rewrite <- !app_assoc. }
    assert (LM : length m3 < length (y :: r)). { rewrite Em, app_length. destruct m0; [done|]. cbn [length]. lia. }
    rewrite (proj2 L) in Lr.
    destruct (range_loop_ok h t a c (S (length (a ++ (y :: r) ++ c))) (length m3) m0 m3 h' _ (S (length (a ++ (y :: r) ++ c))) ltac:(lia) ltac:(lia) ltac:(lia)
       ltac:(by rewrite EQ) Sh ltac:(by rewrite EQ) V' F' G' H') as (h2 & vec2 & E2 & V2 & F2 & G2).
    match type of E2 with ?X = _ => match goal with |- context [loop ?f ?B ?s] => change (loop f B s) with X end end. rewrite E2, rbind_ok. rewrite <- Em in F2, G2. by apply fin_ok.
  - assert (EV : (if bool_decide ((if decide (M1 = []) then y.1 else fst_of (hd t) M1) = y.1) then vwr (tv t) (2 * (hash (key y) mod tmax t)) (fst_of (hd t) c) else Ok (tv t)) =
        Ok (if decide (M1 = []) then <[2 * (hash (key y) mod tmax t) := fst_of (hd t) c]> (tv t) else tv t)).
    { destruct (decide (M1 = [])).
      - rewrite bool_decide_true by done. by rewrite vwr_ok by lia.
      - by rewrite bool_decide_false by by apply NEQ. }
    rewrite EV, rbind_ok, Es. by apply fin_ok.
Qed.

Lemma erase_key_ok multi h t l k : wf h t l -> (multi = false -> unique_keys kfn keq l) ->
  exists a c h' t', l = a ++ group k l ++ c /\ erase_key kfn hash keq multi h t k = Ok (h', t', length (group k l)) /\
    wf h' t' (a ++ c) /\ hd t' = hd t /\ tmax t' = tmax t /\ freed h' (group k l).*1 /\ frame h h' (hd t :: l.*1).
Proof.
  intros W HU. unfold erase_key. destruct (Equal_range_ok kfn hash keq HO multi h t l k W HU) as (a & c & EL & EE). destruct multi.
  - rewrite EE, rbind_ok. case_decide as E.
    + unfold erase_range. rewrite decide_True by done. rewrite rbind_ok. exists a, c, h, t. rewrite E in *. split; [done|]. split; [done|]. split; [by rewrite EL in W|]. split; [done|]. split; [done|]. split; [by intros p ?%elem_of_nil|by intros p].
    + rewrite EL in W. destruct (erase_range_ok h t a (group k l) c W) as (h' & t' & E' & W' & H1 & H2 & H3 & H4).
      rewrite (fst_app_ne (hd t) (group k l) c E) in E'. rewrite E', rbind_ok. exists a, c, h', t'. split; [done|]. split; [done|]. split; [done|]. split; [done|]. split; [done|]. split; [done|]. rewrite EL. done.
  - pose proof W as (L & Sh & Hv & G)%wf_iff. destruct (Find_last_ok kfn hash keq HO h t l k L Sh Hv G) as (A & M1 & M2 & C & bef & dup & E & EL' & EB & T & HN & HD).
    rewrite E, rbind_ok. destruct HD as [[-> HD]|(M & y & EM & Ey & -> & Hz)].
    + rewrite decide_False by (intros X; by apply X). rewrite (group_nil kfn keq k l HD) in *. exists a, c, h, t. split; [done|]. split; [done|]. split; [by rewrite EL in W|]. split; [done|]. split; [done|]. split; [by intros p ?%elem_of_nil|by intros p].
    + rewrite decide_True by done. assert (Hy : y ∈ group k l). { apply lf_in. split; [|done]. rewrite EL', EM. apply elem_of_app; right. apply elem_of_app; left. apply elem_of_app; right; left. }
      assert (EG : group k l = [y]). { specialize (HU eq_refl k). destruct (group k l) as [|g0 [|g1 g]]; [by apply elem_of_nil in Hy|by apply elem_of_list_singleton in Hy as ->|cbn in HU; lia]. }
      rewrite EG in EL. cbn [app] in EL. rewrite EG.
      assert (EH : hash k = hash (key y)) by apply (ho_hash _ _ HO), Ey. rewrite EH, (shape_land _ _ Sh). rewrite EL in L, Hv, G.
      destruct (Erase_bucket_ok kfn hash keq h t a y c L Sh Hv G) as (vec & E1 & V1). rewrite E1, rbind_ok. cbn [set_v tl].
      destruct (Erase1_ok h (tl t) a y c L) as (h' & E' & L' & F' & N'). rewrite E', rbind_ok. exists a, c. eexists _, _. split; [done|]. split; [done|]. split; [|split; [done|split; [done|split]]].
      * apply wf_iff. split; [done|]. split; [done|]. split; [done|]. eapply grp_sub; [apply sub_1|done].
      * intros p Hp. apply elem_of_list_singleton in Hp as ->. done.
      * by rewrite EL.
Qed.
Lemma clear_tbl_ok nothrow h t l : wf h t l ->
  exists h' t', clear_tbl kfn hash nothrow h t = Ok (h', t') /\ wf h' t' [] /\ hd t' = hd t /\ tmax t' = tmax t /\ freed h' l.*1 /\ frame h h' (hd t :: l.*1).
Proof.
  intros W. pose proof W as (L & Sh & Hv & G)%wf_iff. unfold clear_tbl. case_decide as E0.
  { rewrite (proj2 L) in E0. apply nil_length_inv in E0 as ->. exists h, t. split_and!; try done. by intros p ?%elem_of_nil. }
  destruct (nothrow && bool_decide _).
  - rewrite (N_ok _ _ _ (ring_first _ _ _ (proj1 L))), rbind_ok.
    assert (W' : wf h t ([] ++ l ++ [])) by by rewrite app_nil_r.
    destruct (erase_range_ok h t [] l [] W') as (h' & t' & E' & W2 & H1 & H2 & H3 & H4). cbn [app] in *. rewrite app_nil_r in *. change (fst_of (hd t) []) with (hd t) in E'. rewrite E', rbind_ok. exists h', t'. split_and!; done.
  - destruct (clear_ok h (tl t) l L) as (h' & E' & L' & F' & G'). rewrite E', rbind_ok. eexists _, _. split; [done|]. split; [|split_and!; done].
    apply wf_iff. cbn [tl tmax tv lhead]. split; [done|]. split; [exact Sh|]. split; [apply vec_ok_nil, Hv|apply grp_nil].
Qed.
Lemma extract_key_ok multi h t l k : wf h t l -> (multi = false -> unique_keys kfn keq l) ->
  (group k l = [] /\ extract_key kfn hash keq multi h t k = Ok (h, t, null)) \/
  (exists x g a c h' t', group k l = x :: g /\ l = a ++ x :: c /\ extract_key kfn hash keq multi h t k = Ok (h', t', x.1) /\ wf h' t' (a ++ c) /\ hd t' = hd t /\ tmax t' = tmax t /\
    vl h' x.1 = Some x.2 /\ x.1 ∉ hd t :: (a ++ c).*1 /\ frame h h' (hd t :: (a ++ c).*1)).
Proof.
  intros W HU. pose proof W as (L & Sh & Hv & G)%wf_iff. unfold extract_key.
  assert (X : exists d : nat, (if multi then d0 <~ Find_first kfn keq h t k (hash k);; (if decide (d0 = hd t) then Ok null else Ok d0)
     else '(_, d) <~ Find_last kfn keq h t k (hash k);; Ok d) = Ok d /\ ((d = 0 /\ group k l = []) \/ exists x g, group k l = x :: g /\ d = x.1)).
  { destruct multi.
    - rewrite (Find_first_ok kfn hash keq HO h t l k W), rbind_ok. destruct (group k l) as [|x g] eqn:EG; cbn [fst_of].
      + rewrite decide_True by done. exists 0. split; [done|]. by left.
      + rewrite decide_False; [exists x.1; split; [done|]; right; by exists x, g|]. eapply ring_ptr_hd; [exact (proj1 L)|]. assert (Hx : x ∈ group k l) by (rewrite EG; left). by apply lf_in in Hx as [].
    - destruct (Find_last_ok kfn hash keq HO h t l k L Sh Hv G) as (A & M1 & M2 & C & bef & dup & E & EL' & EB & T & HN & HD). rewrite E, rbind_ok. exists dup. split; [done|].
      destruct HD as [[-> HD]|(M & y & EM & Ey & -> & Hz)]; [left; split; [done|by apply group_nil]|right].
      assert (Hy : y ∈ group k l). { apply lf_in. split; [|done]. rewrite EL', EM. apply elem_of_app; right. apply elem_of_app; left. apply elem_of_app; right; left. }
      specialize (HU eq_refl k). exists y, []. split; [|done]. destruct (group k l) as [|g0 [|g1 g]]; [by apply elem_of_nil in Hy|by apply elem_of_list_singleton in Hy as ->|cbn in HU; lia]. }
  destruct X as (d & -> & [[-> EG]|(x & g & EG & ->)]); rewrite rbind_ok.
  - left. split; [done|]. by rewrite decide_True.
  - right. assert (Hx : x ∈ group k l) by (rewrite EG; left). apply lf_in in Hx as [Hx Ex].
    rewrite decide_False. 2:{ eapply ring_nz; [exact (proj1 L)|]. right. by apply in_ptrs. }
    apply elem_of_list_split in Hx as (a & c & EL). rewrite EL in W. destruct (unlink_ok kfn hash keq h t a x c W) as (t1 & h' & s & E1 & E2 & W' & Hs & M1 & M2 & V' & Hni & F).
    assert (EH : hash k = hash (key x)) by apply (ho_hash _ _ HO), Ex. rewrite EH, E1, rbind_ok, E2, rbind_ok. exists x, g, a, c, h', (set_l t1 s). split_and!; try done.
Qed.
End ops.
