(** Container-level theorems: insertion. *)
From stdpp Require Import base list numbers option decidable.
From Coq Require Import Lia.
From Verif Require Import Base.Res Base.Order Base.OrderLemmas Cont.TreeModel Cont.TreeSpec Cont.TreeProofs Cont.TreeProofs2 Cont.TreeProofs3 Cont.TreeProofs4 Cont.TreeProofs5 Cont.TreeProofs6.

Section tree.
Context {V : Type}.
Implicit Types (h : heap V) (t : tree V) (l : list (nat * V)).
Notation frame := (@frame V).
Definition dom l (p : nat) : Prop := p = 0 \/ p ∈ l.*1.
Lemma ok_rep (s : tst V) l : tree_ok s l <-> exists t n, inorder t = l /\ rb Black n t /\ rep (dom l) (minp l) (maxp l) (mem s) t /\ msize s = length l.
Proof.
  split; intros (t & n & Hin & Hb & H).
  - destruct H as (Hn & H0 & Ht & HD & Hs). exists t, n. split_and!; try done. constructor; try done. unfold ptrs. by rewrite Hin.
  - destruct H as ([HD H0 Ht Hn] & Hs). exists t, n. unfold ptrs in Hn. rewrite Hin in Hn. split_and!; done.
Qed.
Lemma rep_alloc (D : nat -> Prop) mn mx h t new n : rep D mn mx h t -> h new = None -> rep (fun p => D p \/ p = new) mn mx (upd h new (Some n)) t.
Proof.
  intros H Hn. assert (Hni : new ∉ 0 :: ptrs t). { intros Hin. pose proof (D_in _ _ _ _ _ _ H Hin) as Hd. apply (rep_dom _ _ _ _ _ H) in Hd. rewrite Hn in Hd. by destruct Hd. }
  rewrite elem_of_cons in Hni. destruct H as [HD H0 Ht Hnd]. constructor; [|rewrite upd_ne; [done|intros <-; tauto]|eapply tr_frame; [|exact Ht]; intros z Hz; apply upd_ne; intros ->; tauto|done].
  intros p. unfold upd. case_decide as Hp; [subst; split; [by right|done]|]. rewrite HD. naive_solver.
Qed.
Lemma rep_free (D D' : nat -> Prop) mn mx h t x : rep D mn mx h t -> x ∉ 0 :: ptrs t -> (forall p, D' p <-> D p /\ p <> x) -> rep D' mn mx (upd h x None) t.
Proof.
  intros [HD H0 Ht Hnd] Hni HD'. rewrite elem_of_cons in Hni. constructor; [|rewrite upd_ne; [done|intros <-; tauto]|eapply tr_frame; [|exact Ht]; intros z Hz; apply upd_ne; intros ->; tauto|done].
  intros p. rewrite HD', <- HD. unfold upd. case_decide as Hp; [subst; split; [by intros []|tauto]|]. tauto.
Qed.
(** a place in the tree between the elements of a and the elements of b *)
Definition locok t (loc : nat * child) (a b : list (nat * V)) : Prop :=
  exists K, plug K E = t /\ fst loc = parK K /\ side K (snd loc) /\ before K = a /\ after K = b.
Lemma rep_dom_eq (D D' : nat -> Prop) mn mx h t : rep D mn mx h t -> (forall p, D p <-> D' p) -> rep D' mn mx h t.
Proof. intros [HD H0 Ht Hnd] He. constructor; try done. intros p. by rewrite HD. Qed.
Lemma ins_ok (s : tst V) t n new v loc a b : rb Black n t -> rep (fun p => dom (inorder t) p \/ p = new) (minp (inorder t)) (maxp (inorder t)) (mem s) t -> msize s = length (inorder t) ->
  mem s new = Some (Node 0 0 0 Red false (Some v)) -> new ∉ 0 :: ptrs t -> locok t loc a b ->
  wp (Insert_node s loc new) (fun s' => tree_ok s' (a ++ (new, v) :: b)).
Proof.
  intros Hb H Hsz Hnew Hni (K & <- & Hp & Hside & <- & <-). destruct loc as [p ch]. cbn [fst snd] in *. subst p.
  eapply wp_mono; [eapply (Insert_node_ok _ s K ch new v n H Hb Hnew Hni Hsz Hside)|].
  intros s' (t' & m & Hin & Hb' & Hr & Hs'). apply ok_rep. exists t', m. rewrite Hin in Hr. split_and!; try done.
  - eapply rep_dom_eq; [exact Hr|]. intros q. unfold dom. rewrite inorder_plug. cbn [inorder app]. rewrite !fmap_app, fmap_cons, !elem_of_app, elem_of_cons. cbn [fst]. tauto.
  - rewrite Hs', Hsz, inorder_plug. cbn [inorder app]. rewrite !app_length. cbn [length]. lia.
Qed.
Lemma buy_ok (s : tst V) t n new v l : inorder t = l -> rb Black n t -> rep (dom l) (minp l) (maxp l) (mem s) t -> msize s = length l -> mem s new = None ->
  exists s1, Buynode s new v = Ok s1 /\ msize s1 = length l /\ rep (fun p => dom l p \/ p = new) (minp l) (maxp l) (mem s1) t /\ mem s1 new = Some (Node 0 0 0 Red false (Some v)) /\ new ∉ 0 :: ptrs t /\
    mem s1 = upd (mem s) new (Some (Node 0 0 0 Red false (Some v))).
Proof.
  intros Hin Hb H Hsz Hnew. unfold Buynode. rewrite decide_True by done. eexists. split; [done|]. cbn [mem msize]. split_and!; [done|by apply rep_alloc|apply upd_eq| |done].
  intros Hc. pose proof (D_in _ _ _ _ _ _ H Hc) as Hd. apply (rep_dom _ _ _ _ _ H) in Hd. rewrite Hnew in Hd. by destruct Hd.
Qed.
Lemma buy_ins (s : tst V) t n new v l loc a b : inorder t = l -> rb Black n t -> rep (dom l) (minp l) (maxp l) (mem s) t -> msize s = length l -> mem s new = None -> locok t loc a b ->
  wp (s <~ Buynode s new v ;; Insert_node s loc new) (fun s' => tree_ok s' (a ++ (new, v) :: b)).
Proof.
  intros Hin Hb H Hsz Hnew Hloc. destruct (buy_ok s t n new v l Hin Hb H Hsz Hnew) as (s1 & E1 & Hs1 & H1 & Hn1 & Hni & _). rewrite E1, rbind_ok. subst l. by eapply ins_ok.
Qed.
(** positions next to a node *)
Lemma loc_right t a x v b : inorder t = a ++ (x, v) :: b -> (exists K c (l0 : tree V), t = plug K (T c l0 x v E) /\ a = before K ++ inorder l0 /\ b = after K) -> locok t (x, CRight) (a ++ [(x, v)]) b.
Proof. intros _ (K & c & l & -> & -> & ->). exists (FR c l x v :: K). split_and!; try done. cbn [before]. by rewrite <- app_assoc. Qed.
Lemma loc_left t a x v b : inorder t = a ++ (x, v) :: b -> (exists K c r, t = plug K (T c E x v r) /\ a = before K /\ b = inorder r ++ after K) -> locok t (x, CLeft) a ((x, v) :: b).
Proof. intros _ (K & c & r & -> & -> & ->). exists (FL c x v r :: K). split_and!; done. Qed.
(** of two neighbours, the first has no right child or the second has no left child *)
Lemma neighbours D mn mx h t a x v y w b : rep D mn mx h t -> inorder t = a ++ (x, v) :: (y, w) :: b ->
  exists q, R h x = Ok q /\ Isnil h q = Ok (bool_decide (q = 0)) /\
  if bool_decide (q = 0) then locok t (x, CRight) (a ++ [(x, v)]) ((y, w) :: b) else locok t (y, CLeft) (a ++ [(x, v)]) ((y, w) :: b).
Proof.
  intros H Hin. destruct (split_tree _ _ _ _ _ Hin) as (K & c & l & r & -> & Ea & Eb). exists (root r).
  rewrite (Rz _ _ _ _ _ _ _ _ _ _ H). pose proof (nilz D mn mx h (FR c l x v :: K) r H) as Hn. destruct r as [|cr r1 xr vr r2] eqn:Er.
  - cbn [root] in *. rewrite Hn, bool_decide_true by done. split_and!; [done|done|]. eapply loc_right; [exact Hin|]. exists K, c, l. split_and!; done.
  - assert (Hxr : xr <> 0). { eapply (node_ne_l D mn mx h (FR c l x v :: K) cr r1 xr vr r2 H). } cbn [root isE] in *. rewrite Hn, bool_decide_false by done. split_and!; [done|done|].
    rewrite <- Er in *. apply rep_z in H. pose proof (zr_t _ _ _ _ _ _ H) as (_ & _ & Htr).
    destruct (Min_ok h ltac:(apply rep_z in H; by eapply rep_hnil) r x (length (inorder r)) Htr ltac:(by rewrite Er) ltac:(lia)) as (J & d & y' & w' & fr & Hr & HJ & _).
    rewrite Hr, inorder_plug, before_FL in Eb by done. cbn [inorder app] in Eb. injection Eb as <- <- Eb.
    eapply loc_left; [rewrite Hin; by rewrite <- app_assoc|]. exists (J ++ FR c l x v :: K), d, fr. split_and!.
    + rewrite plug_app. cbn [plug fill]. by rewrite <- Hr.
    + rewrite before_app, (before_FL J) by done. cbn [before]. by rewrite app_nil_r, Ea, <- app_assoc.
    + rewrite after_app. cbn [after]. by rewrite Eb, <- app_assoc.
Qed.
Lemma last_loc D mn mx h t : rep D mn mx h t -> locok t (maxp (inorder t), CRight) (inorder t) [].
Proof.
  intros H. assert (Hcase : t = E \/ t <> E) by (destruct t; [by left|by right]). destruct Hcase as [->|Hne]; [exists []; split_and!; done|].
  destruct (Max_ok h ltac:(by eapply rep_hnil) t 0 (length (inorder t)) (rep_tr _ _ _ _ _ H) Hne ltac:(lia)) as (J & d & y & w & fl & Et & HJ & _).
  assert (Hin : inorder t = (before J ++ inorder fl) ++ [(y, w)]). { rewrite Et, inorder_plug, after_FR by done. cbn [inorder app]. by rewrite app_nil_r, <- app_assoc. }
  rewrite Hin, maxp_snoc. rewrite <- (app_nil_r ((before J ++ inorder fl) ++ [(y, w)])) in Hin at 1. rewrite <- app_assoc in Hin. cbn [app] in Hin.
  eapply loc_right; [exact Hin|]. exists J, d, fl. split_and!; [done|done|by rewrite after_FR].
Qed.
Lemma first_loc D mn mx h t y w b : rep D mn mx h t -> inorder t = (y, w) :: b -> locok t (y, CLeft) [] ((y, w) :: b).
Proof.
  intros H Hin. assert (Hne : t <> E) by (intros ->; done).
  destruct (Min_ok h ltac:(by eapply rep_hnil) t 0 (length (inorder t)) (rep_tr _ _ _ _ _ H) Hne ltac:(lia)) as (J & d & y' & w' & fr & Et & HJ & _).
  rewrite Et, inorder_plug, before_FL in Hin by done. cbn [inorder app] in Hin. injection Hin as <- <- <-.
  eapply (loc_left t []); [rewrite Et, inorder_plug, before_FL by done; done|]. exists J, d, fr. split_and!; [done|by rewrite before_FL|done].
Qed.
End tree.

Section find.
Context {V K : Type} (kf : V -> K) (lt : K -> K -> bool) (SW : StrictWeakOrder lt).
Implicit Types (l a b : list (nat * V)).
Definition below (k : K) (e : nat * V) : Prop := lt (kf (snd e)) k = true.
Definition above (k : K) (e : nat * V) : Prop := lt k (kf (snd e)) = true.
Lemma ord_parts_l l k : ordered kf lt l -> parts (fun e => lt (kf (snd e)) k) l.
Proof using SW.
  intros Ho i j x y Hij Hx Hy Hk. eapply (swo_le_lt lt SW _ (kf (snd y))); [|exact Hk]. eapply (Ho i j); [done|unfold keys; by rewrite list_lookup_fmap, Hx|unfold keys; by rewrite list_lookup_fmap, Hy].
Qed.
Lemma ord_parts_u l k : ordered kf lt l -> parts (fun e => negb (lt k (kf (snd e)))) l.
Proof using SW.
  intros Ho i j x y Hij Hx Hy Hk. apply negb_true_iff in Hk. apply negb_true_iff. destruct (lt k (kf (snd x))) eqn:E; [|done]. rewrite <- Hk. symmetry. eapply (swo_lt_le lt SW); [exact E|].
  eapply (Ho i j); [done|unfold keys; by rewrite list_lookup_fmap, Hx|unfold keys; by rewrite list_lookup_fmap, Hy].
Qed.
Lemma keys_app a b : keys kf (a ++ b) = keys kf a ++ keys kf b.
Proof. apply fmap_app. Qed.
Lemma ord_ins a b x v : ordered kf lt (a ++ b) -> Forall (fun e => lt (kf v) (kf (snd e)) = false) a -> Forall (fun e => lt (kf (snd e)) (kf v) = false) b -> ordered kf lt (a ++ (x, v) :: b).
Proof.
  unfold ordered. rewrite !keys_app. cbn. rewrite !sorted_app, sorted_cons. intros (Ha & Hb & Hab) Hlt Hge. split_and!; try done.
  - apply Forall_fmap. exact Hge.
  - intros p q Hp Hq. unfold keys in Hp, Hq. apply elem_of_cons in Hq as [->|Hq]; [|by apply Hab]. apply elem_of_list_fmap in Hp as (e & -> & He). rewrite list.Forall_forall in Hlt. by apply Hlt.
Qed.
Lemma find_loc (g : V -> bool) t par ch bound : found g t (par, ch, bound) -> exists a b, inorder t = a ++ b /\ locok t (par, ch) a b /\ bound = minp b /\ Forall (fun e => g (snd e) = true) a /\ Forall (fun e => g (snd e) = false) b.
Proof. intros (Z & HZ & Hp & Hs & Hb & Hbe & Haf). exists (before Z), (after Z). split_and!; try done; [by rewrite <- HZ, inorder_plug|]. by exists Z. Qed.
(** the two bounds of a key, as splits of the element list *)
Definition lsplit (k : K) l a b : Prop := l = a ++ b /\ Forall (fun e => lt (kf (snd e)) k = true) a /\ Forall (fun e => lt (kf (snd e)) k = false) b.
Definition usplit (k : K) l a b : Prop := l = a ++ b /\ Forall (fun e => lt k (kf (snd e)) = false) a /\ Forall (fun e => lt k (kf (snd e)) = true) b.
Lemma flb_split D mn mx (s : tst V) t k : rep D mn mx (mem s) t -> length (inorder t) <= msize s -> ordered kf lt (inorder t) ->
  exists par ch a b, Find_lower_bound kf lt s k = Ok (par, ch, minp b) /\ lsplit k (inorder t) a b /\ locok t (par, ch) a b.
Proof using SW.
  intros H Hs Ho. destruct (wp_exists _ _ (flb_ok kf lt D mn mx s t k H Hs (ord_parts_l _ k Ho))) as ([[par ch] bd] & E & Hf). apply find_loc in Hf as (a & b & Hab & Hl & -> & Ha & Hb).
  exists par, ch, a, b. split_and!; try done.
Qed.
Lemma fub_split D mn mx (s : tst V) t k : rep D mn mx (mem s) t -> length (inorder t) <= msize s -> ordered kf lt (inorder t) ->
  exists par ch a b, Find_upper_bound kf lt s k = Ok (par, ch, minp b) /\ usplit k (inorder t) a b /\ locok t (par, ch) a b.
Proof using SW.
  intros H Hs Ho. destruct (wp_exists _ _ (fub_ok kf lt D mn mx s t k H Hs (ord_parts_u _ k Ho))) as ([[par ch] bd] & E & Hf). apply find_loc in Hf as (a & b & Hab & Hl & -> & Ha & Hb).
  exists par, ch, a, b. split_and!; try done. split_and!; [done|eapply list.Forall_impl; [exact Ha|]; cbn; intros e He; by apply negb_true_iff|eapply list.Forall_impl; [exact Hb|]; cbn; intros e He; by apply negb_false_iff].
Qed.
Lemma usplit_ord k l a b x v : ordered kf lt l -> usplit k l a b -> kf v = k -> ordered kf lt (a ++ (x, v) :: b).
Proof using SW.
  intros Ho (-> & Ha & Hb) Hk. subst k. apply ord_ins; try done. eapply list.Forall_impl; [exact Hb|]. intros e. apply (swo_asym lt SW).
Qed.
Lemma lsplit_ord k l a b x v : ordered kf lt l -> lsplit k l a b -> kf v = k -> ordered kf lt (a ++ (x, v) :: b).
Proof using SW.
  intros Ho (-> & Ha & Hb) Hk. subst k. apply ord_ins; try done. eapply list.Forall_impl; [exact Ha|]. intros e. apply (swo_asym lt SW).
Qed.
(** reading the key of a node that is in the tree *)
Lemma Key_in D mn mx (h : heap V) t a x v b : rep D mn mx h t -> inorder t = a ++ (x, v) :: b -> Key kf h x = Ok (kf v) /\ Isnil h x = Ok false /\ x <> 0.
Proof.
  intros H Hin. destruct (split_tree _ _ _ _ _ Hin) as (Z & c & l & r & -> & _ & _). split_and!; [by eapply Key_z|exact (nilz _ _ _ _ _ _ H)|]. by eapply node_ne_l.
Qed.
Lemma nil0 D mn mx (h : heap V) t : rep D mn mx h t -> Isnil h 0 = Ok true.
Proof. intros H. exact (tr_nil h 0 E (rep_hnil _ _ _ _ _ H) I). Qed.
(** _Lower_bound_duplicate *)
Lemma dup_ok D mn mx (s : tst V) t k a b : rep D mn mx (mem s) t -> inorder t = a ++ b ->
  Lower_bound_duplicate kf lt s (minp b) k = Ok (match b with [] => false | e :: _ => negb (lt k (kf (snd e))) end).
Proof.
  intros H Hin. unfold Lower_bound_duplicate. destruct b as [|[x v] b]; cbn [minp fmap list_fmap lookup list_lookup default].
  - unfold minp. cbn. rewrite (nil0 _ _ _ _ _ H), rbind_ok. done.
  - unfold minp. cbn. destruct (Key_in _ _ _ _ _ _ _ _ _ H Hin) as (Ek & En & _). rewrite En, rbind_ok, Ek, rbind_ok. done.
Qed.
Lemma uniq_ord l : unique kf lt l -> ordered kf lt l.
Proof using SW. intros Hu i j x y Hij Hx Hy. apply (swo_asym lt SW). by eapply Hu. Qed.
Lemma uniq_ins a b x v : unique kf lt (a ++ b) -> Forall (fun e => lt (kf (snd e)) (kf v) = true) a -> Forall (fun e => lt (kf v) (kf (snd e)) = true) b -> unique kf lt (a ++ (x, v) :: b).
Proof.
  intros Hu Ha Hb. assert (Hu' : sorted (fun p q => negb (lt q p)) (keys kf (a ++ (x, v) :: b))).
  { assert (Hu1 : sorted (fun p q => negb (lt q p)) (keys kf (a ++ b))). { intros i j p q Hij Hp Hq. by rewrite (Hu i j p q Hij Hp Hq). }
    rewrite !keys_app in *. cbn. rewrite !sorted_app, sorted_cons in *. destruct Hu1 as (H1 & H2 & H3). split_and!; try done.
    - apply Forall_fmap. eapply list.Forall_impl; [exact Hb|]. cbn. intros e He. by rewrite He.
    - intros p q Hp Hq. unfold keys in Hp, Hq. apply elem_of_cons in Hq as [->|Hq]; [|by apply H3]. apply elem_of_list_fmap in Hp as (e & -> & He). rewrite list.Forall_forall in Ha. by rewrite (Ha e He). }
  intros i j p q Hij Hp Hq. apply negb_false_iff. exact (Hu' i j p q Hij Hp Hq).
Qed.
(** at a lower bound of a unique sequence, either the key is there or everything after is strictly greater *)
Lemma lsplit_uniq k l a b : unique kf lt l -> lsplit k l a b -> match b with [] => True | e :: b' => lt k (kf (snd e)) = true -> Forall (fun e => lt k (kf (snd e)) = true) b end.
Proof using SW.
  intros Hu (-> & Ha & Hb). destruct b as [|e b]; [done|]. intros He. constructor; [done|]. apply Forall_lookup. intros i f Hf. eapply (swo_trans lt SW _ (kf (snd e))); [done|].
  eapply (Hu (length a) (length a + S i)); [lia|..]; unfold keys; rewrite list_lookup_fmap; [by rewrite list_lookup_middle|].
  rewrite lookup_app_r by lia. replace (length a + S i - length a) with (S i) by lia. by rewrite (Hf : (e :: b) !! S i = Some f).
Qed.
End find.
