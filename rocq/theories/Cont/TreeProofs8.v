(** Container-level theorems: insertion (with and without hint) and lookups. *)
From stdpp Require Import base list numbers option decidable.
From Coq Require Import Lia.
From Verif Require Import Base.Res Base.Order Base.OrderLemmas Cont.TreeModel Cont.TreeSpec Cont.TreeProofs Cont.TreeProofs2 Cont.TreeProofs3 Cont.TreeProofs4 Cont.TreeProofs5 Cont.TreeProofs6 Cont.TreeProofs7.

Section tree.
Context {V K : Type} (kf : V -> K) (lt : K -> K -> bool) (SW : StrictWeakOrder lt).
Implicit Types (l a b p q : list (nat * V)) (s : tst V) (t : tree V) (h : heap V).
Notation lsplit := (lsplit kf lt).
Notation usplit := (usplit kf lt).
Notation ordered := (ordered kf lt).
Notation unique := (unique kf lt).
(** *** iterators *)
Lemma incr_l D mn mx h t a x v b fuel : rep D mn mx h t -> inorder t = a ++ (x, v) :: b -> length (inorder t) <= fuel -> incr fuel h x = Ok (minp b).
Proof using. intros H Hin Hf. destruct (split_tree _ _ _ _ _ Hin) as (Z & c & l & r & -> & _ & ->). by eapply incr_z. Qed.
Lemma decr_l D mn mx h t a x v b fuel : rep D mn mx h t -> inorder t = a ++ (x, v) :: b -> length (inorder t) <= fuel -> decr fuel h x = Ok (maxp a).
Proof using. intros H Hin Hf. destruct (split_tree _ _ _ _ _ Hin) as (Z & c & l & r & -> & -> & _). by eapply decr_z. Qed.
(** *** insertion without hint *)
Lemma emplace_multi_ok s l new v : tree_ok s l -> ordered l -> mem s new = None ->
  exists s' a b, emplace_multi kf lt s new v = Ok (s', new) /\ usplit (kf v) l a b /\ tree_ok s' (a ++ (new, v) :: b) /\ ordered (a ++ (new, v) :: b).
Proof using SW.
  intros (t & n & Hin & Hb & H & Hsz)%ok_rep Ho Hnew. unfold emplace_multi.
  destruct (buy_ok s t n new v l Hin Hb H Hsz Hnew) as (s1 & E1 & Hs1 & H1 & Hn1 & Hni & _). rewrite E1, rbind_ok. unfold Key, ld. rewrite Hn1, !rbind_ok. cbn [nval]. rewrite rbind_ok.
  subst l. destruct (fub_split kf lt SW _ _ _ s1 t (kf v) H1 ltac:(lia) Ho) as (par & ch & a & b & -> & Hs & Hloc). rewrite rbind_ok.
  destruct (wp_exists _ _ (ins_ok s1 t n new v (par, ch) a b Hb H1 Hs1 Hn1 Hni Hloc)) as (s' & -> & Hok). rewrite rbind_ok. exists s', a, b. split_and!; try done. by eapply usplit_ord.
Qed.
Definition uniq_post s l new v (r : tst V * nat * bool) : Prop :=
  let '(s', x, ins) := r in
  if ins then x = new /\ exists a b, l = a ++ b /\ Forall (fun e => lt (kf (snd e)) (kf v) = true) a /\ Forall (fun e => lt (kf v) (kf (snd e)) = true) b /\ tree_ok s' (a ++ (new, v) :: b) /\ unique (a ++ (new, v) :: b)
  else tree_ok s' l /\ exists w, (x, w) ∈ l /\ lt (kf v) (kf w) = false /\ lt (kf w) (kf v) = false.
Lemma emplace_unique_ok s l new v : tree_ok s l -> unique l -> mem s new = None -> wp (emplace_unique kf lt s new v) (uniq_post s l new v).
Proof using SW.
  intros Hok Hu Hnew. pose proof Hok as (t & n & Hin & Hb & H & Hsz)%ok_rep. pose proof (uniq_ord kf lt SW _ Hu) as Ho. unfold emplace_unique. subst l.
  destruct (flb_split kf lt SW _ _ _ s t (kf v) H ltac:(lia) Ho) as (par & ch & a & b & -> & Hs & Hloc). rewrite rbind_ok. pose proof Hs as (Hab & Ha & Hbb).
  rewrite (dup_ok kf lt _ _ _ s t (kf v) a b H Hab), rbind_ok. pose proof (lsplit_uniq kf lt SW _ _ _ _ Hu Hs) as Hlu.
  assert (Hfin : Forall (fun e => lt (kf v) (kf (snd e)) = true) b -> wp (s <~ Buynode s new v ;; s <~ Insert_node s (par, ch) new ;; Ok (s, new, true)) (uniq_post s (inorder t) new v)).
  { intros Hgt. destruct (buy_ok s t n new v (inorder t) eq_refl Hb H Hsz Hnew) as (s1 & E1 & Hs1 & H1 & Hn1 & Hni & _). rewrite E1, rbind_ok. destruct (wp_exists _ _ (ins_ok s1 t n new v (par, ch) a b Hb H1 Hs1 Hn1 Hni Hloc)) as (s' & -> & Hok'). rewrite rbind_ok. cbn [wp uniq_post].
    split; [done|]. exists a, b. split_and!; try done. apply uniq_ins; try done. by rewrite <- Hab. }
  destruct b as [|[x w] b]; [by apply Hfin|]. cbn [snd] in *. destruct (lt (kf v) (kf w)) eqn:E; cbn [negb]; [by apply Hfin, Hlu|]. cbn [wp uniq_post]. split; [done|]. exists w. split_and!.
  - rewrite Hab. apply elem_of_app. right. apply elem_of_cons. by left.
  - done.
  - by apply list.Forall_cons in Hbb as [? _].
Qed.
Lemma emplace_unique_node_ok s l new v : tree_ok s l -> unique l -> mem s new = None -> wp (emplace_unique_node kf lt s new v) (uniq_post s l new v).
Proof using SW.
  intros Hok Hu Hnew. pose proof Hok as (t & n & Hin & Hb & H & Hsz)%ok_rep. pose proof (uniq_ord kf lt SW _ Hu) as Ho. unfold emplace_unique_node.
  destruct (buy_ok s t n new v l Hin Hb H Hsz Hnew) as (s1 & E1 & Hs1 & H1 & Hn1 & Hni & _). rewrite E1, rbind_ok. unfold Key, ld. rewrite Hn1, !rbind_ok. cbn [nval]. rewrite rbind_ok.
  subst l. destruct (flb_split kf lt SW _ _ _ s1 t (kf v) H1 ltac:(lia) Ho) as (par & ch & a & b & -> & Hs & Hloc). rewrite rbind_ok. pose proof Hs as (Hab & Ha & Hbb).
  rewrite (dup_ok kf lt _ _ _ s1 t (kf v) a b H1 Hab), rbind_ok. pose proof (lsplit_uniq kf lt SW _ _ _ _ Hu Hs) as Hlu.
  assert (Hfin : Forall (fun e => lt (kf v) (kf (snd e)) = true) b -> wp (s <~ Insert_node s1 (par, ch) new ;; Ok (s, new, true)) (uniq_post s (inorder t) new v)).
  { intros Hgt. destruct (wp_exists _ _ (ins_ok s1 t n new v (par, ch) a b Hb H1 Hs1 Hn1 Hni Hloc)) as (s' & -> & Hok'). rewrite rbind_ok. cbn [wp uniq_post].
    split; [done|]. exists a, b. split_and!; try done. apply uniq_ins; try done. by rewrite <- Hab. }
  destruct b as [|[x w] b]; [by apply Hfin|]. cbn [snd] in *. destruct (lt (kf v) (kf w)) eqn:E; cbn [negb]; [by apply Hfin, Hlu|].
  unfold Freenode, ld. rewrite Hn1, !rbind_ok. cbn [wp uniq_post]. split.
  - apply ok_rep. exists t, n. split_and!; try done. cbn [mem]. eapply rep_free; [exact H1|done|]. intros p. split; [|tauto]. intros Hp. split; [by left|]. intros ->. apply Hni. unfold dom in Hp. rewrite elem_of_cons. exact Hp.
  - exists w. split_and!; [|done|by apply list.Forall_cons in Hbb as [? _]]. rewrite Hab. apply elem_of_app. right. apply elem_of_cons. by left.
Qed.
(** *** lookups *)
Lemma minp_hd b : match b with [] => minp b = 0 | (x, _) :: _ => minp b = x end.
Proof using. by destruct b as [|[x v] b]. Qed.
Lemma lower_bound_ok s l k : tree_ok s l -> ordered l -> exists a b, lower_bound kf lt s k = Ok (minp b) /\ lsplit k l a b.
Proof using SW.
  intros (t & n & Hin & Hb & H & Hsz)%ok_rep Ho. subst l. destruct (flb_split kf lt SW _ _ _ s t k H ltac:(lia) Ho) as (par & ch & a & b & E & Hs & Hloc). exists a, b. split; [|done]. unfold lower_bound. by rewrite E.
Qed.
Lemma upper_bound_ok s l k : tree_ok s l -> ordered l -> exists a b, upper_bound kf lt s k = Ok (minp b) /\ usplit k l a b.
Proof using SW.
  intros (t & n & Hin & Hb & H & Hsz)%ok_rep Ho. subst l. destruct (fub_split kf lt SW _ _ _ s t k H ltac:(lia) Ho) as (par & ch & a & b & E & Hs & Hloc). exists a, b. split; [|done]. unfold upper_bound. by rewrite E.
Qed.
Lemma lsplit_first_gt k l a b : ordered l -> lsplit k l a b -> match b with [] => True | e :: b' => lt k (kf (snd e)) = true -> Forall (fun e => lt k (kf (snd e)) = true) b end.
Proof using SW.
  intros Ho (-> & Ha & Hb). destruct b as [|e b]; [done|]. intros He. constructor; [done|]. apply Forall_lookup. intros i f Hf. eapply (swo_lt_le lt SW _ (kf (snd e))); [done|].
  eapply (Ho (length a) (length a + S i)); [lia|..]; unfold keys; rewrite list_lookup_fmap; [by rewrite list_lookup_middle|].
  rewrite lookup_app_r by lia. replace (length a + S i - length a) with (S i) by lia. by rewrite (Hf : (e :: b) !! S i = Some f).
Qed.
Lemma lsplit_none k l a b e : lsplit k l a b -> Forall (fun e => lt k (kf (snd e)) = true) b -> e ∈ l -> lt k (kf (snd e)) = false -> lt (kf (snd e)) k = true.
Proof using SW.
  intros (-> & Ha & _) Hb He Hk. apply elem_of_app in He as [He|He]; [by eapply list.Forall_forall in Ha|]. eapply list.Forall_forall in Hb; [|done]. congruence.
Qed.
Lemma find_ok s l k : tree_ok s l -> ordered l ->
  wp (find kf lt s k) (fun x => (exists a v b, l = a ++ (x, v) :: b /\ lt k (kf v) = false /\ lt (kf v) k = false /\ Forall (fun e => lt (kf (snd e)) k = true) a) \/
    (x = 0 /\ forall e, e ∈ l -> lt k (kf (snd e)) = true \/ lt (kf (snd e)) k = true)).
Proof using SW.
  intros (t & n & Hin & Hb & H & Hsz)%ok_rep Ho. subst l. destruct (flb_split kf lt SW _ _ _ s t k H ltac:(lia) Ho) as (par & ch & a & b & E & Hs & Hloc). unfold find. rewrite E, rbind_ok. pose proof Hs as (Hab & Ha & Hbb).
  rewrite (dup_ok kf lt _ _ _ s t k a b H Hab), rbind_ok. cbn [wp]. pose proof (lsplit_first_gt _ _ _ _ Ho Hs) as Hgt.
  assert (Hnone : Forall (fun e => lt k (kf (snd e)) = true) b -> forall e, e ∈ inorder t -> lt k (kf (snd e)) = true \/ lt (kf (snd e)) k = true).
  { intros Hb' e He. destruct (lt k (kf (snd e))) eqn:E'; [by left|right]. by eapply lsplit_none. }
  destruct b as [|[x w] b]; [right; split; [done|]; by apply Hnone|]. cbn [snd] in *. destruct (lt k (kf w)) eqn:Ek; cbn [negb].
  - right. split; [done|]. by apply Hnone, Hgt.
  - left. exists a, w, b. split_and!; try done. by apply list.Forall_cons in Hbb as [? _].
Qed.
Lemma contains_ok s l k : tree_ok s l -> ordered l ->
  wp (contains kf lt s k) (fun r => r = true <-> exists e, e ∈ l /\ lt k (kf (snd e)) = false /\ lt (kf (snd e)) k = false).
Proof using SW.
  intros (t & n & Hin & Hb & H & Hsz)%ok_rep Ho. subst l. destruct (flb_split kf lt SW _ _ _ s t k H ltac:(lia) Ho) as (par & ch & a & b & E & Hs & Hloc). unfold contains. rewrite E, rbind_ok. pose proof Hs as (Hab & Ha & Hbb).
  rewrite (dup_ok kf lt _ _ _ s t k a b H Hab). cbn [wp]. pose proof (lsplit_first_gt _ _ _ _ Ho Hs) as Hgt.
  assert (Hnone : Forall (fun e => lt k (kf (snd e)) = true) b -> ~ exists e, e ∈ inorder t /\ lt k (kf (snd e)) = false /\ lt (kf (snd e)) k = false).
  { intros Hb' (e & He & E1 & E2). pose proof (lsplit_none _ _ _ _ e Hs Hb' He E1). congruence. }
  destruct b as [|[x w] b]; [split; [done|]; intros Hc; by destruct Hnone|]. cbn [snd] in *. destruct (lt k (kf w)) eqn:Ek; cbn [negb].
  - split; [done|]. intros Hc. by destruct (Hnone (Hgt eq_refl)).
  - split; [|done]. intros _. exists (x, w). split_and!; [|done|by apply list.Forall_cons in Hbb as [? _]]. rewrite Hab. apply elem_of_app. right. apply elem_of_cons. by left.
Qed.
(** *** insertion with hint *)
(** p ++ q is the element list split at the hint *)
Definition at_hint l (hint : nat) p q : Prop := l = p ++ q /\ minp q = hint /\ (hint = 0 -> q = []).
Lemma ord_before a x v b k : ordered (a ++ (x, v) :: b) -> lt k (kf v) = false -> Forall (fun e => lt k (kf (snd e)) = false) (a ++ [(x, v)]).
Proof using SW.
  intros Ho Hk. apply Forall_app. split; [|by constructor]. pose proof (parts_true _ a (x, v) b (ord_parts_u kf lt SW _ k Ho) ltac:(cbn; by rewrite Hk)) as Hp. eapply list.Forall_impl; [exact Hp|]. cbn. intros e He. by apply negb_true_iff.
Qed.
Lemma ord_after a x v b k : ordered (a ++ (x, v) :: b) -> lt (kf v) k = false -> Forall (fun e => lt (kf (snd e)) k = false) ((x, v) :: b).
Proof using SW. intros Ho Hk. constructor; [done|]. exact (parts_false _ a (x, v) b (ord_parts_l kf lt SW _ k Ho) Hk). Qed.
Lemma hint_split l hint : NoDup (0 :: l.*1) -> hint = 0 \/ hint ∈ l.*1 -> exists p q, at_hint l hint p q /\ (q = [] <-> hint = 0).
Proof using.
  intros Hn [->|Hin].
  - exists l, []. split; [|done]. split_and!; [by rewrite app_nil_r|done|done].
  - apply elem_of_list_fmap in Hin as ([x v] & -> & Hin). apply elem_of_list_split in Hin as (p & q & ->). exists p, ((x, v) :: q). cbn [fst]. assert (x <> 0). { intros ->. apply list.NoDup_cons in Hn as [Hn _]. apply Hn. rewrite fmap_app, elem_of_app. right. apply elem_of_cons. by left. }
    split; [|done]. split_and!; done.
Qed.
Definition dist (i j : nat) : nat := (i - j) + (j - i).
(** the chosen place is at least as close to the hint as any other valid place *)
Definition closest l p a v : Prop := forall a' b', l = a' ++ b' -> (forall x, ordered (a' ++ (x, v) :: b')) -> dist (length a) (length p) <= dist (length a') (length p).
Lemma ord_ins_inv a b x v : ordered (a ++ (x, v) :: b) -> Forall (fun e => lt (kf v) (kf (snd e)) = false) a /\ Forall (fun e => lt (kf (snd e)) (kf v) = false) b.
Proof using.
  intros Ho. split; apply Forall_lookup; intros i e He.
  - pose proof (lookup_lt_Some _ _ _ He). eapply (Ho i (length a)); [done|unfold keys; rewrite list_lookup_fmap, lookup_app_l by done; by rewrite He|unfold keys; by rewrite list_lookup_fmap, list_lookup_middle].
  - eapply (Ho (length a) (length a + S i)); [lia|unfold keys; by rewrite list_lookup_fmap, list_lookup_middle|unfold keys]. rewrite list_lookup_fmap, lookup_app_r by lia. replace (length a + S i - length a) with (S i) by lia. by rewrite (He : ((x, v) :: b) !! S i = Some e).
Qed.
Lemma closest_u l p q a b v e : usplit (kf v) l a b -> l = p ++ q -> e ∈ p -> lt (kf v) (kf (snd e)) = true -> closest l p a v.
Proof using.
  intros (-> & Ha & Hb) Hpq He Hlt a' b' Hab Ho. destruct (ord_ins_inv _ _ _ _ (Ho 0)) as [Ha' _].
  assert (length a < length p).
  { destruct (decide (length a < length p)) as [|Hn]; [done|]. exfalso. apply elem_of_list_lookup in He as (i & Hi). pose proof (lookup_lt_Some _ _ _ Hi). assert (Hi' : a !! i = Some e). { rewrite <- (lookup_app_l a b) by lia. rewrite Hpq. by rewrite lookup_app_l. }
    rewrite Forall_lookup in Ha. rewrite (Ha i e Hi') in Hlt. done. }
  assert (length a' <= length a).
  { destruct (decide (length a' <= length a)) as [|Hn]; [done|]. exfalso. destruct (lookup_lt_is_Some_2 a' (length a) ltac:(lia)) as [f Hf]. assert (Hf' : b !! 0 = Some f). { rewrite <- (Nat.sub_diag (length a)), <- (lookup_app_r a b) by lia. rewrite Hab. by rewrite lookup_app_l by lia. }
    rewrite Forall_lookup in Ha', Hb. pose proof (Ha' _ _ Hf). pose proof (Hb _ _ Hf'). cbn in *. congruence. }
  unfold dist. lia.
Qed.
Lemma closest_l l p q a b v e : lsplit (kf v) l a b -> l = p ++ e :: q -> lt (kf (snd e)) (kf v) = true -> closest l p a v.
Proof using.
  intros (-> & Ha & Hb) Hpq Hlt a' b' Hab Ho. destruct (ord_ins_inv _ _ _ _ (Ho 0)) as [_ Hb'].
  assert (length p < length a).
  { destruct (decide (length p < length a)) as [|Hn]; [done|]. exfalso. assert (Hi' : b !! (length p - length a) = Some e). { rewrite <- (lookup_app_r a b) by lia. rewrite Hpq. by rewrite list_lookup_middle. }
    rewrite Forall_lookup in Hb. pose proof (Hb _ _ Hi'). cbn in *. congruence. }
  assert (length a <= length a').
  { destruct (decide (length a <= length a')) as [|Hn]; [done|]. exfalso. destruct (lookup_lt_is_Some_2 a (length a') ltac:(lia)) as [f Hf]. assert (Hf' : b' !! 0 = Some f). { rewrite <- (Nat.sub_diag (length a')), <- (lookup_app_r a' b') by lia. rewrite <- Hab. by rewrite lookup_app_l by lia. }
    rewrite Forall_lookup in Ha, Hb'. pose proof (Ha _ _ Hf). pose proof (Hb' _ _ Hf'). cbn in *. congruence. }
  unfold dist. lia.
Qed.
Lemma closest_eq l p v : closest l p p v.
Proof using. intros a' b' _ _. unfold dist. lia. Qed.
Lemma hint_multi_loc D s t l p q hint v : rep D (minp l) (maxp l) (mem s) t -> inorder t = l -> length l <= msize s -> ordered l -> at_hint l hint p q ->
  exists loc a b, Find_hint_multi kf lt s hint (kf v) = Ok loc /\ locok t loc a b /\ l = a ++ b /\ (forall x, ordered (a ++ (x, v) :: b)) /\ closest l p a v.
Proof using SW.
  intros H Hin Hsz Ho (Hl & Hh & Hh0). unfold Find_hint_multi. set (k := kf v).
  destruct (fub_split kf lt SW _ _ _ s t k H ltac:(by rewrite Hin) ltac:(by rewrite Hin)) as (upar & uch & ua & ub & Eu & Hus & Hul). rewrite Hin in Hus.
  destruct (flb_split kf lt SW _ _ _ s t k H ltac:(by rewrite Hin) ltac:(by rewrite Hin)) as (lpar & lch & la & lb & El & Hls & Hll). rewrite Hin in Hls.
  rewrite Eu, El. cbv zeta. rewrite !rbind_ok.
  assert (Hu : forall e, e ∈ p -> lt k (kf (snd e)) = true -> exists loc a b, Ok (upar, uch) = Ok loc /\ locok t loc a b /\ l = a ++ b /\ (forall x, ordered (a ++ (x, v) :: b)) /\ closest l p a v).
  { intros e He Hlt. exists (upar, uch), ua, ub. split_and!; try done; [apply Hus|intros x; by eapply usplit_ord|by eapply closest_u]. }
  assert (Hlo : forall e q', q = e :: q' -> lt (kf (snd e)) k = true -> exists loc a b, Ok (lpar, lch) = Ok loc /\ locok t loc a b /\ l = a ++ b /\ (forall x, ordered (a ++ (x, v) :: b)) /\ closest l p a v).
  { intros e q' Hq Hlt. exists (lpar, lch), la, lb. split_and!; try done; [apply Hls|intros x; by eapply lsplit_ord|]. eapply (closest_l _ _ q'); [exact Hls|by rewrite Hl, Hq|done]. }
  destruct q as [|[hx hv] q].
  - change (minp []) with 0 in Hh. subst hint. rewrite app_nil_r in Hl. subst p. rewrite (nil0 _ _ _ _ _ H), rbind_ok. unfold head. rewrite (Ph _ _ _ _ _ H), rbind_ok. rewrite (nilz _ _ _ _ [] t H), rbind_ok. rewrite (Rh _ _ _ _ _ H), rbind_ok.
    pose proof (last_loc _ _ _ _ _ H) as Hll'. rewrite Hin in Hll'. destruct (isE t) eqn:Et.
    + rewrite rbind_ok. apply isE_E in Et. subst t. cbn in Hin. subst l. exists (maxp (V:=V) [], CRight), [], []. split_and!; try done; [|apply closest_eq]. intros x. apply ord_ins; [done|constructor|constructor].
    + assert (Hne : l <> []). { intros ->. apply inorder_nil in Hin. by subst t. } destruct l as [|[x w] l0 _] eqn:El0 using rev_ind; [done|]. rewrite maxp_snoc in *.
      destruct (Key_in kf _ _ _ _ _ l0 x w [] H Hin) as (Ek & _ & _). rewrite Ek, !rbind_ok. destruct (lt k (kf w)) eqn:E; cbn [negb].
      * apply (Hu (x, w)); [|done]. apply elem_of_app. right. apply elem_of_cons. by left.
      * exists (x, CRight), (l0 ++ [(x, w)]), []. split_and!; try done; [by rewrite app_nil_r| |apply closest_eq]. intros y. apply ord_ins; [by rewrite app_nil_r| |constructor]. by eapply (ord_before l0 x w []).
  - change (hx = hint) in Hh. subst hint. clear Hh0. rewrite Hl in Hin. destruct (Key_in kf _ _ _ _ _ _ _ _ _ H Hin) as (Ek & En & Hx0). rewrite En, rbind_ok.
    unfold head. rewrite (Lh _ _ _ _ _ H), rbind_ok, Ek, rbind_ok.
    assert (Hok : lt (kf hv) k = false -> Forall (fun e => lt k (kf (snd e)) = false) p -> forall x, ordered (p ++ (x, v) :: (hx, hv) :: q)).
    { intros Hk Hp x. apply ord_ins; [by rewrite <- Hl|done|]. eapply (ord_after p hx hv q k); [by rewrite <- Hl|done]. }
    case_decide as Hd.
    + assert (p = []) as ->. { rewrite Hl, minp_mid in Hd. case_decide as Hp; [done|]. exfalso. pose proof (rep_nd _ _ _ _ _ H) as Hnd. apply list.NoDup_cons in Hnd as [_ Hnd]. unfold ptrs in Hnd. rewrite Hin, fmap_app, fmap_cons in Hnd. apply list.NoDup_app in Hnd as (_ & Hnd & _). apply (Hnd (minp p)); [by apply minp_in|]. rewrite <- Hd. apply elem_of_cons. by left. }
      destruct (lt (kf hv) k) eqn:E; cbn [negb]; [by eapply (Hlo (hx, hv))|]. exists (hx, CLeft), [], ((hx, hv) :: q). split_and!; try done; [by eapply first_loc|by apply Hok|apply closest_eq].
    + destruct (lt (kf hv) k) eqn:E; cbn [negb]; [by eapply (Hlo (hx, hv))|]. rewrite (decr_l _ _ _ _ _ _ _ _ _ (S (msize s)) H Hin) by (rewrite Hin, <- Hl; lia). rewrite rbind_ok.
      destruct p as [|[px pv] p0 _] using rev_ind; [rewrite Hl in Hd; done|]. rewrite maxp_snoc. rewrite <- app_assoc in Hin. cbn [app] in Hin. destruct (Key_in kf _ _ _ _ _ _ _ _ _ H Hin) as (Ek' & _ & _). rewrite Ek', rbind_ok.
      destruct (lt k (kf pv)) eqn:E'; cbn [negb]; [apply (Hu (px, pv)); [|done]; apply elem_of_app; right; apply elem_of_cons; by left|].
      destruct (neighbours _ _ _ _ _ _ _ _ _ _ _ H Hin) as (z & Ez & Enz & Hloc). rewrite Ez, rbind_ok, Enz, rbind_ok.
      eexists _, (p0 ++ [(px, pv)]), ((hx, hv) :: q). split; [done|]. split_and!; [destruct (bool_decide (z = 0)); exact Hloc|done|apply Hok; [done|]|apply closest_eq].
      eapply (ord_before p0 px pv ((hx, hv) :: q)); [|done]. rewrite Hl in Ho. by rewrite <- app_assoc in Ho.
Qed.
Lemma emplace_hint_multi_ok s l p q hint new v : tree_ok s l -> ordered l -> mem s new = None -> at_hint l hint p q ->
  exists s' a b, emplace_hint_multi kf lt s hint new v = Ok (s', new) /\ l = a ++ b /\ tree_ok s' (a ++ (new, v) :: b) /\ ordered (a ++ (new, v) :: b) /\ closest l p a v.
Proof using SW.
  intros (t & n & Hin & Hb & H & Hsz)%ok_rep Ho Hnew Hh. unfold emplace_hint_multi.
  destruct (buy_ok s t n new v l Hin Hb H Hsz Hnew) as (s1 & E1 & Hs1 & H1 & Hn1 & Hni & _). rewrite E1, rbind_ok. unfold Key, ld. rewrite Hn1, !rbind_ok. cbn [nval]. rewrite rbind_ok.
  destruct (hint_multi_loc _ s1 t l p q hint v H1 Hin ltac:(lia) Ho Hh) as (loc & a & b & E & Hloc & Hab & Ho' & Hc). rewrite E, rbind_ok. subst l.
  destruct (wp_exists _ _ (ins_ok s1 t n new v loc a b Hb H1 Hs1 Hn1 Hni Hloc)) as (s' & -> & Hok). rewrite rbind_ok. exists s', a, b. split_and!; done.
Qed.
(** unique containers *)
Lemma uniq_before a x v b k : unique (a ++ (x, v) :: b) -> lt (kf v) k = true -> Forall (fun e => lt (kf (snd e)) k = true) (a ++ [(x, v)]).
Proof using SW.
  intros Hu Hk. apply Forall_app. split; [|by constructor]. exact (parts_true _ a (x, v) b (ord_parts_l kf lt SW _ k (uniq_ord kf lt SW _ Hu)) Hk).
Qed.
Lemma uniq_after a x v b k : unique (a ++ (x, v) :: b) -> lt k (kf v) = true -> Forall (fun e => lt k (kf (snd e)) = true) ((x, v) :: b).
Proof using SW.
  intros Hu Hk. constructor; [done|]. pose proof (parts_false _ a (x, v) b (ord_parts_u kf lt SW _ k (uniq_ord kf lt SW _ Hu)) ltac:(cbn; by rewrite Hk)) as Hp. eapply list.Forall_impl; [exact Hp|]. cbn. intros e He. by apply negb_false_iff.
Qed.
Definition hu_post t l k (o : nat * child * bool) : Prop :=
  let '(par, ch, d) := o in
  if d then exists w, (par, w) ∈ l /\ lt k (kf w) = false /\ lt (kf w) k = false
  else exists a b, locok t (par, ch) a b /\ l = a ++ b /\ Forall (fun e => lt (kf (snd e)) k = true) a /\ Forall (fun e => lt k (kf (snd e)) = true) b.
Lemma hint_unique_loc D s t l p q hint k : rep D (minp l) (maxp l) (mem s) t -> inorder t = l -> length l <= msize s -> unique l -> at_hint l hint p q -> wp (Find_hint_unique kf lt s hint k) (hu_post t l k).
Proof using SW.
  intros H Hin Hsz Hu (Hl & Hh & Hh0). unfold Find_hint_unique. pose proof (uniq_ord kf lt SW _ Hu) as Ho.
  destruct (flb_split kf lt SW _ _ _ s t k H ltac:(by rewrite Hin) ltac:(by rewrite Hin)) as (lpar & lch & la & lb & El & Hls & Hll). rewrite Hin in Hls. pose proof Hls as (Hab & Ha & Hbb).
  rewrite El. cbv zeta. rewrite !rbind_ok.
  assert (Hfall : wp (d <~ Lower_bound_duplicate kf lt s (minp lb) k ;; Ok (if d : bool then (minp lb, CUnused, true) else (lpar, lch, false))) (hu_post t l k)).
  { rewrite (dup_ok kf lt _ _ _ s t k la lb H) by (by rewrite Hin). rewrite rbind_ok. cbn [wp]. pose proof (lsplit_uniq kf lt SW _ _ _ _ Hu Hls) as Hlu.
    destruct lb as [|[x w] lb]; [exists la, []; split_and!; done|]. cbn [snd] in *. destruct (lt k (kf w)) eqn:E; cbn [negb hu_post].
    - exists la, ((x, w) :: lb). split_and!; try done. by apply Hlu.
    - exists w. split_and!; [|done|by apply list.Forall_cons in Hbb as [? _]]. rewrite Hab. apply elem_of_app. right. apply elem_of_cons. by left. }
  destruct q as [|[hx hv] q].
  - change (minp []) with 0 in Hh. subst hint. rewrite app_nil_r in Hl. subst p. rewrite (nil0 _ _ _ _ _ H), rbind_ok. unfold head. rewrite (Ph _ _ _ _ _ H), rbind_ok. rewrite (nilz _ _ _ _ [] t H), rbind_ok. rewrite (Rh _ _ _ _ _ H), rbind_ok.
    pose proof (last_loc _ _ _ _ _ H) as Hll'. rewrite Hin in Hll'. destruct (isE t) eqn:Et.
    + rewrite rbind_ok. apply isE_E in Et. subst t. cbn in Hin. subst l. cbn [wp hu_post]. exists [], []. split_and!; try done; constructor.
    + assert (Hne : l <> []). { intros ->. apply inorder_nil in Hin. by subst t. } destruct l as [|[x w] l0 _] eqn:El0 using rev_ind; [done|]. rewrite maxp_snoc in *.
      destruct (Key_in kf _ _ _ _ _ l0 x w [] H Hin) as (Ek & _ & _). rewrite Ek, !rbind_ok. destruct (lt (kf w) k) eqn:E; [|exact Hfall].
      cbn [wp hu_post]. exists (l0 ++ [(x, w)]), []. split_and!; try done; [by rewrite app_nil_r|]. by eapply (uniq_before l0 x w []).
  - change (hx = hint) in Hh. subst hint. clear Hh0. rewrite Hl in Hin. destruct (Key_in kf _ _ _ _ _ _ _ _ _ H Hin) as (Ek & En & Hx0). rewrite En, rbind_ok.
    unfold head. rewrite (Lh _ _ _ _ _ H), rbind_ok, Ek, rbind_ok.
    case_decide as Hd.
    + assert (p = []) as ->. { rewrite Hl, minp_mid in Hd. case_decide as Hp; [done|]. exfalso. pose proof (rep_nd _ _ _ _ _ H) as Hnd. apply list.NoDup_cons in Hnd as [_ Hnd]. unfold ptrs in Hnd. rewrite Hin, fmap_app, fmap_cons in Hnd. apply list.NoDup_app in Hnd as (_ & Hnd & _). apply (Hnd (minp p)); [by apply minp_in|]. rewrite <- Hd. apply elem_of_cons. by left. }
      destruct (lt k (kf hv)) eqn:E; [|exact Hfall]. cbn [wp hu_post]. exists [], ((hx, hv) :: q). split_and!; try done; [by eapply first_loc|]. eapply (uniq_after []); [by rewrite Hl in Hu|done].
    + destruct (lt k (kf hv)) eqn:E.
      * rewrite (decr_l _ _ _ _ _ _ _ _ _ (S (msize s)) H Hin) by (rewrite Hin, <- Hl; lia). rewrite rbind_ok.
        destruct p as [|[px pv] p0 _] using rev_ind; [rewrite Hl in Hd; done|]. rewrite maxp_snoc. rewrite <- app_assoc in Hin. cbn [app] in Hin. destruct (Key_in kf _ _ _ _ _ _ _ _ _ H Hin) as (Ek' & _ & _). rewrite Ek', rbind_ok.
        destruct (lt (kf pv) k) eqn:E'; [|exact Hfall].
        destruct (neighbours _ _ _ _ _ _ _ _ _ _ _ H Hin) as (z & Ez & Enz & Hloc). rewrite Ez, rbind_ok, Enz, rbind_ok.
        assert (Hpost : Forall (fun e => lt (kf (snd e)) k = true) (p0 ++ [(px, pv)]) /\ Forall (fun e => lt k (kf (snd e)) = true) ((hx, hv) :: q)).
        { split; [eapply (uniq_before p0 px pv ((hx, hv) :: q))|eapply (uniq_after (p0 ++ [(px, pv)]))]; try done; rewrite Hl in Hu; [by rewrite <- app_assoc in Hu|done]. }
        destruct (bool_decide (z = 0)); cbn [wp hu_post]; (exists (p0 ++ [(px, pv)]), ((hx, hv) :: q); split_and!; [exact Hloc|done|apply Hpost..]).
      * destruct (lt (kf hv) k) eqn:E2.
        -- rewrite (incr_l _ _ _ _ _ _ _ _ _ (S (msize s)) H Hin) by (rewrite Hin, <- Hl; lia). rewrite rbind_ok. destruct q as [|[nx nv] q].
           ++ change (minp []) with 0. rewrite (nil0 _ _ _ _ _ H), !rbind_ok. pose proof (last_loc _ _ _ _ _ H) as Hll'. rewrite Hin, maxp_snoc in Hll'.
              assert (Enr : exists z, R (mem s) hx = Ok z /\ Isnil (mem s) z = Ok true).
              { destruct (split_tree _ _ _ _ _ Hin) as (Z & c & tl & tr' & -> & _ & Hnil). symmetry in Hnil. apply app_nil in Hnil as [Hnil _]. apply inorder_nil in Hnil. subst tr'. exists 0. split; [exact (Rz _ _ _ _ _ _ _ _ _ _ H)|exact (nil0 _ _ _ _ _ H)]. }
              destruct Enr as (z & Ez & Enz). rewrite Ez, rbind_ok, Enz, rbind_ok. cbn [wp hu_post]. exists (p ++ [(hx, hv)]), []. split_and!; try done; [by rewrite app_nil_r|]. eapply (uniq_before p hx hv []); [by rewrite Hl in Hu|done].
           ++ rewrite (minp_hd ((nx, nv) :: q) : minp _ = nx). assert (Hin' : inorder t = (p ++ [(hx, hv)]) ++ (nx, nv) :: q) by (rewrite Hin; by rewrite <- app_assoc). destruct (Key_in kf _ _ _ _ _ _ _ _ _ H Hin') as (Ek' & En' & _). rewrite En', !rbind_ok, Ek', !rbind_ok.
              destruct (lt k (kf nv)) eqn:E3; [|exact Hfall]. destruct (neighbours _ _ _ _ _ _ _ _ _ _ _ H Hin) as (z & Ez & Enz & Hloc). rewrite Ez, rbind_ok, Enz, rbind_ok.
              assert (Hpost : Forall (fun e => lt (kf (snd e)) k = true) (p ++ [(hx, hv)]) /\ Forall (fun e => lt k (kf (snd e)) = true) ((nx, nv) :: q)).
              { split; [eapply (uniq_before p hx hv ((nx, nv) :: q))|eapply (uniq_after (p ++ [(hx, hv)]))]; try done; rewrite Hl in Hu; [done|by rewrite <- app_assoc]. }
              destruct (bool_decide (z = 0)); cbn [wp hu_post]; (exists (p ++ [(hx, hv)]), ((nx, nv) :: q); split_and!; [exact Hloc|by rewrite <- app_assoc|apply Hpost..]).
        -- cbn [wp hu_post]. exists hv. split_and!; try done. rewrite Hl. apply elem_of_app. right. apply elem_of_cons. by left.
Qed.
Lemma emplace_hint_unique_ok s l p q hint new v : tree_ok s l -> unique l -> mem s new = None -> at_hint l hint p q ->
  wp (emplace_hint_unique kf lt s hint new v) (fun '(s', x) =>
    (x = new /\ exists a b, l = a ++ b /\ Forall (fun e => lt (kf (snd e)) (kf v) = true) a /\ Forall (fun e => lt (kf v) (kf (snd e)) = true) b /\ tree_ok s' (a ++ (new, v) :: b) /\ unique (a ++ (new, v) :: b)) \/
    (s' = s /\ exists w, (x, w) ∈ l /\ lt (kf v) (kf w) = false /\ lt (kf w) (kf v) = false)).
Proof using SW.
  intros (t & n & Hin & Hb & H & Hsz)%ok_rep Hu Hnew Hh. unfold emplace_hint_unique. destruct (wp_exists _ _ (hint_unique_loc _ s t l p q hint (kf v) H Hin ltac:(lia) Hu Hh)) as ([[par ch] d] & -> & Hp). rewrite rbind_ok.
  destruct d; cbn [hu_post] in Hp; [cbn [wp]; by right|]. destruct Hp as (a & b & Hloc & Hab & Ha & Hbb).
  destruct (buy_ok s t n new v l Hin Hb H Hsz Hnew) as (s1 & E1 & Hs1 & H1 & Hn1 & Hni & _). rewrite E1, rbind_ok. subst l. destruct (wp_exists _ _ (ins_ok s1 t n new v (par, ch) a b Hb H1 Hs1 Hn1 Hni Hloc)) as (s' & -> & Hok'). rewrite rbind_ok. cbn [wp]. left. split; [done|].
  exists a, b. split_and!; try done. apply uniq_ins; try done. by rewrite <- Hab.
Qed.
End tree.
