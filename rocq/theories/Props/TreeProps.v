(** C20, C25, C26: std::set/map/multiset/multimap (xtree). [tree_ok s l] (Cont/TreeSpec.v) says that the memory of the container
    is a well-formed red-black tree (head links, parent links, colours, black height, size, nothing leaked) whose elements, from
    begin() to end(), are [l] : list of (node address, value); so it also fixes which iterators stay valid and what they refer to. *)
From stdpp Require Import base list numbers option decidable.
From Coq Require Import Lia.
From Verif Require Import Base.Res Base.Order Base.OrderLemmas Cont.TreeModel Cont.TreeSpec Cont.TreeProofs Cont.TreeProofs4 Cont.TreeProofs6 Cont.TreeProofs7 Cont.TreeProofs8 Cont.TreeProofs9.

Section props.
Context {V K : Type} (kf : V -> K) (lt : K -> K -> bool) (SW : StrictWeakOrder lt).
Implicit Types (l a b m : list (nat * V)) (s : tst V).
Notation ordered := (ordered kf lt).
Notation unique := (unique kf lt).
Notation key := (fun e : nat * V => kf (snd e)).
Definition equiv (x y : K) : Prop := lt x y = false /\ lt y x = false.

(** *** C25: insertion *)
(** set/map insert and emplace, both code paths: inserted exactly when no equivalent key is there, at the one place that keeps
    the order; otherwise the container keeps its elements and the iterator designates the equivalent element *)
Definition insert_unique_post l new v (r : tst V * nat * bool) : Prop :=
  let '(s', it, inserted) := r in
  if inserted then it = new /\ exists a b, l = a ++ b /\ tree_ok s' (a ++ (new, v) :: b) /\ unique (a ++ (new, v) :: b)
  else tree_ok s' l /\ exists w, (it, w) ∈ l /\ equiv (kf w) (kf v).
Lemma uniq_post_post s l new v r : uniq_post kf lt s l new v r -> insert_unique_post l new v r.
Proof. destruct r as [[s' x] []]; cbn; [intros (-> & a & b & ? & _ & _ & ? & ?); split; [done|]; by exists a, b|]. intros (? & w & ? & ? & ?). split; [done|]. by exists w. Qed.
Theorem C25_insert_unique s l new v : tree_ok s l -> unique l -> mem s new = None -> wp (emplace_unique kf lt s new v) (insert_unique_post l new v).
Proof using SW. intros. eapply wp_mono; [by apply (emplace_unique_ok kf lt SW)|apply uniq_post_post]. Qed.
Theorem C25_insert_unique_node s l new v : tree_ok s l -> unique l -> mem s new = None -> wp (emplace_unique_node kf lt s new v) (insert_unique_post l new v).
Proof using SW. intros. eapply wp_mono; [by apply (emplace_unique_node_ok kf lt SW)|apply uniq_post_post]. Qed.
(** inserted is true exactly when the key was absent *)
Theorem C25_inserted_iff_absent l new v r : unique l -> insert_unique_post l new v r -> snd r = true <-> ~ exists e, e ∈ l /\ equiv (key e) (kf v).
Proof using SW.
  intros Hu. destruct r as [[s' it] []]; cbn; [|intros (_ & w & Hw & He); split; [done|]; intros Hn; destruct Hn; by exists (it, w)].
  intros (_ & a & b & -> & _ & Hu'). split; [|done]. intros _ ([x w] & Hin & He). cbn in He. destruct He as [He1 He2]. apply elem_of_app in Hin as [Hin|Hin]; apply elem_of_list_lookup in Hin as (i & Hi).
  - pose proof (lookup_lt_Some _ _ _ Hi). rewrite (Hu' i (length a) (kf w) (kf v)) in He1; try done; unfold keys; rewrite list_lookup_fmap; [by rewrite lookup_app_l, Hi|by rewrite list_lookup_middle].
  - rewrite (Hu' (length a) (length a + S i) (kf v) (kf w)) in He2; [done|lia|..]; unfold keys; rewrite list_lookup_fmap; [by rewrite list_lookup_middle|]. rewrite lookup_app_r by lia. replace (length a + S i - length a) with (S i) by lia. change (((new, v) :: b) !! S i) with (b !! i). by rewrite Hi.
Qed.
(** multiset/multimap: always inserted, after every element that is not greater (so equivalent keys stay in insertion order) *)
Theorem C25_insert_multi s l new v : tree_ok s l -> ordered l -> mem s new = None ->
  exists s' a b, emplace_multi kf lt s new v = Ok (s', new) /\ l = a ++ b /\ tree_ok s' (a ++ (new, v) :: b) /\ ordered (a ++ (new, v) :: b) /\
    Forall (fun e => lt (kf v) (key e) = false) a /\ Forall (fun e => lt (kf v) (key e) = true) b.
Proof using SW. intros Hok Ho Hn. destruct (emplace_multi_ok kf lt SW s l new v Hok Ho Hn) as (s' & a & b & ? & (? & ? & ?) & ? & ?). exists s', a, b. by split_and!. Qed.
(** emplace_hint, any hint (end() or an iterator to an element): the hint never changes the result for set/map *)
Theorem C25_hint_unique s l hint new v : tree_ok s l -> unique l -> mem s new = None -> hint = 0 \/ hint ∈ l.*1 ->
  wp (emplace_hint_unique kf lt s hint new v) (fun '(s', it) =>
    (it = new /\ exists a b, l = a ++ b /\ tree_ok s' (a ++ (new, v) :: b) /\ unique (a ++ (new, v) :: b)) \/
    (s' = s /\ exists w, (it, w) ∈ l /\ equiv (kf w) (kf v))).
Proof using SW.
  intros Hok Hu Hn Hh. destruct (hint_split _ _ (ok_nd _ _ Hok) Hh) as (p & q & Hat & _). eapply wp_mono; [by eapply (emplace_hint_unique_ok kf lt SW)|]. intros [s' it] [(-> & a & b & ? & _ & _ & ? & ?)|(-> & w & ? & ? & ?)].
  - left. split; [done|]. by exists a, b.
  - right. split; [done|]. by exists w.
Qed.
(** for multiset/multimap the element goes to the valid place closest to just before the hint (p ++ q splits l at the hint) *)
Theorem C25_hint_multi s p q hint new v : tree_ok s (p ++ q) -> ordered (p ++ q) -> mem s new = None -> hint = minp q ->
  exists s' a b, emplace_hint_multi kf lt s hint new v = Ok (s', new) /\ p ++ q = a ++ b /\ tree_ok s' (a ++ (new, v) :: b) /\ ordered (a ++ (new, v) :: b) /\
    (forall a' b', p ++ q = a' ++ b' -> ordered (a' ++ (new, v) :: b') ->
       (length a - length p) + (length p - length a) <= (length a' - length p) + (length p - length a')).
Proof using SW.
  intros Hok Ho Hn Hh. destruct (emplace_hint_multi_ok kf lt SW s (p ++ q) p q hint new v Hok Ho Hn) as (s' & a & b & ? & ? & ? & ? & Hc).
  - split_and!; [done..|]. intros ->. destruct q as [|[x w] q]; [done|]. change (0 = x) in Hh. subst x. destruct (nd_mid _ _ _ _ (ok_nd _ _ Hok)) as [? _]. done.
  - exists s', a, b. split_and!; try done. intros a' b' Hab Ho'. apply (Hc a' b' Hab). intros x. unfold TreeSpec.ordered, keys in *. rewrite !fmap_app, !fmap_cons in *. exact Ho'.
Qed.

(** *** C26: erasure *)
(** erase(iterator) removes exactly that element, returns the iterator to its successor, and frees its node only *)
Theorem C26_erase s a x v b : tree_ok s (a ++ (x, v) :: b) -> exists s', erase1 s x = Ok (s', minp b) /\ tree_ok s' (a ++ b).
Proof. apply erase1_ok. Qed.
(** erase(first, last) *)
Theorem C26_erase_range s a m b : tree_ok s (a ++ m ++ b) -> exists s', erase_range s (minp (m ++ b)) (minp b) = Ok (s', minp b) /\ tree_ok s' (a ++ b).
Proof. apply erase_range_ok. Qed.
(** erase(key) removes exactly the elements with an equivalent key and returns how many there were *)
Theorem C26_erase_key s l k : tree_ok s l -> ordered l ->
  exists s' a m b, erase_key kf lt s k = Ok (s', length m) /\ l = a ++ m ++ b /\ tree_ok s' (a ++ b) /\
    (forall e, e ∈ m -> equiv (key e) k) /\ (forall e, e ∈ a ++ b -> ~ equiv (key e) k).
Proof using SW.
  intros Hok Ho. destruct (erase_key_ok kf lt SW s l k Hok Ho) as (s' & a & m & b & E & (Hl & Ha & Hm & Hb) & Hok'). exists s', a, m, b. rewrite list.Forall_forall in Ha, Hm, Hb. split_and!; try done; try exact Hm. unfold equiv.
  intros e [He|He]%elem_of_app [H1 H2]; [rewrite Ha in H1 by done|rewrite Hb in H2 by done]; done.
Qed.
Theorem C26_clear s l : tree_ok s l -> exists s', clear s = Ok s' /\ tree_ok s' [].
Proof. apply clear_ok. Qed.
(** what an empty tree is, and that nothing is left allocated but the head node *)
Theorem C26_no_leak s l x : tree_ok s l -> mem s x <> None <-> x = 0 \/ x ∈ l.*1.
Proof. intros Hok. rewrite <- (ok_dom _ _ x Hok). destruct (mem s x); split; try done. intros [? H]; done. Qed.

(** *** C20: lookup and iteration *)
Theorem C20_find s l k : tree_ok s l -> ordered l ->
  wp (find kf lt s k) (fun it =>
    (exists a v b, l = a ++ (it, v) :: b /\ equiv (kf v) k /\ Forall (fun e => lt (key e) k = true) a) \/ (it = 0 /\ forall e, e ∈ l -> ~ equiv (key e) k)).
Proof using SW.
  intros Hok Ho. eapply wp_mono; [by apply (find_ok kf lt SW)|]. intros it [(a & v & b & ? & ? & ? & ?)|[-> Hn]]; [left; by exists a, v, b|right]. split; [done|]. intros e He [H1 H2]. destruct (Hn e He); congruence.
Qed.
Theorem C20_contains s l k : tree_ok s l -> ordered l -> wp (contains kf lt s k) (fun r => r = true <-> exists e, e ∈ l /\ equiv (key e) k).
Proof using SW. intros Hok Ho. eapply wp_mono; [by apply (contains_ok kf lt SW)|]. intros r ->. unfold equiv. split; intros (e & ? & ? & ?); by exists e. Qed.
(** lower_bound, upper_bound, equal_range: the iterator at the boundary *)
Theorem C20_lower_bound s l k : tree_ok s l -> ordered l ->
  exists a b, lower_bound kf lt s k = Ok (minp b) /\ l = a ++ b /\ Forall (fun e => lt (key e) k = true) a /\ Forall (fun e => lt (key e) k = false) b.
Proof using SW. apply (lower_bound_ok kf lt SW). Qed.
Theorem C20_upper_bound s l k : tree_ok s l -> ordered l ->
  exists a b, upper_bound kf lt s k = Ok (minp b) /\ l = a ++ b /\ Forall (fun e => lt k (key e) = false) a /\ Forall (fun e => lt k (key e) = true) b.
Proof using SW. apply (upper_bound_ok kf lt SW). Qed.
Theorem C20_equal_range s l k : tree_ok s l -> ordered l ->
  exists a m b, Eqrange kf lt s k = Ok (minp (m ++ b), minp b) /\ l = a ++ m ++ b /\
    Forall (fun e => lt (key e) k = true) a /\ Forall (fun e => equiv (key e) k) m /\ Forall (fun e => lt k (key e) = true) b.
Proof using SW. apply (Eqrange_ok kf lt SW). Qed.
Theorem C20_count s l k : tree_ok s l -> ordered l ->
  exists m, count kf lt s k = Ok (length m) /\ exists a b, l = a ++ m ++ b /\ (forall e, e ∈ m -> equiv (key e) k) /\ (forall e, e ∈ a ++ b -> ~ equiv (key e) k).
Proof using SW.
  intros Hok Ho. destruct (count_ok kf lt SW s l k Hok Ho) as (a & m & b & E & Hl & Ha & Hm & Hb). exists m. split; [done|]. exists a, b. rewrite list.Forall_forall in Ha, Hm, Hb. split_and!; try done; try exact Hm. unfold equiv.
  intros e [He|He]%elem_of_app [H1 H2]; [rewrite Ha in H1 by done|rewrite Hb in H2 by done]; done.
Qed.
(** begin(), ++ and -- walk the elements in order; -- of end() is the last element *)
Theorem C20_begin s l : tree_ok s l -> begin_ s = Ok (minp l).
Proof. intros (t & n & _ & _ & H & _)%ok_rep. exact (Lh _ _ _ _ _ H). Qed.
Theorem C20_increment s a x v b : tree_ok s (a ++ (x, v) :: b) -> incr (S (msize s)) (mem s) x = Ok (minp b).
Proof. intros (t & n & Hin & _ & H & Hs)%ok_rep. eapply incr_l; [exact H|exact Hin|]. rewrite Hin. lia. Qed.
Theorem C20_decrement s a x v b : tree_ok s (a ++ (x, v) :: b) -> decr (S (msize s)) (mem s) x = Ok (maxp a).
Proof. intros (t & n & Hin & _ & H & Hs)%ok_rep. eapply decr_l; [exact H|exact Hin|]. rewrite Hin. lia. Qed.
Theorem C20_decrement_end s l : tree_ok s l -> decr (S (msize s)) (mem s) 0 = Ok (maxp l).
Proof. intros (t & n & Hin & _ & H & Hs)%ok_rep. unfold decr. rewrite (nil0 _ _ _ _ _ H), rbind_ok. exact (Rh _ _ _ _ _ H). Qed.
(** the path from the root to any node follows left/right links and has at most 2*log2(n+1) nodes *)
Inductive path (h : heap V) : nat -> nat -> Prop :=
  | path_root hd x : h 0 = Some hd -> nparent hd = x -> x <> 0 -> path h x 1
  | path_left x n d y : path h x d -> h x = Some n -> nleft n = y -> y <> 0 -> path h y (S d)
  | path_right x n d y : path h x d -> h x = Some n -> nright n = y -> y <> 0 -> path h y (S d).
Theorem C20_depth s l x d : tree_ok s l -> path (mem s) x d -> d <= 2 * Nat.log2 (length l + 1).
Proof.
  intros (t & n & Hin & Hb & H & Hs)%ok_rep Hp. pose proof (rb_log _ _ Hb) as Hlog. rewrite Hin in Hlog. etransitivity; [|exact Hlog]. clear Hlog Hb Hs.
  enough (exists Z c tl v tr', t = plug Z (T c tl x v tr') /\ d + (height tl `max` height tr') <= height t) as (Z & c & tl & v & tr' & _ & ?) by lia.
  induction Hp as [hd x Hh Hx Hx0|x nd d y Hp IH Hn Hy Hy0|x nd d y Hp IH Hn Hy Hy0].
  - rewrite (rep_head _ _ _ _ _ H) in Hh. injection Hh as <-. cbn in Hx. destruct t as [|c tl z v tr']; [by cbn in Hx; subst x|]. cbn in Hx. subst z. exists [], c, tl, v, tr'. split; [done|]. cbn [height]. lia.
  - destruct IH as (Z & c & tl & v & tr' & Ht & Hd). rewrite Ht in H. rewrite (node_at _ _ _ _ _ _ _ _ _ _ H) in Hn. injection Hn as <-. cbn in Hy. destruct tl as [|c' tl' z' v' tr'']; [by cbn in Hy; subst y|]. cbn in Hy. subst z'.
    exists (FL c x v tr' :: Z), c', tl', v', tr''. split; [done|]. cbn [height] in Hd. lia.
  - destruct IH as (Z & c & tl & v & tr' & Ht & Hd). rewrite Ht in H. rewrite (node_at _ _ _ _ _ _ _ _ _ _ H) in Hn. injection Hn as <-. cbn in Hy. destruct tr' as [|c' tl' z' v' tr'']; [by cbn in Hy; subst y|]. cbn in Hy. subst z'.
    exists (FR c tl x v :: Z), c', tl', v', tr''. split; [done|]. cbn [height] in Hd. lia.
Qed.

(** *** whole histories *)
Lemma unique_del a m b : unique (a ++ m ++ b) -> unique (a ++ b).
Proof.
  intros Hu. assert (Hs : sorted (fun p q => negb (lt q p)) (keys kf (a ++ m ++ b))) by (intros i j p q Hij Hp Hq; by rewrite (Hu i j p q Hij Hp Hq)).
  unfold keys in Hs. rewrite !fmap_app, !sorted_app in Hs. destruct Hs as (Ha & (_ & Hb & _) & Hab).
  assert (Hs : sorted (fun p q => negb (lt q p)) (keys kf (a ++ b))). { unfold keys. rewrite fmap_app, sorted_app. split_and!; try done. intros x y Hx Hy. apply Hab; [done|]. apply elem_of_app. by right. }
  intros i j p q Hij Hp Hq. apply negb_false_iff. exact (Hs i j p q Hij Hp Hq).
Qed.
Lemma ordered_del a m b : ordered (a ++ m ++ b) -> ordered (a ++ b).
Proof.
  unfold TreeSpec.ordered, keys. rewrite !fmap_app, !sorted_app. intros (Ha & (_ & Hb & _) & Hab). split_and!; try done. intros x y Hx Hy. apply Hab; [done|]. apply elem_of_app. by right.
Qed.
(** an operation of a set/map; [new] is the address the allocator chooses *)
Inductive op := Oinsert (new : nat) (v : V) | Oemplace (new : nat) (v : V) | Ohint (hint new : nat) (v : V) | Oerase (x : nat) | Oerase_key (k : K) | Oclear.
Definition run_set s (o : op) : res (tst V) :=
  match o with
  | Oinsert new v => '(s, _, _) <~ emplace_unique kf lt s new v ;; Ok s
  | Oemplace new v => '(s, _, _) <~ emplace_unique_node kf lt s new v ;; Ok s
  | Ohint hint new v => '(s, _) <~ emplace_hint_unique kf lt s hint new v ;; Ok s
  | Oerase x => '(s, _) <~ erase1 s x ;; Ok s
  | Oerase_key k => '(s, _) <~ erase_key kf lt s k ;; Ok s
  | Oclear => clear s
  end.
Definition run_multi s (o : op) : res (tst V) :=
  match o with
  | Oinsert new v | Oemplace new v => '(s, _) <~ emplace_multi kf lt s new v ;; Ok s
  | Ohint hint new v => '(s, _) <~ emplace_hint_multi kf lt s hint new v ;; Ok s
  | Oerase x => '(s, _) <~ erase1 s x ;; Ok s
  | Oerase_key k => '(s, _) <~ erase_key kf lt s k ;; Ok s
  | Oclear => clear s
  end.
(** what the caller and the allocator owe *)
Definition allowed l (o : op) : Prop :=
  match o with
  | Oinsert new _ | Oemplace new _ => new <> 0 /\ new ∉ l.*1
  | Ohint hint new _ => new <> 0 /\ new ∉ l.*1 /\ (hint = 0 \/ hint ∈ l.*1)
  | Oerase x => x ∈ l.*1
  | _ => True
  end.
(** the abstract effect on the sequence of elements; [mult] for multi containers *)
Definition effect (mult : bool) l (o : op) l' : Prop :=
  match o with
  | Oinsert new v | Oemplace new v | Ohint _ new v =>
      (exists a b, l = a ++ b /\ l' = a ++ (new, v) :: b) \/ (mult = false /\ l' = l /\ exists e, e ∈ l /\ equiv (key e) (kf v))
  | Oerase x => exists a v b, l = a ++ (x, v) :: b /\ l' = a ++ b
  | Oerase_key k => exists a m b, l = a ++ m ++ b /\ l' = a ++ b /\ (forall e, e ∈ m -> equiv (key e) k) /\ (forall e, e ∈ l' -> ~ equiv (key e) k)
  | Oclear => l' = []
  end.
Fixpoint history (run : tst V -> op -> res (tst V)) (mult : bool) s l (os : list op) : Prop :=
  match os with
  | [] => True
  | o :: os => allowed l o -> exists s' l', run s o = Ok s' /\ effect mult l o l' /\ tree_ok s' l' /\ (if mult then ordered l' else unique l') /\ history run mult s' l' os
  end.
Lemma fresh_none s l new : tree_ok s l -> new <> 0 -> new ∉ l.*1 -> mem s new = None.
Proof. intros Hok H0 Hn. destruct (mem s new) eqn:E; [|done]. exfalso. assert (Hi : is_Some (mem s new)) by (by rewrite E). apply (ok_dom _ _ _ Hok) in Hi as [|]; done. Qed.
Lemma elem_split l x : x ∈ l.*1 -> exists a v b, l = a ++ (x, v) :: b.
Proof. intros ([y v] & -> & Hin)%elem_of_list_fmap. apply elem_of_list_split in Hin as (a & b & ->). by exists a, v, b. Qed.
(** every history of operations on a set/map starting from the empty container runs without undefined behaviour, has the
    specified effect at each step, and always leaves a well-formed red-black tree without duplicates *)
Theorem C25_set_history os : forall s l, tree_ok s l -> unique l -> history run_set false s l os.
Proof using SW.
  induction os as [|o os IH]; intros s l Hok Hu; [done|]. intros Hal. pose proof (uniq_ord kf lt SW _ Hu) as Ho.
  destruct o as [new v|new v|hint new v|x|k|]; cbn [allowed run_set effect] in *.
  - destruct Hal as [H0 Hn]. destruct (wp_exists _ _ (C25_insert_unique s l new v Hok Hu (fresh_none _ _ _ Hok H0 Hn))) as ([[s' it] ins] & -> & Hp). rewrite rbind_ok. cbn in Hp. destruct ins.
    + destruct Hp as (_ & a & b & Hl & Hok' & Hu'). exists s', (a ++ (new, v) :: b). split_and!; try done; [left; by exists a, b|by apply IH].
    + destruct Hp as (Hok' & w & Hw & He). exists s', l. split_and!; try done; [right; split_and!; try done; by exists (it, w)|by apply IH].
  - destruct Hal as [H0 Hn]. destruct (wp_exists _ _ (C25_insert_unique_node s l new v Hok Hu (fresh_none _ _ _ Hok H0 Hn))) as ([[s' it] ins] & -> & Hp). rewrite rbind_ok. cbn in Hp. destruct ins.
    + destruct Hp as (_ & a & b & Hl & Hok' & Hu'). exists s', (a ++ (new, v) :: b). split_and!; try done; [left; by exists a, b|by apply IH].
    + destruct Hp as (Hok' & w & Hw & He). exists s', l. split_and!; try done; [right; split_and!; try done; by exists (it, w)|by apply IH].
  - destruct Hal as (H0 & Hn & Hh). destruct (wp_exists _ _ (C25_hint_unique s l hint new v Hok Hu (fresh_none _ _ _ Hok H0 Hn) Hh)) as ([s' it] & -> & Hp). rewrite rbind_ok. destruct Hp as [(_ & a & b & Hl & Hok' & Hu')|(-> & w & Hw & He)].
    + exists s', (a ++ (new, v) :: b). split_and!; try done; [left; by exists a, b|by apply IH].
    + exists s, l. split_and!; try done; [right; split_and!; try done; by exists (it, w)|by apply IH].
  - destruct (elem_split _ _ Hal) as (a & v & b & ->). destruct (C26_erase _ _ _ _ _ Hok) as (s' & -> & Hok'). rewrite rbind_ok. pose proof (unique_del a [(x, v)] b Hu) as Hu'. exists s', (a ++ b). split_and!; try done; [by exists a, v, b|by apply IH].
  - destruct (C26_erase_key s l k Hok Ho) as (s' & a & m & b & -> & Hl & Hok' & Hm & Hab). rewrite rbind_ok. assert (Hu' : unique (a ++ b)) by (apply (unique_del a m b); by rewrite <- Hl). exists s', (a ++ b). split_and!; try done; [by exists a, m, b|by apply IH].
  - destruct (C26_clear s l Hok) as (s' & -> & Hok'). exists s', []. split_and!; try done. by apply IH.
Qed.
Theorem C25_multiset_history os : forall s l, tree_ok s l -> ordered l -> history run_multi true s l os.
Proof using SW.
  induction os as [|o os IH]; intros s l Hok Ho; [done|]. intros Hal.
  destruct o as [new v|new v|hint new v|x|k|]; cbn [allowed run_multi effect] in *.
  1,2: destruct Hal as [H0 Hn]; destruct (C25_insert_multi s l new v Hok Ho (fresh_none _ _ _ Hok H0 Hn)) as (s' & a & b & -> & Hl & Hok' & Ho' & _); rewrite rbind_ok; exists s', (a ++ (new, v) :: b); split_and!; try done; [left; by exists a, b|by apply IH].
  - destruct Hal as (H0 & Hn & Hh). destruct (hint_split _ _ (ok_nd _ _ Hok) Hh) as (p & q & (Hl & Hq & _) & _). subst l. destruct (C25_hint_multi s p q hint new v Hok Ho (fresh_none _ _ _ Hok H0 Hn) ltac:(done)) as (s' & a & b & -> & Hl & Hok' & Ho' & _).
    rewrite rbind_ok. exists s', (a ++ (new, v) :: b). split_and!; try done; [left; by exists a, b|by apply IH].
  - destruct (elem_split _ _ Hal) as (a & v & b & ->). destruct (C26_erase _ _ _ _ _ Hok) as (s' & -> & Hok'). rewrite rbind_ok. pose proof (ordered_del a [(x, v)] b Ho) as Ho'. exists s', (a ++ b). split_and!; try done; [by exists a, v, b|by apply IH].
  - destruct (C26_erase_key s l k Hok Ho) as (s' & a & m & b & -> & Hl & Hok' & Hm & Hab). rewrite rbind_ok. assert (Ho' : ordered (a ++ b)) by (apply (ordered_del a m b); by rewrite <- Hl). exists s', (a ++ b). split_and!; try done; [by exists a, m, b|by apply IH].
  - destruct (C26_clear s l Hok) as (s' & -> & Hok'). exists s', []. split_and!; try done. by apply IH.
Qed.
Theorem C25_empty_ok : tree_ok (V := V) empty [].
Proof using. exists E, 0. split_and!; try done; [constructor|apply list.NoDup_cons; split; [apply not_elem_of_nil|apply NoDup_nil_2]|]. intros p. cbn. unfold upd. case_decide as Hd; split; try done; [by left|by intros []|]. intros [|Hp]; [done|]. by apply elem_of_nil in Hp. Qed.
End props.

(** *** satisfiability: a set of naturals built by inserts and erases, every hypothesis above holds of it *)
Definition ex_ops : list (@op nat nat) := [Oinsert 1 50; Oinsert 2 20; Oinsert 3 70; Oemplace 4 10; Oinsert 5 30; Ohint 3 6 60; Oinsert 7 80; Oinsert 8 25; Oerase 1; Oinsert 9 20; Oerase_key 70].
Definition ex_run := foldl (fun (r : res (tst nat)) o => s <~ r ;; run_set id Nat.ltb s o) (Ok empty) ex_ops.
Fixpoint walk (fuel : nat) (s : tst nat) (p : nat) : list (nat * nat) :=
  match fuel with 0 => [] | S f => match mem s p with Some n => match nval n with Some v => (p, v) :: match incr 99 (mem s) p with Ok q => walk f s q | _ => [] end | None => [] end | None => [] end end.
Example C25_sat : exists s, ex_run = Ok s /\ (p <~ begin_ s ;; Ok (walk 20 s p)) = Ok [(4, 10); (2, 20); (8, 25); (5, 30); (6, 60); (7, 80)] /\
  (exists p, path (mem s) p 3) /\ Eqrange id Nat.ltb s 20 = Ok (2, 8) /\ find id Nat.ltb s 26 = Ok 0 /\ mem s 9 = None.
Proof. eexists. split; [vm_compute; reflexivity|]. split_and!; try (vm_compute; reflexivity). eexists. eapply path_left; [eapply path_left; [eapply path_root|..]|..]; try (vm_compute; reflexivity); vm_compute; lia. Qed.
Print Assumptions C25_insert_unique.
Print Assumptions C25_insert_unique_node.
Print Assumptions C25_inserted_iff_absent.
Print Assumptions C25_insert_multi.
Print Assumptions C25_hint_unique.
Print Assumptions C25_hint_multi.
Print Assumptions C26_erase.
Print Assumptions C26_erase_range.
Print Assumptions C26_erase_key.
Print Assumptions C26_clear.
Print Assumptions C26_no_leak.
Print Assumptions C20_find.
Print Assumptions C20_contains.
Print Assumptions C20_lower_bound.
Print Assumptions C20_upper_bound.
Print Assumptions C20_equal_range.
Print Assumptions C20_count.
Print Assumptions C20_begin.
Print Assumptions C20_increment.
Print Assumptions C20_decrement.
Print Assumptions C20_decrement_end.
Print Assumptions C20_depth.
Print Assumptions C25_set_history.
Print Assumptions C25_multiset_history.
Print Assumptions C25_empty_ok.
