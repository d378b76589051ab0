(** C27: unordered_set, unordered_map, unordered_multiset, unordered_multimap ([multi] = true for the multi containers).
    [wf h t l] (Cont/HashSpec.v): in memory [h] the container [t] is a consistent list of (node address, value) pairs [l] with
    a bucket vector that delimits every bucket exactly, equivalent elements next to each other. [group k l]: the elements with
    key equivalent to [k], in iteration order. [unique_keys l]: at most one element per key. An iterator is a node address, so
    equal pairs before and after mean that iterators stay valid. [fst_of p b]: iterator to the first element of [b], or end().
    The load-factor policy [pol] answers as it likes (C27_load_factor_float instantiates it with the float arithmetic). *)
From stdpp Require Import base list numbers option decidable.
From Coq Require Import Lia.
From Verif Require Import Base.Res Cont.ListModel Cont.ListSpec Cont.ListProofs Cont.ListProofs2 Cont.ListProofs5 Cont.ListProofs6 Cont.HashModel Cont.HashSpec Cont.HashProofs Cont.HashProofs2 Cont.HashProofs3 Cont.HashProofs4
  Cont.HashProofs5 Cont.HashProofs6 Cont.HashProofs7 Cont.HashProofs8 Props.ListProps.
Local Open Scope nat_scope.

Section props.
Context {K V : Type} (kfn : V -> K) (hash : K -> nat) (keq : K -> K -> bool) (HO : hash_ok hash keq).
Implicit Types (h : heap V) (l lt lr a c m : list (nat * V)) (x y z : nat * V) (t r : tbl).
Notation eqk := (eqk kfn keq).
Notation inb := (inb kfn hash).
Notation key x := (kfn (snd x)).
Notation hd t := (lhead (tl t)).
Notation wf := (wf kfn hash keq).
Notation group := (group kfn keq).
Notation unique_keys := (unique_keys kfn keq).
Notation same_contents := (same_contents kfn keq).
Notation placed := (placed kfn keq).

(** *** construction, size and iteration *)
Theorem C27_empty h p : p <> 0 -> nx h p = Some p -> pv h p = Some p -> wf h (empty_tbl p) [].
Proof.
  intros Hp Hn Hv. apply wf_iff. split; [|split; [|split]].
  - split; [|done]. cbn [empty_tbl tl lhead]. split; [apply NoDup_singleton|]. split; [by rewrite elem_of_list_singleton|]. split; [|constructor]. cbn. done.
  - exists 3. done.
  - apply vec_ok_nil. done.
  - apply grp_nil.
Qed.
Theorem C27_iterate h t l : wf h t l -> lsize (tl t) = length l /\ forward h (tl t) = Ok l.*2.
Proof. intros ([R Sz] & _). split; [done|]. by apply C29_forward. Qed.

(** *** lookup *)
Theorem C27_find multi h t l k : wf h t l -> (multi = false -> unique_keys l) -> find kfn hash keq multi h t k = Ok (fst_of (hd t) (group k l)).
Proof.
  intros W HU. unfold find. destruct multi; [by apply Find_first_ok|].
  destruct (target_ok kfn hash keq HO h t l None k W I) as (bef & dup & E & HD & _). cbn [find_target] in E. rewrite E, rbind_ok.
  destruct HD as [[-> ->]|(y & Hy & Ey & -> & Hz)].
  - rewrite decide_False by (intros X; by apply X). done.
  - rewrite decide_True by done. assert (Hg : y ∈ group k l) by by apply lf_in. specialize (HU eq_refl k).
    destruct (group k l) as [|g0 [|g1 g]]; [by apply elem_of_nil in Hg|by apply elem_of_list_singleton in Hg as ->|cbn in HU; lia].
Qed.
Theorem C27_contains h t l k : wf h t l -> exists b, contains kfn hash keq h t k = Ok b /\ (b = true <-> exists x, x ∈ l /\ keq k (key x) = true).
Proof.
  intros W. unfold contains. destruct (target_ok kfn hash keq HO h t l None k W I) as (bef & dup & E & HD & _). cbn [find_target] in E. rewrite E, rbind_ok.
  eexists. split; [done|]. rewrite bool_decide_eq_true. destruct HD as [[-> HG]|(y & Hy & Ey & -> & Hz)].
  - split; [done|]. intros (x & Hx & Ex). assert (Hg : x ∈ group k l) by by apply lf_in. rewrite HG in Hg. by apply elem_of_nil in Hg.
  - split; [|done]. intros _. by exists y.
Qed.
Theorem C27_count multi h t l k : wf h t l -> (multi = false -> unique_keys l) -> count kfn hash keq multi h t k = Ok (length (group k l)).
Proof.
  intros W HU. unfold count. destruct multi.
  - destruct (Equal_range_ok kfn hash keq HO true h t l k W HU) as (a & c & EL & EE). rewrite EE. case_decide as E; rewrite rbind_ok; [by rewrite E|done].
  - destruct (target_ok kfn hash keq HO h t l None k W I) as (bef & dup & E & HD & _). cbn [find_target] in E. rewrite E, rbind_ok. f_equal.
    destruct HD as [[-> ->]|(y & Hy & Ey & -> & Hz)].
    + rewrite decide_False by (intros X; by apply X). done.
    + rewrite decide_True by done. assert (Hg : y ∈ group k l) by by apply lf_in. specialize (HU eq_refl k). destruct (group k l) as [|g0 [|g1 g]]; [by apply elem_of_nil in Hg|done|cbn in HU; lia].
Qed.
(** the range [first, last) walks over exactly the group; both are end() if there is none *)
Theorem C27_equal_range multi h t l k : wf h t l -> (multi = false -> unique_keys l) ->
  exists a c f e, l = a ++ group k l ++ c /\ equal_range kfn hash keq multi h t k = Ok (f, e) /\
    (group k l = [] -> f = hd t /\ e = hd t) /\ (group k l <> [] -> f = fst_of (hd t) (group k l) /\ e = fst_of (hd t) c).
Proof.
  intros W HU. unfold equal_range. destruct (Equal_range_ok kfn hash keq HO multi h t l k W HU) as (a & c & EL & EE). rewrite EE.
  case_decide as E; rewrite rbind_ok; eexists a, c, _, _; (split; [done|]; split; [done|]; split; intros; done).
Qed.

(** *** buckets *)
Theorem C27_bucket h t l k k' : wf h t l -> bucket hash t k < tmax t /\ (keq k k' = true -> bucket hash t k = bucket hash t k').
Proof.
  intros (_ & Sh & _)%wf_iff. unfold bucket. rewrite !(shape_land _ _ Sh). split; [by apply shape_lt|]. intros E. by rewrite (ho_hash _ _ HO _ _ E).
Qed.
Theorem C27_bucket_size h t l b : wf h t l -> b < tmax t -> bucket_size h t b = Ok (length (List.filter (fun x => bool_decide (bucket hash t (key x) = b)) l)).
Proof.
  intros W Hb. rewrite (bucket_size_ok kfn hash keq h t l b W Hb). do 2 f_equal. pose proof W as (_ & Sh & _)%wf_iff. apply filter_ext. intros x. unfold HashSpec.inb, bucket. by rewrite (shape_land _ _ Sh).
Qed.
(** the local range of bucket [b] walks over exactly the elements of the bucket *)
Theorem C27_bucket_iteration h t l b : wf h t l -> b < tmax t ->
  let m := List.filter (fun x => bool_decide (bucket hash t (key x) = b)) l in
  exists a c f e, l = a ++ m ++ c /\ bucket_begin t b = Ok f /\ bucket_end h t b = Ok e /\ (m = [] -> f = hd t /\ e = hd t) /\ (m <> [] -> f = fst_of (hd t) m /\ e = fst_of (hd t) c).
Proof.
  intros W Hb m. assert (Em : List.filter (inb (tmax t) b) l = m). { pose proof W as (_ & Sh & _)%wf_iff. apply filter_ext. intros x. unfold HashSpec.inb, bucket. by rewrite (shape_land _ _ Sh). }
  destruct (bucket_range_ok kfn hash keq h t l b W Hb) as (a & c & EL & E1 & E2). rewrite Em in *. exists a, c. eexists _, _. split; [done|]. split; [exact E1|]. split; [exact E2|]. split.
  - intros ->. by rewrite decide_True.
  - intros Hm. by rewrite decide_False.
Qed.

(** *** rehashing keeps every element, node and the order inside each group *)
Theorem C27_rehash pol h t l n : wf h t l ->
  exists h' t' l', rehash kfn hash keq pol h t n = Ok (h', t') /\ wf h' t' l' /\ hd t' = hd t /\ n <= tmax t' /\ mlfb pol (length l) <= tmax t' /\ same_contents l l' /\ frame h h' (hd t :: l.*1).
Proof.
  intros W. destruct (rehash_ok kfn hash keq HO pol h t l n W) as (h' & t' & l' & E & W' & Et & H1 & H2 & H3 & S & F). exists h', t', l'. split_and!; try done; try apply S. by rewrite Et.
Qed.
Theorem C27_reserve pol h t l n : wf h t l ->
  exists h' t' l', reserve kfn hash keq pol h t n = Ok (h', t') /\ wf h' t' l' /\ hd t' = hd t /\ mlfb pol n <= tmax t' /\ same_contents l l' /\ frame h h' (hd t :: l.*1).
Proof.
  intros W. destruct (C27_rehash pol h t l (mlfb pol n) W) as (h' & t' & l' & E & W' & H1 & H2 & _ & S & F). exists h', t', l'. split_and!; try done; apply S.
Qed.
(** after reserve(n), insertions do not rehash until the size exceeds n, if the policy is monotone *)
Theorem C27_reserve_no_rehash pol h t l n s : wf h t l -> policy_ok pol -> (forall i j, i <= j -> mlfb pol i <= mlfb pol j) -> s <= n ->
  exists h' t', reserve kfn hash keq pol h t n = Ok (h', t') /\ over pol s (tmax t') = false.
Proof.
  intros W HP HM Hs. destruct (C27_reserve pol h t l n W) as (h' & t' & l' & E & W' & _ & H2 & _). exists h', t'. split; [done|].
  destruct W' as (_ & (j & _ & Ej) & _). rewrite Ej in *. apply HP. etrans; [|exact H2]. by apply HM.
Qed.

(** *** insertion *)
Theorem C27_insert_multi pol h t l hint new v : wf h t l -> hint_ok hint t l -> h new = None -> new <> 0 ->
  exists h' t' l', emplace_multi kfn hash keq pol h t hint new v = Ok (h', t', new) /\ wf h' t' l' /\ hd t' = hd t /\ placed hint (new, v) l l' /\ frame h h' (new :: hd t :: l.*1).
Proof.
  intros W HH Hn Hz. destruct (emplace_multi_ok kfn hash keq HO pol h t l hint new v W HH Hn Hz) as (h' & t' & l' & E & W' & H1 & _ & P & F & _). exists h', t', l'. split_and!; done || apply P.
Qed.
(** unique containers: [nodefirst] selects the variant that builds the node before looking up the key *)
Definition insert_unique (nodefirst : bool) pol h t hint new v :=
  if nodefirst then emplace_val kfn hash keq pol h t hint new v else emplace_key kfn hash keq pol h t hint new v.
Lemma unique_placed x l l' : unique_keys l -> group (key x) l = [] -> placed None x l l' -> unique_keys l'.
Proof.
  intros HU HG [_ P] k. rewrite P. destruct (eqk k x) eqn:E; [|apply HU]. cbn [place]. rewrite <- (group_cong kfn hash keq HO k x l E), HG. done.
Qed.
Theorem C27_insert_unique nodefirst pol h t l hint new v : wf h t l -> unique_keys l -> hint_ok hint t l -> h new = None -> new <> 0 ->
  (exists y h', group (kfn v) l = [y] /\ insert_unique nodefirst pol h t hint new v = Ok (h', t, y.1, false) /\ wf h' t l /\ forall p, h' p = h p) \/
  (group (kfn v) l = [] /\ exists h' t' l', insert_unique nodefirst pol h t hint new v = Ok (h', t', new, true) /\ wf h' t' l' /\ unique_keys l' /\ hd t' = hd t /\
    placed None (new, v) l l' /\ frame h h' (new :: hd t :: l.*1)).
Proof.
  intros W HU HH Hn Hz.
  assert (G1 : forall y, y ∈ l -> eqk (kfn v) y = true -> group (kfn v) l = [y]).
  { intros y Hy Ey. assert (Hg : y ∈ group (kfn v) l) by by apply lf_in. specialize (HU (kfn v)). destruct (group (kfn v) l) as [|g0 [|g1 g]]; [by apply elem_of_nil in Hg|by apply elem_of_list_singleton in Hg as ->|cbn in HU; lia]. }
  destruct nodefirst; cbn [insert_unique].
  - destruct (emplace_val_ok kfn hash keq HO pol h t l hint new v W HH Hn Hz) as [(y & h' & Hy & Ey & E & W' & F)|(HG & h' & t' & l' & E & W' & H1 & _ & P & F & _)].
    + left. exists y, h'. split_and!; try done; [by apply G1|apply W'..].
    + right. split; [done|]. exists h', t', l'. split; [done|]. split; [done|]. split; [by apply (unique_placed (new, v) l)|]. done.
  - destruct (emplace_key_ok kfn hash keq HO pol h t l hint new v W HH Hn Hz) as [(y & Hy & Ey & E)|(HG & h' & t' & l' & E & W' & H1 & _ & P & F & _)].
    + left. exists y, h. split_and!; try done; [by apply G1|apply W..].
    + right. split; [done|]. exists h', t', l'. split; [done|]. split; [done|]. split; [by apply (unique_placed (new, v) l)|]. done.
Qed.
(** after an insertion the policy finds the number of buckets sufficient *)
Theorem C27_load_factor pol h t l hint new v : wf h t l -> hint_ok hint t l -> h new = None -> new <> 0 -> policy_ok pol ->
  (exists h' t', emplace_multi kfn hash keq pol h t hint new v = Ok (h', t', new) /\ over pol (lsize (tl t')) (tmax t') = false) /\
  (group (kfn v) l = [] -> forall nodefirst, exists h' t', insert_unique nodefirst pol h t hint new v = Ok (h', t', new, true) /\ over pol (lsize (tl t')) (tmax t') = false).
Proof.
  intros W HH Hn Hz HP.
  assert (SZ : forall h' t' l' hint, wf h' t' l' -> placed hint (new, v) l l' -> lsize (tl t') = S (length l)). { intros h' t' l' hint' ([_ Sz] & _) [P _]. rewrite Sz, P. done. }
  split.
  - destruct (emplace_multi_ok kfn hash keq HO pol h t l hint new v W HH Hn Hz) as (h' & t' & l' & E & W' & H1 & _ & P & F & O). exists h', t'. split; [done|]. rewrite (SZ _ _ _ _ W' P). by apply O.
  - intros HG nodefirst. destruct nodefirst; cbn [insert_unique].
    + destruct (emplace_val_ok kfn hash keq HO pol h t l hint new v W HH Hn Hz) as [(y & h' & Hy & Ey & E & W' & F)|(_ & h' & t' & l' & E & W' & H1 & _ & P & F & O)].
      * exfalso. assert (Hg : y ∈ group (kfn v) l) by by apply lf_in. rewrite HG in Hg. by apply elem_of_nil in Hg.
      * exists h', t'. split; [done|]. rewrite (SZ _ _ _ _ W' P). by apply O.
    + destruct (emplace_key_ok kfn hash keq HO pol h t l hint new v W HH Hn Hz) as [(y & Hy & Ey & E)|(_ & h' & t' & l' & E & W' & H1 & _ & P & F & O)].
      * exfalso. assert (Hg : y ∈ group (kfn v) l) by by apply lf_in. rewrite HG in Hg. by apply elem_of_nil in Hg.
      * exists h', t'. split; [done|]. rewrite (SZ _ _ _ _ W' P). by apply O.
Qed.

(** *** removal: the remaining elements keep their order *)
Theorem C27_erase h t a x c : wf h t (a ++ x :: c) ->
  exists h' t', erase1 kfn hash h t x.1 = Ok (h', t', fst_of (hd t) c) /\ wf h' t' (a ++ c) /\ hd t' = hd t /\ tmax t' = tmax t /\ freed h' [x.1] /\ frame h h' (hd t :: (a ++ x :: c).*1).
Proof.
  intros W. destruct (erase1_ok kfn hash keq h t a x c W) as (h' & t' & E & W' & H1 & H2 & H3 & F). exists h', t'. split; [done|]. split; [done|]. split; [done|]. split; [done|]. split; [|done]. by intros p ->%elem_of_list_singleton.
Qed.
Theorem C27_erase_range h t a m c : wf h t (a ++ m ++ c) ->
  exists h' t', erase_range kfn hash h t (fst_of (hd t) (m ++ c)) (fst_of (hd t) c) = Ok (h', t', fst_of (hd t) c) /\
    wf h' t' (a ++ c) /\ hd t' = hd t /\ tmax t' = tmax t /\ freed h' m.*1 /\ frame h h' (hd t :: (a ++ m ++ c).*1).
Proof. apply erase_range_ok. Qed.
Theorem C27_erase_key multi h t l k : wf h t l -> (multi = false -> unique_keys l) ->
  exists a c h' t', l = a ++ group k l ++ c /\ erase_key kfn hash keq multi h t k = Ok (h', t', length (group k l)) /\
    wf h' t' (a ++ c) /\ group k (a ++ c) = [] /\ hd t' = hd t /\ tmax t' = tmax t /\ freed h' (group k l).*1 /\ frame h h' (hd t :: l.*1).
Proof.
  intros W HU. destruct (erase_key_ok kfn hash keq HO multi h t l k W HU) as (a & c & h' & t' & EL & E & W' & X). exists a, c, h', t'. split; [done|]. split; [done|]. split; [done|]. split; [|done].
  assert (EG : group k l = group k a ++ group k l ++ group k c). { rewrite EL at 1. rewrite !group_app. do 2 f_equal. unfold HashSpec.group. apply lf_yes, lf_all. }
  assert (LG := f_equal length EG). rewrite !app_length in LG. rewrite group_app. destruct (group k a), (group k c); cbn in LG; lia || done.
Qed.
Theorem C27_clear nothrow h t l : wf h t l ->
  exists h' t', clear_tbl kfn hash nothrow h t = Ok (h', t') /\ wf h' t' [] /\ hd t' = hd t /\ tmax t' = tmax t /\ freed h' l.*1 /\ frame h h' (hd t :: l.*1).
Proof. apply clear_tbl_ok. Qed.

(** *** node handles: extraction keeps the node and its value alive outside the container, insertion of a node puts it back *)
Theorem C27_extract h t a x c : wf h t (a ++ x :: c) ->
  exists h' t', extract_at kfn hash h t x.1 = Ok (h', t', x.1) /\ wf h' t' (a ++ c) /\ hd t' = hd t /\ tmax t' = tmax t /\ vl h' x.1 = Some x.2 /\ x.1 ∉ hd t :: (a ++ c).*1 /\ frame h h' (hd t :: (a ++ c).*1).
Proof. apply extract_at_ok. Qed.
Theorem C27_extract_key multi h t l k : wf h t l -> (multi = false -> unique_keys l) ->
  (group k l = [] /\ extract_key kfn hash keq multi h t k = Ok (h, t, null)) \/
  (exists x g a c h' t', group k l = x :: g /\ l = a ++ x :: c /\ extract_key kfn hash keq multi h t k = Ok (h', t', x.1) /\ wf h' t' (a ++ c) /\ hd t' = hd t /\ tmax t' = tmax t /\
    vl h' x.1 = Some x.2 /\ x.1 ∉ hd t :: (a ++ c).*1 /\ frame h h' (hd t :: (a ++ c).*1)).
Proof. by apply extract_key_ok. Qed.
Theorem C27_insert_node multi pol h t l node v : wf h t l -> (multi = false -> unique_keys l) -> vl h node = Some v -> node ∉ hd t :: l.*1 -> node <> 0 ->
  (multi = false /\ exists y, group (kfn v) l = [y] /\ insert_node kfn hash keq multi pol h t node = Ok (h, t, y.1, false)) \/
  ((multi = false -> group (kfn v) l = []) /\ exists h' t' l', insert_node kfn hash keq multi pol h t node = Ok (h', t', node, true) /\ wf h' t' l' /\ (multi = false -> unique_keys l') /\ hd t' = hd t /\
    placed None (node, v) l l' /\ frame h h' (node :: hd t :: l.*1)).
Proof.
  intros W HU VL Hni Hz. destruct (insert_node_ok kfn hash keq HO multi pol h t l node v W VL Hni Hz) as [(-> & y & Hy & Ey & E)|(HG & h' & t' & l' & E & W' & H1 & _ & P & F & _)].
  - left. split; [done|]. exists y. split; [|done]. specialize (HU eq_refl (kfn v)). assert (Hg : y ∈ group (kfn v) l) by by apply lf_in. destruct (group (kfn v) l) as [|g0 [|g1 g]]; [by apply elem_of_nil in Hg|by apply elem_of_list_singleton in Hg as ->|cbn in HU; lia].
  - right. split; [done|]. exists h', t', l'. split; [done|]. split; [done|]. split; [|done]. intros Em. apply (unique_placed (node, v) l); [by apply HU|by apply HG|exact P].
Qed.

(** *** merge: [t] receives from [r]; both containers use the same hasher and key predicate *)
Theorem C27_merge_multi pol h t lt r lr : wf h t lt -> wf h r lr -> disj (hd t) lt (hd r) lr ->
  exists h' t' r' lt', merge_tbl kfn hash keq true pol h t r = Ok (h', t', r') /\ wf h' t' lt' /\ wf h' r' [] /\ hd t' = hd t /\ hd r' = hd r /\
    lt' ≡ₚ lt ++ lr /\ (forall k, group k lt' = group k lt ++ group k lr) /\ frame h h' ((hd t :: lt.*1) ++ hd r :: lr.*1).
Proof.
  intros Wt Wr DJ. destruct (merge_ok kfn hash keq HO true pol h t lt r lr) as (h' & t' & r' & lt' & lr' & E & (W1 & W2 & _) & H1 & H2 & H3 & (M1 & M2 & M3 & M4) & F); [done|].
  rewrite (M3 eq_refl) in *. rewrite app_nil_r in M1. exists h', t', r', lt'. split; [done|]. split; [done|]. split; [done|]. split; [done|]. split; [done|]. split; [done|]. split; [|done]. intros k. apply M4.
Qed.
(** a unique container takes the first element of each key it does not have yet; the others stay where they are *)
Theorem C27_merge_unique pol h t lt r lr : wf h t lt -> unique_keys lt -> wf h r lr -> disj (hd t) lt (hd r) lr ->
  exists h' t' r' lt' lr', merge_tbl kfn hash keq false pol h t r = Ok (h', t', r') /\ wf h' t' lt' /\ unique_keys lt' /\ wf h' r' lr' /\ hd t' = hd t /\ hd r' = hd r /\
    lt' ++ lr' ≡ₚ lt ++ lr /\ sublist lr' lr /\
    (forall k, group k lt' = (if decide (group k lt = []) then take 1 (group k lr) else group k lt) /\
               group k lr' = (if decide (group k lt = []) then list.tail (group k lr) else group k lr)) /\
    frame h h' ((hd t :: lt.*1) ++ hd r :: lr.*1).
Proof.
  intros Wt HU Wr DJ. destruct (merge_ok kfn hash keq HO false pol h t lt r lr) as (h' & t' & r' & lt' & lr' & E & (W1 & W2 & _) & H1 & H2 & H3 & (M1 & M2 & M3 & M4) & F); [done|].
  exists h', t', r', lt', lr'. split; [done|]. split; [done|]. split.
  { intros k. destruct (M4 k) as [-> _]. case_decide; [|apply HU]. rewrite take_length. lia. }
  split; [done|]. split; [done|]. split; [done|]. split; [done|]. split; [done|]. split; [|done]. intros k. destruct (M4 k) as [K1 K2]. split; [done|by apply K2].
Qed.

(** *** histories: the container answers like the abstract container [l] *)
Inductive call :=
  | CInsert (pol : policy) (nodefirst : bool) (hint : option nat) (new : nat) (v : V)
  | CErase (p : nat) | CEraseKey (k : K) | CRehash (pol : policy) (n : nat) | CReserve (pol : policy) (n : nat) | CClear (nothrow : bool)
  | CFind (k : K) | CCount (k : K) | CContains (k : K).
(** the answer: an iterator or a number, and a truth value *)
Definition exec (multi : bool) (cl : call) (st : heap V * tbl) : res (heap V * tbl * (nat * bool)) :=
  let '(h, t) := st in
  match cl with
  | CInsert pol nf hint new v =>
      if multi then '(h, t, p) <~ emplace_multi kfn hash keq pol h t hint new v ;; Ok (h, t, (p, true))
      else '(h, t, p, b) <~ insert_unique nf pol h t hint new v ;; Ok (h, t, (p, b))
  | CErase p => '(h, t, q) <~ erase1 kfn hash h t p ;; Ok (h, t, (q, true))
  | CEraseKey k => '(h, t, n) <~ erase_key kfn hash keq multi h t k ;; Ok (h, t, (n, true))
  | CRehash pol n => '(h, t) <~ rehash kfn hash keq pol h t n ;; Ok (h, t, (0, true))
  | CReserve pol n => '(h, t) <~ reserve kfn hash keq pol h t n ;; Ok (h, t, (0, true))
  | CClear nt => '(h, t) <~ clear_tbl kfn hash nt h t ;; Ok (h, t, (0, true))
  | CFind k => p <~ find kfn hash keq multi h t k ;; Ok (h, t, (p, true))
  | CCount k => n <~ count kfn hash keq multi h t k ;; Ok (h, t, (n, true))
  | CContains k => b <~ contains kfn hash keq h t k ;; Ok (h, t, (0, b))
  end.
(** what may be called *)
Definition allowed (cl : call) h t l : Prop :=
  match cl with
  | CInsert _ _ hint new _ => hint_ok hint t l /\ h new = None /\ new <> 0
  | CErase p => p ∈ l.*1
  | _ => True
  end.
(** what the abstract container [l] answers and becomes; [e] is end() *)
Definition spec (multi : bool) (e : nat) (cl : call) l (ans : nat * bool) l' : Prop :=
  match cl with
  | CInsert _ _ hint new v =>
      if multi then ans = (new, true) /\ placed hint (new, v) l l'
      else if decide (group (kfn v) l = []) then ans = (new, true) /\ placed None (new, v) l l'
      else (exists y, group (kfn v) l = [y] /\ ans = (y.1, false)) /\ l' = l
  | CErase p => exists a x c, l = a ++ x :: c /\ x.1 = p /\ l' = a ++ c /\ ans = (fst_of e c, true)
  | CEraseKey k => ans = (length (group k l), true) /\ group k l' = [] /\ exists a c, l = a ++ group k l ++ c /\ l' = a ++ c
  | CRehash _ _ | CReserve _ _ => same_contents l l'
  | CClear _ => l' = []
  | CFind k => ans = (fst_of e (group k l), true) /\ l' = l
  | CCount k => ans = (length (group k l), true) /\ l' = l
  | CContains k => (ans.2 = true <-> exists x, x ∈ l /\ keq k (key x) = true) /\ l' = l
  end.
Definition inv (multi : bool) (e : nat) (st : heap V * tbl) l : Prop := wf st.1 st.2 l /\ hd st.2 = e /\ (multi = false -> unique_keys l).
Fixpoint history_ok (multi : bool) (e : nat) (cs : list call) (st : heap V * tbl) l : Prop :=
  match cs with
  | [] => True
  | cl :: cs => allowed cl st.1 st.2 l -> exists st' ans l', exec multi cl st = Ok (st', ans) /\ spec multi e cl l ans l' /\ inv multi e st' l' /\ history_ok multi e cs st' l'
  end.
Lemma unique_sub l l' : sublist l' l -> unique_keys l -> unique_keys l'.
Proof.
  intros S HU k. etrans; [|apply (HU k)]. clear HU. unfold HashSpec.group. induction S as [|x l1 l2 S IH|x l1 l2 S IH]; [done| |]; cbn; destruct (eqk k x); cbn; lia.
Qed.
Lemma unique_same l l' : same_contents l l' -> unique_keys l -> unique_keys l'.
Proof. intros [_ S] HU k. rewrite S. apply HU. Qed.
Lemma step_ok multi e cl st l : inv multi e st l -> allowed cl st.1 st.2 l -> exists st' ans l', exec multi cl st = Ok (st', ans) /\ spec multi e cl l ans l' /\ inv multi e st' l'.
Proof.
  destruct st as [h t]. intros (W & <- & HU) AL. cbn [fst snd] in *. destruct cl as [pol nf hint new v|p|k|pol n|pol n|nt|k|k|k]; cbn [exec allowed spec] in *.
  - destruct AL as (A1 & A2 & A3). destruct multi.
    + destruct (C27_insert_multi pol h t l hint new v W A1 A2 A3) as (h' & t' & l' & E & W' & H1 & P & F). rewrite E, rbind_ok. exists (h', t'), (new, true), l'. split; [done|]. split; [done|]. done.
    + destruct (C27_insert_unique nf pol h t l hint new v W (HU eq_refl) A1 A2 A3) as [(y & h' & EG & E & W' & F)|(EG & h' & t' & l' & E & W' & U' & H1 & P & F)]; rewrite E, rbind_ok.
      * exists (h', t), (y.1, false), l. split; [done|]. rewrite decide_False by by rewrite EG. split; [|done]. split; [by exists y|done].
      * exists (h', t'), (new, true), l'. split; [done|]. rewrite decide_True by done. split; [done|]. split_and!; try done; apply W'.
  - apply elem_of_list_fmap in AL as (x & -> & Hx). apply elem_of_list_split in Hx as (a & c & ->).
    destruct (C27_erase h t a x c W) as (h' & t' & E & W' & H1 & _). rewrite E, rbind_ok. exists (h', t'), (fst_of (hd t) c, true), (a ++ c). split; [done|]. split; [by exists a, x, c|]. split; [done|]. split; [done|].
    intros Em. eapply unique_sub; [apply sub_1|by apply HU].
  - destruct (C27_erase_key multi h t l k W HU) as (a & c & h' & t' & EL & E & W' & EG & H1 & _). rewrite E, rbind_ok. exists (h', t'), (length (group k l), true), (a ++ c). split; [done|]. split; [split; [done|split; [done|by exists a, c]]|]. split; [done|]. split; [done|].
    intros Em. eapply unique_sub; [|by apply HU]. rewrite EL. apply sub_mid_del.
  - destruct (C27_rehash pol h t l n W) as (h' & t' & l' & E & W' & H1 & _ & _ & S & F). rewrite E, rbind_ok. exists (h', t'), (0, true), l'. split; [done|]. split; [done|]. split; [done|]. split; [done|]. intros Em. eapply unique_same; [exact S|by apply HU].
  - destruct (C27_reserve pol h t l n W) as (h' & t' & l' & E & W' & H1 & _ & S & F). rewrite E, rbind_ok. exists (h', t'), (0, true), l'. split; [done|]. split; [done|]. split; [done|]. split; [done|]. intros Em. eapply unique_same; [exact S|by apply HU].
  - destruct (C27_clear nt h t l W) as (h' & t' & E & W' & H1 & _). rewrite E, rbind_ok. exists (h', t'), (0, true), []. split; [done|]. split; [done|]. split; [done|]. split; [done|]. intros _ k. cbn. lia.
  - rewrite (C27_find multi h t l k W HU), rbind_ok. exists (h, t). eexists _, l. split; [done|]. done.
  - rewrite (C27_count multi h t l k W HU), rbind_ok. exists (h, t). eexists _, l. split; [done|]. done.
  - destruct (C27_contains h t l k W) as (b & E & HB). rewrite E, rbind_ok. exists (h, t), (0, b), l. split; [done|]. done.
Qed.
Theorem C27_history multi e cs st l : inv multi e st l -> history_ok multi e cs st l.
Proof.
  revert st l. induction cs as [|cl cs IH]; intros st l I; [done|]. cbn [history_ok]. intros AL.
  destruct (step_ok multi e cl st l I AL) as (st' & ans & l' & E & S & I'). exists st', ans, l'. split_and!; try done; try apply I'. by apply IH.
Qed.
End props.

(** *** satisfiability: an unordered_multiset of numbers with a colliding hasher, equal when they agree mod 100 *)
Definition ex_hash (k : nat) : nat := (k mod 100) mod 16.
Definition ex_keq (a b : nat) : bool := bool_decide (a mod 100 = b mod 100).
Lemma ex_hash_ok : hash_ok ex_hash ex_keq.
Proof.
  split.
  - intros a. by apply bool_decide_eq_true.
  - intros a b H%bool_decide_eq_true. by apply bool_decide_eq_true.
  - intros a b c H%bool_decide_eq_true H2%bool_decide_eq_true. apply bool_decide_eq_true. congruence.
  - intros a b H%bool_decide_eq_true. unfold ex_hash. by rewrite H.
Qed.
(** load factor 1 in integers *)
Definition ex_pol : policy := Policy (fun n b => bool_decide (b < n)) (fun n => n).
Example C27_sat_policy : policy_ok ex_pol.
Proof. intros n j H. cbn in *. apply bool_decide_eq_false. lia. Qed.
Definition ex_heap : heap nat := fun p => if decide (p = 1) then Some (Node 1 1 None) else if decide (p = 2) then Some (Node 2 2 None) else None.
Example C27_sat : wf (fun k : nat => k) ex_hash ex_keq ex_heap (empty_tbl 1) [].
Proof. apply C27_empty; done. Qed.
Fixpoint ins_all (multi : bool) (hsh : nat -> nat) (h : heap nat) (t : tbl) (p : nat) (l : list nat) : res (heap nat * tbl) :=
  match l with
  | [] => Ok (h, t)
  | v :: l => if multi then '(h, t, _) <~ emplace_multi (fun k => k) hsh ex_keq ex_pol h t None p v ;; ins_all multi hsh h t (S p) l
              else '(h, t, _, _) <~ emplace_val (fun k => k) hsh ex_keq ex_pol h t None p v ;; ins_all multi hsh h t (S p) l
  end.
(** twelve insertions with a rehash on the way, equal elements next to each other in insertion order, then erase(key) *)
Example C27_sat_run : match ins_all true ex_hash ex_heap (empty_tbl 1) 10 [3; 19; 103; 35; 7; 8; 203; 1; 2; 4; 5; 6] with
  | Ok (h, t) => lsize (tl t) = 12 /\ 16 <= tmax t /\ count (fun k => k) ex_hash ex_keq true h t 3 = Ok 3 /\ find (fun k => k) ex_hash ex_keq true h t 303 = Ok 10 /\
      match forward h (tl t) with Ok l => List.filter (ex_keq 3) l = [3; 103; 203] | _ => False end /\
      match erase_key (fun k => k) ex_hash ex_keq true h t 3 with
      | Ok (h', t', n) => n = 3 /\ match forward h' (tl t') with Ok l => length l = 9 /\ List.filter (ex_keq 3) l = [] | _ => False end
      | _ => False end
  | _ => False end.
Proof. vm_compute. repeat split; try reflexivity. repeat constructor. Qed.
(** merge requires the same hasher in both containers. With two hashers (merge accepts other Hash types, and equal types may be stateful)
    xhash:1399 computes the bucket of the source from the hash of the destination: here the source held only 3, in its bucket 3; the
    destination's hasher says bucket 4, so after the merge the source, whose size is 0, still claims to contain 3. *)
Example C27_merge_other_hasher : match ins_all false (fun k => k) ex_heap (empty_tbl 2) 10 [3] with
  | Ok (h, r) => match merge_tbl (fun k => k) (fun k => k + 1) ex_keq false ex_pol h (empty_tbl 1) r with
      | Ok (h', t', r') => lsize (tl t') = 1 /\ lsize (tl r') = 0 /\ contains (fun k => k) (fun k => k) ex_keq h' r' 3 = Ok true
      | _ => False end
  | _ => False end.
Proof. vm_compute. repeat split; reflexivity. Qed.

Print Assumptions C27_empty.
Print Assumptions C27_iterate.
Print Assumptions C27_find.
Print Assumptions C27_contains.
Print Assumptions C27_count.
Print Assumptions C27_equal_range.
Print Assumptions C27_bucket.
Print Assumptions C27_bucket_size.
Print Assumptions C27_bucket_iteration.
Print Assumptions C27_rehash.
Print Assumptions C27_reserve.
Print Assumptions C27_reserve_no_rehash.
Print Assumptions C27_insert_multi.
Print Assumptions C27_insert_unique.
Print Assumptions C27_load_factor.
Print Assumptions C27_erase.
Print Assumptions C27_erase_range.
Print Assumptions C27_erase_key.
Print Assumptions C27_clear.
Print Assumptions C27_extract.
Print Assumptions C27_extract_key.
Print Assumptions C27_insert_node.
Print Assumptions C27_merge_multi.
Print Assumptions C27_merge_unique.
Print Assumptions C27_history.
