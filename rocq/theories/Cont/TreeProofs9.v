(** Container-level theorems: erasure, equal_range, count, iteration, depth. *)
From stdpp Require Import base list numbers option decidable.
From Coq Require Import Lia.
From Verif Require Import Base.Res Base.Order Base.OrderLemmas Cont.TreeModel Cont.TreeSpec Cont.TreeProofs Cont.TreeProofs2 Cont.TreeProofs3 Cont.TreeProofs4 Cont.TreeProofs5 Cont.TreeProofs6 Cont.TreeProofs7 Cont.TreeProofs8.

Section tree.
Context {V : Type}.
Implicit Types (l a b p q : list (nat * V)) (s : tst V) (t : tree V) (h : heap V).
Lemma ok_nd s l : tree_ok s l -> NoDup (0 :: l.*1).
Proof. by intros (t & n & _ & _ & H & _). Qed.
Lemma ok_dom s l x : tree_ok s l -> is_Some (mem s x) <-> x = 0 \/ x ∈ l.*1.
Proof. intros (t & n & _ & _ & _ & _ & _ & H & _). apply H. Qed.
Lemma nd_mid a x (v : V) b : NoDup (0 :: (a ++ (x, v) :: b).*1) -> x <> 0 /\ x ∉ (a ++ b).*1.
Proof.
  intros Hn. apply list.NoDup_cons in Hn as [H0 Hn]. rewrite fmap_app, fmap_cons in *. cbn [fst] in *. rewrite elem_of_app, elem_of_cons in H0. apply list.NoDup_app in Hn as (_ & Hd & Hn). apply list.NoDup_cons in Hn as [Hx _].
  split; [intros ->; tauto|]. rewrite ?fmap_app, elem_of_app. intros [Hin|Hin]; [|done]. apply (Hd x Hin). apply elem_of_cons. by left.
Qed.
Lemma erase1_ok s a x v b : tree_ok s (a ++ (x, v) :: b) -> exists s', erase1 s x = Ok (s', minp b) /\ tree_ok s' (a ++ b).
Proof.
  intros Hok. pose proof (nd_mid _ _ _ _ (ok_nd _ _ Hok)) as [Hx0 Hxn]. apply ok_rep in Hok as (t & n & Hin & Hb & H & Hsz). unfold erase1.
  rewrite (incr_l _ _ _ _ _ _ _ _ _ (S (msize s)) H Hin) by (rewrite Hin; lia). rewrite rbind_ok.
  rewrite <- Hin in H at 2 3. destruct (wp_exists _ _ (Extract_ok _ s t n a x v b H Hb ltac:(by rewrite Hin) Hin)) as (s1 & -> & t1 & m1 & Hin1 & Hb1 & H1 & Hs1). rewrite rbind_ok.
  unfold Freenode, ld. destruct (mem s1 x) as [nd|] eqn:E.
  - rewrite rbind_ok. cbn [rbind]. eexists. split; [done|]. apply ok_rep. exists t1, m1. cbn [mem msize]. split_and!; try done.
    eapply rep_free; [exact H1| |].
    + unfold ptrs. rewrite Hin1, elem_of_cons. tauto.
    + intros p. unfold dom. rewrite !fmap_app, !fmap_cons, !elem_of_app, elem_of_cons in *. cbn [fst]. split; [|tauto]. intros Hp. split; [tauto|]. intros ->. tauto.
  - exfalso. assert (Hd : is_Some (mem s1 x)). { apply (rep_dom _ _ _ _ _ H1). right. rewrite fmap_app, elem_of_app. right. apply elem_of_cons. by left. } rewrite E in Hd. by destruct Hd.
Qed.
(** clear *)
Lemma height_len t : height t <= length (inorder t).
Proof. induction t as [|c l IHl x v r IHr]; cbn [height inorder]; [done|]. rewrite app_length. cbn [length]. lia. Qed.
Lemma Erase_tree_ok : forall t fuel h (p : nat) sz, tr h p t -> Isnil h 0 = Ok true -> NoDup (0 :: ptrs t) -> height t < fuel ->
  exists h', Erase_tree fuel (Ts h sz) (root t) = Ok (Ts h' sz) /\ (forall z, z ∈ ptrs t -> h' z = None) /\ (forall z, z ∉ ptrs t -> h' z = h z).
Proof.
  induction t as [|c l IHl x v r IHr]; intros fuel h p sz Ht H0 Hn Hf; (destruct fuel as [|fuel]; [lia|]); cbn [Erase_tree].
  - exists h. cbn [root mem]. rewrite H0, rbind_ok. split_and!; [done| |done]. intros z Hz. unfold ptrs in Hz. cbn in Hz. by apply elem_of_nil in Hz.
  - cbn [root mem tr height] in *. destruct Ht as (Hx & Hl & Hr). unfold Isnil, ld. rewrite Hx, !rbind_ok. cbn [nisnil]. unfold R, ld. rewrite Hx, !rbind_ok. cbn [nright].
    unfold ptrs in *. cbn [inorder] in *. rewrite fmap_app, fmap_cons in *. cbn [fst] in *. apply list.NoDup_cons in Hn as [Hn0 Hn]. rewrite elem_of_app, elem_of_cons in Hn0. apply list.NoDup_app in Hn as (Hnl & Hd & Hn). apply list.NoDup_cons in Hn as [Hxr Hnr].
    destruct (IHr fuel h x sz Hr H0) as (h1 & -> & H1n & H1f); [apply list.NoDup_cons; split; [tauto|done]|lia|]. rewrite rbind_ok. cbn [mem].
    assert (Hx1 : h1 x = Some (Node (root l) p (root r) c false (Some v))) by (by rewrite H1f). unfold L, Freenode, ld. cbn [mem msize]. rewrite Hx1, !rbind_ok. cbn [nleft].
    destruct (IHl fuel (upd h1 x None) x sz) as (h2 & -> & H2n & H2f).
    + eapply tr_frame; [|exact Hl]. intros z Hz. unfold ptrs in Hz. rewrite upd_ne; [apply H1f; intros Hz'; apply (Hd z Hz); apply elem_of_cons; by right|]. intros ->. apply (Hd x Hz). apply elem_of_cons. by left.
    + unfold Isnil, ld. rewrite upd_ne by (intros <-; tauto). rewrite H1f by tauto. exact H0.
    + apply list.NoDup_cons. split; [tauto|done].
    + lia.
    + exists h2. split; [done|]. split; intros z Hz; rewrite elem_of_app, elem_of_cons in Hz.
      * destruct (decide (z ∈ (inorder l).*1)) as [Hin|Hin]; [by apply H2n|]. rewrite H2f by done. destruct (decide (z = x)) as [->|Hne]; [apply upd_eq|]. rewrite upd_ne by done. apply H1n. tauto.
      * rewrite H2f by tauto. rewrite upd_ne by tauto. apply H1f. tauto.
Qed.
Lemma clear_ok s l : tree_ok s l -> exists s', clear s = Ok s' /\ tree_ok s' [].
Proof.
  intros (t & n & Hin & Hb & H & Hsz)%ok_rep. unfold clear, head. rewrite (Ph _ _ _ _ _ H), rbind_ok. pose proof (height_len t) as Hh. rewrite Hin in Hh. destruct s as [h sz]. cbn [mem msize] in *.
  destruct (Erase_tree_ok t (S sz) h 0 sz (rep_tr _ _ _ _ _ H)) as (h1 & -> & H1 & H2); [|exact (rep_nd _ _ _ _ _ H)|lia|].
  { unfold Isnil, ld. by rewrite (rep_head _ _ _ _ _ H). }
  rewrite rbind_ok. cbn [mem]. pose proof (rep_nd _ _ _ _ _ H) as Hn. apply list.NoDup_cons in Hn as [Hn0 _].
  assert (E0 : h1 0 = Some (Node (minp l) (root t) (maxp l) Black true None)) by (rewrite H2 by done; apply (rep_head _ _ _ _ _ H)).
  unfold setP, setL, setR, ld. rewrite E0, !rbind_ok. rewrite !upd_eq, !rbind_ok. cbn. rewrite !upd_eq, !rbind_ok. cbn. eexists. split; [done|].
  exists E, 0. cbn. split_and!; try done; [constructor|apply list.NoDup_cons; split; [apply not_elem_of_nil|apply NoDup_nil_2]|].
  intros q. unfold upd. destruct (decide (q = 0)) as [->|Hq0]; [split; [by left|done]|]. split; [|intros [|Hq]; [done|by apply elem_of_nil in Hq]]. intros Hq. exfalso. destruct (decide (q ∈ ptrs t)) as [Hi|Hi]; [rewrite H1 in Hq by done; by destruct Hq|].
  rewrite H2 in Hq by done. apply (rep_dom _ _ _ _ _ H) in Hq as [|Hq]; [done|]. apply Hi. unfold ptrs. by rewrite Hin.
Qed.
(** positions *)
Lemma minp_ne a m b : NoDup (0 :: (a ++ m ++ b).*1) -> m <> [] -> minp (m ++ b) <> minp b.
Proof.
  intros Hn Hm He. destruct m as [|[x v] m]; [done|]. change (x = minp b) in He. cbn [app] in Hn. apply nd_mid in Hn as [Hx0 Hxn]. destruct b as [|[y w] b]; [by apply Hx0|]. change (x = y) in He. subst y.
  apply Hxn. rewrite !fmap_app, !elem_of_app. right. right. apply elem_of_cons. by left.
Qed.
Lemma nil_minp D mn mx h t a b : rep D mn mx h t -> inorder t = a ++ b -> Isnil h (minp b) = Ok (bool_decide (b = [])).
Proof.
  intros H Hin. destruct b as [|[x v] b]; [exact (nil0 _ _ _ _ _ H)|]. rewrite bool_decide_false by done. destruct (Key_in (fun _ : V => tt) _ _ _ _ _ _ _ _ _ H Hin) as (_ & En & _). exact En.
Qed.
Lemma ok_distance s a m b : tree_ok s (a ++ m ++ b) -> distance s (minp (m ++ b)) (minp b) = Ok (length m).
Proof.
  intros Hok. pose proof (ok_nd _ _ Hok) as Hn. apply ok_rep in Hok as (t & n & Hin & Hb & H & Hsz). unfold distance.
  assert (Hgen : forall m a k fuel, inorder t = a ++ m ++ b -> NoDup (0 :: (a ++ m ++ b).*1) -> length m < fuel ->
    loop fuel (fun '(p, n) => if decide (p = minp b) then Ok (inr n) else q <~ incr (S (msize s)) (mem s) p ;; Ok (inl (q, S n))) (minp (m ++ b), k) = Ok (k + length m)).
  { assert (Hsz1 : length (inorder t) <= msize s) by (rewrite Hin; lia). revert H Hsz1. generalize (dom (a ++ m ++ b)), (minp (a ++ m ++ b)), (maxp (a ++ m ++ b)). clear m a Hn Hin Hsz Hb. intros D mn mx H Hsz1.  intros m. induction m as [|[x v] m IH]; intros a k fuel Hin Hn Hf; (destruct fuel as [|fuel]; [cbn in Hf; lia|]); rewrite loop_S.
    - cbn [app]. rewrite decide_True by done. rewrite rbind_ok. cbn [length]. f_equal. lia.
    - rewrite decide_False by (by eapply minp_ne). change (minp (((x, v) :: m) ++ b)) with x. cbn [app] in Hin. rewrite (incr_l _ _ _ _ _ _ _ _ _ (S (msize s)) H Hin) by lia.
      rewrite !rbind_ok. rewrite (IH (a ++ [(x, v)])); [cbn [length]; f_equal; lia|rewrite Hin; by rewrite <- app_assoc|by rewrite <- app_assoc|cbn [length] in Hf; lia]. }
  rewrite (Hgen m a 0); [done..|]. rewrite Hsz, !app_length. lia.
Qed.
Lemma erase_range_ok s a m b : tree_ok s (a ++ m ++ b) -> exists s', erase_range s (minp (m ++ b)) (minp b) = Ok (s', minp b) /\ tree_ok s' (a ++ b).
Proof.
  intros Hok. pose proof (ok_nd _ _ Hok) as Hn. pose proof Hok as (t & n & Hin & Hb & H & Hsz)%ok_rep. unfold erase_range, head. rewrite (Lh _ _ _ _ _ H), rbind_ok.
  rewrite (nil_minp _ _ _ _ _ (a ++ m) b H) by (by rewrite <- app_assoc). rewrite rbind_ok. case_decide as Hd.
  - destruct Hd as [Hfirst Hbn]. apply bool_decide_eq_true in Hbn. subst b. rewrite app_nil_r in *.
    assert (a = []) as ->. { destruct a as [|[x v] a]; [done|]. exfalso. change (minp m = x) in Hfirst. cbn [app] in Hn. apply (nd_mid []) in Hn as [Hx0 Hxn]. destruct m as [|[y w] m]; [by apply Hx0; rewrite <- Hfirst|]. change (y = x) in Hfirst. subst y. apply Hxn. cbn [app]. rewrite fmap_app, elem_of_app. right. apply elem_of_cons. by left. }
    destruct (clear_ok _ _ Hok) as (s' & -> & Hok'). rewrite rbind_ok. by exists s'.
  - clear Hd. assert (Hlen : length m <= msize s) by (rewrite Hsz, !app_length; lia). clear t n Hin Hb H.
    assert (Hgen : forall m s fuel, tree_ok s (a ++ m ++ b) -> length m < fuel -> exists s',
      loop fuel (fun '(s, first) => if decide (first = minp b) then Ok (inr s) else next <~ incr (S (msize s)) (mem s) first ;; '(s, _) <~ erase1 s first ;; Ok (inl (s, next))) (s, minp (m ++ b)) = Ok s' /\ tree_ok s' (a ++ b)).
    { clear. intros m. induction m as [|[x v] m IH]; intros s fuel Hok Hf; (destruct fuel as [|fuel]; [cbn in Hf; lia|]); rewrite loop_S.
      - cbn [app]. rewrite decide_True by done. rewrite rbind_ok. by exists s.
      - rewrite decide_False by (eapply minp_ne; [exact (ok_nd _ _ Hok)|done]). change (minp (((x, v) :: m) ++ b)) with x. cbn [app] in Hok. destruct (erase1_ok _ _ _ _ _ Hok) as (s1 & E1 & Hok1).
        apply ok_rep in Hok as (t & n & Hin & Hb & H & Hsz). rewrite (incr_l _ _ _ _ _ _ _ _ _ (S (msize s)) H Hin) by (rewrite Hin; lia). rewrite E1, !rbind_ok. apply IH; [done|]. cbn [length] in Hf. lia. }
    destruct (Hgen m s (S (msize s)) Hok ltac:(lia)) as (s' & -> & Hok'). rewrite rbind_ok. by exists s'.
Qed.
(** depth *)
Lemma rb_height c n t : rb c n t -> height t <= 2 * n + (if decide (c = Red) then 1 else 0).
Proof.
  induction 1 as [|n l x v r Hl IHl Hr IHr|n cl cr l x v r Hl IHl Hr IHr]; cbn [height]; [lia| |].
  - rewrite decide_True by done. rewrite decide_False in IHl, IHr by done. lia.
  - rewrite (decide_False _ _ (P := Black = Red)) by done. destruct (decide (cl = Red)), (decide (cr = Red)); lia.
Qed.
Lemma rb_size c n t : rb c n t -> 2 ^ n <= length (inorder t) + 1.
Proof.
  induction 1 as [|n l x v r Hl IHl Hr IHr|n cl cr l x v r Hl IHl Hr IHr]; cbn [inorder]; [done|rewrite app_length; cbn [length]..]; [lia|]. rewrite Nat.pow_succ_r'. lia.
Qed.
Lemma rb_log n t : rb Black n t -> height t <= 2 * Nat.log2 (length (inorder t) + 1).
Proof.
  intros Hb. pose proof (rb_height _ _ _ Hb) as Hh. rewrite decide_False in Hh by done. pose proof (rb_size _ _ _ Hb) as Hs. assert (n <= Nat.log2 (length (inorder t) + 1)); [|lia].
  rewrite <- (Nat.log2_pow2 n) by lia. by apply Nat.log2_le_mono.
Qed.
End tree.
Section eq.
Context {V K : Type} (kf : V -> K) (lt : K -> K -> bool) (SW : StrictWeakOrder lt).
Implicit Types (l a b : list (nat * V)) (s : tst V) (t : tree V) (h : heap V).
Notation ordered := (ordered kf lt).
(** the upper descent started at any place whose surroundings are already decided *)
Lemma descend2 D mn mx h whole (g : V -> bool) (step : nat * nat -> res (nat * nat + nat)) :
  rep D mn mx h whole -> parts (fun e => g (snd e)) (inorder whole) ->
  (forall b : nat, step (0, b) = Ok (inr b)) ->
  (forall (b : nat) Z c (l : tree V) x v r, whole = plug Z (T c l x v r) -> step (x, b) = if g v then Ok (inl (root r, b)) else Ok (inl (root l, x))) ->
  forall fuel t Z (b : nat), whole = plug Z t -> b = minp (after Z) ->
    Forall (fun e => g (snd e) = true) (before Z) -> Forall (fun e => g (snd e) = false) (after Z) -> length (inorder t) < fuel ->
    exists p q, loop fuel step (root t, b) = Ok (minp q) /\ inorder whole = p ++ q /\ Forall (fun e => g (snd e) = true) p /\ Forall (fun e => g (snd e) = false) q.
Proof using.
  intros H Hp Hs1 Hs2. induction fuel as [|fuel IH]; intros t Z b Hw Hb Hbe Haf Hf; [lia|]. rewrite loop_S. destruct t as [|c l x v r]; cbn [root].
  - rewrite Hs1, rbind_ok. exists (before Z), (after Z). split_and!; try done; [by rewrite Hb|]. by rewrite Hw, inorder_plug.
  - rewrite (Hs2 _ Z c l x v r Hw). cbn [inorder] in Hf. rewrite app_length in Hf. cbn [length] in Hf.
    assert (Hin : inorder whole = (before Z ++ inorder l) ++ (x, v) :: (inorder r ++ after Z)). { rewrite Hw, inorder_plug. cbn [inorder]. by rewrite <- !app_assoc. }
    pose proof Hp as Hp'. rewrite Hin in Hp'. destruct (g v) eqn:Eg; rewrite rbind_ok.
    + apply (IH r (FR c l x v :: Z)); try done; [|lia]. cbn [before]. rewrite app_assoc. apply Forall_app. split; [|by constructor]. by eapply (parts_true (fun e => g (snd e))).
    + apply (IH l (FL c x v r :: Z)); try done; [|lia]. cbn [after]. constructor; [done|]. by eapply (parts_false (fun e => g (snd e))).
Qed.
(** what is known about _Hinode after the first loop: nothing, or a node above the key whose predecessors outside its subtree are below *)
Definition hiok whole (k : K) (hi : nat) : Prop :=
  hi = 0 \/ exists Z c (l : tree V) v r, whole = plug Z (T c l hi v r) /\ hi <> 0 /\ lt k (kf v) = true /\ Forall (fun e => lt (kf (snd e)) k = true) (before Z).
Lemma eq_first D mn mx (s : tst V) whole k : rep D mn mx (mem s) whole -> ordered (inorder whole) ->
  forall fuel t Z lo hi, whole = plug Z t -> lo = minp (after Z) -> hiok whole k hi ->
    Forall (fun e => lt (kf (snd e)) k = true) (before Z) -> Forall (fun e => lt (kf (snd e)) k = false) (after Z) -> length (inorder t) < fuel ->
    exists p q hi', loop fuel (fun '(p, lo, hi) =>
       b <~ Isnil (mem s) p ;;
       if b : bool then Ok (inr (lo, hi))
       else
         y <~ Key kf (mem s) p ;;
         if lt y k then r <~ R (mem s) p ;; Ok (inl (r, lo, hi))
         else
           bh <~ Isnil (mem s) hi ;;
           l <~ L (mem s) p ;;
           Ok (inl (l, p, if (bh : bool) && lt k y then p else hi))) (root t, lo, hi) = Ok (minp q, hi') /\
      lsplit kf lt k (inorder whole) p q /\ hiok whole k hi'.
Proof using SW.
  intros H Ho. induction fuel as [|fuel IH]; intros t Z lo hi Hw Hb Hhi Hbe Haf Hf; [lia|]. rewrite loop_S. rewrite Hw in H. rewrite (nilz _ _ _ _ _ _ H), rbind_ok. destruct t as [|c l x v r]; cbn [root isE].
  - rewrite rbind_ok. exists (before Z), (after Z), hi. split_and!; try done; [by rewrite Hb|]. split_and!; try done. by rewrite Hw, inorder_plug.
  - rewrite (Key_z _ _ _ _ _ _ _ _ _ _ _ H), rbind_ok. cbn [inorder] in Hf. rewrite app_length in Hf. cbn [length] in Hf.
    assert (Hin : inorder whole = (before Z ++ inorder l) ++ (x, v) :: (inorder r ++ after Z)). { rewrite Hw, inorder_plug. cbn [inorder]. by rewrite <- !app_assoc. }
    pose proof (ord_parts_l kf lt SW _ k Ho) as Hp. rewrite Hin in Hp. rewrite <- Hw in H. destruct (lt (kf v) k) eqn:Eg.
    + rewrite Hw in H at 1. rewrite (Rz _ _ _ _ _ _ _ _ _ _ H), !rbind_ok. apply (IH r (FR c l x v :: Z)); try done; [|lia]. cbn [before]. rewrite app_assoc. apply Forall_app. split; [|by constructor]. by eapply (parts_true (fun e => lt (kf (snd e)) k)).
    + assert (Enil : Isnil (mem s) hi = Ok (bool_decide (hi = 0))).
      { destruct Hhi as [->|(Z0 & c0 & l0 & v0 & r0 & Hw0 & Hne & _)]; [by rewrite (nil0 _ _ _ _ _ H)|]. rewrite bool_decide_false by done. rewrite Hw0 in H. exact (nilz _ _ _ _ _ _ H). }
      rewrite Enil, rbind_ok. pose proof H as H'. rewrite Hw in H'. rewrite (Lz _ _ _ _ _ _ _ _ _ _ H'), !rbind_ok. apply (IH l (FL c x v r :: Z)); try done; [| |lia].
      * destruct (bool_decide (hi = 0)) eqn:Eh; cbn [andb]; [|done]. destruct (lt k (kf v)) eqn:Ek; [|done]. right. exists Z, c, l, v, r. split_and!; try done. by eapply node_ne_l.
      * cbn [after]. constructor; [done|]. by eapply (parts_false (fun e => lt (kf (snd e)) k)).
Qed.
Definition eqsplit (k : K) l a m b : Prop :=
  l = a ++ m ++ b /\ Forall (fun e => lt (kf (snd e)) k = true) a /\ Forall (fun e => lt (kf (snd e)) k = false /\ lt k (kf (snd e)) = false) m /\ Forall (fun e => lt k (kf (snd e)) = true) b.
Lemma eq_split k l a b a' b' : lsplit kf lt k l a b -> usplit kf lt k l a' b' -> exists m, b = m ++ b' /\ eqsplit k l a m b'.
Proof using SW.
  intros (Hl & Ha & Hb) (Hl' & Ha' & Hb'). rewrite Hl in Hl'. apply app_eq_inv in Hl' as [(m & E1 & E2)|(m & E1 & E2)].
  - exists []. subst b' a. apply Forall_app in Ha as [Ha Hm]. apply Forall_app in Hb' as [Hm' Hb2]. assert (m = []) as ->. { destruct m as [|e m]; [done|]. exfalso. apply list.Forall_cons in Hm as [Hm _]. apply list.Forall_cons in Hm' as [Hm' _]. pose proof (swo_asym lt SW _ _ Hm). congruence. }
    cbn [app] in *. rewrite app_nil_r in *. split; [done|]. split_and!; [done|done|constructor|done].
  - exists m. subst b a'. split; [done|]. apply Forall_app in Hb as [Hm _]. apply Forall_app in Ha' as [_ Hm']. split_and!; try done. by apply Forall_and.
Qed.
Lemma Eqrange_ok s l k : tree_ok s l -> ordered l -> exists a m b, Eqrange kf lt s k = Ok (minp (m ++ b), minp b) /\ eqsplit k l a m b.
Proof using SW.
  intros (t & n & Hin & Hb & H & Hsz)%ok_rep Ho. unfold Eqrange, head. rewrite (Ph _ _ _ _ _ H), rbind_ok. rewrite <- Hin in Ho.
  destruct (eq_first _ _ _ s t k H Ho (S (msize s)) t [] 0 0 eq_refl eq_refl (or_introl eq_refl) ltac:(constructor) ltac:(constructor) ltac:(rewrite Hin; lia)) as (p & q & hi & E & Hls & Hhi). rewrite E, rbind_ok. clear E.
  assert (Hsnd : exists p' q', (bh <~ Isnil (mem s) hi ;; p <~ (if bh : bool then P (mem s) 0 else L (mem s) hi) ;;
     hi <~ loop (S (msize s)) (fun '(p, hi) => b <~ Isnil (mem s) p ;; if b : bool then Ok (inr hi) else y <~ Key kf (mem s) p ;;
         if lt k y then l <~ L (mem s) p ;; Ok (inl (l, p)) else r <~ R (mem s) p ;; Ok (inl (r, hi))) (p, hi) ;; Ok (minp q, hi)) = Ok (minp q, minp q') /\ usplit kf lt k (inorder t) p' q').
  { assert (Hd : forall t' Z (b : nat), t = plug Z t' -> b = minp (after Z) -> Forall (fun e => negb (lt k (kf (snd e))) = true) (before Z) -> Forall (fun e => negb (lt k (kf (snd e))) = false) (after Z) -> exists p' q',
      (hi <~ loop (S (msize s)) (fun '(p, hi) => b <~ Isnil (mem s) p ;; if b : bool then Ok (inr hi) else y <~ Key kf (mem s) p ;;
         if lt k y then l <~ L (mem s) p ;; Ok (inl (l, p)) else r <~ R (mem s) p ;; Ok (inl (r, hi))) (root t', b) ;; Ok (minp q, hi)) = Ok (minp q, minp q') /\ usplit kf lt k (inorder t) p' q').
    { intros t' Z b Ht' Hb' Hbe Haf. edestruct (descend2 (dom l) (minp l) (maxp l) (mem s) t (fun v => negb (lt k (kf v))) (fun '(p, hi) => b <~ Isnil (mem s) p ;; if b : bool then Ok (inr hi) else y <~ Key kf (mem s) p ;;
         if lt k y then l <~ L (mem s) p ;; Ok (inl (l, p)) else r <~ R (mem s) p ;; Ok (inl (r, hi))) H (ord_parts_u kf lt SW _ k Ho)) with (fuel := S (msize s)) (t := t') (Z := Z) (b := b) as (p' & q' & E & Hpq & Hp' & Hq'); [..|rewrite E, rbind_ok; exists p', q'; split; [done|split_and!]]; try done.
      - intros b'. rewrite (nil0 _ _ _ _ _ H), rbind_ok. done.
      - intros b' Z' c' l' x' v' r' Hw'. pose proof H as H'. rewrite Hw' in H'. rewrite (nilz _ _ _ _ _ _ H' : Isnil (mem s) x' = Ok false), rbind_ok. rewrite (Key_z _ _ _ _ _ _ _ _ _ _ _ H'), rbind_ok.
        destruct (lt k (kf v')); cbn [negb]; [rewrite (Lz _ _ _ _ _ _ _ _ _ _ H')|rewrite (Rz _ _ _ _ _ _ _ _ _ _ H')]; by rewrite rbind_ok.
      - pose proof (len_plug Z t') as Hlen. rewrite <- Ht', Hin in Hlen. lia.
      - eapply list.Forall_impl; [exact Hp'|]. cbn. intros e He. by apply negb_true_iff.
      - eapply list.Forall_impl; [exact Hq'|]. cbn. intros e He. by apply negb_false_iff. }
    destruct Hhi as [->|(Z & c & tl & v & tr' & Hw & Hne & Hk & Hbe)].
    - rewrite (nil0 _ _ _ _ _ H), rbind_ok, (Ph _ _ _ _ _ H), rbind_ok. apply (Hd t []); try done; constructor.
    - pose proof H as H'. rewrite Hw in H'. rewrite (nilz _ _ _ _ _ _ H' : Isnil (mem s) hi = Ok false), rbind_ok, (Lz _ _ _ _ _ _ _ _ _ _ H'), rbind_ok. apply (Hd tl (FL c hi v tr' :: Z)); try done.
      + cbn [before]. eapply list.Forall_impl; [exact Hbe|]. cbn. intros e He. by rewrite (swo_asym lt SW _ _ He).
      + cbn [after]. assert (Hin' : inorder t = (before Z ++ inorder tl) ++ (hi, v) :: (inorder tr' ++ after Z)). { rewrite Hw, inorder_plug. cbn [inorder]. by rewrite <- !app_assoc. }
        pose proof (ord_parts_u kf lt SW _ k Ho) as Hp. rewrite Hin' in Hp. constructor; [cbn; by rewrite Hk|]. apply (parts_false _ _ _ _ Hp). cbn. by rewrite Hk. }
  destruct Hsnd as (p' & q' & E & Hus). destruct (eq_split _ _ _ _ _ _ Hls Hus) as (m & -> & Hsp). exists p, m, q'. rewrite (Ph _ _ _ _ _ H) in E. split; [exact E|]. by rewrite <- Hin.
Qed.
Lemma count_ok s l k : tree_ok s l -> ordered l -> exists a m b, count kf lt s k = Ok (length m) /\ eqsplit k l a m b.
Proof using SW.
  intros Hok Ho. destruct (Eqrange_ok _ _ k Hok Ho) as (a & m & b & E & Hs). exists a, m, b. split; [|done]. unfold count. rewrite E, rbind_ok. destruct Hs as (-> & _). by eapply ok_distance.
Qed.
Lemma erase_key_ok s l k : tree_ok s l -> ordered l -> exists s' a m b, erase_key kf lt s k = Ok (s', length m) /\ eqsplit k l a m b /\ tree_ok s' (a ++ b).
Proof using SW.
  intros Hok Ho. destruct (Eqrange_ok _ _ k Hok Ho) as (a & m & b & E & Hs). unfold erase_key. rewrite E, rbind_ok. pose proof Hs as (Hl & _). rewrite Hl in Hok.
  rewrite (ok_distance _ _ _ _ Hok), rbind_ok. destruct (erase_range_ok _ _ _ _ Hok) as (s' & -> & Hok'). rewrite rbind_ok. exists s', a, m, b. split_and!; done.
Qed.
End eq.
