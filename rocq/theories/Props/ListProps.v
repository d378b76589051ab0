(** C29: std::list. [is_list h s l] (Cont/ListSpec.v): in memory [h] the list object [s] is a consistent circular doubly linked chain
    of distinct nodes, with the right size, whose (node address, value) pairs from begin() to end() are [l]. An iterator is a node
    address, so equal pairs before and after mean that iterators stay valid and still refer to the same element.
    [frame h h' ps]: no memory outside the nodes [ps] changes. [fst_of hd b]: the iterator to the first element of [b], end() if none. *)
From stdpp Require Import base list numbers option decidable.
From Coq Require Import Lia.
From Verif Require Import Base.Res Base.Order Base.OrderLemmas Base.Stable Alg.MergeSpec Cont.ListModel Cont.ListSpec
  Cont.ListProofs Cont.ListProofs2 Cont.ListProofs3 Cont.ListProofs4 Cont.ListProofs5 Cont.ListProofs6 Cont.ListProofs7.
Local Open Scope nat_scope.

Section props.
Context {V : Type}.
Implicit Types (h : heap V) (l a b c d m : list (nat * V)) (x : nat * V) (s r : lst).
Notation byval lt := (fun x y : nat * V => lt x.2 y.2).

(** *** iteration *)
Theorem C29_forward h s l : is_list h s l -> forward h s = Ok (l.*2).
Proof.
  intros [R Sz]. unfold forward. rewrite (N_ok _ _ _ (ring_first _ _ _ R)), rbind_ok. rewrite Sz. clear Sz.
  assert (G : forall c k acc fuel, l = k ++ c -> length c < fuel ->
    loop fuel (fun '(p, acc) => if decide (p = lhead s) then Ok (inr acc) else v <~ Val h p ;; q <~ N h p ;; Ok (inl (q, acc ++ [v]))) (fst_of (lhead s) c, acc) = Ok (acc ++ c.*2)).
  { intros c. induction c as [|x c IH]; intros k acc fuel E Hf; (destruct fuel as [|fuel]; [cbn in Hf; lia|]); rewrite loop_S; cbn [fst_of].
    - rewrite decide_True, rbind_ok by done. by rewrite app_nil_r.
    - subst l. rewrite decide_False by (intros X; apply (ring_x_notin _ _ _ _ _ R); rewrite X; left).
      rewrite (Val_ok h x.1 x.2), rbind_ok by (apply (ring_val _ _ _ _ R), elem_of_app; right; left).
      rewrite (N_ok _ _ _ (ring_nx _ _ _ _ _ R)), !rbind_ok. rewrite (IH (k ++ [x])); [by rewrite <- app_assoc|by rewrite <- app_assoc|cbn in Hf; lia]. }
  rewrite (G l [] []); [done|done|lia].
Qed.
Theorem C29_backward h s l : is_list h s l -> backward h s = Ok (rev (l.*2)).
Proof.
  intros [R Sz]. unfold backward. rewrite Sz. clear Sz. pose proof (N_ok _ _ _ (ring_first _ _ _ R)) as EN.
  assert (G : forall c k acc fuel, l = c ++ k -> length c < fuel ->
    loop fuel (fun '(p, acc) => f <~ N h (lhead s) ;; if decide (p = f) then Ok (inr acc) else q <~ P h p ;; v <~ Val h q ;; Ok (inl (q, acc ++ [v]))) (fst_of (lhead s) k, acc) = Ok (acc ++ rev (c.*2))).
  { intros c. induction c as [|x c IH] using rev_ind; intros k acc fuel E Hf; (destruct fuel as [|fuel]; [lia|]); rewrite loop_S; rewrite EN, rbind_ok.
    - subst l. rewrite decide_True, rbind_ok by done. by rewrite app_nil_r.
    - rewrite decide_False.
      + destruct (ring_link h (lhead s) (c ++ [x]) k) as [_ L]; [by rewrite <- E|].
        rewrite (P_ok _ _ _ L), rbind_ok. rewrite lst_of_app. change (lst_of (lst_of (lhead s) c) [x]) with x.1.
        rewrite (Val_ok h x.1 x.2), !rbind_ok by (apply (ring_val _ _ _ _ R); rewrite E; apply elem_of_app; left; apply elem_of_app; right; left).
        rewrite <- EN. etransitivity; [apply (IH (x :: k))|].
        * by rewrite E, <- app_assoc.
        * rewrite app_length in Hf. cbn in Hf. lia.
        * rewrite fmap_app, rev_app_distr, <- app_assoc. done.
      + intros X. assert (R' : ring h (lhead s) ([] ++ (c ++ [x]) ++ k)) by by rewrite E in R.
        apply (ring_distinct _ _ _ _ _ R'); [by destruct c|]. rewrite X, E. destruct c; done. }
  rewrite (G l [] []); [done|by rewrite app_nil_r|lia].
Qed.

(** *** insertion and erasure *)
Theorem C29_insert h s a b new v : is_list h s (a ++ b) -> h new = None -> new <> 0 ->
  exists h', Emplace h s (fst_of (lhead s) b) new v = Ok (h', Lst (lhead s) (S (lsize s)), new) /\
    is_list h' (Lst (lhead s) (S (lsize s))) (a ++ (new, v) :: b) /\ frame h h' (new :: lhead s :: (a ++ b).*1).
Proof. apply Emplace_ok. Qed.
Theorem C29_push_front h s l new v : is_list h s l -> h new = None -> new <> 0 ->
  exists h', push_front h s new v = Ok (h', Lst (lhead s) (S (lsize s)), new) /\
    is_list h' (Lst (lhead s) (S (lsize s))) ((new, v) :: l) /\ frame h h' (new :: lhead s :: l.*1).
Proof. apply push_front_ok. Qed.
Theorem C29_push_back h s l new v : is_list h s l -> h new = None -> new <> 0 ->
  exists h', push_back h s new v = Ok (h', Lst (lhead s) (S (lsize s)), new) /\
    is_list h' (Lst (lhead s) (S (lsize s))) (l ++ [(new, v)]) /\ frame h h' (new :: lhead s :: l.*1).
Proof. apply push_back_ok. Qed.
Theorem C29_insert_range h s a b news (vs : list V) : is_list h s (a ++ b) -> length news = length vs -> NoDup news -> 0 ∉ news -> (forall p, p ∈ news -> h p = None) ->
  exists h' s', insert_range h s (fst_of (lhead s) b) news vs = Ok (h', s', fst_of (fst_of (lhead s) b) (zip news vs)) /\ lhead s' = lhead s /\
    is_list h' s' (a ++ zip news vs ++ b) /\ frame h h' (news ++ lhead s :: (a ++ b).*1).
Proof. apply insert_range_ok. Qed.
Theorem C29_erase h s a x b : is_list h s (a ++ x :: b) ->
  exists h', erase h s x.1 = Ok (h', Lst (lhead s) (lsize s - 1), fst_of (lhead s) b) /\
    is_list h' (Lst (lhead s) (lsize s - 1)) (a ++ b) /\ frame h h' (lhead s :: (a ++ x :: b).*1) /\ h' x.1 = None.
Proof. apply erase_ok. Qed.
Theorem C29_pop_front h s x l : is_list h s (x :: l) ->
  exists h', pop_front h s = Ok (h', Lst (lhead s) (lsize s - 1)) /\
    is_list h' (Lst (lhead s) (lsize s - 1)) l /\ frame h h' (lhead s :: (x :: l).*1) /\ h' x.1 = None.
Proof. apply pop_front_ok. Qed.
Theorem C29_pop_back h s x l : is_list h s (l ++ [x]) ->
  exists h', pop_back h s = Ok (h', Lst (lhead s) (lsize s - 1)) /\
    is_list h' (Lst (lhead s) (lsize s - 1)) l /\ frame h h' (lhead s :: (l ++ [x]).*1) /\ h' x.1 = None.
Proof. apply pop_back_ok. Qed.
Theorem C29_erase_range h s a m b : is_list h s (a ++ m ++ b) ->
  exists h', Erase h s (fst_of (lhead s) (m ++ b)) (fst_of (lhead s) b) = Ok (h', Lst (lhead s) (lsize s - length m), fst_of (lhead s) b) /\
    is_list h' (Lst (lhead s) (lsize s - length m)) (a ++ b) /\ frame h h' (lhead s :: (a ++ m ++ b).*1) /\ freed h' (m.*1).
Proof. rewrite fst_of_app. apply Erase_ok. Qed.
Theorem C29_clear h s l : is_list h s l ->
  exists h', clear h s = Ok (h', Lst (lhead s) 0) /\ is_list h' (Lst (lhead s) 0) [] /\ frame h h' (lhead s :: l.*1) /\ freed h' (l.*1).
Proof. apply clear_ok. Qed.

(** *** splice, between two lists and within one; no element is copied, every node keeps its value *)
Theorem C29_splice_all h s a b r l : is_list h s (a ++ b) -> is_list h r l -> disj (lhead s) (a ++ b) (lhead r) l ->
  exists h' s' r', splice_all h s r (fst_of (lhead s) b) = Ok (h', s', r') /\ lhead s' = lhead s /\ lhead r' = lhead r /\
    is_list h' s' (a ++ l ++ b) /\ is_list h' r' [] /\ frame h h' ((lhead s :: (a ++ b).*1) ++ (lhead r :: l.*1)).
Proof. apply splice_all_ok. Qed.
Theorem C29_splice_one h s a b r c x d : is_list h s (a ++ b) -> is_list h r (c ++ x :: d) -> disj (lhead s) (a ++ b) (lhead r) (c ++ x :: d) ->
  exists h' s' r', splice_one h s r (fst_of (lhead s) b) x.1 = Ok (h', s', r') /\ lhead s' = lhead s /\ lhead r' = lhead r /\
    is_list h' s' (a ++ x :: b) /\ is_list h' r' (c ++ d) /\ frame h h' ((lhead s :: (a ++ b).*1) ++ (lhead r :: (c ++ x :: d).*1)).
Proof. apply splice_one_ok. Qed.
Theorem C29_splice_range h s a b r c m d : is_list h s (a ++ b) -> is_list h r (c ++ m ++ d) -> disj (lhead s) (a ++ b) (lhead r) (c ++ m ++ d) ->
  exists h' s' r', splice_range h s r (fst_of (lhead s) b) (fst_of (lhead r) (m ++ d)) (fst_of (lhead r) d) = Ok (h', s', r') /\
    lhead s' = lhead s /\ lhead r' = lhead r /\
    is_list h' s' (a ++ m ++ b) /\ is_list h' r' (c ++ d) /\ frame h h' ((lhead s :: (a ++ b).*1) ++ (lhead r :: (c ++ m ++ d).*1)).
Proof. rewrite (fst_of_app _ m). apply splice_range_ok. Qed.
Theorem C29_splice_one_same_later h s a x b c : is_list h s (a ++ x :: b ++ c) ->
  exists h', splice_one h s s (fst_of (lhead s) c) x.1 = Ok (h', s, s) /\
    is_list h' s (a ++ b ++ x :: c) /\ frame h h' (lhead s :: (a ++ x :: b ++ c).*1).
Proof. apply splice_one_same_r. Qed.
Theorem C29_splice_one_same_earlier h s a b x c : is_list h s (a ++ b ++ x :: c) ->
  exists h', splice_one h s s (fst_of (lhead s) (b ++ x :: c)) x.1 = Ok (h', s, s) /\
    is_list h' s (a ++ x :: b ++ c) /\ frame h h' (lhead s :: (a ++ b ++ x :: c).*1).
Proof. apply splice_one_same_l. Qed.
Theorem C29_splice_range_same_later h s a m b c : is_list h s (a ++ m ++ b ++ c) ->
  exists h', splice_range h s s (fst_of (lhead s) c) (fst_of (lhead s) (m ++ b ++ c)) (fst_of (lhead s) (b ++ c)) = Ok (h', s, s) /\
    is_list h' s (a ++ b ++ m ++ c) /\ frame h h' (lhead s :: (a ++ m ++ b ++ c).*1).
Proof. apply splice_range_same_r. Qed.
(** the position must not be inside the moved range *)
Theorem C29_splice_range_same_earlier h s a b m c : is_list h s (a ++ b ++ m ++ c) -> b <> [] \/ m = [] ->
  exists h', splice_range h s s (fst_of (lhead s) (b ++ m ++ c)) (fst_of (lhead s) (m ++ c)) (fst_of (lhead s) c) = Ok (h', s, s) /\
    is_list h' s (a ++ m ++ b ++ c) /\ frame h h' (lhead s :: (a ++ b ++ m ++ c).*1).
Proof. apply splice_range_same_l. Qed.

(** *** sort, merge, reverse, remove_if, unique *)
Theorem C29_sort (lt : V -> V -> bool) (SW : StrictWeakOrder lt) h s l : is_list h s l ->
  exists h' l', sort lt h s = Ok h' /\ is_list h' s l' /\ sorted (byval lt) l' /\ stable_eq (byval lt) l l' /\ l' ≡ₚ l /\ frame h h' (lhead s :: l.*1).
Proof. apply sort_ok, SW. Qed.
Theorem C29_merge (lt : V -> V -> bool) (SW : StrictWeakOrder lt) h s l r l2 : is_list h s l -> is_list h r l2 -> disj (lhead s) l (lhead r) l2 ->
  sorted (byval lt) l -> sorted (byval lt) l2 ->
  exists h' s' r' l', merge lt h s r = Ok (h', s', r') /\ lhead s' = lhead s /\ lhead r' = lhead r /\
    is_list h' s' l' /\ is_list h' r' [] /\ sorted (byval lt) l' /\ stable_eq (byval lt) (l ++ l2) l' /\ l' ≡ₚ l ++ l2 /\
    frame h h' ((lhead s :: l.*1) ++ (lhead r :: l2.*1)).
Proof.
  intros L1 L2 D S1 S2. destruct (merge_ok lt h s l r l2 L1 L2 D) as (h' & s' & r' & E & H1 & H2 & H3 & H4 & H5).
  pose proof (ltp_swo lt SW) as SW'. eexists _, _, _, _. split; [exact E|]. split_and!; try done.
  - by apply (mergel_sorted _ SW').
  - by apply (mergel_steq _ SW').
  - apply mergel_perm.
Qed.
Theorem C29_merge_self (lt : V -> V -> bool) h s : merge lt h s s = Ok (h, s, s).
Proof. apply merge_self. Qed.
Theorem C29_reverse h s l : is_list h s l ->
  exists h', reverse h s = Ok h' /\ is_list h' s (rev l) /\ frame h h' (lhead s :: l.*1).
Proof. apply reverse_ok. Qed.
Theorem C29_remove_if h s l (pred : V -> bool) : is_list h s l ->
  let keep := List.filter (fun x : nat * V => negb (pred x.2)) l in let drop := List.filter (fun x : nat * V => pred x.2) l in
  exists h', remove_if pred h s = Ok (h', Lst (lhead s) (length keep), length l - length keep) /\
    is_list h' (Lst (lhead s) (length keep)) keep /\ freed h' (drop.*1) /\ frame h h' (lhead s :: l.*1).
Proof. apply remove_if_ok. Qed.
Theorem C29_unique h s l (pred : V -> V -> bool) : is_list h s l ->
  exists h', unique pred h s = Ok (h', Lst (lhead s) (length (uniq pred l)), length l - length (uniq pred l)) /\
    is_list h' (Lst (lhead s) (length (uniq pred l))) (uniq pred l) /\ (forall p, p ∈ l.*1 -> p ∉ (uniq pred l).*1 -> h' p = None) /\ frame h h' (lhead s :: l.*1).
Proof. apply unique_ok. Qed.

(** *** histories of two lists in one heap. A call names the list it works on; [negb k] is the other list. *)
Inductive call : Type :=
| CInsert (k : bool) (pos new : nat) (v : V)
| CInsertRange (k : bool) (pos : nat) (news : list nat) (vs : list V)
| CErase (k : bool) (pos : nat)
| CEraseRange (k : bool) (p q : nat)
| CClear (k : bool)
| CSpliceAll (k : bool) (pos : nat)
| CSpliceOne (k : bool) (pos it : nat)
| CSpliceRange (k : bool) (pos p q : nat)
| CSpliceSame (k : bool) (pos p q : nat)
| CSort (k : bool) (lt : V -> V -> bool)
| CMerge (k : bool) (lt : V -> V -> bool)
| CReverse (k : bool)
| CRemoveIf (k : bool) (pred : V -> bool)
| CUnique (k : bool) (eq : V -> V -> bool).
Definition state : Type := heap V * lst * lst.
Definition pick {A} (k : bool) (p : A * A) : A := if k then p.2 else p.1.
Definition put {A} (k : bool) (x : A) (p : A * A) : A * A := if k then (p.1, x) else (x, p.2).
Definition exec (c : call) (st : state) : res state :=
  let '(h, s0, s1) := st in
  let S := pick (A := lst) in
  let ret1 k h (s : lst) := let p := put k s (s0, s1) in Ok (h, p.1, p.2) in
  let ret2 k h (s r : lst) := let p := put (negb k) r (put k s (s0, s1)) in Ok (h, p.1, p.2) in
  match c with
  | CInsert k pos new v => '(h, s, _) <~ Emplace h (S k (s0, s1)) pos new v ;; ret1 k h s
  | CInsertRange k pos news vs => '(h, s, _) <~ insert_range h (S k (s0, s1)) pos news vs ;; ret1 k h s
  | CErase k pos => '(h, s, _) <~ erase h (S k (s0, s1)) pos ;; ret1 k h s
  | CEraseRange k p q => '(h, s, _) <~ Erase h (S k (s0, s1)) p q ;; ret1 k h s
  | CClear k => '(h, s) <~ clear h (S k (s0, s1)) ;; ret1 k h s
  | CSpliceAll k pos => '(h, s, r) <~ splice_all h (S k (s0, s1)) (S (negb k) (s0, s1)) pos ;; ret2 k h s r
  | CSpliceOne k pos it => '(h, s, r) <~ splice_one h (S k (s0, s1)) (S (negb k) (s0, s1)) pos it ;; ret2 k h s r
  | CSpliceRange k pos p q => '(h, s, r) <~ splice_range h (S k (s0, s1)) (S (negb k) (s0, s1)) pos p q ;; ret2 k h s r
  | CSpliceSame k pos p q => '(h, s, _) <~ splice_range h (S k (s0, s1)) (S k (s0, s1)) pos p q ;; ret1 k h s
  | CSort k lt => h <~ sort lt h (S k (s0, s1)) ;; Ok (h, s0, s1)
  | CMerge k lt => '(h, s, r) <~ merge lt h (S k (s0, s1)) (S (negb k) (s0, s1)) ;; ret2 k h s r
  | CReverse k => h <~ reverse h (S k (s0, s1)) ;; Ok (h, s0, s1)
  | CRemoveIf k pred => '(h, s, _) <~ remove_if pred h (S k (s0, s1)) ;; ret1 k h s
  | CUnique k eq => '(h, s, _) <~ unique eq h (S k (s0, s1)) ;; ret1 k h s
  end.
Notation lists := (list (nat * V) * list (nat * V))%type.
(** [spec hd h c L Post]: in memory [h] with contents [L] the call is allowed, and [Post] describes the contents it must leave *)
Inductive spec (hd : nat * nat) h (L : lists) : call -> (lists -> Prop) -> Prop :=
| sp_insert k a b new v : pick k L = a ++ b -> h new = None -> new <> 0 ->
    spec hd h L (CInsert k (fst_of (pick k hd) b) new v) (fun L' => L' = put k (a ++ (new, v) :: b) L)
| sp_insert_range k a b news vs : pick k L = a ++ b -> length news = length vs -> NoDup news -> 0 ∉ news -> (forall p, p ∈ news -> h p = None) ->
    spec hd h L (CInsertRange k (fst_of (pick k hd) b) news vs) (fun L' => L' = put k (a ++ zip news vs ++ b) L)
| sp_erase k a x b : pick k L = a ++ x :: b -> spec hd h L (CErase k x.1) (fun L' => L' = put k (a ++ b) L)
| sp_erase_range k a m b : pick k L = a ++ m ++ b ->
    spec hd h L (CEraseRange k (fst_of (pick k hd) (m ++ b)) (fst_of (pick k hd) b)) (fun L' => L' = put k (a ++ b) L)
| sp_clear k : spec hd h L (CClear k) (fun L' => L' = put k [] L)
| sp_splice_all k a b : pick k L = a ++ b ->
    spec hd h L (CSpliceAll k (fst_of (pick k hd) b)) (fun L' => L' = put (negb k) [] (put k (a ++ pick (negb k) L ++ b) L))
| sp_splice_one k a b c x d : pick k L = a ++ b -> pick (negb k) L = c ++ x :: d ->
    spec hd h L (CSpliceOne k (fst_of (pick k hd) b) x.1) (fun L' => L' = put (negb k) (c ++ d) (put k (a ++ x :: b) L))
| sp_splice_range k a b c m d : pick k L = a ++ b -> pick (negb k) L = c ++ m ++ d ->
    spec hd h L (CSpliceRange k (fst_of (pick k hd) b) (fst_of (pick (negb k) hd) (m ++ d)) (fst_of (pick (negb k) hd) d))
      (fun L' => L' = put (negb k) (c ++ d) (put k (a ++ m ++ b) L))
| sp_splice_later k a m b c : pick k L = a ++ m ++ b ++ c ->
    spec hd h L (CSpliceSame k (fst_of (pick k hd) c) (fst_of (pick k hd) (m ++ b ++ c)) (fst_of (pick k hd) (b ++ c))) (fun L' => L' = put k (a ++ b ++ m ++ c) L)
| sp_splice_earlier k a b m c : pick k L = a ++ b ++ m ++ c -> b <> [] \/ m = [] ->
    spec hd h L (CSpliceSame k (fst_of (pick k hd) (b ++ m ++ c)) (fst_of (pick k hd) (m ++ c)) (fst_of (pick k hd) c)) (fun L' => L' = put k (a ++ m ++ b ++ c) L)
| sp_sort k lt : StrictWeakOrder lt ->
    spec hd h L (CSort k lt) (fun L' => exists l', L' = put k l' L /\ sorted (byval lt) l' /\ stable_eq (byval lt) (pick k L) l' /\ l' ≡ₚ pick k L)
| sp_merge k lt : StrictWeakOrder lt -> sorted (byval lt) (pick k L) -> sorted (byval lt) (pick (negb k) L) ->
    spec hd h L (CMerge k lt) (fun L' => exists l', L' = put (negb k) [] (put k l' L) /\ sorted (byval lt) l' /\
      stable_eq (byval lt) (pick k L ++ pick (negb k) L) l' /\ l' ≡ₚ pick k L ++ pick (negb k) L)
| sp_reverse k : spec hd h L (CReverse k) (fun L' => L' = put k (rev (pick k L)) L)
| sp_remove_if k pred : spec hd h L (CRemoveIf k pred) (fun L' => L' = put k (List.filter (fun x : nat * V => negb (pred x.2)) (pick k L)) L)
| sp_unique k eq : spec hd h L (CUnique k eq) (fun L' => L' = put k (uniq eq (pick k L)) L).
(** both lists are well formed and share no node *)
Definition inv (hd : nat * nat) (st : state) (L : lists) : Prop :=
  let '(h, s0, s1) := st in lhead s0 = hd.1 /\ lhead s1 = hd.2 /\ is_list h s0 L.1 /\ is_list h s1 L.2 /\ disj hd.1 L.1 hd.2 L.2.
(** every allowed call of the history succeeds, does what its specification says, and keeps both lists well formed *)
Fixpoint history_ok (hd : nat * nat) (cs : list call) (st : state) (L : lists) : Prop :=
  match cs with
  | [] => True
  | c :: cs => forall Post, spec hd (st.1.1) L c Post ->
      exists st' L', exec c st = Ok st' /\ Post L' /\ inv hd st' L' /\ history_ok hd cs st' L'
  end.

Lemma inv1 hd h s0 s1 L k h' s' l' (extra : list nat) :
  inv hd (h, s0, s1) L -> lhead s' = pick k hd -> is_list h' s' l' -> frame h h' (extra ++ pick k hd :: (pick k L).*1) ->
  (forall p, p ∈ extra -> h p = None) -> (forall p, p ∈ l'.*1 -> p ∈ extra ++ (pick k L).*1) ->
  inv hd (h', (put k s' (s0, s1)).1, (put k s' (s0, s1)).2) (put k l' L).
Proof.
  intros (H0 & H1 & L0 & L1 & D) Hs Hl F Hx Hsub. destruct L as [l0 l1], hd as [d0 d1]; cbn in *.
  assert (NX : forall (p : nat) l (d : nat), ring h d l -> p ∈ d :: l.*1 -> p ∈ extra -> False).
  { intros p l d R Hp He. destruct (ring_alloc _ _ _ _ R Hp) as [n E]. rewrite Hx in E; done. }
  destruct k; cbn in *.
  - split_and!; try done.
    + destruct L0 as [R0 Sz]. split; [|done]. eapply ring_frame; [exact R0|]. intros p Hp. apply F. intros X. apply elem_of_app in X as [X|X]; [by eapply NX|]. apply (D p); [by rewrite <- H0|done].
    + intros p Hp Hq. apply elem_of_cons in Hq as [->|Hq]; [apply (D d1); [done|left]|]. apply Hsub in Hq. apply elem_of_app in Hq as [Hq|Hq]; [eapply NX; [apply L0|by rewrite H0|done]|]. apply (D p); [done|by right].
  - split_and!; try done.
    + destruct L1 as [R1 Sz]. split; [|done]. eapply ring_frame; [exact R1|]. intros p Hp. apply F. intros X. apply elem_of_app in X as [X|X]; [by eapply NX|]. apply (D p); [done|by rewrite <- H1].
    + intros p Hp Hq. apply elem_of_cons in Hp as [->|Hp]; [apply (D d0); [left|done]|]. apply Hsub in Hp. apply elem_of_app in Hp as [Hp|Hp]; [eapply NX; [apply L1|by rewrite H1|done]|]. apply (D p); [by right|done].
Qed.
Lemma inv2 hd h s0 s1 L k h' s' r' l' m' :
  inv hd (h, s0, s1) L -> lhead s' = pick k hd -> lhead r' = pick (negb k) hd -> is_list h' s' l' -> is_list h' r' m' ->
  l' ++ m' ≡ₚ pick k L ++ pick (negb k) L ->
  inv hd (h', (put (negb k) r' (put k s' (s0, s1))).1, (put (negb k) r' (put k s' (s0, s1))).2) (put (negb k) m' (put k l' L)).
Proof.
  intros (H0 & H1 & L0 & L1 & D) Hs Hr Hl Hm E. destruct L as [l0 l1], hd as [d0 d1]; cbn in *.
  assert (ND : NoDup (d0 :: d1 :: (l0 ++ l1).*1)).
  { destruct L0 as [(N0 & _) _], L1 as [(N1 & _) _]. rewrite H0 in N0. rewrite H1 in N1. apply list.NoDup_cons in N0 as [A0 B0]. apply list.NoDup_cons in N1 as [A1 B1]. rewrite ptrs_app.
    apply list.NoDup_cons. split; [|apply list.NoDup_cons; split].
    - rewrite elem_of_cons, elem_of_app. intros [X|[X|X]]; [|done|].
      + apply (D d0); [left|]. rewrite X. left.
      + apply (D d0); [left|by right].
    - rewrite elem_of_app. intros [X|X]; [|done]. apply (D d1); [by right|left].
    - apply list.NoDup_app. split_and!; try done. intros p Hp Hq. apply (D p); by right. }
  destruct k; cbn in *.
  - split_and!; try done. rewrite (Permutation_app_comm l0 l1), <- E, ptrs_app in ND. apply list.NoDup_cons in ND as [A0 ND]. apply list.NoDup_cons in ND as [A1 ND]. apply list.NoDup_app in ND as (_ & ND & _).
    rewrite !elem_of_cons, !elem_of_app in *. intros p. rewrite !elem_of_cons. intros [->|X] [Y|Y]; try naive_solver.
  - split_and!; try done. rewrite <- E, ptrs_app in ND. apply list.NoDup_cons in ND as [A0 ND]. apply list.NoDup_cons in ND as [A1 ND]. apply list.NoDup_app in ND as (_ & ND & _).
    rewrite !elem_of_cons, !elem_of_app in *. intros p. rewrite !elem_of_cons. intros [->|X] [Y|Y]; try naive_solver.
Qed.
Lemma inv_pick hd h s0 s1 L k : inv hd (h, s0, s1) L -> lhead (pick k (s0, s1)) = pick k hd /\ is_list h (pick k (s0, s1)) (pick k L) /\
  disj (pick k hd) (pick k L) (pick (negb k) hd) (pick (negb k) L).
Proof. intros (H0 & H1 & L0 & L1 & D). destruct k; cbn; split_and!; try done. intros p Hp Hq. by apply (D p). Qed.
Lemma put_pick {A} k (p : A * A) : put k (pick k p) p = p.
Proof. by destruct p, k. Qed.

Lemma step_ok hd (cc : call) st L Post : inv hd st L -> spec hd (st.1.1) L cc Post -> exists st' L', exec cc st = Ok st' /\ Post L' /\ inv hd st' L'.
Proof.
  destruct st as [[h s0] s1]. cbn [fst]. intros I Sp.
  assert (PK : forall k, lhead (pick k (s0, s1)) = pick k hd /\ is_list h (pick k (s0, s1)) (pick k L) /\ disj (pick k hd) (pick k L) (pick (negb k) hd) (pick (negb k) L)) by (intros; by eapply inv_pick).
  destruct Sp; destruct (PK k) as (Hh & Hl & Hd); destruct (PK (negb k)) as (Hh' & Hl' & _); cbn [exec].
  - rewrite H in Hl. destruct (C29_insert _ _ _ _ new v Hl H0 H1) as (h' & E & X & F). rewrite <- Hh, E, rbind_ok. eexists _, _. split; [done|]. split; [done|].
    eapply (inv1 _ _ _ _ _ _ _ _ _ [new]); [exact I|done|done|by rewrite <- Hh, H| |].
    + intros p Hp. apply elem_of_list_singleton in Hp as ->. done.
    + intros p. rewrite H, !ptrs_app, fmap_cons, !elem_of_app, elem_of_cons, elem_of_list_singleton. naive_solver.
  - rewrite H in Hl. destruct (C29_insert_range _ _ _ _ news vs Hl H0 H1 H2 H3) as (h' & s' & E & Es & X & F). rewrite <- Hh, E, rbind_ok. eexists _, _. split; [done|]. split; [done|].
    eapply (inv1 _ _ _ _ _ _ _ _ _ news); [exact I|by rewrite Es|done|by rewrite <- Hh, H|done|].
    intros p. rewrite H, !ptrs_app, (fst_zip news vs) by lia. rewrite !elem_of_app. naive_solver.
  - rewrite H in Hl. destruct (C29_erase _ _ _ _ _ Hl) as (h' & E & X & F & _). rewrite E, rbind_ok. eexists _, _. split; [done|]. split; [done|].
    eapply (inv1 _ _ _ _ _ _ _ _ _ []); [exact I|done|done|by rewrite <- Hh, H|intros p Hp%elem_of_nil; done|].
    intros p. rewrite H, !ptrs_app, fmap_cons, !elem_of_app, elem_of_cons. naive_solver.
  - rewrite H in Hl. destruct (C29_erase_range _ _ _ _ _ Hl) as (h' & E & X & F & _). rewrite <- Hh, E, rbind_ok. eexists _, _. split; [done|]. split; [done|].
    eapply (inv1 _ _ _ _ _ _ _ _ _ []); [exact I|done|done|by rewrite <- Hh, H|intros p Hp%elem_of_nil; done|].
    intros p. rewrite H, !ptrs_app, !elem_of_app. naive_solver.
  - destruct (C29_clear _ _ _ Hl) as (h' & E & X & F & _). rewrite E, rbind_ok. eexists _, _. split; [done|]. split; [done|].
    eapply (inv1 _ _ _ _ _ _ _ _ _ []); [exact I|done|done|by rewrite <- Hh|intros p Hp%elem_of_nil; done|]. intros p Hp%elem_of_nil. done.
  - rewrite H in Hl, Hd. destruct (C29_splice_all h (pick k (s0, s1)) a b (pick (negb k) (s0, s1)) (pick (negb k) L)) as (h' & s' & r' & E & E1 & E2 & X1 & X2 & _); [done|done|by rewrite Hh, Hh'|].
    rewrite <- Hh, E, rbind_ok. eexists _, _. split; [done|]. split; [done|]. eapply inv2; [exact I|by rewrite E1|by rewrite E2|done|done|].
    rewrite H, app_nil_r. solve_Permutation.
  - rewrite H in Hl. rewrite H0 in Hl'. rewrite H, H0 in Hd. destruct (C29_splice_one h (pick k (s0, s1)) a b (pick (negb k) (s0, s1)) c x d) as (h' & s' & r' & E & E1 & E2 & X1 & X2 & _); [done|done|by rewrite Hh, Hh'|].
    rewrite <- Hh, E, rbind_ok. eexists _, _. split; [done|]. split; [done|]. eapply inv2; [exact I|by rewrite E1|by rewrite E2|done|done|].
    rewrite H, H0. change (a ++ x :: b) with (a ++ [x] ++ b). change (c ++ x :: d) with (c ++ [x] ++ d). solve_Permutation.
  - rewrite H in Hl. rewrite H0 in Hl'. rewrite H, H0 in Hd. destruct (C29_splice_range h (pick k (s0, s1)) a b (pick (negb k) (s0, s1)) c m d) as (h' & s' & r' & E & E1 & E2 & X1 & X2 & _); [done|done|by rewrite Hh, Hh'|].
    rewrite <- Hh, <- Hh', E, rbind_ok. eexists _, _. split; [done|]. split; [done|]. eapply inv2; [exact I|by rewrite E1|by rewrite E2|done|done|].
    rewrite H, H0. solve_Permutation.
  - rewrite H in Hl. destruct (C29_splice_range_same_later _ _ _ _ _ _ Hl) as (h' & E & X & F). rewrite <- Hh, E, rbind_ok. eexists _, _. split; [done|]. split; [done|].
    eapply (inv1 _ _ _ _ _ _ _ _ _ []); [exact I|done|done|by rewrite <- Hh, H|intros p Hp%elem_of_nil; done|].
    intros p. rewrite H, !ptrs_app, !elem_of_app. naive_solver.
  - rewrite H in Hl. destruct (C29_splice_range_same_earlier _ _ _ _ _ _ Hl H0) as (h' & E & X & F). rewrite <- Hh, E, rbind_ok. eexists _, _. split; [done|]. split; [done|].
    eapply (inv1 _ _ _ _ _ _ _ _ _ []); [exact I|done|done|by rewrite <- Hh, H|intros p Hp%elem_of_nil; done|].
    intros p. rewrite H, !ptrs_app, !elem_of_app. naive_solver.
  - destruct (C29_sort lt H _ _ _ Hl) as (h' & l' & E & X & S1 & S2 & S3 & F). rewrite E, rbind_ok. exists (h', s0, s1), (put k l' L). split; [done|]. split; [by exists l'|].
    pose proof (inv1 hd h s0 s1 L k h' (pick k (s0, s1)) l' []) as Y. rewrite put_pick in Y. apply Y; [exact I|done|done|by rewrite <- Hh|intros p Hp%elem_of_nil; done|]. intros p. by rewrite S3.
  - destruct (C29_merge lt H h (pick k (s0, s1)) (pick k L) (pick (negb k) (s0, s1)) (pick (negb k) L)) as (h' & s' & r' & l' & E & E1 & E2 & X1 & X2 & S1 & S2 & S3 & _); [done|done|by rewrite Hh, Hh'|done|done|].
    rewrite E, rbind_ok. eexists _, (put (negb k) [] (put k l' L)). split; [done|]. split; [by exists l'|]. eapply inv2; [exact I|by rewrite E1|by rewrite E2|done|done|].
    by rewrite app_nil_r.
  - destruct (C29_reverse _ _ _ Hl) as (h' & E & X & F). rewrite E, rbind_ok. exists (h', s0, s1), (put k (rev (pick k L)) L). split; [done|]. split; [done|].
    pose proof (inv1 hd h s0 s1 L k h' (pick k (s0, s1)) (rev (pick k L)) []) as Y. rewrite put_pick in Y. apply Y; [exact I|done|done|by rewrite <- Hh|intros p Hp%elem_of_nil; done|]. intros p. by rewrite <- Permutation_rev.
  - destruct (C29_remove_if _ _ _ pred Hl) as (h' & E & X & _ & F). rewrite E, rbind_ok. eexists _, _. split; [done|]. split; [done|].
    eapply (inv1 _ _ _ _ _ _ _ _ _ []); [exact I|done|done|by rewrite <- Hh|intros p Hp%elem_of_nil; done|].
    intros p Hp. cbn [app]. apply elem_of_list_fmap in Hp as (y & -> & Hy). apply elem_of_list_fmap. exists y. split; [done|]. apply elem_of_list_In in Hy. apply filter_In in Hy as [Hy _]. by apply elem_of_list_In.
  - destruct (C29_unique _ _ _ eq Hl) as (h' & E & X & _ & F). rewrite E, rbind_ok. eexists _, _. split; [done|]. split; [done|].
    eapply (inv1 _ _ _ _ _ _ _ _ _ []); [exact I|done|done|by rewrite <- Hh|intros p Hp%elem_of_nil; done|].
    intros p. destruct (pick k L) as [|x l]; [done|]. cbn [uniq]. intros Hp. cbn [app]. rewrite <- (uniq_split eq x l), ptrs_app. apply elem_of_app. by left.
Qed.
Theorem C29_history hd cs st L : inv hd st L -> history_ok hd cs st L.
Proof.
  revert st L. induction cs as [|c cs IH]; intros st L I; [done|]. cbn [history_ok]. intros Post Sp.
  destruct (step_ok _ _ _ _ _ I Sp) as (st' & L' & E & P & I'). exists st', L'. split_and!; try done. by apply IH.
Qed.
End props.

(** *** satisfiability: two lists [5; 3; 5] and [4] in one heap *)
Definition ex_heap : heap nat := fun p =>
  match p with
  | 1 => Some (Node 11 13 None) | 11 => Some (Node 12 1 (Some 5)) | 12 => Some (Node 13 11 (Some 3)) | 13 => Some (Node 1 12 (Some 5))
  | 2 => Some (Node 21 21 None) | 21 => Some (Node 2 2 (Some 4))
  | _ => None
  end.
Definition ex_st : state (V := nat) := (ex_heap, Lst 1 3, Lst 2 1).
Definition ex_lists : list (nat * nat) * list (nat * nat) := ([(11, 5); (12, 3); (13, 5)], [(21, 4)]).
Example C29_sat : inv (1, 2) ex_st ex_lists.
Proof.
  unfold inv, ex_st. split; [done|]. split; [done|]. split; [|split].
  - split; [|done]. split; [apply (bool_decide_unpack _); vm_compute; exact I|]. split; [apply (bool_decide_unpack _); vm_compute; exact I|]. split; [vm_compute; tauto|]. repeat constructor.
  - split; [|done]. split; [apply (bool_decide_unpack _); vm_compute; exact I|]. split; [apply (bool_decide_unpack _); vm_compute; exact I|]. split; [vm_compute; tauto|]. repeat constructor.
  - intros p Hp Hq. cbn in Hp, Hq. rewrite !elem_of_cons in Hp. rewrite !elem_of_cons in Hq. destruct Hp as [?|[?|[?|[?|Hp%elem_of_nil]]]], Hq as [?|[?|Hq%elem_of_nil]]; lia || done.
Qed.
Example C29_sat_run : match sort Nat.ltb ex_heap (Lst 1 3) with
  | Ok h' => forward h' (Lst 1 3) = Ok [3; 5; 5] /\ N h' 12 = Ok 11 /\ N h' 11 = Ok 13 | _ => False end.
Proof. vm_compute. repeat split; reflexivity. Qed.
Example C29_sat_history : match exec (CSpliceOne false 12 21) ex_st with
  | Ok st' => forward st'.1.1 st'.1.2 = Ok [5; 4; 3; 5] /\ forward st'.1.1 st'.2 = Ok [] | _ => False end.
Proof. vm_compute. repeat split; reflexivity. Qed.

Print Assumptions C29_forward.
Print Assumptions C29_backward.
Print Assumptions C29_insert.
Print Assumptions C29_push_front.
Print Assumptions C29_push_back.
Print Assumptions C29_insert_range.
Print Assumptions C29_erase.
Print Assumptions C29_pop_front.
Print Assumptions C29_pop_back.
Print Assumptions C29_erase_range.
Print Assumptions C29_clear.
Print Assumptions C29_splice_all.
Print Assumptions C29_splice_one.
Print Assumptions C29_splice_range.
Print Assumptions C29_splice_one_same_later.
Print Assumptions C29_splice_one_same_earlier.
Print Assumptions C29_splice_range_same_later.
Print Assumptions C29_splice_range_same_earlier.
Print Assumptions C29_sort.
Print Assumptions C29_merge.
Print Assumptions C29_merge_self.
Print Assumptions C29_reverse.
Print Assumptions C29_remove_if.
Print Assumptions C29_unique.
Print Assumptions C29_history.
