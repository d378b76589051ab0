(** C02, C03, C06: heap algorithms, std::sort, nth_element, partial_sort.
    Vocabulary: [full l] is an array whose cells all hold the values [l]; [Ok r] means the call terminated
    without touching memory outside the array and without reading a moved-from object ([UB]), and without
    running out of the model's loop fuel ([Fuel]); [same_outside first last l l'] says the array kept its
    length and all cells outside [first,last) are unchanged. *)
From stdpp Require Import base list numbers.
From Coq Require Import Lia ZifyBool ZifyNat.
From Verif Require Import Base.Res Base.Order Base.OrderLemmas Base.Arr Base.Stable
  Alg.HeapModel Alg.HeapSpec Alg.HeapProofs Alg.SortModel Alg.SortProofs Alg.NthProofs.

Section props.
  Context {A : Type} (lt : A -> A -> bool) (SW : StrictWeakOrder lt).

  Theorem C02_push_heap : forall first last (l : list A),
    (first < last)%nat -> (last <= length l)%nat ->
    is_heap_range lt first (last - 1 - first) l ->
    exists l', push_heap lt (full l) first last = Ok (full l') /\
      l' ≡ₚ l /\ same_outside first last l l' /\ is_heap_range lt first (last - first) l'.
  Proof. intros f t l H1 H2 H3. destruct (wp_exists _ _ (push_heap_wp lt SW f t l H1 H2 H3)) as (a & -> & l' & -> & H). eauto. Qed.

  Theorem C02_pop_heap : forall first last (l : list A),
    (first < last)%nat -> (last <= length l)%nat ->
    is_heap_range lt first (last - first) l ->
    exists l' m, pop_heap lt (full l) first last = Ok (full l') /\
      l' ≡ₚ l /\ same_outside first last l l' /\ is_heap_range lt first (last - 1 - first) l' /\
      (* a maximal element is now in the last position *)
      l' !! (last - 1)%nat = Some m /\ range_all (fun x => lt m x = false) first last l'.
  Proof.
    intros f t l H1 H2 H3. destruct (wp_exists _ _ (pop_heap_wp lt SW f t l H1 H2 H3)) as (a & -> & l' & -> & Hp & Hs & Hh & Hm).
    destruct (lookup_lt_is_Some_2 l f) as [m Em]; [lia|]. exists l', m.
    split; [done|]. split; [done|]. split; [done|]. split; [done|]. split; [by rewrite Hm|].
    apply (range_all_perm _ f t l l'); [done|done|].
    intros i x Hi1 Hi2 Hx. eapply (heap_max lt SW f (t - f) l H3 (i - f)); [lia|done|].
    by replace (f + (i - f))%nat with i by lia.
  Qed.

  Theorem C02_make_heap : forall first last (l : list A),
    (first <= last)%nat -> (last <= length l)%nat ->
    exists l', make_heap lt (full l) first last = Ok (full l') /\
      l' ≡ₚ l /\ same_outside first last l l' /\ is_heap_range lt first (last - first) l'.
  Proof. intros f t l H1 H2. destruct (wp_exists _ _ (make_heap_wp lt SW f t l H1 H2)) as (a & -> & l' & -> & H). eauto. Qed.

  Theorem C02_sort_heap : forall first last (l : list A),
    (first <= last)%nat -> (last <= length l)%nat ->
    is_heap_range lt first (last - first) l ->
    exists l', sort_heap lt (full l) first last = Ok (full l') /\
      l' ≡ₚ l /\ same_outside first last l l' /\ sorted_range lt first last l'.
  Proof. intros f t l H1 H2 H3. destruct (wp_exists _ _ (sort_heap_wp lt SW f t l H1 H2 H3)) as (a & -> & l' & -> & H). eauto. Qed.

  Theorem C02_is_heap_until : forall first last (l : list A),
    (first <= last)%nat -> (last <= length l)%nat ->
    exists r, is_heap_until lt (full l) first last = Ok r /\
      (first <= r <= last)%nat /\ is_heap_range lt first (r - first) l /\
      ((r < last)%nat -> ~ is_heap_range lt first (S r - first) l).
  Proof. intros f t l H1 H2. exact (wp_exists _ _ (is_heap_until_wp lt f t l H1 H2)). Qed.

  Theorem C02_is_heap : forall first last (l : list A),
    (first <= last)%nat -> (last <= length l)%nat ->
    exists b, is_heap lt (full l) first last = Ok b /\ (b = true <-> is_heap_range lt first (last - first) l).
  Proof.
    intros f t l H1 H2. destruct (wp_exists _ _ (is_heap_until_wp lt f t l H1 H2)) as (r & E & Hr & Hh & Hn).
    unfold is_heap. rewrite E. simpl. eexists. split; [done|]. rewrite bool_decide_eq_true. split.
    - by intros ->.
    - intros Hall. destruct (decide (r = t)) as [|Hne]; [done|]. exfalso. apply Hn; [lia|].
      intros i x y Hi. apply Hall. lia.
  Qed.

  Theorem C03_sort : forall first last (l : list A),
    (first <= last)%nat -> (last <= length l)%nat ->
    exists l', sort lt (full l) first last = Ok (full l') /\
      l' ≡ₚ l /\ same_outside first last l l' /\ sorted_range lt first last l'.
  Proof. intros f t l H1 H2. destruct (wp_exists _ _ (sort_wp lt SW f t l H1 H2)) as (a & -> & l' & -> & H). eauto. Qed.

  Theorem C06_nth_element : forall first nth last (l : list A),
    (first <= nth)%nat -> (nth <= last)%nat -> (last <= length l)%nat ->
    exists l', nth_element lt (full l) first nth last = Ok (full l') /\
      l' ≡ₚ l /\ same_outside first last l l' /\
      (forall x, (nth < last)%nat -> l' !! nth = Some x ->
         (* nothing before is greater, nothing after is less *)
         range_all (fun y => lt x y = false) first nth l' /\
         range_all (fun y => lt y x = false) nth last l' /\
         (* and x is what a full sort puts at this position, up to equivalence *)
         forall s y, sorted lt s -> s ≡ₚ slice first last l -> s !! (nth - first)%nat = Some y ->
           lt x y = false /\ lt y x = false).
  Proof.
    intros f n t l H1 H2 H3.
    destruct (wp_exists _ _ (nth_element_wp lt SW f n t l H1 H2 H3)) as (a & -> & l' & -> & [Hp Hs] & C1 & C2).
    exists l'. split; [done|]. split; [done|]. split; [done|]. intros x Hn Hx.
    assert (Hl : length l' = length l) by apply Hs.
    split; [|split].
    - intros i y Hi1 Hi2 Hy. apply (C1 i n); try done; lia.
    - intros i y Hi1 Hi2 Hy. destruct (decide (i = n)) as [->|].
      + assert (x = y) as -> by congruence. apply (swo_irrefl _ SW).
      + apply (C2 n i); try done; lia.
    - intros s y Hss Hsp Hy. eapply (nth_rank lt SW f n t l' s x y); try done; try lia.
      rewrite Hsp. symmetry. apply perm_slice; [lia|done|done].
  Qed.

  Theorem C06_partial_sort : forall first mid last (l : list A),
    (first <= mid)%nat -> (mid <= last)%nat -> (last <= length l)%nat ->
    exists l', partial_sort lt (full l) first mid last = Ok (full l') /\
      l' ≡ₚ l /\ same_outside first last l l' /\
      sorted_range lt first mid l' /\
      (* nothing left behind is less than anything selected *)
      (forall i j x y, (first <= i < mid)%nat -> (mid <= j < last)%nat ->
         l' !! i = Some x -> l' !! j = Some y -> lt y x = false).
  Proof.
    intros f n t l H1 H2 H3.
    destruct (wp_exists _ _ (partial_sort_wp lt SW f n t l H1 H2 H3)) as (a & -> & l' & -> & [Hp Hs] & So & C).
    exists l'. split; [done|]. split; [done|]. split; [done|]. split; [done|].
    intros i j x y Hi Hj. apply C; lia.
  Qed.
End props.

(** The hypotheses are met: [<] on [nat] is a strict weak order, and so is comparing only part of the element. *)
Lemma nat_ltb_swo : StrictWeakOrder Nat.ltb.
Proof. split; intros; lia. Qed.
Definition half_lt (x y : nat) : bool := (x / 2 <? y / 2)%nat.
Lemma half_lt_swo : StrictWeakOrder half_lt.
Proof. split; unfold half_lt; intros; lia. Qed.

Example C02_hyps : is_heap_range Nat.ltb 1 4 [9; 7; 5; 6; 1; 8]%nat.
Proof.
  intros i x y Hi. assert (i = 1 \/ i = 2 \/ i = 3)%nat as [->|[->| ->]] by lia; simpl; intros [= <-] [= <-]; done.
Qed.
Example C02_run : push_heap Nat.ltb (full [9; 7; 5; 6; 1; 8]%nat) 1 6 = Ok (full [9; 8; 7; 6; 1; 5]%nat)
  /\ pop_heap Nat.ltb (full [9; 7; 5; 6; 1; 8]%nat) 1 5 = Ok (full [9; 6; 5; 1; 7; 8]%nat).
Proof. split; vm_compute; reflexivity. Qed.
Example C03_run : sort half_lt (full (rev (seq 0 50))) 5 50 =
  Ok (full ([49;48;47;46;45] ++ [1;0;2;3;4;5;6;7;8;9;11;10;12;13;14;15;16;17;18;19;20;21;22;23;25;24;26;27;28;29;30;31;32;33;35;34;36;37;38;39;40;41;42;43;44])%nat).
Proof. vm_compute. reflexivity. Qed.
Example C06_run : nth_element Nat.ltb (full [5;3;9;1;7]%nat) 0 2 5 = Ok (full [1;3;5;7;9]%nat)
  /\ partial_sort Nat.ltb (full [5;3;9;1;7]%nat) 0 2 5 = Ok (full [1;3;9;5;7]%nat).
Proof. split; vm_compute; reflexivity. Qed.

Print Assumptions C02_push_heap.
Print Assumptions C02_pop_heap.
Print Assumptions C02_make_heap.
Print Assumptions C02_sort_heap.
Print Assumptions C02_is_heap_until.
Print Assumptions C02_is_heap.
Print Assumptions C03_sort.
Print Assumptions C06_nth_element.
Print Assumptions C06_partial_sort.
