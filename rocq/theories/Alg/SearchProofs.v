From stdpp Require Import base list numbers.
From Coq Require Import Lia ZifyNat.
From Verif Require Import Base.Res Base.Arr Alg.SearchModel Alg.SearchSpec.
Ltac Zify.zify_post_hook ::= Z.div_mod_to_equations.

Section search.
  Context {A V : Type}.
  Implicit Types (l : list A).

  (* loop invariant of all three searches *)
  Definition bs_inv (p : A -> bool) (F L : nat) l (s : nat * nat) : Prop :=
    let '(f, c) := s in (F <= f)%nat /\ (f + c <= L)%nat /\
      (forall i x, (F <= i < f)%nat -> l !! i = Some x -> p x = true) /\
      (forall i x, (f + c <= i < L)%nat -> l !! i = Some x -> p x = false).

  Lemma bs_right p F L l f c x :
    partitioned p F L l -> bs_inv p F L l (f, c) -> (0 < c)%nat ->
    l !! (f + c / 2)%nat = Some x -> p x = true -> bs_inv p F L l (S (f + c / 2), c - (c / 2 + 1))%nat.
  Proof.
    intros Hp (H1 & H2 & H3 & H4) Hc Hx Hpx. split; [lia|]. split; [lia|]. split.
    - intros i y Hi Hy. destruct (decide (i < f)%nat); [apply (H3 i); [lia|done]|].
      destruct (decide (i = f + c / 2)%nat) as [->|]; [congruence|].
      destruct (p y) eqn:E; [done|]. rewrite (Hp i (f + c / 2)%nat y x) in Hpx; try done; lia.
    - intros i y Hi Hy. apply (H4 i); [lia|done].
  Qed.
  Lemma bs_left p F L l f c x :
    partitioned p F L l -> bs_inv p F L l (f, c) -> (0 < c)%nat ->
    l !! (f + c / 2)%nat = Some x -> p x = false -> bs_inv p F L l (f, c / 2)%nat.
  Proof.
    intros Hp (H1 & H2 & H3 & H4) Hc Hx Hpx. split; [lia|]. split; [lia|]. split; [done|].
    intros i y Hi Hy. destruct (decide (f + c <= i)%nat); [apply (H4 i); [lia|done]|].
    destruct (decide (i = f + c / 2)%nat) as [->|]; [congruence|].
    apply (Hp (f + c / 2)%nat i x y); try done; lia.
  Qed.
  Lemma bs_init p F L l : (F <= L)%nat -> bs_inv p F L l (F, L - F)%nat.
  Proof. intros. split; [lia|]. split; [lia|]. split; intros; lia. Qed.
  Lemma bs_done p F L l f c : bs_inv p F L l (f, c) -> (c <= 0)%nat -> is_partition_point p F L l f.
  Proof.
    intros (H1 & H2 & H3 & H4) Hc. split; [lia|]. split; [done|]. intros i x Hi. apply H4. lia.
  Qed.

  Lemma lower_bound_wp (lt_av : A -> V -> bool) l first last v :
    (first <= last)%nat -> (last <= length l)%nat -> partitioned (fun x => lt_av x v) first last l ->
    wp (lower_bound lt_av (full l) first last v) (is_partition_point (fun x => lt_av x v) first last l).
  Proof.
    intros Hfl Hlen Hp. unfold lower_bound.
    apply (wp_loop (bs_inv (fun x => lt_av x v) first last l) (fun s => s.2)); [|by apply bs_init|simpl; lia].
    intros [f c] Hi. pose proof Hi as (H1 & H2 & _). destruct (decide (0 < c)%nat) as [Hc|Hc].
    - cbv zeta. wbind. apply wp_rd_full'; [lia|]. intros x Hx.
      destruct (lt_av x v) eqn:E; apply wp_ok; (split; [|cbn [fst snd]; lia]).
      + by eapply bs_right.
      + by eapply bs_left.
    - apply wp_ok. eapply bs_done; [done|lia].
  Qed.

  Lemma upper_bound_wp (lt_va : V -> A -> bool) l first last v :
    (first <= last)%nat -> (last <= length l)%nat -> partitioned (fun x => negb (lt_va v x)) first last l ->
    wp (upper_bound lt_va (full l) first last v) (is_partition_point (fun x => negb (lt_va v x)) first last l).
  Proof.
    intros Hfl Hlen Hp. unfold upper_bound.
    apply (wp_loop (bs_inv (fun x => negb (lt_va v x)) first last l) (fun s => s.2)); [|by apply bs_init|simpl; lia].
    intros [f c] Hi. pose proof Hi as (H1 & H2 & _). destruct (decide (0 < c)%nat) as [Hc|Hc].
    - cbv zeta. wbind. apply wp_rd_full'; [lia|]. intros x Hx.
      destruct (lt_va v x) eqn:E; apply wp_ok; (split; [|cbn [fst snd]; lia]).
      + eapply bs_left; try done. simpl. by rewrite E.
      + eapply bs_right; try done. simpl. by rewrite E.
    - apply wp_ok. eapply bs_done; [done|lia].
  Qed.

  Lemma partition_point_wp (p : A -> bool) l first last :
    (first <= last)%nat -> (last <= length l)%nat -> partitioned p first last l ->
    wp (partition_point p (full l) first last) (is_partition_point p first last l).
  Proof.
    intros Hfl Hlen Hp. unfold partition_point.
    apply (wp_loop (bs_inv p first last l) (fun s => s.2)); [|by apply bs_init|simpl; lia].
    intros [f c] Hi. pose proof Hi as (H1 & H2 & _). destruct (decide (0 < c)%nat) as [Hc|Hc].
    - cbv zeta. wbind. apply wp_rd_full'; [lia|]. intros x Hx.
      destruct (p x) eqn:E; apply wp_ok; (split; [|cbn [fst snd]; lia]).
      + replace (c - c / 2 - 1)%nat with (c - (c / 2 + 1))%nat by lia. by eapply bs_right.
      + by eapply bs_left.
    - apply wp_ok. eapply bs_done; [done|lia].
  Qed.

  Lemma partitioned_sub (p : A -> bool) f t f' t' l :
    partitioned p f t l -> (f <= f')%nat -> (t' <= t)%nat -> partitioned p f' t' l.
  Proof. intros H ?? i j x y ???. apply H; lia. Qed.

  Lemma pp_unique (p : A -> bool) f t l r r' : (t <= length l)%nat ->
    is_partition_point p f t l r -> is_partition_point p f t l r' -> r = r'.
  Proof.
    intros Hlen (H1 & H2 & H3) (H1' & H2' & H3').
    destruct (decide (r < r')%nat).
    { destruct (lookup_lt_is_Some_2 l r) as [x Hx]; [lia|].
      assert (p x = true) by (apply (H2' r); [lia|done]). rewrite (H3 r x) in H; try done; lia. }
    destruct (decide (r' < r)%nat).
    { destruct (lookup_lt_is_Some_2 l r') as [x Hx]; [lia|].
      assert (p x = true) by (apply (H2 r'); [lia|done]). rewrite (H3' r' x) in H; try done; lia. }
    lia.
  Qed.

  (* an element that is "less" is also "not greater" along the range *)
  Definition compat (lt_av : A -> V -> bool) (lt_va : V -> A -> bool) (v : V) (first last : nat) l : Prop :=
    forall i x, (first <= i < last)%nat -> l !! i = Some x -> lt_av x v = true -> lt_va v x = false.

  Lemma equal_range_wp (lt_av : A -> V -> bool) (lt_va : V -> A -> bool) l F L v :
    (F <= L)%nat -> (L <= length l)%nat ->
    partitioned (fun x => lt_av x v) F L l -> partitioned (fun x => negb (lt_va v x)) F L l ->
    compat lt_av lt_va v F L l ->
    wp (equal_range lt_av lt_va (full l) F L v) (fun '(r1, r2) =>
       is_partition_point (fun x => lt_av x v) F L l r1 /\ is_partition_point (fun x => negb (lt_va v x)) F L l r2).
  Proof.
    intros Hfl Hlen Hp Hq Hc. unfold equal_range.
    apply (wp_loop (fun s => bs_inv (fun x => lt_av x v) F L l s /\ bs_inv (fun x => negb (lt_va v x)) F L l s)
      (fun s => s.2)); [|split; by apply bs_init|simpl; lia].
    intros [f c] [Hi Hj]. pose proof Hi as (H1 & H2 & H3 & H4). pose proof Hj as (_ & _ & H3' & H4').
    destruct (decide (c <= 0)%nat) as [Hd|Hd].
    - apply wp_ok. split; by eapply bs_done.
    - cbv zeta. wbind. apply wp_rd_full'; [lia|]. intros x Hx.
      destruct (lt_av x v) eqn:E.
      { apply wp_ok. split; [|cbn [fst snd]; lia]. split; (eapply bs_right; try done; try lia).
        simpl. rewrite (Hc (f + c / 2)%nat x); try done; lia. }
      destruct (lt_va v x) eqn:E'.
      { apply wp_ok. split; [|cbn [fst snd]; lia]. split; (eapply bs_left; try done; try lia).
        simpl. by rewrite E'. }
      wbind. eapply wp_mono; [apply lower_bound_wp; [lia|lia|]|].
      { eapply partitioned_sub; [exact Hp|lia|lia]. }
      intros r1 (R1 & R2 & R3).
      wbind. eapply wp_mono; [apply upper_bound_wp; [lia|lia|]|].
      { eapply partitioned_sub; [exact Hq|lia|lia]. }
      intros r2 (T1 & T2 & T3). apply wp_ok. split.
      + split; [lia|]. split.
        * intros i y Hiy Hy. destruct (decide (i < f)%nat); [apply (H3 i); [lia|done]|]. apply (R2 i); [lia|done].
        * intros i y Hiy Hy. destruct (decide (i < f + c / 2)%nat); [apply (R3 i); [lia|done]|].
          destruct (decide (i = f + c / 2)%nat) as [->|]; [congruence|].
          apply (Hp (f + c / 2)%nat i x y); try done; lia.
      + split; [lia|]. split.
        * intros i y Hiy Hy. destruct (decide (S (f + c / 2) <= i)%nat); [apply (T2 i); [lia|done]|].
          destruct (decide (i = f + c / 2)%nat) as [->|]; [assert (y = x) as -> by congruence; by rewrite E'|].
          destruct (negb (lt_va v y)) eqn:Ey; [done|].
          assert (negb (lt_va v x) = false); [|by rewrite E' in *].
          apply (Hq i (f + c / 2)%nat y x); try done; lia.
        * intros i y Hiy Hy. destruct (decide (i < f + c)%nat); [apply (T3 i); [lia|done]|]. apply (H4' i); [lia|done].
  Qed.

  Lemma binary_search_wp (lt_av : A -> V -> bool) (lt_va : V -> A -> bool) l first last v :
    (first <= last)%nat -> (last <= length l)%nat ->
    partitioned (fun x => lt_av x v) first last l -> partitioned (fun x => negb (lt_va v x)) first last l ->
    wp (binary_search lt_av lt_va (full l) first last v) (fun b => b = true <->
       exists i x, (first <= i < last)%nat /\ l !! i = Some x /\ lt_av x v = false /\ lt_va v x = false).
  Proof.
    intros Hfl Hlen Hp Hq. unfold binary_search.
    wbind. eapply wp_mono; [by apply lower_bound_wp|]. intros r (R1 & R2 & R3). simpl in *.
    case_decide as Hr.
    - wbind. apply wp_rd_full'; [lia|]. intros x Hx. apply wp_ok. split.
      + intros E. exists r, x. split; [lia|]. split; [done|]. split; [apply (R3 r); [lia|done]|by destruct (lt_va v x)].
      + intros (i & y & Hi & Hy & E1 & E2). destruct (decide (i = r)) as [->|].
        { assert (y = x) as -> by congruence. by rewrite E2. }
        destruct (decide (i < r)%nat). { rewrite (R2 i y) in E1; try done; lia. }
        destruct (negb (lt_va v x)) eqn:E; [done|].
        pose proof (Hq r i x y ltac:(lia) ltac:(lia) ltac:(lia) Hx Hy E) as E3. simpl in E3. by rewrite E2 in E3.
    - apply wp_ok. split; [done|]. intros (i & y & Hi & Hy & E1 & E2).
      rewrite (R2 i y) in E1; try done; lia.
  Qed.
End search.
