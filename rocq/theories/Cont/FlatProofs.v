(** Programs that may throw; sorted key sequences. *)
From stdpp Require Import base list numbers.
From Coq Require Import Lia.
From Verif Require Import Base.Res Base.Order Base.OrderLemmas Base.Arr Alg.SearchModel Alg.SearchSpec Alg.SearchProofs Cont.FlatModel Cont.FlatSpec Props.SearchProps.
Local Open Scope nat_scope.

Section run.
  Context {S : Type}.
  Implicit Types s : S.
  Lemma run_mono {A} (m : fm S A) s (Q Q' : A -> S -> Prop) (E E' : S -> Prop) :
    run m s Q E -> (forall a s', Q a s' -> Q' a s') -> (forall s', E s' -> E' s') -> run m s Q' E'.
  Proof. intros H HQ HE o. destruct (H o) as (x & o' & s' & -> & Hn & Hx). exists x, o', s'. split; [done|]. split; [done|]. destruct x; auto. Qed.
  Lemma run_ret {A} (a : A) s (Q : A -> S -> Prop) E : Q a s -> run (fret a) s Q E.
  Proof. intros H o. exists (Ret a), o, s. split; [done|]. split; [eauto|done]. Qed.
  Lemma run_bind {A B} (m : fm S A) (f : A -> fm S B) s Q E : run m s (fun a s' => run (f a) s' Q E) E -> run (fbind m f) s Q E.
  Proof.
    intros H o. unfold fbind. destruct (H o) as (x & o1 & s1 & -> & Hn & Hx). rewrite rbind_ok. destruct x as [a|].
    - destruct (Hx o1) as (y & o2 & s2 & -> & Hn2 & Hy). exists y, o2, s2. split; [done|]. split; [|done]. intros Eo. apply Hn2. by apply Hn.
    - exists Thrown, o1, s1. split; [done|]. split; [|done]. intros Eo. destruct (Hn Eo) as [_ [a [=]]].
  Qed.
  Lemma run_peek {A} (f : S -> res A) s (Q : A -> S -> Prop) (E : S -> Prop) : wp (f s) (fun a => Q a s) -> E s -> run (peek f) s Q E.
  Proof.
    intros H HE o. unfold peek. apply wp_exists in H as (a & Ea & Ha). destruct o as [|[g|] o]; cbn [tick].
    - rewrite Ea, rbind_ok. exists (Ret a), [], s. split; [done|]. split; [eauto|done].
    - exists Thrown, o, s. done.
    - rewrite Ea, rbind_ok. exists (Ret a), o, s. done.
  Qed.
  Lemma run_mut (f : S -> res S) s (Q : unit -> S -> Prop) (E : S -> Prop) : wp (f s) (fun s' => Q tt s') -> (forall g, E g) -> run (mut f) s Q E.
  Proof.
    intros H HE o. unfold mut. apply wp_exists in H as (a & Ea & Ha). destruct o as [|[g|] o]; cbn [tick].
    - rewrite Ea, rbind_ok. exists (Ret tt), [], a. split; [done|]. split; [eauto|done].
    - exists Thrown, o, g. split; [done|]. split; [done|]. apply HE.
    - rewrite Ea, rbind_ok. exists (Ret tt), o, a. done.
  Qed.
  Lemma run_mut_strong (f : S -> res S) s (Q : unit -> S -> Prop) (E : S -> Prop) : wp (f s) (fun s' => Q tt s') -> E s -> run (mut_strong f) s Q E.
  Proof.
    intros H HE o. unfold mut_strong. apply wp_exists in H as (a & Ea & Ha). destruct o as [|[g|] o]; cbn [tick].
    - rewrite Ea, rbind_ok. exists (Ret tt), [], a. split; [done|]. split; [eauto|done].
    - exists Thrown, o, s. done.
    - rewrite Ea, rbind_ok. exists (Ret tt), o, a. done.
  Qed.
  Lemma run_guarded {A} e (m : fm S A) s Q (E : S -> Prop) : run m s Q (fun _ => True) -> E e -> run (guarded e m) s Q E.
  Proof.
    intros H HE o. unfold guarded. destruct (H o) as (x & o1 & s1 & -> & Hn & Hx). rewrite rbind_ok. destruct x as [a|].
    - exists (Ret a), o1, s1. done.
    - exists Thrown, o1, e. done.
  Qed.
  Lemma run_nothrow (f : S -> S) s (Q : unit -> S -> Prop) E : Q tt (f s) -> run (nothrow f) s Q E.
  Proof. intros H o. exists (Ret tt), o, (f s). split; [done|]. split; [eauto|done]. Qed.
  Lemma run_if {A} (b : bool) (m1 m2 : fm S A) s Q E : (b = true -> run m1 s Q E) -> (b = false -> run m2 s Q E) -> run (if b then m1 else m2) s Q E.
  Proof. destruct b; auto. Qed.
End run.

Section keys.
  Context {K : Type} (lt : K -> K -> bool) (SW : StrictWeakOrder lt).
  Implicit Types l : list K.
  Notation below := (below lt). Notation upto := (upto lt). Notation equivs := (equivs lt). Notation has := (has lt).
  Notation equiv := (equiv lt). Notation strictly := (strictly lt).
  Lemma strictly_sorted l : strictly l -> sorted lt l.
  Proof. intros H i j x y Hij Hx Hy. apply (swo_asym lt SW). by apply (H i j). Qed.
  Lemma ordered_sorted uniq l : ordered lt uniq l -> sorted lt l.
  Proof. destruct uniq; [apply strictly_sorted|done]. Qed.
  Lemma filter_all {A} (p : A -> bool) (m : list A) : (forall i x, m !! i = Some x -> p x = true) -> List.filter p m = m.
  Proof. induction m as [|x m IH]; intros H; [done|]. cbn. rewrite (H 0 x eq_refl). f_equal. apply IH. intros i y Hy. by apply (H (S i)). Qed.
  Lemma filter_nil {A} (p : A -> bool) (m : list A) : (forall i x, m !! i = Some x -> p x = false) -> List.filter p m = [].
  Proof. induction m as [|x m IH]; intros H; [done|]. cbn. rewrite (H 0 x eq_refl). apply IH. intros i y Hy. by apply (H (S i)). Qed.
  Lemma filter_pp {A} (p : A -> bool) (m : list A) r : is_partition_point p 0 (length m) m r -> List.filter p m = take r m.
  Proof.
    intros (Hr & H1 & H2). rewrite <-(take_drop r m) at 1. rewrite List.filter_app. rewrite (filter_all _ (take r m)), (filter_nil _ (drop r m)), app_nil_r; [done| |].
    - intros i x Hx. rewrite lookup_drop in Hx. apply (H2 (r + i)); [|done]. apply lookup_lt_Some in Hx. lia.
    - intros i x Hx. pose proof (lookup_lt_Some _ _ _ Hx) as Hi. rewrite take_length in Hi. rewrite lookup_take in Hx by lia. apply (H1 i); [lia|done].
  Qed.
  Lemma count_pp {A} (p : A -> bool) (m : list A) r : is_partition_point p 0 (length m) m r -> length (List.filter p m) = r.
  Proof. intros H. rewrite (filter_pp p m r H), take_length. destruct H as [Hr _]. lia. Qed.
  Lemma below_pp l k : sorted lt l -> is_partition_point (fun x => lt x k) 0 (length l) l (below k l).
  Proof.
    intros Hs. destruct (C01_sorted_is_partitioned lt SW l 0 (length l) k) as (H1 & _ & _); [intros i j x y _ Hij _; by apply Hs|].
    destruct (C01_lower_bound lt l 0 (length l) k ltac:(lia) ltac:(lia) H1) as (r & _ & Hr). unfold FlatSpec.below. by rewrite (count_pp _ _ _ Hr).
  Qed.
  Lemma upto_pp l k : sorted lt l -> is_partition_point (fun x => negb (lt k x)) 0 (length l) l (upto k l).
  Proof.
    intros Hs. destruct (C01_sorted_is_partitioned lt SW l 0 (length l) k) as (_ & H1 & _); [intros i j x y _ Hij _; by apply Hs|].
    destruct (C01_upper_bound lt l 0 (length l) k ltac:(lia) ltac:(lia) H1) as (r & _ & Hr). unfold FlatSpec.upto. by rewrite (count_pp _ _ _ Hr).
  Qed.
  Lemma below_lt l k i x : sorted lt l -> l !! i = Some x -> lt x k = bool_decide (i < below k l).
  Proof.
    intros Hs Hx. destruct (below_pp l k Hs) as (Hr & H1 & H2). pose proof (lookup_lt_Some _ _ _ Hx). destruct (decide (i < below k l)).
    - rewrite bool_decide_true by done. apply (H1 i); [lia|done].
    - rewrite bool_decide_false by done. apply (H2 i); [lia|done].
  Qed.
  Lemma upto_lt l k i x : sorted lt l -> l !! i = Some x -> lt k x = negb (bool_decide (i < upto k l)).
  Proof.
    intros Hs Hx. destruct (upto_pp l k Hs) as (Hr & H1 & H2). pose proof (lookup_lt_Some _ _ _ Hx). destruct (decide (i < upto k l)).
    - rewrite bool_decide_true by done. apply negb_true_iff. apply (H1 i); [lia|done].
    - rewrite bool_decide_false by done. apply negb_false_iff. apply (H2 i); [lia|done].
  Qed.
  Lemma upto_len l k : upto k l <= length l.
  Proof. unfold FlatSpec.upto. induction l as [|x l IH]; cbn; [lia|]. destruct (negb (lt k x)); cbn; lia. Qed.
  Lemma below_len l k : below k l <= length l.
  Proof. unfold FlatSpec.below. induction l as [|x l IH]; cbn; [lia|]. destruct (lt x k); cbn; lia. Qed.
  Lemma below_upto l k : below k l <= upto k l.
  Proof.
    unfold FlatSpec.below, FlatSpec.upto. induction l as [|x l IH]; cbn; [lia|]. destruct (lt x k) eqn:E.
    - rewrite (swo_asym lt SW _ _ E). cbn. lia.
    - destruct (negb (lt k x)); cbn; lia.
  Qed.
  Lemma equivs_diff l k : below k l + equivs k l = upto k l.
  Proof.
    unfold FlatSpec.below, FlatSpec.upto, FlatSpec.equivs, FlatSpec.equiv. induction l as [|x l IH]; [done|]. cbn. destruct (lt x k) eqn:E.
    - rewrite (swo_asym lt SW _ _ E). cbn. lia.
    - destruct (lt k x); cbn; lia.
  Qed.
  Lemma equiv_idx l k i x : sorted lt l -> l !! i = Some x -> equiv k x = bool_decide (below k l <= i < upto k l).
  Proof.
    intros Hs Hx. unfold FlatSpec.equiv. rewrite (below_lt l k i x Hs Hx), (upto_lt l k i x Hs Hx). pose proof (below_upto l k).
    destruct (decide (i < below k l)); destruct (decide (i < upto k l)); try lia; repeat first [rewrite bool_decide_true by lia | rewrite bool_decide_false by lia]; done.
  Qed.
  Lemma has_iff l k : sorted lt l -> has k l <-> below k l < upto k l.
  Proof.
    intros Hs. split.
    - intros (x & Hx & E). apply elem_of_list_lookup in Hx as [i Hx]. rewrite (equiv_idx l k i x Hs Hx) in E. apply bool_decide_eq_true in E. lia.
    - intros H. pose proof (upto_len l k). destruct (lookup_lt_is_Some_2 l (below k l)) as [x Hx]; [lia|]. exists x. split; [by apply elem_of_list_lookup_2 with (below k l)|].
      rewrite (equiv_idx l k _ x Hs Hx). apply bool_decide_eq_true. lia.
  Qed.
  Lemma strictly_one l k : strictly l -> upto k l <= S (below k l).
  Proof.
    intros H. destruct (decide (upto k l <= S (below k l))); [done|]. pose proof (strictly_sorted l H) as Hs. pose proof (upto_len l k).
    destruct (lookup_lt_is_Some_2 l (below k l)) as [x Hx]; [lia|]. destruct (lookup_lt_is_Some_2 l (S (below k l))) as [y Hy]; [lia|].
    pose proof (H _ _ _ _ (Nat.lt_succ_diag_r _) Hx Hy) as Hxy. pose proof (equiv_idx l k _ x Hs Hx) as Ex. pose proof (equiv_idx l k _ y Hs Hy) as Ey.
    rewrite bool_decide_true in Ex, Ey by lia. unfold FlatSpec.equiv in Ex, Ey. apply andb_true_iff in Ex as [E1 E2], Ey as [E3 E4]. apply negb_true_iff in E1, E2, E3, E4.
    destruct (swo_equiv_trans lt SW x k y) as [E _]; congruence.
  Qed.
  (** binary searches in a part of the keys that contains the answer *)
  Lemma pp_widen {A} (p : A -> bool) f t (m : list A) r r0 : is_partition_point p 0 (length m) m r0 -> f <= r0 <= t -> t <= length m ->
    is_partition_point p f t m r -> r = r0.
  Proof.
    intros (Hr0 & H1 & H2) Hf Ht (Hr & H3 & H4). destruct (decide (r < r0)) as [Hlt|]; [|destruct (decide (r0 < r)) as [Hlt|]; [|lia]]; exfalso.
    - destruct (lookup_lt_is_Some_2 m r ltac:(lia)) as [x Hx]. specialize (H4 r x ltac:(lia) Hx). rewrite (H1 r x ltac:(lia) Hx) in H4. done.
    - destruct (lookup_lt_is_Some_2 m r0 ltac:(lia)) as [x Hx]. specialize (H3 r0 x ltac:(lia) Hx). rewrite (H2 r0 x ltac:(lia) Hx) in H3. done.
  Qed.
  Lemma lower_sub l k f t : sorted lt l -> f <= below k l <= t -> t <= length l -> lower_bound lt (full l) f t k = Ok (below k l).
  Proof.
    intros Hs Hf Ht. destruct (C01_sorted_is_partitioned lt SW l f t k) as (H1 & _ & _); [intros i j x y _ Hij _; by apply Hs|].
    destruct (C01_lower_bound lt l f t k ltac:(lia) ltac:(lia) H1) as (r & -> & Hr). f_equal. eapply (pp_widen _ f t l); [by apply below_pp|done|done|done].
  Qed.
  Lemma upper_sub l k f t : sorted lt l -> f <= upto k l <= t -> t <= length l -> upper_bound lt (full l) f t k = Ok (upto k l).
  Proof.
    intros Hs Hf Ht. destruct (C01_sorted_is_partitioned lt SW l f t k) as (_ & H1 & _); [intros i j x y _ Hij _; by apply Hs|].
    destruct (C01_upper_bound lt l f t k ltac:(lia) ltac:(lia) H1) as (r & -> & Hr). f_equal. eapply (pp_widen _ f t l); [by apply upto_pp|done|done|done].
  Qed.
  (** in general the answer is clamped to the searched part *)
  Lemma lower_clamp l k f t : sorted lt l -> f <= t -> t <= length l -> lower_bound lt (full l) f t k = Ok (Nat.max f (Nat.min t (below k l))).
  Proof.
    intros Hs Hf Ht. destruct (C01_sorted_is_partitioned lt SW l f t k) as (H1 & _ & _); [intros i j x y _ Hij _; by apply Hs|].
    destruct (C01_lower_bound lt l f t k ltac:(lia) ltac:(lia) H1) as (r & -> & Hr). f_equal. eapply pp_unique; [|exact Hr|]; [done|].
    split; [lia|]. split; intros i x Hi Hx; rewrite (below_lt l k i x Hs Hx); [apply bool_decide_eq_true|apply bool_decide_eq_false]; lia.
  Qed.
  Lemma equal_all l k : sorted lt l -> equal_range lt lt (full l) 0 (length l) k = Ok (below k l, upto k l).
  Proof.
    intros Hs. destruct (C01_sorted_is_partitioned lt SW l 0 (length l) k) as (H1 & H2 & H3); [intros i j x y _ Hij _; by apply Hs|].
    destruct (C01_equal_range lt lt l 0 (length l) k ltac:(lia) ltac:(lia) H1 H2 H3) as (r1 & r2 & -> & Hr1 & Hr2). f_equal. f_equal.
    - eapply pp_unique; [|exact Hr1|]; [done|]. by apply below_pp.
    - eapply pp_unique; [|exact Hr2|]; [done|]. by apply upto_pp.
  Qed.
  Lemma binary_all l k : sorted lt l -> exists b, binary_search lt lt (full l) 0 (length l) k = Ok b /\ (b = true <-> has k l).
  Proof.
    intros Hs. destruct (C01_sorted_is_partitioned lt SW l 0 (length l) k) as (H1 & H2 & H3); [intros i j x y _ Hij _; by apply Hs|].
    destruct (C01_binary_search lt lt l 0 (length l) k ltac:(lia) ltac:(lia) H1 H2) as (b & -> & Hb). exists b. split; [done|]. rewrite Hb. split.
    - intros (i & x & _ & Hx & E1 & E2). exists x. split; [by apply elem_of_list_lookup_2 with i|]. unfold FlatSpec.equiv. by rewrite E1, E2.
    - intros (x & Hx & E). apply elem_of_list_lookup in Hx as [i Hx]. exists i, x. unfold FlatSpec.equiv in E. apply andb_true_iff in E as [E1 E2]. apply negb_true_iff in E1, E2.
      split; [apply lookup_lt_Some in Hx; lia|]. done.
  Qed.
  (** inserting a key *)
  Lemma insert_at_lookup {A} i (x : A) m j : i <= length m -> insert_at i x m !! j = if decide (j < i) then m !! j else if decide (j = i) then Some x else m !! (j - 1).
  Proof.
    intros Hi. unfold insert_at. destruct (decide (j < i)); [rewrite lookup_app_l by (rewrite take_length; lia); by rewrite lookup_take|].
    rewrite lookup_app_r by (rewrite take_length; lia). rewrite take_length, Nat.min_l by lia. destruct (decide (j = i)) as [->|]; [by rewrite Nat.sub_diag|].
    destruct (j - i) as [|d] eqn:E; [lia|]. change ((x :: drop i m) !! S d) with (drop i m !! d). rewrite lookup_drop. f_equal. lia.
  Qed.
  Lemma insert_sorted l k i : sorted lt l -> below k l <= i <= upto k l -> sorted lt (insert_at i k l).
  Proof.
    intros Hs Hi a b x y Hab. pose proof (upto_len l k). rewrite !insert_at_lookup by lia. intros Hx Hy.
    destruct (decide (a < i)), (decide (b < i)); try (by apply (Hs a b)); try lia.
    - destruct (decide (b = i)) as [->|]; [injection Hy as <-; rewrite (upto_lt l k a x Hs Hx), bool_decide_true by lia; done|]. apply (Hs a (b - 1)); [lia|done|done].
    - destruct (decide (b = i)); [lia|]. destruct (decide (a = i)) as [->|]; [injection Hx as <-; rewrite (below_lt l k (b - 1) y Hs Hy), bool_decide_false by lia; done|]. apply (Hs (a - 1) (b - 1)); [lia|done|done].
  Qed.
  Lemma insert_strictly l k : strictly l -> ~ has k l -> strictly (insert_at (upto k l) k l).
  Proof.
    intros Hst Hn a b x y Hab. pose proof (strictly_sorted l Hst) as Hs. pose proof (upto_len l k). pose proof (below_upto l k). assert (Hbu : below k l = upto k l) by (rewrite has_iff in Hn by done; lia).
    rewrite !insert_at_lookup by lia. intros Hx Hy.
    destruct (decide (a < upto k l)), (decide (b < upto k l)); try (by apply (Hst a b)); try lia.
    - destruct (decide (b = upto k l)) as [->|]; [injection Hy as <-; rewrite (below_lt l k a x Hs Hx), bool_decide_true by lia; done|]. apply (Hst a (b - 1)); [lia|done|done].
    - destruct (decide (b = upto k l)); [lia|]. destruct (decide (a = upto k l)) as [->|]; [injection Hx as <-; rewrite (upto_lt l k (b - 1) y Hs Hy), bool_decide_false by lia; done|]. apply (Hst (a - 1) (b - 1)); [lia|done|done].
  Qed.
  Lemma sub_ordered uniq l l' : ordered lt uniq l -> l' `sublist_of` l -> ordered lt uniq l'.
  Proof.
    intros Ho Hsub. assert (Hidx : exists f : nat -> nat, (forall i j, i < j -> f i < f j) /\ forall i x, l' !! i = Some x -> l !! (f i) = Some x).
    { clear Ho. induction Hsub as [|x l1 l2 H (f & Hf & Hl)|x l1 l2 H (f & Hf & Hl)].
      - exists (fun i => i). split; [auto|done].
      - exists (fun i => match i with 0 => 0 | S i => S (f i) end). split.
        + intros [|i] [|j] ?; try lia. pose proof (Hf i j). lia.
        + intros [|i] y Hy; [done|]. by apply Hl.
      - exists (fun i => S (f i)). split; [intros i j ?; pose proof (Hf i j); lia|]. intros i y Hy. by apply Hl. }
    destruct Hidx as (f & Hf & Hl). destruct uniq; intros i j x y Hij Hx Hy; apply (Ho (f i) (f j)); auto.
  Qed.
End keys.
