(** C01: binary searches are exact on partitioned ranges (heterogeneous probe allowed).
    [partitioned p first last l]: inside [first,last), once [p] is false it stays false.
    [is_partition_point p first last l r]: [p] holds on [first,r) and fails on [r,last). *)
From stdpp Require Import base list numbers.
From Coq Require Import Lia ZifyBool.
From Verif Require Import Base.Res Base.Order Base.Arr Alg.SearchModel Alg.SearchSpec Alg.SearchProofs.

Section props.
  Context {A V : Type}.

  Theorem C01_lower_bound : forall (lt_av : A -> V -> bool) (l : list A) first last v,
    (first <= last)%nat -> (last <= length l)%nat ->
    partitioned (fun x => lt_av x v) first last l ->
    exists r, lower_bound lt_av (full l) first last v = Ok r /\
      is_partition_point (fun x => lt_av x v) first last l r.
  Proof. intros lt l f t v H1 H2 H3. exact (wp_exists _ _ (lower_bound_wp lt l f t v H1 H2 H3)). Qed.

  Theorem C01_upper_bound : forall (lt_va : V -> A -> bool) (l : list A) first last v,
    (first <= last)%nat -> (last <= length l)%nat ->
    partitioned (fun x => negb (lt_va v x)) first last l ->
    exists r, upper_bound lt_va (full l) first last v = Ok r /\
      is_partition_point (fun x => negb (lt_va v x)) first last l r.
  Proof. intros lt l f t v H1 H2 H3. exact (wp_exists _ _ (upper_bound_wp lt l f t v H1 H2 H3)). Qed.

  Theorem C01_partition_point : forall (p : A -> bool) (l : list A) first last,
    (first <= last)%nat -> (last <= length l)%nat -> partitioned p first last l ->
    exists r, partition_point p (full l) first last = Ok r /\ is_partition_point p first last l r.
  Proof. intros p l f t H1 H2 H3. exact (wp_exists _ _ (partition_point_wp p l f t H1 H2 H3)). Qed.

  Theorem C01_equal_range : forall (lt_av : A -> V -> bool) (lt_va : V -> A -> bool) (l : list A) first last v,
    (first <= last)%nat -> (last <= length l)%nat ->
    partitioned (fun x => lt_av x v) first last l ->
    partitioned (fun x => negb (lt_va v x)) first last l ->
    (* the standard's third requirement: e < v implies !(v < e) *)
    (forall i x, (first <= i < last)%nat -> l !! i = Some x -> lt_av x v = true -> lt_va v x = false) ->
    exists r1 r2, equal_range lt_av lt_va (full l) first last v = Ok (r1, r2) /\
      is_partition_point (fun x => lt_av x v) first last l r1 /\
      is_partition_point (fun x => negb (lt_va v x)) first last l r2.
  Proof.
    intros l1 l2 l f t v H1 H2 H3 H4 H5.
    destruct (wp_exists _ _ (equal_range_wp l1 l2 l f t v H1 H2 H3 H4 H5)) as ([r1 r2] & E & H). eauto.
  Qed.

  Theorem C01_binary_search : forall (lt_av : A -> V -> bool) (lt_va : V -> A -> bool) (l : list A) first last v,
    (first <= last)%nat -> (last <= length l)%nat ->
    partitioned (fun x => lt_av x v) first last l ->
    partitioned (fun x => negb (lt_va v x)) first last l ->
    exists b, binary_search lt_av lt_va (full l) first last v = Ok b /\
      (b = true <-> exists i x, (first <= i < last)%nat /\ l !! i = Some x /\ lt_av x v = false /\ lt_va v x = false).
  Proof. intros l1 l2 l f t v H1 H2 H3 H4. exact (wp_exists _ _ (binary_search_wp l1 l2 l f t v H1 H2 H3 H4)). Qed.

  (** The partition point is unique, so each function's result is fully determined. *)
  Theorem C01_result_unique : forall (p : A -> bool) first last (l : list A) r r',
    (last <= length l)%nat -> is_partition_point p first last l r -> is_partition_point p first last l r' -> r = r'.
  Proof. exact (@pp_unique A). Qed.

  (** A sorted range is partitioned for every probe, on both sides. *)
  Theorem C01_sorted_is_partitioned : forall (lt : A -> A -> bool), StrictWeakOrder lt -> forall (l : list A) first last v,
    sorted_range lt first last l ->
    partitioned (fun x => lt x v) first last l /\ partitioned (fun x => negb (lt v x)) first last l /\
    (forall i x, (first <= i < last)%nat -> l !! i = Some x -> lt x v = true -> lt v x = false).
  Proof.
    intros lt SW l f t v Hs. split; [|split].
    - intros i j x y H1 H2 H3 Hx Hy E. eapply (swo_ntrans lt SW v x y); [done|]. apply (Hs i j); try done.
    - intros i j x y H1 H2 H3 Hx Hy E. simpl in *. assert (Ex : lt v x = true) by (by destruct (lt v x)).
      assert (lt y x = false) by (by apply (Hs i j)).
      by rewrite (swo_lt_le lt SW v x y Ex H).
    - intros i x _ _ H. by apply (swo_asym lt SW).
  Qed.
End props.

Example C01_run : equal_range Nat.ltb Nat.ltb (full [1;3;3;3;5;7]%nat) 1 6 3%nat = Ok (1, 4)%nat.
Proof. vm_compute. reflexivity. Qed.
Example C01_hyps : sorted_range Nat.ltb 1 4 [9;3;3;5;0]%nat.
Proof.
  intros i j x y H1 H2 H3 Hx Hy.
  assert (i = 1 \/ i = 2)%nat as [-> | ->] by lia; simpl in Hx; injection Hx as <-;
    (assert (j = 2 \/ j = 3)%nat as [-> | ->] by lia; simpl in Hy; injection Hy as <-; done).
Qed.

Print Assumptions C01_lower_bound.
Print Assumptions C01_upper_bound.
Print Assumptions C01_partition_point.
Print Assumptions C01_equal_range.
Print Assumptions C01_binary_search.
Print Assumptions C01_result_unique.
Print Assumptions C01_sorted_is_partitioned.
