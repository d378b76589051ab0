(** C07: partition, stable_partition.  C08: remove_if, unique. *)
From stdpp Require Import base list numbers.
From Coq Require Import Lia.
From Verif Require Import Base.Res Base.Order Base.OrderLemmas Base.Arr Base.Cells Alg.PartitionModel Alg.PartitionProofs Props.RotateProps.

Section props.
  Context {A : Type}.
  Implicit Types (l : list A) (p : A -> bool).

  (** [l'] is [l] with the range partitioned by [p] at [mid]: same elements, nothing outside touched, everything
      before [mid] satisfies [p], nothing from [mid] on does *)
  Definition partitioned p (first mid last : nat) l l' : Prop :=
    same_outside first last l l' /\ l' ≡ₚ l /\ (first <= mid <= last)%nat /\
    range_all (fun x => p x = true) first mid l' /\ range_all (fun x => p x = false) mid last l'.

  Lemma partitioned_intro p (f t : nat) l (T F : list A) : (f <= t)%nat -> (t <= length l)%nat ->
    T ++ F ≡ₚ slice f t l -> Forall (fun x => p x = true) T -> Forall (fun x => p x = false) F ->
    partitioned p f (f + length T) t l (take f l ++ (T ++ F) ++ drop t l).
  Proof.
    intros H1 H2 Hp HT HF.
    assert (HL : (length T + length F = t - f)%nat).
    { rewrite <-app_length, Hp, slice_length; lia. }
    assert (Hlen : length (take f l ++ (T ++ F) ++ drop t l) = length l).
    { rewrite !app_length, take_length, drop_length. lia. }
    unfold partitioned. split; [|split; [|split; [lia|split]]].
    - split; [done|]. intros i [Hi|Hi].
      + rewrite lookup_app_l by (rewrite take_length; lia). by apply lookup_take.
      + rewrite lookup_app_r by (rewrite take_length; lia). rewrite take_length.
        rewrite lookup_app_r by (rewrite app_length; lia). rewrite lookup_drop. f_equal. rewrite app_length. lia.
    - rewrite Hp. rewrite (split3 f t l) at 4 by lia. done.
    - intros i x Hi1 Hi2 Hx. rewrite lookup_app_r in Hx by (rewrite take_length; lia). rewrite take_length in Hx.
      rewrite <-app_assoc, lookup_app_l in Hx by lia. by eapply Forall_lookup_1 in HT.
    - intros i x Hi1 Hi2 Hx. rewrite lookup_app_r in Hx by (rewrite take_length; lia). rewrite take_length in Hx.
      rewrite <-app_assoc, lookup_app_r in Hx by lia. rewrite lookup_app_l in Hx by lia. by eapply Forall_lookup_1 in HF.
  Qed.

  Theorem C07_partition : forall p l first last, (first <= last)%nat -> (last <= length l)%nat ->
    exists l' mid, partition_bidi p (full l) first last = Ok (full l', mid) /\ partitioned p first mid last l l'.
  Proof.
    intros p l f t H1 H2. rewrite (full_split f t l) by done.
    destruct (partition_bidi_ok p (slice f t l) (full (take f l)) (full (drop t l)) f t) as (T & F & E & Hp & HT & HF).
    { rewrite full_length, take_length. lia. } { rewrite slice_length; lia. }
    rewrite E. rewrite <-!full_app. eexists _, _. split; [done|]. by apply partitioned_intro.
  Qed.
  Theorem C07_partition_forward : forall p l first last, (first <= last)%nat -> (last <= length l)%nat ->
    exists l' mid, partition_fwd p (full l) first last = Ok (full l', mid) /\ partitioned p first mid last l l'.
  Proof.
    intros p l f t H1 H2. rewrite (full_split f t l) by done.
    destruct (partition_fwd_ok p (slice f t l) (full (take f l)) (full (drop t l)) f t) as (T & F & E & Hp & HT & HF).
    { rewrite full_length, take_length. lia. } { rewrite slice_length; lia. }
    rewrite E. rewrite <-!full_app. eexists _, _. split; [done|]. by apply partitioned_intro.
  Qed.
  (** whatever temporary buffer is obtained ([cap], possibly 0): first the elements satisfying [p] in their old order,
      then the others in their old order *)
  Theorem C07_stable_partition : forall p cap l first last, (first <= last)%nat -> (last <= length l)%nat ->
    stable_partition p cap (full l) first last =
      Ok (full (take first l ++ (List.filter p (slice first last l) ++ List.filter (fun x => negb (p x)) (slice first last l)) ++ drop last l),
          (first + length (List.filter p (slice first last l)))%nat).
  Proof.
    intros p cap l f t H1 H2. rewrite (full_split f t l) by done.
    rewrite stable_partition_ok. { by rewrite !full_app. }
    { rewrite full_length, take_length. lia. } { rewrite slice_length; lia. }
  Qed.

  (** remove_if: [first, r) holds exactly the elements not satisfying [p], in their old order; nothing outside the
      range changes; (the cells in [r, last) are unspecified) *)
  Definition compacted (first last r : nat) l (kept : list A) (a' : arr A) : Prop :=
    length a' = length l /\ r = (first + length kept)%nat /\ (r <= last)%nat /\
    (forall i, (i < length kept)%nat -> a' !! (first + i)%nat = Some <$> kept !! i) /\
    (forall i, (i < first \/ last <= i)%nat -> a' !! i = Some <$> l !! i).
  Lemma compacted_intro (f t : nat) l (kept : list A) (J : arr A) : (f <= t)%nat -> (t <= length l)%nat ->
    (length J + length kept = t - f)%nat ->
    compacted f t (f + length kept) l kept (full (take f l) ++ full kept ++ J ++ full (drop t l)).
  Proof.
    intros H1 H2 HL. unfold compacted. split; [|split; [done|split; [lia|split]]].
    - rewrite !app_length, !full_length, take_length, drop_length. lia.
    - intros i Hi. rewrite lookup_app_r by (rewrite full_length, take_length; lia). rewrite full_length, take_length.
      rewrite lookup_app_l by (rewrite full_length; lia). rewrite full_lookup. do 2 f_equal. lia.
    - intros i [Hi|Hi].
      + rewrite lookup_app_l by (rewrite full_length, take_length; lia). rewrite full_lookup. by rewrite lookup_take.
      + rewrite lookup_app_r by (rewrite full_length, take_length; lia). rewrite full_length, take_length.
        rewrite lookup_app_r by (rewrite full_length; lia). rewrite full_length.
        rewrite lookup_app_r by lia. rewrite full_lookup, lookup_drop. do 2 f_equal. lia.
  Qed.

  Theorem C08_remove_if : forall p l first last, (first <= last)%nat -> (last <= length l)%nat ->
    exists a' r, remove_if p (full l) first last = Ok (a', r) /\
      compacted first last r l (List.filter (fun x => negb (p x)) (slice first last l)) a'.
  Proof.
    intros p l f t H1 H2. rewrite (full_split f t l) by done.
    destruct (remove_if_ok p (slice f t l) (full (take f l)) (full (drop t l)) f t) as (J & E & L).
    { rewrite full_length, take_length. lia. } { rewrite slice_length; lia. }
    rewrite E. eexists _, _. split; [done|]. apply compacted_intro; try done.
    pose proof (bfilter_len p (slice f t l)) as HL. rewrite slice_length in L, HL by lia. lia.
  Qed.

  (** unique. [unique_spec eq l]: element i survives iff i = 0 or not eq (element i-1) (element i). *)
  Fixpoint keep_changes (eq : A -> A -> bool) (prev : A) (l : list A) : list A :=
    match l with [] => [] | x :: l => if eq prev x then keep_changes eq x l else x :: keep_changes eq x l end.
  Definition unique_spec (eq : A -> A -> bool) (l : list A) : list A :=
    match l with [] => [] | x :: l => x :: keep_changes eq x l end.
  Definition equivalence (eq : A -> A -> bool) : Prop :=
    (forall x, eq x x = true) /\ (forall x y, eq x y = true -> eq y x = true) /\
    (forall x y z, eq x y = true -> eq y z = true -> eq x z = true).

  Lemma dedup_keep eq k k' l : equivalence eq -> eq k k' = true -> dedup_from eq k l = keep_changes eq k' l.
  Proof.
    intros (Hr & Hs & Ht). revert k k'. induction l as [|x l IH]; intros k k' Hk; simpl; [done|].
    destruct (eq k x) eqn:E1, (eq k' x) eqn:E2.
    - by apply IH.
    - rewrite (Ht k' k x) in E2; auto; discriminate.
    - rewrite (Ht k k' x) in E1; auto; discriminate.
    - f_equal. by apply IH.
  Qed.

  (** for an equivalence relation (the standard's requirement) unique keeps the first element of every group *)
  Theorem C08_unique : forall eq l first last, equivalence eq -> (first <= last)%nat -> (last <= length l)%nat ->
    exists a' r, unique eq (full l) first last = Ok (a', r) /\
      compacted first last r l (unique_spec eq (slice first last l)) a'.
  Proof.
    intros eq l f t HE H1 H2. rewrite (full_split f t l) by done.
    destruct (unique_ok eq (slice f t l) (full (take f l)) (full (drop t l)) f t) as (J & E & L).
    { rewrite full_length, take_length. lia. } { rewrite slice_length; lia. }
    assert (ED : dedup eq (slice f t l) = unique_spec eq (slice f t l)).
    { destruct (slice f t l) as [|x r]; [done|]. simpl. f_equal. apply dedup_keep; [done|]. destruct HE as [Hr _]. apply Hr. }
    rewrite ED in E, L. rewrite E. eexists _, _. split; [done|]. apply compacted_intro; try done. rewrite slice_length in L by lia. lia.
  Qed.
  (** for ANY relation: exactly the elements that differ from the last element kept before them are kept, and no two
      neighbours of the result are equal *)
  Theorem C08_unique_no_adjacent : forall eq l first last, (first <= last)%nat -> (last <= length l)%nat ->
    exists a' r kept, unique eq (full l) first last = Ok (a', r) /\ compacted first last r l kept a' /\
      kept `sublist_of` slice first last l /\
      (forall i x y, kept !! i = Some x -> kept !! S i = Some y -> eq x y = false).
  Proof.
    intros eq l f t H1 H2. rewrite (full_split f t l) by done.
    destruct (unique_ok eq (slice f t l) (full (take f l)) (full (drop t l)) f t) as (J & E & L).
    { rewrite full_length, take_length. lia. } { rewrite slice_length; lia. }
    rewrite E. eexists _, _, _. split; [done|]. split; [|split].
    - apply compacted_intro; try done. rewrite slice_length in L by lia. lia.
    - destruct (slice f t l) as [|x r]; [done|]. simpl. apply sublist_skip. clear. revert x.
      induction r as [|y r IH]; intros x; simpl; [done|]. destruct (eq x y); [apply sublist_cons|apply sublist_skip]; apply IH.
    - destruct (slice f t l) as [|x r]; [intros i x y Hx; done|]. clear. simpl. revert x.
      induction r as [|y r IH]; intros x [|i] u v Hu Hv; simpl in *; try done.
      + destruct (eq x y) eqn:Exy; [|simpl in Hv; congruence]. 
        apply (IH x 0%nat); done.
      + destruct (eq x y) eqn:Exy; [by apply (IH x (S i))|]. by apply (IH y i).
  Qed.
End props.

Definition even (n : nat) : bool := Nat.even n.
Example C07_sat_partition : partition_bidi even (full [1;2;3;4;5;6]) 0 6 = Ok (full [6;2;4;3;5;1], 3)%nat.
Proof. vm_compute. done. Qed.
Example C07_sat_stable : forall cap, cap ∈ [0;1;2;8]%nat ->
  stable_partition even cap (full [9;1;2;3;4;5;6;7]) 1 7 = Ok (full [9;2;4;6;1;3;5;7], 4)%nat.
Proof. intros cap H. repeat (apply elem_of_cons in H as [->|H]; [vm_compute; done|]). by apply elem_of_nil in H. Qed.
Example C08_sat_unique : equivalence Nat.eqb /\ unique Nat.eqb (full [7;7;1;1;1;2;1]) 0 7 =
  Ok ([Some 7; Some 1; Some 2; Some 1; Some 1; None; None], 4)%nat.
Proof.
  split; [|vm_compute; done]. split; [apply Nat.eqb_refl|].
  split; intros *; rewrite !Nat.eqb_eq; congruence.
Qed.
Example C08_sat_remove_if : remove_if even (full [1;2;3;4;5]) 0 5 = Ok ([Some 1; Some 3; Some 5; Some 4; None], 3)%nat.
Proof. vm_compute. done. Qed.

Print Assumptions C07_partition.
Print Assumptions C07_partition_forward.
Print Assumptions C07_stable_partition.
Print Assumptions C08_remove_if.
Print Assumptions C08_unique.
Print Assumptions C08_unique_no_adjacent.
