(** C10: next_permutation and prev_permutation. *)
From stdpp Require Import base list numbers.
From Coq Require Import Lia.
From Verif Require Import Base.Res Base.Order Base.OrderLemmas Base.Arr Base.Cells Alg.PermSpec Alg.PermModel Alg.PermProofs Props.RotateProps.

Section props.
  Context {A : Type} (lt : A -> A -> bool) (SW : StrictWeakOrder lt).
  Implicit Types (l r q : list A).

  Lemma spliced (f t : nat) l r : (f <= t)%nat -> (t <= length l)%nat -> length r = (t - f)%nat ->
    same_outside f t l (take f l ++ r ++ drop t l) /\ slice f t (take f l ++ r ++ drop t l) = r.
  Proof.
    intros H1 H2 HL. split; [split|].
    - rewrite !app_length, take_length, drop_length. lia.
    - intros i [Hi|Hi].
      + rewrite lookup_app_l by (rewrite take_length; lia). by apply lookup_take.
      + rewrite lookup_app_r by (rewrite take_length; lia). rewrite take_length.
        rewrite lookup_app_r by lia. rewrite lookup_drop. f_equal. lia.
    - unfold slice. rewrite drop_app_ge by (rewrite take_length; lia). rewrite take_length.
      replace (f - f `min` length l)%nat with 0%nat by lia. rewrite drop_0.
      rewrite take_app_le by lia. apply take_ge. lia.
  Qed.

  (** [r'] is a permutation of [r], strictly greater, and no permutation of [r] lies strictly between *)
  Definition next_in_order (lt : A -> A -> bool) r r' : Prop :=
    r' ≡ₚ r /\ lexlt lt r r' = true /\ (forall q, q ≡ₚ r -> lexlt lt r q = true -> lexlt lt q r' = false).
  (** no permutation of [r] is greater; [r'] is the sorted permutation *)
  Definition wraps_to_first (lt : A -> A -> bool) r r' : Prop :=
    (forall q, q ≡ₚ r -> lexlt lt r q = false) /\ r' ≡ₚ r /\ sorted lt r' /\ (forall q, q ≡ₚ r -> lexlt lt q r' = false).

  Theorem C10_next_permutation : forall l first last, (first <= last)%nat -> (last <= length l)%nat ->
    exists l' b, next_permutation lt (full l) first last = Ok (full l', b) /\ same_outside first last l l' /\
      (if b : bool then next_in_order lt (slice first last l) (slice first last l')
       else wraps_to_first lt (slice first last l) (slice first last l')).
  Proof.
    intros l f t H1 H2. rewrite (full_split f t l) by done.
    pose proof (slice_length f t l H1 H2) as HL. remember (slice f t l) as r eqn:Er.
    destruct (next_permutation_ok lt SW r (full (take f l)) (full (drop t l)) f t) as [[E Hs]|(P & x & D1 & y & D2 & E1 & Hs & Hxy & HD2 & E)].
    { rewrite full_length, take_length. lia. } { lia. }
    - rewrite E, <-!full_app. destruct (spliced f t l (rev r)) as [Hso Hsl]; [done|done|by rewrite rev_length|].
      eexists _, _. split; [done|]. split; [done|]. rewrite Hsl.
      assert (Hp : rev r ≡ₚ r) by (symmetry; apply Permutation_rev).
      split; [|split; [done|split]].
      + intros q Hq. apply (desc_greatest lt SW); [done|]. by apply cperm_perm.
      + by apply sorted_flip_rev.
      + intros q Hq. apply (sorted_least lt SW); [by apply sorted_flip_rev|]. apply cperm_perm. by rewrite Hq.
    - assert (Hp : y :: rev (D1 ++ x :: D2) ≡ₚ x :: D1 ++ y :: D2).
      { rewrite <-Permutation_rev, <-!Permutation_middle. apply Permutation_swap. }
      assert (Hp2 : P ++ y :: rev (D1 ++ x :: D2) ≡ₚ r) by (rewrite Hp; by rewrite E1).
      rewrite E, <-!full_app.
      destruct (spliced f t l (P ++ y :: rev (D1 ++ x :: D2))) as [Hso Hsl]; [done|done|by rewrite Hp2|].
      eexists _, _. split; [done|]. split; [done|]. rewrite Hsl.
      split; [done|]. split.
      + rewrite E1. rewrite (lexlt_app lt SW). simpl. by rewrite Hxy.
      + intros q Hq Hlt. rewrite E1 in Hlt.
        assert (HR : sorted lt (rev (D1 ++ x :: D2))) by (eapply sorted_flip_rev, desc_replace; done).
        eapply (next_least lt SW P x y (D1 ++ y :: D2)); try done.
        * apply elem_of_app. right. left.
        * intros d Hd Hxd. apply sorted_app in Hs as (S1 & S2 & S3).
          apply elem_of_app in Hd as [Hd|Hd]; [apply (S3 d y Hd); left|].
          apply elem_of_cons in Hd as [->|Hd]; [apply (swo_irrefl _ SW)|].
          rewrite list.Forall_forall in HD2. by rewrite (HD2 d Hd) in Hxd.
        * apply cperm_perm. by rewrite Hp.
        * apply cperm_perm. by rewrite Hq, E1.
  Qed.
End props.

Section prev.
  Context {A : Type} (lt : A -> A -> bool) (SW : StrictWeakOrder lt).
  Implicit Types (l r q : list A).
  (** mirror image: [r'] is a permutation of [r], strictly smaller, and none lies strictly between *)
  Definition prev_in_order r r' : Prop :=
    r' ≡ₚ r /\ lexlt lt r' r = true /\ (forall q, q ≡ₚ r -> lexlt lt q r = true -> lexlt lt r' q = false).
  Definition wraps_to_last r r' : Prop :=
    (forall q, q ≡ₚ r -> lexlt lt q r = false) /\ r' ≡ₚ r /\ sorted (fun x y => lt y x) r' /\ (forall q, q ≡ₚ r -> lexlt lt r' q = false).
  Theorem C10_prev_permutation : forall l first last, (first <= last)%nat -> (last <= length l)%nat ->
    exists l' b, prev_permutation lt (full l) first last = Ok (full l', b) /\ same_outside first last l l' /\
      (if b : bool then prev_in_order (slice first last l) (slice first last l')
       else wraps_to_last (slice first last l) (slice first last l')).
  Proof.
    intros l f t H1 H2. rewrite prev_flip.
    destruct (C10_next_permutation (flip lt) (swo_flip lt SW) l f t H1 H2) as (l' & b & E & Hso & H).
    exists l', b. split; [done|]. split; [done|]. destruct b.
    - destruct H as (Hp & Hlt & Hm). split; [done|]. pose proof (Permutation_length Hp) as HL. split.
      + by rewrite <-lexlt_flip by done.
      + intros q Hq Hqr. pose proof (Permutation_length Hq) as HLq. rewrite <-lexlt_flip by congruence. apply Hm; [done|].
        by rewrite lexlt_flip by done.
    - destruct H as (Hm & Hp & Hs & Hl). pose proof (Permutation_length Hp) as HL. split; [|split; [done|split; [done|]]].
      + intros q Hq. pose proof (Permutation_length Hq) as HLq. rewrite <-lexlt_flip by congruence. by apply Hm.
      + intros q Hq. pose proof (Permutation_length Hq) as HLq. rewrite <-lexlt_flip by congruence. by apply Hl.
  Qed.
End prev.

Example C10_sat : next_permutation Nat.ltb (full [0;1;3;2;2;9]) 1 5 = Ok (full [0;2;1;2;3;9], true)%nat /\
  next_permutation Nat.ltb (full [3;2;1]) 0 3 = Ok (full [1;2;3], false)%nat /\
  prev_permutation Nat.ltb (full [2;1;2;3]) 0 4 = Ok (full [1;3;2;2], true)%nat.
Proof. vm_compute. done. Qed.

Print Assumptions C10_next_permutation.
Print Assumptions C10_prev_permutation.
