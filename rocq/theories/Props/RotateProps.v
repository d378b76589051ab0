(** C09: reverse, rotate (all three iterator strengths) and shift_left/right realise the documented index maps.
    [full l] is the memory holding the values [l]; [slice first last l] are the values of the range. *)
From stdpp Require Import base list numbers.
From Coq Require Import Lia.
From Verif Require Import Base.Res Base.Order Base.OrderLemmas Base.Arr Base.Cells Alg.SortModel Alg.RotateModel Alg.RotateProofs.

Section props.
  Context {A : Type}.
  Implicit Types l : list A.

  Lemma full_split (first last : nat) l : (first <= last)%nat ->
    full l = full (take first l) ++ full (slice first last l) ++ full (drop last l).
  Proof. intros H. rewrite <-!full_app. f_equal. by apply split3. Qed.

  (** reverse: the range is replaced by its mirror image, everything else stays put *)
  Theorem C09_reverse : forall l first last, (first <= last)%nat -> (last <= length l)%nat ->
    RotateModel.reverse (full l) first last = Ok (full (take first l ++ rev (slice first last l) ++ drop last l)).
  Proof.
    intros l f t H1 H2. rewrite (full_split f t l) by done. rewrite !full_app.
    apply reverse_ok; rewrite full_length, take_length; rewrite ?slice_length; lia.
  Qed.

  (** rotate: [mid,last) comes first, then [first,mid); the returned iterator is where the old *first now is *)
  Definition rotated (first mid last : nat) l : list A :=
    take first l ++ slice mid last l ++ slice first mid l ++ drop last l.
  Lemma rotate_split first mid last l : (first <= mid)%nat -> (mid <= last)%nat ->
    full l = full (take first l) ++ full (slice first mid l) ++ full (slice mid last l) ++ full (drop last l).
  Proof.
    intros. rewrite <-!full_app. f_equal. rewrite (split3 first last l) at 1 by lia.
    by rewrite (slice_app first mid last), <-app_assoc by lia.
  Qed.

  Theorem C09_rotate : forall l first mid last,
    (first <= mid)%nat -> (mid <= last)%nat -> (last <= length l)%nat ->
    RotateModel.rotate (full l) first mid last = Ok (full (rotated first mid last l), (first + (last - mid))%nat).
  Proof.
    intros l f m t H1 H2 H3. unfold rotated. rewrite (rotate_split f m t l), !full_app by done.
    rewrite rotate_ok; rewrite ?full_length, ?take_length, ?slice_length; try lia. done.
  Qed.
  Theorem C09_rotate_bidirectional : forall l first mid last,
    (first <= mid)%nat -> (mid <= last)%nat -> (last <= length l)%nat ->
    rotate_bidi (full l) first mid last = Ok (full (rotated first mid last l), (first + (last - mid))%nat).
  Proof.
    intros l f m t H1 H2 H3. unfold rotated. rewrite (rotate_split f m t l), !full_app by done.
    rewrite rotate_bidi_ok; rewrite ?full_length, ?take_length, ?slice_length; try lia. done.
  Qed.
  Theorem C09_rotate_forward : forall l first mid last,
    (first <= mid)%nat -> (mid <= last)%nat -> (last <= length l)%nat ->
    rotate_fwd (full l) first mid last = Ok (full (rotated first mid last l), (first + (last - mid))%nat).
  Proof.
    intros l f m t H1 H2 H3. unfold rotated. rewrite (rotate_split f m t l), !full_app by done.
    rewrite rotate_fwd_ok; rewrite ?full_length, ?take_length, ?slice_length; try lia. done.
  Qed.

  (** shift_left(n): element i of the result is element i+n of the input; the result ends at [last-n]
      (at [first] if n is too big, in which case nothing moves); cells outside the range are untouched *)
  Theorem C09_shift_left : forall l first last n, (first <= last)%nat -> (last <= length l)%nat ->
    exists a' r, shift_left (full l) first last n = Ok (a', r) /\ length a' = length l /\
      r = (if decide (last - first <= n) then if decide (n = 0) then last else first else last - n)%nat /\
      (forall i, (first <= i < r)%nat -> a' !! i = Some <$> l !! (i + n)%nat) /\
      (forall i, (i < first \/ last <= i)%nat -> a' !! i = Some <$> l !! i) /\
      ((last - first <= n)%nat -> a' = full l).
  Proof.
    intros l f t n H1 H2. unfold shift_left. case_decide as Hn; [|case_decide as Hge].
    - subst n. exists (full l), t. split; [done|]. rewrite full_length. split; [done|]. split.
      { destruct (decide (t - f <= 0)%nat); [|lia]. done. }
      split; [|split]; [|intros; apply full_lookup|done]. intros i Hi. rewrite Nat.add_0_r. apply full_lookup.
    - exists (full l), f. split; [done|]. rewrite full_length. split; [done|].
      split; [done|]. split; [intros; lia|]. split; [intros; apply full_lookup|done].
    - unfold move_unchecked.
      destruct (wp_exists _ _ (move_n_gen (t - (f + n)) (full l) (f + n) f ltac:(lia)
        ltac:(intros i Hi; destruct (lookup_lt_is_Some_2 l i ltac:(lia)) as [x Hx]; exists x; by rewrite full_lookup, Hx)))
        as ([a' r] & E & -> & Hl & Ha & Ho).
      exists a', (f + (t - (f + n)))%nat. split; [done|]. rewrite full_length in Hl. split; [done|].
      split; [lia|]. split; [|split; [|lia]].
      + intros i Hi. replace i with (f + (i - f))%nat at 1 by lia. rewrite Ha by lia.
        rewrite full_lookup. do 2 f_equal. lia.
      + intros i Hi. rewrite Ho by lia. apply full_lookup.
  Qed.

  Theorem C09_shift_right : forall l first last n, (first <= last)%nat -> (last <= length l)%nat ->
    exists a' r, shift_right (full l) first last n = Ok (a', r) /\ length a' = length l /\
      r = (if decide (last - first <= n) then if decide (n = 0) then first else last else first + n)%nat /\
      (forall i, (r <= i < last)%nat -> a' !! i = Some <$> l !! (i - n)%nat) /\
      (forall i, (i < first \/ last <= i)%nat -> a' !! i = Some <$> l !! i) /\
      ((last - first <= n)%nat -> a' = full l).
  Proof.
    intros l f t n H1 H2. unfold shift_right. case_decide as Hn; [|case_decide as Hge].
    - subst n. exists (full l), f. split; [done|]. rewrite full_length. split; [done|]. split.
      { destruct (decide (t - f <= 0)%nat); lia. }
      split; [|split]; [|intros; apply full_lookup|done]. intros i Hi. rewrite Nat.sub_0_r. apply full_lookup.
    - exists (full l), t. split; [done|]. rewrite full_length. split; [done|].
      split; [done|]. split; [intros; lia|]. split; [intros; apply full_lookup|done].
    - destruct (wp_exists _ _ (move_backward_gen (full l) f (t - n) t ltac:(lia) ltac:(lia) ltac:(rewrite full_length; lia)
        ltac:(intros i Hi; destruct (lookup_lt_is_Some_2 l i ltac:(lia)) as [x Hx]; exists x; by rewrite full_lookup, Hx)))
        as ([a' r] & E & -> & Hl & Ha & Ho).
      exists a', (t - (t - n - f))%nat. split; [done|]. rewrite full_length in Hl. split; [done|].
      split; [lia|]. split; [|split; [|lia]].
      + intros i Hi. replace i with (i - n + (t - (t - n)))%nat at 1 by lia. rewrite Ha by lia.
        apply full_lookup.
      + intros i Hi. rewrite Ho by lia. apply full_lookup.
  Qed.
End props.

Example C09_hyps : (1 <= 2)%nat /\ (2 <= 4)%nat /\ (4 <= length [1;2;3;4;5])%nat.
Proof. simpl. lia. Qed.
Example C09_rotate_case : rotate_fwd (full [0;1;2;3;4;5;6]) 1 3 6 = Ok (full [0;3;4;5;1;2;6], 4)%nat.
Proof. reflexivity. Qed.
Example C09_shift_case : shift_left (full [0;1;2;3;4]) 1 5 2 = Ok ([Some 0; Some 3; Some 4; None; None], 3)%nat.
Proof. reflexivity. Qed.

Print Assumptions C09_reverse.
Print Assumptions C09_rotate.
Print Assumptions C09_rotate_bidirectional.
Print Assumptions C09_rotate_forward.
Print Assumptions C09_shift_left.
Print Assumptions C09_shift_right.
