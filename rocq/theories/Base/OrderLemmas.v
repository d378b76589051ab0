(** Lemmas about slices, frames and permutations. *)
From stdpp Require Import base list numbers.
From Coq Require Import Lia.
From Verif Require Import Base.Order.

Section lemmas.
  Context {A : Type}.
  Implicit Types (l : list A) (lt : A -> A -> bool).

  Lemma slice_length f t l : (f <= t)%nat -> (t <= length l)%nat -> length (slice f t l) = (t - f)%nat.
  Proof. intros. unfold slice. rewrite take_length, drop_length. lia. Qed.

  Lemma slice_lookup f t l i : (i < t - f)%nat -> slice f t l !! i = l !! (f + i)%nat.
  Proof. intros. unfold slice. rewrite lookup_take by lia. apply lookup_drop. Qed.

  Lemma slice_lookup_Some f t l i x :
    slice f t l !! i = Some x <-> (i < t - f)%nat /\ l !! (f + i)%nat = Some x.
  Proof.
    split.
    - intros H. assert (Hi : (i < t - f)%nat).
      { apply lookup_lt_Some in H. unfold slice in H. rewrite take_length in H. lia. }
      rewrite slice_lookup in H by exact Hi. auto.
    - intros [Hi H]. rewrite slice_lookup by exact Hi. exact H.
  Qed.

  Lemma slice_full l : slice 0 (length l) l = l.
  Proof. unfold slice. rewrite drop_0, Nat.sub_0_r. apply take_ge. lia. Qed.

  Lemma split3 f t l : (f <= t)%nat -> l = take f l ++ slice f t l ++ drop t l.
  Proof.
    intros H. unfold slice. rewrite <-(take_drop f l) at 1. f_equal.
    rewrite <-(take_drop (t - f) (drop f l)) at 1. f_equal.
    rewrite drop_drop. f_equal. lia.
  Qed.

  Lemma slice_app f m t l : (f <= m)%nat -> (m <= t)%nat -> slice f t l = slice f m l ++ slice m t l.
  Proof.
    intros. unfold slice.
    replace (t - f)%nat with ((m - f) + (t - m))%nat by lia.
    rewrite <-(take_drop (m - f) (take (m - f + (t - m)) (drop f l))).
    rewrite take_take. f_equal.
    - f_equal. lia.
    - rewrite skipn_firstn_comm. f_equal; [lia|].
      rewrite drop_drop. f_equal. lia.
  Qed.

  Lemma slice_nil f l : slice f f l = [].
  Proof. unfold slice. by rewrite Nat.sub_diag. Qed.

  Lemma slice_cons f t l x : l !! f = Some x -> (f < t)%nat -> slice f t l = x :: slice (S f) t l.
  Proof.
    intros Hx Hlt. unfold slice. rewrite (drop_S _ _ _ Hx).
    replace (t - f)%nat with (S (t - S f)) by lia. reflexivity.
  Qed.

  Lemma slice_snoc f t l x : l !! t = Some x -> (f <= t)%nat -> slice f (S t) l = slice f t l ++ [x].
  Proof.
    intros Hx Hlt. rewrite (slice_app f t (S t)) by lia. f_equal.
    rewrite (slice_cons _ _ _ _ Hx) by lia. by rewrite slice_nil.
  Qed.

  Lemma slice_ext f t l l' : length l = length l' ->
    (forall i, (f <= i)%nat -> (i < t)%nat -> l !! i = l' !! i) -> slice f t l = slice f t l'.
  Proof.
    intros Hl H. apply list_eq. intros i.
    destruct (decide (i < t - f)%nat) as [Hi|Hi].
    - rewrite !slice_lookup by exact Hi. apply H; lia.
    - rewrite !lookup_ge_None_2; [done| |]; unfold slice; rewrite take_length; lia.
  Qed.

  (** same_outside *)
  Lemma same_outside_refl f t l : same_outside f t l l.
  Proof. split; auto. Qed.
  Lemma same_outside_trans f t l1 l2 l3 :
    same_outside f t l1 l2 -> same_outside f t l2 l3 -> same_outside f t l1 l3.
  Proof.
    intros [H1 H2] [H3 H4]. split; [congruence|]. intros i Hi. rewrite H4, H2; auto.
  Qed.
  Lemma same_outside_weaken f t f' t' l l' :
    same_outside f t l l' -> (f' <= f)%nat -> (t <= t')%nat -> same_outside f' t' l l'.
  Proof. intros [H1 H2] Hf Ht. split; [done|]. intros i Hi. apply H2. lia. Qed.
  Lemma same_outside_insert f t l i x :
    (f <= i)%nat -> (i < t)%nat -> same_outside f t l (<[i:=x]> l).
  Proof.
    intros. split; [by rewrite insert_length|]. intros j Hj.
    apply list_lookup_insert_ne. lia.
  Qed.
  Lemma same_outside_take f t l l' : same_outside f t l l' -> take f l' = take f l.
  Proof.
    intros [Hl H]. apply list_eq. intros i.
    destruct (decide (i < f)%nat).
    - rewrite !lookup_take by lia. apply H. lia.
    - rewrite !lookup_ge_None_2; [done| |]; rewrite take_length; lia.
  Qed.
  Lemma same_outside_drop f t l l' : same_outside f t l l' -> drop t l' = drop t l.
  Proof. intros [Hl H]. apply list_eq. intros i. rewrite !lookup_drop. apply H. lia. Qed.

  Lemma same_outside_split f t l l' :
    same_outside f t l l' -> (f <= t)%nat -> l' = take f l ++ slice f t l' ++ drop t l.
  Proof.
    intros H Hft. rewrite (split3 f t l') at 1 by done.
    by rewrite (same_outside_take _ _ _ _ H), (same_outside_drop _ _ _ _ H).
  Qed.

  Lemma same_outside_split_inv f t l s :
    (f <= t)%nat -> (t <= length l)%nat -> length s = (t - f)%nat ->
    same_outside f t l (take f l ++ s ++ drop t l) /\
    slice f t (take f l ++ s ++ drop t l) = s.
  Proof.
    intros Hft Ht Hs. split.
    - split.
      + rewrite !app_length, take_length, drop_length. lia.
      + intros i [Hi|Hi].
        * rewrite lookup_app_l by (rewrite take_length; lia). apply lookup_take. lia.
        * rewrite lookup_app_r by (rewrite take_length; lia).
          rewrite lookup_app_r by (rewrite take_length; lia).
          rewrite lookup_drop. f_equal. rewrite take_length. lia.
    - unfold slice. rewrite drop_app_alt by (rewrite take_length; lia).
      rewrite take_app_alt by lia. done.
  Qed.

  (** permutations *)
  Lemma perm_slice f t l l' :
    (f <= t)%nat -> same_outside f t l l' -> l' ≡ₚ l -> slice f t l' ≡ₚ slice f t l.
  Proof.
    intros Hft Hs Hp.
    rewrite (same_outside_split _ _ _ _ Hs Hft) in Hp.
    rewrite (split3 f t l) in Hp at 3 by done.
    apply Permutation_app_inv_l in Hp. by apply Permutation_app_inv_r in Hp.
  Qed.
  Lemma slice_perm f t l l' :
    (f <= t)%nat -> same_outside f t l l' -> slice f t l' ≡ₚ slice f t l -> l' ≡ₚ l.
  Proof.
    intros Hft Hs Hp.
    rewrite (same_outside_split _ _ _ _ Hs Hft).
    rewrite (split3 f t l) at 3 by done. by rewrite Hp.
  Qed.

  Lemma perm_swap_list l i j x y :
    l !! i = Some x -> l !! j = Some y -> <[j:=x]> (<[i:=y]> l) ≡ₚ l.
  Proof.
    intros Hi Hj. destruct (decide (i = j)) as [->|Hne].
    - rewrite Hi in Hj. injection Hj as ->. rewrite list_insert_insert.
      by rewrite list_insert_id.
    - apply Permutation_inj. split.
      { by rewrite !insert_length. }
      exists (fun k => if decide (k = i) then j else if decide (k = j) then i else k).
      split.
      + intros a b. repeat case_decide; congruence.
      + intros k. pose proof (lookup_lt_Some _ _ _ Hi). pose proof (lookup_lt_Some _ _ _ Hj).
        destruct (decide (k = i)) as [->|Hki].
        * rewrite list_lookup_insert_ne by congruence. rewrite list_lookup_insert by lia. congruence.
        * destruct (decide (k = j)) as [->|Hkj].
          -- rewrite list_lookup_insert by (rewrite insert_length; lia). congruence.
          -- by rewrite !list_lookup_insert_ne by congruence.
  Qed.

  (** range_all *)
  Lemma range_all_slice P f t l : range_all P f t l <-> Forall P (slice f t l).
  Proof.
    rewrite Forall_lookup. split.
    - intros H i x Hx. apply slice_lookup_Some in Hx as [Hi Hx]. eapply H; [..|done]; lia.
    - intros H i x Hf Ht Hx. apply (H (i - f)%nat). apply slice_lookup_Some. split; [lia|].
      by replace (f + (i - f))%nat with i by lia.
  Qed.
  Lemma range_all_perm P f t l l' :
    same_outside f t l l' -> l' ≡ₚ l -> range_all P f t l -> range_all P f t l'.
  Proof.
    intros Hs Hp H. destruct (decide (f <= t)%nat) as [Hft|Hft].
    - apply range_all_slice. rewrite (perm_slice f t l l') by done. by apply range_all_slice.
    - intros i x ?? _. lia.
  Qed.
  Lemma range_all_outside P f t f' t' l l' :
    same_outside f' t' l l' -> (t <= f' \/ t' <= f)%nat -> range_all P f t l -> range_all P f t l'.
  Proof. intros [_ Hs] Hd H i x Hf Ht Hx. rewrite Hs in Hx by lia. by apply (H i). Qed.
  Lemma range_all_sub P f t f' t' l :
    range_all P f t l -> (f <= f')%nat -> (t' <= t)%nat -> range_all P f' t' l.
  Proof. intros H ?? i x ?? Hx. apply (H i); auto; lia. Qed.
  (* a sub-range permuted inside a bigger range *)
  Lemma range_all_perm_sub P f t f' t' l l' :
    same_outside f' t' l l' -> (f <= f')%nat -> (t' <= t)%nat -> l' ≡ₚ l ->
    range_all P f t l -> range_all P f t l'.
  Proof.
    intros Hs Hf Ht Hp H. eapply range_all_perm; [|done..].
    eapply same_outside_weaken; done.
  Qed.
  Lemma range_all_mono (P Q : A -> Prop) f t l :
    (forall x, P x -> Q x) -> range_all P f t l -> range_all Q f t l.
  Proof. intros HPQ H i x ?? Hx. apply HPQ. by apply (H i). Qed.

  (** sorted *)
  Lemma sorted_range_slice lt f t l : sorted_range lt f t l <-> sorted lt (slice f t l).
  Proof.
    split.
    - intros H i j x y Hij Hx Hy. apply slice_lookup_Some in Hx as [? Hx], Hy as [? Hy].
      eapply (H (f + i)%nat (f + j)%nat); eauto; lia.
    - intros H i j x y Hf Hij Ht Hx Hy.
      eapply (H (i - f)%nat (j - f)%nat); [lia| |]; apply slice_lookup_Some; (split; [lia|]).
      + by replace (f + (i - f))%nat with i by lia.
      + by replace (f + (j - f))%nat with j by lia.
  Qed.
  Lemma sorted_range_outside lt f t f' t' l l' :
    same_outside f' t' l l' -> (t <= f' \/ t' <= f)%nat -> sorted_range lt f t l -> sorted_range lt f t l'.
  Proof.
    intros [_ Hs] Hd H i j x y Hf Hij Ht Hx Hy. rewrite Hs in Hx, Hy by lia.
    by apply (H i j).
  Qed.
  Lemma sorted_range_sub lt f t f' t' l :
    sorted_range lt f t l -> (f <= f')%nat -> (t' <= t)%nat -> sorted_range lt f' t' l.
  Proof. intros H ?? i j x y ?????. apply (H i j); auto; lia. Qed.
  Lemma sorted_range_join lt f m m' t l (SW : StrictWeakOrder lt) p :
    (f <= m)%nat -> (m <= m')%nat -> (m' <= t)%nat -> 
    sorted_range lt f m l -> sorted_range lt m' t l ->
    range_all (fun x => lt p x = false) f m l ->
    range_all (fun x => lt p x = false /\ lt x p = false) m m' l ->
    range_all (fun x => lt x p = false) m' t l ->
    sorted_range lt f t l.
  Proof.
    intros ??? S1 S2 R1 Rm R2 i j x y Hf Hij Ht Hx Hy.
    destruct (decide (j < m)%nat); [by apply (S1 i j)|].
    destruct (decide (m' <= i)%nat); [by apply (S2 i j)|].
    apply (swo_ntrans lt SW _ p).
    - destruct (decide (i < m)%nat); [apply (R1 i) | eapply (Rm i)]; eauto; lia.
    - destruct (decide (j < m')%nat); [apply (Rm j) | eapply (R2 j)]; eauto; lia.
  Qed.
  Lemma sorted_cons lt x l : sorted lt (x :: l) <-> Forall (fun y => lt y x = false) l /\ sorted lt l.
  Proof.
    split.
    - intros H. split.
      + apply Forall_lookup. intros i y Hy. apply (H 0%nat (S i) x y); auto; lia.
      + intros i j a b Hij Ha Hb. apply (H (S i) (S j)); auto; lia.
    - intros [H1 H2] [|i] [|j] a b Hij Ha Hb; simpl in *; try lia.
      + injection Ha as ->. rewrite Forall_lookup in H1. by apply (H1 j).
      + apply (H2 i j); auto; lia.
  Qed.
  Lemma sorted_nil lt : sorted lt (@nil A).
  Proof. intros i j x y _ Hx. rewrite lookup_nil in Hx. discriminate. Qed.
  Lemma sorted_app lt l1 l2 :
    sorted lt (l1 ++ l2) <-> sorted lt l1 /\ sorted lt l2 /\
      (forall x y, x ∈ l1 -> y ∈ l2 -> lt y x = false).
  Proof.
    induction l1 as [|a l1 IH]; simpl.
    - split; [intros H; repeat split; auto using sorted_nil; intros x y Hx; by apply elem_of_nil in Hx
             |by intros (_ & H & _)].
    - rewrite !sorted_cons, IH, Forall_app, !list.Forall_forall. split.
      + intros [[Ha Hb] (Hc & Hd & He)]. split; [auto|]. split; [auto|].
        intros x y [->|Hx]%elem_of_cons Hy; auto.
      + intros ([Ha Hc] & Hd & He). split; [split; [done|]|split; [done|split; [done|]]].
        * intros y Hy. apply He; [left|done].
        * intros x y Hx Hy. apply He; [by right|done].
  Qed.

  Lemma list_filter_all (P : A -> Prop) `{forall x, Decision (P x)} l : Forall P l -> filter P l = l.
  Proof. induction 1 as [|x l Hx Hl IH]; [done|]. rewrite filter_cons_True by done. by rewrite IH. Qed.
  Lemma list_filter_none (P : A -> Prop) `{forall x, Decision (P x)} l : Forall (fun x => ~ P x) l -> filter P l = [].
  Proof. induction 1 as [|x l Hx Hl IH]; [done|]. by rewrite filter_cons_False. Qed.
End lemmas.
