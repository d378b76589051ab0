(** Ownership lemmas and index arithmetic of the circular map. *)
From stdpp Require Import base list numbers decidable.
From Coq Require Import ZArith Lia.
From Verif Require Import Base.Res Base.Int Cont.ObjMem Cont.ObjMemProofs Cont.DequeModel Cont.DequeSpec.
Local Open Scope nat_scope.

Section own.
  Context {A : Type} (B : nat).
  Implicit Types (l : list (option A)) (m : nat -> cell A) (f : nat -> option nat) (bl : list nat).

  Lemma own_ext bl bk m f l bl' bk' m' f' : own B bl bk m f l ->
    bl ≡ₚ bl' -> bk <= bk' -> (forall q, m' q = m q) -> (forall i, i < length l -> f' i = f i) ->
    own B bl' bk' m' f' l.
  Proof.
    intros [H1 H2 H3 H4 H5 H6 H7 H8] Hb Hk Hm Hf. split.
    - by rewrite <-Hb.
    - intros b Hin. rewrite <-Hb in Hin. specialize (H2 _ Hin). lia.
    - intros b b'. rewrite <-Hb. apply H3.
    - intros i j Hi Hj. rewrite !Hf by done. by apply H4.
    - intros i Hi. destruct (H5 i Hi) as (b & r & ? & ? & ?). exists b, r. rewrite Hf, <-Hb by done. done.
    - intros i p Hi. rewrite Hf, Hm by done. by apply H6.
    - intros b r. rewrite <-Hb, Hm. intros Hin Hr Hne. apply H7; [done|done|]. intros i Hi. rewrite <-Hf by done. by apply Hne.
    - intros q Hq. rewrite Hm. apply H8. intros b. rewrite Hb. apply Hq.
  Qed.
  Lemma own_poke bl bk m f l i p v m' : own B bl bk m f l -> i < length l -> f i = Some p ->
    (forall q, m' q = if decide (q = p) then Obj v else m q) -> own B bl bk m' f (<[i := v]> l).
  Proof.
    intros [H1 H2 H3 H4 H5 H6 H7 H8] Hi Hf Hm. split; rewrite ?insert_length; try done.
    - intros j q Hj Hfj. rewrite Hm. destruct (decide (q = p)) as [->|Hne].
      + assert (j = i) as -> by (apply H4; congruence). by rewrite list_lookup_insert.
      + assert (i <> j) by congruence. rewrite list_lookup_insert_ne by done. by apply H6.
    - intros b r Hin Hr Hne. rewrite Hm. rewrite decide_False; [by apply H7|]. intros <-. by apply (Hne i).
    - intros q Hq. rewrite Hm. destruct (decide (q = p)) as [->|]; [|by apply H8].
      destruct (H5 i Hi) as (b & r & Hb & Hr & Hf'). exfalso. apply (Hq b Hb). rewrite Hf in Hf'. injection Hf' as ->. lia.
  Qed.
  Lemma own_snoc bl bk m f l b r v m' : own B bl bk m f l ->
    b ∈ bl -> r < B -> f (length l) = Some (b + r) -> (forall i, i < length l -> f i <> Some (b + r)) ->
    (forall q, m' q = if decide (q = b + r) then Obj v else m q) -> own B bl bk m' f (l ++ [v]).
  Proof.
    intros [H1 H2 H3 H4 H5 H6 H7 H8] Hb Hr Hf Hne Hm. split; rewrite ?app_length; simpl; try done.
    - intros i j Hi Hj Hij. destruct (decide (i = length l)) as [->|], (decide (j = length l)) as [->|]; try lia.
      + exfalso. apply (Hne j); [lia|congruence].
      + exfalso. apply (Hne i); [lia|congruence].
      + apply H4; [lia|lia|done].
    - intros i Hi. destruct (decide (i = length l)) as [->|]; [by exists b, r|]. apply H5; lia.
    - intros i p Hi Hp. rewrite Hm. destruct (decide (i = length l)) as [->|].
      + rewrite decide_True by congruence. rewrite lookup_app_r, Nat.sub_diag by lia. done.
      + rewrite decide_False; [|intros ->; apply (Hne i); [lia|done]]. rewrite lookup_app_l by lia. apply H6; [lia|done].
    - intros b' r' Hin Hr' Hne'. rewrite Hm. rewrite decide_False; [|intros He; apply (Hne' (length l)); [lia|congruence]].
      apply H7; [done|done|]. intros i Hi. apply Hne'. lia.
    - intros q Hq. rewrite Hm. rewrite decide_False; [by apply H8|]. intros ->. apply (Hq b Hb). lia.
  Qed.
  Lemma own_cons bl bk m f f' l b r v m' : own B bl bk m f l ->
    b ∈ bl -> r < B -> f' 0 = Some (b + r) -> (forall i, i < length l -> f' (S i) = f i) ->
    (forall i, i < length l -> f i <> Some (b + r)) ->
    (forall q, m' q = if decide (q = b + r) then Obj v else m q) -> own B bl bk m' f' (v :: l).
  Proof.
    intros [H1 H2 H3 H4 H5 H6 H7 H8] Hb Hr Hf0 HfS Hne Hm. split; simpl; try done.
    - intros [|i] [|j] Hi Hj Hij; try done.
      + exfalso. rewrite HfS in Hij by lia. apply (Hne j); [lia|congruence].
      + exfalso. rewrite HfS in Hij by lia. apply (Hne i); [lia|congruence].
      + f_equal. rewrite !HfS in Hij by lia. apply H4; [lia|lia|done].
    - intros [|i] Hi; [by exists b, r|]. rewrite HfS by lia. apply H5; lia.
    - intros [|i] p Hi Hp; rewrite Hm.
      + rewrite decide_True by congruence. done.
      + rewrite HfS in Hp by lia. rewrite decide_False; [|intros ->; apply (Hne i); [lia|done]].
        change ((v :: l) !! S i) with (l !! i). apply H6; [lia|done].
    - intros b' r' Hin Hr' Hne'. rewrite Hm. rewrite decide_False; [|intros He; apply (Hne' 0); [lia|congruence]].
      apply H7; [done|done|]. intros i Hi. rewrite <-HfS by done. apply Hne'. lia.
    - intros q Hq. rewrite Hm. rewrite decide_False; [by apply H8|]. intros ->. apply (Hq b Hb). lia.
  Qed.
  Lemma own_unsnoc bl bk m f l v p m' : own B bl bk m f (l ++ [v]) -> f (length l) = Some p ->
    (forall q, m' q = if decide (q = p) then Raw else m q) -> own B bl bk m' f l.
  Proof.
    intros [H1 H2 H3 H4 H5 H6 H7 H8] Hf Hm. rewrite app_length in *. simpl in *. split; try done.
    - intros i j Hi Hj. apply H4; lia.
    - intros i Hi. apply H5. lia.
    - intros i q Hi Hq. rewrite Hm. rewrite decide_False.
      + rewrite (H6 i q) by (lia || done). by rewrite lookup_app_l.
      + intros ->. assert (i = length l) by (apply H4; [lia|lia|congruence]). lia.
    - intros b r Hb Hr Hne. rewrite Hm. destruct (decide (b + r = p)); [done|]. apply H7; [done|done|].
      intros i Hi. destruct (decide (i = length l)) as [->|]; [congruence|]. apply Hne. lia.
    - intros q Hq. rewrite Hm. rewrite decide_False; [by apply H8|]. intros ->.
      destruct (H5 (length l)) as (b & r & Hb & Hr & Hfb); [lia|]. apply (Hq b Hb). rewrite Hf in Hfb. injection Hfb as ->. lia.
  Qed.
  Lemma own_uncons bl bk m f f' l v p m' : own B bl bk m f (v :: l) -> f 0 = Some p ->
    (forall i, i < length l -> f' i = f (S i)) ->
    (forall q, m' q = if decide (q = p) then Raw else m q) -> own B bl bk m' f' l.
  Proof.
    intros [H1 H2 H3 H4 H5 H6 H7 H8] Hf Hf' Hm. simpl in *. split; try done.
    - intros i j Hi Hj. rewrite !Hf' by done. intros He. apply H4 in He; lia.
    - intros i Hi. rewrite Hf' by done. apply H5. lia.
    - intros i q Hi Hq. rewrite Hf' in Hq by done. rewrite Hm. rewrite decide_False.
      + by rewrite (H6 (S i) q) by (lia || done).
      + intros ->. assert (S i = 0) by (apply H4; [lia|lia|congruence]). lia.
    - intros b r Hb Hr Hne. rewrite Hm. destruct (decide (b + r = p)); [done|]. apply H7; [done|done|].
      intros [|i] Hi; [congruence|]. rewrite <-Hf' by lia. apply Hne. lia.
    - intros q Hq. rewrite Hm. rewrite decide_False; [by apply H8|]. intros ->.
      destruct (H5 0) as (b & r & Hb & Hr & Hfb); [lia|]. apply (Hq b Hb). rewrite Hf in Hfb. injection Hfb as ->. lia.
  Qed.
  Lemma own_alloc bl bk m f l m' : 0 < B -> own B bl bk m f l ->
    (forall q, m' q = if decide (bk <= q < bk + B) then Raw else m q) -> own B (bk :: bl) (bk + B) m' f l.
  Proof.
    intros HB [H1 H2 H3 H4 H5 H6 H7 H8] Hm. split; try done.
    - apply list.NoDup_cons. split; [|done]. intros Hin. specialize (H2 _ Hin). lia.
    - intros b [->|Hin]%elem_of_cons; [lia|]. specialize (H2 _ Hin). lia.
    - intros b b' [->|Hin]%elem_of_cons [->|Hin']%elem_of_cons Hne; [done| | |by apply H3].
      + right. by apply H2.
      + left. by apply H2.
    - intros i Hi. destruct (H5 i Hi) as (b & r & Hb & ? & ?). exists b, r. split; [by right|done].
    - intros i p Hi Hp. rewrite Hm. rewrite decide_False; [by apply H6|].
      destruct (H5 i Hi) as (b & r & Hb & Hr & Hfb). rewrite Hp in Hfb. injection Hfb as ->. specialize (H2 _ Hb). lia.
    - intros b r [->|Hin]%elem_of_cons Hr Hne; rewrite Hm.
      + by rewrite decide_True by lia.
      + specialize (H2 _ Hin). rewrite decide_False by lia. by apply H7.
    - intros q Hq. rewrite Hm. assert (~ bk <= q < bk + B) by (apply Hq; by left). rewrite decide_False by done.
      apply H8. intros b Hb. apply Hq. by right.
  Qed.
  Lemma own_dealloc b bl bk m f l m' : own B (b :: bl) bk m f l ->
    (forall i p, i < length l -> f i = Some p -> ~ b <= p < b + B) ->
    (forall q, m' q = if decide (b <= q < b + B) then Unalloc else m q) -> own B bl bk m' f l.
  Proof.
    intros [H1 H2 H3 H4 H5 H6 H7 H8] Hne Hm. apply list.NoDup_cons in H1 as [Hnin H1].
    assert (Hdis : forall b', b' ∈ bl -> b + B <= b' \/ b' + B <= b).
    { intros b' Hb'. apply H3; [by left|by right|]. by intros ->. }
    split; try done.
    - intros b' Hin. apply H2. by right.
    - intros b1 b2 Hb1 Hb2. apply H3; by right.
    - intros i Hi. destruct (H5 i Hi) as (b' & r & Hb & Hr & Hf). exists b', r. split; [|done].
      apply elem_of_cons in Hb as [->|Hb]; [|done]. exfalso. apply (Hne i _ Hi Hf). lia.
    - intros i p Hi Hp. rewrite Hm. rewrite decide_False by (by apply (Hne i)). by apply H6.
    - intros b' r Hin Hr Hn. rewrite Hm. destruct (Hdis _ Hin); rewrite decide_False by lia; apply H7; try done; by right.
    - intros q Hq. rewrite Hm. destruct (decide (b <= q < b + B)); [done|]. apply H8.
      intros b' [->|Hb']%elem_of_cons; [done|by apply Hq].
  Qed.
End own.

(** powers of two: the masks are remainders *)
Lemma land_mask k o : Nat.land o (2 ^ k - 1) = o mod 2 ^ k.
Proof. rewrite Nat.sub_1_r, <-Nat.ones_equiv. apply Nat.land_ones. Qed.
Lemma mod_ring B ms o : B <> 0 -> ms <> 0 -> o mod (ms * B) = o mod B + B * ((o / B) mod ms).
Proof. intros. rewrite Nat.mul_comm. by apply Nat.mod_mul_r. Qed.
Lemma mod_ring_B B ms o : B <> 0 -> ms <> 0 -> (o mod (ms * B)) mod B = o mod B.
Proof.
  intros. rewrite mod_ring by done. rewrite Nat.mul_comm, Nat.mod_add by done. by apply Nat.mod_mod.
Qed.
Lemma div_ring B ms o : B <> 0 -> ms <> 0 -> (o mod (ms * B)) / B = (o / B) mod ms.
Proof.
  intros. rewrite mod_ring by done. rewrite Nat.mul_comm, Nat.div_add by done.
  rewrite Nat.div_small; [done|]. by apply Nat.mod_upper_bound.
Qed.
(** offsets closer than the ring size are distinct modulo it *)
Lemma mod_window c a i j : i < c -> j < c -> (a + i) mod c = (a + j) mod c -> i = j.
Proof.
  intros Hi Hj He.
  assert (Hc : c <> 0) by lia.
  pose proof (Nat.div_mod (a + i) c Hc) as E1. pose proof (Nat.div_mod (a + j) c Hc) as E2.
  rewrite He in E1. assert (c * ((a + i) / c) - c * ((a + j) / c) < c) by lia.
  assert (c * ((a + j) / c) - c * ((a + i) / c) < c) by lia.
  assert ((a + i) / c = (a + j) / c); [|congruence || lia]. nia.
Qed.

Lemma NoDup_omap_insert (m : list (option nat)) j b : m !! j = Some None -> omap id (<[j := Some b]> m) ≡ₚ b :: omap id m.
Proof.
  intros Hj. assert (j < length m) by (by eapply lookup_lt_Some).
  rewrite <-(take_drop_middle m j None) by done.
  rewrite insert_app_r_alt; rewrite take_length_le by lia; [|lia].
  rewrite Nat.sub_diag. simpl. rewrite !omap_app. simpl. symmetry. apply Permutation_middle.
Qed.
Lemma omap_insert_None (m : list (option nat)) j b : m !! j = Some (Some b) -> omap id m ≡ₚ b :: omap id (<[j := None]> m).
Proof.
  intros Hj. assert (j < length m) by (by eapply lookup_lt_Some).
  rewrite <-(take_drop_middle m j (Some b)) by done.
  rewrite insert_app_r_alt; rewrite take_length_le by lia; [|lia].
  rewrite Nat.sub_diag. simpl. rewrite !omap_app. simpl. symmetry. apply Permutation_middle.
Qed.

Section slots.
  Context (B : nat) (HB : 0 < B).

  Lemma slot_mod d o o' : Mapsize d <> 0 -> o mod (Mapsize d * B) = o' mod (Mapsize d * B) -> slot B d o = slot B d o'.
  Proof.
    intros Hm He. unfold slot.
    rewrite <-(div_ring B (Mapsize d) o), <-(div_ring B (Mapsize d) o'), He by lia.
    rewrite <-(mod_ring_B B (Mapsize d) o), <-(mod_ring_B B (Mapsize d) o'), He by lia. done.
  Qed.
  Lemma elem_of_blocks d b : b ∈ blocks d <-> exists j, dmap d !! j = Some (Some b).
  Proof.
    unfold blocks. rewrite elem_of_list_omap. split.
    - intros (x & Hx & Hid). simpl in Hid. subst x. by apply elem_of_list_lookup in Hx.
    - intros [j Hj]. exists (Some b). split; [|done]. by eapply elem_of_list_lookup_2.
  Qed.
  Lemma slot_block d o p : slot B d o = Some p -> exists b, b ∈ blocks d /\ p = b + o mod B /\ o mod B < B /\
    dmap d !! ((o / B) mod Mapsize d) = Some (Some b).
  Proof.
    unfold slot. destruct (dmap d !! _) as [[b|]|] eqn:E; try done. intros [= <-]. exists b.
    split; [apply elem_of_blocks; by eexists|]. split; [done|]. split; [|done]. apply Nat.mod_upper_bound. lia.
  Qed.
  Lemma map_inj (m : list (option nat)) j j' b : NoDup (omap id m) -> m !! j = Some (Some b) -> m !! j' = Some (Some b) -> j = j'.
  Proof.
    revert j j'. induction m as [|x m IH]; intros j j' Hn Hj Hj'; [done|].
    assert (Hin : forall k, m !! k = Some (Some b) -> b ∈ omap id m).
    { intros k Hk. apply elem_of_list_omap. exists (Some b). split; [by eapply elem_of_list_lookup_2|done]. }
    destruct x as [y|]; simpl in Hn.
    - apply list.NoDup_cons in Hn as [Hy Hn]. destruct j as [|j], j' as [|j']; simpl in Hj, Hj'.
      + done.
      + injection Hj as ->. exfalso. eauto.
      + injection Hj' as ->. exfalso. eauto.
      + f_equal. eauto.
    - destruct j as [|j], j' as [|j']; simpl in Hj, Hj'; try done. f_equal. eauto.
  Qed.
  Lemma slot_inj (d : deq) o o' p :
    NoDup (blocks d) -> (forall b b', b ∈ blocks d -> b' ∈ blocks d -> b <> b' -> b + B <= b' \/ b' + B <= b) ->
    Mapsize d <> 0 -> slot B d o = Some p -> slot B d o' = Some p -> o mod (Mapsize d * B) = o' mod (Mapsize d * B).
  Proof.
    intros Hn Hd Hm (b & Hb & Hp & Hr & Hj)%slot_block (b' & Hb' & Hp' & Hr' & Hj')%slot_block.
    assert (b = b') as <-. { destruct (decide (b = b')); [done|]. destruct (Hd _ _ Hb Hb'); [done|lia|lia]. }
    pose proof (map_inj _ _ _ _ Hn Hj Hj') as E. rewrite !mod_ring by lia. rewrite E. lia.
  Qed.
End slots.
