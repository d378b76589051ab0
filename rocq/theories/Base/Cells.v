(** Reasoning about arrays of cells as concatenations of full and empty blocks. *)
From stdpp Require Import base list numbers.
From Coq Require Import Lia.
From Verif Require Import Base.Res Base.Arr.

Notation empty n := (replicate n None).

Section cells.
  Context {A : Type}.
  Implicit Types (a X Y H : arr A) (x : A) (l P : list A).

  Lemma full_app l1 l2 : full (l1 ++ l2) = full l1 ++ full l2.
  Proof. apply fmap_app. Qed.
  Lemma full_cons x l : full (x :: l) = Some x :: full l.
  Proof. reflexivity. Qed.
  Lemma full_nil : full (@nil A) = [].
  Proof. reflexivity. Qed.
  Lemma full_inj l l' : full l = full l' -> l = l'.
  Proof. unfold full. intros E. by apply (inj (fmap Some)) in E. Qed.

  Lemma rd_mid X x Y i : i = length X -> rd (X ++ Some x :: Y) i = Ok x.
  Proof. intros ->. unfold rd. by rewrite list_lookup_middle. Qed.
  Lemma wr_mid X c Y i x : i = length X -> wr (X ++ c :: Y) i x = Ok (X ++ Some x :: Y).
  Proof.
    intros ->. unfold wr. rewrite decide_True by (rewrite app_length; simpl; lia).
    f_equal. rewrite insert_app_r_alt by lia. by rewrite Nat.sub_diag.
  Qed.
  Lemma mv_mid X x Y i : i = length X -> mv (X ++ Some x :: Y) i = Ok (x, X ++ None :: Y).
  Proof.
    intros ->. unfold mv. rewrite rd_mid by done. simpl. do 2 f_equal.
    rewrite insert_app_r_alt by lia. by rewrite Nat.sub_diag.
  Qed.
  Lemma mvto_down X c H x Y s d : d = length X -> s = (length X + S (length H))%nat ->
    mvto (X ++ c :: H ++ Some x :: Y) s d = Ok (X ++ Some x :: H ++ None :: Y).
  Proof.
    intros -> ->. unfold mvto. rewrite decide_False by lia.
    rewrite (app_comm_cons H), app_assoc.
    rewrite mv_mid by (rewrite app_length; simpl; lia). simpl.
    rewrite <-app_assoc. simpl. by rewrite wr_mid.
  Qed.
  Lemma mvto_up X c H x Y s d : s = length X -> d = (length X + S (length H))%nat ->
    mvto (X ++ Some x :: H ++ c :: Y) s d = Ok (X ++ None :: H ++ Some x :: Y).
  Proof.
    intros -> ->. unfold mvto. rewrite decide_False by lia.
    rewrite mv_mid by done. simpl.
    rewrite (app_comm_cons H), app_assoc.
    rewrite wr_mid by (rewrite app_length; simpl; lia).
    rewrite <-app_assoc. done.
  Qed.
  Lemma swp_mid X x H y Y i j : i = length X -> j = (length X + S (length H))%nat ->
    swp (X ++ Some x :: H ++ Some y :: Y) i j = Ok (X ++ Some y :: H ++ Some x :: Y).
  Proof.
    intros -> ->. unfold swp. rewrite rd_mid by done. simpl.
    assert (E : forall (u v : option A), X ++ u :: H ++ v :: Y = (X ++ u :: H) ++ v :: Y).
    { intros. rewrite <-app_assoc. done. }
    rewrite E. rewrite rd_mid by (rewrite app_length; simpl; lia). simpl. rewrite <-E.
    f_equal. rewrite insert_app_r_alt by lia. rewrite Nat.sub_diag. simpl.
    rewrite E, insert_app_r_alt by (rewrite app_length; simpl; lia).
    replace (_ - _)%nat with 0%nat by (rewrite app_length; simpl; lia). simpl. by rewrite <-E.
  Qed.

  (** the cells at [i, i+length l) hold the values l *)
  Definition seg a (i : nat) l : Prop := forall k x, l !! k = Some x -> a !! (i + k)%nat = Some (Some x).
  Lemma seg_full l f : seg (full l) f (drop f l).
  Proof. intros k x Hk. rewrite lookup_drop in Hk. by rewrite full_lookup, Hk. Qed.
  Lemma seg_app X l Y : seg (X ++ full l ++ Y) (length X) l.
  Proof.
    intros k x Hk. rewrite lookup_app_r by lia. replace (_ - _)%nat with k by lia.
    rewrite lookup_app_l by (rewrite full_length; by eapply lookup_lt_Some). by rewrite full_lookup, Hk.
  Qed.
End cells.
