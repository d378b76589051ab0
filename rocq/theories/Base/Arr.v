(** Memory of an element range: a list of cells. [None] is a moved-from (or not yet constructed)
    object; reading it is [UB], as is touching an index outside the list. *)
From stdpp Require Import base list numbers.
From Coq Require Import Lia.
From Verif Require Import Base.Res.

Notation arr A := (list (option A)).

(** fully constructed array holding the values [l] *)
Definition full {A} (l : list A) : arr A := Some <$> l.

(** [*it] *)
Definition rd {A} (a : arr A) (i : nat) : res A :=
  match a !! i with Some (Some x) => Ok x | _ => UB end.
(** [*it = v] *)
Definition wr {A} (a : arr A) (i : nat) (x : A) : res (arr A) :=
  if decide (i < length a)%nat then Ok (<[i := Some x]> a) else UB.
(** [std::move( *it )]: value out, cell left moved-from *)
Definition mv {A} (a : arr A) (i : nat) : res (A * arr A) :=
  x <~ rd a i ;; Ok (x, <[i := None]> a).
(** [swap( *i, *j )] *)
Definition swp {A} (a : arr A) (i j : nat) : res (arr A) :=
  x <~ rd a i ;; y <~ rd a j ;; Ok (<[j := Some x]> (<[i := Some y]> a)).
(** [*d = std::move( *s )]; self-move-assignment is treated as undefined *)
Definition mvto {A} (a : arr A) (s d : nat) : res (arr A) :=
  if decide (s = d) then UB else '(x, a) <~ mv a s ;; wr a d x.
(** [--it] on an iterator that must not pass index 0 *)
Definition decr (i : nat) : res nat := match i with 0%nat => UB | S k => Ok k end.

Section lemmas.
  Context {A : Type}.
  Implicit Types (l : list A) (a : arr A).

  Lemma full_lookup l i : full l !! i = Some <$> l !! i.
  Proof. unfold full. by rewrite list_lookup_fmap. Qed.
  Lemma full_length l : length (full l) = length l.
  Proof. unfold full. by rewrite fmap_length. Qed.
  Lemma full_insert l i x : <[i:=Some x]> (full l) = full (<[i:=x]> l).
  Proof. unfold full. by rewrite list_fmap_insert. Qed.

  Lemma wp_rd a i x (Q : A -> Prop) : a !! i = Some (Some x) -> Q x -> wp (rd a i) Q.
  Proof. unfold rd. by intros ->. Qed.
  Lemma wp_rd_full l i x (Q : A -> Prop) : l !! i = Some x -> Q x -> wp (rd (full l) i) Q.
  Proof. intros H. apply wp_rd. by rewrite full_lookup, H. Qed.
  Lemma wp_rd_full' l i (Q : A -> Prop) :
    (i < length l)%nat -> (forall x, l !! i = Some x -> Q x) -> wp (rd (full l) i) Q.
  Proof.
    intros Hi H. destruct (lookup_lt_is_Some_2 l i Hi) as [x Hx]. eapply wp_rd_full; eauto.
  Qed.
  Lemma wp_wr a i x (Q : arr A -> Prop) :
    (i < length a)%nat -> Q (<[i:=Some x]> a) -> wp (wr a i x) Q.
  Proof. intros Hi HQ. unfold wr. by rewrite decide_True. Qed.
  Lemma wp_wr_full l i x (Q : arr A -> Prop) :
    (i < length l)%nat -> Q (full (<[i:=x]> l)) -> wp (wr (full l) i x) Q.
  Proof. intros Hi HQ. apply wp_wr; [by rewrite full_length|]. by rewrite full_insert. Qed.
  Lemma wp_swp_full l i j x y (Q : arr A -> Prop) :
    l !! i = Some x -> l !! j = Some y -> Q (full (<[j:=x]> (<[i:=y]> l))) ->
    wp (swp (full l) i j) Q.
  Proof.
    intros Hx Hy HQ. unfold swp. apply wp_bind. eapply wp_rd_full; [done|].
    apply wp_bind. eapply wp_rd_full; [done|]. simpl. by rewrite !full_insert.
  Qed.
  Lemma wp_mv a i x (Q : A * arr A -> Prop) :
    a !! i = Some (Some x) -> Q (x, <[i:=None]> a) -> wp (mv a i) Q.
  Proof. intros H HQ. unfold mv, rd. by rewrite H. Qed.
  Lemma wp_decr i (Q : nat -> Prop) : (0 < i)%nat -> Q (i - 1)%nat -> wp (decr i) Q.
  Proof. destruct i; [lia|]. simpl. by rewrite Nat.sub_0_r. Qed.

  (** arrays with one hole *)
  Definition holed l (h : nat) : arr A := <[h:=None]> (full l).
  Lemma holed_length l h : length (holed l h) = length l.
  Proof. unfold holed. by rewrite insert_length, full_length. Qed.
  Lemma holed_lookup_ne l h i : i <> h -> holed l h !! i = Some <$> l !! i.
  Proof. intros. unfold holed. rewrite list_lookup_insert_ne by done. apply full_lookup. Qed.
  Lemma holed_fill l h x : <[h:=Some x]> (holed l h) = full (<[h:=x]> l).
  Proof. unfold holed. rewrite list_insert_insert. apply full_insert. Qed.
  Lemma holed_insert l h x : holed (<[h:=x]> l) h = holed l h.
  Proof. unfold holed. rewrite <-full_insert. apply list_insert_insert. Qed.
  (* move cell s into the hole h: the hole is now s *)
  Lemma wp_mvto_holed l h s x (Q : arr A -> Prop) :
    s <> h -> (h < length l)%nat -> l !! s = Some x ->
    Q (holed (<[h:=x]> l) s) -> wp (mvto (holed l h) s h) Q.
  Proof.
    intros Hne Hh Hs HQ. unfold mvto. rewrite decide_False by done. apply wp_bind. eapply wp_mv.
    { rewrite holed_lookup_ne by done. by rewrite Hs. }
    simpl. apply wp_wr; [by rewrite insert_length, holed_length|].
    rewrite list_insert_commute by done. by rewrite holed_fill.
  Qed.
  Lemma wp_mv_full l i x (Q : A * arr A -> Prop) :
    l !! i = Some x -> Q (x, holed l i) -> wp (mv (full l) i) Q.
  Proof. intros H. apply wp_mv. by rewrite full_lookup, H. Qed.
  Lemma wp_wr_holed l h x (Q : arr A -> Prop) :
    (h < length l)%nat -> Q (full (<[h:=x]> l)) -> wp (wr (holed l h) h x) Q.
  Proof. intros Hh HQ. apply wp_wr; [by rewrite holed_length|]. by rewrite holed_fill. Qed.
  Lemma wp_rd_holed l h i x (Q : A -> Prop) :
    i <> h -> l !! i = Some x -> Q x -> wp (rd (holed l h) i) Q.
  Proof. intros Hne H. apply wp_rd. rewrite holed_lookup_ne by done. by rewrite H. Qed.
End lemmas.

(** walk through a bind *)
Ltac wbind := first [apply wp_bind | cbv beta iota; apply wp_bind | cbv beta iota zeta; apply wp_bind].

(** unify [Some]/lookup equations without touching let-bound names *)
Ltac isome := repeat match goal with
  | H : Some ?a = Some ?b |- _ => first [is_var b; injection H as <- | is_var a; injection H as -> | injection H as H]
  | H1 : ?l !! ?i = Some ?a, H2 : ?l !! ?i = Some ?b |- _ =>
      first [is_var b; assert (b = a) by congruence; subst b; clear H2
            |is_var a; assert (a = b) by congruence; subst a; clear H1]
  end.
