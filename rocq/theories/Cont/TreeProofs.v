From stdpp Require Import base list numbers option decidable.
From Coq Require Import Lia.
From Verif Require Import Base.Res Base.Order Cont.TreeModel Cont.TreeSpec.

Section tree.
Context {V : Type}.
Implicit Types (h : heap V) (t l r : tree V).
Definition col t : color := match t with E => Black | T c _ _ _ _ => c end.
Definition isE t : bool := match t with E => true | _ => false end.
(** *** contexts *)
Inductive frame := FL (c : color) (x : nat) (v : V) (r : tree V) | FR (c : color) (l : tree V) (x : nat) (v : V).
Definition fptr (f : frame) : nat := match f with FL _ x _ _ => x | FR _ _ x _ => x end.
Definition fill (f : frame) t : tree V := match f with FL c x v r => T c t x v r | FR c l x v => T c l x v t end.
Fixpoint plug (K : list frame) t : tree V := match K with [] => t | f :: K => plug K (fill f t) end.
Definition parK (K : list frame) : nat := match K with [] => 0 | f :: _ => fptr f end.
Fixpoint before (K : list frame) : list (nat * V) :=
  match K with [] => [] | FL c x v r :: K => before K | FR c l x v :: K => before K ++ inorder l ++ [(x, v)] end.
Fixpoint after (K : list frame) : list (nat * V) :=
  match K with [] => [] | FL c x v r :: K => (x, v) :: inorder r ++ after K | FR c l x v :: K => after K end.
Definition kptrs (K : list frame) : list nat := (before K).*1 ++ (after K).*1.
Lemma inorder_plug K : forall t, inorder (plug K t) = before K ++ inorder t ++ after K.
Proof.
  induction K as [|[c x v r|c l x v] K IH]; intros t; cbn [plug before after]; [by rewrite app_nil_r| |]; rewrite IH; cbn [fill inorder]; rewrite <- !app_assoc; cbn [app]; by rewrite <- ?app_assoc.
Qed.
Lemma plug_app J K t : plug (J ++ K) t = plug K (plug J t).
Proof. revert t. induction J as [|f J IH]; intros t; [done|]. cbn. apply IH. Qed.
Fixpoint krep h (mn mx : nat) (q : nat) (K : list frame) : Prop :=
  match K with
  | [] => h 0 = Some (Node mn q mx Black true None)
  | FL c x v r :: K => h x = Some (Node q (parK K) (root r) c false (Some v)) /\ tr h x r /\ krep h mn mx x K
  | FR c l x v :: K => h x = Some (Node (root l) (parK K) q c false (Some v)) /\ tr h x l /\ krep h mn mx x K
  end.
Lemma krep_plug h mn mx K : forall t, (h 0 = Some (Node mn (root (plug K t)) mx Black true None) /\ tr h 0 (plug K t)) <-> (krep h mn mx (root t) K /\ tr h (parK K) t).
Proof.
  induction K as [|[c x v r|c l x v] K IH]; intros t; cbn [plug krep parK fptr]; [done| |]; rewrite IH; cbn [fill root tr]; tauto.
Qed.
Lemma tr_frame h h' p t : (forall x, x ∈ ptrs t -> h' x = h x) -> tr h p t -> tr h' p t.
Proof.
  revert p. induction t as [|c l IHl x v r IHr]; intros p Hf; [done|]. cbn [tr]. intros (H1 & H2 & H3).
  unfold ptrs in *. cbn [inorder] in Hf. rewrite fmap_app, fmap_cons in Hf. cbn [fst] in Hf.
  split_and!; [rewrite Hf; [done|]|apply IHl; [|done]|apply IHr; [|done]]; try intros y Hy; try apply Hf; rewrite ?elem_of_app, ?elem_of_cons; tauto.
Qed.
Lemma krep_frame h h' mn mx q K : h' 0 = h 0 -> (forall x, x ∈ kptrs K -> h' x = h x) -> krep h mn mx q K -> krep h' mn mx q K.
Proof.
  intros H0. revert q. induction K as [|[c x v r|c l x v] K IH]; intros q Hf; cbn [krep]; [by rewrite H0| |]; intros (H1 & H2 & H3);
    unfold kptrs in *; cbn [before after] in Hf; rewrite ?fmap_app, ?fmap_cons, ?fmap_app in Hf; cbn [fst] in Hf.
  - split_and!; [rewrite Hf; [done|]|eapply tr_frame; [|exact H2]|apply IH; [|done]]; try intros y Hy; try apply Hf; unfold ptrs in *; rewrite ?elem_of_app, ?elem_of_cons, ?elem_of_app in *; tauto.
  - split_and!; [rewrite Hf; [done|]|eapply tr_frame; [|exact H2]|apply IH; [|done]]; try intros y Hy; try apply Hf; unfold ptrs in *; rewrite ?fmap_app, ?elem_of_app, ?elem_of_app, ?fmap_cons, ?elem_of_cons in *; tauto.
Qed.
(** *** the invariant: domain D, head node with leftmost mn and rightmost mx, tree t *)
Record rep (D : nat -> Prop) (mn mx : nat) h t : Prop := {
  rep_dom : forall p, is_Some (h p) <-> D p;
  rep_head : h 0 = Some (Node mn (root t) mx Black true None);
  rep_tr : tr h 0 t;
  rep_nd : NoDup (0 :: ptrs t) }.
Record zrep (D : nat -> Prop) (mn mx : nat) h (K : list frame) t : Prop := {
  zr_dom : forall p, is_Some (h p) <-> D p;
  zr_k : krep h mn mx (root t) K;
  zr_t : tr h (parK K) t;
  zr_nd : NoDup (0 :: kptrs K ++ ptrs t) }.
Lemma ptrs_plug K t : 0 :: ptrs (plug K t) ≡ₚ 0 :: kptrs K ++ ptrs t.
Proof. constructor. unfold ptrs, kptrs. rewrite inorder_plug, !fmap_app. rewrite <- app_assoc. apply Permutation_app_head. apply Permutation_app_comm. Qed.
Lemma rep_z D mn mx h K t : rep D mn mx h (plug K t) <-> zrep D mn mx h K t.
Proof.
  split; intros [H1 H2 H3 H4].
  - destruct (proj1 (krep_plug h mn mx K t) (conj H2 H3)). constructor; try done. by rewrite <- ptrs_plug.
  - destruct (proj2 (krep_plug h mn mx K t) (conj H2 H3)). constructor; try done. by rewrite ptrs_plug.
Qed.
Lemma upd_eq h p n : upd h p n p = n.
Proof. unfold upd. by rewrite decide_True. Qed.
Lemma upd_ne h p n q : q <> p -> upd h p n q = h q.
Proof. intros Hn. unfold upd. by rewrite decide_False. Qed.
Lemma upd_dom (D : nat -> Prop) h p n : D p -> (forall q, is_Some (h q) <-> D q) -> forall q, is_Some (upd h p (Some n) q) <-> D q.
Proof. intros Hp HD q. unfold upd. case_decide as Hq; [subst; split; [done|eauto]|apply HD]. Qed.
(** *** reads *)
Section reads.
Context (D : nat -> Prop) (mn mx : nat) h (K : list frame).
Lemma node_at c l x v r : rep D mn mx h (plug K (T c l x v r)) -> h x = Some (Node (root l) (parK K) (root r) c false (Some v)).
Proof. intros H%rep_z. apply H. Qed.
Lemma Lz c l x v r : rep D mn mx h (plug K (T c l x v r)) -> L h x = Ok (root l).
Proof. intros H%node_at. unfold L, ld. by rewrite H. Qed.
Lemma Rz c l x v r : rep D mn mx h (plug K (T c l x v r)) -> R h x = Ok (root r).
Proof. intros H%node_at. unfold R, ld. by rewrite H. Qed.
Lemma Pz c l x v r : rep D mn mx h (plug K (T c l x v r)) -> P h x = Ok (parK K).
Proof. intros H%node_at. unfold P, ld. by rewrite H. Qed.
Lemma colz t : rep D mn mx h (plug K t) -> C h (root t) = Ok (col t).
Proof.
  intros H. destruct t as [|c l x v r]; unfold C, ld.
  - cbn [root]. rewrite (rep_head _ _ _ _ _ H). done.
  - cbn [root]. rewrite (node_at c l x v r H). done.
Qed.
Lemma nilz t : rep D mn mx h (plug K t) -> Isnil h (root t) = Ok (isE t).
Proof.
  intros H. destruct t as [|c l x v r]; unfold Isnil, ld.
  - cbn [root]. rewrite (rep_head _ _ _ _ _ H). done.
  - cbn [root]. rewrite (node_at c l x v r H). done.
Qed.
Lemma parcol : rep D mn mx h (plug K E) \/ (exists c l x v r, rep D mn mx h (plug K (T c l x v r))) -> C h (parK K) = Ok (match K with [] => Black | FL c _ _ _ :: _ => c | FR c _ _ _ :: _ => c end).
Proof.
  intros [H|(c & l & x & v & r & H)]; (destruct K as [|[c' x' v' r'|c' l' x' v'] K']; cbn [parK fptr]; unfold C, ld;
    [rewrite (rep_head _ _ _ _ _ H); done|apply rep_z, zr_k in H; cbn [krep] in H; destruct H as (-> & _); done..]).
Qed.
End reads.
Lemma Ph D mn mx h t : rep D mn mx h t -> P h 0 = Ok (root t).
Proof. intros H. unfold P, ld. by rewrite (rep_head _ _ _ _ _ H). Qed.
Lemma Lh D mn mx h t : rep D mn mx h t -> L h 0 = Ok mn.
Proof. intros H. unfold L, ld. by rewrite (rep_head _ _ _ _ _ H). Qed.
Lemma Rh D mn mx h t : rep D mn mx h t -> R h 0 = Ok mx.
Proof. intros H. unfold R, ld. by rewrite (rep_head _ _ _ _ _ H). Qed.
Lemma D_in D mn mx h t x : rep D mn mx h t -> x ∈ 0 :: ptrs t -> D x.
Proof.
  intros H Hx. apply (rep_dom _ _ _ _ _ H). apply elem_of_cons in Hx as [->|Hx]; [by rewrite (rep_head _ _ _ _ _ H)|].
  pose proof (rep_tr _ _ _ _ _ H) as Ht. clear H. revert Ht. generalize 0 at 1. induction t as [|c l IHl y v r IHr]; intros p Ht; [by apply elem_of_nil in Hx|].
  unfold ptrs in *. cbn [inorder tr] in *. rewrite fmap_app, fmap_cons in Hx. destruct Ht as (H1 & H2 & H3). apply elem_of_app in Hx as [Hx|[->|Hx]%elem_of_cons]; eauto.
Qed.
(** the root of the whole tree is the focus only if the context is empty *)
Lemma root_plug_ne K t f : NoDup (0 :: kptrs (f :: K) ++ ptrs t) -> root (plug (f :: K) t) ∈ kptrs (f :: K).
Proof.
  intros _. revert f t. induction K as [|g K IH]; intros f t.
  - destruct f as [c x v r|c l x v]; cbn [plug fill root]; unfold kptrs; cbn [before after]; [rewrite fmap_nil, fmap_cons; cbn; apply elem_of_cons; by left|].
    rewrite !fmap_app, fmap_cons, !elem_of_app, elem_of_cons. cbn. tauto.
  - cbn [plug] in *. pose proof (IH g (fill f t)) as Hx. unfold kptrs in *. rewrite elem_of_app in *.
    destruct f as [c x v r|c l x v]; cbn [before after] in *; rewrite ?fmap_cons, ?fmap_app, ?elem_of_cons, ?elem_of_app; tauto.
Qed.
Lemma focus_root D mn mx h K t : rep D mn mx h (plug K t) -> root t <> 0 \/ K = [] -> root t = root (plug K t) <-> K = [].
Proof.
  intros H%rep_z Ht. pose proof (zr_nd _ _ _ _ _ _ H) as Hn. split; [|by intros ->]. destruct K as [|f K]; [done|]. intros Hx. exfalso.
  destruct Ht as [Ht|Ht]; [|done]. pose proof (root_plug_ne K t f Hn) as Hin. rewrite <- Hx in Hin.
  apply list.NoDup_cons in Hn as [_ Hn]. apply list.NoDup_app in Hn as (_ & Hn & _). apply (Hn _ Hin). destruct t as [|c l x v r]; [done|]. unfold ptrs. cbn [root inorder].
  rewrite fmap_app, fmap_cons, elem_of_app, elem_of_cons. cbn. tauto.
Qed.
(** *** writes *)
Lemma setC_z D mn mx h K c l x v r c' : rep D mn mx h (plug K (T c l x v r)) -> wp (setC h x c') (fun h' => rep D mn mx h' (plug K (T c' l x v r))).
Proof.
  intros H. unfold setC, ld. rewrite (node_at _ _ _ _ _ _ _ _ _ _ H). cbn.
  assert (HD : D x). { eapply D_in; [exact H|]. rewrite ptrs_plug. unfold ptrs. cbn [inorder]. rewrite fmap_app, fmap_cons, elem_of_cons, !elem_of_app, elem_of_cons. cbn. tauto. }
  apply rep_z. apply rep_z in H. destruct H as [H1 H2 H3 H4]. cbn [tr root] in *. destruct H3 as (H3 & H5 & H6).
  unfold ptrs in H4. cbn [inorder] in H4. rewrite fmap_app, fmap_cons in H4. cbn [fst] in H4.
  pose proof H4 as H4'. apply list.NoDup_cons in H4 as [H40 H4]. apply list.NoDup_app in H4 as (H4a & H4b & H4c). apply list.NoDup_app in H4c as (H4c & H4d & H4e). apply list.NoDup_cons in H4e as [H4e H4f].
  rewrite !elem_of_app, elem_of_cons in H40.
  constructor.
  - by apply upd_dom.
  - eapply krep_frame; [| |exact H2].
    + apply upd_ne. intros <-. tauto.
    + intros y Hy. apply upd_ne. intros ->. apply (H4b x Hy). rewrite elem_of_app, elem_of_cons. tauto.
  - cbn [tr]. split_and!; [by rewrite upd_eq| |].
    + eapply tr_frame; [|exact H5]. intros y Hy. apply upd_ne. intros ->. apply (H4d _ Hy). rewrite elem_of_cons. tauto.
    + eapply tr_frame; [|exact H6]. intros y Hy. apply upd_ne. intros ->. done.
  - unfold ptrs. cbn [inorder]. rewrite fmap_app, fmap_cons. done.
Qed.
Lemma setC_nil D mn mx h t : rep D mn mx h t -> wp (setC h 0 Black) (fun h' => rep D mn mx h' t).
Proof.
  intros H. unfold setC, ld. rewrite (rep_head _ _ _ _ _ H). cbn. pose proof (D_in _ _ _ _ _ 0 H ltac:(apply elem_of_cons; by left)) as HD.
  destruct H as [H1 H2 H3 H4]. pose proof H4 as [H40 _]%list.NoDup_cons. constructor; [by apply upd_dom|by rewrite upd_eq| |done].
  eapply tr_frame; [|exact H3]. intros y Hy. apply upd_ne. intros ->. done.
Qed.
Lemma set_mn D mn mx h t q : rep D mn mx h t -> wp (setL h 0 q) (fun h' => rep D q mx h' t).
Proof.
  intros H. unfold setL, ld. rewrite (rep_head _ _ _ _ _ H). cbn. pose proof (D_in _ _ _ _ _ 0 H ltac:(apply elem_of_cons; by left)) as HD.
  destruct H as [H1 H2 H3 H4]. pose proof H4 as [H40 _]%list.NoDup_cons. constructor; [by apply upd_dom|by rewrite upd_eq| |done].
  eapply tr_frame; [|exact H3]. intros y Hy. apply upd_ne. intros ->. done.
Qed.
Lemma set_mx D mn mx h t q : rep D mn mx h t -> wp (setR h 0 q) (fun h' => rep D mn q h' t).
Proof.
  intros H. unfold setR, ld. rewrite (rep_head _ _ _ _ _ H). cbn. pose proof (D_in _ _ _ _ _ 0 H ltac:(apply elem_of_cons; by left)) as HD.
  destruct H as [H1 H2 H3 H4]. pose proof H4 as [H40 _]%list.NoDup_cons. constructor; [by apply upd_dom|by rewrite upd_eq| |done].
  eapply tr_frame; [|exact H3]. intros y Hy. apply upd_ne. intros ->. done.
Qed.
End tree.
