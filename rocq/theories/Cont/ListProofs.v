(** Basic lemmas about chains and rings; insertion and splicing. *)
From stdpp Require Import base list numbers option decidable.
From Coq Require Import Lia.
From Verif Require Import Base.Res Cont.ListModel Cont.ListSpec.
Local Open Scope nat_scope.

Section proofs.
Context {V : Type}.
Implicit Types (h : heap V) (l a b c d m : list (nat * V)).

(** * memory primitives *)
Lemma nx_some h p q : nx h p = Some q -> exists n, h p = Some n /\ nnext n = q.
Proof. unfold nx. destruct (h p); simpl; naive_solver. Qed.
Lemma pv_some h p q : pv h p = Some q -> exists n, h p = Some n /\ nprev n = q.
Proof. unfold pv. destruct (h p); simpl; naive_solver. Qed.
Lemma N_ok h p q : nx h p = Some q -> N h p = Ok q.
Proof. intros (n & E & <-)%nx_some. unfold N, ld. by rewrite E. Qed.
Lemma P_ok h p q : pv h p = Some q -> P h p = Ok q.
Proof. intros (n & E & <-)%pv_some. unfold P, ld. by rewrite E. Qed.
Lemma Val_ok h p v : vl h p = Some v -> Val h p = Ok v.
Proof. unfold vl, Val, ld. destruct (h p) as [n|]; simpl; [|done]. by intros ->. Qed.
Lemma pv_nx h p q : pv h p = Some q -> is_Some (nx h p).
Proof. unfold nx, pv. destruct (h p); naive_solver. Qed.
Lemma nx_pv h p q : nx h p = Some q -> is_Some (pv h p).
Proof. unfold nx, pv. destruct (h p); naive_solver. Qed.

(** the effect of a link write *)
Definition effN h h' (p q : nat) : Prop :=
  (forall x, nx h' x = if decide (x = p) then Some q else nx h x) /\ (forall x, pv h' x = pv h x) /\
  (forall x, vl h' x = vl h x) /\ (forall x, x <> p -> h' x = h x).
Definition effP h h' (p q : nat) : Prop :=
  (forall x, nx h' x = nx h x) /\ (forall x, pv h' x = if decide (x = p) then Some q else pv h x) /\
  (forall x, vl h' x = vl h x) /\ (forall x, x <> p -> h' x = h x).
Lemma setN_ok h p q : is_Some (nx h p) -> exists h', setN h p q = Ok h' /\ effN h h' p q.
Proof.
  intros [q0 (n & E & _)%nx_some]. unfold setN, ld. rewrite E, rbind_ok. eexists. split; [done|].
  unfold effN, nx, pv, vl, upd. split_and!; intros x; destruct (decide (x = p)); subst; rewrite ?E; done.
Qed.
Lemma setP_ok h p q : is_Some (pv h p) -> exists h', setP h p q = Ok h' /\ effP h h' p q.
Proof.
  intros [q0 (n & E & _)%pv_some]. unfold setP, ld. rewrite E, rbind_ok. eexists. split; [done|].
  unfold effP, nx, pv, vl, upd. split_and!; intros x; destruct (decide (x = p)); subst; rewrite ?E; done.
Qed.
Lemma New_ok h p v : h p = None -> exists h', New h p v = Ok h' /\
  (forall x, nx h' x = if decide (x = p) then Some 0 else nx h x) /\
  (forall x, pv h' x = if decide (x = p) then Some 0 else pv h x) /\
  (forall x, vl h' x = if decide (x = p) then Some v else vl h x) /\ (forall x, x <> p -> h' x = h x).
Proof.
  intros E. unfold New. rewrite E. eexists. split; [done|].
  unfold nx, pv, vl, upd. split_and!; intros x; destruct (decide (x = p)); subst; rewrite ?E; done.
Qed.
Lemma Free_ok h p v : vl h p = Some v -> exists h', Free h p = Ok h' /\ h' p = None /\ (forall x, x <> p -> h' x = h x).
Proof.
  intros E. unfold Free. rewrite (Val_ok _ _ _ E), rbind_ok. eexists. split; [done|]. unfold upd.
  split; [by rewrite decide_True|]. intros x ?. by rewrite decide_False.
Qed.

(** * chains *)
Lemma chain_app h (x y : list nat) : chain h (x ++ y) <->
  chain h x /\ chain h y /\ (forall p q, list.last x = Some p -> head y = Some q -> link h p q).
Proof.
  induction x as [|p x IH]; [naive_solver|]. destruct x as [|p' x].
  - destruct y as [|q y]; [naive_solver|]. cbn. naive_solver.
  - cbn [app chain] in *. rewrite IH. change (list.last (p :: p' :: x)) with (list.last (p' :: x)). naive_solver.
Qed.
Lemma chain_mono h h' ps : chain h ps -> (forall p q, p ∈ ps -> q ∈ tail ps -> link h p q -> link h' p q) -> chain h' ps.
Proof.
  induction ps as [|p ps IH]; [done|]. destruct ps as [|q ps]; [done|]. intros [L C] H. split.
  - apply H; [left|left|done].
  - apply IH; [done|]. intros p' q' Hp Hq. apply H; [by right|]. cbn in *. by right.
Qed.
Lemma last_app_ne {A} (x y : list A) : y <> [] -> list.last (x ++ y) = list.last y.
Proof. intros Hy. destruct y as [|e y' _] using rev_ind; [done|]. by rewrite app_assoc, !last_snoc. Qed.
Lemma last_ptrs l : list.last (l.*1) = fst <$> list.last l.
Proof. by rewrite fmap_last. Qed.
Lemma last_hd (hd : nat) l : list.last (hd :: l.*1) = Some (lst_of hd l).
Proof.
  unfold lst_of. destruct l as [|x l' _] using rev_ind; [done|].
  rewrite last_snoc, fmap_app. change (hd :: (l'.*1 ++ [x].*1)) with ((hd :: l'.*1) ++ [x.1]). by rewrite last_snoc.
Qed.
Lemma head_hd (hd : nat) l : head (l.*1 ++ [hd]) = Some (fst_of hd l).
Proof. by destruct l. Qed.
Lemma fst_of_in hd l : fst_of hd l ∈ l.*1 ++ [hd].
Proof. destruct l; cbn; left. Qed.
Lemma lst_of_in hd l : lst_of hd l ∈ hd :: l.*1.
Proof.
  unfold lst_of. destruct (list.last l) as [x|] eqn:E; [|left]. right. apply elem_of_list_fmap. exists x. split; [done|].
  by apply last_Some_elem_of.
Qed.
Lemma fst_of_app hd a b : fst_of hd (a ++ b) = fst_of (fst_of hd b) a.
Proof. by destruct a. Qed.
Lemma lst_of_app hd a b : lst_of hd (a ++ b) = lst_of (lst_of hd a) b.
Proof.
  unfold lst_of. destruct b as [|x b' _] using rev_ind; [by rewrite app_nil_r|]. by rewrite app_assoc, !last_snoc.
Qed.
Lemma fst_of_ne hd hd' l : l <> [] -> fst_of hd l = fst_of hd' l.
Proof. by destruct l. Qed.
Lemma lst_of_ne hd hd' l : l <> [] -> lst_of hd l = lst_of hd' l.
Proof. intros Hl. unfold lst_of. destruct l as [|x l' _] using rev_ind; [done|]. by rewrite last_snoc. Qed.
Lemma fst_of_in_ne hd l : l <> [] -> fst_of hd l ∈ l.*1.
Proof. destruct l; [done|]. left. Qed.
Lemma lst_of_in_ne hd l : l <> [] -> lst_of hd l ∈ l.*1.
Proof. intros Hl. unfold lst_of. destruct l as [|x l' _] using rev_ind; [done|]. rewrite last_snoc. apply elem_of_list_fmap. exists x. split; [done|]. apply elem_of_app. right. left. Qed.

(** the ring without its first head: a list of distinct nodes ending in the head *)
Lemma ring_split h hd a b : ring h hd (a ++ b) ->
  chain h (hd :: a.*1) /\ chain h (b.*1 ++ [hd]) /\ link h (lst_of hd a) (fst_of hd b).
Proof.
  intros (_ & _ & C & _). rewrite fmap_app in C. rewrite <- app_assoc in C.
  change (hd :: a.*1 ++ b.*1 ++ [hd]) with ((hd :: a.*1) ++ (b.*1 ++ [hd])) in C.
  apply chain_app in C as (C1 & C2 & L). split_and!; try done. apply L; [apply last_hd|apply head_hd].
Qed.
Lemma ring_chain h hd a b : chain h (hd :: a.*1) -> chain h (b.*1 ++ [hd]) -> link h (lst_of hd a) (fst_of hd b) ->
  chain h (hd :: (a ++ b).*1 ++ [hd]).
Proof.
  intros C1 C2 L. rewrite fmap_app, <- app_assoc. change (hd :: a.*1 ++ b.*1 ++ [hd]) with ((hd :: a.*1) ++ (b.*1 ++ [hd])).
  apply chain_app. split_and!; try done. intros p q. rewrite last_hd, head_hd. by intros [= <-] [= <-].
Qed.
Lemma ring_nodup h hd l : ring h hd l -> NoDup (l.*1 ++ [hd]).
Proof. intros (H & _). apply list.NoDup_cons in H as [H1 H2]. apply list.NoDup_app. split_and!; [done| |apply NoDup_singleton]. intros x Hx ->%elem_of_list_singleton. done. Qed.
Lemma ring_link h hd a b : ring h hd (a ++ b) -> link h (lst_of hd a) (fst_of hd b).
Proof. intros H. by apply (ring_split h hd a b). Qed.
Lemma ring_first h hd l : ring h hd l -> nx h hd = Some (fst_of hd l).
Proof. intros H. apply (ring_link h hd [] l H). Qed.
Lemma ring_last h hd l : ring h hd l -> pv h hd = Some (lst_of hd l).
Proof. intros H. rewrite <- (app_nil_r l) in H. apply (ring_link h hd l [] H). Qed.
Lemma ring_val h hd l x : ring h hd l -> x ∈ l -> vl h x.1 = Some x.2.
Proof. intros (_ & _ & _ & F) Hx. by apply (proj1 (list.Forall_forall _ _) F). Qed.
Lemma ring_nx h hd a x b : ring h hd (a ++ x :: b) -> nx h x.1 = Some (fst_of hd b).
Proof. intros H. replace (a ++ x :: b) with ((a ++ [x]) ++ b) in H by by rewrite <- app_assoc. destruct (ring_link _ _ _ _ H) as [L _]. by rewrite lst_of_app in L. Qed.
Lemma ring_pv h hd a x b : ring h hd (a ++ x :: b) -> pv h x.1 = Some (lst_of hd a).
Proof. intros H. by destruct (ring_link _ _ _ _ H) as [_ L]. Qed.
Lemma ring_nz h hd l p : ring h hd l -> p ∈ hd :: l.*1 -> p <> 0.
Proof. intros (_ & Z & _) Hp ->. done. Qed.
Lemma ring_alloc h hd l p : ring h hd l -> p ∈ hd :: l.*1 -> is_Some (h p).
Proof.
  intros H Hp. enough (is_Some (nx h p)) as [q (n & E & _)%nx_some] by eauto.
  apply elem_of_cons in Hp as [->|Hp]; [rewrite (ring_first _ _ _ H); eauto|].
  apply elem_of_list_fmap in Hp as (x & -> & Hx). apply elem_of_list_split in Hx as (a & b & ->). rewrite (ring_nx _ _ _ _ _ H); eauto.
Qed.
(** rings only depend on their own nodes *)
Lemma ring_frame h h' hd l : ring h hd l -> (forall p, p ∈ hd :: l.*1 -> h' p = h p) -> ring h' hd l.
Proof.
  intros (ND & Z & C & F) H. split_and!; try done.
  - eapply chain_mono; [exact C|]. intros p q Hp Hq [L1 L2].
    assert (Hi : forall x, x ∈ hd :: l.*1 ++ [hd] -> h' x = h x).
    { intros x Hx. apply H. apply elem_of_cons in Hx as [->|[Hx|Hx]%elem_of_app]; [left|by right|]. apply elem_of_list_singleton in Hx as ->. left. }
    unfold link, nx, pv in *. rewrite !Hi; try done. right. done.
  - apply list.Forall_forall. intros x Hx. unfold vl. rewrite H; [|right; apply elem_of_list_fmap; eauto].
    by apply (proj1 (list.Forall_forall _ _) F).
Qed.
End proofs.
