(** Pure facts: contiguous groups, insertion positions, the bucket vector. *)
From stdpp Require Import base list numbers option decidable.
From Coq Require Import Lia.
From Verif Require Import Base.Res Cont.ListModel Cont.ListSpec Cont.ListProofs Cont.ListProofs2 Cont.HashModel Cont.HashSpec.
Local Open Scope nat_scope.

Section pure.
Context {V : Type}.
Implicit Types (l a b c d m : list (nat * V)) (x y : nat * V) (P : nat * V -> bool).
Notation yes P := (Forall (fun x : nat * V => P x = true)).
Notation no P := (Forall (fun x : nat * V => P x = false)).

Lemma lf_app P a b : List.filter P (a ++ b) = List.filter P a ++ List.filter P b.
Proof. apply List.filter_app. Qed.
Lemma lf_cons P x l : List.filter P (x :: l) = if P x then x :: List.filter P l else List.filter P l.
Proof. done. Qed.
Lemma lf_yes P l : yes P l -> List.filter P l = l.
Proof. induction 1 as [|x l E _ IH]; [done|]. rewrite lf_cons, E. by rewrite IH. Qed.
Lemma lf_no P l : no P l -> List.filter P l = [].
Proof. induction 1 as [|x l E _ IH]; [done|]. by rewrite lf_cons, E. Qed.
Lemma lf_nil P l : List.filter P l = [] -> no P l.
Proof. induction l as [|x l IH]; [constructor|]. rewrite lf_cons. destruct (P x) eqn:E; [done|]. intros ?. constructor; auto. Qed.
Lemma lf_all P l : yes P (List.filter P l).
Proof. induction l as [|x l IH]; [constructor|]. rewrite lf_cons. destruct (P x) eqn:E; [constructor|]; auto. Qed.
Lemma lf_in P l x : x ∈ List.filter P l <-> x ∈ l /\ P x = true.
Proof. rewrite !elem_of_list_In. apply filter_In. Qed.

Lemma contig_split P l : contig P l -> exists a c, l = a ++ List.filter P l ++ c /\ no P a /\ no P c.
Proof.
  intros (a & m & c & -> & Hm & Hac). apply Forall_app in Hac as [Ha Hc].
  exists a, c. rewrite !lf_app, (lf_no _ a), (lf_yes _ m), (lf_no _ c) by done. by rewrite app_nil_r.
Qed.
Lemma contig_intro P a m c : yes P m -> no P a -> no P c -> contig P (a ++ m ++ c).
Proof. intros. exists a, m, c. split; [done|]. split; [done|]. by apply Forall_app. Qed.
Lemma contig_none P l : no P l -> contig P l.
Proof. intros. exists l, [], []. rewrite !app_nil_r. split; [done|]. split; [constructor|done]. Qed.
Lemma contig_nil P : contig P [].
Proof. apply contig_none. constructor. Qed.
Lemma sub_Forall (Q : nat * V -> Prop) l l' : sublist l' l -> Forall Q l -> Forall Q l'.
Proof. induction 1; intros F; [done| |]; apply list.Forall_cons in F as [? ?]; [constructor|]; auto. Qed.
Lemma contig_sub P l l' : sublist l' l -> contig P l -> contig P l'.
Proof.
  intros S (a & m & c & -> & Hm & Hac). apply Forall_app in Hac as [Ha Hc].
  apply sublist_app_r in S as (a' & r & -> & S1 & S). apply sublist_app_r in S as (m' & c' & -> & S2 & S3).
  apply contig_intro; by eapply sub_Forall.
Qed.
Lemma sub_mid_del a m c : sublist (a ++ c) (a ++ m ++ c).
Proof. apply sublist_app; [done|]. by apply sublist_inserts_l. Qed.

(** inserting one element *)
Lemma contig_ins P a x c : contig P (a ++ c) ->
  (if P x then no P (a ++ c) \/ (exists y, list.last a = Some y /\ P y = true) \/ (exists y, head c = Some y /\ P y = true)
   else (forall y, list.last a = Some y -> P y = false) \/ (forall y, head c = Some y -> P y = false)) ->
  contig P (a ++ x :: c).
Proof.
  intros (a1 & m & c1 & E & Hm & Hac) Hx. apply Forall_app in Hac as [Ha1 Hc1].
  assert (Lno : forall l y, no P l -> list.last l = Some y -> P y = false).
  { intros l y F L. rewrite last_Some in L. destruct L as [l' ->]. apply Forall_app in F as [_ F]. by apply list.Forall_cons in F as [? _]. }
  assert (Hno : forall l y, no P l -> head l = Some y -> P y = false).
  { intros [|z l] y F L; [done|]. injection L as ->. by apply list.Forall_cons in F as [? _]. }
  assert (Lyes : forall l y, yes P l -> list.last l = Some y -> P y = true).
  { intros l y F L. rewrite last_Some in L. destruct L as [l' ->]. apply Forall_app in F as [_ F]. by apply list.Forall_cons in F as [? _]. }
  assert (Hyes : forall l y, yes P l -> head l = Some y -> P y = true).
  { intros [|z l] y F L; [done|]. injection L as ->. by apply list.Forall_cons in F as [? _]. }
  destruct (decide (m = [])) as [->|Hne].
  { cbn [app] in E. assert (N : no P (a ++ c)) by (rewrite E; by apply Forall_app). apply Forall_app in N as [Na Nc]. destruct (P x) eqn:Px.
    - change (a ++ x :: c) with (a ++ [x] ++ c). apply contig_intro; [by repeat constructor|done|done].
    - apply contig_none. apply Forall_app. split; [done|]. by constructor. }
  (* where is the cut? *)
  assert (Cut : (exists u, a1 = a ++ u /\ u <> [] /\ c = u ++ m ++ c1) \/ (exists u w, m = u ++ w /\ a = a1 ++ u /\ c = w ++ c1) \/ (exists u, a = a1 ++ m ++ u /\ u <> [] /\ c1 = u ++ c)).
  { apply app_eq_app in E as [k [[E1 E2]|[E1 E2]]].
    - destruct (decide (length k <= length m)) as [L|L].
      + right; left. exists k, (drop (length k) m).
        assert (Ek : k = take (length k) m). { assert (X : take (length k) (m ++ c1) = take (length k) (k ++ c)) by by rewrite E2. rewrite take_app_le in X by done. by rewrite take_app in X. }
        split; [by rewrite Ek at 1; rewrite take_drop|]. split; [done|].
        assert (X : drop (length k) (m ++ c1) = drop (length k) (k ++ c)) by by rewrite E2. rewrite drop_app_le in X by done. by rewrite drop_app in X.
      + right; right. exists (drop (length m) k).
        assert (Em : m = take (length m) k). { assert (X : take (length m) (m ++ c1) = take (length m) (k ++ c)) by by rewrite E2. rewrite take_app in X. by rewrite take_app_le in X by lia. }
        split; [rewrite E1; f_equal; rewrite Em at 1; by rewrite take_drop|]. split.
        * intros X%(f_equal length). rewrite drop_length in X. cbn in X. lia.
        * assert (X : drop (length m) (m ++ c1) = drop (length m) (k ++ c)) by by rewrite E2. rewrite drop_app in X. rewrite drop_app_le in X by lia. done.
    - destruct (decide (k = [])) as [->|Hk].
      + right; left. exists [], m. rewrite app_nil_r in E1. cbn [app] in E2. rewrite app_nil_r. split; [done|]. split; [done|]. done.
      + left. by exists k. }
  destruct Cut as [(u & -> & Hu & ->)|[(u & w & -> & -> & ->)|(u & -> & Hu & ->)]].
  - apply Forall_app in Ha1 as [Na Nu]. destruct (P x) eqn:Px.
    + exfalso. destruct Hx as [N|[(y & L & Py)|(y & L & Py)]].
      * apply Forall_app in N as [_ N]. apply Forall_app in N as [_ N]. apply Forall_app in N as [N _]. destruct m as [|z m]; [done|]. apply list.Forall_cons in N as [N _]. apply list.Forall_cons in Hm as [Y _]. congruence.
      * by rewrite (Lno _ _ Na L) in Py.
      * destruct u as [|z u]; [done|]. injection L as ->. apply list.Forall_cons in Nu as [Nu _]. congruence.
    + replace (a ++ x :: u ++ m ++ c1) with ((a ++ x :: u) ++ m ++ c1) by by rewrite <- app_assoc. apply contig_intro; [done| |done]. apply Forall_app. split; [done|]. by constructor.
  - apply Forall_app in Hm as [Hu Hw]. destruct (P x) eqn:Px.
    + replace ((a1 ++ u) ++ x :: w ++ c1) with (a1 ++ (u ++ x :: w) ++ c1) by by rewrite <- !app_assoc. apply contig_intro; [|done|done]. apply Forall_app. split; [done|]. by constructor.
    + destruct (decide (u = [])) as [->|Hu0].
      * rewrite app_nil_r. cbn [app]. replace (a1 ++ x :: w ++ c1) with ((a1 ++ [x]) ++ w ++ c1) by by rewrite <- app_assoc. apply contig_intro; [done| |done]. apply Forall_app. split; [done|]. by repeat constructor.
      * destruct (decide (w = [])) as [->|Hw0].
        { cbn [app]. replace ((a1 ++ u) ++ x :: c1) with (a1 ++ u ++ ([x] ++ c1)) by by rewrite <- app_assoc. apply contig_intro; [done|done|]. by constructor. }
        exfalso. destruct Hx as [Hx|Hx].
        { destruct (list.last u) as [y|] eqn:Lu; [|by apply last_None in Lu]. pose proof (Lyes _ _ Hu Lu) as Y. rewrite Hx in Y; [done|]. rewrite last_app_ne by done. done. }
        { destruct w as [|y w]; [done|]. apply list.Forall_cons in Hw as [Y _]. rewrite Hx in Y; done. }
  - apply Forall_app in Hc1 as [Nu Nc]. destruct (P x) eqn:Px.
    + exfalso. destruct Hx as [N|[(y & L & Py)|(y & L & Py)]].
      * apply Forall_app in N as [N _]. apply Forall_app in N as [_ N]. apply Forall_app in N as [N _]. destruct m as [|z m]; [done|]. apply list.Forall_cons in N as [N _]. apply list.Forall_cons in Hm as [Y _]. congruence.
      * rewrite app_assoc, last_app_ne in L by done. by rewrite (Lno _ _ Nu L) in Py.
      * by rewrite (Hno _ _ Nc L) in Py.
    + replace ((a1 ++ m ++ u) ++ x :: c) with (a1 ++ m ++ (u ++ x :: c)) by by rewrite <- !app_assoc. apply contig_intro; [done|done|]. apply Forall_app. split; [done|]. by constructor.
Qed.
End pure.
