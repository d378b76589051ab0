From stdpp Require Import base list numbers.
From Coq Require Import Lia ZifyNat.
From Verif Require Import Base.Res Base.Order Base.OrderLemmas Base.Arr Base.Cells Base.Stable
  Alg.RotateProofs Alg.SetOpModel.
Local Arguments full : simpl never.

Section setops.
  Context {A : Type} (lt : A -> A -> bool) (SW : StrictWeakOrder lt).
  Implicit Types (l r out : list A) (X Y : arr A).
  Notation fe := (fun x l => List.filter (eqvb lt x) l).

  (* reference functions *)
  Fixpoint unionl (l1 : list A) : list A -> list A :=
    fix go (l2 : list A) : list A :=
      match l1, l2 with
      | [], _ => l2
      | _, [] => l1
      | x :: t1, y :: t2 => if lt x y then x :: unionl t1 l2 else if lt y x then y :: go t2 else x :: unionl t1 t2
      end.
  Fixpoint interl (l1 : list A) : list A -> list A :=
    fix go (l2 : list A) : list A :=
      match l1, l2 with
      | [], _ => []
      | _, [] => []
      | x :: t1, y :: t2 => if lt x y then interl t1 l2 else if lt y x then go t2 else x :: interl t1 t2
      end.
  Fixpoint diffl (l1 : list A) : list A -> list A :=
    fix go (l2 : list A) : list A :=
      match l1, l2 with
      | [], _ => []
      | _, [] => l1
      | x :: t1, y :: t2 => if lt x y then x :: diffl t1 l2 else if lt y x then go t2 else diffl t1 t2
      end.
  Fixpoint symdl (l1 : list A) : list A -> list A :=
    fix go (l2 : list A) : list A :=
      match l1, l2 with
      | [], _ => l2
      | _, [] => l1
      | x :: t1, y :: t2 => if lt x y then x :: symdl t1 l2 else if lt y x then y :: go t2 else symdl t1 t2
      end.
  Fixpoint inclb (l1 : list A) : list A -> bool :=
    fix go (l2 : list A) : bool :=
      match l1, l2 with
      | _, [] => true
      | [], _ => false
      | x :: t1, y :: t2 => if lt x y then inclb t1 l2 else if lt y x then false else inclb t1 t2
      end.

  (** filters of a sorted list below/above an element *)
  Lemma fe_above z b l : sorted lt (b :: l) -> lt z b = true -> fe z (b :: l) = [].
  Proof.
    intros Hs Hz. apply sorted_cons in Hs as [Hs _].
    assert (H : Forall (fun y => lt z y = true) (b :: l)).
    { constructor; [done|]. eapply list.Forall_impl; [exact Hs|]. intros y Hy. by apply (swo_lt_le lt SW _ b). }
    clear Hz Hs. induction H as [|y r Hy Hr IH]; [done|]. simpl. rewrite IH.
    replace (eqvb lt z y) with false; [done|]. symmetry. unfold eqvb. rewrite Hy. done.
  Qed.
  Lemma fe_above' z a b l : sorted lt (b :: l) -> lt a b = true -> eqvb lt z a = true -> fe z (b :: l) = [].
  Proof. intros Hs Hab Hz. apply fe_above; [done|]. apply eqvb_true in Hz as [H1 H2]. by apply (swo_le_lt lt SW _ a). Qed.

  Lemma eqvb_same z a b : lt a b = false -> lt b a = false -> eqvb lt z a = eqvb lt z b.
  Proof.
    intros H1 H2. assert (H : eqvb lt a b = true) by (by apply eqvb_true).
    destruct (eqvb lt z a) eqn:E1, (eqvb lt z b) eqn:E2; try done.
    - by rewrite (eqvb_trans lt SW _ _ _ E1 H) in E2.
    - rewrite eqvb_sym in H. by rewrite (eqvb_trans lt SW _ _ _ E2 H) in E1.
  Qed.

  Lemma sorted_tl x l : sorted lt (x :: l) -> sorted lt l.
  Proof. intros H. by apply sorted_cons in H as [_ ?]. Qed.

  (* induction principle following the three-way comparison *)
  Lemma two_list_ind (P : list A -> list A -> Prop) :
    (forall l2, P [] l2) -> (forall x t1, P (x :: t1) []) ->
    (forall x t1 y t2, lt x y = true -> P t1 (y :: t2) -> P (x :: t1) (y :: t2)) ->
    (forall x t1 y t2, lt x y = false -> lt y x = true -> P (x :: t1) t2 -> P (x :: t1) (y :: t2)) ->
    (forall x t1 y t2, lt x y = false -> lt y x = false -> P t1 t2 -> P (x :: t1) (y :: t2)) ->
    forall l1 l2, P l1 l2.
  Proof.
    intros H1 H2 H3 H4 H5 l1. induction l1 as [|x t1 IH1]; [done|]. intros l2. induction l2 as [|y t2 IH2]; [done|].
    destruct (lt x y) eqn:E1; [by apply H3|]. destruct (lt y x) eqn:E2; [by apply H4|by apply H5].
  Qed.

  Ltac stp := simpl; repeat match goal with H : lt _ _ = _ |- _ => rewrite H end.
  (* equations *)
  Lemma unionl_eq x t1 y t2 : unionl (x :: t1) (y :: t2) =
    if lt x y then x :: unionl t1 (y :: t2) else if lt y x then y :: unionl (x :: t1) t2 else x :: unionl t1 t2.
  Proof. done. Qed.
  Lemma interl_eq x t1 y t2 : interl (x :: t1) (y :: t2) =
    if lt x y then interl t1 (y :: t2) else if lt y x then interl (x :: t1) t2 else x :: interl t1 t2.
  Proof. done. Qed.
  Lemma diffl_eq x t1 y t2 : diffl (x :: t1) (y :: t2) =
    if lt x y then x :: diffl t1 (y :: t2) else if lt y x then diffl (x :: t1) t2 else diffl t1 t2.
  Proof. done. Qed.
  Lemma symdl_eq x t1 y t2 : symdl (x :: t1) (y :: t2) =
    if lt x y then x :: symdl t1 (y :: t2) else if lt y x then y :: symdl (x :: t1) t2 else symdl t1 t2.
  Proof. done. Qed.
  Lemma inclb_eq x t1 y t2 : inclb (x :: t1) (y :: t2) =
    if lt x y then inclb t1 (y :: t2) else if lt y x then false else inclb t1 t2.
  Proof. done. Qed.
  Lemma nil_r l : unionl l [] = l /\ interl l [] = [] /\ diffl l [] = l /\ symdl l [] = l /\ inclb l [] = true.
  Proof. by destruct l. Qed.
  Lemma nil_l l : unionl [] l = l /\ interl [] l = [] /\ diffl [] l = [] /\ symdl [] l = l.
  Proof. by destruct l. Qed.

  Lemma fe_cons z a l : fe z (a :: l) = if eqvb lt z a then a :: fe z l else fe z l.
  Proof. done. Qed.

  (** multiset semantics: for every z, which of the elements equivalent to z come out, in which order *)
  Lemma unionl_fe l1 l2 z : sorted lt l1 -> sorted lt l2 -> fe z (unionl l1 l2) = fe z l1 ++ drop (length (fe z l1)) (fe z l2).
  Proof.
    revert l1 l2. apply (two_list_ind (fun l1 l2 => sorted lt l1 -> sorted lt l2 -> fe z (unionl l1 l2) = fe z l1 ++ drop (length (fe z l1)) (fe z l2))).
    - intros l2 _ _. destruct (nil_l l2) as (-> & _). done.
    - intros x t1 _ _. destruct (nil_r (x :: t1)) as (-> & _). change (List.filter (eqvb lt z) []) with (@nil A). by rewrite drop_nil, app_nil_r.
    - intros x t1 y t2 E IH S1 S2. rewrite unionl_eq, E, (fe_cons z x), (fe_cons z x t1), IH by eauto using sorted_tl.
      destruct (eqvb lt z x) eqn:Ez; [|done]. rewrite (fe_above' z x y t2) by done. by rewrite !drop_nil.
    - intros x t1 y t2 E E' IH S1 S2. rewrite unionl_eq, E, E', (fe_cons z y), (fe_cons z y t2), IH by eauto using sorted_tl.
      destruct (eqvb lt z y) eqn:Ez; [|done]. rewrite (fe_above' z y x t1) by done. done.
    - intros x t1 y t2 E E' IH S1 S2. rewrite unionl_eq, E, E', (fe_cons z x), (fe_cons z x t1), (fe_cons z y), IH by eauto using sorted_tl.
      rewrite <-(eqvb_same z x y) by done. destruct (eqvb lt z x); done.
  Qed.
  Lemma interl_fe l1 l2 z : sorted lt l1 -> sorted lt l2 -> fe z (interl l1 l2) = take (length (fe z l2)) (fe z l1).
  Proof.
    revert l1 l2. apply (two_list_ind (fun l1 l2 => sorted lt l1 -> sorted lt l2 -> fe z (interl l1 l2) = take (length (fe z l2)) (fe z l1))).
    - intros l2 _ _. destruct (nil_l l2) as (_ & -> & _). simpl. by rewrite take_nil.
    - intros x t1 _ _. done.
    - intros x t1 y t2 E IH S1 S2. rewrite interl_eq, E, (fe_cons z x), IH by eauto using sorted_tl.
      destruct (eqvb lt z x) eqn:Ez; [|done]. rewrite (fe_above' z x y t2) by done. done.
    - intros x t1 y t2 E E' IH S1 S2. rewrite interl_eq, E, E', (fe_cons z y), IH by eauto using sorted_tl.
      destruct (eqvb lt z y) eqn:Ez; [|done]. rewrite (fe_above' z y x t1) by done. by rewrite !take_nil.
    - intros x t1 y t2 E E' IH S1 S2. rewrite interl_eq, E, E', (fe_cons z x), (fe_cons z x t1), (fe_cons z y), IH by eauto using sorted_tl.
      rewrite <-(eqvb_same z x y) by done. destruct (eqvb lt z x); done.
  Qed.
  Lemma diffl_fe l1 l2 z : sorted lt l1 -> sorted lt l2 -> fe z (diffl l1 l2) = drop (length (fe z l2)) (fe z l1).
  Proof.
    revert l1 l2. apply (two_list_ind (fun l1 l2 => sorted lt l1 -> sorted lt l2 -> fe z (diffl l1 l2) = drop (length (fe z l2)) (fe z l1))).
    - intros l2 _ _. destruct (nil_l l2) as (_ & _ & -> & _). simpl. by rewrite drop_nil.
    - intros x t1 _ _. done.
    - intros x t1 y t2 E IH S1 S2. rewrite diffl_eq, E, (fe_cons z x), (fe_cons z x t1), IH by eauto using sorted_tl.
      destruct (eqvb lt z x) eqn:Ez; [|done]. rewrite (fe_above' z x y t2) by done. done.
    - intros x t1 y t2 E E' IH S1 S2. rewrite diffl_eq, E, E', (fe_cons z y), IH by eauto using sorted_tl.
      destruct (eqvb lt z y) eqn:Ez; [|done]. rewrite (fe_above' z y x t1) by done. by rewrite !drop_nil.
    - intros x t1 y t2 E E' IH S1 S2. rewrite diffl_eq, E, E', (fe_cons z x), (fe_cons z y), IH by eauto using sorted_tl.
      rewrite <-(eqvb_same z x y) by done. destruct (eqvb lt z x); done.
  Qed.
  Lemma symdl_fe l1 l2 z : sorted lt l1 -> sorted lt l2 ->
    fe z (symdl l1 l2) = drop (length (fe z l2)) (fe z l1) ++ drop (length (fe z l1)) (fe z l2).
  Proof.
    revert l1 l2. apply (two_list_ind (fun l1 l2 => sorted lt l1 -> sorted lt l2 -> fe z (symdl l1 l2) = drop (length (fe z l2)) (fe z l1) ++ drop (length (fe z l1)) (fe z l2))).
    - intros l2 _ _. destruct (nil_l l2) as (_ & _ & _ & ->). simpl. by rewrite drop_nil.
    - intros x t1 _ _. destruct (nil_r (x :: t1)) as (_ & _ & _ & -> & _). change (List.filter (eqvb lt z) []) with (@nil A). by rewrite drop_nil, app_nil_r.
    - intros x t1 y t2 E IH S1 S2. rewrite symdl_eq, E, (fe_cons z x), (fe_cons z x t1), IH by eauto using sorted_tl.
      destruct (eqvb lt z x) eqn:Ez; [|done]. rewrite (fe_above' z x y t2) by done. by rewrite !drop_nil.
    - intros x t1 y t2 E E' IH S1 S2. rewrite symdl_eq, E, E', (fe_cons z y), (fe_cons z y t2), IH by eauto using sorted_tl.
      destruct (eqvb lt z y) eqn:Ez; [|done]. rewrite (fe_above' z y x t1) by done. by rewrite !drop_nil.
    - intros x t1 y t2 E E' IH S1 S2. rewrite symdl_eq, E, E', (fe_cons z x), (fe_cons z y), IH by eauto using sorted_tl.
      rewrite <-(eqvb_same z x y) by done. destruct (eqvb lt z x); done.
  Qed.
  Lemma inclb_fe l1 l2 : sorted lt l1 -> sorted lt l2 ->
    inclb l1 l2 = true <-> (forall z, length (fe z l2) <= length (fe z l1))%nat.
  Proof.
    revert l1 l2. apply (two_list_ind (fun l1 l2 => sorted lt l1 -> sorted lt l2 -> inclb l1 l2 = true <-> (forall z, length (fe z l2) <= length (fe z l1))%nat)).
    - intros [|y l2] _ _; simpl; [split; [lia|done]|]. split; [done|]. intros H. specialize (H y). rewrite (eqvb_refl lt SW) in H. simpl in H. lia.
    - intros x t1 _ _. simpl. split; [lia|done].
    - intros x t1 y t2 E IH S1 S2. rewrite inclb_eq, E. rewrite IH by eauto using sorted_tl.
      split; intros H z; specialize (H z); rewrite (fe_cons z x) in *; destruct (eqvb lt z x) eqn:Ez; try done.
      + simpl length at 2. lia.
      + rewrite (fe_above' z x y t2) by done. simpl. lia.
    - intros x t1 y t2 E E' IH S1 S2. rewrite inclb_eq, E, E'. split; [done|]. intros H. specialize (H y).
      rewrite (fe_above' y y x t1), fe_cons, (eqvb_refl lt SW) in H by (done || apply (eqvb_refl lt SW)). simpl in H. lia.
    - intros x t1 y t2 E E' IH S1 S2. rewrite inclb_eq, E, E'. rewrite IH by eauto using sorted_tl.
      split; intros H z; specialize (H z); rewrite (fe_cons z x), (fe_cons z y) in *; rewrite <-(eqvb_same z x y) in * by done;
        destruct (eqvb lt z x); simpl length in *; lia.
  Qed.

  (** sortedness *)
  Lemma setop_in l1 l2 w : (w ∈ unionl l1 l2 \/ w ∈ interl l1 l2 \/ w ∈ diffl l1 l2 \/ w ∈ symdl l1 l2) -> w ∈ l1 \/ w ∈ l2.
  Proof.
    revert l1 l2. apply (two_list_ind (fun l1 l2 => (w ∈ unionl l1 l2 \/ w ∈ interl l1 l2 \/ w ∈ diffl l1 l2 \/ w ∈ symdl l1 l2) -> w ∈ l1 \/ w ∈ l2)).
    - intros l2. destruct (nil_l l2) as (-> & -> & -> & ->). naive_solver.
    - intros x t1. destruct (nil_r (x :: t1)) as (-> & -> & -> & -> & _). rewrite elem_of_nil. naive_solver.
    - intros x t1 y t2 E IH. rewrite unionl_eq, interl_eq, diffl_eq, symdl_eq, E, !elem_of_cons. rewrite elem_of_cons in IH. naive_solver.
    - intros x t1 y t2 E E' IH. rewrite unionl_eq, interl_eq, diffl_eq, symdl_eq, E, E', !elem_of_cons. rewrite elem_of_cons in IH. naive_solver.
    - intros x t1 y t2 E E' IH. rewrite unionl_eq, interl_eq, diffl_eq, symdl_eq, E, E', !elem_of_cons. naive_solver.
  Qed.
  Lemma setop_lb l1 l2 x (out : list A) : Forall (fun y => lt y x = false) l1 -> Forall (fun y => lt y x = false) l2 ->
    (forall w, w ∈ out -> w ∈ l1 \/ w ∈ l2) -> Forall (fun y => lt y x = false) out.
  Proof. rewrite !list.Forall_forall. intros H1 H2 H w Hw. destruct (H w Hw); auto. Qed.
  Lemma sorted_ge x y l : lt y x = false -> sorted lt (y :: l) -> Forall (fun z => lt z x = false) (y :: l).
  Proof.
    intros E Hs. apply sorted_cons in Hs as [Hs _]. constructor; [done|].
    eapply list.Forall_impl; [exact Hs|]. intros z Hz. by apply (swo_ntrans lt SW _ y).
  Qed.
  Lemma setop_sorted l1 l2 : sorted lt l1 -> sorted lt l2 ->
    sorted lt (unionl l1 l2) /\ sorted lt (interl l1 l2) /\ sorted lt (diffl l1 l2) /\ sorted lt (symdl l1 l2).
  Proof.
    revert l1 l2. apply (two_list_ind (fun l1 l2 => sorted lt l1 -> sorted lt l2 -> sorted lt (unionl l1 l2) /\ sorted lt (interl l1 l2) /\ sorted lt (diffl l1 l2) /\ sorted lt (symdl l1 l2))).
    - intros l2 H1 H2. destruct (nil_l l2) as (-> & -> & -> & ->). repeat split; auto using sorted_nil.
    - intros x t1 H1 H2. destruct (nil_r (x :: t1)) as (-> & -> & -> & -> & _). repeat split; auto using sorted_nil.
    - intros x t1 y t2 E IH S1 S2. rewrite unionl_eq, interl_eq, diffl_eq, symdl_eq, E, !sorted_cons.
      destruct (IH (sorted_tl _ _ S1) S2) as (I1 & I2 & I3 & I4).
      assert (E' : lt y x = false) by (by apply (swo_asym lt SW)).
      assert (L2 : Forall (fun z => lt z x = false) (y :: t2)) by (by apply sorted_ge).
      apply sorted_cons in S1 as [L1 S1].
      repeat split; try done; apply (setop_lb t1 (y :: t2)); try done; intros w Hw; apply setop_in; auto.
    - intros x t1 y t2 E E' IH S1 S2. rewrite unionl_eq, interl_eq, diffl_eq, symdl_eq, E, E', !sorted_cons.
      destruct (IH S1 (sorted_tl _ _ S2)) as (I1 & I2 & I3 & I4).
      assert (L1 : Forall (fun z => lt z y = false) (x :: t1)) by (by apply sorted_ge).
      apply sorted_cons in S2 as [L2 S2].
      repeat split; try done; apply (setop_lb (x :: t1) t2); try done; intros w Hw; apply setop_in; auto.
    - intros x t1 y t2 E E' IH S1 S2. rewrite unionl_eq, interl_eq, diffl_eq, symdl_eq, E, E', !sorted_cons.
      destruct (IH (sorted_tl _ _ S1) (sorted_tl _ _ S2)) as (I1 & I2 & I3 & I4).
      assert (L2 : Forall (fun z => lt z x = false) (y :: t2)) by (by apply sorted_ge).
      apply sorted_cons in S1 as [L1 S1].
      repeat split; try done; apply (setop_lb t1 (y :: t2)); try done; intros w Hw;
        (destruct (setop_in t1 t2 w) as [?|?]; [auto|by left|by right; right]).
  Qed.

  (** the code computes the reference functions *)
  Lemma copy_out_ok r X Y (f t : nat) out : f = length X -> t = (f + length r)%nat ->
    copy_out (X ++ full r ++ Y) f t out = Ok (out ++ r).
  Proof.
    intros -> ->. unfold copy_out. replace (_ - _)%nat with (length r) by lia.
    revert X out. induction r as [|x r IH]; intros X out; [by rewrite app_nil_r|].
    cbn [length copy_n]. rewrite full_cons, <-app_comm_cons, rd_mid by done. cbn [rbind].
    replace (X ++ Some x :: full r ++ Y) with ((X ++ [Some x]) ++ full r ++ Y) by (by rewrite <-app_assoc).
    replace (S (length X)) with (length (X ++ [Some x])) by len. rewrite IH. by rewrite <-app_assoc.
  Qed.

  Lemma shift_cell (X : arr A) x r Y : X ++ full (x :: r) ++ Y = (X ++ [Some x]) ++ full r ++ Y.
  Proof. by rewrite <-app_assoc. Qed.

  Section two.
    Context (a1 a2 Y1 Y2 : arr A) (t1 t2 : nat).
    (* the remaining ranges are r1 and r2 *)
    Definition at1 (f1 : nat) (r1 : list A) : Prop := exists X, a1 = X ++ full r1 ++ Y1 /\ f1 = length X /\ t1 = (f1 + length r1)%nat.
    Definition at2 (f2 : nat) (r2 : list A) : Prop := exists X, a2 = X ++ full r2 ++ Y2 /\ f2 = length X /\ t2 = (f2 + length r2)%nat.
    Lemma at1_cons f x r : at1 f (x :: r) -> rd a1 f = Ok x /\ f <> t1 /\ at1 (S f) r.
    Proof.
      intros (X & EX & -> & Et). simpl in Et. split; [by rewrite EX, full_cons, <-app_comm_cons, rd_mid|]. split; [lia|].
      exists (X ++ [Some x]). split; [by rewrite EX, shift_cell|]. split; [len|]. simpl in *. lia.
    Qed.
    Lemma at2_cons f x r : at2 f (x :: r) -> rd a2 f = Ok x /\ f <> t2 /\ at2 (S f) r.
    Proof.
      intros (X & EX & -> & Et). simpl in Et. split; [by rewrite EX, full_cons, <-app_comm_cons, rd_mid|]. split; [lia|].
      exists (X ++ [Some x]). split; [by rewrite EX, shift_cell|]. split; [len|]. simpl in *. lia.
    Qed.
    Lemma at1_nil f : at1 f [] -> f = t1.
    Proof. intros (X & _ & _ & ->). simpl. lia. Qed.
    Lemma at2_nil f : at2 f [] -> f = t2.
    Proof. intros (X & _ & _ & ->). simpl. lia. Qed.
    Lemma at1_copy f r out : at1 f r -> copy_out a1 f t1 out = Ok (out ++ r).
    Proof. intros (X & EX & Ef & Et). rewrite EX. by apply copy_out_ok. Qed.
    Lemma at2_copy f r out : at2 f r -> copy_out a2 f t2 out = Ok (out ++ r).
    Proof. intros (X & EX & Ef & Et). rewrite EX. by apply copy_out_ok. Qed.
    Lemma at1_len f r : at1 f r -> (t1 - f = length r)%nat.
    Proof. intros (X & _ & _ & ->). lia. Qed.
    Lemma at2_len f r : at2 f r -> (t2 - f = length r)%nat.
    Proof. intros (X & _ & _ & ->). lia. Qed.

    Ltac start_loop :=
      intros H1 H2; rewrite (at1_len _ _ H1), (at2_len _ _ H2);
      match goal with |- context [loop _ ?b _] => set (body := b) end.
    Ltac at_end := match goal with
      | H : at1 _ [] |- _ => rewrite (decide_False (P := _ /\ _)) by (apply at1_nil in H; lia)
      | H : at2 _ [] |- _ => rewrite (decide_False (P := _ /\ _)) by (apply at2_nil in H; lia) end.
    Ltac one_step body :=
      rewrite loop_S; unfold body at 1.

    Lemma set_union_ok r1 r2 f1 f2 : at1 f1 r1 -> at2 f2 r2 -> set_union lt a1 f1 t1 a2 f2 t2 = Ok (unionl r1 r2).
    Proof.
      unfold set_union. start_loop.
      assert (G : forall fuel r1 r2 f1 f2 out, at1 f1 r1 -> at2 f2 r2 -> (length r1 + length r2 < fuel)%nat ->
        ('(g1, g2, out) <~ loop fuel body (f1, f2, out) ;; out <~ copy_out a1 g1 t1 out ;; copy_out a2 g2 t2 out) = Ok (out ++ unionl r1 r2)).
      { clear - SW. intros fuel. induction fuel as [|fuel IH]; intros r1 r2 f1 f2 out H1 H2 Hf; [lia|].
        one_step body.
        destruct r1 as [|x r1]; [|destruct r2 as [|y r2]].
        - at_end. cbn [rbind]. rewrite (at1_copy _ _ _ H1). cbn [rbind]. rewrite (at2_copy _ _ _ H2).
          destruct (nil_l r2) as (-> & _). by rewrite app_nil_r.
        - at_end. cbn [rbind]. rewrite (at1_copy _ _ _ H1). cbn [rbind]. rewrite (at2_copy _ _ _ H2).
          destruct (nil_r (x :: r1)) as (-> & _). by rewrite app_nil_r.
        - apply at1_cons in H1 as K1. destruct K1 as (R1 & N1 & K1). apply at2_cons in H2 as K2. destruct K2 as (R2 & N2 & K2).
          rewrite decide_True by done. rewrite R1, R2. cbn [rbind]. rewrite unionl_eq. simpl in Hf.
          destruct (lt x y); [|destruct (lt y x)]; cbn [rbind].
          + rewrite (IH r1 (y :: r2)) by (done || (simpl; lia)). by rewrite <-app_assoc.
          + rewrite (IH (x :: r1) r2) by (done || (simpl; lia)). by rewrite <-app_assoc.
          + rewrite (IH r1 r2) by (done || (simpl; lia)). by rewrite <-app_assoc. }
      rewrite (G _ r1 r2) by (done || lia). done.
    Qed.
    Lemma set_symmetric_difference_ok r1 r2 f1 f2 : at1 f1 r1 -> at2 f2 r2 -> set_symmetric_difference lt a1 f1 t1 a2 f2 t2 = Ok (symdl r1 r2).
    Proof.
      unfold set_symmetric_difference. start_loop.
      assert (G : forall fuel r1 r2 f1 f2 out, at1 f1 r1 -> at2 f2 r2 -> (length r1 + length r2 < fuel)%nat ->
        ('(g1, g2, out) <~ loop fuel body (f1, f2, out) ;; out <~ copy_out a1 g1 t1 out ;; copy_out a2 g2 t2 out) = Ok (out ++ symdl r1 r2)).
      { clear - SW. intros fuel. induction fuel as [|fuel IH]; intros r1 r2 f1 f2 out H1 H2 Hf; [lia|].
        one_step body.
        destruct r1 as [|x r1]; [|destruct r2 as [|y r2]].
        - at_end. cbn [rbind]. rewrite (at1_copy _ _ _ H1). cbn [rbind]. rewrite (at2_copy _ _ _ H2).
          destruct (nil_l r2) as (_ & _ & _ & ->). by rewrite app_nil_r.
        - at_end. cbn [rbind]. rewrite (at1_copy _ _ _ H1). cbn [rbind]. rewrite (at2_copy _ _ _ H2).
          destruct (nil_r (x :: r1)) as (_ & _ & _ & -> & _). by rewrite app_nil_r.
        - apply at1_cons in H1 as K1. destruct K1 as (R1 & N1 & K1). apply at2_cons in H2 as K2. destruct K2 as (R2 & N2 & K2).
          rewrite decide_True by done. rewrite R1, R2. cbn [rbind]. rewrite symdl_eq. simpl in Hf.
          destruct (lt x y); [|destruct (lt y x)]; cbn [rbind].
          + rewrite (IH r1 (y :: r2)) by (done || (simpl; lia)). by rewrite <-app_assoc.
          + rewrite (IH (x :: r1) r2) by (done || (simpl; lia)). by rewrite <-app_assoc.
          + rewrite (IH r1 r2) by (done || (simpl; lia)). done. }
      rewrite (G _ r1 r2) by (done || lia). done.
    Qed.
    Lemma set_intersection_ok r1 r2 f1 f2 : at1 f1 r1 -> at2 f2 r2 -> set_intersection lt a1 f1 t1 a2 f2 t2 = Ok (interl r1 r2).
    Proof.
      unfold set_intersection. start_loop.
      assert (G : forall fuel r1 r2 f1 f2 out, at1 f1 r1 -> at2 f2 r2 -> (length r1 + length r2 < fuel)%nat ->
        loop fuel body (f1, f2, out) = Ok (out ++ interl r1 r2)).
      { clear - SW. intros fuel. induction fuel as [|fuel IH]; intros r1 r2 f1 f2 out H1 H2 Hf; [lia|].
        one_step body.
        destruct r1 as [|x r1]; [|destruct r2 as [|y r2]].
        - at_end. cbn [rbind]. destruct (nil_l r2) as (_ & -> & _). by rewrite app_nil_r.
        - at_end. cbn [rbind]. destruct (nil_r (x :: r1)) as (_ & -> & _). by rewrite app_nil_r.
        - apply at1_cons in H1 as K1. destruct K1 as (R1 & N1 & K1). apply at2_cons in H2 as K2. destruct K2 as (R2 & N2 & K2).
          rewrite decide_True by done. rewrite R1, R2. cbn [rbind]. rewrite interl_eq. simpl in Hf.
          destruct (lt x y); [|destruct (lt y x)]; cbn [rbind].
          + rewrite (IH r1 (y :: r2)) by (done || (simpl; lia)). done.
          + rewrite (IH (x :: r1) r2) by (done || (simpl; lia)). done.
          + rewrite (IH r1 r2) by (done || (simpl; lia)). by rewrite <-app_assoc. }
      rewrite (G _ r1 r2) by (done || lia). done.
    Qed.
    Lemma set_difference_ok r1 r2 f1 f2 : at1 f1 r1 -> at2 f2 r2 -> set_difference lt a1 f1 t1 a2 f2 t2 = Ok (diffl r1 r2).
    Proof.
      unfold set_difference. start_loop.
      assert (G : forall fuel r1 r2 f1 f2 out, at1 f1 r1 -> at2 f2 r2 -> (length r1 + length r2 < fuel)%nat ->
        ('(g1, out) <~ loop fuel body (f1, f2, out) ;; copy_out a1 g1 t1 out) = Ok (out ++ diffl r1 r2)).
      { clear - SW. intros fuel. induction fuel as [|fuel IH]; intros r1 r2 f1 f2 out H1 H2 Hf; [lia|].
        one_step body.
        destruct r1 as [|x r1]; [|destruct r2 as [|y r2]].
        - at_end. cbn [rbind]. rewrite (at1_copy _ _ _ H1).
          destruct (nil_l r2) as (_ & _ & -> & _). done.
        - at_end. cbn [rbind]. rewrite (at1_copy _ _ _ H1).
          destruct (nil_r (x :: r1)) as (_ & _ & -> & _). done.
        - apply at1_cons in H1 as K1. destruct K1 as (R1 & N1 & K1). apply at2_cons in H2 as K2. destruct K2 as (R2 & N2 & K2).
          rewrite decide_True by done. rewrite R1, R2. cbn [rbind]. rewrite diffl_eq. simpl in Hf.
          destruct (lt x y); [|destruct (lt y x)]; cbn [rbind negb].
          + rewrite (IH r1 (y :: r2)) by (done || (simpl; lia)). by rewrite <-app_assoc.
          + rewrite (IH (x :: r1) r2) by (done || (simpl; lia)). done.
          + rewrite (IH r1 r2) by (done || (simpl; lia)). done. }
      rewrite (G _ r1 r2) by (done || lia). done.
    Qed.
    Lemma includes_ok r1 r2 f1 f2 : at1 f1 r1 -> at2 f2 r2 -> includes lt a1 f1 t1 a2 f2 t2 = Ok (inclb r1 r2).
    Proof.
      unfold includes. start_loop.
      destruct r2 as [|y r2]. { apply at2_nil in H2 as ->. rewrite decide_True by done. by destruct (nil_r r1) as (_ & _ & _ & _ & ->). }
      rewrite decide_False by (apply at2_cons in H2; naive_solver).
      destruct r1 as [|x r1]. { apply at1_nil in H1 as ->. rewrite decide_True by done. done. }
      rewrite decide_False by (apply at1_cons in H1; naive_solver).
      assert (G : forall fuel x r1 y r2 f1 f2, at1 f1 (x :: r1) -> at2 f2 (y :: r2) -> (length r1 + length r2 < fuel)%nat ->
        loop fuel body (f1, f2) = Ok (inclb (x :: r1) (y :: r2))).
      { clear - SW. intros fuel. induction fuel as [|fuel IH]; intros x r1 y r2 f1 f2 H1 H2 Hf; [lia|].
        one_step body.
        apply at1_cons in H1 as K1. destruct K1 as (R1 & N1 & K1). apply at2_cons in H2 as K2. destruct K2 as (R2 & N2 & K2).
        rewrite R1, R2. cbn [rbind]. rewrite inclb_eq. cbv zeta.
        destruct (lt x y); [|destruct (lt y x)]; cbn [rbind].
        - destruct r1 as [|x' r1]. { apply at1_nil in K1 as <-. by rewrite decide_True. }
          rewrite decide_False by (apply at1_cons in K1; naive_solver). cbn [rbind]. apply IH; [done|done|simpl in Hf; lia].
        - done.
        - destruct r2 as [|y' r2]. { apply at2_nil in K2 as <-. rewrite decide_True by done. cbn [rbind]. by destruct (nil_r r1) as (_ & _ & _ & _ & ->). }
          rewrite decide_False by (apply at2_cons in K2; naive_solver).
          destruct r1 as [|x' r1]. { apply at1_nil in K1 as <-. by rewrite decide_True. }
          rewrite decide_False by (apply at1_cons in K1; naive_solver). cbn [rbind]. apply IH; [done|done|simpl in Hf; lia]. }
      apply G; [done|done|simpl; lia].
    Qed.
  End two.
End setops.
