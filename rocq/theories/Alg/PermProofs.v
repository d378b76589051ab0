From stdpp Require Import base list numbers.
From Coq Require Import Lia ZifyNat.
From Verif Require Import Base.Res Base.Order Base.OrderLemmas Base.Arr Base.Cells Base.Stable
  Alg.RotateModel Alg.RotateProofs Alg.PermSpec Alg.PermModel.
Local Arguments full : simpl never.

Section lex.
  Context {A : Type} (lt : A -> A -> bool) (SW : StrictWeakOrder lt).
  Implicit Types (l P D R : list A).
  Definition cnt (x : A) l : nat := length (List.filter (eqvb lt x) l).
  Definition cperm l1 l2 : Prop := forall x, cnt x l1 = cnt x l2.

  Lemma cnt_cons x a l : cnt x (a :: l) = ((if eqvb lt x a then 1 else 0) + cnt x l)%nat.
  Proof. unfold cnt. simpl. destruct (eqvb lt x a); done. Qed.
  Lemma cnt_perm x l1 l2 : l1 ≡ₚ l2 -> cnt x l1 = cnt x l2.
  Proof. induction 1 as [| |a b l|]; rewrite ?cnt_cons; lia. Qed.
  Lemma cperm_perm l1 l2 : l1 ≡ₚ l2 -> cperm l1 l2.
  Proof. intros H x. by apply cnt_perm. Qed.
  Lemma cperm_sym l1 l2 : cperm l1 l2 -> cperm l2 l1.
  Proof. intros H x. by rewrite H. Qed.
  Lemma cperm_trans l1 l2 l3 : cperm l1 l2 -> cperm l2 l3 -> cperm l1 l3.
  Proof. intros H H' x. by rewrite H. Qed.
  Lemma eqvb_class x a b : eqvb lt a b = true -> eqvb lt x a = eqvb lt x b.
  Proof.
    intros H. destruct (eqvb lt x a) eqn:E1, (eqvb lt x b) eqn:E2; try done.
    - by rewrite (eqvb_trans lt SW _ _ _ E1 H) in E2.
    - rewrite eqvb_sym in H. by rewrite (eqvb_trans lt SW _ _ _ E2 H) in E1.
  Qed.
  Lemma cperm_cancel a b l1 l2 : eqvb lt a b = true -> cperm (a :: l1) (b :: l2) -> cperm l1 l2.
  Proof. intros E H x. specialize (H x). rewrite !cnt_cons, (eqvb_class x a b E) in H. lia. Qed.
  Lemma cnt_in x l : (0 < cnt x l)%nat -> exists y, y ∈ l /\ eqvb lt x y = true.
  Proof.
    induction l as [|a l IH]; [unfold cnt; simpl; lia|]. rewrite cnt_cons. destruct (eqvb lt x a) eqn:E.
    - intros _. exists a. split; [left|done].
    - intros H. destruct IH as (y & Hy & Hxy); [lia|]. exists y. split; [by right|done].
  Qed.
  Lemma cperm_head b l l2 : cperm l (b :: l2) -> exists c, c ∈ l /\ eqvb lt b c = true.
  Proof.
    intros H. apply cnt_in. rewrite (H b), cnt_cons, (eqvb_refl lt SW). lia.
  Qed.
  Lemma cperm_nil l : cperm l [] -> l = [].
  Proof. destruct l as [|a l]; [done|]. intros H. specialize (H a). rewrite cnt_cons, (eqvb_refl lt SW) in H. unfold cnt in H. simpl in H. lia. Qed.

  Lemma sorted_least l1 l2 : sorted lt l1 -> cperm l1 l2 -> lexlt lt l2 l1 = false.
  Proof.
    revert l2. induction l1 as [|a l1 IH]; intros l2 Hs Hc.
    - apply cperm_sym, cperm_nil in Hc. by subst.
    - destruct l2 as [|b l2]. { apply cperm_nil in Hc. done. }
      apply sorted_cons in Hs as [Hs1 Hs2]. simpl.
      destruct (lt b a) eqn:E1.
      + exfalso. destruct (cperm_head _ _ _ Hc) as (c & Hin & E). apply eqvb_true in E as [E2 E3].
        assert (Hca : lt c a = true) by (by apply (swo_le_lt lt SW _ b)).
        apply elem_of_cons in Hin as [->|Hin]; [by rewrite (swo_irrefl _ SW) in Hca|].
        rewrite list.Forall_forall in Hs1. by rewrite (Hs1 c Hin) in Hca.
      + destruct (lt a b) eqn:E2; [done|]. apply IH; [done|]. eapply cperm_cancel; [|done]. by apply eqvb_true.
  Qed.
  Lemma desc_greatest l1 l2 : sorted (flip lt) l1 -> cperm l1 l2 -> lexlt lt l1 l2 = false.
  Proof.
    revert l2. induction l1 as [|a l1 IH]; intros l2 Hs Hc.
    - apply cperm_sym, cperm_nil in Hc. by subst.
    - destruct l2 as [|b l2]. { apply cperm_nil in Hc. done. }
      apply sorted_cons in Hs as [Hs1 Hs2]. simpl.
      destruct (lt a b) eqn:E1.
      + exfalso. destruct (cperm_head _ _ _ Hc) as (c & Hin & E). apply eqvb_true in E as [E2 E3].
        assert (Hca : lt a c = true) by (by apply (swo_lt_le lt SW _ b)).
        apply elem_of_cons in Hin as [->|Hin]; [by rewrite (swo_irrefl _ SW) in Hca|].
        rewrite list.Forall_forall in Hs1. specialize (Hs1 c Hin). unfold flip in Hs1. congruence.
      + destruct (lt b a) eqn:E2; [done|]. apply IH; [done|]. eapply cperm_cancel; [|done]. by apply eqvb_true.
  Qed.

  Lemma lexlt_app P l1 l2 : lexlt lt (P ++ l1) (P ++ l2) = lexlt lt l1 l2.
  Proof. induction P as [|a P IH]; [done|]. simpl. by rewrite (swo_irrefl _ SW). Qed.

  (* minimality of the successor *)
  Lemma next_least P x y D R l2 :
    sorted (flip lt) D -> lt x y = true -> y ∈ D -> (forall d, d ∈ D -> lt x d = true -> lt d y = false) ->
    sorted lt R -> cperm (x :: D) (y :: R) ->
    cperm (P ++ x :: D) l2 -> lexlt lt (P ++ x :: D) l2 = true -> lexlt lt l2 (P ++ y :: R) = false.
  Proof.
    intros HD Hxy Hy Hmin HR Hc. revert l2. induction P as [|p P IH]; intros l2 Hc2 Hlt.
    - rewrite app_nil_l in *. destruct l2 as [|z l3]; [done|]. simpl in Hlt |- *.
      destruct (lt x z) eqn:Exz.
      + destruct (cperm_head _ _ _ Hc2) as (d & Hd & Ezd). apply eqvb_true in Ezd as [E1 E2].
        assert (Hxd : lt x d = true) by (by apply (swo_lt_le lt SW _ z)).
        assert (Hd' : d ∈ D). { apply elem_of_cons in Hd as [->|Hd]; [|done]. by rewrite (swo_irrefl _ SW) in Hxd. }
        assert (Hdy : lt d y = false) by auto.
        assert (Hzy : lt z y = false) by (by apply (swo_ntrans lt SW _ d)).
        rewrite Hzy. destruct (lt y z) eqn:Eyz; [done|].
        apply sorted_least; [done|]. apply (cperm_cancel y z); [by apply eqvb_true|].
        eapply cperm_trans; [by apply cperm_sym|done].
      + destruct (lt z x) eqn:Ezx; [done|]. exfalso.
        rewrite (desc_greatest D l3) in Hlt; [done|done|]. apply (cperm_cancel x z); [by apply eqvb_true|done].
    - destruct l2 as [|q l2]; [done|]. simpl in Hlt |- *.
      destruct (lt p q) eqn:Epq; [by rewrite (swo_asym lt SW _ _ Epq)|].
      destruct (lt q p) eqn:Eqp; [done|]. apply IH; [|done].
      apply (cperm_cancel p q); [by apply eqvb_true|done].
  Qed.

  Lemma lexlt_flip l1 l2 : length l1 = length l2 -> lexlt (flip lt) l1 l2 = lexlt lt l2 l1.
  Proof. revert l2. induction l1 as [|a l1 IH]; intros [|b l2] Hl; try done. simpl. unfold flip. injection Hl as Hl. by rewrite IH. Qed.
End lex.

Lemma swo_flip {A} (lt : A -> A -> bool) : StrictWeakOrder lt -> StrictWeakOrder (flip lt).
Proof.
  intros SW. split; unfold flip.
  - apply (swo_irrefl _ SW).
  - intros x y z H1 H2. by eapply (swo_trans _ SW).
  - intros x y z H1 H2 H3 H4. destruct (swo_equiv_trans _ SW x y z) as [? ?]; done.
Qed.

Section next.
  Context {A : Type} (lt : A -> A -> bool) (SW : StrictWeakOrder lt).
  Implicit Types (l P D R r : list A) (X Y : arr A).

  Lemma find_mid_ok r X Y (n t : nat) x D1 y D2 :
    r = D1 ++ y :: D2 -> lt x y = true -> Forall (fun z => lt x z = false) D2 ->
    n = length X -> t = (n + 1 + length r)%nat ->
    find_mid_next lt (X ++ Some x :: full r ++ Y) n t = Ok (n + 1 + length D1)%nat.
  Proof.
    intros Er Hxy HD2 -> ->. unfold find_mid_next.
    match goal with |- context [loop _ ?b _] => set (body := b) end.
    assert (G : forall fuel E1 E2, D2 = E1 ++ E2 -> (length E1 < fuel)%nat ->
      loop fuel body (length X + 1 + length D1 + 1 + length E1)%nat = Ok (length X + 1 + length D1)%nat).
    { intros fuel. induction fuel as [|fuel IH]; intros E1 E2 E Hf; [lia|].
      rewrite loop_S. unfold body at 1.
      replace (length X + 1 + length D1 + 1 + length E1)%nat with (S (length X + 1 + length D1 + length E1)) by lia.
      cbn [decr rbind]. rewrite rd_mid by done. cbn [rbind].
      destruct (decide (E1 = [])) as [->|Hne].
      - assert (R : rd (X ++ Some x :: full r ++ Y) (length X + 1 + length D1 + length (@nil A)) = Ok y).
        { rewrite Er, full_app, <-app_assoc, (app_comm_cons (full D1)), app_assoc. apply rd_mid. len. }
        rewrite R. cbn [rbind]. rewrite Hxy. cbn [negb rbind]. f_equal. simpl. lia.
      - destruct (exists_last Hne) as (E1' & z & ->).
        assert (R : rd (X ++ Some x :: full r ++ Y) (length X + 1 + length D1 + length (E1' ++ [z])) = Ok z).
        { rewrite Er, E. replace (X ++ Some x :: full (D1 ++ y :: (E1' ++ [z]) ++ E2) ++ Y) with
            ((X ++ Some x :: full (D1 ++ y :: E1')) ++ Some z :: full E2 ++ Y).
          2: { rewrite <-!app_assoc, <-!app_comm_cons, !full_app, <-!app_assoc. do 3 f_equal.
               rewrite !full_cons, full_app, <-!app_comm_cons, <-!app_assoc. done. }
          apply rd_mid. len. }
        rewrite R. cbn [rbind].
        assert (Hz : lt x z = false).
        { rewrite list.Forall_forall in HD2. apply HD2. rewrite E. rewrite !elem_of_app. left. right. left. }
        rewrite Hz. cbn [negb rbind].
        replace (length X + 1 + length D1 + length (E1' ++ [z]))%nat with (length X + 1 + length D1 + 1 + length E1')%nat by len.
        apply (IH E1' (z :: E2)); [by rewrite E, <-app_assoc|len]. }
    replace (length X + 1 + length r)%nat with (length X + 1 + length D1 + 1 + length D2)%nat by (rewrite Er; len).
    apply (G _ D2 []); [by rewrite app_nil_r|lia].
  Qed.

  (* a decreasing list splits at the last element greater than x *)
  Lemma desc_split x d D : sorted (flip lt) (d :: D) -> lt x d = true ->
    exists D1 y D2, d :: D = D1 ++ y :: D2 /\ lt x y = true /\ Forall (fun z => lt x z = false) D2.
  Proof.
    intros Hs Hd. revert d Hs Hd. induction D as [|e D IH]; intros d Hs Hd.
    - exists [], d, []. done.
    - apply sorted_cons in Hs as [Hs1 Hs2]. destruct (lt x e) eqn:E.
      + destruct (IH e Hs2 E) as (D1 & y & D2 & -> & Hy & HD2). exists (d :: D1), y, D2. done.
      + exists [], d, (e :: D). split; [done|]. split; [done|].
        constructor; [done|]. apply sorted_cons in Hs2 as [Hs2 _].
        eapply list.Forall_impl; [exact Hs2|]. intros z Hz. unfold flip in Hz. by apply (swo_ntrans lt SW _ e).
  Qed.

  Lemma next_permutation_ok r X Y (f t : nat) : f = length X -> t = (f + length r)%nat ->
    (next_permutation lt (X ++ full r ++ Y) f t = Ok (X ++ full (rev r) ++ Y, false) /\ sorted (flip lt) r) \/
    (exists P x D1 y D2, r = P ++ x :: D1 ++ y :: D2 /\ sorted (flip lt) (D1 ++ y :: D2) /\
       lt x y = true /\ Forall (fun z => lt x z = false) D2 /\
       next_permutation lt (X ++ full r ++ Y) f t = Ok (X ++ full (P ++ y :: rev (D1 ++ x :: D2)) ++ Y, true)).
  Proof.
    intros Ef Et. unfold next_permutation.
    destruct (decide (r = [])) as [->|Hne].
    { left. rewrite decide_True by (simpl in Et; lia). split; [done|apply sorted_nil]. }
    destruct (exists_last Hne) as (P & z & ->). clear Hne.
    rewrite !(decide_False (P := f = t)) by len.
    assert (Hdec : decr t = Ok (f + length P)%nat) by (replace t with (S (f + length P)) by len; done).
    rewrite Hdec. cbn [rbind]. clear Hdec.
    destruct (decide (P = [])) as [->|Hne].
    { left. rewrite decide_True by (simpl; lia). split; [done|]. apply sorted_cons. split; [done|apply sorted_nil]. }
    rewrite !(decide_False (P := f = (f + length P)%nat)) by (destruct P; [done|simpl; lia]).
    remember (P ++ [z]) as r eqn:Er.
    match goal with |- context [loop _ ?b _] => set (body := b) end.
    assert (G : forall fuel P d D, r = P ++ d :: D -> P <> [] -> sorted (flip lt) (d :: D) -> (length P <= fuel)%nat ->
      (loop fuel body (f + length P)%nat = Ok (X ++ full (rev r) ++ Y, false) /\ sorted (flip lt) r) \/
      (exists P2 x D1 y D2, r = P2 ++ x :: D1 ++ y :: D2 /\ sorted (flip lt) (D1 ++ y :: D2) /\
       lt x y = true /\ Forall (fun z => lt x z = false) D2 /\
       loop fuel body (f + length P)%nat = Ok (X ++ full (P2 ++ y :: rev (D1 ++ x :: D2)) ++ Y, true))).
    { clear P Er Hne z. intros fuel. induction fuel as [|fuel IH]; intros P d D Er Hne Hs Hf.
      { destruct P; [done|simpl in Hf; lia]. }
      destruct (exists_last Hne) as (P' & x & ->). clear Hne.
      rewrite !loop_S. unfold body at 1 3. cbv zeta.
      replace (f + length (P' ++ [x]))%nat with (S (f + length P')) by len. cbn [decr rbind].
      assert (R1 : rd (X ++ full r ++ Y) (f + length P') = Ok x).
      { rewrite Er, <-app_assoc, full_app, <-app_assoc, app_assoc. apply rd_mid. len. }
      assert (R2 : rd (X ++ full r ++ Y) (S (f + length P')) = Ok d).
      { rewrite Er, full_app, <-app_assoc, app_assoc. apply rd_mid. len. }
      rewrite R1. cbn [rbind]. rewrite R2. cbn [rbind].
      destruct (lt x d) eqn:Exd.
      - right. destruct (desc_split x d D Hs Exd) as (D1 & y & D2 & ED & Hy & HD2).
        assert (EM : X ++ full r ++ Y = (X ++ full P') ++ Some x :: full (d :: D) ++ Y).
        { rewrite Er, <-app_assoc, full_app, <-!app_assoc. done. }
        rewrite EM. rewrite (find_mid_ok (d :: D) (X ++ full P') Y (f + length P') t x D1 y D2); [|done|done|done|len|].
        2: { rewrite Er in Et. len. }
        cbn [rbind].
        replace ((X ++ full P') ++ Some x :: full (d :: D) ++ Y) with ((X ++ full P') ++ Some x :: full D1 ++ Some y :: full D2 ++ Y).
        2: { rewrite ED, full_app, <-!app_assoc. done. }
        rewrite swp_mid by len. cbn [rbind].
        replace ((X ++ full P') ++ Some y :: full D1 ++ Some x :: full D2 ++ Y) with ((X ++ full (P' ++ [y])) ++ full (D1 ++ x :: D2) ++ Y).
        2: { rewrite !full_app, <-!app_assoc. done. }
        assert (EL : length (d :: D) = length (D1 ++ x :: D2)) by (rewrite ED; len).
        rewrite reverse_ok; [|len|rewrite Er in Et; len]. cbn [rbind].
        exists P', x, D1, y, D2. split; [by rewrite Er, <-app_assoc, ED|]. split; [by rewrite <-ED|]. split; [done|]. split; [done|].
        do 2 f_equal. rewrite !full_app, full_cons, <-!app_assoc. done.
      - assert (Hs' : sorted (flip lt) (x :: d :: D)).
        { apply sorted_cons. split; [|done]. apply sorted_cons in Hs as [Hs1 _]. constructor; [done|].
          eapply list.Forall_impl; [exact Hs1|]. intros u Hu. unfold flip in *. by apply (swo_ntrans lt SW _ d). }
        destruct (decide (P' = [])) as [->|Hne].
        + rewrite decide_True by (simpl; lia).
          left. rewrite reverse_ok by (done || len). cbn [rbind]. split; [done|]. by rewrite Er.
        + rewrite decide_False by (destruct P'; [done|simpl; lia]). cbn [rbind].
          apply (IH P' x (d :: D)); [by rewrite Er, <-app_assoc|done|done|len]. }
    destruct (G (S (t - f)) P z []) as [[H1 H2]|(P' & x & D1 & y & D2 & H1 & H2 & H3 & H4 & H5)];
      [done|done|apply sorted_cons; split; [done|apply sorted_nil]|subst r; len| |].
    - left. done.
    - right. exists P', x, D1, y, D2. done.
  Qed.

  Lemma sorted_flip_rev r : sorted (flip lt) r -> sorted lt (rev r).
  Proof.
    induction r as [|x r IH]; intros Hs; [apply sorted_nil|]. apply sorted_cons in Hs as [Hs1 Hs2]. simpl.
    apply sorted_app. split; [auto|]. split; [apply sorted_cons; split; [done|apply sorted_nil]|].
    intros u v Hu Hv. apply elem_of_list_singleton in Hv as ->. rewrite list.Forall_forall in Hs1. apply (Hs1 u).
    by apply elem_of_list_In, in_rev, elem_of_list_In.
  Qed.

  Lemma prev_flip a (f t : nat) : prev_permutation lt a f t = next_permutation (flip lt) a f t.
  Proof. reflexivity. Qed.

  (* the replaced suffix stays decreasing *)
  Lemma desc_replace D1 x y D2 : sorted (flip lt) (D1 ++ y :: D2) -> lt x y = true -> Forall (fun z => lt x z = false) D2 ->
    sorted (flip lt) (D1 ++ x :: D2).
  Proof.
    intros Hs Hxy HD2. apply sorted_app in Hs as (S1 & S2 & S3). apply sorted_cons in S2 as [S2 S2'].
    apply sorted_app. split; [done|]. split; [apply sorted_cons; done|].
    intros u v Hu Hv. apply elem_of_cons in Hv as [->|Hv].
    - unfold flip. assert (H : lt u y = false) by (apply (S3 u y Hu); left).
      apply (swo_ntrans lt SW _ y); [|done]. by apply (swo_asym lt SW).
    - apply S3; [done|by right].
  Qed.
End next.
