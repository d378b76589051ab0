From stdpp Require Import base list numbers.
From Coq Require Import Lia ZifyNat.
From Verif Require Import Base.Res Base.Order Base.OrderLemmas Base.Arr Base.Cells
  Alg.SortModel Alg.SearchModel Alg.RotateModel Alg.RotateProofs Alg.MergeModel Alg.MergeProofs Alg.PartitionModel.
Ltac Zify.zify_post_hook ::= Z.div_mod_to_equations.
Local Arguments full : simpl never.
Notation bfilter := (List.filter).

Lemma pair4_eq {A1 A2 A3 A4} (a a' : A1) (b b' : A2) (c c' : A3) (d d' : A4) : a = a' -> b = b' -> c = c' -> d = d' -> (a, b, c, d) = (a', b', c', d').
Proof. by intros -> -> -> ->. Qed.
Ltac eq4 := apply f_equal; apply pair4_eq.

Ltac nfull := repeat (rewrite ?full_cons, ?full_app, <-?app_assoc, <-?app_comm_cons).

Section partition.
  Context {A : Type} (p : A -> bool).
  Implicit Types (a X Y H U W Z : arr A) (l P Q r T F : list A).
  Notation np := (fun x => negb (p x)).

  Lemma bfilter_all l (q : A -> bool) : Forall (fun x => q x = true) l -> bfilter q l = l.
  Proof. induction 1 as [|x l Hx Hl IH]; [done|]. simpl. by rewrite Hx, IH. Qed.
  Lemma bfilter_none l (q : A -> bool) : Forall (fun x => q x = false) l -> bfilter q l = [].
  Proof. induction 1 as [|x l Hx Hl IH]; [done|]. simpl. by rewrite Hx, IH. Qed.
  Lemma bfilter_none_np l : Forall (fun x => p x = true) l -> bfilter np l = [].
  Proof. intros H. apply bfilter_none. eapply list.Forall_impl; [exact H|]. intros x Hx. by rewrite Hx. Qed.
  Lemma bfilter_all_np l : Forall (fun x => p x = false) l -> bfilter np l = l.
  Proof. intros H. apply bfilter_all. eapply list.Forall_impl; [exact H|]. intros x Hx. by rewrite Hx. Qed.
  Lemma bfilter_perm l : bfilter p l ++ bfilter np l ≡ₚ l.
  Proof.
    induction l as [|x l IH]; [done|]. simpl. destruct (p x); simpl.
    - by rewrite IH.
    - by rewrite <-Permutation_middle, IH.
  Qed.
  Lemma bfilter_len l : (length (bfilter p l) + length (bfilter np l) = length l)%nat.
  Proof. rewrite <-app_length. by rewrite bfilter_perm. Qed.

  Lemma skip_front_ok r X Y (f t : nat) : f = length X -> t = (f + length r)%nat ->
    (Forall (fun x => p x = true) r /\ skip_front p (X ++ full r ++ Y) f t = Ok (t, true)) \/
    (exists T x r', r = T ++ x :: r' /\ Forall (fun x => p x = true) T /\ p x = false /\
       skip_front p (X ++ full r ++ Y) f t = Ok ((f + length T)%nat, false)).
  Proof.
    intros Ef Et. unfold skip_front.
    match goal with |- context [loop _ ?b _] => set (body := b) end.
    assert (G : forall fuel T r', r = T ++ r' -> (length r' < fuel)%nat ->
      (Forall (fun x => p x = true) r' /\ loop fuel body (f + length T)%nat = Ok (t, true)) \/
      (exists T' x r'', r' = T' ++ x :: r'' /\ Forall (fun x => p x = true) T' /\ p x = false /\
         loop fuel body (f + length T)%nat = Ok ((f + length T + length T')%nat, false))).
    { intros fuel. induction fuel as [|fuel IH]; intros T r' E Hf; [lia|]. rewrite loop_S. unfold body at 1 3.
      destruct r' as [|x r'].
      { left. rewrite app_nil_r in E. subst T. rewrite decide_True by lia. cbn [rbind]. split; [done|]. f_equal. f_equal. lia. }
      rewrite decide_False by (rewrite E in Et; len).
      assert (R : rd (X ++ full r ++ Y) (f + length T) = Ok x).
      { rewrite E, full_app, <-app_assoc, app_assoc, full_cons, <-app_comm_cons. apply rd_mid. len. }
      rewrite R. cbn [rbind]. destruct (p x) eqn:Hp; cbn [negb rbind].
      - replace (S (f + length T)) with (f + length (T ++ [x]))%nat by len.
        destruct (IH (T ++ [x]) r') as [[H1 H2]|(T' & y & r'' & H1 & H2 & H3 & H4)]; [by rewrite <-app_assoc|simpl in Hf; lia| |].
        + left. split; [by constructor|done].
        + right. exists (x :: T'), y, r''. split; [by rewrite H1|]. split; [by constructor|]. split; [done|].
          rewrite H4. f_equal. f_equal. len.
      - right. exists [], x, r'. split; [done|]. split; [done|]. split; [done|]. f_equal. f_equal. simpl. lia. }
    pose proof (G (S (t - f)) [] r eq_refl ltac:(lia)) as HG. simpl length in HG. rewrite !Nat.add_0_r in HG. exact HG.
  Qed.

  (* the range is [x :: r], [first] sits on [x] *)
  Lemma skip_back_ok x r X Y (f t : nat) : f = length X -> t = (f + 1 + length r)%nat ->
    (Forall (fun x => p x = false) r /\ skip_back p (X ++ full (x :: r) ++ Y) f t = Ok None) \/
    (exists r' y F, r = r' ++ y :: F /\ Forall (fun x => p x = false) F /\ p y = true /\
       skip_back p (X ++ full (x :: r) ++ Y) f t = Ok (Some (f + 1 + length r')%nat)).
  Proof.
    intros Ef Et. unfold skip_back.
    match goal with |- context [loop _ ?b _] => set (body := b) end.
    assert (G : forall fuel r' F, r = r' ++ F -> (length r' < fuel)%nat ->
      (Forall (fun x => p x = false) r' /\ loop fuel body (f + 1 + length r')%nat = Ok None) \/
      (exists r'' y F', r' = r'' ++ y :: F' /\ Forall (fun x => p x = false) F' /\ p y = true /\
         loop fuel body (f + 1 + length r')%nat = Ok (Some (f + 1 + length r'')%nat))).
    { intros fuel. induction fuel as [|fuel IH]; intros r' F E Hf; [lia|]. rewrite loop_S. unfold body at 1 3.
      replace (f + 1 + length r')%nat with (S (f + length r')) by lia. cbn [decr rbind].
      destruct (decide (r' = [])) as [->|Hne].
      { left. rewrite decide_True by (simpl; lia). done. }
      destruct (exists_last Hne) as (r'' & y & ->).
      rewrite decide_False by len.
      assert (R : rd (X ++ full (x :: r) ++ Y) (f + length (r'' ++ [y])) = Ok y).
      { rewrite E, <-app_assoc, (app_comm_cons r''), full_app, <-app_assoc, app_assoc. cbn [app].
        apply rd_mid. len. }
      rewrite R. cbn [rbind]. destruct (p y) eqn:Hp; cbn [negb rbind].
      - right. exists r'', y, []. split; [done|]. split; [done|]. split; [done|]. f_equal. f_equal. len.
      - replace (f + length (r'' ++ [y]))%nat with (f + 1 + length r'')%nat by len.
        destruct (IH r'' (y :: F)) as [[H1 H2]|(r3 & z & F' & H1 & H2 & H3 & H4)]; [by rewrite E, <-app_assoc|len| |].
        + left. split; [|done]. apply Forall_app. split; [done|by repeat constructor].
        + right. exists r3, z, (F' ++ [y]). split; [by rewrite H1, <-app_assoc|].
          split; [apply Forall_app; split; [done|by repeat constructor]|]. done. }
    rewrite Et. apply (G _ r []); [by rewrite app_nil_r|lia].
  Qed.

  Lemma partition_bidi_ok r X Y (f t : nat) : f = length X -> t = (f + length r)%nat ->
    exists T F, partition_bidi p (X ++ full r ++ Y) f t = Ok (X ++ full (T ++ F) ++ Y, (f + length T)%nat) /\
      T ++ F ≡ₚ r /\ Forall (fun x => p x = true) T /\ Forall (fun x => p x = false) F.
  Proof.
    intros Ef Et. unfold partition_bidi.
    assert (Hf : (length r < S (t - f))%nat) by lia. revert Hf. generalize (S (t - f)) as fuel. intros fuel.
    match goal with |- context [loop _ ?b _] => set (body := b) end.
    revert r X Y f t Ef Et. induction fuel as [|fuel IH]; intros r X Y f t Ef Et Hf; [lia|].
    rewrite loop_S. unfold body at 1.
    destruct (skip_front_ok r X Y f t Ef Et) as [[H1 ->]|(T & x & r' & -> & HT & Hx & ->)]; cbn [rbind].
    { exists r, []. rewrite app_nil_r. split; [do 2 f_equal; lia|]. done. }
    assert (E : X ++ full (T ++ x :: r') ++ Y = (X ++ full T) ++ full (x :: r') ++ Y) by (by rewrite full_app, <-!app_assoc).
    rewrite E.
    destruct (skip_back_ok x r' (X ++ full T) Y (f + length T) t) as [[H1 ->]|(r'' & y & F & -> & HF & Hy & ->)]; [len|len| |]; cbn [rbind].
    { exists T, (x :: r'). split; [by rewrite E|]. split; [done|]. split; [done|by constructor]. }
    assert (Es : swp ((X ++ full T) ++ full (x :: r'' ++ y :: F) ++ Y) (f + length T) (f + length T + 1 + length r'') =
      Ok ((X ++ full (T ++ [y])) ++ full r'' ++ full (x :: F) ++ Y)).
    { replace ((X ++ full T) ++ full (x :: r'' ++ y :: F) ++ Y) with ((X ++ full T) ++ Some x :: full r'' ++ Some y :: full F ++ Y)
        by (rewrite full_cons, full_app, <-app_comm_cons, <-!app_assoc; done).
      rewrite swp_mid by len.
      f_equal. rewrite full_app, <-!app_assoc. done. }
    rewrite Es. cbn [rbind].
    destruct (IH r'' (X ++ full (T ++ [y])) (full (x :: F) ++ Y) (S (f + length T)) (f + length T + 1 + length r'')%nat) as (T' & F' & E' & Hp & HT' & HF'); [len|len|len|].
    rewrite E'. exists (T ++ y :: T'), (F' ++ x :: F). split; [|split; [|split]].
    - f_equal. f_equal; [|len]. rewrite !full_app, !full_cons, <-!app_assoc. done.
    - rewrite <-!app_assoc, <-app_comm_cons. f_equiv.
      rewrite (app_assoc T'), Hp, <-!Permutation_middle. apply Permutation_swap.
    - apply Forall_app. split; [done|by constructor].
    - apply Forall_app. split; [done|by constructor].
  Qed.

  Lemma partition_fwd_ok r X Y (f t : nat) : f = length X -> t = (f + length r)%nat ->
    exists T F, partition_fwd p (X ++ full r ++ Y) f t = Ok (X ++ full (T ++ F) ++ Y, (f + length T)%nat) /\
      T ++ F ≡ₚ r /\ Forall (fun x => p x = true) T /\ Forall (fun x => p x = false) F.
  Proof.
    intros Ef Et. unfold partition_fwd.
    destruct (skip_front_ok r X Y f t Ef Et) as [[H1 ->]|(T & x & r' & -> & HT & Hx & ->)]; cbn [rbind].
    { exists r, []. rewrite app_nil_r. split; [do 2 f_equal; lia|]. done. }
    match goal with |- context [loop _ ?b _] => set (body := b) end.
    assert (G : forall fuel T F r' X, (length r' < fuel)%nat -> F <> [] -> Forall (fun x => p x = false) F ->
      (length X + length F + length r' = t)%nat ->
      exists T' F', loop fuel body (X ++ full F ++ full r' ++ Y, length X, (length X + length F - 1)%nat) =
        Ok (X ++ full (T' ++ F') ++ Y, (length X + length T')%nat) /\
        T' ++ F' ≡ₚ F ++ r' /\ Forall (fun x => p x = true) T' /\ Forall (fun x => p x = false) F').
    { clear. intros fuel. induction fuel as [|fuel IH]; intros T F r' X Hf HF HFF Ht; [lia|].
      assert (0 < length F)%nat by (destruct F; [done|simpl; lia]).
      rewrite loop_S. unfold body at 1. cbv zeta.
      replace (S (length X + length F - 1)) with (length X + length F)%nat by lia.
      destruct r' as [|y r'].
      { rewrite decide_False by len. cbn [rbind]. exists [], F. rewrite app_nil_r. rewrite full_nil. split; [do 2 f_equal; simpl; lia|]. done. }
      rewrite decide_True by (simpl in Ht; len).
      assert (R : rd (X ++ full F ++ full (y :: r') ++ Y) (length X + length F) = Ok y).
      { rewrite app_assoc, full_cons, <-app_comm_cons. apply rd_mid. len. }
      rewrite R. cbn [rbind]. destruct (p y) eqn:Hy.
      - destruct F as [|x F]; [done|]. inversion HFF; subst.
        assert (Es : swp (X ++ full (x :: F) ++ full (y :: r') ++ Y) (length X) (length X + length (x :: F)) =
          Ok ((X ++ [Some y]) ++ full (F ++ [x]) ++ full r' ++ Y)).
        { rewrite !full_cons, <-!app_comm_cons. rewrite swp_mid by len. f_equal. rewrite full_app, <-!app_assoc. done. }
        rewrite Es. cbn [rbind].
        destruct (IH T (F ++ [x]) r' (X ++ [Some y])) as (T' & F' & E' & Hp & HT' & HF').
        + simpl in Hf. lia. + by destruct F. + apply Forall_app. split; [done|by repeat constructor]. + len.
        + replace (S (length X)) with (length (X ++ [Some y])) by len.
          replace (length X + length (x :: F))%nat with (length (X ++ [Some y]) + length (F ++ [x]) - 1)%nat by len.
          rewrite E'. exists (y :: T'), F'. split; [|split; [|split]].
          * f_equal. f_equal; [|len]. by rewrite <-!app_assoc.
          * simpl. rewrite Hp. rewrite <-app_assoc. simpl. by rewrite <-!Permutation_middle, Permutation_swap.
          * by constructor. * done.
      - destruct (IH T (F ++ [y]) r' X) as (T' & F' & E' & Hp & HT' & HF').
        + simpl in Hf. lia. + by destruct F. + apply Forall_app. split; [done|by repeat constructor]. + len.
        + replace (X ++ full F ++ full (y :: r') ++ Y) with (X ++ full (F ++ [y]) ++ full r' ++ Y) by (by rewrite full_app, <-!app_assoc).
          cbn [rbind].
          replace (length X + length F)%nat with (length X + length (F ++ [y]) - 1)%nat by len.
          rewrite E'. exists T', F'. split; [done|]. split; [|done]. by rewrite Hp, <-app_assoc. }
    destruct (G (S (t - (f + length T))) T [x] r' (X ++ full T)) as (T' & F' & E' & Hp & HT' & HF').
    { len. } { done. } { by repeat constructor. } { len. }
    replace (X ++ full (T ++ x :: r') ++ Y) with ((X ++ full T) ++ full [x] ++ full r' ++ Y).
    2: { rewrite full_app, <-!app_assoc. done. }
    assert (Efl : (f + length T)%nat = length (X ++ full T)) by len. rewrite !Efl in E' |- *.
    replace (length (X ++ full T) + length [x] - 1)%nat with (length (X ++ full T)) in E' by (simpl; lia).
    rewrite E'. exists (T ++ T'), F'. split; [|split; [|split]].
    - f_equal. f_equal; [|len]. rewrite !full_app, <-!app_assoc. done.
    - by rewrite <-app_assoc, Hp.
    - by apply Forall_app.
    - done.
  Qed.

  (** find_if, remove_if *)
  Lemma find_if_ok r X Y (f t : nat) : f = length X -> t = (f + length r)%nat ->
    (Forall (fun x => p x = false) r /\ find_if p (X ++ full r ++ Y) f t = Ok t) \/
    (exists T x r', r = T ++ x :: r' /\ Forall (fun x => p x = false) T /\ p x = true /\
       find_if p (X ++ full r ++ Y) f t = Ok (f + length T)%nat).
  Proof.
    intros Ef Et. unfold find_if.
    match goal with |- context [loop _ ?b _] => set (body := b) end.
    assert (G : forall fuel T r', r = T ++ r' -> (length r' < fuel)%nat ->
      (Forall (fun x => p x = false) r' /\ loop fuel body (f + length T)%nat = Ok t) \/
      (exists T' x r'', r' = T' ++ x :: r'' /\ Forall (fun x => p x = false) T' /\ p x = true /\
         loop fuel body (f + length T)%nat = Ok (f + length T + length T')%nat)).
    { intros fuel. induction fuel as [|fuel IH]; intros T r' E Hf; [lia|]. rewrite loop_S. unfold body at 1 3.
      destruct r' as [|x r'].
      { left. rewrite app_nil_r in E. subst T. rewrite decide_False by lia. cbn [rbind]. split; [done|]. f_equal. lia. }
      rewrite decide_True by (rewrite E in Et; len).
      assert (R : rd (X ++ full r ++ Y) (f + length T) = Ok x).
      { rewrite E, full_app, <-app_assoc, app_assoc, full_cons, <-app_comm_cons. apply rd_mid. len. }
      rewrite R. cbn [rbind]. destruct (p x) eqn:Hp; cbn [negb rbind].
      - right. exists [], x, r'. split; [done|]. split; [done|]. split; [done|]. f_equal. simpl. lia.
      - replace (S (f + length T)) with (f + length (T ++ [x]))%nat by len.
        destruct (IH (T ++ [x]) r') as [[H1 H2]|(T' & y & r'' & H1 & H2 & H3 & H4)]; [by rewrite <-app_assoc|simpl in Hf; lia| |].
        + left. split; [by constructor|done].
        + right. exists (x :: T'), y, r''. split; [by rewrite H1|]. split; [by constructor|]. split; [done|].
          rewrite H4. f_equal. len. }
    pose proof (G (S (t - f)) [] r eq_refl ltac:(lia)) as HG. simpl length in HG. rewrite !Nat.add_0_r in HG. exact HG.
  Qed.

  Lemma remove_if_ok r X Y (f t : nat) : f = length X -> t = (f + length r)%nat ->
    exists J, remove_if p (X ++ full r ++ Y) f t = Ok (X ++ full (bfilter np r) ++ J ++ Y, (f + length (bfilter np r))%nat) /\
      length J = (length r - length (bfilter np r))%nat.
  Proof.
    intros Ef Et. unfold remove_if.
    destruct (find_if_ok r X Y f t Ef Et) as [[H1 ->]|(T & x & r' & -> & HT & Hx & ->)]; cbn [rbind]; cbv zeta.
    { rewrite decide_False by lia. exists []. rewrite bfilter_all_np by done. split; [do 2 f_equal; lia|simpl; lia]. }
    rewrite decide_True by len.
    match goal with |- context [loop _ ?b _] => set (body := b) end.
    assert (G : forall fuel J r' X, (length r' < fuel)%nat -> J <> [] -> (length X + length J + length r' = t)%nat ->
      exists J', loop fuel body (X ++ J ++ full r' ++ Y, (length X + length J - 1)%nat, length X) =
        Ok (X ++ full (bfilter np r') ++ J' ++ Y, (length X + length (bfilter np r'))%nat) /\
        (length J' + length (bfilter np r') = length J + length r')%nat).
    { clear. intros fuel. induction fuel as [|fuel IH]; intros J r' X Hf HJ Ht; [lia|].
      assert (0 < length J)%nat by (destruct J; [done|simpl; lia]).
      rewrite loop_S. unfold body at 1. cbv zeta.
      replace (S (length X + length J - 1)) with (length X + length J)%nat by lia.
      destruct r' as [|y r'].
      { rewrite decide_False by len. cbn [rbind]. exists J. simpl. rewrite Nat.add_0_r. done. }
      rewrite decide_True by (simpl in Ht; len).
      assert (R : rd (X ++ J ++ full (y :: r') ++ Y) (length X + length J) = Ok y).
      { rewrite app_assoc, full_cons, <-app_comm_cons. apply rd_mid. len. }
      rewrite R. cbn [rbind bfilter]. destruct (p y) eqn:Hy; cbn [negb].
      - destruct (IH (J ++ [Some y]) r' X) as (J' & E' & L').
        + simpl in Hf. lia. + by destruct J. + len.
        + replace (X ++ J ++ full (y :: r') ++ Y) with (X ++ (J ++ [Some y]) ++ full r' ++ Y) by (by rewrite <-!app_assoc).
          cbn [rbind].
          replace (length X + length J)%nat with (length X + length (J ++ [Some y]) - 1)%nat by len.
          rewrite E'. exists J'. split; [done|len].
      - destruct J as [|c J]; [done|].
        assert (Es : mvto (X ++ (c :: J) ++ full (y :: r') ++ Y) (length X + length (c :: J)) (length X) =
          Ok ((X ++ [Some y]) ++ (J ++ [None]) ++ full r' ++ Y)).
        { rewrite !full_cons, <-!app_comm_cons. rewrite mvto_down by len. f_equal. rewrite <-!app_assoc. done. }
        rewrite Es. cbn [rbind].
        destruct (IH (J ++ [None]) r' (X ++ [Some y])) as (J' & E' & L').
        + simpl in Hf. lia. + by destruct J. + len.
        + replace (S (length X)) with (length (X ++ [Some y])) by len.
          replace (length X + length (c :: J))%nat with (length (X ++ [Some y]) + length (J ++ [None]) - 1)%nat by len.
          rewrite E'. exists J'. split; [|len].
          f_equal. f_equal; [|len]. by rewrite <-!app_assoc. }
    destruct (G (S (t - (f + length T))) [Some x] r' (X ++ full T)) as (J' & E' & L').
    { len. } { done. } { len. }
    replace (X ++ full (T ++ x :: r') ++ Y) with ((X ++ full T) ++ [Some x] ++ full r' ++ Y).
    2: { rewrite full_app, <-!app_assoc. done. }
    assert (Efl : (f + length T)%nat = length (X ++ full T)) by len. rewrite !Efl in E' |- *.
    replace (length (X ++ full T) + length [Some x] - 1)%nat with (length (X ++ full T)) in E' by (simpl; lia).
    rewrite E'. exists J'. rewrite List.filter_app, (bfilter_all_np T) by done. cbn [bfilter]. rewrite Hx. cbn [negb]. split; [|len].
    f_equal. f_equal; [|len]. by rewrite full_app, <-!app_assoc.
  Qed.

  (** stable_partition *)
  Lemma sp_buffered_ok x m z X Y buf (f t c : nat) :
    p x = false -> p z = true -> (S (length m) <= length buf)%nat ->
    f = length X -> t = (f + 1 + length m)%nat -> c = (length m + 2)%nat ->
    exists buf', sp_buffered p (X ++ full (x :: m ++ [z]) ++ Y) buf f t c =
      Ok (X ++ full (bfilter p (x :: m ++ [z])) ++ full (bfilter np (x :: m ++ [z])) ++ Y, buf',
          (f + length (bfilter p (x :: m ++ [z])))%nat, length (bfilter p (x :: m ++ [z]))) /\ length buf' = length buf.
  Proof.
    intros Hx Hz Hb Ef Et Ec. unfold sp_buffered. cbv zeta.
    rewrite full_cons, full_app, <-app_comm_cons, mv_mid by done. cbn [rbind].
    destruct buf as [|b0 buf]; [simpl in Hb; lia|].
    pose proof (wr_mid [] b0 buf 0 x eq_refl) as Ew. rewrite !app_nil_l in Ew. rewrite Ew. clear Ew. cbn [rbind].
    match goal with |- context [loop _ ?b _] => set (body := b) end.
    assert (G : forall fuel r H F W X, (length r < fuel)%nat -> length H = length F -> F <> [] -> (length r <= length W)%nat ->
      (length X + length H + length r = t)%nat ->
      exists H' W', loop fuel body (X ++ H ++ full r ++ full [z] ++ Y, full F ++ W, (length X + length H - 1)%nat, length X, length F) =
        Ok (X ++ full (bfilter p r) ++ H' ++ full [z] ++ Y, full (F ++ bfilter np r) ++ W',
            (length X + length (bfilter p r))%nat, (length F + length (bfilter np r))%nat) /\
        length H' = length (F ++ bfilter np r) /\ (length W' + length (bfilter np r) = length W)%nat).
    { clear - t. intros fuel. induction fuel as [|fuel IH]; intros r H F W X Hf HHF HF HW Ht; [lia|].
      assert (0 < length F)%nat by (destruct F; [done|simpl; lia]).
      rewrite loop_S. unfold body at 1. cbv zeta.
      replace (S (length X + length H - 1)) with (length X + length H)%nat by lia.
      destruct r as [|y r].
      { rewrite decide_False by len. cbn [rbind bfilter]. exists H, W. rewrite !app_nil_r, !Nat.add_0_r. done. }
      rewrite decide_True by (simpl in Ht; len).
      assert (R : rd (X ++ H ++ full (y :: r) ++ full [z] ++ Y) (length X + length H) = Ok y).
      { rewrite app_assoc, full_cons, <-app_comm_cons. apply rd_mid. len. }
      rewrite R. cbn [rbind bfilter]. destruct (p y) eqn:Hy; cbn [negb].
      - destruct H as [|c H]; [simpl in HHF; lia|].
        assert (Es : mvto (X ++ (c :: H) ++ full (y :: r) ++ full [z] ++ Y) (length X + length (c :: H)) (length X) =
          Ok ((X ++ [Some y]) ++ (H ++ [None]) ++ full r ++ full [z] ++ Y)).
        { rewrite !full_cons, <-!app_comm_cons. rewrite mvto_down by len. f_equal. rewrite <-!app_assoc. done. }
        rewrite Es. cbn [rbind].
        destruct (IH r (H ++ [None]) F W (X ++ [Some y])) as (H' & W' & E' & L' & L2').
        + simpl in Hf. lia. + len. + done. + simpl in HW. lia. + len.
        + replace (S (length X)) with (length (X ++ [Some y])) by len.
          replace (length X + length (c :: H))%nat with (length (X ++ [Some y]) + length (H ++ [None]) - 1)%nat by len.
          rewrite E'. exists H', W'. split; [|done].
          eq4; [by rewrite full_cons, <-!app_assoc|done|len|done].
      - rewrite (app_assoc X H), full_cons, <-app_comm_cons, mv_mid by len. cbn [rbind].
        destruct W as [|w W]; [simpl in HW; lia|].
        rewrite (wr_mid (full F) w W (length F) y) by (by rewrite full_length). cbn [rbind].
        destruct (IH r (H ++ [None]) (F ++ [y]) W X) as (H' & W' & E' & L' & L2').
        + simpl in Hf. lia. + len. + by destruct F. + simpl in HW. lia. + len.
        + replace ((X ++ H) ++ None :: full r ++ full [z] ++ Y) with (X ++ (H ++ [None]) ++ full r ++ full [z] ++ Y) by (by rewrite <-!app_assoc).
          replace (full F ++ Some y :: W) with (full (F ++ [y]) ++ W) by (by rewrite full_app, <-app_assoc).
          replace (S (length F)) with (length (F ++ [y])) by len.
          replace (length X + length H)%nat with (length X + length (H ++ [None]) - 1)%nat by len.
          rewrite E'. exists H', W'. split; [|len].
          eq4; [done|by rewrite <-app_assoc|done|len]. }
    destruct (G (S (t - f)) m [None] [x] buf X) as (H' & W' & E' & L' & L2').
    { lia. } { done. } { done. } { simpl in Hb. lia. } { simpl. lia. }
    rewrite <-!app_assoc.
    replace (X ++ None :: full m ++ full [z] ++ Y) with (X ++ [None] ++ full m ++ full [z] ++ Y) by done.
    replace (Some x :: buf) with (full [x] ++ buf) by done.
    replace (length X + length [None : option A] - 1)%nat with f in E' by (simpl; lia).
    rewrite <-Ef in E'. change (length [x]) with 1%nat in E'. rewrite E'. cbn [rbind].
    destruct H' as [|h H']; [len|].
    replace (X ++ full (bfilter p m) ++ (h :: H') ++ full [z] ++ Y) with ((X ++ full (bfilter p m)) ++ h :: H' ++ Some z :: Y).
    2: { rewrite <-!app_assoc. done. }
    pose proof (bfilter_len m) as Lm.
    rewrite mvto_down by len. cbn [rbind].
    pose proof (xmove_ok ([x] ++ bfilter np m) [] W' (X ++ full (bfilter p m) ++ [Some z]) (H' ++ [None]) Y 0 (1 + length (bfilter np m)) (S (f + length (bfilter p m)))) as Em.
    rewrite !app_nil_l in Em.
    replace ((X ++ full (bfilter p m)) ++ Some z :: H' ++ None :: Y) with
      ((X ++ full (bfilter p m) ++ [Some z]) ++ (H' ++ [None]) ++ Y) by (rewrite <-!app_assoc; done).
    rewrite Em by len. cbn [rbind].
    eexists. split.
    - cbn [bfilter]. rewrite Hx, !List.filter_app. cbn [bfilter negb]. rewrite Hz. cbn [negb]. rewrite app_nil_r.
      eq4.
      + rewrite (full_app (bfilter p m)), <-!app_assoc. done.
      + done.
      + len.
      + len.
    - len.
  Qed.

  Lemma sp1_ok fuel (cap : nat) x m z X Y buf (f t c : nat) :
    (c < fuel)%nat -> length buf = cap -> p x = false -> p z = true ->
    f = length X -> t = (f + 1 + length m)%nat -> c = (length m + 2)%nat ->
    exists buf', sp1 p fuel cap (X ++ full (x :: m ++ [z]) ++ Y) buf f t c =
      Ok (X ++ full (bfilter p (x :: m ++ [z])) ++ full (bfilter np (x :: m ++ [z])) ++ Y, buf',
          (f + length (bfilter p (x :: m ++ [z])))%nat, length (bfilter p (x :: m ++ [z]))) /\ length buf' = cap.
  Proof.
    revert x m z X Y buf f t c. induction fuel as [|fuel IH]; intros x m z X Y buf f t c Hfu Hb Hx Hz Ef Et Ec; [lia|].
    cbn [sp1]. case_decide as D.
    { rewrite <-Hb. apply sp_buffered_ok; try done. lia. }
    cbv zeta. remember (c / 2)%nat as mo eqn:Emo.
    assert (Hmo : (1 <= mo /\ mo <= length m + 1)%nat) by lia.
    (* split the range at mid: x :: mL, mR ++ [z] *)
    remember (take (mo - 1) m) as mL eqn:EmL. remember (drop (mo - 1) m) as mR eqn:EmR.
    assert (Em : m = mL ++ mR) by (subst mL mR; by rewrite take_drop).
    assert (LmL : length mL = (mo - 1)%nat) by (subst mL; rewrite take_length; lia).
    rewrite Em in Et, Ec, Hmo |- *. rewrite app_length in Et, Ec, Hmo. clear Em EmL EmR D m.
    match goal with |- context [loop (S mo) ?b _] => set (bodyL := b) end.
    assert (GL : forall fuel r' F, mL = r' ++ F -> Forall (fun x => p x = false) F -> (length r' < fuel)%nat ->
      (Forall (fun x => p x = false) r' /\ loop fuel bodyL ((f + 1 + length r')%nat, (length r' + 1)%nat) = Ok (f, 0%nat, false)) \/
      (exists r'' y F', r' = r'' ++ y :: F' /\ Forall (fun x => p x = false) F' /\ p y = true /\
         loop fuel bodyL ((f + 1 + length r')%nat, (length r' + 1)%nat) = Ok ((f + 1 + length r'')%nat, (length r'' + 2)%nat, true))).
    { clear fuel IH Hfu. intros fuel. induction fuel as [|fuel IH]; intros r' F E HF Hf; [lia|]. rewrite loop_S. unfold bodyL at 1 3.
      replace (f + 1 + length r')%nat with (S (f + length r')) by lia. cbn [decr rbind].
      destruct (decide (r' = [])) as [->|Hne].
      { left. rewrite decide_True by (simpl; lia). cbn [rbind]. split; [done|]. eq3; [simpl; lia|simpl; lia|done]. }
      destruct (exists_last Hne) as (r'' & y & ->).
      rewrite decide_False by len.
      assert (R : rd (X ++ full (x :: (mL ++ mR) ++ [z]) ++ Y) (f + length (r'' ++ [y])) = Ok y).
      { rewrite E, <-!app_assoc, (app_comm_cons r''), full_app, <-app_assoc, app_assoc. cbn [app].
        apply rd_mid. len. }
      rewrite R. cbn [rbind]. destruct (p y) eqn:Hp; cbn [negb rbind].
      - right. exists r'', y, []. split; [done|]. split; [done|]. split; [done|]. f_equal. f_equal. f_equal; len.
      - replace (f + length (r'' ++ [y]))%nat with (f + 1 + length r'')%nat by len.
        replace (length (r'' ++ [y]) + 1 - 1)%nat with (length r'' + 1)%nat by len.
        destruct (IH r'' (y :: F)) as [[H1 H2]|(r3 & w & F' & H1 & H2 & H3 & H4)]; [by rewrite E, <-app_assoc|by constructor|len| |].
        + left. split; [|done]. apply Forall_app. split; [done|by repeat constructor].
        + right. exists r3, w, (F' ++ [y]). split; [by rewrite H1, <-app_assoc|].
          split; [apply Forall_app; split; [done|by repeat constructor]|]. done. }
    (* left half *)
    assert (HL : exists buf1,
      ('(lft, left_true_count, recurse) <~ loop (S mo) bodyL ((f + mo)%nat, mo) ;;
       (if (recurse : bool) then sp1 p fuel cap (X ++ full (x :: (mL ++ mR) ++ [z]) ++ Y) buf f lft left_true_count
        else Ok (X ++ full (x :: (mL ++ mR) ++ [z]) ++ Y, buf, lft, left_true_count))) =
       Ok (X ++ full (bfilter p (x :: mL)) ++ full (bfilter np (x :: mL)) ++ full (mR ++ [z]) ++ Y, buf1,
           (f + length (bfilter p (x :: mL)))%nat, length (bfilter p (x :: mL))) /\ length buf1 = cap).
    { destruct (GL (S mo) mL []) as [[H1 H2]|(r'' & y & F' & H1 & H2 & H3 & H4)].
      { by rewrite app_nil_r. } { done. } { lia. }
      - replace (f + 1 + length mL)%nat with (f + mo)%nat in H2 by lia. replace (length mL + 1)%nat with mo in H2 by lia.
        rewrite H2. cbn [rbind]. exists buf. split; [|done].
        assert (Hxl : Forall (fun x => p x = false) (x :: mL)) by (by constructor).
        rewrite (bfilter_none _ p Hxl), (bfilter_all_np _ Hxl). eq4; [|done|simpl; lia|done].
        by rewrite <-app_assoc, app_comm_cons, full_app, <-app_assoc.
      - replace (f + 1 + length mL)%nat with (f + mo)%nat in H4 by lia. replace (length mL + 1)%nat with mo in H4 by lia.
        rewrite H4. cbn [rbind].
        destruct (IH x r'' y X (full F' ++ full (mR ++ [z]) ++ Y) buf f (f + 1 + length r'')%nat (length r'' + 2)%nat)
          as (b1 & E1 & Hb1); try done.
        { subst mL. rewrite app_length in LmL. simpl in LmL. lia. }
        replace (X ++ full (x :: (mL ++ mR) ++ [z]) ++ Y) with (X ++ full (x :: r'' ++ [y]) ++ full F' ++ full (mR ++ [z]) ++ Y).
        2: { rewrite H1. nfull. done. }
        rewrite E1. exists b1. split; [|done].
        assert (E2 : x :: mL = (x :: r'' ++ [y]) ++ F') by (rewrite H1; simpl; f_equal; by rewrite <-!app_assoc).
        rewrite E2, !(List.filter_app _ (x :: r'' ++ [y])), (bfilter_none _ p H2), (bfilter_all_np _ H2), app_nil_r.
        eq4; [by rewrite (full_app (bfilter np _)), <-!app_assoc|done|done|done]. }
    destruct HL as (buf1 & EL & Hb1).
    rewrite EL. cbn [rbind]. clear EL GL bodyL.
    match goal with |- context [loop (S (t - (f + mo))) ?b _] => set (bodyR := b) end.
    remember (X ++ full (bfilter p (x :: mL)) ++ full (bfilter np (x :: mL))) as X1 eqn:EX1.
    assert (LX1 : length X1 = (f + mo)%nat).
    { pose proof (bfilter_len (x :: mL)) as Hl. subst X1. rewrite !app_length, !full_length. change (length (x :: mL)) with (S (length mL)) in Hl. lia. }
    assert (EA : X ++ full (bfilter p (x :: mL)) ++ full (bfilter np (x :: mL)) ++ full (mR ++ [z]) ++ Y = X1 ++ full (mR ++ [z]) ++ Y).
    { subst X1. by rewrite <-!app_assoc. }
    assert (GR : forall fuel T r', mR = T ++ r' -> Forall (fun x => p x = true) T -> (length r' < fuel)%nat ->
      (Forall (fun x => p x = true) r' /\ loop fuel bodyR ((f + mo + length T)%nat, length T) = Ok (S t, S (length mR), false)) \/
      (exists T' y r'', r' = T' ++ y :: r'' /\ Forall (fun x => p x = true) T' /\ p y = false /\
         loop fuel bodyR ((f + mo + length T)%nat, length T) = Ok ((f + mo + length T + length T')%nat, (length T + length T')%nat, true))).
    { clear fuel IH Hfu. intros fuel. induction fuel as [|fuel IH]; intros T r' E HT Hf; [lia|]. rewrite loop_S. unfold bodyR at 1 3.
      destruct r' as [|y r'].
      { left. rewrite app_nil_r in E. subst T. rewrite decide_True by lia. cbn [rbind]. split; [done|]. eq3; [|done|done]. lia. }
      assert (HmR : length mR = (length T + S (length r'))%nat) by (rewrite E; len).
      rewrite decide_False by lia.
      assert (R : rd (X ++ full (bfilter p (x :: mL)) ++ full (bfilter np (x :: mL)) ++ full (mR ++ [z]) ++ Y) (f + mo + length T) = Ok y).
      { rewrite EA, E, <-!app_assoc, full_app, <-app_assoc, app_assoc. cbn [app]. rewrite full_cons, <-app_comm_cons.
        apply rd_mid. len. }
      rewrite R. cbn [rbind]. destruct (p y) eqn:Hp; cbn [negb rbind].
      - replace (S (f + mo + length T)) with (f + mo + length (T ++ [y]))%nat by len.
        replace (S (length T)) with (length (T ++ [y]))%nat by len.
        destruct (IH (T ++ [y]) r') as [[H1 H2]|(T' & w & r'' & H1 & H2 & H3 & H4)]; [by rewrite E, <-app_assoc| |simpl in Hf; lia| |].
        + apply Forall_app. split; [done|by repeat constructor].
        + left. split; [by constructor|done].
        + right. exists (y :: T'), w, r''. split; [by rewrite H1|]. split; [by constructor|]. split; [done|].
          rewrite H4. eq3; [len|len|done].
      - right. exists [], y, r'. split; [done|]. split; [done|]. split; [done|]. eq3; [simpl; lia|simpl; lia|done]. }
    assert (HR : exists buf2,
      ('(rgt, rtc, recurse) <~ loop (S (t - (f + mo))) bodyR ((f + mo)%nat, 0%nat) ;;
       (if (recurse : bool) then
          '(a, buf, r, c') <~ sp1 p fuel cap (X ++ full (bfilter p (x :: mL)) ++ full (bfilter np (x :: mL)) ++ full (mR ++ [z]) ++ Y) buf1 rgt t (c - mo - rtc) ;;
          Ok (a, buf, r, (rtc + c')%nat)
        else Ok (X ++ full (bfilter p (x :: mL)) ++ full (bfilter np (x :: mL)) ++ full (mR ++ [z]) ++ Y, buf1, rgt, rtc))) =
       Ok (X1 ++ full (bfilter p (mR ++ [z])) ++ full (bfilter np (mR ++ [z])) ++ Y, buf2,
           (f + mo + length (bfilter p (mR ++ [z])))%nat, length (bfilter p (mR ++ [z]))) /\ length buf2 = cap).
    { destruct (GR (S (t - (f + mo))) [] mR) as [[H1 H2]|(T' & y & r'' & H1 & H2 & H3 & H4)].
      { done. } { done. } { lia. }
      - simpl length in H2. rewrite Nat.add_0_r in H2. rewrite H2. cbn [rbind]. exists buf1. split; [|done].
        assert (Hxl : Forall (fun x => p x = true) (mR ++ [z])) by (apply Forall_app; split; [done|by repeat constructor]).
        rewrite (bfilter_all _ p Hxl), (bfilter_none_np _ Hxl). rewrite EA. eq4; [done|done|len|len].
      - simpl length in H4. rewrite Nat.add_0_r in H4. rewrite H4. cbn [rbind].
        assert (HmR : length mR = (length T' + S (length r''))%nat) by (rewrite H1; len).
        destruct (IH y r'' z (X1 ++ full T') Y buf1 (f + mo + length T')%nat t (c - mo - (0 + length T'))%nat)
          as (b2 & E2 & Hb2); try done.
        { lia. } { len. } { lia. } { lia. }
        rewrite EA.
        replace (X1 ++ full (mR ++ [z]) ++ Y) with ((X1 ++ full T') ++ full (y :: r'' ++ [z]) ++ Y).
        2: { rewrite H1, <-!app_assoc, full_app, <-!app_assoc. done. }
        rewrite E2. cbn [rbind]. exists b2. split; [|done].
        assert (E3 : mR ++ [z] = T' ++ (y :: r'' ++ [z])) by (rewrite H1; by rewrite <-!app_assoc).
        rewrite E3, !(List.filter_app _ T'), (bfilter_all _ p H2), (bfilter_none_np _ H2), app_nil_l.
        eq4; [by rewrite full_app, <-!app_assoc|done|len|len]. }
    destruct HR as (buf2 & ER & Hb2). rewrite ER. cbn [rbind]. clear ER GR bodyR EA.
    pose proof (bfilter_len (x :: mL)) as Hl. change (length (x :: mL)) with (S (length mL)) in Hl.
    destruct (buffered_rotate_ok (bfilter np (x :: mL)) (bfilter p (mR ++ [z])) (X ++ full (bfilter p (x :: mL)))
      (full (bfilter np (mR ++ [z])) ++ Y) buf2 cap (f + length (bfilter p (x :: mL))) (f + mo)
      (f + mo + length (bfilter p (mR ++ [z]))) (mo - length (bfilter p (x :: mL))) (length (bfilter p (mR ++ [z]))))
      as (buf3 & E3 & Hb3); try done; try len.
    replace (X1 ++ full (bfilter p (mR ++ [z])) ++ full (bfilter np (mR ++ [z])) ++ Y) with
      ((X ++ full (bfilter p (x :: mL))) ++ full (bfilter np (x :: mL)) ++ full (bfilter p (mR ++ [z])) ++ full (bfilter np (mR ++ [z])) ++ Y).
    2: { subst X1. by rewrite <-!app_assoc. }
    rewrite E3. cbn [rbind]. exists buf3. split; [|done].
    assert (E4 : x :: (mL ++ mR) ++ [z] = (x :: mL) ++ mR ++ [z]) by (simpl; by rewrite <-app_assoc).
    rewrite E4, !(List.filter_app _ (x :: mL)), !app_length, !full_app, <-!app_assoc.
    eq4; [done|done|lia|done].
  Qed.

  Lemma stable_partition_ok (cap : nat) r X Y (f t : nat) : f = length X -> t = (f + length r)%nat ->
    stable_partition p cap (X ++ full r ++ Y) f t =
      Ok (X ++ full (bfilter p r ++ bfilter np r) ++ Y, (f + length (bfilter p r))%nat).
  Proof.
    intros Ef Et. unfold stable_partition.
    destruct (skip_front_ok r X Y f t Ef Et) as [[H1 ->]|(T & x & r' & -> & HT & Hx & ->)]; cbn [rbind].
    { rewrite bfilter_all, bfilter_none_np, app_nil_r by done. do 2 f_equal. lia. }
    assert (E : X ++ full (T ++ x :: r') ++ Y = (X ++ full T) ++ full (x :: r') ++ Y) by (by rewrite full_app, <-!app_assoc).
    rewrite E. rewrite !(List.filter_app _ T), (bfilter_all T), (bfilter_none_np T), app_nil_l by done.
    destruct (skip_back_ok x r' (X ++ full T) Y (f + length T) t) as [[H1 ->]|(r'' & y & F & -> & HF & Hy & ->)]; [len|len| |]; cbn [rbind].
    { assert (Hxl : Forall (fun x => p x = false) (x :: r')) by (by constructor).
      rewrite (bfilter_none _ p Hxl), (bfilter_all_np _ Hxl), app_nil_r. by rewrite E. }
    cbv zeta.
    destruct (sp1_ok (S (f + length T + 1 + length r'' - (f + length T) + 1)) cap x r'' y (X ++ full T) (full F ++ Y) (replicate cap None)
      (f + length T) (f + length T + 1 + length r'') (f + length T + 1 + length r'' - (f + length T) + 1)) as (b & E1 & Hb1); try done; try lia.
    { apply replicate_length. } { len. }
    replace ((X ++ full T) ++ full (x :: r'' ++ y :: F) ++ Y) with ((X ++ full T) ++ full (x :: r'' ++ [y]) ++ full F ++ Y).
    2: { nfull. done. }
    rewrite E1. cbn [rbind].
    assert (E4 : x :: r'' ++ y :: F = (x :: r'' ++ [y]) ++ F) by (simpl; by rewrite <-app_assoc).
    rewrite E4, !(List.filter_app _ (x :: r'' ++ [y])), (bfilter_none F p), (bfilter_all_np F), app_nil_r by done.
    f_equal. f_equal; [|len]. rewrite !full_app, <-!app_assoc. done.
  Qed.
End partition.

Section unique.
  Context {A : Type} (eq : A -> A -> bool).
  Implicit Types (a X Y H U W Z J : arr A) (l P Q r T F : list A).

  (* what is kept after the kept element [k] *)
  Fixpoint dedup_from (k : A) (l : list A) : list A :=
    match l with
    | [] => []
    | x :: l => if eq k x then dedup_from k l else x :: dedup_from x l
    end.

  Lemma dedup_from_len k l : (length (dedup_from k l) <= length l)%nat.
  Proof. revert k. induction l as [|x l IH]; intros k; simpl; [lia|]. destruct (eq k x); simpl; [specialize (IH k)|specialize (IH x)]; lia. Qed.

  Lemma unique_compact_ok r H X Y k (fb f t : nat) : fb = length X -> f = (length X + length H)%nat -> (t = f + 1 + length r)%nat -> H <> [] ->
    exists J, unique_compact eq (X ++ Some k :: H ++ full r ++ Y) fb f t =
      Ok (X ++ Some k :: full (dedup_from k r) ++ J ++ Y, (S fb + length (dedup_from k r))%nat) /\
      (length J + length (dedup_from k r) = length H + length r)%nat.
  Proof.
    intros -> -> Et HH. unfold unique_compact.
    assert (Hf : (length r < S (t - (length X + length H)))%nat) by lia.
    revert Hf. generalize (S (t - (length X + length H))) as fuel. intros fuel.
    match goal with |- context [loop _ ?b _] => set (body := b) end.
    revert r H X k Et HH. induction fuel as [|fuel IH]; intros r H X k Et HH Hf; [lia|].
    rewrite loop_S. unfold body at 1. cbv zeta.
    destruct r as [|x r].
    { rewrite decide_False by (simpl in Et; lia). cbn [rbind dedup_from]. exists H. rewrite full_nil. split; [|simpl; lia].
      do 2 f_equal. simpl. lia. }
    rewrite decide_True by (simpl in Et; lia). rewrite rd_mid by done. cbn [rbind].
    assert (R : rd (X ++ Some k :: H ++ full (x :: r) ++ Y) (S (length X + length H)) = Ok x).
    { rewrite (app_comm_cons H), app_assoc, full_cons, <-app_comm_cons. apply rd_mid. len. }
    rewrite R. cbn [rbind dedup_from]. destruct (eq k x) eqn:Ex; cbn [negb rbind].
    - destruct (IH r (H ++ [Some x]) X k) as (J & E & L); [simpl in Et; len|by destruct H|simpl in Hf; lia|].
      replace (X ++ Some k :: H ++ full (x :: r) ++ Y) with (X ++ Some k :: (H ++ [Some x]) ++ full r ++ Y) by (by rewrite <-!app_assoc).
      replace (S (length X + length H)) with (length X + length (H ++ [Some x]))%nat by len.
      rewrite E. exists J. split; [done|len].
    - destruct H as [|c H]; [done|].
      assert (Es : mvto (X ++ Some k :: (c :: H) ++ full (x :: r) ++ Y) (S (length X + length (c :: H))) (S (length X)) =
        Ok ((X ++ [Some k]) ++ Some x :: (H ++ [None]) ++ full r ++ Y)).
      { replace (X ++ Some k :: (c :: H) ++ full (x :: r) ++ Y) with ((X ++ [Some k]) ++ c :: H ++ Some x :: full r ++ Y) by (by rewrite <-!app_assoc).
        rewrite mvto_down by len. f_equal. rewrite <-!app_assoc. done. }
      rewrite Es. cbn [rbind].
      destruct (IH r (H ++ [None]) (X ++ [Some k]) x) as (J & E & L); [simpl in Et; len|by destruct H|simpl in Hf; lia|].
      replace (S (length X + length (c :: H))) with (length (X ++ [Some k]) + length (H ++ [None]))%nat by len.
      replace (S (length X)) with (length (X ++ [Some k])) by len.
      rewrite E. exists J. split; [|len].
      f_equal. f_equal; [|len]. rewrite <-!app_assoc. done.
  Qed.

  Definition dedup (l : list A) : list A := match l with [] => [] | x :: l => x :: dedup_from x l end.

  Lemma unique_ok r X Y (f t : nat) : f = length X -> t = (f + length r)%nat ->
    exists J, unique eq (X ++ full r ++ Y) f t = Ok (X ++ full (dedup r) ++ J ++ Y, (f + length (dedup r))%nat) /\
      (length J + length (dedup r) = length r)%nat.
  Proof.
    intros -> ->. unfold unique. destruct r as [|x r].
    { rewrite decide_False by (simpl; lia). exists []. done. }
    rewrite decide_True by (simpl; lia).
    remember (X ++ full (x :: r) ++ Y) as M eqn:EM. remember (length X + length (x :: r))%nat as t eqn:Et.
    match goal with |- context [loop _ ?b _] => set (body := b) end.
    assert (G : forall fuel x r X, M = X ++ full (x :: r) ++ Y -> t = (length X + length (x :: r))%nat -> (length r < fuel)%nat ->
      exists J, loop fuel body (length X) = Ok (X ++ full (dedup (x :: r)) ++ J ++ Y, (length X + length (dedup (x :: r)))%nat) /\
        (length J + length (dedup (x :: r)) = length (x :: r))%nat).
    { clear X x r EM Et. intros fuel. induction fuel as [|fuel IH]; intros x r X EM Et Hf; [lia|].
      rewrite loop_S. unfold body at 1. cbv zeta.
      destruct r as [|y r].
      { rewrite decide_False by (simpl in Et; lia). cbn [rbind]. exists []. split; [|done]. rewrite EM, Et. done. }
      rewrite decide_True by (simpl in Et; lia).
      assert (R1 : rd M (length X) = Ok x) by (rewrite EM; by apply rd_mid).
      assert (R2 : rd M (S (length X)) = Ok y).
      { rewrite EM. replace (X ++ full (x :: y :: r) ++ Y) with ((X ++ [Some x]) ++ Some y :: full r ++ Y) by (by rewrite <-app_assoc).
        apply rd_mid. len. }
      rewrite R1. cbn [rbind]. rewrite R2. cbn [rbind].
      cbn [dedup dedup_from]. destruct (eq x y) eqn:Exy.
      - destruct (unique_compact_ok r [Some y] X Y x (length X) (S (length X)) t) as (J & E & L); [done|simpl; lia|simpl in Et; lia|done|].
        replace M with (X ++ Some x :: [Some y] ++ full r ++ Y) by (rewrite EM; done).
        rewrite E. cbn [rbind]. exists J. split; [|len]. f_equal. f_equal. len.
      - cbn [rbind]. destruct (IH y r (X ++ [Some x])) as (J & E & L); [by rewrite EM, <-app_assoc|simpl in Et; len|simpl in Hf; lia|].
        replace (S (length X)) with (length (X ++ [Some x])) by len. rewrite E. exists J. split; [|simpl in *; lia].
        f_equal. f_equal; [by rewrite <-app_assoc|]. cbn [dedup]. len. }
    apply G; [done|done|subst t; simpl; lia].
  Qed.
End unique.
