From stdpp Require Import base list numbers.
From Coq Require Import Lia ZifyNat.
From Verif Require Import Base.Res Base.Order Base.OrderLemmas Base.Arr Base.Cells Alg.SortModel Alg.RotateModel.

(** normalise lengths of concatenations and call lia *)
Ltac len := repeat (rewrite ?app_length, ?fmap_length, ?full_length, ?replicate_length, ?rev_length, ?reverse_length,
  ?insert_length, ?take_length, ?drop_length in * || simpl length in * ); lia.

Lemma pair3_eq {A B C} (a a' : A) (b b' : B) (c c' : C) : a = a' -> b = b' -> c = c' -> (a, b, c) = (a', b', c').
Proof. by intros -> -> ->. Qed.
Ltac eq3 := match goal with
  | |- Ok _ = Ok _ => apply f_equal; apply pair3_eq
  | |- (_, _, _) = (_, _, _) => apply pair3_eq end.

Section rotate.
  Context {A : Type}.
  Implicit Types (a X Y : arr A) (l P Q : list A).

  Lemma replicate_snoc_cons (n : nat) Y : replicate n (@None A) ++ None :: Y = None :: replicate n None ++ Y.
  Proof. rewrite (app_comm_cons (replicate n None)), <-replicate_S, replicate_S_end, <-app_assoc. done. Qed.

  (** moving a block down over an empty gap *)
  Lemma move_n_down h xs X Y s d : (0 < h)%nat -> d = length X -> s = (length X + h)%nat ->
    move_n (length xs) (X ++ empty h ++ full xs ++ Y) s d = Ok (X ++ full xs ++ empty h ++ Y, (d + length xs)%nat).
  Proof.
    intros Hh. revert X s d. induction xs as [|x xs IH]; intros X s d -> ->; simpl move_n.
    - simpl length. rewrite Nat.add_0_r. done.
    - destruct h as [|h]; [lia|]. rewrite full_cons. simpl.
      rewrite (mvto_down X None (empty h) x) by len. simpl.
      rewrite replicate_snoc_cons.
      pose proof (IH (X ++ [Some x]) (S (length X + S h)) (S (length X))) as E.
      rewrite <-!app_assoc in E. simpl in E. rewrite E by len. f_equal. f_equal. len.
  Qed.

  (** moving a block up over an empty gap *)
  Lemma move_backward_up h xs X Y f t d : (0 < h)%nat -> f = length X -> t = (length X + length xs)%nat ->
    d = (length X + length xs + h)%nat ->
    move_backward (X ++ full xs ++ empty h ++ Y) f t d = Ok (X ++ empty h ++ full xs ++ Y, (d - length xs)%nat).
  Proof.
    intros Hh -> -> ->. unfold move_backward.
    replace (S (length X + length xs - length X)) with (S (length xs)) by lia.
    revert Y. induction xs as [|x xs IH] using rev_ind; intros Y.
    - simpl. rewrite decide_False by lia. simpl. do 2 f_equal. lia.
    - rewrite app_length. simpl length. replace (S (length xs + 1)) with (S (S (length xs))) by lia.
      rewrite loop_S. rewrite decide_True by lia.
      replace (length X + (length xs + 1) + h)%nat with (S (length X + length xs + h)) by lia.
      replace (length X + (length xs + 1))%nat with (S (length X + length xs)) by lia. cbn [decr rbind].
      destruct h as [|h]; [lia|].
      replace (X ++ full (xs ++ [x]) ++ replicate (S h) None ++ Y)
        with ((X ++ full xs) ++ Some x :: replicate h None ++ None :: Y)
        by (rewrite replicate_snoc_cons, full_app, <-!app_assoc; done).
      rewrite (mvto_up (X ++ full xs) None (empty h) x Y) by len. cbn [rbind].
      assert (E : (X ++ full xs) ++ None :: replicate h None ++ Some x :: Y =
              X ++ full xs ++ replicate (S h) None ++ Some x :: Y).
      { by rewrite <-app_assoc. }
      rewrite E, IH. rewrite full_app, <-!app_assoc. simpl. f_equal. f_equal. lia.
  Qed.

  (** moving between two arrays *)
  Lemma xmove_n_ok xs X Y U W Z s d : length W = length xs -> s = length X -> d = length U ->
    xmove_n (length xs) (X ++ full xs ++ Y) (U ++ W ++ Z) s d =
      Ok (X ++ empty (length xs) ++ Y, U ++ full xs ++ Z, (d + length xs)%nat).
  Proof.
    revert X U W s d. induction xs as [|x xs IH]; intros X U W s d HW -> ->; simpl xmove_n.
    - destruct W; [|done]. simpl. by rewrite Nat.add_0_r.
    - destruct W as [|w W]; [done|]. simpl in HW. rewrite full_cons. simpl app.
      rewrite mv_mid by done. simpl. rewrite wr_mid by done. simpl.
      pose proof (IH (X ++ [None]) (U ++ [Some x]) W (S (length X)) (S (length U))) as E.
      rewrite <-!app_assoc in E. simpl in E. rewrite E by len. f_equal. f_equal. len.
  Qed.

  Lemma xmove_ok xs X Y U W Z s e d : length W = length xs -> s = length X -> e = (s + length xs)%nat -> d = length U ->
    xmove (X ++ full xs ++ Y) s e (U ++ W ++ Z) d =
      Ok (X ++ empty (length xs) ++ Y, U ++ full xs ++ Z, (d + length xs)%nat).
  Proof. intros HW -> -> ->. unfold xmove. replace (_ - _)%nat with (length xs) by lia. by apply xmove_n_ok. Qed.

  (** reverse *)
  Lemma reverse_ok xs X Y f t : f = length X -> t = (length X + length xs)%nat ->
    reverse (X ++ full xs ++ Y) f t = Ok (X ++ full (rev xs) ++ Y).
  Proof.
    intros -> ->. unfold reverse.
    replace (length X + length xs - length X)%nat with (length xs) by lia.
    remember (S (length xs)) as fuel eqn:Ef. assert (Hf : (length xs < fuel)%nat) by lia. clear Ef.
    revert xs X Y Hf. induction fuel as [|fuel IH]; intros xs X Y Hf; [lia|]. cbn [loop].
    destruct xs as [|x xs].
    { rewrite decide_False by len. simpl. done. }
    rewrite decide_True by len.
    replace (length X + length (x :: xs))%nat with (S (length X + length xs)) by len. cbn [decr rbind].
    destruct (decide (xs = [])) as [->|Hne].
    { rewrite decide_False by len. done. }
    destruct (exists_last Hne) as (m & y & ->). rewrite decide_True by len.
    rewrite full_cons, full_app. simpl (full [y]).
    replace (X ++ (Some x :: full m ++ [Some y]) ++ Y) with (X ++ Some x :: full m ++ Some y :: Y)
      by (by rewrite <-app_comm_cons, <-app_assoc).
    rewrite swp_mid by len. cbn [rbind].
    specialize (IH m (X ++ [Some y]) (Some x :: Y)).
    replace (length (X ++ [Some y])) with (S (length X)) in IH by len.
    replace (length X + length (m ++ [y]))%nat with (S (length X) + length m)%nat by len.
    replace (X ++ Some y :: full m ++ Some x :: Y) with ((X ++ [Some y]) ++ full m ++ Some x :: Y)
      by (by rewrite <-app_assoc).
    rewrite IH by len.
    f_equal. rewrite <-app_assoc. f_equal. simpl. rewrite rev_app_distr. simpl.
    f_equal. rewrite full_app, <-app_assoc. done.
  Qed.

  Lemma rus_ok A1 B1 X Y f t s :
    f = length X -> s = (length X + length A1)%nat -> t = (length X + length A1 + length B1)%nat ->
    exists k xs M ys, A1 ++ B1 = xs ++ M ++ ys /\ length xs = k /\ length ys = k /\ k = min (length A1) (length B1) /\
    reverse_until_sentinel (X ++ full (A1 ++ B1) ++ Y) f s t =
      Ok (X ++ full (rev ys) ++ full M ++ full (rev xs) ++ Y, (f + k)%nat, (t - k)%nat).
  Proof.
    intros -> -> ->. unfold reverse_until_sentinel.
    remember (S (length X + length A1 + length B1 - length X)) as fuel eqn:Ef.
    assert (Hf : (length A1 + length B1 < fuel)%nat) by lia. clear Ef.
    revert A1 B1 X Y Hf. induction fuel as [|fuel IH]; intros A1 B1 X Y Hf; [lia|]. cbn [loop].
    destruct A1 as [|x A1].
    { rewrite decide_False by (intros [? ?]; len). exists 0%nat, [], B1, []. rewrite app_nil_r.
      split; [done|]. split; [done|]. split; [done|]. split; [done|]. simpl. do 3 f_equal; lia. }
    destruct (decide (B1 = [])) as [->|Hne].
    { rewrite decide_False by (intros [? ?]; len). exists 0%nat, [], (x :: A1), []. rewrite !app_nil_r.
      split; [done|]. split; [done|]. split; [done|]. split; [len|]. simpl. do 3 f_equal; lia. }
    destruct (exists_last Hne) as (B2 & y & ->).
    rewrite decide_True by len.
    replace (length X + length (x :: A1) + length (B2 ++ [y]))%nat with (S (length X + S (length A1) + length B2)) by len.
    cbn [decr rbind].
    replace (X ++ full ((x :: A1) ++ B2 ++ [y]) ++ Y) with (X ++ Some x :: full (A1 ++ B2) ++ Some y :: Y).
    2: { simpl. f_equal. rewrite app_assoc, (full_app (A1 ++ B2)), <-app_assoc. done. }
    rewrite swp_mid by len. cbn [rbind].
    destruct (IH A1 B2 (X ++ [Some y]) (Some x :: Y)) as (k & xs & M & ys & E1 & E2 & E3 & E4 & E5); [len|].
    exists (S k), (x :: xs), M, (ys ++ [y]).
    split. { simpl. rewrite app_assoc, E1. by rewrite <-!app_assoc. }
    split; [len|]. split; [len|]. split; [len|].
    replace (X ++ Some y :: full (A1 ++ B2) ++ Some x :: Y) with ((X ++ [Some y]) ++ full (A1 ++ B2) ++ Some x :: Y)
      by (by rewrite <-app_assoc).
    replace (S (length X)) with (length (X ++ [Some y])) by len.
    replace (length X + length (x :: A1))%nat with (length (X ++ [Some y]) + length A1)%nat by len.
    replace (length X + S (length A1) + length B2)%nat with (length (X ++ [Some y]) + length A1 + length B2)%nat by len.
    rewrite E5. eq3.
    - rewrite rev_app_distr. cbn [rev]. rewrite !full_app, <-!app_assoc. done.
    - len.
    - len.
  Qed.

  Lemma rotate_ok A1 B1 X Y f m t : f = length X -> m = (f + length A1)%nat -> t = (m + length B1)%nat ->
    rotate (X ++ full A1 ++ full B1 ++ Y) f m t = Ok (X ++ full B1 ++ full A1 ++ Y, (f + length B1)%nat).
  Proof.
    intros -> -> ->. unfold rotate. case_decide as H1; [|case_decide as H2].
    - destruct A1; [|simpl in H1; lia]. simpl. f_equal. f_equal. lia.
    - destruct B1; [|simpl in H2; lia]. simpl. f_equal. f_equal. lia.
    - rewrite reverse_ok by len. cbn [rbind].
      rewrite app_assoc, (reverse_ok B1 (X ++ full (rev A1))) by len. cbn [rbind].
      rewrite <-app_assoc, (app_assoc (full (rev A1))), <-full_app.
      rewrite reverse_ok by len. cbn [rbind].
      rewrite rev_app_distr, !rev_involutive, full_app, <-app_assoc. f_equal. f_equal. lia.
  Qed.

  Lemma rotate_bidi_ok A1 B1 X Y f m t : f = length X -> m = (f + length A1)%nat -> t = (m + length B1)%nat ->
    rotate_bidi (X ++ full A1 ++ full B1 ++ Y) f m t = Ok (X ++ full B1 ++ full A1 ++ Y, (f + length B1)%nat).
  Proof.
    intros -> -> ->. unfold rotate_bidi. case_decide as H1; [|case_decide as H2].
    - destruct A1; [|simpl in H1; lia]. simpl. f_equal. f_equal. lia.
    - destruct B1; [|simpl in H2; lia]. simpl. f_equal. f_equal. lia.
    - rewrite reverse_ok by len. cbn [rbind].
      rewrite app_assoc, (reverse_ok B1 (X ++ full (rev A1))) by len. cbn [rbind].
      rewrite <-app_assoc, (app_assoc (full (rev A1))), <-full_app.
      edestruct (rus_ok (rev A1) (rev B1) X Y) as (k & xs & M & ys & E1 & E2 & E3 & E4 & E5); [done|done|done|].
      rewrite !rev_length in E5. rewrite E5. cbn [rbind].
      assert (EL : length (rev A1 ++ rev B1) = (k + length M + k)%nat) by (rewrite E1; len).
      rewrite app_assoc, (reverse_ok M (X ++ full (rev ys))) by len. cbn [rbind].
      rewrite <-app_assoc. f_equal. f_equal.
      + f_equal. rewrite !app_assoc. f_equal. rewrite <-!full_app. f_equal.
        rewrite <-app_assoc, <-!rev_app_distr, <-app_assoc, <-E1, rev_app_distr, !rev_involutive. done.
      + case_decide; len.
  Qed.

  (** forward rotate *)
  Lemma rotate_cycle_ok U W X Y f m t :
    f = length X -> m = (f + length U)%nat -> t = (m + length W)%nat -> U <> [] -> W <> [] ->
    exists U' V', wp (rotate_cycle (X ++ full U ++ full W ++ Y) f m t)
      (fun r => r = (X ++ full W ++ full U' ++ full V' ++ Y, (f + length W)%nat, (f + length W + length U')%nat)) /\
      V' ++ U' = U /\ U' <> [].
  Proof.
    intros Ef Em Et HU HW.
    (* generalised to a middle block V *)
    assert (G : forall fuel U V W X, (length W <= fuel)%nat -> U <> [] -> W <> [] -> exists U' V',
      wp (loop fuel (fun '(a, first, mid, next) =>
         a <~ swp a first next ;;
         let first := S first in
         let next := S next in
         let mid := if decide (first = mid) then next else mid in
         if decide (next <> (length X + length U + length V + length W)%nat) then Ok (inl (a, first, mid, next))
         else Ok (inr (a, first, mid)))
       (X ++ full U ++ full V ++ full W ++ Y, length X, length X + length U, length X + length U + length V)%nat)
       (fun r => r = (X ++ full W ++ full U' ++ full V' ++ Y, (length X + length W)%nat, (length X + length W + length U')%nat))
       /\ V' ++ U' = V ++ U /\ U' <> []).
    { clear. intros fuel. induction fuel as [|fuel IH]; intros U V W X Hf HU HW.
      { destruct W; [done|simpl in Hf; lia]. }
      destruct U as [|u U]; [done|]. destruct W as [|w W]; [done|]. cbn [loop].
      assert (Es : swp (X ++ full (u :: U) ++ full V ++ full (w :: W) ++ Y) (length X) (length X + length (u :: U) + length V) =
        Ok (X ++ Some w :: (full U ++ full V) ++ Some u :: full W ++ Y)).
      { rewrite !full_cons. rewrite <-!app_comm_cons.
        rewrite (app_assoc (full U)). apply swp_mid; len. }
      rewrite Es. cbn [rbind]. cbv zeta.
      destruct (decide (W = [])) as [->|HW'].
      - rewrite (decide_False (P := S _ <> _)) by len. cbn [rbind].
        destruct (decide (S (length X) = (length X + length (u :: U))%nat)) as [Hd|Hd].
        + destruct U; [|simpl in Hd; lia]. exists (V ++ [u]), []. split; [|split].
          * cbn [wp]. eq3; [|len|len].
            rewrite full_app. simpl. by rewrite <-app_assoc.
          * done.
          * by destruct V.
        + exists U, (V ++ [u]). split; [|split].
          * cbn [wp]. eq3; [|len|len].
            rewrite full_app. simpl. by rewrite <-!app_assoc.
          * by rewrite <-app_assoc.
          * destruct U; [simpl in Hd; lia|done].
      - rewrite (decide_True (P := S _ <> _)); cycle 1.
        { destruct W; [done|]. len. }
        cbn [rbind].
        destruct (decide (S (length X) = (length X + length (u :: U))%nat)) as [Hd|Hd].
        + destruct U; [|simpl in Hd; lia].
          destruct (IH (V ++ [u]) [] W (X ++ [Some w])) as (U' & V' & Hwp & E & HU'); [simpl in Hf; lia|by destruct V|done|].
          exists U', V'. split; [|split; [by rewrite E|done]].
          match goal with H : wp (loop _ ?b1 ?s1) _ |- wp (loop _ ?b2 ?s2) _ => replace s2 with s1; [replace b2 with b1|] end.
          * eapply wp_mono; [exact Hwp|]. intros r ->. eq3; [|len|len].
            rewrite <-app_assoc. done.
          * replace (length (X ++ [Some w]) + length (V ++ [u]) + length (@nil A) + length W)%nat
              with (length X + length [u] + length V + length (w :: W))%nat by len. done.
          * f_equal; [f_equal; [f_equal|]|]; [|len|len|len].
            rewrite full_app, <-!app_assoc. done.
        + destruct (IH U (V ++ [u]) W (X ++ [Some w])) as (U' & V' & Hwp & E & HU'); [simpl in Hf; lia| |done|].
          { destruct U; [simpl in Hd; lia|done]. }
          exists U', V'. split; [|split; [rewrite E, <-app_assoc; done|done]].
          match goal with H : wp (loop _ ?b1 ?s1) _ |- wp (loop _ ?b2 ?s2) _ => replace s2 with s1; [replace b2 with b1|] end.
          * eapply wp_mono; [exact Hwp|]. intros r ->. eq3; [|len|len].
            rewrite <-app_assoc. done.
          * replace (length (X ++ [Some w]) + length U + length (V ++ [u]) + length W)%nat
              with (length X + length (u :: U) + length V + length (w :: W))%nat by len. done.
          * f_equal; [f_equal; [f_equal|]|]; [|len|len|len].
            rewrite full_app, <-!app_assoc. done. }
    destruct (G (S (t - f)) U [] W X) as (U' & V' & Hwp & E & HU'); [lia|done|done|].
    exists U', V'. subst f m t. simpl in Hwp. rewrite !Nat.add_0_r in Hwp. split; [exact Hwp|].
    split; [done|done].
  Qed.

  Lemma rotate_fwd_ok A1 B1 X Y f m t : f = length X -> m = (f + length A1)%nat -> t = (m + length B1)%nat ->
    rotate_fwd (X ++ full A1 ++ full B1 ++ Y) f m t = Ok (X ++ full B1 ++ full A1 ++ Y, (f + length B1)%nat).
  Proof.
    intros Ef Em Et. unfold rotate_fwd. case_decide as H1; [|case_decide as H2].
    - destruct A1; [|simpl in *; lia]. simpl. f_equal. f_equal. simpl in *. lia.
    - destruct B1; [|simpl in *; lia]. simpl. f_equal. f_equal. simpl in *. lia.
    - destruct (rotate_cycle_ok A1 B1 X Y f m t) as (U & V & Hwp & EV & HU); try done.
      { intros ->. simpl in *. lia. } { intros ->. simpl in *. lia. }
      destruct (wp_exists _ _ Hwp) as (r & -> & ->). cbn [rbind].
      assert (EL : (length V + length U = length A1)%nat) by (rewrite <-EV; len).
      cut (loop (S (t - (f + length B1))) (fun '(a, first, mid) =>
                if decide (mid <> t) then
                  '(a, first, mid) <~ rotate_cycle a first mid t ;; Ok (inl (a, first, mid))
                else Ok (inr a))
             ((X ++ full B1) ++ full U ++ full V ++ Y, length (X ++ full B1), (length (X ++ full B1) + length U)%nat)
           = Ok ((X ++ full B1) ++ full V ++ full U ++ Y)).
      { intros E. rewrite app_length, full_length, <-Ef, <-app_assoc in E. rewrite E. cbn [rbind].
        f_equal. f_equal. rewrite <-app_assoc. f_equal. f_equal. rewrite app_assoc, <-full_app, EV. done. }
      assert (Ht : t = (length (X ++ full B1) + length U + length V)%nat) by (rewrite app_length, full_length; lia).
      assert (Hfuel : (length U + length V < S (t - (f + length B1)))%nat) by (rewrite app_length, full_length in Ht; lia).
      remember (S (t - (f + length B1))) as fuel eqn:Efu. clear Efu.
      remember (X ++ full B1) as Z eqn:EZ.
      clear -Ht Hfuel HU. revert U V Z Ht Hfuel HU.
      induction fuel as [|fuel IH]; intros U V Z Ht Hfuel HU; [lia|]. cbn [loop].
      destruct (decide (V = [])) as [->|HV].
      { rewrite decide_False by len. simpl. done. }
      rewrite decide_True by (destruct V; [done|len]).
      destruct (rotate_cycle_ok U V Z Y (length Z) (length Z + length U)%nat t) as (U' & V' & Hwp & E & HU'); try done; try lia.
      destruct (wp_exists _ _ Hwp) as (r & -> & ->). cbn [rbind].
      assert (EL : (length V' + length U' = length U)%nat) by (rewrite <-E; len).
      replace (Z ++ full V ++ full U' ++ full V' ++ Y) with ((Z ++ full V) ++ full U' ++ full V' ++ Y) by (by rewrite <-app_assoc).
      replace (length Z + length V)%nat with (length (Z ++ full V)) by len.
      rewrite IH; [|len|destruct V; [done|simpl in Hfuel; lia]|done].
      f_equal. rewrite <-app_assoc. f_equal. f_equal. rewrite app_assoc, <-full_app, E. done.
  Qed.

  (** general moves described by lookups *)
  Lemma move_n_gen n a s d : (d < s)%nat -> (forall i, (s <= i < s + n)%nat -> exists x, a !! i = Some (Some x)) ->
    wp (move_n n a s d) (fun '(a', e) => e = (d + n)%nat /\ length a' = length a /\
      (forall i, (i < n)%nat -> a' !! (d + i)%nat = a !! (s + i)%nat) /\
      (forall i, (i < d \/ s + n <= i)%nat -> a' !! i = a !! i)).
  Proof.
    revert a s d. induction n as [|n IH]; intros a s d Hd Ha; simpl move_n.
    - apply wp_ok. split; [lia|]. split; [done|]. split; [intros; lia|done].
    - destruct (Ha s) as [x Hx]; [lia|]. pose proof (lookup_lt_Some _ _ _ Hx) as Hs.
      unfold mvto. rewrite decide_False by lia. unfold mv, rd. rewrite Hx. cbn [rbind].
      unfold wr. rewrite decide_True by len. cbn [rbind].
      assert (HL : forall i, i <> d -> i <> s -> <[d:=Some x]> (<[s:=None]> a) !! i = a !! i).
      { intros i ??. rewrite !list_lookup_insert_ne by lia. done. }
      eapply wp_mono; [apply IH; [lia|]|].
      { intros i Hi. rewrite HL by lia. apply Ha. lia. }
      intros [a' e] (-> & Hl & H1 & H2). split; [lia|]. split; [by rewrite Hl, !insert_length|]. split.
      + intros i Hi. destruct i as [|i].
        * rewrite Nat.add_0_r, H2 by lia. rewrite list_lookup_insert by len. by rewrite Nat.add_0_r.
        * replace (d + S i)%nat with (S d + i)%nat by lia. rewrite H1 by lia. rewrite HL by lia. f_equal. lia.
      + intros i Hi. rewrite H2 by lia. apply HL; lia.
  Qed.

  Lemma move_backward_gen a f t d : (f <= t)%nat -> (t < d)%nat -> (d <= length a)%nat ->
    (forall i, (f <= i < t)%nat -> exists x, a !! i = Some (Some x)) ->
    wp (move_backward a f t d) (fun '(a', e) => e = (d - (t - f))%nat /\ length a' = length a /\
      (forall i, (f <= i < t)%nat -> a' !! (i + (d - t))%nat = a !! i) /\
      (forall i, (i < f \/ d <= i)%nat -> a' !! i = a !! i)).
  Proof.
    intros Hft Htd Hda Ha. unfold move_backward.
    apply (wp_loop (fun '(b, t', d') => (f <= t' <= t)%nat /\ (d' = t' + (d - t))%nat /\ length b = length a /\
      (forall i, (t' <= i < t)%nat -> b !! (i + (d - t))%nat = a !! i) /\
      (forall i, (i < t' \/ d <= i)%nat -> b !! i = a !! i)) (fun '(b, t', d') => t' - f)%nat).
    - intros [[b t'] d'] (H1 & -> & H3 & H4 & H5). case_decide as Hne.
      + destruct t' as [|t']; [lia|]. replace (S t' + (d - t))%nat with (S (t' + (d - t))) by lia. cbn [decr rbind].
        destruct (Ha t') as [x Hx]; [lia|]. rewrite <-H5 in Hx by lia.
        unfold mvto. rewrite decide_False by lia. unfold mv, rd. rewrite Hx. cbn [rbind].
        unfold wr. rewrite decide_True by len. cbn [rbind]. apply wp_ok. split; [|lia].
        split; [lia|]. split; [lia|]. split; [len|]. split.
        * intros i Hi. destruct (decide (i = t')) as [->|].
          -- rewrite list_lookup_insert by len. rewrite <-Hx. apply H5. lia.
          -- rewrite !list_lookup_insert_ne by lia. apply H4. lia.
        * intros i Hi. rewrite !list_lookup_insert_ne by lia. apply H5. lia.
      + assert (t' = f) as -> by lia. apply wp_ok. split; [lia|]. split; [done|]. split; [done|].
        intros i Hi. apply H5. lia.
    - split; [lia|]. split; [lia|]. split; [done|]. split; [intros; lia|done].
    - lia.
  Qed.
End rotate.
