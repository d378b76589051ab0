From stdpp Require Import base list numbers.
From Coq Require Import Lia ZifyNat.
From Verif Require Import Base.Res Base.Order Base.OrderLemmas Base.Stable Base.Arr Base.Cells
  Alg.SortModel Alg.SortProofs Alg.SearchModel Alg.SearchSpec Alg.SearchProofs
  Alg.RotateModel Alg.RotateProofs Alg.MergeModel Alg.MergeSpec.
Ltac Zify.zify_post_hook ::= Z.div_mod_to_equations.
Local Arguments full : simpl never.

Section merge.
  Context {A : Type} (lt : A -> A -> bool) (SW : StrictWeakOrder lt).
  Implicit Types (a X Y H U W Z : arr A) (l P Q r : list A).
  Notation steq := (stable_eq lt).
  Notation sorted := (sorted lt).
  Notation mergel := (mergel lt).

  (** copy_out, merge *)
  Lemma copy_out_ok xs X Y (n i : nat) out : n = length xs -> i = length X ->
    copy_out (X ++ full xs ++ Y) n i out = Ok (out ++ xs).
  Proof.
    intros -> ->. revert X out. induction xs as [|x xs IH]; intros X out; simpl.
    - by rewrite app_nil_r.
    - rewrite rd_mid by done. simpl.
      specialize (IH (X ++ [Some x]) (out ++ [x])). rewrite <-!app_assoc in IH. simpl in IH.
      replace (length (X ++ [Some x])) with (S (length X)) in IH by len. done.
  Qed.

  Lemma merge_ok r1 r2 X1 Y1 X2 Y2 (f1 e1 f2 e2 : nat) :
    f1 = length X1 -> e1 = (f1 + length r1)%nat -> f2 = length X2 -> e2 = (f2 + length r2)%nat ->
    merge lt (X1 ++ full r1 ++ Y1) f1 e1 (X2 ++ full r2 ++ Y2) f2 e2 = Ok (mergel r1 r2).
  Proof.
    intros -> -> -> ->. unfold merge.
    destruct (decide (r1 = [])) as [->|Hr1].
    { rewrite decide_False by len. cbn [rbind].
      rewrite (copy_out_ok [] X1 Y1) by len. cbn [rbind]. rewrite copy_out_ok by len. done. }
    destruct (decide (r2 = [])) as [->|Hr2].
    { rewrite decide_False by len. cbn [rbind].
      rewrite (copy_out_ok r1 X1 Y1) by len. cbn [rbind]. rewrite (copy_out_ok []) by len.
      by rewrite mergel_nil_r, app_nil_r. }
    rewrite decide_True by (split; [destruct r1; [done|len]|destruct r2; [done|len]]).
    assert (G : forall fuel r1 r2 X1 X2 out, r1 <> [] -> r2 <> [] -> (length r1 + length r2 <= fuel)%nat ->
      exists s1 s2 X1' X2' out', loop fuel
           (fun '(first1, first2, out) =>
              y <~ rd (X2 ++ full r2 ++ Y2) first2 ;;
              x <~ rd (X1 ++ full r1 ++ Y1) first1 ;;
              if lt y x then
                let out := out ++ [y] in
                let first2 := S first2 in
                if decide (first2 = length X2 + length r2)%nat then Ok (inr (first1, first2, out)) else Ok (inl (first1, first2, out))
              else
                let out := out ++ [x] in
                let first1 := S first1 in
                if decide (first1 = length X1 + length r1)%nat then Ok (inr (first1, first2, out)) else Ok (inl (first1, first2, out)))
           (length X1, length X2, out) = Ok (length X1', length X2', out') /\
        X1 ++ full r1 = X1' ++ full s1 /\ X2 ++ full r2 = X2' ++ full s2 /\ out' ++ mergel s1 s2 = out ++ mergel r1 r2 /\
        (s1 = [] \/ s2 = [])).
    { clear. intros fuel. induction fuel as [|fuel IH]; intros r1 r2 X1 X2 out Hr1 Hr2 Hf.
      { destruct r1; [done|simpl in Hf; lia]. }
      destruct r1 as [|x r1]; [done|]. destruct r2 as [|y r2]; [done|]. rewrite loop_S.
      rewrite !full_cons, <-!app_comm_cons, !rd_mid by done. cbn [rbind]. cbv zeta.
      destruct (lt y x) eqn:E.
      - destruct (decide (r2 = [])) as [->|Hne].
        + rewrite decide_True by len. cbn [rbind].
          exists (x :: r1), [], X1, (X2 ++ [Some y]), (out ++ [y]). split; [do 3 f_equal; len|].
          split; [done|]. split; [by rewrite <-app_assoc|]. split; [|by right].
          rewrite mergel_lt, mergel_nil_r, <-app_assoc by done. done.
        + rewrite decide_False by (destruct r2; [done|len]). cbn [rbind].
          destruct (IH (x :: r1) r2 X1 (X2 ++ [Some y]) (out ++ [y])) as (s1 & s2 & X1' & X2' & out' & E1 & E2 & E3 & E4 & E5);
            [done|done|simpl in *; lia|].
          exists s1, s2, X1', X2', out'. split.
          { rewrite <-E1. rewrite <-!app_assoc.
            replace (length (X2 ++ [Some y])) with (S (length X2)) by len. f_equal. simpl.
            replace (S (length X2 + length r2)) with (length X2 + S (length r2))%nat by lia. done. }
          split; [done|]. split; [rewrite <-E3, <-app_assoc; done|]. split; [|done].
          rewrite E4, mergel_lt, <-app_assoc by done. done.
      - destruct (decide (r1 = [])) as [->|Hne].
        + rewrite decide_True by len. cbn [rbind].
          exists [], (y :: r2), (X1 ++ [Some x]), X2, (out ++ [x]). split; [do 3 f_equal; len|].
          split; [by rewrite <-app_assoc|]. split; [done|]. split; [|by left].
          rewrite mergel_ge, <-app_assoc by done. done.
        + rewrite decide_False by (destruct r1; [done|len]). cbn [rbind].
          destruct (IH r1 (y :: r2) (X1 ++ [Some x]) X2 (out ++ [x])) as (s1 & s2 & X1' & X2' & out' & E1 & E2 & E3 & E4 & E5);
            [done|done|simpl in *; lia|].
          exists s1, s2, X1', X2', out'. split.
          { rewrite <-E1. rewrite <-!app_assoc.
            replace (length (X1 ++ [Some x])) with (S (length X1)) by len. f_equal. simpl.
            replace (S (length X1 + length r1)) with (length X1 + S (length r1))%nat by lia. done. }
          split; [rewrite <-E2, <-app_assoc; done|]. split; [done|]. split; [|done].
          rewrite E4, mergel_ge, <-app_assoc by done. done. }
    destruct (G (S (length X1 + length r1 - length X1 + (length X2 + length r2 - length X2))) r1 r2 X1 X2 [])
      as (s1 & s2 & X1' & X2' & out' & E1 & E2 & E3 & E4 & E5); [done|done|lia|].
    match type of E1 with ?lhs = _ => match goal with |- rbind ?m _ = _ => change m with lhs end end.
    rewrite E1. cbn [rbind].
    rewrite !app_assoc, E2, E3, <-!app_assoc.
    pose proof (f_equal length E2). pose proof (f_equal length E3).
    rewrite !app_length, !full_length in *.
    rewrite (copy_out_ok s1 X1') by lia. cbn [rbind]. rewrite (copy_out_ok s2 X2') by lia.
    f_equal. rewrite <-app_assoc. simpl in E4. rewrite <-E4. f_equal.
    destruct E5 as [-> | ->]; [done|]. by rewrite mergel_nil_r, app_nil_r.
  Qed.

  (** merge_move *)
  Lemma merge_move_ok r1 r2 X Y U W Z (f m t d : nat) : r1 <> [] -> r2 <> [] ->
    length W = (length r1 + length r2)%nat -> f = length X -> m = (f + length r1)%nat -> t = (m + length r2)%nat -> d = length U ->
    merge_move lt (X ++ full r1 ++ full r2 ++ Y) f m t (U ++ W ++ Z) d =
      Ok (X ++ empty (length r1 + length r2) ++ Y, U ++ full (mergel r1 r2) ++ Z, (d + length W)%nat).
  Proof.
    intros Hr1 Hr2 HW -> -> -> ->. unfold merge_move.
    assert (G : forall fuel r1 r2 X H U W, r1 <> [] -> r2 <> [] -> (length r1 + length r2 <= fuel)%nat -> 
      length W = (length r1 + length r2)%nat ->
      forall m t n, m = (length X + length r1)%nat -> n = (m + length H)%nat -> t = (n + length r2)%nat ->
      loop fuel
      (fun '(src, dst, first, next, dest) =>
         y <~ rd src next ;;
         x <~ rd src first ;;
         if lt y x then
           '(v, src) <~ mv src next ;;
           dst <~ wr dst dest v ;;
           let dest := S dest in
           let next := S next in
           if decide (next = t) then
             '(src, dst, dest) <~ xmove src first m dst dest ;;
             Ok (inr (src, dst, dest))
           else Ok (inl (src, dst, first, next, dest))
         else
           '(v, src) <~ mv src first ;;
           dst <~ wr dst dest v ;;
           let dest := S dest in
           let first := S first in
           if decide (first = m) then
             '(src, dst, dest) <~ xmove src next t dst dest ;;
             Ok (inr (src, dst, dest))
           else Ok (inl (src, dst, first, next, dest)))
      (X ++ full r1 ++ H ++ full r2 ++ Y, U ++ W ++ Z, length X, n, length U) =
      Ok (X ++ empty (length r1) ++ H ++ empty (length r2) ++ Y, U ++ full (mergel r1 r2) ++ Z, (length U + length W)%nat)).
    { clear. intros fuel. induction fuel as [|fuel IH]; intros r1 r2 X H U W Hr1 Hr2 Hf HW m t n Em En Et.
      { destruct r1; [done|simpl in Hf; lia]. }
      destruct r1 as [|x r1]; [done|]. destruct r2 as [|y r2]; [done|]. rewrite loop_S.
      destruct W as [|w W]; [simpl in HW; lia|].
      assert (Ey : rd (X ++ full (x :: r1) ++ H ++ full (y :: r2) ++ Y) n = Ok y).
      { rewrite (full_cons y), <-app_comm_cons, !app_assoc. apply rd_mid. len. }
      rewrite Ey. cbn [rbind].
      rewrite (full_cons x r1) at 1. rewrite <-app_comm_cons, rd_mid by done. cbn [rbind].
      destruct (lt y x) eqn:E.
      - assert (Emv : mv (X ++ full (x :: r1) ++ H ++ full (y :: r2) ++ Y) n = Ok (y, X ++ full (x :: r1) ++ (H ++ [None]) ++ full r2 ++ Y)).
        { rewrite (full_cons y), <-!app_comm_cons, !app_assoc, mv_mid by len. rewrite <-!app_assoc. done. }
        rewrite Emv. cbn [rbind]. rewrite <-app_comm_cons, wr_mid by done. cbn [rbind]. cbv zeta.
        destruct (decide (r2 = [])) as [->|Hne].
        + rewrite decide_True by len.
          assert (Em' : m = (length X + length (x :: r1))%nat) by lia.
          replace (U ++ Some y :: W ++ Z) with ((U ++ [Some y]) ++ W ++ Z) by (by rewrite <-app_assoc).
          rewrite xmove_ok by (simpl in *; len). cbn [rbind].
          rewrite mergel_lt, mergel_nil_r, full_cons, <-!app_assoc by done. eq3; [done|done|].
          simpl in *. lia.
        + rewrite decide_False by (destruct r2; [done|len]). cbn [rbind].
          replace (U ++ Some y :: W ++ Z) with ((U ++ [Some y]) ++ W ++ Z) by (by rewrite <-app_assoc).
          replace (S (length U)) with (length (U ++ [Some y])) by len.
          rewrite IH by (try done; simpl in *; len).
          rewrite mergel_lt, full_cons, <-!app_assoc by done. eq3; [done|done|simpl; len].
      - rewrite (full_cons x r1), <-!app_comm_cons, mv_mid by done. cbn [rbind]. rewrite wr_mid by done. cbn [rbind]. cbv zeta.
        destruct (decide (r1 = [])) as [->|Hne].
        + rewrite decide_True by len.
          replace (U ++ Some x :: W ++ Z) with ((U ++ [Some x]) ++ W ++ Z) by (by rewrite <-app_assoc).
          replace (X ++ None :: full [] ++ H ++ full (y :: r2) ++ Y) with ((X ++ None :: H) ++ full (y :: r2) ++ Y) by (by rewrite <-app_assoc).
          rewrite xmove_ok by (simpl in *; len). cbn [rbind].
          rewrite mergel_ge, full_cons, <-!app_assoc by done. eq3; [done|done|].
          simpl in *. lia.
        + rewrite decide_False by (destruct r1; [done|len]). cbn [rbind].
          replace (U ++ Some x :: W ++ Z) with ((U ++ [Some x]) ++ W ++ Z) by (by rewrite <-app_assoc).
          replace (S (length U)) with (length (U ++ [Some x])) by len.
          replace (S (length X)) with (length (X ++ [None])) by len.
          replace (X ++ None :: full r1 ++ H ++ full (y :: r2) ++ Y) with ((X ++ [None]) ++ full r1 ++ H ++ full (y :: r2) ++ Y) by (by rewrite <-app_assoc).
          rewrite IH by (try done; simpl in *; len).
          rewrite mergel_ge, full_cons, <-!app_assoc by done. eq3; [done|done|simpl; len]. }
    pose proof (G (S (length X + length r1 + length r2 - length X)) r1 r2 X [] U W Hr1 Hr2 ltac:(lia) HW
      (length X + length r1)%nat (length X + length r1 + length r2)%nat (length X + length r1)%nat eq_refl ltac:(simpl; lia) ltac:(lia)) as G'.
    simpl app in G'. etransitivity; [exact G'|]. eq3; [|done|done]. rewrite replicate_add, <-app_assoc. done.
  Qed.

  (** _Inplace_merge_buffer_left: [x :: r1 ++ [z]] against [y :: r2], where [y] is less than [x] and [z] is greater
      than all of [r2] (the callers' trimming loops establish this). *)
  Lemma buffer_left_ok x r1 z y r2 X Y W Z (f m t : nat) :
    f = length X -> m = (f + (2 + length r1))%nat -> t = (m + (1 + length r2))%nat -> length W = (2 + length r1)%nat ->
    r2 <> [] -> sorted r2 -> lt y x = true -> Forall (fun b => lt b z = true) r2 ->
    inplace_merge_buffer_left lt (X ++ full (x :: r1 ++ [z]) ++ full (y :: r2) ++ Y) (W ++ Z) f m t =
      Ok (X ++ full (mergel (x :: r1 ++ [z]) (y :: r2)) ++ Y, empty (2 + length r1) ++ Z).
  Proof.
    intros Ef Em Et HW Hr2 Hs Hyx Hz. unfold inplace_merge_buffer_left.
    pose proof (xmove_ok (x :: r1 ++ [z]) X (full (y :: r2) ++ Y) [] W Z f m 0%nat) as E.
    rewrite !app_nil_l in E. rewrite E by len. clear E. cbn [rbind].
    replace (0 + length (x :: r1 ++ [z]))%nat with (S (S (length r1))) by len.
    replace (length (x :: r1 ++ [z])) with (S (S (length r1))) by len.
    cbn [decr rbind].
    replace (X ++ empty (S (S (length r1))) ++ full (y :: r2) ++ Y)
      with (X ++ None :: empty (S (length r1)) ++ Some y :: full r2 ++ Y) by done.
    rewrite (mvto_down X None (empty (S (length r1))) y) by len. cbn [rbind].
    rewrite mergel_lt by done.
    match goal with |- loop _ ?b _ = _ => set (body := b) end.
    remember (S (length r1)) as LL eqn:ELL.
    assert (G : forall fuel r1 r2 X U, r1 <> [] -> r2 <> [] -> (length r1 + length r2 <= fuel)%nat ->
      LL = (length U + length r1)%nat -> t = (length X + S (length r1) + length r2)%nat -> sorted r2 ->
      Forall (fun b => lt b z = true) r2 -> 
      loop fuel body (X ++ empty (S (length r1)) ++ full r2 ++ Y, U ++ full (r1 ++ [z]) ++ Z, length X, (length X + S (length r1))%nat, length U) =
      Ok (X ++ full (mergel (r1 ++ [z]) r2) ++ Y, U ++ empty (S (length r1)) ++ Z)).
    { clear -SW. intros fuel. induction fuel as [|fuel IH]; intros r1 r2 X U Hr1 Hr2 Hf EL Et Hs Hz.
      { destruct r1; [done|simpl in Hf; lia]. }
      destruct r1 as [|x r1]; [done|]. destruct r2 as [|y r2]; [done|]. rewrite loop_S.
      unfold body at 1. rewrite <-app_comm_cons, !full_cons, <-!app_comm_cons.
      assert (E1 : rd (X ++ empty (S (length (x :: r1))) ++ Some y :: full r2 ++ Y) (length X + S (length (x :: r1))) = Ok y).
      { rewrite app_assoc. apply rd_mid. len. }
      rewrite E1. cbn [rbind]. rewrite rd_mid by done. cbn [rbind].
      apply sorted_cons in Hs as [Fs Hs]. inversion Hz as [|? ? Hz1 Hz2]; subst.
      destruct (lt y x) eqn:E.
      - cbn [replicate]. rewrite <-app_comm_cons. rewrite mvto_down by len. cbn [rbind]. cbv zeta.
        destruct (decide (r2 = [])) as [->|Hne].
        + rewrite decide_True by len.
          replace (X ++ Some y :: empty (length (x :: r1)) ++ None :: full [] ++ Y) with ((X ++ [Some y]) ++ empty (S (length (x :: r1))) ++ Y).
          2: { rewrite <-app_assoc. simpl. by rewrite replicate_snoc_cons. }
          replace (U ++ Some x :: full (r1 ++ [z]) ++ Z) with (U ++ full (x :: r1 ++ [z]) ++ Z) by done.
          rewrite xmove_ok by len. cbn [rbind]. rewrite mergel_lt, mergel_nil_r by done.
          replace (length (x :: r1 ++ [z])) with (S (length (x :: r1))) by len. rewrite <-app_assoc. done.
        + rewrite decide_False by (destruct r2; [done|len]). cbn [rbind].
          replace (X ++ Some y :: empty (length (x :: r1)) ++ None :: full r2 ++ Y) with ((X ++ [Some y]) ++ empty (S (length (x :: r1))) ++ full r2 ++ Y).
          2: { rewrite <-app_assoc. simpl. by rewrite replicate_snoc_cons. }
          replace (U ++ Some x :: full (r1 ++ [z]) ++ Z) with (U ++ full ((x :: r1) ++ [z]) ++ Z) by done.
          replace (S (length X)) with (length (X ++ [Some y])) by len.
          replace (S (length X + S (length (x :: r1)))) with (length (X ++ [Some y]) + S (length (x :: r1)))%nat by len.
          rewrite IH; [|done|done|simpl in *; lia|done|len|done|done].
          rewrite mergel_lt, <-app_assoc by done. done.
      - rewrite mv_mid by done. cbn [rbind]. cbn [replicate]. rewrite <-app_comm_cons, wr_mid by done. cbn [rbind]. cbv zeta.
        destruct (decide (r1 = [])) as [->|Hne].
        + rewrite decide_True by len. unfold move_unchecked.
          replace (length X + S (length [x]) + length (y :: r2) - (length X + S (length [x])))%nat with (length (y :: r2)) by lia.
          cbn [app].
          assert (E2 : move_n (length (y :: r2)) (X ++ Some x :: empty (length [x]) ++ Some y :: full r2 ++ Y)
             (length X + S (length [x])) (S (length X)) = Ok (X ++ Some x :: Some y :: full r2 ++ None :: Y, (S (length X) + length (y :: r2))%nat)).
          { pose proof (move_n_down 1 (y :: r2) (X ++ [Some x]) Y (length X + S (length [x])) (S (length X))) as E2.
            rewrite <-!app_assoc in E2. apply E2; len. }
          rewrite E2. cbn [rbind]. change (full [z] ++ Z) with (Some z :: Z).
          assert (E3 : mv (U ++ None :: Some z :: Z) (length U + length [x]) = Ok (z, U ++ None :: None :: Z)).
          { replace (U ++ None :: Some z :: Z) with ((U ++ [None]) ++ Some z :: Z) by (by rewrite <-app_assoc).
            rewrite mv_mid by len. by rewrite <-app_assoc. }
          rewrite E3. cbn [rbind].
          replace (X ++ Some x :: Some y :: full r2 ++ None :: Y) with ((X ++ Some x :: Some y :: full r2) ++ None :: Y) by (by rewrite <-app_assoc).
          rewrite wr_mid by len. cbn [rbind]. rewrite mergel_ge by done. cbn [app].
          rewrite (mergel_above lt SW [z]); [| |by apply sorted_cons|].
          * rewrite full_cons, <-app_comm_cons, full_app, <-!app_assoc. simpl. done.
          * apply sorted_cons. split; [constructor|apply sorted_nil].
          * intros p q ->%elem_of_list_singleton Hq. rewrite list.Forall_forall in Hz. by apply Hz.
        + rewrite decide_False by (destruct r1; [done|len]). cbn [rbind].
          replace (X ++ Some x :: empty (length (x :: r1)) ++ Some y :: full r2 ++ Y)
            with ((X ++ [Some x]) ++ empty (S (length r1)) ++ full (y :: r2) ++ Y) by (by rewrite <-app_assoc).
          replace (U ++ None :: full (r1 ++ [z]) ++ Z) with ((U ++ [None]) ++ full (r1 ++ [z]) ++ Z) by (by rewrite <-app_assoc).
          replace (S (length X)) with (length (X ++ [Some x])) by len.
          replace (S (length U)) with (length (U ++ [@None A])) by len.
          replace (length X + S (length (x :: r1)))%nat with (length (X ++ [Some x]) + S (length r1))%nat by len.
          rewrite IH; [|done|done|simpl in *; lia|len|len|by apply sorted_cons|done].
          rewrite mergel_ge, <-!app_assoc by done. done. }
    specialize (G (S (t - f)) (x :: r1) r2 (X ++ [Some y]) []).
    rewrite <-!app_assoc in G. rewrite ?app_nil_l in G. cbn [app] in G.
    replace (X ++ Some y :: replicate LL None ++ None :: full r2 ++ Y) with (X ++ Some y :: replicate (S (length (x :: r1))) None ++ full r2 ++ Y).
    2: { simpl. by rewrite replicate_snoc_cons, ELL. }
    replace (S f) with (length (X ++ [Some y])) by len.
    replace (S m) with (length (X ++ [Some y]) + S (length (x :: r1)))%nat by len.
    etransitivity; [apply G; [done|done|len|simpl; lia|len|done|done]|].
    by rewrite full_cons.
  Qed.

  Lemma xmove_backward_ok xs X W Y U Z (n s d : nat) : n = length xs -> length W = length xs ->
    s = (length U + length xs)%nat -> d = (length X + length xs)%nat ->
    xmove_backward_n n (U ++ full xs ++ Z) (X ++ W ++ Y) s d = Ok (U ++ empty (length xs) ++ Z, X ++ full xs ++ Y).
  Proof.
    intros ->. revert W Y Z s d. induction xs as [|x xs IH] using rev_ind; intros W Y Z s d HW -> ->.
    - destruct W; [|done]. done.
    - rewrite app_length in *. simpl length in *. rewrite Nat.add_1_r in *. cbn [xmove_backward_n].
      destruct (exists_last (l := W)) as (W' & w & ->); [by destruct W|].
      replace (length X + S (length xs))%nat with (S (length X + length xs)) by lia.
      replace (length U + S (length xs))%nat with (S (length U + length xs)) by lia. cbn [decr rbind].
      replace (U ++ full (xs ++ [x]) ++ Z) with ((U ++ full xs) ++ Some x :: Z) by (rewrite full_app, <-!app_assoc; done).
      rewrite mv_mid by len. cbn [rbind].
      replace (X ++ (W' ++ [w]) ++ Y) with ((X ++ W') ++ w :: Y) by (rewrite <-!app_assoc; done).
      rewrite wr_mid by len. cbn [rbind]. rewrite <-!app_assoc, IH by len.
      rewrite full_app, <-!app_assoc. f_equal. f_equal. cbn [replicate].
      by rewrite replicate_snoc_cons.
  Qed.

  (** _Inplace_merge_buffer_right: [r1 ++ [z]] against [w :: r2], where [w] is less than all of [r1] and [z] is
      greater than all of [w :: r2]. *)
  Lemma buffer_right_ok r1 z w r2 X Y W Z (f m t : nat) :
    f = length X -> m = (f + (length r1 + 1))%nat -> t = (m + (1 + length r2))%nat -> length W = (1 + length r2)%nat ->
    r1 <> [] -> r2 <> [] -> sorted (r1 ++ [z]) -> sorted (w :: r2) ->
    Forall (fun b => lt b z = true) (w :: r2) -> Forall (fun b => lt w b = true) r1 ->
    inplace_merge_buffer_right lt (X ++ full (r1 ++ [z]) ++ full (w :: r2) ++ Y) (W ++ Z) f m t =
      Ok (X ++ full (mergel (r1 ++ [z]) (w :: r2)) ++ Y, empty (1 + length r2) ++ Z).
  Proof.
    intros Ef Em Et HW Hr1 Hr2 Hs1 Hs2 Hz Hw. unfold inplace_merge_buffer_right.
    pose proof (xmove_ok (w :: r2) (X ++ full (r1 ++ [z])) Y [] W Z m t 0%nat) as E.
    rewrite !app_nil_l, <-!app_assoc in E. rewrite E by len. clear E. cbn [rbind].
    replace (0 + length (w :: r2))%nat with (S (length r2)) by len.
    replace (length (w :: r2)) with (S (length r2)) by len.
    destruct t as [|t]; [lia|]. destruct m as [|m]; [lia|]. cbn [decr rbind].
    replace (X ++ full (r1 ++ [z]) ++ empty (S (length r2)) ++ Y)
      with ((X ++ full r1) ++ Some z :: empty (length r2) ++ None :: Y).
    2: { rewrite full_app, <-!app_assoc. cbn [replicate]. by rewrite replicate_snoc_cons. }
    rewrite (mvto_up _ None (empty (length r2)) z) by len. cbn [rbind].
    destruct m as [|m]; [destruct r1; [done|len]|]. cbn [decr rbind].
    replace ((X ++ full r1) ++ None :: empty (length r2) ++ Some z :: Y) with
      (X ++ full r1 ++ empty (S (length r2)) ++ Some z :: Y) by (by rewrite <-!app_assoc).
    match goal with |- loop _ ?b _ = _ => set (body := b) end.
    assert (G : forall fuel r1 r2 Y Z, r1 <> [] -> r2 <> [] -> (length r1 + length r2 <= fuel)%nat ->
      sorted r1 -> sorted (w :: r2) -> Forall (fun b => lt w b = true) r1 ->
      loop fuel body (X ++ full r1 ++ empty (S (length r2)) ++ Y, full (w :: r2) ++ Z, (length X + length r1 - 1)%nat,
        (length X + length r1 + S (length r2))%nat, length r2) =
      Ok (X ++ full (mergel r1 (w :: r2)) ++ Y, empty (S (length r2)) ++ Z)).
    { clear -SW Ef. intros fuel. induction fuel as [|fuel IH]; intros r1 r2 Y Z Hr1 Hr2 Hf Hs1 Hs2 Hw.
      { destruct r1; [done|simpl in Hf; lia]. }
      destruct (exists_last Hr1) as (r1' & y & ->). destruct (exists_last Hr2) as (r2' & x & ->).
      rewrite loop_S. unfold body at 1.
      assert (E0 : forall v, full (w :: r2' ++ [v]) ++ Z = full (w :: r2') ++ Some v :: Z).
      { intros v. by rewrite (app_comm_cons r2'), full_app, <-app_assoc. }
      replace (length (r2' ++ [x])) with (S (length r2')) in * by len.
      rewrite (E0 x), rd_mid by len. cbn [rbind].
      replace (X ++ full (r1' ++ [y]) ++ replicate (S (S (length r2'))) None ++ Y)
        with ((X ++ full r1') ++ Some y :: empty (S (length r2')) ++ None :: Y).
      2: { rewrite full_app, <-!app_assoc. cbn [replicate app]. by rewrite replicate_snoc_cons. }
      rewrite rd_mid by len. cbn [rbind].
      replace (length X + length (r1' ++ [y]) + S (S (length r2')))%nat with (S (length X + length r1' + S (S (length r2')))) by len.
      cbn [decr rbind].
      assert (Em : (length X + length (r1' ++ [y]) - 1)%nat = (length X + length r1')%nat) by len. rewrite Em.
      destruct (lt x y) eqn:E.
      - rewrite (mvto_up _ None (empty (S (length r2'))) y) by len. cbn [rbind].
        rewrite (app_comm_cons r2'), mergel_snoc_lt by done. rewrite <-(app_comm_cons r2').
        destruct (decide (r1' = [])) as [->|Hne].
        + rewrite decide_True by len.
          replace (length X + length (@nil A) + S (S (length r2')))%nat with (S (length X + S (length r2')))%nat by len. cbn [decr rbind].
          rewrite mv_mid by len. cbn [rbind].
          replace ((X ++ full []) ++ None :: replicate (S (length r2')) None ++ Some y :: Y)
            with ((X ++ empty (S (length r2'))) ++ None :: Some y :: Y).
          2: { rewrite <-!app_assoc. f_equal. rewrite full_nil, app_nil_l. apply replicate_snoc_cons. }
          rewrite wr_mid by len. cbn [rbind]. rewrite <-app_assoc, Nat.sub_0_r.
          rewrite (xmove_backward_ok (w :: r2') X (empty (S (length r2'))) (Some x :: Some y :: Y) [] (None :: Z)) by len.
          cbn [rbind]. f_equal. f_equal.
          * rewrite mergel_nil_l, full_app, (app_comm_cons r2'), full_app, <-!app_assoc. done.
          * cbn [length]. rewrite app_nil_l. by rewrite replicate_snoc_cons.
        + rewrite decide_False by (destruct r1'; [done|len]).
          destruct (exists_last Hne) as (r1'' & y' & ->).
          replace (length X + length (r1'' ++ [y']))%nat with (S (length X + length r1'')) by len. cbn [decr rbind].
          rewrite <-E0.
          replace ((X ++ full (r1'' ++ [y'])) ++ None :: replicate (S (length r2')) None ++ Some y :: Y)
            with (X ++ full (r1'' ++ [y']) ++ replicate (S (length (r2' ++ [x]))) None ++ Some y :: Y).
          2: { rewrite <-!app_assoc. rewrite app_length, Nat.add_1_r. done. }
          pose proof (IH (r1'' ++ [y']) (r2' ++ [x]) (Some y :: Y) Z) as IH'.
          replace (length (r2' ++ [x])) with (S (length r2')) in * by len.
          replace (length X + length (r1'' ++ [y']) - 1)%nat with (length X + length r1'')%nat in IH' by len.
          match goal with |- loop _ _ (_, _, ?l, _) = _ => replace l with (length X + length (r1'' ++ [y']) + S (S (length r2')))%nat by len end.
          rewrite IH'; [|done|done|len| |done|].
          * rewrite full_app, <-!app_assoc. done.
          * by apply sorted_app' in Hs1 as [? _].
          * by apply Forall_app in Hw as [? _].
      - rewrite mv_mid by len. cbn [rbind].
        replace ((X ++ full r1') ++ Some y :: replicate (S (length r2')) None ++ None :: Y)
          with ((X ++ full (r1' ++ [y]) ++ empty (S (length r2'))) ++ None :: Y).
        2: { rewrite full_app, <-!app_assoc. done. }
        rewrite wr_mid by len. cbn [rbind decr].
        rewrite (app_comm_cons r2'), mergel_snoc_ge by done.
        destruct (decide (r2' = [])) as [->|Hne].
        + rewrite decide_True by done. cbn [length].
          replace (length X + length r1' + 2)%nat with (S (length X + length r1' + 1)) by lia. cbn [decr rbind].
          replace ((X ++ full (r1' ++ [y]) ++ empty 1) ++ Some x :: Y) with ((X ++ full r1') ++ Some y :: [] ++ None :: Some x :: Y).
          2: { rewrite full_app, <-!app_assoc. done. }
          rewrite mvto_up by len. cbn [rbind].
          pose proof (move_backward_up 1 r1' X (Some y :: Some x :: Y) f (length X + length r1') (length X + length r1' + 1)) as E1.
          replace ((X ++ full r1') ++ None :: [] ++ Some y :: Some x :: Y) with (X ++ full r1' ++ empty 1 ++ Some y :: Some x :: Y) by (by rewrite <-!app_assoc).
          rewrite E1 by (try done; lia). cbn [rbind].
          rewrite full_cons, full_nil, <-app_comm_cons, app_nil_l.
          pose proof (mv_mid [] w (None :: Z) 0%nat eq_refl) as E2. rewrite !app_nil_l in E2. rewrite E2. cbn [rbind].
          cbn [replicate app]. rewrite wr_mid by done. cbn [rbind]. f_equal. f_equal.
          rewrite (mergel_above lt SW (r1' ++ [y]) [w]); [|done| |].
          * cbn [app]. rewrite (app_comm_cons (r1' ++ [y])), full_app, full_cons, full_app, <-!app_assoc.
            rewrite <-app_comm_cons, <-!app_assoc. done.
          * apply sorted_cons. split; [constructor|apply sorted_nil].
          * intros p q Hp ->%elem_of_list_singleton. rewrite list.Forall_forall in Hw. by apply Hw.
        + rewrite decide_False by (destruct r2'; [done|len]). cbn [rbind].
          replace ((X ++ full (r1' ++ [y]) ++ replicate (S (length r2')) None) ++ Some x :: Y)
            with (X ++ full (r1' ++ [y]) ++ replicate (S (length r2')) None ++ Some x :: Y) by (by rewrite <-!app_assoc).
          pose proof (IH (r1' ++ [y]) r2' (Some x :: Y) (None :: Z)) as IH'.
          replace (length X + length r1' + S (S (length r2')))%nat with (length X + length (r1' ++ [y]) + S (length r2'))%nat by len.
          rewrite Em in IH'. rewrite IH'; [|by destruct r1'|done|len|done| |done].
          * rewrite full_app, <-!app_assoc. cbn [replicate app]. by rewrite replicate_snoc_cons.
          * rewrite (app_comm_cons r2') in Hs2. by apply sorted_app' in Hs2 as [? _]. }
    specialize (G (S (t - f)) r1 r2 (Some z :: Y) Z).
    replace m with (length X + length r1 - 1)%nat by lia.
    replace t with (length X + length r1 + S (length r2))%nat at 2 by lia.
    rewrite G; [|done|done|lia| |done|done].
    - f_equal. f_equal. 
      destruct (exists_last Hr2) as (r2' & x & ->). rewrite !(app_comm_cons r2'), (mergel_snoc_lt lt SW); [|done|done|].
      + rewrite full_app, <-app_assoc. done.
      + rewrite (app_comm_cons r2') in Hz. apply Forall_app in Hz as [_ Hz]. by inversion Hz.
    - by apply sorted_app' in Hs1 as [? _].
  Qed.

  Lemma rotate_one_right_ok xs y X Y (f m t : nat) : f = length X -> m = (f + length xs)%nat -> t = S m ->
    rotate_one_right (X ++ full xs ++ full [y] ++ Y) f m t = Ok (X ++ full (y :: xs) ++ Y).
  Proof.
    intros -> -> ->. unfold rotate_one_right.
    replace (X ++ full xs ++ full [y] ++ Y) with ((X ++ full xs) ++ Some y :: Y) by (by rewrite <-app_assoc).
    rewrite mv_mid by len. cbn [rbind].
    replace ((X ++ full xs) ++ None :: Y) with (X ++ full xs ++ empty 1 ++ Y) by (by rewrite <-app_assoc).
    rewrite move_backward_up by lia. cbn [rbind]. cbn [replicate app]. by rewrite wr_mid.
  Qed.
  Lemma rotate_one_left_ok x ys X Y (f m t : nat) : f = length X -> m = S f -> t = (m + length ys)%nat ->
    rotate_one_left (X ++ full [x] ++ full ys ++ Y) f m t = Ok (X ++ full (ys ++ [x]) ++ Y).
  Proof.
    intros -> -> ->. unfold rotate_one_left, move_unchecked.
    replace (X ++ full [x] ++ full ys ++ Y) with (X ++ Some x :: full ys ++ Y) by done.
    rewrite mv_mid by len. cbn [rbind].
    replace (S (length X) + length ys - S (length X))%nat with (length ys) by lia.
    pose proof (move_n_down 1 ys X Y (S (length X)) (length X)) as E. cbn [replicate app] in E.
    rewrite E by lia. cbn [rbind].
    replace (X ++ full ys ++ None :: Y) with ((X ++ full ys) ++ None :: Y) by (by rewrite <-app_assoc).
    rewrite wr_mid by len. by rewrite full_app, <-!app_assoc.
  Qed.

  Lemma buffered_rotate_ok xs ys X Y buf (cap f m t c1 c2 : nat) :
    length buf = cap -> f = length X -> m = (f + length xs)%nat -> t = (m + length ys)%nat -> c1 = length xs -> c2 = length ys ->
    exists buf', buffered_rotate (X ++ full xs ++ full ys ++ Y) buf cap f m t c1 c2 =
      Ok (X ++ full ys ++ full xs ++ Y, buf', (f + length ys)%nat) /\ length buf' = cap.
  Proof.
    intros Hb -> -> -> -> ->. unfold buffered_rotate.
    case_decide as D1. { destruct xs; [|done]. exists buf. split; [|done]. simpl. eq3; [done|done|lia]. }
    case_decide as D2. { destruct ys; [|done]. exists buf. split; [|done]. simpl. eq3; [done|done|lia]. }
    case_decide as D3; [|case_decide as D4].
    - rewrite <-(take_drop (length xs) buf).
      pose proof (xmove_ok xs X (full ys ++ Y) [] (take (length xs) buf) (drop (length xs) buf) (length X) (length X + length xs) 0) as E.
      rewrite !app_nil_l in E. rewrite E by len. cbn [rbind]. clear E. unfold move_unchecked.
      replace (length X + length xs + length ys - (length X + length xs))%nat with (length ys) by lia.
      rewrite move_n_down by lia. cbn [rbind]. rewrite Nat.add_0_l.
      pose proof (xmove_ok xs [] (drop (length xs) buf) (X ++ full ys) (empty (length xs)) Y 0 (length xs) (length X + length ys)) as E.
      rewrite !app_nil_l, <-!app_assoc in E. rewrite E by len. cbn [rbind]. eexists. split; [reflexivity|len].
    - rewrite <-(take_drop (length ys) buf).
      pose proof (xmove_ok ys (X ++ full xs) Y [] (take (length ys) buf) (drop (length ys) buf) (length X + length xs) (length X + length xs + length ys) 0) as E.
      rewrite !app_nil_l, <-!app_assoc in E. rewrite E by len. cbn [rbind]. clear E.
      rewrite move_backward_up by lia. cbn [rbind]. rewrite Nat.add_0_l.
      pose proof (xmove_ok ys [] (drop (length ys) buf) X (empty (length ys)) (full xs ++ Y) 0 (length ys) (length X)) as E.
      rewrite !app_nil_l in E. rewrite E by len. cbn [rbind]. eexists. split; [reflexivity|len].
    - rewrite rotate_ok by lia. cbn [rbind]. eexists. split; [reflexivity|done].
  Qed.

  (** trimming *)
  Lemma trim_left_ok r1 y r2 X Y (f m : nat) : f = length X -> m = (f + length r1)%nat ->
    (trim_left lt (X ++ full r1 ++ full (y :: r2) ++ Y) f m = Ok None /\ Forall (fun x => lt y x = false) r1) \/
    (exists s1 x s2, r1 = s1 ++ x :: s2 /\ Forall (fun x => lt y x = false) s1 /\ lt y x = true /\
      trim_left lt (X ++ full r1 ++ full (y :: r2) ++ Y) f m = Ok (Some (f + length s1)%nat)).
  Proof.
    intros -> ->. unfold trim_left.
    replace (S (length X + length r1 - length X)) with (S (length r1)) by lia.
    match goal with |- context [loop _ ?b _] => set (body := b) end.
    assert (G : forall fuel s1 s2, r1 = s1 ++ s2 -> (length s2 < fuel)%nat -> 
      (loop fuel body (length X + length s1)%nat = Ok None /\ Forall (fun x => lt y x = false) s2) \/
      (exists t1 x t2, s2 = t1 ++ x :: t2 /\ Forall (fun x => lt y x = false) t1 /\ lt y x = true /\
        loop fuel body (length X + length s1)%nat = Ok (Some (length X + length s1 + length t1)%nat))).
    { intros fuel. induction fuel as [|fuel IH]; intros s1 s2 E Hf; [lia|]. rewrite loop_S. unfold body at 1 3.
      destruct s2 as [|x s2].
      { left. rewrite app_nil_r in E. subst s1. rewrite decide_True by done. by split; [|constructor]. }
      assert (E' : r1 = (s1 ++ [x]) ++ s2) by (rewrite <-app_assoc; done).
      rewrite decide_False by (rewrite E; len).
      assert (R1 : rd (X ++ full r1 ++ full (y :: r2) ++ Y) (length X + length r1) = Ok y).
      { rewrite full_cons, <-app_comm_cons, app_assoc. apply rd_mid. len. }
      assert (R2 : rd (X ++ full r1 ++ full (y :: r2) ++ Y) (length X + length s1) = Ok x).
      { rewrite E, full_app, full_cons, <-app_assoc, <-app_comm_cons, app_assoc. apply rd_mid. len. }
      rewrite R1. cbn [rbind]. rewrite R2. cbn [rbind].
      destruct (lt y x) eqn:El.
      - right. exists [], x, s2. split; [done|]. split; [done|]. split; [done|]. cbn [rbind]. do 2 f_equal. simpl. lia.
      - cbn [rbind]. replace (S (length X + length s1)) with (length X + length (s1 ++ [x]))%nat by len.
        destruct (IH (s1 ++ [x]) s2 E') as [[H1 H2]|(t1 & x' & t2 & H1 & H2 & H3 & H4)]; [simpl in *; lia| |].
        + left. split; [done|by constructor].
        + right. exists (x :: t1), x', t2. split; [by rewrite H1|]. split; [by constructor|]. split; [done|].
          rewrite H4. do 2 f_equal. len. }
    pose proof (G (S (length r1)) [] r1 eq_refl ltac:(lia)) as HG. simpl length in HG. rewrite !Nat.add_0_r in HG. exact HG.
  Qed.

  Lemma trim_right_ok r1 z y r2 X Y (m t : nat) : m = (length X + length r1 + 1)%nat -> t = (m + 1 + length r2)%nat ->
    (trim_right lt (X ++ full (r1 ++ [z]) ++ full (y :: r2) ++ Y) m t = Ok (inl (S m)) /\ Forall (fun x => lt x z = false) r2) \/
    (exists s1 x s2, r2 = s1 ++ x :: s2 /\ Forall (fun x => lt x z = false) s2 /\ lt x z = true /\
      trim_right lt (X ++ full (r1 ++ [z]) ++ full (y :: r2) ++ Y) m t = Ok (inr (m + 2 + length s1)%nat)).
  Proof.
    intros Em ->. unfold trim_right.
    replace (decr m) with (Ok (length X + length r1)%nat) by (rewrite Em, Nat.add_1_r; done). cbn [rbind].
    match goal with |- context [loop _ ?b _] => set (body := b) end.
    assert (Rz : rd (X ++ full (r1 ++ [z]) ++ full (y :: r2) ++ Y) (length X + length r1) = Ok z).
    { rewrite full_app, <-app_assoc, app_assoc. apply rd_mid. len. }
    assert (G : forall fuel s1 s2, r2 = s1 ++ s2 -> (length s1 < fuel)%nat -> Forall (fun x => lt x z = false) s2 ->
      (loop fuel body (m + 1 + length s1)%nat = Ok (inl (S m)) /\ Forall (fun x => lt x z = false) s1) \/
      (exists t1 x t2, s1 = t1 ++ x :: t2 /\ Forall (fun x => lt x z = false) t2 /\ lt x z = true /\
        loop fuel body (m + 1 + length s1)%nat = Ok (inr (m + 2 + length t1)%nat))).
    { intros fuel. induction fuel as [|fuel IH]; intros s1 s2 E Hf F; [lia|]. rewrite loop_S. unfold body at 1 3.
      replace (m + 1 + length s1)%nat with (S (m + length s1)) by lia. cbn [decr rbind].
      destruct (decide (s1 = [])) as [->|Hne].
      { left. rewrite decide_True by len. cbn [rbind]. split; [|done]. simpl. f_equal. f_equal. lia. }
      destruct (exists_last Hne) as (s1' & x & ->).
      rewrite decide_False by len.
      assert (R2 : rd (X ++ full (r1 ++ [z]) ++ full (y :: r2) ++ Y) (m + length (s1' ++ [x])) = Ok x).
      { replace (X ++ full (r1 ++ [z]) ++ full (y :: r2) ++ Y)
          with ((X ++ full (r1 ++ [z]) ++ full (y :: s1')) ++ Some x :: full s2 ++ Y).
        2: { rewrite E, <-!app_assoc. do 2 f_equal. rewrite (app_comm_cons s1'), full_app, <-app_assoc. done. }
        apply rd_mid. len. }
      rewrite R2. cbn [rbind]. rewrite Rz. cbn [rbind].
      destruct (lt x z) eqn:El.
      - right. exists s1', x, []. split; [done|]. split; [done|]. split; [done|]. cbn [rbind]. do 2 f_equal. len.
      - cbn [rbind]. replace (m + length (s1' ++ [x]))%nat with (m + 1 + length s1')%nat by len.
        destruct (IH s1' (x :: s2)) as [[H1 H2]|(t1 & x' & t2 & H1 & H2 & H3 & H4)].
        + by rewrite E, <-app_assoc. + len. + by constructor.
        + left. split; [done|]. apply Forall_app. split; [done|by repeat constructor].
        + right. exists t1, x', (t2 ++ [x]). split; [by rewrite H1, <-app_assoc|].
          split; [apply Forall_app; split; [done|by repeat constructor]|]. done. }
    destruct (G (S (m + 1 + length r2 - m)) r2 []) as [H|H]; [by rewrite app_nil_r|lia|constructor| |].
    - by left.
    - right. destruct H as (t1 & x & t2 & H1 & H2 & H3 & H4). eauto 10.
  Qed.

  Definition rec_ok (n cap : nat) (rec : arr A -> arr A -> nat -> nat -> nat -> nat -> nat -> res (arr A * arr A)) : Prop :=
    forall P r1 r2 Q buf f m t c1 c2, (length r1 + length r2 < n)%nat -> sorted r1 -> sorted r2 -> length buf = cap ->
      f = length P -> m = (f + length r1)%nat -> t = (m + length r2)%nat -> c1 = length r1 -> c2 = length r2 ->
      exists buf', rec (full (P ++ r1 ++ r2 ++ Q)) buf f m t c1 c2 = Ok (full (P ++ mergel r1 r2 ++ Q), buf') /\ length buf' = cap.

  Lemma bim_dc2_ok rec n cap P A1 A2 B1 B2 Q buf f m t c1 c2 fn tn c1n c2n :
    rec_ok n cap rec -> sorted (A1 ++ A2) -> sorted (B1 ++ B2) -> length buf = cap ->
    (length A1 + length B1 < n)%nat -> (length A2 + length B2 < n)%nat ->
    all2 (fun x y => lt y x = true) A2 B1 -> all2 (fun x y => lt y x = false) A1 B2 ->
    f = length P -> m = (f + length (A1 ++ A2))%nat -> t = (m + length (B1 ++ B2))%nat ->
    c1 = length (A1 ++ A2) -> c2 = length (B1 ++ B2) ->
    fn = (f + length A1)%nat -> tn = (m + length B1)%nat -> c1n = length A1 -> c2n = length B1 ->
    exists buf', bim_dc2 rec (full (P ++ (A1 ++ A2) ++ (B1 ++ B2) ++ Q)) buf cap f m t c1 c2 fn tn c1n c2n =
      Ok (full (P ++ mergel (A1 ++ A2) (B1 ++ B2) ++ Q), buf') /\ length buf' = cap.
  Proof.
    intros Hrec HA HB Hb Hn1 Hn2 F1 F2 -> -> -> -> -> -> -> -> ->. unfold bim_dc2.
    destruct (buffered_rotate_ok A2 B1 (full (P ++ A1)) (full (B2 ++ Q)) buf cap (length P + length A1)
      (length P + length (A1 ++ A2)) (length P + length (A1 ++ A2) + length B1)
      (length (A1 ++ A2) - length A1) (length B1)) as (b1 & E1 & Hb1); try len.
    replace (full (P ++ (A1 ++ A2) ++ (B1 ++ B2) ++ Q)) with (full (P ++ A1) ++ full A2 ++ full B1 ++ full (B2 ++ Q)).
    2: { rewrite <-!full_app, <-!app_assoc. done. }
    rewrite E1. cbn [rbind].
    replace (full (P ++ A1) ++ full B1 ++ full A2 ++ full (B2 ++ Q)) with (full (P ++ A1 ++ B1 ++ (A2 ++ B2 ++ Q))).
    2: { rewrite <-!full_app, <-!app_assoc. done. }
    apply sorted_app' in HA as HA'. destruct HA' as (SA1 & SA2 & _).
    apply sorted_app' in HB as HB'. destruct HB' as (SB1 & SB2 & _).
    destruct (Hrec P A1 B1 (A2 ++ B2 ++ Q) b1 (length P) (length P + length A1)%nat (length P + length A1 + length B1)%nat
       (length A1) (length B1)) as (b2 & E2 & Hb2); try done.
    rewrite E2. cbn [rbind].
    rewrite !app_length. replace (length A1 + length A2 - length A1)%nat with (length A2) by lia.
    replace (length B1 + length B2 - length B1)%nat with (length B2) by lia.
    replace (P ++ mergel A1 B1 ++ A2 ++ B2 ++ Q) with ((P ++ mergel A1 B1) ++ A2 ++ B2 ++ Q) by (by rewrite <-app_assoc).
    pose proof (mergel_length lt A1 B1) as EL.
    destruct (Hrec (P ++ mergel A1 B1) A2 B2 Q b2 (length P + length A1 + length B1)%nat
        (length P + (length A1 + length A2) + length B1)%nat (length P + (length A1 + length A2) + (length B1 + length B2))%nat
       (length A2) (length B2)) as (b3 & E3 & Hb3); try done.
    { rewrite app_length, EL. lia. } { lia. } { lia. }
    rewrite E3. exists b3. split; [|done]. do 2 f_equal.
    rewrite (mergel_disjoint lt SW) by done. by rewrite <-!app_assoc.
  Qed.

  Lemma sorted_head_all x l : sorted (x :: l) -> forall y, y ∈ x :: l -> lt y x = false.
  Proof.
    intros [F _]%sorted_cons y [->|Hy]%elem_of_cons; [apply (swo_irrefl _ SW)|].
    rewrite list.Forall_forall in F. by apply F.
  Qed.

  Lemma bim_dc_ok rec cap P r1 r2 Q buf f m t c1 c2 :
    rec_ok (length r1 + length r2) cap rec -> sorted r1 -> sorted r2 -> length buf = cap ->
    (2 <= length r1)%nat -> (2 <= length r2)%nat ->
    f = length P -> m = (f + length r1)%nat -> t = (m + length r2)%nat -> c1 = length r1 -> c2 = length r2 ->
    exists buf', bim_dc lt rec (full (P ++ r1 ++ r2 ++ Q)) buf cap f m t c1 c2 =
      Ok (full (P ++ mergel r1 r2 ++ Q), buf') /\ length buf' = cap.
  Proof.
    intros Hrec Hs1 Hs2 Hb Hl1 Hl2 Ef Em Et -> ->. unfold bim_dc.
    set (L := P ++ r1 ++ r2 ++ Q).
    assert (HL : length L = (length P + length r1 + length r2 + length Q)%nat) by (unfold L; len).
    assert (L1 : forall i, (i < length r1)%nat -> L !! (f + i)%nat = r1 !! i).
    { intros i Hi. unfold L. rewrite Ef, lookup_app_r by lia. rewrite lookup_app_l by lia. f_equal. lia. }
    assert (L2 : forall i, (i < length r2)%nat -> L !! (m + i)%nat = r2 !! i).
    { intros i Hi. unfold L. rewrite Em, Ef, !lookup_app_r by lia. rewrite lookup_app_l by lia. f_equal. lia. }
    case_decide as Dc; cbv zeta.
    - remember (length r1 / 2)%nat as k eqn:Ek.
      destruct (lookup_lt_is_Some_2 r1 k) as [v Hv]; [lia|].
      assert (Rv : rd (full L) (f + k) = Ok v).
      { unfold rd. rewrite full_lookup, L1, Hv by lia. done. }
      rewrite Rv. cbn [rbind].
      assert (Hpart : partitioned (fun x => lt x v) m t L).
      { intros i j x y H1 H2 H3 Hx Hy Hpx.
        replace i with (m + (i - m))%nat in Hx by lia. replace j with (m + (j - m))%nat in Hy by lia.
        rewrite L2 in Hx, Hy by lia. 
        destruct (lt y v) eqn:E; [|done]. exfalso.
        assert (lt y x = false) as Hyx by (eapply (Hs2 (i - m) (j - m))%nat; [lia|done|done]).
        rewrite (swo_le_lt lt SW _ _ _ Hyx E) in Hpx. done. }
      destruct (wp_exists _ _ (lower_bound_wp lt L m t v ltac:(lia) ltac:(lia) Hpart)) as (tn & Elb & (Hp1 & Hp2) & Hp3 & Hp4).
      rewrite Elb. cbn [rbind].
      remember (tn - m)%nat as q eqn:Eq.
      pose proof (take_drop k r1) as T1. pose proof (take_drop q r2) as T2.
      destruct (bim_dc2_ok rec (length r1 + length r2) cap P (take k r1) (drop k r1) (take q r2) (drop q r2) Q buf f m t
        (length r1) (length r2) (f + k) tn k q) as (b' & E & Hb'); rewrite ?T1, ?T2; try done; try len.
      + intros x y Hx Hy. apply elem_of_list_lookup in Hx as [i Hx], Hy as [j Hy].
        rewrite lookup_drop in Hx. apply lookup_take_Some in Hy as [Hy Hj].
        assert (Hyv : lt y v = true). { eapply (Hp3 (m + j)%nat); [lia|]. rewrite L2; [done|by eapply lookup_lt_Some]. }
        assert (Hxv : lt x v = false).
        { destruct i as [|i]; [rewrite Nat.add_0_r in Hx; simplify_eq; apply (swo_irrefl _ SW)|].
          eapply (Hs1 k (k + S i)%nat); [lia|done|done]. }
        eapply (swo_lt_le lt SW); [exact Hyv|exact Hxv].
      + intros x y Hx Hy. apply elem_of_list_lookup in Hx as [i Hx], Hy as [j Hy].
        rewrite lookup_drop in Hy. apply lookup_take_Some in Hx as [Hx Hi].
        pose proof (lookup_lt_Some _ _ _ Hy).
        assert (Hyv : lt y v = false). { eapply (Hp4 (m + (q + j))%nat); [lia|]. rewrite L2; [done|lia]. }
        assert (Hxv : lt v x = false).
        { eapply (Hs1 i k); [lia|done|done]. }
        eapply (swo_ntrans lt SW); [exact Hxv|exact Hyv].
      + rewrite T1, T2 in E. fold L in E. rewrite E. eauto.
    - remember (length r2 / 2)%nat as k eqn:Ek.
      destruct (lookup_lt_is_Some_2 r2 k) as [v Hv]; [lia|].
      assert (Rv : rd (full L) (m + k) = Ok v).
      { unfold rd. rewrite full_lookup, L2, Hv by lia. done. }
      rewrite Rv. cbn [rbind].
      assert (Hpart : partitioned (fun x => negb (lt v x)) f m L).
      { intros i j x y H1 H2 H3 Hx Hy Hpx.
        replace i with (f + (i - f))%nat in Hx by lia. replace j with (f + (j - f))%nat in Hy by lia.
        rewrite L1 in Hx, Hy by lia.
        destruct (lt v y) eqn:E; [done|]. exfalso.
        assert (lt y x = false) as Hyx by (eapply (Hs1 (i - f) (j - f))%nat; [lia|done|done]).
        destruct (lt v x) eqn:Evx; [|done].
        rewrite (swo_lt_le lt SW _ _ _ Evx Hyx) in E. done. }
      destruct (wp_exists _ _ (upper_bound_wp lt L f m v ltac:(lia) ltac:(lia) Hpart)) as (tn & Elb & (Hp1 & Hp2) & Hp3 & Hp4).
      rewrite Elb. cbn [rbind].
      remember (tn - f)%nat as q eqn:Eq.
      pose proof (take_drop q r1) as T1. pose proof (take_drop k r2) as T2.
      destruct (bim_dc2_ok rec (length r1 + length r2) cap P (take q r1) (drop q r1) (take k r2) (drop k r2) Q buf f m t
        (length r1) (length r2) tn (m + k) q k) as (b' & E & Hb'); rewrite ?T1, ?T2; try done; try len.
      + intros x y Hx Hy. apply elem_of_list_lookup in Hx as [i Hx], Hy as [j Hy].
        rewrite lookup_drop in Hx. apply lookup_take_Some in Hy as [Hy Hj].
        pose proof (lookup_lt_Some _ _ _ Hx).
        assert (Hvx : lt v x = true).
        { assert (negb (lt v x) = false) as Hn; [|by destruct (lt v x)]. eapply (Hp4 (f + (q + i))%nat); [lia|]. rewrite L1; [done|lia]. }
        assert (Hyv : lt v y = false) by (eapply (Hs2 j k); [lia|done|done]).
        eapply (swo_le_lt lt SW); [exact Hyv|exact Hvx].
      + intros x y Hx Hy. apply elem_of_list_lookup in Hx as [i Hx], Hy as [j Hy].
        rewrite lookup_drop in Hy. apply lookup_take_Some in Hx as [Hx Hi].
        assert (Hvx : lt v x = false).
        { assert (negb (lt v x) = true) as Hn; [|by destruct (lt v x)]. eapply (Hp3 (f + i)%nat); [lia|]. rewrite L1; [done|by eapply lookup_lt_Some]. }
        assert (Hyv : lt y v = false).
        { destruct j as [|j]; [rewrite Nat.add_0_r in Hy; simplify_eq; apply (swo_irrefl _ SW)|].
          eapply (Hs2 k (k + S j)%nat); [lia|done|done]. }
        eapply (swo_ntrans lt SW); [exact Hvx|exact Hyv].
      + rewrite T1, T2 in E. fold L in E. rewrite E. eauto.
  Qed.

  (** what both trimming loops leave to merge: [r1'] and [y :: t1 ++ [v]] *)
  Definition trimmed r1 y t1 v : Prop :=
    (forall x, x ∈ r1 -> lt y x = true) /\ (exists u z, r1 = u ++ [z] /\ (forall b, b ∈ y :: t1 ++ [v] -> lt b z = true)).

  Lemma trims r1 r2 P Q (f m t : nat) : sorted r1 -> sorted r2 -> r2 <> [] ->
    f = length P -> m = (f + length r1)%nat -> t = (m + length r2)%nat ->
    (trim_left lt (full (P ++ r1 ++ r2 ++ Q)) f m = Ok None /\ mergel r1 r2 = r1 ++ r2) \/
    (exists s1 r1', r1 = s1 ++ r1' /\ r1' <> [] /\ trim_left lt (full (P ++ r1 ++ r2 ++ Q)) f m = Ok (Some (f + length s1)%nat) /\
      ((exists y r2', r2 = y :: r2' /\ trim_right lt (full (P ++ r1 ++ r2 ++ Q)) m t = Ok (inl (S m)) /\
          mergel r1 r2 = s1 ++ (y :: r1') ++ r2') \/
       (exists y t1 v t2, r2 = (y :: t1 ++ [v]) ++ t2 /\
          trim_right lt (full (P ++ r1 ++ r2 ++ Q)) m t = Ok (inr (m + 2 + length t1)%nat) /\
          trimmed r1' y t1 v /\ mergel r1 r2 = s1 ++ mergel r1' (y :: t1 ++ [v]) ++ t2))).
  Proof.
    intros Hs1 Hs2 Hne Ef Em Et. destruct r2 as [|y r2]; [done|].
    assert (EF : full (P ++ r1 ++ (y :: r2) ++ Q) = full P ++ full r1 ++ full (y :: r2) ++ full Q) by (by rewrite !full_app).
    destruct (trim_left_ok r1 y r2 (full P) (full Q) f m) as [[E1 F1]|(s1 & x & s2 & E1 & F1 & Hx & E2)]; [len|lia| |].
    - left. rewrite EF, E1. split; [done|]. apply (mergel_below lt SW); [done|done|]. intros a b Ha Hb.
      rewrite list.Forall_forall in F1. apply F1 in Ha. eapply (swo_ntrans lt SW); [exact Ha|]. by eapply sorted_head_all.
    - right. exists s1, (x :: s2). split; [done|]. split; [done|]. split; [by rewrite EF, E2|].
      rewrite E1 in Hs1. pose proof Hs1 as (SS1 & SS2 & _)%sorted_app'.
      assert (M1 : mergel r1 (y :: r2) = s1 ++ mergel (x :: s2) (y :: r2)).
      { rewrite E1. pose proof (mergel_disjoint lt SW s1 (x :: s2) [] (y :: r2)) as E. rewrite !app_nil_l, mergel_nil_r in E.
        apply E; [done|done|intros ? ? ? Hn; by apply elem_of_nil in Hn|]. intros a b Ha Hb.
        rewrite list.Forall_forall in F1. apply F1 in Ha. eapply (swo_ntrans lt SW); [exact Ha|]. by eapply sorted_head_all. }
      assert (Hall : forall c : A, c ∈ x :: s2 -> lt y c = true).
      { intros a Ha. eapply (swo_lt_le lt SW); [exact Hx|]. by eapply sorted_head_all. }
      destruct (exists_last (l := x :: s2)) as (u & z & Eu); [done|].
      assert (Er1 : r1 = (s1 ++ u) ++ [z]) by (by rewrite <-app_assoc, <-Eu).
      assert (Hz : forall c : A, c ∈ x :: s2 -> lt z c = false).
      { rewrite Eu in SS2 |- *. apply sorted_app' in SS2 as (_ & _ & F). intros a [Ha|Ha%elem_of_list_singleton]%elem_of_app.
        - apply F; [done|left].
        - subst. apply (swo_irrefl _ SW). }
      destruct (trim_right_ok (s1 ++ u) z y r2 (full P) (full Q) m t) as [[E3 F3]|(t1 & v & t2 & E3 & F3 & Hv & E4)].
      { rewrite full_length. rewrite Er1, app_length in Em. simpl in Em. lia. } { simpl in Et. lia. }
      + left. exists y, r2. split; [done|]. rewrite EF, Er1. split; [done|]. rewrite <-Er1, M1. f_equal.
        pose proof (mergel_disjoint lt SW (x :: s2) [] [y] r2) as E. rewrite !app_nil_r, mergel_nil_l in E.
        cbn [app] in E. rewrite E; [|done|done|intros ? ? Hn; by apply elem_of_nil in Hn|].
        * rewrite (mergel_above lt SW); [done|done| |].
          -- apply sorted_cons. split; [constructor|apply sorted_nil].
          -- intros a b Ha ->%elem_of_list_singleton. by apply Hall.
        * intros a b Ha Hb. rewrite list.Forall_forall in F3. apply Hz in Ha. apply F3 in Hb.
          eapply (swo_ntrans lt SW); [exact Ha|exact Hb].
      + right. exists y, t1, v, t2. split; [rewrite E3; by rewrite <-app_comm_cons, <-app_assoc|].
        split; [by rewrite EF, Er1|].
        assert (Er2 : y :: r2 = (y :: t1 ++ [v]) ++ t2) by (rewrite E3; by rewrite <-app_comm_cons, <-app_assoc).
        assert (Sv : sorted (y :: t1 ++ [v])).
        { rewrite Er2 in Hs2. by apply sorted_app' in Hs2 as (? & _). }
        split; [split; [done|exists u, z; split; [done|]]|].
        * intros b Hb. rewrite app_comm_cons in Sv, Hb. apply sorted_app' in Sv as (_ & _ & F).
          apply elem_of_app in Hb as [Hb|Hb%elem_of_list_singleton]; [|by subst].
          eapply (swo_le_lt lt SW); [|exact Hv]. apply F; [done|left].
        * rewrite M1. f_equal. rewrite Er2.
          pose proof (mergel_disjoint lt SW (x :: s2) [] (y :: t1 ++ [v]) t2) as E. rewrite !app_nil_r, mergel_nil_l in E.
          apply E; [done|by rewrite <-Er2|intros ? ? Hn; by apply elem_of_nil in Hn|].
          intros a b Ha Hb. rewrite list.Forall_forall in F3. apply Hz in Ha. apply F3 in Hb.
          eapply (swo_ntrans lt SW); [exact Ha|exact Hb].
  Qed.

  Lemma bim_impl_ok rec cap P r1 y t1 v Q buf f m t c1 c2 :
    rec_ok (length r1 + (2 + length t1)) cap rec -> sorted r1 -> sorted (y :: t1 ++ [v]) -> trimmed r1 y t1 v -> length buf = cap ->
    (2 <= length r1)%nat ->
    f = length P -> m = (f + length r1)%nat -> t = (m + 2 + length t1)%nat -> c1 = length r1 -> c2 = (2 + length t1)%nat ->
    exists buf', bim_impl lt rec (full (P ++ r1 ++ (y :: t1 ++ [v]) ++ Q)) buf cap f m t c1 c2 =
      Ok (full (P ++ mergel r1 (y :: t1 ++ [v]) ++ Q), buf') /\ length buf' = cap.
  Proof.
    intros Hrec Hs1 Hs2 (Hy & u & z & Eu & Hz) Hb Hl Ef Em Et -> ->. unfold bim_impl.
    assert (EF : full (P ++ r1 ++ (y :: t1 ++ [v]) ++ Q) = full P ++ full r1 ++ full (y :: t1 ++ [v]) ++ full Q) by (by rewrite !full_app).
    case_decide as D1; [|case_decide as D2].
    - rewrite <-(take_drop (length r1) buf).
      destruct u as [|x u]; [rewrite Eu in Hl; simpl in Hl; lia|].
      rewrite EF, Eu. rewrite <-app_comm_cons.
      assert (Er : length r1 = (2 + length u)%nat) by (rewrite Eu; len).
      rewrite (buffer_left_ok x u z y (t1 ++ [v]) (full P) (full Q)); try len.
      + eexists. rewrite <-!full_app. split; [done|]. len.
      + by destruct t1.
      + by apply sorted_cons in Hs2 as [_ ?].
      + apply Hy. rewrite Eu. left.
      + apply list.Forall_forall. intros b Hb'. apply Hz. by right.
    - rewrite <-(take_drop (2 + length t1) buf).
      rewrite EF, Eu.
      assert (Er : length r1 = (length u + 1)%nat) by (rewrite Eu; len).
      rewrite (buffer_right_ok u z y (t1 ++ [v]) (full P) (full Q)); try len.
      + eexists. rewrite <-!full_app. split; [done|]. len.
      + intros ->. simpl in Er. lia.
      + by destruct t1.
      + by rewrite <-Eu.
      + done.
      + by apply list.Forall_forall.
      + apply list.Forall_forall. intros b Hb'. apply Hy. rewrite Eu. apply elem_of_app. by left.
    - replace (2 + length t1)%nat with (length (y :: t1 ++ [v])) in * by len. apply bim_dc_ok; try done; len.
  Qed.

  Lemma bim_ok cap fuel : rec_ok fuel cap (bim lt fuel cap).
  Proof.
    induction fuel as [|fuel IH]; intros P r1 r2 Q buf f m t c1 c2 Hf Hs1 Hs2 Hb Ef Em Et -> ->; [lia|].
    cbn [bim]. destruct (decide (r2 = [])) as [->|Hne].
    { rewrite decide_True by len. rewrite mergel_nil_r. eauto. }
    rewrite decide_False by (destruct r2; [done|len]).
    destruct (trims r1 r2 P Q f m t) as [[E1 E2]|(s1 & r1' & E1 & Hne1 & E2 & [(y & r2' & E3 & E4 & E5)|(y & t1 & v & t2 & E3 & E4 & E5 & E6)])]; try done.
    - rewrite E1. cbn [rbind]. rewrite E2, <-app_assoc. eauto.
    - rewrite E2. cbn [rbind]. cbv zeta. rewrite E4. cbn [rbind]. rewrite E5. 
      replace (full (P ++ r1 ++ r2 ++ Q)) with (full (P ++ s1) ++ full r1' ++ full [y] ++ full (r2' ++ Q)).
      2: { rewrite E1, E3, <-!full_app, <-!app_assoc. done. }
      rewrite rotate_one_right_ok by (rewrite ?E1 in Em; len). cbn [rbind].
      rewrite <-!full_app, <-!app_assoc. eauto.
    - rewrite E2. cbn [rbind]. cbv zeta. rewrite E4. cbn [rbind]. rewrite E6.
      pose proof (f_equal length E1) as L1. pose proof (f_equal length E3) as L2. rewrite !app_length in L1, L2.
      simpl length in L2. rewrite app_length in L2. simpl length in L2.
      assert (EF : full (P ++ r1 ++ r2 ++ Q) = full ((P ++ s1) ++ r1' ++ (y :: t1 ++ [v]) ++ (t2 ++ Q))).
      { rewrite E1, E3, <-!app_assoc. done. }
      rewrite E1 in Hs1. apply sorted_app' in Hs1 as (_ & Hs1 & _).
      rewrite E3 in Hs2. apply sorted_app' in Hs2 as (Hs2 & _ & _).
      case_decide as D.
      + destruct r1' as [|x [|? ?]]; [done| |exfalso; simpl in *; lia].
        rewrite EF, !full_app. change (full (y :: t1 ++ [v])) with (full (y :: t1 ++ [v])).
        rewrite <-!full_app. rewrite !(full_app (P ++ s1)), !(full_app [x]), !(full_app (y :: t1 ++ [v])).
        rewrite rotate_one_left_ok by (simpl in *; len). cbn [rbind].
        destruct E5 as (_ & u & z & Eu & Hz). destruct u as [|? [|? ?]]; try done. injection Eu as ->.
        rewrite (mergel_above lt SW [z]); [|done|done|].
        * rewrite <-!full_app, <-!app_assoc. eauto.
        * intros a b ->%elem_of_list_singleton Hb'. by apply Hz.
      + rewrite EF.
        replace (P ++ (s1 ++ mergel r1' (y :: t1 ++ [v]) ++ t2) ++ Q) with ((P ++ s1) ++ mergel r1' (y :: t1 ++ [v]) ++ t2 ++ Q) by (by rewrite <-!app_assoc).
        apply bim_impl_ok; try done; try len.
        * intros P0 a1 a2 Q0 b0 f0 m0 t0 k1 k2 Hk. apply IH. lia.
        * destruct r1' as [|? [|? ?]]; [done| |simpl; lia]. simpl in *. lia.
  Qed.

  Lemma inplace_merge_ok cap P r1 r2 Q f m t : sorted r1 -> sorted r2 ->
    f = length P -> m = (f + length r1)%nat -> t = (m + length r2)%nat ->
    inplace_merge lt cap (full (P ++ r1 ++ r2 ++ Q)) f m t = Ok (full (P ++ mergel r1 r2 ++ Q)).
  Proof.
    intros Hs1 Hs2 Ef Em Et. unfold inplace_merge. destruct (decide (r2 = [])) as [->|Hne].
    { rewrite decide_True by len. by rewrite mergel_nil_r. }
    rewrite decide_False by (destruct r2; [done|len]).
    destruct (trims r1 r2 P Q f m t) as [[E1 E2]|(s1 & r1' & E1 & Hne1 & E2 & [(y & r2' & E3 & E4 & E5)|(y & t1 & v & t2 & E3 & E4 & E5 & E6)])]; try done.
    - rewrite E1. cbn [rbind]. rewrite E2, <-app_assoc. done.
    - rewrite E2. cbn [rbind]. cbv zeta. rewrite E4. cbn [rbind]. rewrite E5. 
      replace (full (P ++ r1 ++ r2 ++ Q)) with (full (P ++ s1) ++ full r1' ++ full [y] ++ full (r2' ++ Q)).
      2: { rewrite E1, E3, <-!full_app, <-!app_assoc. done. }
      rewrite rotate_one_right_ok by (rewrite ?E1 in Em; len).
      rewrite <-!full_app, <-!app_assoc. done.
    - rewrite E2. cbn [rbind]. cbv zeta. rewrite E4. cbn [rbind]. rewrite E6.
      pose proof (f_equal length E1) as L1. pose proof (f_equal length E3) as L2. rewrite !app_length in L1, L2.
      simpl length in L2. rewrite app_length in L2. simpl length in L2.
      assert (EF : full (P ++ r1 ++ r2 ++ Q) = full ((P ++ s1) ++ r1' ++ (y :: t1 ++ [v]) ++ (t2 ++ Q))).
      { rewrite E1, E3, <-!app_assoc. done. }
      rewrite E1 in Hs1. apply sorted_app' in Hs1 as (_ & Hs1 & _).
      rewrite E3 in Hs2. apply sorted_app' in Hs2 as (Hs2 & _ & _).
      case_decide as D.
      + destruct r1' as [|x [|? ?]]; [done| |exfalso; simpl in *; lia].
        rewrite EF. rewrite !(full_app (P ++ s1)), !(full_app [x]), !(full_app (y :: t1 ++ [v])).
        rewrite rotate_one_left_ok by (simpl in *; len).
        destruct E5 as (_ & u & z & Eu & Hz). destruct u as [|? [|? ?]]; try done. injection Eu as ->.
        rewrite (mergel_above lt SW [z]); [|done|done|].
        * rewrite <-!full_app, <-!app_assoc. done.
        * intros a b ->%elem_of_list_singleton Hb'. by apply Hz.
      + rewrite EF.
        replace (P ++ (s1 ++ mergel r1' (y :: t1 ++ [v]) ++ t2) ++ Q) with ((P ++ s1) ++ mergel r1' (y :: t1 ++ [v]) ++ t2 ++ Q) by (by rewrite <-!app_assoc).
        edestruct (bim_impl_ok (bim lt (m + 2 + length t1 - (f + length s1)) cap) cap (P ++ s1) r1' y t1 v (t2 ++ Q) (empty cap)
          (f + length s1) m (m + 2 + length t1) (m - (f + length s1)) (m + 2 + length t1 - m)) as (b' & E & _); try done; try len.
        * intros P0 a1 a2 Q0 b0 f0 m0 t0 k1 k2 Hk. apply bim_ok. lia.
        * destruct r1' as [|? [|? ?]]; [done| |simpl; lia]. simpl in *. lia.
        * rewrite E. done.
  Qed.
End merge.
