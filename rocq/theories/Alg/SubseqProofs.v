From stdpp Require Import base list numbers.
From Coq Require Import Lia ZifyNat.
From Verif Require Import Base.Res Base.Arr Alg.SubseqModel Alg.SubseqSpec.

Section base.
  Context {B : Type}.
  Lemma wp_at (l : list B) i (Q : B -> Prop) : (i < length l)%nat -> (forall x, l !! i = Some x -> Q x) -> wp (at_ l i) Q.
  Proof. intros Hi H. unfold at_. destruct (lookup_lt_is_Some_2 l i Hi) as [x Hx]. rewrite Hx. by apply H. Qed.
  Lemma wp_set (l : list B) i x (Q : list B -> Prop) : (i < length l)%nat -> Q (<[i:=x]> l) -> wp (set_ l i x) Q.
  Proof. intros Hi H. unfold set_. by rewrite decide_True. Qed.
End base.

Section subseq.
  Context {A : Type} (eq : A -> A -> bool).
  Implicit Types (h p : list A).

  (* the first k elements of p match at i *)
  Definition matches h p (i k : nat) : Prop := forall j x y, (j < k)%nat -> h !! (i + j)%nat = Some x -> p !! j = Some y -> eq x y = true.

  Lemma matches_occurs h p i : (i + length p <= length h)%nat -> matches h p i (length p) -> occurs eq h p i.
  Proof. intros H1 H2. split; [done|]. intros k x y Hx Hy. eapply H2; [|done..]. by eapply lookup_lt_Some. Qed.
  Lemma mismatch_not_occurs h p i k x y : h !! (i + k)%nat = Some x -> p !! k = Some y -> eq x y = false -> ~ occurs eq h p i.
  Proof. intros Hx Hy E [_ H]. rewrite (H k x y) in E; done. Qed.

  Lemma equal_rev_pred_ok h p i : (i + length p <= length h)%nat ->
    wp (equal_rev_pred eq h i p) (fun b => if (b : bool) then occurs eq h p i else ~ occurs eq h p i).
  Proof.
    intros Hi. unfold equal_rev_pred.
    apply (wp_loop (fun '(f1, f2) => f1 = (i + f2)%nat /\ (f2 <= length p)%nat /\ matches h p i f2) (fun '(f1, f2) => length p - f2)%nat).
    2: { split; [lia|]. split; [lia|]. intros j x y Hj. lia. } 2: lia.
    intros [f1 f2] (-> & Hf2 & Hm). case_decide as D; simpl.
    2: { assert (f2 = length p) as -> by lia. by apply matches_occurs. }
    wbind. apply wp_at; [lia|]. intros x Hx. wbind. apply wp_at; [lia|]. intros y Hy.
    destruct (eq x y) eqn:E; simpl.
    - split; [|lia]. split; [lia|]. split; [lia|]. intros j x' y' Hj Hx' Hy'.
      destruct (decide (j = f2)) as [->|]; [congruence|]. apply (Hm j); [lia|done|done].
    - by eapply mismatch_not_occurs.
  Qed.

  Lemma search_ra_ok h p : wp (search_ra eq h p) (first_such h (occurs eq h p)).
  Proof.
    unfold search_ra. cbv zeta. case_decide as D.
    2: { simpl. right. split; [done|]. intros j [H _]. lia. }
    apply (wp_loop (fun i => (i <= length h - length p)%nat /\ forall j, (j < i)%nat -> ~ occurs eq h p j) (fun i => length h - i)%nat);
      [|split; [lia|intros j Hj; lia]|lia].
    intros i (Hi & Hn). wbind. eapply wp_mono; [apply equal_rev_pred_ok; lia|]. intros [|] Hb; simpl.
    - left. done.
    - case_decide as D2; simpl.
      + right. split; [done|]. intros j Hj. destruct (decide (j < i)%nat); [by apply (Hn j)|].
        destruct (decide (j = i)) as [->|]; [done|]. destruct Hj as [Hj _]. lia.
      + split; [|lia]. split; [lia|]. intros j Hj. destruct (decide (j = i)) as [->|]; [done|]. apply Hn. lia.
  Qed.

  Lemma search_fwd_ok h p : wp (search_fwd eq h p) (first_such h (occurs eq h p)).
  Proof.
    unfold search_fwd.
    apply (wp_loop (fun i => (i <= length h)%nat /\ forall j, (j < i)%nat -> ~ occurs eq h p j) (fun i => length h - i)%nat);
      [|split; [lia|intros j Hj; lia]|lia].
    intros i (Hi & Hn). wbind.
    apply (wp_loop (fun '(f1, f2) => f1 = (i + f2)%nat /\ (f2 <= length p)%nat /\ (f1 <= length h)%nat /\ matches h p i f2) (fun '(f1, f2) => length p - f2)%nat).
    2: { split; [lia|]. split; [lia|]. split; [lia|]. intros j x y Hj. lia. } 2: lia.
    intros [f1 f2] (-> & Hf2 & Hf1 & Hm). case_decide as D; [|case_decide as D2]; simpl.
    - left. split; [|done]. apply matches_occurs; [lia|]. by rewrite <-D.
    - right. split; [done|]. intros j Hj. destruct (decide (j < i)%nat); [by apply (Hn j)|].
      destruct Hj as [Hj _]. lia.
    - wbind. apply wp_at; [lia|]. intros x Hx. wbind. apply wp_at; [lia|]. intros y Hy.
      destruct (eq x y) eqn:E; simpl.
      + split; [|lia]. split; [lia|]. split; [lia|]. split; [lia|]. intros j x' y' Hj Hx' Hy'.
        destruct (decide (j = f2)) as [->|]; [congruence|]. apply (Hm j); [lia|done|done].
      + split; [|lia]. split; [lia|]. intros j Hj. destruct (decide (j = i)) as [->|]; [by eapply mismatch_not_occurs|]. apply Hn. lia.
  Qed.

  Lemma find_end_ra_ok h p : wp (find_end_ra eq h p) (last_such h (occurs eq h p)).
  Proof.
    unfold find_end_ra. cbv zeta. case_decide as D.
    2: { simpl. destruct (decide (length p = 0)%nat) as [E|E].
         - left. destruct p; [|done]. split; [split; [simpl; lia|done]|]. intros j Hj [H _]. simpl in H. lia.
         - right. split; [done|]. intros j [H _]. lia. }
    apply (wp_loop (fun i => (i <= length h - length p)%nat /\ forall j, (i < j)%nat -> ~ occurs eq h p j) (fun i => i)%nat);
      [|split; [lia|intros j Hj [H _]; lia]|lia].
    intros i (Hi & Hn). wbind. eapply wp_mono; [apply equal_rev_pred_ok; lia|]. intros [|] Hb; simpl.
    - left. done.
    - case_decide as D2; simpl.
      + right. split; [done|]. intros j Hj. destruct (decide (j = i)) as [->|]; [done|]. apply (Hn j); [lia|done].
      + wbind. apply wp_decr; [lia|]. simpl. split; [|lia]. split; [lia|]. intros j Hj.
        destruct (decide (j = i)) as [->|]; [done|]. apply Hn. lia.
  Qed.

  Lemma find_end_bidi_ok h p : wp (find_end_bidi eq h p) (last_such h (occurs eq h p)).
  Proof.
    unfold find_end_bidi.
    apply (wp_loop (fun c => (c <= length h)%nat /\ forall j, (c < j + length p)%nat -> ~ occurs eq h p j) (fun c => c)%nat);
      [|split; [lia|intros j Hj [H _]; lia]|lia].
    intros c (Hc & Hn). wbind.
    apply (wp_loop (fun '(n1, n2) => (n1 + length p = c + n2)%nat /\ (n2 <= length p)%nat /\
        forall j x y, (n2 <= j)%nat -> h !! (n1 + (j - n2))%nat = Some x -> p !! j = Some y -> eq x y = true) (fun '(n1, n2) => n2)).
    2: { split; [lia|]. split; [lia|]. intros j x y Hj _ Hy. apply lookup_lt_Some in Hy. lia. } 2: lia.
    intros [n1 n2] (Hn1 & Hn2 & Hm). case_decide as D; [|case_decide as D2]; simpl.
    - subst n2. left. split.
      + split; [lia|]. intros k x y Hx Hy. apply (Hm k x y); [lia| |done]. by replace (k - 0)%nat with k by lia.
      + intros j Hj. apply Hn. lia.
    - right. split; [done|]. intros j Hj. destruct (decide (c < j + length p)%nat); [by apply (Hn j)|]. lia.
    - wbind. apply wp_decr; [lia|]. wbind. apply wp_decr; [lia|]. wbind. apply wp_at; [lia|]. intros x Hx. wbind. apply wp_at; [lia|]. intros y Hy.
      destruct (eq x y) eqn:E; simpl.
      + split; [|lia]. split; [lia|]. split; [lia|]. intros j x' y' Hj Hx' Hy'.
        destruct (decide (j = n2 - 1)%nat) as [->|].
        { rewrite Nat.sub_diag, Nat.add_0_r in Hx'. congruence. }
        apply (Hm j); [lia| |done]. rewrite <-Hx'. f_equal. lia.
      + assert (Hno : (length p <= c)%nat -> ~ occurs eq h p (c - length p)).
        { intros Hpc [H1 H2]. rewrite (H2 (n2 - 1)%nat x y) in E; [done| |done]. rewrite <-Hx. f_equal. lia. }
        destruct (decide (c = 0)) as [->|]. { lia. }
        wbind. apply wp_decr; [lia|]. simpl. split; [|lia]. split; [lia|]. intros j Hj.
        destruct (decide (c = j + length p)%nat) as [->|]. { replace (j + length p - length p)%nat with j in Hno by lia. apply Hno. lia. }
        apply Hn. lia.
  Qed.

  Lemma find_end_fwd_ok h p : wp (find_end_fwd eq h p) (last_such h (occurs eq h p)).
  Proof.
    unfold find_end_fwd.
    (* result is the last occurrence before first1, or |h| *)
    set (best := fun (i r : nat) => (occurs eq h p r /\ (r < i)%nat /\ forall j, (r < j < i)%nat -> ~ occurs eq h p j) \/
                              (r = length h /\ forall j, (j < i)%nat -> ~ occurs eq h p j)).
    assert (Hbest : forall i r, (forall j, (i <= j)%nat -> ~ occurs eq h p j) -> best i r -> last_such h (occurs eq h p) r).
    { intros i r Hi [(H1 & H2 & H3)|[-> H3]]; [left|right]; (split; [done|]); intros j.
      - intros Hj. destruct (decide (j < i)%nat); [apply H3; lia|apply Hi; lia].
      - destruct (decide (j < i)%nat); [apply H3; lia|apply Hi; lia]. }
    apply (wp_loop (fun '(i, r) => (i <= length h)%nat /\ best i r) (fun '(i, r) => length h - i)%nat);
      [|split; [lia|]; right; split; [done|]; intros j Hj; lia|lia].
    intros [i r0] (Hi & Hr0). wbind.
    apply (wp_loop (fun '(f1, f2, r) => r = r0 /\ f1 = (i + f2)%nat /\ (f2 <= length p)%nat /\ (f1 <= length h)%nat /\ matches h p i f2) (fun '(f1, f2, _) => length p - f2)%nat).
    2: { split; [done|]. split; [lia|]. split; [lia|]. split; [lia|]. intros j x y Hj. lia. } 2: lia.
    intros [[f1 f2] r] (-> & -> & Hf2 & Hf1 & Hm). cbv zeta.
    destruct (bool_decide (f2 = length p)) eqn:Eb; destruct (decide (i + f2 = length h)%nat) as [D|D]; simpl.
    - apply bool_decide_eq_true in Eb. left. split; [apply matches_occurs; [lia|by rewrite <-Eb]|].
      intros j Hj [H _]. lia.
    - apply bool_decide_eq_true in Eb.
      assert (Ho : occurs eq h p i) by (apply matches_occurs; [lia|by rewrite <-Eb]).
      destruct (decide (i = length h)) as [->|]; [lia|].
      split; [|lia]. split; [lia|]. left. split; [done|]. split; [lia|]. intros j Hj. lia.
    - apply bool_decide_eq_false in Eb. apply (Hbest i); [|done]. intros j Hj [H _]. lia.
    - apply bool_decide_eq_false in Eb.
      wbind. apply wp_at; [lia|]. intros x Hx. wbind. apply wp_at; [lia|]. intros y Hy.
      destruct (eq x y) eqn:E; simpl.
      + split; [|lia]. split; [done|]. split; [lia|]. split; [lia|]. split; [lia|]. intros j x' y' Hj Hx' Hy'.
        destruct (decide (j = f2)) as [->|]; [congruence|]. apply (Hm j); [lia|done|done].
      + split; [|lia]. split; [lia|].
        assert (Hno : ~ occurs eq h p i) by (by eapply mismatch_not_occurs).
        destruct Hr0 as [(H1 & H2 & H3)|[-> H3]]; [left|right].
        * split; [done|]. split; [lia|]. intros j Hj. destruct (decide (j = i)) as [->|]; [done|]. apply H3. lia.
        * split; [done|]. intros j Hj. destruct (decide (j = i)) as [->|]; [done|]. apply H3. lia.
  Qed.
End subseq.

Section search_n.
  Context {A : Type} (q : A -> bool).
  Implicit Types (h : list A).

  Lemma not_run h n i k x : h !! k = Some x -> q x = false -> (i <= k)%nat -> (k < i + n)%nat -> ~ run_at q h n i.
  Proof.
    intros Hx Hq H1 H2 [_ H]. rewrite (H (k - i)%nat x) in Hq; [done|lia|]. rewrite <-Hx. f_equal. lia.
  Qed.

  Lemma find_val_ok h : wp (find_val q h) (first_such h (run_at q h 1)).
  Proof.
    unfold find_val.
    apply (wp_loop (fun i => (i <= length h)%nat /\ forall j, (j < i)%nat -> ~ run_at q h 1 j) (fun i => length h - i)%nat);
      [|split; [lia|intros j Hj; lia]|lia].
    intros i (Hi & Hn). case_decide as D; simpl.
    - wbind. apply wp_at; [lia|]. intros x Hx. destruct (q x) eqn:E; simpl.
      + left. split; [|done]. split; [lia|]. intros k x' Hk Hx'. replace (i + k)%nat with i in Hx' by lia. congruence.
      + split; [|lia]. split; [lia|]. intros j Hj. destruct (decide (j = i)) as [->|]; [|apply Hn; lia]. eapply (not_run h 1 i i); [done|done|lia|lia].
    - right. split; [lia|]. intros j Hj. destruct (decide (j < i)%nat); [by apply (Hn j)|]. destruct Hj as [Hj _]. lia.
  Qed.

  Lemma run_zero h : first_such h (run_at q h 0) 0.
  Proof. left. split; [|lia]. split; [lia|]. lia. Qed.

  Lemma search_n_ra_ok eqto h n : wp (search_n_ra q eqto h n) (first_such h (run_at q h n)).
  Proof.
    unfold search_n_ra. case_decide as D0. { subst. apply run_zero. }
    destruct (eqto && bool_decide (n = 1%nat)) eqn:E1.
    { apply andb_prop in E1 as [_ ->%bool_decide_eq_true]. apply find_val_ok. }
    clear E1. cbv zeta.
    apply (wp_loop (fun '(o, inc) => (inc <= n - 1)%nat /\ forall j, (j < o)%nat -> ~ run_at q h n j) (fun '(o, inc) => S (length h) - o)%nat);
      [|split; [lia|intros j Hj; lia]|lia].
    intros [o inc] (Hinc & Hn). case_decide as D.
    2: { simpl. right. split; [done|]. intros j Hj. destruct (decide (j < o)%nat); [by apply (Hn j)|]. destruct Hj as [Hj _]. lia. }
    wbind. apply wp_at; [lia|]. intros x Hx. destruct (q x) eqn:Eq.
    2: { simpl. split; [|lia]. split; [lia|]. intros j Hj. destruct (decide (j < o)%nat); [by apply Hn|]. eapply (not_run h n j (o + inc)%nat); [done|done|lia|lia]. }
    wbind.
    (* backing up *)
    apply (wp_loop (fun '(f, c) => (o <= f)%nat /\ (f <= o + inc)%nat /\ (c + (o + inc) = n + f)%nat /\
       forall k y, (f <= k <= o + inc)%nat -> h !! k = Some y -> q y = true) (fun '(f, c) => f - o)%nat).
    2: { split; [lia|]. split; [lia|]. split; [lia|]. intros k y Hk Hy. replace k with (o + inc)%nat in Hy by lia. congruence. } 2: lia.
    intros [f c] (Hf1 & Hf2 & Hc & Hr).
    assert (Rest : (o = f \/ exists y, h !! (f - 1)%nat = Some y /\ (o < f)%nat /\ q y = false) ->
      wp ('(mid, found) <~
                 (if decide (o + inc + c <= length h)%nat then
                    loop (S n)
                      (fun '(mid, count1) =>
                         count1 <~ decr count1 ;;
                         if decide (count1 = 0%nat) then Ok (inr (mid, true))
                         else
                           y <~ at_ h (S mid) ;;
                           if negb (q y) then Ok (inr (S mid, false)) else Ok (inl (S mid, count1)))
                      (o + inc, c)%nat
                  else Ok ((o + inc)%nat, false)) ;;
               if (found : bool) then Ok (inr f) else Ok (inl (S mid, 0%nat)))
       (fun r => match r with
          | inl s' => (let '(o', inc') := s' in (inc' <= n - 1)%nat /\ (forall j, (j < o')%nat -> ~ run_at q h n j)) /\
                      ((let '(o', _) := s' in S (length h) - o') < S (length h) - o)%nat
          | inr r => first_such h (run_at q h n) r end)).
    { intros Hstop.
      assert (Hdead : forall j, (j < f)%nat -> ~ run_at q h n j).
      { intros j Hj. destruct (decide (j < o)%nat); [by apply Hn|]. destruct Hstop as [->|(y & Hy & Hof & Hq)]; [lia|].
        eapply (not_run h n j (f - 1)%nat); [done|done|lia|lia]. }
      case_decide as D2.
      2: { simpl. split; [|lia]. split; [lia|]. intros j Hj. destruct (decide (j < f)%nat); [by apply Hdead|]. intros [Hx' _]. lia. }
      wbind.
      apply (wp_loop (fun '(mid, c1) => (o + inc <= mid)%nat /\ (1 <= c1)%nat /\ (c1 + mid = n + f)%nat /\ (mid < length h)%nat /\
        forall k y, (f <= k <= mid)%nat -> h !! k = Some y -> q y = true) (fun '(mid, c1) => c1)).
      2: { split; [lia|]. split; [lia|]. split; [lia|]. split; [lia|]. done. } 2: lia.
      intros [mid c1] (Hm1 & Hc1 & Hcm & Hml & Hr'). wbind. apply wp_decr; [lia|]. case_decide as D3; simpl.
      - left. split; [|done]. split; [lia|]. intros k y Hk Hy. apply (Hr' (f + k)%nat); [lia|done].
      - wbind. apply wp_at; [lia|]. intros y Hy. destruct (q y) eqn:Ey; simpl.
        + split; [|lia]. split; [lia|]. split; [lia|]. split; [lia|]. split; [lia|]. intros k z Hk Hz.
          destruct (decide (k = S mid)) as [->|]; [congruence|]. apply (Hr' k); [lia|done].
        + split; [|lia]. split; [lia|]. intros j Hj. destruct (decide (j < f)%nat); [by apply Hdead|].
          eapply (not_run h n j (S mid)); [done|done|lia|lia]. }
    destruct (decide (o <> f)) as [Dc|Dc].
    - wbind. apply wp_decr; [lia|]. wbind. apply wp_at; [lia|]. intros y Hy. destruct (q y) eqn:Ey; simpl.
      + split; [|lia]. split; [lia|]. split; [lia|]. split; [lia|]. intros k z Hk Hz.
        destruct (decide (k = f - 1)%nat) as [->|]; [congruence|]. apply (Hr k); [lia|done].
      + apply Rest. right. exists y. split; [done|]. split; [lia|done].
    - simpl. apply Rest. left. lia.
  Qed.

  Lemma search_n_fwd_ok eqto h n : wp (search_n_fwd q eqto h n) (first_such h (run_at q h n)).
  Proof.
    unfold search_n_fwd. case_decide as D0. { subst. apply run_zero. }
    destruct (eqto && bool_decide (n = 1%nat)) eqn:E1.
    { apply andb_prop in E1 as [_ ->%bool_decide_eq_true]. apply find_val_ok. }
    clear E1. cbv zeta.
    apply (wp_loop (fun i => (i <= length h)%nat /\ forall j, (j < i)%nat -> ~ run_at q h n j) (fun i => length h - i)%nat);
      [|split; [lia|intros j Hj; lia]|lia].
    intros i (Hi & Hn). case_decide as D.
    2: { simpl. right. split; [done|]. intros j Hj. destruct (decide (j < i)%nat); [by apply (Hn j)|]. destruct Hj as [Hj _]. lia. }
    wbind. apply wp_at; [lia|]. intros x Hx. destruct (q x) eqn:Eq.
    2: { simpl. split; [|lia]. split; [lia|]. intros j Hj. destruct (decide (j < i)%nat); [by apply Hn|]. eapply (not_run h n j i); [done|done|lia|lia]. }
    wbind.
    apply (wp_loop (fun '(mid, c1) => (i <= mid)%nat /\ (1 <= c1)%nat /\ (c1 + mid = n + i)%nat /\ (mid < length h)%nat /\
        forall k y, (i <= k <= mid)%nat -> h !! k = Some y -> q y = true) (fun '(mid, c1) => c1)).
    2: { split; [lia|]. split; [lia|]. split; [lia|]. split; [lia|]. intros k y Hk Hy. replace k with i in Hy by lia. congruence. } 2: lia.
    intros [mid c1] (Hm1 & Hc1 & Hcm & Hml & Hr'). wbind. apply wp_decr; [lia|]. case_decide as D3; [|case_decide as D4]; simpl.
    - left. split; [|done]. split; [lia|]. intros k y Hk Hy. apply (Hr' (i + k)%nat); [lia|done].
    - right. split; [done|]. intros j Hj. destruct (decide (j < i)%nat); [by apply (Hn j)|]. destruct Hj as [Hj _]. lia.
    - wbind. apply wp_at; [lia|]. intros y Hy. destruct (q y) eqn:Ey; simpl.
      + split; [|lia]. split; [lia|]. split; [lia|]. split; [lia|]. split; [lia|]. intros k z Hk Hz.
        destruct (decide (k = S mid)) as [->|]; [congruence|]. apply (Hr' k); [lia|done].
      + split; [|lia]. split; [lia|]. intros j Hj. destruct (decide (j < i)%nat); [by apply Hn|].
        eapply (not_run h n j (S mid)); [done|done|lia|lia].
  Qed.
End search_n.
