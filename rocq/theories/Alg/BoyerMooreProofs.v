(** The Boyer-Moore tables are safe and the searches find the first occurrence. Indices of the table construction are
    1-based as in the code (Knuth-Morris-Pratt's dd' with Rytter's correction). *)
From stdpp Require Import base list numbers.
From stdpp Require Import list_numbers.
From Coq Require Import Lia ZifyNat.
From Verif Require Import Base.Res Base.Arr Alg.SubseqModel Alg.SubseqSpec Alg.SubseqProofs.

Record Equivalence_b {A} (eq : A -> A -> bool) : Prop := {
  eqb_refl' : forall x, eq x x = true;
  eqb_sym' : forall x y, eq x y = true -> eq y x = true;
  eqb_trans' : forall x y z, eq x y = true -> eq y z = true -> eq x z = true }.

Section bm.
  Context {A : Type} (eq : A -> A -> bool) (EQ : Equivalence_b eq).
  Implicit Types (h p : list A).

  Lemma eqf_l x y z : eq x y = true -> eq x z = false -> eq y z = false.
  Proof. intros H1 H2. destruct (eq y z) eqn:E; [|done]. by rewrite (eqb_trans' _ EQ _ _ _ H1 E) in H2. Qed.
  Lemma eqf_sym x y : eq x y = false -> eq y x = false.
  Proof. intros H. destruct (eq y x) eqn:E; [|done]. apply (eqb_sym' _ EQ) in E. congruence. Qed.

  (** delta_1 *)
  Lemma map_find_ins m k v k' : map_find eq (insert_or_assign eq m k v) k' = if eq k k' then Some v else map_find eq m k'.
  Proof.
    induction m as [|[a b] m IH]; simpl; [done|].
    destruct (eq a k) eqn:E1; simpl.
    - destruct (eq a k') eqn:E2, (eq k k') eqn:E3; try done.
      + apply (eqb_sym' _ EQ) in E1. rewrite (eqb_trans' _ EQ _ _ _ E1 E2) in E3. done.
      + rewrite (eqb_trans' _ EQ _ _ _ E1 E3) in E2. done.
    - rewrite IH. destruct (eq a k') eqn:E2, (eq k k') eqn:E3; try done.
      apply (eqb_sym' _ EQ) in E3. rewrite (eqb_trans' _ EQ _ _ _ E2 E3) in E1. done.
  Qed.
  Lemma delta1_fill_none p : forall m size idx v, (forall k x, p !! k = Some x -> eq x v = false) ->
    map_find eq (delta1_fill eq m size idx p) v = map_find eq m v.
  Proof.
    induction p as [|a p IH]; intros m size idx v H; simpl; [done|].
    rewrite IH by (intros k x Hx; by apply (H (S k))). rewrite map_find_ins. by rewrite (H 0%nat a).
  Qed.
  Lemma delta1_fill_some p : forall m size idx v k x, p !! k = Some x -> eq x v = true ->
    (forall k' y, (k < k')%nat -> p !! k' = Some y -> eq y v = false) ->
    map_find eq (delta1_fill eq m size idx p) v = Some (size - (idx + k))%nat.
  Proof.
    induction p as [|a p IH]; intros m size idx v k x Hx Hv H; [done|]. simpl.
    destruct k as [|k].
    - injection Hx as ->. rewrite delta1_fill_none.
      + rewrite map_find_ins, Hv. f_equal. lia.
      + intros k y Hy. apply (H (S k)); [lia|done].
    - rewrite (IH _ _ _ _ k x); [f_equal; lia|done|done|]. intros k' y Hk' Hy. apply (H (S k') y); [lia|done].
  Qed.
  (* the last position matching v, if any *)
  Lemma last_match p v : (forall k x, p !! k = Some x -> eq x v = false) \/
    (exists k x, p !! k = Some x /\ eq x v = true /\ forall k' y, (k < k')%nat -> p !! k' = Some y -> eq y v = false).
  Proof.
    induction p as [|a p IH].
    { left. intros k x Hx. done. }
    destruct IH as [IH|(k & x & Hx & Hv & H)].
    - destruct (eq a v) eqn:E.
      + right. exists 0%nat, a. split; [done|]. split; [done|]. intros [|k'] y Hk Hy; [lia|]. by apply (IH k').
      + left. intros [|k] x Hx; [simpl in Hx; congruence|]. by apply (IH k).
    - right. exists (S k), x. split; [done|]. split; [done|]. intros [|k'] y Hk Hy; [lia|]. apply (H k'); [lia|done].
  Qed.
  Lemma delta1_ok p v (d : nat) : d = delta1_lookup eq p (delta1_table eq p) v -> p <> [] ->
    (d <= length p)%nat /\
    (forall k x, p !! k = Some x -> eq x v = true -> (d + k + 1 <= length p)%nat) /\
    (d = 0%nat -> forall x, p !! (length p - 1)%nat = Some x -> eq x v = true).
  Proof.
    intros -> Hp. unfold delta1_lookup, delta1_table.
    assert (Hpl : (0 < length p)%nat) by (destruct p; [done|simpl; lia]).
    destruct (last_match p v) as [H|(k & x & Hx & Hv & H)].
    - rewrite delta1_fill_none by done. simpl. split; [lia|]. split.
      + intros k x Hx Hv. by rewrite (H k x Hx) in Hv.
      + lia.
    - rewrite (delta1_fill_some p _ _ _ v k x) by done. apply lookup_lt_Some in Hx as Hk. split; [lia|]. split.
      + intros k' x' Hx' Hv'. destruct (decide (k < k')%nat); [by rewrite (H k' x') in Hv'|]. lia.
      + intros Hd x' Hx'. assert (k = length p - 1)%nat as -> by lia. congruence.
  Qed.

  (** what delta_2 must guarantee. A shift [s] is plausible after a mismatch at [idx] if the shifted pattern agrees with
      the matched suffix and disagrees at the mismatch. *)
  Definition plausible p (idx s : nat) : Prop :=
    (forall k x y, (idx < k)%nat -> (s <= k)%nat -> p !! (k - s)%nat = Some x -> p !! k = Some y -> eq x y = true) /\
    ((s <= idx)%nat -> forall x y, p !! (idx - s)%nat = Some x -> p !! idx = Some y -> eq x y = false).
  Definition good_delta2 p (d2 : list nat) : Prop :=
    length d2 = length p /\ forall idx d, d2 !! idx = Some d ->
      (length p <= d + idx)%nat /\ (forall s, (1 <= s)%nat -> plausible p idx s -> (d + idx + 1 <= s + length p)%nat).

  (** the search *)
  Lemma boyer_moore_search_ok h p d2 : good_delta2 p d2 ->
    wp (boyer_moore_search eq h p (delta1_table eq p) d2) (first_such h (occurs eq h p)).
  Proof.
    intros [Hd2l Hd2]. unfold boyer_moore_search. cbv zeta. case_decide as D0.
    { simpl. destruct p; [|done]. left. split; [|lia]. split; [simpl; lia|]. done. }
    remember (length p) as m eqn:Em.
    apply (wp_loop (fun '(f, s) => (m - 1 <= f + s)%nat /\ forall j, occurs eq h p j -> (f + s + 1 <= j + m)%nat) (fun '(f, s) => length h - (f + s))%nat);
      [|split; [lia|intros j Hj; lia]|lia].
    intros [f s] (He & Hinv). case_decide as D.
    2: { simpl. right. split; [done|]. intros j Hj. specialize (Hinv j Hj). destruct Hj as [Hj _]. lia. }
    remember (f + s)%nat as e eqn:Ee. wbind. apply wp_at; [lia|]. intros x Hx.
    assert (Hne : p <> []) by (destruct p; [simpl in Em; lia|done]).
    destruct (delta1_ok p x _ eq_refl Hne) as (Hd1 & Hd2' & Hd3). rewrite <-Em in *.
    (* delta1 of the character at any position g is safe for occurrences whose window covers or follows g *)
    assert (Hsafe1 : forall g v j, h !! g = Some v -> occurs eq h p j -> (g + 1 <= j + m)%nat ->
      (g + delta1_lookup eq p (delta1_table eq p) v + 1 <= j + m)%nat).
    { intros g v j Hg Hj Hgj. destruct (delta1_ok p v _ eq_refl Hne) as (Ha & Hb & _). rewrite <-Em in *.
      destruct (decide (g < j)%nat); [lia|].
      destruct (lookup_lt_is_Some_2 p (g - j)) as [y Hy]; [lia|].
      specialize (Hb (g - j)%nat y Hy). destruct Hj as [_ Hj].
      specialize (Hj (g - j)%nat v y). replace (j + (g - j))%nat with g in Hj by lia. specialize (Hj Hg Hy).
      apply (eqb_sym' _ EQ) in Hj. specialize (Hb Hj). lia. }
    case_decide as Dd.
    2: { simpl. split; [|lia]. split; [lia|]. intros j Hj. apply (Hsafe1 e x j); [done|done|by apply Hinv]. }
    specialize (Hd3 Dd). wbind.
    apply (wp_loop (fun '(g, idx) => (g + (m - 1) = e + idx)%nat /\ (idx <= m - 1)%nat /\
       forall k u w, (idx <= k)%nat -> h !! (g + (k - idx))%nat = Some u -> p !! k = Some w -> eq u w = true) (fun '(g, idx) => idx)).
    2: { split; [lia|]. split; [lia|]. intros k u w Hk Hu Hw. apply lookup_lt_Some in Hw as Hkm. assert (k = m - 1)%nat as -> by lia.
         replace (e + (m - 1 - (m - 1)))%nat with e in Hu by lia. rewrite Hx in Hu. injection Hu as <-. apply (eqb_sym' _ EQ). by apply Hd3. }
    2: lia.
    intros [g idx] (Hg & Hidx & Hm). case_decide as Di.
    { simpl. subst idx. left. split.
      - split; [lia|]. intros k u w Hu Hw. apply (Hm k u w); [lia| |done]. by replace (k - 0)%nat with k by lia.
      - intros j Hj Ho. specialize (Hinv j Ho). lia. }
    wbind. apply wp_decr; [lia|]. wbind. apply wp_decr; [lia|].
    wbind. apply wp_at; [lia|]. intros u Hu. wbind. apply wp_at; [lia|]. intros w Hw.
    destruct (eq u w) eqn:Euw.
    - simpl. split; [|lia]. split; [lia|]. split; [lia|]. intros k u' w' Hk Hu' Hw'.
      destruct (decide (k = idx - 1)%nat) as [->|].
      { rewrite Nat.sub_diag, Nat.add_0_r in Hu'. congruence. }
      apply (Hm k); [lia| |done]. rewrite <-Hu'. f_equal. lia.
    - simpl. wbind. apply wp_at; [lia|]. intros u' Hu'. assert (u' = u) as -> by congruence. wbind. apply wp_at; [lia|]. intros d Hd. simpl.
      destruct (Hd2 _ _ Hd) as [Hlb Hub]. split; [|lia]. split; [lia|]. intros j Hj.
      pose proof (Hinv j Hj) as Hje.
      assert (Hj0 : (e + 1 <> j + m)%nat).
      { intros Ej. destruct Hj as [_ Hj]. specialize (Hj (idx - 1)%nat u w). replace (j + (idx - 1))%nat with (g - 1)%nat in Hj by lia.
        rewrite (Hj Hu Hw) in Euw. done. }
      pose proof (Hsafe1 (g - 1)%nat u j Hu Hj ltac:(lia)) as HA.
      assert (HB : (g - 1 + d + 1 <= j + m)%nat).
      { assert (Hpl : plausible p (idx - 1) (j + m - 1 - e)).
        { destruct Hj as [Hjl Hj]. split.
          - intros k a b Hk1 Hk2 Ha Hb. apply lookup_lt_Some in Hb as Hkm.
            destruct (lookup_lt_is_Some_2 h (g + (k - idx))) as [c Hc]; [lia|].
            pose proof (Hm k c b ltac:(lia) Hc Hb) as H1.
            pose proof (Hj (k - (j + m - 1 - e))%nat c a) as H2. replace (j + (k - (j + m - 1 - e)))%nat with (g + (k - idx))%nat in H2 by lia.
            specialize (H2 Hc Ha). apply (eqb_sym' _ EQ) in H2. by apply (eqb_trans' _ EQ _ c).
          - intros Hs a b Ha Hb. assert (b = w) as -> by congruence.
            pose proof (Hj (idx - 1 - (j + m - 1 - e))%nat u a) as H2.
            replace (j + (idx - 1 - (j + m - 1 - e)))%nat with (g - 1)%nat in H2 by lia.
            specialize (H2 Hu Ha). by apply (eqf_l u). }
        specialize (Hub (j + m - 1 - e)%nat ltac:(lia) Hpl). lia. }
      lia.
  Qed.

  Lemma boyer_moore_horspool_ok h p : wp (boyer_moore_horspool_searcher eq h p) (first_such h (occurs eq h p)).
  Proof.
    unfold boyer_moore_horspool_searcher. cbv zeta. case_decide as D0.
    { simpl. destruct p; [|done]. left. split; [|lia]. split; [simpl; lia|]. done. }
    remember (length p) as m eqn:Em.
    apply (wp_loop (fun '(f, s) => (m - 1 <= f + s)%nat /\ forall j, occurs eq h p j -> (f + s + 1 <= j + m)%nat) (fun '(f, s) => length h - (f + s))%nat);
      [|split; [lia|intros j Hj; lia]|lia].
    intros [f s] (He & Hinv). case_decide as D.
    2: { simpl. right. split; [done|]. intros j Hj. specialize (Hinv j Hj). destruct Hj as [Hj _]. lia. }
    remember (f + s)%nat as e eqn:Ee. wbind. apply wp_at; [lia|]. intros x Hx.
    assert (Hne : p <> []) by (destruct p; [simpl in Em; lia|done]).
    destruct (delta1_ok p x _ eq_refl Hne) as (Hd1 & Hd2' & Hd3). rewrite <-Em in *.
    case_decide as Dd.
    2: { simpl. split; [|lia]. split; [lia|]. intros j Hj. specialize (Hinv j Hj).
         destruct (decide (e < j)%nat); [lia|].
         destruct (lookup_lt_is_Some_2 p (e - j)) as [y Hy]; [lia|].
         destruct Hj as [_ Hj]. specialize (Hj (e - j)%nat x y). replace (j + (e - j))%nat with e in Hj by lia.
         specialize (Hj Hx Hy). apply (eqb_sym' _ EQ) in Hj. specialize (Hd2' _ _ Hy Hj). lia. }
    specialize (Hd3 Dd). wbind. remember (e - (m - 1))%nat as c eqn:Ec.
    apply (wp_loop (fun '(i, j) => (j = c + i)%nat /\ (i <= m - 1)%nat /\ matches eq h p c i) (fun '(i, j) => m - i)%nat).
    2: { split; [lia|]. split; [lia|]. intros j u w Hj. lia. } 2: lia.
    intros [i j] (-> & Hi & Hm). case_decide as Di.
    - wbind. apply wp_at; [lia|]. intros u Hu. wbind. apply wp_at; [lia|]. intros w Hw. destruct (eq u w) eqn:Euw.
      + simpl. split; [|lia]. split; [lia|]. split; [lia|]. intros k a b Hk Ha Hb.
        destruct (decide (k = i)) as [->|]; [|apply (Hm k); [lia|done|done]]. apply (eqb_sym' _ EQ). congruence.
      + simpl. split; [|lia]. split; [lia|]. intros j Hj. specialize (Hinv j Hj).
        assert (j <> c). { intros ->. destruct Hj as [_ Hj]. specialize (Hj i w u Hw Hu). apply (eqb_sym' _ EQ) in Hj. congruence. }
        lia.
    - assert (i = m - 1)%nat as -> by lia. simpl. left. split.
      + apply matches_occurs; [lia|]. intros k a b Hk Ha Hb. destruct (decide (k = m - 1)%nat) as [->|]; [|apply (Hm k); [lia|done|done]].
        replace (c + (m - 1))%nat with e in Ha by lia. assert (a = x) as -> by congruence. apply (eqb_sym' _ EQ). by apply Hd3.
      + intros j Hj Ho. specialize (Hinv j Ho). lia.
  Qed.

  (** construction of delta_2 *)
  Section delta2.
    Context (p : list A).
    Notation m := (length p).
    (* p_j and p_t (1-based) are equal *)
    Definition e (j t : nat) : Prop := forall x y, p !! (j - 1)%nat = Some x -> p !! (t - 1)%nat = Some y -> eq x y = true.
    Definition rng (j : nat) : Prop := (1 <= j <= m)%nat.
    Lemma e_sym j t : e j t -> e t j.
    Proof. intros H x y Hx Hy. apply (eqb_sym' _ EQ). by apply H. Qed.
    Lemma e_trans j t u : rng t -> e j t -> e t u -> e j u.
    Proof.
      intros Ht H1 H2 x y Hx Hy. destruct (lookup_lt_is_Some_2 p (t - 1)) as [z Hz]; [unfold rng in Ht; lia|].
      eapply (eqb_trans' _ EQ); eauto.
    Qed.
    Lemma e_true j t x y : p !! (j - 1)%nat = Some x -> p !! (t - 1)%nat = Some y -> eq x y = true -> e j t.
    Proof. intros Hx Hy H x' y' Hx' Hy'. congruence. Qed.
    Lemma e_false j t x y : p !! (j - 1)%nat = Some x -> p !! (t - 1)%nat = Some y -> eq x y = false -> ~ e j t.
    Proof. intros Hx Hy H He. rewrite (He x y Hx Hy) in H. done. Qed.

    (* p(t+1..m) = p(j+1..j+m-t) *)
    Definition bord (j t : nat) : Prop := forall d, (1 <= d)%nat -> (d + t <= m)%nat -> e (j + d) (t + d).
    Definition minb (j t : nat) : Prop := (j < t)%nat /\ (t <= m)%nat /\ bord j t /\ forall t', (j < t' < t)%nat -> ~ bord j t'.
    Definition isF (j t : nat) : Prop := if decide (j = m) then t = S m else minb j t.
    Lemma bord_trans j t u : (j < t)%nat -> (t < u)%nat -> bord j t -> bord t u -> bord j u.
    Proof. intros Hjt Htu H1 H2 d Hd1 Hd2. apply (e_trans _ (t + d)); [unfold rng; lia|apply H1; lia|apply H2; lia]. Qed.
    Lemma bord_between j t u : (j < t)%nat -> (t < u)%nat -> bord j t -> bord j u -> bord t u.
    Proof. intros Hjt Htu H1 H2 d Hd1 Hd2. apply (e_trans _ (j + d)); [unfold rng; lia|apply e_sym, H1; lia|apply H2; lia]. Qed.

    Definition ub (shifts : list nat) (k b : nat) : Prop := forall v, shifts !! (k - 1)%nat = Some v -> (v <= b)%nat.
    Definition base (shifts : list nat) : Prop :=
      length shifts = m /\ forall k v, rng k -> shifts !! (k - 1)%nat = Some v -> (m + 1 <= v + k)%nat /\ (v + k <= 2 * m)%nat.
    (* strong good-suffix entries for start positions above j *)
    Definition strong (shifts : list nat) (j0 : nat) : Prop :=
      forall j t, (j0 < j)%nat -> (j < t)%nat -> (t <= m)%nat -> bord j t -> ~ e j t -> ub shifts t (m - j).
    Lemma ub_min shifts i s c k b : shifts !! i = Some s -> ub shifts k b -> ub (<[i := (s `min` c)%nat]> shifts) k b.
    Proof.
      intros Hs H v Hv. destruct (decide (i = k - 1)%nat) as [->|].
      - rewrite list_lookup_insert in Hv by (by eapply lookup_lt_Some). injection Hv as <-. specialize (H s Hs). lia.
      - rewrite list_lookup_insert_ne in Hv by done. by apply H.
    Qed.
    Lemma ub_min_new shifts k s c : shifts !! (k - 1)%nat = Some s -> ub (<[(k - 1)%nat := (s `min` c)%nat]> shifts) k c.
    Proof. intros Hs v Hv. rewrite list_lookup_insert in Hv by (by eapply lookup_lt_Some). injection Hv as <-. lia. Qed.
    Lemma base_min shifts k s c : rng k -> shifts !! (k - 1)%nat = Some s -> (m + 1 <= c + k)%nat -> base shifts ->
      base (<[(k - 1)%nat := (s `min` c)%nat]> shifts).
    Proof.
      intros Hk Hs Hc [Hl Hb]. split; [by rewrite insert_length|]. intros k' v Hk' Hv.
      destruct (decide (k - 1 = k' - 1)%nat) as [E|].
      - rewrite <-E in *. rewrite list_lookup_insert in Hv by (by eapply lookup_lt_Some). injection Hv as <-.
        assert (k' = k) as -> by (unfold rng in *; lia). destruct (Hb k s Hk Hs). lia.
      - rewrite list_lookup_insert_ne in Hv by done. by apply Hb.
    Qed.

    Lemma delta2_init_base : (0 < m)%nat -> base (delta2_init m).
    Proof.
      intros Hm. unfold delta2_init. split; [by rewrite fmap_length, seq_length|].
      intros k v Hk Hv. rewrite list_lookup_fmap in Hv. unfold rng in Hk.
      rewrite lookup_seq_lt in Hv by lia. simpl in Hv. injection Hv as <-. lia.
    Qed.

    Definition tab1 (fx : list nat) (j0 : nat) : Prop := length fx = m /\ forall j v, (j0 < j)%nat -> (j <= m)%nat -> fx !! (j - 1)%nat = Some v -> isF j v.

    Lemma loop1_ok shifts0 fx0 : (0 < m)%nat -> base shifts0 -> length fx0 = m ->
      wp (delta2_loop1 eq p shifts0 fx0) (fun '(shifts, fx, q) => base shifts /\ strong shifts 0 /\ length fx = m /\ minb 0 q).
    Proof.
      intros Hm Hb0 Hf0. unfold delta2_loop1. cbv zeta.
      apply (wp_loop (fun '(shifts, fx, j, t) => (j <= m)%nat /\ base shifts /\ strong shifts j /\ tab1 fx j /\ isF j t) (fun '(_, _, j, _) => j)).
      2: { split; [lia|]. split; [done|]. split; [intros j t H1 H2 H3; lia|]. split; [|unfold isF; by rewrite decide_True].
           split; [done|]. intros j v H1 H2. lia. }
      2: lia.
      intros [[[shifts fx] j] t] (Hj & Hb & Hs & [Hfl Hft] & Ht). case_decide as D.
      2: { simpl. assert (j = 0)%nat as -> by lia. split; [done|]. split; [done|]. split; [done|].
           unfold isF in Ht. rewrite decide_False in Ht by lia. done. }
      wbind. apply wp_set; [lia|].
      assert (Hft' : tab1 (<[(j - 1)%nat := t]> fx) (j - 1)).
      { split; [by rewrite insert_length|]. intros j' v H1 H2 Hv. destruct (decide (j' = j)) as [->|].
        - rewrite list_lookup_insert in Hv by lia. by injection Hv as <-.
        - rewrite list_lookup_insert_ne in Hv by lia. apply Hft; [lia|lia|done]. }
      remember (<[(j - 1)%nat := t]> fx) as fx' eqn:Efx. clear Efx. wbind.
      (* inner loop *)
      apply (wp_loop (fun '(sh, t) => base sh /\ strong sh j /\ (j < t)%nat /\ (t <= S m)%nat /\ ((t <= m)%nat -> bord j t) /\
         forall t', (j < t' < t)%nat -> bord j t' -> ~ e j t' /\ ub sh t' (m - j)) (fun '(sh, t) => S m - t)%nat).
      2: { split; [done|]. split; [done|]. unfold isF in Ht. case_decide as Dj.
           - split; [lia|]. split; [lia|]. split; [lia|]. intros t' Ht'. lia.
           - destruct Ht as (H1 & H2 & H3 & H4). split; [lia|]. split; [lia|]. split; [done|]. intros t' Ht' Hbt. by apply H4 in Hbt. }
      2: lia.
      intros [sh u] (Hb' & Hs' & Hju & Hum & Hbu & Hpass). case_decide as Du.
      - wbind. apply wp_at; [lia|]. intros x Hx. wbind. apply wp_decr; [lia|]. wbind. apply wp_at; [lia|]. intros y Hy.
        destruct (eq x y) eqn:Exy; cbn [negb].
        + (* stop: p_j = p_u *)
          simpl. wbind. apply wp_decr; [lia|]. simpl. split; [|lia].
          assert (He : e j u) by (by eapply e_true).
          split; [lia|]. split; [done|]. split; [|split; [done|]].
          * intros j' t' H1 H2 H3 H4 H5. destruct (decide (j' = j)) as [->|]; [|apply Hs'; done || lia].
            destruct (decide (t' < u)%nat). { by apply Hpass. }
            destruct (decide (t' = u)) as [->|]; [done|].
            assert (Hub : ub sh t' (m - u)).
            { apply (Hs' u t'); [lia|lia|lia| |].
              - apply (bord_between j); [lia|lia|by apply Hbu|done].
              - intros He'. apply H5. apply (e_trans _ u); [unfold rng; lia|done|done]. }
            intros v Hv. specialize (Hub v Hv). lia.
          * unfold isF. rewrite decide_False by lia. split; [lia|]. split; [lia|]. split.
            -- intros d Hd1 Hd2. destruct (decide (d = 1)%nat) as [->|].
               ++ replace (j - 1 + 1)%nat with j by lia. by replace (u - 1 + 1)%nat with u by lia.
               ++ replace (j - 1 + d)%nat with (j + (d - 1))%nat by lia. replace (u - 1 + d)%nat with (u + (d - 1))%nat by lia. apply Hbu; lia.
            -- intros t' Ht' Hbt. destruct (Hpass (S t')) as [H1 _]; [lia| |].
               { intros d Hd1 Hd2. replace (j + d)%nat with (j - 1 + S d)%nat by lia. replace (S t' + d)%nat with (t' + S d)%nat by lia. apply Hbt; lia. }
               apply H1. replace j with (j - 1 + 1)%nat by lia. replace (S t') with (t' + 1)%nat by lia. apply Hbt; lia.
        + wbind. apply wp_at; [destruct Hb' as [Hl _]; lia|]. intros s Hsv. wbind. apply wp_set; [destruct Hb' as [Hl _]; lia|].
          wbind. apply wp_at; [destruct Hft' as [Hl _]; lia|]. intros u2 Hu2. simpl.
          destruct Hft' as [_ Hft']. specialize (Hft' u u2 ltac:(lia) ltac:(lia) Hu2).
          assert (Hne : ~ e j u) by (by eapply e_false).
          assert (Hu2' : (u < u2)%nat /\ (u2 <= S m)%nat /\ ((u2 <= m)%nat -> bord u u2) /\ forall t', (u < t' < u2)%nat -> (t' <= m)%nat -> ~ bord u t').
          { unfold isF in Hft'. case_decide as Dm.
            - split; [lia|]. split; [lia|]. split; [lia|]. intros t' Ht'. lia.
            - destruct Hft' as (H1 & H2 & H3 & H4). split; [lia|]. split; [lia|]. split; [done|]. intros t' Ht' _. by apply H4. }
          destruct Hu2' as (Hu2a & Hu2b & Hu2c & Hu2d).
          split; [|lia]. split; [apply base_min; [unfold rng; lia|done|lia|done]|].
          split; [intros j' t' H1 H2 H3 H4 H5; apply ub_min; [done|by apply (Hs' j')]|].
          split; [lia|]. split; [lia|]. split.
          * intros Hle. apply (bord_trans j u u2); [lia|lia|by apply Hbu|by apply Hu2c].
          * intros t' Ht' Hbt. destruct (decide (t' < u)%nat).
            { destruct (Hpass t') as [H1 H2]; [lia|done|]. split; [done|]. by apply ub_min. }
            destruct (decide (t' = u)) as [->|]. { split; [done|]. by apply ub_min_new. }
            exfalso. apply (Hu2d t'); [lia|lia|]. apply (bord_between j u t'); [lia|lia|by apply Hbu|done].
      - (* ran off the end: t = m+1 *)
        assert (u = S m) as -> by lia. simpl. split; [|lia].
        split; [lia|]. split; [done|]. split; [|split; [done|]].
        * intros j' t' H1 H2 H3 H4 H5. destruct (decide (j' = j)) as [->|]; [|apply Hs'; done || lia].
          apply Hpass; [lia|done].
        * unfold isF. rewrite decide_False by lia. split; [lia|]. split; [lia|]. split.
          -- intros d Hd1 Hd2. lia.
          -- intros t' Ht' Hbt. destruct (Hpass (S t')) as [H1 _]; [lia| |].
             { intros d Hd1 Hd2. replace (j + d)%nat with (j - 1 + S d)%nat by lia. replace (S t' + d)%nat with (t' + S d)%nat by lia. apply Hbt; lia. }
             apply H1. replace j with (j - 1 + 1)%nat by lia. replace (S t') with (t' + 1)%nat by lia. apply Hbt; lia.
    Qed.

    (* p[1..t-1] = p[j-t+1..j-1] *)
    Definition pbord (j t : nat) : Prop := forall d, (1 <= d)%nat -> (d < t)%nat -> e d (j - t + d).
    Definition maxb (j t : nat) : Prop := (1 <= t)%nat /\ (t < j)%nat /\ pbord j t /\ forall t', (t < t' < j)%nat -> ~ pbord j t'.
    Definition isF2 (j t : nat) : Prop := if decide (j = 1)%nat then t = 0%nat else maxb j t.
    Definition tab2 (fx : list nat) (j0 : nat) : Prop := length fx = m /\ forall j v, (1 <= j)%nat -> (j < j0)%nat -> fx !! (j - 1)%nat = Some v -> isF2 j v.
    Lemma pbord_trans j t u : (j <= m)%nat -> (t < j)%nat -> (u < t)%nat -> pbord j t -> pbord t u -> pbord j u.
    Proof.
      intros Hj Htj Hut H1 H2 d Hd1 Hd2. apply (e_trans _ (t - u + d)); [unfold rng; lia|apply H2; lia|].
      replace (j - u + d)%nat with (j - t + (t - u + d))%nat by lia. apply H1; lia.
    Qed.
    Lemma pbord_between j t u : (j <= m)%nat -> (t < j)%nat -> (u < t)%nat -> pbord j t -> pbord j u -> pbord t u.
    Proof.
      intros Hj Htj Hut H1 H2 d Hd1 Hd2. apply (e_trans _ (j - u + d)); [unfold rng; lia|apply H2; lia|]. apply e_sym.
      replace (j - u + d)%nat with (j - t + (t - u + d))%nat by lia. apply H1; lia.
    Qed.

    Lemma loop2_ok fx0 n : length fx0 = m -> (n <= m)%nat ->
      wp (delta2_loop2 eq p fx0 n) (fun fx => tab2 fx (S n)).
    Proof.
      intros Hf0 Hn. unfold delta2_loop2.
      apply (wp_loop (fun '(fx, j, t) => (1 <= j)%nat /\ (j <= S n)%nat /\ tab2 fx j /\ isF2 j t) (fun '(_, j, _) => S n - j)%nat).
      2: { split; [lia|]. split; [lia|]. split; [|unfold isF2; by rewrite decide_True]. split; [done|]. intros j v H1 H2. lia. }
      2: lia.
      intros [[fx j] t] (Hj1 & Hj2 & [Hfl Hft] & Ht). case_decide as D.
      2: { simpl. assert (j = S n) as -> by lia. done. }
      wbind. apply wp_set; [lia|].
      assert (Hft' : tab2 (<[(j - 1)%nat := t]> fx) (S j)).
      { split; [by rewrite insert_length|]. intros j' v H1 H2 Hv. destruct (decide (j' = j)) as [->|].
        - rewrite list_lookup_insert in Hv by lia. by injection Hv as <-.
        - rewrite list_lookup_insert_ne in Hv by lia. apply Hft; [lia|lia|done]. }
      remember (<[(j - 1)%nat := t]> fx) as fx' eqn:Efx. clear Efx. wbind.
      apply (wp_loop (fun t => (t < j)%nat /\ ((1 <= t)%nat -> pbord j t) /\
         forall t', (t < t' < j)%nat -> pbord j t' -> ~ e j t') (fun t => t)).
      2: { unfold isF2 in Ht. case_decide as Dj.
           - split; [lia|]. split; [lia|]. intros t' Ht'. lia.
           - destruct Ht as (H1 & H2 & H3 & H4). split; [lia|]. split; [done|]. intros t' Ht' Hbt. by apply H4 in Hbt. }
      2: { unfold isF2 in Ht. case_decide; [lia|]. destruct Ht as (H1 & H2 & _). lia. }
      intros u (Huj & Hbu & Hpass).
      assert (Hexit : (u = 0%nat \/ e j u) -> isF2 (S j) (S u)).
      { intros Hor. unfold isF2. rewrite decide_False by lia. split; [lia|]. split; [lia|]. split.
        - intros d Hd1 Hd2. replace (S j - S u + d)%nat with (j - u + d)%nat by lia. destruct (decide (d = u)) as [->|].
          + destruct Hor as [->|Hor]; [lia|]. replace (j - u + u)%nat with j by lia. by apply e_sym.
          + apply Hbu; lia.
        - intros t' Ht' Hbt. apply (Hpass (t' - 1)%nat); [lia| |].
          + intros d Hd1 Hd2. replace (j - (t' - 1) + d)%nat with (S j - t' + d)%nat by lia. apply Hbt; lia.
          + apply e_sym. pose proof (Hbt (t' - 1)%nat ltac:(lia) ltac:(lia)) as H. by replace (S j - t' + (t' - 1))%nat with j in H by lia. }
      case_decide as Du.
      - wbind. apply wp_at; [lia|]. intros x Hx. wbind. apply wp_at; [lia|]. intros y Hy.
        destruct (eq x y) eqn:Exy; cbn [negb].
        + simpl. split; [|lia]. split; [lia|]. split; [lia|]. split; [done|]. apply Hexit. right. by eapply e_true.
        + wbind. apply wp_at; [destruct Hft' as [Hl _]; lia|]. intros u2 Hu2. simpl.
          destruct Hft' as [_ Hft']. specialize (Hft' u u2 ltac:(lia) ltac:(lia) Hu2).
          assert (Hne : ~ e j u) by (by eapply e_false).
          unfold isF2 in Hft'. case_decide as D1.
          * subst u u2. split; [|lia]. split; [lia|]. split; [lia|]. intros t' Ht' Hbt.
            destruct (decide (t' = 1)%nat) as [->|]; [done|]. apply Hpass; [lia|done].
          * destruct Hft' as (H1 & H2 & H3 & H4). split; [|lia]. split; [lia|]. split.
            -- intros _. apply (pbord_trans j u u2); [lia|lia|lia|by apply Hbu|done].
            -- intros t' Ht' Hbt. destruct (decide (u < t')%nat); [apply Hpass; [lia|done]|].
               destruct (decide (t' = u)) as [->|]; [done|]. exfalso.
               apply (H4 t'); [lia|]. apply (pbord_between j u t'); [lia|lia|lia|apply Hbu; lia|done].
      - simpl. split; [|lia]. split; [lia|]. split; [lia|]. split; [done|]. apply Hexit. left. lia.
    Qed.

    (* entries for period shifts *)
    Definition perio (shifts : list nat) (k0 : nat) : Prop :=
      forall k s, (1 <= k)%nat -> (k < k0)%nat -> (k <= s)%nat -> (s <= m)%nat -> bord 0 s -> ub shifts k (m + s - k).

    Lemma loop3_ok shifts0 fx q0 : (0 < m)%nat -> base shifts0 -> strong shifts0 0 -> minb 0 q0 -> tab2 fx (S (m + 1 - q0)) ->
      wp (delta2_loop3 m shifts0 fx q0 (m + 1 - q0)) (fun shifts => base shifts /\ strong shifts 0 /\ perio shifts (S m)).
    Proof.
      intros Hm Hb0 Hs0 (Hq1 & Hq2 & Hq3 & Hq4) [Hfl Hft]. unfold delta2_loop3.
      apply (wp_loop (fun '(sh, q1, q, t) => base sh /\ strong sh 0 /\ (1 <= t)%nat /\ (q + t = m + 1)%nat /\ (q0 <= q)%nat /\ bord 0 q /\
         (1 <= q1)%nat /\ (q1 <= q)%nat /\ (forall s, (q1 <= s < q)%nat -> ~ bord 0 s) /\ perio sh q1) (fun '(_, _, q, _) => m - q)%nat).
      2: { split; [done|]. split; [done|]. split; [lia|]. split; [lia|]. split; [lia|]. split; [done|]. split; [lia|]. split; [lia|].
           split; [intros s Hs; apply Hq4; lia|]. intros k s H1 H2. lia. }
      2: lia.
      intros [[[sh q1] q] t] (Hb & Hs & Ht1 & Hqt & Hqq & Hbq & Hq1a & Hq1b & Hno & Hp). case_decide as D.
      2: { simpl. split; [done|]. split; [done|]. intros k s H1 H2 H3 H4 H5. destruct (decide (k < q1)%nat); [by apply Hp|].
           assert (s = m). { destruct (decide (s < q)%nat); [|lia]. exfalso. apply (Hno s); [lia|done]. }
           subst s. intros v Hv. destruct Hb as [_ Hb]. destruct (Hb k v) as [_ Hv2]; [unfold rng; lia|done|]. lia. }
      wbind.
      apply (wp_loop (fun '(sh, k) => base sh /\ strong sh 0 /\ (q1 <= k)%nat /\ (k <= S q)%nat /\ perio sh k) (fun '(_, k) => S q - k)%nat).
      2: { split; [done|]. split; [done|]. split; [lia|]. split; [lia|]. done. } 2: lia.
      intros [sh' k] (Hb' & Hs' & Hk1 & Hk2 & Hp'). case_decide as Dk.
      - wbind. apply wp_at; [destruct Hb' as [Hl _]; lia|]. intros s Hsv. wbind. apply wp_set; [destruct Hb' as [Hl _]; lia|]. simpl.
        split; [|lia]. split; [apply base_min; [unfold rng; lia|done|lia|done]|].
        split; [intros j' t' H1 H2 H3 H4 H5; apply ub_min; [done|by apply (Hs' j')]|]. split; [lia|]. split; [lia|].
        intros k' s' H1 H2 H3 H4 H5. destruct (decide (k' = k)) as [->|].
        + assert (q <= s')%nat. { destruct (decide (s' < q)%nat); [|lia]. exfalso. apply (Hno s'); [lia|done]. }
          intros v Hv. pose proof (ub_min_new sh' k s (m + q - k) Hsv v Hv). lia.
        + apply ub_min; [done|]. apply Hp'; [lia|lia|lia|lia|done].
      - simpl. assert (k = S q) as -> by lia. wbind. apply wp_decr; [lia|]. wbind. apply wp_at; [lia|]. intros temp Htemp. simpl.
        specialize (Hft t temp ltac:(lia) ltac:(lia) Htemp). unfold isF2 in Hft. rewrite decide_False in Hft by lia.
        destruct Hft as (H1 & H2 & H3 & H4).
        split; [|lia]. split; [done|]. split; [done|]. split; [lia|]. split; [lia|]. split; [lia|]. split; [|split; [lia|]; split; [lia|]; split; [|done]].
        + intros d Hd1 Hd2. rewrite Nat.add_0_l. apply (e_trans _ (t - temp + d)); [unfold rng; lia|apply H3; lia|].
          pose proof (Hbq (t - temp + d)%nat ltac:(lia) ltac:(lia)) as H. rewrite Nat.add_0_l in H.
          by replace (q + t - temp + d)%nat with (q + (t - temp + d))%nat by lia.
        + intros s Hs2 Hbs. apply (H4 (m + 1 - s)%nat); [lia|]. intros d Hd1 Hd2.
          apply (e_trans _ (s + d)); [unfold rng; lia| |].
          * pose proof (Hbs d ltac:(lia) ltac:(lia)) as H. by rewrite Nat.add_0_l in H.
          * apply e_sym. pose proof (Hbq (s - q + d)%nat ltac:(lia) ltac:(lia)) as H. rewrite Nat.add_0_l in H.
            replace (t - (m + 1 - s) + d)%nat with (s - q + d)%nat by lia. by replace (s + d)%nat with (q + (s - q + d))%nat by lia.
    Qed.

    Lemma delta2_ok : wp (delta2_table eq p) (good_delta2 p).
    Proof.
      unfold delta2_table. cbv zeta. case_decide as D0.
      { simpl. split; [done|]. intros idx d Hd. done. }
      wbind. eapply wp_mono; [apply loop1_ok; [lia|apply delta2_init_base; lia|by rewrite replicate_length]|].
      intros [[sh fx] q] (Hb & Hs & Hfl & Hq). wbind.
      pose proof Hq as (Hq1 & Hq2 & _).
      eapply wp_mono; [apply (loop2_ok fx (m + 1 - q)%nat); [done|lia]|].
      intros fx' Hft. simpl. eapply wp_mono; [apply loop3_ok; [lia|done|done|done|done]|].
      intros sh' (Hb' & Hs' & Hp'). split; [by destruct Hb'|].
      intros idx d Hd. pose proof (lookup_lt_Some _ _ _ Hd) as Hidx. destruct Hb' as [Hl Hb']. rewrite Hl in Hidx.
      assert (Hd' : sh' !! (S idx - 1)%nat = Some d) by (by replace (S idx - 1)%nat with idx by lia).
      destruct (Hb' (S idx) d) as [Hlb Hub]; [unfold rng; lia|done|]. split; [lia|]. intros s Hs1 [Hpl1 Hpl2].
      destruct (decide (s <= idx)%nat) as [Hsi|Hsi]; [|destruct (decide (s <= m)%nat) as [Hsm|Hsm]].
      - assert (H : ub sh' (S idx) (m - (S idx - s))).
        { apply Hs'; [lia|lia|lia| |].
          - intros d' Hd1 Hd2 x y Hx Hy. apply (Hpl1 (idx + d')%nat); [lia|lia| |].
            + rewrite <-Hx. f_equal. lia.
            + rewrite <-Hy. f_equal. lia.
          - intros He. destruct (lookup_lt_is_Some_2 p (idx - s)) as [x Hx]; [lia|]. destruct (lookup_lt_is_Some_2 p idx) as [y Hy]; [lia|].
            pose proof (Hpl2 Hsi x y Hx Hy) as HF. rewrite (He x y) in HF; [done| |].
            + rewrite <-Hx. f_equal. lia.
            + rewrite <-Hy. f_equal. lia. }
        specialize (H d Hd'). lia.
      - assert (H : ub sh' (S idx) (m + s - S idx)).
        { apply Hp'; [lia|lia|lia|lia|]. intros d' Hd1 Hd2 x y Hx Hy. apply (Hpl1 (s + d' - 1)%nat); [lia|lia| |done].
          rewrite <-Hx. f_equal. lia. }
        specialize (H d Hd'). lia.
      - lia.
    Qed.
  End delta2.

  Lemma boyer_moore_searcher_ok h p : wp (boyer_moore_searcher eq h p) (first_such h (occurs eq h p)).
  Proof.
    unfold boyer_moore_searcher. wbind. eapply wp_mono; [apply delta2_ok|]. intros d2 Hd2. by apply boyer_moore_search_ok.
  Qed.
End bm.
