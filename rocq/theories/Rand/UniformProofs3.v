(** shuffle and sample as a whole; the same on other elements; ranges::sample *)
From stdpp Require Import base list numbers list_numbers.
From Coq Require Import ZArith Lia Factorial.
From Verif Require Import Base.Res Base.Int Rand.UniformModel Rand.UniformSpec Rand.UniformCount Rand.UniformProofs Rand.UniformProofs2.
Local Open Scope Z_scope.

(** [F] mapped over the result *)
Definition onres {A B : Type} (f : A -> B) (m : res (A * list Z)) : res (B * list Z) :=
  match m with Ok (a, t) => Ok (f a, t) | UB => UB | Fuel => Fuel end.

Section whole.
  Context {A : Type} `{EqDecision A} (u : ity) (mn mx : Z).
  Hypothesis OK : rng_ok s64 u mn mx.
  Notation V := (values mn mx).
  Lemma shuffle_uniform (l : list A) : NoDup l -> Z.of_nat (length l) < 2 ^ 63 -> uniform V (shuffle u mn mx l) (fun p => p ≡ₚ l).
  Proof.
    intros Hnd Hl. destruct l as [|x l'].
    - split.
      + intros a b n ->%Permutation_nil_r ->%Permutation_nil_r. done.
      + intros a ->%Permutation_nil_r. exists 0%nat. cbn [shuffle]. rewrite hits_ret, bool_decide_true by done. lia.
      + intros t a r _ [= <- _]. done.
      + done.
    - set (l := x :: l') in *. destruct (shuffle_unif u mn mx OK l Hnd Hl (length l - 1)) as (uu & U); [cbn; lia|].
      apply (unif_uniform V (shuffle u mn mx l) (Pk l (S (length l - 1))) uu); [exact U|]. intros p. rewrite Pk_elem. split; [by intros [? _]|]. intros Hp. split; [done|].
      assert (length p = length l) by (by rewrite Hp). rewrite !drop_ge; [done| |]; cbn in *; lia.
  Qed.
  Lemma sample_uniform (l : list A) count : NoDup l -> Z.of_nat (length l) < 2 ^ 63 ->
    uniform V (sample u mn mx l count) (fun s => s `sublist_of` l /\ length s = Nat.min (Z.to_nat count) (length l)).
  Proof.
    intros Hnd Hl. unfold sample. destruct (Z.ltb_spec 0 count) as [Hc|Hc].
    - set (c := Nat.min (Z.to_nat count) (length l)). replace (if Z.of_nat (length l) <? count then Z.of_nat (length l) else count) with (Z.of_nat c) by (destruct (Z.ltb_spec (Z.of_nat (length l)) count); lia).
      destruct (selection_ok u mn mx OK l Hnd Hl) as (w & [n0 Hn0] & H). destruct (H c ltac:(lia)) as [H1 H2]. split.
      + intros a b n [Ha La] [Hb Lb]. by rewrite !H1.
      + intros a [Ha La]. exists n0. rewrite H1 by done. pose proof (lt_O_fact c). pose proof (lt_O_fact (length l - c)). apply Nat.mul_pos_pos; [by apply Nat.mul_pos_pos|done].
      + intros t a r Ht E. by apply (proj2 (H2 t Ht) a r).
      + intros t Ht. by apply H2.
    - replace (Z.to_nat count) with 0%nat by lia. cbn [Nat.min]. split.
      + intros a b n [_ ->%nil_length_inv] [_ ->%nil_length_inv]. done.
      + intros a [_ ->%nil_length_inv]. exists 0%nat. rewrite hits_ret, bool_decide_true by done. lia.
      + intros t a r _ [= <- _]. split; [apply sublist_nil_l|done].
      + done.
  Qed.
End whole.

Section nat.
  Context {A B : Type} (f : A -> B) (u : ity) (mn mx : Z).
  Lemma swap_at_fmap (l : list A) i j : swap_at (f <$> l) i j = match swap_at l i j with Ok l => Ok (f <$> l) | UB => UB | Fuel => Fuel end.
  Proof. unfold swap_at. rewrite !list_lookup_fmap. destruct (l !! i), (l !! j); cbn; try done. by rewrite <-!list_fmap_insert. Qed.
  Lemma shuffle_loop_fmap cnt : forall i (l : list A) t, shuffle_loop u mn mx cnt i (f <$> l) t = onres (fmap f) (shuffle_loop u mn mx cnt i l t).
  Proof.
    induction cnt as [|cnt IH]; intros i l t; [done|]. cbn [shuffle_loop]. unfold rbnd at 1 3. destruct (Rng s64 u mn mx (Z.of_nat i + 1) t) as [[off r]| |]; [|done|done]. rewrite !rbind_ok.
    destruct ((0 <=? off) && (off <=? Z.of_nat i)); [|done]. unfold rbnd, rlift. destruct (off =? Z.of_nat i).
    - rewrite !rbind_ok. apply IH.
    - rewrite swap_at_fmap. destruct (swap_at l i (Z.to_nat off)) as [l'| |]; [|done|done]. rewrite !rbind_ok. apply IH.
  Qed.
  Lemma shuffle_fmap (l : list A) t : shuffle u mn mx (f <$> l) t = onres (fmap f) (shuffle u mn mx l t).
  Proof. destruct l as [|x l]; [done|]. unfold shuffle. rewrite fmap_cons. rewrite <-fmap_cons. rewrite fmap_length. apply shuffle_loop_fmap. Qed.
  Lemma selection_fmap (l : list A) : forall c t, selection u mn mx (f <$> l) c t = onres (fmap f) (selection u mn mx l c t).
  Proof.
    induction l as [|x l IH]; intros c t; [done|]. rewrite fmap_cons. cbn [selection]. rewrite <-fmap_cons, fmap_length. unfold rbnd at 1 3.
    destruct (Rng s64 u mn mx (Z.of_nat (length (x :: l))) t) as [[r t']| |]; [|done|done]. rewrite !rbind_ok. destruct (r <? c); [|apply IH].
    unfold rbnd. rewrite IH. by destruct (selection u mn mx l (c - 1) t') as [[o t2]| |].
  Qed.
  Lemma sample_fmap (l : list A) c t : sample u mn mx (f <$> l) c t = onres (fmap f) (sample u mn mx l c t).
  Proof. unfold sample. rewrite fmap_length. destruct (0 <? c); [apply selection_fmap|done]. Qed.
End nat.

Section ranges.
  Context {A : Type} (u : ity) (mn mx : Z).
  Hypothesis OK : rng_ok s64 u mn mx.
  Notation V := (values mn mx).
  Notation onV t := (Forall (fun v => v ∈ V) t).
  Lemma Rng_nonneg k t r t' : 0 < k -> in_t s64 k -> onV t -> Rng s64 u mn mx k t = Ok (r, t') -> 0 <= r < k /\ onV t' /\ t' `suffix_of` t.
  Proof.
    intros Hk Hi Ht E. destruct (Rng_unif s64 u mn mx OK k (conj Hk Hi)) as (uu & U). pose proof (uf_in _ _ _ _ U _ _ _ Ht E) as Hr%elem_of_seqZ. split; [lia|].
    pose proof (uf_causal _ _ _ _ U) as C. split; [by apply (onV_rest V _ _ _ _ C Ht E)|]. destruct (ca_shr _ C _ _ _ E) as (p & -> & _). by exists p.
  Qed.
  (** once the sample is complete std::sample only consumes more values *)
  Lemma selection_done (l : list A) : Z.of_nat (length l) < 2 ^ 63 -> forall t out r, onV t -> selection u mn mx l 0 t = Ok (out, r) -> out = [] /\ r `suffix_of` t.
  Proof.
    induction l as [|x l IH]; intros Hl t out r Ht; [intros [= <- <-]; done|]. cbn [selection]. cbn [length] in Hl. unfold rbnd at 1.
    destruct (Rng s64 u mn mx (Z.of_nat (length (x :: l))) t) as [[v t']| |] eqn:E; [|done|done]. rewrite rbind_ok.
    apply Rng_nonneg in E as (Hv & Ht' & Hs); [|cbn; lia|unfold in_t, tmin, tmax; cbn [sg wd s64 length]; lia|done]. rewrite (proj2 (Z.ltb_ge v 0)) by lia. intros E2. destruct (IH ltac:(lia) _ _ _ Ht' E2) as [-> Hs2]. split; [done|]. by transitivity t'.
  Qed.
  Lemma rselection_eq (l : list A) : Z.of_nat (length l) < 2 ^ 63 -> forall c t out r, 0 < c -> onV t -> selection u mn mx l c t = Ok (out, r) ->
    exists r', rselection u mn mx l c t = Ok (out, r') /\ r `suffix_of` r'.
  Proof.
    induction l as [|x l IH]; intros Hl c t out r Hc Ht; [intros [= <- <-]; by exists t|]. cbn [selection rselection]. cbn [length] in Hl. unfold rbnd at 1 3.
    destruct (Rng s64 u mn mx (Z.of_nat (length (x :: l))) t) as [[v t']| |] eqn:E; [|done|done]. rewrite !rbind_ok.
    apply Rng_nonneg in E as (Hv & Ht' & Hs); [|cbn; lia|unfold in_t, tmin, tmax; cbn [sg wd s64 length]; lia|done]. destruct (v <? c); [|apply IH; (done || lia)].
    unfold rbnd at 1. destruct (selection u mn mx l (c - 1) t') as [[o t2]| |] eqn:E2; [|done|done]. rewrite rbind_ok. intros [= <- <-].
    destruct (Z.eqb_spec (c - 1) 0) as [E0|].
    - rewrite E0 in E2. apply selection_done in E2 as [-> ?]; [|lia|done]. by exists t'.
    - apply IH in E2 as (r' & E2 & ?); [|lia|lia|done]. exists r'. unfold rbnd. rewrite E2, rbind_ok. done.
  Qed.
  Lemma rsample_eq (l : list A) c t out r : Z.of_nat (length l) < 2 ^ 63 -> onV t -> sample u mn mx l c t = Ok (out, r) ->
    exists r', rsample u mn mx l c t = Ok (out, r') /\ r `suffix_of` r'.
  Proof.
    intros Hl Ht. unfold sample, rsample. destruct (Z.ltb_spec 0 c), (Z.leb_spec c 0); try lia; [|intros [= <- <-]; by exists t].
    destruct l as [|x l]; [cbn [selection rselection length]; intros [= <- <-]; by exists t|]. apply rselection_eq; [done| |done]. destruct (Z.ltb_spec (Z.of_nat (length (x :: l))) c); cbn [length] in *; lia.
  Qed.
End ranges.
