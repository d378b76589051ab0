From stdpp Require Import base list numbers decidable list_numbers sorting.
From Coq Require Import ZArith Lia.
From Verif Require Import Base.Res Base.Int Base.Arr Base.Order Cont.MdspanModel Cont.MdspanSpec.
Local Open Scope Z_scope.

(** ** arithmetic of strided layouts *)
Lemma prod_app l l' : prod (l ++ l') = prod l * prod l'.
Proof. unfold prod. induction l as [|x l IH]; cbn [foldr app]; [lia|]. rewrite IH. lia. Qed.
Lemma prod_cons x l : prod (x :: l) = x * prod l.
Proof. done. Qed.
Lemma prod_pos l : Forall (fun e => 0 < e) l -> 0 < prod l.
Proof. induction 1; [done|]. rewrite prod_cons. nia. Qed.
Lemma prod_nonneg l : Forall (fun e => 0 <= e) l -> 0 <= prod l.
Proof. induction 1; [done|]. rewrite prod_cons. nia. Qed.
Lemma prod_zero l : 0 ∈ l -> prod l = 0.
Proof. intros H. induction l as [|x l IH]; [by apply elem_of_nil in H|]. rewrite prod_cons. apply elem_of_cons in H as [<-|H]; [lia|]. rewrite IH by done. lia. Qed.
Lemma prod_perm l l' : l ≡ₚ l' -> prod l = prod l'.
Proof. induction 1; rewrite ?prod_cons; try done; try lia; congruence. Qed.
Lemma valid_length exts idx : valid_index exts idx -> length idx = length exts.
Proof. intros H. symmetry. by eapply Forall2_length. Qed.
Lemma valid_pos exts idx : valid_index exts idx -> Forall (fun e => 0 < e) exts.
Proof. induction 1; constructor; [lia|done]. Qed.

Lemma dot_bounds exts : forall idx strides, valid_index exts idx -> Forall (fun s => 0 <= s) strides ->
  0 <= dot idx strides <= dot ((fun e => e - 1) <$> exts) strides.
Proof.
  intros idx strides Hv. revert strides. induction Hv as [|e i exts idx Hi Hv IH]; intros strides Hs; [done|].
  destruct Hs as [|s strides Hs Hss]; [done|]. specialize (IH strides Hss). cbn [dot fmap list_fmap]. nia.
Qed.

(* the (stride, extent) view *)
Definition tot (l : list (Z * Z)) : Z := foldr (fun p acc => (p.2 - 1) * p.1 + acc) 0 l.
Definition vals (l : list (Z * (Z * Z))) : Z := foldr (fun q acc => q.1 * q.2.1 + acc) 0 l.
Lemma tot_zip strides : forall exts, length strides = length exts -> tot (zip strides exts) = dot ((fun e => e - 1) <$> exts) strides.
Proof. induction strides as [|s strides IH]; intros [|e exts] H; try done; simpl in *. rewrite IH by lia. done. Qed.
Lemma tot_app l l' : tot (l ++ l') = tot l + tot l'.
Proof. unfold tot. induction l; cbn [foldr app]; [done|]. rewrite IHl. lia. Qed.
Lemma vals_app l l' : vals (l ++ l') = vals l + vals l'.
Proof. unfold vals. induction l; cbn [foldr app]; [done|]. rewrite IHl. lia. Qed.
Lemma tot_perm l l' : l ≡ₚ l' -> tot l = tot l'.
Proof. induction 1; simpl; lia. Qed.
Lemma vals_perm l l' : l ≡ₚ l' -> vals l = vals l'.
Proof. induction 1; simpl; lia. Qed.
Lemma vals_zip idx : forall strides exts, length idx = length strides -> length strides = length exts ->
  vals (zip idx (zip strides exts)) = dot idx strides.
Proof. induction idx as [|i idx IH]; intros [|s strides] [|e exts] H1 H2; try done; simpl in *. rewrite IH by lia. done. Qed.
Lemma zip_snd {A B} (l : list A) : forall (l' : list B), (length l' <= length l)%nat -> (zip l l').*2 = l'.
Proof. induction l; intros [|] H; simpl in *; try done; [lia|]. f_equal. apply IHl. lia. Qed.
Lemma zip_fst {A B} (l : list A) : forall (l' : list B), (length l <= length l')%nat -> (zip l l').*1 = l.
Proof. induction l; intros [|] H; simpl in *; try done; [lia|]. f_equal. apply IHl. lia. Qed.

Definition okp (p : Z * Z) : Prop := 0 < p.1 /\ 0 < p.2.
Lemma chain_app_inv R l p q : chain R (l ++ [p; q]) -> chain R (l ++ [p]) /\ R q.1 (p.1 * p.2).
Proof.
  induction l as [|x l IH]; simpl.
  - tauto.
  - intros [H1 H2]. destruct (IH H2) as [H3 H4]. split; [|done]. split; [|done]. destruct l; simpl in *; done.
Qed.
Lemma chain_snoc R l p q : chain R (l ++ [p]) -> R q.1 (p.1 * p.2) -> chain R (l ++ [p; q]).
Proof.
  induction l as [|x l IH]; simpl.
  - intros _ H. done.
  - intros [H1 H2] H. split; [|by apply IH]. destruct l; simpl in *; done.
Qed.

(* everything below the top dimension is smaller than the top stride *)
Lemma chain_tot_lt l p : chain Z.ge (l ++ [p]) -> Forall okp (l ++ [p]) -> tot l < p.1.
Proof.
  revert p. induction l as [|q l IH] using rev_ind; intros p Hc Hok.
  - simpl in *. rewrite Forall_singleton in Hok. unfold okp in Hok. lia.
  - rewrite <- app_assoc in Hc, Hok. simpl in *. apply chain_app_inv in Hc as [Hc Hr].
    rewrite !Forall_app in Hok. destruct Hok as [Hl Hqp]. apply Forall_cons in Hqp as [Hq Hp].
    assert (tot l < q.1) by (apply IH; [done|]; apply Forall_app; split; [done|by constructor]).
    assert (tot (l ++ [q]) = tot l + (q.2 - 1) * q.1).
    { rewrite tot_app. simpl. lia. }
    destruct Hq. nia.
Qed.

Definition qvalid (q : Z * (Z * Z)) : Prop := 0 <= q.1 < q.2.2 /\ 0 < q.2.1.
Lemma vals_bounds l : Forall qvalid l -> 0 <= vals l <= tot (l.*2).
Proof. induction 1 as [|[i [s e]] l [H1 H2] Hl IH]; [done|]. cbn [vals tot foldr fmap list_fmap fst snd] in *. assert (0 <= i * s <= (e - 1) * s) by nia. fold (vals l) (tot (l.*2)). lia. Qed.

(* uniqueness along a chain *)
Lemma chain_inj l : forall l', l.*2 = l'.*2 -> chain Z.ge (l.*2) -> Forall qvalid l -> Forall qvalid l' -> vals l = vals l' -> l = l'.
Proof.
  induction l as [|q l IH] using rev_ind; intros l' He Hc Hv Hv' Hvals.
  - symmetry in He. by apply fmap_nil_inv in He.
  - destruct l' as [|q' l' _] using rev_ind; [rewrite fmap_app in He; simpl in He; by destruct (l.*2)|].
    rewrite !fmap_app in He. simpl in He. apply app_inj_2 in He as [He Hq]; [|done]. injection Hq as Hq.
    rewrite fmap_app in Hc. simpl in Hc.
    apply Forall_app in Hv as [Hvl Hvq]. apply Forall_app in Hv' as [Hvl' Hvq']. rewrite Forall_singleton in Hvq, Hvq'.
    rewrite !vals_app in Hvals. simpl in Hvals.
    assert (Hok : Forall okp (l.*2 ++ [q.2])).
    { apply Forall_app. split.
      - apply Forall_fmap. eapply list.Forall_impl; [exact Hvl|]. intros x [? ?]. split; simpl; lia.
      - rewrite Forall_singleton. destruct Hvq. split; simpl; lia. }
    pose proof (chain_tot_lt _ _ Hc Hok) as Hlt.
    pose proof (vals_bounds _ Hvl) as B1. pose proof (vals_bounds _ Hvl') as B2. rewrite <- He in B2.
    rewrite <- Hq in Hvals. destruct Hvq as [Hi Hs].
    assert (q.1 = q'.1) as Hqi.
    { destruct (Z.lt_trichotomy q.1 q'.1) as [Hl|[Hl|Hl]]; [|done|]; exfalso.
      - assert ((q'.1 - q.1) * q.2.1 >= q.2.1) by nia. lia.
      - assert ((q.1 - q'.1) * q.2.1 >= q.2.1) by nia. lia. }
    assert (q = q') by (destruct q, q'; simpl in *; congruence). subst q'. f_equal. apply IH; try done; [|lia].
    clear -Hc. induction (l.*2) as [|x [|y r] IH]; [done|done|]. simpl in Hc. destruct Hc as [H1 H2]. split; [done|]. by apply IH.
Qed.

Lemma qvalid_zip exts idx : forall strides, valid_index exts idx -> length strides = length exts -> Forall (fun s => 0 < s) strides ->
  Forall qvalid (zip idx (zip strides exts)).
Proof.
  intros strides Hv. revert strides. induction Hv as [|e i exts idx Hi Hv IH]; intros [|s strides] Hl Hs; try done; simpl.
  - constructor.
  - apply Forall_cons in Hs as [Hs Hss]. constructor; [split; simpl; lia|]. apply IH; [simpl in Hl; lia|done].
Qed.

Lemma zip3_drop (i : list Z) : forall (j : list Z) (Z2 : list (Z * Z)), length i = length j -> length j = length Z2 ->
  (fun w => (w.1, w.2.2)) <$> zip i (zip j Z2) = zip i Z2.
Proof. induction i as [|a i IH]; intros [|b j] [|c Z2] H1 H2; try done. cbn [zip_with fmap list_fmap]. simpl in *. f_equal. apply IH; lia. Qed.
(** distinct indices have distinct offsets *)
Lemma strided_unique exts strides i j P :
  length strides = length exts -> Forall (fun s => 0 < s) strides -> P ≡ₚ zip strides exts -> chain Z.ge P ->
  valid_index exts i -> valid_index exts j -> dot i strides = dot j strides -> i = j.
Proof.
  intros Hl Hs HP Hc Hi Hj Hd. pose proof (valid_length _ _ Hi) as Li. pose proof (valid_length _ _ Hj) as Lj.
  set (Z2 := zip strides exts) in *. assert (LZ : length Z2 = length exts) by (unfold Z2; rewrite zip_with_length; lia).
  (* permute the triples jointly *)
  set (W := zip i (zip j Z2)).
  assert (HW : W.*2.*2 = Z2) by (unfold W; rewrite zip_snd; [|rewrite zip_with_length; lia]; rewrite zip_snd; [done|lia]).
  rewrite <- HW in HP. rewrite <- list_fmap_compose in HP.
  destruct (Permutation_map_inv _ _ HP) as (W' & HPW & HWW'). 
  set (f := fun w : Z * (Z * (Z * Z)) => (w.1, w.2.2)). set (g := fun w : Z * (Z * (Z * Z)) => w.2).
  assert (Ef : f <$> W = zip i Z2).
  { unfold W, f. apply zip3_drop; lia. }
  assert (Eg : g <$> W = zip j Z2) by (unfold g, W; rewrite zip_snd; [done|rewrite zip_with_length; lia]).
  assert (Heq : f <$> W' = g <$> W').
  { apply chain_inj.
    - rewrite <- !list_fmap_compose. done.
    - rewrite <- list_fmap_compose. rewrite HPW in Hc. exact Hc.
    - rewrite <- (fmap_Permutation f _ _ HWW'), Ef. by apply qvalid_zip.
    - rewrite <- (fmap_Permutation g _ _ HWW'), Eg. by apply qvalid_zip.
    - rewrite <- (vals_perm _ _ (fmap_Permutation f _ _ HWW')), <- (vals_perm _ _ (fmap_Permutation g _ _ HWW')), Ef, Eg.
      unfold Z2. rewrite !vals_zip by lia. done. }
  assert (Hall : Forall (fun w => f w = g w) W).
  { rewrite HWW'. clear -Heq. induction W' as [|w W' IH]; [constructor|]. simpl in Heq. injection Heq as H1 H2.
    constructor; [unfold f, g in *; destruct w as [? [? ?]]; simpl in *; congruence|]. apply IH. done. }
  assert (E2 : zip i Z2 = zip j Z2).
  { rewrite <- Ef, <- Eg. apply Forall_fmap_ext; exact Hall. }
  rewrite <- (zip_fst i Z2) by lia. rewrite E2. apply zip_fst. lia.
Qed.

(** every offset below the product is hit when the strides multiply up from 1 *)
Lemma chain_digits P : forall c, Forall okp P -> chain eq P -> (forall p, head P = Some p -> p.1 = c) -> 0 < c ->
  forall r, 0 <= r < prod (P.*2) -> exists W, W.*2 = P /\ Forall qvalid W /\ vals W = c * r.
Proof.
  induction P as [|p P IH]; intros c Hok Hc Hh Hcp r Hr.
  - exists []. split; [done|]. split; [constructor|]. simpl in *. lia.
  - apply Forall_cons in Hok as [Hp Hok]. destruct Hp as [Hp1 Hp2]. specialize (Hh p eq_refl) as Hpc.
    rewrite fmap_cons, prod_cons in Hr. simpl in Hc. destruct Hc as [Hn Hc].
    destruct (IH (c * p.2) Hok Hc) with (r := r / p.2) as (W & HW & Hv & Hval).
    + intros q Hq. destruct P; [done|]. injection Hq as ->. by rewrite <- Hpc.
    + nia.
    + split; [apply Z.div_pos; lia|]. apply Z.div_lt_upper_bound; lia.
    + exists ((r mod p.2, p) :: W). split; [by rewrite fmap_cons, HW|]. split.
      * constructor; [|done]. split; simpl; [|lia]. apply Z.mod_pos_bound. lia.
      * simpl. rewrite Hval, Hpc. rewrite (Z.div_mod r p.2) at 3 by lia. lia.
Qed.
Lemma packed_surj exts strides o :
  length strides = length exts -> Forall (fun s => 0 < s) strides -> Forall (fun e => 0 < e) exts ->
  packed exts strides -> 0 <= o < prod exts ->
  exists idx, valid_index exts idx /\ dot idx strides = o.
Proof.
  intros Hl Hs He (P & HP & Hc & Hh) Ho.
  assert (HZ1 : (zip strides exts).*2 = exts) by (apply zip_snd; lia).
  assert (Hok : Forall okp P).
  { rewrite HP. clear -Hl Hs He. revert exts Hl He. induction Hs as [|s strides Hs0 Hs IH]; intros exts Hl He; [constructor|].
    destruct exts as [|e exts]; [constructor|]. apply Forall_cons in He as [He0 He]. simpl. constructor; [split; simpl; lia|]. apply IH; [simpl in Hl; lia|done]. }
  destruct (chain_digits P 1 Hok Hc Hh ltac:(lia) o) as (W & HW & Hv & Hval).
  { rewrite (prod_perm _ _ (fmap_Permutation snd _ _ HP)), HZ1. done. }
  rewrite <- HW in HP. symmetry in HP. destruct (Permutation_map_inv _ _ HP) as (W' & HZ & HWW').
  exists (W'.*1).
  assert (Lz : length (zip strides exts) = length exts) by (rewrite zip_with_length; lia).
  assert (LW : length W' = length exts) by (rewrite <- Lz, HZ, map_length; done).
  assert (EW : W' = zip (W'.*1) (zip strides exts)).
  { rewrite HZ. clear. induction W' as [|[a b] W' IH]; [done|]. simpl. f_equal. done. }
  split.
  - rewrite HWW' in Hv. rewrite EW in Hv. clear -Hv Hl LW. revert Hv LW. generalize (W'.*1) (fmap_length fst W'). intros idx Li Hv LW.
    assert (L : length idx = length exts) by lia. clear Li LW. revert strides exts Hl Hv L.
    induction idx as [|i idx IH]; intros [|s strides] [|e exts] Hl Hv L; simpl in *; try done; try constructor.
    + apply Forall_cons in Hv as [[Hq _] _]. done.
    + apply Forall_cons in Hv as [_ Hv]. apply (IH strides); [lia|done|lia].
  - rewrite <- (vals_zip _ strides exts); [|rewrite fmap_length; lia|done]. rewrite <- EW. rewrite <- (vals_perm _ _ HWW'), Hval. lia.
Qed.
