From stdpp Require Import base list numbers decidable list_numbers sorting.
From Coq Require Import ZArith Lia.
From Verif Require Import Base.Res Base.Int Base.Arr Base.Order Base.OrderLemmas Alg.SortModel Alg.SortProofs
  Cont.MdspanModel Cont.MdspanSpec Cont.MdspanProofs Cont.MdspanProofs2.
Local Open Scope Z_scope.

Lemma pair_lt_spec a b : pair_lt a b = true <-> a.1 < b.1 \/ (a.1 = b.1 /\ a.2 < b.2).
Proof. unfold pair_lt. rewrite orb_true_iff, andb_true_iff, !Z.ltb_lt, Z.eqb_eq. done. Qed.
Lemma pair_lt_false a b : pair_lt a b = false <-> ~ (a.1 < b.1 \/ (a.1 = b.1 /\ a.2 < b.2)).
Proof. rewrite <- pair_lt_spec. by destruct (pair_lt a b). Qed.
Lemma pair_lt_swo : StrictWeakOrder pair_lt.
Proof.
  split.
  - intros x. apply pair_lt_false. lia.
  - intros x y z. rewrite !pair_lt_spec. lia.
  - intros x y z. rewrite !pair_lt_false. lia.
Qed.
Definition ple (a b : Z * Z) : Prop := pair_lt b a = false.
Global Instance ple_antisymm : AntiSymm (=) ple.
Proof. intros [a1 a2] [b1 b2]. unfold ple. rewrite !pair_lt_false. simpl. intros. f_equal; lia. Qed.

Lemma get_cells_full {A} (l : list A) : get_cells (full l) = Ok l.
Proof. induction l as [|x l IH]; [done|]. unfold full in *. rewrite fmap_cons. cbn [get_cells]. by rewrite IH. Qed.
Lemma sorted_strong l : sorted_range pair_lt 0 (length l) l -> StronglySorted ple l.
Proof.
  induction l as [|x l IH]; intros H; [constructor|]. constructor.
  - apply IH. intros i j a b ? ? ? Ha Hb. apply (H (S i) (S j)); simpl; try lia; done.
  - rewrite list.Forall_lookup. intros i y Hi. apply (H 0%nat (S i)); try done; [lia|]. apply lookup_lt_Some in Hi. simpl. lia.
Qed.
Lemma chain_sorted P : Forall okp P -> chain Z.ge P -> StronglySorted ple P.
Proof.
  intros Hok Hc. apply Sorted_StronglySorted.
  { intros x y z. unfold ple. rewrite !pair_lt_false. lia. }
  induction Hok as [|p P [Hp1 Hp2] Hok IH]; [constructor|]. destruct Hc as [Hn Hc]. constructor; [by apply IH|].
  destruct Hok as [|q P [Hq1 Hq2] Hok]; constructor. unfold ple. apply pair_lt_false. simpl in Hn. nia.
Qed.
Lemma chain_unique P Q : Forall okp P -> chain Z.ge P -> Forall okp Q -> chain Z.ge Q -> P ≡ₚ Q -> P = Q.
Proof. intros. apply (StronglySorted_unique ple); [by apply chain_sorted..|done]. Qed.

(** total size of a chain: at least (product - 1), with equality exactly when packed *)
Lemma chain_tot_ge P : forall c, Forall okp P -> chain Z.ge P -> (forall p, head P = Some p -> c <= p.1) -> 0 < c ->
  c * (prod (P.*2) - 1) <= tot P.
Proof.
  induction P as [|p P IH]; intros c Hok Hc Hh Hcp; [simpl; lia|].
  apply Forall_cons in Hok as [[Hp1 Hp2] Hok]. destruct Hc as [Hn Hc]. specialize (Hh p eq_refl).
  rewrite fmap_cons, prod_cons. cbn [tot foldr]. fold (tot P).
  assert (p.1 * p.2 * (prod (P.*2) - 1) <= tot P).
  { apply IH; [done|done| |nia]. intros q Hq. destruct P; [done|]. injection Hq as ->. lia. }
  assert (0 < prod (P.*2)). { apply prod_pos, Forall_fmap. eapply list.Forall_impl; [exact Hok|]. by intros ? [_ ?]. }
  assert (c * (p.2 * prod (P.*2) - 1) <= p.1 * (p.2 * prod (P.*2) - 1)) by (apply Z.mul_le_mono_nonneg_r; nia). nia.
Qed.
Lemma chain_tot_eq P : forall c, Forall okp P -> Forall (fun p => 2 <= p.2) P -> chain Z.ge P -> (forall p, head P = Some p -> c <= p.1) -> 0 < c ->
  tot P = c * (prod (P.*2) - 1) -> chain eq P /\ (forall p, head P = Some p -> p.1 = c).
Proof.
  induction P as [|p P IH]; intros c Hok H2 Hc Hh Hcp He; [split; done|].
  apply Forall_cons in Hok as [[Hp1 Hp2] Hok]. apply Forall_cons in H2 as [H20 H2]. destruct Hc as [Hn Hc]. specialize (Hh p eq_refl).
  rewrite fmap_cons, prod_cons in He. cbn [tot foldr] in He. fold (tot P) in He.
  assert (Hh' : forall q, head P = Some q -> p.1 * p.2 <= q.1) by (intros q Hq; destruct P; [done|]; injection Hq as ->; lia).
  pose proof (chain_tot_ge P (p.1 * p.2) Hok Hc Hh' ltac:(nia)) as Hge.
  assert (Hpr : 0 < prod (P.*2)). { apply prod_pos, Forall_fmap. eapply list.Forall_impl; [exact Hok|]. by intros ? [_ ?]. }
  assert (p.1 = c) as Hpc.
  { assert (p.1 * (p.2 * prod (P.*2) - 1) <= c * (p.2 * prod (P.*2) - 1)) by nia.
    assert (1 <= p.2 * prod (P.*2) - 1) by nia. nia. }
  destruct (IH (p.1 * p.2) Hok H2 Hc Hh' ltac:(nia)) as [Hce Hhe]; [nia|]. split.
  - split; [|done]. destruct P; [done|]. by apply Hhe.
  - intros q [= <-]. done.
Qed.
Lemma chain_eq_tot P : forall c, chain eq P -> (forall p, head P = Some p -> p.1 = c) -> tot P = c * (prod (P.*2) - 1).
Proof.
  induction P as [|p P IH]; intros c Hc Hh; [simpl; lia|]. destruct Hc as [Hn Hc]. specialize (Hh p eq_refl).
  rewrite fmap_cons, prod_cons. cbn [tot foldr]. fold (tot P). rewrite (IH (p.1 * p.2) Hc); [rewrite Hh; lia|].
  intros q Hq. destruct P; [done|]. injection Hq as ->. done.
Qed.

Section ex.
  Context (t : ity) (Ht : std_ity t) (E : exts_obj) (exts : list Z) (HE : has_extents t E exts) (strides : list Z).
  Context (HV : valid_strides t exts strides).
  Let Hl : length strides = length exts. Proof. apply HV. Qed.
  Let Hs : Forall (fun s => 0 < s) strides.
  Proof. destruct HV as (_ & H & _). eapply list.Forall_impl; [exact H|]; simpl; lia. Qed.
  Let Z2 := zip strides exts.
  Let okZ : 0 ∉ exts -> Forall okp Z2.
  Proof.
    intros H0. pose proof (pos_of t Ht E exts HE H0) as Hp. unfold Z2. clear -Hl Hs Hp. revert exts Hl Hp.
    induction Hs as [|s ss Hs0 Hss IH]; intros [|e es] Hl Hp; try constructor; apply Forall_cons in Hp as [He Hp].
    - split; simpl; lia.
    - apply IH; [done|simpl in Hl; lia|done].
  Qed.

  Lemma pairs_ok : forall es ss k, drop k exts = es -> drop k strides = ss -> length ss = length es -> 0 ∉ es ->
    pairs_loop t E strides (length es) k = Ok (Some (zip ss es)).
  Proof.
    induction es as [|e es IH]; intros ss k He Hss Hle H0; [destruct ss; done|]. destruct ss as [|s ss]; [done|].
    assert (Hk : strides !! k = Some s) by (rewrite <- (Nat.add_0_r k), <- lookup_drop, Hss; done).
    assert (Hke : exts !! k = Some e) by (rewrite <- (Nat.add_0_r k), <- lookup_drop, He; done).
    cbn [pairs_loop length]. destruct (extent_ok t Ht E exts k e HE Hke) as [-> _]. rewrite rbind_ok.
    apply not_elem_of_cons in H0 as [H0e H0]. rewrite decide_False by done. unfold at_z. rewrite Hk, rbind_ok.
    rewrite (drop_S _ _ _ Hk) in Hss. injection Hss as Hss. rewrite (drop_S _ _ _ Hke) in He. injection He as He.
    rewrite (IH ss (S k) He Hss); [done|simpl in Hle; lia|done].
  Qed.
  Lemma pairs_zero : length strides = length exts -> forall es k, drop k exts = es -> 0 ∈ es ->
    pairs_loop t E strides (length es) k = Ok None.
  Proof.
    intros Hlen. induction es as [|e es IH]; intros k He H0; [by apply elem_of_nil in H0|].
    assert (Hke : exts !! k = Some e) by (rewrite <- (Nat.add_0_r k), <- lookup_drop, He; done).
    cbn [pairs_loop length]. destruct (extent_ok t Ht E exts k e HE Hke) as [-> _]. rewrite rbind_ok.
    destruct (decide (e = 0)); [done|]. destruct (lookup_lt_is_Some_2 strides k) as [s Hk].
    { rewrite Hlen. by eapply lookup_lt_Some. }
    unfold at_z. rewrite Hk, rbind_ok. rewrite (drop_S _ _ _ Hke) in He. injection He as He.
    rewrite (IH (S k) He); [done|]. apply elem_of_cons in H0 as [?|?]; [congruence|done].
  Qed.
  Lemma chain_check_ok P : forall p, Forall okp (p :: P) -> chain Z.ge (p :: P) -> Forall (fun p => p.1 <= tmax t) (p :: P) ->
    exists b, chain_check t p P = Ok b /\ (b = true <-> chain eq (p :: P)).
  Proof.
    induction P as [|q P IH]; intros p Hok Hc Hb; cbn [chain_check].
    - exists true. split; [done|]. simpl. tauto.
    - destruct Hc as [Hn Hc]. apply Forall_cons in Hok as [[Hp1 Hp2] Hok]. apply Forall_cons in Hb as [_ Hb].
      pose proof (Forall_inv Hb) as Hq. simpl in Hq. rewrite (mulp_ok t Ht) by nia. rewrite rbind_ok.
      destruct (decide (q.1 <> p.1 * p.2)) as [Hne|Heq].
      + exists false. split; [done|]. split; [done|]. intros [? _]. done.
      + apply dec_stable in Heq. destruct (IH q Hok Hc Hb) as (b & -> & Hbi). exists b. split; [done|]. rewrite Hbi. cbn [chain]. tauto.
  Qed.
  Lemma boundZ : Forall (fun p => p.1 <= tmax t) Z2.
  Proof.
    destruct HV as (_ & H & _). unfold Z2. clear -H Hl. revert exts Hl. induction H as [|s ss Hs0 Hss IH]; intros [|e es] Hl; try constructor; simpl in *.
    - lia.
    - apply IH. lia.
  Qed.
  Lemma special_ok : (0 < length exts)%nat -> exists b, is_exhaustive_special t E strides = Ok b /\ (b = true <-> 0 ∈ exts \/ packed exts strides).
  Proof.
    intros Hn. unfold is_exhaustive_special. rewrite (rankE t E exts HE).
    destruct (decide (0 ∈ exts)) as [H0|H0].
    { rewrite (pairs_zero Hl exts 0 eq_refl H0), rbind_ok. exists true. split; [done|]. tauto. }
    rewrite (pairs_ok exts strides 0 eq_refl eq_refl Hl H0), rbind_ok.
    destruct (wp_exists _ _ (sort_wp pair_lt pair_lt_swo 0 (length (zip strides exts)) (zip strides exts) ltac:(lia) ltac:(lia))) as (a & Ha & l' & -> & Hp & _ & Hso).
    rewrite Ha, rbind_ok, get_cells_full, rbind_ok.
    destruct HV as (_ & _ & _ & HP). destruct (HP H0) as (P & HPz & HPc).
    assert (HPok : Forall okp P) by (rewrite HPz; by apply okZ).
    assert (l' = P) as ->.
    { apply (StronglySorted_unique ple).
      - apply sorted_strong. rewrite (Permutation_length Hp). done.
      - by apply chain_sorted.
      - by rewrite Hp, HPz. }
    assert (Hpk : packed exts strides <-> chain eq P /\ (forall p, head P = Some p -> p.1 = 1)).
    { split.
      - intros (Q & HQ & HQc & HQh). assert (Q = P) as ->; [|done]. apply chain_unique; try done.
        + rewrite HQ. by apply okZ.
        + by apply chain_eq_ge.
        + by rewrite HQ, HPz.
      - intros [H1 H2]. exists P. done. }
    destruct P as [|p P].
    { exfalso. apply Permutation_length in HPz. rewrite zip_with_length in HPz. simpl in HPz. lia. }
    destruct (decide (p.1 <> 1)) as [H1|H1].
    { exists false. split; [done|]. split; [done|]. intros [?|Hk]; [done|]. apply Hpk in Hk as [_ Hk]. exfalso. apply H1. by apply Hk. }
    apply dec_stable in H1. destruct (chain_check_ok P p HPok HPc) as (b & -> & Hb); [rewrite HPz; apply boundZ|].
    exists b. split; [done|]. rewrite Hb, Hpk. split.
    - intros Hc. right. split; [done|]. by intros q [= <-].
    - by intros [?|[? _]].
  Qed.
  Lemma common_ok : stride_safe t exts -> 1 ∉ exts -> prod exts <= tmax t ->
    no_narrow_overflow t E exts -> exists b, is_exhaustive_common t E strides = Ok b /\ (b = true <-> 0 ∈ exts \/ packed exts strides).
  Proof.
    intros Hsafe H1 Hb Hnn. unfold is_exhaustive_common. rewrite (required_span_ok t Ht E exts HE Hnn Hb), rbind_ok.
    rewrite (stride_rss_ok t Ht E exts HE strides HV Hsafe), rbind_ok. eexists. split; [done|].
    rewrite orb_true_iff, !bool_decide_eq_true. unfold span_size. destruct (decide (0 ∈ exts)) as [H0|H0].
    { rewrite (prod_zero _ H0). tauto. }
    pose proof (prod_pos _ (pos_of t Ht E exts HE H0)) as Hpp.
    rewrite <- tot_zip by done. fold Z2.
    assert (HZ : Z2.*2 = exts) by (apply zip_snd; lia).
    split.
    - intros [He|He]; [|lia]. right. destruct HV as (_ & _ & _ & HP). destruct (HP H0) as (P & HPz & HPc). exists P. split; [done|].
      assert (HPok : Forall okp P) by (rewrite HPz; by apply okZ).
      apply (chain_tot_eq P 1); [done| |done| |lia|].
      + rewrite HPz. fold Z2. pose proof (okZ H0) as Hok. clear -HZ H1 Hok. rewrite <- HZ in H1. clear HZ. induction Hok as [|p l [_ Hp] Hok IH]; constructor.
        * rewrite fmap_cons, not_elem_of_cons in H1. lia.
        * apply IH. rewrite fmap_cons, not_elem_of_cons in H1. tauto.
      + intros p Hp. destruct P; [done|]. injection Hp as ->. pose proof (Forall_inv HPok) as [? _]. lia.
      + rewrite (tot_perm _ _ HPz). fold Z2. rewrite (prod_perm _ _ (fmap_Permutation snd _ _ HPz)). fold Z2. rewrite HZ. lia.
    - intros [?|(P & HPz & HPc & HPh)]; [done|]. left.
      pose proof (chain_eq_tot P 1 HPc HPh) as Ht0. rewrite (tot_perm _ _ HPz) in Ht0. fold Z2 in Ht0.
      rewrite (prod_perm _ _ (fmap_Permutation snd _ _ HPz)) in Ht0. fold Z2 in Ht0. rewrite HZ in Ht0. lia.
  Qed.

  Lemma is_exhaustive_ok : stride_safe t exts -> prod exts <= tmax t -> no_narrow_overflow t E exts ->
    exists b, stride_is_exhaustive t E strides = Ok b /\ (b = true <-> 0 ∈ exts \/ packed exts strides).
  Proof.
    intros Hsafe Hb Hnn. unfold stride_is_exhaustive. rewrite (rankE t E exts HE).
    destruct HE as (Hlen & Hdl & HEx).
    destruct (decide (length exts = 0%nat \/ Some 0 ∈ st E)) as [Hz|Hz].
    { exists true. split; [done|]. split; [|done]. intros _. destruct Hz as [Hz|Hz].
      - right. destruct exts; [|done]. destruct strides; [|done]. exists []. done.
      - left. apply elem_of_list_lookup in Hz as [i Hi]. destruct (lookup_lt_is_Some_2 exts i) as [e He]; [rewrite <- Hlen; by eapply lookup_lt_Some|].
        destruct (HEx i e He) as [_ Hst]. rewrite Hi in Hst. subst e. by eapply elem_of_list_lookup_2. }
    assert (Hext : forall i e, exts !! i = Some e -> extent t E i = Ok e) by (intros i e Hi; by eapply extent_ok).
    destruct (decide (length exts = 1%nat)) as [H1|H1].
    { destruct exts as [|e0 [|]] eqn:Ee; try done. destruct strides as [|s0 [|]] eqn:Es; try done.
      rewrite (Hext 0%nat e0 eq_refl). cbn [at_z lookup list_lookup]. unfold at_z. simpl. eexists. split; [done|].
      rewrite bool_decide_eq_true. split.
      - intros [->| ->]; [right|left; left]. exists [(1, e0)]. split; [done|]. split; [done|]. by intros p [= <-].
      - intros [Hin|(P & HP & _ & HPh)].
        + apply elem_of_list_singleton in Hin. by right.
        + simpl in HP. symmetry in HP. apply Permutation_singleton_inj in HP || (apply Permutation_length_1_inv in HP as ->). left. by apply (HPh (s0, e0)). }
    destruct (decide (length exts = 2%nat)) as [H2|H2].
    { destruct exts as [|e0 [|e1 [|]]] eqn:Ee; try done. destruct strides as [|s0 [|s1 [|]]] eqn:Es; try done.
      rewrite (Hext 0%nat e0 eq_refl), (Hext 1%nat e1 eq_refl). unfold at_z. simpl. eexists. split; [done|].
      rewrite bool_decide_eq_true. split.
      - intros [[-> ->]|[[-> ->]|[->| ->]]].
        + right. exists [(1, e0); (e0, e1)]. split; [done|]. split; [simpl; split_and!; try done; lia|]. by intros p [= <-].
        + right. exists [(1, e1); (e1, e0)]. split; [constructor|]. split; [simpl; split_and!; try done; lia|]. by intros p [= <-].
        + left. left.
        + left. right. left.
      - intros [Hin|(P & HP & HPc & HPh)].
        + apply elem_of_cons in Hin as [?|Hin%elem_of_list_singleton]; [by right; right; left|by right; right; right].
        + symmetry in HP. simpl in HP. apply Permutation_length_2_inv in HP as [-> | ->].
          * specialize (HPh _ eq_refl). simpl in HPh, HPc. subst s0. left. split; [done|]. destruct HPc as [? _]. lia.
          * specialize (HPh _ eq_refl). simpl in HPh, HPc. subst s1. right. left. split; [done|]. destruct HPc as [? _]. lia. }
    destruct (decide (Some 1 ∈ st E)) as [Hs1|Hs1]; [apply special_ok; lia|].
    assert (Hn1 : (rank_dynamic (st E) = 0%nat \/ 1 ∉ dyn E) -> 1 ∉ exts).
    { intros Hd Hin. apply elem_of_list_lookup in Hin as [i Hi]. destruct (HEx i 1 Hi) as [_ Hst].
      destruct (st E !! i) as [[s|]|] eqn:Hsi; [subst s; apply Hs1; by eapply elem_of_list_lookup_2| |done].
      destruct Hd as [Hd|Hd]; [by apply (rd_zero _ i) in Hd|]. apply Hd. by eapply elem_of_list_lookup_2. }
    destruct (decide (rank_dynamic (st E) = 0%nat)); [apply common_ok; auto|].
    destruct (decide (1 ∈ dyn E)); [apply special_ok; lia|apply common_ok; auto].
  Qed.
End ex.

Section ctor.
  Context (t : ity) (Ht : std_ity t).
  (* values match the static extents *)
  Definition matches (l : list (option Z)) (vals : list Z) : Prop :=
    Forall2 (fun o v => 0 <= v <= tmax t /\ match o with Some s => s = v | None => True end) l vals.
  Definition dyn_of (l : list (option Z)) (vals : list Z) : list Z :=
    (filter (fun p : option Z * Z => is_dyn p.1 = true) (zip l vals)).*2.
  Lemma dyn_of_cons o l v vals : dyn_of (o :: l) (v :: vals) = if is_dyn o then v :: dyn_of l vals else dyn_of l vals.
  Proof. unfold dyn_of. cbn [zip_with]. rewrite filter_cons. simpl. by destruct o; simpl. Qed.
  Lemma dyn_of_has l vals : matches l vals -> has_extents t (Exts l (dyn_of l vals)) vals.
  Proof.
    intros H. split; [simpl; by eapply Forall2_length|]. split.
    - simpl. induction H as [|o v l vals Hv H IH]; [done|]. rewrite dyn_of_cons, rd_cons. destruct o; simpl; [done|]. by rewrite IH.
    - simpl. induction H as [|o v l vals [Hv Ho] H IH]; intros [|i] e Hi; try done; simpl in Hi.
      + injection Hi as ->. split; [done|]. simpl. destruct o; [done|]. by rewrite dyn_of_cons.
      + destruct (IH i e Hi) as [He Hm]. split; [done|]. simpl. destruct (l !! i) as [[s|]|]; try done.
        rewrite rd_cons, dyn_of_cons. destruct o; done.
  Qed.
  Lemma inv_fold vals : forall l k, (forall i, drop k vals !! i = vals !! (k + i)%nat) -> matches l (drop k vals) ->
    foldr (fun i acc => v <~ at_z vals i ;; acc <~ acc ;; Ok (cast t v :: acc)) (Ok []) (dynamic_indices_inv k l) = Ok (dyn_of l (drop k vals)).
  Proof.
    induction l as [|o l IH]; intros k _ Hm; [done|]. 
    destruct (drop k vals) as [|v vs] eqn:Hdr; [by inversion Hm|]. apply Forall2_cons in Hm as [[Hv Ho] Hm'].
    assert (Hk : vals !! k = Some v) by (rewrite <- (Nat.add_0_r k), <- lookup_drop, Hdr; done).
    assert (Hd : drop (S k) vals = vs) by (pose proof (drop_S _ _ _ Hk) as Hd; rewrite Hdr in Hd; by injection Hd).
    subst vs. rewrite dyn_of_cons. cbn [dynamic_indices_inv].
    assert (IHk := IH (S k) (fun i => lookup_drop _ _ _) Hm').
    destruct o as [s|]; cbn [is_dyn]; [exact IHk|]. cbn [foldr]. unfold at_z at 1. rewrite Hk, rbind_ok, IHk, rbind_ok.
    by rewrite (cast_small t Ht) by done.
  Qed.
  Lemma ctor_all_ok l vals : matches l vals -> exists E, ctor_all t l vals = Ok E /\ st E = l /\ has_extents t E vals.
  Proof.
    intros H. unfold ctor_all. destruct (decide (rank_dynamic l = length l)) as [Hr|Hr].
    - eexists. split; [done|]. split; [done|]. unfold ctor_dynamic.
      assert (cast t <$> vals = dyn_of l vals) as ->; [|by apply dyn_of_has].
      clear -H Hr Ht. induction H as [|o v l vals [Hv _] H IH]; [done|]. rewrite rd_cons in Hr. simpl in Hr. pose proof (rd_le l).
      rewrite dyn_of_cons, fmap_cons. destruct o; simpl in *; [lia|]. rewrite IH by lia. by rewrite (cast_small t Ht) by done.
    - rewrite (inv_fold vals l 0 (fun i => lookup_drop _ _ _) H), rbind_ok. eexists. split; [done|]. split; [done|]. by apply dyn_of_has.
  Qed.
  Lemma ctor_dynamic_ok l vals : matches l vals -> has_extents t (ctor_dynamic t l (dyn_of l vals)) vals.
  Proof.
    intros H. unfold ctor_dynamic. assert (cast t <$> dyn_of l vals = dyn_of l vals) as ->; [|by apply dyn_of_has].
    induction H as [|o v l vals [Hv _] H IH]; [done|]. rewrite dyn_of_cons. destruct o; simpl; [done|]. rewrite (cast_small t Ht) by done. f_equal. exact IH.
  Qed.
  Lemma exts_eq_ok E F a b : has_extents t E a -> has_extents t F b -> exists r, exts_eq t E F = Ok r /\ (r = true <-> a = b).
  Proof.
    intros HE HF. unfold exts_eq. rewrite (rankE t E a HE), (rankE t F b HF). destruct (decide (length a <> length b)) as [Hl|Hl].
    { exists false. split; [done|]. split; [done|]. by intros ->. }
    apply dec_stable in Hl.
    assert (G : forall n k, (k + n = length a)%nat -> exists r, exts_eq_loop t E F n k = Ok r /\ (r = true <-> drop k a = drop k b)).
    { induction n as [|n IH]; intros k Hk; cbn [exts_eq_loop].
      - exists true. split; [done|]. split; [|done]. intros _. rewrite !drop_ge by lia. done.
      - destruct (lookup_lt_is_Some_2 a k) as [x Hx]; [lia|]. destruct (lookup_lt_is_Some_2 b k) as [y Hy]; [lia|].
        destruct (extent_ok t Ht E a k x HE Hx) as [-> _]. destruct (extent_ok t Ht F b k y HF Hy) as [-> _]. rewrite !rbind_ok.
        rewrite (drop_S _ _ _ Hx), (drop_S _ _ _ Hy). destruct (decide (x <> y)) as [Hne|He].
        + exists false. split; [done|]. split; [done|]. congruence.
        + apply dec_stable in He. subst y. destruct (IH (S k)) as (r & -> & Hr); [lia|]. exists r. split; [done|]. rewrite Hr. split; congruence. }
    apply (G (length a) 0%nat). lia.
  Qed.
End ctor.

(** reads and writes through an mdspan *)
Lemma md_ok {A} index exts n (buf : list A) : in_bounds index exts n -> unique index exts -> n <= Z.of_nat (length buf) ->
  forall idx, valid_index exts idx ->
    (exists v, md_read index buf idx = Ok v) /\
    forall v, exists buf', md_write index buf idx v = Ok buf' /\ length buf' = length buf /\
      forall idx', valid_index exts idx' -> md_read index buf' idx' = if decide (idx' = idx) then Ok v else md_read index buf idx'.
Proof.
  intros Hin Hu Hn idx Hv. destruct (Hin idx Hv) as (o & Ho & Hob). unfold md_read, md_write. rewrite Ho. split.
  - rewrite rbind_ok, decide_True by lia. destruct (lookup_lt_is_Some_2 buf (Z.to_nat o)) as [v ->]; [lia|]. eauto.
  - intros v. exists (<[Z.to_nat o := v]> buf). rewrite rbind_ok, decide_True by lia. split; [done|]. split; [apply insert_length|]. intros idx' Hv'.
    destruct (Hin idx' Hv') as (o' & Ho' & Hob'). rewrite Ho', rbind_ok, decide_True by lia.
    destruct (decide (idx' = idx)) as [->|Hne].
    + assert (o' = o) as -> by congruence. rewrite list_lookup_insert by lia. done.
    + rewrite list_lookup_insert_ne; [rewrite rbind_ok, decide_True by lia; done|]. intros He. apply Hne. apply (Hu idx' idx o); try done. rewrite Ho'. apply (f_equal Ok). lia.
Qed.
