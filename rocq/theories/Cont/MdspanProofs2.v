From stdpp Require Import base list numbers decidable list_numbers sorting.
From Coq Require Import ZArith Lia.
From Verif Require Import Base.Res Base.Int Base.Arr Base.Order Base.OrderLemmas Alg.SortModel Alg.SortProofs
  Cont.MdspanModel Cont.MdspanSpec Cont.MdspanProofs.
Local Open Scope Z_scope.

Fixpoint lstr (c : Z) (es : list Z) : list Z := match es with [] => [] | e :: es' => c :: lstr (c * e) es' end.
Fixpoint rstr (es : list Z) : list Z := match es with [] => [] | e :: es' => prod es' :: rstr es' end.
Lemma lstr_spec es : forall c, (fun k => c * prod (take k es)) <$> seq 0 (length es) = lstr c es.
Proof.
  induction es as [|e es IH]; intros c; [done|]. cbn [length]. rewrite <- cons_seq, fmap_cons. cbn [lstr]. f_equal.
  - cbn [take]. change (prod []) with 1. lia.
  - rewrite <- fmap_S_seq, <- list_fmap_compose, <- IH. apply list_fmap_ext. intros k x _. unfold compose. cbn [take]. rewrite prod_cons. lia.
Qed.
Lemma left_strides_lstr es : left_strides es = lstr 1 es.
Proof. rewrite <- lstr_spec. apply list_fmap_ext. intros. lia. Qed.
Lemma right_strides_rstr es : right_strides es = rstr es.
Proof.
  unfold right_strides. induction es as [|e es IH]; [done|]. cbn [length]. rewrite <- cons_seq, fmap_cons. cbn [rstr drop]. f_equal.
  rewrite <- fmap_S_seq, <- list_fmap_compose, <- IH. done.
Qed.
Lemma lstr_length es : forall c, length (lstr c es) = length es.
Proof. induction es; intros; simpl; [done|]. by rewrite IHes. Qed.
Lemma rstr_length es : length (rstr es) = length es.
Proof. induction es; simpl; [done|]. by rewrite IHes. Qed.
Lemma lstr_pos es : Forall (fun e => 0 < e) es -> forall c, 0 < c -> Forall (fun s => 0 < s) (lstr c es).
Proof. induction 1; intros c Hc; simpl; constructor; [done|]. apply IHForall. nia. Qed.
Lemma rstr_pos es : Forall (fun e => 0 < e) es -> Forall (fun s => 0 < s) (rstr es).
Proof. induction 1; simpl; constructor; [by apply prod_pos|done]. Qed.
Lemma lstr_chain es : forall c, chain eq (zip (lstr c es) es).
Proof. induction es as [|e es IH]; intros c; [done|]. cbn [lstr zip_with chain]. split; [|apply IH]. destruct es; done. Qed.
Lemma lstr_head es c p : head (zip (lstr c es) es) = Some p -> p.1 = c.
Proof. destruct es; simpl; intros H; [done|]. by injection H as <-. Qed.
Lemma rstr_chain es : chain eq (reverse (zip (rstr es) es)) /\ (forall p, head (reverse (zip (rstr es) es)) = Some p -> p.1 = 1) /\
  (forall l p, reverse (zip (rstr es) es) = l ++ [p] -> p.1 * p.2 = prod es).
Proof.
  induction es as [|e es (IH1 & IH2 & IH3)].
  - split; [done|]. split; [done|]. intros l0 q H0. destruct l0; discriminate.
  - cbn [rstr zip_with]. rewrite reverse_cons. split_and!.
    + destruct (reverse (zip (rstr es) es)) as [|q l _] eqn:Er using rev_ind; [done|]. rewrite <- app_assoc. simpl.
      apply chain_snoc; [done|]. simpl. symmetry. by eapply IH3.
    + intros p. destruct es as [|e' es]; [simpl; intros [= <-]; done|]. intros Hh. apply IH2.
      destruct (reverse (zip (rstr (e' :: es)) (e' :: es))) eqn:Er; [|done].
      apply (f_equal length) in Er. rewrite reverse_length in Er. simpl in Er. discriminate.
    + intros l p He. apply app_inj_2 in He as [_ He]; [|done]. injection He as <-. cbn [fst snd]. rewrite prod_cons. lia.
Qed.
Lemma lstr_packed es : packed es (lstr 1 es).
Proof. exists (zip (lstr 1 es) es). split; [done|]. split; [apply lstr_chain|]. apply lstr_head. Qed.
Lemma rstr_packed es : packed es (rstr es).
Proof. exists (reverse (zip (rstr es) es)). split; [apply reverse_Permutation|]. split; apply rstr_chain. Qed.
Lemma chain_eq_ge P : chain eq P -> chain Z.ge P.
Proof. induction P as [|p P IH]; [done|]. simpl. intros [H1 H2]. split; [|auto]. destruct P; [done|]. rewrite H1. lia. Qed.
Lemma lstr_tot es : forall c, dot ((fun e => e - 1) <$> es) (lstr c es) = c * (prod es - 1).
Proof.
  induction es as [|e es IH]; intros c; [simpl; lia|]. cbn [lstr fmap list_fmap dot]. fold (fmap (fun e => e - 1) es).
  change (list_fmap Z Z (fun e => e - 1) es) with ((fun e => e - 1) <$> es). rewrite IH, prod_cons. lia.
Qed.
Lemma rstr_tot es : dot ((fun e => e - 1) <$> es) (rstr es) = prod es - 1.
Proof.
  induction es as [|e es IH]; [done|]. cbn [rstr fmap list_fmap dot].
  change (list_fmap Z Z (fun e => e - 1) es) with ((fun e => e - 1) <$> es). rewrite IH, prod_cons. lia.
Qed.

Lemma rd_cons o l : rank_dynamic (o :: l) = ((if is_dyn o then 1 else 0) + rank_dynamic l)%nat.
Proof. unfold rank_dynamic. rewrite filter_cons. by destruct o; simpl. Qed.
Lemma rd_take_le l : forall i, (rank_dynamic (take i l) <= rank_dynamic l)%nat.
Proof. induction l as [|o l IH]; intros [|i]; cbn [take]; rewrite ?rd_cons; [done|done|unfold rank_dynamic at 1; simpl; lia|]. specialize (IH i). lia. Qed.
Lemma rd_le l : (rank_dynamic l <= length l)%nat.
Proof. induction l as [|o l IH]; [done|]. rewrite rd_cons. destruct o; simpl; lia. Qed.
Lemma rd_zero l i : rank_dynamic l = 0%nat -> l !! i <> Some None.
Proof. revert i. induction l as [|o l IH]; intros [|i] H; try done; rewrite rd_cons in H; simpl. { destruct o; simpl in H; [done|lia]. } apply IH. lia. Qed.
Lemma rd_full l : rank_dynamic l = length l -> forall i o, l !! i = Some o -> o = None /\ rank_dynamic (take i l) = i.
Proof.
  induction l as [|o l IH]; intros H [|i] o' Hi; try done; rewrite rd_cons in H; simpl in *; pose proof (rd_le l).
  - injection Hi as <-. destruct o; simpl in H; [lia|done].
  - destruct o; simpl in H; [lia|]. destruct (IH ltac:(lia) i o' Hi) as [-> Hr]. split; [done|]. rewrite rd_cons. simpl. lia.
Qed.

Section code.
  Context (t : ity) (Ht : std_ity t).

  Lemma tmax_facts : 0 < tmax t /\ tmin t <= 0 /\ tmax t < 2 ^ wd t /\ tmax t <= tmax (promote t).
  Proof. ity_cases t Ht; vm_compute; repeat split; congruence. Qed.
  Lemma cast_small z : 0 <= z <= tmax t -> cast t z = z.
  Proof. intros H. apply cast_id; [pose proof (wd_pos t Ht); lia|]. unfold in_t. pose proof tmax_facts. lia. Qed.
  Lemma arithP z : 0 <= z <= tmax t -> arith (promote t) z = Ok z.
  Proof.
    intros H. unfold arith. pose proof tmax_facts as (? & ? & ? & ?).
    destruct (sg (promote t)) eqn:Hs.
    - rewrite decide_True; [done|]. unfold in_t. unfold tmin. rewrite Hs. split; [|lia].
      assert (0 < 2 ^ (wd (promote t) - 1)); [|lia]. apply Z.pow_pos_nonneg; [lia|]. clear -Ht. ity_cases t Ht; vm_compute; congruence.
    - f_equal. apply Z.mod_small. split; [lia|]. unfold tmax in *. rewrite Hs in *. lia.
  Qed.
  Lemma cast_mod z : cast t z mod 2 ^ wd t = z mod 2 ^ wd t.
  Proof.
    unfold cast. destruct (sg t); [|apply Z.mod_mod; pose proof (wd_pos t Ht); lia || (apply Z.pow_nonzero; lia)].
    rewrite Zminus_mod, Z.mod_mod, <- Zminus_mod by (apply Z.pow_nonzero; pose proof (wd_pos t Ht); lia). f_equal. lia.
  Qed.
  Lemma cast_cong a b : a mod 2 ^ wd t = b mod 2 ^ wd t -> cast t a = cast t b.
  Proof.
    intros H. unfold cast. destruct (sg t); [|done].
    rewrite (Zplus_mod a), (Zplus_mod b), H. done.
  Qed.

  Lemma mulp_ok a b : 0 <= a * b <= tmax t -> mulp t a b = Ok (a * b).
  Proof. apply arithP. Qed.
  Lemma addp_ok a b : 0 <= a + b <= tmax t -> addp t a b = Ok (a + b).
  Proof. apply arithP. Qed.
  Lemma subp_ok a b : 0 <= a - b <= tmax t -> subp t a b = Ok (a - b).
  Proof. apply arithP. Qed.

  Lemma extent_ok E exts i e : has_extents t E exts -> exts !! i = Some e -> extent t E i = Ok e /\ 0 <= e <= tmax t.
  Proof.
    intros (Hl & Hd & H) Hi. destruct (H i e Hi) as [He Hst]. split; [|done]. unfold extent.
    destruct (decide (rank_dynamic (st E) = 0%nat)) as [H0|H0].
    { pose proof (rd_zero (st E) i H0). destruct (st E !! i) as [[s|]|]; [|done|done]. subst s. by rewrite cast_small. }
    unfold rank. destruct (decide (rank_dynamic (st E) = length (st E))) as [H1|H1].
    { destruct (st E !! i) as [o|] eqn:Ho; [|done]. destruct (rd_full _ H1 i o Ho) as [-> Hr]. rewrite Hr in Hst. unfold at_z. by rewrite Hst. }
    destruct (st E !! i) as [[s|]|]; [|by unfold at_z, dynamic_index; rewrite Hst|done]. subst s. by rewrite cast_small.
  Qed.

  Section E.
  Context (E : exts_obj) (exts : list Z) (HE : has_extents t E exts).
  Let ext_at k e es : drop k exts = e :: es -> extent t E k = Ok e /\ 0 <= e <= tmax t /\ drop (S k) exts = es.
  Proof.
    intros H. assert (Hk : exts !! k = Some e) by (rewrite <- (Nat.add_0_r k), <- lookup_drop, H; done).
    destruct (extent_ok E exts k e HE Hk). split; [done|]. split; [done|]. rewrite (drop_S _ _ _ Hk) in H. by injection H.
  Qed.
  Lemma rankE : rank E = length exts.
  Proof. apply HE. Qed.

  Lemma left_index_gen : forall es k idx stride result, drop k exts = es -> valid_index es idx ->
    0 <= result < stride -> stride * prod es <= tmax t ->
    left_index_loop t E k idx stride result = Ok (result + dot idx (lstr stride es)).
  Proof.
    induction es as [|e es IH]; intros k idx stride result Hd Hv Hr Hb; inversion Hv as [|? i ? idx' Hi Hv']; subst; cbn [left_index_loop lstr dot].
    { apply (f_equal Ok). lia. }
    destruct (ext_at k e es Hd) as (He & Her & Hd'). rewrite prod_cons in Hb.
    pose proof (prod_pos es (valid_pos _ _ Hv')) as Hp.
    assert (e <= e * prod es) by nia.
    assert (stride * e <= stride * (e * prod es)) by (apply Z.mul_le_mono_nonneg_l; lia).
    assert (0 <= stride * e) by nia.
    assert (0 <= i * stride <= (e - 1) * stride) by nia.
    rewrite mulp_ok, rbind_ok by lia. rewrite addp_ok, rbind_ok by lia. rewrite He, rbind_ok. rewrite mulp_ok, rbind_ok by nia.
    rewrite !cast_small by nia. rewrite (IH (S k) idx'); [|done|done|nia|nia].
    apply (f_equal Ok). lia.
  Qed.
  Lemma left_index_ok idx : prod exts <= tmax t -> valid_index exts idx -> left_index t E idx = Ok (dot idx (left_strides exts)).
  Proof.
    intros Hp Hv. unfold left_index. rewrite (left_index_gen exts 0 idx 1 0); [|done|done|lia|lia].
    by rewrite left_strides_lstr.
  Qed.
  Lemma right_index_gen : forall es k idx result, drop k exts = es -> valid_index es idx ->
    0 <= result -> (result + 1) * prod es <= tmax t ->
    right_index_loop t E k idx result = Ok (result * prod es + dot idx (rstr es)).
  Proof.
    induction es as [|e es IH]; intros k idx result Hd Hv Hr Hb; inversion Hv as [|? i ? idx' Hi Hv']; subst; cbn [right_index_loop rstr dot].
    { apply (f_equal Ok). change (prod []) with 1. lia. }
    destruct (ext_at k e es Hd) as (He & Her & Hd'). rewrite prod_cons in *.
    pose proof (prod_pos es (valid_pos _ _ Hv')) as Hp.
    assert (e * (result + 1) <= tmax t) by nia.
    rewrite He, rbind_ok. rewrite mulp_ok, rbind_ok by nia. rewrite addp_ok, rbind_ok by nia. rewrite cast_small by nia.
    rewrite (IH (S k) idx'); [|done|done|nia|].
    - apply (f_equal Ok). lia.
    - assert ((i + e * result + 1) * prod es <= (e * (result + 1)) * prod es) by (apply Z.mul_le_mono_nonneg_r; lia). lia.
  Qed.
  Lemma right_index_ok idx : prod exts <= tmax t -> valid_index exts idx -> right_index t E idx = Ok (dot idx (right_strides exts)).
  Proof.
    intros Hp Hv. unfold right_index. rewrite (right_index_gen exts 0 idx 0); [|done|done|lia|lia].
    rewrite right_strides_rstr. apply (f_equal Ok). lia.
  Qed.

  (** *** products of extents *)
  Let nonneg : Forall (fun e => 0 <= e <= tmax t) exts.
  Proof. rewrite list.Forall_lookup. intros i e Hi. by eapply extent_ok. Qed.
  Let u64_wd : exists k, 0 <= k /\ 2 ^ 64 = 2 ^ wd t * 2 ^ k.
  Proof. exists (64 - wd t). pose proof (wd_pos t Ht). split; [lia|]. rewrite <- Z.pow_add_r by lia. f_equal. lia. Qed.
  Lemma u64_cast z : cast t (z mod 2 ^ 64) = cast t z.
  Proof.
    apply cast_cong. destruct u64_wd as (k & Hk & He). pose proof (wd_pos t Ht).
    rewrite He. rewrite Z.rem_mul_r by (try apply Z.pow_nonzero; try apply Z.pow_pos_nonneg; lia).
    rewrite (Z.mul_comm (2 ^ wd t)), Z_mod_plus_full. apply Z.mod_mod. apply Z.pow_nonzero; lia.
  Qed.

  Lemma cast_mul_l a b : cast t (cast t a * b) = cast t (a * b).
  Proof. apply cast_cong. rewrite Zmult_mod, cast_mod, <- Zmult_mod. done. Qed.
  Let st_at k e es : rank_dynamic (st E) = 0%nat -> drop k exts = e :: es -> st E !! k = Some (Some e).
  Proof.
    intros H0 Hd. assert (Hk : exts !! k = Some e) by (rewrite <- (Nat.add_0_r k), <- lookup_drop, Hd; done).
    destruct HE as (_ & _ & H). destruct (H k e Hk) as [_ Hst]. pose proof (rd_zero (st E) k H0).
    destruct (st E !! k) as [[s|]|]; [by subst|done|done].
  Qed.
  Lemma step_static r e : cast t ((cast u64 r * e) mod 2 ^ 64) = cast t (r * e).
  Proof.
    rewrite u64_cast. unfold cast at 2. change (sg u64) with false. cbv iota. change (wd u64) with 64.
    rewrite <- u64_cast, Zmult_mod, Z.mod_mod, <- Zmult_mod, u64_cast by done. done.
  Qed.
  Lemma fwd_static_ok : rank_dynamic (st E) = 0%nat -> forall n es k r, drop k exts = es -> (n <= length es)%nat -> in_t t r ->
    fwd_static t (st E) n k r = Ok (cast t (r * prod (take n es))).
  Proof.
    intros H0. induction n as [|n IH]; intros es k r Hd Hn Hr; cbn [fwd_static].
    - cbn [take]. change (prod []) with 1. rewrite Z.mul_1_r. rewrite cast_id; [done|pose proof (wd_pos t Ht); lia|done].
    - destruct es as [|e es]; [simpl in Hn; lia|]. rewrite (st_at k e es H0 Hd). unfold arith. change (sg u64) with false. cbv iota.
      rewrite rbind_ok. change (wd u64) with 64. rewrite step_static. destruct (ext_at k e es Hd) as (_ & _ & Hd').
      rewrite (IH es (S k)); [|done|simpl in Hn; lia|apply cast_range; pose proof (wd_pos t Ht); lia].
      rewrite cast_mul_l. cbn [take]. rewrite prod_cons. apply (f_equal Ok), f_equal. lia.
  Qed.
  Lemma usz_e e : 0 <= e <= tmax t -> cast (usz t) e = e.
  Proof. intros H. unfold cast, usz, make_unsigned. simpl. apply Z.mod_small. pose proof tmax_facts. lia. Qed.
  Lemma usz_arith r e : wd t <> 16 -> 0 <= r < 2 ^ wd t -> 0 <= e <= tmax t ->
    exists z, arith (promote (usz t)) (r * e) = Ok z /\ cast (usz t) z = (r * e) mod 2 ^ wd t.
  Proof.
    intros Hw Hr He. pose proof tmax_facts as (_ & _ & Hm & _). assert (e < 2 ^ wd t) by lia. unfold cast, usz, make_unsigned.
    cbn [wd sg]. clear -Ht Hw Hr He H. assert (0 <= r * e < 2 ^ wd t * 2 ^ wd t) as Hre by nia.
    unfold arith, promote. cbn [wd sg]. destruct (wd t <? 32) eqn:Hlt; cbn [wd sg s32].
    - assert (wd t = 8) as E8 by (ity_cases t Ht; simpl in *; lia). rewrite E8 in *. zpow. rewrite decide_True; [eauto|].
      unfold in_t. change (tmin s32) with (-2147483648). change (tmax s32) with 2147483647. lia.
    - eexists. split; [done|]. apply Z.mod_mod. apply Z.pow_nonzero; [lia|]. pose proof (wd_pos t Ht). lia.
  Qed.
  Lemma fwd_dyn_mod : wd t <> 16 -> forall n es k r, drop k exts = es -> (n <= length es)%nat -> 0 <= r < 2 ^ wd t ->
    fwd_dyn t E n k r = Ok ((r * prod (take n es)) mod 2 ^ wd t).
  Proof.
    intros Hw. assert (0 < 2 ^ wd t) by (apply Z.pow_pos_nonneg; [lia|]; pose proof (wd_pos t Ht); lia).
    induction n as [|n IH]; intros es k r Hd Hn Hr; cbn [fwd_dyn].
    - cbn [take]. change (prod []) with 1. rewrite Z.mul_1_r, Z.mod_small by lia. done.
    - destruct es as [|e es]; [simpl in Hn; lia|]. destruct (ext_at k e es Hd) as (He & Her & Hd'). rewrite He, rbind_ok, usz_e by done.
      destruct (usz_arith r e Hw Hr Her) as (z & -> & Hz). rewrite rbind_ok, Hz.
      rewrite (IH es (S k)); [|done|simpl in Hn; lia|by apply Z.mod_pos_bound].
      cbn [take]. rewrite prod_cons. apply (f_equal Ok). rewrite Zmult_mod, Z.mod_mod, <- Zmult_mod by lia. f_equal. lia.
  Qed.
  Lemma prod_take_le es n : Forall (fun e => 0 < e) es -> 0 < prod (take n es) <= prod es.
  Proof.
    intros H. rewrite <- (take_drop n es) in H at 1. apply Forall_app in H as [H1 H2].
    rewrite <- (take_drop n es) at 3. rewrite prod_app. pose proof (prod_pos _ H1). pose proof (prod_pos _ H2). nia.
  Qed.
  Lemma fwd_dyn_pos : forall n es k r, drop k exts = es -> (n <= length es)%nat -> 0 < r -> Forall (fun e => 0 < e) es -> r * prod (take n es) <= tmax t ->
    fwd_dyn t E n k r = Ok (r * prod (take n es)).
  Proof.
    induction n as [|n IH]; intros es k r Hd Hn Hr Hp Hb; cbn [fwd_dyn].
    - cbn [take]. change (prod []) with 1. by rewrite Z.mul_1_r.
    - destruct es as [|e es]; [simpl in Hn; lia|]. destruct (ext_at k e es Hd) as (He & Her & Hd'). rewrite He, rbind_ok, usz_e by done.
      apply Forall_cons in Hp as [He0 Hp]. cbn [take] in *. rewrite prod_cons in *.
      pose proof (prod_take_le es n Hp) as [Hpp _].
      assert (0 < r * e <= r * (e * prod (take n es))) by (split; [nia|]; apply Z.mul_le_mono_nonneg_l; nia).
      assert (arith (promote (usz t)) (r * e) = Ok (r * e)) as ->.
      { unfold arith, promote, usz, make_unsigned. cbn [wd sg]. pose proof tmax_facts as (_ & _ & Hm & _).
        destruct (wd t <? 32) eqn:Hlt; cbn [wd sg s32].
        - rewrite decide_True; [done|]. unfold in_t. change (tmin s32) with (-2147483648). change (tmax s32) with 2147483647.
          assert (tmax t <= 65535); [|lia]. clear -Ht Hlt. ity_cases t Ht; vm_compute in Hlt |- *; congruence.
        - rewrite Z.mod_small by lia. done. }
      rewrite rbind_ok. rewrite usz_e by lia. rewrite (IH es (S k)); [|done|simpl in Hn; lia|lia|done|lia].
      apply (f_equal Ok). lia.
  Qed.
  Definition no_narrow_overflow : Prop :=
    wd t <> 16 \/ rank_dynamic (st E) = 0%nat \/ Forall (fun e => 0 < e) exts.
  Lemma fwd_prod_ok n : no_narrow_overflow -> (n <= length exts)%nat -> prod (take n exts) <= tmax t ->
    fwd_prod t E n = Ok (prod (take n exts)).
  Proof.
    intros Hnn Hn Hb. unfold fwd_prod. rewrite rankE. pose proof tmax_facts as (? & ? & ? & ?). pose proof (wd_pos t Ht).
    assert (0 <= prod (take n exts)). { apply prod_nonneg, Forall_take. eapply list.Forall_impl; [exact nonneg|]. simpl. lia. }
    destruct (decide (length exts = 0%nat)) as [Hz|Hz].
    { destruct exts; [|done]. by rewrite take_nil. }
    destruct (decide (rank_dynamic (st E) = 0%nat)) as [Hs|Hs].
    { rewrite (fwd_static_ok Hs n exts 0); [|done|done|]. 2: { unfold in_t. lia. }
      rewrite Z.mul_1_l. by rewrite cast_small by lia. }
    destruct (decide (Forall (fun e => 0 < e) exts)) as [Hp|Hp].
    { rewrite (fwd_dyn_pos n exts 0 1); [|done|done|lia|done|lia]. rewrite rbind_ok, Z.mul_1_l, cast_small by lia. done. }
    destruct Hnn as [Hw|[?|?]]; [|done|done]. rewrite (fwd_dyn_mod Hw n exts 0 1); [|done|done|lia].
    rewrite rbind_ok, Z.mul_1_l, Z.mod_small, cast_small by lia. done.
  Qed.
  Lemma required_span_ok : no_narrow_overflow -> prod exts <= tmax t -> fwd_prod t E (rank E) = Ok (prod exts).
  Proof.
    intros Hnn Hb. rewrite rankE. pose proof (fwd_prod_ok (length exts)) as H. rewrite firstn_all in H. by apply H.
  Qed.

  Lemma rev_dyn_ok : forall n es k r, drop k exts = es -> n = length es -> 0 < r -> Forall (fun e => 0 < e) es -> r * prod es <= tmax t ->
    rev_dyn t E n k r = Ok (r * prod es).
  Proof.
    induction n as [|n IH]; intros es k r Hd Hn Hr Hp Hb; cbn [rev_dyn].
    - destruct es; [|done]. change (prod []) with 1. by rewrite Z.mul_1_r.
    - destruct es as [|e es]; [done|]. destruct (ext_at k e es Hd) as (He & Her & Hd'). rewrite He, rbind_ok.
      apply Forall_cons in Hp as [He0 Hp]. rewrite prod_cons in *. pose proof (prod_pos es Hp).
      assert (0 < r * e <= r * (e * prod es)) by (split; [nia|]; apply Z.mul_le_mono_nonneg_l; nia).
      rewrite mulp_ok, rbind_ok by lia. rewrite cast_small by lia. rewrite (IH es (S k)); [|done|simpl in Hn; lia|lia|done|lia].
      apply (f_equal Ok). lia.
  Qed.
  Lemma rev_static_ok : rank_dynamic (st E) = 0%nat -> forall n k r, (n <= k)%nat -> (k <= length exts)%nat -> in_t t r ->
    rev_static t (st E) n k r = Ok (cast t (r * prod (take n (drop (k - n) exts)))).
  Proof.
    intros H0. induction n as [|n IH]; intros k r Hn Hk Hr; cbn [rev_static].
    - cbn [take]. change (prod []) with 1. rewrite Z.mul_1_r. rewrite cast_id; [done|pose proof (wd_pos t Ht); lia|done].
    - destruct (lookup_lt_is_Some_2 exts (k - 1)) as [e He]; [lia|].
      rewrite (st_at (k - 1) e (drop (S (k - 1)) exts) H0) by (by apply drop_S). unfold arith. change (sg u64) with false. cbv iota.
      rewrite rbind_ok. change (wd u64) with 64. rewrite step_static.
      rewrite IH; [|lia|lia|apply cast_range; pose proof (wd_pos t Ht); lia]. rewrite cast_mul_l. apply (f_equal Ok), f_equal.
      replace (k - S n)%nat with (k - 1 - n)%nat by lia.
      rewrite (take_S_r _ n e). 2: { rewrite lookup_drop. rewrite <- He. f_equal. lia. }
      rewrite prod_app. change (prod [e]) with (e * 1). lia.
  Qed.
  Lemma rev_prod_ok k : Forall (fun e => 0 < e) exts -> (k < length exts)%nat -> prod exts <= tmax t ->
    rev_prod t E k = Ok (prod (drop (S k) exts)).
  Proof.
    intros Hp Hk Hb. unfold rev_prod. rewrite rankE. pose proof tmax_facts as (? & ? & ? & ?).
    assert (0 < prod (drop (S k) exts) <= prod exts) as Hd.
    { rewrite <- (take_drop (S k) exts) in Hp. apply Forall_app in Hp as [H1' H2'].
      rewrite <- (take_drop (S k) exts) at 3. rewrite prod_app. pose proof (prod_pos _ H1'). pose proof (prod_pos _ H2'). nia. }
    destruct (decide (rank_dynamic (st E) = 0%nat)) as [Hs|Hs].
    - rewrite (rev_static_ok Hs); [|lia|lia|unfold in_t; lia]. replace (length exts - (length exts - 1 - k))%nat with (S k) by lia.
      rewrite take_ge by (rewrite drop_length; lia). rewrite Z.mul_1_l, cast_small by lia. done.
    - rewrite (rev_dyn_ok _ (drop (S k) exts) (S k) 1); [by rewrite Z.mul_1_l|done|rewrite drop_length; lia|lia|by apply Forall_drop|lia].
  Qed.

  Lemma pos_of : 0 ∉ exts -> Forall (fun e => 0 < e) exts.
  Proof.
    intros H. rewrite list.Forall_forall. intros e He. assert (e <> 0) by congruence.
    pose proof nonneg as Hn. rewrite list.Forall_forall in Hn. specialize (Hn e He). simpl in Hn. lia.
  Qed.
  (** *** strided mappings *)
  Context (strides : list Z).
  Lemma stride_fold_ok : forall ss es k idx, drop k strides = ss -> valid_index es idx -> length ss = length es -> Forall (fun s => 0 <= s) ss ->
    dot idx ss <= tmax t -> stride_fold t strides k idx = Ok (dot idx ss).
  Proof.
    intros ss es k idx Hd Hv. revert ss k Hd. induction Hv as [|e i es idx Hi Hv IH]; intros ss k Hd Hl Hs Hb.
    - destruct ss; done.
    - destruct ss as [|s ss]; [done|]. cbn [stride_fold dot] in *. apply Forall_cons in Hs as [Hs0 Hs].
      assert (Hk : strides !! k = Some s) by (rewrite <- (Nat.add_0_r k), <- lookup_drop, Hd; done).
      unfold at_z. rewrite Hk, rbind_ok. pose proof (dot_bounds _ _ ss Hv Hs). assert (0 <= i * s) by nia.
      rewrite mulp_ok, rbind_ok by lia. rewrite (drop_S _ _ _ Hk) in Hd. injection Hd as Hd.
      rewrite (IH ss (S k)); [|done|simpl in Hl; lia|done|lia]. rewrite rbind_ok. apply addp_ok. lia.
  Qed.
  Lemma rss_pos : forall ss es k r, drop k exts = es -> drop k strides = ss -> length ss = length es -> Forall (fun s => 0 < s) ss ->
    Forall (fun e => 0 < e) es -> 0 <= r -> r + dot ((fun e => e - 1) <$> es) ss <= tmax t ->
    stride_rss_loop t E strides (length es) k r = Ok (r + dot ((fun e => e - 1) <$> es) ss).
  Proof.
    intros ss es. revert ss. induction es as [|e es IH]; intros ss k r He Hs Hl Hsp Hep Hr Hb.
    - destruct ss; [|done]. simpl. apply (f_equal Ok). lia.
    - destruct ss as [|s ss]; [done|]. destruct (ext_at k e es He) as (Hee & Her & He').
      assert (Hk : strides !! k = Some s) by (rewrite <- (Nat.add_0_r k), <- lookup_drop, Hs; done).
      apply Forall_cons in Hsp as [Hs0 Hsp]. apply Forall_cons in Hep as [He0 Hep].
      cbn [stride_rss_loop length]. rewrite Hee, rbind_ok, decide_False by lia. unfold at_z. rewrite Hk, rbind_ok.
      rewrite fmap_cons in Hb. cbn [dot] in Hb.
      assert (0 <= (e - 1) * s) by nia.
      assert (0 <= dot ((fun e => e - 1) <$> es) ss).
      { clear -Hep Hsp. revert es Hep. induction Hsp as [|s ss Hs Hss IH]; intros es Hep; destruct Hep as [|e es He Hep]; try done.
        rewrite fmap_cons. cbn [dot]. specialize (IH es Hep). nia. }
      rewrite subp_ok, rbind_ok by lia. rewrite mulp_ok, rbind_ok by lia. rewrite addp_ok, rbind_ok by lia. rewrite cast_small by lia.
      rewrite (drop_S _ _ _ Hk) in Hs. injection Hs as Hs.
      rewrite (IH ss (S k)); [|done|done|simpl in Hl; lia|done|done|lia|lia]. rewrite fmap_cons. cbn [dot]. apply (f_equal Ok). lia.
  Qed.
  Lemma rss_zero : sg t = false -> 32 <= wd t -> length strides = length exts -> forall es k r, drop k exts = es -> 0 ∈ es ->
    stride_rss_loop t E strides (length es) k r = Ok 0.
  Proof.
    intros Hsg Hw Hl. assert (Hpr : promote t = t) by (unfold promote; rewrite (proj2 (Z.ltb_ge _ _)); [done|lia]).
    induction es as [|e es IH]; intros k r He H0; [by apply elem_of_nil in H0|].
    destruct (ext_at k e es He) as (Hee & Her & He'). cbn [stride_rss_loop length]. rewrite Hee, rbind_ok.
    destruct (decide (e = 0)) as [|Hne]; [done|].
    destruct (lookup_lt_is_Some_2 strides k) as [s Hk].
    { rewrite Hl. apply (f_equal length) in He. rewrite drop_length in He. simpl in He. lia. }
    unfold at_z. rewrite Hk, rbind_ok. unfold subp, mulp, addp, arith. rewrite !Hpr, Hsg, !rbind_ok. apply IH; [done|].
    apply elem_of_cons in H0 as [?|?]; [congruence|done].
  Qed.

  Definition stride_safe : Prop := 0 ∉ exts \/ (sg t = false /\ 32 <= wd t).
  Lemma stride_rss_ok : valid_strides t exts strides -> stride_safe -> stride_required_span_size t E strides = Ok (span_size exts strides).
  Proof.
    intros (Hl & Hs & Hb & _) Hsafe. unfold stride_required_span_size. rewrite rankE.
    assert (Hs' : Forall (fun s => 0 < s) strides) by (eapply list.Forall_impl; [exact Hs|]; simpl; lia).
    destruct (decide (length exts = 0%nat)) as [Hz|Hz].
    { unfold span_size. destruct exts; [|done]. rewrite decide_False; [|intros ?; by apply elem_of_nil in H]. done. }
    unfold span_size in *. destruct (decide (0 ∈ exts)) as [H0|H0].
    - destruct Hsafe as [?|[? ?]]; [done|]. by apply rss_zero.
    - rewrite (rss_pos strides exts 0 1); [done|done|done|done|done|by apply pos_of|lia|lia].
  Qed.
  Lemma stride_index_ok idx : valid_strides t exts strides -> valid_index exts idx ->
    stride_index t strides idx = Ok (dot idx strides) /\ 0 <= dot idx strides < span_size exts strides.
  Proof.
    intros (Hl & Hs & Hb & _) Hv.
    assert (Hs' : Forall (fun s => 0 <= s) strides) by (eapply list.Forall_impl; [exact Hs|]; simpl; lia).
    pose proof (dot_bounds _ _ _ Hv Hs') as Hd.
    assert (0 ∉ exts) as H0.
    { intros H0. pose proof (valid_pos _ _ Hv) as Hp. rewrite list.Forall_forall in Hp. specialize (Hp 0 H0). simpl in Hp. lia. }
    unfold span_size in *. rewrite decide_False in * by done. unfold stride_index.
    rewrite (stride_fold_ok strides exts 0 idx); [|done|done|done|done|lia]. rewrite rbind_ok, cast_small by lia. split; [done|lia].
  Qed.
End E. End code.
