From stdpp Require Import base list numbers option decidable.
From Coq Require Import ZArith Lia.
From Verif Require Import Mem.MonoModel Mem.MonoSpec Mem.MonoProofs.
Local Open Scope Z_scope.

Lemma disj_sym p n q m : disj p n q m -> disj q m p n.
Proof. unfold disj. lia. Qed.
Lemma disj_sub p n q m p' n' : disj p n q m -> p <= p' -> p' + n' <= p + n -> 0 <= n' -> disj p' n' q m.
Proof. unfold disj. lia. Qed.

Section mono.
Context (A : Z) (HA : A = 4 \/ A = 8) (b0 n0 : Z).
Notation W := (W A). Notation H := (H A). Notation wrap := (wrap A).
Notation Max := (Max_allocation A).
Lemma H_pos : 0 < H < W.
Proof. unfold MonoModel.H, MonoModel.W. destruct HA as [-> | ->]; cbn; lia. Qed.

Fixpoint chain (hd : Z -> option header) (h : Z) (B : list (Z * Z * Z)) : Prop :=
  match B with
  | [] => h = 0
  | (p, n, a) :: B => h = p + n - H /\ exists nx, hd h = Some (Hdr nx n a) /\ chain hd nx B
  end.
Fixpoint blocks_ok (B : list (Z * Z * Z)) : Prop :=
  match B with
  | [] => True
  | (p, n, a) :: B => 0 < p /\ p + n <= W /\ H <= n /\ disj p n b0 n0 /\ (forall q m b, (q, m, b) ∈ B -> disj p n q m) /\ blocks_ok B
  end.
Fixpoint live_ok (L : list (Z * Z)) : Prop :=
  match L with
  | [] => True
  | (p, n) :: L => (forall q m, (q, m) ∈ L -> disj p n q m) /\ live_ok L
  end.
Definition placed (B : list (Z * Z * Z)) (p n : Z) : Prop :=
  in_initial b0 n0 p n \/ exists q m a, (q, m, a) ∈ B /\ q <= p /\ p + n <= q + m - H.
Definition region (B : list (Z * Z * Z)) (c sp : Z) : Prop :=
  match B with
  | [] => (c = 0 /\ sp = 0) \/ (0 < c /\ b0 <= c /\ c + sp = b0 + n0)
  | (p, n, a) :: _ => p <= c /\ c + sp = p + n - H
  end.
Definition nxok (B : list (Z * Z * Z)) (nx : Z) : Prop :=
  match B with [] => True | (_, n, _) :: _ => n + (n + 1) / 2 <= nx \/ nx = W - A end.
Record MI (tr : list mbev) (s : mbst) : Prop := {
  mi_pos : 0 <= cur s /\ 0 <= space s /\ cur s + space s < W;
  mi_init : 0 <= n0;
  mi_nx : szok A (nextsz s);
  mi_nx2 : nxok (outst tr) (nextsz s);
  mi_chain : chain (hdr s) (chunks s) (outst tr);
  mi_blocks : blocks_ok (outst tr);
  mi_region : region (outst tr) (cur s) (space s);
  mi_live : live_ok (live tr);
  mi_fresh : forall p n, (p, n) ∈ live tr -> 0 <= n /\ disj p n (cur s) (space s) /\ placed (outst tr) p n }.

Lemma blocks_in B q m b : blocks_ok B -> (q, m, b) ∈ B -> 0 < q /\ q + m <= W /\ H <= m /\ disj q m b0 n0.
Proof.
  induction B as [|[[p n] a] B IH]; [intros _ Hb; by apply elem_of_nil in Hb|]. cbn [blocks_ok]. intros (H1 & H2 & H3 & H4 & H5 & H6) [E|Hb]%elem_of_cons.
  - injection E as -> -> ->. done.
  - by apply IH.
Qed.
Lemma blocks_disj B q m b q' m' b' : blocks_ok B -> (q, m, b) ∈ B -> (q', m', b') ∈ B -> (q, m, b) = (q', m', b') \/ disj q m q' m'.
Proof.
  induction B as [|[[p n] a] B IH]; [intros _ Hb; by apply elem_of_nil in Hb|]. cbn [blocks_ok]. intros (H1 & H2 & H3 & H4 & H5 & H6) [E|Hb]%elem_of_cons [E'|Hb']%elem_of_cons.
  - left. congruence.
  - injection E as -> -> ->. right. by eapply H5.
  - injection E' as -> -> ->. right. apply disj_sym. by eapply H5.
  - by apply IH.
Qed.
Lemma chain_frame hd hd' B : forall h, (forall p n a, (p, n, a) ∈ B -> hd' (p + n - H) = hd (p + n - H)) -> chain hd h B -> chain hd' h B.
Proof.
  induction B as [|[[p n] a] B IH]; intros h Hf Hc; [done|]. cbn [chain] in *. destruct Hc as (-> & nx & E & Hc). split; [done|]. exists nx. split.
  - rewrite (Hf p n a); [done|]. apply elem_of_cons. by left.
  - apply IH; [|done]. intros q m b Hb. eapply Hf. apply elem_of_cons. right. exact Hb.
Qed.
Definition freeof (x : Z * Z * Z) : mbev := match x with (p, n, a) => EUpFree p n a end.
Lemma base_addr p n : 0 < p -> p + n <= W -> H <= n -> wrap (wrap (p + n - H + H) - n) = p.
Proof.
  intros Hp Hw Hn. replace (p + n - H + H) with (p + n) by lia. unfold MonoModel.wrap. rewrite Zminus_mod_idemp_l. replace (p + n - n) with p by lia.
  apply Z.mod_small. pose proof H_pos. lia.
Qed.
Lemma chain_clobber hd h p n a B : blocks_ok ((p, n, a) :: B) -> chain hd h B -> chain (clobber A p n hd) h B.
Proof.
  cbn [blocks_ok]. intros (H1 & H2 & H3 & H4 & H5 & H6) Hc. eapply chain_frame; [|exact Hc]. intros q m b Hb. unfold clobber.
  destruct (blocks_in _ _ _ _ H6 Hb) as (Hq & Hqw & Hm & _). pose proof (H5 q m b Hb) as Hd. pose proof H_pos. unfold disj in Hd.
  rewrite decide_False by lia. done.
Qed.
Lemma pops_chain B : forall h hd, blocks_ok B -> chain hd h B ->
  (exists hd', pops A h hd (freeof <$> B) hd') /\ ~ pfault A h hd /\ forall fr hd', pops A h hd fr hd' -> fr = freeof <$> B.
Proof.
  induction B as [|[[p n] a] B IH]; intros h hd Hb Hc.
  - cbn [chain] in Hc. subst h. split_and!.
    + eexists. constructor.
    + intros Hp. by inversion Hp.
    + intros fr hd' Hp. by inversion Hp.
  - pose proof Hb as Hb0. cbn [blocks_ok chain] in *. destruct Hb as (H1 & H2 & H3 & H4 & H5 & H6). destruct Hc as (-> & nx & E & Hc). pose proof H_pos as HH.
    destruct (IH nx (clobber A p n hd) H6 (chain_clobber hd nx p n a B Hb0 Hc)) as ((hd1 & IH1) & IH2 & IH3).
    assert (Hne : p + n - H <> 0) by lia. split_and!.
    + exists hd1. rewrite fmap_cons. cbn [freeof]. rewrite <- (base_addr p n) at 2 by done. econstructor; [done|exact E|]. by rewrite base_addr.
    + intros Hp. inversion Hp as [? ? ? E'|? ? nx' n' a' ? E' Hp']; subst; [congruence|]. rewrite E in E'. injection E' as <- <- <-.
      rewrite base_addr in Hp' by done. done.
    + intros fr hd' Hp. inversion Hp as [|? ? nx' n' a' fr' ? ? E' Hp']; subst; [lia|]. rewrite E in E'. injection E' as <- <- <-.
      rewrite base_addr in * by done. rewrite fmap_cons. cbn [freeof]. f_equal. by eapply IH3.
Qed.
Lemma outst_app tr ev : outst (tr ++ ev) = foldl outst1 (outst tr) ev.
Proof. apply foldl_app. Qed.
Lemma live_app tr ev : live (tr ++ ev) = foldl live1 (live tr) ev.
Proof. apply foldl_app. Qed.
Lemma block_notin p n a B : blocks_ok ((p, n, a) :: B) -> (p, n, a) ∉ B.
Proof. cbn [blocks_ok]. intros (H1 & H2 & H3 & H4 & H5 & H6) Hb. pose proof (H5 _ _ _ Hb) as Hd. pose proof H_pos. unfold disj in Hd. lia. Qed.
Lemma filter_id (x : Z * Z * Z) (B : list (Z * Z * Z)) : x ∉ B -> filter (fun b => b <> x) B = B.
Proof.
  induction B as [|y B IH]; intros Hx; [done|]. apply not_elem_of_cons in Hx as [Hy Hx]. rewrite filter_cons_True by congruence. by rewrite IH.
Qed.
Lemma filter_head (x : Z * Z * Z) (B : list (Z * Z * Z)) : x ∉ B -> filter (fun b => b <> x) (x :: B) = B.
Proof. intros Hx. rewrite filter_cons_False by (intros Hc; by apply Hc). by apply filter_id. Qed.
Lemma frees_outst B : blocks_ok B -> foldl outst1 B (freeof <$> B) = [].
Proof.
  induction B as [|[[p n] a] B IH]; intros Hb; [done|]. rewrite fmap_cons. cbn [foldl freeof outst1]. rewrite filter_head by (by apply block_notin).
  apply IH. cbn [blocks_ok] in Hb. tauto.
Qed.
Lemma frees_live B L : foldl live1 L (freeof <$> B) = L.
Proof. induction B as [|[[p n] a] B IH]; [done|]. rewrite fmap_cons. cbn [foldl freeof live1]. exact IH. Qed.
Lemma frees_mid B e1 e e2 : blocks_ok B -> freeof <$> B = e1 ++ e :: e2 -> exists p n a, e = EUpFree p n a /\ (p, n, a) ∈ foldl outst1 B e1.
Proof.
  revert e1. induction B as [|[[p n] a] B IH]; intros e1 Hb E; [by destruct e1|]. rewrite fmap_cons in E. destruct e1 as [|x e1]; injection E as Ex E.
  - exists p, n, a. split; [done|]. cbn. apply elem_of_cons. by left.
  - subst x. cbn [foldl freeof outst1]. rewrite filter_head by (by apply block_notin). apply IH; [|done]. cbn [blocks_ok] in Hb. tauto.
Qed.
Lemma placed_mono B x p n : placed B p n -> placed (x :: B) p n.
Proof. intros [Hp|(q & m & a & Hb & Hq)]; [by left|]. right. exists q, m, a. split; [|done]. apply elem_of_cons. by right. Qed.
Lemma placed_disj B p n q m b : blocks_ok ((q, m, b) :: B) -> 0 <= n -> placed B p n -> disj p n q m.
Proof.
  cbn [blocks_ok]. intros (H1 & H2 & H3 & H4 & H5 & H6) Hn [[Hp1 Hp2]|(q' & m' & a & Hb & Hq)].
  - unfold disj in *. lia.
  - pose proof (H5 _ _ _ Hb) as Hd. destruct (blocks_in _ _ _ _ H6 Hb) as (_ & _ & Hm' & _). pose proof H_pos. unfold disj in *. lia.
Qed.
Lemma region_placed B c sp p n : region B c sp -> c <= p -> 0 < p -> 0 <= n -> p + n <= c + sp -> placed B p n.
Proof.
  destruct B as [|[[q m] b] B]; cbn [region].
  - intros [[-> ->]|(Hc & Hb & Hs)] Hp Hp0 Hn Hpn; [lia|]. left. unfold in_initial. lia.
  - intros [Hc Hs] Hp _ Hn Hpn. right. exists q, m, b. split; [apply elem_of_cons; by left|]. lia.
Qed.
(** *** do_allocate *)
Lemma alloc_cases tr s n a up s' ev r : MI tr s -> 0 <= n < W -> pow2 A a -> do_allocate A s n a up = (s', ev, r) ->
  (exists p sp, r = Some p /\ ev = [] /\ asks A s n a = None /\ cur s <= p /\ 0 < p /\ p + sp = cur s + space s /\ n <= sp /\ p mod a = 0 /\
     s' = Mb (p + n) (sp - n) (nextsz s) (chunks s) (hdr s)) \/
  (exists p k, r = Some p /\ up = Some p /\ n <= W - A - H /\ k = Increase_size A s n /\ asks A s n a = Some (k, Z.max A a) /\ ev = [EUp p k (Z.max A a)] /\
     s' = Mb (wrap (p + n)) (wrap (wrap (k - H) - n)) (Scale A k) (wrap (p + wrap (k - H)))
       (fun x => if decide (x = wrap (p + wrap (k - H))) then Some (Hdr (chunks s) k (Z.max A a)) else hdr s x)) \/
  (r = None /\ ev = [] /\ s' = s /\ (W - A - H < n \/ up = None /\ asks A s n a <> None)).
Proof.
  intros HI Hn Ha. pose proof (mi_pos _ _ HI) as (Hc & Hsp & Hw). unfold do_allocate, asks. pose proof H_pos as HH.
  destruct (align A a n (cur s) (space s)) as [[p sp]|] eqn:Eal.
  - apply align_ok in Eal; [|done..]. destruct Eal as (E1 & E2 & E3 & E4). destruct (decide (p <> 0)) as [Hp|Hp].
    + rewrite bool_decide_true by done. cbn. intros [= <- <- <-]. left. exists p, sp. rewrite !wrap_id by lia. split_and!; try lia; done.
    + rewrite bool_decide_false by done. assert (p = 0) by lia. subst p. assert (cur s = 0) by lia.
      assert (Es : Mb 0 sp (nextsz s) (chunks s) (hdr s) = s) by (destruct s; cbn in *; f_equal; lia). rewrite Es.
      unfold Increase_capacity. rewrite Max_H by done. case_decide as Hd.
      * intros [= <- <- <-]. right. right. split_and!; try done. left. lia.
      * destruct up as [p|]; cbn; intros [= <- <- <-]; right; [left|right].
        -- exists p, (Increase_size A s n). split_and!; try done. lia.
        -- split_and!; try done. right. split; done.
  - unfold Increase_capacity. rewrite Max_H by done. case_decide as Hd.
      * intros [= <- <- <-]. right. right. split_and!; try done. left. lia.
      * destruct up as [p|]; cbn; intros [= <- <- <-]; right; [left|right].
        -- exists p, (Increase_size A s n). split_and!; try done. lia.
        -- split_and!; try done. right. split; done.
Qed.
Lemma init_inv s : mb_init A b0 n0 s -> MI [] s.
Proof.
  pose proof H_pos as HH. intros [Hn|k Hn Hk|Hb Hn Hw]; constructor; cbn; try done; try lia; try (intros p n Hc; by apply elem_of_nil in Hc).
  - unfold szok, Min_allocation, MonoModel.H, MonoModel.W. destruct HA as [-> | ->]; vm_compute; intuition congruence.
  - apply Round_ok; done.
  - case_decide.
    + unfold szok, Min_allocation, MonoModel.H, MonoModel.W. destruct HA as [-> | ->]; vm_compute; intuition congruence.
    + apply Scale_ok; [done|lia].
Qed.
Lemma step_inv tr s ev s' : MI tr s -> mb_step A b0 n0 tr s ev s' ->
  MI (tr ++ ev) s' /\ forall e1 e e2, ev = e1 ++ e :: e2 -> evok A b0 n0 (tr ++ e1) e.
Proof.
  intros HI Hst. pose proof H_pos as HH. pose proof (mi_pos _ _ HI) as (Hc & Hsp & Hw). pose proof (mi_init _ _ HI) as Hn0.
  destruct Hst as [n a up s' ev p Hn Ha Hup Hdo|n a up s' ev Hn Ha Hdo|Hch|fr hd' Hch Hp|p n q m Hl Hpq Hm Hqm].
  - destruct (alloc_cases _ _ _ _ _ _ _ _ HI Hn Ha Hdo) as [(p' & sp & E & -> & Hno & Hcp & Hp0 & Hps & Hns & Hpa & ->)|[(p' & k & E & -> & Hnm & Hk & Has & -> & ->)|(E & _)]]; [| |done].
    + injection E as <-. split.
      * destruct HI as [_ _ I3 I4 I5 I6 I7 I8 I9]. constructor; cbn [cur space nextsz chunks hdr]; rewrite ?outst_app, ?live_app; cbn [app foldl outst1 live1]; try done; try lia.
        -- destruct (outst tr) as [|[[q m] b] B]; cbn [region] in *; [|lia]. destruct I7; [lia|]. right. lia.
        -- cbn [live_ok]. split; [|done]. intros q m Hq. destruct (I9 q m Hq) as (Hm & Hd & _). unfold disj in *. lia.
        -- intros q m [Eq|Hq]%elem_of_cons.
           ++ injection Eq as -> ->. split; [lia|]. split; [unfold disj; lia|]. eapply region_placed; [exact I7|..]; lia.
           ++ destruct (I9 q m Hq) as (Hm & Hd & Hpl). split_and!; try done. unfold disj in *. lia.
      * intros e1 e e2 Ee. destruct e1 as [|x e1]; [|destruct e1; discriminate Ee]. injection Ee as <- <-. rewrite app_nil_r.
        cbn [evok]. split_and!; try lia.
        -- intros q m Hq. destruct (mi_fresh _ _ HI q m Hq) as (Hm & Hd & _). unfold disj in *. lia.
        -- destruct (region_placed _ _ _ p n (mi_region _ _ HI) Hcp Hp0 ltac:(lia) ltac:(lia)) as [Hpl|(q & m & b & Hb & Hq)]; [by left|].
           right. exists q, m, b. split; [done|]. lia.
    + injection E as <-. pose proof (Hup _ _ _ Has eq_refl) as (U1 & U2 & U3 & U4 & U5).
      destruct (pow2_max A HA a p Ha U3) as [Hpa HpA].
      pose proof (Increase_size_ok A HA s n (mi_nx _ _ HI) ltac:(lia)) as (K1 & K2 & K3). rewrite <- Hk in K1, K2, K3. destruct K1 as [K1 K1m].
      rewrite (wrap_id A (k - H)) by lia. rewrite (wrap_id A (k - H - n)) by lia. rewrite (wrap_id A (p + n)) by lia. rewrite (wrap_id A (p + (k - H))) by lia.
      assert (Hbk : blocks_ok ((p, k, Z.max A a) :: outst tr)).
      { cbn [blocks_ok]. split_and!; try done; try lia. apply HI. }
      pose proof (Scale_ok A HA k ltac:(lia)) as [Sc1 Sc2].
      split.
      * pose proof HI as HI'. destruct HI as [_ _ I3 I4 I5 I6 I7 I8 I9]. constructor; cbn [cur space nextsz chunks hdr]; rewrite ?outst_app, ?live_app; cbn [app foldl outst1 live1]; try done; try lia.
        -- cbn [nxok]. lia.
        -- cbn [chain]. split; [lia|]. exists (chunks s). rewrite decide_True by done. split; [done|]. eapply chain_frame; [|exact I5].
           intros q m b Hb. destruct (blocks_in _ _ _ _ I6 Hb) as (Hq & Hqw & Hmm & _). pose proof (U5 _ _ _ Hb) as Hd. unfold disj in Hd. rewrite decide_False by lia. done.
        -- cbn [region]. lia.
        -- cbn [live_ok]. split; [|done]. intros q m Hq. destruct (I9 q m Hq) as (Hm & _ & Hpl). pose proof (placed_disj _ _ _ _ _ _ Hbk Hm Hpl) as Hd. unfold disj in *. lia.
        -- intros q m [Eq|Hq]%elem_of_cons.
           ++ injection Eq as -> ->. split; [lia|]. split; [unfold disj; lia|]. right. exists p, k, (Z.max A a). split; [apply elem_of_cons; by left|]. lia.
           ++ destruct (I9 q m Hq) as (Hm & Hd & Hpl). split_and!; [done| |by apply placed_mono]. pose proof (placed_disj _ _ _ _ _ _ Hbk Hm Hpl) as Hd'. unfold disj in *. lia.
      * intros e1 e e2 Ee. destruct e1 as [|x e1]; [|destruct e1 as [|y e1]; [|destruct e1; discriminate Ee]].
        -- injection Ee as <- <-. rewrite app_nil_r. cbn [evok]. split_and!; [done|lia|]. intros p1 n1 a1 l El. pose proof (mi_nx2 _ _ HI) as Hx. rewrite El in Hx. cbn [nxok] in Hx.
           pose proof (mi_nx _ _ HI) as [Hxx _]. lia.
        -- injection Ee as <- <- <-. cbn [evok]. rewrite live_app. cbn [foldl live1]. split_and!; try done; try lia.
           ++ intros q m Hq. destruct (mi_fresh _ _ HI q m Hq) as (Hm & _ & Hpl). pose proof (placed_disj _ _ _ _ _ _ Hbk Hm Hpl) as Hd. unfold disj in *. lia.
           ++ right. exists p, k, (Z.max A a). rewrite outst_app. cbn [foldl outst1]. split; [apply elem_of_cons; by left|]. lia.
  - destruct (alloc_cases _ _ _ _ _ _ _ _ HI Hn Ha Hdo) as [(p' & sp & E & _)|[(p' & k & E & _)|(_ & -> & -> & _)]]; [done..|]. split.
    + destruct HI as [I1 I2 I3 I4 I5 I6 I7 I8 I9]. constructor; rewrite ?outst_app, ?live_app; cbn [app foldl outst1 live1]; done.
    + intros e1 e e2 Ee. destruct e1 as [|x e1]; [|destruct e1; discriminate Ee]. injection Ee as <- <-. done.
  - assert (Ho : outst tr = []). { pose proof (mi_chain _ _ HI) as Hcc. pose proof (mi_blocks _ _ HI) as Hbb. destruct (outst tr) as [|[[q m] b] B]; [done|]. cbn [chain blocks_ok] in *. lia. }
    split.
    + destruct HI as [I1 I2 I3 I4 I5 I6 I7 I8 I9]. constructor; rewrite ?outst_app, ?live_app; cbn [app foldl outst1 live1]; try done. intros p n Hq. by apply elem_of_nil in Hq.
    + intros e1 e e2 Ee. destruct e1 as [|x e1]; [|destruct e1; discriminate Ee]. injection Ee as <- <-. rewrite app_nil_r. exact Ho.
  - destruct (pops_chain _ _ _ (mi_blocks _ _ HI) (mi_chain _ _ HI)) as (_ & _ & Hdet). pose proof (Hdet _ _ Hp) as ->.
    pose proof (frees_outst _ (mi_blocks _ _ HI)) as Hfo. split.
    + assert (Ho : outst (tr ++ (freeof <$> outst tr) ++ [ERelease]) = []) by (rewrite outst_app, foldl_app, Hfo; done).
      assert (Hll : live (tr ++ (freeof <$> outst tr) ++ [ERelease]) = []) by (rewrite live_app, foldl_app; done).
      constructor; rewrite ?Ho, ?Hll; cbn; try done; try lia.
      * apply unscaled_ok; [done|]. apply HI.
      * intros p n Hq. by apply elem_of_nil in Hq.
    + intros e1 e e2 Ee. destruct e2 as [|e2l e2' _] using rev_ind.
      * apply app_inj_tail in Ee as [<- <-]. cbn [evok]. rewrite outst_app. exact Hfo.
      * rewrite app_comm_cons, app_assoc in Ee. apply app_inj_tail in Ee as [Ee _].
        destruct (frees_mid _ _ _ _ (mi_blocks _ _ HI) Ee) as (p & n & a & -> & Hin). cbn [evok]. by rewrite outst_app.
  - split.
    + destruct HI as [I1 I2 I3 I4 I5 I6 I7 I8 I9]. constructor; cbn [cur space nextsz chunks hdr]; rewrite ?outst_app, ?live_app; cbn [app foldl outst1 live1]; try done.
      eapply chain_frame; [|exact I5]. intros q' m' b Hb. unfold clobber. destruct (blocks_in _ _ _ _ I6 Hb) as (Hq' & Hqw & Hm' & Hd0).
      destruct (I9 p n Hl) as (Hpn & _ & [[P1 P2]|(q2 & m2 & b2 & Hb2 & P1 & P2)]).
      * unfold disj in Hd0. rewrite decide_False by lia. done.
      * destruct (blocks_in _ _ _ _ I6 Hb2) as (_ & _ & Hm2 & _).
        destruct (blocks_disj _ _ _ _ _ _ _ I6 Hb Hb2) as [Eb|Hd]; [injection Eb as -> -> ->|unfold disj in Hd]; rewrite decide_False by lia; done.
    + intros e1 e e2 Ee. destruct e1 as [|x e1]; [|destruct e1; discriminate Ee]. injection Ee as <- <-. done.
Qed.
Lemma reach_inv tr s : mb_reach A b0 n0 tr s -> MI tr s /\ forall t1 e t2, tr = t1 ++ e :: t2 -> evok A b0 n0 t1 e.
Proof.
  induction 1 as [s Hi|tr s ev s' Hr [IH1 IH2] Hst].
  - split; [by apply init_inv|]. intros t1 e t2 E. destruct t1; discriminate E.
  - destruct (step_inv _ _ _ _ IH1 Hst) as [HI He]. split; [done|]. intros t1 e t2 E.
    destruct (decide (length tr <= length t1)%nat) as [Hl|Hl].
    + assert (Et : exists e1, t1 = tr ++ e1).
      { exists (drop (length tr) t1). rewrite <- (take_drop (length tr) t1) at 1. f_equal. apply (f_equal (take (length tr))) in E.
        rewrite take_app in E. rewrite take_app_le in E by lia. by symmetry. }
      destruct Et as [e1 ->]. rewrite <- app_assoc in E. apply app_inv_head in E. by eapply He.
    + assert (Et : exists e2, tr = t1 ++ e :: e2).
      { exists (drop (S (length t1)) tr). rewrite <- (take_drop (S (length t1)) tr) at 1.
        apply (f_equal (take (S (length t1)))) in E. rewrite take_app_le in E by lia. rewrite E.
        replace (t1 ++ e :: t2) with ((t1 ++ [e]) ++ t2) by (by rewrite <- app_assoc).
        rewrite take_app_alt by (rewrite app_length; cbn; lia). by rewrite <- app_assoc. }
      destruct Et as [e2 Et]. by eapply IH2.
Qed.
End mono.
