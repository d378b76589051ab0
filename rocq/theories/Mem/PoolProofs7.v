From stdpp Require Import base list numbers list_numbers option decidable sorting.
From Coq Require Import ZArith Lia.
From Verif Require Import Mem.MonoModel Mem.MonoProofs Mem.PoolModel Mem.PoolSpec Mem.PoolProofs Mem.PoolProofs2 Mem.PoolProofs3 Mem.PoolProofs4 Mem.PoolProofs5 Mem.PoolProofs6.
Local Open Scope Z_scope.

Section pool.
Context (A : Z) (HA : A = 4 \/ A = 8).
Notation W := (W A). Notation wrap := (wrap A). Notation CH := (CH A). Notation OH := (OH A). Notation PMAX := (PTRDIFF_MAX A).
Notation pool_ok := (pool_ok A). Notation chunk_ok := (chunk_ok A). Notation words := (words A). Notation blk := (blk A). Notation blks := (blks A). Notation csz := (csz A).
Notation frame := (frame A). Notation PI := (PI A). Notation blocks := (blocks A). Notation oblk := (oblk A). Notation live_ok := (live_ok A). Notation okall := (okall A).

Lemma filter_ne_perm (l l' : list (Z * Z * Z)) x : NoDup l -> l ≡ₚ x :: l' -> filter (fun b => b <> x) l ≡ₚ l'.
Proof.
  intros Hn Hp. rewrite Hp. rewrite Hp in Hn. rewrite filter_cons_False by (intros H; by apply H). inversion Hn as [|? ? Hx _]; subst.
  assert (forall y, y ∈ l' -> y <> x) as Hf by (intros y Hy ->; done). clear -Hf. induction l' as [|z l' IH]; [done|].
  rewrite filter_cons_True by (apply Hf; by left). apply perm_skip, IH. intros y Hy. apply Hf. by right.
Qed.
Lemma elem_live_del tr p n a y ev : y ∈ live (tr ++ EDealloc p n a :: ev) -> (ev = [] \/ exists q k b, ev = [EUpFree q k b]) -> y ∈ live tr /\ y <> (p, n, a).
Proof.
  intros Hy Hev. rewrite live_app in Hy. assert (Hy' : y ∈ filter (fun b => b <> (p, n, a)) (live tr)) by (destruct Hev as [-> | (? & ? & ? & ->)]; exact Hy).
  apply elem_of_list_filter in Hy' as [? ?]. done.
Qed.
(** two distinct live allocations start at different addresses *)
Lemma live_ne tr s x y : PI tr s -> x ∈ live tr -> y ∈ live tr -> x <> y -> bdisj x y /\ x.1.1 <> y.1.1.
Proof.
  intros HI Hx Hy Hne. destruct (pi_ldisj _ _ _ HI x y Hx Hy) as [?|Hd]; [done|]. split; [done|]. destruct x as [[p n] a], y as [[q m] b].
  pose proof (pi_live _ _ _ HI p n a Hx) as [? _]. pose proof (pi_live _ _ _ HI q m b Hy) as [? _]. unfold bdisj, disj in Hd. cbn in *. lia.
Qed.

Lemma dealloc_ok tr s p n a : PI tr s -> (p, n, a) ∈ live tr ->
  exists s' ev, do_deallocate A s p n a = Some (s', ev) /\ PI (tr ++ EDealloc p n a :: ev) s' /\ okall tr (EDealloc p n a :: ev) /\ maxb s' = maxb s /\ largest s' = largest s /\
    (n <= largest s -> exists P, P ∈ pools s' /\ p_log P = flog A n a /\ exists c, c ∈ p_chunks P /\ c_fcnt c <> 0).
Proof.
  intros HI Hl. pose proof (W_big A HA) as HWb. pose proof (CH_eq A) as HCH. assert (HOH : OH = 4 * A) by done.
  destruct (pi_live _ _ _ HI p n a Hl) as [Hn0 Hlv]. unfold do_deallocate.
  assert (Hrem : forall y ev, (ev = [] \/ exists q k b, ev = [EUpFree q k b]) -> y ∈ live (tr ++ EDealloc p n a :: ev) -> y ∈ live tr /\ y.1.1 <> p).
  { intros y ev Hev Hy. destruct (elem_live_del _ _ _ _ _ _ Hy Hev) as [Hy1 Hy2]. split; [done|]. by apply (live_ne tr s y (p, n, a) HI Hy1 Hl Hy2). }
  destruct Hlv as [(Hn & P & HP & EL & Hal & HnA)|(Hn & o & Ho & Eo & Ep & Hno)].
  - rewrite decide_True by done. cbv zeta. destruct (find_pool (flog A n a) (pools s)) as [pre rest] eqn:Ef.
    destruct (find_pool_spec _ _ _ _ (pi_sorted _ _ _ HI) Ef) as (Es & Hpre & Hrest).
    assert (Hpost : exists post, rest = P :: post).
    { pose proof (pi_sorted _ _ _ HI) as Hs. assert (HPr : P ∈ rest). { rewrite Es in HP. apply elem_of_app in HP as [HP|HP]; [|done]. pose proof (Hpre P HP). lia. }
      destruct rest as [|Q post]; [by apply elem_of_nil in HPr|]. exists post. apply elem_of_cons in HPr as [-> | HPr]; [done|]. exfalso.
      pose proof (Hrest Q ltac:(by left)). assert (p_log Q < p_log P); [|lia]. rewrite Es, fmap_app, fmap_cons in Hs.
      clear -Hs HPr. induction pre as [|y pre IH]; cbn in Hs; inversion Hs as [|? ? Hs' Hall]; subst; [|by apply IH].
      rewrite Forall_forall in Hall. apply Hall, elem_of_list_fmap. by exists P. }
    destruct Hpost as (post & ->). rewrite decide_True by done.
    pose proof (pi_pools _ _ _ HI P HP) as HPo. destruct (deallocate_ok A HA (nups tr) P (own s) p HPo (pi_words _ _ _ HI P HP) Hal) as (P' & o' & ev & Ed & El & HP' & Hw' & Hna & Hmono & Hex & Hf & Hcase).
    rewrite Ed. eexists _, _. split; [reflexivity|]. set (s' := Pst _ _ _ _ _).
    pose proof (others_log A HA tr s pre P post) as Hoth.
    assert (Hev : ev = [] \/ exists q k b, ev = [EUpFree q k b]) by (destruct Hcase as [[-> _]|(r & -> & _)]; [by left|right; by eexists _, _, _]).
    assert (Eperm : blocks s ≡ₚ blks P ++ concat (blks <$> pre ++ post) ++ (oblk <$> over s)).
    { unfold PoolProofs4.blocks. rewrite Es, !fmap_app, fmap_cons, !concat_app. cbn [concat]. solve_Permutation. }
    assert (Eperm' : blocks s' ≡ₚ blks P' ++ concat (blks <$> pre ++ post) ++ (oblk <$> over s)).
    { unfold PoolProofs4.blocks. cbn [s' pools over]. rewrite !fmap_app, fmap_cons, !concat_app. cbn [concat]. solve_Permutation. }
    assert (Hout : outst (tr ++ EDealloc p n a :: ev) ≡ₚ blocks s' /\ (forall x, x ∈ outst (tr ++ EDealloc p n a :: ev) -> x ∈ outst tr) /\ NoDup (outst (tr ++ EDealloc p n a :: ev))).
    { rewrite outst_app. destruct Hcase as [[-> Eb]|(r & -> & Eb & _)]; cbn [foldl outst1].
      - rewrite (pi_blocks _ _ _ HI), Eperm, Eperm', Eb. split; [done|]. split; [done|]. rewrite <- Eperm, <- (pi_blocks _ _ _ HI). apply HI.
      - split; [|split; [by intros x [_ ?]%elem_of_list_filter|apply NoDup_filter, HI]]. rewrite Eperm'. apply filter_ne_perm; [apply HI|]. rewrite (pi_blocks _ _ _ HI), Eperm, Eb. done. }
    destruct Hout as (Hout1 & Hout2 & Hout3).
    assert (Hnups : nups (tr ++ EDealloc p n a :: ev) = nups tr) by (rewrite nups_app; destruct Hev as [-> | (? & ? & ? & ->)]; done).
    split; [|split; [|split; [done|split; [done|]]]].
    + constructor; cbn [maxb largest pools over own s']; rewrite ?Hnups.
      * apply HI.
      * apply HI.
      * intros Q [HQ|[-> | HQ]%elem_of_cons]%elem_of_app; [|done|]; apply (pi_pools _ _ _ HI), (Hoth Q HI Es); tauto.
      * rewrite fmap_app, fmap_cons, El, <- fmap_cons, <- fmap_app, <- Es. apply HI.
      * intros Q [HQ|[-> | HQ]%elem_of_cons]%elem_of_app; [|by rewrite El|];
          (apply (words_keep A HA tr s HI (blks P) o' Hf); [apply (Hoth Q HI Es); tauto|intros x y Hx Hy; apply (pools_disj A HA tr s HI P Q); [done|apply (Hoth Q HI Es); tauto| |done|done]; apply not_eq_sym, (Hoth Q HI Es); tauto]).
      * done.
      * done.
      * intros x y Hx%Hout2 Hy%Hout2. by apply (pi_disj _ _ _ HI).
      * intros q m b Hx%Hout2. by apply (pi_range _ _ _ HI q m b).
      * apply HI.
      * intros q m b Hq. destruct (Hrem _ _ Hev Hq) as [Hq1 Hq2]. cbn in Hq2. destruct (pi_live _ _ _ HI q m b Hq1) as [Hm0 [(Hm & Q & HQ & H1 & H2 & H3)|Hov]]; (split; [done|]); [left|by right].
        split; [done|]. destruct (pools_split A tr s pre P post Q HI Es HQ) as [-> | [HQ' _]].
        -- exists P'. cbn. rewrite El. split; [apply elem_of_app; right; by left|]. split; [done|]. split; [by apply Hmono|done].
        -- exists Q. cbn. split; [rewrite elem_of_app, elem_of_cons; tauto|done].
      * intros x y [Hx _]%(Hrem _ _ Hev) [Hy _]%(Hrem _ _ Hev). by apply (pi_ldisj _ _ _ HI).
    + cbn [PoolProofs6.okall evok]. split; [done|]. destruct Hcase as [[-> Eb]|(r & -> & Eb & Hfree)]; [done|]. cbn. split; [|done]. split.
      * rewrite outst_app. cbn. change (blk (p_log P) r ∈ outst tr). rewrite (pi_blocks _ _ _ HI), Eperm, Eb. by left.
      * intros q m b Hq. destruct (Hrem (q, m, b) [] (or_introl eq_refl) Hq) as [Hq1 Hq2]. cbn in Hq2. destruct (pi_live _ _ _ HI q m b Hq1) as [Hm0 [(Hm & Q & HQ & H1 & H2 & H3)|(_ & o2 & Ho2 & Eo2 & _ & Hno2)]].
        -- destruct (pools_split A tr s pre P post Q HI Es HQ) as [-> | [_ Hne]].
           ++ pose proof (Hfree q H2 Hq2) as Hd. pose proof (pk_log _ _ _ HPo) as (? & ? & ?). unfold disj in *. lia.
           ++ destruct (alloced_blk A HA tr s HI Q q HQ H2) as (c2 & Hc2 & B1 & B2). assert (Hrb : blk (p_log P) r ∈ blks P) by (rewrite Eb; by left).
              pose proof (pools_disj A HA tr s HI P Q _ _ HP HQ (not_eq_sym Hne) Hrb (blk_in A Q c2 Hc2)) as Hd. unfold bdisj, PoolProofs.blk in Hd; cbn in Hd.
              pose proof (pk_log _ _ _ (pi_pools _ _ _ HI Q HQ)) as (? & ? & ?). unfold disj in *. lia.
        -- assert (Hrb : blk (p_log P) r ∈ blks P) by (rewrite Eb; by left). pose proof (over_disj A HA tr s HI P o2 _ HP Ho2 Hrb) as Hd. unfold bdisj, PoolProofs.blk, PoolProofs4.oblk in Hd; cbn in Hd. unfold disj in *. lia.
    + intros _. exists P'. cbn. split; [apply elem_of_app; right; by left|]. split; [by rewrite El|done].
  - rewrite decide_False by lia. unfold Deallocate_oversized. rewrite Ep. cbv zeta.
    destruct (Prepare_ok A HA n a _ _ Hn0 Ep) as (Hk1 & Hk2 & Eb & Hk3).
    assert (Eoblk : oblk o = (p, o_size o, o_align o)) by (unfold PoolProofs4.oblk; f_equal; f_equal; lia).
    pose proof (over_out A HA tr s HI o Ho) as Hoo. destruct (pi_range _ _ _ HI p (o_size o) (o_align o)) as (R1 & R2 & R3); [by rewrite <- Eoblk|].
    rewrite wrap_sub by lia. rewrite <- Eo. assert (Eoo : Ohdr (o_hdr o) (o_size o) (o_align o) = o) by (by destruct o). rewrite Eoo, decide_True by done.
    eexists _, _. split; [reflexivity|]. set (s' := Pst _ _ _ _ _). set (ev := [EUpFree p (o_size o) (o_align o)]).
    assert (Hev : ev = [] \/ exists q k b, ev = [EUpFree q k b]) by (right; by eexists _, _, _).
    assert (Hpo : over s ≡ₚ o :: filter (fun x => o_hdr x <> o_hdr o) (over s)).
    { apply (filter_perm o_hdr); [|done|intros x Hx E; by eapply (over_hdr_inj A HA tr s HI)]. pose proof (pi_nodup _ _ _ HI) as Hnd. rewrite (pi_blocks _ _ _ HI) in Hnd.
      apply NoDup_app in Hnd as (_ & _ & Hnd). by apply NoDup_fmap_1 in Hnd. }
    assert (Hout1 : outst (tr ++ EDealloc p n a :: ev) ≡ₚ blocks s').
    { rewrite outst_app. cbn [foldl outst1 ev]. apply filter_ne_perm; [apply HI|]. rewrite (pi_blocks _ _ _ HI). unfold PoolProofs4.blocks. cbn [s' pools over]. rewrite Hpo at 1. rewrite fmap_cons, Eoblk. solve_Permutation. }
    assert (Hout2 : forall x, x ∈ outst (tr ++ EDealloc p n a :: ev) -> x ∈ outst tr) by (intros x Hx; rewrite outst_app in Hx; by apply elem_of_list_filter in Hx as [_ ?]).
    assert (Hout3 : NoDup (outst (tr ++ EDealloc p n a :: ev))) by (rewrite outst_app; apply NoDup_filter, HI).
    assert (Hnups : nups (tr ++ EDealloc p n a :: ev) = nups tr) by (by rewrite nups_app).
    assert (Hlo : forall q m b, (q, m, b) ∈ live tr -> q <> p -> largest s < m -> exists o2, o2 ∈ over s /\ o_hdr o2 <> o_hdr o /\ o_hdr o2 = q + o_size o2 - OH /\ Prepare_oversized A m b = Some (o_size o2, o_align o2) /\ m + OH <= o_size o2).
    { intros q m b Hq Hne Hm. destruct (pi_live _ _ _ HI q m b Hq) as [Hm0 [(Hm' & _)|(_ & o2 & Ho2 & Eo2 & Hx)]]; [lia|]. exists o2. split; [done|]. split; [|done].
      intros E. apply (over_hdr_inj A HA tr s HI) in E; [|done|done]. subst o2. lia. }
    split; [|split; [|split; [done|split; [done|intros; lia]]]].
    + constructor; cbn [maxb largest pools over own s']; rewrite ?Hnups; try apply HI.
      * intros Q HQ. apply (words_keep A HA tr s HI [oblk o]); [|done|].
        -- intros y Hy. apply (clob_keep A HA); [|lia]. apply (Hy p (o_size o) (o_align o)). rewrite Eoblk. by left.
        -- intros x y ->%elem_of_list_singleton Hy. unfold bdisj. apply disj_sym. by apply (over_disj A HA tr s HI Q).
      * done.
      * done.
      * intros x y Hx%Hout2 Hy%Hout2. by apply (pi_disj _ _ _ HI).
      * intros q m b Hx%Hout2. by apply (pi_range _ _ _ HI q m b).
      * intros o2 [_ Ho2]%elem_of_list_filter. by apply (pi_over _ _ _ HI).
      * intros q m b Hq. destruct (Hrem _ _ Hev Hq) as [Hq1 Hq2]. cbn in Hq2. destruct (pi_live _ _ _ HI q m b Hq1) as [Hm0 [Hp|(Hm & _)]]; (split; [done|]); [by left|right].
        split; [done|]. destruct (Hlo q m b Hq1 Hq2 Hm) as (o2 & Ho2 & Hne & Hx). exists o2. cbn. split; [by apply elem_of_list_filter|done].
      * intros x y [Hx _]%(Hrem _ _ Hev) [Hy _]%(Hrem _ _ Hev). by apply (pi_ldisj _ _ _ HI).
    + cbn. split; [done|]. split; [|done]. split; [rewrite outst_app; cbn; by rewrite <- Eoblk|].
      intros q m b Hq. destruct (Hrem (q, m, b) [] (or_introl eq_refl) Hq) as [Hq1 Hq2]. cbn in Hq2. destruct (pi_live _ _ _ HI q m b Hq1) as [Hm0 [(_ & Q & HQ & _ & Hal & HmA)|(Hm & _)]].
      * destruct (alloced_blk A HA tr s HI Q q HQ Hal) as (c2 & Hc2 & B1 & B2). pose proof (over_disj A HA tr s HI Q o _ HQ Ho (blk_in A Q c2 Hc2)) as Hd. rewrite Eoblk in Hd. unfold bdisj, PoolProofs.blk in Hd; cbn in Hd.
        pose proof (pk_log _ _ _ (pi_pools _ _ _ HI Q HQ)) as (? & ? & ?). unfold disj in *. lia.
      * destruct (Hlo q m b Hq1 Hq2 Hm) as (o2 & Ho2 & Hne & Eo2 & _ & Hx). pose proof (overs_disj A HA tr s HI o o2 Ho Ho2 ltac:(intros ->; done)) as Hd. rewrite Eoblk in Hd. unfold bdisj, PoolProofs4.oblk in Hd; cbn in Hd. unfold disj in *. lia.
Qed.

Definition ufree (x : Z * Z * Z) : pev := EUpFree x.1.1 x.1.2 x.2.
Lemma release_eq tr s : PI tr s -> release_frees A s = ufree <$> blocks s.
Proof.
  intros HI. unfold release_frees, PoolProofs4.blocks. rewrite fmap_app. f_equal.
  - assert (H : forall P, P ∈ pools s -> map (fun c => EUpFree (c_base c) (Size_for_capacity A (p_log P) (c_cap c)) (bsz (p_log P))) (p_chunks P) = ufree <$> blks P).
    { intros P HP. pose proof (pi_pools _ _ _ HI P HP) as HPo. unfold PoolProofs.blks. rewrite <- list_fmap_compose. apply map_ext_in. intros c Hc. apply elem_of_list_In in Hc.
      unfold ufree, PoolProofs.blk; cbn. rewrite (Size_ok A HA (p_log P) c (pk_log _ _ _ HPo) (pk_chunks _ _ _ HPo c Hc)), (bsz_eq A (p_log P) (pk_log _ _ _ HPo)). done. }
    clear HI. induction (pools s) as [|P l IH]; [done|]. cbn [map concat fmap list_fmap]. rewrite fmap_app, H by (by left). f_equal. apply IH. intros Q HQ. apply H. by right.
  - rewrite <- list_fmap_compose. apply map_ext_in. intros o Ho. apply elem_of_list_In in Ho. pose proof (over_out A HA tr s HI o Ho) as Hx. pose proof (pi_over _ _ _ HI o Ho).
    unfold ufree, PoolProofs4.oblk in *; cbn in *. destruct (pi_range _ _ _ HI _ _ _ Hx) as (R1 & R2 & R3). f_equal. rewrite wrap_sub by lia. done.
Qed.
Lemma frees_ok B pre : outst pre ≡ₚ B -> NoDup B -> live pre = [] -> okall pre ((ufree <$> B) ++ [ERelEnd]) /\ outst (pre ++ (ufree <$> B) ++ [ERelEnd]) = [].
Proof.
  revert pre. induction B as [|x B IH]; intros pre Hp Hn Hl.
  - apply Permutation_nil_r in Hp. cbn. split; [done|]. by rewrite outst_app, Hp.
  - cbn [fmap list_fmap app]. assert (E1 : outst (pre ++ [ufree x]) ≡ₚ B). { rewrite outst_app. cbn. destruct x as [[q m] b]. cbn. apply filter_ne_perm; [by rewrite Hp|done]. }
    destruct (IH (pre ++ [ufree x]) E1) as [I1 I2]; [by inversion Hn|by rewrite live_app|]. split.
    + cbn [PoolProofs6.okall]. split; [|exact I1]. destruct x as [[q m] b]. cbn. split; [rewrite Hp; by left|]. rewrite Hl. by intros ? ? ? ?%elem_of_nil.
    + rewrite <- app_assoc in I2. exact I2.
Qed.
Lemma init_ok s : ps_init A s -> PI [] s.
Proof.
  intros [m l o Hm Hl]. destruct (Setup_ok A HA m l Hm Hl) as [H1 H2]. constructor; cbn; try done.
  all: try (by intros ? ?%elem_of_nil). all: try (by intros ? ? ?%elem_of_nil). all: try (by intros ? ? ? ?%elem_of_nil). all: constructor.
Qed.
Lemma step_ok tr s ev s' : PI tr s -> ps_step A tr s ev s' -> PI (tr ++ ev) s' /\ okall tr ev.
Proof.
  intros HI Hst. destruct Hst as [n a up emp s' ev p Hreq HN Hup E|n a up emp s' ev Hreq HN Hup E|p n a s' ev Hl E| |p n a q m Hl Hq Hm Hqm].
  - destruct (alloc_ok A HA tr s n a up emp s' ev (ROk p) HI Hreq HN E Hup) as (H1 & H2 & H3). split; [done|]. apply (proj2 (okall_app A HA tr ev [EAlloc p n a])). split; [|split; [done|done]].
    destruct H3 as [-> | (q & k & b & -> & H3 & _)]; [done|]. split; [exact H3|done].
  - destruct (alloc_ok A HA tr s n a up emp s' ev RThrow HI Hreq HN E Hup) as (H1 & -> & H3). split; [|done]. cbn. eapply PI_ext; [exact H1|by rewrite live_app|by rewrite outst_app|by rewrite nups_app].
  - destruct (dealloc_ok tr s p n a HI Hl) as (s2 & ev2 & E2 & H1 & H2 & _). rewrite E in E2. injection E2 as <- <-. done.
  - rewrite (release_eq tr s HI). assert (F1 : outst (tr ++ [ERelBegin]) = outst tr) by (by rewrite outst_app). assert (F2 : live (tr ++ [ERelBegin]) = []) by (by rewrite live_app).
    destruct (frees_ok (blocks s) (tr ++ [ERelBegin])) as [I1 I2]; [rewrite F1; apply HI|rewrite <- (pi_blocks _ _ _ HI); apply HI|done|].
    rewrite <- app_assoc in I2. cbn [app] in I2. split; [|split; [done|exact I1]].
    assert (F3 : live (tr ++ ERelBegin :: (ufree <$> blocks s) ++ [ERelEnd]) = []).
    { rewrite live_app. cbn. assert (forall B, foldl live1 [] ((ufree <$> B) ++ [ERelEnd]) = []) as HB; [|apply HB]. induction B as [|x B IH]; [done|exact IH]. }
    assert (F4 : nups (tr ++ ERelBegin :: (ufree <$> blocks s) ++ [ERelEnd]) = nups tr).
    { rewrite nups_app. cbn. generalize (nups tr). generalize (blocks s). induction l as [|x B IH]; [done|exact IH]. }
    constructor; rewrite ?I2, ?F3, ?F4; unfold released; cbn; try apply HI; try done.
    all: try (by intros ? ?%elem_of_nil). all: try (by intros ? ? ?%elem_of_nil). all: try (by intros ? ? ? ?%elem_of_nil). all: constructor.
  - split; [|done]. eapply PI_ext with (tr := tr); [|by rewrite live_app|by rewrite outst_app|by rewrite nups_app].
    constructor; cbn [maxb largest pools over own]; try apply HI. intros P HP c i Hc Hi. rewrite (clob_keep A HA); [by apply (pi_words _ _ _ HI P HP)| |done].
    pose proof (pi_pools _ _ _ HI P HP) as HPo.
    assert (Hd : disj (c_base c + i * 2 ^ p_log P + 2 ^ p_log P - A) A p n).
    { eapply (live_own A HA tr s HI _ _ p n a); [|by apply (pi_live _ _ _ HI)]. left. exists P, c. split; [done|]. split; [done|]. right. right. exists i. rewrite (bsz_eq A) by apply HPo. done. }
    unfold disj in *. pose proof (W_big A HA). lia.
Qed.
End pool.
