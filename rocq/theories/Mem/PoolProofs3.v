From stdpp Require Import base list numbers list_numbers option decidable sorting.
From Coq Require Import ZArith Lia.
From Verif Require Import Mem.MonoModel Mem.PoolModel Mem.PoolSpec Mem.PoolProofs Mem.PoolProofs2.
Local Open Scope Z_scope.

Section pool.
Context (A : Z) (HA : A = 4 \/ A = 8).
Notation W := (W A). Notation wrap := (wrap A). Notation CH := (CH A). Notation PMAX := (PTRDIFF_MAX A).
Notation pool_ok := (pool_ok A). Notation chunk_ok := (chunk_ok A). Notation words := (words A). Notation blk := (blk A). Notation blks := (blks A). Notation csz := (csz A).
Notation frame := (frame A).

Record cs_ok (N L : Z) (cs : list chunk) : Prop := {
  cs_chunks : forall c, c ∈ cs -> chunk_ok L c;
  cs_ids : forall c, c ∈ cs -> 0 <= c_id c < N;
  cs_sorted : StronglySorted (fun a b => b < a) (c_id <$> cs);
  cs_disj : forall c c', c ∈ cs -> c' ∈ cs -> c = c' \/ disj (c_base c) (csz L c) (c_base c') (csz L c') }.
Lemma sorted_filter (P : chunk -> Prop) `{forall x, Decision (P x)} (l : list chunk) :
  StronglySorted (fun a b => b < a) (c_id <$> l) -> StronglySorted (fun a b => b < a) (c_id <$> filter P l).
Proof.
  induction l as [|x l IH]; [done|]. rewrite fmap_cons. intros Hs. inversion Hs as [|? ? Hs' Hall]; subst. rewrite filter_cons. case_decide; [|by apply IH].
  rewrite fmap_cons. constructor; [by apply IH|]. rewrite Forall_forall in Hall |- *. intros i (y & -> & Hy)%elem_of_list_fmap. apply elem_of_list_filter in Hy as [_ Hy]. apply Hall, elem_of_list_fmap. by exists y.
Qed.
Lemma cs_filter (P : chunk -> Prop) `{forall x, Decision (P x)} N L l : cs_ok N L l -> cs_ok N L (filter P l).
Proof.
  intros [H1 H2 H3 H4]. constructor.
  - intros c [_ Hc]%elem_of_list_filter. by apply H1.
  - intros c [_ Hc]%elem_of_list_filter. by apply H2.
  - by apply sorted_filter.
  - intros c c' [_ Hc]%elem_of_list_filter [_ Hc']%elem_of_list_filter. by apply H4.
Qed.
Lemma sorted_nodup (l : list chunk) : StronglySorted (fun a b => b < a) (c_id <$> l) -> NoDup l.
Proof.
  induction l as [|x l IH]; [constructor|]. cbn. intros Hs. inversion Hs as [|? ? Hs' Hall]; subst. constructor; [|by apply IH].
  intros Hx. rewrite Forall_forall in Hall. pose proof (Hall (c_id x) ltac:(apply elem_of_list_fmap; by exists x)). lia.
Qed.
Lemma filter_perm {T} (f : T -> Z) (l : list T) r : NoDup l -> r ∈ l -> (forall x, x ∈ l -> f x = f r -> x = r) -> l ≡ₚ r :: filter (fun x => f x <> f r) l.
Proof.
  induction l as [|y l IH]; [by intros _ ?%elem_of_nil|]. intros Hn Hr Hu. inversion Hn as [|? ? Hny Hn']; subst. rewrite filter_cons. case_decide as Hd.
  - apply elem_of_cons in Hr as [-> | Hr]; [done|]. rewrite (IH Hn' Hr) at 1; [apply Permutation_swap|]. intros x Hx. apply Hu. by right.
  - assert (y = r) as ->. { apply Hu; [by left|]. destruct (decide (f y = f r)); [done|by exfalso]. } apply perm_skip.
    clear IH Hr Hd Hn. assert (Hx : forall x, x ∈ l -> f x <> f r). { intros x Hx E. apply Hny. rewrite <- (Hu x); [done|by right|done]. }
    clear Hu Hny Hn'. induction l as [|z l IH]; [done|]. rewrite filter_cons_True by (apply Hx; by left). apply perm_skip, IH. intros x Hxx. apply Hx. by right.
Qed.

Lemma deallocate_ok N P o p : pool_ok N P -> words (p_log P) (p_chunks P) o -> alloced (p_log P) (p_chunks P) p ->
  exists P' o' ev, P_deallocate A P o p = Some (P', o', ev) /\ p_log P' = p_log P /\ pool_ok N P' /\ words (p_log P) (p_chunks P') o' /\
  ~ alloced (p_log P) (p_chunks P') p /\ (forall q, alloced (p_log P) (p_chunks P) q -> q <> p -> alloced (p_log P) (p_chunks P') q) /\
  (exists x, x ∈ p_chunks P' /\ c_fcnt x <> 0) /\ frame (blks P) o o' /\
  ((ev = [] /\ blks P' = blks P) \/
   (exists r, ev = [EUpFree (c_base r) (csz (p_log P) r) (2 ^ p_log P)] /\ blks P ≡ₚ blk (p_log P) r :: blks P' /\
      forall q, alloced (p_log P) (p_chunks P) q -> q <> p -> disj q (2 ^ p_log P) (c_base r) (csz (p_log P) r))).
Proof.
  intros HP Hw (c & i & Hc & Hi & Ep & Hnf). pose proof (pk_log _ _ _ HP) as HL. pose proof HL as (HL1 & HL2 & HL3). pose proof (W_big A HA) as HWb. pose proof (CH_eq A) as HCH.
  pose proof (pk_chunks _ _ _ HP c Hc) as K. pose proof (ck_next _ _ _ K) as Knx. pose proof (ck_cap _ _ _ K) as Kcap.
  destruct (slot_in A HA N P c i HP Hc ltac:(lia)) as (S1 & S2 & S3 & S4 & S5).
  unfold P_deallocate. cbv zeta. rewrite (bsz_eq A) by done. rewrite wrap_sub by lia.
  assert (Eo : o (p + 2 ^ p_log P - A) = Some (c_hdr c)) by (rewrite Ep; by apply Hw). rewrite Eo.
  destruct (findc_ex (c_hdr c) (p_chunks P) c Hc eq_refl) as (c0 & Efc). rewrite Efc. apply findc_Some in Efc as [Hc0 Eh0].
  assert (c0 = c) as -> by (by eapply (hdr_inj A HA N P)). clear Hc0 Eh0.
  set (cc := fun f => Chunk (c_hdr c) (p :: c_free c) f (c_cap c) (c_base c) (c_next c) (c_id c)).
  assert (K' : chunk_ok (p_log P) (cc (c_fcnt c + 1))).
  { destruct K as [K1 K2 K3 K4 K5 K6 K7 K8 K9]. constructor; cbn; try done.
    - rewrite K3. cbn [length]. lia.
    - by constructor.
    - intros b [-> | Hb]%elem_of_cons; [by exists i|by apply K5]. }
  pose proof (fcnt_bounds A _ _ K') as Hfb. pose proof (fcnt_bounds A _ _ K) as Hfb0. cbn in Hfb. pose proof (cap_bound A HA _ _ HL K) as [Hcb Hcs].
  rewrite (pwrap_id A (c_fcnt c + 1)) by lia. change (Chunk (c_hdr c) (p :: c_free c) (c_fcnt c + 1) (c_cap c) (c_base c) (c_next c) (c_id c)) with (cc (c_fcnt c + 1)).
  set (c' := cc (c_fcnt c + 1)) in *. change (c_fcnt c') with (c_fcnt c + 1).
  set (cs := upd (c_hdr c) c' (p_chunks P)).
  assert (Hlk : forall x, x ∈ p_chunks P -> c_hdr x = c_hdr c -> x = c) by (intros x Hx Ex; by eapply (hdr_inj A HA N P)).
  assert (Hin' : c' ∈ cs) by (apply elem_upd; left; split; [done|by exists c]).
  assert (Hin : forall x, x ∈ p_chunks P -> x <> c -> x ∈ cs). { intros x Hx Hne. apply elem_upd. right. split; [done|]. intros E. by apply Hne, Hlk. }
  assert (Hcases : forall x, x ∈ cs -> x = c' \/ (x ∈ p_chunks P /\ c_hdr x <> c_hdr c)).
  { intros x [(-> & _)|Hx]%elem_upd; [by left|by right]. }
  assert (Hcsok : cs_ok N (p_log P) cs).
  { constructor.
    - intros x [-> | [Hx _]]%Hcases; [done|]. by apply (pk_chunks _ _ _ HP).
    - intros x [-> | [Hx _]]%Hcases; [apply (pk_ids _ _ _ HP c Hc)|]. by apply (pk_ids _ _ _ HP).
    - unfold cs. rewrite upd_fmap; [apply HP|]. intros x Hx Ex. by rewrite (Hlk x Hx Ex).
    - intros x y [-> | [Hx Hnx]]%Hcases [-> | [Hy Hny]]%Hcases; [by left|..].
      + destruct (pk_disj _ _ _ HP c y Hc Hy) as [<- |]; [done|by right].
      + destruct (pk_disj _ _ _ HP x c Hx Hc) as [-> |]; [done|by right].
      + by apply (pk_disj _ _ _ HP). }
  assert (Hcsinj : forall x y, x ∈ cs -> y ∈ cs -> c_hdr x = c_hdr y -> x = y).
  { intros x y [-> | [Hx Hnx]]%Hcases [-> | [Hy Hny]]%Hcases E; [done|by cbn in E|by cbn in E|]. by eapply (hdr_inj A HA N P). }
  assert (Hblks : blk (p_log P) <$> cs = blks P).
  { unfold PoolProofs.blks, cs. apply upd_fmap. intros x Hx Ex. by rewrite (Hlk x Hx Ex). }
  set (o1 := clob A p A o).
  assert (Hfr1 : frame (blks P) o o1).
  { intros y Hy. unfold o1. rewrite (clob_keep A HA); [done| |lia]. assert (Hyb : disj y A (c_base c) (csz (p_log P) c)). { apply (Hy _ _ (2 ^ p_log P)). unfold PoolProofs.blks. apply elem_of_list_fmap. by exists c. }
    unfold disj in *. lia. }
  assert (Hw1 : words (p_log P) cs o1).
  { assert (Hg : forall x j, x ∈ p_chunks P -> 0 <= j < c_next x -> o1 (c_base x + j * 2 ^ p_log P + 2 ^ p_log P - A) = Some (c_hdr x)).
    { intros x j Hx Hj. unfold o1. rewrite (clob_keep A HA); [by apply Hw| |lia]. pose proof (ck_next _ _ _ (pk_chunks _ _ _ HP x Hx)).
      destruct (slot_disj A HA N P x c j i HP Hx Hc ltac:(lia) ltac:(lia)) as [Hs _]. rewrite <- Ep in Hs.
      destruct (decide (c_base x + j * 2 ^ p_log P = p)) as [E|Hne]; [rewrite E; unfold disj; lia|]. specialize (Hs Hne). unfold disj in *. lia. }
    intros x j [-> | [Hx _]]%Hcases Hj; [|by apply Hg]. apply (Hg c j Hc Hj). }
  assert (Hal1 : ~ alloced (p_log P) cs p).
  { intros (x & j & [-> | [Hx Hnx]]%Hcases & Hj & E & Hn); [apply Hn; by left|]. apply Hnx. f_equal. pose proof (ck_next _ _ _ (pk_chunks _ _ _ HP x Hx)).
    destruct (slot_disj A HA N P x c j i HP Hx Hc ltac:(lia) ltac:(lia)) as [_ Hs]. apply Hs. congruence. }
  assert (Hal2 : forall q, alloced (p_log P) (p_chunks P) q -> q <> p -> alloced (p_log P) cs q).
  { intros q (x & j & Hx & Hj & E & Hn) Hne. destruct (decide (c_hdr x = c_hdr c)) as [Ex|Ex].
    - rewrite (Hlk x Hx Ex) in *. exists c', j. split; [done|]. split; [done|]. split; [done|]. cbn. by intros [? | ?]%elem_of_cons.
    - exists x, j. split; [apply elem_upd; by right|done]. }
  assert (Hex : exists x, x ∈ cs /\ c_fcnt x <> 0) by (exists c'; split; [done|]; cbn; lia).
  (* everything except the removal of a chunk *)
  assert (mk : forall unf emp,
    (match unf with None => False | Some h => exists u, u ∈ cs /\ c_hdr u = h /\ forall x, x ∈ cs -> c_id u < c_id x -> c_fcnt x = 0 end) ->
    (forall h, emp = Some h -> exists e, e ∈ cs /\ c_hdr e = h /\ c_fcnt e = c_cap e) ->
    exists P' o' ev, Some (Pool (p_log P) unf cs (p_ncap P) emp, o1, @nil pev) = Some (P', o', ev) /\ p_log P' = p_log P /\ pool_ok N P' /\ words (p_log P) (p_chunks P') o' /\
      ~ alloced (p_log P) (p_chunks P') p /\ (forall q, alloced (p_log P) (p_chunks P) q -> q <> p -> alloced (p_log P) (p_chunks P') q) /\
      (exists x, x ∈ p_chunks P' /\ c_fcnt x <> 0) /\ frame (blks P) o o' /\
      ((ev = [] /\ blks P' = blks P) \/
       (exists r, ev = [EUpFree (c_base r) (csz (p_log P) r) (2 ^ p_log P)] /\ blks P ≡ₚ blk (p_log P) r :: blks P' /\
          forall q, alloced (p_log P) (p_chunks P) q -> q <> p -> disj q (2 ^ p_log P) (c_base r) (csz (p_log P) r)))).
  { intros unf emp Hu He. eexists _, _, _. split; [reflexivity|]. split; [done|]. split; [|cbn; repeat split; try done; by left].
    destruct Hcsok. constructor; cbn; try done; [|apply HP]. by destruct unf. }
  assert (Hempold : forall h, p_empty P = Some h -> c_fcnt c <> c_cap c /\ exists e, e ∈ cs /\ c_hdr e = h /\ c_fcnt e = c_cap e /\ c_hdr e <> c_hdr c /\ e ∈ p_chunks P).
  { intros h E. split; [lia|]. destruct (pk_empty _ _ _ HP h E) as (e & He & E1 & E2). exists e. assert (Hne : e <> c) by (intros ->; lia).
    split; [by apply Hin|]. split; [done|]. split; [done|]. split; [intros E3; by apply Hne, Hlk|done]. }
  pose proof (pk_unfull _ _ _ HP) as Hu.
  (* the chunk that _Unfull_chunk points to, after the update *)
  assert (Hunf : forall h, p_unfull P = Some h -> exists u u', u ∈ p_chunks P /\ u' ∈ cs /\ c_hdr u' = h /\ c_id u' = c_id u /\ (forall x, x ∈ p_chunks P -> c_id u < c_id x -> c_fcnt x = 0)).
  { intros h E. rewrite E in Hu. destruct Hu as (u & Hu1 & Hu2 & Hu3). destruct (decide (c_hdr u = c_hdr c)) as [Ex|Hne].
    - assert (u = c) as -> by (by apply Hlk). exists c, c'. done.
    - exists u, u. pose proof (Hin u Hu1 ltac:(intros ->; done)). done. }
  destruct (decide (c_fcnt c = 0)) as [Hz|Hnz].
  { destruct (p_unfull P) as [h|] eqn:Eu.
    - destruct (Hunf h eq_refl) as (u & u' & Hu1 & Hu2 & Hu3 & Hu4 & Hu5). destruct (findc_ex h cs u' Hu2 Hu3) as (cu & Ecu). rewrite Ecu. apply findc_Some in Ecu as [Hcu Ehu].
      assert (cu = u') as -> by (apply Hcsinj; [done|done|congruence]). rewrite Hu4. case_decide as Hlt.
      + apply mk; [|intros h' E; destruct (Hempold h' E) as (_ & e & He); naive_solver]. exists c'. split; [done|]. split; [done|].
        intros x [-> | [Hx _]]%Hcases Hxl; [lia|]. apply Hu5; [done|]. cbn in Hxl. lia.
      + apply mk; [|intros h' E; destruct (Hempold h' E) as (_ & e & He); naive_solver]. exists u'. split; [done|]. split; [done|].
        intros x [-> | [Hx _]]%Hcases Hxl; [cbn in Hxl; lia|]. apply Hu5; [done|]. lia.
    - apply mk; [|intros h' E; destruct (Hempold h' E) as (_ & e & He); naive_solver]. exists c'. split; [done|]. split; [done|].
      intros x [-> | [Hx _]]%Hcases Hxl; [lia|]. by apply Hu. }
  destruct (p_unfull P) as [h|] eqn:Eu; [|by pose proof (Hu c Hc)].
  destruct (Hunf h eq_refl) as (u & u' & Hu1 & Hu2 & Hu3 & Hu4 & Hu5).
  assert (Hcu : c_id c <= c_id u). { destruct (decide (c_id c <= c_id u)) as [?|Hn]; [done|]. exfalso. apply Hnz, Hu5; [done|lia]. }
  assert (Hunew : exists u', u' ∈ cs /\ c_hdr u' = h /\ forall x, x ∈ cs -> c_id u' < c_id x -> c_fcnt x = 0).
  { exists u'. split; [done|]. split; [done|]. intros x [-> | [Hx _]]%Hcases Hxl; [cbn in Hxl; lia|]. apply Hu5; [done|lia]. }
  destruct (decide (c_fcnt c + 1 < c_cap c)) as [Hlt|Hge].
  { apply mk; [exact Hunew|]. intros h' E. destruct (Hempold h' E) as (_ & e & He). naive_solver. }
  destruct (p_empty P) as [e|] eqn:Ee.
  2:{ apply mk; [exact Hunew|]. intros h' [= <-]. exists c'. split; [done|]. split; [done|]. cbn. lia. }
  destruct (Hempold e eq_refl) as (_ & ce & He1 & He2 & He3 & He4 & He5). destruct (findc_ex e cs ce He1 He2) as (ce0 & Ece). rewrite Ece. apply findc_Some in Ece as [Hce0 Ehe0].
  assert (ce0 = ce) as -> by (apply Hcsinj; [done|done|congruence]). clear Hce0 Ehe0.
  pose proof (pk_chunks _ _ _ HP ce He5) as Ke. pose proof (ck_cap _ _ _ Ke) as Kecap.
  assert (Hide : c_id ce <> c_id c). { intros E. apply He4. f_equal. eapply sorted_inj; [apply HP|done|done|done]. }
  assert (Heu : c_id ce <= c_id u). { destruct (decide (c_id ce <= c_id u)) as [?|Hn]; [done|]. exfalso. pose proof (Hu5 ce He5 ltac:(lia)). lia. }
  set (r := if decide (c_id ce < c_id c) then ce else c'). set (keep := if decide (c_id ce < c_id c) then c_hdr c else e).
  assert (Hr : r ∈ cs /\ c_id r < c_id u /\ chunk_ok (p_log P) r /\ c_fcnt r = c_cap r /\ (r = ce \/ r = c') /\
    (exists k, k ∈ cs /\ c_hdr k = keep /\ c_fcnt k = c_cap k /\ c_hdr k <> c_hdr r /\ 1 <= c_cap k)).
  { subst r keep. case_decide as Hd.
    - split; [done|]. split; [lia|]. split; [done|]. split; [done|]. split; [by left|]. exists c'. cbn. repeat split; first [done|lia|by apply not_eq_sym].
    - split; [done|]. split; [cbn; lia|]. split; [done|]. split; [cbn; lia|]. split; [by right|]. exists ce. cbn. repeat split; done. }
  clearbody r keep. destruct Hr as (Hr1 & Hr2 & Kr & Hr3 & Hr4 & (k & Hk1 & Hk2 & Hk3 & Hk4 & Hk5)).
  rewrite (Size_ok A HA (p_log P) r HL Kr).
  assert (Hrblk : (c_base r, csz (p_log P) r, 2 ^ p_log P) ∈ blks P). { rewrite <- Hblks. apply elem_of_list_fmap. by exists r. }
  pose proof (csz_pos A HA (p_log P) r HL Kr) as Hrpos.
  eexists _, _, _. split; [reflexivity|]. split; [done|]. cbn [p_chunks p_log].
  assert (Hfr2 : forall x, x ∈ cs -> c_hdr x <> c_hdr r -> disj (c_base x) (csz (p_log P) x) (c_base r) (csz (p_log P) r)).
  { intros x Hx Hne. destruct (cs_disj _ _ _ Hcsok x r Hx Hr1) as [-> |?]; [by exfalso|done]. }
  assert (Hxs : forall x j, chunk_ok (p_log P) x -> 0 <= j < c_next x -> c_base x <= c_base x + j * 2 ^ p_log P /\ c_base x + j * 2 ^ p_log P + 2 ^ p_log P + CH <= c_base x + csz (p_log P) x).
  { intros x j Kx Hj. pose proof (ck_next _ _ _ Kx). unfold PoolProofs.csz. nia. }
  split.
  { destruct (cs_filter (fun x => c_hdr x <> c_hdr r) N (p_log P) cs Hcsok) as [F1 F2 F3 F4]. constructor; cbn; try done; [| |apply HP].
    - exists u'. split; [apply elem_of_list_filter; split; [|done]; intros E; assert (u' = r) by (by apply Hcsinj); subst; lia|]. split; [done|].
      intros x [_ Hx]%elem_of_list_filter. destruct (Hcases x Hx) as [-> | [Hx' _]]; cbn; [lia|]. intros Hxl. apply Hu5; [done|lia].
    - intros h' [= <-]. exists k. split; [by apply elem_of_list_filter|done]. }
  split.
  { intros x j [Hne Hx]%elem_of_list_filter Hj. rewrite (clob_keep A HA); [by apply Hw1| |lia].
    pose proof (Hfr2 x Hx Hne). pose proof (Hxs x j (cs_chunks _ _ _ Hcsok x Hx) Hj). unfold disj in *. lia. }
  split. { intros (x & j & [_ Hx]%elem_of_list_filter & Hj). apply Hal1. by exists x, j. }
  assert (Hnr : forall q, alloced (p_log P) cs q -> exists x j, x ∈ cs /\ 0 <= j < c_next x /\ q = c_base x + j * 2 ^ p_log P /\ q ∉ c_free x /\ c_hdr x <> c_hdr r).
  { intros q (x & j & Hx & Hj & E & Hn). exists x, j. repeat split; try done; [lia|lia|]. intros Ex. assert (x = r) as -> by (by apply Hcsinj). apply Hn. rewrite E.
    apply (free_len A (p_log P) r Kr); [|done]. pose proof (ck_fcnt _ _ _ Kr). lia. }
  split. { intros q Hq Hne. destruct (Hnr q (Hal2 q Hq Hne)) as (x & j & Hx & Hj & E & Hn & Hxr). exists x, j. split; [by apply elem_of_list_filter|done]. }
  split. { exists k. split; [by apply elem_of_list_filter|]. lia. }
  split. { intros y Hy. rewrite (clob_keep A HA); [by apply Hfr1|by eapply Hy|lia]. }
  right. exists r. split; [done|]. split.
  - rewrite <- Hblks. unfold PoolProofs.blks. cbn. rewrite (filter_perm c_hdr cs r) at 1; [done|by eapply sorted_nodup, cs_sorted|done|]. intros x Hx E. by apply Hcsinj.
  - intros q Hq Hne. destruct (Hnr q (Hal2 q Hq Hne)) as (x & j & Hx & Hj & E & Hn & Hxr). pose proof (Hfr2 x Hx Hxr). pose proof (Hxs x j (cs_chunks _ _ _ Hcsok x Hx) Hj). unfold disj in *. lia.
Qed.
End pool.
