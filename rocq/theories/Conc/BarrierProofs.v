From stdpp Require Import base list numbers option decidable list_numbers.
From Coq Require Import ZArith Lia.
From Verif Require Import Conc.Sched Conc.BarrierModel.
Local Open Scope Z_scope.

Lemma parity_mod c : parity c = c mod 2.
Proof. unfold parity. change 1 with (Z.ones 1). rewrite Z.land_ones by lia. done. Qed.
Lemma value_div c : value c = 2 * (c / 2).
Proof.
  unfold value. change (-2) with (Z.lnot (Z.ones 1)). change (Z.land c (Z.lnot (Z.ones 1))) with (Z.land c (Z.lnot (Z.ones 1))).
  rewrite <- Z.ldiff_land, Z.ldiff_ones_r by lia. rewrite Z.shiftl_mul_pow2, Z.shiftr_div_pow2 by lia. change (2 ^ 1) with 2. lia.
Qed.
Lemma lor_even k b : b = 0 \/ b = 1 -> Z.lor (2 * k) b = 2 * k + b.
Proof.
  intros [-> | ->]; [rewrite Z.lor_0_r; lia|]. apply Z.bits_inj'. intros n Hn. rewrite Z.lor_spec.
  destruct (decide (n = 0)) as [->|Hn0].
  - rewrite Z.testbit_odd_0, orb_true_r. done.
  - replace n with (Z.succ (n - 1)) by lia. rewrite Z.testbit_even_succ, Z.testbit_odd_succ by lia.
    change 1 with (2 * 0 + 1) at 2. rewrite Z.testbit_odd_succ, Z.bits_0, orb_false_r by lia. done.
Qed.

Definition incompl (l : brloc) : Z := match l with CTotal _ _ _ | CFn _ _ _ _ | CStore _ _ _ _ => 1 | _ => 0 end.
Definition stored (l : brloc) : Z := match l with CStore _ _ _ _ => 1 | _ => 0 end.
Definition notifying (l : brloc) : Z := match l with CNotify _ _ _ => 1 | _ => 0 end.
Definition bit (ph : nat) : Z := Z.of_nat ph mod 2.

Section inv.
  Context (expected : Z).
  Definition cwf (tr : list bev) (s : brst) (l : brloc) : Prop :=
    match l with
    | Arr _ u => 0 < u
    | CTotal _ ph c => ph = phase s /\ c = cur s
    | CFn _ ph c rem => ph = phase s /\ c = cur s /\ 0 <= rem /\
        exists pre mid, tr = pre ++ mid /\ arrivals ph pre = arrivals ph tr /\ rem = 2 * (expected - drops pre)
    | CStore _ ph c rem => ph = phase s /\ c = cur s /\ 0 <= rem /\ rem mod 2 = 0 /\ nexts tr !! ph = Some (rem / 2)
    | CNotify _ ph c => (ph < phase s)%nat /\ parity c = bit ph
    | WLoad ph b => b = bit ph /\ (ph <= phase s)%nat
    | WAtom ph b c | WCmp ph b c | WBlocked ph b c => b = bit ph /\ parity c = b /\ (ph <= phase s)%nat
    | Failed => False
    | _ => True
    end.
  Record RI (tr : list bev) (s : brst) (ts : list brloc) : Prop := {
    ri_exp : exists e, expected_of expected tr (phase s) = Some e /\ cur s = 2 * (e - arrivals (phase s) tr) + bit (phase s) /\ arrivals (phase s) tr <= e;
    ri_total : total s = 2 * (expected - drops tr) /\ 0 <= total s;
    ri_future : forall p, (phase s < p)%nat -> arrivals p tr = 0;
    ri_compl : completed tr = seq 0 (phase s + Z.to_nat (sumz stored ts)) /\ length (nexts tr) = length (completed tr);
    ri_one : sumz incompl ts <= 1 /\ (0 < sumz incompl ts -> cur s < 2);
    ri_wf : forall i l, ts !! i = Some l -> cwf tr s l;
    ri_toks : forall ph b, (ph, b) ∈ toks s -> b = bit ph /\ (ph <= phase s)%nat;
    ri_nodup : NoDup (brq s);
    ri_q : forall i, i ∈ brq s -> exists ph b c, ts !! i = Some (WBlocked ph b c) /\ (parity (cur s) = b \/ 0 < sumz notifying ts);
  }.
  Lemma arrivals_app p a b : arrivals p (a ++ b) = arrivals p a + arrivals p b.
  Proof. apply (sumz_app (fun e => match e with EArr _ ph u => if decide (ph = p) then u else 0 | _ => 0 end)). Qed.
  Lemma drops_app a b : drops (a ++ b) = drops a + drops b.
  Proof. apply (sumz_app (fun e => match e with EDrop _ => 1 | _ => 0 end)). Qed.
  Lemma completed_app a b : completed (a ++ b) = completed a ++ completed b.
  Proof. unfold completed. by rewrite omap_app. Qed.
  Lemma nexts_app a b : nexts (a ++ b) = nexts a ++ nexts b.
  Proof. unfold nexts. by rewrite omap_app. Qed.
  Lemma bit01 ph : bit ph = 0 \/ bit ph = 1.
  Proof. unfold bit. pose proof (Z.mod_pos_bound (Z.of_nat ph) 2). lia. Qed.
  Lemma bit_S ph : bit (S ph) = 1 - bit ph.
  Proof. unfold bit. rewrite Nat2Z.inj_succ. pose proof (Z.mod_pos_bound (Z.of_nat ph) 2). Z.div_mod_to_equations. lia. Qed.

  Lemma ri_init n : 0 <= expected -> RI [] (barrier_init expected n).1 (barrier_init expected n).2.
  Proof.
    intros H. unfold barrier_init. simpl. assert (Hz : forall f, f Idle = 0 -> sumz f (replicate n Idle) = 0).
    { intros f Hf. apply sumz_zero. intros i x Hx. apply lookup_replicate in Hx as [-> _]. done. }
    split; simpl; rewrite ?Hz by done; try done.
    - exists expected. split; [done|]. change (bit 0) with 0. lia.
    - lia.
    - intros i l Hl. apply lookup_replicate in Hl as [-> _]. done.
    - intros ? ? Hi. by apply elem_of_nil in Hi.
    - constructor.
    - intros i Hi. by apply elem_of_nil in Hi.
  Qed.
  Lemma sum_pos (f : brloc -> Z) ts i l : (forall x, 0 <= f x) -> ts !! i = Some l -> sumz f ts - f l >= 0.
  Proof. intros H Hl. pose proof (sumz_ge f ts i l H Hl). lia. Qed.
  Lemma nn_i x : 0 <= incompl x. Proof. destruct x; simpl; lia. Qed.
  Lemma nn_s x : 0 <= stored x. Proof. destruct x; simpl; lia. Qed.
  Lemma nn_n x : 0 <= notifying x. Proof. destruct x; simpl; lia. Qed.
  (* no other thread is completing *)
  Lemma alone ts i l : ts !! i = Some l -> sumz incompl ts <= incompl l -> forall j x, j <> i -> ts !! j = Some x -> incompl x = 0.
  Proof.
    intros Hl Hs j x Hne Hx. pose proof (sumz_ge incompl (<[i := Idle]> ts) j x nn_i) as Hj.
    rewrite list_lookup_insert_ne in Hj by done. specialize (Hj Hx). rewrite (sumz_insert _ _ _ _ _ Hl) in Hj. simpl in Hj.
    pose proof (nn_i x). lia.
  Qed.
  (* stability of the per-thread facts *)
  Lemma cwf_other tr s e s' x : cwf tr s x -> incompl x = 0 -> (phase s <= phase s')%nat -> cwf (tr ++ e) s' x.
  Proof. destruct x; simpl; intros H Hi Hp; try done; try lia; destruct_and?; split_and!; try done; lia. Qed.
  Lemma cwf_same tr s e s' x : cwf tr s x -> phase s' = phase s -> cur s' = cur s -> arrivals (phase s) e = 0 -> cwf (tr ++ e) s' x.
  Proof.
    destruct x; simpl; intros H Hp Hc Ha; rewrite ?Hp, ?Hc; try done.
    - destruct H as (-> & -> & Hr & pre & mid & -> & Hpre & ->). split_and!; try done. exists pre, (mid ++ e).
      split; [by rewrite app_assoc|]. split; [|done]. rewrite (arrivals_app _ (pre ++ mid)), Ha. lia.
    - destruct H as (-> & -> & Hr & Hm & Hn). split_and!; try done. rewrite nexts_app. by apply lookup_app_l_Some.
  Qed.
  Lemma wf_others tr s (ts : list brloc) (i : nat) l' tr' s' : (forall j x, ts !! j = Some x -> cwf tr s x) -> cwf tr' s' l' ->
    (forall j x, j <> i -> ts !! j = Some x -> cwf tr s x -> cwf tr' s' x) -> forall j x, <[i := l']> ts !! j = Some x -> cwf tr' s' x.
  Proof.
    intros H Hl Ho j x Hj. destruct (decide (j = i)) as [->|Hne].
    - apply list_lookup_insert_Some in Hj as [(_ & <- & _)|(? & _)]; done.
    - rewrite list_lookup_insert_ne in Hj by done. apply (Ho j x Hne Hj). by eapply H.
  Qed.
  (* a step that leaves cur and phase alone, with no arrival and no completion event *)
  Lemma ri_frame tr s ts i l s' l' e :
    RI tr s ts -> ts !! i = Some l ->
    cur s' = cur s -> phase s' = phase s -> total s' = 2 * (expected - drops (tr ++ e)) -> 0 <= total s' ->
    (forall p, arrivals p e = 0) -> completed e = [] -> nexts e = [] ->
    incompl l' = incompl l -> stored l' = stored l -> cwf (tr ++ e) s' l' ->
    (forall ph b, (ph, b) ∈ toks s' -> b = bit ph /\ (ph <= phase s')%nat) ->
    NoDup (brq s') -> (forall j, j ∈ brq s' -> exists ph b c, <[i := l']> ts !! j = Some (WBlocked ph b c) /\ (parity (cur s) = b \/ 0 < sumz notifying (<[i := l']> ts))) ->
    RI (tr ++ e) s' (<[i := l']> ts).
  Proof.
    intros HI Hl Hc Hp Ht Ht0 Ha He Hn Hil Hsl Hw Htk Hnd Hq.
    destruct HI as [(e0 & He0 & Hcur & Hle) _ Hf [Hco Hlen] [H1 H1'] Hwf _ _ _].
    split; rewrite ?Hc, ?Hp, ?completed_app, ?nexts_app, ?He, ?Hn, ?app_nil_r, ?(sumz_insert _ _ _ _ _ Hl), ?Hil, ?Hsl; try done.
    - exists e0. unfold expected_of in *. rewrite nexts_app, Hn, app_nil_r, arrivals_app, Ha. split; [done|]. lia.
    - intros p Hp'. rewrite arrivals_app, Ha, (Hf p Hp'). done.
    - replace (sumz stored ts - stored l + stored l) with (sumz stored ts) by lia. done.
    - split; [lia|]. intros. apply H1'. lia.
    - eapply (wf_others tr s); [done|done|]. intros j x _ _ Hx. by apply (cwf_same tr s).
    - intros ph b Hin. rewrite <- Hp. by apply Htk.
    - intros j Hj. destruct (Hq j Hj) as (ph & b & c & H2 & H3). exists ph, b, c. split; [done|]. by rewrite (sumz_insert _ _ _ _ _ Hl) in H3.
  Qed.
  Lemma q_keep tr s ts i l l' : RI tr s ts -> ts !! i = Some l -> (forall ph b c, l <> WBlocked ph b c) -> notifying l = 0 ->
    forall j, j ∈ brq s -> exists ph b c, <[i := l']> ts !! j = Some (WBlocked ph b c) /\ (parity (cur s) = b \/ 0 < sumz notifying (<[i := l']> ts)).
  Proof.
    intros HI Hl Hn Hnot j Hj. destruct (ri_q _ _ _ HI j Hj) as (ph & b & c & H1 & H2). exists ph, b, c. split.
    - rewrite list_lookup_insert_ne; [done|]. intros ->. rewrite Hl in H1. injection H1 as ->. by apply (Hn ph b c).
    - destruct H2 as [?|H2]; [by left|]. right. rewrite (sumz_insert _ _ _ _ _ Hl), Hnot. pose proof (nn_n l'). lia.
  Qed.
  (* arrivals *)
  Lemma ri_arr tr c t qq tk ph k u i tk' l' ts :
    RI tr (Brst c t qq tk ph) ts -> ts !! i = Some (Arr k u) -> 2 * u <= c ->
    (forall p b, (p, b) ∈ tk' -> (p, b) ∈ tk \/ (p = ph /\ b = parity (c - 2 * u))) ->
    stored l' = 0 -> (incompl l' = 1 -> value (c - 2 * u) = 0) -> notifying l' = 0 ->
    cwf (tr ++ [EArr i ph u]) (Brst (c - 2 * u) t qq tk' ph) l' ->
    RI (tr ++ [EArr i ph u]) (Brst (c - 2 * u) t qq tk' ph) (<[i := l']> ts).
  Proof.
    intros HI Hl Hg Htk Hs Hin Hnt Hw.
    pose proof (q_keep _ _ _ _ _ l' HI Hl ltac:(done) eq_refl) as Hq'.
    destruct HI as [(e0 & He0 & Hcur & Hle) [Ht Ht0] Hf [Hco Hlen] [H1 H1'] Hwf Htok Hnd Hq]. simpl in *.
    pose proof (Hwf i _ Hl) as Hu. simpl in Hu. pose proof (bit01 ph) as Hb.
    assert (Hpar : parity (c - 2 * u) = bit ph).
    { rewrite parity_mod, Hcur. replace (2 * (e0 - arrivals ph tr) + bit ph - 2 * u) with (bit ph + (e0 - arrivals ph tr - u) * 2) by lia.
      rewrite Z_mod_plus_full. apply Z.mod_small. lia. }
    assert (Hpar0 : parity c = bit ph).
    { rewrite parity_mod, Hcur. replace (2 * (e0 - arrivals ph tr) + bit ph) with (bit ph + (e0 - arrivals ph tr) * 2) by lia.
      rewrite Z_mod_plus_full. apply Z.mod_small. lia. }
    assert (Hi0 : sumz incompl ts = 0). { pose proof (sumz_nonneg incompl ts nn_i). destruct (decide (0 < sumz incompl ts)); [|lia]. specialize (H1' ltac:(done)). lia. }
    assert (Hoth := alone ts i _ Hl ltac:(simpl; lia)).
    split; simpl; rewrite ?completed_app, ?nexts_app; simpl; rewrite ?app_nil_r, ?(sumz_insert _ _ _ _ _ Hl); simpl; rewrite ?Hs; try done.
    - exists e0. unfold expected_of in *. rewrite nexts_app. simpl. rewrite app_nil_r, arrivals_app. simpl. rewrite decide_True by done. split; [done|]. lia.
    - rewrite drops_app. simpl. lia.
    - intros p Hp. rewrite arrivals_app, (Hf p Hp). simpl. rewrite decide_False by lia. done.
    - replace (sumz stored ts - 0 + 0) with (sumz stored ts) by lia. done.
    - assert (incompl l' = 0 \/ incompl l' = 1) as [Hi|Hi] by (destruct l'; simpl; lia); rewrite Hi in *; split; try lia.
      intros _. specialize (Hin eq_refl). rewrite value_div in Hin. Z.div_mod_to_equations. lia.
    - eapply (wf_others tr (Brst c t qq tk ph)); [done|done|]. intros j x Hne Hx Hwx. eapply cwf_other; [done|by eapply Hoth|done].
    - intros p b Hpb. destruct (Htk p b Hpb) as [?|[-> ->]]; [by apply Htok|]. split; [done|lia].
    - intros j Hj. destruct (Hq' j Hj) as (p & b & c0 & H2 & H3). exists p, b, c0. split; [done|]. rewrite (sumz_insert _ _ _ _ _ Hl) in H3. simpl in H3.
      rewrite Hpar. rewrite Hpar0 in H3. done.
  Qed.
  Lemma ri_step tr s ts i l e s' l' : RI tr s ts -> ts !! i = Some l -> barrier_step i s l e s' l' ->
    RI (tr ++ option_list e) s' (<[i := l']> ts).
  Proof.
    intros HI Hl Hst. pose proof (ri_wf _ _ _ HI i l Hl) as Hw.
    pose proof (ri_total _ _ _ HI) as [Htot Htot0]. pose proof (ri_toks _ _ _ HI) as Htk. pose proof (ri_nodup _ _ _ HI) as Hnd.
    assert (Hcur : cur s mod 2 = bit (phase s) /\ 0 <= cur s).
    { destruct (ri_exp _ _ _ HI) as (e0 & _ & -> & Hle). pose proof (bit01 (phase s)). split; [|lia].
      rewrite Z.add_comm, Z.mul_comm, Z_mod_plus_full. apply Z.mod_small. lia. }
    assert (HF : forall l0 s0, l = l0 -> s' = s -> forall e', drops e' = 0 -> (forall p, arrivals p e' = 0) -> completed e' = [] -> nexts e' = [] ->
      incompl l' = incompl l -> stored l' = stored l -> (forall ph b c, l <> WBlocked ph b c) -> notifying l = 0 ->
      cwf (tr ++ e') s l' -> s0 = s -> RI (tr ++ e') s (<[i := l']> ts)).
    { intros l0 s0 -> -> e' Hd Ha Hc Hn H1 H2 H3 H4 H5 _. eapply ri_frame; try done; [rewrite drops_app; lia|]. apply (q_keep _ _ _ _ _ _ HI Hl); done. }
    inversion Hst; subst; simpl in *.
    - apply (HF Idle s'); done.
    - apply (HF Idle s'); done.
    - apply (HF Idle s'); done.
    - (* drop *) rewrite decide_True by lia. eapply ri_frame; try done; simpl; try lia; try (rewrite drops_app; simpl; lia).
      apply (q_keep _ _ _ _ _ _ HI Hl); done.
    - (* last arrival *) rewrite decide_True by lia. eapply ri_arr; try done; simpl; auto.
    - rewrite decide_True by lia. eapply ri_arr; try done; simpl; auto.
      intros p b Hpb. apply elem_of_cons in Hpb as [[= -> ->]|?]; auto.
    - rewrite decide_True by lia. eapply ri_arr; try done; simpl; auto.
    - rewrite decide_True by lia. eapply ri_arr; try done; simpl; auto. split; [|split; [done|lia]].
      rewrite parity_mod. destruct Hcur as [Hcur _]. rewrite <- Hcur. Z.div_mod_to_equations. lia.
    - (* total loaded *) apply (HF (CTotal k ph c) s'); try done; rewrite decide_True by lia; try done. simpl. destruct Hw as [-> ->].
      rewrite app_nil_r. split_and!; try done. exists tr, []. by rewrite app_nil_r.
    - (* completion function *)
      pose proof (q_keep _ _ _ _ _ (CStore k ph c rem) HI Hl ltac:(done) eq_refl) as Hq'.
      destruct HI as [(e0 & He0 & Hc0 & Hle) _ Hf [Hco Hlen] [H1 H1'] Hwf _ _ _]. destruct Hw as (-> & -> & Hr & pre & mid & -> & Hpre & Hrem).
      assert (Hs0 : sumz stored ts = 0).
      { pose proof (sumz_le stored incompl (<[i := Idle]> ts)) as Hsl. rewrite !(sumz_insert _ _ _ _ _ Hl) in Hsl. simpl in Hsl.
        pose proof (sumz_nonneg stored ts nn_s). assert (sumz stored ts - 0 + 0 <= sumz incompl ts - 1 + 0); [|lia]. apply Hsl.
        intros j x _. destruct x; simpl; lia. }
      rewrite Hs0 in Hco. simpl in Hco. rewrite Nat.add_0_r in Hco. set (tr := pre ++ mid) in *.
      assert (Hln : length (nexts tr) = phase s') by (rewrite Hlen, Hco, seq_length; done).
      split; simpl; rewrite ?completed_app, ?nexts_app; simpl; rewrite ?(sumz_insert _ _ _ _ _ Hl), ?Hs0; simpl; try done.
      + exists e0. unfold expected_of in *. rewrite nexts_app, arrivals_app. simpl. split; [|lia].
        change (expected :: nexts tr ++ [rem / 2]) with ((expected :: nexts tr) ++ [rem / 2]). by apply lookup_app_l_Some.
      + rewrite drops_app. simpl. lia.
      + intros p Hp. rewrite arrivals_app, (Hf p Hp). done.
      + change (Z.to_nat 1) with 1%nat. rewrite Hco, !app_length, seq_app. simpl. split; [done|]. rewrite Hln. by rewrite seq_length.
      + split; [lia|]. intros _. apply H1'. pose proof (sumz_ge incompl ts i _ nn_i Hl). simpl in *. lia.
      + eapply (wf_others tr s'); [done| |].
        * simpl. split_and!; try done; [rewrite Hrem, Z.mul_comm; apply Z_mod_mult|]. rewrite nexts_app, <- Hln. apply list_lookup_middle. done.
        * intros j x _ _ Hx. apply (cwf_same tr s'); done.
      + intros j Hj. destruct (Hq' j Hj) as (p & b & c0 & H2 & H3). exists p, b, c0. split; [done|]. by rewrite (sumz_insert _ _ _ _ _ Hl) in H3.
    - (* store *)
      rewrite app_nil_r. destruct Hw as (-> & -> & Hr & Hm & Hn).
      assert (Hc' : Z.lor rem (Z.land (c + 1) 1) = rem + bit (S p)).
      { fold (parity (c + 1)). rewrite parity_mod. assert ((c + 1) mod 2 = bit (S p)) as ->.
        { rewrite bit_S. destruct Hcur as [Hcur _]. rewrite <- Hcur. Z.div_mod_to_equations. lia. }
        assert (rem = 2 * (rem / 2)) as -> by (Z.div_mod_to_equations; lia). rewrite lor_even by apply bit01. Z.div_mod_to_equations; lia. }
      rewrite Hc'. pose proof (q_keep _ _ _ _ _ (CNotify k p c) HI Hl ltac:(done) eq_refl) as Hq'.
      destruct HI as [(e0 & He0 & Hc0 & Hle) _ Hf [Hco Hlen] [H1 H1'] Hwf _ _ _]. simpl in *.
      assert (Hi1 : sumz incompl ts = 1). { pose proof (sumz_ge incompl ts i _ nn_i Hl). simpl in *. lia. }
      assert (Hs1 : sumz stored ts = 1).
      { pose proof (sumz_ge stored ts i _ nn_s Hl) as Hge. simpl in Hge. pose proof (sumz_le stored incompl ts) as Hsl.
        assert (sumz stored ts <= sumz incompl ts); [|lia]. apply Hsl. intros j x _. destruct x; simpl; lia. }
      assert (Hoth := alone ts i _ Hl ltac:(simpl; lia)).
      assert (Hb := bit01 (S p)).
      split; simpl; rewrite ?(sumz_insert _ _ _ _ _ Hl), ?Hs1, ?Hi1; simpl; try done.
      + exists (rem / 2). rewrite (Hf (S p)) by lia. split; [done|]. split; [Z.div_mod_to_equations; lia|apply Z.div_pos; lia].
      + intros q Hq. apply Hf. lia.
      + rewrite Hs1 in Hco. change (Z.to_nat 1) with 1%nat in Hco. rewrite Hco. split; [by rewrite Nat.add_0_r, Nat.add_comm|]. by rewrite <- Hco.
      + eapply (wf_others tr (Brst c t qq tk p)); [done| |].
        * simpl. split; [lia|]. rewrite parity_mod. apply Hcur.
        * intros j x Hne Hx Hwx. rewrite <- (app_nil_r tr). eapply cwf_other; [done|by eapply Hoth|simpl; lia].
      + intros ph b Hin. destruct (Htk ph b Hin). split; [done|lia].
      + intros j Hj. destruct (Hq' j Hj) as (p' & b & c0 & H2 & H3). exists p', b, c0. split; [done|]. right.
        pose proof (sumz_nonneg notifying ts nn_n). lia.
    - (* notify *)
      destruct Hw as [Hph Hpar].
      eapply ri_frame; try done; destruct k; simpl; rewrite ?app_nil_r; try done; try lia.
      all: try (rewrite drops_app; simpl; lia).
      all: try (by constructor).
      all: try (by intros ? ?%elem_of_nil).
      intros p' b Hin. apply elem_of_cons in Hin as [[= -> ->]|Hin]; [split; [done|lia]|by apply Htk].
    - (* wait with a token *) rewrite app_nil_r. destruct (Htk ph b) as [-> Hph]; [rewrite H; left|].
      rewrite <- (app_nil_r tr). eapply ri_frame; try done; simpl; rewrite ?app_nil_r; try done.
      + intros p' b' Hin. apply Htk. rewrite H. by right.
      + apply (q_keep _ _ _ _ _ _ HI Hl); done.
    - (* leave *) apply (HF (WLoad ph b) s'); try done; rewrite decide_True by lia; done.
    - apply (HF (WLoad ph (parity (cur s'))) s'); try done; rewrite decide_True by lia; try done. simpl. destruct Hw. done.
    - apply (HF (WAtom ph b c) s'); try done; case_decide; try done; simpl; destruct_and?; done.
    - rewrite app_nil_r. rewrite <- (app_nil_r tr). eapply ri_frame; try done; simpl; rewrite ?app_nil_r; try done.
      + constructor; [|done]. intros Hi. destruct (ri_q _ _ _ HI i Hi) as (? & ? & ? & ? & _). congruence.
      + intros j Hj. apply elem_of_cons in Hj as [->|Hj].
        * exists ph, b, c. rewrite list_lookup_insert by (by eapply lookup_lt_Some). split; [done|]. left. by destruct_and?.
        * by apply (q_keep _ _ _ _ _ _ HI Hl).
    - apply (HF (WCmp ph b c) s'); done.
    - rewrite app_nil_r. rewrite <- (app_nil_r tr). eapply ri_frame; try done; simpl; rewrite ?app_nil_r; try done.
      intros j Hj. destruct (ri_q _ _ _ HI j Hj) as (p & b' & c' & H1 & H2). exists p, b', c'.
      rewrite list_lookup_insert_ne by (by intros ->). split; [done|]. rewrite (sumz_insert _ _ _ _ _ Hl). simpl. destruct H2; [by left|right; lia].
    - rewrite app_nil_r. rewrite <- (app_nil_r tr). eapply ri_frame; try done; simpl; rewrite ?app_nil_r; try done.
      + rewrite H in Hnd. by apply list.NoDup_cons in Hnd as [_ ?].
      + intros j Hj. destruct (ri_q _ _ _ HI j) as (p' & b' & c1 & H1 & H2); [simpl; rewrite H; by right|]. exists p', b', c1. simpl in *.
        rewrite H in Hnd. apply list.NoDup_cons in Hnd as [Hni _].
        rewrite list_lookup_insert_ne by (by intros ->). split; [done|]. rewrite (sumz_insert _ _ _ _ _ Hl). simpl. destruct H2; [by left|right; lia].
  Qed.
  Lemma ri_reach n tr s ts : 0 <= expected -> steps barrier_step (barrier_init expected n) tr (s, ts) -> RI tr s ts.
  Proof.
    intros H0 Hs. unfold barrier_init in Hs. apply (steps_inv' _ RI _ _ (ri_init n H0)) in Hs; [done|].
    intros. by eapply ri_step.
  Qed.
  (** when the count of the phase is used up, some thread is completing the phase (or the phase expects no arrival at all) *)
  Definition busy (tr : list bev) (s : brst) (ts : list brloc) : Prop :=
    cur s < 2 -> 0 < sumz incompl ts \/ expected_of expected tr (phase s) = Some 0.
  Lemma expected_of_app tr es p x : expected_of expected tr p = Some x -> expected_of expected (tr ++ es) p = Some x.
  Proof. unfold expected_of. rewrite nexts_app, app_comm_cons. apply lookup_app_l_Some. Qed.
  Lemma busy_step tr s ts i l e s' l' : RI tr s ts -> busy tr s ts -> ts !! i = Some l -> barrier_step i s l e s' l' ->
    busy (tr ++ option_list e) s' (<[i := l']> ts).
  Proof.
    intros HI HB Hl Ht Hc. rewrite (sumz_insert _ _ _ _ _ Hl).
    pose proof (ri_wf _ _ _ HI i l Hl) as Hw.
    assert (Hmono : cur s' = cur s -> phase s' = phase s -> incompl l <= incompl l' ->
      0 < sumz incompl ts - incompl l + incompl l' \/ expected_of expected (tr ++ option_list e) (phase s') = Some 0).
    { intros H1 H2 H3. rewrite H1 in Hc. rewrite H2. destruct (HB Hc) as [?|?]; [left; lia|right; by apply expected_of_app]. }
    pose proof (sum_pos incompl ts i l nn_i Hl) as Hp.
    inversion Ht; subst; try (apply Hmono; simpl; repeat case_decide; simpl in *; try done; lia).
    - simpl in *. left. rewrite decide_True by lia. simpl. lia.
    - simpl in *. exfalso. match goal with H : value _ <> 0 |- _ => apply H; rewrite value_div end. rewrite Z.div_small; lia.
    - simpl in *. exfalso. match goal with H : value _ <> 0 |- _ => apply H; rewrite value_div end. rewrite Z.div_small; lia.
    - simpl in *. exfalso. match goal with H : value _ <> 0 |- _ => apply H; rewrite value_div end. rewrite Z.div_small; lia.
    - rewrite decide_True in * by (by apply (ri_total _ _ _ HI)). apply Hmono; done.
    - simpl in Hc, Hw |- *. destruct Hw as (-> & -> & Hr & Hr2 & Hn). right. unfold expected_of. rewrite app_nil_r. simpl. rewrite Hn. f_equal.
      rewrite <- (Z.div_exact rem 2) in Hr2 by lia. rewrite Hr2 in Hc. rewrite lor_even in Hc; [|change (Z.land ?x 1) with (parity x); rewrite parity_mod; pose proof (Z.mod_pos_bound (c + 1) 2); lia].
      change (Z.land ?x 1) with (parity x) in Hc. rewrite parity_mod in Hc. pose proof (Z.mod_pos_bound (c + 1) 2). pose proof (Z.div_pos rem 2). lia.
    - destruct k; apply Hmono; simpl; done.
  Qed.
  Lemma busy_reach n tr s ts : 0 <= expected -> steps barrier_step (barrier_init expected n) tr (s, ts) -> busy tr s ts.
  Proof.
    intros H0 Hs. unfold barrier_init in Hs. apply (steps_inv' _ (fun tr s ts => RI tr s ts /\ busy tr s ts)) in Hs; [apply Hs| |].
    - split; [apply (ri_init n H0)|]. intros Hc. right. unfold expected_of. simpl in *. f_equal. lia.
    - intros tr0 s0 ts0 i l e s' l' [H1 H2] Hl Ht. split; [by eapply ri_step|by eapply busy_step].
  Qed.
End inv.
