(** merge of two tables with the same hasher. *)
From stdpp Require Import base list numbers option decidable.
From Coq Require Import Lia.
From Verif Require Import Base.Res Cont.ListModel Cont.ListSpec Cont.ListProofs Cont.ListProofs2 Cont.ListProofs3 Cont.ListProofs4 Cont.ListProofs5 Cont.ListProofs6 Cont.HashModel Cont.HashSpec Cont.HashProofs Cont.HashProofs2 Cont.HashProofs3 Cont.HashProofs4 Cont.HashProofs5 Cont.HashProofs6 Cont.HashProofs7.
Local Open Scope nat_scope.

Section merge.
Context {K V : Type} (kfn : V -> K) (hash : K -> nat) (keq : K -> K -> bool) (HO : hash_ok hash keq).
Implicit Types (h : heap V) (l lt lr kept rest a c d m A C M G D R S : list (nat * V)) (x y z : nat * V) (P : nat * V -> bool) (t r : tbl).
Notation yes P := (Forall (fun x : nat * V => P x = true)).
Notation no P := (Forall (fun x : nat * V => P x = false)).
Notation inb := (inb kfn hash).
Notation eqk := (eqk kfn keq).
Notation key x := (kfn (snd x)).
Notation hd t := (lhead (tl t)).
Notation wf := (wf kfn hash keq).
Notation vec_ok := (vec_ok kfn hash).
Notation grp := (grp kfn hash keq).
Notation group := (group kfn keq).
Notation placed := (placed kfn keq).

Definition both h t lt (r : tbl) lr : Prop := wf h t lt /\ wf h r lr /\ disj (hd t) lt (hd r) lr.
Definition area t lt (r : tbl) lr : list nat := (hd t :: lt.*1) ++ hd r :: lr.*1.

Lemma merge_step multi pol h t lt r kept x rest : both h t lt r (kept ++ x :: rest) ->
  let body := (let cand := x.1 in
      first <~ N h x.1 ;;
      v <~ Val h cand ;;
      let k := kfn v in let hv := hash k in
      '(before, dup) <~ Find_last kfn keq h t k hv ;;
      if negb multi && bool_decide (dup <> null) then Ok (inl (h, t, r, first))
      else
        '(h, t, re) <~ maybe_rehash kfn hash keq pol h t ;;
        '(before, _) <~ (if re : bool then Find_last kfn keq h t k hv else Ok (before, dup)) ;;
        r <~ Erase_bucket h r cand (Nat.land hv (tmask r)) ;;
        '(h, s) <~ Unlinknode h (tl r) cand ;;
        let r := set_l r s in
        '(h, t, _) <~ Insert_new_node_before h t hv before cand ;;
        Ok (inl (h, t, r, first))) : res (heap V * tbl * tbl * nat + heap V * tbl * tbl) in
  (multi = false /\ group (key x) lt <> [] /\ body = Ok (inl (h, t, r, fst_of (hd r) rest))) \/
  ((multi = false -> group (key x) lt = []) /\ exists h' t' r' lt', body = Ok (inl (h', t', r', fst_of (hd r) rest)) /\
     both h' t' lt' r' (kept ++ rest) /\ hd t' = hd t /\ hd r' = hd r /\ tmax r' = tmax r /\ placed None x lt lt' /\ frame h h' (area t lt r (kept ++ x :: rest))).
Proof.
  intros (Wt & Wr & DJ). cbv zeta. pose proof Wr as ([Rr _] & _)%wf_iff.
  rewrite (N_ok _ _ _ (ring_nx _ _ _ _ _ Rr)), rbind_ok.
  assert (Ix : x ∈ kept ++ x :: rest) by (apply elem_of_app; right; left).
  rewrite (Val_ok _ _ _ (ring_val _ _ _ x Rr Ix)), rbind_ok.
  destruct (target_ok kfn hash keq HO h t lt None (key x) Wt I) as (bef & dup & E0 & HD & HI0). cbn [find_target] in E0. rewrite E0, rbind_ok.
  destruct (negb multi && bool_decide (dup <> null)) eqn:ED.
  { apply andb_true_iff in ED as [EM ED]. apply bool_decide_eq_true in ED. destruct multi; [done|]. left. split; [done|]. split; [|done].
    destruct HD as [[-> HG]|(y & Hy & Ey & -> & Hy0)]; [by destruct ED|]. intros Q. assert (Hy' : y ∈ group (key x) lt) by by apply lf_in. rewrite Q in Hy'. by apply elem_of_nil in Hy'. }
  right. split.
  { intros ->. cbn in ED. apply bool_decide_eq_false in ED. destruct HD as [[-> HG]|(y & Hy & Ey & -> & Hy0)]; [done|]. by destruct ED. }
  destruct (maybe_rehash_ok kfn hash keq HO pol h t lt Wt) as (h2 & t2 & l2 & re & E2 & W2 & Et & S2 & F2 & M2 & O2 & Hre). rewrite E2, rbind_ok.
  assert (EH : hd t2 = hd t) by by rewrite Et.
  assert (DJ2 : forall p, p ∈ hd r :: (kept ++ x :: rest).*1 -> p ∉ hd t :: lt.*1). { intros p H1 H2. by apply (DJ p). }
  assert (Wr2 : wf h2 r (kept ++ x :: rest)). { eapply wf_frame; [exact Wr|]. intros p Hp. apply F2. by apply DJ2. }
  destruct (unlink_ok kfn hash keq h2 r kept x rest Wr2) as (r1 & h3 & s & E3 & E4 & W3 & Hs & Mr & Mm & VL & Hni & F3).
  assert (SUB : forall p, p ∈ hd r :: (kept ++ rest).*1 -> p ∈ hd r :: (kept ++ x :: rest).*1) by (intros p; apply sub_mid).
  assert (PM : hd t2 :: l2.*1 ≡ₚ hd t :: lt.*1) by (rewrite EH; by rewrite (proj1 S2)).
  assert (Wt3 : wf h3 t2 l2). { eapply wf_frame; [exact W2|]. intros p Hp. apply F3. intros Q. apply (DJ2 p); [by apply SUB|]. by rewrite <- PM. }
  assert (Hni2 : x.1 ∉ hd t2 :: l2.*1). { rewrite PM. apply DJ2. right. by apply in_ptrs. }
  assert (Hz : x.1 <> 0). { eapply ring_nz; [exact Rr|]. right. by apply in_ptrs. }
  assert (X : exists bef' dup' h' t' l', (if re then Find_last kfn keq h2 t2 (key x) (hash (key x)) else Ok (bef, dup)) = Ok (bef', dup') /\
     Insert_new_node_before h3 t2 (hash (key x)) bef' x.1 = Ok (h', t', x.1) /\ wf h' t' l' /\ hd t' = hd t2 /\ tmax t' = tmax t2 /\ placed None (x.1, x.2) l2 l' /\ frame h3 h' (x.1 :: hd t2 :: l2.*1)).
  { destruct re.
    - destruct (target_ok kfn hash keq HO h2 t2 l2 None (key x) W2 I) as (bef' & dup' & E5 & _ & HI). cbn [find_target] in E5.
      destruct (HI h3 x.1 x.2 eq_refl Wt3 VL Hni2 Hz) as (h' & t' & l' & E6 & W6). by exists bef', dup', h', t', l'.
    - destruct (Hre eq_refl) as (-> & -> & ->). destruct (HI0 h3 x.1 x.2 eq_refl Wt3 VL Hni2 Hz) as (h' & t' & l' & E6 & W6). by exists bef, dup, h', t', l'. }
  destruct X as (bef' & dup' & h' & t' & l' & -> & E6 & W6 & H6 & M6 & P6 & F6). rewrite rbind_ok, E3, rbind_ok, E4, rbind_ok, E6, rbind_ok.
  exists h', t', (set_l r1 s), l'. split; [done|]. replace (x.1, x.2) with x in P6 by by destruct x.
  assert (PL : hd t' :: l'.*1 ≡ₚ x.1 :: hd t :: lt.*1). { rewrite H6, (proj1 P6). rewrite <- PM. rewrite fmap_cons. apply Permutation_swap. }
  assert (AA : forall p, p ∉ area t lt r (kept ++ x :: rest) -> p ∉ hd t :: lt.*1 /\ p ∉ hd r :: (kept ++ x :: rest).*1). { intros p Hp. unfold area in Hp. by rewrite not_elem_of_app in Hp. }
  split; [|split; [congruence|split; [done|split; [done|split]]]].
  - split; [done|]. split.
    + eapply wf_frame; [exact W3|]. intros p Hp. change (hd (set_l r1 s)) with (lhead s) in Hp. rewrite Hs in Hp. apply F6. rewrite not_elem_of_cons. split; [by intros ->|]. rewrite PM. apply DJ2. by apply SUB.
    + intros p H1 H7. rewrite PL in H1. change (hd (set_l r1 s)) with (lhead s) in H7. rewrite Hs in H7. apply elem_of_cons in H1 as [->|H1]; [done|]. apply (DJ2 p); [by apply SUB|done].
  - by eapply placed_same.
  - intros p Hp. apply AA in Hp as [Hp1 Hp2]. rewrite F6, F3, F2; try done.
    + intros Q. apply Hp2. by apply SUB.
    + rewrite not_elem_of_cons. split; [|by rewrite PM]. intros ->. apply Hp2. right. by apply in_ptrs.
Qed.

(** what has happened after the elements [d] were considered *)
Definition merged (multi : bool) lt0 d lt kept : Prop :=
  lt ++ kept ≡ₚ lt0 ++ d /\ sublist kept d /\ (multi = true -> kept = []) /\
  forall k, group k lt = (if multi then group k lt0 ++ group k d else if decide (group k lt0 = []) then take 1 (group k d) else group k lt0) /\
    (multi = false -> group k kept = if decide (group k lt0 = []) then list.tail (group k d) else group k d).
Lemma group_app k l l' : group k (l ++ l') = group k l ++ group k l'.
Proof. apply lf_app. Qed.
Lemma group_cong k x l : eqk k x = true -> group (key x) l = group k l.
Proof. intros E. unfold HashSpec.group. induction l as [|z l IH]; [done|]. cbn. rewrite (eqk_same kfn hash keq HO k x z E), IH. done. Qed.
Lemma group_one k x : group k [x] = if eqk k x then [x] else [].
Proof. unfold HashSpec.group. cbn. done. Qed.
Lemma merged_skip lt0 d lt kept x : merged false lt0 d lt kept -> group (key x) lt <> [] -> merged false lt0 (d ++ [x]) lt (kept ++ [x]).
Proof.
  intros (M1 & M2 & M3 & M4) HG. split; [by rewrite !app_assoc, M1|]. split; [by apply sublist_app|]. split; [done|]. intros k. destruct (M4 k) as [K1 K2]. specialize (K2 eq_refl).
  rewrite !group_app, group_one, K1, K2. destruct (eqk k x) eqn:E.
  2:{ rewrite !app_nil_r. done. }
  rewrite (group_cong k x lt E), K1 in HG. case_decide as Q; [|done]. split.
  - intros. destruct (group k d); [done|]. cbn. done.
  - intros _. destruct (group k d); [done|]. done.
Qed.
Lemma merged_move multi lt0 d lt kept x lt' : merged multi lt0 d lt kept -> (multi = false -> group (key x) lt = []) -> placed None x lt lt' -> merged multi lt0 (d ++ [x]) lt' kept.
Proof.
  intros (M1 & M2 & M3 & M4) HG [P1 P2]. split; [|split; [|split; [done|]]].
  - rewrite P1. cbn [app]. rewrite M1. rewrite app_assoc. apply Permutation_cons_append.
  - by apply sublist_inserts_r.
  - intros k. destruct (M4 k) as [K1 K2]. specialize (P2 k). cbn [place] in P2. rewrite !group_app, group_one, P2. destruct multi.
    + split; [|done]. rewrite K1. destruct (eqk k x); [by rewrite app_assoc|by rewrite app_nil_r].
    + specialize (K2 eq_refl). destruct (eqk k x) eqn:E.
      * specialize (HG eq_refl). rewrite (group_cong k x lt E) in HG. rewrite HG. rewrite K1 in HG. case_decide as Q.
        -- rewrite K2. assert (group k d = []) as -> by (by destruct (group k d)). done.
        -- done.
      * rewrite !app_nil_r. rewrite K1. split; [done|]. intros _. exact K2.
Qed.

Lemma merge_loop_ok multi pol lt0 t0 (r0 : tbl) lr0 : forall rest d h t lt r kept fuel, length rest < fuel -> lr0 = d ++ rest ->
  both h t lt r (kept ++ rest) -> hd t = hd t0 -> hd r = hd r0 -> tmax r = tmax r0 -> merged multi lt0 d lt kept ->
  exists h' t' r' lt' lr', loop fuel (fun '(h, t, r, first) =>
    if decide (first = hd r) then Ok (inr (h, t, r))
    else
      let cand := first in
      first <~ N h first ;;
      v <~ Val h cand ;;
      let k := kfn v in let hv := hash k in
      '(before, dup) <~ Find_last kfn keq h t k hv ;;
      if negb multi && bool_decide (dup <> null) then Ok (inl (h, t, r, first))
      else
        '(h, t, re) <~ maybe_rehash kfn hash keq pol h t ;;
        '(before, _) <~ (if re : bool then Find_last kfn keq h t k hv else Ok (before, dup)) ;;
        r <~ Erase_bucket h r cand (Nat.land hv (tmask r)) ;;
        '(h, s) <~ Unlinknode h (tl r) cand ;;
        let r := set_l r s in
        '(h, t, _) <~ Insert_new_node_before h t hv before cand ;;
        Ok (inl (h, t, r, first))) (h, t, r, fst_of (hd r) rest) = Ok (h', t', r') /\
    both h' t' lt' r' lr' /\ hd t' = hd t0 /\ hd r' = hd r0 /\ tmax r' = tmax r0 /\ merged multi lt0 lr0 lt' lr' /\ frame h h' (area t0 lt0 r0 lr0).
Proof.
  induction rest as [|x rest IH]; intros d h t lt r kept fuel HF ED B Ht Hr Hm MG; (destruct fuel as [|fuel]; [lia|]);
    match goal with |- context [loop (S fuel) ?B _] => set (BB := B) end; rewrite loop_S; unfold BB at 1.
  - rewrite app_nil_r in *. cbn [fst_of]. rewrite decide_True by done. rewrite rbind_ok. exists h, t, r, lt, kept. subst d. split_and!; try done; apply B.
  - cbn [fst_of]. rewrite decide_False.
    2:{ destruct B as (_ & Wr & _). apply wf_iff in Wr as ([Rr _] & _). eapply ring_ptr_hd; [exact Rr|]. apply elem_of_app; right; left. }
    assert (PA : area t lt r (kept ++ x :: rest) ≡ₚ area t0 lt0 r0 lr0).
    { destruct MG as [MG _]. unfold area. rewrite Ht, Hr, ED. cbn [app]. apply perm_skip. etrans; [symmetry; apply Permutation_middle|]. etrans; [|apply Permutation_middle]. apply perm_skip.
      rewrite <- (fmap_app fst lt), <- (fmap_app fst lt0). apply fmap_Permutation. rewrite !app_assoc. by rewrite MG. }
    destruct (merge_step multi pol h t lt r kept x rest B) as [(-> & HG & E)|(HG & h' & t' & r' & lt' & E & B' & Ht' & Hr' & Hm' & P' & F')].
    + match type of E with ?X = _ => match goal with |- context [rbind ?Y _ = _] => change Y with X end end.
      rewrite E, rbind_ok. apply (IH (d ++ [x]) h t lt r (kept ++ [x]) fuel); try done; [cbn in HF; lia|by rewrite <- app_assoc|by rewrite <- app_assoc|by apply merged_skip].
    + match type of E with ?X = _ => match goal with |- context [rbind ?Y _ = _] => change Y with X end end.
      rewrite E, rbind_ok. destruct (IH (d ++ [x]) h' t' lt' r' kept fuel) as (h2 & t2 & r2 & lt2 & lr2 & E2 & B2 & X1 & X2 & X3 & X4 & X5); try done.
      * cbn in HF; lia.
      * by rewrite <- app_assoc.
      * congruence.
      * congruence.
      * congruence.
      * by eapply merged_move.
      * exists h2, t2, r2, lt2, lr2. rewrite Hr' in E2. split; [exact E2|]. split_and!; try done; try apply B2. eapply frame_trans; [|exact X5]. eapply frame_perm; [exact F'|exact PA].
Qed.
Lemma merge_ok multi pol h t lt r lr : both h t lt r lr ->
  exists h' t' r' lt' lr', merge_tbl kfn hash keq multi pol h t r = Ok (h', t', r') /\ both h' t' lt' r' lr' /\ hd t' = hd t /\ hd r' = hd r /\ tmax r' = tmax r /\
    merged multi lt lr lt' lr' /\ frame h h' (area t lt r lr).
Proof.
  intros B. unfold merge_tbl. pose proof B as (_ & Wr & _). apply wf_iff in Wr as ([Rr Sz] & _). rewrite (N_ok _ _ _ (ring_first _ _ _ Rr)), rbind_ok.
  apply (merge_loop_ok multi pol lt t r lr lr [] h t lt r [] (S (lsize (tl r)))); try done.
  - rewrite Sz. lia.
  - split; [done|]. split; [done|]. split; [done|]. intros k. split; [|by case_decide]. destruct multi; [by rewrite app_nil_r|]. case_decide as Q; [by rewrite Q|done].
Qed.
End merge.
