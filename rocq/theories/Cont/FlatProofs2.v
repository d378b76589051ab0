(** flat_map, flat_multimap: lookup, insertion, erasure *)
From stdpp Require Import base list numbers.
From Coq Require Import Lia.
From Verif Require Import Base.Res Base.Order Base.OrderLemmas Base.Arr Alg.SearchModel Cont.FlatModel Cont.FlatSpec Cont.FlatProofs.
Local Open Scope nat_scope.

Lemma wp_ins {A} (l : list A) i x (Q : list A -> Prop) : i <= length l -> Q (insert_at i x l) -> wp (ins l i x) Q.
Proof. intros Hi H. unfold ins. by rewrite decide_True. Qed.
Lemma wp_ers {A} (l : list A) i j (Q : list A -> Prop) : i <= j -> j <= length l -> Q (take i l ++ drop j l) -> wp (ers l i j) Q.
Proof. intros H1 H2 H. unfold ers. by rewrite decide_True. Qed.
Lemma insert_at_length {A} i (x : A) l : length (insert_at i x l) = S (length l).
Proof. unfold insert_at. rewrite app_length. cbn. rewrite take_length, drop_length. lia. Qed.
Lemma zip_insert_at {A B} i (x : A) (y : B) l m : length l = length m -> zip (insert_at i x l) (insert_at i y m) = insert_at i (x, y) (zip l m).
Proof.
  intros H. unfold insert_at. rewrite zip_with_app by (rewrite !take_length; lia). cbn. by rewrite <-zip_with_take, <-zip_with_drop.
Qed.
Lemma zip_erase {A B} i j (l : list A) (m : list B) : length l = length m -> zip (take i l ++ drop j l) (take i m ++ drop j m) = take i (zip l m) ++ drop j (zip l m).
Proof. intros H. rewrite zip_with_app by (rewrite !take_length; lia). by rewrite <-zip_with_take, <-zip_with_drop. Qed.

Section map.
  Context {K M : Type} (lt : K -> K -> bool) (SW : StrictWeakOrder lt) (uniq : bool) (cap : nat).
  Notation st := (fmap_ K M).
  Implicit Types s : st.
  Notation below := (below lt). Notation upto := (upto lt). Notation has := (has lt).
  Notation fok := (fok lt uniq).
  Lemma fok_sorted s : fok s -> sorted lt (ks s).
  Proof. intros [_ H]. by apply (ordered_sorted lt SW uniq). Qed.
  Lemma run_exact s i k m (Q : unit -> st -> Prop) : length (ks s) = length (vs s) -> i <= length (ks s) ->
    Q tt (FM (insert_at i k (ks s)) (insert_at i m (vs s))) -> run (Emplace_exact i k m) s Q (failed empty s).
  Proof.
    intros Hl Hi HQ. apply run_guarded; [|by right]. apply run_bind. apply run_mut; [|done]. apply wp_bind. apply wp_ins; [done|]. apply wp_ok.
    apply run_mut; [|done]. apply wp_bind. apply wp_ins; [cbn; lia|]. apply wp_ok. exact HQ.
  Qed.
  Lemma run_end_or s pos (c : K -> bool) (b : bool) (Q : bool -> st -> Prop) (E : st -> Prop) : pos <= length (ks s) ->
    (forall x, ks s !! pos = Some x -> c x = b) -> (pos = length (ks s) -> b = true) -> Q b s -> E s -> run (at_end_or pos c) s Q E.
  Proof.
    intros Hp H1 H2 HQ HE. apply run_peek; [|done]. unfold ksize. destruct (Nat.eqb_spec pos (length (ks s))) as [Ep|]; [rewrite (H2 Ep) in HQ; by apply wp_ok|].
    apply wp_bind. apply wp_rd_full'; [lia|]. intros x Hx. apply wp_ok. by rewrite (H1 x Hx).
  Qed.
  Lemma run_begin_or s pos (c : K -> bool) (b : bool) (Q : bool -> st -> Prop) (E : st -> Prop) : pos <= length (ks s) ->
    (forall x, 0 < pos -> ks s !! (pos - 1) = Some x -> c x = b) -> (pos = 0 -> b = true) -> Q b s -> E s -> run (at_begin_or pos c) s Q E.
  Proof.
    intros Hp H1 H2 HQ HE. apply run_peek; [|done]. destruct (Nat.eqb_spec pos 0) as [Ep|]; [rewrite (H2 Ep) in HQ; by apply wp_ok|].
    apply wp_bind. apply wp_rd_full'; [lia|]. intros x Hx. apply wp_ok. by rewrite (H1 x ltac:(lia) Hx).
  Qed.
  (** where a new key goes *)
  Definition inserted s (i : nat) (k : K) (m : M) (s' : st) : Prop := ks s' = insert_at i k (ks s) /\ vs s' = insert_at i m (vs s).
  Lemma inserted_fok s i k m s' : fok s -> (if uniq then i = upto k (ks s) /\ ~ has k (ks s) else below k (ks s) <= i <= upto k (ks s)) -> inserted s i k m s' -> fok s'.
  Proof.
    intros [Hl Ho] Hi [E1 E2]. split; [rewrite E1, E2, !insert_at_length; lia|]. rewrite E1. unfold ordered in *. destruct uniq.
    - destruct Hi as [-> Hn]. by apply insert_strictly.
    - by apply insert_sorted.
  Qed.
  Lemma inserted_entries s i k m s' : fok s -> inserted s i k m s' -> entries s' = insert_at i (k, m) (entries s).
  Proof. intros [Hl _] [E1 E2]. unfold entries. rewrite E1, E2. by apply zip_insert_at. Qed.
  Lemma has_dec s k : fok s -> {has k (ks s)} + {~ has k (ks s)}.
  Proof. intros H. destruct (decide (below k (ks s) < upto k (ks s))); [left|right]; rewrite has_iff by (try done; by apply fok_sorted); done. Qed.
  Lemma uniq_one s k : uniq = true -> fok s -> upto k (ks s) <= S (below k (ks s)).
  Proof. intros Hu [_ H]. rewrite Hu in H. by apply strictly_one. Qed.

  Lemma Try_emplace_ok s k m : fok s ->
    run (Try_emplace lt uniq k m) s
      (fun r s' => (uniq = true -> has k (ks s) -> r = (below k (ks s), false) /\ s' = s) /\
                   (uniq = false \/ ~ has k (ks s) -> r = (upto k (ks s), true) /\ inserted s (upto k (ks s)) k m s'))
      (failed empty s).
  Proof.
    intros Hok. pose proof (fok_sorted s Hok) as Hs. pose proof (upto_len lt (ks s) k) as Hu. pose proof (below_upto lt SW (ks s) k) as Hbu. unfold Try_emplace. apply run_bind. apply run_peek; [|by left].
    unfold ub, ksize. rewrite (upper_sub lt SW) by (done || lia). apply wp_ok. set (u := upto k (ks s)) in *. set (b := below k (ks s)) in *.
    assert (Hhas : has k (ks s) <-> b < u) by (by apply has_iff). assert (Hone : uniq = true -> u <= S b) by (intros; by apply uniq_one).
    apply run_bind. assert (HF : run (S := st) (if uniq && negb (u =? 0) then peek (fun s => x <~ key s (u - 1) ;; Ok (negb (lt x k))) else fret false) s
                       (fun f s' => s' = s /\ f = uniq && bool_decide (b < u)) (failed empty s)).
    { destruct uniq eqn:Eu; [|apply run_ret; done]. cbn [andb]. destruct (Nat.eqb_spec u 0) as [E0|]; cbn [negb].
      - apply run_ret. split; [done|]. symmetry. apply bool_decide_eq_false. lia.
      - apply run_peek; [|by left]. apply wp_bind. apply wp_rd_full'; [lia|]. intros x Hx. apply wp_ok. split; [done|]. rewrite (below_lt lt SW (ks s) k _ x Hs Hx). fold b.
        specialize (Hone eq_refl). destruct (decide (b < u)); repeat first [rewrite bool_decide_true by lia | rewrite bool_decide_false by lia]; done. }
    eapply run_mono; [exact HF| |done]. intros f s1 [-> Hf]. apply run_if; intros Ef.
    - rewrite Ef in Hf. symmetry in Hf. apply andb_true_iff in Hf as [Hun Hlt]. apply bool_decide_eq_true in Hlt. apply run_ret. split.
      + intros _ _. split; [|done]. f_equal. specialize (Hone Hun). lia.
      + intros [?|Hn]; [congruence|]. by rewrite Hhas in Hn.
    - apply run_bind. apply run_exact; [apply Hok|lia|]. apply run_ret. split.
      + intros Hun Hh. rewrite Ef, Hun in Hf. apply Hhas in Hh. rewrite bool_decide_true in Hf by done. done.
      + intros _. done.
  Qed.

  (** where a hinted insertion goes: as close as possible to the hint *)
  Definition hinted s (pos : nat) (k : K) : nat := Nat.max (below k (ks s)) (Nat.min pos (upto k (ks s))).
  Lemma run_assign s i m (Q : unit -> st -> Prop) (E : st -> Prop) : i < length (vs s) -> Q tt (FM (ks s) (<[i := m]> (vs s))) ->
    (forall v, E (FM (ks s) (<[i := v]> (vs s)))) -> E s -> run (assign i m) s Q E.
  Proof.
    intros Hi HQ HE HEs o. unfold assign. rewrite decide_True by done. destruct o as [|[g|] o]; cbn [tick].
    - eexists _, _, _. split; [done|]. split; [eauto|done].
    - eexists _, _, _. split; [done|]. split; [done|]. destruct (vs g); [|done]. by destruct s.
    - eexists _, _, _. split; [done|]. split; [done|done].
  Qed.
  (** an exception leaves the object as it was, empty, or (from an assignment to the mapped value of an existing key) with that value changed *)
  Definition afailed (k : K) s (s' : st) : Prop := failed empty s s' \/ has k (ks s) /\ exists v, s' = FM (ks s) (<[below k (ks s) := v]> (vs s)).
  Lemma Emplace_hint_ok ov s pos k m : fok s -> pos <= length (ks s) ->
    run (Emplace_hint lt uniq ov pos k m) s
      (fun r s' => (uniq = true -> has k (ks s) -> r = below k (ks s) /\ s' = if ov then FM (ks s) (<[r := m]> (vs s)) else s) /\
                   (uniq = false \/ ~ has k (ks s) -> r = hinted s pos k /\ inserted s r k m s'))
      (if ov then afailed k s else failed empty s).
  Proof.
    intros Hok Hpos. pose proof (fok_sorted s Hok) as Hs. pose proof (upto_len lt (ks s) k) as Hu. pose proof (below_upto lt SW (ks s) k) as Hbu.
    assert (Hhas : has k (ks s) <-> below k (ks s) < upto k (ks s)) by (by apply has_iff). pose proof Hok as [Hl _].
    assert (Hone : uniq = true -> upto k (ks s) <= S (below k (ks s))) by (intros; by apply uniq_one).
    assert (HE : forall s', failed empty s s' -> (if ov then afailed k s else failed empty s) s') by (intros; destruct ov; [by left|done]).
    assert (HEs : (if ov then afailed k s else failed empty s) s) by (apply HE; by left).
    unfold Emplace_hint. apply run_bind. set (u := upto k (ks s)) in *. set (b := below k (ks s)) in *.
    assert (Hh : run (S := st) (if uniq
           then c <-- at_end_or pos (fun x => lt k x) ;;
                if c then d <-- at_begin_or pos (fun x => lt x k) ;; fret (if d then Eq else Gt) else fret Lt
           else c <-- at_end_or pos (fun x => negb (lt x k)) ;;
                if c then d <-- at_begin_or pos (fun x => negb (lt k x)) ;; fret (if d then Eq else Gt) else fret Lt) s
       (fun h s' => s' = s /\ match h with Eq => b <= pos <= u /\ (uniq = true -> b = u) | Lt => pos < (if uniq then u else b) | Gt => u <= pos /\ (uniq = false -> u < pos) end) (failed empty s)).
    { destruct uniq; apply run_bind.
      - apply (run_end_or s pos _ (bool_decide (u <= pos))); [done| | | |by left].
        + intros x Hx. rewrite (upto_lt lt SW (ks s) k pos x Hs Hx). fold u. destruct (decide (pos < u)); [rewrite bool_decide_true, bool_decide_false by lia|rewrite bool_decide_false, bool_decide_true by lia]; done.
        + intros ->. apply bool_decide_eq_true. lia.
        + apply run_if; intros H; [apply bool_decide_eq_true in H|apply bool_decide_eq_false in H; apply run_ret; split; [done|lia]].
          apply run_bind. apply (run_begin_or s pos _ (bool_decide (pos <= b))); [done| | | |by left].
          * intros x Hp Hx. rewrite (below_lt lt SW (ks s) k _ x Hs Hx). fold b. apply bool_decide_ext. lia.
          * intros ->. apply bool_decide_eq_true. lia.
          * apply run_ret. split; [done|]. destruct (bool_decide (pos <= b)) eqn:Ed; [apply bool_decide_eq_true in Ed|apply bool_decide_eq_false in Ed]; (split; [lia|]); [lia|done].
      - apply (run_end_or s pos _ (bool_decide (b <= pos))); [done| | | |by left].
        + intros x Hx. rewrite (below_lt lt SW (ks s) k pos x Hs Hx). fold b. destruct (decide (pos < b)); [rewrite bool_decide_true, bool_decide_false by lia|rewrite bool_decide_false, bool_decide_true by lia]; done.
        + intros ->. apply bool_decide_eq_true. lia.
        + apply run_if; intros H; [apply bool_decide_eq_true in H|apply bool_decide_eq_false in H; apply run_ret; split; [done|lia]].
          apply run_bind. apply (run_begin_or s pos _ (bool_decide (pos <= u))); [done| | | |by left].
          * intros x Hp Hx. rewrite (upto_lt lt SW (ks s) k _ x Hs Hx), negb_involutive. fold u. apply bool_decide_ext. lia.
          * intros ->. apply bool_decide_eq_true. lia.
          * apply run_ret. split; [done|]. destruct (bool_decide (pos <= u)) eqn:Ed; [apply bool_decide_eq_true in Ed|apply bool_decide_eq_false in Ed]; (split; [lia|]); [done|lia]. }
    eapply run_mono; [exact Hh| |exact HE]. intros h s1 [-> Hcase]. clear Hh.
    apply run_bind. assert (Hnp : run (S := st) match h with Eq => fret pos | Lt => peek (fun s => lb lt s pos (ksize s) k) | Gt => peek (fun s => ub lt s 0 pos k) end s
       (fun np s' => s' = s /\ np = match h with Eq => pos | Lt => b | Gt => u end) (failed empty s)).
    { destruct h.
      - by apply run_ret.
      - apply run_peek; [|by left]. unfold lb, ksize. rewrite (lower_sub lt SW); [by apply wp_ok|done| |done]. fold b. destruct uniq; [specialize (Hone eq_refl)|]; lia.
      - apply run_peek; [|by left]. unfold ub. rewrite (upper_sub lt SW); [by apply wp_ok|done| |done]. fold u. lia. }
    eapply run_mono; [exact Hnp| |exact HE]. intros np s1 [-> Enp]. clear Hnp.
    apply run_bind. assert (Hd : run (S := st) (if uniq then
               match h with
               | Lt => peek (fun s => if (np =? ksize s)%nat then Ok None else x <~ key s np ;; Ok (if lt k x then None else Some np))
               | Gt => peek (fun s => if (np =? 0)%nat then Ok None else x <~ key s (np - 1) ;; Ok (if lt x k then None else Some (np - 1)%nat))
               | Eq => fret None
               end
             else fret None) s (fun d s' => s' = s /\ d = if uniq && bool_decide (b < u) then Some b else None) (failed empty s)).
    { destruct uniq; [|by apply run_ret]. specialize (Hone eq_refl). cbn [andb]. destruct h.
      - destruct Hcase as [Hc1 Hc2]. specialize (Hc2 eq_refl). apply run_ret. rewrite bool_decide_false by lia. done.
      - apply run_peek; [|by left]. unfold ksize. destruct (Nat.eqb_spec np (length (ks s))); [apply wp_ok; rewrite bool_decide_false by lia; done|].
        apply wp_bind. apply wp_rd_full'; [lia|]. intros x Hx. apply wp_ok. split; [done|]. rewrite (upto_lt lt SW (ks s) k np x Hs Hx). fold u. subst np. by destruct (bool_decide (b < u)).
      - apply run_peek; [|by left]. destruct (Nat.eqb_spec np 0); [apply wp_ok; rewrite bool_decide_false by lia; done|].
        apply wp_bind. apply wp_rd_full'; [lia|]. intros x Hx. apply wp_ok. split; [done|]. rewrite (below_lt lt SW (ks s) k (np - 1) x Hs Hx). fold b.
        destruct (decide (b < u)); [rewrite bool_decide_false, bool_decide_true by lia; f_equal; lia|rewrite bool_decide_true, bool_decide_false by lia; done]. }
    eapply run_mono; [exact Hd| |exact HE]. intros d s1 [-> Ed]. clear Hd.
    destruct (uniq && bool_decide (b < u)) eqn:Eh; subst d.
    - apply andb_true_iff in Eh as [Hun Hlt]. apply bool_decide_eq_true in Hlt.
      assert (Hno : uniq = false \/ ~ has k (ks s) -> False) by (intros [?|Hn]; [congruence|]; apply Hn, Hhas, Hlt).
      destruct ov.
      + apply run_bind. apply run_assign; [lia| | |done].
        * apply run_ret. split; [done|]. intros H. by apply Hno in H.
        * intros v. right. split; [by apply Hhas|]. by exists v.
      + apply run_ret. split; [done|]. intros H. by apply Hno in H.
    - apply run_bind. eapply run_mono; [apply run_exact; [done| |]| |exact HE].
      + destruct h; lia.
      + instantiate (1 := fun _ s' => inserted s np k m s'). done.
      + intros ? s' Hins. apply run_ret. split.
        * intros Hun Hh. apply Hhas in Hh. rewrite Hun, bool_decide_true in Eh by done. done.
        * intros Hc. split; [|done]. unfold hinted. fold b u. destruct uniq.
          -- cbn [andb] in Eh. apply bool_decide_eq_false in Eh. destruct h; lia.
          -- destruct h; lia.
  Qed.
  Lemma Insert_or_assign_ok s k m : uniq = true -> fok s ->
    run (Insert_or_assign lt uniq k m) s
      (fun r s' => (has k (ks s) -> r = (below k (ks s), false) /\ s' = FM (ks s) (<[below k (ks s) := m]> (vs s))) /\
                   (~ has k (ks s) -> r = (upto k (ks s), true) /\ inserted s (upto k (ks s)) k m s'))
      (afailed k s).
  Proof.
    intros Hun Hok. unfold Insert_or_assign. apply run_bind. eapply run_mono; [by apply Try_emplace_ok| |intros; by left]. intros [i f] s' [H1 H2]. cbn [fst snd].
    pose proof (fok_sorted s Hok) as Hs. destruct (has_dec s k Hok) as [Hh|Hn].
    - destruct (H1 Hun Hh) as [[= -> ->] ->]. rewrite has_iff in Hh by done. pose proof (upto_len lt (ks s) k). destruct Hok as [Hl _].
      apply run_bind. apply run_assign; [lia| | |left; by left].
      + apply run_ret. split; [done|]. intros Hn. exfalso. apply Hn. by rewrite has_iff.
      + intros v. right. split; [by rewrite has_iff|]. by exists v.
    - destruct (H2 (or_intror Hn)) as [[= -> ->] Hins]. apply run_ret. done.
  Qed.
  Lemma run_erase_range s i j (Q : nat -> st -> Prop) : length (ks s) = length (vs s) -> i <= j -> j <= length (ks s) ->
    Q i (FM (take i (ks s) ++ drop j (ks s)) (take i (vs s) ++ drop j (vs s))) -> run (erase_range i j) s Q (failed empty s).
  Proof.
    intros Hl Hi Hj HQ. apply run_guarded; [|by right]. apply run_bind. apply run_mut; [|done]. apply wp_bind. apply wp_ers; [done|done|]. apply wp_ok.
    apply run_bind. apply run_mut; [|done]. apply wp_bind. apply wp_ers; [done|cbn; lia|]. apply wp_ok. by apply run_ret.
  Qed.
  Lemma Equal_range_ok s k (Q : nat * nat -> st -> Prop) (E : st -> Prop) : fok s -> E s -> Q (below k (ks s), upto k (ks s)) s -> run (Equal_range lt uniq k) s Q E.
  Proof.
    intros Hok HE HQ. pose proof (fok_sorted s Hok) as Hs. pose proof (upto_len lt (ks s) k) as Hu. pose proof (below_upto lt SW (ks s) k) as Hbu. pose proof (fun H => uniq_one s k H Hok) as Hone0. unfold Equal_range. destruct uniq eqn:Eu.
    - pose proof (Hone0 eq_refl) as Hone. apply run_bind. apply run_peek; [|done]. unfold lb, ksize. rewrite (lower_sub lt SW) by (done || lia). apply wp_ok.
      apply run_bind. apply run_peek; [|done]. unfold ksize. destruct (Nat.eqb_spec (below k (ks s)) (length (ks s))).
      + apply wp_ok. apply run_ret. assert (upto k (ks s) = below k (ks s)) as E1 by lia. by rewrite E1 in HQ.
      + apply wp_bind. apply wp_rd_full'; [lia|]. intros x Hx. apply wp_ok. apply run_ret. rewrite (upto_lt lt SW (ks s) k _ x Hs Hx). destruct (decide (below k (ks s) < upto k (ks s))).
        * rewrite bool_decide_true by done. cbn [negb]. by replace (S (below k (ks s))) with (upto k (ks s)) by lia.
        * rewrite bool_decide_false by done. cbn [negb]. assert (upto k (ks s) = below k (ks s)) as E1 by lia. by rewrite E1 in HQ.
    - apply run_peek; [|done]. unfold ksize. rewrite (equal_all lt SW) by done. by apply wp_ok.
  Qed.
  Lemma Erase_key_ok s k : fok s ->
    run (Erase_key lt uniq k) s
      (fun n s' => n = equivs lt k (ks s) /\ ks s' = take (below k (ks s)) (ks s) ++ drop (upto k (ks s)) (ks s) /\
                   vs s' = take (below k (ks s)) (vs s) ++ drop (upto k (ks s)) (vs s))
      (failed empty s).
  Proof.
    intros Hok. pose proof (upto_len lt (ks s) k) as Hu. pose proof (below_upto lt SW (ks s) k) as Hbu. pose proof (equivs_diff lt SW (ks s) k). destruct Hok as [Hl Ho]. unfold Erase_key. apply run_bind. apply Equal_range_ok; [done|by left|]. cbn [fst snd].
    apply run_bind. apply run_erase_range; [done|done|done|]. apply run_ret. cbn [ks vs]. split; [lia|done].
  Qed.
  Lemma Find_ok s k (Q : nat -> st -> Prop) (E : st -> Prop) : fok s -> E s ->
    (has k (ks s) -> Q (below k (ks s)) s) -> (~ has k (ks s) -> Q (length (ks s)) s) -> run (Find lt k) s Q E.
  Proof.
    intros Hok HE H1 H2. pose proof (fok_sorted s Hok) as Hs. pose proof (upto_len lt (ks s) k) as Hu. pose proof (below_upto lt SW (ks s) k) as Hbu. rewrite has_iff in H1, H2 by done.
    unfold Find. apply run_bind. apply run_peek; [|done]. unfold lb, ksize. rewrite (lower_sub lt SW) by (done || lia). apply wp_ok.
    apply run_peek; [|done]. unfold ksize. destruct (Nat.eqb_spec (below k (ks s)) (length (ks s))); [apply wp_ok, H2; lia|].
    apply wp_bind. apply wp_rd_full'; [lia|]. intros x Hx. apply wp_ok. rewrite (upto_lt lt SW (ks s) k _ x Hs Hx). destruct (decide (below k (ks s) < upto k (ks s))).
    - rewrite bool_decide_true by done. by apply H1.
    - rewrite bool_decide_false by done. by apply H2.
  Qed.
  Lemma Contains_ok s k (Q : bool -> st -> Prop) (E : st -> Prop) : fok s -> E s -> (forall b, (b = true <-> has k (ks s)) -> Q b s) -> run (Contains lt k) s Q E.
  Proof.
    intros Hok HE H. apply run_peek; [|done]. destruct (binary_all lt SW (ks s) k (fok_sorted s Hok)) as (b & E1 & Hb). unfold ksize. rewrite E1. apply wp_ok. by apply H.
  Qed.
  Lemma Count_ok s k (Q : nat -> st -> Prop) (E : st -> Prop) : fok s -> E s -> Q (equivs lt k (ks s)) s -> run (Count lt uniq k) s Q E.
  Proof.
    intros Hok HE HQ. pose proof (fok_sorted s Hok) as Hs. pose proof (below_upto lt SW (ks s) k). pose proof (equivs_diff lt SW (ks s) k). pose proof (fun H => uniq_one s k H Hok) as Hone0. pose proof (Contains_ok s k) as HC. unfold Count. destruct uniq eqn:Eu.
    - pose proof (Hone0 eq_refl) as Hone. apply run_bind. apply HC; [done|done|]. intros b Hb. apply run_ret. rewrite has_iff in Hb by done.
      destruct b; [assert (equivs lt k (ks s) = 1) as E1 by (destruct Hb as [Hb _]; specialize (Hb eq_refl); lia)|assert (equivs lt k (ks s) = 0) as E1]; try (by rewrite E1 in HQ).
      destruct (decide (below k (ks s) < upto k (ks s))) as [Hc|]; [by apply Hb in Hc|lia].
    - apply run_bind. apply run_peek; [|done]. unfold ksize. rewrite (equal_all lt SW) by done. apply wp_ok. apply run_ret. cbn [fst snd]. by replace (upto k (ks s) - below k (ks s)) with (equivs lt k (ks s)) by lia.
  Qed.
  Lemma bounds_ok s k (Q : nat -> st -> Prop) (E : st -> Prop) : fok s -> E s ->
    (Q (below k (ks s)) s -> run (Lower_bound lt k) s Q E) /\ (Q (upto k (ks s)) s -> run (Upper_bound lt k) s Q E).
  Proof.
    intros Hok HE. pose proof (fok_sorted s Hok) as Hs. pose proof (upto_len lt (ks s) k). pose proof (below_upto lt SW (ks s) k). split; intros HQ; (apply run_peek; [|done]); unfold lb, ub, ksize.
    - rewrite (lower_sub lt SW) by (done || lia). by apply wp_ok.
    - rewrite (upper_sub lt SW) by (done || lia). by apply wp_ok.
  Qed.
  Lemma At_ok s k (Q : option M -> st -> Prop) (E : st -> Prop) : fok s -> E s ->
    (has k (ks s) -> forall v, vs s !! below k (ks s) = Some v -> Q (Some v) s) -> (~ has k (ks s) -> Q None s) -> run (At lt k) s Q E.
  Proof.
    intros Hok HE H1 H2. pose proof Hok as [Hl _]. pose proof (fok_sorted s Hok) as Hs. unfold At. apply run_bind. apply Find_ok; [done|done| |].
    - intros Hh. apply run_peek; [|done]. pose proof Hh as Hlt. rewrite has_iff in Hlt by done. pose proof (upto_len lt (ks s) k). unfold ksize. destruct (Nat.eqb_spec (below k (ks s)) (length (ks s))); [lia|].
      apply wp_bind. apply wp_rd_full'; [lia|]. intros v Hv. apply wp_ok. by apply H1.
    - intros Hn. apply run_peek; [|done]. unfold ksize. rewrite Nat.eqb_refl. apply wp_ok. by apply H2.
  Qed.
End map.
