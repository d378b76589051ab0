(** Knuth's algorithm D over digit arrays of any length. *)
From stdpp Require Import base numbers list.
From Coq Require Import ZArith Lia.
From Verif Require Import Base.Res Base.Arr Base.Int Num.BitModel Num.BitSpec Num.BitProofs Cont.BitsetModel Cont.BitsetProofs
  Num.Int128Model Num.Int128Spec Num.Int128Proofs.
Open Scope Z_scope.
Ltac Zify.zify_post_hook ::= idtac.

Notation dig := (digits (2 ^ 32)).
Definition okd (d : Z) : Prop := 0 <= d < 2 ^ 32.
Definition bp (n : nat) : Z := (2 ^ 32) ^ Z.of_nat n.
Lemma bp_0 : bp 0 = 1. Proof. reflexivity. Qed.
Lemma bp_S n : bp (S n) = 2 ^ 32 * bp n.
Proof. unfold bp. rewrite Nat2Z.inj_succ, Z.pow_succ_r by lia. done. Qed.
Lemma bp_pos n : 0 < bp n. Proof. unfold bp. apply Z.pow_pos_nonneg; lia. Qed.
Lemma bp_add n m : bp (n + m) = bp n * bp m.
Proof. unfold bp. rewrite Nat2Z.inj_add, Z.pow_add_r by lia. done. Qed.
Lemma dig_app l1 l2 : dig (l1 ++ l2) = dig l1 + bp (length l1) * dig l2.
Proof.
  induction l1 as [|d l1 IH]; [rewrite nil_length, bp_0; cbn [digits app]; lia|].
  change ((d :: l1) ++ l2) with (d :: (l1 ++ l2)). cbn [digits length]. rewrite IH, bp_S. ring.
Qed.
Lemma dig_range l : Forall okd l -> 0 <= dig l < bp (length l).
Proof.
  induction 1 as [|d l Hd Hl IH]; [rewrite nil_length, bp_0; cbn [digits]; lia|].
  cbn [digits length]. rewrite bp_S. unfold okd in Hd. lia.
Qed.
Lemma dig_zeros n : dig (replicate n 0) = 0.
Proof. induction n as [|n IH]; [done|]. cbn [replicate digits]. rewrite IH. done. Qed.

Lemma rd_full (l1 : list Z) x l2 i : i = length l1 -> rd (full (l1 ++ x :: l2)) i = Ok x.
Proof. intros ->. unfold rd. rewrite full_lookup. by rewrite list_lookup_middle. Qed.
Lemma wr_full l1 x l2 i (y : Z) : i = length l1 -> wr (full (l1 ++ x :: l2)) i y = Ok (full (l1 ++ y :: l2)).
Proof.
  intros ->. unfold wr. rewrite full_length, app_length. cbn [length]. rewrite decide_True by lia.
  rewrite full_insert. f_equal. f_equal. rewrite insert_app_r_alt by lia. by rewrite Nat.sub_diag.
Qed.

(** multiply and subtract *)
Lemma mulsub_loop (j : nat) (low hi : list Z) (qhat : Z) (vx : list Z) :
  length low = j -> 0 <= qhat < 2 ^ 32 ->
  forall vl mu vpre done k, length vl = length mu -> length vpre = length done ->
  Forall okd vl -> Forall okd mu -> 0 <= k < 2 ^ 32 ->
  exists mu' k',
    fup (length vl) (length done) (fun i '(u, k) =>
      vi <~ rd (full (vpre ++ vl ++ vx)) i ;;
      let prod := w64 (w32 qhat * vi) in
      ui <~ rd u (i + j)%nat ;;
      t <~ arith s64 (ui - k) ;;
      t <~ arith s64 (t - w32 prod) ;;
      u <~ wr u (i + j)%nat (w32 t) ;;
      ph <~ shr u64 prod 32 ;;
      th <~ shr s64 t 32 ;;
      k <~ arith s64 (cast s64 ph - th) ;;
      Ok (u, k)) (full (low ++ done ++ mu ++ hi), k) = Ok (full (low ++ done ++ mu' ++ hi), k') /\
    length mu' = length mu /\ Forall okd mu' /\ 0 <= k' < 2 ^ 32 /\
    dig mu' - k' * bp (length mu) = dig mu - qhat * dig vl - k.
Proof.
  intros Hj Hq. induction vl as [|v vl IH]; intros mu vpre done k Hl1 Hl2 Hv Hm Hk.
  { destruct mu; [|done]. exists [], k. cbn [fup length digits]. rewrite bp_0. split_and!; try done; lia. }
  destruct mu as [|x mu]; [done|]. injection Hl1 as Hl1.
  apply list.Forall_cons in Hv as [Hv0 Hv]. apply list.Forall_cons in Hm as [Hx Hm]. unfold okd in Hv0, Hx.
  match goal with |- context [fup _ _ ?f _] => set (F := f) end. cbn [length fup]. unfold F at 1.
  rewrite (rd_full vpre v (vl ++ vx)) by done. rewrite rbind_ok. cbv zeta.
  rewrite (w32_id qhat) by done. pose proof (mul_range qhat v _ _ Hq Hv0) as Hp.
  rewrite (w64_id (qhat * v)) by lia. set (p := qhat * v) in *.
  replace (low ++ done ++ (x :: mu) ++ hi) with ((low ++ done) ++ x :: (mu ++ hi)) by (rewrite <-app_assoc; done).
  rewrite rd_full by (rewrite app_length; lia). rewrite rbind_ok.
  pose proof (w32_range p) as Hpl. assert (Hph : 0 <= p / 2 ^ 32 < 2 ^ 32).
  { split; [apply Z.div_pos; lia|]. apply Z.div_lt_upper_bound; lia. }
  rewrite arith_s64 by lia. rewrite rbind_ok. rewrite arith_s64 by lia. rewrite rbind_ok.
  rewrite wr_full by (rewrite app_length; lia). rewrite rbind_ok. rewrite shr64 by lia. rewrite rbind_ok.
  rewrite shrs64 by lia. rewrite rbind_ok. rewrite cast_s64_id by lia.
  set (t := x - k - w32 p) in *.
  pose proof (split_word t (2 ^ 32) ltac:(lia)) as Et. pose proof (Z.mod_pos_bound t (2 ^ 32) ltac:(lia)) as Ht.
  pose proof (split_word p (2 ^ 32) ltac:(lia)) as Ep. rewrite <-w32_mod in Ep.
  assert (Hk' : 0 <= p / 2 ^ 32 - t / 2 ^ 32 < 2 ^ 32) by lia.
  rewrite arith_s64 by lia. rewrite rbind_ok. rewrite (w32_mod t).
  edestruct (IH mu (vpre ++ [v]) (done ++ [t mod 2 ^ 32]) (p / 2 ^ 32 - t / 2 ^ 32)) as (mu' & k' & E & H1 & H2 & H3 & H4); try done.
  { rewrite !app_length. cbn [length]. lia. }
  exists (t mod 2 ^ 32 :: mu'), k'. split_and!.
  - replace (length (done ++ [t mod 2 ^ 32])) with (S (length done)) in E by (rewrite app_length; cbn [length]; lia).
    replace ((vpre ++ [v]) ++ vl ++ vx) with (vpre ++ (v :: vl) ++ vx) in E by (by rewrite <-(app_assoc vpre)).
    replace (low ++ (done ++ [t mod 2 ^ 32]) ++ mu ++ hi) with ((low ++ done) ++ t mod 2 ^ 32 :: mu ++ hi) in E by (by rewrite <-!app_assoc).
    replace (low ++ (done ++ [t mod 2 ^ 32]) ++ mu' ++ hi) with (low ++ done ++ (t mod 2 ^ 32 :: mu') ++ hi) in E by (by rewrite <-!app_assoc).
    exact E.
  - cbn [length]. lia.
  - apply list.Forall_cons. done.
  - lia.
  - lia.
  - cbn [digits length]. rewrite bp_S. cbn [digits].
    assert (dig mu' = dig mu - qhat * dig vl - (p / 2 ^ 32 - t / 2 ^ 32) + k' * bp (length mu)) as -> by lia.
    assert (Ev : p = qhat * v) by done. assert (Et' : x - k - w32 p = 2 ^ 32 * (t / 2 ^ 32) + t mod 2 ^ 32) by exact Et.
    clear - Ev Et' Ep. clearbody p t. lia.
Qed.

Lemma mulsub_ok (j n : nat) (low mid hi vl vx : list Z) (top qhat : Z) :
  length low = j -> length mid = n -> length vl = n -> 0 <= qhat < 2 ^ 32 ->
  Forall okd vl -> Forall okd mid -> okd top ->
  exists mid' t,
    knuth_mulsub (full (low ++ (mid ++ [top]) ++ hi)) (full (vl ++ vx)) j n qhat =
      Ok (full (low ++ (mid' ++ [t mod 2 ^ 32]) ++ hi), t) /\
    length mid' = n /\ Forall okd mid' /\ - 2 ^ 32 < t < 2 ^ 32 /\
    dig mid' + bp n * t = dig mid + bp n * top - qhat * dig vl.
Proof.
  intros Hj Hn Hvl Hq Hv Hm Ht. unfold knuth_mulsub. unfold okd in Ht.
  destruct (mulsub_loop j low ([top] ++ hi) qhat vx Hj Hq vl mid [] [] 0 ltac:(lia) eq_refl Hv Hm ltac:(lia))
    as (mu' & k' & E & H1 & H2 & H3 & H4).
  cbn [app length] in E. rewrite Hvl in E. rewrite <-!app_assoc. cbn [app]. rewrite E, rbind_ok.
  rewrite app_assoc. rewrite rd_full by (rewrite app_length; lia). rewrite rbind_ok.
  rewrite arith_s64 by lia. rewrite rbind_ok. rewrite wr_full by (rewrite app_length; lia). rewrite rbind_ok.
  exists mu', (top - k'). rewrite <-!app_assoc. cbn [app]. split_and!; try done; try lia.
  rewrite Hn in H4. lia.
Qed.

(** add back *)
Lemma addback_loop (j : nat) (low hi : list Z) (vx : list Z) :
  length low = j ->
  forall vl mu vpre done k, length vl = length mu -> length vpre = length done ->
  Forall okd vl -> Forall okd mu -> 0 <= k <= 1 ->
  exists mu' k',
    fup (length vl) (length done) (fun i '(u, k) =>
      ui <~ rd u (i + j)%nat ;; vi <~ rd (full (vpre ++ vl ++ vx)) i ;;
      t <~ arith s64 (ui + k) ;;
      t <~ arith s64 (t + vi) ;;
      u <~ wr u (i + j)%nat (w32 t) ;;
      k <~ shr s64 t 32 ;;
      Ok (u, k)) (full (low ++ done ++ mu ++ hi), k) = Ok (full (low ++ done ++ mu' ++ hi), k') /\
    length mu' = length mu /\ Forall okd mu' /\ 0 <= k' <= 1 /\
    dig mu' + k' * bp (length mu) = dig mu + dig vl + k.
Proof.
  intros Hj. induction vl as [|v vl IH]; intros mu vpre done k Hl1 Hl2 Hv Hm Hk.
  { destruct mu; [|done]. exists [], k. cbn [fup length digits]. rewrite bp_0. split_and!; try done; lia. }
  destruct mu as [|x mu]; [done|]. injection Hl1 as Hl1.
  apply list.Forall_cons in Hv as [Hv0 Hv]. apply list.Forall_cons in Hm as [Hx Hm]. unfold okd in Hv0, Hx.
  match goal with |- context [fup _ _ ?f _] => set (F := f) end. cbn [length fup]. unfold F at 1.
  replace (low ++ done ++ (x :: mu) ++ hi) with ((low ++ done) ++ x :: (mu ++ hi)) by (rewrite <-app_assoc; done).
  rewrite rd_full by (rewrite app_length; lia). rewrite rbind_ok.
  rewrite (rd_full vpre v (vl ++ vx)) by done. rewrite rbind_ok.
  rewrite arith_s64 by lia. rewrite rbind_ok. rewrite arith_s64 by lia. rewrite rbind_ok.
  rewrite wr_full by (rewrite app_length; lia). rewrite rbind_ok.
  rewrite shrs64 by lia. rewrite rbind_ok.
  set (t := x + k + v) in *.
  pose proof (split_word t (2 ^ 32) ltac:(lia)) as Et. pose proof (Z.mod_pos_bound t (2 ^ 32) ltac:(lia)) as Ht.
  assert (Hk' : 0 <= t / 2 ^ 32 <= 1) by lia. rewrite (w32_mod t).
  edestruct (IH mu (vpre ++ [v]) (done ++ [t mod 2 ^ 32]) (t / 2 ^ 32)) as (mu' & k' & E & H1 & H2 & H3 & H4); try done.
  { rewrite !app_length. cbn [length]. lia. }
  exists (t mod 2 ^ 32 :: mu'), k'. split_and!.
  - replace (length (done ++ [t mod 2 ^ 32])) with (S (length done)) in E by (rewrite app_length; cbn [length]; lia).
    replace ((vpre ++ [v]) ++ vl ++ vx) with (vpre ++ (v :: vl) ++ vx) in E by (by rewrite <-(app_assoc vpre)).
    replace (low ++ (done ++ [t mod 2 ^ 32]) ++ mu ++ hi) with ((low ++ done) ++ t mod 2 ^ 32 :: mu ++ hi) in E by (by rewrite <-!app_assoc).
    replace (low ++ (done ++ [t mod 2 ^ 32]) ++ mu' ++ hi) with (low ++ done ++ (t mod 2 ^ 32 :: mu') ++ hi) in E by (by rewrite <-!app_assoc).
    exact E.
  - cbn [length]. lia.
  - apply list.Forall_cons. done.
  - lia.
  - lia.
  - cbn [digits length]. rewrite bp_S. cbn [digits].
    assert (Et' : x + k + v = 2 ^ 32 * (t / 2 ^ 32) + t mod 2 ^ 32) by exact Et. clear - Et' H4. clearbody t. lia.
Qed.

Lemma addback_ok (j n : nat) (low mid hi vl vx : list Z) (top : Z) :
  length low = j -> length mid = n -> length vl = n ->
  Forall okd vl -> Forall okd mid -> okd top ->
  exists mid' top',
    knuth_addback (full (low ++ (mid ++ [top]) ++ hi)) (full (vl ++ vx)) j n =
      Ok (full (low ++ (mid' ++ [top']) ++ hi)) /\
    length mid' = n /\ Forall okd mid' /\ okd top' /\
    exists c, dig mid' + bp n * top' = dig mid + bp n * top + dig vl - c * bp (S n) /\ 0 <= c <= 1.
Proof.
  intros Hj Hn Hvl Hv Hm Ht. unfold knuth_addback. unfold okd in Ht.
  destruct (addback_loop j low ([top] ++ hi) vx Hj vl mid [] [] 0 ltac:(lia) eq_refl Hv Hm ltac:(lia))
    as (mu' & k' & E & H1 & H2 & H3 & H4).
  cbn [app length] in E. rewrite Hvl in E. rewrite <-!app_assoc. cbn [app]. rewrite E, rbind_ok.
  rewrite app_assoc. rewrite rd_full by (rewrite app_length; lia). rewrite rbind_ok.
  rewrite cast_s32 by lia. rewrite wr_full by (rewrite app_length; lia).
  exists mu', (w32 (top + k')). rewrite <-!app_assoc. cbn [app]. split_and!; try done; try lia.
  { apply w32_range. }
  rewrite w32_mod. pose proof (split_word (top + k') (2 ^ 32) ltac:(lia)) as Et.
  pose proof (Z.mod_pos_bound (top + k') (2 ^ 32) ltac:(lia)) as Hmm.
  exists ((top + k') / 2 ^ 32). rewrite bp_S. rewrite Hn in H4. split; [|lia].
  assert ((top + k') mod 2 ^ 32 = top + k' - 2 ^ 32 * ((top + k') / 2 ^ 32)) as -> by lia. lia.
Qed.
