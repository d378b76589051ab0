(** Knuth's algorithm D: the quotient estimate and the whole division. *)
From stdpp Require Import base numbers list.
From Coq Require Import ZArith Lia.
From Verif Require Import Base.Res Base.Arr Base.Int Num.BitModel Num.BitSpec Num.BitProofs Cont.BitsetModel Cont.BitsetProofs
  Num.Int128Model Num.Int128Spec Num.Int128Proofs Num.Int128Proofs2.
Open Scope Z_scope.
Ltac Zify.zify_post_hook ::= idtac.

Lemma div32_zero x : 0 <= x < 2 ^ 64 -> x / 2 ^ 32 <> 0 <-> 2 ^ 32 <= x.
Proof.
  intros Hx. destruct (Z.lt_ge_cases x (2 ^ 32)) as [H|H].
  - rewrite Z.div_small by lia. lia.
  - assert (1 <= x / 2 ^ 32) by (apply Z.div_le_lower_bound; lia). lia.
Qed.

Lemma qhat_ok (j n : nat) (low m0 hi v0l vx : list Z) (top ul u2 v1 v2 : Z) :
  length low = j -> length m0 = n -> length v0l = n ->
  Forall okd v0l -> Forall okd m0 -> okd top -> okd ul -> okd u2 -> okd v1 -> okd v2 -> 2 ^ 31 <= v1 ->
  let mid := m0 ++ [u2; ul] in
  let vl := v0l ++ [v2; v1] in
  let U := dig (mid ++ [top]) in
  let V := dig vl in
  U < V * 2 ^ 32 ->
  exists qhat, knuth_qhat (full (low ++ (mid ++ [top]) ++ hi)) (full (vl ++ vx)) j (n + 2) = Ok qhat /\
    0 <= qhat < 2 ^ 32 /\ U / V <= qhat <= U / V + 1.
Proof.
  intros Hj Hn Hnv Hv0 Hm0 Htop Hul Hu2 Hv1 Hv2 Hnorm mid vl U V HU.
  unfold okd in Htop, Hul, Hu2, Hv1, Hv2.
  apply wp_exists. unfold knuth_qhat. rewrite rassert_true by (apply bool_decide_eq_true; lia). rewrite rbind_ok.
  assert (Eu : full (low ++ (mid ++ [top]) ++ hi) = full ((low ++ m0 ++ [u2; ul]) ++ top :: hi)).
  { unfold mid. by rewrite <-!app_assoc. }
  assert (Eu1 : full (low ++ (mid ++ [top]) ++ hi) = full ((low ++ m0 ++ [u2]) ++ ul :: top :: hi)).
  { unfold mid. by rewrite <-!app_assoc. }
  assert (Eu2 : full (low ++ (mid ++ [top]) ++ hi) = full ((low ++ m0) ++ u2 :: ul :: top :: hi)).
  { unfold mid. by rewrite <-!app_assoc. }
  assert (Ev1 : full (vl ++ vx) = full ((v0l ++ [v2]) ++ v1 :: vx)). { unfold vl. by rewrite <-!app_assoc. }
  assert (Ev2 : full (vl ++ vx) = full (v0l ++ v2 :: v1 :: vx)). { unfold vl. by rewrite <-!app_assoc. }
  assert (R0 : rd (full (low ++ (mid ++ [top]) ++ hi)) (j + (n + 2)) = Ok top).
  { rewrite Eu. apply rd_full. rewrite !app_length. cbn [length]. lia. }
  assert (R1 : rd (full (low ++ (mid ++ [top]) ++ hi)) (j + (n + 2) - 1) = Ok ul).
  { rewrite Eu1. apply rd_full. rewrite !app_length. cbn [length]. lia. }
  assert (R2 : rd (full (low ++ (mid ++ [top]) ++ hi)) (j + (n + 2) - 2) = Ok u2).
  { rewrite Eu2. apply rd_full. rewrite !app_length. lia. }
  assert (S1 : rd (full (vl ++ vx)) (n + 2 - 1) = Ok v1).
  { rewrite Ev1. apply rd_full. rewrite !app_length. cbn [length]. lia. }
  assert (S2 : rd (full (vl ++ vx)) (n + 2 - 2) = Ok v2).
  { rewrite Ev2. apply rd_full. lia. }
  rewrite R0, rbind_ok, R1, rbind_ok. rewrite shl64 by lia. rewrite rbind_ok. cbv zeta. rewrite S1, rbind_ok.
  rewrite lor32 by lia. set (two := top * 2 ^ 32 + ul).
  assert (Htwo : 0 <= two < 2 ^ 64) by (unfold two; lia).
  rewrite udiv_ok by lia. rewrite rbind_ok. rewrite umod_ok by lia. rewrite rbind_ok.
  pose proof (dig_range m0 Hm0) as Du. pose proof (dig_range v0l Hv0) as Dv. rewrite Hn in Du. rewrite Hnv in Dv.
  pose proof (bp_pos n) as HP.
  assert (EU : U = (two * 2 ^ 32 + u2) * bp n + dig m0).
  { unfold U, mid, two. rewrite <-app_assoc. rewrite dig_app. rewrite Hn. cbn [app digits]. ring. }
  assert (EV : V = (v1 * 2 ^ 32 + v2) * bp n + dig v0l).
  { unfold V, vl. rewrite dig_app. rewrite Hnv. cbn [digits]. ring. }
  assert (Hv1' : 0 < v1 < 2 ^ 32) by lia. assert (Hb : 2 <= 2 ^ 32) by lia. assert (Hno : 2 ^ 32 <= 2 * v1) by lia.
  rewrite EU, EV in HU. rewrite EU, EV.
  pose proof (km_init (2 ^ 32) (bp n) v1 v2 (dig v0l) two u2 (dig m0) Hb HP Hv1' Hv2 Dv (proj1 Htwo) Hu2 Du HU) as Hinit.
  set (q := ((two * 2 ^ 32 + u2) * bp n + dig m0) / ((v1 * 2 ^ 32 + v2) * bp n + dig v0l)) in *.
  pose proof (km_q (2 ^ 32) (bp n) v1 v2 (dig v0l) two u2 (dig m0) Hb HP Hv1' Hv2 Dv (proj1 Htwo) Hu2 Du HU) as [Hq _]. fold q in Hq.
  apply (wp_loop (fun '(qhat, rhat) => q <= qhat < 2 ^ 64 /\ 0 <= rhat < 2 ^ 32 /\ two = qhat * v1 + rhat)
           (fun '(_, rhat) => if rhat <? 2 ^ 31 then 2%nat else 1%nat)).
  2: { pose proof (split_word two v1 ltac:(lia)). pose proof (Z.mod_pos_bound two v1 ltac:(lia)).
       assert (two / v1 < 2 ^ 64) by (apply Z.div_lt_upper_bound; nia). lia. }
  2: { destruct (_ <? _); lia. }
  intros [qhat rhat] (Hqh & Hrh & Et). rewrite shr64 by lia. rewrite rbind_ok.
  set (fin := fun r : Z * Z + Z => match r with
                            | inl s' => (let '(qhat0, rhat0) := s' in q <= qhat0 < 2 ^ 64 /\ 0 <= rhat0 < 2 ^ 32 /\ two = qhat0 * v1 + rhat0) /\
                                        ((let '(_, rhat0) := s' in if (rhat0 <? 2 ^ 31)%Z then 2%nat else 1%nat) <
                                         (if (rhat <? 2 ^ 31)%Z then 2%nat else 1%nat))%nat
                            | inr r => 0 <= r < 2 ^ 32 /\ q <= r <= q + 1 end).
  assert (Hdec : 0 < qhat -> q <= qhat - 1 ->
    wp (let qhat0 := w64 (qhat - 1) in let rhat0 := w64 (rhat + v1) in
        rh <~ shr u64 rhat0 32;; (if decide (rh <> 0) then Ok (inr qhat0) else Ok (inl (qhat0, rhat0)))) fin).
  { intros Hpos Hle. cbv zeta. rewrite (w64_id (qhat - 1)), (w64_id (rhat + v1)) by lia. rewrite shr64 by lia. rewrite rbind_ok.
    destruct (Z.lt_ge_cases (rhat + v1) (2 ^ 32)) as [Hr|Hr].
    - rewrite decide_False. 2: { rewrite div32_zero by lia. lia. }
      apply wp_ok. unfold fin. split; [split_and!; lia|].
      rewrite (proj2 (Z.ltb_lt rhat (2 ^ 31))) by lia. rewrite (proj2 (Z.ltb_ge (rhat + v1) (2 ^ 31))) by lia. lia.
    - rewrite decide_True. 2: { rewrite div32_zero by lia. lia. }
      apply wp_ok. unfold fin.
      destruct (km_exit_big (2 ^ 32) (bp n) v1 v2 (dig v0l) two u2 (dig m0) Hb HP Hv1' Hv2 Dv (proj1 Htwo) Hu2 Du HU (qhat - 1) (rhat + v1)) as [H1 H2]; [lia|lia|lia|].
      fold q in H2. lia. }
  destruct (Z.lt_ge_cases qhat (2 ^ 32)) as [Hsm|Hbig].
  - rewrite decide_False. 2: { rewrite div32_zero by lia. lia. }
    rewrite S2, rbind_ok, R2, rbind_ok. rewrite shl64 by lia. rewrite rbind_ok. rewrite rbind_ok.
    rewrite lor32 by lia. rewrite (w32_id qhat) by lia. pose proof (mul_range qhat v2 (2 ^ 32) (2 ^ 32) ltac:(lia) Hv2).
    rewrite (w64_id (qhat * v2)) by lia. case_bool_decide as D.
    + apply Hdec; [nia|].
      apply (km_dec (2 ^ 32) (bp n) v1 v2 (dig v0l) two u2 (dig m0) Hb HP Hv1' Hv2 Dv (proj1 Htwo) Hu2 Du HU qhat rhat); [fold q|..]; lia.
    + apply wp_ok. pose proof (km_exit (2 ^ 32) (bp n) v1 v2 (dig v0l) two u2 (dig m0) Hb HP Hv1' Hv2 Dv (proj1 Htwo) Hu2 Du HU qhat rhat ltac:(lia) ltac:(lia) ltac:(lia)) as H1.
      fold q in H1. change (0 <= qhat < 2 ^ 32 /\ q <= qhat <= q + 1). lia.
  - rewrite decide_True. 2: { rewrite div32_zero by lia. lia. }
    rewrite rbind_ok. apply Hdec; lia.
Qed.

Lemma split_last2 {A} (l : list A) n : length l = S (S n) -> exists m0 x y, l = m0 ++ [x; y] /\ length m0 = n.
Proof.
  intros H. destruct l as [|y l' _] using rev_ind; [done|]. destruct l' as [|x l'' _] using rev_ind; [rewrite app_length in H; cbn in H; lia|].
  exists l'', x, y. split; [by rewrite <-app_assoc|]. rewrite !app_length in H. cbn [length] in H. lia.
Qed.

(** one step of the main loop *)
Definition knuth_step (v : arr Z) (n : nat) (j : nat) (st : arr Z * arr Z) : res (arr Z * arr Z) :=
  let '(u, q) := st in
  qhat <~ knuth_qhat u v j n ;;
  '(u, t) <~ knuth_mulsub u v j n qhat ;;
  q <~ wr q j (w32 qhat) ;;
  if decide (t < 0) then
    qj <~ rd q j ;;
    q <~ wr q j (w32 (qj - 1)) ;;
    u <~ knuth_addback u v j n ;;
    Ok (u, q)
  else Ok (u, q).

Lemma knuth_step_ok (j n : nat) (low mid hi vl vx : list Z) (top : Z) (q : arr Z) :
  length low = j -> (2 <= n)%nat -> length mid = n -> length vl = n ->
  Forall okd vl -> Forall okd mid -> okd top -> 2 ^ 31 <= default 0 (last vl) ->
  let U := dig (mid ++ [top]) in
  let V := dig vl in
  U < V * 2 ^ 32 -> (j < length q)%nat ->
  exists mid', knuth_step (full (vl ++ vx)) n j (full (low ++ (mid ++ [top]) ++ hi), q) =
      Ok (full (low ++ (mid' ++ [0]) ++ hi), <[j := Some (U / V)]> q) /\
    length mid' = n /\ Forall okd mid' /\ dig mid' = U mod V /\ 0 <= U / V < 2 ^ 32 /\ 0 < V.
Proof.
  intros Hj Hn2 Hmid Hvl Hv Hm Ht Hnorm U V HU Hjq.
  destruct n as [|[|n]]; [lia|lia|].
  destruct (split_last2 mid n Hmid) as (m0 & u2 & ul & -> & Hm0). destruct (split_last2 vl n Hvl) as (v0l & v2 & v1 & -> & Hv0).
  assert (2 ^ 31 <= v1) as Hv1.
  { replace (v0l ++ [v2; v1]) with ((v0l ++ [v2]) ++ [v1]) in Hnorm by (by rewrite <-app_assoc). rewrite last_snoc in Hnorm. exact Hnorm. }
  clear Hnorm. pose proof Hv as Hv'. pose proof Hm as Hm'.
  apply Forall_app in Hv' as [Hv0' Hv']. apply Forall_app in Hm' as [Hm0' Hm'].
  apply list.Forall_cons in Hv' as [Hv2 Hv']. apply list.Forall_cons in Hv' as [Hv1' _].
  apply list.Forall_cons in Hm' as [Hu2 Hm']. apply list.Forall_cons in Hm' as [Hul _].
  destruct (qhat_ok j n low m0 hi v0l vx top ul u2 v1 v2) as (qhat & Eq & Hq1 & Hq2); try done.
  fold U V in Hq2. replace (n + 2)%nat with (S (S n)) in Eq by lia.
  unfold knuth_step. rewrite Eq, rbind_ok.
  set (mid := m0 ++ [u2; ul]) in *. set (vl := v0l ++ [v2; v1]) in *. set (N := S (S n)) in *.
  destruct (mulsub_ok j N low mid hi vl vx top qhat) as (mid1 & t & Em & Hl1 & Hf1 & Htr & Hval); try done.
  rewrite Em, rbind_ok.
  assert (HVr : 0 <= V < bp N). { unfold V. rewrite <-Hvl. by apply dig_range. }
  pose proof (bp_pos N) as HbN. assert (Hbn : 0 < bp n) by apply bp_pos.
  assert (HV0 : 0 < V).
  { assert (E : V = (v1 * 2 ^ 32 + v2) * bp n + dig v0l). { unfold V, vl. rewrite dig_app. rewrite Hv0. cbn [digits]. ring. }
    pose proof (dig_range v0l Hv0'). unfold okd in Hv2. assert (0 < (v1 * 2 ^ 32 + v2) * bp n) by (apply Z.mul_pos_pos; lia). lia. }
  assert (EU : U = dig mid + bp N * top). { unfold U. rewrite dig_app, Hmid. cbn [digits]. ring. }
  fold V in Hval. rewrite <-EU in Hval.
  assert (HU0 : 0 <= U). { rewrite EU. pose proof (dig_range mid Hm). unfold okd in Ht. assert (0 <= bp N * top) by (apply Z.mul_nonneg_nonneg; lia). lia. }
  assert (Hqr : 0 <= U / V < 2 ^ 32). { split; [by apply Z.div_pos|]. apply Z.div_lt_upper_bound; lia. }
  pose proof (split_word U V HV0) as EUV. pose proof (Z.mod_pos_bound U V HV0) as HUV.
  pose proof (dig_range mid1 Hf1) as Hd1. rewrite Hl1 in Hd1.
  unfold wr at 1. rewrite decide_True by done. rewrite rbind_ok. rewrite (w32_id qhat) by done.
  assert (qhat = U / V \/ qhat = U / V + 1) as [->| ->] by lia.
  - assert (Hd : dig mid1 + bp N * t = U mod V) by lia.
    assert (t = 0) as ->.
    { destruct (Z.lt_trichotomy t 0) as [H|[H|H]]; [|done|].
      - assert (bp N * t <= bp N * (-1)) by (apply Z.mul_le_mono_nonneg_l; lia). lia.
      - assert (bp N * 1 <= bp N * t) by (apply Z.mul_le_mono_nonneg_l; lia). lia. }
    rewrite decide_False by lia. exists mid1. rewrite Z.mod_0_l by lia. split_and!; try done; lia.
  - assert (Hd : dig mid1 + bp N * t = U mod V - V) by lia.
    assert (t = -1) as ->.
    { destruct (Z.lt_trichotomy t (-1)) as [H|[H|H]]; [|done|].
      - assert (bp N * t <= bp N * (-2)) by (apply Z.mul_le_mono_nonneg_l; lia). lia.
      - assert (bp N * 0 <= bp N * t) by (apply Z.mul_le_mono_nonneg_l; lia). lia. }
    rewrite decide_True by lia. unfold rd at 1. rewrite list_lookup_insert by done. rewrite rbind_ok.
    unfold wr at 1. rewrite insert_length, decide_True by done. rewrite rbind_ok. rewrite list_insert_insert.
    destruct (addback_ok j N low mid1 hi vl vx ((-1) mod 2 ^ 32)) as (mid2 & top2 & Ea & Hl2 & Hf2 & Ht2 & c & Hc & Hc01); try done.
    rewrite Ea, rbind_ok. fold V in Hc. change ((-1) mod 2 ^ 32) with (2 ^ 32 - 1) in Hc.
    pose proof (dig_range mid2 Hf2) as Hd2. rewrite Hl2 in Hd2. rewrite bp_S in Hc. unfold okd in Ht2.
    assert (Hc' : dig mid2 + bp N * top2 = U mod V + (1 - c) * (2 ^ 32 * bp N)) by lia.
    assert (c = 1) as ->.
    { destruct (Z.eq_dec c 1); [done|]. assert (c = 0) as -> by lia.
      assert (bp N * top2 <= bp N * (2 ^ 32 - 1)) by (apply Z.mul_le_mono_nonneg_l; lia). lia. }
    assert (top2 = 0) as ->.
    { destruct (Z.eq_dec top2 0); [done|]. assert (bp N * 1 <= bp N * top2) by (apply Z.mul_le_mono_nonneg_l; lia). lia. }
    exists mid2. rewrite w32_id by lia. replace (U / V + 1 - 1) with (U / V) by lia. split_and!; try done; lia.
Qed.

(** the whole division: [u] has [m + n + 1] digits, the upper [n] of which are below the divisor *)
Lemma knuth_ok (n m : nat) (ul vl vx : list Z) (q : arr Z) :
  (2 <= n)%nat -> length ul = (m + n + 1)%nat -> length vl = n ->
  Forall okd ul -> Forall okd vl -> 2 ^ 31 <= default 0 (last vl) ->
  dig (drop (m + 1) ul) < dig vl -> (m < length q)%nat ->
  exists ul' ql,
    knuth (full ul) (m + n + 1) (full (vl ++ vx)) n q = Ok (full (ul' ++ replicate (m + 1) 0), full ql ++ drop (m + 1) q) /\
    length ul' = n /\ Forall okd ul' /\ length ql = (m + 1)%nat /\ Forall okd ql /\
    dig ul' = dig ul mod dig vl /\ dig ql = dig ul / dig vl.
Proof.
  intros Hn Hul Hvl Hu Hv Hnorm Htop Hq. unfold knuth. rewrite rassert_true by (apply bool_decide_eq_true; lia). rewrite rbind_ok.
  cbv zeta. replace (m + n + 1 - n - 1)%nat with m by lia.
  change (fdown (S m) 0 _ _) with (fdown (S m) 0 (knuth_step (full (vl ++ vx)) n) (full ul, q)).
  (* generalise: [k] digits still to be produced *)
  assert (HG : forall k (l : list Z) (q : arr Z), length l = (k + n)%nat -> Forall okd l -> dig (drop k l) < dig vl -> (k <= length q)%nat ->
     forall z, exists l' ql, fdown k 0 (knuth_step (full (vl ++ vx)) n) (full (l ++ replicate z 0), q) =
        Ok (full (l' ++ replicate (k + z) 0), full ql ++ drop k q) /\
       length l' = n /\ Forall okd l' /\ length ql = k /\ Forall okd ql /\ dig l = dig ql * dig vl + dig l' /\ dig l' < dig vl).
  { clear ul Hul Hu Htop q Hq m. induction k as [|k IH]; intros l q Hl Hf Hlt Hq z.
    - exists l, []. cbn [fdown]. rewrite drop_0 in Hlt. split_and!; done.
    - cbn [fdown]. change (0 + k)%nat with k.
      (* l = low ++ mid ++ [top] with |low| = k, |mid| = n *)
      assert (Hs : exists low mid top, l = low ++ mid ++ [top] /\ length low = k /\ length mid = n).
      { exists (take k l). destruct (drop k l) as [|top l' _] eqn:E using rev_ind.
        - apply (f_equal length) in E. rewrite drop_length in E. cbn in E. lia.
        - exists l', top. rewrite <-E, take_drop. split; [done|]. split; [rewrite take_length; lia|].
          apply (f_equal length) in E. rewrite drop_length, app_length in E. cbn in E. lia. }
      destruct Hs as (low & mid & top & -> & Hlow & Hmid).
      apply Forall_app in Hf as [Hfl Hf]. pose proof Hf as Hf'. apply Forall_app in Hf' as [Hfm Hft]. apply list.Forall_cons in Hft as [Hft _].
      destruct mid as [|x mid'] eqn:Em; [cbn in Hmid; lia|]. rewrite <-Em in *.
      assert (HU : dig (mid ++ [top]) < dig vl * 2 ^ 32).
      { replace (drop (S k) (low ++ mid ++ [top])) with (mid' ++ [top]) in Hlt.
        2: { rewrite drop_app_ge by lia. rewrite Hlow. replace (S k - k)%nat with 1%nat by lia. rewrite Em. done. }
        rewrite Em. change ((x :: mid') ++ [top]) with (x :: (mid' ++ [top])). cbn [digits].
        rewrite Em in Hfm. apply list.Forall_cons in Hfm as [Hx _]. unfold okd in Hx. lia. }
      destruct (knuth_step_ok k n low mid (replicate z 0) vl vx top q) as (mid2 & E & H1 & H2 & H3 & H4 & H5); try done.
      replace ((low ++ mid ++ [top]) ++ replicate z 0) with (low ++ (mid ++ [top]) ++ replicate z 0) by (by rewrite <-!app_assoc).
      rewrite E, rbind_ok.
      destruct (IH (low ++ mid2) (<[k:=Some (dig (mid ++ [top]) / dig vl)]> q)) with (z := S z) as (l' & ql & E2 & K1 & K2 & K3 & K4 & K5 & K6).
      + rewrite app_length. lia.
      + by apply Forall_app.
      + rewrite drop_app_alt by done. rewrite H3. apply Z.mod_pos_bound. lia.
      + rewrite insert_length. lia.
      + replace (low ++ (mid2 ++ [0]) ++ replicate z 0) with ((low ++ mid2) ++ replicate (S z) 0) by (by rewrite <-!app_assoc).
        exists l', (ql ++ [dig (mid ++ [top]) / dig vl]). split_and!.
        * rewrite E2. replace (S k + z)%nat with (k + S z)%nat by lia. f_equal. f_equal.
          rewrite drop_insert_le by lia. rewrite Nat.sub_diag. unfold full. rewrite fmap_app.
          destruct (lookup_lt_is_Some_2 q k ltac:(lia)) as [c Hc]. rewrite (drop_S q c k Hc). rewrite <-app_assoc. done.
        * done.
        * done.
        * rewrite app_length. cbn [length]. lia.
        * apply Forall_app. split; [done|]. apply list.Forall_cons. split; [exact H4|done].
        * rewrite (dig_app low (mid ++ [top])), (dig_app ql). rewrite K3, Hlow. cbn [digits]. rewrite dig_app, H3, Hlow in K5.
          pose proof (split_word (dig (mid ++ [top])) (dig vl) ltac:(lia)) as ES.
          set (W := dig (mid ++ [top])) in *. set (VV := dig vl) in *.
          replace (dig low + bp k * W) with (dig low + bp k * (VV * (W / VV) + W mod VV)) by (rewrite <-ES; done).
          lia.
        * done. }
  destruct (HG (S m) ul q ltac:(lia) Hu) with (z := 0%nat) as (l' & ql & E & H1 & H2 & H3 & H4 & H5 & H6).
  { by rewrite Nat.add_1_r in Htop. }
  { lia. }
  change (replicate 0 0) with (@nil Z) in E. rewrite app_nil_r in E. rewrite E. exists l', ql.
  replace (m + 1)%nat with (S m + 0)%nat by lia. replace (S m + 0)%nat with (S m) at 3 4 by lia.
  pose proof (dig_range l' H2) as Hr.
  destruct (divmod_eq (dig ul) (dig vl) (dig ql) (dig l')) as [-> ->]; [lia|lia|]. split_and!; done.
Qed.
