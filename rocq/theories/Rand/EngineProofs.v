(** The circular history buffer: the last n values in order; == compares them. *)
From stdpp Require Import base list list_numbers numbers.
From Coq Require Import ZArith Lia.
From Verif Require Import Base.Res Base.Int Rand.LcgModel Rand.EngineModel Rand.EngineSpec.
Local Open Scope nat_scope.

(** [xs] is stored in consecutive cells from [i] on *)
Definition cells (a : list (option Z)) (i : nat) (xs : list Z) : Prop := forall q x, xs !! q = Some x -> a !! (i + q) = Some (Some x).
(** the buffer holds the history [h] *)
Record hist (n : nat) (b : cbuf) (h : list Z) : Prop := {
  h_len : length h = n;
  h_ax : length (ax b) = 2 * n;
  h_idx : idx b <= 2 * n;
  h_cell : forall i x, h !! i = Some x -> ax b !! Base n b i = Some (Some x)
}.
Lemma rdc_ok a i x : a !! i = Some (Some x) -> rdc a i = Ok x.
Proof. unfold rdc. by intros ->. Qed.
Lemma wrc_ok a i x : i < length a -> wrc a i x = Ok (<[i := Some x]> a).
Proof. unfold wrc. intros H. by rewrite (proj2 (Nat.ltb_lt i (length a)) H). Qed.
Lemma cells_rd a i xs q x : cells a i xs -> xs !! q = Some x -> rdc a (i + q) = Ok x.
Proof. intros H Hq. apply rdc_ok. by apply H. Qed.

Lemma cells_cons a i x xs : cells a i (x :: xs) -> a !! i = Some (Some x) /\ cells a (S i) xs.
Proof.
  intros H. split; [rewrite <-(Nat.add_0_r i); by apply H|]. intros q y Hq. rewrite Nat.add_succ_comm. by apply H.
Qed.
Lemma eq_run_ok xs : forall ys a i b j, length xs = length ys -> cells a i xs -> cells b j ys ->
  eq_run (length xs) a i b j = Ok (bool_decide (xs = ys)).
Proof.
  induction xs as [|x xs IH]; intros [|y ys] a i b j Hl Ha Hb; try done. injection Hl as Hl.
  apply cells_cons in Ha as [Ha0 Ha]. apply cells_cons in Hb as [Hb0 Hb]. cbn [length eq_run].
  rewrite (rdc_ok _ _ _ Ha0), rbind_ok, (rdc_ok _ _ _ Hb0), rbind_ok. destruct (Z.eqb_spec x y) as [->|Hn].
  - rewrite (IH ys) by done. f_equal. apply bool_decide_ext. naive_solver.
  - rewrite bool_decide_false by naive_solver. done.
Qed.
Lemma eq_run_ok' k xs ys a i b j : length xs = k -> length ys = k -> cells a i xs -> cells b j ys ->
  eq_run k a i b j = Ok (bool_decide (xs = ys)).
Proof. intros <- H. by apply eq_run_ok. Qed.

Section buf.
  Context (n : nat) (Hn : 0 < n).
  Lemma Base_lo b i : i + idx b < n -> Base n b i = i + idx b + n.
  Proof. intros H. unfold Base. by rewrite (proj2 (Nat.ltb_lt _ _) H). Qed.
  Lemma Base_hi b i : n <= i + idx b -> Base n b i = i + idx b - n.
  Proof. intros H. unfold Base. by rewrite (proj2 (Nat.ltb_ge _ _) H). Qed.
  Lemma hist_lt b h i x : hist n b h -> h !! i = Some x -> i < n.
  Proof. intros H Hi. apply lookup_lt_Some in Hi. by rewrite (h_len _ _ _ H) in Hi. Qed.
  (** slices of the history are contiguous up to the wrap *)
  Lemma hist_slice b h p k j : hist n b h -> p + k <= n -> (forall i, i < k -> Base n b (p + i) = j + i) ->
    cells (ax b) j (take k (drop p h)).
  Proof.
    intros H Hpk Hb q x Hq. assert (q < k). { apply lookup_lt_Some in Hq. rewrite take_length in Hq. lia. }
    rewrite lookup_take in Hq by done. rewrite lookup_drop in Hq. rewrite <-Hb by done. by apply (h_cell _ _ _ H).
  Qed.
  Lemma hist_unique b h1 h2 : hist n b h1 -> hist n b h2 -> h1 = h2.
  Proof.
    intros H1 H2. apply list_eq_same_length with n; [apply (h_len _ _ _ H2)|apply (h_len _ _ _ H1)|].
    intros i x y _ Hx Hy. apply (h_cell _ _ _ H1) in Hx. apply (h_cell _ _ _ H2) in Hy. congruence.
  Qed.

  (** comparing from logical position [p] on *)
  Definition sl (p k : nat) (h : list Z) := take k (drop p h).
  Lemma sl_len b h p k : hist n b h -> p + k <= n -> length (sl p k h) = k.
  Proof. intros H Hp. unfold sl. rewrite take_length, drop_length, (h_len _ _ _ H). lia. Qed.

  Lemma Equals_step fuel l r hl hr p k (use2 : bool) first last other nx0 :
    hist n l hl -> hist n r hr -> (0 < nx0)%Z -> p + k <= n ->
    k = (if first <? last then last else 2 * n) - first ->
    (forall i, i < k -> Base n (if use2 then r else l) (p + i) = first + i) ->
    (forall i, i < k -> Base n (if use2 then l else r) (p + i) = other + i) ->
    Equals_loop (S fuel) n l r nx0 use2 first last other =
      if bool_decide (sl p k hl = sl p k hr)
      then Equals_loop fuel n l r (nx0 - Z.of_nat k) (negb use2) (other + k) (idx (if use2 then l else r)) 0 else Ok false.
  Proof.
    intros Hl Hr Hx Hp Hk H1 H2. cbn [Equals_loop]. rewrite (proj2 (Z.ltb_lt 0 nx0) Hx). cbv zeta. rewrite <-Hk.
    destruct use2.
    - rewrite (eq_run_ok' k (sl p k hr) (sl p k hl)); [|by apply (sl_len r)|by apply (sl_len l)|by apply hist_slice|by apply hist_slice].
      rewrite rbind_ok. rewrite (bool_decide_ext (sl p k hr = sl p k hl) (sl p k hl = sl p k hr)) by done. by case_bool_decide.
    - rewrite (eq_run_ok' k (sl p k hl) (sl p k hr)); [|by apply (sl_len l)|by apply (sl_len r)|by apply hist_slice|by apply hist_slice].
      rewrite rbind_ok. by case_bool_decide.
  Qed.
  Lemma Equals_done fuel l r nx0 use2 first last other : (nx0 <= 0)%Z -> Equals_loop fuel n l r nx0 use2 first last other = Ok true.
  Proof. intros H. destruct fuel; cbn [Equals_loop]; by rewrite (proj2 (Z.ltb_ge 0 nx0) H). Qed.
  Lemma sl_all b h : hist n b h -> sl 0 n h = h.
  Proof. intros H. unfold sl. rewrite drop_0. apply take_ge. by rewrite (h_len _ _ _ H). Qed.
  Lemma sl_split h p k j : sl p (k + j) h = sl p k h ++ sl (p + k) j h.
  Proof. unfold sl. rewrite <-drop_drop. rewrite <-(take_drop k (take (k + j) (drop p h))). rewrite take_take, Nat.min_l by lia.
    f_equal. rewrite skipn_firstn_comm. f_equal. lia. Qed.
  Lemma sl_app_eq l r hl hr p k j : hist n l hl -> hist n r hr -> p + k + j <= n ->
    sl p (k + j) hl = sl p (k + j) hr <-> sl p k hl = sl p k hr /\ sl (p + k) j hl = sl (p + k) j hr.
  Proof.
    intros Hl Hr Hp. rewrite !sl_split. split; [|by intros [-> ->]]. intros H. apply app_inj_1 in H; [done|].
    rewrite (sl_len l) by (done || lia). by rewrite (sl_len r) by (done || lia).
  Qed.

  (** the array scanned first is the one whose range is higher up *)
  Lemma Equals_loop_ok l r hl hr (use2 : bool) : hist n l hl -> hist n r hr ->
    let A := if use2 then r else l in let B := if use2 then l else r in
    Base n B 0 <= Base n A 0 ->
    Equals_loop 4 n l r (Z.of_nat n) use2 (Base n A 0) (idx A) (Base n B 0) = Ok (bool_decide (hl = hr)).
  Proof.
    intros Hl Hr A B Hle.
    assert (HA : exists h, hist n A h) by (destruct use2; eauto). assert (HB : exists h, hist n B h) by (destruct use2; eauto).
    destruct HA as [hA HA]. destruct HB as [hB HB]. pose proof (h_idx _ _ _ HA) as HiA. pose proof (h_idx _ _ _ HB) as HiB.
    rewrite <-(bool_decide_ext (sl 0 n hl = sl 0 n hr) (hl = hr)) by (by rewrite (sl_all l), (sl_all r)).
    destruct (Nat.lt_ge_cases (idx A) n) as [HA1|HA1].
    - pose proof (Base_lo A 0 ltac:(lia)) as EA. cbn [Nat.add] in EA. rewrite EA in *.
      set (IA := idx A) in *. set (IB := idx B) in *.
      assert (H1 : forall i, i < n - IA -> Base n A (0 + i) = IA + n + i) by (intros i Hi; rewrite Base_lo by (fold IA; lia); fold IA; lia).
      assert (H2 : forall i, i < n - IA -> Base n B (0 + i) = Base n B 0 + i).
      { intros i Hi. destruct (Nat.lt_ge_cases IB n) as [HB1|HB1].
        - rewrite (Base_lo B 0) in * by (fold IB; lia). rewrite Base_lo by (fold IB in Hle |- *; lia). lia.
        - rewrite !Base_hi by (fold IB; lia). fold IB. lia. }
      rewrite (Equals_step 3 l r hl hr 0 (n - IA) use2 (IA + n) IA (Base n B 0) (Z.of_nat n)); [|done|done|lia|lia| |exact H1|exact H2].
      2:{ rewrite (proj2 (Nat.ltb_ge (IA + n) IA)) by lia. lia. }
      rewrite <-(bool_decide_ext (sl 0 (n - IA + IA) hl = sl 0 (n - IA + IA) hr) (sl 0 n hl = sl 0 n hr)) by (by replace (n - IA + IA) with n by lia).
      rewrite (bool_decide_ext (sl 0 (n - IA + IA) hl = sl 0 (n - IA + IA) hr) (sl 0 (n - IA) hl = sl 0 (n - IA) hr /\ sl (0 + (n - IA)) IA hl = sl (0 + (n - IA)) IA hr)) by (apply (sl_app_eq l r); [done|done|lia]).
      destruct (decide (sl 0 (n - IA) hl = sl 0 (n - IA) hr)) as [E1|E1];
        [rewrite (bool_decide_true _ E1)|rewrite (bool_decide_false _ E1), bool_decide_false by tauto; done].
      destruct (decide (IA = 0)) as [H0|H0].
      { rewrite Equals_done by lia. rewrite bool_decide_true; [done|]. split; [exact E1|]. by rewrite H0. }
      change (0 + (n - IA)) with (n - IA).
      replace (idx (if use2 then l else r)) with IB by done.
      replace (Z.of_nat n - Z.of_nat (n - IA))%Z with (Z.of_nat IA) by lia.
      assert (EAB : A = (if negb use2 then l else r)) by (by destruct use2).
      assert (EBA : B = (if negb use2 then r else l)) by (by destruct use2).
      destruct (Nat.lt_ge_cases IB n) as [HB1|HB1].
      + pose proof (Base_lo B 0 ltac:(fold IB; lia)) as EB. cbn [Nat.add] in EB. fold IB in EB. rewrite EB in *.
        rewrite (Equals_step 2 l r hl hr (n - IA) (IA - IB) (negb use2) (IB + n + (n - IA)) IB 0 (Z.of_nat IA)); [|done|done|lia|lia| | |].
        2:{ rewrite (proj2 (Nat.ltb_ge (IB + n + (n - IA)) IB)) by lia. lia. }
        2:{ intros i Hi. rewrite <-EBA. rewrite Base_lo by (fold IB; lia). fold IB. lia. }
        2:{ intros i Hi. rewrite <-EAB. rewrite Base_hi by (fold IA; lia). fold IA. lia. }
        replace (sl (n - IA) IA hl) with (sl (n - IA) (IA - IB + IB) hl) by (f_equal; lia).
        replace (sl (n - IA) IA hr) with (sl (n - IA) (IA - IB + IB) hr) by (f_equal; lia).
        pose proof (sl_app_eq l r hl hr (n - IA) (IA - IB) IB Hl Hr ltac:(lia)) as HS.
        destruct (decide (sl (n - IA) (IA - IB) hl = sl (n - IA) (IA - IB) hr)) as [E2|E2];
          [rewrite (bool_decide_true _ E2)|rewrite (bool_decide_false _ E2), bool_decide_false by tauto; done].
        destruct (decide (IB = 0)) as [H0'|H0'].
        { rewrite Equals_done by lia. rewrite bool_decide_true; [done|]. split; [done|]. apply HS. split; [done|]. by rewrite H0'. }
        rewrite negb_involutive. change (0 + (IA - IB)) with (IA - IB). rewrite <-EAB. fold IA.
        replace (Z.of_nat IA - Z.of_nat (IA - IB))%Z with (Z.of_nat IB) by lia.
        rewrite (Equals_step 1 l r hl hr (n - IA + (IA - IB)) IB use2 (IA - IB) IA 0 (Z.of_nat IB)); [|done|done|lia|lia| | |].
        2:{ rewrite (proj2 (Nat.ltb_lt (IA - IB) IA)) by lia. lia. }
        2:{ intros i Hi. fold A. rewrite Base_hi by (fold IA; lia). fold IA. lia. }
        2:{ intros i Hi. fold B. rewrite Base_hi by (fold IB; lia). fold IB. lia. }
        rewrite Equals_done by lia.
        destruct (decide (sl (n - IA + (IA - IB)) IB hl = sl (n - IA + (IA - IB)) IB hr)) as [E3|E3];
          [rewrite (bool_decide_true _ E3), bool_decide_true by tauto|rewrite (bool_decide_false _ E3), bool_decide_false by tauto]; done.
      + pose proof (Base_hi B 0 ltac:(fold IB; lia)) as EB. cbn [Nat.add] in EB. fold IB in EB. rewrite EB in *.
        rewrite (Equals_step 2 l r hl hr (n - IA) IA (negb use2) (IB - n + (n - IA)) IB 0 (Z.of_nat IA)); [|done|done|lia|lia| | |].
        2:{ rewrite (proj2 (Nat.ltb_lt (IB - n + (n - IA)) IB)) by lia. lia. }
        2:{ intros i Hi. rewrite <-EBA. rewrite Base_hi by (fold IB; lia). fold IB. lia. }
        2:{ intros i Hi. rewrite <-EAB. rewrite Base_hi by (fold IA; lia). fold IA. lia. }
        rewrite Equals_done by lia.
        destruct (decide (sl (n - IA) IA hl = sl (n - IA) IA hr)) as [E2|E2];
          [rewrite (bool_decide_true _ E2), bool_decide_true by tauto|rewrite (bool_decide_false _ E2), bool_decide_false by tauto]; done.
    - pose proof (Base_hi A 0 ltac:(lia)) as EA. cbn [Nat.add] in EA. rewrite EA in *.
      rewrite (Equals_step 3 l r hl hr 0 n use2 (idx A - n) (idx A) (Base n B 0) (Z.of_nat n)); [|done|done|lia|lia| | |].
      2:{ rewrite (proj2 (Nat.ltb_lt (idx A - n) (idx A))) by lia. lia. }
      2:{ intros i Hi. fold A. rewrite Base_hi by lia. lia. }
      2:{ intros i Hi. fold B. destruct (Nat.lt_ge_cases (idx B) n) as [HB1|HB1].
          - rewrite (Base_lo B 0) in * by lia. assert (idx B = 0) by lia. rewrite Base_lo by lia. lia.
          - rewrite !Base_hi by lia. lia. }
      rewrite Equals_done by lia. by case_bool_decide.
  Qed.
  Lemma Equals_ok l r hl hr : hist n l hl -> hist n r hr -> Equals n l r = Ok (bool_decide (hl = hr)).
  Proof.
    intros Hl Hr. unfold Equals. destruct (Nat.ltb_spec (Base n l 0) (Base n r 0)).
    - apply (Equals_loop_ok l r hl hr true Hl Hr). lia.
    - apply (Equals_loop_ok l r hl hr false Hl Hr). lia.
  Qed.

  (** advancing: cell [ix] takes the new value *)
  Definition nix (b : cbuf) : nat := if 2 * n <=? idx b then 0 else idx b.
  Lemma hist_push b h v : hist n b h -> hist n (CBuf (nix b + 1) (<[nix b := Some v]> (ax b))) (tail h ++ [v]).
  Proof.
    intros H. pose proof (h_idx _ _ _ H) as Hi. pose proof (h_ax _ _ _ H) as Ha. pose proof (h_len _ _ _ H) as Hl.
    assert (Hix : nix b < 2 * n). { unfold nix. destruct (Nat.leb_spec (2 * n) (idx b)); lia. }
    assert (Hmod : forall i, i < n -> Base n (CBuf (nix b + 1) (<[nix b := Some v]> (ax b))) i =
                   if decide (i = n - 1) then nix b else Base n b (S i)).
    { intros i Hin. unfold Base. cbn [idx]. unfold nix in *. destruct (Nat.leb_spec (2 * n) (idx b)).
      - destruct (decide _); destruct (Nat.ltb_spec (i + (0 + 1)) n); destruct (Nat.ltb_spec (S i + idx b) n); lia.
      - destruct (decide _); destruct (Nat.ltb_spec (i + (idx b + 1)) n); destruct (Nat.ltb_spec (S i + idx b) n); lia. }
    destruct h as [|x0 h]; [cbn in Hl; lia|]. cbn [tail]. cbn [length] in Hl.
    split; [rewrite app_length; cbn; lia|cbn [ax]; by rewrite insert_length|cbn [idx]; lia|].
    intros i x Hx. cbn [ax]. assert (Hin : i < n). { apply lookup_lt_Some in Hx. rewrite app_length in Hx. cbn in Hx. lia. }
    rewrite Hmod by done. destruct (decide (i = n - 1)) as [->|Hne].
    - rewrite list_lookup_insert by lia. rewrite lookup_app_r in Hx by lia. replace (n - 1 - length h) with 0 in Hx by lia. cbn in Hx. congruence.
    - rewrite lookup_app_l in Hx by lia. rewrite list_lookup_insert_ne.
      + by apply (h_cell _ _ _ H).
      + unfold Base, nix. destruct (Nat.leb_spec (2 * n) (idx b)); destruct (Nat.ltb_spec (S i + idx b) n); lia.
  Qed.
  Lemma save_ok b h : hist n b h -> save n b = Ok h.
  Proof.
    intros H. unfold save. assert (Hg : forall m k, k + m = n -> mapr (At n b) (seq k m) = Ok (drop k h)).
    { induction m as [|m IH]; intros k Hk.
      - cbn. rewrite drop_ge; [done|]. rewrite (h_len _ _ _ H). lia.
      - cbn [seq mapr]. destruct (lookup_lt_is_Some_2 h k) as [x Hx]; [rewrite (h_len _ _ _ H); lia|].
        unfold At. rewrite (rdc_ok _ _ _ (h_cell _ _ _ H _ _ Hx)), rbind_ok. fold (At n b). rewrite IH by lia. rewrite rbind_ok.
        by rewrite (drop_S _ _ _ Hx). }
    rewrite Hg by lia. by rewrite drop_0.
  Qed.
  Lemma restore_ok b h0 h : hist n b h0 -> length h = n -> hist n (restore n h b) h.
  Proof.
    intros H Hh. split; [done| |cbn; lia|].
    - cbn [restore ax]. rewrite app_length, fmap_length, drop_length, (h_ax _ _ _ H). lia.
    - intros i x Hx. cbn [restore ax]. pose proof (lookup_lt_Some _ _ _ Hx). rewrite Base_hi by (cbn; lia). cbn [idx restore].
      rewrite lookup_app_l by (rewrite fmap_length; lia). replace (i + n - n) with i by lia. by rewrite list_lookup_fmap, Hx.
  Qed.
  (** filling the lower half and setting _Idx = n *)
  Lemma hist_lower a h : length a = 2 * n -> length h = n -> cells a 0 h -> hist n (CBuf n a) h.
  Proof.
    intros Ha Hh Hc. split; [done|done|cbn; lia|]. intros i x Hx. cbn [ax]. pose proof (lookup_lt_Some _ _ _ Hx).
    rewrite Base_hi by (cbn; lia). cbn [idx]. replace (i + n - n) with (0 + i) by lia. by apply Hc.
  Qed.
End buf.
