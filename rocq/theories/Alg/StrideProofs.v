From stdpp Require Import base list numbers option.
From Coq Require Import ZArith Lia.
From Verif Require Import Alg.StrideModel Alg.StrideSpec.
Local Open Scope Z_scope.

Lemma mul_lt_inv t a b : 0 < t -> a * t < b * t -> a < b.
Proof. intros H. apply Z.mul_lt_mono_pos_r, H. Qed.
Lemma ceil_unique t a b c : 0 < t -> c <= a * t -> (a - 1) * t < c -> c <= b * t -> (b - 1) * t < c -> a = b.
Proof. intros Ht H1 H2 H3 H4. assert (a - 1 < b) by (apply (mul_lt_inv t); lia). assert (b - 1 < a) by (apply (mul_lt_inv t); lia). lia. Qed.
Section proofs.
Context (r : rng) (m : Z) (Hs : 0 < s r) (Hn : 0 <= n r) (HM : n r + s r <= M r) (Hm : n r <= m * s r) (Hm' : (m - 1) * s r < n r).
Definition atx (i : Z) : iter := It (Z.min (i * s r) (n r)) (i * s r - Z.min (i * s r) (n r)).

Lemma m_nonneg : 0 <= m.
Proof. nia. Qed.
Lemma ck_ok z : - M r - 1 <= z <= M r -> ck r z = Some z.
Proof. intros H. unfold ck. by rewrite decide_True. Qed.
Lemma okpos_ok z : 0 <= z <= n r -> okpos r z = Some z.
Proof. intros H. unfold okpos. by rewrite decide_True. Qed.
Lemma incs_ok k : forall w, 0 <= w -> w + Z.of_nat k <= n r -> incs r k w = Some (w + Z.of_nat k).
Proof.
  induction k as [|k IH]; intros w H1 H2; cbn [incs]; [f_equal; lia|]. rewrite okpos_ok by lia. cbn. rewrite IH by lia. f_equal; lia.
Qed.
Lemma decs_ok k : forall w, Z.of_nat k <= w -> w <= n r -> decs r k w = Some (w - Z.of_nat k).
Proof.
  induction k as [|k IH]; intros w H1 H2; cbn [decs]; [f_equal; lia|]. rewrite okpos_ok by lia. cbn. rewrite IH by lia. f_equal; lia.
Qed.
Lemma advance2_ok w off : 0 <= w <= n r -> 0 <= w + off <= n r -> advance2 r w off = Some (w + off).
Proof.
  intros H1 H2. unfold advance2. destruct (ra r); [by apply okpos_ok|]. destruct (decide (off < 0)).
  - rewrite decs_ok by lia. f_equal; lia.
  - rewrite incs_ok by lia. f_equal; lia.
Qed.
Lemma loop3_ok k : forall w, 0 <= w <= n r -> loop3 r k w = Some (Z.min (w + Z.of_nat k) (n r), w + Z.of_nat k - Z.min (w + Z.of_nat k) (n r)).
Proof.
  induction k as [|k IH]; intros w H; cbn [loop3]; [f_equal; f_equal; lia|]. destruct (decide (w = n r)) as [->|Hw]; [f_equal; f_equal; lia|].
  rewrite okpos_ok by lia. cbn. rewrite IH by lia. f_equal; f_equal; lia.
Qed.
Lemma advance3_ok w off : 0 <= w <= n r -> 0 < off <= M r -> advance3 r w off = Some (Z.min (w + off) (n r), w + off - Z.min (w + off) (n r)).
Proof.
  intros Hw Ho. unfold advance3. destruct (sized r).
  - rewrite ck_ok by lia. cbn. destruct (decide _) as [Hd|Hd].
    + rewrite advance2_ok by lia. cbn. rewrite ck_ok by lia. cbn. f_equal; f_equal; lia.
    + rewrite advance2_ok by lia. cbn. f_equal; f_equal; lia.
  - rewrite decide_False by lia. rewrite loop3_ok by lia. f_equal; f_equal; lia.
Qed.

Lemma inc_ok i : 0 <= i < m -> inc r (atx i) = Some (atx (i + 1)).
Proof.
  intros Hi. assert (i * s r < n r) by nia. unfold inc, atx. cbn [cur]. rewrite advance3_ok by nia. cbn.
  assert (0 <= i * s r) by nia. replace ((i + 1) * s r) with (i * s r + s r) by ring. f_equal; f_equal; lia.
Qed.
Lemma dec_ok i : 0 < i <= m -> dec r (atx i) = Some (atx (i - 1)).
Proof.
  intros Hi. assert ((i - 1) * s r < n r) by nia. assert (0 <= (i - 1) * s r) by nia. unfold dec, atx. cbn [cur missing].
  replace (i * s r) with ((i - 1) * s r + s r) by ring. rewrite ck_ok by lia. cbn. rewrite advance2_ok by lia. cbn. f_equal; f_equal; lia.
Qed.
Lemma add_ok i k : 0 <= i <= m -> 0 <= i + k <= m -> add r (atx i) k = Some (atx (i + k)).
Proof.
  intros Hi Hk. unfold add. assert (Hms : (m - 1) * s r < n r) by done. assert (0 <= i * s r) by nia. assert (0 <= (i + k) * s r) by nia.
  assert (Hi2 : (i - 1) * s r < n r) by nia. assert (Hk2 : (i + k - 1) * s r < n r) by nia.
  replace (i * s r) with ((i - 1) * s r + s r) in * by ring.
  destruct (decide (k > 0)) as [Hp|Hp]; [|destruct (decide (k < 0)) as [Hq|Hq]].
  - assert (0 < s r * k) by nia. assert (i * s r < n r) by nia. assert ((i + k) * s r = i * s r + s r * k) by ring. assert (0 <= i * s r) by nia.
    destruct (sized r) eqn:Esz.
    + rewrite ck_ok by lia. cbn [mbind option_bind]. unfold atx at 1. cbn [cur]. rewrite advance3_ok by lia. cbn. unfold atx. f_equal; f_equal; lia.
    + assert (k <= s r * k) by nia. rewrite ck_ok by lia. cbn [mbind option_bind]. assert (s r * (k - 1) = s r * k - s r) by ring. assert (0 <= s r * (k - 1)) by nia.
      rewrite ck_ok by lia. cbn [mbind option_bind]. unfold atx at 1. cbn [cur]. rewrite okpos_ok by lia. cbn [mbind option_bind]. rewrite advance3_ok by lia. cbn. unfold atx. f_equal; f_equal; lia.
  - assert ((i + k) * s r = (i - 1) * s r + s r + s r * k) by ring. assert (i * s r = (i - 1) * s r + s r) by ring. assert (s r * k <= - s r) by nia.
    rewrite ck_ok by lia. cbn [mbind option_bind]. unfold atx. cbn [cur missing]. rewrite ck_ok by lia. cbn [mbind option_bind].
    rewrite okpos_ok by lia. cbn. f_equal; f_equal; lia.
  - f_equal. unfold atx. assert (k = 0) as -> by lia. by rewrite Z.add_0_r.
Qed.
Lemma step_ok i o j : 0 <= i <= m -> move m i o j -> step r (atx i) o = Some (atx j) /\ 0 <= j <= m.
Proof.
  intros Hi Hmv. destruct Hmv; cbn [step].
  - split; [apply inc_ok; lia|lia].
  - split; [apply dec_ok; lia|lia].
  - split; [by apply add_ok|lia].
  - split; [|lia]. unfold sub. assert (m <= n r) by nia. rewrite ck_ok by lia. cbn. rewrite add_ok by lia. f_equal.
Qed.
Lemma run_ok os : forall i j, 0 <= i <= m -> moves m i os j -> run r (atx i) os = Some (atx j) /\ 0 <= j <= m.
Proof.
  induction os as [|o os IH]; intros i j Hi Hmv; inversion Hmv; subst; cbn [run]; [done|].
  destruct (step_ok _ _ _ Hi H2) as [-> ?]. cbn. by apply IH.
Qed.
Lemma begin_ok : ibegin = atx 0.
Proof. unfold ibegin, atx. f_equal; lia. Qed.
Lemma end_ok : iend r = Some (atx m).
Proof.
  unfold iend. rewrite Z.rem_mod_nonneg by lia. pose proof (Z.mod_pos_bound (n r) (s r) Hs). rewrite ck_ok by lia. cbn. f_equal. unfold atx.
  rewrite Z.min_r by lia. pose proof (Z.div_mod (n r) (s r) ltac:(lia)) as Hd. set (q := n r / s r) in *. set (z := n r mod s r) in *.
  destruct (decide (s r - z = s r)) as [Hz|Hz].
  - f_equal. assert (z = 0) by lia. assert (m = q) by (apply (ceil_unique (s r) _ _ (n r)); [lia..|nia|nia]). nia.
  - f_equal. assert (m = q + 1) by (apply (ceil_unique (s r) _ _ (n r)); [lia..|nia|nia]). nia.
Qed.
Lemma is_at_atx i it : is_at r m i it -> it = atx i /\ 0 <= i <= m.
Proof.
  pose proof m_nonneg. intros (os & [(H1 & H2)|(e & H0 & H1 & H2)]).
  - rewrite begin_ok in H2. destruct (run_ok os 0 i) as [H3 ?]; [lia|done|]. split; [congruence|done].
  - rewrite end_ok in H0. injection H0 as <-. destruct (run_ok os m i) as [H3 ?]; [lia|done|]. split; [congruence|done].
Qed.
Lemma atx_lt i : 0 <= i < m -> cur (atx i) = i * s r /\ i * s r < n r.
Proof. intros H. assert (i * s r < n r) by nia. cbn. split; lia. Qed.
Lemma atx_end : cur (atx m) = n r.
Proof. cbn. lia. Qed.
Lemma atx_mono i j : 0 <= i <= m -> 0 <= j <= m -> i < j -> cur (atx i) < cur (atx j).
Proof. intros Hi Hj H. assert (i * s r < n r) by nia. assert (i * s r < j * s r) by nia. cbn. lia. Qed.
Lemma diff_ok i j : 0 <= i <= m -> 0 <= j <= m -> diff r (atx i) (atx j) = Some (i - j).
Proof.
  intros Hi Hj. assert ((i - 1) * s r < n r) by nia. assert ((j - 1) * s r < n r) by nia. assert (0 <= i * s r) by nia. assert (0 <= j * s r) by nia.
  replace ((i - 1) * s r) with (i * s r - s r) in * by ring. replace ((j - 1) * s r) with (j * s r - s r) in * by ring.
  unfold diff, atx. cbn [cur missing]. rewrite ck_ok by lia. cbn [mbind option_bind]. rewrite ck_ok by lia. cbn [mbind option_bind]. rewrite ck_ok by lia. cbn.
  f_equal. replace (_ - _ + _ - _) with ((i - j) * s r) by lia. by apply Z.quot_mul; lia.
Qed.
Lemma div_ceil_ok a k : 0 <= a -> a <= k * s r -> (k - 1) * s r < a -> div_ceil a (s r) = k.
Proof.
  intros Ha H1 H2. unfold div_ceil. rewrite Z.rem_mod_nonneg, Z.quot_div_nonneg by lia. pose proof (Z.mod_pos_bound a (s r) Hs).
  pose proof (Z.div_mod a (s r) ltac:(lia)) as Hd. set (q := a / s r) in *. set (z := a mod s r) in *. destruct (decide (z = 0)); apply (ceil_unique (s r) _ _ a); nia.
Qed.
Lemma sent_ok i : 0 <= i <= m -> div_ceil (n r - cur (atx i)) (s r) = m - i.
Proof.
  intros Hi. destruct (decide (i = m)) as [->|]; [rewrite atx_end; apply div_ceil_ok; nia|].
  destruct (atx_lt i) as [-> ?]; [lia|]. apply div_ceil_ok; nia.
Qed.
Lemma cur_bound i : 0 <= i -> 0 <= cur (atx i) <= n r.
Proof. intros H. assert (0 <= i * s r) by nia. cbn. lia. Qed.
End proofs.

(** the number of elements shown *)
Lemma stride_length {A} (k : nat) (l out : list A) : (0 < k)%nat -> is_stride k l out ->
  Z.of_nat (length l) <= Z.of_nat (length out) * Z.of_nat k /\ (Z.of_nat (length out) - 1) * Z.of_nat k < Z.of_nat (length l).
Proof.
  intros Hk H. split.
  - assert (E : l !! (length out * k)%nat = None) by (rewrite <- H; apply lookup_ge_None_2; lia). apply lookup_ge_None_1 in E. nia.
  - destruct (length out) as [|q] eqn:E; [lia|]. destruct (lookup_lt_is_Some_2 out q) as [x Hx]; [lia|]. rewrite H in Hx. apply lookup_lt_Some in Hx. nia.
Qed.
Lemma chunks_lookup {A} (k : nat) : (0 < k)%nat -> forall (out : list (list A)) l, is_chunks k l out ->
  Z.of_nat (length l) <= Z.of_nat (length out) * Z.of_nat k /\ (Z.of_nat (length out) - 1) * Z.of_nat k < Z.of_nat (length l) /\
  forall i c, out !! i = Some c -> c = take k (drop (i * k) l).
Proof.
  intros Hk. induction out as [|c out IH]; intros l [Hl Hc].
  - cbn in Hl. subst l. cbn. split; [lia|]. split; [lia|]. done.
  - cbn in Hl. destruct (Hc 0%nat c eq_refl) as (Hne & Hle & Hfull). assert (Hin : is_chunks k (concat out) out).
    { split; [done|]. intros i d Hd. destruct (Hc (S i) d Hd) as (? & ? & Hf). split; [done|]. split; [done|]. intros Hi. apply Hf. cbn. lia. }
    destruct (IH _ Hin) as (H1 & H2 & H3). assert (length c <> 0)%nat by (by destruct c).
    assert (Hlen : length l = (length c + length (concat out))%nat) by (by rewrite <- Hl, app_length).
    destruct out as [|d out'].
    + cbn in *. rewrite app_nil_r in Hl. subst l. split; [lia|]. split; [lia|]. intros [|i] x Hx; [|done]. injection Hx as <-. rewrite drop_0, take_ge; [done|exact Hle].
    + assert (Hck : length c = k) by (apply Hfull; cbn; lia). assert (1 <= length (d :: out'))%nat by (cbn; lia).
      change (length (c :: d :: out')) with (S (length (d :: out'))). split; [nia|]. split; [nia|].
      intros [|i] x Hx.
      * injection Hx as <-. change (0 * k)%nat with 0%nat. rewrite drop_0, <- Hl, take_app_alt; [done|by symmetry].
      * cbn [lookup list_lookup] in Hx. rewrite (H3 i x Hx). rewrite <- Hl. f_equal.
        rewrite drop_app_ge by nia. f_equal. cbn. lia.
Qed.
Lemma chunks_exist {A} (k : nat) : (0 < k)%nat -> forall N (l : list A), (length l <= N)%nat -> exists out, is_chunks k l out.
Proof.
  intros Hk. induction N as [|N IH]; intros l Hl.
  - destruct l; [|cbn in Hl; lia]. exists []. split; [done|]. by intros i c Hc.
  - destruct (decide (l = [])) as [->|Hne]; [exists []; split; [done|]; by intros i c Hc|].
    assert (0 < length l)%nat by (destruct l; [done|cbn; lia]).
    destruct (IH (drop k l)) as [out [Ho Hc]]; [rewrite drop_length; lia|]. exists (take k l :: out). split; [cbn; rewrite Ho; apply take_drop|].
    intros [|i] c E.
    + injection E as <-. split; [destruct l, k; done || lia|]. split; [rewrite take_length; lia|]. cbn [length]. intros Hlt. rewrite take_length.
      destruct (decide (k <= length l)%nat); [lia|]. rewrite drop_ge in Ho by lia. destruct out as [|d out]; [cbn in Hlt; lia|].
      destruct (Hc 0%nat d eq_refl) as [Hd _]. destruct d; [done|]. cbn in Ho. done.
    + destruct (Hc i c E) as (? & ? & Hf). split; [done|]. split; [done|]. cbn. intros. apply Hf. lia.
Qed.
Lemma stride_exist {A} (k : nat) (l : list A) : (0 < k)%nat -> exists out, is_stride k l out.
Proof.
  intros Hk. destruct l as [|a l0] eqn:El; [exists []; by intros i|]. rewrite <- El. assert (Hne : (0 < length l)%nat) by (rewrite El; cbn; lia).
  exists (omap (fun i => l !! (i * k)%nat) (seq 0 ((length l + k - 1) / k))). intros i.
  set (q := ((length l + k - 1) / k)%nat). assert (Hq : forall j, (j < q)%nat -> is_Some (l !! (j * k)%nat)).
  { intros j Hj. apply lookup_lt_is_Some_2. assert (q * k <= length l + k - 1)%nat by (unfold q; rewrite Nat.mul_comm; apply Nat.mul_div_le; lia). nia. }
  assert (Hg : forall t b, (b + t <= q)%nat -> forall i, omap (fun i => l !! (i * k)%nat) (seq b t) !! i = if decide (i < t)%nat then l !! ((b + i) * k)%nat else None).
  { induction t as [|t IH]; intros b Hb j; cbn [seq omap list_omap]; [by rewrite decide_False by lia|].
    destruct (Hq b) as [x Hx]; [lia|]. rewrite Hx. destruct j as [|j]; cbn [lookup list_lookup].
    - rewrite decide_True by lia. by rewrite Nat.add_0_r, Hx.
    - change (list_omap _ _ _ (seq (S b) t)) with (omap (fun i => l !! (i * k)%nat) (seq (S b) t)). 
      rewrite IH by lia. destruct (decide (j < t)%nat); [rewrite decide_True by lia; f_equal; lia|by rewrite decide_False by lia]. }
  rewrite Hg by (unfold q; lia). destruct (decide (i < q)%nat); [done|]. symmetry. apply lookup_ge_None_2.
  assert (length l <= q * k)%nat; [|nia]. unfold q. pose proof (Nat.div_mod (length l + k - 1) k ltac:(lia)). pose proof (Nat.mod_upper_bound (length l + k - 1) k ltac:(lia)). nia.
Qed.
