From stdpp Require Import base list numbers option.
From Coq Require Import ZArith Lia.
From Verif Require Import Alg.CartesianModel Alg.CartesianSpec.
Local Open Scope Z_scope.

Fixpoint digs (zs : list Z) (k : Z) : list Z := match zs with [] => [] | z :: zs => k mod z :: digs zs (k / z) end.
Fixpoint top (zs : list Z) (k : Z) : Z := match zs with [] => k | z :: zs => top zs (k / z) end.

Lemma dm_unique z q d k : 0 <= d < z -> k = z * q + d -> k / z = q /\ k mod z = d.
Proof. intros Hd ->. split; [symmetry; apply (Z.div_unique _ _ q d); lia|symmetry; apply (Z.mod_unique _ _ q d); lia]. Qed.

Section proofs.
Context (M n0 : Z) (H0 : 0 <= n0).
Notation size := (size n0).
Lemma cck_ok z : - M - 1 <= z <= M -> cck M z = Some z.
Proof. intros H. unfold cck. by rewrite decide_True. Qed.
Lemma cpos_ok z w : 0 <= w <= z -> cpos z w = Some w.
Proof. intros H. unfold cpos. by rewrite decide_True. Qed.
Definition nn (zs : list Z) := Forall (fun z => 0 <= z) zs.
Lemma size_nonneg zs : nn zs -> 0 <= size zs.
Proof. induction 1; cbn; nia. Qed.
Fixpoint zfits (zs : list Z) : Prop := size zs <= M /\ match zs with [] => True | _ :: zs => zfits zs end.

(** quotient and remainder by the size of the last range *)
Lemma split_k z zs k : 0 <= z -> nn zs -> 0 < k \/ 0 < size (z :: zs) -> 0 <= k <= size (z :: zs) ->
  0 < z /\ k = z * (k / z) + k mod z /\ 0 <= k mod z < z /\ 0 <= k / z <= size zs /\ (k < size (z :: zs) -> k / z < size zs).
Proof.
  intros Hz Hzs Hp Hk. cbn in *. pose proof (size_nonneg _ Hzs) as Hsz. assert (Hz' : 0 < z) by (destruct (decide (z = 0)) as [->|]; lia). split; [done|].
  pose proof (Z.div_mod k z ltac:(lia)) as E. pose proof (Z.mod_pos_bound k z Hz') as Hm. set (q := k / z) in *. set (d := k mod z) in *.
  split; [done|]. split; [done|]. split; [nia|]. intros. nia.
Qed.
Lemma next_ok zs : nn zs -> forall k, 0 <= k < size zs -> next n0 zs (digs zs k) (top zs k) = Some (digs zs (k + 1), top zs (k + 1)).
Proof.
  induction 1 as [|z zs Hz Hzs IH]; intros k Hk; [cbn in *; by rewrite cpos_ok by lia|].
  destruct (split_k z zs k Hz Hzs) as (Hz' & E & Hm & Hq & Hlt); [lia..|]. cbn [digs top next].
  set (q := k / z) in *. set (d := k mod z) in *. rewrite cpos_ok by lia. cbn. destruct (decide (d + 1 = z)) as [Hd|Hd].
  - destruct (dm_unique z (q + 1) 0 (k + 1)) as [-> ->]; [lia|nia|]. rewrite IH by lia. done.
  - destruct (dm_unique z q (d + 1) (k + 1)) as [-> ->]; [lia|nia|]. done.
Qed.
Lemma prev_ok zs : nn zs -> forall k, 0 < k <= size zs -> prev n0 zs (digs zs k) (top zs k) = Some (digs zs (k - 1), top zs (k - 1)).
Proof.
  induction 1 as [|z zs Hz Hzs IH]; intros k Hk; [cbn in *; by rewrite cpos_ok by lia|].
  destruct (split_k z zs k Hz Hzs) as (Hz' & E & Hm & Hq & Hlt); [lia..|]. cbn [digs top prev].
  set (q := k / z) in *. set (d := k mod z) in *. destruct (decide (d = 0)) as [Hd|Hd].
  - destruct (dm_unique z (q - 1) (z - 1) (k - 1)) as [-> ->]; [lia|nia|]. rewrite IH by nia. cbn. by rewrite cpos_ok by lia.
  - destruct (dm_unique z q (d - 1) (k - 1)) as [-> ->]; [lia|nia|]. cbn. by rewrite cpos_ok by lia.
Qed.
Lemma advance_ok zs : nn zs -> zfits zs -> forall k o, 0 <= k <= size zs -> 0 <= k + o <= size zs ->
  advance M n0 zs (digs zs k) (top zs k) o = Some (digs zs (k + o), top zs (k + o)).
Proof.
  induction 1 as [|z zs Hz Hzs IH]; intros Hf k o Hk Ho.
  - cbn [digs top advance] in *. destruct (decide (o = 0)) as [->|]; [by rewrite Z.add_0_r|]. cbn in *. by rewrite cpos_ok by lia.
  - destruct (decide (o = 0)) as [->|Hno]; [rewrite Z.add_0_r; cbn [advance]; by rewrite decide_True|].
    assert (Hp : 0 < size (z :: zs)) by lia. destruct (split_k z zs k Hz Hzs) as (Hz' & E & Hm & Hq & _); [lia..|].
    destruct (split_k z zs (k + o) Hz Hzs) as (_ & E2 & Hm2 & Hq2 & _); [lia..|]. destruct Hf as [HfM Hf]. cbn [digs top advance].
    rewrite decide_False by done. set (q := k / z) in *. set (d := k mod z) in *. rewrite decide_False by lia.
    set (q2 := (k + o) / z) in *. set (d2 := (k + o) mod z) in *. assert (d <= k) by nia. assert (d + o = z * (q2 - q) + d2) by lia.
    rewrite cck_ok by lia. cbn [mbind option_bind].
    pose proof (Z.quot_rem (d + o) z ltac:(lia)) as Er. set (nx := Z.quot (d + o) z) in *. set (nw := Z.rem (d + o) z) in *.
    assert (Hrb : Z.abs nw < z) by (unfold nw; pose proof (Z.rem_bound_abs (d + o) z ltac:(lia)); lia).
    destruct (decide (nw < 0)) as [Hneg|Hneg].
    + assert (nx - 1 = q2 - q /\ nw + z = d2) as [-> ->].
      { destruct (dm_unique z (nx - 1) (nw + z) (d + o)) as [A1 A2]; [lia|lia|]. destruct (dm_unique z (q2 - q) d2 (d + o)) as [B1 B2]; [lia|lia|]. lia. }
      rewrite cpos_ok by lia. cbn [mbind option_bind]. rewrite IH by (done || lia). cbn. by replace (q + (q2 - q)) with q2 by lia.
    + assert (nx = q2 - q /\ nw = d2) as [-> ->].
      { destruct (dm_unique z nx nw (d + o)) as [A1 A2]; [lia|lia|]. destruct (dm_unique z (q2 - q) d2 (d + o)) as [B1 B2]; [lia|lia|]. lia. }
      rewrite cpos_ok by lia. cbn [mbind option_bind]. rewrite IH by (done || lia). cbn. by replace (q + (q2 - q)) with q2 by lia.
Qed.
Lemma div0 z : 0 / z = 0.
Proof. destruct (decide (z = 0)) as [->|]; [apply Zdiv_0_r|by apply Z.div_0_l]. Qed.
Lemma mod0 z : 0 mod z = 0.
Proof. destruct (decide (z = 0)) as [->|]; [by rewrite Zmod_0_r|by apply Z.mod_0_l]. Qed.
Lemma digs_zero zs : digs zs 0 = map (fun _ => 0) zs /\ top zs 0 = 0.
Proof.
  induction zs as [|z zs [IH1 IH2]]; [done|]. cbn. rewrite div0, mod0. by rewrite IH1, IH2.
Qed.
(** the same, for all k including the empty product *)
Lemma split_k0 z zs k : 0 <= z -> nn zs -> 0 <= k <= size (z :: zs) ->
  k = z * (k / z) + k mod z /\ 0 <= k mod z /\ (k mod z <= k) /\ 0 <= k / z <= size zs.
Proof.
  intros Hz Hzs Hk. destruct (decide (k = 0)) as [->|].
  - rewrite div0, mod0. pose proof (size_nonneg _ Hzs). lia.
  - destruct (split_k z zs k Hz Hzs) as (? & E & ? & ? & _); [lia..|]. set (q := k / z) in *. set (d := k mod z) in *. nia.
Qed.
Lemma distance_ok zs : nn zs -> zfits zs -> forall k l, 0 <= k <= size zs -> 0 <= l <= size zs ->
  distance M zs (digs zs k) (top zs k) (digs zs l) (top zs l) = Some (k - l).
Proof.
  induction 1 as [|z zs Hz Hzs IH]; intros [HfM Hf] k l Hk Hl; [cbn in *; apply cck_ok; lia|].
  destruct (split_k0 z zs k Hz Hzs Hk) as (E1 & A1 & A2 & A3), (split_k0 z zs l Hz Hzs Hl) as (E2 & B1 & B2 & B3). cbn [digs top distance].
  set (q := k / z) in *. set (d := k mod z) in *. set (q' := l / z) in *. set (d' := l mod z) in *.
  rewrite cck_ok by lia. cbn [mbind option_bind]. rewrite IH by (done || lia). cbn [mbind option_bind]. rewrite cck_ok by nia. cbn [mbind option_bind].
  rewrite cck_ok by nia. f_equal. nia.
Qed.
Lemma minus_ok zs : nn zs -> zfits zs -> forall k, 0 <= k <= size zs -> minus_sentinel M n0 zs (digs zs k, top zs k) = Some (k - size zs).
Proof.
  unfold minus_sentinel. cbn [fst snd]. induction 1 as [|z zs Hz Hzs IH]; intros [HfM Hf] k Hk; [cbn in *; apply cck_ok; lia|].
  destruct (split_k0 z zs k Hz Hzs Hk) as (E1 & A1 & A2 & A3). cbn [digs top distance map].
  set (q := k / z) in *. set (d := k mod z) in *. rewrite cck_ok by lia. cbn [mbind option_bind]. rewrite IH by (done || lia). cbn [mbind option_bind].
  cbn in *. rewrite cck_ok by nia. cbn [mbind option_bind]. rewrite cck_ok by nia. f_equal. nia.
Qed.
Lemma begin_ok zs : begin zs = (digs zs 0, top zs 0).
Proof. unfold begin. by destruct (digs_zero zs) as [-> ->]. Qed.
Lemma size_zero zs : 0 ∈ zs -> size zs = 0.
Proof. induction zs as [|z zs IH]; intros Hz; [by apply elem_of_nil in Hz|]. apply elem_of_cons in Hz as [<- | Hz]; cbn; [lia|rewrite IH by done; lia]. Qed.
Lemma end_ok zs : nn zs -> end_ n0 zs = (digs zs (size zs), top zs (size zs)).
Proof.
  intros Hn. unfold end_. destruct (bool_decide_reflect (0 ∈ zs)) as [Hz|Hz].
  - rewrite size_zero by done. by destruct (digs_zero zs) as [-> ->].
  - induction Hn as [|z zs Hz' Hn IH]; [done|]. cbn [digs top map]. apply not_elem_of_cons in Hz as [Hz1 Hz2]. specialize (IH Hz2).
    destruct (dm_unique z (size zs) 0 (size (z :: zs))) as [-> ->]; [lia|cbn; lia|]. injection IH as <- <-. done.
Qed.
Lemma is_end_ok zs : nn zs -> forall k, 0 <= k <= size zs -> is_end n0 zs (digs zs k) (top zs k) = bool_decide (k = size zs).
Proof.
  induction 1 as [|z zs Hz Hzs IH]; intros k Hk; [done|]. cbn [digs top is_end].
  destruct (decide (0 < size (z :: zs))) as [Hp|Hp].
  - destruct (split_k z zs k Hz Hzs) as (Hz' & E & Hm & Hq & Hlt); [lia..|]. rewrite IH by lia. rewrite (bool_decide_false (_ = z)) by lia. cbn [orb].
    apply bool_decide_ext. cbn in *. set (q := k / z) in *. set (d := k mod z) in *. split; intros HE; nia.
  - assert (k = 0) as -> by lia. rewrite (bool_decide_true (0 = size (z :: zs))) by lia. rewrite div0, mod0. pose proof (size_nonneg _ Hzs).
    destruct (decide (z = 0)) as [->|]; [by rewrite bool_decide_true|]. cbn in Hp. rewrite IH by lia. rewrite (bool_decide_true (0 = size zs)) by nia. apply orb_true_r.
Qed.
Lemma compare_ok zs : nn zs -> forall k l, 0 <= k <= size zs -> 0 <= l <= size zs -> compare (digs zs k) (top zs k) (digs zs l) (top zs l) = (k ?= l).
Proof.
  induction 1 as [|z zs Hz Hzs IH]; intros k l Hk Hl; [done|]. cbn [digs top compare]. destruct (decide (0 < size (z :: zs))) as [Hp|Hp].
  - destruct (split_k z zs k Hz Hzs) as (Hz' & E & Hm & Hq & _); [lia..|]. destruct (split_k z zs l Hz Hzs) as (_ & E2 & Hm2 & Hq2 & _); [lia..|].
    rewrite IH by lia. set (q := k / z) in *. set (d := k mod z) in *. set (q' := l / z) in *. set (d' := l mod z) in *.
    destruct (Z.compare_spec q q') as [Eq|Eq|Eq].
    + rewrite Eq in *. destruct (Z.compare_spec d d'); symmetry; [apply Z.compare_eq_iff|apply Z.compare_lt_iff|apply Z.compare_gt_iff]; lia.
    + symmetry. apply Z.compare_lt_iff. nia.
    + symmetry. apply Z.compare_gt_iff. nia.
  - assert (k = 0) as -> by lia. assert (l = 0) as -> by lia. rewrite div0. pose proof (size_nonneg _ Hzs). rewrite IH by lia. cbn. apply Z.compare_refl.
Qed.
Lemma cstep_ok zs i o j : nn zs -> zfits zs -> 0 <= i <= size zs -> cmove (size zs) i o j ->
  cstep M n0 zs (digs zs i, top zs i) o = Some (digs zs j, top zs j) /\ 0 <= j <= size zs.
Proof.
  intros Hn Hf Hi Hmv. destruct Hmv; cbn [cstep fst snd].
  - split; [apply next_ok; [done|lia]|lia].
  - split; [apply prev_ok; [done|lia]|lia].
  - split; [by apply advance_ok|lia].
  - split; [|lia]. assert (size zs <= M) by (destruct zs; apply Hf). rewrite cck_ok by lia. cbn. rewrite advance_ok by (done || lia). f_equal.
Qed.
Lemma crun_ok zs os : nn zs -> zfits zs -> forall i j, 0 <= i <= size zs -> cmoves (size zs) i os j ->
  crun M n0 zs (digs zs i, top zs i) os = Some (digs zs j, top zs j) /\ 0 <= j <= size zs.
Proof.
  intros Hn Hf. induction os as [|o os IH]; intros i j Hi Hmv; inversion Hmv as [|? ? ? ? ? Hm1 Hm2]; subst; cbn [crun]; [done|].
  destruct (cstep_ok _ _ _ _ Hn Hf Hi Hm1) as [-> ?]. cbn. by apply IH.
Qed.
End proofs.

Section spec.
Context {A : Type}.
Implicit Types ls : list (list A).
Lemma cart_snoc ls (l : list A) : cart (ls ++ [l]) = cart ls ≫= (fun t => (fun x => t ++ [x]) <$> l).
Proof.
  induction ls as [|l' ls IH]; cbn [app cart].
  - cbn. rewrite app_nil_r. induction l as [|x l IH]; [done|]. cbn in *. by rewrite IH.
  - rewrite IH. induction l' as [|x l' IHl]; [done|]. cbn. rewrite IHl. rewrite bind_app. f_equal. clear.
    induction (cart ls) as [|t T IH]; [done|]. cbn. rewrite fmap_app, IH. f_equal. rewrite <- list_fmap_compose. apply list_fmap_ext. done.
Qed.
Lemma bind_lookup {B} (f : list A -> A -> B) (l : list A) (T : list (list A)) (q d : nat) : (d < length l)%nat ->
  (T ≫= (fun t => f t <$> l)) !! (q * length l + d)%nat = (t ← T !! q; f t <$> l !! d).
Proof.
  intros Hd. revert q. induction T as [|t T IH]; intros q; [done|]. rewrite bind_cons. destruct q as [|q].
  - cbn. rewrite lookup_app_l by (by rewrite fmap_length). apply list_lookup_fmap.
  - rewrite lookup_app_r by (rewrite fmap_length; lia). rewrite fmap_length. replace (S q * length l + d - length l)%nat with (q * length l + d)%nat by lia. apply IH.
Qed.
Lemma bind_length {B} (f : list A -> A -> B) (l : list A) (T : list (list A)) : length (T ≫= (fun t => f t <$> l)) = (length T * length l)%nat.
Proof. induction T as [|t T IH]; [done|]. rewrite bind_cons, app_length, fmap_length, IH. cbn. lia. Qed.
Lemma cart_one (l0 : list A) : cart [l0] = (fun x => [x]) <$> l0.
Proof. cbn. induction l0 as [|x l0 IH]; [done|]. cbn in *. by rewrite IH. Qed.
Lemma cart_size (l0 : list A) ls : len (cart (l0 :: rev ls)) = size (len l0) (map len ls).
Proof.
  induction ls as [|l ls IH].
  - cbn [rev]. rewrite cart_one. unfold len. rewrite fmap_length. done.
  - cbn [rev map size]. rewrite <- IH. change (l0 :: rev ls ++ [l]) with ((l0 :: rev ls) ++ [l]). rewrite cart_snoc. unfold len. rewrite (bind_length (fun t x => t ++ [x])). lia.
Qed.
Lemma nn_len ls : nn (map len ls).
Proof. induction ls; constructor; [unfold len; lia|done]. Qed.
Lemma zfits_ok M l0 ls : fits M l0 ls -> zfits M (len l0) (map len ls).
Proof.
  induction ls as [|l ls IH]; cbn [fits zfits map].
  - intros [H _]. split; [|done]. rewrite cart_size in H. done.
  - intros [H Hf]. split; [|by apply IH]. by rewrite cart_size in H.
Qed.
Lemma deref_ok (l0 : list A) ls : forall k, 0 <= k < size (len l0) (map len ls) ->
  deref l0 ls (digs (map len ls) k) (top (map len ls) k) = cart (l0 :: rev ls) !! Z.to_nat k.
Proof.
  induction ls as [|l ls IH]; intros k Hk.
  - cbn [map digs top deref rev]. rewrite cart_one, list_lookup_fmap. rewrite decide_True by lia. by destruct (l0 !! Z.to_nat k).
  - cbn [rev]. change (l0 :: rev ls ++ [l]) with ((l0 :: rev ls) ++ [l]). rewrite cart_snoc.
    destruct (split_k (len l0) ltac:(unfold len; lia) (len l) (map len ls) k) as (Hz & E & Hm & Hq & Hlt); [unfold len; lia|apply nn_len|cbn in *; lia|cbn in *; lia|].
    cbn [map digs top deref]. assert (Hk' : k / len l < size (len l0) (map len ls)) by (apply Hlt; apply Hk). rewrite IH by lia. destruct (decide (0 <= k mod len l)) as [_|]; [|lia].
    replace (Z.to_nat k) with (Z.to_nat (k / len l) * length l + Z.to_nat (k mod len l))%nat.
    2: { unfold len in *. apply Nat2Z.inj. rewrite Nat2Z.inj_add, Nat2Z.inj_mul, !Z2Nat.id by lia. lia. }
    rewrite (bind_lookup (fun t x => t ++ [x])) by (unfold len in *; lia). destruct (cart _ !! _); cbn; [|done]. by destruct (l !! _).
Qed.
Lemma deref_end (l0 : list A) ls k : k = size (len l0) (map len ls) -> deref l0 ls (digs (map len ls) k) (top (map len ls) k) = None.
Proof.
  revert k. induction ls as [|l ls IH]; intros k Hk.
  - cbn in *. rewrite decide_True by (unfold len in *; lia). rewrite lookup_ge_None_2; [done|]. unfold len in *. lia.
  - cbn [map digs top deref]. cbn in Hk. destruct (decide (l = [])) as [->|Hl].
    + cbn. destruct (deref _ _ _ _); [|done]. cbn. by destruct (decide _).
    + assert (0 < len l) by (destruct l; [done|unfold len; cbn; lia]). destruct (dm_unique (len l) (size (len l0) (map len ls)) 0 k) as [-> _]; [lia|lia|]. by rewrite IH.
Qed.
Lemma cis_at_ok M (l0 : list A) ls i it : fits M l0 ls -> cis_at M l0 ls i it ->
  it = (digs (map len ls) i, top (map len ls) i) /\ 0 <= i <= len (cart (l0 :: rev ls)).
Proof.
  intros Hf (os & H). rewrite cart_size in *. assert (Hl : 0 <= len l0) by (unfold len; lia). pose proof (nn_len ls) as Hn. pose proof (zfits_ok _ _ _ Hf) as Hz.
  pose proof (size_nonneg (len l0) Hl _ Hn) as Hs. destruct H as [(H1 & H2)|(H1 & H2)].
  - rewrite begin_ok in H2. destruct (crun_ok M (len l0) Hl _ os Hn Hz 0 i) as [E ?]; [lia|done|]. split; [congruence|done].
  - rewrite end_ok in H2 by done. destruct (crun_ok M (len l0) Hl _ os Hn Hz _ i ltac:(split; [exact Hs|reflexivity]) H1) as [E ?]. split; [congruence|done].
Qed.
End spec.
