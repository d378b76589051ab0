(** Property C48: iterators of views::cartesian_product. The ranges are [l0] and, last one first, [ls]. *)
From stdpp Require Import base list numbers option.
From Coq Require Import ZArith Lia.
From Verif Require Import Alg.CartesianModel Alg.CartesianSpec Alg.CartesianProofs.
Local Open Scope Z_scope.

Section props.
Context {A : Type} (M : Z) (l0 : list A) (ls : list (list A)).
Notation out := (cart (l0 :: rev ls)).
Notation m := (len (cart (l0 :: rev ls))).
Notation zs := (map len ls).

(** the iterator may be moved freely over the tuples, from begin() and from end(): nothing overflows, no iterator leaves its range *)
Theorem C48_moves os i : fits M l0 ls ->
  (cmoves m 0 os i -> is_Some (crun M (len l0) zs (begin zs) os)) /\ (cmoves m m os i -> is_Some (crun M (len l0) zs (end_ (len l0) zs) os)).
Proof.
  intros Hf. assert (Hl : 0 <= len l0) by (unfold len; lia). pose proof (nn_len ls) as Hn. pose proof (zfits_ok _ _ _ Hf) as Hz.
  pose proof (size_nonneg (len l0) Hl _ Hn) as Hs. rewrite cart_size. split; intros Hm.
  - rewrite begin_ok. destruct (crun_ok M (len l0) Hl zs os Hn Hz 0 i) as [-> _]; [lia|done|by eexists].
  - rewrite end_ok by done. destruct (crun_ok M (len l0) Hl zs os Hn Hz _ i ltac:(split; [exact Hs|reflexivity]) Hm) as [-> _]. by eexists.
Qed.
(** dereferenced, it shows the tuple it was moved to; it equals the end exactly after the last tuple *)
Theorem C48_deref i it : fits M l0 ls -> cis_at M l0 ls i it ->
  deref l0 ls it.1 it.2 = out !! Z.to_nat i /\ is_end (len l0) zs it.1 it.2 = bool_decide (i = m).
Proof.
  intros Hf Hi. destruct (cis_at_ok _ _ _ _ _ Hf Hi) as [-> Hb]. cbn [fst snd]. rewrite cart_size in *. assert (Hl : 0 <= len l0) by (unfold len; lia).
  split; [|apply is_end_ok; [done|apply nn_len|done]]. destruct (decide (i = size (len l0) zs)) as [E|E].
  - rewrite deref_end by done. symmetry. apply lookup_ge_None_2. pose proof (cart_size l0 ls) as Hs. unfold len at 1 in Hs. lia.
  - apply deref_ok. lia.
Qed.
(** comparisons and differences are those of the indices *)
Theorem C48_compare i j it jt : fits M l0 ls -> cis_at M l0 ls i it -> cis_at M l0 ls j jt ->
  (it = jt <-> i = j) /\ compare it.1 it.2 jt.1 jt.2 = (i ?= j) /\ distance M zs it.1 it.2 jt.1 jt.2 = Some (i - j) /\
  minus_sentinel M (len l0) zs it = Some (i - m).
Proof.
  intros Hf Hi Hj. destruct (cis_at_ok _ _ _ _ _ Hf Hi) as [-> Hb], (cis_at_ok _ _ _ _ _ Hf Hj) as [-> Hc]. cbn [fst snd]. rewrite cart_size in *.
  assert (Hl : 0 <= len l0) by (unfold len; lia). pose proof (nn_len ls) as Hn. pose proof (zfits_ok _ _ _ Hf) as Hz.
  assert (Hcmp : compare (digs zs i) (top zs i) (digs zs j) (top zs j) = (i ?= j)) by (by apply (compare_ok (len l0))).
  split; [|split; [done|split; [by apply (distance_ok M (len l0))|by apply minus_ok]]].
  split; [|by intros ->]. intros [= E1 E2]. rewrite E1, E2 in Hcmp. rewrite (compare_ok (len l0)) in Hcmp by done. rewrite Z.compare_refl in Hcmp. symmetry in Hcmp. by apply Z.compare_eq_iff in Hcmp.
Qed.
(** size() is the number of tuples *)
Theorem C48_size : size (len l0) zs = m.
Proof. symmetry. apply cart_size. Qed.
End props.

(** three ranges: from the first tuple to the fourth, and back from the end *)
Example C48_sat : fits 100 [1; 2]%nat [[5; 6; 7]; [3; 4]]%nat /\
  cart [[1; 2]; [3; 4]; [5; 6; 7]]%nat !! 3%nat = Some [1; 4; 5]%nat /\
  (exists it, cis_at 100 [1; 2]%nat [[5; 6; 7]; [3; 4]]%nat 3 it /\ deref [1; 2]%nat [[5; 6; 7]; [3; 4]]%nat it.1 it.2 = Some [1; 4; 5]%nat) /\
  (exists it, cis_at 100 [1; 2]%nat [[5; 6; 7]; [3; 4]]%nat 4 it /\ deref [1; 2]%nat [[5; 6; 7]; [3; 4]]%nat it.1 it.2 = Some [1; 4; 6]%nat).
Proof.
  split; [by repeat split|]. split; [done|]. split.
  - exists ([0; 1], 0). split; [|done]. exists [CInc; CAdd 2]. left. split; [|done].
    apply (cms_cons _ _ _ 1); [apply (cm_inc _ 0); done|]. apply (cms_cons _ _ _ 3); [apply (cm_add _ 1 2); done|constructor].
  - exists ([1; 1], 0). split; [|done]. exists [CDec; CSub 7]. right. split; [|done].
    apply (cms_cons _ _ _ 11); [apply (cm_dec 12 12); done|]. apply (cms_cons _ _ _ 4); [apply (cm_sub 12 11 7); done|constructor].
Qed.
(** why every initial product must fit: here the product is empty, size() is 0, but begin() - default_sentinel overflows on the way
    (with debug checks it aborts) *)
Example C48_finding_overflow : size 100 [0; 100] = 0 /\ minus_sentinel 127 100 [0; 100] (begin [0; 100]) = None.
Proof. done. Qed.

Print Assumptions C48_moves.
Print Assumptions C48_deref.
Print Assumptions C48_compare.
Print Assumptions C48_size.
