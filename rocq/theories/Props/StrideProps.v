(** Property C42: iterators of views::stride and views::chunk. *)
From stdpp Require Import base list numbers option.
From Coq Require Import ZArith Lia.
From Verif Require Import Alg.StrideModel Alg.StrideSpec Alg.StrideProofs.
Local Open Scope Z_scope.

(** what the views show exists and is determined by the range and the step *)
Theorem C42_stride_exists {A} (k : nat) (l : list A) : (0 < k)%nat -> exists out, is_stride k l out /\ forall out', is_stride k l out' -> out' = out.
Proof.
  intros Hk. destruct (stride_exist k l Hk) as [out H]. exists out. split; [done|]. intros out' H'. apply list_eq. intros i. by rewrite H, H'.
Qed.
Theorem C42_chunk_exists {A} (k : nat) (l : list A) : (0 < k)%nat -> exists out, is_chunks k l out /\ forall out', is_chunks k l out' -> out' = out.
Proof.
  intros Hk. destruct (chunks_exist k Hk (length l) l) as [out H]; [done|]. exists out. split; [done|]. intros out' H'. apply list_eq. intros i.
  destruct (chunks_lookup k Hk _ _ H) as (A1 & A2 & A3), (chunks_lookup k Hk _ _ H') as (B1 & B2 & B3).
  assert (E : Z.of_nat (length out') = Z.of_nat (length out)) by (apply (ceil_unique (Z.of_nat k) _ _ (Z.of_nat (length l))); lia).
  destruct (out !! i) as [c|] eqn:Ec.
  - destruct (lookup_lt_is_Some_2 out' i) as [c' Ec']; [apply lookup_lt_Some in Ec; lia|]. rewrite Ec'. f_equal. by rewrite (A3 _ _ Ec), (B3 _ _ Ec').
  - apply lookup_ge_None_2. apply lookup_ge_None_1 in Ec. lia.
Qed.

Section props.
Context {A : Type} (r : rng) (l : list A).

(** an iterator can be moved freely over the elements: no move has undefined behaviour *)
Lemma moves_ok m os i : view_of r l -> n r <= m * s r -> (m - 1) * s r < n r ->
  (moves m 0 os i -> is_Some (run r ibegin os)) /\ (exists e, iend r = Some e /\ (moves m m os i -> is_Some (run r e os))).
Proof.
  intros (Hn & Hs & HM) H1 H2. assert (Hn' : 0 <= n r) by lia. pose proof (m_nonneg r m Hs Hn' H1) as Hm0. split.
  - intros Hmv. rewrite (begin_ok r Hn'). destruct (run_ok r m Hs Hn' HM H1 H2 os 0 i) as [-> _]; [lia|done|by eexists].
  - exists (atx r m). split; [by apply end_ok|]. intros Hmv. destruct (run_ok r m Hs Hn' HM H1 H2 os m i) as [-> _]; [lia|done|by eexists].
Qed.
Theorem C42_stride_moves out os i : view_of r l -> is_stride (Z.to_nat (s r)) l out ->
  let m := Z.of_nat (length out) in
  (moves m 0 os i -> is_Some (run r ibegin os)) /\ (exists e, iend r = Some e /\ (moves m m os i -> is_Some (run r e os))).
Proof.
  intros Hv Ho m. subst m. pose proof Hv as (Hn & Hs & HM). assert (Hk : (0 < Z.to_nat (s r))%nat) by lia. destruct (stride_length _ _ _ Hk Ho) as [H1 H2]. rewrite Z2Nat.id in H1, H2 by lia. apply moves_ok; [done|lia..].
Qed.
Theorem C42_chunk_moves out os i : view_of r l -> is_chunks (Z.to_nat (s r)) l out ->
  let m := Z.of_nat (length out) in
  (moves m 0 os i -> is_Some (run r ibegin os)) /\ (exists e, iend r = Some e /\ (moves m m os i -> is_Some (run r e os))).
Proof.
  intros Hv Ho m. subst m. pose proof Hv as (Hn & Hs & HM). assert (Hk : (0 < Z.to_nat (s r))%nat) by lia. destruct (chunks_lookup _ Hk _ _ Ho) as (H1 & H2 & _). rewrite Z2Nat.id in H1, H2 by lia. apply moves_ok; [done|lia..].
Qed.

(** dereferencing shows the element the iterator was moved to; the iterator equals the end (sentinel) exactly at the end *)
Theorem C42_stride_deref out i it : view_of r l -> is_stride (Z.to_nat (s r)) l out -> is_at r (Z.of_nat (length out)) i it ->
  sderef r l it = out !! Z.to_nat i /\ at_end r it = bool_decide (i = Z.of_nat (length out)).
Proof.
  intros Hv Ho Hi. pose proof Hv as (Hn & Hs & HM). assert (Hk : (0 < Z.to_nat (s r))%nat) by lia. destruct (stride_length _ _ _ Hk Ho) as [H1 H2]. rewrite Z2Nat.id in H1, H2 by lia.
  assert (Hn' : 0 <= n r) by lia. destruct (is_at_atx r (Z.of_nat (length out)) Hs Hn' HM ltac:(lia) ltac:(lia) _ _ Hi) as [-> Hb]. set (m := Z.of_nat (length out)) in *.
  unfold sderef, at_end. destruct (decide (i = m)) as [->|Hne].
  - rewrite atx_end by (done || lia). rewrite decide_False by lia. split; [symmetry; apply lookup_ge_None_2; lia|by rewrite !bool_decide_true].
  - destruct (atx_lt r m Hs ltac:(lia) i) as [Hc Hlt]; [lia|]. rewrite Hc. rewrite decide_True by nia. split; [|rewrite !bool_decide_false; [done|lia..]].
    rewrite Ho. f_equal. rewrite Z2Nat.inj_mul by lia. done.
Qed.
Theorem C42_chunk_deref out i it : view_of r l -> is_chunks (Z.to_nat (s r)) l out -> is_at r (Z.of_nat (length out)) i it ->
  cderef r l it = out !! Z.to_nat i /\ at_end r it = bool_decide (i = Z.of_nat (length out)).
Proof.
  intros Hv Ho Hi. pose proof Hv as (Hn & Hs & HM). assert (Hk : (0 < Z.to_nat (s r))%nat) by lia. destruct (chunks_lookup _ Hk _ _ Ho) as (H1 & H2 & H3). rewrite Z2Nat.id in H1, H2 by lia.
  assert (Hn' : 0 <= n r) by lia. destruct (is_at_atx r (Z.of_nat (length out)) Hs Hn' HM ltac:(lia) ltac:(lia) _ _ Hi) as [-> Hb]. set (m := Z.of_nat (length out)) in *.
  unfold cderef, at_end. destruct (decide (i = m)) as [->|Hne].
  - rewrite atx_end by (done || lia). rewrite decide_False by lia. split; [symmetry; apply lookup_ge_None_2; lia|by rewrite !bool_decide_true].
  - destruct (atx_lt r m Hs ltac:(lia) i) as [Hc Hlt]; [lia|]. rewrite Hc. rewrite decide_True by nia. split; [|rewrite !bool_decide_false; [done|lia..]].
    destruct (lookup_lt_is_Some_2 out (Z.to_nat i)) as [c Ec]; [lia|]. rewrite Ec, (H3 _ _ Ec). f_equal. rewrite Z2Nat.inj_mul by lia. done.
Qed.

(** comparisons and differences of iterators are those of the indices; size() is the number of elements. [m] is that number *)
Theorem C42_compare m i j it jt : view_of r l -> n r <= m * s r -> (m - 1) * s r < n r -> is_at r m i it -> is_at r m j jt ->
  eqb it jt = bool_decide (i = j) /\ ltb it jt = bool_decide (i < j) /\ diff r it jt = Some (i - j) /\
  sent_diff r it = Some (m - i) /\ diff_sent r it = Some (i - m).
Proof.
  intros (Hn & Hs & HM) H1 H2 Hi Hj. assert (Hn' : 0 <= n r) by lia.
  destruct (is_at_atx r m Hs Hn' HM H1 H2 _ _ Hi) as [-> Hbi], (is_at_atx r m Hs Hn' HM H1 H2 _ _ Hj) as [-> Hbj].
  pose proof (atx_mono r m Hs H1 H2 i j Hbi Hbj) as Hij. pose proof (atx_mono r m Hs H1 H2 j i Hbj Hbi) as Hji.
  assert (Heq : i = j -> cur (atx r i) = cur (atx r j)) by (by intros ->).
  split; [|split; [|split; [|split]]].
  - unfold eqb. apply bool_decide_ext. lia.
  - unfold ltb. apply bool_decide_ext. lia.
  - by apply (diff_ok r m).
  - unfold sent_diff. pose proof (cur_bound r Hs Hn' i ltac:(lia)). rewrite ck_ok by lia. cbn [mbind option_bind]. by rewrite (sent_ok r m).
  - unfold diff_sent. pose proof (cur_bound r Hs Hn' i ltac:(lia)). rewrite ck_ok by lia. cbn [mbind option_bind]. rewrite (sent_ok r m) by done. f_equal. lia.
Qed.
Theorem C42_stride_compare out i j it jt : view_of r l -> is_stride (Z.to_nat (s r)) l out ->
  let m := Z.of_nat (length out) in is_at r m i it -> is_at r m j jt ->
  eqb it jt = bool_decide (i = j) /\ ltb it jt = bool_decide (i < j) /\ diff r it jt = Some (i - j) /\
  sent_diff r it = Some (m - i) /\ diff_sent r it = Some (i - m).
Proof.
  intros Hv Ho m. subst m. pose proof Hv as (Hn & Hs & HM). assert (Hk : (0 < Z.to_nat (s r))%nat) by lia. destruct (stride_length _ _ _ Hk Ho) as [H1 H2]. rewrite Z2Nat.id in H1, H2 by lia. apply C42_compare; [done|lia..].
Qed.
Theorem C42_chunk_compare out i j it jt : view_of r l -> is_chunks (Z.to_nat (s r)) l out ->
  let m := Z.of_nat (length out) in is_at r m i it -> is_at r m j jt ->
  eqb it jt = bool_decide (i = j) /\ ltb it jt = bool_decide (i < j) /\ diff r it jt = Some (i - j) /\
  sent_diff r it = Some (m - i) /\ diff_sent r it = Some (i - m).
Proof.
  intros Hv Ho m. subst m. pose proof Hv as (Hn & Hs & HM). assert (Hk : (0 < Z.to_nat (s r))%nat) by lia. destruct (chunks_lookup _ Hk _ _ Ho) as (H1 & H2 & _). rewrite Z2Nat.id in H1, H2 by lia. apply C42_compare; [done|lia..].
Qed.
Theorem C42_size : view_of r l ->
  (forall out, is_stride (Z.to_nat (s r)) l out -> size r = Z.of_nat (length out)) /\
  (forall out, is_chunks (Z.to_nat (s r)) l out -> size r = Z.of_nat (length out)).
Proof.
  intros (Hn & Hs & HM). assert (Hk : (0 < Z.to_nat (s r))%nat) by lia. split; intros out Ho; unfold size; apply div_ceil_ok; try lia.
  - destruct (stride_length _ _ _ Hk Ho). lia.
  - destruct (stride_length _ _ _ Hk Ho). lia.
  - destruct (chunks_lookup _ Hk _ _ Ho) as (? & ? & _). lia.
  - destruct (chunks_lookup _ Hk _ _ Ho) as (? & ? & _). lia.
Qed.
End props.

(** seven elements, steps of three: forward past the last short chunk, back from the end *)
Example C42_sat : let r := Rng true true 7 3 100 in view_of r [1; 2; 3; 4; 5; 6; 7]%nat /\
  is_chunks 3 [1; 2; 3; 4; 5; 6; 7]%nat [[1; 2; 3]; [4; 5; 6]; [7]]%nat /\
  (exists it, is_at r 3 2 it /\ cderef r [1; 2; 3; 4; 5; 6; 7]%nat it = Some [7]%nat /\ sderef r [1; 2; 3; 4; 5; 6; 7]%nat it = Some 7%nat) /\
  (exists it, is_at r 3 1 it /\ cderef r [1; 2; 3; 4; 5; 6; 7]%nat it = Some [4; 5; 6]%nat).
Proof.
  split; [by split; [|split]|]. split; [|split].
  - split; [done|]. intros i c H. destruct i as [|[|[|i]]]; try (injection H as <-; cbn; split; [done|split; [lia|intros; lia]]). done.
  - exists (It 6 0). split; [|done]. exists [Add 3; Dec]. left. split; [|done].
    apply (mvs_cons _ _ _ 3); [apply (mv_add 3 0 3); lia|]. apply (mvs_cons _ _ _ 2); [apply (mv_dec 3 3); lia|constructor].
  - exists (It 3 0). split; [|done]. exists [Sub 2]. right. exists (It 7 2). split; [done|]. split; [|done].
    apply (mvs_cons _ _ _ 1); [apply (mv_sub 3 3 2); lia|constructor].
Qed.
(** why the length plus the step must be a value of difference_type: begin() + size() overflows otherwise *)
Example C42_finding_overflow : let r := Rng true true 127 2 127 in size r = 64 /\ add r ibegin 64 = None.
Proof. done. Qed.

Print Assumptions C42_stride_exists.
Print Assumptions C42_chunk_exists.
Print Assumptions C42_stride_moves.
Print Assumptions C42_chunk_moves.
Print Assumptions C42_stride_deref.
Print Assumptions C42_chunk_deref.
Print Assumptions C42_compare.
Print Assumptions C42_stride_compare.
Print Assumptions C42_chunk_compare.
Print Assumptions C42_size.
