(** C45: mdspan's layouts map distinct in-range multidimensional indices to distinct offsets below required_span_size.
    [t] is index_type (any standard integer type), [exts] the extents, [idx] a valid multidimensional index. *)
From stdpp Require Import base list list_numbers numbers decidable.
From Coq Require Import ZArith Lia.
From Verif Require Import Base.Res Base.Int Cont.MdspanModel Cont.MdspanSpec Cont.MdspanProofs Cont.MdspanProofs2 Cont.MdspanProofs3.
Local Open Scope Z_scope.

Lemma no0 exts idx : valid_index exts idx -> 0 ∉ exts.
Proof. intros Hv H0. pose proof (valid_pos _ _ Hv) as Hp. rewrite list.Forall_forall in Hp. specialize (Hp 0 H0). simpl in Hp. lia. Qed.
Lemma rank0 exts : 0 <= prod exts -> 0 < prod exts -> 0 ∉ exts.
Proof. intros _ H H0. rewrite (prod_zero _ H0) in H. lia. Qed.

Section packed.
  (* any mapping computing [dot idx strides] for packed positive strides *)
  Context (index : list Z -> res Z) (exts strides : list Z).
  Hypothesis Hidx : forall idx, valid_index exts idx -> index idx = Ok (dot idx strides).
  Hypothesis Hl : length strides = length exts.
  Hypothesis Hpos : Forall (fun e => 0 < e) exts -> Forall (fun s => 0 < s) strides.
  Hypothesis Htot : dot ((fun e => e - 1) <$> exts) strides = prod exts - 1.
  Hypothesis Hp : packed exts strides.
  Hypothesis Hnn : Forall (fun e => 0 <= e) exts.
  Lemma packed_layout : in_bounds index exts (prod exts) /\ unique index exts /\ exhaustive index exts (prod exts).
  Proof.
    split; [|split].
    - intros idx Hv. exists (dot idx strides). split; [by apply Hidx|].
      assert (Hs : Forall (fun s => 0 <= s) strides).
      { eapply list.Forall_impl; [apply Hpos, (valid_pos _ _ Hv)|]. simpl. lia. }
      pose proof (dot_bounds _ _ _ Hv Hs). lia.
    - intros i j o Hi Hj Hoi Hoj. rewrite Hidx in Hoi, Hoj by done. destruct Hp as (P & HP & HPc & _).
      apply (strided_unique exts strides i j P); try done; [apply Hpos, (valid_pos _ _ Hi)|by apply chain_eq_ge|congruence].
    - intros o Ho. assert (H0 : Forall (fun e => 0 < e) exts).
      { rewrite list.Forall_forall. intros e He. rewrite list.Forall_forall in Hnn. specialize (Hnn e He). simpl in Hnn.
        assert (e <> 0); [|lia]. intros ->. rewrite (prod_zero _ He) in Ho. lia. }
      destruct (packed_surj exts strides o) as (idx & Hv & Hd); try done; [by apply Hpos|].
      exists idx. split; [done|]. by rewrite Hidx, Hd.
  Qed.
End packed.

Lemma ext_nonneg t E exts : has_extents t E exts -> Forall (fun e => 0 <= e) exts.
Proof. intros (_ & _ & H). rewrite list.Forall_lookup. intros i e Hi. destruct (H i e Hi). simpl. lia. Qed.

(** layout_left: offset = sum of idx_k * (product of the extents before k); in bounds, injective and onto *)
Theorem C45_layout_left t E exts : std_ity t -> has_extents t E exts -> prod exts <= tmax t ->
  (forall idx, valid_index exts idx -> left_index t E idx = Ok (dot idx (left_strides exts))) /\
  in_bounds (left_index t E) exts (prod exts) /\ unique (left_index t E) exts /\ exhaustive (left_index t E) exts (prod exts).
Proof.
  intros Ht HE Hb. assert (Hi : forall idx, valid_index exts idx -> left_index t E idx = Ok (dot idx (left_strides exts))).
  { intros. by apply left_index_ok. }
  split; [done|]. rewrite left_strides_lstr in *. apply (packed_layout _ exts (lstr 1 exts)); try done.
  - apply lstr_length. - intros. by apply lstr_pos. - rewrite lstr_tot. lia. - apply lstr_packed. - by eapply ext_nonneg.
Qed.
(** layout_right: offset = sum of idx_k * (product of the extents after k) *)
Theorem C45_layout_right t E exts : std_ity t -> has_extents t E exts -> prod exts <= tmax t ->
  (forall idx, valid_index exts idx -> right_index t E idx = Ok (dot idx (right_strides exts))) /\
  in_bounds (right_index t E) exts (prod exts) /\ unique (right_index t E) exts /\ exhaustive (right_index t E) exts (prod exts).
Proof.
  intros Ht HE Hb. assert (Hi : forall idx, valid_index exts idx -> right_index t E idx = Ok (dot idx (right_strides exts))).
  { intros. by apply right_index_ok. }
  split; [done|]. rewrite right_strides_rstr in *. apply (packed_layout _ exts (rstr exts)); try done.
  - apply rstr_length. - apply rstr_pos. - apply rstr_tot. - apply rstr_packed. - by eapply ext_nonneg.
Qed.
(** required_span_size() is the product of the extents. For 16-bit index types with a dynamic extent this needs all
    extents positive (see [C45_required_span_size_refuted]). *)
Theorem C45_required_span_size t E exts : std_ity t -> has_extents t E exts -> prod exts <= tmax t ->
  (wd t <> 16 \/ Forall (fun o => o <> None) (st E) \/ 0 ∉ exts) ->
  left_required_span_size t E = Ok (prod exts) /\ right_required_span_size t E = Ok (prod exts).
Proof.
  intros Ht HE Hb Hc.
  assert (no_narrow_overflow t E exts) as Hnn.
  { destruct Hc as [?|[Hs|H0]]; [by left| |right; right; by eapply pos_of]. right. left. clear -Hs.
    induction Hs as [|[o|] l Ho Hs IH]; [done|rewrite rd_cons; done|done]. }
  split; by apply required_span_ok.
Qed.
(** stride(k), for layouts with positive extents *)
Theorem C45_strides t E exts k : std_ity t -> has_extents t E exts -> prod exts <= tmax t -> 0 ∉ exts -> (k < length exts)%nat ->
  exists l r, left_stride t E k = Ok l /\ left_strides exts !! k = Some l /\
              right_stride t E k = Ok r /\ right_strides exts !! k = Some r.
Proof.
  intros Ht HE Hb H0 Hk. pose proof (pos_of t Ht E exts HE H0) as Hp. exists (prod (take k exts)), (prod (drop (S k) exts)).
  unfold left_strides, right_strides. rewrite !list_lookup_fmap, !lookup_seq_lt by done. simpl. unfold left_stride, right_stride. split_and!; try done.
  - apply fwd_prod_ok; try done; [by right; right|lia|]. pose proof (prod_take_le t Ht E exts HE exts k Hp). lia.
  - by apply rev_prod_ok.
Qed.

(** layout_stride, for extents and strides satisfying the constructor's preconditions *)
Theorem C45_layout_stride t E exts strides : std_ity t -> has_extents t E exts -> valid_strides t exts strides ->
  (forall idx, valid_index exts idx -> stride_index t strides idx = Ok (dot idx strides)) /\
  in_bounds (stride_index t strides) exts (span_size exts strides) /\ unique (stride_index t strides) exts.
Proof.
  intros Ht HE HV. assert (Hi : forall idx, valid_index exts idx -> stride_index t strides idx = Ok (dot idx strides) /\ 0 <= dot idx strides < span_size exts strides).
  { intros. by apply (stride_index_ok t Ht E exts HE strides). }
  split; [intros; by apply Hi|]. split.
  - intros idx Hv. destruct (Hi idx Hv). eauto.
  - intros i j o Hvi Hvj Hoi Hoj. destruct (Hi i Hvi) as [Ei _]. destruct (Hi j Hvj) as [Ej _].
    destruct HV as (Hl & Hs & _ & HP). destruct (HP (no0 _ _ Hvi)) as (P & HPz & HPc).
    apply (strided_unique exts strides i j P); try done; [|congruence].
    eapply list.Forall_impl; [exact Hs|]. simpl. lia.
Qed.
(** its required_span_size(): 1 + sum (extent - 1) * stride, or 0 for an empty index space (when the partial sums
    cannot overflow: see [C45_stride_required_span_size_refuted]) *)
Theorem C45_stride_required_span_size t E exts strides : std_ity t -> has_extents t E exts -> valid_strides t exts strides ->
  (0 ∉ exts \/ t = u32 \/ t = u64) -> stride_required_span_size t E strides = Ok (span_size exts strides).
Proof.
  intros Ht HE HV Hc. apply stride_rss_ok; try done. destruct Hc as [?|[-> | ->]]; [by left|right; done|right; done].
Qed.
(** is_exhaustive() decides the standard's criterion (an ordering of the dimensions in which strides start at 1 and
    multiply up, or an empty index space), and when true every offset below required_span_size() is hit *)
Theorem C45_stride_is_exhaustive t E exts strides : std_ity t -> has_extents t E exts -> valid_strides t exts strides ->
  prod exts <= tmax t -> (0 ∉ exts \/ t = u32 \/ t = u64) ->
  exists b, stride_is_exhaustive t E strides = Ok b /\ (b = true <-> 0 ∈ exts \/ packed exts strides) /\
    (b = true -> exhaustive (stride_index t strides) exts (span_size exts strides)).
Proof.
  intros Ht HE HV Hb Hc.
  destruct (is_exhaustive_ok t Ht E exts HE strides HV) as (b & Hbe & Hbi).
  { destruct Hc as [?|[-> | ->]]; [by left|right; done|right; done]. } { done. }
  { destruct Hc as [H0|[-> | ->]]; [right; right; by eapply pos_of|by left|by left]. }
  exists b. split; [done|]. split; [done|]. rewrite Hbi. destruct (C45_layout_stride t E exts strides Ht HE HV) as (Hi & Hin & Hu).
  destruct HV as (Hl & Hs & Hsp & HP).
  assert (Hs' : Forall (fun s => 0 < s) strides) by (eapply list.Forall_impl; [exact Hs|]; simpl; lia).
  intros Hcase o Ho. unfold span_size in Ho. destruct (decide (0 ∈ exts)) as [H0|H0]; [lia|]. destruct Hcase as [?|Hp]; [done|].
  pose proof (pos_of t Ht E exts HE H0) as Hpe.
  destruct (packed_surj exts strides o) as (idx & Hv & Hd); try done.
  { destruct Hp as (P & HPz & HPc & HPh). pose proof (chain_eq_tot P 1 HPc HPh) as Ht0.
    rewrite (tot_perm _ _ HPz), (prod_perm _ _ (fmap_Permutation snd _ _ HPz)) in Ht0.
    assert ((zip strides exts).*2 = exts) as Hz by (apply zip_snd; lia).
    change (snd <$> zip strides exts) with ((zip strides exts).*2) in Ht0. rewrite Hz, tot_zip in Ht0 by done. lia. }
  exists idx. split; [done|]. by rewrite Hi, Hd.
Qed.
(** converting a layout_left / layout_right mapping to layout_stride keeps every offset *)
Lemma convert_ok t (Ht : std_ity t) (f : nat -> res Z) : forall n k ss, length ss = n -> Forall (fun s => 0 <= s <= tmax t) ss ->
  (forall i s, ss !! i = Some s -> f (k + i)%nat = Ok s) -> stride_convert t f n k = Ok ss.
Proof.
  induction n as [|n IH]; intros k ss Hl Hs Hf; destruct ss as [|s ss]; try done. cbn [stride_convert].
  rewrite <- (Nat.add_0_r k) at 1. rewrite (Hf 0%nat s eq_refl), rbind_ok. apply list.Forall_cons in Hs as [Hs0 Hs].
  rewrite (IH (S k) ss); [|simpl in Hl; lia|done|]. { rewrite rbind_ok, cast_small by done. done. }
  intros i s' Hi. rewrite <- (Hf (S i) s' Hi). f_equal. lia.
Qed.
Lemma strides_bound exts : Forall (fun e => 0 < e) exts ->
  Forall (fun s => 0 < s <= prod exts) (left_strides exts) /\ Forall (fun s => 0 < s <= prod exts) (right_strides exts).
Proof.
  intros Hp. assert (G : forall k, 0 < prod (take k exts) <= prod exts /\ 0 < prod (drop k exts) <= prod exts).
  { intros k. rewrite <- (take_drop k exts) in Hp. apply Forall_app in Hp as [H1 H2]. pose proof (prod_pos _ H1). pose proof (prod_pos _ H2).
    assert (prod exts = prod (take k exts) * prod (drop k exts)) as -> by (rewrite <- prod_app, take_drop; done). nia. }
  split; apply Forall_fmap; rewrite list.Forall_forall; intros k _; apply G.
Qed.
Theorem C45_convert_to_stride t E exts : std_ity t -> has_extents t E exts -> prod exts <= tmax t -> 0 ∉ exts ->
  exists l r, stride_convert t (left_stride t E) (rank E) 0 = Ok l /\ stride_convert t (right_stride t E) (rank E) 0 = Ok r /\
    valid_strides t exts l /\ valid_strides t exts r /\
    forall idx, valid_index exts idx -> stride_index t l idx = left_index t E idx /\ stride_index t r idx = right_index t E idx.
Proof.
  intros Ht HE Hb H0. pose proof (pos_of t Ht E exts HE H0) as Hp. pose proof (prod_pos _ Hp) as Hpp.
  assert (Hr : rank E = length exts) by (by apply (rankE t E exts HE)).
  destruct (strides_bound exts Hp) as [SL SR].
  assert (LL : length (left_strides exts) = length exts) by (unfold left_strides; by rewrite fmap_length, seq_length).
  assert (LR : length (right_strides exts) = length exts) by (unfold right_strides; by rewrite fmap_length, seq_length).
  assert (HVL : valid_strides t exts (left_strides exts)).
  { split; [done|]. split; [eapply list.Forall_impl; [exact SL|]; simpl; lia|]. split.
    - unfold span_size. rewrite decide_False by done. rewrite left_strides_lstr, lstr_tot. lia.
    - intros _. rewrite left_strides_lstr. destruct (lstr_packed exts) as (P & HP & HPc & _). exists P. split; [done|]. by apply chain_eq_ge. }
  assert (HVR : valid_strides t exts (right_strides exts)).
  { split; [done|]. split; [eapply list.Forall_impl; [exact SR|]; simpl; lia|]. split.
    - unfold span_size. rewrite decide_False by done. rewrite right_strides_rstr, rstr_tot. lia.
    - intros _. rewrite right_strides_rstr. destruct (rstr_packed exts) as (P & HP & HPc & _). exists P. split; [done|]. by apply chain_eq_ge. }
  exists (left_strides exts), (right_strides exts). split; [|split; [|split; [done|split; [done|]]]].
  - apply convert_ok; [done|lia|eapply list.Forall_impl; [exact SL|]; simpl; lia|]. intros i s Hi.
    destruct (C45_strides t E exts i) as (l & r & H1 & H2 & _); try done; [rewrite <- LL; by eapply lookup_lt_Some|]. simpl. congruence.
  - apply convert_ok; [done|lia|eapply list.Forall_impl; [exact SR|]; simpl; lia|]. intros i s Hi.
    destruct (C45_strides t E exts i) as (l & r & _ & _ & H1 & H2); try done; [rewrite <- LR; by eapply lookup_lt_Some|]. simpl. congruence.
  - intros idx Hv. destruct (C45_layout_stride t E exts _ Ht HE HVL) as (HL & _). destruct (C45_layout_stride t E exts _ Ht HE HVR) as (HR & _).
    destruct (C45_layout_left t E exts Ht HE Hb) as (HL' & _). destruct (C45_layout_right t E exts Ht HE Hb) as (HR' & _).
    rewrite HL, HR, HL', HR' by done. done.
Qed.

(** extents objects: the constructor from one value per dimension (values agreeing with the static extents [l]) makes an
    object with these extents, whose extent(i) is the i-th value; == compares extents *)
Theorem C45_extents t l vals : std_ity t ->
  Forall2 (fun o v => 0 <= v <= tmax t /\ match o with Some s => s = v | None => True end) l vals ->
  (exists E, ctor_all t l vals = Ok E /\ st E = l /\ has_extents t E vals /\ forall i v, vals !! i = Some v -> extent t E i = Ok v) /\
  (let d := (filter (fun p : option Z * Z => p.1 = None) (zip l vals)).*2 in
   has_extents t (ctor_dynamic t l d) vals /\ forall i v, vals !! i = Some v -> extent t (ctor_dynamic t l d) i = Ok v).
Proof.
  intros Ht Hm. split.
  - destruct (ctor_all_ok t Ht l vals Hm) as (E & HEq & Hst & HE). exists E. split; [done|]. split; [done|]. split; [done|].
    intros i v Hi. by destruct (extent_ok t Ht E vals i v HE Hi).
  - intros d. assert (d = dyn_of l vals) as ->.
    { unfold d, dyn_of. f_equal. apply list_filter_iff. intros [[|] ?]; simpl; split; done. }
    pose proof (ctor_dynamic_ok t Ht l vals Hm) as HE. split; [done|].
    intros i v Hi. by destruct (extent_ok t Ht _ vals i v HE Hi).
Qed.
Theorem C45_extents_eq t E F a b : std_ity t -> has_extents t E a -> has_extents t F b ->
  exists r, exts_eq t E F = Ok r /\ (r = true <-> a = b).
Proof. intros Ht. by apply exts_eq_ok. Qed.

(** element access through any mapping with those properties: a write changes exactly that element *)
Theorem C45_mdspan_access {A} t E exts strides (buf : list A) : std_ity t -> has_extents t E exts -> valid_strides t exts strides ->
  span_size exts strides <= Z.of_nat (length buf) -> forall idx, valid_index exts idx ->
  (exists v, md_read (stride_index t strides) buf idx = Ok v) /\
  forall v, exists buf', md_write (stride_index t strides) buf idx v = Ok buf' /\ length buf' = length buf /\
    forall idx', valid_index exts idx' ->
      md_read (stride_index t strides) buf' idx' = if decide (idx' = idx) then Ok v else md_read (stride_index t strides) buf idx'.
Proof.
  intros Ht HE HV Hn. destruct (C45_layout_stride t E exts strides Ht HE HV) as (_ & Hin & Hu). by apply (md_ok _ exts (span_size exts strides)).
Qed.
Theorem C45_mdspan_access_left_right {A} t E exts (buf : list A) index : std_ity t -> has_extents t E exts -> prod exts <= tmax t ->
  prod exts <= Z.of_nat (length buf) -> index = left_index t E \/ index = right_index t E -> forall idx, valid_index exts idx ->
  (exists v, md_read index buf idx = Ok v) /\
  forall v, exists buf', md_write index buf idx v = Ok buf' /\ length buf' = length buf /\
    forall idx', valid_index exts idx' ->
      md_read index buf' idx' = if decide (idx' = idx) then Ok v else md_read index buf idx'.
Proof.
  intros Ht HE Hb Hn [-> | ->].
  - destruct (C45_layout_left t E exts Ht HE Hb) as (_ & Hin & Hu & _). by apply (md_ok _ exts (prod exts)).
  - destruct (C45_layout_right t E exts Ht HE Hb) as (_ & Hin & Hu & _). by apply (md_ok _ exts (prod exts)).
Qed.

(** the excluded cases are real: 16-bit extents (65535, 65535, 0), whose product is 0, make required_span_size overflow
    int; int extents (2^20, 0) with strides (2^20, 1) make layout_stride's required_span_size overflow *)
Example C45_required_span_size_refuted :
  has_extents u16 (Exts [None; None; None] [65535; 65535; 0]) [65535; 65535; 0] /\ prod [65535; 65535; 0] = 0 /\
  left_required_span_size u16 (Exts [None; None; None] [65535; 65535; 0]) = UB.
Proof.
  split; [|split; vm_compute; reflexivity]. split; [done|]. split; [done|].
  intros i e Hi. do 3 (destruct i as [|i]; [injection Hi as <-; vm_compute; repeat split; congruence|]). done.
Qed.
Example C45_stride_required_span_size_refuted :
  has_extents s32 (Exts [None; None] [2 ^ 20; 0]) [2 ^ 20; 0] /\ valid_strides s32 [2 ^ 20; 0] [2 ^ 20; 1] /\
  stride_required_span_size s32 (Exts [None; None] [2 ^ 20; 0]) [2 ^ 20; 1] = UB.
Proof.
  split; [|split; [|vm_compute; reflexivity]].
  - split; [done|]. split; [done|].
    intros i e Hi. do 2 (destruct i as [|i]; [injection Hi as <-; vm_compute; repeat split; congruence|]). done.
  - split; [done|]. split; [repeat constructor; vm_compute; congruence|]. split; [vm_compute; congruence|].
    intros H. exfalso. apply H. right. left.
Qed.
(** satisfiability: a 2 x 3 x 4 index space, one static extent, the middle dimension innermost *)
Example C45_sat :
  let E := Exts [None; Some 3; None] [2; 4] in
  has_extents s32 E [2; 3; 4] /\ valid_strides s32 [2; 3; 4] [12; 1; 3] /\ valid_index [2; 3; 4] [1; 2; 3] /\
  left_index s32 E [1; 2; 3] = Ok 23 /\ right_index s32 E [0; 2; 1] = Ok 9 /\ stride_index s32 [12; 1; 3] [1; 0; 3] = Ok 21 /\
  stride_is_exhaustive s32 E [12; 1; 3] = Ok true.
Proof.
  intros E. split.
  { split; [done|]. split; [done|]. intros i e Hi. do 3 (destruct i as [|i]; [injection Hi as <-; vm_compute; repeat split; congruence|]). done. }
  split.
  { split; [done|]. split; [repeat constructor; vm_compute; congruence|]. split; [vm_compute; congruence|].
    intros _. exists [(1, 3); (3, 4); (12, 2)]. split; [|simpl; lia].
    change (zip [12; 1; 3] [2; 3; 4]) with ([(12, 2)] ++ [(1, 3); (3, 4)]). by rewrite Permutation_app_comm. }
  split; [repeat constructor; lia|]. repeat (split; [vm_compute; reflexivity|]). vm_compute. reflexivity.
Qed.

Print Assumptions C45_layout_left.
Print Assumptions C45_layout_right.
Print Assumptions C45_required_span_size.
Print Assumptions C45_strides.
Print Assumptions C45_layout_stride.
Print Assumptions C45_stride_required_span_size.
Print Assumptions C45_stride_is_exhaustive.
Print Assumptions C45_convert_to_stride.
Print Assumptions C45_extents.
Print Assumptions C45_extents_eq.
Print Assumptions C45_mdspan_access.
Print Assumptions C45_mdspan_access_left_right.
