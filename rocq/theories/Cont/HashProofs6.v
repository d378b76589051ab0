(** Removal of ranges. *)
From stdpp Require Import base list numbers option decidable.
From Coq Require Import Lia.
From Verif Require Import Base.Res Cont.ListModel Cont.ListSpec Cont.ListProofs Cont.ListProofs2 Cont.ListProofs3 Cont.ListProofs4 Cont.ListProofs5 Cont.ListProofs6 Cont.HashModel Cont.HashSpec Cont.HashProofs Cont.HashProofs2 Cont.HashProofs3 Cont.HashProofs4 Cont.HashProofs5.
Local Open Scope nat_scope.

Section ops.
Context {K V : Type} (kfn : V -> K) (hash : K -> nat) (keq : K -> K -> bool) (HO : hash_ok hash keq).
Implicit Types (h : heap V) (l a c d m A C M G D R S : list (nat * V)) (x y z : nat * V) (P : nat * V -> bool) (t : tbl).
Notation yes P := (Forall (fun x : nat * V => P x = true)).
Notation no P := (Forall (fun x : nat * V => P x = false)).
Notation inb := (inb kfn hash).
Notation eqk := (eqk kfn keq).
Notation key x := (kfn (snd x)).
Notation hd t := (lhead (tl t)).
Notation wf := (wf kfn hash keq).
Notation vec_ok := (vec_ok kfn hash).
Notation grp := (grp kfn hash keq).
Notation group := (group kfn keq).

Lemma drain_full (last e hi : nat) : forall S h sz fuel, S <> [] -> nseg h S e -> NoDup S.*1 -> hi = lst_of 0 S -> (forall z, z ∈ list.tail S -> z.1 <> last) -> length S <= fuel ->
  exists h', drain fuel h sz (fst_of 0 S) hi last = Ok (h', sz - length S, e, true) /\ freed h' S.*1 /\ frame h h' S.*1.
Proof.
  unfold drain. induction S as [|x S IH]; intros h sz fuel NE Sg ND Hhi Hl HF; [done|]. destruct fuel as [|fuel]; [cbn in HF; lia|].
  match goal with |- context [loop (Datatypes.S fuel) ?B _] => set (BB := B) in * end. rewrite loop_S; unfold BB at 1.
  cbn [nseg] in Sg. destruct Sg as (Sg1 & Sg2 & Sg3). cbn [fst_of]. rewrite (N_ok _ _ _ Sg1), rbind_ok.
  destruct (free_step h x.1 x.2 Sg2) as (h1 & E1 & G1 & F1). rewrite E1, rbind_ok. rewrite fmap_cons in ND. apply list.NoDup_cons in ND as [Hx ND].
  destruct (decide (S = [])) as [->|NS].
  - rewrite bool_decide_true by (by rewrite Hhi). rewrite rbind_ok. exists h1. split; [done|]. split; [|done]. intros p Hp. apply elem_of_list_singleton in Hp as ->. done.
  - rewrite bool_decide_false.
    2:{ rewrite Hhi. change (x :: S) with ([x] ++ S). rewrite (lst_app_ne 0 [x] S NS). destruct (lst_of_ptr 0 S NS) as (w & Hw & ->). intros Q. apply Hx. rewrite Q. by apply in_ptrs. }
    rewrite decide_False.
    2:{ destruct (fst_of_ptr e S NS) as (w & Hw & Ew). rewrite Ew. by apply Hl. }
    rewrite rbind_ok.
    destruct (IH h1 (sz - 1) fuel NS) as (h' & E' & G' & F').
    + eapply nseg_frame; [exact Sg3|]. intros p Hp. apply F1. intros Q. apply elem_of_list_singleton in Q as ->. done.
    + done.
    + rewrite Hhi. change (x :: S) with ([x] ++ S). by rewrite (lst_app_ne 0 [x] S NS).
    + intros z Hz. apply Hl. cbn [list.tail]. destruct S; [done|]. by right.
    + cbn [length] in HF. lia.
    + exists h'. rewrite (fst_of_ne e 0 S NS). rewrite E'. split; [do 4 f_equal; cbn [length]; lia|]. split.
      * intros p Hp. rewrite fmap_cons in Hp. apply elem_of_cons in Hp as [->|Hp]; [|by apply G']. rewrite (F' _ Hx). done.
      * intros p Hp. rewrite fmap_cons, not_elem_of_cons in Hp. destruct Hp as [Hp1 Hp2]. rewrite (F' p Hp2). apply F1. by intros ->%elem_of_list_singleton.
Qed.
Lemma drain_part (last hi : nat) : forall S h sz fuel, S <> [] -> nseg h S last -> NoDup S.*1 -> hi ∉ S.*1 -> last ∉ S.*1 -> length S <= fuel ->
  exists h', drain fuel h sz (fst_of 0 S) hi last = Ok (h', sz - length S, last, false) /\ freed h' S.*1 /\ frame h h' S.*1.
Proof.
  unfold drain. induction S as [|x S IH]; intros h sz fuel NE Sg ND Hhi Hl HF; [done|]. destruct fuel as [|fuel]; [cbn in HF; lia|].
  match goal with |- context [loop (Datatypes.S fuel) ?B _] => set (BB := B) in * end. rewrite loop_S; unfold BB at 1.
  cbn [nseg] in Sg. destruct Sg as (Sg1 & Sg2 & Sg3). cbn [fst_of]. rewrite (N_ok _ _ _ Sg1), rbind_ok.
  destruct (free_step h x.1 x.2 Sg2) as (h1 & E1 & G1 & F1). rewrite E1, rbind_ok. rewrite fmap_cons in ND. apply list.NoDup_cons in ND as [Hx ND].
  rewrite fmap_cons, not_elem_of_cons in Hhi, Hl. destruct Hhi as [Hhi1 Hhi2], Hl as [Hl1 Hl2]. rewrite bool_decide_false by congruence.
  destruct (decide (S = [])) as [->|NS].
  - cbn [fst_of]. rewrite decide_True by done. rewrite rbind_ok. exists h1. split; [done|]. split; [|done]. intros p Hp. apply elem_of_list_singleton in Hp as ->. done.
  - rewrite decide_False.
    2:{ destruct (fst_of_ptr last S NS) as (w & Hw & Ew). rewrite Ew. intros Q. apply Hl2. rewrite <- Q. by apply in_ptrs. }
    rewrite rbind_ok.
    destruct (IH h1 (sz - 1) fuel NS) as (h' & E' & G' & F'); try done.
    + eapply nseg_frame; [exact Sg3|]. intros p Hp. apply F1. intros Q. apply elem_of_list_singleton in Q as ->. done.
    + cbn [length] in HF. lia.
    + exists h'. rewrite (fst_of_ne last 0 S NS). rewrite E'. split; [do 4 f_equal; cbn [length]; lia|]. split.
      * intros p Hp. rewrite fmap_cons in Hp. apply elem_of_cons in Hp as [->|Hp]; [|by apply G']. rewrite (F' _ Hx). done.
      * intros p Hp. rewrite fmap_cons, not_elem_of_cons in Hp. destruct Hp as [Hp1 Hp2]. rewrite (F' p Hp2). apply F1. by intros ->%elem_of_list_singleton.
Qed.

Lemma contig3 P w y z : contig P [w; y; z] -> P w = true -> P y = false -> P z = true -> False.
Proof.
  intros (a & m & c & E & HM & HN) Hw Hy Hz. apply Forall_app in HN as [HA HC].
  destruct a as [|a0 a]; cbn [app] in E.
  2:{ injection E as <- _. apply list.Forall_cons in HA as [HA _]. congruence. }
  destruct m as [|m0 m]; cbn [app] in E.
  { subst c. apply list.Forall_cons in HC as [HC _]. congruence. }
  injection E as <- E. apply list.Forall_cons in HM as [_ HM]. destruct m as [|m1 m]; cbn [app] in E.
  { subst c. apply list.Forall_cons in HC as [_ HC]. apply list.Forall_cons in HC as [HC _]. congruence. }
  injection E as <- E. apply list.Forall_cons in HM as [HM _]. congruence.
Qed.
Lemma sub_elem x l : x ∈ l -> sublist [x] l.
Proof. intros (a & c & ->)%elem_of_list_split. apply (sublist_inserts_l a [x]). apply sublist_skip. apply sublist_nil_l. Qed.
Lemma contig_left P a y c : contig P (a ++ y :: c) -> P y = false -> (exists z, z ∈ c /\ P z = true) -> no P a.
Proof.
  intros HC Hy (z & Hz & Pz). apply list.Forall_forall. intros w Hw. destruct (P w) eqn:Ew; [|done]. exfalso.
  eapply (contig3 P w y z); try done. eapply contig_sub; [|exact HC]. change [w; y; z] with ([w] ++ y :: [z]). apply sublist_app; [by apply sub_elem|]. apply sublist_skip. by apply sub_elem.
Qed.

Lemma sublist_NoDup (l1 l2 : list nat) : NoDup l2 -> sublist l1 l2 -> NoDup l1.
Proof.
  intros ND S. induction S as [|w l1 l2 S IH|w l1 l2 S IH]; [done| |]; apply list.NoDup_cons in ND as [Hw ND].
  - apply list.NoDup_cons. split; [|by apply IH]. intros Q. apply Hw. by eapply elem_of_submseteq; [|apply sublist_submseteq].
  - by apply IH.
Qed.
Lemma fmap_sublist (l1 l2 : list (nat * V)) : sublist l1 l2 -> sublist l1.*1 l2.*1.
Proof. intros S. induction S; rewrite ?fmap_cons; by constructor. Qed.
(** the bucket vector after dropping the elements y :: M2 of a bucket, or only y :: r of y :: r ++ k *)
Lemma filter_seg n y A M1 M2 C : no (inb n (hash (key y) mod n)) A -> yes (inb n (hash (key y) mod n)) (M1 ++ y :: M2) -> no (inb n (hash (key y) mod n)) C ->
  List.filter (inb n (hash (key y) mod n)) ((A ++ M1) ++ C) = M1.
Proof. intros HA HM HC. apply Forall_app in HM as [HM _]. rewrite !lf_app, (lf_no _ A), (lf_no _ C), (lf_yes _ M1) by done. by rewrite app_nil_r. Qed.
Lemma not_other n b b' M : yes (inb n b) M -> b' <> b -> no (inb n b') M.
Proof. intros H Hne. eapply list.Forall_impl; [exact H|]. cbn beta. intros z Hz%inb_true. apply inb_other. congruence. Qed.
Lemma vec_del_full n hd v y A M1 M2 C : n <> 0 -> vec_ok n hd v ((A ++ M1) ++ (y :: M2) ++ C) ->
  no (inb n (hash (key y) mod n)) A -> yes (inb n (hash (key y) mod n)) (M1 ++ y :: M2) -> no (inb n (hash (key y) mod n)) C ->
  vec_ok n hd (if decide (M1 = []) then <[2 * (hash (key y) mod n) + 1 := hd]> (<[2 * (hash (key y) mod n) := hd]> v)
               else <[2 * (hash (key y) mod n) + 1 := lst_of hd (A ++ M1)]> v) ((A ++ M1) ++ C).
Proof.
  intros Hn Hv HA HM HC. set (b := hash (key y) mod n) in *. assert (Hb : b < n) by by apply Nat.mod_upper_bound. pose proof (proj1 Hv) as Lv.
  pose proof (filter_seg n y A M1 M2 C HA HM HC) as EF. fold b in EF.
  eapply (vec_upd kfn hash n hd v _ _ b hd hd); try done.
  - intros b' Hne. symmetry. apply filter_del. eapply not_other; [|exact Hne]. by apply Forall_app in HM as [_ HM].
  - case_decide; by rewrite !insert_length.
  - intros i H1 H2. case_decide; by rewrite !list_lookup_insert_ne by lia.
  - rewrite EF. case_decide as E1.
    + rewrite E1. rewrite list_lookup_insert_ne by lia. by rewrite list_lookup_insert by lia.
    + rewrite list_lookup_insert_ne by lia. rewrite (proj1 (proj2 Hv b Hb)). f_equal.
      rewrite !lf_app, (lf_no _ A) by done. cbn [app]. apply Forall_app in HM as [HM _]. rewrite (lf_yes _ M1) by done. by rewrite fst_app_ne.
  - rewrite EF. case_decide as E1.
    + rewrite E1. by rewrite list_lookup_insert by (rewrite insert_length; lia).
    + rewrite list_lookup_insert by lia. by rewrite lst_app_ne.
Qed.
Lemma vec_del_part n hd v y A M1 r k C : n <> 0 -> k <> [] -> vec_ok n hd v ((A ++ M1) ++ (y :: r) ++ k ++ C) ->
  no (inb n (hash (key y) mod n)) A -> yes (inb n (hash (key y) mod n)) (M1 ++ y :: r ++ k) -> no (inb n (hash (key y) mod n)) C ->
  vec_ok n hd (if decide (M1 = []) then <[2 * (hash (key y) mod n) := fst_of hd (k ++ C)]> v else v) ((A ++ M1) ++ k ++ C).
Proof.
  intros Hn Hk Hv HA HM HC. set (b := hash (key y) mod n) in *. assert (Hb : b < n) by by apply Nat.mod_upper_bound. pose proof (proj1 Hv) as Lv.
  apply Forall_app in HM as [HM1 HM]. apply list.Forall_cons in HM as [HMy HM]. apply Forall_app in HM as [HMr HMk].
  assert (EF : List.filter (inb n b) ((A ++ M1) ++ k ++ C) = M1 ++ k). { rewrite !lf_app, (lf_no _ A), (lf_no _ C), (lf_yes _ M1), (lf_yes _ k) by done. by rewrite app_nil_r. }
  assert (EF0 : List.filter (inb n b) ((A ++ M1) ++ (y :: r) ++ k ++ C) = M1 ++ (y :: r) ++ k). { rewrite !lf_app, (lf_no _ A), (lf_no _ C), (lf_yes _ M1), (lf_yes _ k), (lf_yes _ (y :: r)) by (done || by constructor). by rewrite app_nil_r. }
  eapply (vec_upd kfn hash n hd v _ _ b hd hd); try done.
  - intros b' Hne. symmetry. apply filter_del. eapply not_other; [|exact Hne]. by constructor.
  - case_decide; by rewrite ?insert_length.
  - intros i H1 H2. case_decide; by rewrite ?list_lookup_insert_ne by lia.
  - rewrite EF. case_decide as E1.
    + rewrite E1. rewrite list_lookup_insert by lia. cbn [app]. by rewrite fst_app_ne.
    + rewrite (proj1 (proj2 Hv b Hb)), EF0. by rewrite !fst_app_ne.
  - rewrite EF. assert (E0 : v !! (2 * b + 1) = Some (lst_of hd (M1 ++ k))). { rewrite (proj2 (proj2 Hv b Hb)), EF0. by rewrite (app_assoc M1), !lst_app_ne. }
    case_decide; [|done]. by rewrite list_lookup_insert_ne by lia.
Qed.

(** one bucket of the range: [h] is [h0] with the nodes of m1 gone *)
Lemma bucket_step h0 h t a m1 y r c vec F : is_list h0 (tl t) (a ++ m1 ++ (y :: r) ++ c) -> shape t -> grp (tmax t) (a ++ m1 ++ (y :: r) ++ c) ->
  vec_ok (tmax t) (hd t) vec (a ++ (y :: r) ++ c) -> frame h0 h m1.*1 -> freed h m1.*1 -> length (y :: r) <= F ->
  let b := hash (key y) mod tmax t in
  exists M1 hi h' sz', vl h y.1 = Some y.2 /\ vrd vec (2 * b) = Ok (if decide (M1 = []) then y.1 else fst_of (hd t) M1) /\ vrd vec (2 * b + 1) = Ok hi /\
    (exists A, a = A ++ M1 /\ no (inb (tmax t) b) A) /\ (M1 <> [] -> fst_of (hd t) M1 <> y.1) /\ yes (inb (tmax t) b) M1 /\
    ((exists m0 m3, m0 <> [] /\ y :: r = m0 ++ m3 /\ drain F h (length (a ++ (y :: r) ++ c)) y.1 hi (fst_of (hd t) c) = Ok (h', sz', fst_of (hd t) (m3 ++ c), true) /\
        sz' = length (a ++ m3 ++ c) /\ frame h0 h' (m1 ++ m0).*1 /\ freed h' (m1 ++ m0).*1 /\
        vec_ok (tmax t) (hd t) (if decide (M1 = []) then <[2 * b + 1 := hd t]> (<[2 * b := hd t]> vec) else <[2 * b + 1 := lst_of (hd t) a]> vec) (a ++ m3 ++ c) /\
        forall z, list.head m3 = Some z -> no (inb (tmax t) (hash (key z) mod tmax t)) a) \/
     (drain F h (length (a ++ (y :: r) ++ c)) y.1 hi (fst_of (hd t) c) = Ok (h', sz', fst_of (hd t) c, false) /\
        sz' = length (a ++ c) /\ frame h0 h' (m1 ++ y :: r).*1 /\ freed h' (m1 ++ y :: r).*1 /\
        vec_ok (tmax t) (hd t) (if decide (M1 = []) then <[2 * b := fst_of (hd t) c]> vec else vec) (a ++ c))).
Proof.
  intros [Rg Sz] Sh G0 Hv Fr Fd HF b.
  assert (SUB : sublist (a ++ (y :: r) ++ c) (a ++ m1 ++ (y :: r) ++ c)) by apply sub_mid_del.
  assert (G : grp (tmax t) (a ++ (y :: r) ++ c)) by (eapply grp_sub; [exact SUB|done]).
  set (n := tmax t) in *. assert (Hn : n <> 0) by by apply shape_nz. assert (Hb : b < n) by by apply shape_lt. pose proof (proj1 Hv) as Lv.
  assert (ND0 : NoDup (hd t :: (a ++ m1 ++ (y :: r) ++ c).*1)) by apply Rg.
  pose proof (proj2 (proj1 (list.NoDup_cons _ _) ND0)) as ND1.
  assert (ND : NoDup (a ++ y :: r ++ c).*1). { eapply sublist_NoDup; [exact ND1|]. by apply fmap_sublist. }
  destruct (split_at kfn hash keq n a y (r ++ c) ND G) as (A & M1 & M2 & C & EA & EC & EF & HA & HM & HC). fold b in EF, HA, HM, HC.
  assert (YM : y.1 ∉ a.*1 /\ y.1 ∉ m1.*1 /\ y.1 ∉ r.*1 /\ y.1 ∉ c.*1).
  { change (a ++ m1 ++ (y :: r) ++ c) with (a ++ m1 ++ y :: r ++ c) in ND1. rewrite !fmap_app, fmap_cons, fmap_app in ND1. rewrite app_assoc in ND1.
    apply list.NoDup_app in ND1 as (_ & N2 & N3). apply list.NoDup_cons in N3 as [N3 _].
    split_and!; intros Q.
    - eapply N2; [apply elem_of_app; left; exact Q|left].
    - eapply N2; [apply elem_of_app; right; exact Q|left].
    - apply N3. apply elem_of_app; by left.
    - apply N3. apply elem_of_app; by right. }
  destruct YM as (Ya & Ym & Yr & Yc).
  assert (EFF : List.filter (inb n b) (a ++ (y :: r) ++ c) = M1 ++ y :: M2) by exact EF.
  assert (MC : forall p, p ∈ m1.*1 -> p ∈ ((y :: r) ++ c).*1 -> False).
  { intros p Hp1 Hp2. rewrite fmap_app in ND1. apply list.NoDup_app in ND1 as (_ & _ & ND1). rewrite fmap_app in ND1. apply list.NoDup_app in ND1 as (_ & N2 & _). by apply (N2 p). }
  assert (NSEG : nseg h (y :: M2) (fst_of (hd t) C)).
  { eapply nseg_frame.
    - apply (nseg_ring h0 (hd t) (a ++ m1) (y :: M2) C). change (y :: r) with ([y] ++ r) in Rg. rewrite <- !app_assoc in *. cbn [app] in *. rewrite <- EC. exact Rg.
    - intros p Hp. apply Fr. intros Q. apply (MC p Q). change ((y :: r) ++ c) with (y :: r ++ c). rewrite EC. change (y :: M2 ++ C) with ((y :: M2) ++ C). rewrite fmap_app. apply elem_of_app; by left. }
  assert (VY : vl h y.1 = Some y.2). { cbn [nseg] in NSEG. apply NSEG. }
  assert (ND2 : NoDup (y :: M2).*1).
  { eapply sublist_NoDup; [exact ND|]. apply fmap_sublist. rewrite EC. apply (sublist_inserts_l a). change (y :: M2 ++ C) with ((y :: M2) ++ C). by apply sublist_inserts_r. }
  assert (LAST : fst_of (hd t) c ∉ (y :: r).*1).
  { intros Q. assert (Qm : fst_of (hd t) c ∈ (a ++ m1 ++ (y :: r) ++ c).*1 -> fst_of (hd t) c <> hd t).
    { intros Q2 E. apply list.NoDup_cons in ND0 as [ND0 _]. apply ND0. by rewrite <- E. }
    destruct c as [|c0 c]; cbn [fst_of] in *.
    - apply Qm; [|done]. rewrite !fmap_app. apply elem_of_app; right. apply elem_of_app; right. apply elem_of_app; by left.
    - rewrite !fmap_app in ND1. apply list.NoDup_app in ND1 as (_ & _ & ND1). apply list.NoDup_app in ND1 as (_ & _ & ND1). apply list.NoDup_app in ND1 as (_ & N2 & _). apply (N2 c0.1 Q). rewrite fmap_cons. left. }
  exists M1, (lst_of 0 (y :: M2)).
  assert (LO : vrd vec (2 * b) = Ok (if decide (M1 = []) then y.1 else fst_of (hd t) M1)).
  { rewrite (vec_lo kfn hash n (hd t) vec _ b) by done. rewrite EFF. case_decide as E; [by rewrite E|by rewrite fst_app_ne]. }
  assert (HI : vrd vec (2 * b + 1) = Ok (lst_of 0 (y :: M2))).
  { rewrite (vec_hi kfn hash n (hd t) vec _ b) by done. rewrite EFF. rewrite lst_app_ne by done. f_equal. by apply lst_of_ne. }
  assert (NEQ : M1 <> [] -> fst_of (hd t) M1 <> y.1).
  { intros NM. destruct (fst_of_ptr (hd t) M1 NM) as (w & Hw & ->). intros Q. apply Ya. rewrite <- Q. apply in_ptrs. rewrite EA. apply elem_of_app; by right. }
  assert (YM1 : yes (inb n b) M1) by by apply Forall_app in HM as [HM _].
  assert (CASES : (exists m3, r = M2 ++ m3 /\ C = m3 ++ c) \/ (exists k, k <> [] /\ M2 = r ++ k /\ c = k ++ C)).
  { destruct (app_eq_inv _ _ _ _ EC) as [(k & E1 & E2)|(k & E1 & E2)]; [left; by exists k|]. destruct (decide (k = [])) as [->|Hk]; [|right; by exists k].
    left. exists []. rewrite app_nil_r in *. by subst. }
  destruct CASES as [(m3 & Er & EC')|(k & Hk & EM2 & EC')].
  - destruct (drain_full (fst_of (hd t) c) (fst_of (hd t) C) (lst_of 0 (y :: M2)) (y :: M2) h (length (a ++ (y :: r) ++ c)) F) as (h' & E' & G' & F'); try done.
    { cbn [list.tail]. intros z Hz Q. apply LAST. rewrite <- Q, fmap_cons. right. rewrite Er, fmap_app. apply elem_of_app; left. by apply in_ptrs. }
    { rewrite Er in HF. cbn [length] in *. rewrite app_length in HF. lia. }
    exists h', (length (a ++ (y :: r) ++ c) - length (y :: M2)). do 3 (split; [done|]). split; [by exists A|]. do 2 (split; [done|]). left.
    exists (y :: M2), m3. split; [done|]. split; [by rewrite Er|]. split; [rewrite <- EC'; exact E'|]. split; [rewrite Er, !app_length; cbn [length]; rewrite !app_length; lia|].
    split; [|split; [|split]].
    + intros p Hp. rewrite fmap_app, not_elem_of_app in Hp. destruct Hp as [Hp1 Hp2]. rewrite (F' p Hp2). by apply Fr.
    + intros p Hp. rewrite fmap_app in Hp. apply elem_of_app in Hp as [Hp|Hp]; [|by apply G']. destruct (decide (p ∈ (y :: M2).*1)) as [Hq|Hq]; [by apply G'|]. rewrite (F' p Hq). by apply Fd.
    + rewrite EA, <- EC'. apply (vec_del_full n (hd t) vec y A M1 M2 C); try done. rewrite <- EA, EC'. revert Hv. rewrite Er. intros Hv. exactA Hv.
    + intros z Hz. destruct m3 as [|z' m3]; [done|]. cbn in Hz. injection Hz as ->.
      eapply (contig_left _ a y (M2 ++ z :: m3 ++ c)).
      * destruct G as [G _]. specialize (G (hash (key z) mod n)). rewrite Er in G. exactA G.
      * apply inb_other. intros Q. rewrite EC' in HC. cbn [app] in HC. apply list.Forall_cons in HC as [HC _]. fold b in Q. rewrite (proj2 (inb_true kfn hash n b z)) in HC; congruence.
      * exists z. split; [apply elem_of_app; right; left|by apply inb_true].
  - destruct (drain_part (fst_of (hd t) c) (lst_of 0 (y :: M2)) (y :: r) h (length (a ++ (y :: r) ++ c)) F) as (h' & E' & G' & F'); try done.
    { eapply nseg_frame.
      - apply (nseg_ring h0 (hd t) (a ++ m1) (y :: r) c). rewrite <- app_assoc. exact Rg.
      - intros p Hp. apply Fr. intros Q. apply (MC p Q). rewrite fmap_app. apply elem_of_app; by left. }
    { rewrite fmap_cons. apply list.NoDup_cons. split; [done|]. rewrite EM2 in ND2. rewrite fmap_cons, fmap_app in ND2. apply list.NoDup_cons in ND2 as [_ ND2]. by apply list.NoDup_app in ND2 as [ND2 _]. }
    { intros Q. rewrite EM2 in Q. change (y :: r ++ k) with ((y :: r) ++ k) in Q. rewrite lst_app_ne in Q by done.
      destruct (lst_of_ptr 0 k Hk) as (w & Hw & Ew). rewrite Ew in Q. rewrite EM2 in ND2. change (y :: r ++ k) with ((y :: r) ++ k) in ND2. rewrite fmap_app in ND2. apply list.NoDup_app in ND2 as (_ & N2 & _). apply (N2 w.1 Q). by apply in_ptrs. }
    exists h', (length (a ++ (y :: r) ++ c) - length (y :: r)). do 3 (split; [done|]). split; [by exists A|]. do 2 (split; [done|]). right. split; [exact E'|]. split; [rewrite !app_length; lia|].
    split; [|split].
    + intros p Hp. rewrite fmap_app, not_elem_of_app in Hp. destruct Hp as [Hp1 Hp2]. rewrite (F' p Hp2). by apply Fr.
    + intros p Hp. rewrite fmap_app in Hp. apply elem_of_app in Hp as [Hp|Hp]; [|by apply G']. destruct (decide (p ∈ (y :: r).*1)) as [Hq|Hq]; [by apply G'|]. rewrite (F' p Hq). by apply Fd.
    + rewrite EA, EC'. apply (vec_del_part n (hd t) vec y A M1 r k C); try done. { rewrite <- EA, <- EC'. exact Hv. } fold b. rewrite EM2 in HM. exact HM.
Qed.
End ops.
