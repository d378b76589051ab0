(** Insertion positions and the bucket vector; arithmetic of bucket counts. *)
From stdpp Require Import base list numbers option decidable.
From Coq Require Import Lia.
From Verif Require Import Base.Res Cont.ListModel Cont.ListSpec Cont.ListProofs Cont.ListProofs2 Cont.HashModel Cont.HashSpec Cont.HashProofs.
Local Open Scope nat_scope.

Section pos.
Context {K V : Type} (kfn : V -> K) (hash : K -> nat) (keq : K -> K -> bool) (HO : hash_ok hash keq).
Implicit Types (l a c d m A C M : list (nat * V)) (x y : nat * V) (P : nat * V -> bool).
Notation yes P := (Forall (fun x : nat * V => P x = true)).
Notation no P := (Forall (fun x : nat * V => P x = false)).
Notation inb := (inb kfn hash).
Notation eqk := (eqk kfn keq).
Notation key x := (kfn (snd x)).

Lemma keq_cong k k' (z : K) : keq k k' = true -> keq k z = keq k' z.
Proof.
  intros E. destruct (keq k z) eqn:E1, (keq k' z) eqn:E2; try done.
  - by rewrite (ho_trans _ _ HO k' k z) in E2; [|apply (ho_sym _ _ HO)|].
  - by rewrite (ho_trans _ _ HO k k' z) in E1.
Qed.
Lemma keq_comm k k' : keq k k' = keq k' k.
Proof. destruct (keq k k') eqn:E1, (keq k' k) eqn:E2; try done; [apply (ho_sym _ _ HO) in E1|apply (ho_sym _ _ HO) in E2]; congruence. Qed.
Lemma eqk_same k y z : eqk k y = true -> eqk (key y) z = eqk k z.
Proof. unfold HashSpec.eqk. intros E. symmetry. by apply keq_cong. Qed.
Lemma eqk_inb n y z (b : nat) : eqk (key y) z = true -> inb n b y = inb n b z.
Proof. unfold HashSpec.eqk, HashSpec.inb. intros E. by rewrite (ho_hash _ _ HO _ _ E). Qed.
Lemma inb_true n b x : inb n b x = true <-> hash (key x) mod n = b.
Proof. unfold HashSpec.inb. by rewrite bool_decide_eq_true. Qed.

Definition grp (n : nat) l : Prop := (forall b, contig (inb n b) l) /\ (forall k, contig (eqk k) l).
Lemma grp_nil n : grp n [].
Proof. split; intros; apply contig_nil. Qed.
Lemma grp_sub n l l' : sublist l' l -> grp n l -> grp n l'.
Proof. intros S [H1 H2]. split; intros; by eapply contig_sub. Qed.

(** A position for [x] in the list A ++ M1 ++ M2 ++ C: between M1 and M2, where M1 ++ M2 are the elements of x's bucket *)
Definition tgtk n k A M1 M2 C : Prop :=
  no (inb n (hash k mod n)) A /\ yes (inb n (hash k mod n)) (M1 ++ M2) /\ no (inb n (hash k mod n)) C /\
  ((M1 = [] /\ M2 = [] /\ C = []) \/ (M1 = [] /\ M2 <> [] /\ no (eqk k) M2) \/ (exists M y, M1 = M ++ [y] /\ eqk k y = true)).
Notation tgt n x := (tgtk n (key x)).
Lemma inb_diff n b k y z : inb n b y = true -> inb n b z = false -> eqk k y = true -> eqk k z = false.
Proof.
  intros Hy Hz E. destruct (eqk k z) eqn:E2; [|done]. assert (X : eqk (key y) z = true) by by rewrite (eqk_same k). rewrite (eqk_inb n _ _ b X) in Hy. congruence.
Qed.
Lemma tgt_grp n x A M1 M2 C : grp n (A ++ M1 ++ M2 ++ C) -> tgt n x A M1 M2 C -> grp n ((A ++ M1) ++ x :: M2 ++ C).
Proof.
  intros [G1 G2] (HA & HM & HC & H). rewrite (app_assoc A M1) in G1, G2. apply Forall_app in HM as [HM1 HM2].
  set (b0 := hash (key x) mod n) in *.
  assert (NE : no (inb n b0) A -> no (eqk (key x)) A).
  { intros F. eapply list.Forall_impl; [exact F|]. cbn beta. intros z Hz. destruct (eqk (key x) z) eqn:E; [|done]. rewrite <- (eqk_inb n x z b0 E) in Hz. by rewrite (proj2 (inb_true n b0 x)) in Hz. }
  assert (NEC : no (eqk (key x)) C).
  { eapply list.Forall_impl; [exact HC|]. cbn beta. intros z Hz. destruct (eqk (key x) z) eqn:E; [|done]. rewrite <- (eqk_inb n x z b0 E) in Hz. by rewrite (proj2 (inb_true n b0 x)) in Hz. }
  split; intros k; apply contig_ins; try done.
  - destruct (inb n k x) eqn:E.
    + apply inb_true in E. fold b0 in E. subst k. destruct H as [(-> & -> & ->)|[(-> & Hne & _)|(M & y & -> & _)]].
      * left. by rewrite !app_nil_r.
      * right; right. destruct M2 as [|y M2]; [done|]. exists y. split; [done|]. by apply list.Forall_cons in HM2 as [? _].
      * right; left. exists y. rewrite app_assoc, last_snoc. split; [done|]. apply Forall_app in HM1 as [_ X]. by apply list.Forall_cons in X as [? _].
    + assert (Hk : forall y, inb n b0 y = true -> inb n k y = false).
      { intros y Hy. apply inb_true in Hy. destruct (inb n k y) eqn:E2; [|done]. apply inb_true in E2. rewrite Hy in E2. subst k. by rewrite (proj2 (inb_true n b0 x)) in E. }
      destruct H as [(-> & -> & ->)|[(-> & Hne & _)|(M & y & -> & _)]].
      * right. done.
      * right. intros y. destruct M2 as [|z M2]; [done|]. intros [= ->]. apply Hk. by apply list.Forall_cons in HM2 as [? _].
      * left. intros z. rewrite app_assoc, last_snoc. intros [= ->]. apply Hk. apply Forall_app in HM1 as [_ X]. by apply list.Forall_cons in X as [? _].
  - destruct (eqk k x) eqn:E.
    + pose proof (fun z => eqk_same k x z E) as S. destruct H as [(-> & -> & ->)|[(-> & Hne & HN)|(M & y & -> & Hy)]].
      * left. rewrite !app_nil_r. eapply list.Forall_impl; [apply NE, HA|]. cbn beta. intros z Hz. by rewrite <- S.
      * left. rewrite app_nil_r, !Forall_app. split_and!; [eapply list.Forall_impl; [apply NE, HA|]|eapply list.Forall_impl; [exact HN|]|eapply list.Forall_impl; [exact NEC|]]; cbn beta; intros z Hz; by rewrite <- S.
      * right; left. exists y. rewrite app_assoc, last_snoc. split; [done|]. by rewrite <- S.
    + destruct H as [(-> & -> & ->)|[(-> & Hne & HN)|(M & y & -> & Hy)]].
      * right. done.
      * destruct M2 as [|z M2]; [done|]. destruct (eqk k z) eqn:Ez; [|right; by intros y [= ->]].
        left. rewrite app_nil_r. intros y (l' & ->)%last_Some. apply Forall_app in HA as [_ HA]. apply list.Forall_cons in HA as [HA _]. apply list.Forall_cons in HM2 as [Hz _]. by eapply (inb_diff n b0 k z).
      * left. intros z. rewrite app_assoc, last_snoc. intros [= ->]. destruct (eqk k z) eqn:Ez; [|done]. exfalso. rewrite <- (eqk_same k z x Ez) in E. unfold HashSpec.eqk in *. rewrite keq_comm in E. congruence.
Qed.
(** effect on the key groups *)
Lemma tgt_group x A M1 M2 C k : group kfn keq k ((A ++ M1) ++ x :: M2 ++ C) =
  group kfn keq k (A ++ M1) ++ (if eqk k x then [x] else []) ++ group kfn keq k (M2 ++ C).
Proof. unfold group. rewrite lf_app, lf_cons. by destruct (eqk k x). Qed.
Lemma tgt_last n x A M1 M2 C : tgt n x A M1 M2 C -> no (eqk (key x)) M2 -> forall k,
  group kfn keq k ((A ++ M1) ++ x :: M2 ++ C) = group kfn keq k (A ++ M1 ++ M2 ++ C) ++ (if eqk k x then [x] else []).
Proof.
  intros (HA & HM & HC & H) HN k. rewrite tgt_group. rewrite (app_assoc A M1). unfold group. rewrite (lf_app _ (A ++ M1)). destruct (eqk k x) eqn:E.
  - rewrite (lf_no _ (M2 ++ C)); [by rewrite !app_nil_r|]. apply Forall_app. split.
    + eapply list.Forall_impl; [exact HN|]. cbn beta. intros z. by rewrite (eqk_same k x z E).
    + eapply list.Forall_impl; [exact HC|]. cbn beta. intros z Hz. destruct (eqk k z) eqn:E2; [|done]. assert (X : eqk (key x) z = true) by by rewrite (eqk_same k x z E). rewrite <- (eqk_inb n x z _ X) in Hz. by rewrite (proj2 (inb_true n _ x)) in Hz.
  - cbn [app]. by rewrite app_nil_r.
Qed.

(** ** the bucket vector *)
Definition vec_ok (n hd : nat) (v : list nat) l : Prop :=
  length v = 2 * n /\ forall b, b < n -> v !! (2 * b) = Some (fst_of hd (List.filter (inb n b) l)) /\ v !! (2 * b + 1) = Some (lst_of hd (List.filter (inb n b) l)).
Lemma vec_lo n hd v l b : vec_ok n hd v l -> b < n -> vrd v (2 * b) = Ok (fst_of hd (List.filter (inb n b) l)).
Proof. intros [_ H] Hb. unfold vrd. by rewrite (proj1 (H b Hb)). Qed.
Lemma vec_hi n hd v l b : vec_ok n hd v l -> b < n -> vrd v (2 * b + 1) = Ok (lst_of hd (List.filter (inb n b) l)).
Proof. intros [_ H] Hb. unfold vrd. by rewrite (proj2 (H b Hb)). Qed.
Lemma vwr_ok v i (q : nat) : i < length v -> vwr v i q = Ok (<[i := q]> v).
Proof. intros. unfold vwr. by rewrite decide_True. Qed.
(** a vector that agrees with [v] except for bucket [b0] *)
Lemma vec_upd n hd v l l' b0 (lo hi : nat) v' : vec_ok n hd v l -> b0 < n ->
  (forall b, b <> b0 -> List.filter (inb n b) l' = List.filter (inb n b) l) ->
  length v' = length v -> (forall i, i <> 2 * b0 -> i <> 2 * b0 + 1 -> v' !! i = v !! i) ->
  v' !! (2 * b0) = Some (fst_of hd (List.filter (inb n b0) l')) -> v' !! (2 * b0 + 1) = Some (lst_of hd (List.filter (inb n b0) l')) ->
  vec_ok n hd v' l'.
Proof.
  intros [L H] Hb HF L' HV H0 H1. split; [by rewrite L'|]. intros b Hbn. destruct (decide (b = b0)) as [->|Hne]; [done|].
  rewrite !HV by lia. rewrite (HF b Hne). by apply H.
Qed.
Lemma filter_other n b x A B : inb n b x = false -> List.filter (inb n b) (A ++ x :: B) = List.filter (inb n b) (A ++ B).
Proof. intros E. by rewrite !lf_app, lf_cons, E. Qed.
Lemma inb_other n b x : b <> hash (key x) mod n -> inb n b x = false.
Proof. intros Hne. destruct (inb n b x) eqn:E; [|done]. apply inb_true in E. congruence. Qed.
Lemma filter_pos n x A M1 M2 C : tgt n x A M1 M2 C -> List.filter (inb n (hash (key x) mod n)) ((A ++ M1) ++ x :: M2 ++ C) = M1 ++ x :: M2.
Proof.
  intros (HA & HM & HC & _). apply Forall_app in HM as [H1 H2]. rewrite !lf_app, lf_cons, (proj2 (inb_true n _ x)) by done.
  rewrite lf_app, (lf_no _ A), (lf_yes _ M1), (lf_yes _ M2), (lf_no _ C) by done. by rewrite app_nil_r.
Qed.
Lemma filter_mid n x A M1 M2 C : tgt n x A M1 M2 C -> List.filter (inb n (hash (key x) mod n)) (A ++ M1 ++ M2 ++ C) = M1 ++ M2.
Proof.
  intros (HA & HM & HC & _). apply Forall_app in HM as [H1 H2]. rewrite !lf_app.
  rewrite (lf_no _ A), (lf_yes _ M1), (lf_yes _ M2), (lf_no _ C) by done. by rewrite app_nil_r.
Qed.
(** the three ways the code updates the vector on insertion *)
Lemma vec_ins_empty n hd v x A C : n <> 0 -> vec_ok n hd v (A ++ C) -> tgt n x A [] [] C ->
  let b := hash (key x) mod n in vec_ok n hd (<[2 * b + 1 := x.1]> (<[2 * b := x.1]> v)) (A ++ x :: C).
Proof.
  intros Hn Hv T b. assert (Hb : b < n) by (by apply Nat.mod_upper_bound). pose proof (filter_pos _ _ _ _ _ _ T) as F. fold b in F. rewrite app_nil_r in F. cbn [app] in F.
  eapply (vec_upd n hd v (A ++ C) _ b 0 0); [done|done| | | | |].
  - intros b' Hb'. apply filter_other. by apply inb_other.
  - by rewrite !insert_length.
  - intros i H1 H2. by rewrite !list_lookup_insert_ne by done.
  - destruct Hv as [L _]. rewrite list_lookup_insert_ne by lia. rewrite list_lookup_insert by lia. by rewrite F.
  - destruct Hv as [L _]. rewrite list_lookup_insert by (rewrite insert_length; lia). by rewrite F.
Qed.
Lemma vec_ins_front n hd v x A M2 C : n <> 0 -> M2 <> [] -> vec_ok n hd v (A ++ M2 ++ C) -> tgt n x A [] M2 C ->
  let b := hash (key x) mod n in vec_ok n hd (<[2 * b := x.1]> v) (A ++ x :: M2 ++ C).
Proof.
  intros Hn Hne Hv T b. assert (Hb : b < n) by (by apply Nat.mod_upper_bound). pose proof (filter_pos _ _ _ _ _ _ T) as F. pose proof (filter_mid _ _ _ _ _ _ T) as F0. fold b in F, F0. rewrite app_nil_r in F. cbn [app] in F, F0.
  destruct (proj2 Hv b Hb) as [L0 L1]. rewrite F0 in L0, L1.
  eapply (vec_upd n hd v (A ++ M2 ++ C) _ b 0 0); [done|done| | | | |].
  - intros b' Hb'. apply filter_other. by apply inb_other.
  - by rewrite !insert_length.
  - intros i H1 H2. by rewrite !list_lookup_insert_ne by done.
  - destruct Hv as [L _]. rewrite list_lookup_insert by lia. by rewrite F.
  - rewrite list_lookup_insert_ne by lia. rewrite L1, F. f_equal. change (x :: M2) with ([x] ++ M2). rewrite lst_of_app. by apply lst_of_ne.
Qed.
Lemma vec_ins_back n hd v x A M1 C : n <> 0 -> M1 <> [] -> vec_ok n hd v (A ++ M1 ++ C) -> tgt n x A M1 [] C ->
  let b := hash (key x) mod n in vec_ok n hd (<[2 * b + 1 := x.1]> v) ((A ++ M1) ++ x :: C).
Proof.
  intros Hn Hne Hv T b. assert (Hb : b < n) by (by apply Nat.mod_upper_bound). pose proof (filter_pos _ _ _ _ _ _ T) as F. pose proof (filter_mid _ _ _ _ _ _ T) as F0. fold b in F, F0. rewrite app_nil_r in F0. cbn [app] in F, F0.
  destruct (proj2 Hv b Hb) as [L0 L1]. rewrite F0 in L0, L1. rewrite app_assoc in Hv.
  eapply (vec_upd n hd v ((A ++ M1) ++ C) _ b 0 0); [done|done| | | | |].
  - intros b' Hb'. apply filter_other. by apply inb_other.
  - by rewrite !insert_length.
  - intros i H1 H2. by rewrite !list_lookup_insert_ne by done.
  - rewrite list_lookup_insert_ne by lia. rewrite L0, F. f_equal. rewrite fst_of_app. by apply fst_of_ne.
  - destruct Hv as [L _]. rewrite list_lookup_insert by lia. rewrite F, lst_of_app. done.
Qed.
Lemma vec_ins_mid n hd v x A M1 M2 C : n <> 0 -> M1 <> [] -> M2 <> [] -> vec_ok n hd v (A ++ M1 ++ M2 ++ C) -> tgt n x A M1 M2 C ->
  vec_ok n hd v ((A ++ M1) ++ x :: M2 ++ C).
Proof.
  intros Hn Hne Hne2 Hv T. set (b := hash (key x) mod n). assert (Hb : b < n) by (by apply Nat.mod_upper_bound). pose proof (filter_pos _ _ _ _ _ _ T) as F. pose proof (filter_mid _ _ _ _ _ _ T) as F0. fold b in F, F0.
  destruct (proj2 Hv b Hb) as [L0 L1]. rewrite F0 in L0, L1. rewrite app_assoc in Hv.
  eapply (vec_upd n hd v ((A ++ M1) ++ M2 ++ C) _ b 0 0); [done|done| |done|done| |].
  - intros b' Hb'. apply filter_other. by apply inb_other.
  - rewrite L0, F. f_equal. rewrite !fst_of_app. by apply fst_of_ne.
  - rewrite L1, F. f_equal. rewrite !lst_of_app. change (x :: M2) with ([x] ++ M2). rewrite lst_of_app. by apply lst_of_ne.
Qed.
(** deletion of a stretch of one bucket *)
Lemma filter_del n b A M C : no (inb n b) M -> List.filter (inb n b) (A ++ M ++ C) = List.filter (inb n b) (A ++ C).
Proof. intros H. by rewrite !lf_app, (lf_no _ M). Qed.

(** ** bucket counts *)
Lemma land_mask j w : Nat.land w (2 ^ j - 1) = w mod 2 ^ j.
Proof. rewrite <- Nat.land_ones. f_equal. rewrite Nat.ones_equiv. lia. Qed.
Lemma pow_pos j : 2 ^ j <> 0.
Proof. by apply Nat.pow_nonzero. Qed.
End pos.
