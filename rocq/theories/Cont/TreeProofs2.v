From stdpp Require Import base list numbers option decidable.
From Coq Require Import Lia.
From Verif Require Import Base.Res Base.Order Cont.TreeModel Cont.TreeSpec Cont.TreeProofs.

Section tree.
Context {V : Type}.
Implicit Types (h : heap V) (t l r : tree V).
Notation frame := (@frame V).
Fixpoint rootK (q : nat) (K : list frame) : nat := match K with [] => q | f :: K => rootK (fptr f) K end.
Lemma krep_head h mn mx K : forall q, krep h mn mx q K -> h 0 = Some (Node mn (rootK q K) mx Black true None).
Proof. induction K as [|[c x v r|c l x v] K IH]; intros q; cbn [krep rootK fptr]; [done| |]; intros (_ & _ & Hk); by apply IH. Qed.
Lemma fptr_in (f : frame) K : fptr f ∈ kptrs (f :: K).
Proof. unfold kptrs. destruct f; cbn [fptr before after]; rewrite ?fmap_app, ?fmap_cons, !elem_of_app, ?elem_of_cons; cbn; rewrite ?fmap_app, ?elem_of_app, ?elem_of_cons; tauto. Qed.
Lemma kptrs_sub (f : frame) K z : z ∈ kptrs K -> z ∈ kptrs (f :: K).
Proof. unfold kptrs. destruct f; cbn [before after]; rewrite ?fmap_app, ?fmap_cons, ?fmap_app, !elem_of_app, ?elem_of_cons, ?elem_of_app; tauto. Qed.
Lemma rootK_in K : forall f q, rootK q (f :: K) ∈ kptrs (f :: K).
Proof. induction K as [|g K IH]; intros f q; [apply fptr_in|]. cbn [rootK]. apply kptrs_sub. apply (IH g (fptr f)). Qed.
Lemma parK_in (K : list frame) : parK K = 0 \/ parK K ∈ kptrs K.
Proof. destruct K as [|f K]; [by left|right; apply fptr_in]. Qed.
Definition relinkK h (mn mx : nat) (K : list frame) (p : nat) : heap V :=
  match K with
  | [] => upd h 0 (Some (Node mn p mx Black true None))
  | FL c x v r :: K' => upd h x (Some (Node p (parK K') (root r) c false (Some v)))
  | FR c l x v :: K' => upd h x (Some (Node (root l) (parK K') p c false (Some v)))
  end.
Lemma relinkK_ne h mn mx K p z : z <> parK K -> relinkK h mn mx K p z = h z.
Proof. destruct K as [|[] K]; cbn [relinkK parK fptr]; intros Hz; by apply upd_ne. Qed.
Lemma kptrs_FL c x v r (K : list frame) : kptrs (FL c x v r :: K) ≡ₚ x :: ptrs r ++ kptrs K.
Proof. unfold kptrs, ptrs. cbn [before after]. rewrite fmap_cons, fmap_app. cbn [fst]. rewrite <- Permutation_middle. constructor. rewrite !app_assoc. apply Permutation_app_tail. apply Permutation_app_comm. Qed.
Lemma kptrs_FR c l x v (K : list frame) : kptrs (FR c l x v :: K) ≡ₚ x :: ptrs l ++ kptrs K.
Proof.
  unfold kptrs, ptrs. cbn [before after]. rewrite !fmap_app, fmap_cons. cbn [fst]. rewrite fmap_nil. 
  rewrite (Permutation_app_comm (before K).*1). rewrite <- !app_assoc. cbn [app]. rewrite <- Permutation_middle. done.
Qed.
Lemma relinkK_krep h mn mx q K p : krep h mn mx q K -> NoDup (0 :: kptrs K) -> krep (relinkK h mn mx K p) mn mx p K.
Proof.
  destruct K as [|[c x v r|c l x v] K]; cbn [krep relinkK]; [intros _ _; apply upd_eq| |]; intros (H1 & H2 & H3) Hn.
  - rewrite kptrs_FL in Hn. apply list.NoDup_cons in Hn as [Hn0 Hn]. apply list.NoDup_cons in Hn as [Hn1 Hn2]. rewrite elem_of_app in Hn1. rewrite elem_of_cons in Hn0.
    split_and!; [by rewrite upd_eq| |].
    + eapply tr_frame; [|exact H2]. intros y Hy. apply upd_ne. intros ->. tauto.
    + eapply krep_frame; [| |exact H3]; [apply upd_ne; intros <-; tauto|]. intros y Hy. apply upd_ne. intros ->. tauto.
  - rewrite kptrs_FR in Hn. apply list.NoDup_cons in Hn as [Hn0 Hn]. apply list.NoDup_cons in Hn as [Hn1 Hn2]. rewrite elem_of_app in Hn1. rewrite elem_of_cons in Hn0.
    split_and!; [by rewrite upd_eq| |].
    + eapply tr_frame; [|exact H2]. intros y Hy. apply upd_ne. intros ->. tauto.
    + eapply krep_frame; [| |exact H3]; [apply upd_ne; intros <-; tauto|]. intros y Hy. apply upd_ne. intros ->. tauto.
Qed.
Lemma tr_root_in t : root t = 0 \/ root t ∈ ptrs t.
Proof. destruct t; [by left|right]. unfold ptrs. cbn [root inorder]. rewrite fmap_app, fmap_cons, elem_of_app, elem_of_cons. cbn. tauto. Qed.
(** the three ways the code writes "make the parent of q point to p" *)
Section relink.
Context h mn mx q (K : list frame) (p : nat) (HK : krep h mn mx q K) (Hq0 : q <> 0) (Hq : q ∉ kptrs K).
Lemma rootK_iff : rootK q K = q <-> K = [].
Proof using Hq. clear HK. split; [|by intros ->]. destruct K as [|f K']; [done|]. intros E. exfalso. apply Hq. rewrite <- E at 1. apply rootK_in. Qed.
Lemma relink_l : P h head = Ok (rootK q K) /\ (if decide (q = rootK q K) then setP h head p else wpl <~ L h (parK K) ;; if decide (q = wpl) then setL h (parK K) p else setR h (parK K) p) = Ok (relinkK h mn mx K p).
Proof using HK Hq0 Hq.
  unfold P, ld, head. rewrite (krep_head _ _ _ _ _ HK). split; [done|]. pose proof rootK_iff as Hr. destruct K as [|f K'].
  - rewrite decide_True by done. unfold setP, ld. cbn [krep] in HK. rewrite HK. done.
  - rewrite decide_False by (intros E; discriminate (proj1 Hr (eq_sym E))). destruct f as [c x v r|c l x v]; cbn [krep parK fptr relinkK] in *; destruct HK as (H1 & H2 & H3); unfold L, setL, setR, ld; rewrite H1; cbn.
    + by rewrite decide_True.
    + rewrite decide_False; [done|]. intros E. destruct (tr_root_in l) as [E'|Hin]; [congruence|]. apply Hq. rewrite kptrs_FR, elem_of_cons, elem_of_app, E. tauto.
Qed.
Lemma relink_r : P h head = Ok (rootK q K) /\ (if decide (q = rootK q K) then setP h head p else wpr <~ R h (parK K) ;; if decide (q = wpr) then setR h (parK K) p else setL h (parK K) p) = Ok (relinkK h mn mx K p).
Proof using HK Hq0 Hq.
  unfold P, ld, head. rewrite (krep_head _ _ _ _ _ HK). split; [done|]. pose proof rootK_iff as Hr. destruct K as [|f K'].
  - rewrite decide_True by done. unfold setP, ld. cbn [krep] in HK. rewrite HK. done.
  - rewrite decide_False by (intros E; discriminate (proj1 Hr (eq_sym E))). destruct f as [c x v r|c l x v]; cbn [krep parK fptr relinkK] in *; destruct HK as (H1 & H2 & H3); unfold R, setL, setR, ld; rewrite H1; cbn.
    + rewrite decide_False; [done|]. intros E. destruct (tr_root_in r) as [E'|Hin]; [congruence|]. apply Hq. rewrite kptrs_FL, elem_of_cons, elem_of_app, E. tauto.
    + by rewrite decide_True.
Qed.
Lemma relink_e : relink h q (parK K) p = Ok (relinkK h mn mx K p).
Proof using HK Hq0 Hq.
  unfold relink, P, ld, head. rewrite (krep_head _ _ _ _ _ HK). cbn. pose proof rootK_iff as Hr. destruct K as [|f K'].
  - rewrite decide_True by done. unfold setP, ld. cbn [krep] in HK. rewrite HK. done.
  - rewrite decide_False by (intros E; discriminate (proj1 Hr E)). destruct f as [c x v r|c l x v]; cbn [krep parK fptr relinkK] in *; destruct HK as (H1 & H2 & H3); unfold L, setL, setR, ld; rewrite H1; cbn.
    + by rewrite decide_True.
    + rewrite decide_False; [done|]. intros E. destruct (tr_root_in l) as [E'|Hin]; [congruence|]. apply Hq. rewrite kptrs_FR, elem_of_cons, elem_of_app, <- E. tauto.
Qed.
End relink.
Definition reparent h t (p : nat) : heap V := match t with E => h | T c l x v r => upd h x (Some (Node (root l) p (root r) c false (Some v))) end.
Lemma reparent_ne h t p z : z ∉ ptrs t -> reparent h t p z = h z.
Proof. destruct t as [|c l x v r]; [done|]. unfold ptrs. cbn [reparent inorder]. rewrite fmap_app, fmap_cons, elem_of_app, elem_of_cons. intros Hz. apply upd_ne. cbn in Hz. tauto. Qed.
Lemma ptrs_T c l x v r : ptrs (T c l x v r) ≡ₚ x :: ptrs l ++ ptrs r.
Proof. unfold ptrs. cbn [inorder]. rewrite fmap_app, fmap_cons. cbn [fst]. by rewrite <- Permutation_middle. Qed.
Lemma tr_reparent h q p t : tr h q t -> NoDup (ptrs t) -> tr (reparent h t p) p t.
Proof.
  destruct t as [|c l x v r]; [done|]. cbn [tr reparent]. intros (H1 & H2 & H3) Hn. rewrite ptrs_T in Hn. apply list.NoDup_cons in Hn as [Hx Hn]. rewrite elem_of_app in Hx.
  split_and!; [by rewrite upd_eq| |]; (eapply tr_frame; [|eassumption]); intros y Hy; apply upd_ne; intros ->; tauto.
Qed.
(** set the parent of a possibly empty subtree: "if (!t->_Isnil) t->_Parent = p" *)
Lemma reparent_code h q t p : tr h q t -> (exists a b c, h 0 = Some (Node a b c Black true None)) ->
  exists b, Isnil h (root t) = Ok b /\ b = isE t /\ (if b then Ok h else setP h (root t) p) = Ok (reparent h t p).
Proof.
  intros Ht (a & b & c & H0). exists (isE t). destruct t as [|c' l x v r]; cbn [root isE reparent tr] in *; unfold Isnil, setP, ld.
  - by rewrite H0.
  - destruct Ht as (-> & _). done.
Qed.
Lemma isSome_dom (D : nat -> Prop) h p n : (forall q, is_Some (h q) <-> D q) -> h p = Some n -> D p.
Proof. intros HD E. apply HD. by rewrite E. Qed.
Lemma relinkK_dom (D : nat -> Prop) h mn mx q K p : krep h mn mx q K -> (forall z, is_Some (h z) <-> D z) -> forall z, is_Some (relinkK h mn mx K p z) <-> D z.
Proof. intros HK HD. destruct K as [|[c x v r|c l x v] K]; cbn [krep relinkK] in *; (apply upd_dom; [|done]); (eapply isSome_dom; [done|]); [exact HK|apply HK..]. Qed.
Lemma reparent_dom (D : nat -> Prop) h q t p : tr h q t -> (forall z, is_Some (h z) <-> D z) -> forall z, is_Some (reparent h t p z) <-> D z.
Proof. intros Ht HD. destruct t as [|c l x v r]; [done|]. cbn [tr reparent] in *. apply upd_dom; [|done]. eapply isSome_dom; [done|apply Ht]. Qed.

Lemma nd_perm (l1 l2 : list nat) : l1 ≡ₚ l2 -> NoDup l1 -> NoDup l2.
Proof. by intros ->. Qed.
(** pairwise facts about disjoint zones *)
Lemma zones (Z0 : list nat) a x b y e : NoDup (0 :: Z0 ++ (x :: y :: a ++ b ++ e)) ->
  x <> 0 /\ y <> 0 /\ x <> y /\ NoDup b /\
  (forall z, z ∈ Z0 -> z <> 0 /\ z <> x /\ z <> y /\ z ∉ a /\ z ∉ b /\ z ∉ e) /\
  (forall z, z ∈ a -> z <> 0 /\ z <> x /\ z <> y /\ z ∉ b) /\
  (forall z, z ∈ b -> z <> 0 /\ z <> x /\ z <> y) /\
  (forall z, z ∈ e -> z <> 0 /\ z <> x /\ z <> y /\ z ∉ b) /\ NoDup (0 :: Z0).
Proof.
  intros Hn. apply list.NoDup_cons in Hn as [H0 Hn]. apply list.NoDup_app in Hn as (HZ & HZd & Hn). apply list.NoDup_cons in Hn as [Hx Hn]. apply list.NoDup_cons in Hn as [Hy Hn].
  apply list.NoDup_app in Hn as (Ha & Had & Hn). apply list.NoDup_app in Hn as (Hb & Hbd & He).
  rewrite ?elem_of_app, ?elem_of_cons, ?elem_of_app in *.
  assert (HZd' : forall z, z ∈ Z0 -> z <> x /\ z <> y /\ z ∉ a /\ z ∉ b /\ z ∉ e).
  { intros z Hz. pose proof (HZd z Hz) as Hc. rewrite !elem_of_cons, !elem_of_app in Hc. tauto. }
  assert (Had' : forall z, z ∈ a -> z ∉ b /\ z ∉ e). { intros z Hz. pose proof (Had z Hz) as Hc. rewrite elem_of_app in Hc. tauto. }
  split_and!; try (intros Hc; subst; tauto); try done.
  - intros z Hz. pose proof (HZd' z Hz). split_and!; try tauto. intros ->. tauto.
  - intros z Hz. pose proof (Had' z Hz). split_and!; try tauto; intros ->; tauto.
  - intros z Hz. split_and!; intros ->; tauto.
  - intros z Hz. split_and!; try (intros ->; tauto). intros Hzb. by apply (Hbd z Hzb).
  - apply list.NoDup_cons. split; [tauto|done].
Qed.
Lemma lrot_z D mn mx h K c a x v d b y w e : rep D mn mx h (plug K (T c a x v (T d b y w e))) -> wp (Lrotate h x) (fun h' => rep D mn mx h' (plug K (T d (T c a x v b) y w e))).
Proof.
  intros H. apply rep_z in H. destruct H as [HD HK Ht Hnd]. cbn [root tr] in HK, Ht. destruct Ht as (Hx & Ha & Hy & Hb & He).
  assert (Hnd' : NoDup (0 :: kptrs K ++ ptrs (T d (T c a x v b) y w e))).
  { eapply nd_perm; [|exact Hnd]. constructor. apply Permutation_app_head. unfold ptrs. cbn [inorder]. by rewrite <- app_assoc. }
  assert (Hz : NoDup (0 :: kptrs K ++ x :: y :: ptrs a ++ ptrs b ++ ptrs e)).
  { eapply nd_perm; [|exact Hnd]. constructor. apply Permutation_app_head. rewrite !ptrs_T. constructor. rewrite <- Permutation_middle. done. }
  clear Hnd. apply zones in Hz as (Hx0 & Hy0 & Hxy & Hbn & ZK & Za & Zb & Ze & HKn).
  assert (Hpk : parK K <> x /\ parK K <> y /\ parK K ∉ ptrs a /\ parK K ∉ ptrs b /\ parK K ∉ ptrs e).
  { destruct (parK_in K) as [E|Hin]; [rewrite E; split_and!; try congruence; intros Hin; [apply Za in Hin|apply Zb in Hin|apply Ze in Hin]; tauto|pose proof (ZK _ Hin); tauto]. }
  assert (Hxb : x ∉ ptrs b) by (intros Hin; apply Zb in Hin; tauto). assert (Hyb : y ∉ ptrs b) by (intros Hin; apply Zb in Hin; tauto).
  assert (H0b : 0 ∉ ptrs b) by (intros Hin; apply Zb in Hin; tauto).
  unfold Lrotate. unfold R at 1, ld. rewrite Hx. rewrite !rbind_ok. cbn [nright nleft root]. unfold L at 1, ld. rewrite Hy. rewrite !rbind_ok. cbn [nleft].
  unfold setR at 1, ld. rewrite Hx. rewrite !rbind_ok. cbn [nleft nparent nright ncolor nisnil nval].
  set (h1 := upd h x _).
  assert (Hb1 : tr h1 y b). { eapply tr_frame; [|exact Hb]. intros z Hz. apply upd_ne. apply Zb in Hz. tauto. }
  assert (HK1 : krep h1 mn mx x K). { eapply krep_frame; [| |exact HK]; [apply upd_ne; congruence|]. intros z Hz. apply upd_ne. apply ZK in Hz. tauto. }
  destruct (reparent_code h1 y b x Hb1) as (bb & E1 & _ & E2). { eexists _, _, _. apply (krep_head _ _ _ _ _ HK1). }
  rewrite E1, rbind_ok, E2, rbind_ok. set (h2 := reparent h1 b x).
  assert (D1 : forall z, is_Some (h1 z) <-> D z). { apply upd_dom; [|done]. by eapply isSome_dom. }
  assert (D2 : forall z, is_Some (h2 z) <-> D z) by (by eapply reparent_dom).
  assert (Hx2 : h2 x = Some (Node (root a) (parK K) (root b) c false (Some v))). { unfold h2. rewrite reparent_ne by done. unfold h1. by rewrite upd_eq. }
  assert (Hy2 : h2 y = Some (Node (root b) x (root e) d false (Some w))). { unfold h2. rewrite reparent_ne by done. unfold h1. by rewrite upd_ne. }
  unfold P at 1, ld. rewrite Hx2, rbind_ok, rbind_ok. cbn [nparent]. unfold setP at 1, ld. rewrite Hy2, rbind_ok, rbind_ok. cbn [nleft nparent nright ncolor nisnil nval].
  set (h3 := upd h2 y _). assert (D3 : forall z, is_Some (h3 z) <-> D z). { apply upd_dom; [|done]. by eapply isSome_dom. }
  assert (HK3 : krep h3 mn mx x K).
  { eapply krep_frame; [| |exact HK1]; [unfold h3; rewrite upd_ne by congruence; unfold h2; by rewrite reparent_ne|]. intros z Hz. apply ZK in Hz. unfold h3. rewrite upd_ne by tauto. unfold h2. apply reparent_ne. tauto. }
  assert (HxK : x ∉ kptrs K) by (intros Hin; apply ZK in Hin; tauto).
  pose proof (relink_l h3 mn mx x K y HK3 Hx0 HxK) as [Er1 Er2]. rewrite Er1, rbind_ok, Er2, rbind_ok.
  set (h4 := relinkK h3 mn mx K y). assert (D4 : forall z, is_Some (h4 z) <-> D z) by (by eapply relinkK_dom).
  pose proof (relinkK_krep h3 mn mx x K y HK3 HKn) as HK4. fold h4 in HK4.
  assert (Hy4 : h4 y = Some (Node (root b) (parK K) (root e) d false (Some w))). { unfold h4. rewrite relinkK_ne by (intros E; symmetry in E; tauto). unfold h3. by rewrite upd_eq. }
  assert (Hx4 : h4 x = Some (Node (root a) (parK K) (root b) c false (Some v))). { unfold h4. rewrite relinkK_ne by (intros E; symmetry in E; tauto). unfold h3. by rewrite upd_ne. }
  unfold setL at 1, ld. rewrite Hy4, rbind_ok, rbind_ok. cbn [nleft nparent nright ncolor nisnil nval]. unfold setP, ld. rewrite upd_ne by done. rewrite Hx4, rbind_ok. cbn [wp nleft nparent nright ncolor nisnil nval].
  apply rep_z. constructor.
  - apply upd_dom; [by eapply isSome_dom|]. apply upd_dom; [by eapply isSome_dom|done].
  - cbn [root]. eapply krep_frame; [| |exact HK4]; [by rewrite !upd_ne by congruence|]. intros z Hz. apply ZK in Hz. by rewrite !upd_ne by tauto.
  - assert (Hfr : forall z, z <> x -> z <> y -> z <> parK K -> z ∉ ptrs b -> h4 z = h z).
    { intros z Z1 Z2 Z3 Z4. unfold h4. rewrite relinkK_ne by done. unfold h3. rewrite upd_ne by done. unfold h2. rewrite reparent_ne by done. unfold h1. by rewrite upd_ne. }
    cbn [tr root]. split_and!.
    + by rewrite upd_ne, upd_eq by congruence.
    + by rewrite upd_eq.
    + eapply tr_frame; [|exact Ha]. intros z Hz. pose proof (Za z Hz). rewrite !upd_ne by tauto. apply Hfr; try tauto. intros ->. tauto.
    + eapply tr_frame; [|apply (tr_reparent h1 y x b Hb1 Hbn)]. intros z Hz. pose proof (Zb z Hz). rewrite !upd_ne by tauto. unfold h4. rewrite relinkK_ne by (intros ->; tauto). unfold h3. by rewrite upd_ne by tauto.
    + eapply tr_frame; [|exact He]. intros z Hz. pose proof (Ze z Hz). rewrite !upd_ne by tauto. apply Hfr; try tauto. intros ->. tauto.
  - done.
Qed.
Lemma rrot_z D mn mx h K c a x v d b y w e : rep D mn mx h (plug K (T c (T d e y w b) x v a)) -> wp (Rrotate h x) (fun h' => rep D mn mx h' (plug K (T d e y w (T c b x v a)))).
Proof.
  intros H. apply rep_z in H. destruct H as [HD HK Ht Hnd]. cbn [root tr] in HK, Ht. destruct Ht as (Hx & (Hy & He & Hb) & Ha).
  assert (Hnd' : NoDup (0 :: kptrs K ++ ptrs (T d e y w (T c b x v a)))).
  { eapply nd_perm; [|exact Hnd]. constructor. apply Permutation_app_head. unfold ptrs. cbn [inorder]. by rewrite <- app_assoc. }
  assert (Hz : NoDup (0 :: kptrs K ++ x :: y :: ptrs a ++ ptrs b ++ ptrs e)).
  { eapply nd_perm; [|exact Hnd]. constructor. apply Permutation_app_head. rewrite !ptrs_T. constructor. cbn [app]. constructor. rewrite (Permutation_app_comm (ptrs e)), (Permutation_app_comm _ (ptrs a)). done. }
  clear Hnd. apply zones in Hz as (Hx0 & Hy0 & Hxy & Hbn & ZK & Za & Zb & Ze & HKn).
  assert (Hpk : parK K <> x /\ parK K <> y /\ parK K ∉ ptrs a /\ parK K ∉ ptrs b /\ parK K ∉ ptrs e).
  { destruct (parK_in K) as [E|Hin]; [rewrite E; split_and!; try congruence; intros Hin; [apply Za in Hin|apply Zb in Hin|apply Ze in Hin]; tauto|pose proof (ZK _ Hin); tauto]. }
  assert (Hxb : x ∉ ptrs b) by (intros Hin; apply Zb in Hin; tauto). assert (Hyb : y ∉ ptrs b) by (intros Hin; apply Zb in Hin; tauto).
  assert (H0b : 0 ∉ ptrs b) by (intros Hin; apply Zb in Hin; tauto).
  unfold Rrotate. unfold L at 1, ld. rewrite Hx. rewrite !rbind_ok. cbn [nright nleft root]. unfold R at 1, ld. rewrite Hy. rewrite !rbind_ok. cbn [nright].
  unfold setL at 1, ld. rewrite Hx. rewrite !rbind_ok. cbn [nleft nparent nright ncolor nisnil nval].
  set (h1 := upd h x _).
  assert (Hb1 : tr h1 y b). { eapply tr_frame; [|exact Hb]. intros z Hz. apply upd_ne. apply Zb in Hz. tauto. }
  assert (HK1 : krep h1 mn mx x K). { eapply krep_frame; [| |exact HK]; [apply upd_ne; congruence|]. intros z Hz. apply upd_ne. apply ZK in Hz. tauto. }
  destruct (reparent_code h1 y b x Hb1) as (bb & E1 & _ & E2). { eexists _, _, _. apply (krep_head _ _ _ _ _ HK1). }
  rewrite E1, rbind_ok, E2, rbind_ok. set (h2 := reparent h1 b x).
  assert (D1 : forall z, is_Some (h1 z) <-> D z). { apply upd_dom; [|done]. by eapply isSome_dom. }
  assert (D2 : forall z, is_Some (h2 z) <-> D z) by (by eapply reparent_dom).
  assert (Hx2 : h2 x = Some (Node (root b) (parK K) (root a) c false (Some v))). { unfold h2. rewrite reparent_ne by done. unfold h1. by rewrite upd_eq. }
  assert (Hy2 : h2 y = Some (Node (root e) x (root b) d false (Some w))). { unfold h2. rewrite reparent_ne by done. unfold h1. by rewrite upd_ne. }
  unfold P at 1, ld. rewrite Hx2, rbind_ok, rbind_ok. cbn [nparent]. unfold setP at 1, ld. rewrite Hy2, rbind_ok, rbind_ok. cbn [nleft nparent nright ncolor nisnil nval].
  set (h3 := upd h2 y _). assert (D3 : forall z, is_Some (h3 z) <-> D z). { apply upd_dom; [|done]. by eapply isSome_dom. }
  assert (HK3 : krep h3 mn mx x K).
  { eapply krep_frame; [| |exact HK1]; [unfold h3; rewrite upd_ne by congruence; unfold h2; by rewrite reparent_ne|]. intros z Hz. apply ZK in Hz. unfold h3. rewrite upd_ne by tauto. unfold h2. apply reparent_ne. tauto. }
  assert (HxK : x ∉ kptrs K) by (intros Hin; apply ZK in Hin; tauto).
  pose proof (relink_r h3 mn mx x K y HK3 Hx0 HxK) as [Er1 Er2]. rewrite Er1, rbind_ok, Er2, rbind_ok.
  set (h4 := relinkK h3 mn mx K y). assert (D4 : forall z, is_Some (h4 z) <-> D z) by (by eapply relinkK_dom).
  pose proof (relinkK_krep h3 mn mx x K y HK3 HKn) as HK4. fold h4 in HK4.
  assert (Hy4 : h4 y = Some (Node (root e) (parK K) (root b) d false (Some w))). { unfold h4. rewrite relinkK_ne by (intros E; symmetry in E; tauto). unfold h3. by rewrite upd_eq. }
  assert (Hx4 : h4 x = Some (Node (root b) (parK K) (root a) c false (Some v))). { unfold h4. rewrite relinkK_ne by (intros E; symmetry in E; tauto). unfold h3. by rewrite upd_ne. }
  unfold setR at 1, ld. rewrite Hy4, rbind_ok, rbind_ok. cbn [nleft nparent nright ncolor nisnil nval]. unfold setP, ld. rewrite upd_ne by done. rewrite Hx4, rbind_ok. cbn [wp nleft nparent nright ncolor nisnil nval].
  apply rep_z. constructor.
  - apply upd_dom; [by eapply isSome_dom|]. apply upd_dom; [by eapply isSome_dom|done].
  - cbn [root]. eapply krep_frame; [| |exact HK4]; [by rewrite !upd_ne by congruence|]. intros z Hz. apply ZK in Hz. by rewrite !upd_ne by tauto.
  - assert (Hfr : forall z, z <> x -> z <> y -> z <> parK K -> z ∉ ptrs b -> h4 z = h z).
    { intros z Z1 Z2 Z3 Z4. unfold h4. rewrite relinkK_ne by done. unfold h3. rewrite upd_ne by done. unfold h2. rewrite reparent_ne by done. unfold h1. by rewrite upd_ne. }
    cbn [tr root]. split_and!.
    + by rewrite upd_ne, upd_eq by congruence.
    + eapply tr_frame; [|exact He]. intros z Hz. pose proof (Ze z Hz). rewrite !upd_ne by tauto. apply Hfr; try tauto. intros ->. tauto.
    + by rewrite upd_eq.
    + eapply tr_frame; [|apply (tr_reparent h1 y x b Hb1 Hbn)]. intros z Hz. pose proof (Zb z Hz). rewrite !upd_ne by tauto. unfold h4. rewrite relinkK_ne by (intros ->; tauto). unfold h3. by rewrite upd_ne by tauto.
    + eapply tr_frame; [|exact Ha]. intros z Hz. pose proof (Za z Hz). rewrite !upd_ne by tauto. apply Hfr; try tauto. intros ->. tauto.
  - done.
Qed.
End tree.
