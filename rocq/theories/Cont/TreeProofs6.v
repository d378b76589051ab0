(** Erasure: unlinking a node (first half of _Extract), and _Extract as a whole. *)
From stdpp Require Import base list numbers option decidable.
From Coq Require Import Lia.
From Verif Require Import Base.Res Base.Order Cont.TreeModel Cont.TreeSpec Cont.TreeProofs Cont.TreeProofs2 Cont.TreeProofs3 Cont.TreeProofs4 Cont.TreeProofs5.

Section tree.
Context {V : Type}.
Implicit Types (h : heap V) (t l r : tree V).
Notation frame := (@frame V).
Lemma rep_ext D mn mx h h' t x : rep D mn mx h t -> (forall z, z <> x -> h' z = h z) -> is_Some (h' x) -> D x -> x ∉ 0 :: ptrs t -> rep D mn mx h' t.
Proof.
  intros [HD H0 Ht Hn] He Hx HDx Hni. rewrite elem_of_cons in Hni. constructor; [|rewrite He; [done|]|eapply tr_frame; [|exact Ht]|done].
  - intros p. destruct (decide (p = x)) as [->|Hp]; [split; done|rewrite He by done; apply HD].
  - intros <-. tauto.
  - intros z Hz. apply He. intros ->. tauto.
Qed.
(** remove a node that has at most one child *)
Lemma drop_z D mn mx h K c l x v r t1 : rep D mn mx h (plug K (T c l x v r)) -> (l = E /\ t1 = r) \/ (r = E /\ t1 = l) ->
  let h1 := reparent h t1 (parK K) in let h2 := relinkK h1 mn mx K (root t1) in
  krep h1 mn mx x K /\ x ∉ kptrs K /\ x <> 0 /\ rep D mn mx h2 (plug K t1) /\ h2 x = h x /\ x ∉ 0 :: ptrs (plug K t1).
Proof.
  intros H Hc h1 h2. apply rep_z in H. destruct H as [HD HK Ht Hn]. cbn [root tr] in *. destruct Ht as (Hx & Hl & Hr). rewrite ptrs_T in Hn.
  assert (Hp : ptrs l ++ ptrs r = ptrs t1). { destruct Hc as [[-> ->]|[-> ->]]; [done|apply app_nil_r]. } rewrite Hp in Hn.
  assert (Ht1 : tr h x t1) by (by destruct Hc as [[-> ->]|[-> ->]]). clear Hl Hr Hp.
  apply list.NoDup_cons in Hn as [H0 Hn]. apply list.NoDup_app in Hn as (Hk & Hkt & Hn). apply list.NoDup_cons in Hn as [Hxt Hn]. rewrite elem_of_app, elem_of_cons in H0.
  assert (HxK : x ∉ kptrs K) by (intros Hin; apply (Hkt _ Hin), elem_of_cons; by left).
  assert (HKt : forall z, z ∈ kptrs K -> z ∉ ptrs t1) by (intros z Hz Hz'; apply (Hkt z Hz), elem_of_cons; by right).
  assert (Hx0 : x <> 0) by (intros ->; tauto).
  assert (Hpk : parK K ∉ ptrs t1). { destruct (parK_in K) as [E|Hin]; [rewrite E; tauto|by apply HKt]. }
  assert (HpkX : x <> parK K). { destruct (parK_in K) as [E|Hin]; [congruence|intros ->; done]. }
  assert (HK1 : krep h1 mn mx x K). { eapply krep_frame; [| |exact HK]; [|intros z Hz]; apply reparent_ne; [tauto|auto]. }
  assert (Hnd0 : NoDup (0 :: kptrs K)). { apply list.NoDup_cons. tauto. }
  split_and!; try done.
  - apply rep_z. constructor.
    + eapply relinkK_dom; [exact HK1|]. by eapply reparent_dom.
    + by eapply relinkK_krep.
    + eapply tr_frame; [|eapply (tr_reparent h x (parK K) t1 Ht1 Hn)]. intros z Hz. unfold h2. rewrite relinkK_ne; [done|]. intros ->. done.
    + apply list.NoDup_cons. split; [rewrite elem_of_app; tauto|]. apply list.NoDup_app. done.
  - unfold h2. rewrite relinkK_ne by done. unfold h1. by apply reparent_ne.
  - rewrite ptrs_plug. rewrite elem_of_cons, elem_of_app. tauto.
Qed.
(** put node y in the place of node x *)
Lemma replace_z D mn mx h K c l x v r y w : rep D mn mx h (plug K (T c l x v r)) -> y ∉ 0 :: ptrs (plug K (T c l x v r)) -> D y ->
  let h1 := upd (reparent (reparent h l y) r y) y (Some (Node (root l) (parK K) (root r) c false (Some w))) in
  rep D mn mx (relinkK h1 mn mx K y) (plug K (T c l y w r)).
Proof.
  intros H Hy HDy h1. rewrite ptrs_plug, ptrs_T in Hy. apply rep_z in H. destruct H as [HD HK Ht Hn]. cbn [root tr] in *. destruct Ht as (Hx & Hl & Hr). rewrite ptrs_T in Hn.
  apply list.NoDup_cons in Hn as [H0 Hn]. apply list.NoDup_app in Hn as (Hk & Hkt & Hn). apply list.NoDup_cons in Hn as [Hxt Hn]. apply list.NoDup_app in Hn as (Hnl & Hlr & Hnr).
  assert (Hkt2 : forall z, z ∈ kptrs K -> z <> x /\ z ∉ ptrs l /\ z ∉ ptrs r). { intros z Hz. pose proof (Hkt z Hz) as Hc. rewrite elem_of_cons, elem_of_app in Hc. tauto. }
  clear Hkt. rename Hkt2 into Hkt. rewrite ?elem_of_cons, ?elem_of_app, ?elem_of_cons, ?elem_of_app in *.
  assert (Hpk : parK K ∉ ptrs l /\ parK K ∉ ptrs r /\ parK K <> y). { destruct (parK_in K) as [E|Hin]; [rewrite E; split_and!; try tauto; intros <-; tauto|pose proof (Hkt _ Hin); split_and!; try tauto; intros <-; tauto]. }
  assert (HD1 : forall z, is_Some (h1 z) <-> D z).
  { apply upd_dom; [done|]. eapply reparent_dom; [|by eapply reparent_dom]. eapply tr_frame; [|exact Hr]. intros z Hz. apply reparent_ne. intros Hz'. by apply (Hlr z Hz'). }
  assert (HK1 : krep h1 mn mx x K).
  { eapply krep_frame; [| |exact HK]; [|intros z Hz; pose proof (Hkt z Hz)]; (unfold h1; rewrite upd_ne, !reparent_ne; [done|tauto..|]); [intros <-; tauto|intros ->; tauto]. }
  apply rep_z. constructor.
  - by eapply relinkK_dom.
  - cbn [root]. eapply relinkK_krep; [exact HK1|]. apply list.NoDup_cons. tauto.
  - cbn [tr]. split_and!.
    + rewrite relinkK_ne by (intros E; symmetry in E; tauto). apply upd_eq.
    + eapply tr_frame; [|apply (tr_reparent h x y l Hl Hnl)]. intros z Hz. rewrite relinkK_ne by (intros ->; tauto). unfold h1. rewrite upd_ne by (intros ->; tauto). apply reparent_ne. by apply Hlr.
    + eapply tr_frame; [|eapply (tr_reparent (reparent h l y) x y r); [|done]]; [|eapply tr_frame; [|exact Hr]; intros z Hz; apply reparent_ne; intros Hz'; by apply (Hlr z Hz')].
      intros z Hz. rewrite relinkK_ne by (intros ->; tauto). unfold h1. by rewrite upd_ne by (intros ->; tauto).
  - rewrite ptrs_T. apply list.NoDup_cons. split; [rewrite elem_of_app, elem_of_cons, elem_of_app; intros [?|[<-|?]]; tauto|]. apply list.NoDup_app. split_and!; [done| |].
    + intros z Hz. pose proof (Hkt z Hz). rewrite elem_of_cons, elem_of_app. intros [->|?]; tauto.
    + apply list.NoDup_cons. split; [rewrite elem_of_app; tauto|]. apply list.NoDup_app. done.
Qed.
Lemma inorder_nil t : inorder t = [] -> t = E.
Proof. destruct t as [|c l x v r]; [done|]. cbn [inorder]. by destruct (inorder l). Qed.
Lemma rb_nearly c n t : rb c n t -> nearly n t.
Proof. destruct 1 as [|n l x v r Hl Hr|n cl cr l x v r Hl Hr]; [left; constructor|right; eauto 10|left; by econstructor]. Qed.
Lemma kb_relabel c' l x v y w K : forall J c n, kb c n (J ++ FR c' l x v :: K) -> kb c n (J ++ FR c' l y w :: K).
Proof.
  induction J as [|f J IH]; intros c n H; cbn [app] in *.
  - inversion H; subst; econstructor; eauto.
  - inversion H; subst; econstructor; eauto.
Qed.
Lemma minp_mid (a b : list (nat * V)) x v : minp (a ++ (x, v) :: b) = if decide (a = []) then x else minp a.
Proof. by destruct a. Qed.
Lemma maxp_mid (a b : list (nat * V)) x v : maxp (a ++ (x, v) :: b) = if decide (b = []) then x else maxp b.
Proof. case_decide as Hb; [subst; apply maxp_snoc|]. rewrite (app_assoc a [(x, v)] b : a ++ (x, v) :: b = (a ++ [(x, v)]) ++ b). by apply maxp_app. Qed.
Lemma before_nil_par (K : list frame) : before K = [] -> minp (after K) = parK K.
Proof. destruct K as [|[] K]; [done|done|]. cbn [before]. by destruct (before K), (inorder l). Qed.
Lemma after_nil_par (K : list frame) : after K = [] -> maxp (before K) = parK K.
Proof. destruct K as [|[] K]; [done|done|]. intros _. cbn [before parK fptr]. by rewrite app_assoc, maxp_snoc. Qed.
Lemma minp_in (a : list (nat * V)) : a <> [] -> minp a ∈ a.*1.
Proof. destruct a as [|[x v] a]; [done|]. intros _. apply elem_of_cons. by left. Qed.
Lemma maxp_in (a : list (nat * V)) : a <> [] -> maxp a ∈ a.*1.
Proof. destruct a as [|[x v] a _] using rev_ind; [done|]. intros _. rewrite maxp_snoc, fmap_app. apply elem_of_app. right. apply elem_of_cons. by left. Qed.
Definition unl_post (D : nat -> Prop) (W : list (nat * V)) (x : nat) (o : heap V * nat * nat) : Prop :=
  let '(h', fx, par) := o in
  exists K1 t1 d, fx = root t1 /\ par = parK K1 /\ C h' x = Ok d /\ rep D (minp W) (maxp W) h' (plug K1 t1) /\ inorder (plug K1 t1) = W /\ x ∉ 0 :: ptrs (plug K1 t1) /\
    (d = Red -> exists m, rb Black m (plug K1 t1)) /\ (d = Black -> exists n, nearly n t1 /\ kb Black (S n) K1).
Lemma unlinkA D h K c l x v r t1 m fuel : let W := inorder (plug K (T c l x v r)) in let W' := before K ++ inorder l ++ inorder r ++ after K in
  rep D (minp W) (maxp W) h (plug K (T c l x v r)) -> rb Black m (plug K (T c l x v r)) -> length W <= fuel -> (l = E /\ t1 = r) \/ (r = E /\ t1 = l /\ l <> E) ->
  wp (bf <~ Isnil h (root t1) ;;
    h <~ (if bf : bool then Ok h else setP h (root t1) (parK K)) ;;
    h <~ relink h x (parK K) (root t1) ;;
    hl <~ L h head ;;
    h <~ (if decide (hl = x) then m <~ (if bf : bool then Ok (parK K) else Min fuel h (root t1)) ;; setL h head m else Ok h) ;;
    hr <~ R h head ;;
    h <~ (if decide (hr = x) then m <~ (if bf : bool then Ok (parK K) else Max fuel h (root t1)) ;; setR h head m else Ok h) ;;
    Ok (h, root t1, parK K)) (unl_post D W' x).
Proof.
  intros W W' H Hb Hf Hc. assert (Hc' : (l = E /\ t1 = r) \/ (r = E /\ t1 = l)) by tauto.
  destruct (drop_z D _ _ h K c l x v r t1 H Hc') as (HK1 & HxK & Hx0 & H2 & Hx2 & Hni).
  assert (Ht1 : tr h x t1). { apply rep_z in H. destruct (zr_t _ _ _ _ _ _ H) as (_ & Hl & Hr). by destruct Hc' as [[_ ->]|[_ ->]]. }
  destruct (reparent_code h x t1 (parK K) Ht1 (rep_hnil _ _ _ _ _ H)) as (bf & E1 & Ebf & E2). rewrite E1, rbind_ok, E2, rbind_ok.
  rewrite (relink_e _ _ _ _ _ _ HK1 Hx0 HxK), rbind_ok. unfold head. rewrite (Lh _ _ _ _ _ H2), rbind_ok.
  set (h2 := relinkK _ _ _ K (root t1)) in *.
  assert (HW : W = (before K ++ inorder l) ++ (x, v) :: inorder r ++ after K). { unfold W. rewrite inorder_plug. cbn [inorder]. by rewrite <- !app_assoc. }
  assert (HW1 : inorder (plug K t1) = W'). { rewrite inorder_plug. unfold W'. by destruct Hc' as [[-> ->]|[-> ->]]. }
  assert (Hxn : x ∉ W'.*1). { rewrite <- HW1. intros Hin. apply Hni, elem_of_cons. by right. }
  assert (Hlen1 : length (inorder t1) <= fuel). { rewrite HW, !app_length in Hf. cbn [length] in Hf. rewrite app_length in Hf. destruct Hc' as [[-> ->]|[-> ->]]; lia. }
  assert (Hmn : forall mx', rep D (minp W) mx' h2 (plug K t1) -> h2 x = h x ->
    wp (if decide (minp W = x) then m <~ (if bf : bool then Ok (parK K) else Min fuel h2 (root t1)) ;; setL h2 0 m else Ok h2) (fun h3 => rep D (minp W') mx' h3 (plug K t1) /\ h3 x = h x)).
  { intros mx' Hr2 Hxx. case_decide as Hd.
    - assert (Hnil : before K ++ inorder l = []).
      { rewrite HW, minp_mid in Hd. case_decide as Hd2; [done|]. exfalso. apply Hxn. rewrite <- Hd at 1. unfold W'. rewrite app_assoc, fmap_app, elem_of_app. left. by apply minp_in. }
      apply app_nil in Hnil as [Hb0 Hl0]. assert (Hl : l = E) by (by apply inorder_nil). subst l.
      assert (t1 = r) as -> by (destruct Hc as [[_ ?]|(_ & _ & ?)]; done).
      match goal with |- wp (rbind ?m _) _ => assert (Em : m = Ok (minp W')) end.
      { unfold W'. rewrite Hb0. cbn [inorder app]. rewrite Ebf. destruct r as [|cr r1 xr vr r2]; cbn [isE].
        - cbn [inorder app]. by rewrite before_nil_par.
        - rewrite minp_app by (cbn; by destruct (inorder r1)). apply rep_z in Hr2. eapply Min_minp; [apply rep_z in Hr2; by eapply rep_hnil|apply (zr_t _ _ _ _ _ _ Hr2)|done|lia]. }
      rewrite Em, rbind_ok. unfold setL, ld. rewrite (rep_head _ _ _ _ _ Hr2), rbind_ok. pose proof (set_mn _ _ _ _ _ (minp W') Hr2) as Hs. unfold setL, ld in Hs. rewrite (rep_head _ _ _ _ _ Hr2), rbind_ok in Hs. cbn [wp] in *. split; [exact Hs|]. by rewrite upd_ne.
    - cbn [wp]. split; [|done]. replace (minp W') with (minp W); [done|]. rewrite HW, minp_mid in *. case_decide as Hd2; [done|]. unfold W'. rewrite app_assoc. by rewrite (minp_app (before K ++ inorder l)). }
  apply wp_bind. eapply wp_mono; [exact (Hmn _ H2 Hx2)|]. clear Hmn. intros h3 (H3 & Hx3). rewrite (Rh _ _ _ _ _ H3), rbind_ok.
  match goal with |- wp (rbind ?c _) _ => assert (Hmx : wp c (fun h4 => rep D (minp W') (maxp W') h4 (plug K t1) /\ h4 x = h x)) end.
  { case_decide as Hd.
    - assert (Hnil : inorder r ++ after K = []).
      { rewrite HW, maxp_mid in Hd. case_decide as Hd2; [done|]. exfalso. apply Hxn. rewrite <- Hd at 1. unfold W'. rewrite app_assoc, fmap_app, elem_of_app. right. by apply maxp_in. }
      apply app_nil in Hnil as [Hr0 Ha0]. assert (Hr : r = E) by (by apply inorder_nil). subst r.
      assert (t1 = l) as -> by (destruct Hc as [[-> ->]|(_ & ? & _)]; done).
      match goal with |- wp (rbind ?m _) _ => assert (Em : m = Ok (maxp W')) end.
      { unfold W'. rewrite Ha0. cbn [inorder app]. rewrite app_nil_r. rewrite Ebf. destruct l as [|cr r1 xr vr r2]; cbn [isE].
        - cbn [inorder]. rewrite app_nil_r. by rewrite after_nil_par.
        - rewrite maxp_app by (cbn; by destruct (inorder r1)). apply rep_z in H3. eapply Max_maxp; [apply rep_z in H3; by eapply rep_hnil|apply (zr_t _ _ _ _ _ _ H3)|done|lia]. }
      rewrite Em, rbind_ok. unfold setR, ld. rewrite (rep_head _ _ _ _ _ H3), rbind_ok. pose proof (set_mx _ _ _ _ _ (maxp W') H3) as Hs. unfold setR, ld in Hs. rewrite (rep_head _ _ _ _ _ H3), rbind_ok in Hs. cbn [wp] in *. split; [exact Hs|]. by rewrite upd_ne.
    - cbn [wp]. split; [|done]. replace (maxp W') with (maxp W); [done|]. rewrite HW, maxp_mid in *. case_decide as Hd2; [done|]. unfold W'. rewrite app_assoc. by rewrite (maxp_app (before K ++ inorder l)). }
  apply wp_bind. eapply wp_mono; [exact Hmx|]. intros h4 (H4 & Hx4). cbn [wp unl_post].
  destruct (rb_down _ _ _ Hb) as (c0 & n0 & Hb0 & HKb).
  exists K, t1, c. split_and!; try done.
  - unfold C, ld. rewrite Hx4, (node_at _ _ _ _ _ _ _ _ _ _ H). done.
  - intros ->. inversion Hb0 as [|n1 l1 x1 v1 r1 Hl1 Hr1|]; subst. eapply (rb_up K Black n0); [|by apply kb_weak]. by destruct Hc' as [[-> ->]|[-> ->]].
  - intros ->. inversion Hb0 as [| |n1 cl cr l1 x1 v1 r1 Hl1 Hr1]; subst. exists n1. split; [|done]. destruct Hc' as [[-> ->]|[-> ->]]; by eapply rb_nearly.
Qed.
Lemma relinkK_eq h h' mn mx K p z : (z <> parK K -> h z = h' z) -> relinkK h mn mx K p z = relinkK h' mn mx K p z.
Proof. intros He. destruct K as [|[] K]; cbn [relinkK parK fptr] in *; unfold upd; case_decide; auto. Qed.
Lemma reparent_eq h h' t p z : (z <> root t \/ t = E -> h z = h' z) -> reparent h t p z = reparent h' t p z.
Proof. intros He. destruct t as [|c l x v r]; cbn [reparent root] in *; [auto|]. unfold upd. case_decide; auto. Qed.
Lemma reparent_ne' h t p z : z <> root t -> reparent h t p z = h z.
Proof. intros Hz. destruct t; [done|]. by apply upd_ne. Qed.
Lemma root_plug_cons (f : frame) J t t' : root (plug (f :: J) t) = root (plug (f :: J) t').
Proof. revert f t t'. induction J as [|g J IH]; intros f t t'; [by destruct f|]. cbn [plug] in *. apply (IH g). Qed.
Lemma zones2 (Z0 a b e : list nat) x y : NoDup (0 :: Z0 ++ (x :: y :: a ++ b ++ e)) -> forall z, z ∈ a -> z ∉ e.
Proof.
  intros Hn z Ha He. apply list.NoDup_cons in Hn as [_ Hn]. apply list.NoDup_app in Hn as (_ & _ & Hn). apply list.NoDup_cons in Hn as [_ Hn]. apply list.NoDup_cons in Hn as [_ Hn].
  apply list.NoDup_app in Hn as (_ & Hd & _). apply (Hd z Ha), elem_of_app. by right.
Qed.
Lemma unlinkBC D mn mx h K c l x v r J d y w fr : rep D mn mx h (plug K (T c l x v r)) -> l <> E -> r = plug J (T d E y w fr) -> Forall isFL J ->
  wp (let p := y in
    fx <~ R h p ;;
    h <~ setP h (root l) p ;; h <~ setL h p (root l) ;;
    '(h, par) <~ (if decide (p = root r) then Ok (h, p)
                  else
                    par <~ P h p ;; bf <~ Isnil h fx ;;
                    h <~ (if bf : bool then Ok h else setP h fx par) ;;
                    h <~ setL h par fx ;; h <~ setR h p (root r) ;; h <~ setP h (root r) p ;; Ok (h, par)) ;;
    ep <~ P h x ;;
    h <~ relink h x ep p ;;
    h <~ setP h p ep ;;
    pc <~ C h p ;; ec <~ C h x ;; h <~ setC h p ec ;; h <~ setC h x pc ;;
    Ok (h, fx, par))
    (fun '(h', fx, par) => fx = root fr /\ par = parK (J ++ FR c l y w :: K) /\ C h' x = Ok d /\ rep D mn mx h' (plug (J ++ FR c l y w :: K) fr) /\ x ∉ 0 :: ptrs (plug (J ++ FR c l y w :: K) fr)).
Proof.
  intros H Hl Hr HJ. cbv zeta. destruct l as [|cl l1 xl vl l2] eqn:El; [done|]. rewrite <- El in *. clear Hl. cbn [root].
  assert (Hrl : root l = xl) by (by subst l).
  set (KJ := J ++ FR c l x v :: K). assert (Hpl : forall t, plug KJ t = plug K (T c l x v (plug J t))). { intros t. unfold KJ. by rewrite plug_app. }
  assert (HJz : rep D mn mx h (plug KJ (T d E y w fr))). { rewrite Hpl, <- Hr. done. }
  destruct (drop_z D mn mx h KJ d E y w fr fr HJz (or_introl (conj eq_refl eq_refl))) as (_ & _ & Hy0 & H2 & Hy2 & Hyn). cbv zeta in *. set (h2 := relinkK _ _ _ KJ (root fr)) in *.
  rewrite Hpl in H2, Hyn. set (r' := plug J fr) in *.
  pose proof (node_at _ _ _ _ _ _ _ _ _ _ HJz) as Hy. cbn [root] in Hy.
  assert (HDy : D y). { eapply isSome_dom; [apply (rep_dom _ _ _ _ _ H)|exact Hy]. }
  pose proof (replace_z D mn mx h2 K c l x v r' y w H2 Hyn HDy) as Hg. cbv zeta in Hg. set (g := relinkK _ mn mx K y) in Hg.
  pose proof (node_at _ _ _ _ _ _ _ _ _ _ H) as Hx.
  assert (HDx : D x). { eapply isSome_dom; [apply (rep_dom _ _ _ _ _ H)|exact Hx]. }
  apply rep_z in H. destruct H as [HD HK Ht Hnd]. cbn [root tr] in HK, Ht. destruct Ht as (_ & Htl & Htr).
  assert (Hz : NoDup (0 :: kptrs K ++ x :: y :: ptrs l ++ ptrs fr ++ kptrs J)).
  { eapply nd_perm; [|exact Hnd]. constructor. apply Permutation_app_head. rewrite ptrs_T. constructor. rewrite Hr. pose proof (ptrs_plug J (T d E y w fr)) as Hp. apply Permutation_cons_inv in Hp. rewrite Hp.
    rewrite ptrs_T. cbn [app ptrs inorder fmap list_fmap]. rewrite (Permutation_app_comm (ptrs fr)). rewrite <- Permutation_middle, <- Permutation_middle. done. }
  pose proof (zones2 _ _ _ _ _ _ Hz) as Zae. apply zones in Hz as (Hx0 & _ & Hxy & Hfn & ZK & Za & Zb & Ze & HKn).
  assert (Hxl : xl ∈ ptrs l). { rewrite El, ptrs_T. apply elem_of_cons. by left. }
  pose proof (Za _ Hxl) as (Nl0 & Nlx & Nly & Nlf). pose proof (Zae _ Hxl) as NlJ.
  assert (Hpk : parK K <> x /\ parK K <> y /\ parK K ∉ ptrs l /\ parK K ∉ ptrs fr /\ parK K ∉ kptrs J).
  { destruct (parK_in K) as [E|Hin]; [rewrite E; split_and!; try congruence; intros Hin; [apply Za in Hin|apply Zb in Hin|apply Ze in Hin]; tauto|pose proof (ZK _ Hin); tauto]. }
  assert (Hxf : x ∉ ptrs fr) by (intros Hc; apply Zb in Hc; tauto). assert (Hyf : y ∉ ptrs fr) by (intros Hc; apply Zb in Hc; tauto).
  assert (Hxll : h xl = Some (Node (root l1) x (root l2) cl false (Some vl))). { rewrite El in Htl. cbn [tr] in Htl. apply Htl. }
  assert (Hfr : tr h y fr). { apply rep_z in HJz. apply (zr_t _ _ _ _ _ _ HJz). }
  unfold R at 1, ld. rewrite Hy, !rbind_ok. cbn [nright]. rewrite Hrl.
  unfold setP at 1, ld. rewrite Hxll, !rbind_ok. cbn [nleft nparent nright ncolor nisnil nval]. set (h1 := upd h xl _).
  unfold setL at 1, ld. unfold h1 at 1. rewrite upd_ne by congruence. rewrite Hy, !rbind_ok. cbn [nleft nparent nright ncolor nisnil nval]. set (h2c := upd h1 y _).
  assert (E2c : forall z, z <> y -> z <> xl -> h2c z = h z). { intros z Z1 Z2. unfold h2c. rewrite upd_ne by done. unfold h1. by rewrite upd_ne. }
  (* the common second half *)
  assert (Hend : forall (h6 : heap V) py ry par, (forall z, z <> y -> z <> xl -> z ∉ ptrs fr -> z ∉ kptrs J -> h6 z = h z) -> h6 y = Some (Node xl py ry d false (Some w)) ->
      (forall z, z <> x -> z <> y -> z <> parK K -> h6 z = reparent (reparent h2 l y) r' y z) -> (forall z, is_Some (h6 z) <-> D z) -> root r' = ry -> par = parK (J ++ FR c l y w :: K) ->
      wp (ep <~ P h6 x ;; h <~ relink h6 x ep y ;; h <~ setP h y ep ;; pc <~ C h y ;; ec <~ C h x ;; h <~ setC h y ec ;; h <~ setC h x pc ;; Ok (h, root fr, par))
       (fun '(h', fx, par) => fx = root fr /\ par = parK (J ++ FR c l y w :: K) /\ C h' x = Ok d /\ rep D mn mx h' (plug (J ++ FR c l y w :: K) fr) /\ x ∉ 0 :: ptrs (plug (J ++ FR c l y w :: K) fr))).
  { intros h6 py ry par Hfr6 Hy6 Hg6 HD6 Hroot Hpar.
    assert (Hx6 : h6 x = h x). { apply Hfr6; [congruence|congruence|done|]. intros Hc. apply Ze in Hc. tauto. }
    assert (HK6 : krep h6 mn mx x K).
    { eapply krep_frame; [| |exact HK].
      - apply Hfr6; try congruence; intros Hc; [apply Zb in Hc|apply Ze in Hc]; tauto.
      - intros z Hz. pose proof (ZK z Hz). apply Hfr6; try tauto. intros ->. tauto. }
    unfold P at 1, ld. rewrite Hx6, Hx, !rbind_ok. cbn [nparent].
    rewrite (relink_e h6 mn mx x K y HK6 Hx0) by (intros Hc; apply ZK in Hc; tauto). rewrite rbind_ok. set (h7 := relinkK h6 mn mx K y).
    assert (Hy7 : h7 y = Some (Node xl py ry d false (Some w))). { unfold h7. rewrite relinkK_ne by (intros Hc; symmetry in Hc; tauto). done. }
    assert (Hx7 : h7 x = h x). { unfold h7. rewrite relinkK_ne by (intros Hc; symmetry in Hc; tauto). done. }
    unfold setP at 1, ld. rewrite Hy7, !rbind_ok. cbn [nleft nparent nright ncolor nisnil nval]. set (h8 := upd h7 y _).
    assert (Hx8 : h8 x = h x). { unfold h8. by rewrite upd_ne. }
    unfold C at 1, ld. unfold h8 at 1. rewrite upd_eq, !rbind_ok. cbn [ncolor]. unfold C at 1, ld. rewrite Hx8, Hx, !rbind_ok. cbn [ncolor].
    unfold setC at 1, ld. unfold h8 at 1. rewrite upd_eq, !rbind_ok. cbn [nleft nparent nright ncolor nisnil nval]. set (h9 := upd h8 y _).
    unfold setC at 1, ld. unfold h9 at 1. rewrite upd_ne by done. rewrite Hx8, Hx, !rbind_ok. cbn [nleft nparent nright ncolor nisnil nval wp].
    assert (Hxn : x ∉ 0 :: ptrs (plug (J ++ FR c l y w :: K) fr)).
    { rewrite plug_app. fold r'. cbn [plug fill]. rewrite ptrs_plug, ptrs_T. rewrite elem_of_cons, elem_of_app, elem_of_cons, elem_of_app.
      pose proof (ptrs_plug J fr) as Hp. apply Permutation_cons_inv in Hp. fold r' in Hp. rewrite Hp, elem_of_app. intros [Hc|[Hc|[Hc|[Hc|[Hc|Hc]]]]]; try congruence; [apply ZK in Hc|apply Za in Hc|apply Ze in Hc]; tauto. }
    split_and!; try done.
    - unfold C, ld. rewrite upd_eq. done.
    - eapply (rep_ext D mn mx g _ _ x); [rewrite plug_app; exact Hg| | |done|done]; [|by rewrite upd_eq].
      intros z Hz. rewrite upd_ne by done. unfold g. destruct (decide (z = y)) as [->|Hzy].
      + unfold h9. rewrite upd_eq. rewrite relinkK_ne by (intros Hc; symmetry in Hc; tauto). rewrite upd_eq. by rewrite Hroot, Hrl.
      + unfold h9, h8. rewrite !upd_ne by done. unfold h7. apply relinkK_eq. intros Hzp. rewrite upd_ne by done. by apply Hg6. }
  assert (D2c : forall z, is_Some (h2c z) <-> D z). { apply upd_dom; [done|]. apply upd_dom; [|done]. by eapply isSome_dom. }
  clearbody g. destruct J as [|f J'].
  - cbn [plug] in Hr. rewrite decide_True by (by rewrite Hr). rewrite rbind_ok. eapply Hend; [| | |done| |done].
    + intros z Z1 Z2 _ _. by apply E2c.
    + unfold h2c. by rewrite upd_eq.
    + intros z Z1 Z2 Z3. unfold r'. cbn [plug].
      assert (E2 : z <> root fr \/ fr = E -> h2 z = h z). { intros Hf. unfold h2, KJ. cbn [app relinkK]. rewrite upd_ne by done. destruct fr as [|cf f1 xf vf f2]; [done|]. cbn [reparent root] in *. destruct Hf as [Hf|Hf]; [|done]. by apply upd_ne. }
      destruct (decide (z = root fr)) as [Ez|Ez]; [destruct fr as [|cf f1 xf vf f2]|].
      * cbn [reparent]. rewrite El. cbn [reparent]. unfold upd at 1. cbn [root] in Ez. case_decide as Hzx; [congruence|]. rewrite E2c by done. symmetry. apply E2. by right.
      * cbn [reparent root] in *. subst z. rewrite upd_eq. assert (xf <> xl). { intros ->. apply Nlf. rewrite ptrs_T. apply elem_of_cons. by left. } rewrite E2c by done. cbn [tr] in Hfr. apply Hfr.
      * rewrite reparent_ne' by done. destruct (decide (z = xl)) as [->|Hzl].
        -- rewrite El. cbn [reparent]. rewrite upd_eq. unfold h2c. rewrite upd_ne by done. unfold h1. by rewrite upd_eq.
        -- rewrite reparent_ne' by (by rewrite Hrl). rewrite E2c by done. symmetry. apply E2. by left.
    + done.
  - destruct f as [dj xj vj rj|]; [|by inversion HJ].
    set (J := FL dj xj vj rj :: J') in *. assert (Hxj : xj ∈ kptrs J) by apply (fptr_in (FL dj xj vj rj)).
    pose proof (Ze _ Hxj) as (Nj0 & Njx & Njy & Njf). assert (Njl : xj <> xl) by congruence.
    assert (Hrr : root r' = root r). { unfold r'. rewrite Hr. apply root_plug_cons. }
    assert (Her : root r ∈ kptrs J). { rewrite Hr. apply root_plug_ne. apply rep_z in HJz. destruct HJz as [_ _ _ Hn]. apply list.NoDup_cons. split; [intros [Hc|Hc]%elem_of_app|].
      + apply Ze in Hc. tauto.
      + rewrite ptrs_T in Hc. cbn [ptrs inorder fmap list_fmap app] in Hc. apply elem_of_cons in Hc as [Hc|Hc]; [congruence|apply Zb in Hc; tauto].
      + apply list.NoDup_cons in Hnd as [_ Hnd]. apply list.NoDup_app in Hnd as (_ & _ & Hnd). rewrite ptrs_T in Hnd. apply list.NoDup_cons in Hnd as [_ Hnd]. apply list.NoDup_app in Hnd as (_ & _ & Hnd). rewrite Hr in Hnd.
        pose proof (ptrs_plug J (T d E y w fr)) as Hp. apply Permutation_cons_inv in Hp. exact (nd_perm _ _ Hp Hnd). }
    pose proof (Ze _ Her) as (Nr0 & Nrx & Nry & Nrf). assert (Nrl : root r <> xl) by congruence.
    rewrite decide_False by congruence.
    assert (Exj : h xj = Some (Node y (parK (J' ++ FR c l x v :: K)) (root rj) dj false (Some vj))). { apply rep_z in HJz. pose proof (zr_k _ _ _ _ _ _ HJz) as Hk. unfold KJ, J in Hk. cbn [app krep root] in Hk. apply Hk. }
    unfold P at 1, ld. unfold h2c at 1. rewrite upd_eq, !rbind_ok. cbn [nparent]. change (parK KJ) with xj.
    destruct (reparent_code h2c y fr xj) as (bf & E1 & _ & E3). { eapply tr_frame; [|exact Hfr]. intros z Hz. apply E2c; [intros ->; done|congruence]. } { eexists _, _, _. rewrite E2c by congruence. apply (krep_head _ _ _ _ _ HK). }
    rewrite E1, rbind_ok, E3, rbind_ok. set (h3 := reparent h2c fr xj).
    unfold setL at 1, ld. unfold h3 at 1. rewrite reparent_ne by done. rewrite E2c by done. rewrite Exj, !rbind_ok. cbn [nleft nparent nright ncolor nisnil nval]. set (h4 := upd h3 xj _).
    assert (Hy4 : h4 y = Some (Node xl xj (root fr) d false (Some w))). { unfold h4. rewrite upd_ne by congruence. unfold h3. rewrite reparent_ne by done. unfold h2c. rewrite upd_eq. done. }
    unfold setR at 1, ld. rewrite Hy4, !rbind_ok. cbn [nleft nparent nright ncolor nisnil nval]. set (h5 := upd h4 y _).
    assert (E5 : forall z, z <> y -> z <> xl -> h5 z = h2 z).
    { intros z Z1 Z2. unfold h5. rewrite upd_ne by done. unfold h4, h2, KJ, J. cbn [app relinkK]. unfold upd at 1 2. case_decide; [done|]. apply reparent_eq. intros _. by apply E2c. }
    apply rep_z in H2. pose proof (zr_t _ _ _ _ _ _ H2) as (_ & _ & Htr'). pose proof Hrr as Hrr2.
    destruct r' as [|c2 r1 er v2 r2] eqn:Er'; [cbn [root] in Hrr; congruence|]. cbn [root] in Hrr. rewrite <- Hrr. cbn [tr] in Htr'. destruct Htr' as (Eer & _).
    unfold setP at 1, ld. rewrite E5 by congruence. rewrite Eer, !rbind_ok. cbn [nleft nparent nright ncolor nisnil nval]. set (h6 := upd h5 er _).
    eapply (Hend h6 xj er xj).
    + intros z Z1 Z2 Z3 Z4. unfold h6. rewrite upd_ne by congruence. rewrite E5 by done. unfold h2, KJ, J. cbn [app relinkK]. rewrite upd_ne by congruence. by apply reparent_ne.
    + unfold h6. rewrite upd_ne by congruence. unfold h5. rewrite upd_eq. congruence.
    + intros z Z1 Z2 Z3. cbn [reparent]. unfold h6, upd at 1 2. case_decide as Hze; [done|]. destruct (decide (z = xl)) as [->|Hzl].
      * rewrite El. cbn [reparent]. rewrite upd_eq. unfold h5. rewrite upd_ne by done. unfold h4. rewrite upd_ne by congruence. unfold h3. rewrite reparent_ne by done. unfold h2c. rewrite upd_ne by done. unfold h1. by rewrite upd_eq.
      * rewrite reparent_ne' by (by rewrite Hrl). by apply E5.
    + apply upd_dom; [eapply isSome_dom; [apply (zr_dom _ _ _ _ _ _ H2)|exact Eer]|]. apply upd_dom; [done|]. apply upd_dom; [eapply isSome_dom; [exact HD|exact Exj]|]. eapply reparent_dom; [|exact D2c]. eapply tr_frame; [|exact Hfr]. intros z Hz. apply E2c; [intros ->; done|congruence].
    + done.
    + done.
Qed.
Lemma Unlink_ok D h K c l x v r m fuel : let W := inorder (plug K (T c l x v r)) in let W' := before K ++ inorder l ++ inorder r ++ after K in
  rep D (minp W) (maxp W) h (plug K (T c l x v r)) -> rb Black m (plug K (T c l x v r)) -> length W <= fuel -> wp (Unlink fuel h x) (unl_post D W' x).
Proof.
  intros W W' H Hb Hf. unfold Unlink. rewrite (incr_z _ _ _ _ _ _ _ _ _ _ _ H Hf), rbind_ok. rewrite (Lz _ _ _ _ _ _ _ _ _ _ H), rbind_ok.
  rewrite (nilz D _ _ h (FL c x v r :: K) l H), rbind_ok. rewrite (Rz _ _ _ _ _ _ _ _ _ _ H), rbind_ok. rewrite (nilz D _ _ h (FR c l x v :: K) r H), rbind_ok.
  rewrite (Pz _ _ _ _ _ _ _ _ _ _ H).
  destruct (isE l) eqn:El; cbn [orb]; [apply isE_E in El; rewrite rbind_ok; eapply (unlinkA D h K c l x v r r); try done; by left|].
  assert (Hle : l <> E) by (intros ->; done). destruct (isE r) eqn:Er.
  - apply isE_E in Er. rewrite rbind_ok. eapply (unlinkA D h K c l x v r l); try done. right. split_and!; done.
  - assert (Hrn : r <> E) by (intros ->; done).
    assert (Htr : tr h x r). { apply rep_z in H. apply (zr_t _ _ _ _ _ _ H). }
    destruct (Min_ok h (rep_hnil _ _ _ _ _ H) r x fuel Htr Hrn) as (J & d & y & w & fr & Hr & HJ & _).
    { unfold W in Hf. rewrite inorder_plug in Hf. cbn [inorder] in Hf. rewrite !app_length in Hf. cbn [length] in Hf. lia. }
    assert (Ey : minp (inorder r ++ after K) = y). { rewrite Hr, inorder_plug, before_FL by done. done. } rewrite Ey.
    eapply wp_mono; [eapply (unlinkBC D _ _ h K c l x v r J d y w fr H); done|].
    intros [[h' fx] par] (-> & -> & HC & Hrep & Hxn). cbn [unl_post]. exists (J ++ FR c l y w :: K), fr, d.
    assert (Hin : inorder (plug (J ++ FR c l y w :: K) fr) = W').
    { unfold W'. rewrite plug_app. cbn [plug fill]. rewrite inorder_plug. cbn [inorder]. rewrite Hr, !inorder_plug, (before_FL J) by done. cbn [inorder app]. rewrite <- !app_assoc. cbn [app]. by rewrite <- !app_assoc. }
    assert (Hln : inorder l <> []) by (by intros Hn%inorder_nil). assert (Hrn' : inorder r <> []) by (by intros Hn%inorder_nil).
    assert (Hmin : minp W' = minp W). { unfold W', W. rewrite inorder_plug. cbn [inorder]. rewrite <- !app_assoc, !(app_assoc (before K) (inorder l)). rewrite !(minp_app (before K ++ inorder l)); [done|..]; intros [_ ?]%app_nil; done. }
    assert (Hmax : maxp W' = maxp W). { unfold W', W. rewrite inorder_plug. cbn [inorder]. rewrite <- !app_assoc. cbn [app]. rewrite !(app_assoc (before K) (inorder l)). rewrite maxp_mid. rewrite decide_False by (intros [? _]%app_nil; done). apply maxp_app. intros [? _]%app_nil; done. }
    rewrite Hmin, Hmax. split_and!; try done.
    + intros ->. assert (Hb' : rb Black m (plug (J ++ FR c l x v :: K) (T Red E y w fr))). { rewrite plug_app. cbn [plug fill]. by rewrite <- Hr. }
      apply rb_down in Hb' as (c0 & n0 & Hb0 & HKb). inversion Hb0; subst. eapply rb_up; [eassumption|]. apply kb_weak. eapply kb_relabel. exact HKb.
    + intros ->. assert (Hb' : rb Black m (plug (J ++ FR c l x v :: K) (T Black E y w fr))). { rewrite plug_app. cbn [plug fill]. by rewrite <- Hr. }
      apply rb_down in Hb' as (c0 & n0 & Hb0 & HKb). inversion Hb0; subst. eexists. split; [eapply rb_nearly; eassumption|]. eapply kb_relabel. exact HKb.
Qed.
Lemma setC_frame h p c x : x <> p -> wp (setC h p c) (fun h' => h' x = h x) \/ setC h p c = UB.
Proof. intros Hx. unfold setC, ld. destruct (h p); [left|by right]. cbn. by rewrite upd_ne. Qed.
(** _Extract removes exactly the element at x, and leaves its node allocated but unlinked *)
Lemma Extract_ok D (s : tst V) t m a x v b : rep D (minp (inorder t)) (maxp (inorder t)) (mem s) t -> rb Black m t -> msize s = length (inorder t) -> inorder t = a ++ (x, v) :: b ->
  wp (Extract s x) (fun s' => exists t' m', inorder t' = a ++ b /\ rb Black m' t' /\ rep D (minp (a ++ b)) (maxp (a ++ b)) (mem s') t' /\ msize s' = length (a ++ b)).
Proof.
  intros H Hb Hsz Hin. destruct (split_tree _ _ _ _ _ Hin) as (K & c & l & r & -> & -> & ->). unfold Extract.
  apply wp_bind. eapply wp_mono; [eapply Unlink_ok; [exact H|exact Hb|lia]|]. intros [[h' fx] par] (K1 & t1 & d & -> & -> & HC & Hrep & Hin1 & Hxn & Hred & Hblack).
  assert (EW : before K ++ inorder l ++ inorder r ++ after K = (before K ++ inorder l) ++ inorder r ++ after K) by (by rewrite <- app_assoc). rewrite EW in *.
  assert (Hlen : msize s - 1 = length ((before K ++ inorder l) ++ inorder r ++ after K)). { rewrite Hsz, Hin, !app_length. cbn [length]. rewrite !app_length. lia. }
  rewrite HC, rbind_ok. destruct d.
  - rewrite decide_False by done. rewrite rbind_ok. cbn [wp mem msize]. destruct (Hred eq_refl) as [m' Hm']. exists (plug K1 t1), m'. split_and!; done.
  - rewrite decide_True by done. destruct (Hblack eq_refl) as (n & Hn & HK1). apply wp_bind. eapply wp_mono; [eapply (Extract_loop D _ _ _ _ _ _ _ _ Hrep Hn HK1 Hin1)|].
    + pose proof (len_plug K1 t1) as Hl. rewrite Hin1, <- Hlen in Hl. assert (msize s <> 0). { rewrite Hsz, Hin, app_length. cbn. lia. } unfold meas. destruct (col t1); lia.
    + intros h2 (t' & m' & H2 & Hb2 & Hin2). cbn [wp mem msize]. exists t', m'. split_and!; done.
Qed.
End tree.
