(** Navigation: _Min, _Max, operator++, operator--, and the descents of the lookup functions. *)
From stdpp Require Import base list numbers option decidable.
From Coq Require Import Lia.
From Verif Require Import Base.Res Base.Order Cont.TreeModel Cont.TreeSpec Cont.TreeProofs Cont.TreeProofs2 Cont.TreeProofs3.

Section tree.
Context {V : Type}.
Implicit Types (h : heap V) (t l r : tree V).
Notation frame := (@frame V).
Definition isFL (f : frame) : Prop := match f with FL _ _ _ _ => True | _ => False end.
Definition isFR (f : frame) : Prop := match f with FR _ _ _ _ => True | _ => False end.
Definition hnil h : Prop := exists a b c, h 0 = Some (Node a b c Black true None).
Lemma rep_hnil D mn mx h t : rep D mn mx h t -> hnil h.
Proof. intros H. eexists _, _, _. apply (rep_head _ _ _ _ _ H). Qed.
Lemma tr_nil h p t : hnil h -> tr h p t -> Isnil h (root t) = Ok (isE t).
Proof. intros (a & b & c & H0) Ht. unfold Isnil, ld. destruct t as [|c' l x v r]; cbn [root tr isE] in *; [by rewrite H0|]. destruct Ht as (-> & _). done. Qed.
Lemma before_FL (J : list frame) : Forall isFL J -> before J = [].
Proof. induction 1 as [|[] J Hf HJ IH]; done. Qed.
Lemma after_FR (J : list frame) : Forall isFR J -> after J = [].
Proof. induction 1 as [|[] J Hf HJ IH]; done. Qed.
Lemma before_app (J K : list frame) : before (J ++ K) = before K ++ before J.
Proof. induction J as [|[] J IH]; cbn [app before]; [symmetry; apply app_nil_r|exact IH|]. rewrite IH. by rewrite !app_assoc. Qed.
Lemma after_app (J K : list frame) : after (J ++ K) = after J ++ after K.
Proof. induction J as [|[] J IH]; cbn [app after]; [done| |exact IH]. by rewrite IH, <- app_assoc. Qed.
Lemma Min_ok h : hnil h -> forall t p fuel, tr h p t -> t <> E -> length (inorder t) <= fuel ->
  exists J d y w fr, t = plug J (T d E y w fr) /\ Forall isFL J /\ Min fuel h (root t) = Ok y.
Proof.
  intros H0. unfold Min. induction t as [|c l IHl x v r _]; intros p fuel Ht Hne Hf; [done|]. cbn [inorder] in Hf. rewrite app_length in Hf. cbn [length] in Hf.
  destruct fuel as [|fuel]; [lia|]. cbn [loop]. cbn [tr] in Ht. destruct Ht as (Hx & Hl & Hr). cbn [root]. unfold L at 1, ld. rewrite Hx, !rbind_ok. cbn [nleft].
  rewrite (tr_nil _ _ _ H0 Hl), rbind_ok. destruct l as [|c' l1 x' v' l2]; cbn [isE].
  - rewrite rbind_ok. exists [], c, x, v, r. split_and!; [done|constructor|done].
  - rewrite rbind_ok. destruct (IHl x fuel Hl ltac:(done) ltac:(lia)) as (J & d & y & w & fr & E & HJ & Hm). exists (J ++ [FL c x v r]), d, y, w, fr. split_and!.
    + rewrite plug_app. cbn [plug fill]. by rewrite <- E.
    + apply Forall_app. split; [done|]. constructor; [done|constructor].
    + exact Hm.
Qed.
Lemma Max_ok h : hnil h -> forall t p fuel, tr h p t -> t <> E -> length (inorder t) <= fuel ->
  exists J d y w fl, t = plug J (T d fl y w E) /\ Forall isFR J /\ Max fuel h (root t) = Ok y.
Proof.
  intros H0. unfold Max. induction t as [|c l _ x v r IHr]; intros p fuel Ht Hne Hf; [done|]. cbn [inorder] in Hf. rewrite app_length in Hf. cbn [length] in Hf.
  destruct fuel as [|fuel]; [lia|]. cbn [loop]. cbn [tr] in Ht. destruct Ht as (Hx & Hl & Hr). cbn [root]. unfold R at 1, ld. rewrite Hx, !rbind_ok. cbn [nright].
  rewrite (tr_nil _ _ _ H0 Hr), rbind_ok. destruct r as [|c' l1 x' v' l2]; cbn [isE].
  - rewrite rbind_ok. exists [], c, x, v, l. split_and!; [done|constructor|done].
  - rewrite rbind_ok. destruct (IHr x fuel Hr ltac:(done) ltac:(lia)) as (J & d & y & w & fr & E & HJ & Hm). exists (J ++ [FR c l x v]), d, y, w, fr. split_and!.
    + rewrite plug_app. cbn [plug fill]. by rewrite <- E.
    + apply Forall_app. split; [done|]. constructor; [done|constructor].
    + exact Hm.
Qed.
Lemma minp_app (a b : list (nat * V)) : a <> [] -> minp (a ++ b) = minp a.
Proof. by destruct a. Qed.
Lemma maxp_app (a b : list (nat * V)) : b <> [] -> maxp (a ++ b) = maxp b.
Proof. intros Hb. destruct b as [|y b _] using rev_ind; [done|]. unfold maxp. rewrite app_assoc, !fmap_app. cbn. by rewrite !last_snoc. Qed.
Lemma maxp_snoc (a : list (nat * V)) x v : maxp (a ++ [(x, v)]) = x.
Proof. unfold maxp. rewrite fmap_app. cbn. by rewrite last_snoc. Qed.
Lemma Min_minp h t p fuel : hnil h -> tr h p t -> t <> E -> length (inorder t) <= fuel -> Min fuel h (root t) = Ok (minp (inorder t)).
Proof.
  intros H0 Ht Hne Hf. destruct (Min_ok h H0 t p fuel Ht Hne Hf) as (J & d & y & w & fr & E & HJ & Hm). rewrite Hm, E. rewrite inorder_plug, before_FL by done. done.
Qed.
Lemma Max_maxp h t p fuel : hnil h -> tr h p t -> t <> E -> length (inorder t) <= fuel -> Max fuel h (root t) = Ok (maxp (inorder t)).
Proof.
  intros H0 Ht Hne Hf. destruct (Max_ok h H0 t p fuel Ht Hne Hf) as (J & d & y & w & fr & E & HJ & Hm). rewrite Hm, E. rewrite inorder_plug, after_FR by done. cbn [inorder].
  rewrite app_nil_r, app_assoc, maxp_snoc. done.
Qed.
Lemma up_incr D mn mx h : forall K fuel c l x v r, rep D mn mx h (plug K (T c l x v r)) -> length K < fuel ->
  loop fuel (fun p => q <~ P h p ;; b <~ Isnil h q ;; qr <~ (if b : bool then Ok 0 else R h q) ;;
                        if negb b && bool_decide (p = qr) then Ok (inl q) else Ok (inr q)) x = Ok (minp (after K)).
Proof.
  induction K as [|f K IH]; intros fuel c l x v r H Hf; (destruct fuel as [|fuel]; [lia|]); cbn [loop]; rewrite (Pz _ _ _ _ _ _ _ _ _ _ H), rbind_ok.
  - cbn [parK]. rewrite (tr_nil h 0 E (rep_hnil _ _ _ _ _ H) I : Isnil h 0 = Ok true), !rbind_ok. done.
  - cbn [length] in Hf. destruct f as [c' y w s|c' s y w]; cbn [parK fptr after]; cbn [plug fill] in H.
    + rewrite (nilz D mn mx h K _ H : Isnil h y = Ok false), rbind_ok. rewrite (Rz D mn mx h K _ _ _ _ _ H), rbind_ok. cbn [negb andb].
      pose proof (node_ne_l D mn mx h K _ _ _ _ _ H) as (_ & _ & _ & Hne). cbn [root] in Hne. rewrite bool_decide_false by (apply Hne; eapply (node_ne_l D mn mx h (FL c' y w s :: K)); exact H). rewrite rbind_ok. done.
    + rewrite (nilz D mn mx h K _ H : Isnil h y = Ok false), rbind_ok. rewrite (Rz D mn mx h K _ _ _ _ _ H), rbind_ok. cbn [negb andb root]. rewrite bool_decide_true by done. rewrite rbind_ok.
      eapply IH; [exact H|lia].
Qed.
Lemma up_decr D mn mx h : forall K fuel c l x v r, rep D mn mx h (plug K (T c l x v r)) -> length K < fuel ->
  loop fuel (fun p => q <~ P h p ;; b <~ Isnil h q ;; ql <~ (if b : bool then Ok 0 else L h q) ;;
                          if negb b && bool_decide (p = ql) then Ok (inl q)
                          else b' <~ Isnil h p ;; Ok (inr (if b' : bool then p else q))) x = Ok (maxp (before K)).
Proof.
  induction K as [|f K IH]; intros fuel c l x v r H Hf; (destruct fuel as [|fuel]; [lia|]); cbn [loop]; rewrite (Pz _ _ _ _ _ _ _ _ _ _ H), rbind_ok.
  - cbn [parK]. rewrite (tr_nil h 0 E (rep_hnil _ _ _ _ _ H) I : Isnil h 0 = Ok true), !rbind_ok. cbn [negb andb]. rewrite (nilz D mn mx h [] _ H : Isnil h x = Ok false), !rbind_ok. done.
  - cbn [length] in Hf. destruct f as [c' y w s|c' s y w]; cbn [parK fptr before]; cbn [plug fill] in H.
    + rewrite (nilz D mn mx h K _ H : Isnil h y = Ok false), rbind_ok. rewrite (Lz D mn mx h K _ _ _ _ _ H), rbind_ok. cbn [negb andb root]. rewrite bool_decide_true by done. rewrite rbind_ok.
      eapply IH; [exact H|lia].
    + rewrite (nilz D mn mx h K _ H : Isnil h y = Ok false), rbind_ok. rewrite (Lz D mn mx h K _ _ _ _ _ H), rbind_ok. cbn [negb andb].
      assert (Hx0 : x <> 0) by (eapply (node_ne_l D mn mx h (FR c' s y w :: K)); exact H).
      pose proof (node_ne_l D mn mx h K _ _ _ _ _ H) as (_ & _ & _ & Hne). cbn [root] in Hne. rewrite bool_decide_false by (intros E; destruct (decide (root s = 0)); [congruence|by apply Hne]).
      rewrite (nilz D mn mx h (FR c' s y w :: K) _ H : Isnil h x = Ok false), !rbind_ok. rewrite app_assoc, maxp_snoc. done.
Qed.
Lemma len_plug K t : length K + length (inorder t) <= length (inorder (plug K t)).
Proof. rewrite inorder_plug. pose proof (lenK K) as Hlk. unfold kptrs in Hlk. rewrite app_length, !fmap_length in Hlk. rewrite !app_length. lia. Qed.
Lemma incr_z D mn mx h K fuel c l x v r : rep D mn mx h (plug K (T c l x v r)) -> length (inorder (plug K (T c l x v r))) <= fuel -> incr fuel h x = Ok (minp (inorder r ++ after K)).
Proof.
  intros H Hf. pose proof (len_plug K (T c l x v r)) as Hlen. cbn [inorder] in Hlen. rewrite app_length in Hlen. cbn [length] in Hlen. unfold incr. rewrite (Rz _ _ _ _ _ _ _ _ _ _ H), rbind_ok.
  rewrite (nilz D mn mx h (FR c l x v :: K) r H), rbind_ok. destruct r as [|c' l' x' v' r']; cbn [isE].
  - eapply up_incr; [exact H|lia].
  - rewrite minp_app by (cbn; by destruct (inorder l')). apply rep_z in H. eapply Min_minp; [|apply (zr_t _ _ _ _ _ _ H)|done|lia]. apply rep_z in H. by eapply rep_hnil.
Qed.
Lemma decr_z D mn mx h K fuel c l x v r : rep D mn mx h (plug K (T c l x v r)) -> length (inorder (plug K (T c l x v r))) <= fuel -> decr fuel h x = Ok (maxp (before K ++ inorder l)).
Proof.
  intros H Hf. pose proof (len_plug K (T c l x v r)) as Hlen. cbn [inorder] in Hlen. rewrite app_length in Hlen. cbn [length] in Hlen. unfold decr. rewrite (nilz _ _ _ _ _ _ H : Isnil h x = Ok false), rbind_ok.
  rewrite (Lz _ _ _ _ _ _ _ _ _ _ H), rbind_ok.
  rewrite (nilz D mn mx h (FL c x v r :: K) l H), rbind_ok. destruct l as [|c' l' x' v' r']; cbn [isE].
  - cbn [inorder]. rewrite app_nil_r. eapply up_decr; [exact H|lia].
  - rewrite maxp_app by (cbn; by destruct (inorder l')). apply rep_z in H. eapply Max_maxp; [|apply (zr_t _ _ _ _ _ _ H)|done|lia]. apply rep_z in H. by eapply rep_hnil.
Qed.
Lemma split_tree : forall t a x v b, inorder t = a ++ (x, v) :: b -> exists K c l r, t = plug K (T c l x v r) /\ a = before K ++ inorder l /\ b = inorder r ++ after K.
Proof.
  induction t as [|c l IHl y w r IHr]; intros a x v b H; [by destruct a|]. cbn [inorder] in H.
  destruct (app_eq_inv _ _ _ _ H) as [(k & Ek1 & Ek2)|(k & Ek1 & Ek2)].
  - destruct k as [|z k]; cbn [app] in Ek2.
    + injection Ek2 as -> -> ->. exists [], c, l, r. cbn [plug before after]. rewrite !app_nil_r in *. split_and!; done.
    + injection Ek2 as <- ->. destruct (IHl _ _ _ _ Ek1) as (K & c1 & l1 & r1 & -> & -> & ->). exists (K ++ [FL c y w r]), c1, l1, r1. rewrite plug_app, before_app, after_app. cbn [plug fill before after app]. rewrite app_nil_r, <- app_assoc. done.
  - destruct k as [|z k]; cbn [app] in Ek2.
    + injection Ek2 as Ex Ev Eb. subst. exists [], c, l, r. cbn [plug before after]. rewrite !app_nil_r in *. split_and!; done.
    + injection Ek2 as <- Er. destruct (IHr _ _ _ _ Er) as (K & c1 & l1 & r1 & -> & -> & ->). exists (K ++ [FR c l y w]), c1, l1, r1. rewrite plug_app, before_app, after_app. cbn [plug fill before after app]. rewrite app_nil_r, Ek1, <- !app_assoc. done.
Qed.
(** *** descents *)
Definition parts {A} (g : A -> bool) (l : list A) : Prop := forall i j x y, i < j -> l !! i = Some x -> l !! j = Some y -> g y = true -> g x = true.
Lemma parts_true {A} (g : A -> bool) a x b : parts g (a ++ x :: b) -> g x = true -> Forall (fun y => g y = true) a.
Proof.
  intros Hp Hx. apply Forall_lookup. intros i y Hy. pose proof (lookup_lt_Some _ _ _ Hy). eapply (Hp i (length a) y x); [done|by rewrite lookup_app_l|by rewrite list_lookup_middle|done].
Qed.
Lemma parts_false {A} (g : A -> bool) a x b : parts g (a ++ x :: b) -> g x = false -> Forall (fun y => g y = false) b.
Proof.
  intros Hp Hx. apply Forall_lookup. intros i y Hy. destruct (g y) eqn:Ey; [|done]. rewrite <- Hx. symmetry. eapply (Hp (length a) (length a + S i) x y); [lia|by rewrite list_lookup_middle| |done].
  rewrite lookup_app_r by lia. replace (length a + S i - length a) with (S i) by lia. done.
Qed.
Definition found (g : V -> bool) (t : tree V) (o : nat * child * nat) : Prop :=
  exists K, plug K E = t /\ fst (fst o) = parK K /\ side K (snd (fst o)) /\ snd o = minp (after K) /\
    Forall (fun e => g (snd e) = true) (before K) /\ Forall (fun e => g (snd e) = false) (after K).
Lemma descend D mn mx h whole (g : V -> bool) (step : nat * child * nat * nat -> res (nat * child * nat * nat + nat * child * nat)) :
  rep D mn mx h whole -> parts (fun e => g (snd e)) (inorder whole) ->
  (forall p c b, step (p, c, b, 0) = Ok (inr (p, c, b))) ->
  (forall p ch b K c l x v r, whole = plug K (T c l x v r) -> step (p, ch, b, x) = if g v then Ok (inl (x, CRight, b, root r)) else Ok (inl (x, CLeft, x, root l))) ->
  forall fuel t K p ch b, whole = plug K t -> (K = [] -> p = root t) -> (K <> [] -> p = parK K /\ side K ch) -> b = minp (after K) ->
    Forall (fun e => g (snd e) = true) (before K) -> Forall (fun e => g (snd e) = false) (after K) -> length (inorder t) < fuel ->
    wp (loop fuel step (p, ch, b, root t)) (found g whole).
Proof.
  intros H Hp Hs1 Hs2. induction fuel as [|fuel IH]; intros t K p ch b Hw Hk0 Hk1 Hb Hbe Haf Hf; [lia|]. cbn [loop]. destruct t as [|c l x v r]; cbn [root].
  - rewrite Hs1, rbind_ok. cbn [wp]. exists K. cbn [fst snd]. split_and!; try done; destruct (decide (K = [])) as [->|Hne]; [by apply Hk0|by apply Hk1|done|by apply Hk1].
  - rewrite (Hs2 _ _ _ K c l x v r Hw). cbn [inorder] in Hf. rewrite app_length in Hf. cbn [length] in Hf.
    assert (Hin : inorder whole = (before K ++ inorder l) ++ (x, v) :: (inorder r ++ after K)). { rewrite Hw, inorder_plug. cbn [inorder]. by rewrite <- !app_assoc. }
    rewrite Hin in Hp. destruct (g v) eqn:Eg; rewrite rbind_ok.
    + apply (IH r (FR c l x v :: K)); try done; [lia..| |lia]. cbn [before]. rewrite app_assoc. apply Forall_app. split; [|by constructor]. by eapply (parts_true (fun e => g (snd e))).
    + apply (IH l (FL c x v r :: K)); try done; [lia..| |lia]. cbn [after]. constructor; [done|]. by eapply (parts_false (fun e => g (snd e))).
Qed.
Lemma descend_root D mn mx h t (g : V -> bool) step fuel : 
  rep D mn mx h t -> parts (fun e => g (snd e)) (inorder t) ->
  (forall p c b, step (p, c, b, 0) = Ok (inr (p, c, b))) ->
  (forall p ch b K c l x v r, t = plug K (T c l x v r) -> step (p, ch, b, x) = if g v then Ok (inl (x, CRight, b, root r)) else Ok (inl (x, CLeft, x, root l))) ->
  length (inorder t) < fuel -> wp (loop fuel step (root t, CRight, 0, root t)) (found g t).
Proof. intros H Hp H1 H2 Hf. eapply (descend D mn mx h t g step H Hp H1 H2 fuel t []); try done; constructor. Qed.
End tree.
Section find.
Context {V K : Type} (kf : V -> K) (lt : K -> K -> bool).
Lemma Key_z D mn mx (h : heap V) Z c l x v r : rep D mn mx h (plug Z (T c l x v r)) -> Key kf h x = Ok (kf v).
Proof. intros H. unfold Key, ld. by rewrite (node_at _ _ _ _ _ _ _ _ _ _ H). Qed.
Lemma flb_ok D mn mx (s : tst V) t k : rep D mn mx (mem s) t -> length (inorder t) <= msize s -> parts (fun e => lt (kf (snd e)) k) (inorder t) ->
  wp (Find_lower_bound kf lt s k) (found (fun v => lt (kf v) k) t).
Proof.
  intros H Hsz Hp. unfold Find_lower_bound, head. rewrite (Ph _ _ _ _ _ H), rbind_ok. eapply (descend_root D mn mx (mem s)); try done; [| |lia].
  - intros p c b. rewrite (tr_nil (mem s) 0 E (rep_hnil _ _ _ _ _ H) I : Isnil (mem s) 0 = Ok true), rbind_ok. done.
  - intros p ch b Z c l x v r ->. rewrite (nilz _ _ _ _ _ _ H : Isnil (mem s) x = Ok false), rbind_ok. rewrite (Key_z _ _ _ _ _ _ _ _ _ _ H), rbind_ok.
    destruct (lt (kf v) k); [rewrite (Rz _ _ _ _ _ _ _ _ _ _ H)|rewrite (Lz _ _ _ _ _ _ _ _ _ _ H)]; by rewrite rbind_ok.
Qed.
Lemma fub_ok D mn mx (s : tst V) t k : rep D mn mx (mem s) t -> length (inorder t) <= msize s -> parts (fun e => negb (lt k (kf (snd e)))) (inorder t) ->
  wp (Find_upper_bound kf lt s k) (found (fun v => negb (lt k (kf v))) t).
Proof.
  intros H Hsz Hp. unfold Find_upper_bound, head. rewrite (Ph _ _ _ _ _ H), rbind_ok. eapply (descend_root D mn mx (mem s)); try done; [| |lia].
  - intros p c b. rewrite (tr_nil (mem s) 0 E (rep_hnil _ _ _ _ _ H) I : Isnil (mem s) 0 = Ok true), rbind_ok. done.
  - intros p ch b Z c l x v r ->. rewrite (nilz _ _ _ _ _ _ H : Isnil (mem s) x = Ok false), rbind_ok. rewrite (Key_z _ _ _ _ _ _ _ _ _ _ H), rbind_ok.
    destruct (lt k (kf v)); cbn [negb]; [rewrite (Lz _ _ _ _ _ _ _ _ _ _ H)|rewrite (Rz _ _ _ _ _ _ _ _ _ _ H)]; by rewrite rbind_ok.
Qed.
End find.
