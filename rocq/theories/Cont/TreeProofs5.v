(** Erasure: the loop of _Extract that repairs a missing black node. *)
From stdpp Require Import base list numbers option decidable.
From Coq Require Import Lia.
From Verif Require Import Base.Res Base.Order Cont.TreeModel Cont.TreeSpec Cont.TreeProofs Cont.TreeProofs2 Cont.TreeProofs3 Cont.TreeProofs4.

Section tree.
Context {V : Type}.
Implicit Types (h : heap V) (t l r : tree V).
Notation frame := (@frame V).
Ltac rd pf := let X := fresh in pose proof pf as X; cbn [root] in X; rewrite X, rbind_ok; clear X; cbn [parK fptr root].
Ltac wr pf h' H' := apply wp_bind; eapply wp_mono; [apply pf|]; intros h' H'.
Ltac dF := rewrite decide_False by done.
Ltac dT := rewrite decide_True by done.
Ltac inord := cbn [plug fill]; rewrite !inorder_plug; cbn [inorder]; rewrite <- ?app_assoc; cbn [app]; rewrite <- ?app_assoc; cbn [app]; rewrite <- ?app_assoc; try done.
Definition blacken t : tree V := match t with E => E | T _ l x v r => T Black l x v r end.
(** a subtree one black node short: black, or a red root that only has to be painted black *)
Definition nearly (n : nat) t : Prop := rb Black n t \/ exists l x v r cl cr, t = T Red l x v r /\ rb cl n l /\ rb cr n r.
Definition meas (K : list frame) t : nat := match col t with Red => 0 | Black => S (length K) end.
Definition efix_post D mn mx (whole : list (nat * V)) (M : nat) (res : (heap V * nat * nat) + (heap V * nat)) : Prop :=
  match res with
  | inl (h', fx, par) => exists K t n, fx = root t /\ par = parK K /\ rep D mn mx h' (plug K t) /\ nearly n t /\ kb Black (S n) K /\ inorder (plug K t) = whole /\ meas K t < M
  | inr (h', fx) => exists K t m, fx = root t /\ rep D mn mx h' (plug K t) /\ rb Black m (plug K (blacken t)) /\ inorder (plug K t) = whole
  end.
Definition bh (c : color) (n : nat) : nat := match c with Red => n | Black => S n end.
Lemma rb_mk c n l x v r : rb Black n l -> rb Black n r -> rb c (bh c n) (T c l x v r).
Proof. destruct c; econstructor; eauto. Qed.
Definition tailL h (fix_ par p : nat) : res ((heap V * nat * nat) + (heap V * nat)) :=
      b <~ Isnil h p ;;
      if b : bool then np <~ P h par ;; Ok (inl (h, par, np))
      else
        l <~ L h p ;; lc <~ C h l ;; r <~ R h p ;; rc <~ C h r ;;
        if decide (lc = Black /\ rc = Black) then h <~ setC h p Red ;; np <~ P h par ;; Ok (inl (h, par, np))
        else
          '(h, p) <~ (if decide (rc = Black) then
                        h <~ setC h l Black ;; h <~ setC h p Red ;; h <~ Rrotate h p ;; p <~ R h par ;; Ok (h, p)
                      else Ok (h, p)) ;;
          c <~ C h par ;; h <~ setC h p c ;; h <~ setC h par Black ;; r <~ R h p ;; h <~ setC h r Black ;;
          h <~ Lrotate h par ;; Ok (inr (h, fix_)).
Definition tailR h (fix_ par p : nat) : res ((heap V * nat * nat) + (heap V * nat)) :=
      b <~ Isnil h p ;;
      if b : bool then np <~ P h par ;; Ok (inl (h, par, np))
      else
        r <~ R h p ;; rc <~ C h r ;; l <~ L h p ;; lc <~ C h l ;;
        if decide (rc = Black /\ lc = Black) then h <~ setC h p Red ;; np <~ P h par ;; Ok (inl (h, par, np))
        else
          '(h, p) <~ (if decide (lc = Black) then
                        h <~ setC h r Black ;; h <~ setC h p Red ;; h <~ Lrotate h p ;; p <~ L h par ;; Ok (h, p)
                      else Ok (h, p)) ;;
          c <~ C h par ;; h <~ setC h p c ;; h <~ setC h par Black ;; l <~ L h p ;; h <~ setC h l Black ;;
          h <~ Rrotate h par ;; Ok (inr (h, fix_)).
Lemma fix_stage1 D mn mx h K t n cp x v a y w s : rep D mn mx h (plug K (T cp t x v (T Black a y w s))) -> rb Black n t -> (exists ca, rb ca n a) -> rb Red n s -> kb cp (bh cp (S n)) K ->
  wp (c <~ C h x ;; h <~ setC h y c ;; h <~ setC h x Black ;; r <~ R h y ;; h <~ setC h r Black ;; h <~ Lrotate h x ;; Ok (inr (h, root t)))
    (efix_post D mn mx (inorder (plug K (T cp t x v (T Black a y w s)))) 0).
Proof.
  intros H Ht (ca & Ha) Hs HK. inversion Hs as [|? b z u b' Hb Hb'|]; subst.
  rd (colz D mn mx h K _ H). cbn [col].
  wr (setC_z D mn mx h (FR cp t x v :: K) Black a y w _ cp H) h1 H1.
  wr (setC_z D mn mx h1 K cp t x v _ Black H1) h2 H2.
  rd (Rz D mn mx h2 (FR Black t x v :: K) cp a y w _ H2).
  wr (setC_z D mn mx h2 (FR cp a y w :: FR Black t x v :: K) Red b z u b' Black H2) h3 H3.
  wr (lrot_z D mn mx h3 K Black t x v cp a y w (T Black b z u b') H3) h4 H4.
  cbn [wp efix_post]. destruct (rb_up K cp (bh cp (S n)) (T cp (T Black t x v a) y w (T Black b z u b'))) as [m Hm]; [apply rb_mk; econstructor; eauto|done|].
  exists (FL Black x v a :: FL cp y w (T Black b z u b') :: K), t, m. split_and!; [done|exact H4| |by inord].
  cbn [plug fill]. destruct t as [|c0 ? ? ? ?]; [exact Hm|]. cbn [blacken]. inversion Ht; subst. exact Hm.
Qed.
Lemma fix_stage1R D mn mx h K t n cp x v a y w s : rep D mn mx h (plug K (T cp (T Black s y w a) x v t)) -> rb Black n t -> (exists ca, rb ca n a) -> rb Red n s -> kb cp (bh cp (S n)) K ->
  wp (c <~ C h x ;; h <~ setC h y c ;; h <~ setC h x Black ;; r <~ L h y ;; h <~ setC h r Black ;; h <~ Rrotate h x ;; Ok (inr (h, root t)))
    (efix_post D mn mx (inorder (plug K (T cp (T Black s y w a) x v t))) 0).
Proof.
  intros H Ht (ca & Ha) Hs HK. inversion Hs as [|? b z u b' Hb Hb'|]; subst.
  rd (colz D mn mx h K _ H). cbn [col].
  wr (setC_z D mn mx h (FL cp x v t :: K) Black _ y w a cp H) h1 H1.
  wr (setC_z D mn mx h1 K cp _ x v t Black H1) h2 H2.
  rd (Lz D mn mx h2 (FL Black x v t :: K) cp _ y w a H2).
  wr (setC_z D mn mx h2 (FL cp y w a :: FL Black x v t :: K) Red b z u b' Black H2) h3 H3.
  wr (rrot_z D mn mx h3 K Black t x v cp a y w (T Black b z u b') H3) h4 H4.
  cbn [wp efix_post]. destruct (rb_up K cp (bh cp (S n)) (T cp (T Black b z u b') y w (T Black a x v t))) as [m Hm]; [apply rb_mk; econstructor; eauto|done|].
  exists (FR Black a x v :: FR cp (T Black b z u b') y w :: K), t, m. split_and!; [done|exact H4| |by inord].
  cbn [plug fill]. destruct t as [|c0 ? ? ? ?]; [exact Hm|]. cbn [blacken]. inversion Ht; subst. exact Hm.
Qed.
Lemma efix_weak D mn mx whole M M' o : efix_post D mn mx whole M o -> M <= M' -> efix_post D mn mx whole M' o.
Proof. destruct o as [[[h' fx] par]|[h' fx]]; [|done]. cbn. intros (K & t & n & H) HM. exists K, t, n. destruct H as (? & ? & ? & ? & ? & ? & ?). split_and!; try done. lia. Qed.
Lemma tailL_ok D mn mx h K t n cp x v a y w b ca cb M : rep D mn mx h (plug K (T cp t x v (T Black a y w b))) -> rb Black n t -> rb ca n a -> rb cb n b -> kb cp (bh cp (S n)) K ->
  (cp = Red -> 0 < M) -> (cp = Black -> S (length K) < M) ->
  wp (tailL h (root t) x y) (efix_post D mn mx (inorder (plug K (T cp t x v (T Black a y w b)))) M).
Proof.
  intros H Ht Ha Hb HK HM1 HM2. unfold tailL. rewrite (nilz D mn mx h (FR cp t x v :: K) _ H : Isnil h y = Ok false), rbind_ok.
  rd (Lz D mn mx h (FR cp t x v :: K) Black a y w b H). rd (colz D mn mx h (FL Black y w b :: FR cp t x v :: K) a H).
  rd (Rz D mn mx h (FR cp t x v :: K) Black a y w b H). rd (colz D mn mx h (FR Black a y w :: FR cp t x v :: K) b H).
  rewrite (rb_col _ _ _ Ha), (rb_col _ _ _ Hb). case_decide as Hd.
  - destruct Hd as [-> ->]. wr (setC_z D mn mx h (FR cp t x v :: K) Black a y w b Red H) h1 H1.
    rd (Pz D mn mx h1 K cp t x v _ H1). cbn [wp efix_post].
    exists K, (T cp t x v (T Red a y w b)), (match cp with Red => n | Black => S n end). split_and!; [done|done|exact H1| | |by inord|].
    + destruct cp; [right; eexists _, _, _, _, _, _; split; [done|split; [done|by constructor]]|left; econstructor; [done|by constructor]].
    + destruct cp; cbn [bh] in HK; [by apply kb_weak|done].
    + unfold meas. cbn [col]. destruct cp; auto.
  - destruct cb.
    + dF. rewrite rbind_ok. eapply wp_mono; [eapply fix_stage1; [exact H|done|by eexists|done|done]|]. intros r Hr. eapply efix_weak; [exact Hr|lia].
    + dT. destruct ca; [|tauto]. inversion Ha as [|? a1 z u a2 Ha1 Ha2|]; subst. cbn [root].
      apply wp_bind. wr (setC_z D mn mx h (FL Black y w b :: FR cp t x v :: K) Red a1 z u a2 Black H) h1 H1.
      wr (setC_z D mn mx h1 (FR cp t x v :: K) Black _ y w b Red H1) h2 H2.
      wr (rrot_z D mn mx h2 (FR cp t x v :: K) Red b y w Black a2 z u a1 H2) h3 H3.
      rd (Rz D mn mx h3 K cp t x v _ H3). cbn [wp].
      replace (inorder (plug K (T cp t x v (T Black (T Red a1 z u a2) y w b)))) with (inorder (plug K (T cp t x v (T Black a1 z u (T Red a2 y w b))))) by inord.
      eapply wp_mono; [eapply fix_stage1; [exact H3|done|by eexists|by constructor|done]|]. intros r Hr. eapply efix_weak; [exact Hr|lia].
Qed.
Lemma tailR_ok D mn mx h K t n cp x v a y w b ca cb M : rep D mn mx h (plug K (T cp (T Black b y w a) x v t)) -> rb Black n t -> rb ca n a -> rb cb n b -> kb cp (bh cp (S n)) K ->
  (cp = Red -> 0 < M) -> (cp = Black -> S (length K) < M) ->
  wp (tailR h (root t) x y) (efix_post D mn mx (inorder (plug K (T cp (T Black b y w a) x v t))) M).
Proof.
  intros H Ht Ha Hb HK HM1 HM2. unfold tailR. rewrite (nilz D mn mx h (FL cp x v t :: K) _ H : Isnil h y = Ok false), rbind_ok.
  rd (Rz D mn mx h (FL cp x v t :: K) Black b y w a H). rd (colz D mn mx h (FR Black b y w :: FL cp x v t :: K) a H).
  rd (Lz D mn mx h (FL cp x v t :: K) Black b y w a H). rd (colz D mn mx h (FL Black y w a :: FL cp x v t :: K) b H).
  rewrite (rb_col _ _ _ Ha), (rb_col _ _ _ Hb). case_decide as Hd.
  - destruct Hd as [-> ->]. wr (setC_z D mn mx h (FL cp x v t :: K) Black b y w a Red H) h1 H1.
    rd (Pz D mn mx h1 K cp _ x v t H1). cbn [wp efix_post].
    exists K, (T cp (T Red b y w a) x v t), (match cp with Red => n | Black => S n end). split_and!; [done|done|exact H1| | |by inord|].
    + destruct cp; [right; eexists _, _, _, _, _, _; split; [done|split; [by constructor|done]]|left; econstructor; [by constructor|done]].
    + destruct cp; cbn [bh] in HK; [by apply kb_weak|done].
    + unfold meas. cbn [col]. destruct cp; auto.
  - destruct cb.
    + dF. rewrite rbind_ok. eapply wp_mono; [eapply fix_stage1R; [exact H|done|by eexists|done|done]|]. intros r Hr. eapply efix_weak; [exact Hr|lia].
    + dT. destruct ca; [|tauto]. inversion Ha as [|? a1 z u a2 Ha1 Ha2|]; subst. cbn [root].
      apply wp_bind. wr (setC_z D mn mx h (FR Black b y w :: FL cp x v t :: K) Red a1 z u a2 Black H) h1 H1.
      wr (setC_z D mn mx h1 (FL cp x v t :: K) Black b y w _ Red H1) h2 H2.
      wr (lrot_z D mn mx h2 (FL cp x v t :: K) Red b y w Black a1 z u a2 H2) h3 H3.
      rd (Lz D mn mx h3 K cp _ x v t H3). cbn [wp].
      replace (inorder (plug K (T cp (T Black b y w (T Red a1 z u a2)) x v t))) with (inorder (plug K (T cp (T Black (T Red b y w a1) z u a2) x v t))) by inord.
      eapply wp_mono; [eapply fix_stage1R; [exact H3|done|by eexists|by constructor|done]|]. intros r Hr. eapply efix_weak; [exact Hr|lia].
Qed.
Lemma rb_S c n t : rb c (S n) t -> exists c' l x v r, t = T c' l x v r.
Proof. inversion 1; subst; eauto 10. Qed.
Lemma Extract_fix_ok D mn mx h K t n : rep D mn mx h (plug K t) -> nearly n t -> kb Black (S n) K ->
  wp (Extract_fix h (root t) (parK K)) (efix_post D mn mx (inorder (plug K t)) (meas K t)).
Proof.
  intros H Hn HK. unfold Extract_fix, head. rewrite (Ph _ _ _ _ _ H), rbind_ok. rewrite (colz _ _ _ _ _ _ H), rbind_ok.
  destruct K as [|f K].
  - rewrite decide_False by (cbn [plug]; tauto). cbn [wp efix_post]. destruct Hn as [Hb|(l & x & v & r & cl & cr & -> & Hl & Hr)].
    + exists [], t, n. split_and!; try done. destruct t as [|c0 ? ? ? ?]; [exact Hb|]. cbn [blacken plug]. inversion Hb; subst. exact Hb.
    + exists [], (T Red l x v r), (S n). split_and!; try done. cbn. by econstructor.
  - destruct Hn as [Hb|(l & x & v & r & cl & cr & -> & Hl & Hr)].
    2:{ rewrite decide_False by (cbn [col]; naive_solver). cbn [wp efix_post]. destruct (rb_up (f :: K) Black (S n) (T Black l x v r)) as [m Hm]; [by econstructor|done|]. exists (f :: K), (T Red l x v r), m. split_and!; done. }
    rewrite decide_True.
    2:{ split; [|by apply rb_col in Hb]. intros E. destruct (decide (root t = 0)) as [E0|E0]; [|discriminate (proj1 (focus_root _ _ _ _ (f :: K) t H (or_introl E0)) E)].
        pose proof (rep_nd _ _ _ _ _ H) as Hnd. apply list.NoDup_cons in Hnd as [Hnd _]. apply Hnd. rewrite <- E0, E. destruct (tr_root_in (plug (f :: K) t)) as [Ez|Hin]; [|done].
        exfalso. rewrite Ez in E. apply rep_z in H. pose proof (root_plug_ne K t f (zr_nd _ _ _ _ _ _ H)) as Hi. rewrite Ez in Hi. pose proof (zr_nd _ _ _ _ _ _ H) as Hz. apply list.NoDup_cons in Hz as [Hz _]. apply Hz. apply elem_of_app. by left. }
    assert (Hm : meas (f :: K) t = S (S (length K))). { unfold meas. by rewrite (rb_col _ _ _ Hb). } rewrite Hm.
    assert (HK' : exists cp cs, kb cp (bh cp (S n)) K /\ ((exists x v s, f = FL cp x v s /\ rb cs (S n) s) \/ (exists x v s, f = FR cp s x v /\ rb cs (S n) s)) /\ (cs = Red -> cp = Black)).
    { inversion HK; subst; [exists Red, Black|exists Red, Black|exists Black, c'|exists Black, c']; cbn [bh]; split_and!; eauto 10; done. }
    clear HK. destruct HK' as (cp & cs & HK & [(x & v & s & -> & Hs)|(x & v & s & -> & Hs)] & Hc).
    + cbn [parK fptr]. cbn [plug fill] in *. rd (Lz D mn mx h K cp t x v s H). dT. rd (Rz D mn mx h K cp t x v s H). rd (colz D mn mx h (FR cp t x v :: K) s H). rewrite (rb_col _ _ _ Hs).
      destruct cs.
      * dT. rewrite (Hc eq_refl) in *. inversion Hs as [|? a y w b Ha Hbb|]; subst. cbn [root].
        apply wp_bind. wr (setC_z D mn mx h (FR Black t x v :: K) Red a y w b Black H) h1 H1.
        wr (setC_z D mn mx h1 K Black t x v _ Red H1) h2 H2. wr (lrot_z D mn mx h2 K Red t x v Black a y w b H2) h3 H3.
        rd (Rz D mn mx h3 (FL Black y w b :: K) Red t x v a H3). cbn [wp].
        change (wp (tailL h3 (root t) x (root a)) (efix_post D mn mx (inorder (plug K (T Black t x v (T Red a y w b)))) (S (S (length K))))).
        destruct (rb_S _ _ _ Ha) as (ca & a1 & z & u & a2 & ->). inversion Ha; subst.
        replace (inorder (plug K (T Black t x v (T Red (T Black a1 z u a2) y w b)))) with (inorder (plug (FL Black y w b :: K) (T Red t x v (T Black a1 z u a2)))) by inord.
        eapply tailL_ok; [exact H3|done|done|done| |lia|done]. cbn [bh]. by econstructor.
      * dF. rewrite rbind_ok. change (wp (tailL h (root t) x (root s)) (efix_post D mn mx (inorder (plug K (T cp t x v s))) (S (S (length K))))).
        destruct (rb_S _ _ _ Hs) as (ca & a1 & z & u & a2 & ->). inversion Hs; subst. eapply tailL_ok; [exact H|done|done|done|done|lia|lia].
    + cbn [parK fptr]. cbn [plug fill] in *. rd (Lz D mn mx h K cp s x v t H).
      pose proof (node_ne_l D mn mx h K cp s x v t H) as (_ & _ & _ & Hne).
      assert (Hs0 : root s <> 0). { destruct (rb_S _ _ _ Hs) as (ca & a1 & z & u & a2 & ->). cbn [root]. eapply (node_ne_l D mn mx h (FL cp x v t :: K)). exact H. }
      rewrite decide_False by (intros E; by apply (Hne Hs0)). rewrite rbind_ok.
      rd (colz D mn mx h (FL cp x v t :: K) s H). rewrite (rb_col _ _ _ Hs).
      destruct cs.
      * dT. rewrite (Hc eq_refl) in *. inversion Hs as [|? a y w b Ha Hbb|]; subst. cbn [root].
        apply wp_bind. wr (setC_z D mn mx h (FL Black x v t :: K) Red a y w b Black H) h1 H1.
        wr (setC_z D mn mx h1 K Black _ x v t Red H1) h2 H2. wr (rrot_z D mn mx h2 K Red t x v Black b y w a H2) h3 H3.
        rd (Lz D mn mx h3 (FR Black a y w :: K) Red b x v t H3). cbn [wp].
        change (wp (tailR h3 (root t) x (root b)) (efix_post D mn mx (inorder (plug K (T Black (T Red a y w b) x v t))) (S (S (length K))))).
        destruct (rb_S _ _ _ Hbb) as (ca & a1 & z & u & a2 & ->). inversion Hbb; subst.
        replace (inorder (plug K (T Black (T Red a y w (T Black a1 z u a2)) x v t))) with (inorder (plug (FR Black a y w :: K) (T Red (T Black a1 z u a2) x v t))) by inord.
        eapply tailR_ok; [exact H3|done|done|done| |lia|done]. cbn [bh]. by econstructor.
      * dF. rewrite rbind_ok. change (wp (tailR h (root t) x (root s)) (efix_post D mn mx (inorder (plug K (T cp s x v t))) (S (S (length K))))).
        destruct (rb_S _ _ _ Hs) as (ca & a1 & z & u & a2 & ->). inversion Hs; subst. eapply tailR_ok; [exact H|done|done|done|done|lia|lia].
Qed.
Lemma Extract_loop D mn mx whole : forall fuel h K t n, rep D mn mx h (plug K t) -> nearly n t -> kb Black (S n) K -> inorder (plug K t) = whole -> meas K t < fuel ->
  wp ('(h, fx) <~ loop fuel (fun '(h, fx, par) => Extract_fix h fx par) (h, root t, parK K) ;; setC h fx Black)
    (fun h' => exists t' m, rep D mn mx h' t' /\ rb Black m t' /\ inorder t' = whole).
Proof.
  induction fuel as [|fuel IH]; intros h K t n H Hn HK Hw Hf; [lia|]. cbn [loop].
  pose proof (Extract_fix_ok D mn mx h K t n H Hn HK) as Hx. apply wp_exists in Hx as (o & Eo & Ho). rewrite Eo, rbind_ok.
  destruct o as [[[h' fx] par]|[h' fx]]; cbn [efix_post] in Ho.
  - destruct Ho as (K' & t' & n' & -> & -> & H' & Hn' & HK' & Hw' & Hm). eapply IH; try done; [congruence|lia].
  - destruct Ho as (K' & t' & m & -> & H' & Hb & Hw'). rewrite rbind_ok. destruct t' as [|c l x v r]; cbn [root blacken] in *.
    + eapply wp_mono; [by eapply setC_nil|]. intros h2 H2. exists (plug K' E), m. split_and!; try done. congruence.
    + eapply wp_mono; [apply (setC_z D mn mx h' K' c l x v r Black H')|]. intros h2 H2. eexists _, m. split; [exact H2|]. split; [done|]. rewrite <- Hw, <- Hw', !inorder_plug. done.
Qed.
End tree.
