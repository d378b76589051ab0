(** Lookup: _Find_last, _Find_hint, _Find_first, _Equal_range, bucket iteration. *)
From stdpp Require Import base list numbers option decidable.
From Coq Require Import Lia.
From Verif Require Import Base.Res Cont.ListModel Cont.ListSpec Cont.ListProofs Cont.ListProofs2 Cont.HashModel Cont.HashSpec Cont.HashProofs Cont.HashProofs2.
Local Open Scope nat_scope.

Section find.
Context {K V : Type} (kfn : V -> K) (hash : K -> nat) (keq : K -> K -> bool) (HO : hash_ok hash keq).
Implicit Types (h : heap V) (l a c d m A C M G D R : list (nat * V)) (x y z : nat * V) (P : nat * V -> bool) (t : tbl).
Notation yes P := (Forall (fun x : nat * V => P x = true)).
Notation no P := (Forall (fun x : nat * V => P x = false)).
Notation inb := (inb kfn hash).
Notation eqk := (eqk kfn keq).
Notation key x := (kfn (snd x)).
Notation hd t := (lhead (tl t)).
Notation wf := (wf kfn hash keq).
Notation vec_ok := (vec_ok kfn hash).
Notation grp := (grp kfn hash keq).
Notation tgtk := (tgtk kfn hash keq).
Notation group := (group kfn keq).

Definition shape t : Prop := exists j, 3 <= j /\ tmax t = 2 ^ j /\ tmask t = tmax t - 1.
Lemma wf_iff h t l : wf h t l <-> is_list h (tl t) l /\ shape t /\ vec_ok (tmax t) (hd t) (tv t) l /\ grp (tmax t) l.
Proof.
  unfold HashSpec.wf, shape, HashProofs2.vec_ok, HashProofs2.grp. split.
  - intros (H1 & (j & Hj & Ej) & Em & Lv & HB & HK). split_and!; try done.
    + by exists j.
    + intros b Hb. by destruct (HB b Hb) as (_ & ? & ?).
    + intros b. destruct (decide (b < tmax t)) as [Hb|Hb]; [by apply HB|]. apply contig_none. apply list.Forall_forall. intros x _. apply inb_other. intros ->. apply Hb. apply Nat.mod_upper_bound. rewrite Ej. apply pow_pos.
  - intros (H1 & (j & Hj & Ej & Em) & (Lv & HV) & HB & HK). split_and!; try done.
    + by exists j.
    + intros b Hb. split; [done|]. by apply HV.
Qed.
Lemma shape_land t w : shape t -> Nat.land w (tmask t) = w mod tmax t.
Proof. intros (j & _ & E & Em). rewrite Em, E. apply land_mask. Qed.
Lemma shape_nz t : shape t -> tmax t <> 0.
Proof. intros (j & _ & -> & _). apply pow_pos. Qed.
Lemma shape_lt t w : shape t -> w mod tmax t < tmax t.
Proof. intros. by apply Nat.mod_upper_bound, shape_nz. Qed.
Lemma in_ptrs x l : x ∈ l -> x.1 ∈ l.*1.
Proof. intros. apply elem_of_list_fmap. by exists x. Qed.

(** the elements of bucket [b] form the middle of the list *)
Lemma bucket_seg n l b : grp n l -> exists A C, l = A ++ List.filter (inb n b) l ++ C /\ no (inb n b) A /\ no (inb n b) C.
Proof. intros [H _]. by apply contig_split. Qed.
Lemma no_eqk_of_inb n k M : no (inb n (hash k mod n)) M -> no (eqk k) M.
Proof.
  intros H. eapply list.Forall_impl; [exact H|]. cbn beta. intros x Hx. destruct (eqk k x) eqn:E; [|done]. unfold HashSpec.eqk in E.
  apply (ho_hash _ _ HO) in E. unfold HashSpec.inb in Hx. rewrite E in Hx. by rewrite bool_decide_true in Hx.
Qed.

(** distinct positions have distinct addresses *)
Lemma ring_ptr_ne h p D y R x : ring h p (D ++ R) -> y ∈ D -> x ∈ R -> y.1 <> x.1.
Proof.
  intros (ND & _) Hy Hx E. rewrite ptrs_app in ND. apply list.NoDup_cons in ND as [_ ND]. apply list.NoDup_app in ND as (_ & ND & _).
  apply (ND y.1); [by apply in_ptrs|]. rewrite E. by apply in_ptrs.
Qed.
Lemma fst_of_ptr p R : R <> [] -> exists x, x ∈ R /\ fst_of p R = x.1.
Proof. destruct R as [|x R]; [done|]. intros _. exists x. split; [left|done]. Qed.
Lemma lst_of_ptr p R : R <> [] -> exists x, x ∈ R /\ lst_of p R = x.1.
Proof. intros H. unfold lst_of. destruct (list.last R) as [x|] eqn:E; [|by apply last_None in E]. exists x. split; [|done]. apply last_Some in E as [l' ->]. apply elem_of_app. right; left. Qed.
Lemma ring_ptr_hd h p l x : ring h p l -> x ∈ l -> x.1 <> p.
Proof. intros (ND & _) Hx E. apply list.NoDup_cons in ND as [ND _]. apply ND. rewrite <- E. by apply in_ptrs. Qed.

(** ** _Find_last *)
Lemma Find_last_loop h p A C k lo : forall M1 y M2 fuel, ring h p (A ++ (M1 ++ [y]) ++ M2 ++ C) -> lo = fst_of p (M1 ++ [y]) ->
  no (eqk k) M2 -> length M1 < fuel ->
  exists bef dup, loop fuel (fun w => v <~ Val h w ;; if keq k (kfn v) then n <~ N h w ;; Ok (inr (n, w))
      else if decide (w = lo) then Ok (inr (w, null)) else q <~ P h w ;; Ok (inl q)) y.1 = Ok (bef, dup) /\
    ((exists N1 z N2, (M1 ++ [y]) ++ M2 = N1 ++ z :: N2 /\ eqk k z = true /\ no (eqk k) N2 /\ bef = fst_of p (N2 ++ C) /\ dup = z.1) \/
     (no (eqk k) ((M1 ++ [y]) ++ M2) /\ bef = lo /\ dup = 0)).
Proof.
  induction M1 as [|y' M1 IH] using rev_ind; intros y M2 fuel R Hlo HN HF; (destruct fuel as [|fuel]; [lia|]);
    match goal with |- context [loop (S fuel) ?B _] => set (BB := B) end; rewrite loop_S; unfold BB at 1.
  - cbn [app] in R. change ([y] ++ M2 ++ C) with (y :: M2 ++ C) in R. pose proof (ring_val _ _ _ y R) as Hv. rewrite (Val_ok _ _ _ (Hv ltac:(apply elem_of_app; right; left))), rbind_ok. fold (eqk k y).
    destruct (eqk k y) eqn:E.
    + rewrite (N_ok _ _ _ (ring_nx _ _ _ _ _ R)), rbind_ok. rewrite rbind_ok. eexists _, _. split; [done|]. left. exists [], y, M2. split_and!; done.
    + rewrite decide_True by (subst lo; done). rewrite rbind_ok. eexists _, _. split; [done|]. right. split_and!; [|by subst lo|done]. by constructor.
  - assert (R' : ring h p ((A ++ M1 ++ [y']) ++ y :: M2 ++ C)) by (rewrite <- !app_assoc in *; exact R).
    pose proof (ring_val _ _ _ y R') as Hv. rewrite (Val_ok _ _ _ (Hv ltac:(apply elem_of_app; right; left))), rbind_ok. fold (eqk k y).
    destruct (eqk k y) eqn:E.
    + rewrite (N_ok _ _ _ (ring_nx _ _ _ _ _ R')), rbind_ok. rewrite rbind_ok. eexists _, _. split; [done|]. left. exists (M1 ++ [y']), y, M2. split_and!; try done. by rewrite <- app_assoc.
    + rewrite decide_False.
      2:{ subst lo. destruct (fst_of_ptr p (M1 ++ [y'])) as (x & Hx & Ex); [by destruct M1|]. rewrite fst_of_app, (fst_of_ne _ p), Ex by (by destruct M1). intros X.
          refine (ring_ptr_ne h p (A ++ M1 ++ [y']) x (y :: M2 ++ C) y R' _ _ (eq_sym X)); [apply elem_of_app; by right|left]. }
      rewrite (P_ok _ _ _ (ring_pv _ _ _ _ _ R')), rbind_ok, rbind_ok. rewrite app_assoc, lst_of_app. cbn [lst_of list.last]. change (lst_of _ [y']) with (y'.1).
      destruct (IH y' (y :: M2) fuel) as (bef & dup & EL & HH).
      { rewrite <- !app_assoc in *. exact R. }
      { subst lo. rewrite (fst_of_app p (M1 ++ [y'])). apply fst_of_ne. by destruct M1. }
      { by constructor. }
      { rewrite app_length in HF. cbn in HF. lia. }
      exists bef, dup. split; [exact EL|]. replace (((M1 ++ [y']) ++ [y]) ++ M2) with ((M1 ++ [y']) ++ y :: M2) by by rewrite <- !app_assoc. exact HH.
Qed.
Lemma Find_last_ok h t l k : is_list h (tl t) l -> shape t -> vec_ok (tmax t) (hd t) (tv t) l -> grp (tmax t) l ->
  exists A M1 M2 C bef dup, Find_last kfn keq h t k (hash k) = Ok (bef, dup) /\ l = A ++ M1 ++ M2 ++ C /\ bef = fst_of (hd t) (M2 ++ C) /\
    tgtk (tmax t) k A M1 M2 C /\ no (eqk k) M2 /\
    ((dup = 0 /\ no (eqk k) l) \/ (exists M y, M1 = M ++ [y] /\ eqk k y = true /\ dup = y.1 /\ dup <> 0)).
Proof.
  intros [R Sz] Sh Hv G. set (n := tmax t) in *. set (b := hash k mod n).
  unfold Find_last. rewrite (shape_land _ _ Sh). fold n b. rewrite (vec_hi kfn hash n (hd t) (tv t) l b) by (done || by apply shape_lt). rewrite rbind_ok.
  destruct (bucket_seg n l b G) as (A & C & EL & HA & HC). set (M := List.filter (inb n b) l) in *.
  assert (HM : yes (inb n b) M) by apply lf_all.
  destruct (decide (M = [])) as [EM|NM].
  { rewrite EM. rewrite decide_True by done. assert (HL : no (inb n b) l) by (rewrite EL, EM; by apply Forall_app).
    exists l, [], [], [], (hd t), 0. split; [done|]. split; [by rewrite app_nil_r|]. split; [done|]. split; [|split; [constructor|left; split; [done|]]].
    - split; [exact HL|]. split; [constructor|]. split; [constructor|]. left. done.
    - by eapply no_eqk_of_inb. }
  assert (RM : ring h (hd t) (A ++ M ++ C)) by by rewrite <- EL.
  rewrite decide_False.
  2:{ destruct (lst_of_ptr (hd t) M NM) as (x & Hx & ->). eapply ring_ptr_hd; [exact RM|]. apply elem_of_app; right. apply elem_of_app; by left. }
  rewrite (vec_lo kfn hash n (hd t) (tv t) l b) by (done || by apply shape_lt). rewrite rbind_ok. fold M.
  destruct (exists_last NM) as (M1 & y & EM).
  assert (Hlst : lst_of (hd t) M = y.1) by (rewrite EM, lst_of_app; done). rewrite Hlst.
  destruct (Find_last_loop h (hd t) A C k (fst_of (hd t) M) M1 y [] (S (lsize (tl t)))) as (bef & dup & E & HH).
  { rewrite EM in RM. exact RM. } { by rewrite EM. } { constructor. }
  { rewrite Sz, EL, EM, !app_length. cbn. lia. }
  rewrite E. rewrite app_nil_r, <- EM in HH. destruct HH as [(N1 & z & N2 & EN & Ez & HN & -> & ->)|(HN & -> & ->)].
  - exists A, (N1 ++ [z]), N2, C, (fst_of (hd t) (N2 ++ C)), z.1. split; [done|]. split; [rewrite EL at 1; rewrite EN; by rewrite <- !app_assoc|]. split; [done|]. split; [|split; [done|]].
    + split; [exact HA|]. split; [rewrite <- app_assoc; cbn [app]; by rewrite <- EN|]. split; [exact HC|]. right; right. by exists N1, z.
    + right. exists N1, z. split_and!; try done. eapply ring_nz; [exact RM|]. right. apply in_ptrs. rewrite EN. apply elem_of_app; right. apply elem_of_app; left. apply elem_of_app; right; left.
  - exists A, [], M, C, (fst_of (hd t) M), 0. split; [done|]. split; [done|]. split; [rewrite fst_of_app; by apply fst_of_ne|]. split; [|split; [done|]].
    + split; [exact HA|]. split; [exact HM|]. split; [exact HC|]. right; left. done.
    + left. split; [done|]. rewrite EL. apply Forall_app. split; [by eapply no_eqk_of_inb|]. apply Forall_app. split; [done|by eapply no_eqk_of_inb].
Qed.
Lemma Find_hint_ok h t l k (hint : nat) : is_list h (tl t) l -> shape t -> vec_ok (tmax t) (hd t) (tv t) l -> grp (tmax t) l ->
  hint ∈ l.*1 ++ [hd t] ->
  exists A M1 M2 C bef dup, Find_hint kfn keq h t hint k (hash k) = Ok (bef, dup) /\ l = A ++ M1 ++ M2 ++ C /\ bef = fst_of (hd t) (M2 ++ C) /\
    tgtk (tmax t) k A M1 M2 C /\
    ((dup = 0 /\ no (eqk k) l) \/ (exists M y, M1 = M ++ [y] /\ eqk k y = true /\ dup = y.1 /\ dup <> 0)) /\
    ((exists y, y ∈ l /\ y.1 = hint /\ eqk k y = true /\ dup = hint) \/ ((forall y, y ∈ l -> y.1 = hint -> eqk k y = false) /\ no (eqk k) M2)).
Proof.
  intros L Sh Hv G Hh. unfold Find_hint. destruct (Find_last_ok h t l k L Sh Hv G) as (A & M1 & M2 & C & bef & dup & E & EL & EB & T & HN & HD).
  pose proof (proj1 L) as R. destruct (decide (hint = hd t)) as [->|Hne].
  { exists A, M1, M2, C, bef, dup. split_and!; try done. right. split; [|done]. intros y Hy Ey. by destruct (ring_ptr_hd _ _ _ _ R Hy). }
  assert (Hin : exists y, y ∈ l /\ y.1 = hint).
  { apply elem_of_app in Hh as [Hh|Hh]; [|by apply elem_of_list_singleton in Hh]. apply elem_of_list_fmap in Hh as (y & -> & Hy). by exists y. }
  destruct Hin as (y & Hy & <-). rewrite (Val_ok _ _ _ (ring_val _ _ _ _ R Hy)), rbind_ok. rewrite (keq_comm _ _ HO). fold (eqk k y).
  destruct (eqk k y) eqn:Ey.
  2:{ exists A, M1, M2, C, bef, dup. split_and!; try done. right. split; [|done]. intros z Hz Ez.
      assert (z = y); [|by subst]. destruct z as [p v], y as [q w]. cbn in Ez. subst q. pose proof (ring_val _ _ _ _ R Hy) as V1. pose proof (ring_val _ _ _ _ R Hz) as V2. cbn in V1, V2. congruence. }
  destruct (bucket_seg _ l (hash k mod tmax t) G) as (A' & C' & EL' & HA & HC). set (b := hash k mod tmax t) in *. set (M := List.filter (inb (tmax t) b) l) in *.
  assert (HM : yes (inb (tmax t) b) M) by apply lf_all.
  assert (HyM : y ∈ M). { apply lf_in. split; [done|]. unfold HashSpec.eqk in Ey. apply (ho_hash _ _ HO) in Ey. unfold HashSpec.inb. apply bool_decide_eq_true. by rewrite <- Ey. }
  apply elem_of_list_split in HyM as (N1 & N2 & EM).
  assert (R' : ring h (hd t) ((A' ++ N1) ++ y :: N2 ++ C')). { rewrite EL', EM in R. rewrite <- !app_assoc in *. exact R. }
  rewrite (N_ok _ _ _ (ring_nx _ _ _ _ _ R')), rbind_ok.
  exists A', (N1 ++ [y]), N2, C', (fst_of (hd t) (N2 ++ C')), y.1. split; [done|]. split; [rewrite EL' at 1; rewrite EM; by rewrite <- !app_assoc|]. split; [done|]. split; [|split].
  - split; [exact HA|]. split; [rewrite <- app_assoc; cbn [app]; by rewrite <- EM|]. split; [exact HC|]. right; right. by exists N1, y.
  - right. exists N1, y. split_and!; try done. eapply ring_nz; [exact R|]. right. by apply in_ptrs.
  - left. by exists y.
Qed.

(** ** forward walks *)
Lemma group_bucket n l k : grp n l -> group k l = List.filter (eqk k) (List.filter (inb n (hash k mod n)) l).
Proof.
  intros G. destruct (bucket_seg n l (hash k mod n) G) as (A & C & EL & HA & HC). unfold HashSpec.group. rewrite EL at 1.
  rewrite !lf_app, (lf_no _ A), (lf_no _ C) by (by eapply no_eqk_of_inb). by rewrite app_nil_r.
Qed.
Lemma Find_first_loop h p A C k : forall R D fuel, R <> [] -> ring h p (A ++ (D ++ R) ++ C) -> length R <= fuel ->
  loop fuel (fun w => v <~ Val h w ;; if keq (kfn v) k then Ok (inr w)
      else if decide (w = lst_of p (D ++ R)) then Ok (inr p) else q <~ N h w ;; Ok (inl q)) (fst_of p R) = Ok (fst_of p (List.filter (eqk k) R)).
Proof.
  induction R as [|y R IH]; intros D fuel Hne HR HF; [done|]. destruct fuel as [|fuel]; [cbn in HF; lia|].
  match goal with |- context [loop (S fuel) ?B _] => set (BB := B) end; rewrite loop_S; unfold BB at 1. cbn [fst_of].
  assert (R' : ring h p ((A ++ D) ++ y :: R ++ C)) by (rewrite <- !app_assoc in *; exact HR).
  pose proof (ring_val _ _ _ y R') as Hv. rewrite (Val_ok _ _ _ (Hv ltac:(apply elem_of_app; right; left))), rbind_ok.
  rewrite (keq_comm _ _ HO). fold (eqk k y). rewrite lf_cons. destruct (eqk k y) eqn:E; [done|].
  destruct R as [|z R].
  { rewrite decide_True by by rewrite lst_of_app. done. }
  rewrite decide_False.
  2:{ rewrite lst_of_app. change (y :: z :: R) with ([y] ++ z :: R). rewrite lst_of_app. destruct (lst_of_ptr (lst_of (lst_of p D) [y]) (z :: R)) as (x & Hx & ->); [done|].
      refine (ring_ptr_ne h p (A ++ D ++ [y]) y ((z :: R) ++ C) x _ _ _); [rewrite <- !app_assoc in *; exact HR| |].
      - apply elem_of_app; right. apply elem_of_app; right. left.
      - apply elem_of_app; by left. }
  rewrite (N_ok _ _ _ (ring_nx _ _ _ _ _ R')), rbind_ok, rbind_ok. unfold BB.
  specialize (IH (D ++ [y]) fuel). replace (D ++ y :: z :: R) with ((D ++ [y]) ++ z :: R) in * by by rewrite <- app_assoc.
  apply IH; [done| |cbn in HF |- *; lia]. exact HR.
Qed.
Lemma Find_first_ok h t l k : wf h t l -> Find_first kfn keq h t k (hash k) = Ok (fst_of (hd t) (group k l)).
Proof.
  intros ([R Sz] & Sh & Hv & G)%wf_iff. set (n := tmax t) in *. set (b := hash k mod n).
  unfold Find_first. rewrite (shape_land _ _ Sh). fold n b. rewrite (vec_lo kfn hash n (hd t) (tv t) l b) by (done || by apply shape_lt). rewrite rbind_ok.
  rewrite (group_bucket n l k G). fold b.
  destruct (bucket_seg n l b G) as (A & C & EL & HA & HC). set (M := List.filter (inb n b) l) in *.
  destruct (decide (M = [])) as [EM|NM]; [by rewrite EM, decide_True|].
  assert (RM : ring h (hd t) (A ++ M ++ C)) by by rewrite <- EL.
  rewrite decide_False.
  2:{ destruct (fst_of_ptr (hd t) M NM) as (x & Hx & ->). eapply ring_ptr_hd; [exact RM|]. apply elem_of_app; right. apply elem_of_app; by left. }
  rewrite (vec_hi kfn hash n (hd t) (tv t) l b) by (done || by apply shape_lt). rewrite rbind_ok. fold M.
  apply (Find_first_loop h (hd t) A C k M []); [done|done|]. rewrite Sz, EL, !app_length. lia.
Qed.

(** ** equal_range *)
Lemma ER_loop1 h p A C k : forall R D fuel, R <> [] -> ring h p (A ++ (D ++ R) ++ C) -> length R <= fuel ->
  exists o, loop fuel (fun w => v <~ Val h w ;;
      if negb (keq (kfn v) k) then (if decide (w = lst_of p (D ++ R)) then Ok (inr None) else q <~ N h w ;; Ok (inl q)) else Ok (inr (Some w))) (fst_of p R) = Ok o /\
    ((o = None /\ no (eqk k) R) \/ (exists R1 z R2, R = R1 ++ z :: R2 /\ no (eqk k) R1 /\ eqk k z = true /\ o = Some z.1)).
Proof.
  induction R as [|y R IH]; intros D fuel Hne HR HF; [done|]. destruct fuel as [|fuel]; [cbn in HF; lia|].
  match goal with |- context [loop (S fuel) ?B _] => set (BB := B) end; rewrite loop_S; unfold BB at 1. cbn [fst_of].
  assert (R' : ring h p ((A ++ D) ++ y :: R ++ C)) by (rewrite <- !app_assoc in *; exact HR).
  pose proof (ring_val _ _ _ y R') as Hv. rewrite (Val_ok _ _ _ (Hv ltac:(apply elem_of_app; right; left))), rbind_ok.
  rewrite (keq_comm _ _ HO). fold (eqk k y). destruct (eqk k y) eqn:E; cbn [negb].
  { rewrite rbind_ok. eexists. split; [done|]. right. exists [], y, R. split_and!; done. }
  destruct R as [|z R].
  { rewrite decide_True by by rewrite lst_of_app. rewrite rbind_ok. eexists. split; [done|]. left. split; [done|]. by repeat constructor. }
  rewrite decide_False.
  2:{ rewrite lst_of_app. change (y :: z :: R) with ([y] ++ z :: R). rewrite lst_of_app. destruct (lst_of_ptr (lst_of (lst_of p D) [y]) (z :: R)) as (x & Hx & ->); [done|].
      refine (ring_ptr_ne h p (A ++ D ++ [y]) y ((z :: R) ++ C) x _ _ _); [rewrite <- !app_assoc in *; exact HR| |].
      - apply elem_of_app; right. apply elem_of_app; right. left.
      - apply elem_of_app; by left. }
  rewrite (N_ok _ _ _ (ring_nx _ _ _ _ _ R')), rbind_ok, rbind_ok. unfold BB.
  specialize (IH (D ++ [y]) fuel). replace (D ++ y :: z :: R) with ((D ++ [y]) ++ z :: R) in * by by rewrite <- app_assoc.
  destruct IH as (o & EO & HH); [done|exact HR|cbn in HF |- *; lia|]. exists o. split; [exact EO|].
  destruct HH as [[-> HN]|(R1 & w & R2 & ER & HN & Ew & ->)]; [left|right].
  - split; [done|]. by constructor.
  - exists (y :: R1), w, R2. split_and!; try done; [by rewrite ER|by constructor].
Qed.
Lemma ER_loop2 h p A C k hi : forall G z D M2 n fuel, ring h p (A ++ (D ++ (z :: G) ++ M2) ++ C) -> hi = lst_of p (D ++ (z :: G) ++ M2) ->
  yes (eqk k) G -> no (eqk k) M2 -> length G < fuel ->
  loop fuel (fun '(w, n) => let at_end := bool_decide (w = hi) in w' <~ N h w ;;
     if at_end then Ok (inr (w', S n)) else v <~ Val h w' ;; if negb (keq k (kfn v)) then Ok (inr (w', S n)) else Ok (inl (w', S n))) (z.1, n)
  = Ok (fst_of p (M2 ++ C), n + S (length G)).
Proof.
  induction G as [|y G IH]; intros z D M2 n fuel HR Hhi HG HM HF; (destruct fuel as [|fuel]; [lia|]);
    match goal with |- context [loop (S fuel) ?B _] => set (BB := B) end; rewrite loop_S; unfold BB at 1; cbv zeta.
  - assert (R' : ring h p ((A ++ D) ++ z :: M2 ++ C)) by (rewrite <- !app_assoc in *; exact HR).
    rewrite (N_ok _ _ _ (ring_nx _ _ _ _ _ R')), rbind_ok. destruct M2 as [|w M2].
    + rewrite bool_decide_true by (subst hi; rewrite lst_of_app; done). rewrite rbind_ok. cbn [length]. do 2 f_equal. lia.
    + rewrite bool_decide_false.
      2:{ subst hi. cbn [app]. rewrite lst_of_app. change (z :: w :: M2) with ([z] ++ w :: M2). rewrite lst_of_app. destruct (lst_of_ptr (lst_of (lst_of p D) [z]) (w :: M2)) as (x & Hx & ->); [done|].
          refine (ring_ptr_ne h p (A ++ D ++ [z]) z ((w :: M2) ++ C) x _ _ _); [rewrite <- !app_assoc in *; exact HR| |].
          - apply elem_of_app; right. apply elem_of_app; right. left.
          - apply elem_of_app; by left. }
      cbn [app fst_of]. pose proof (ring_val _ _ _ w R') as Hv. rewrite (Val_ok _ _ _ (Hv ltac:(apply elem_of_app; right; right; left))), rbind_ok. fold (eqk k w).
      apply list.Forall_cons in HM as [-> _]. cbn [negb]. rewrite rbind_ok. cbn [length]. do 2 f_equal. lia.
  - assert (R' : ring h p ((A ++ D) ++ z :: (y :: G) ++ M2 ++ C)) by (rewrite <- !app_assoc in *; exact HR).
    rewrite (N_ok _ _ _ (ring_nx _ _ _ _ _ R')), rbind_ok. rewrite bool_decide_false.
    2:{ subst hi. rewrite lst_of_app. change ((z :: y :: G) ++ M2) with ([z] ++ (y :: G) ++ M2). rewrite lst_of_app. destruct (lst_of_ptr (lst_of (lst_of p D) [z]) ((y :: G) ++ M2)) as (x & Hx & ->); [done|].
        refine (ring_ptr_ne h p (A ++ D ++ [z]) z (((y :: G) ++ M2) ++ C) x _ _ _); [rewrite <- !app_assoc in *; exact HR| |].
        - apply elem_of_app; right. apply elem_of_app; right. left.
        - apply elem_of_app; by left. }
    cbn [app fst_of]. pose proof (ring_val _ _ _ y R') as Hv. rewrite (Val_ok _ _ _ (Hv ltac:(apply elem_of_app; right; right; left))), rbind_ok. fold (eqk k y).
    apply list.Forall_cons in HG as [-> HG]. cbn [negb]. rewrite rbind_ok. unfold BB.
    etrans; [apply (IH y (D ++ [z]) M2 (S n) fuel); [| |done|done|cbn in HF; lia]|cbn [length]; do 2 f_equal; lia].
    + rewrite <- !app_assoc in *. exact HR.
    + subst hi. by rewrite <- !app_assoc.
Qed.
(** the group of [k] sits in the middle of the list *)
Lemma Equal_range_ok multi h t l k : wf h t l -> (multi = false -> unique_keys kfn keq l) ->
  exists A C, l = A ++ group k l ++ C /\
  Equal_range kfn keq multi h t k (hash k) =
    Ok (if decide (group k l = []) then (hd t, hd t, 0) else (fst_of (hd t) (group k l), fst_of (hd t) C, length (group k l))).
Proof.
  intros ([R Sz] & Sh & Hv & G)%wf_iff HU. set (n := tmax t) in *. set (b := hash k mod n).
  unfold Equal_range. rewrite (shape_land _ _ Sh). fold n b. rewrite (vec_lo kfn hash n (hd t) (tv t) l b) by (done || by apply shape_lt). rewrite rbind_ok.
  pose proof (group_bucket n l k G) as EG. fold b in EG.
  destruct (bucket_seg n l b G) as (A & C & EL & HA & HC). set (M := List.filter (inb n b) l) in *.
  destruct (decide (M = [])) as [EM|NM].
  { rewrite EG, EM. cbn. rewrite decide_True by done. exists l, []. split; [by rewrite app_nil_r|]. done. }
  assert (RM : ring h (hd t) (A ++ M ++ C)) by by rewrite <- EL.
  rewrite decide_False.
  2:{ destruct (fst_of_ptr (hd t) M NM) as (x & Hx & ->). eapply ring_ptr_hd; [exact RM|]. apply elem_of_app; right. apply elem_of_app; by left. }
  rewrite (vec_hi kfn hash n (hd t) (tv t) l b) by (done || by apply shape_lt). rewrite rbind_ok. fold M.
  destruct (ER_loop1 h (hd t) A C k M [] (S (lsize (tl t)))) as (o & EO & HH); [done|done|rewrite Sz, EL, !app_length; lia|].
  cbn [app] in EO. rewrite EO, rbind_ok. destruct HH as [[-> HN]|(R1 & z & R2 & ER & HN & Ez & ->)].
  { rewrite EG, (lf_no _ M) by done. exists l, []. rewrite decide_True by done. split; [by rewrite app_nil_r|]. done. }
  (* the tail of the bucket: the rest of the group, then others *)
  assert (CG : contig (eqk k) (z :: R2)).
  { eapply contig_sub; [|apply (proj2 G k)]. rewrite EL, ER. apply sublist_inserts_l. apply sublist_inserts_r. by apply sublist_inserts_l. }
  apply contig_split in CG as (a & c & EC & Ha & Hc). rewrite lf_cons, Ez in EC.
  destruct a as [|a0 a]; [|injection EC as -> _; apply list.Forall_cons in Ha as [? _]; congruence]. cbn [app] in EC. injection EC as EC. set (G2 := List.filter (eqk k) R2) in *.
  assert (EGr : group k l = z :: G2). { rewrite EG, ER, lf_app, (lf_no _ R1), lf_cons, Ez by done. done. }
  rewrite EGr. exists (A ++ R1), (c ++ C). rewrite decide_False by done. split; [rewrite EL at 1; rewrite ER, EC, <- !app_assoc; cbn [app]; by rewrite <- app_assoc|].
  assert (R'' : ring h (hd t) (A ++ (R1 ++ (z :: G2) ++ c) ++ C)) by (rewrite ER, EC in RM; exact RM).
  destruct multi.
  - pose proof (ER_loop2 h (hd t) A C k (lst_of (hd t) M) G2 z R1 c 0 (S (lsize (tl t)))) as X. cbv zeta in X. cbv zeta. rewrite X; [by rewrite rbind_ok|done|by rewrite ER, EC|apply lf_all|done|].
    rewrite Sz, EL, ER, EC, !app_length. cbn. rewrite app_length. lia.
  - specialize (HU eq_refl k). rewrite EGr in HU. destruct G2 as [|y G2]; [|cbn in HU; lia].
    assert (R3 : ring h (hd t) ((A ++ R1) ++ z :: c ++ C)) by (rewrite <- !app_assoc in *; exact R'').
    rewrite (N_ok _ _ _ (ring_nx _ _ _ _ _ R3)), rbind_ok. done.
Qed.

(** ** bucket iteration *)
Lemma bs_loop h p A C hi : forall R D n fuel, R <> [] -> ring h p (A ++ (D ++ R) ++ C) -> hi = lst_of p (D ++ R) -> length R <= fuel ->
  loop fuel (fun '(q, n) => if decide (q = hi) then Ok (inr n) else q' <~ N h q ;; Ok (inl (q', S n))) (fst_of p R, n) = Ok (n + (length R - 1)).
Proof.
  induction R as [|y R IH]; intros D n fuel Hne HR Hhi HF; [done|]. destruct fuel as [|fuel]; [cbn in HF; lia|].
  match goal with |- context [loop (S fuel) ?B _] => set (BB := B) end; rewrite loop_S; unfold BB at 1. cbn [fst_of].
  assert (R' : ring h p ((A ++ D) ++ y :: R ++ C)) by (rewrite <- !app_assoc in *; exact HR).
  destruct R as [|z R].
  { rewrite decide_True by (subst hi; by rewrite lst_of_app). rewrite rbind_ok. cbn. f_equal. lia. }
  rewrite decide_False.
  2:{ subst hi. rewrite lst_of_app. change (y :: z :: R) with ([y] ++ z :: R). rewrite lst_of_app. destruct (lst_of_ptr (lst_of (lst_of p D) [y]) (z :: R)) as (x & Hx & ->); [done|].
      refine (ring_ptr_ne h p (A ++ D ++ [y]) y ((z :: R) ++ C) x _ _ _); [rewrite <- !app_assoc in *; exact HR| |].
      - apply elem_of_app; right. apply elem_of_app; right. left.
      - apply elem_of_app; by left. }
  rewrite (N_ok _ _ _ (ring_nx _ _ _ _ _ R')), rbind_ok, rbind_ok. unfold BB.
  change (fst_of p ((z :: R) ++ C)) with (fst_of p (z :: R)).
  rewrite (IH (D ++ [y]) (S n) fuel); [cbn [length]; f_equal; lia|done| |subst hi; by rewrite <- app_assoc|cbn in HF |- *; lia].
  rewrite <- !app_assoc in *. exact HR.
Qed.
Lemma bucket_size_ok h t l b : wf h t l -> b < tmax t -> bucket_size h t b = Ok (length (List.filter (inb (tmax t) b) l)).
Proof.
  intros ([R Sz] & Sh & Hv & G)%wf_iff Hb. unfold bucket_size. rewrite (vec_lo kfn hash (tmax t) (hd t) (tv t) l b) by done. rewrite rbind_ok.
  destruct (bucket_seg (tmax t) l b G) as (A & C & EL & HA & HC). set (M := List.filter (inb (tmax t) b) l) in *.
  destruct (decide (M = [])) as [EM|NM]; [by rewrite EM, decide_True|].
  assert (RM : ring h (hd t) (A ++ M ++ C)) by by rewrite <- EL.
  rewrite decide_False.
  2:{ destruct (fst_of_ptr (hd t) M NM) as (x & Hx & ->). eapply ring_ptr_hd; [exact RM|]. apply elem_of_app; right. apply elem_of_app; by left. }
  rewrite (vec_hi kfn hash (tmax t) (hd t) (tv t) l b) by done. rewrite rbind_ok. fold M.
  rewrite (bs_loop h (hd t) A C _ M [] 0); [|done|done|done|rewrite Sz, EL, !app_length; lia]. rewrite rbind_ok. f_equal. destruct M; [done|]. cbn. lia.
Qed.
(** [begin(b), end(b)) is exactly the stretch of the list with the elements of bucket b *)
Lemma bucket_range_ok h t l b : wf h t l -> b < tmax t ->
  exists A C, l = A ++ List.filter (inb (tmax t) b) l ++ C /\
    let e := if decide (List.filter (inb (tmax t) b) l = []) then hd t else fst_of (hd t) C in
    bucket_begin t b = Ok (fst_of (hd t) (List.filter (inb (tmax t) b) l)) /\ bucket_end h t b = Ok e.
Proof.
  intros ([R Sz] & Sh & Hv & G)%wf_iff Hb. unfold bucket_begin, bucket_end. rewrite (vec_lo kfn hash (tmax t) (hd t) (tv t) l b), (vec_hi kfn hash (tmax t) (hd t) (tv t) l b) by done. rewrite rbind_ok.
  destruct (bucket_seg (tmax t) l b G) as (A & C & EL & HA & HC). set (M := List.filter (inb (tmax t) b) l) in *. exists A, C. split; [done|].
  split; [done|]. destruct (decide (M = [])) as [EM|NM]; [by rewrite EM, decide_False by (cbn; tauto)|].
  assert (RM : ring h (hd t) (A ++ M ++ C)) by by rewrite <- EL.
  rewrite decide_True.
  2:{ destruct (lst_of_ptr (hd t) M NM) as (x & Hx & ->). eapply ring_ptr_hd; [exact RM|]. apply elem_of_app; right. apply elem_of_app; by left. }
  destruct (exists_last NM) as (M1 & y & EM). rewrite EM, lst_of_app. change (lst_of _ [y]) with y.1.
  assert (R3 : ring h (hd t) ((A ++ M1) ++ y :: C)) by (rewrite EM in RM; rewrite <- !app_assoc in *; exact RM).
  by rewrite (N_ok _ _ _ (ring_nx _ _ _ _ _ R3)).
Qed.
End find.
