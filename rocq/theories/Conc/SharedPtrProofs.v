From stdpp Require Import base list numbers option decidable list_numbers.
From Coq Require Import ZArith Lia.
From Verif Require Import Conc.Sched Conc.SharedPtrModel.
Local Open Scope Z_scope.

Definition U (s : st) (b : nat) : Z := match blocks s !! b with Some x => uses x | None => 0 end.
Definition W (s : st) (b : nat) : Z := match blocks s !! b with Some x => weaks x | None => 0 end.
Definition D (s : st) (b : nat) : Z := match blocks s !! b with Some x => if live x then 0 else 1 | None => 0 end.
Definition F (s : st) (b : nat) : Z := match blocks s !! b with Some x => if freed x then 1 else 0 | None => 0 end.
Definition N (s : st) (b : nat) : Z := match blocks s !! b with Some x => 1 | None => 0 end.
Definition R (s : st) (v : nat) : Z := match vars s !! v with Some (Some x) => vrd x | _ => 0 end.
Definition pos (z : Z) : Z := if decide (0 < z) then 1 else 0.
Definition is (b : nat) (r : option nat) : Z := if decide (r = Some b) then 1 else 0.
(** references owned by pending micro-steps *)
Definition so (b : nat) (c : ins) : Z :=
  match c with Put _ Strong _ r | Assign _ Strong _ r => is b r | Decref b' => is b (Some b') | _ => 0 end.
Definition wo (b : nat) (c : ins) : Z :=
  match c with
  | Put _ Weak _ r | Assign _ Weak _ r => is b r
  | Decwref b' | Destroy b' | InDtor b' | ConvLoad _ _ _ b' | ConvCas _ _ _ b' _ => is b (Some b')
  | _ => 0 end.
Definition dy (b : nat) (c : ins) : Z := match c with Destroy b' => is b (Some b') | _ => 0 end.
Definition de (b : nat) (c : ins) : Z := match c with Delete b' => is b (Some b') | _ => 0 end.
Definition bo (v : nat) (c : ins) : Z :=
  match c with
  | CopyInc _ v' _ _ _ _ | LockLoad v' _ _ _ | LockCas v' _ _ _ _ | ConvInc v' _ _ _ | EndRead v' => is v (Some v')
  | ConvLoad r _ _ _ | ConvCas r _ _ _ _ => is v r
  | _ => 0 end.
Definition tot (f : ins -> Z) (ts : list (list ins)) : Z := sumz (sumz f) ts.
Definition holds (s : st) (v b : nat) (P : kind -> Prop) : Prop := exists x, vars s !! v = Some (Some x) /\ vr x = Some b /\ P (vk x).
Definition wfi (s : st) (c : ins) : Prop :=
  match c with
  | CopyInc kd v _ _ _ b => holds s v b (fun k => kd = Strong -> k = Strong)
  | LockLoad v _ _ b | ConvInc v _ _ b => holds s v b (fun k => k = Weak)
  | LockCas v _ _ b c => holds s v b (fun k => k = Weak) /\ c <> 0
  | ConvCas _ _ _ _ c => c <> 0
  | Fault => False
  | _ => True
  end.
Record PI (tr : list ev) (s : st) (ts : list (list ins)) : Prop := {
  pi_uses : forall b, U s b = owners Strong s b + tot (so b) ts;
  pi_weaks : forall b, W s b = owners Weak s b + tot (wo b) ts + pos (U s b);
  pi_dy : forall b, tot (dy b) ts + D s b + pos (U s b) = N s b;
  pi_de : forall b, tot (de b) ts + F s b + pos (W s b) = N s b;
  pi_rd : forall v, R s v = tot (bo v) ts;
  pi_wf : forall i k, ts !! i = Some k -> forall j c, k !! j = Some c -> wfi s c;
  pi_ed : forall b, Z.of_nat (count (is_destroy b) tr) = D s b;
  pi_ef : forall b, Z.of_nat (count (is_free b) tr) = F s b;
}.

Lemma tot_insert f ts i k k' : ts !! i = Some k -> tot f (<[i := k']> ts) = tot f ts - sumz f k + sumz f k'.
Proof. apply sumz_insert. Qed.
Lemma is_nn b r : 0 <= is b r. Proof. unfold is. case_decide; lia. Qed.
Lemma is_eq b : is b (Some b) = 1. Proof. unfold is. by rewrite decide_True. Qed.
Lemma so_nn b c : 0 <= so b c. Proof. destruct c; simpl; try lia; try apply is_nn; destruct kd; try lia; apply is_nn. Qed.
Lemma wo_nn b c : 0 <= wo b c. Proof. destruct c; simpl; try lia; try apply is_nn; destruct kd; try lia; apply is_nn. Qed.
Lemma dy_nn b c : 0 <= dy b c. Proof. destruct c; simpl; try lia; apply is_nn. Qed.
Lemma de_nn b c : 0 <= de b c. Proof. destruct c; simpl; try lia; apply is_nn. Qed.
Lemma bo_nn b c : 0 <= bo b c. Proof. destruct c; simpl; try lia; apply is_nn. Qed.
Lemma tot_nn f ts : (forall c, 0 <= f c) -> 0 <= tot f ts.
Proof. intros H. apply sumz_nonneg. intros k. by apply sumz_nonneg. Qed.
Lemma tot_ge f ts i k j c : (forall c, 0 <= f c) -> ts !! i = Some k -> k !! j = Some c -> f c <= tot f ts.
Proof.
  intros H Hk Hc. pose proof (sumz_ge f k j c H Hc). unfold tot. pose proof (sumz_ge (sumz f) ts i k (fun k => sumz_nonneg f k H) Hk). lia.
Qed.
Lemma tot_ge_top f ts i k c : (forall c, 0 <= f c) -> ts !! i = Some (c :: k) -> f c <= tot f ts.
Proof. intros H Hk. by apply (tot_ge f ts i (c :: k) 0%nat c). Qed.
Lemma owns_nn kd b o : 0 <= owns kd b o.
Proof. destruct o; simpl; [case_decide; lia|lia]. Qed.
Lemma owners_nn kd s b : 0 <= owners kd s b.
Proof. apply (sumz_nonneg (owns kd b)). apply owns_nn. Qed.
Lemma owners_ge kd s b v o : vars s !! v = Some o -> owns kd b o <= owners kd s b.
Proof. intros H. apply (sumz_ge (owns kd b) _ _ _ (owns_nn kd b) H). Qed.
Lemma owners_set kd vs bs b v o o' : vs !! v = Some o -> owners kd (St (<[v := o']> vs) bs) b = owners kd (St vs bs) b - owns kd b o + owns kd b o'.
Proof. intros H. apply (sumz_insert (owns kd b) vs v o o' H). Qed.
Lemma owners_setv kd s b v o o' : vars s !! v = Some o -> owners kd (setv s v o') b = owners kd s b - owns kd b o + owns kd b o'.
Proof. destruct s. apply owners_set. Qed.
Lemma owns_var kd b kd' p r rd : owns kd b (Some (Var kd' p r rd)) = if decide (kd' = kd) then is b r else 0.
Proof. unfold owns, is. simpl. repeat case_decide; try done; naive_solver. Qed.

Section blocks.
  Context (s : st) (b : nat) (x y : blk) (Hx : blocks s !! b = Some x).
  Lemma setb_lookup b' : blocks (setb s b y) !! b' = if decide (b' = b) then Some y else blocks s !! b'.
  Proof.
    simpl. case_decide as E; [subst; apply list_lookup_insert; by eapply lookup_lt_Some|]. by rewrite list_lookup_insert_ne.
  Qed.
  Lemma U_setb b' : U (setb s b y) b' = if decide (b' = b) then uses y else U s b'.
  Proof. unfold U. rewrite setb_lookup. by case_decide. Qed.
  Lemma W_setb b' : W (setb s b y) b' = if decide (b' = b) then weaks y else W s b'.
  Proof. unfold W. rewrite setb_lookup. by case_decide. Qed.
  Lemma D_setb b' : D (setb s b y) b' = if decide (b' = b) then (if live y then 0 else 1) else D s b'.
  Proof. unfold D. rewrite setb_lookup. by case_decide. Qed.
  Lemma F_setb b' : F (setb s b y) b' = if decide (b' = b) then (if freed y then 1 else 0) else F s b'.
  Proof. unfold F. rewrite setb_lookup. by case_decide. Qed.
  Lemma N_setb b' : N (setb s b y) b' = N s b'.
  Proof. unfold N. rewrite setb_lookup. case_decide; [subst; by rewrite Hx|done]. Qed.
End blocks.
Lemma R_set vs bs v (o o' : option var) v' : vs !! v = Some o -> R (St (<[v := o']> vs) bs) v' = if decide (v' = v) then match o' with Some x => vrd x | None => 0 end else R (St vs bs) v'.
Proof.
  intros H. unfold R. simpl. case_decide as E; [subst; rewrite list_lookup_insert by (by eapply lookup_lt_Some); by destruct o'|].
  by rewrite list_lookup_insert_ne.
Qed.
Lemma block_inv s b x : block s b = Some x -> blocks s !! b = Some x /\ freed x = false.
Proof. unfold block. intros H. destruct (blocks s !! b) as [y|]; [|done]. destruct (freed y) eqn:E; [done|]. by injection H as ->. Qed.

Section inv.
  Context (tr : list ev) (s : st) (ts : list (list ins)) (HI : PI tr s ts).
  Lemma weak_pos b : 0 < owners Strong s b \/ 0 < owners Weak s b \/ 0 < tot (so b) ts \/ 0 < tot (wo b) ts -> 0 < W s b.
  Proof.
    intros H. pose proof (pi_uses _ _ _ HI b). pose proof (pi_weaks _ _ _ HI b).
    pose proof (owners_nn Strong s b). pose proof (owners_nn Weak s b). pose proof (tot_nn _ ts (so_nn b)). pose proof (tot_nn _ ts (wo_nn b)).
    unfold pos in *. case_decide; lia.
  Qed.
  Lemma weak_block b : 0 < W s b -> exists x, block s b = Some x.
  Proof.
    intros H. pose proof (pi_de _ _ _ HI b) as Hd. pose proof (tot_nn _ ts (de_nn b)). unfold pos in Hd. rewrite decide_True in Hd by done.
    unfold F, N, W, block in *. destruct (blocks s !! b) as [x|]; [|lia]. destruct (freed x); [lia|eauto].
  Qed.
  Lemma holds_pos v b P : holds s v b P -> 0 < W s b.
  Proof.
    intros (x & Hv & Hr & _). apply weak_pos.
    pose proof (owners_ge Strong s b v _ Hv) as H1. pose proof (owners_ge Weak s b v _ Hv) as H2.
    destruct x as [kd p r rd]. simpl in Hr. subst r. rewrite owns_var, is_eq in H1, H2. destruct kd; simpl in *; lia.
  Qed.
  Lemma no_fault i k c b : ts !! i = Some (c :: k) -> touches c = Some b -> exists x, block s b = Some x.
  Proof.
    intros Hl Hc. pose proof (pi_wf _ _ _ HI i _ Hl 0%nat c eq_refl) as Hw.
    pose proof (tot_ge_top _ ts i k c (so_nn b) Hl) as H1. pose proof (tot_ge_top _ ts i k c (wo_nn b) Hl) as H2.
    pose proof (tot_ge_top _ ts i k c (de_nn b) Hl) as H3.
    destruct c; simpl in Hc; try done; injection Hc as ->; simpl in *; rewrite ?is_eq in *;
      try (apply weak_block; by eapply holds_pos); try (apply weak_block, weak_pos; lia).
    - destruct Hw as [Hw _]. apply weak_block. by eapply holds_pos.
    - pose proof (pi_de _ _ _ HI b) as Hd. unfold F, N, W, pos, block in *. destruct (blocks s !! b) as [x|]; [|case_decide; lia].
      destruct (freed x); [case_decide; lia|eauto].
  Qed.
  (** changing an object nobody reads keeps pending micro-steps well-formed *)
  Lemma wf_setv v o o' : vars s !! v = Some o -> R s v = 0 -> forall i k j c, ts !! i = Some k -> k !! j = Some c -> wfi (setv s v o') c.
  Proof.
    intros Hv Hr i k j c Hk Hc. pose proof (pi_wf _ _ _ HI i k Hk j c Hc) as Hw. pose proof (tot_ge _ ts i k j c (bo_nn v) Hk Hc) as Hb.
    pose proof (pi_rd _ _ _ HI v) as Hrd.
    assert (Hh : forall w b P, is v (Some w) <= 0 -> holds s w b P -> holds (setv s v o') w b P).
    { intros w b P Hle (x & Hx & H). exists x. split; [|done]. simpl. rewrite list_lookup_insert_ne; [done|]. intros ->. rewrite is_eq in Hle. lia. }
    destruct c; simpl in *; try done; try (apply Hh; [lia|done]). destruct Hw. split; [apply Hh; [lia|done]|done].
  Qed.
  Lemma wf_reader v kd p r rd rd' : vars s !! v = Some (Some (Var kd p r rd)) -> forall c, wfi s c -> wfi (setv s v (Some (Var kd p r rd'))) c.
  Proof.
    intros Hv c Hw.
    assert (Hh : forall w b P, holds s w b P -> holds (setv s v (Some (Var kd p r rd'))) w b P).
    { intros w b P (x & Hx & H). destruct (decide (w = v)) as [->|Hne].
      - rewrite Hv in Hx. injection Hx as <-. exists (Var kd p r rd'). split; [|done]. simpl. apply list_lookup_insert. by eapply lookup_lt_Some.
      - exists x. split; [|done]. simpl. by rewrite list_lookup_insert_ne. }
    destruct c; simpl in *; try done; try (by apply Hh). destruct Hw. split; [by apply Hh|done].
  Qed.
End inv.
Lemma wf_setb s b x c : wfi s c -> wfi (setb s b x) c.
Proof. destruct c; simpl; try done. Qed.
Lemma wf_new s bs c : wfi s c -> wfi (St (vars s) bs) c.
Proof. destruct c; simpl; try done. Qed.
Lemma count_snoc f tr e : count f (tr ++ option_list e) = (count f tr + match e with Some x => if f x then 1 else 0 | None => 0 end)%nat.
Proof.
  unfold count. destruct e as [x|]; simpl; [|by rewrite app_nil_r, Nat.add_0_r].
  rewrite List.filter_app, app_length. simpl. by destruct (f x).
Qed.
(** well-formedness of the whole pool from the new stack's *)
Lemma wf_update (ts : list (list ins)) (i : nat) k' s' : (forall j k, j <> i -> ts !! j = Some k -> Forall (wfi s') k) -> Forall (wfi s') k' ->
  forall j k, <[i := k']> ts !! j = Some k -> forall n c, k !! n = Some c -> wfi s' c.
Proof.
  intros H1 H2 j k Hj. assert (Forall (wfi s') k) as Hf.
  { destruct (decide (j = i)) as [->|Hne].
    - apply list_lookup_insert_Some in Hj as [(_ & <- & _)|(? & _)]; done.
    - rewrite list_lookup_insert_ne in Hj by done. eauto. }
  intros n c Hc. rewrite list.Forall_lookup in Hf. eauto.
Qed.
Definition quiet (e : option ev) : Prop := match e with Some (EDestroy _) | Some (EFree _) => False | _ => True end.
Lemma quiet_d e b tr : quiet e -> count (is_destroy b) (tr ++ option_list e) = count (is_destroy b) tr.
Proof. intros H. rewrite count_snoc. destruct e as [[]|]; simpl in *; try done; lia. Qed.
Lemma quiet_f e b tr : quiet e -> count (is_free b) (tr ++ option_list e) = count (is_free b) tr.
Proof. intros H. rewrite count_snoc. destruct e as [[]|]; simpl in *; try done; lia. Qed.

Section step.
  Context (tr : list ev) (s : st) (ts : list (list ins)) (i : nat) (k : list ins) (HI : PI tr s ts) (Hl : ts !! i = Some k).
  (** steps that change objects only *)
  Lemma pi_vars s' k' e : blocks s' = blocks s -> quiet e ->
    (forall b, owners Strong s' b + sumz (so b) k' = owners Strong s b + sumz (so b) k) ->
    (forall b, owners Weak s' b + sumz (wo b) k' = owners Weak s b + sumz (wo b) k) ->
    (forall b, sumz (dy b) k' = sumz (dy b) k) -> (forall b, sumz (de b) k' = sumz (de b) k) ->
    (forall v, R s' v - sumz (bo v) k' = R s v - sumz (bo v) k) ->
    (forall j k, j <> i -> ts !! j = Some k -> Forall (wfi s') k) -> Forall (wfi s') k' ->
    PI (tr ++ option_list e) s' (<[i := k']> ts).
  Proof.
    intros Hbs He H1 H2 H3 H4 H5 H6 H7.
    assert (HU : forall b, U s' b = U s b) by (intros; unfold U; by rewrite Hbs). assert (HW : forall b, W s' b = W s b) by (intros; unfold W; by rewrite Hbs).
    assert (HD : forall b, D s' b = D s b) by (intros; unfold D; by rewrite Hbs). assert (HF : forall b, F s' b = F s b) by (intros; unfold F; by rewrite Hbs).
    assert (HN : forall b, N s' b = N s b) by (intros; unfold N; by rewrite Hbs).
    split.
    - intros b. rewrite ?HU, ?HW, ?HD, ?HF, ?HN. rewrite (tot_insert _ _ _ _ _ Hl). pose proof (pi_uses _ _ _ HI b). specialize (H1 b). lia.
    - intros b. rewrite ?HU, ?HW, ?HD, ?HF, ?HN. rewrite (tot_insert _ _ _ _ _ Hl). pose proof (pi_weaks _ _ _ HI b). specialize (H2 b).
      lia.
    - intros b. rewrite ?HU, ?HW, ?HD, ?HF, ?HN. rewrite (tot_insert _ _ _ _ _ Hl). pose proof (pi_dy _ _ _ HI b). specialize (H3 b).
      lia.
    - intros b. rewrite ?HU, ?HW, ?HD, ?HF, ?HN. rewrite (tot_insert _ _ _ _ _ Hl). pose proof (pi_de _ _ _ HI b). specialize (H4 b).
      lia.
    - intros v. rewrite (tot_insert _ _ _ _ _ Hl). pose proof (pi_rd _ _ _ HI v). specialize (H5 v). lia.
    - by apply wf_update.
    - intros b. rewrite ?HU, ?HW, ?HD, ?HF, ?HN. rewrite quiet_d by done. apply (pi_ed _ _ _ HI).
    - intros b. rewrite ?HU, ?HW, ?HD, ?HF, ?HN. rewrite quiet_f by done. apply (pi_ef _ _ _ HI).
  Qed.
  Lemma others_wf j k0 : ts !! j = Some k0 -> Forall (wfi s) k0.
  Proof. intros Hj. apply list.Forall_lookup. intros n c Hc. by apply (pi_wf _ _ _ HI j k0 Hj n). Qed.
  Lemma same_wf k' : Forall (wfi s) k' -> forall j k, <[i := k']> ts !! j = Some k -> Forall (wfi s) k.
  Proof.
    intros H j k0 Hj. destruct (decide (j = i)) as [->|Hne].
    - apply list_lookup_insert_Some in Hj as [(_ & <- & _)|(? & _)]; done.
    - rewrite list_lookup_insert_ne in Hj by done. by eapply others_wf.
  Qed.
  (** steps that change one block only *)
  Lemma pi_blk b x y k' e : blocks s !! b = Some x ->
    (forall b', b' <> b -> sumz (so b') k' = sumz (so b') k /\ sumz (wo b') k' = sumz (wo b') k /\ sumz (dy b') k' = sumz (dy b') k /\ sumz (de b') k' = sumz (de b') k) ->
    (forall b', b' <> b -> match e with Some ev => is_destroy b' ev = false /\ is_free b' ev = false | None => True end) ->
    uses y - uses x = sumz (so b) k' - sumz (so b) k ->
    weaks y - weaks x = sumz (wo b) k' - sumz (wo b) k + (pos (uses y) - pos (uses x)) ->
    sumz (dy b) k' - sumz (dy b) k + (if live y then 0 else 1) - (if live x then 0 else 1) + (pos (uses y) - pos (uses x)) = 0 ->
    sumz (de b) k' - sumz (de b) k + (if freed y then 1 else 0) - (if freed x then 1 else 0) + (pos (weaks y) - pos (weaks x)) = 0 ->
    (if live y then 0 else 1) = (if live x then 0 else 1) + (match e with Some ev => if is_destroy b ev then 1 else 0 | None => 0 end) ->
    (if freed y then 1 else 0) = (if freed x then 1 else 0) + (match e with Some ev => if is_free b ev then 1 else 0 | None => 0 end) ->
    (forall v, sumz (bo v) k' = sumz (bo v) k) -> Forall (wfi s) k' ->
    PI (tr ++ option_list e) (setb s b y) (<[i := k']> ts).
  Proof.
    intros Hx Hne He Hu Hw Hd Hf Hed Hef Hb Hwf. split.
    - intros b'. rewrite (tot_insert _ _ _ _ _ Hl), (U_setb _ _ x) by done. change (owners Strong (setb s b y) b') with (owners Strong s b').
      pose proof (pi_uses _ _ _ HI b') as HH. case_decide as E; [subst|destruct (Hne b' E); lia].
      unfold U in HH. rewrite Hx in HH. lia.
    - intros b'. rewrite (tot_insert _ _ _ _ _ Hl), (W_setb _ _ x), (U_setb _ _ x) by done. change (owners Weak (setb s b y) b') with (owners Weak s b').
      pose proof (pi_weaks _ _ _ HI b') as HH. case_decide as E; [subst|destruct (Hne b' E) as (?&?&?); lia].
      unfold U, W in HH. rewrite Hx in HH. lia.
    - intros b'. rewrite (tot_insert _ _ _ _ _ Hl), (D_setb _ _ x), (U_setb _ _ x), (N_setb _ _ x) by done.
      pose proof (pi_dy _ _ _ HI b') as HH. case_decide as E; [subst|destruct (Hne b' E) as (?&?&?&?); lia].
      unfold D, U in HH. rewrite Hx in HH. lia.
    - intros b'. rewrite (tot_insert _ _ _ _ _ Hl), (F_setb _ _ x), (W_setb _ _ x), (N_setb _ _ x) by done.
      pose proof (pi_de _ _ _ HI b') as HH. case_decide as E; [subst|destruct (Hne b' E) as (?&?&?&?); lia].
      unfold F, W in HH. rewrite Hx in HH. lia.
    - intros v. rewrite (tot_insert _ _ _ _ _ Hl). pose proof (pi_rd _ _ _ HI v). rewrite Hb. change (R (setb s b y) v) with (R s v). lia.
    - apply wf_update; [|eapply list.Forall_impl; [exact Hwf|intros; by apply wf_setb]].
      intros j k0 _ Hj. eapply list.Forall_impl; [by eapply others_wf|]. intros. by apply wf_setb.
    - intros b'. rewrite count_snoc, (D_setb _ _ x) by done. pose proof (pi_ed _ _ _ HI b') as HH. case_decide as E.
      + subst. unfold D in HH. rewrite Hx in HH. destruct e as [v|]; [destruct (is_destroy b v)|]; lia.
      + specialize (He b' E). destruct e as [v|]; [destruct He as [-> _]|]; lia.
    - intros b'. rewrite count_snoc, (F_setb _ _ x) by done. pose proof (pi_ef _ _ _ HI b') as HH. case_decide as E.
      + subst. unfold F in HH. rewrite Hx in HH. destruct e as [v|]; [destruct (is_free b v)|]; lia.
      + specialize (He b' E). destruct e as [v|]; [destruct He as [_ ->]|]; lia.
  Qed.
End step.
Lemma wf_setv0 s v o' c : bo v c = 0 -> wfi s c -> wfi (setv s v o') c.
Proof.
  intros Hb Hw.
  assert (Hh : forall w b P, is v (Some w) = 0 -> holds s w b P -> holds (setv s v o') w b P).
  { intros w b P Hle (x & Hx & H). exists x. split; [|done]. simpl. rewrite list_lookup_insert_ne; [done|]. intros ->. rewrite is_eq in Hle. lia. }
  destruct c; simpl in *; try done; try (by apply Hh). destruct Hw. split; [by apply Hh|done].
Qed.
Lemma unread tr s ts v : PI tr s ts -> R s v = 0 -> forall i k, ts !! i = Some k -> Forall (fun c => bo v c = 0) k.
Proof.
  intros HI Hr i k Hk. apply list.Forall_lookup. intros j c Hc. pose proof (tot_ge _ ts i k j c (bo_nn v) Hk Hc). pose proof (pi_rd _ _ _ HI v). pose proof (bo_nn v c). lia.
Qed.
Lemma R_none s v : vars s !! v = Some None -> R s v = 0.
Proof. intros H. unfold R. by rewrite H. Qed.
Lemma R_var s v kd p r rd : vars s !! v = Some (Some (Var kd p r rd)) -> R s v = rd.
Proof. intros H. unfold R. by rewrite H. Qed.
Lemma wf_setv1 tr s ts v o' : PI tr s ts -> R s v = 0 -> forall j k, ts !! j = Some k -> Forall (wfi (setv s v o')) k.
Proof.
  intros HI Hr j k Hk. pose proof (unread _ _ _ v HI Hr j k Hk) as H1. pose proof (others_wf _ _ _ HI j k Hk) as H2.
  rewrite list.Forall_lookup in H1, H2 |- *. intros n c Hc. apply wf_setv0; eauto.
Qed.
Lemma wf_setv2 tr s ts v o' w o'' : PI tr s ts -> R s v = 0 -> R s w = 0 -> forall j k, ts !! j = Some k -> Forall (wfi (setv (setv s v o') w o'')) k.
Proof.
  intros HI Hr Hr' j k Hk. pose proof (unread _ _ _ v HI Hr j k Hk) as H1. pose proof (unread _ _ _ w HI Hr' j k Hk) as H1'. pose proof (others_wf _ _ _ HI j k Hk) as H2.
  rewrite list.Forall_lookup in H1, H1', H2 |- *. intros n c Hc. apply wf_setv0; [eauto|]. apply wf_setv0; eauto.
Qed.
Lemma wf_setvr tr s ts v kd p r rd rd' : PI tr s ts -> vars s !! v = Some (Some (Var kd p r rd)) -> forall j k, ts !! j = Some k -> Forall (wfi (setv s v (Some (Var kd p r rd')))) k.
Proof. intros HI Hv j k Hk. eapply list.Forall_impl; [by eapply others_wf|]. intros c. by apply (wf_reader s v kd p r rd). Qed.
Lemma R_setv s v o o' v' : vars s !! v = Some o -> R (setv s v o') v' = if decide (v' = v) then match o' with Some x => vrd x | None => 0 end else R s v'.
Proof. destruct s. apply R_set. Qed.
Lemma is_dec b b' : is b (Some b') = if decide (b = b') then 1 else 0.
Proof. unfold is. repeat case_decide; congruence. Qed.
Lemma sum_release f kd r : sumz f (release kd r) = match r with Some b => f (match kd with Strong => Decref b | Weak => Decwref b end) | None => 0 end.
Proof. destruct r; simpl; [lia|done]. Qed.
Lemma is_None b : is b None = 0. Proof. done. Qed.
Ltac sums := rewrite ?sumz_app, ?sum_release, ?sumz_cons; cbn [so wo dy de bo sumz foldr finish end_read]; rewrite ?is_None.
Ltac own H := rewrite (owners_setv _ _ _ _ _ _ H), ?owns_var; cbn [owns].

Lemma pi_step tr s ts i k e s' k' : PI tr s ts -> ts !! i = Some k -> sp_step i s k e s' k' -> PI (tr ++ option_list e) s' (<[i := k']> ts).
Proof.
  intros HI Hl Ht. pose proof (others_wf _ _ _ HI i k Hl) as Hwk.
  inversion Ht; subst; clear Ht.
  - (* new *)
    set (b0 := length (blocks s)).
    assert (Hlk : forall b, (blocks s ++ [Blk 1 1 true false]) !! b = if decide (b = b0) then Some (Blk 1 1 true false) else blocks s !! b).
    { intros b. case_decide as E; [subst; by rewrite lookup_app_r, Nat.sub_diag by lia|]. destruct (decide (b < b0)%nat); [by rewrite lookup_app_l|].
      rewrite (lookup_ge_None_2 (blocks s)), lookup_ge_None_2 by (rewrite ?app_length; simpl; lia). done. }
    assert (Hn : blocks s !! b0 = None) by (apply lookup_ge_None_2; lia).
    assert (HR : R s v = 0) by (by apply R_none).
    assert (Hown : forall kd b, owners kd (St (<[v := Some (Var Strong p (Some b0) 0)]> (vars s)) (blocks s ++ [Blk 1 1 true false])) b
      = owners kd s b + (if decide (kd = Strong /\ b = b0) then 1 else 0)).
    { intros kd b. change (owners kd s b) with (owners kd (St (vars s) (blocks s ++ [Blk 1 1 true false])) b).
      rewrite (owners_set _ _ _ _ _ _ _ H0), owns_var. cbn [owns]. rewrite is_dec. destruct kd; repeat case_decide; try lia; naive_solver. }
    rewrite app_nil_r. rewrite (list_insert_id ts) by done. split.
    + intros b. rewrite Hown. pose proof (pi_uses _ _ _ HI b) as HH. unfold U in *. simpl. rewrite Hlk. destruct (decide (b = b0)) as [->|].
      * rewrite Hn in HH. rewrite decide_True by done. simpl. lia.
      * rewrite decide_False by naive_solver. lia.
    + intros b. rewrite Hown. pose proof (pi_weaks _ _ _ HI b) as HH. unfold U, W in *. rewrite (decide_False (P := Weak = Strong /\ b = b0)) by (by intros [? _]). cbn [blocks]. rewrite Hlk. destruct (decide (b = b0)) as [->|].
      * rewrite Hn in HH. unfold pos in *. simpl in *. lia.
      * lia.
    + intros b. pose proof (pi_dy _ _ _ HI b) as HH. unfold U, D, N in *. simpl. rewrite Hlk. destruct (decide (b = b0)) as [->|]; [|lia].
      rewrite Hn in HH. unfold pos in *. simpl in *. lia.
    + intros b. pose proof (pi_de _ _ _ HI b) as HH. unfold W, F, N in *. simpl. rewrite Hlk. destruct (decide (b = b0)) as [->|]; [|lia].
      rewrite Hn in HH. unfold pos in *. simpl in *. lia.
    + intros w. rewrite (R_set _ _ _ None) by done. rewrite <- (pi_rd _ _ _ HI w). case_decide; [subst; by rewrite HR|done].
    + intros j k0 Hj n c Hc. pose proof (wf_setv1 _ _ _ v (Some (Var Strong p (Some b0) 0)) HI HR j k0 Hj) as Hf. rewrite list.Forall_lookup in Hf.
      apply (wf_new (setv s v (Some (Var Strong p (Some b0) 0)))). eauto.
    + intros b. pose proof (pi_ed _ _ _ HI b) as HH. unfold D in *. simpl. rewrite Hlk. destruct (decide (b = b0)) as [->|]; [|done]. by rewrite Hn in HH.
    + intros b. pose proof (pi_ef _ _ _ HI b) as HH. unfold F in *. simpl. rewrite Hlk. destruct (decide (b = b0)) as [->|]; [|done]. by rewrite Hn in HH.
  - (* null *) apply (pi_vars tr s ts i _ HI Hl); try done.
    + intros b. own H0. destruct kd; simpl; rewrite ?is_None; lia.
    + intros b. own H0. destruct kd; simpl; rewrite ?is_None; lia.
    + intros w. rewrite (R_setv _ _ _ _ _ H0). case_decide; [subst|done]. simpl. rewrite (R_none s v); done.
    + intros j k _ Hk. eapply wf_setv1; [done|by apply R_none|done].
    + eapply wf_setv1; [done|by apply R_none|done].
  - (* move *)
    assert (Hvw : v <> w) by (intros ->; rewrite H0 in H1; done).
    assert (Hw' : vars (setv s v (Some (Var kd 0 None 0))) !! w = Some None) by (simpl; by rewrite list_lookup_insert_ne).
    apply (pi_vars tr s ts i _ HI Hl); try done.
    + intros b. own Hw'. own H0. destruct kd; simpl; rewrite ?is_None; lia.
    + intros b. own Hw'. own H0. destruct kd; simpl; rewrite ?is_None; lia.
    + intros v0. 
      rewrite (R_setv _ _ _ _ _ Hw'), (R_setv _ _ _ _ _ H0). repeat case_decide; subst; simpl; rewrite ?(R_none _ _ H1), ?(R_var _ _ _ _ _ _ H0); done.
    + intros j k0 _ Hk. eapply wf_setv2; [done|by eapply R_var|by eapply R_none|done].
    + eapply wf_setv2; [done|by eapply R_var|by eapply R_none|done].
  - (* swap *)
    assert (Hw' : vars (setv s v (Some (Var kd p' r' 0))) !! w = Some (Some (Var kd p' r' 0))) by (simpl; by rewrite list_lookup_insert_ne).
    apply (pi_vars tr s ts i _ HI Hl); try done.
    + intros b. own Hw'. own H1. destruct kd; simpl; lia.
    + intros b. own Hw'. own H1. destruct kd; simpl; lia.
    + intros v0. 
      rewrite (R_setv _ _ _ _ _ Hw'), (R_setv _ _ _ _ _ H1). repeat case_decide; subst; simpl; rewrite ?(R_var _ _ _ _ _ _ H1), ?(R_var _ _ _ _ _ _ H2); done.
    + intros j k0 _ Hk. eapply wf_setv2; [done|by eapply R_var|by eapply R_var|done].
    + eapply wf_setv2; [done|by eapply R_var|by eapply R_var|done].
  - (* destroy *)
    apply (pi_vars tr s ts i _ HI Hl); try done.
    + intros b. own H0. sums. destruct kd, r; cbn [decide]; simpl; rewrite ?is_None; lia.
    + intros b. own H0. sums. destruct kd, r; simpl; rewrite ?is_None; lia.
    + intros b. sums. destruct kd, r; done.
    + intros b. sums. destruct kd, r; done.
    + intros v0. rewrite (R_setv _ _ _ _ _ H0). sums. case_decide; subst; rewrite ?(R_var _ _ _ _ _ _ H0); destruct kd, r; simpl; lia.
    + intros j k0 _ Hk. eapply wf_setv1; [done|by eapply R_var|done].
    + apply Forall_app. split; [destruct r, kd; simpl; repeat constructor|]. eapply wf_setv1; [done|by eapply R_var|done].
  - (* move assign *)
    apply (pi_vars tr s ts i _ HI Hl); try done.
    + intros b. own H0. sums. destruct kd; simpl; rewrite ?is_None; lia.
    + intros b. own H0. sums. destruct kd; simpl; rewrite ?is_None; lia.
    + intros v0. rewrite (R_setv _ _ _ _ _ H0). sums. case_decide; subst; rewrite ?(R_var _ _ _ _ _ _ H0); simpl; lia.
    + intros j k0 _ Hk. eapply wf_setv1; [done|by eapply R_var|done].
    + constructor; [done|]. eapply wf_setv1; [done|by eapply R_var|done].
  - (* reset *)
    destruct s' as [vs bs]. apply (pi_vars tr (St vs bs) ts i _ HI Hl); try done.
    + intros b. sums. destruct kd; lia.
    + intros b. sums. destruct kd; lia.
    + intros j k0 _ Hk. by eapply others_wf.
    + constructor; done.
  - (* copy *)
    apply (pi_vars tr s ts i _ HI Hl); try done.
    + intros b. own H0. destruct r; [|destruct asg]; sums; destruct kd, kd'; simpl; rewrite ?is_None; lia.
    + intros b. own H0. destruct r; [|destruct asg]; sums; destruct kd, kd'; simpl; rewrite ?is_None; lia.
    + intros b. destruct r; [|destruct asg]; sums; lia.
    + intros b. destruct r; [|destruct asg]; sums; lia.
    + intros v0. rewrite (R_setv _ _ _ _ _ H0). destruct r; [|destruct asg]; sums; simpl; rewrite is_dec; case_decide; subst; rewrite ?(R_var _ _ _ _ _ _ H0). all: simpl; lia.
    + intros j k0 _ Hk. by eapply wf_setvr.
    + pose proof (wf_setvr _ _ _ _ _ _ _ _ (rd + 1) HI H0 i k Hl) as Hk.
      destruct r as [b|]; [|destruct asg; simpl; repeat constructor; done]. constructor; [|done]. simpl.
      eexists. split; [apply list_lookup_insert; by eapply lookup_lt_Some|]. simpl. split; [done|]. intros ->. by destruct H1.
  - (* incref *)
    apply list.Forall_cons in Hwk as [Hw Hwk]. destruct Hw as (y & Hy & Hyr & Hyk). specialize (Hyk eq_refl).
    destruct (block_inv _ _ _ H) as [Hx Hfx].
    assert (Hu : 1 <= uses x).
    { pose proof (pi_uses _ _ _ HI b) as HH. pose proof (owners_ge Strong s b v _ Hy) as H1. pose proof (tot_nn _ ts (so_nn b)). unfold U in HH. rewrite Hx in HH.
      destruct y as [yk yp yr yrd]. simpl in *. subst. rewrite decide_True in H1 by done. lia. }
    assert (pos (uses x + 1) = 1 /\ pos (uses x) = 1) as [Hp1 Hp2] by (unfold pos; rewrite !decide_True by lia; done).
    apply (pi_blk tr s ts i _ HI Hl b x); try done; simpl; rewrite ?Hfx, ?Hp1, ?Hp2; try lia.
    + intros b' Hne. destruct asg; sums; rewrite ?is_dec, ?decide_False by done; lia.
    + destruct asg; sums; rewrite ?is_eq; lia.
    + destruct asg; sums; rewrite ?is_eq; lia.
    + destruct asg; sums; rewrite ?is_eq; lia.
    + destruct asg; sums; rewrite ?is_eq; lia.
    + intros v0. destruct asg; sums; lia.
    + destruct asg; simpl; repeat constructor; done.
  - (* incwref *)
    apply list.Forall_cons in Hwk as [Hw Hwk]. destruct (block_inv _ _ _ H) as [Hx Hfx].
    pose proof (holds_pos _ _ _ HI _ _ _ Hw) as Hu. unfold W in Hu. rewrite Hx in Hu.
    assert (pos (weaks x + 1) = 1 /\ pos (weaks x) = 1) as [Hp1 Hp2] by (unfold pos; rewrite !decide_True by lia; done).
    apply (pi_blk tr s ts i _ HI Hl b x); try done; simpl; rewrite ?Hfx, ?Hp1, ?Hp2; try lia.
    + intros b' Hne. destruct asg; sums; rewrite ?is_dec, ?decide_False by done; lia.
    + destruct asg; sums; rewrite ?is_eq; lia.
    + destruct asg; sums; rewrite ?is_eq; lia.
    + destruct asg; sums; rewrite ?is_eq; lia.
    + destruct asg; sums; rewrite ?is_eq; lia.
    + intros v0. destruct asg; sums; lia.
    + destruct asg; simpl; repeat constructor; done.
  - (* lock *)
    apply (pi_vars tr s ts i _ HI Hl); try done.
    + intros b. own H0. destruct r; sums; simpl; rewrite ?is_None; lia.
    + intros b. own H0. destruct r; sums; simpl; rewrite ?is_None; lia.
    + intros b. destruct r; sums; lia.
    + intros b. destruct r; sums; lia.
    + intros v0. rewrite (R_setv _ _ _ _ _ H0). destruct r; sums; rewrite is_dec; case_decide; subst; rewrite ?(R_var _ _ _ _ _ _ H0); simpl; lia.
    + intros j k0 _ Hk. by eapply wf_setvr.
    + pose proof (wf_setvr _ _ _ _ _ _ _ _ (rd + 1) HI H0 i k Hl) as Hk.
      destruct r as [b|]; [|repeat constructor; done]. constructor; [|done]. simpl.
      eexists. split; [apply list_lookup_insert; by eapply lookup_lt_Some|]. done.
  - (* lockload *) apply list.Forall_cons in Hwk as [Hw Hwk].
    apply (pi_vars tr s' ts i _ HI Hl); [done|done|intros b0; sums;  lia|intros b0; sums;  lia|intros b0; sums;  lia|intros b0; sums;  lia|intros v0; sums;  lia|intros j k1 _ Hk; by eapply others_wf|].
    constructor; done.
  - (* lockload0 *) apply list.Forall_cons in Hwk as [Hw Hwk].
    apply (pi_vars tr s' ts i _ HI Hl); [done|done|intros b0; sums;  lia|intros b0; sums;  lia|intros b0; sums;  lia|intros b0; sums;  lia|intros v0; sums;  lia|intros j k1 _ Hk; by eapply others_wf|].
    repeat constructor; done.
  - (* lockcas_ok *)
    apply list.Forall_cons in Hwk as [[Hw Hc] Hwk]. destruct (block_inv _ _ _ H) as [Hx Hfx].
    assert (Hu : 0 <= uses x).
    { pose proof (pi_uses _ _ _ HI b) as HH. pose proof (owners_nn Strong s b) as H1. pose proof (tot_nn _ ts (so_nn b)). unfold U in HH. rewrite Hx in HH. lia. }
    assert (pos (uses x + 1) = 1 /\ pos (uses x) = 1) as [Hp1 Hp2] by (unfold pos; rewrite !decide_True by lia; done).
    apply (pi_blk tr s ts i _ HI Hl b x); try done; simpl; rewrite ?Hfx, ?Hp1, ?Hp2; try lia.
    + intros b' Hne. sums; rewrite ?is_dec, ?decide_False by done; lia.
    + sums; rewrite ?is_eq; lia.
    + repeat constructor; done.
  - (* lockcas_retry *) apply list.Forall_cons in Hwk as [[Hw Hc] Hwk].
    apply (pi_vars tr s' ts i _ HI Hl); [done|done|intros b0; sums;  lia|intros b0; sums;  lia|intros b0; sums;  lia|intros b0; sums;  lia|intros v0; sums;  lia|intros j k1 _ Hk; by eapply others_wf|].
    constructor; done.
  - (* lockcas_fail *) apply list.Forall_cons in Hwk as [Hw Hwk].
    apply (pi_vars tr s' ts i _ HI Hl); [done|done|intros b0; sums;  lia|intros b0; sums;  lia|intros b0; sums;  lia|intros b0; sums;  lia|intros v0; sums;  lia|intros j k1 _ Hk; by eapply others_wf|].
    repeat constructor; done.
  - (* conv *)
    apply (pi_vars tr s ts i _ HI Hl); try done.
    + intros b. own H0. destruct r; sums; simpl; rewrite ?is_None; lia.
    + intros b. own H0. destruct r; sums; simpl; rewrite ?is_None; lia.
    + intros b. destruct r; sums; lia.
    + intros b. destruct r; sums; lia.
    + intros v0. rewrite (R_setv _ _ _ _ _ H0). destruct r; sums; rewrite is_dec; case_decide; subst; rewrite ?(R_var _ _ _ _ _ _ H0); simpl; lia.
    + intros j k0 _ Hk. by eapply wf_setvr.
    + pose proof (wf_setvr _ _ _ _ _ _ _ _ (rd + 1) HI H0 i k Hl) as Hk.
      destruct r as [b|]; [|repeat constructor; done]. constructor; [|done]. simpl.
      eexists. split; [apply list_lookup_insert; by eapply lookup_lt_Some|]. done.
  - (* convinc *)
    apply list.Forall_cons in Hwk as [Hw Hwk]. destruct (block_inv _ _ _ H) as [Hx Hfx].
    pose proof (holds_pos _ _ _ HI _ _ _ Hw) as Hu. unfold W in Hu. rewrite Hx in Hu.
    assert (pos (weaks x + 1) = 1 /\ pos (weaks x) = 1) as [Hp1 Hp2] by (unfold pos; rewrite !decide_True by lia; done).
    apply (pi_blk tr s ts i _ HI Hl b x); try done; simpl; rewrite ?Hfx, ?Hp1, ?Hp2; try lia.
    + intros b' Hne. sums; rewrite ?is_dec, ?decide_False by done; lia.
    + sums; rewrite ?is_eq; lia.
    + repeat constructor; done.
  - (* convmove *)
    apply (pi_vars tr s ts i _ HI Hl); try done.
    + intros b. own H0. destruct r; sums; simpl; rewrite ?is_None; lia.
    + intros b. own H0. destruct r; sums; simpl; rewrite ?is_None; lia.
    + intros b. destruct r; sums; lia.
    + intros b. destruct r; sums; lia.
    + intros v0. rewrite (R_setv _ _ _ _ _ H0). destruct r; sums; case_decide; subst; rewrite ?(R_var _ _ _ _ _ _ H0); simpl; lia.
    + intros j k0 _ Hk. eapply wf_setv1; [done|by eapply R_var|done].
    + pose proof (wf_setv1 _ _ _ v (Some (Var Weak 0 None 0)) HI (R_var _ _ _ _ _ _ H0) i k Hl) as Hk. destruct r; constructor; done.
  - (* convload *) apply list.Forall_cons in Hwk as [Hw Hwk].
    apply (pi_vars tr s' ts i _ HI Hl); [done|done|intros b0; sums;  lia|intros b0; sums;  lia|intros b0; sums;  lia|intros b0; sums;  lia|intros v0; sums;  lia|intros j k1 _ Hk; by eapply others_wf|].
    constructor; done.
  - (* convload0 *) apply list.Forall_cons in Hwk as [Hw Hwk].
    apply (pi_vars tr s' ts i _ HI Hl); [done|done|intros b0; sums; destruct v; sums; lia|intros b0; sums; destruct v; sums; lia|intros b0; sums; destruct v; sums; lia|intros b0; sums; destruct v; sums; lia|intros v0; sums; destruct v; sums; lia|intros j k1 _ Hk; by eapply others_wf|].
    constructor; [done|]. destruct v; simpl; repeat constructor; done.
  - (* convcas_ok *)
    apply list.Forall_cons in Hwk as [Hc Hwk]. destruct (block_inv _ _ _ H) as [Hx Hfx]. simpl in Hc.
    assert (Hu : 0 <= uses x).
    { pose proof (pi_uses _ _ _ HI b) as HH. pose proof (owners_nn Strong s b) as H1. pose proof (tot_nn _ ts (so_nn b)). unfold U in HH. rewrite Hx in HH. lia. }
    assert (pos (uses x + 1) = 1 /\ pos (uses x) = 1) as [Hp1 Hp2] by (unfold pos; rewrite !decide_True by lia; done).
    apply (pi_blk tr s ts i _ HI Hl b x); try done; simpl; rewrite ?Hfx, ?Hp1, ?Hp2; try lia.
    + intros b' Hne. destruct v; sums; rewrite ?is_dec, ?decide_False by done; lia.
    + destruct v; sums; rewrite ?is_eq; lia.
    + destruct v; sums; rewrite ?is_eq; lia.
    + destruct v; sums; rewrite ?is_eq; lia.
    + destruct v; sums; rewrite ?is_eq; lia.
    + intros v0. destruct v; sums; lia.
    + destruct v; simpl; repeat constructor; done.
  - (* convcas_retry *) apply list.Forall_cons in Hwk as [Hw Hwk].
    apply (pi_vars tr s' ts i _ HI Hl); [done|done|intros b0; sums;  lia|intros b0; sums;  lia|intros b0; sums;  lia|intros b0; sums;  lia|intros v0; sums;  lia|intros j k1 _ Hk; by eapply others_wf|].
    constructor; done.
  - (* convcas_fail *) apply list.Forall_cons in Hwk as [Hw Hwk].
    apply (pi_vars tr s' ts i _ HI Hl); [done|done|intros b0; sums; destruct v; sums; lia|intros b0; sums; destruct v; sums; lia|intros b0; sums; destruct v; sums; lia|intros b0; sums; destruct v; sums; lia|intros v0; sums; destruct v; sums; lia|intros j k1 _ Hk; by eapply others_wf|].
    constructor; [done|]. destruct v; simpl; repeat constructor; done.
  - (* put *)
    apply list.Forall_cons in Hwk as [Hw Hwk]. apply (pi_vars tr s ts i _ HI Hl); try done.
    + intros b. own H. sums. destruct kd; simpl; lia.
    + intros b. own H. sums. destruct kd; simpl; lia.
    + intros v0. rewrite (R_setv _ _ _ _ _ H). sums. case_decide; subst; rewrite ?(R_none _ _ H); simpl; lia.
    + intros j k1 _ Hk. eapply wf_setv1; [done|by eapply R_none|done].
    + pose proof (wf_setv1 _ _ _ w (Some (Var kd p r 0)) HI (R_none _ _ H) i _ Hl) as Hk. by apply list.Forall_cons in Hk as [_ Hk].
  - (* assign *)
    apply list.Forall_cons in Hwk as [Hw Hwk]. apply (pi_vars tr s ts i _ HI Hl); try done.
    + intros b. own H. sums. destruct kd, r'; simpl; rewrite ?is_None; lia.
    + intros b. own H. sums. destruct kd, r'; simpl; rewrite ?is_None; lia.
    + intros b. sums. destruct kd, r'; done.
    + intros b. sums. destruct kd, r'; done.
    + intros v0. rewrite (R_setv _ _ _ _ _ H). sums. case_decide; subst; rewrite ?(R_var _ _ _ _ _ _ H); destruct kd, r'; simpl; lia.
    + intros j k1 _ Hk. eapply wf_setv1; [done|by eapply R_var|done].
    + pose proof (wf_setv1 _ _ _ w (Some (Var kd p r 0)) HI (R_var _ _ _ _ _ _ H) i _ Hl) as Hk. apply list.Forall_cons in Hk as [_ Hk].
      apply Forall_app. split; [destruct r', kd; simpl; repeat constructor|done].
  - (* endread *)
    apply list.Forall_cons in Hwk as [Hw Hwk]. apply (pi_vars tr s ts i _ HI Hl); try done.
    + intros b. own H. sums. destruct kd; simpl; lia.
    + intros b. own H. sums. destruct kd; simpl; lia.
    + intros v0. rewrite (R_setv _ _ _ _ _ H). sums. rewrite is_dec. case_decide; subst; rewrite ?(R_var _ _ _ _ _ _ H); simpl; lia.
    + intros j k1 _ Hk. by eapply wf_setvr.
    + pose proof (wf_setvr _ _ _ _ _ _ _ _ (rd - 1) HI H i _ Hl) as Hk. by apply list.Forall_cons in Hk as [_ Hk].
  - (* decref *)
    apply list.Forall_cons in Hwk as [Hw Hwk]. destruct (block_inv _ _ _ H) as [Hx Hfx].
    pose proof (tot_ge_top _ ts i _ _ (so_nn b) Hl) as Hs. simpl in Hs. rewrite is_eq in Hs.
    assert (Hu : 1 <= uses x).
    { pose proof (pi_uses _ _ _ HI b) as HH. pose proof (owners_nn Strong s b) as H1. unfold U in HH. rewrite Hx in HH. lia. }
    assert (pos (uses x) = 1) as Hp2 by (unfold pos; rewrite !decide_True by lia; done).
    assert (Hd : live x = true).
    { pose proof (pi_dy _ _ _ HI b) as HH. pose proof (tot_nn _ ts (dy_nn b)). unfold D, U, N in HH. rewrite Hx, Hp2 in HH. destruct (live x); [done|lia]. }
    assert (pos (uses x - 1) = if decide (uses x - 1 = 0) then 0 else 1) as Hp1 by (unfold pos; repeat case_decide; lia).
    apply (pi_blk tr s ts i _ HI Hl b x); try done; simpl; rewrite ?Hfx, ?Hp1, ?Hp2, ?Hd; try lia.
    + intros b' Hne. case_decide; sums; rewrite ?is_dec, ?decide_False by done; lia.
    + case_decide; sums; rewrite ?is_eq; lia.
    + case_decide; sums; rewrite ?is_eq; lia.
    + case_decide; sums; rewrite ?is_eq; lia.
    + case_decide; sums; rewrite ?is_eq; lia.
    + intros v0. case_decide; sums; lia.
    + case_decide; [constructor; done|done].
  - (* decwref *)
    apply list.Forall_cons in Hwk as [Hw Hwk]. destruct (block_inv _ _ _ H) as [Hx Hfx].
    pose proof (tot_ge_top _ ts i _ _ (wo_nn b) Hl) as Hs. simpl in Hs. rewrite is_eq in Hs.
    assert (Hu : 1 <= weaks x).
    { pose proof (weak_pos _ _ _ HI b ltac:(lia)) as HH. unfold W in HH. rewrite Hx in HH. lia. }
    assert (pos (weaks x) = 1) as Hp2 by (unfold pos; rewrite !decide_True by lia; done).
    assert (pos (weaks x - 1) = if decide (weaks x - 1 = 0) then 0 else 1) as Hp1 by (unfold pos; repeat case_decide; lia).
    apply (pi_blk tr s ts i _ HI Hl b x); try done; simpl; rewrite ?Hfx, ?Hp1, ?Hp2; try lia.
    + intros b' Hne. case_decide; sums; rewrite ?is_dec, ?decide_False by done; lia.
    + case_decide; sums; rewrite ?is_eq; lia.
    + case_decide; sums; rewrite ?is_eq; lia.
    + case_decide; sums; rewrite ?is_eq; lia.
    + case_decide; sums; rewrite ?is_eq; lia.
    + intros v0. case_decide; sums; lia.
    + case_decide; [constructor; done|done].
  - (* dtor *)
    apply list.Forall_cons in Hwk as [Hw Hwk]. destruct (block_inv _ _ _ H) as [Hx Hfx].
    pose proof (tot_ge_top _ ts i _ _ (dy_nn b) Hl) as Hs. simpl in Hs. rewrite is_eq in Hs.
    assert (live x = true /\ pos (uses x) = 0) as [Hd Hp].
    { pose proof (pi_dy _ _ _ HI b) as HH. unfold D, U, N in HH. rewrite Hx in HH. unfold pos in *. destruct (live x); case_decide; try lia; done. }
    rewrite Hd.
    apply (pi_blk tr s ts i _ HI Hl b x); try done; simpl; rewrite ?Hfx, ?Hp, ?Hd; try lia.
    + intros b' Hne. sums; rewrite ?is_dec, ?decide_False by done; lia.
    + intros b' Hne. by rewrite bool_decide_false.
    + rewrite is_eq. lia.
    + by rewrite bool_decide_true.
    + constructor; done.
  - (* dtor end *)
    apply list.Forall_cons in Hwk as [Hw Hwk].
    apply (pi_vars tr s' ts i _ HI Hl); [done|done|intros b0; sums;  lia|intros b0; sums;  lia|intros b0; sums;  lia|intros b0; sums;  lia|intros v0; sums;  lia|intros j k1 _ Hk; by eapply others_wf|].
    constructor; done.
  - (* delete *)
    apply list.Forall_cons in Hwk as [Hw Hwk]. destruct (block_inv _ _ _ H) as [Hx Hfx].
    apply (pi_blk tr s ts i _ HI Hl b x); try done; simpl; rewrite ?Hfx; try lia.
    + intros b' Hne. sums; rewrite ?is_dec, ?decide_False by done; lia.
    + intros b' Hne. by rewrite bool_decide_false.
    + rewrite is_eq. lia.
    + by rewrite bool_decide_true.
  - (* use_count *) 
    apply (pi_vars tr s' ts i _ HI Hl); try done. intros j k1 _ Hk. by eapply others_wf.
  - (* fault *) destruct (no_fault _ _ _ HI _ _ _ _ Hl H) as [x Hx]. congruence.
Qed.

Lemma pi_reach m n tr s ts : steps sp_step (sp_init m n) tr (s, ts) -> PI tr s ts.
Proof.
  intros Hs. unfold sp_init in Hs. apply (steps_inv' _ PI) in Hs; [done| |intros; by eapply pi_step].
  assert (Hz : forall f, tot f (replicate n []) = 0).
  { intros f. apply sumz_zero. intros i x Hx. by apply lookup_replicate in Hx as [-> _]. }
  assert (Ho : forall kd b, owners kd (St (replicate m None) []) b = 0).
  { intros kd b. apply (sumz_zero (owns kd b)). intros i x Hx. by apply lookup_replicate in Hx as [-> _]. }
  split; intros; rewrite ?Hz, ?Ho; try done.
  - unfold R. simpl. destruct (replicate m None !! v) as [o|] eqn:E; [|done]. by apply lookup_replicate in E as [-> _].
  - apply lookup_replicate in H as [-> _]. done.
Qed.
