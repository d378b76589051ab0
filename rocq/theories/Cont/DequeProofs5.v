(** Loops over the deque: repeated pushes and pops, clear, resize, range appends. *)
From stdpp Require Import base list numbers decidable.
From Coq Require Import ZArith Lia.
From Verif Require Import Base.Res Base.Int Cont.ObjMem Cont.ObjMemProofs Cont.DequeModel Cont.DequeSpec Cont.DequeProofs
  Cont.DequeProofs2 Cont.DequeProofs3 Cont.DequeProofs4.
Local Open Scope nat_scope.

Lemma wpx_each {A X} (xs : list X) (f : X -> M A deq unit) (s : st A deq) (Q : unit -> st A deq -> Prop) (E : st A deq -> Prop)
    (Inv : list X -> st A deq -> Prop) :
  Inv [] s -> (forall dn x rest s', xs = dn ++ x :: rest -> Inv dn s' -> wpx (f x) s' (fun _ => Inv (dn ++ [x])) E) ->
  (forall s', Inv xs s' -> Q tt s') -> wpx (each xs f) s Q E.
Proof.
  intros HI Hb HQ. enough (Hg : forall rest dn s', xs = dn ++ rest -> Inv dn s' -> wpx (each rest f) s' Q E) by (by apply (Hg xs [])).
  induction rest as [|x rest IH]; intros dn s' Hx HI'; cbn [each].
  - apply wpx_ret, HQ. by rewrite app_nil_r in Hx; subst.
  - apply wpx_bind. eapply wpx_mono; [by apply (Hb dn x rest)| |done]. intros [] s2 H2. apply (IH (dn ++ [x])); [by rewrite <-app_assoc|done].
Qed.
(** while (p(size())) body, with a variant *)
Lemma wpx_while {A} (p : nat -> bool) (body : M A deq unit) (Q : unit -> st A deq -> Prop) (E : st A deq -> Prop)
    (Inv : nat -> st A deq -> Prop) :
  (forall k s, Inv k s -> if p (dsize (loc s)) then exists k', k = S k' /\ wpx body s (fun _ => Inv k') E else Q tt s) ->
  forall fuel k s, k < fuel -> Inv k s -> wpx (mwhile fuel (n <<- msize ;; mret (p n)) body) s Q E.
Proof.
  intros Hb. induction fuel as [|fuel IH]; intros k s Hk HI; [lia|]. cbn [mwhile]. apply wpx_bind. unfold msize.
  apply wpx_bind, wpx_bind, wpx_loc, wpx_ret, wpx_ret. specialize (Hb k s HI). destruct (p (dsize (loc s))).
  - destruct Hb as (k' & -> & Hw). apply wpx_bind. eapply wpx_mono; [exact Hw| |done]. intros [] s' H'. apply (IH k'); [lia|done].
  - by apply wpx_ret.
Qed.

Lemma rev_replicate {X} n (x : X) : rev (replicate n x) = replicate n x.
Proof. induction n as [|n IH]; [done|]. change (rev (replicate n x) ++ [x] = x :: replicate n x). rewrite IH. symmetry. apply (replicate_S_end n x). Qed.
Lemma own_none {A} B bl bk (m : nat -> cell A) f f' : own B bl bk m f [] -> own B bl bk m f' [].
Proof. intros [H1 H2 H3 H4 H5 H6 H7 H8]. split; try done; try (simpl; intros; lia). intros b r Hb Hr _. apply H7; try done. simpl; intros; lia. Qed.

Section loops.
  Context {A : Type} (T : traits) (B : nat) (maxb : Z).
  Context (HB : exists k, B = 2 ^ k) (Hmax : (8 <= maxb < 2 ^ 63)%Z).
  Notation state := (st A deq).
  Implicit Types (s : state) (l : list (option A)) (d : deq).
  Notation shape := (shape B maxb).
  Notation dholds := (dholds B maxb).
  Notation why_throw := (why_throw B maxb).
  Notation own := (own B).
  Notation eaddr := (eaddr B).
  Notation same_objects := (same_objects B).

  Lemma so_comp s1 s2 s3 i j k n : same_objects s1 s2 i j n -> same_objects s2 s3 j k n -> same_objects s1 s3 i k n.
  Proof. intros H1 H2 x Hx. rewrite (H2 x Hx). by apply H1. Qed.
  Lemma so_sub s1 s2 i j n i' j' n' : same_objects s1 s2 i j n -> i' + j = j' + i -> i <= i' -> i' + n' <= i + n -> same_objects s1 s2 i' j' n'.
  Proof.
    intros H Hij Hi Hn x Hx. replace (j' + x) with (j + (i' - i + x)) by lia. rewrite (H (i' - i + x)) by lia. f_equal. lia.
  Qed.
  Lemma why_mono s s' n n' : (calm s -> calm s') -> n <= n' -> why_throw s' n -> why_throw s n'.
  Proof. intros Hc Hn [H|H]; [left; intros ?; apply H; auto|right; lia]. Qed.

  Definition popped s s' l i : Prop := same_objects s s' i 0 (length l) /\ dholds s' l /\ (calm s -> calm s') /\ dmap (loc s') = dmap (loc s).

  Lemma for_pop_back_ok s l1 l2 n (Q : unit -> state -> Prop) (E : state -> Prop) : dholds s (l1 ++ l2) -> n = length l2 ->
    (forall s', popped s s' l1 0 -> Q tt s') -> wpx (for_ n (fun _ => pop_back B)) s Q E.
  Proof.
    intros H -> HQ. apply (wpx_for (fun k s' => popped s s' (l1 ++ take (length l2 - k) l2) 0)).
    - rewrite Nat.sub_0_r, firstn_all. split; [apply so_refl|]. done.
    - intros k s1 Hk (Hso & H1 & Hc & Hm).
      assert (Hsp : take (length l2 - k) l2 = take (length l2 - S k) l2 ++ [cont l2 (length l2 - S k)]).
      { replace (length l2 - k) with (S (length l2 - S k)) by lia. apply take_S_r, cont_lookup. lia. }
      rewrite Hsp, app_assoc in H1. apply (pop_back_ok B maxb HB s1 _ _ _ _ H1).
      intros s2 Hso2 H2 Hc2 Hm2. split; [|split; [done|split; [auto|congruence]]].
      eapply so_comp; [|exact Hso2]. eapply so_sub; [exact Hso|lia|lia|]. rewrite !app_length, !take_length. lia.
    - intros s' Hs'. rewrite Nat.sub_diag in Hs'. simpl in Hs'. rewrite app_nil_r in Hs'. by apply HQ.
  Qed.
  Lemma for_pop_front_ok s l1 l2 n (Q : unit -> state -> Prop) (E : state -> Prop) : dholds s (l2 ++ l1) -> n = length l2 ->
    (forall s', popped s s' l1 n -> Q tt s') -> wpx (for_ n (fun _ => pop_front B)) s Q E.
  Proof.
    intros H -> HQ. apply (wpx_for (fun k s' => popped s s' (drop k l2 ++ l1) k)).
    - split; [apply so_refl|]. done.
    - intros k s1 Hk (Hso & H1 & Hc & Hm).
      rewrite (drop_S l2 (cont l2 k)) in H1 by (by apply cont_lookup). simpl in H1. apply (pop_front_ok B maxb HB s1 _ _ _ _ H1).
      intros s2 Hso2 H2 Hc2 Hm2. split; [|split; [done|split; [auto|congruence]]].
      eapply so_comp; [|exact Hso2]. eapply so_sub; [exact Hso|lia|lia|]. rewrite !app_length, !drop_length. lia.
    - intros s' Hs'. rewrite drop_all in Hs'. simpl in Hs'. by apply HQ.
  Qed.
  Lemma while_pop_back_ok s l1 l2 fuel (p : nat -> bool) (Q : unit -> state -> Prop) (E : state -> Prop) : dholds s (l1 ++ l2) ->
    length l2 < fuel -> (forall n, n <= length l2 -> p (length l1 + n) = negb (n =? 0)) ->
    (forall s', popped s s' l1 0 -> Q tt s') -> wpx (mwhile fuel (n <<- msize ;; mret (p n)) (pop_back B)) s Q E.
  Proof.
    intros H Hf Hp HQ. apply (wpx_while p _ _ _ (fun k s' => k <= length l2 /\ popped s s' (l1 ++ take k l2) 0)) with (k := length l2); [|done|].
    - intros k s1 (Hk & Hso & H1 & Hc & Hm). rewrite (dholds_len _ _ _ _ H1), app_length, take_length.
      rewrite Hp by lia. destruct k as [|k].
      + simpl in *. rewrite app_nil_r in *. by apply HQ.
      + destruct (Nat.min (S k) (length l2) =? 0) eqn:E1; [apply Nat.eqb_eq in E1; lia|]. exists k. split; [done|].
        rewrite (take_S_r l2 k (cont l2 k)), app_assoc in H1 by (apply cont_lookup; lia). apply (pop_back_ok B maxb HB s1 _ _ _ _ H1).
        intros s2 Hso2 H2 Hc2 Hm2. split; [lia|]. split; [|split; [done|split; [auto|congruence]]].
        eapply so_comp; [|exact Hso2]. eapply so_sub; [exact Hso|lia|lia|]. rewrite !app_length, !take_length. lia.
    - split; [done|]. rewrite firstn_all. split; [apply so_refl|]. done.
  Qed.
  Lemma while_pop_front_ok s l1 l2 fuel (p : nat -> bool) (Q : unit -> state -> Prop) (E : state -> Prop) : dholds s (l2 ++ l1) ->
    length l2 < fuel -> (forall n, n <= length l2 -> p (length l1 + n) = negb (n =? 0)) ->
    (forall s', popped s s' l1 (length l2) -> Q tt s') -> wpx (mwhile fuel (n <<- msize ;; mret (p n)) (pop_front B)) s Q E.
  Proof.
    intros H Hf Hp HQ. apply (wpx_while p _ _ _ (fun k s' => k <= length l2 /\ popped s s' (drop (length l2 - k) l2 ++ l1) (length l2 - k))) with (k := length l2); [|done|].
    - intros k s1 (Hk & Hso & H1 & Hc & Hm). rewrite (dholds_len _ _ _ _ H1), app_length, drop_length, Nat.add_comm.
      rewrite Hp by lia. destruct k as [|k].
      + rewrite Nat.sub_0_r, drop_all in *. simpl in *. rewrite Nat.sub_diag. simpl. by apply HQ.
      + destruct (length l2 - (length l2 - S k) =? 0) eqn:E1; [apply Nat.eqb_eq in E1; lia|]. exists k. split; [done|].
        rewrite (drop_S l2 (cont l2 (length l2 - S k))) in H1 by (apply cont_lookup; lia). simpl in H1.
        apply (pop_front_ok B maxb HB s1 _ _ _ _ H1).
        replace (S (length l2 - S k)) with (length l2 - k) in * by lia.
        intros s2 Hso2 H2 Hc2 Hm2. split; [lia|]. split; [|split; [done|split; [auto|congruence]]].
        eapply so_comp; [|exact Hso2]. eapply so_sub; [exact Hso|lia|lia|]. rewrite !app_length, !drop_length. lia.
    - split; [done|]. rewrite Nat.sub_diag. split; [apply so_refl|]. done.
  Qed.

  (** ** destroying everything *)
  Lemma Reset_map_ok s (Q : unit -> state -> Prop) (E : state -> Prop) : dholds s [] ->
    (forall s', dholds s' [] -> (calm s -> calm s') -> dmap (loc s') = [] -> brk s' = brk s -> (forall q, mem s' q = Unalloc) -> Q tt s') ->
    wpx (Reset_map B) s Q E.
  Proof.
    intros [Hs Ho] HQ. unfold Reset_map. apply wpx_bind, wpx_loc. apply wpx_bind.
    pose proof (B_pos B HB) as HBp.
    apply (wpx_each _ _ _ _ _ (fun dn s' => same s s' /\ exists rest, rev (dmap (loc s)) = dn ++ rest /\ own (omap id (rev rest)) (brk s) (mem s') (fun _ => None) [])).
    - split; [apply same_refl|]. exists (rev (dmap (loc s))). split; [done|]. rewrite rev_involutive. eapply own_none, Ho.
    - intros dn x rest s1 Hx (Hs1 & rest1 & Hr & Ho1). rewrite Hx in Hr. apply app_inv_head in Hr. subst rest1.
      simpl in Ho1. rewrite omap_app in Ho1. destruct x as [b|]; simpl in Ho1.
      + assert (Ho2 : own (b :: omap id (rev rest)) (brk s) (mem s1) (fun _ => None) []).
        { eapply own_ext; [exact Ho1| |done|done|done]. symmetry. apply Permutation_cons_append. }
        apply wpx_dealloc.
        * intros q Hq. replace q with (b + (q - b)) by lia. apply (ow_raw _ _ _ _ _ _ Ho2); [left|lia|]. simpl; intros; lia.
        * intros s2 Hs2 Hm2. split; [by eapply same_trans|]. exists rest. split; [by rewrite Hx, <-app_assoc|].
          eapply own_dealloc; [exact Ho2|simpl; intros; lia|done].
      + apply wpx_ret. split; [done|]. exists rest. rewrite app_nil_r in Ho1. split; [by rewrite Hx, <-app_assoc|done].
    - intros s1 (Hs1 & rest & Hr & Ho1). assert (rest = []) as ->.
      { apply (f_equal length) in Hr. rewrite app_length in Hr. destruct rest; [done|simpl in Hr; lia]. }
      simpl in Ho1. apply wpx_put. intros s2 Hm2 Hb2 Hl2 Hc2. apply HQ.
      + split; rewrite Hl2.
        * destruct Hs as [S1 S2 S3 S4 S5 S6]. assert (Ho0 : doff (loc s) = 0) by (by apply S4).
          split; [exact S1|by left|unfold Mapsize; simpl; lia|done| |by left].
          unfold Mapsize. cbn [doff dmap length]. rewrite Ho0, Nat.mod_0_l by lia. lia.
        * eapply own_none. eapply own_ext; [exact Ho1|done| |by intros; rewrite Hm2|done]. rewrite Hb2, (proj1 Hs1). done.
      + intros. apply Hc2, Hs1. done.
      + by rewrite Hl2.
      + rewrite Hb2. apply Hs1.
      + intros q. rewrite Hm2. apply (ow_out _ _ _ _ _ _ Ho1). simpl. intros b Hb. by apply elem_of_nil in Hb.
  Qed.
  Lemma empty_unalloc s : dholds s [] -> Mapsize (loc s) = 0 -> dmap (loc s) = [] /\ forall q, mem s q = Unalloc.
  Proof.
    intros [Hs Ho] H0. assert (Hd : dmap (loc s) = []) by (apply nil_length_inv, H0). split; [done|].
    intros q. apply (ow_out _ _ _ _ _ _ Ho). unfold blocks. rewrite Hd. simpl. intros b Hb. by apply elem_of_nil in Hb.
  Qed.
  Lemma Tidy_ok s l (Q : unit -> state -> Prop) (E : state -> Prop) : dholds s l ->
    (forall s', dholds s' [] -> (calm s -> calm s') -> dmap (loc s') = [] -> (forall q, mem s' q = Unalloc) -> Q tt s') ->
    wpx (Tidy B) s Q E.
  Proof.
    intros H HQ. unfold Tidy, msize. apply wpx_bind, wpx_bind, wpx_loc, wpx_ret, wpx_bind.
    apply (while_pop_back_ok s [] l _ (fun n => negb (n =? 0))); [done|rewrite (dholds_len _ _ _ _ H); lia|done|].
    intros s1 (Hso & H1 & Hc & Hm). apply wpx_bind, wpx_loc. unfold mwhen.
    destruct (Mapsize (loc s1) =? 0) eqn:E0; simpl.
    - apply Nat.eqb_eq in E0. destruct (empty_unalloc s1 H1 E0) as [Hd Hu]. apply wpx_ret, HQ; auto.
    - apply Reset_map_ok; [done|]. intros s2 H2 Hc2 Hd Hb Hu. apply HQ; auto.
  Qed.

  (** ** pushing many *)
  Definition pushed s l vs s' : Prop := dholds s' (l ++ vs) /\ (calm s -> calm s') /\ same_objects s s' 0 0 (length l).
  Definition pushed_front s l vs s' : Prop := dholds s' (vs ++ l) /\ (calm s -> calm s') /\ same_objects s s' 0 (length vs) (length l).
  Lemma for_back_ok s l vs n body : dholds s l -> n = length vs ->
    (forall k s', k < n -> pushed s l (take k vs) s' ->
       wpx (body k) s' (fun _ s'' => pushed s' (l ++ take k vs) [cont vs k] s'') (push_exn B maxb s' (l ++ take k vs))) ->
    wpx (for_ n body) s (fun _ s' => pushed s l vs s')
      (fun s' => why_throw s (length l + n) /\ exists k, k < n /\ dholds s' (l ++ take k vs) /\ same_objects s s' 0 0 (length l)).
  Proof.
    intros H -> Hb. apply (wpx_for (fun k s' => pushed s l (take k vs) s')).
    - split; [by rewrite app_nil_r|]. split; [done|]. apply so_refl.
    - intros k s1 Hk Hp. eapply wpx_mono; [by apply Hb| |].
      + intros [] s2 (H2 & Hc2 & Hso2). destruct Hp as (H1 & Hc1 & Hso1).
        split; [by rewrite (take_S_r vs k (cont vs k)), app_assoc by (by apply cont_lookup)|]. split; [auto|].
        eapply so_comp; [exact Hso1|]. eapply so_sub; [exact Hso2|lia|lia|rewrite app_length; lia].
      + intros s2 (Hw & H2 & Hso2). destruct Hp as (H1 & Hc1 & Hso1). split.
        * eapply why_mono; [exact Hc1| |exact Hw]. rewrite app_length, take_length. lia.
        * exists k. split; [done|]. split; [done|]. eapply so_comp; [exact Hso1|]. eapply so_sub; [exact Hso2|lia|lia|rewrite app_length; lia].
    - intros s' Hp. rewrite firstn_all in Hp. done.
  Qed.
  (** the pushed values, in order of pushing, are [vs] *)
  Lemma for_front_ok s l vs n body : dholds s l -> n = length vs ->
    (forall k s', k < n -> pushed_front s l (rev (take k vs)) s' ->
       wpx (body k) s' (fun _ s'' => pushed_front s' (rev (take k vs) ++ l) [cont vs k] s'') (push_exn B maxb s' (rev (take k vs) ++ l))) ->
    wpx (for_ n body) s (fun _ s' => pushed_front s l (rev vs) s')
      (fun s' => why_throw s (length l + n) /\ exists k, k < n /\ dholds s' (rev (take k vs) ++ l) /\ same_objects s s' 0 k (length l)).
  Proof.
    intros H -> Hb. apply (wpx_for (fun k s' => pushed_front s l (rev (take k vs)) s')).
    - split; [done|]. split; [done|]. apply so_refl.
    - intros k s1 Hk Hp. eapply wpx_mono; [by apply Hb| |].
      + intros [] s2 (H2 & Hc2 & Hso2). destruct Hp as (H1 & Hc1 & Hso1).
        rewrite (take_S_r vs k (cont vs k)) by (by apply cont_lookup). rewrite rev_app_distr. split; [done|]. split; [auto|].
        eapply so_comp; [exact Hso1|]. eapply so_sub; [exact Hso2| | |]; rewrite ?app_length, ?rev_length, ?take_length; simpl; lia.
      + intros s2 (Hw & H2 & Hso2). destruct Hp as (H1 & Hc1 & Hso1). rewrite rev_length, take_length_le in Hso1 by lia. split.
        * eapply why_mono; [exact Hc1| |exact Hw]. rewrite app_length, rev_length, take_length. lia.
        * exists k. split; [done|]. split; [done|]. eapply so_comp; [exact Hso1|]. eapply so_sub; [exact Hso2|lia|lia|].
          rewrite app_length, rev_length, take_length. lia.
    - intros s' Hp. rewrite firstn_all in Hp. done.
  Qed.

  Lemma darg_so s s' l l' a v i : darg B s l a v -> same_objects s s' 0 i (length l) ->
    (forall k, k < length l -> i + k < length l' /\ cont l' (i + k) = cont l k) -> darg B s' l' a v.
  Proof.
    intros Ha Hso Hl. destruct a as [w|q|w]; [done| |done]. destruct Ha as (k & Hk & Hq & Hv).
    destruct (Hl k Hk) as [Hk' Hc]. exists (i + k). split; [done|]. split; [|congruence]. rewrite (Hso k Hk). done.
  Qed.
  Lemma darg_app s s' l l2 a v : darg B s l a v -> same_objects s s' 0 0 (length l) -> darg B s' (l ++ l2) a v.
  Proof.
    intros Ha Hso. eapply darg_so; [done|exact Hso|]. intros k Hk. rewrite app_length. split; [lia|].
    rewrite cont_app. by rewrite decide_True by lia.
  Qed.
  Lemma darg_front s s' l l2 a v : darg B s l a v -> same_objects s s' 0 (length l2) (length l) -> darg B s' (l2 ++ l) a v.
  Proof.
    intros Ha Hso. eapply darg_so; [done|exact Hso|]. intros k Hk. rewrite app_length. split; [lia|].
    rewrite cont_app. rewrite decide_False by lia. f_equal. lia.
  Qed.

  (** push_back(val) n times; val may live in the deque *)
  Lemma push_back_n_ok s l n a v : dholds s l -> darg B s l a v ->
    wpx (for_ n (fun _ => push_back T B maxb a)) s (fun _ s' => pushed s l (replicate n v) s')
      (fun s' => why_throw s (length l + n) /\ exists k, k < n /\ dholds s' (l ++ replicate k v) /\ same_objects s s' 0 0 (length l)).
  Proof.
    intros H Ha. eapply wpx_mono; [apply (for_back_ok s l (replicate n v)); [done|by rewrite replicate_length|]|done|].
    - intros k s1 Hk (H1 & Hc1 & Hso1). rewrite cont_replicate by done.
      apply push_back_ok; try done. eapply darg_app; done.
    - intros s' (Hw & k & Hk & Hd & Hso). split; [done|]. exists k. split; [done|]. rewrite take_replicate, Nat.min_l in Hd by lia. done.
  Qed.
  Lemma push_front_n_ok s l n a v : dholds s l -> darg B s l a v ->
    wpx (for_ n (fun _ => push_front T B maxb a)) s (fun _ s' => pushed_front s l (replicate n v) s')
      (fun s' => why_throw s (length l + n) /\ exists k, k < n /\ dholds s' (replicate k v ++ l) /\ same_objects s s' 0 k (length l)).
  Proof.
    intros H Ha. eapply wpx_mono; [apply (for_front_ok s l (replicate n v)); [done|by rewrite replicate_length|]| |].
    - intros k s1 Hk (H1 & Hc1 & Hso1). rewrite cont_replicate by done.
      apply push_front_ok; try done. eapply darg_front; done.
    - intros [] s' Hp. by rewrite rev_replicate in Hp.
    - intros s' (Hw & k & Hk & Hd & Hso). split; [done|]. exists k. split; [done|]. rewrite take_replicate, Nat.min_l, rev_replicate in Hd by lia. done.
  Qed.

  Lemma each_for {X} (xs : list X) (f : X -> M A deq unit) s (Q : unit -> state -> Prop) (E : state -> Prop) :
    wpx (for_ (length xs) (fun i => match xs !! i with Some x => f x | None => mub end)) s Q E -> wpx (each xs f) s Q E.
  Proof.
    unfold for_. enough (Hg : forall rest dn s, xs = dn ++ rest ->
      wpx (for_from (length rest) (length dn) (fun i => match xs !! i with Some x => f x | None => mub end)) s Q E -> wpx (each rest f) s Q E).
    { intros H. by apply (Hg xs [] s). }
    clear s. induction rest as [|x rest IH]; intros dn s Hx; cbn [each length for_from]; [done|].
    intros H. assert (Hl : xs !! length dn = Some x) by (rewrite Hx; by apply list_lookup_middle). rewrite Hl in H.
    apply wp_exists in H as (r & Hr & HQ). unfold mbind in *. unfold wpx. destruct (f x s) as [[s1 o]| |] eqn:Ef; try done.
    rewrite rbind_ok in *. destruct o as [[]|].
    - apply (IH (dn ++ [x])); [by rewrite <-app_assoc|]. rewrite app_length, Nat.add_1_r. unfold wpx. rewrite Hr. by apply wp_ok.
    - injection Hr as <-. by apply wp_ok.
  Qed.
  Lemma each_push_back_ok s l vs : dholds s l ->
    wpx (each vs (fun v => push_back T B maxb (ACopy v))) s (fun _ s' => pushed s l vs s')
      (fun s' => why_throw s (length l + length vs) /\ exists k, k < length vs /\ dholds s' (l ++ take k vs) /\ same_objects s s' 0 0 (length l)).
  Proof.
    intros H. apply each_for. apply for_back_ok; [done|done|]. intros k s1 Hk (H1 & Hc1 & Hso1).
    rewrite (cont_lookup vs k) by done. by apply push_back_ok.
  Qed.
  Lemma each_push_front_ok s l vs : dholds s l ->
    wpx (each vs (fun v => push_front T B maxb (ACopy v))) s (fun _ s' => pushed_front s l (rev vs) s')
      (fun s' => why_throw s (length l + length vs) /\ exists k, k < length vs /\ dholds s' (rev (take k vs) ++ l) /\ same_objects s s' 0 k (length l)).
  Proof.
    intros H. apply each_for. apply for_front_ok; [done|done|]. intros k s1 Hk (H1 & Hc1 & Hso1).
    rewrite (cont_lookup vs k) by done. by apply push_front_ok.
  Qed.

  (** ** resize *)
  Lemma resize_ok s l n a v : dholds s l -> darg B s l a v ->
    wpx (resize T B maxb n a) s
      (fun _ s' => dholds s' (take n l ++ replicate (n - length l) v) /\ (calm s -> calm s') /\ same_objects s s' 0 0 (Nat.min n (length l)))
      (fun s' => why_throw s n /\ exists k, k < n - length l /\ dholds s' (l ++ replicate k v) /\ same_objects s s' 0 0 (length l)).
  Proof.
    intros H Ha. unfold resize, msize. apply wpx_bind, wpx_bind, wpx_loc, wpx_ret. rewrite (dholds_len _ _ _ _ H). apply wpx_bind.
    apply (wpx_while (fun m => m <? n) _ _ _ (fun k s' => k <= n - length l /\ pushed s l (replicate (n - length l - k) v) s')) with (k := n - length l); [|lia|].
    - intros k s1 (Hk & H1 & Hc1 & Hso1). rewrite (dholds_len _ _ _ _ H1), app_length, replicate_length.
      destruct (length l + (n - length l - k) <? n) eqn:E1; [apply Nat.ltb_lt in E1|apply Nat.ltb_ge in E1].
      + destruct k as [|k]; [lia|]. exists k. split; [done|]. eapply wpx_mono; [apply push_back_ok; [done|done|exact H1|eapply darg_app; done]| |].
        * intros [] s2 (H2 & Hc2 & Hso2). split; [lia|]. split; [|split; [auto|]].
          -- replace (n - length l - k) with (S (n - length l - S k)) by lia. rewrite replicate_S_end, app_assoc. done.
          -- eapply so_comp; [exact Hso1|]. eapply so_sub; [exact Hso2|lia|lia|rewrite app_length; lia].
        * intros s2 (Hw & H2 & Hso2). split; [eapply why_mono; [exact Hc1| |exact Hw]; rewrite app_length, replicate_length; lia|].
          eexists. split; [|split; [exact H2|]]; [lia|]. eapply so_comp; [exact Hso1|]. eapply so_sub; [exact Hso2|lia|lia|rewrite app_length; lia].
      + destruct (decide (n <= length l)) as [Hle|].
        * replace (n - length l) with 0 in * by lia. cbn [replicate Nat.sub] in *. rewrite app_nil_r in *.
          pose proof (take_drop n l) as Htd. rewrite <-Htd in H1.
          apply (while_pop_back_ok s1 (take n l) (drop n l) _ (fun m => n <? m)); [done|rewrite drop_length; lia| |].
          -- intros j Hj. rewrite take_length_le by lia. destruct j; simpl; [apply Nat.ltb_ge; lia|apply Nat.ltb_lt; lia].
          -- intros s2 (Hso2 & H2 & Hc2 & Hm2). split; [done|]. split; [auto|]. rewrite take_length in Hso2.
             eapply so_comp; [|exact Hso2]. eapply so_sub; [exact Hso1|lia|lia|lia].
        * replace k with 0 in * by lia. rewrite Nat.sub_0_r in *. rewrite (take_ge l n) by lia.
          apply (while_pop_back_ok s1 (l ++ replicate (n - length l) v) [] _ (fun m => n <? m)); [by rewrite app_nil_r|simpl; lia| |].
          -- intros j Hj. rewrite app_length, replicate_length. simpl in Hj. assert (j = 0) as -> by lia. simpl. apply Nat.ltb_ge. lia.
          -- intros s2 (Hso2 & H2 & Hc2 & Hm2). split; [done|]. split; [auto|].
             eapply (so_comp s s1 s2 0 0 0); [eapply so_sub; [exact Hso1| | |]|eapply so_sub; [exact Hso2| | |]]; rewrite ?app_length; lia.
    - split; [done|]. rewrite Nat.sub_diag. simpl. split; [by rewrite app_nil_r|]. split; [done|]. apply so_refl.
  Qed.
End loops.
