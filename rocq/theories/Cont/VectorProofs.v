(** Proofs about the std::vector model. *)
From stdpp Require Import base list list_numbers numbers decidable.
From Coq Require Import ZArith Lia.
From Verif Require Import Base.Res Base.Int Cont.ObjMem Cont.ObjMemProofs Cont.VectorModel Cont.VectorSpec.
Local Open Scope nat_scope.

Section vector.
  Context {A : Type} (T : traits) (maxsz : Z).
  Context (Hmax : (0 < maxsz < 2 ^ 63)%Z).
  Notation st := (st A vec).
  Notation holds := (holds (A := A) maxsz).
  Implicit Types (s : st) (l : list (option A)) (E : st -> Prop).

  Lemma calm_quiet s : calm s <-> quiet s.
  Proof. done. Qed.

  Definition growth (c n : Z) : Z := Z.min maxsz (Z.max n (c + c / 2)).
  Lemma zadd_ok a b : (0 <= a -> 0 <= b -> a + b < 2 ^ 64 -> zadd a b = a + b)%Z.
  Proof. intros. unfold zadd, cast. simpl. apply Z.mod_small. zpow. lia. Qed.
  Lemma zsub_ok a b : (0 <= b <= a -> a < 2 ^ 64 -> zsub a b = a - b)%Z.
  Proof. intros. unfold zsub, cast. simpl. apply Z.mod_small. zpow. lia. Qed.
  Lemma Calculate_growth_ok c n : (0 <= c <= maxsz -> 0 <= n <= maxsz -> Calculate_growth maxsz c n = growth c n)%Z.
  Proof.
    intros Hc Hn. unfold Calculate_growth, growth.
    assert (0 <= c / 2 <= c)%Z by (Z.div_mod_to_equations; lia). zpow.
    rewrite zsub_ok by (zpow; lia). destruct (Z.ltb_spec (maxsz - c / 2) c); [lia|].
    rewrite zadd_ok by (zpow; lia). destruct (Z.ltb_spec (c + c / 2) n); lia.
  Qed.
  Lemma growth_ge c n : (n <= maxsz -> n <= growth c n)%Z.
  Proof. unfold growth. lia. Qed.
  Lemma growth_le c n : (growth c n <= maxsz)%Z.
  Proof. unfold growth. lia. Qed.

  Lemma set_last_ok p s (Q : unit -> st -> Prop) E :
    (forall s', (forall q, mem s' q = mem s q) -> brk s' = brk s -> loc s' = Vec (myfirst (loc s)) p (myend (loc s)) ->
       (calm s -> calm s') -> Q tt s') -> wpx (set_last p) s Q E.
  Proof.
    intros HQ. unfold set_last. apply wpx_bind, wpx_loc, wpx_put. intros s' Hm Hb Hl Hc. apply HQ; try done.
    intros q. by rewrite Hm.
  Qed.

  (** storage of a vector whose objects have arbitrary values *)
  Definition shape s (v : vec) (n : nat) : Prop :=
    loc s = v /\ mylast v = myfirst v + n /\ mylast v <= myend v /\
    (Z.of_nat (myend v - myfirst v) <= maxsz)%Z /\ myend v <= brk s /\ 0 < brk s /\ (myfirst v = 0 -> myend v = 0) /\
    (forall q, myfirst v <= q < mylast v -> exists w, mem s q = Obj w) /\
    (forall q, mylast v <= q < myend v -> mem s q = Raw) /\
    (forall q, ~ myfirst v <= q < myend v -> mem s q = Unalloc).
  Lemma shape_holds s v n : shape s v n -> exists l, length l = n /\ holds s l.
  Proof.
    intros (E & Hl & He & Hm & Hb & Hb0 & Hnull & Ho & Hr & Hu). subst v.
    exists (map (fun i => match mem s (myfirst (loc s) + i) with Obj w => w | _ => None end) (seq 0 n)).
    assert (Hlen : length (map (fun i => match mem s (myfirst (loc s) + i) with Obj w => w | _ => None end) (seq 0 n)) = n)
      by by rewrite map_length, seq_length.
    split; [done|]. split; try rewrite Hlen; try done.
    intros q. decs.
    - rewrite list_lookup_fmap, lookup_seq_lt by lia. simpl.
      replace (_ + (q - _)) with q by lia. destruct (Ho q a) as [w ->]. done.
    - apply Hr; lia.
    - apply Hu; lia.
  Qed.
  Lemma holds_shape s l : holds s l -> shape s (loc s) (length l).
  Proof.
    intros [H1 H2 H3 H4 H5 H6 H7]. repeat split; try done; intros q Hq; rewrite H3; decs; try done. by eexists.
  Qed.
  Lemma holds_same s s' l : holds s l -> same s s' -> (forall q, mem s' q = mem s q) -> holds s' l.
  Proof. intros [H1 H2 H3 H4 H5 H6 H7] (Hb & Hl & _) Hm. split; rewrite ?Hb, ?Hl; try done. intros q. by rewrite Hm, H3. Qed.
  Lemma holds_obj s l q : holds s l -> myfirst (loc s) <= q < mylast (loc s) ->
    mem s q = Obj (cont l (q - myfirst (loc s))).
  Proof. intros H Hq. rewrite (h_mem _ _ _ H). decs. done. Qed.
  Lemma holds_raw s l q : holds s l -> mylast (loc s) <= q < myend (loc s) -> mem s q = Raw.
  Proof. intros H Hq. rewrite (h_mem _ _ _ H). decs. done. Qed.
  Lemma holds_un s l q : holds s l -> ~ myfirst (loc s) <= q < myend (loc s) -> mem s q = Unalloc.
  Proof. intros H Hq. pose proof (h_last _ _ _ H). pose proof (h_end _ _ _ H). rewrite (h_mem _ _ _ H). decs. done. Qed.

  (** state in the middle of a reallocation: the new block N of capacity C holds the objects [f] in [b, e) *)
  Definition built s0 l (N C b e : nat) (f : nat -> option A) s : Prop :=
    loc s = loc s0 /\ brk s = brk s0 + C /\ N = brk s0 /\ (calm s0 -> calm s) /\
    forall q, mem s q = if decide (N <= q < N + C) then (if decide (b <= q < e) then Obj (f (q - N)) else Raw) else mem s0 q.

  Lemma wpx_rguard {X} N C cf cl (m : M A vec X) s (Q : X -> st -> Prop) E :
    wpx m s Q (fun s1 => (forall q, N <= q < N + C -> if decide (cf <= q < cl) then exists w, mem s1 q = Obj w else mem s1 q = Raw) /\
                         (cf < cl -> N <= cf /\ cl <= N + C) /\
                         forall s2, same s1 s2 ->
                           (forall q, mem s2 q = if decide (N <= q < N + C) then Unalloc else mem s1 q) -> E s2) ->
    wpx (rguard N C cf cl m) s Q E.
  Proof.
    intros H. unfold rguard. apply wpx_on_throw. eapply wpx_mono; [exact H|auto|].
    intros s1 (Hc & Hin & HE). simpl. apply wpx_bind, wpx_Destroy_range.
    - intros q Hq. specialize (Hc q ltac:(lia)). by rewrite decide_True in Hc.
    - intros s2 Hs2 Hm2. apply wpx_dealloc.
      + intros q Hq. rewrite Hm2. decs; [done|]. specialize (Hc q Hq). by rewrite decide_False in Hc.
      + intros s3 Hs3 Hm3. apply HE; [eauto using same_trans|]. intros q. rewrite Hm3. decs; [done|].
        rewrite Hm2. decs; done.
  Qed.

  (** the old block after relocation: as before, or objects with other values *)
  Lemma Change_array_ok s0 l N ns C l' s (Q : unit -> st -> Prop) E :
    holds s0 l -> N = brk s0 -> (0 < C) -> (Z.of_nat C <= maxsz)%Z -> ns = length l' -> length l' <= C ->
    loc s = loc s0 -> brk s = brk s0 + C ->
    (forall q, N <= q < N + C -> mem s q = if decide (q < N + length l') then Obj (cont l' (q - N)) else Raw) ->
    (forall q, myfirst (loc s0) <= q < mylast (loc s0) -> exists w, mem s q = Obj w) ->
    (forall q, ~ N <= q < N + C -> ~ myfirst (loc s0) <= q < mylast (loc s0) -> mem s q = mem s0 q) ->
    (forall s', holds s' l' -> loc s' = Vec N (N + length l') (N + C) -> (calm s -> calm s') -> Q tt s') ->
    wpx (Change_array N ns C) s Q E.
  Proof.
    intros H HN HC HCm -> HlC Hl Hb Hnew Hold Hfr HQ.
    pose proof (h_last _ _ _ H) as Hlast. pose proof (h_end _ _ _ H) as Hend. pose proof (h_brk _ _ _ H) as Hbrk.
    pose proof (h_brk0 _ _ _ H) as Hb0.
    unfold Change_array. apply wpx_bind, wpx_loc. rewrite Hl. apply wpx_bind.
    assert (Hfin : forall s1, same s s1 ->
      (forall q, mem s1 q = if decide (myfirst (loc s0) <= q < myend (loc s0)) then Unalloc else mem s q) ->
      wpx (mput (Vec N (N + length l') (N + C))) s1 Q E).
    { intros s1 (Hb1 & Hl1 & Hc1) Hm1. apply wpx_put. intros s2 Hm2 Hb2 Hl2 Hc2. apply HQ; [|done|auto].
      split; rewrite ?Hl2; simpl; try lia; try done.
      intros q. rewrite Hm2, Hm1. decs; try done.
      - rewrite Hnew by lia. decs. done.
      - rewrite Hnew by lia. decs. done.
      - rewrite Hfr by lia. eapply holds_un; [exact H|lia]. }
    destruct (decide (myfirst (loc s0) = 0)) as [Hz|Hz].
    - apply wpx_ret. apply Hfin; [done|]. intros q. pose proof (h_null _ _ _ H Hz). decs. done.
    - apply wpx_bind, wpx_Destroy_range.
      { intros q Hq. destruct (Hold q Hq) as [w Hw]. by eexists. }
      intros s1 Hs1 Hm1. apply wpx_dealloc.
      { intros q Hq. rewrite Hm1. decs; [done|]. rewrite Hfr by lia. eapply holds_raw; [exact H|lia]. }
      intros s2 Hs2 Hm2. apply Hfin; [eauto using same_trans|]. intros q. rewrite Hm2, Hm1. decs; done.
  Qed.

  (** relocation with the strong guarantee *)
  Lemma relocate_strong s0 l N C b e f s (Q : nat -> st -> Prop) E :
    holds s0 l -> built s0 l N C b e f s -> b = N + length l -> b <= e <= N + C ->
    (forall s', same s s' ->
       (forall q, N <= q < N + C -> mem s' q = if decide (q < b) then Obj (cont l (q - N)) else if decide (q < e) then Obj (f (q - N)) else Raw) ->
       (forall q, myfirst (loc s0) <= q < mylast (loc s0) -> exists w, mem s' q = Obj w) ->
       (forall q, ~ N <= q < N + C -> ~ myfirst (loc s0) <= q < mylast (loc s0) -> mem s' q = mem s0 q) ->
       Q (N + length l) s') ->
    (~ calm s -> forall s', same s s' ->
       (forall q, N <= q < N + C -> mem s' q = mem s q) ->
       (forall q, ~ N <= q < N + C -> ~ myfirst (loc s0) <= q < mylast (loc s0) -> mem s' q = mem s0 q) ->
       (forall q, myfirst (loc s0) <= q < mylast (loc s0) -> exists w, mem s' q = Obj w) ->
       (strong_type T -> forall q, mem s' q = mem s q) -> E s') ->
    wpx (move_or_copy T (myfirst (loc s0)) (mylast (loc s0)) N) s Q E.
  Proof.
    intros H (Hl & Hb & HN & Hc & Hm) -> He HQ HE.
    pose proof (h_last _ _ _ H) as Hlast. pose proof (h_end _ _ _ H) as Hend. pose proof (h_brk _ _ _ H) as Hbrk.
    assert (Hlen : mylast (loc s0) - myfirst (loc s0) = length l) by lia.
    assert (Hobj : forall q, myfirst (loc s0) <= q < mylast (loc s0) -> mem s q = Obj (cont l (q - myfirst (loc s0)))).
    { intros q Hq. rewrite Hm. decs. by eapply holds_obj. }
    assert (Hfr : forall q, ~ N <= q < N + C -> mem s q = mem s0 q) by (intros q Hq; rewrite Hm; decs; done).
    unfold move_or_copy. destruct (negb (mthrow T) || negb (copyable T)) eqn:Et.
    - apply wpx_Uninitialized_move; try lia.
      + intros q Hq. by eexists; apply Hobj.
      + intros q Hq. rewrite Hm. decs. done.
      + intros s' Hs' Hm'. rewrite Hlen in *. apply HQ; [done| | |].
        * intros q Hq. rewrite Hm'. decs; [rewrite Hobj by lia; do 2 f_equal; lia| |]; rewrite Hm; decs; done.
        * intros q Hq. rewrite Hm'. decs. by eexists.
        * intros q Hq Hq'. rewrite Hm'. decs. by apply Hfr.
      + intros Ht Hcs s' Hs' Hv Hf. apply HE; try done.
        * intros q Hq. apply Hf; lia.
        * intros q Hq Hq'. rewrite Hf by lia. by apply Hfr.
        * intros [Hst|Hst]; [congruence|]. rewrite Ht, Hst in Et. done.
    - apply wpx_Uninitialized_copy; try lia.
      + intros q Hq. by eexists; apply Hobj.
      + intros q Hq. rewrite Hm. decs. done.
      + intros s' Hs' Hm'. rewrite Hlen in *. apply HQ; [done| | |].
        * intros q Hq. rewrite Hm'. decs; [rewrite Hobj by lia; do 2 f_equal; lia| |]; rewrite Hm; decs; done.
        * intros q Hq. rewrite Hm'. decs. by eexists; apply Hobj.
        * intros q Hq Hq'. rewrite Hm'. decs. by apply Hfr.
      + intros Hcs s' Hs' Hf. apply HE; try done.
        * intros q Hq Hq'. rewrite Hf by lia. by apply Hfr.
        * intros q Hq. rewrite Hf. by eexists; apply Hobj.
  Qed.

  (** after a failed reallocation the vector still owns its old block *)
  Lemma after_fail s0 l N C s s' : holds s0 l -> N = brk s0 -> loc s = loc s0 -> brk s = brk s0 + C ->
    (forall q, ~ N <= q < N + C -> ~ myfirst (loc s0) <= q < mylast (loc s0) -> mem s q = mem s0 q) ->
    (forall q, myfirst (loc s0) <= q < mylast (loc s0) -> exists w, mem s q = Obj w) ->
    same s s' -> (forall q, mem s' q = if decide (N <= q < N + C) then Unalloc else mem s q) ->
    (exists l', length l' = length l /\ holds s' l') /\
    ((forall q, ~ N <= q < N + C -> mem s q = mem s0 q) -> holds s' l).
  Proof.
    intros H HN Hl Hb Hf Ho (Hb' & Hl' & _) Hm'.
    pose proof (h_last _ _ _ H) as Hlast. pose proof (h_end _ _ _ H) as Hend. pose proof (h_brk _ _ _ H) as Hbrk.
    split.
    - eapply shape_holds with (v := loc s0). pose proof H as [H1 H2 H3 H4 H5 H6 H7].
      repeat split; try done; try congruence; try lia.
      + intros q Hq. rewrite Hm'. decs. by apply Ho.
      + intros q Hq. rewrite Hm'. decs. rewrite Hf by lia. by eapply holds_raw.
      + intros q Hq. rewrite Hm'. decs; [done|]. rewrite Hf by lia. by eapply holds_un.
    - intros Hsame. pose proof H as [H1 H2 H3 H4 H5 H6 H7].
      split; rewrite ?Hl', ?Hl; try done; try lia.
      intros q. rewrite Hm'. destruct (decide (N <= q < N + C)); [|rewrite Hsame by done; apply H3].
      decs. done.
  Qed.

  (** the two-part relocation around [off] *)
  Lemma relocate_parts {Y} s0 l N C off n f s (k : M A vec Y) (Q : Y -> st -> Prop) E :
    holds s0 l -> built s0 l N C (N + off) (N + off + n) f s -> off <= length l -> length l + n <= C ->
    (forall s', same s s' ->
       (forall q, N <= q < N + C -> mem s' q =
          if decide (q < N + (length l + n)) then
            Obj (if decide (q < N + off) then cont l (q - N)
                 else if decide (q < N + off + n) then f (q - N) else cont l (q - N - n))
          else Raw) ->
       (forall q, myfirst (loc s0) <= q < mylast (loc s0) -> exists w, mem s' q = Obj w) ->
       (forall q, ~ N <= q < N + C -> ~ myfirst (loc s0) <= q < mylast (loc s0) -> mem s' q = mem s0 q) ->
       wpx k s' Q E) ->
    (mthrow T = true -> ~ calm s -> forall s' l', length l' = length l -> holds s' l' -> loc s' = loc s -> E s') ->
    wpx (rguard N C (N + off) (N + off + n) (Uninitialized_move T (myfirst (loc s0)) (myfirst (loc s0) + off) N) ;;;
         rguard N C N (N + off + n) (Uninitialized_move T (myfirst (loc s0) + off) (mylast (loc s0)) (N + off + n)) ;;; k) s Q E.
  Proof.
    intros H (Hl & Hb & HN & Hc & Hm) Hoff HC HQ HE.
    pose proof (h_last _ _ _ H) as Hlast. pose proof (h_end _ _ _ H) as Hend. pose proof (h_brk _ _ _ H) as Hbrk.
    assert (Hobj : forall q, myfirst (loc s0) <= q < mylast (loc s0) -> mem s q = Obj (cont l (q - myfirst (loc s0)))).
    { intros q Hq. rewrite Hm. decs. by eapply holds_obj. }
    assert (Hfr : forall q, ~ N <= q < N + C -> mem s q = mem s0 q) by (intros q Hq; rewrite Hm; decs; done).
    apply wpx_bind, wpx_rguard. apply wpx_Uninitialized_move; try lia.
    { intros q Hq. eexists. apply Hobj. lia. }
    { intros q Hq. rewrite Hm. decs. done. }
    2:{ intros Ht Hcs s1 Hs1 Hv1 Hf1. split; [|split; [lia|]].
        - intros q Hq. rewrite Hf1 by lia. rewrite Hm. decs; [by eexists|done].
        - intros s2 Hs2 Hm2. eapply (after_fail s0 l N C s1 s2) in Hm2 as [[l' [Hl' Hh]] _]; try done.
          + eapply HE; try done. transitivity (loc s1); [apply Hs2|apply Hs1].
          + by rewrite (proj1 (proj2 Hs1)).
          + by rewrite (proj1 Hs1).
          + intros q Hq1 Hq2. rewrite Hf1 by lia. by apply Hfr.
          + intros q Hq. destruct (decide (q < myfirst (loc s0) + off)); [apply Hv1; lia|].
            rewrite Hf1 by lia. eexists. by apply Hobj. }
    intros s1 Hs1 Hm1. apply wpx_bind, wpx_rguard.
    assert (Ho1 : forall q, myfirst (loc s0) + off <= q < mylast (loc s0) -> mem s1 q = Obj (cont l (q - myfirst (loc s0)))).
    { intros q Hq. rewrite Hm1. decs. apply Hobj. lia. }
    assert (Hold1 : forall q, myfirst (loc s0) <= q < mylast (loc s0) -> exists w, mem s1 q = Obj w).
    { intros q Hq. destruct (decide (q < myfirst (loc s0) + off)); [rewrite Hm1; decs; by eexists|].
      eexists. apply Ho1. lia. }
    assert (Hfr1 : forall q, ~ N <= q < N + C -> ~ myfirst (loc s0) <= q < mylast (loc s0) -> mem s1 q = mem s0 q).
    { intros q Hq Hq'. rewrite Hm1. decs. by apply Hfr. }
    assert (Hnew1 : forall q, N <= q < N + C -> mem s1 q =
      if decide (q < N + off) then Obj (cont l (q - N)) else if decide (q < N + off + n) then Obj (f (q - N)) else Raw).
    { intros q Hq. rewrite Hm1. decs; [rewrite Hobj by lia; do 2 f_equal; lia| |]; rewrite Hm; decs; done. }
    apply wpx_Uninitialized_move; try lia.
    { intros q Hq. eexists. by apply Ho1. }
    { intros q Hq. rewrite Hnew1 by lia. decs. done. }
    - intros s2 Hs2 Hm2. apply HQ; [eauto using same_trans| | |].
      + intros q Hq. rewrite Hm2.
        destruct (decide (N + off + n <= q < N + off + n + (mylast (loc s0) - (myfirst (loc s0) + off)))).
        * rewrite Ho1 by lia. decs. do 2 f_equal. lia.
        * decs; rewrite Hnew1 by lia; decs; done.
      + intros q Hq. rewrite Hm2. decs; [by eexists|]. by apply Hold1.
      + intros q Hq Hq'. rewrite Hm2. decs. by apply Hfr1.
    - intros Ht Hcs s2 Hs2 Hv2 Hf2. split; [|split; [lia|]].
      + intros q Hq. rewrite Hf2 by lia. rewrite Hnew1 by lia. decs; try done; by eexists.
      + intros s3 Hs3 Hm3. eapply (after_fail s0 l N C s2 s3) in Hm3 as [[l' [Hl' Hh]] _]; try done.
        * eapply HE; try done.
          { intros Hcc. apply Hcs. by apply Hs1. }
          transitivity (loc s2); [apply Hs3|]. transitivity (loc s1); [apply Hs2|apply Hs1].
        * rewrite (proj1 (proj2 Hs2)), (proj1 (proj2 Hs1)). done.
        * rewrite (proj1 Hs2), (proj1 Hs1). done.
        * intros q Hq1 Hq2. rewrite Hf2 by lia. by apply Hfr1.
        * intros q Hq. destruct (decide (q < myfirst (loc s0) + off)); [|apply Hv2; lia].
          rewrite Hf2 by lia. by apply Hold1.
  Qed.
End vector.
