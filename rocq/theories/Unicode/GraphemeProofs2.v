(** Proofs about the grapheme cluster iterator: the loop of [operator++] and the walk over a text. *)
From Coq Require Import Lia ZArith.
From stdpp Require Import base list numbers.
From Verif.Unicode Require Import UtfModel UtfSpec UtfProofs2 GraphemeModel GraphemeSpec GraphemeProofs.
Local Open Scope Z_scope.

Lemma take_pre {A} (q k : list A) m : take (length q + m) (q ++ k) = q ++ take m k.
Proof. induction q as [|x q IH]; [done|]. cbn. by rewrite IH. Qed.

Section proofs.
Context (decode : list Z -> dres) (gbp_of : Z -> gbp) (incb_of : Z -> incb) (extpic_of : Z -> bool).

Notation gb9c_left := (gb9c_left incb_of).
Notation gb11_left := (gb11_left gbp_of extpic_of).
Notation odd_ris := (odd_ris gbp_of).
Notation no_boundary := (no_boundary gbp_of incb_of extpic_of).
Notation ctl := (ctl gbp_of).
Notation run9 := (run9 incb_of).
Notation run11 := (run11 gbp_of extpic_of).
Notation tri := (tri gbp_of).

(** ** The loop on decoded chunks *)
Fixpoint aloop (s9 : st9) (s11 : st11) (num : nat) (l : Z) (rest : list (list Z * Z)) :
    list (list Z * Z) * list (list Z * Z) * st9 * st11 :=
  match rest with
  | [] => ([], [], s9, s11)
  | (p, r) :: rest' =>
      let m9 := gb9c_match s9 (incb_of l) in
      let m11 := gb11_match s11 (gbp_of l) (extpic_of l) in
      let num' := if decide (gbp_of l = RI) then S num else O in
      if break_here (snd m9) (snd m11) num' (gbp_of l) (gbp_of r) (extpic_of r)
      then ([], rest, fst m9, fst m11)
      else let '(t, rem, a, b) := aloop (fst m9) (fst m11) num' r rest' in ((p, r) :: t, rem, a, b)
  end.

Fixpoint aclusters (n : nat) (s9 : st9) (s11 : st11) (ds : list (list Z * Z)) : list (list (list Z * Z)) :=
  match n, ds with
  | S n, (p, l) :: rest =>
      let '(t, rem, a, b) := aloop s9 s11 0 l rest in ((p, l) :: t) :: aclusters n a b rem
  | _, _ => []
  end.

Lemma aloop_app s9 s11 num l rest t rem a b : aloop s9 s11 num l rest = (t, rem, a, b) -> rest = t ++ rem.
Proof.
  revert s9 s11 num l t. induction rest as [|[p r] rest IH]; intros s9 s11 num l t; cbn [aloop].
  - by intros [= <- <- <- <-].
  - destruct (break_here _ _ _ _ _ _); [by intros [= <- <- <- <-]|].
    destruct (aloop _ _ _ r rest) as [[[t' rem'] a'] b'] eqn:E. intros [= <- <- <- <-]. cbn [app]. f_equal.
    by eapply IH.
Qed.

(** The iterator on the chunks [ds]. *)
Definition itr (it : cpit) (ds : list (list Z * Z)) : Prop := exists fuel, cp_walk decode fuel it = Some (stops ds).
Lemma itr_nil it : itr it [] -> cp_at_end it = true /\ cp_first it = [].
Proof.
  intros [fuel H]. destruct fuel; cbn [cp_walk stops] in H; unfold cp_at_end in *; destruct (cp_first it); try done.
  by destruct (cp_walk decode fuel (cp_inc decode it)).
Qed.
Lemma itr_cons it p v ds : itr it ((p, v) :: ds) ->
  cp_at_end it = false /\ cp_first it = p ++ concat (map fst ds) /\ cp_val it = v /\ itr (cp_inc decode it) ds.
Proof.
  intros [fuel H]. destruct fuel; cbn [cp_walk stops] in H; unfold cp_at_end in *.
  - by destruct (cp_first it).
  - destruct (cp_first it) eqn:E; [done|].
    destruct (cp_walk decode fuel (cp_inc decode it)) eqn:Ew; [|done].
    injection H as H1 H2 H3. subst l0. split_and!; [done|done|done|]. by exists fuel.
Qed.

Lemma git_loop_spec fuel g l num p rest : (length rest < fuel)%nat -> itr (g_it g) ((p, l) :: rest) ->
  exists g' t rem, git_loop decode gbp_of incb_of extpic_of fuel g l num = Some g' /\
    aloop (g_9 g) (g_11 g) num l rest = (t, rem, g_9 g', g_11 g') /\ itr (g_it g') rem.
Proof.
  revert g l num p rest. induction fuel as [|fuel IH]; intros g l num p rest Hf Hi; [lia|].
  apply itr_cons in Hi as (_ & _ & _ & Hi). cbn [git_loop]. destruct rest as [|[p' r] rest].
  - apply itr_nil in Hi as Hi'. destruct Hi' as [-> _]. eexists _, [], []. split_and!; [done|done|done].
  - apply itr_cons in Hi as Hi'. destruct Hi' as (-> & _ & -> & _). cbn [aloop].
    destruct (break_here _ _ _ _ _ _).
    + eexists _, [], _. split_and!; [done|done|done].
    + destruct (IH (GIt (cp_inc decode (g_it g)) (fst (gb9c_match (g_9 g) (incb_of l)))
          (fst (gb11_match (g_11 g) (gbp_of l) (extpic_of l)))) r
          (if decide (gbp_of l = RI) then S num else O) p' rest) as (g' & t & rem & Hg & Ha & Hr).
      * cbn [length] in Hf. lia.
      * done.
      * cbn [g_9 g_11] in Ha. exists g', ((p', r) :: t), rem. split_and!; [done| |done]. by rewrite Ha.
Qed.

Lemma aclusters_concat n s9 s11 ds : (length ds <= n)%nat -> concat (aclusters n s9 s11 ds) = ds.
Proof.
  revert s9 s11 ds. induction n as [|n IH]; intros s9 s11 ds Hn.
  - destruct ds; [done|cbn [length] in Hn; lia].
  - destruct ds as [|[p l] rest]; [done|]. cbn [aclusters].
    destruct (aloop s9 s11 0 l rest) as [[[t rem] a] b] eqn:E. apply aloop_app in E. subst rest.
    cbn [concat app]. rewrite IH; [done|]. cbn [length] in Hn. rewrite app_length in Hn. lia.
Qed.

Lemma git_walk_spec n g ds : (length ds <= n)%nat -> itr (g_it g) ds ->
  forall fuel, (n <= fuel)%nat ->
  git_walk decode gbp_of incb_of extpic_of fuel g = Some (cluster_stops (aclusters n (g_9 g) (g_11 g) ds)).
Proof.
  revert g ds. induction n as [|n IH]; intros g ds Hn Hi fuel Hf.
  - destruct ds; [|cbn [length] in Hn; lia]. apply itr_nil in Hi as [He _].
    destruct fuel; cbn [git_walk]; unfold git_at_end; by rewrite He.
  - destruct ds as [|[p l] rest].
    + apply itr_nil in Hi as [He _]. destruct fuel; cbn [git_walk]; unfold git_at_end; by rewrite He.
    + destruct fuel as [|fuel]; [lia|]. cbn [git_walk]. unfold git_at_end.
      apply itr_cons in Hi as Hi'. destruct Hi' as (-> & Hfst & Hval & _).
      unfold git_inc. rewrite Hval. cbn [length] in Hn.
      destruct (git_loop_spec (S fuel) g l 0 p rest) as (g' & t & rem & -> & Ha & Hr); [lia|done|].
      assert (Hrest := aloop_app _ _ _ _ _ _ _ _ _ Ha).
      assert (Hlen : (length rem <= n)%nat) by (subst rest; rewrite app_length in Hn; lia).
      rewrite (IH g' rem Hlen Hr fuel) by lia. cbn [aclusters]. rewrite Ha. cbn [cluster_stops]. f_equal. f_equal. f_equal.
      cbn [concat app]. rewrite aclusters_concat by done. subst rest. rewrite Hfst. done.
Qed.

(** ** The clusters are the ones of UAX #29 *)
Context (Hzwj : forall c, gbp_of c = ZWJ -> extpic_of c = false).

Definition H9_at (pre : list Z) (r : Z) : Prop := gb9c_left pre ->
  incb_of r = IConsonant \/ ctl r \/ gbp_of r = Extend \/ gbp_of r = ZWJ \/ gbp_of r = SpacingMark.
Definition H11_at (pre : list Z) (l r : Z) : Prop :=
  ext2_left gbp_of extpic_of pre -> gbp_of l = ZWJ -> extpic_of r = true -> False.

Lemma break_spec pre l num r : H9_at (pre ++ [l]) r -> H11_at pre l r ->
  (gbp_of l = RI -> Nat.odd num = Nat.odd (tri pre)) ->
  break_here (snd (gb9c_match (run9 pre) (incb_of l))) (snd (gb11_match (run11 pre) (gbp_of l) (extpic_of l)))
    (if decide (gbp_of l = RI) then S num else O) (gbp_of l) (gbp_of r) (extpic_of r) = false <->
  no_boundary (pre ++ [l]) l r.
Proof.
  intros H9 H11 Hn. rewrite (break_here_false gbp_of incb_of extpic_of). unfold GraphemeSpec.no_boundary.
  rewrite (match9_spec gbp_of incb_of extpic_of). rewrite odd_ris_tri, tri_snoc.
  assert (Hm11 : snd (gb11_match (run11 pre) (gbp_of l) (extpic_of l)) = true /\ extpic_of r = true <->
                 gb11_left (pre ++ [l]) /\ extpic_of r = true).
  { split; intros [Hm Hr]; (split; [|done]).
    - by apply (match11_sound gbp_of incb_of extpic_of Hzwj).
    - destruct (match11_complete gbp_of incb_of extpic_of Hzwj pre l Hm) as [? | [H2 Hz]]; [done|].
      exfalso. by apply H11. }
  rewrite Hm11.
  assert (Hri : (gbp_of l = RI /\ gbp_of r = RI) /\ Nat.odd (if decide (gbp_of l = RI) then S num else O) = true <->
            Nat.odd (if decide (gbp_of l = RI) then S (tri pre) else 0) = true /\ gbp_of r = RI).
  { destruct (decide (gbp_of l = RI)) as [Hl | Hl].
    - rewrite !Nat.odd_succ, <- !Nat.negb_odd, Hn by done. tauto.
    - split; [tauto|]. by intros [? ?]. }
  rewrite Hri. unfold H9_at in H9. unfold GraphemeSpec.ctl in *.
  split; intros [H | (Hc & Hr & H)]; [by left| |by left|]; right; (split; [done|]); (split; [done|]);
    tauto.
Qed.

Definition H9_from (pre : list Z) (rest : list Z) : Prop :=
  forall q r post, rest = q ++ r :: post -> H9_at (pre ++ q) r.
Definition H11_from (pre : list Z) (rest : list Z) : Prop :=
  forall q l r post, rest = q ++ l :: r :: post -> H11_at (pre ++ q) l r.

Lemma H9_tail pre l rest : H9_from pre (l :: rest) -> H9_from (pre ++ [l]) rest.
Proof. intros H q r post ->. rewrite <- app_assoc. eapply (H (l :: q)). done. Qed.
Lemma H11_tail pre l rest : H11_from pre (l :: rest) -> H11_from (pre ++ [l]) rest.
Proof. intros H q a r post ->. rewrite <- app_assoc. eapply (H (l :: q)). done. Qed.

Lemma aloop_spec rest : forall pre l num t rem s9 s11,
  H9_from pre (l :: map snd rest) -> H11_from pre (l :: map snd rest) ->
  (gbp_of l = RI -> Nat.odd num = Nat.odd (tri pre)) ->
  aloop (run9 pre) (run11 pre) num l rest = (t, rem, s9, s11) ->
  (forall q a b post, l :: map snd t = q ++ a :: b :: post -> no_boundary (pre ++ q ++ [a]) a b) /\
  (forall r post, map snd rem = r :: post ->
     s9 = run9 (pre ++ l :: map snd t) /\ s11 = run11 (pre ++ l :: map snd t) /\
     (gbp_of r = RI -> Nat.odd (tri (pre ++ l :: map snd t)) = false) /\
     exists q a, l :: map snd t = q ++ [a] /\ ~ no_boundary (pre ++ q ++ [a]) a r).
Proof.
  induction rest as [|[p r] rest IH]; intros pre l num t rem s9 s11 H9 H11 Hnum; cbn [aloop].
  - intros [= <- <- <- <-]. split.
    + intros q a b post H. destruct q as [|? [|]]; done.
    + done.
  - cbn [map snd] in H9, H11.
    assert (H9l : H9_at (pre ++ [l]) r) by (eapply (H9 [l] r); done).
    assert (H11l : H11_at pre l r) by (rewrite <- (app_nil_r pre); eapply (H11 [] l r); done).
    pose proof (break_spec pre l num r H9l H11l Hnum) as Hb.
    destruct (break_here _ _ _ _ _ _).
    + intros [= <- <- <- <-]. cbn [map snd]. split.
      * intros q a b post H. destruct q as [|? [|]]; done.
      * intros r' post [= <- _]. rewrite <- run9_snoc, <- run11_snoc. split_and!; [done|done| |].
        -- intros Hr. destruct (Nat.odd (tri (pre ++ [l]))) eqn:Eo; [|done]. exfalso.
           assert (true = false); [|done]. apply Hb. right.
           assert (Hl : gbp_of l = RI).
           { rewrite tri_snoc in Eo. by destruct (decide (gbp_of l = RI)). }
           unfold GraphemeSpec.ctl. rewrite Hl, Hr. split; [by intros [? | [? | ?]]|]. split; [by intros [? | [? | ?]]|].
           do 8 right. split; [|done]. by apply odd_ris_tri.
        -- exists [], l. split; [done|]. intros Hnb. by apply Hb in Hnb.
    + rewrite <- (run9_snoc incb_of), <- (run11_snoc gbp_of extpic_of).
      destruct (aloop (run9 (pre ++ [l])) _ _ r rest) as [[[t' rem'] a'] b'] eqn:E. intros [= <- <- <- <-].
      edestruct (IH (pre ++ [l])) as [Hin Hout]; [by apply H9_tail|by apply H11_tail| |exact E|].
      * intros Hr. rewrite tri_snoc. destruct (decide (gbp_of l = RI)); [|done].
        rewrite !Nat.odd_succ, <- !Nat.negb_odd, Hnum by done. done.
      * cbn [map snd]. rewrite <- app_assoc in Hout. cbn [app] in Hout. split.
        -- intros q a b post H. destruct q as [|x q].
           ++ injection H as <- <- _. apply Hb. done.
           ++ injection H as <- H. apply Hin in H. rewrite <- app_assoc in H. done.
        -- intros r' post Hrem. destruct (Hout r' post Hrem) as (H1 & H2 & H3 & q & a & H4 & H5).
           split_and!; [done|done|done|]. exists (l :: q), a. cbn [app]. split; [by rewrite H4|].
           rewrite <- app_assoc in H5. done.
Qed.

Lemma aclusters_spec n : forall pre ds, (length ds <= n)%nat ->
  H9_from pre (map snd ds) -> H11_from pre (map snd ds) ->
  (forall p r post, ds = (p, r) :: post -> gbp_of r = RI -> Nat.odd (tri pre) = false) ->
  Forall (fun c => c <> []) (aclusters n (run9 pre) (run11 pre) ds) /\
  forall q l r post, map snd ds = q ++ l :: r :: post ->
    ((exists k, q ++ [l] = concat (take k (map (map snd) (aclusters n (run9 pre) (run11 pre) ds)))) <->
     ~ no_boundary (pre ++ q ++ [l]) l r).
Proof.
  induction n as [|n IH]; intros pre ds Hn H9 H11 Hri.
  { destruct ds; [|cbn [length] in Hn; lia]. split; [constructor|]. intros q l r post H. by destruct q. }
  destruct ds as [|[p l0] rest].
  { split; [constructor|]. intros q l r post H. by destruct q. }
  cbn [aclusters]. destruct (aloop (run9 pre) (run11 pre) 0 l0 rest) as [[[t rem] s9] s11] eqn:E.
  pose proof (aloop_app _ _ _ _ _ _ _ _ _ E) as Hrest. cbn [map snd] in H9, H11.
  destruct (aloop_spec rest pre l0 0 t rem s9 s11) as [Hin Hout]; [done|done| |done|].
  { intros Hr. cbn [Nat.odd]. rewrite (Hri p l0 rest); done. }
  subst rest. cbn [length] in Hn. rewrite app_length in Hn.
  destruct rem as [|[p1 r1] rem].
  { (* the last cluster *)
    rewrite app_nil_r in *. assert (Hnil : aclusters n s9 s11 [] = []) by (by destruct n). rewrite Hnil.
    split; [by constructor|]. intros q l r post H. cbn [map snd] in H. split.
    - intros [k Hk]. exfalso. destruct k as [|k].
      + cbn [take concat] in Hk. by destruct q.
      + cbn [map take concat snd] in Hk. rewrite take_nil in Hk. cbn [concat] in Hk. rewrite app_nil_r in Hk.
        assert (Hl : length (q ++ [l]) = length (q ++ l :: r :: post)) by (rewrite Hk; by rewrite <- H).
        rewrite !app_length in Hl. cbn [length] in Hl. lia.
    - intros Hnb. exfalso. apply Hnb. by eapply Hin. }
  destruct (Hout r1 (map snd rem) eq_refl) as (-> & -> & Hodd & q0 & a0 & Hq0 & Hnb0).
  set (cl := l0 :: map snd t) in *.
  assert (Hsplit : l0 :: map snd (t ++ (p1, r1) :: rem) = cl ++ map snd ((p1, r1) :: rem)).
  { unfold cl. rewrite map_app. done. }
  destruct (IH (pre ++ cl) ((p1, r1) :: rem)) as [Hne Hcl].
  - cbn [length] in *. lia.
  - intros q r post H. rewrite <- app_assoc. eapply (H9 (cl ++ q)). rewrite Hsplit, H, <- app_assoc. done.
  - intros q l r post H. rewrite <- app_assoc. eapply (H11 (cl ++ q)). rewrite Hsplit, H, <- app_assoc. done.
  - intros p' r' post [= <- <- <-]. done.
  - split; [by constructor|]. intros q l r post H. cbn [map snd] in H. cbn [map snd].
    change (l0 :: map snd t) with cl. rewrite Hsplit in H.
    (* position of the cut *)
    destruct (decide (length q + 1 < length cl)%nat) as [Hlt | Hge].
    + (* inside the first cluster *)
      assert (exists post', cl = q ++ l :: r :: post') as [post' Hcl'].
      { exists (drop (length q + 2) cl). rewrite <- (take_drop (length q + 2) cl) at 1.
        assert (Ht : take (length q + 2) cl = take (length q + 2) (cl ++ map snd ((p1, r1) :: rem))).
        { rewrite take_app_le by lia. done. }
        rewrite Ht, H. rewrite (take_pre q (l :: r :: post) 2). cbn [take].
        by rewrite <- app_assoc. }
      split.
      * intros [k Hk]. exfalso. destruct k as [|k]; [by destruct q|]. cbn [take concat] in Hk.
        apply (f_equal length) in Hk. rewrite !app_length in Hk. cbn [length] in Hk. fold cl in Hk.
        change (length (l0 :: map snd t)) with (length cl) in Hk. lia.
      * intros Hnb. exfalso. apply Hnb. by eapply Hin.
    + destruct (decide (length q + 1 = length cl)%nat) as [Heq | Hne'].
      * (* exactly the end of the first cluster *)
        assert (Hcleq : q ++ [l] = cl).
        { assert (Ht : take (length q + 1) (cl ++ map snd ((p1, r1) :: rem)) = cl).
          { rewrite Heq. apply take_app. }
          rewrite <- Ht, H. rewrite (take_pre q (l :: r :: post) 1). done. }
        assert (Hr : r = r1).
        { replace (q ++ l :: r :: post) with ((q ++ [l]) ++ r :: post) in H by (by rewrite <- app_assoc).
          rewrite Hcleq in H. apply app_inv_head in H. by injection H as <- _. }
        subst r1. split; [|intros _].
        -- intros _. rewrite Hq0 in Hcleq. apply app_inj_tail in Hcleq as [-> ->]. done.
        -- exists 1%nat. cbn [take concat]. rewrite app_nil_r. done.
      * (* past the first cluster *)
        assert (exists q', q = cl ++ q') as [q' ->].
        { exists (drop (length cl) q). rewrite <- (take_drop (length cl) q) at 1. f_equal.
          assert (Ht : take (length cl) (cl ++ map snd ((p1, r1) :: rem)) = cl) by apply take_app.
          rewrite H in Ht. rewrite take_app_le in Ht by lia. done. }
        rewrite <- app_assoc in H. apply app_inv_head in H.
        specialize (Hcl q' l r post H).
        replace (pre ++ (cl ++ q') ++ [l]) with ((pre ++ cl) ++ q' ++ [l]) by (by rewrite !app_assoc).
        rewrite <- Hcl. split; intros [k Hk].
        -- destruct k as [|k]; [by destruct cl; [destruct q'|]|]. exists k. cbn [take concat] in Hk.
           rewrite <- app_assoc in Hk. by apply app_inv_head in Hk.
        -- exists (S k). cbn [take concat]. rewrite <- app_assoc. f_equal. done.
Qed.

Lemma H9_from_text cps : no_gb9c_overmatch gbp_of incb_of cps -> H9_from [] cps.
Proof. intros H q r post Hq Hg. by eapply H. Qed.
Lemma H11_from_text cps : no_pictographic_run gbp_of extpic_of cps -> H11_from [] cps.
Proof.
  intros H q l r post Hc (p & e1 & ext1 & e2 & ext2 & Hq & H1 & H2 & H3 & H4) Hl Hr. cbn [app] in Hq. subst q cps.
  eapply (H p e1 ext1 e2 ext2 l r post); try done. rewrite <- app_assoc. cbn [app]. rewrite <- app_assoc. done.
Qed.

Lemma aclusters_text ds : no_gb9c_overmatch gbp_of incb_of (map snd ds) ->
  no_pictographic_run gbp_of extpic_of (map snd ds) ->
  Forall (fun c => c <> []) (aclusters (length ds) S9Start S11Start ds) /\
  clusters_of gbp_of incb_of extpic_of (map snd ds) (map (map snd) (aclusters (length ds) S9Start S11Start ds)).
Proof.
  intros H9 H11. destruct (aclusters_spec (length ds) [] ds) as [Hne Hcl].
  - lia.
  - by apply H9_from_text.
  - by apply H11_from_text.
  - done.
  - split; [done|]. split_and!.
    + rewrite <- concat_map. by rewrite aclusters_concat.
    + apply Forall_map. eapply Forall_impl; [|exact Hne]. intros c Hc. by destruct c.
    + intros pre l r post H. apply (Hcl pre l r post H).
Qed.
End proofs.
