(** Program logic for [ObjMem]: weakest preconditions with a normal and an exceptional postcondition, and the
    effect of the memory algorithms, cell by cell. *)
From stdpp Require Import base list numbers decidable.
From Coq Require Import Lia.
From Verif Require Import Base.Res Cont.ObjMem.

(** case analysis on the first [decide] of the goal, closing impossible branches *)
Ltac dec1 := match goal with |- context [decide ?P] => destruct (decide P) end; try lia.
Ltac decs := repeat dec1.

Section logic.
  Context {A L : Type}.
  Notation st := (st A L).
  Notation M := (M A L).
  Implicit Types (s : st) (E : st -> Prop).

  Definition wpx {X} (m : M X) s (Q : X -> st -> Prop) E : Prop :=
    wp (m s) (fun r => match snd r with Some x => Q x (fst r) | None => E (fst r) end).

  (** no scheduled exception is left *)
  Definition calm s : Prop := Forall (fun b => b = false) (orc s).
  (** [s'] differs from [s] only in the contents of memory and in consumed exception choices *)
  Definition same s s' : Prop := brk s' = brk s /\ loc s' = loc s /\ (calm s -> calm s').

  Lemma same_refl s : same s s.
  Proof. done. Qed.
  Lemma same_trans s1 s2 s3 : same s1 s2 -> same s2 s3 -> same s1 s3.
  Proof. intros (?&?&?) (?&?&?). repeat split; congruence || auto. Qed.

  Lemma wpx_mono {X} (m : M X) s (Q Q' : X -> st -> Prop) E E' :
    wpx m s Q E -> (forall x s', Q x s' -> Q' x s') -> (forall s', E s' -> E' s') -> wpx m s Q' E'.
  Proof. intros H HQ HE. eapply wp_mono; [exact H|]. intros [s' [x|]]; simpl; auto. Qed.
  Lemma wpx_ret {X} (x : X) s (Q : X -> st -> Prop) E : Q x s -> wpx (mret x) s Q E.
  Proof. done. Qed.
  Lemma wpx_throw {X} s (Q : X -> st -> Prop) E : E s -> wpx mthrow_ s Q E.
  Proof. done. Qed.
  Lemma wpx_bind {X Y} (m : M X) (f : X -> M Y) s (Q : Y -> st -> Prop) E :
    wpx m s (fun x s' => wpx (f x) s' Q E) E -> wpx (mbind m f) s Q E.
  Proof.
    intros H. unfold wpx, mbind in *. apply wp_bind. eapply wp_mono; [exact H|].
    intros [s' [x|]]; simpl; auto.
  Qed.
  Lemma wpx_on_throw {X} (m : M X) h s (Q : X -> st -> Prop) E :
    wpx m s Q (fun s' => wpx h s' (fun _ => E) E) -> wpx (on_throw m h) s Q E.
  Proof.
    intros H. unfold wpx, on_throw in *. apply wp_bind. eapply wp_mono; [exact H|].
    intros [s' [x|]]; simpl; auto.
    intros H'. apply wp_bind. eapply wp_mono; [exact H'|]. intros [s'' [x|]]; simpl; auto.
  Qed.
  Lemma wpx_loc s (Q : L -> st -> Prop) E : Q (loc s) s -> wpx mloc s Q E.
  Proof. done. Qed.
  Lemma wpx_put l s (Q : unit -> st -> Prop) E :
    (forall s', mem s' = mem s -> brk s' = brk s -> loc s' = l -> (calm s -> calm s') -> Q tt s') -> wpx (mput l) s Q E.
  Proof. intros H. unfold wpx, mput; simpl. by apply H. Qed.
  Lemma wpx_tick s (Q : unit -> st -> Prop) E :
    (forall s', same s s' -> (forall q, mem s' q = mem s q) -> Q tt s') ->
    (forall s', same s s' -> (forall q, mem s' q = mem s q) -> ~ calm s -> E s') -> wpx tick s Q E.
  Proof.
    intros HQ HE. unfold wpx, tick. destruct (orc s) as [|b o] eqn:Eo; simpl.
    - apply HQ; done.
    - destruct b.
      + apply HE; [|done|unfold calm; rewrite Eo; intros H; by inversion H].
        repeat split. unfold calm. rewrite Eo. simpl. intros H; by inversion H.
      + apply HQ; [|done]. repeat split. unfold calm. rewrite Eo. simpl. intros H; by inversion H.
  Qed.
  Lemma wpx_peek p v s (Q : option A -> st -> Prop) E : mem s p = Obj v -> Q v s -> wpx (peek p) s Q E.
  Proof. intros H HQ. unfold wpx, peek. by rewrite H. Qed.
  Lemma same_mem s m : same s (set_mem s m).
  Proof. done. Qed.
  Lemma wpx_poke p w v s (Q : unit -> st -> Prop) E : mem s p = Obj w ->
    (forall s', same s s' -> (forall q, mem s' q = if decide (q = p) then Obj v else mem s q) -> Q tt s') ->
    wpx (poke p v) s Q E.
  Proof. intros H HQ. unfold wpx, poke. rewrite H. simpl. apply HQ; [apply same_mem|done]. Qed.
  Lemma wpx_construct p v s (Q : unit -> st -> Prop) E : mem s p = Raw ->
    (forall s', same s s' -> (forall q, mem s' q = if decide (q = p) then Obj v else mem s q) -> Q tt s') ->
    wpx (construct p v) s Q E.
  Proof. intros H HQ. unfold wpx, construct. rewrite H. simpl. apply HQ; [apply same_mem|done]. Qed.
  Lemma wpx_destroy p w s (Q : unit -> st -> Prop) E : mem s p = Obj w ->
    (forall s', same s s' -> (forall q, mem s' q = if decide (q = p) then Raw else mem s q) -> Q tt s') ->
    wpx (destroy p) s Q E.
  Proof. intros H HQ. unfold wpx, destroy. rewrite H. simpl. apply HQ; [apply same_mem|done]. Qed.
  Lemma wpx_alloc n s (Q : nat -> st -> Prop) E :
    (forall s', brk s' = brk s + n -> loc s' = loc s -> (calm s -> calm s') ->
       (forall q, mem s' q = if decide (brk s <= q < brk s + n) then Raw else mem s q) -> Q (brk s) s') ->
    (forall s', same s s' -> (forall q, mem s' q = mem s q) -> ~ calm s -> E s') ->
    wpx (alloc n) s Q E.
  Proof.
    intros HQ HE. unfold alloc. apply wpx_bind, wpx_tick; [|done].
    intros s' (Hb&Hl&Hc) Hm. unfold wpx; simpl. rewrite Hb. apply HQ; simpl; auto; try congruence.
    intros q. decs; [done|apply Hm].
  Qed.
  Lemma wpx_dealloc p n s (Q : unit -> st -> Prop) E :
    (forall q, p <= q < p + n -> mem s q = Raw) ->
    (forall s', same s s' -> (forall q, mem s' q = if decide (p <= q < p + n) then Unalloc else mem s q) -> Q tt s') ->
    wpx (dealloc p n) s Q E.
  Proof.
    intros H HQ. unfold wpx, dealloc.
    replace (forallb _ _) with true; [apply HQ; [apply same_mem|done]|].
    symmetry. apply forallb_forall. intros i Hi%in_seq. by rewrite H by lia.
  Qed.

  Lemma wpx_for_from (Inv : nat -> st -> Prop) n i body s (Q : unit -> st -> Prop) E :
    (forall k s', i <= k < i + n -> Inv k s' -> wpx (body k) s' (fun _ => Inv (S k)) E) ->
    Inv i s -> (forall s', Inv (i + n) s' -> Q tt s') -> wpx (for_from n i body) s Q E.
  Proof.
    revert i s. induction n as [|n IH]; intros i s Hb HI HQ; simpl.
    - apply wpx_ret, HQ. by rewrite Nat.add_0_r.
    - apply wpx_bind. eapply wpx_mono; [apply Hb; [lia|exact HI]| |auto].
      intros [] s' HI'. apply IH; [|done|].
      + intros. apply Hb; [lia|done].
      + intros s'' H. apply HQ. by replace (i + S n) with (S i + n) by lia.
  Qed.
  Lemma wpx_for (Inv : nat -> st -> Prop) n body s (Q : unit -> st -> Prop) E :
    Inv 0 s -> (forall k s', k < n -> Inv k s' -> wpx (body k) s' (fun _ => Inv (S k)) E) ->
    (forall s', Inv n s' -> Q tt s') -> wpx (for_ n body) s Q E.
  Proof. intros H0 Hb HQ. apply (wpx_for_from Inv); [|done|done]. intros. apply Hb; [lia|done]. Qed.
  Lemma wpx_ubuild (Inv : nat -> st -> Prop) n dst mk s (Q : nat -> st -> Prop) E :
    Inv 0 s ->
    (forall k s', k < n -> Inv k s' ->
       wpx (mk k) s' (fun _ => Inv (S k)) (fun s'' => wpx (Destroy_range dst (dst + k)) s'' (fun _ => E) E)) ->
    (forall s', Inv n s' -> Q (dst + n) s') -> wpx (ubuild n 0 dst mk) s Q E.
  Proof.
    intros H0 Hb HQ.
    enough (H : forall m i s', i + m = n -> Inv i s' -> wpx (ubuild m i dst mk) s' Q E) by (by apply H).
    induction m as [|m IH]; intros i s' Hi HI; simpl.
    - apply wpx_ret. replace i with n by lia. apply HQ. by replace n with i by lia.
    - apply wpx_bind, wpx_on_throw. eapply wpx_mono; [apply Hb; [lia|exact HI]| |auto].
      intros [] s'' HI'. apply IH; [lia|done].
  Qed.

  Lemma wpx_Destroy_range f l s (Q : unit -> st -> Prop) E :
    (forall q, f <= q < l -> exists v, mem s q = Obj v) ->
    (forall s', same s s' -> (forall q, mem s' q = if decide (f <= q < l) then Raw else mem s q) -> Q tt s') ->
    wpx (Destroy_range f l) s Q E.
  Proof.
    intros Hobj HQ. unfold Destroy_range.
    apply (wpx_for (fun k s' => same s s' /\ forall q, mem s' q = if decide (f <= q < f + k) then Raw else mem s q)).
    - split; [done|]. intros q. decs; done.
    - intros k s' Hk [Hs Hm]. destruct (Hobj (f + k)) as [v Hv]; [lia|].
      apply (wpx_destroy _ v); [rewrite Hm; decs; done|].
      intros s'' Hs' Hm'. split; [by eapply same_trans|]. intros q. rewrite Hm', Hm. decs; done.
    - intros s' [Hs Hm]. apply HQ; [done|]. intros q. rewrite Hm. decs; done.
  Qed.

  Context (T : traits).

  Lemma wpx_move_construct d f v s (Q : unit -> st -> Prop) E :
    mem s f = Obj v -> mem s d = Raw ->
    (forall s', same s s' ->
       (forall q, mem s' q = if decide (q = d) then Obj v else if decide (q = f) then Obj None else mem s q) -> Q tt s') ->
    (mthrow T = true -> ~ calm s -> forall s', same s s' ->
       (forall q, mem s' q = if decide (q = f) then Obj None else mem s q) -> E s') ->
    wpx (move_construct T d f) s Q E.
  Proof.
    intros Hf Hd HQ HE. assert (d <> f) by congruence.
    unfold move_construct. apply wpx_bind, (wpx_peek _ v); [done|].
    apply wpx_bind, wpx_on_throw.
    assert (Hgo : forall s1, same s s1 -> (forall q, mem s1 q = mem s q) ->
        wpx (construct d v ;;; poke f None) s1 Q E).
    { intros s1 Hs1 Hm1. apply wpx_bind, wpx_construct; [by rewrite Hm1|]. intros s2 Hs2 Hm2.
      eapply wpx_poke; [rewrite Hm2, Hm1; decs; done|]. intros s3 Hs3 Hm3.
      apply HQ; [eauto using same_trans|]. intros q. rewrite Hm3, Hm2, Hm1. decs; done. }
    unfold mwhen. destruct (mthrow T) eqn:Et; [|by apply wpx_ret, Hgo].
    apply wpx_tick.
    - intros s1 Hs1 Hm1. by apply Hgo.
    - intros s1 Hs1 Hm1 Hc. eapply wpx_poke; [by rewrite Hm1|]. intros s2 Hs2 Hm2.
      apply HE; [done|done|eauto using same_trans|]. intros q. rewrite Hm2, Hm1. done.
  Qed.
  Lemma wpx_copy_construct d f v s (Q : unit -> st -> Prop) E :
    mem s f = Obj v -> mem s d = Raw ->
    (forall s', same s s' -> (forall q, mem s' q = if decide (q = d) then Obj v else mem s q) -> Q tt s') ->
    (~ calm s -> forall s', same s s' -> (forall q, mem s' q = mem s q) -> E s') ->
    wpx (copy_construct d f) s Q E.
  Proof.
    intros Hf Hd HQ HE. unfold copy_construct. apply wpx_bind, (wpx_peek _ v); [done|].
    apply wpx_bind, wpx_tick; [|intros s1 Hs1 Hm1 Hc; by apply HE].
    intros s1 Hs1 Hm1. apply wpx_construct; [by rewrite Hm1|]. intros s2 Hs2 Hm2.
    apply HQ; [eauto using same_trans|]. intros q. rewrite Hm2, Hm1. done.
  Qed.
  Lemma wpx_move_assign d f v w s (Q : unit -> st -> Prop) E :
    mem s f = Obj v -> mem s d = Obj w -> d <> f ->
    (forall s', same s s' ->
       (forall q, mem s' q = if decide (q = d) then Obj v else if decide (q = f) then Obj None else mem s q) -> Q tt s') ->
    (mathrow T = true -> ~ calm s -> forall s', same s s' ->
       (forall q, mem s' q = if decide (q = f) then Obj None else if decide (q = d) then Obj None else mem s q) -> E s') ->
    wpx (move_assign T d f) s Q E.
  Proof.
    intros Hf Hd Hne HQ HE.
    unfold move_assign. apply wpx_bind, (wpx_peek _ v); [done|].
    apply wpx_bind, wpx_on_throw.
    assert (Hgo : forall s1, same s s1 -> (forall q, mem s1 q = mem s q) ->
        wpx (poke d v ;;; poke f None) s1 Q E).
    { intros s1 Hs1 Hm1. eapply wpx_bind, wpx_poke; [by rewrite Hm1|]. intros s2 Hs2 Hm2.
      eapply wpx_poke; [rewrite Hm2, Hm1; decs; done|]. intros s3 Hs3 Hm3.
      apply HQ; [eauto using same_trans|]. intros q. rewrite Hm3, Hm2, Hm1. decs; done. }
    unfold mwhen. destruct (mathrow T) eqn:Et; [|by apply wpx_ret, Hgo].
    apply wpx_tick.
    - intros s1 Hs1 Hm1. by apply Hgo.
    - intros s1 Hs1 Hm1 Hc. eapply wpx_bind, wpx_poke; [by rewrite Hm1|]. intros s2 Hs2 Hm2.
      eapply wpx_poke; [rewrite Hm2, Hm1; decs; done|]. intros s3 Hs3 Hm3.
      apply HE; [done|done|eauto using same_trans|]. intros q. rewrite Hm3, Hm2, Hm1. decs; done.
  Qed.
  Lemma wpx_copy_assign d v w s (Q : unit -> st -> Prop) E :
    mem s d = Obj w ->
    (forall s', same s s' -> (forall q, mem s' q = if decide (q = d) then Obj v else mem s q) -> Q tt s') ->
    (~ calm s -> forall s', same s s' ->
       (forall q, mem s' q = if decide (q = d) then Obj None else mem s q) -> E s') ->
    wpx (copy_assign d v) s Q E.
  Proof.
    intros Hd HQ HE. unfold copy_assign. apply wpx_bind, wpx_on_throw, wpx_tick.
    - intros s1 Hs1 Hm1. eapply wpx_poke; [by rewrite Hm1|]. intros s2 Hs2 Hm2.
      apply HQ; [eauto using same_trans|]. intros q. by rewrite Hm2, Hm1.
    - intros s1 Hs1 Hm1 Hc. eapply wpx_poke; [by rewrite Hm1|]. intros s2 Hs2 Hm2.
      apply HE; [done|eauto using same_trans|]. intros q. by rewrite Hm2, Hm1.
  Qed.

  (** the value an argument denotes in state [s] *)
  Definition arg_is s (a : arg A) (v : option A) : Prop :=
    match a with ACopy w => w = v | ARef q => mem s q = Obj v | AMove w => w = v end.
  Definition arg_throws (a : arg A) : Prop := match a with AMove _ => mthrow T = true | _ => True end.

  Lemma wpx_construct_arg p a v s (Q : unit -> st -> Prop) E :
    arg_is s a v -> mem s p = Raw ->
    (forall s', same s s' -> (forall q, mem s' q = if decide (q = p) then Obj v else mem s q) -> Q tt s') ->
    (arg_throws a -> ~ calm s -> forall s', same s s' -> (forall q, mem s' q = mem s q) -> E s') ->
    wpx (construct_arg T p a) s Q E.
  Proof.
    intros Ha Hp HQ HE.
    assert (Hgo : forall s1, same s s1 -> (forall q, mem s1 q = mem s q) -> wpx (construct p v) s1 Q E).
    { intros s1 Hs1 Hm1. apply wpx_construct; [by rewrite Hm1|]. intros s2 Hs2 Hm2.
      apply HQ; [eauto using same_trans|]. intros q. by rewrite Hm2, Hm1. }
    destruct a as [w|r|w]; simpl in *.
    - subst w. apply wpx_bind, wpx_tick; [done|]. intros. by apply HE.
    - apply wpx_bind, (wpx_peek _ v); [done|]. apply wpx_bind, wpx_tick; [done|]. intros. by apply HE.
    - subst w. apply wpx_bind. unfold mwhen. destruct (mthrow T) eqn:Et.
      + apply wpx_tick; [done|]. intros. by apply HE.
      + by apply wpx_ret, Hgo.
  Qed.
  Lemma wpx_temp_arg a v s (Q : option A -> st -> Prop) E :
    arg_is s a v ->
    (forall s', same s s' -> (forall q, mem s' q = mem s q) -> Q v s') ->
    (arg_throws a -> ~ calm s -> forall s', same s s' -> (forall q, mem s' q = mem s q) -> E s') ->
    wpx (temp_arg T a) s Q E.
  Proof.
    intros Ha HQ HE. destruct a as [w|r|w]; simpl in *.
    - subst w. apply wpx_bind, wpx_tick; [intros; apply wpx_ret; by apply HQ|]. intros. by apply HE.
    - apply wpx_bind, (wpx_peek _ v); [done|].
      apply wpx_bind, wpx_tick; [intros; apply wpx_ret; by apply HQ|]. intros. by apply HE.
    - subst w. apply wpx_bind. unfold mwhen. destruct (mthrow T) eqn:Et.
      + apply wpx_tick; [intros; apply wpx_ret; by apply HQ|]. intros. by apply HE.
      + apply wpx_ret, wpx_ret. by apply HQ.
  Qed.

  (** [_Uninitialized_move] between disjoint ranges *)
  Lemma wpx_Uninitialized_move f l d s (Q : nat -> st -> Prop) E :
    f <= l -> d + (l - f) <= f \/ l <= d ->
    (forall q, f <= q < l -> exists v, mem s q = Obj v) ->
    (forall q, d <= q < d + (l - f) -> mem s q = Raw) ->
    (forall s', same s s' ->
       (forall q, mem s' q = if decide (d <= q < d + (l - f)) then mem s (q - d + f)
                             else if decide (f <= q < l) then Obj None else mem s q) -> Q (d + (l - f)) s') ->
    (mthrow T = true -> ~ calm s -> forall s', same s s' ->
       (forall q, f <= q < l -> exists v, mem s' q = Obj v) ->
       (forall q, ~ f <= q < l -> mem s' q = mem s q) -> E s') ->
    wpx (Uninitialized_move T f l d) s Q E.
  Proof.
    intros Hfl Hdis Hobj Hraw HQ HE. unfold Uninitialized_move.
    apply (wpx_ubuild (fun k s' => same s s' /\
      forall q, mem s' q = if decide (d <= q < d + k) then mem s (q - d + f)
                           else if decide (f <= q < f + k) then Obj None else mem s q)).
    - split; [done|]. intros q. decs; done.
    - intros k s' Hk [Hs Hm]. destruct (Hobj (f + k)) as [v Hv]; [lia|].
      apply (wpx_move_construct _ _ v).
      + rewrite Hm. decs; done.
      + rewrite Hm. decs. apply Hraw; lia.
      + intros s'' Hs' Hm'. split; [by eapply same_trans|]. intros q. rewrite Hm'.
        destruct (decide (q = d + k)) as [->|?].
        { decs. rewrite <-Hv. f_equal. lia. }
        destruct (decide (q = f + k)); [decs; done|]. rewrite Hm. decs; done.
      + intros Ht Hc s'' Hs' Hm'. apply wpx_Destroy_range.
        * intros q Hq. rewrite Hm'. decs. rewrite Hm. decs. apply Hobj; lia.
        * intros s3 Hs3 Hm3. apply HE; [done| |eauto using same_trans| |].
          { intros Hc0. apply Hc. by apply Hs. }
          { intros q Hq. rewrite Hm3. decs. rewrite Hm'. decs; [by eexists|]. rewrite Hm. decs; [by eexists|].
            by apply Hobj. }
          { intros q Hq. rewrite Hm3, Hm', Hm. decs; try done. symmetry. apply Hraw; lia. }
    - intros s' [Hs Hm]. apply HQ; [done|]. intros q. rewrite Hm. decs; done.
  Qed.
  Lemma wpx_Uninitialized_copy f l d s (Q : nat -> st -> Prop) E :
    f <= l -> d + (l - f) <= f \/ l <= d ->
    (forall q, f <= q < l -> exists v, mem s q = Obj v) ->
    (forall q, d <= q < d + (l - f) -> mem s q = Raw) ->
    (forall s', same s s' ->
       (forall q, mem s' q = if decide (d <= q < d + (l - f)) then mem s (q - d + f) else mem s q) -> Q (d + (l - f)) s') ->
    (~ calm s -> forall s', same s s' -> (forall q, mem s' q = mem s q) -> E s') ->
    wpx (Uninitialized_copy f l d) s Q E.
  Proof.
    intros Hfl Hdis Hobj Hraw HQ HE. unfold Uninitialized_copy.
    apply (wpx_ubuild (fun k s' => same s s' /\
      forall q, mem s' q = if decide (d <= q < d + k) then mem s (q - d + f) else mem s q)).
    - split; [done|]. intros q. decs; done.
    - intros k s' Hk [Hs Hm]. destruct (Hobj (f + k)) as [v Hv]; [lia|].
      apply (wpx_copy_construct _ _ v).
      + rewrite Hm. decs; done.
      + rewrite Hm. decs. apply Hraw; lia.
      + intros s'' Hs' Hm'. split; [by eapply same_trans|]. intros q. rewrite Hm'.
        destruct (decide (q = d + k)) as [->|?].
        { decs. rewrite <-Hv. f_equal. lia. }
        rewrite Hm. decs; done.
      + intros Hc s'' Hs' Hm'. apply wpx_Destroy_range.
        * intros q Hq. rewrite Hm', Hm. decs. apply Hobj; lia.
        * intros s3 Hs3 Hm3. apply HE; [ |eauto using same_trans|].
          { intros Hc0. apply Hc. by apply Hs. }
          { intros q. rewrite Hm3, Hm', Hm. decs; try done. symmetry. apply Hraw; lia. }
    - intros s' [Hs Hm]. apply HQ; [done|]. done.
  Qed.
  Lemma wpx_Uninitialized_fill_n d n a v s (Q : nat -> st -> Prop) E :
    arg_is s a v -> (forall q, d <= q < d + n -> mem s q = Raw) ->
    (forall s', same s s' ->
       (forall q, mem s' q = if decide (d <= q < d + n) then Obj v else mem s q) -> Q (d + n) s') ->
    (~ calm s -> forall s', same s s' -> (forall q, mem s' q = mem s q) -> E s') ->
    wpx (Uninitialized_fill_n T d n a) s Q E.
  Proof.
    intros Ha Hraw HQ HE. unfold Uninitialized_fill_n.
    apply (wpx_ubuild (fun k s' => same s s' /\
      forall q, mem s' q = if decide (d <= q < d + k) then Obj v else mem s q)).
    - split; [done|]. intros q. decs; done.
    - intros k s' Hk [Hs Hm].
      apply (wpx_construct_arg _ _ v).
      + destruct a as [w|r|w]; simpl in *; try done. rewrite Hm. decs; done.
      + rewrite Hm. decs. apply Hraw; lia.
      + intros s'' Hs' Hm'. split; [by eapply same_trans|]. intros q. rewrite Hm', Hm. decs; done.
      + intros _ Hc s'' Hs' Hm'. apply wpx_Destroy_range.
        * intros q Hq. rewrite Hm', Hm. decs. by eexists.
        * intros s3 Hs3 Hm3. apply HE; [ |eauto using same_trans|].
          { intros Hc0. apply Hc. by apply Hs. }
          { intros q. rewrite Hm3, Hm', Hm. decs; try done. symmetry. apply Hraw; lia. }
    - intros s' [Hs Hm]. apply HQ; [done|]. done.
  Qed.

  (** the i-th value of a sequence of element values *)
  Definition cont (l : list (option A)) (i : nat) : option A := default None (l !! i).
  Lemma cont_lookup l i : i < length l -> l !! i = Some (cont l i).
  Proof. intros H. unfold cont. destruct (lookup_lt_is_Some_2 l i H) as [v ->]. done. Qed.
  Lemma cont_app l1 l2 i : cont (l1 ++ l2) i = if decide (i < length l1) then cont l1 i else cont l2 (i - length l1).
  Proof. unfold cont. decs; [by rewrite lookup_app_l|by rewrite lookup_app_r by lia]. Qed.
  Lemma cont_take n l i : i < n -> cont (take n l) i = cont l i.
  Proof. intros. unfold cont. by rewrite lookup_take. Qed.
  Lemma cont_drop n l i : cont (drop n l) i = cont l (n + i).
  Proof. unfold cont. by rewrite lookup_drop. Qed.
  Lemma cont_replicate n v i : i < n -> cont (replicate n v) i = v.
  Proof. intros. unfold cont. by rewrite lookup_replicate_2. Qed.
  Lemma cont_cons_0 v l : cont (v :: l) 0 = v.
  Proof. done. Qed.
  Lemma cont_eq l l' : length l = length l' -> (forall i, i < length l -> cont l i = cont l' i) -> l = l'.
  Proof.
    intros Hl H. apply list_eq_same_length with (length l); [lia|done|].
    intros i x y Hi H1 H2. rewrite !cont_lookup in H1, H2 by lia. specialize (H i Hi). congruence.
  Qed.

  Lemma wpx_Uninitialized_copy_n vs d s (Q : nat -> st -> Prop) E :
    (forall q, d <= q < d + length vs -> mem s q = Raw) ->
    (forall s', same s s' ->
       (forall q, mem s' q = if decide (d <= q < d + length vs) then Obj (cont vs (q - d)) else mem s q) -> Q (d + length vs) s') ->
    (~ calm s -> forall s', same s s' -> (forall q, mem s' q = mem s q) -> E s') ->
    wpx (Uninitialized_copy_n T vs d) s Q E.
  Proof.
    intros Hraw HQ HE. unfold Uninitialized_copy_n.
    apply (wpx_ubuild (fun k s' => same s s' /\
      forall q, mem s' q = if decide (d <= q < d + k) then Obj (cont vs (q - d)) else mem s q)).
    - split; [done|]. intros q. decs; done.
    - intros k s' Hk [Hs Hm]. rewrite cont_lookup by done.
      apply (wpx_construct_arg _ _ (cont vs k)).
      + done.
      + rewrite Hm. decs. apply Hraw; lia.
      + intros s'' Hs' Hm'. split; [by eapply same_trans|]. intros q. rewrite Hm', Hm. decs; try done.
        subst. do 2 f_equal. lia.
      + intros _ Hc s'' Hs' Hm'. apply wpx_Destroy_range.
        * intros q Hq. rewrite Hm', Hm. decs. by eexists.
        * intros s3 Hs3 Hm3. apply HE; [ |eauto using same_trans|].
          { intros Hc0. apply Hc. by apply Hs. }
          { intros q. rewrite Hm3, Hm', Hm. decs; try done. symmetry. apply Hraw; lia. }
    - intros s' [Hs Hm]. apply HQ; [done|]. done.
  Qed.

  (** [_Move_unchecked] to lower addresses (ranges may overlap) *)
  Lemma wpx_Move_unchecked f l d s (Q : nat -> st -> Prop) E :
    f <= l -> d < f ->
    (forall q, d <= q < l -> exists v, mem s q = Obj v) ->
    (forall s', same s s' ->
       (forall q, d <= q < d + (l - f) -> mem s' q = mem s (q - d + f)) ->
       (forall q, d + (l - f) <= q < l -> exists v, mem s' q = Obj v) ->
       (forall q, ~ d <= q < l -> mem s' q = mem s q) ->
       (forall q, d + (l - f) <= q < f -> mem s' q = mem s q) -> Q (d + (l - f)) s') ->
    (mathrow T = true -> ~ calm s -> forall s', same s s' ->
       (forall q, d <= q < l -> exists v, mem s' q = Obj v) ->
       (forall q, ~ d <= q < l -> mem s' q = mem s q) -> E s') ->
    wpx (Move_unchecked T f l d) s Q E.
  Proof.
    intros Hfl Hdf Hobj HQ HE. unfold Move_unchecked. apply wpx_bind.
    apply (wpx_for (fun k s' => same s s' /\
      (forall q, d <= q < d + k -> mem s' q = mem s (q - d + f)) /\
      (forall q, d + k <= q < l -> exists v, mem s' q = Obj v) /\
      (forall q, f + k <= q \/ ~ d <= q < l \/ d + k <= q < f -> mem s' q = mem s q))).
    - split; [done|]. repeat split; intros; try lia; try done. apply Hobj; lia.
    - intros k s' Hk (Hs & H1 & H2 & H3).
      destruct (Hobj (f + k)) as [v Hv]; [lia|]. destruct (H2 (d + k)) as [w Hw]; [lia|].
      apply (wpx_move_assign _ _ v w).
      + rewrite H3 by lia. done.
      + done.
      + lia.
      + intros s'' Hs' Hm'. split; [by eapply same_trans|]. repeat split.
        * intros q Hq. rewrite Hm'. decs; [subst; rewrite <-Hv; f_equal; lia|]. apply H1; lia.
        * intros q Hq. rewrite Hm'. decs; [by eexists|]. apply H2; lia.
        * intros q Hq. rewrite Hm'. decs. apply H3; lia.
      + intros Ht Hc s'' Hs' Hm'. apply HE; [done|by intros ?; apply Hc, Hs|eauto using same_trans| |].
        * intros q Hq. rewrite Hm'. decs; try by eexists.
          destruct (decide (q < d + k)); [rewrite H1 by lia; apply Hobj; lia|apply H2; lia].
        * intros q Hq. rewrite Hm'. decs. apply H3; lia.
    - intros s' (Hs & H1 & H2 & H3). apply wpx_ret. apply HQ; [done|done|done| |].
      + intros q Hq. apply H3; lia.
      + intros q Hq. apply H3; lia.
  Qed.
  (** [_Move_backward_unchecked] to higher addresses (ranges may overlap) *)
  Lemma wpx_Move_backward f l d s (Q : unit -> st -> Prop) E :
    f <= l -> l < d ->
    (forall q, f <= q < d -> exists v, mem s q = Obj v) ->
    (forall s', same s s' ->
       (forall q, d - (l - f) <= q < d -> mem s' q = mem s (q - (d - l))) ->
       (forall q, f <= q < d -> exists v, mem s' q = Obj v) ->
       (forall q, ~ f <= q < d -> mem s' q = mem s q) -> Q tt s') ->
    (mathrow T = true -> ~ calm s -> forall s', same s s' ->
       (forall q, f <= q < d -> exists v, mem s' q = Obj v) ->
       (forall q, ~ f <= q < d -> mem s' q = mem s q) -> E s') ->
    wpx (Move_backward_unchecked T f l d) s Q E.
  Proof.
    intros Hfl Hdf Hobj HQ HE. unfold Move_backward_unchecked.
    apply (wpx_for (fun k s' => same s s' /\
      (forall q, d - k <= q < d -> mem s' q = mem s (q - (d - l))) /\
      (forall q, f <= q < d - k -> exists v, mem s' q = Obj v) /\
      (forall q, q < l - k \/ ~ f <= q < d -> mem s' q = mem s q))).
    - split; [done|]. repeat split; intros; try lia; try done. apply Hobj; lia.
    - intros k s' Hk (Hs & H1 & H2 & H3).
      destruct (Hobj (l - 1 - k)) as [v Hv]; [lia|]. destruct (H2 (d - 1 - k)) as [w Hw]; [lia|].
      apply (wpx_move_assign _ _ v w).
      + rewrite H3 by lia. done.
      + done.
      + lia.
      + intros s'' Hs' Hm'. split; [by eapply same_trans|]. repeat split.
        * intros q Hq. rewrite Hm'. decs; [subst; rewrite <-Hv; f_equal; lia|]. apply H1; lia.
        * intros q Hq. rewrite Hm'. decs; [by eexists|]. apply H2; lia.
        * intros q Hq. rewrite Hm'. decs. apply H3; lia.
      + intros Ht Hc s'' Hs' Hm'. apply HE; [done|by intros ?; apply Hc, Hs|eauto using same_trans| |].
        * intros q Hq. rewrite Hm'. decs; try by eexists.
          destruct (decide (q < d - k)); [apply H2; lia|rewrite H1 by lia; apply Hobj; lia].
        * intros q Hq. rewrite Hm'. decs. apply H3; lia.
    - intros s' (Hs & H1 & H2 & H3). apply HQ; [done| | |].
      + intros q Hq. apply H1; lia.
      + intros q Hq. destruct (decide (q < d - (l - f))); [apply H2; lia|rewrite H1 by lia; apply Hobj; lia].
      + intros q Hq. apply H3; lia.
  Qed.
  Lemma wpx_fill f l v s (Q : unit -> st -> Prop) E :
    f <= l -> (forall q, f <= q < l -> exists v, mem s q = Obj v) ->
    (forall s', same s s' -> (forall q, mem s' q = if decide (f <= q < l) then Obj v else mem s q) -> Q tt s') ->
    (~ calm s -> forall s', same s s' ->
       (forall q, f <= q < l -> exists v, mem s' q = Obj v) ->
       (forall q, ~ f <= q < l -> mem s' q = mem s q) -> E s') ->
    wpx (fill f l v) s Q E.
  Proof.
    intros Hfl Hobj HQ HE. unfold fill.
    apply (wpx_for (fun k s' => same s s' /\ forall q, mem s' q = if decide (f <= q < f + k) then Obj v else mem s q)).
    - split; [done|]. intros q. decs; done.
    - intros k s' Hk (Hs & Hm). destruct (Hobj (f + k)) as [w Hw]; [lia|].
      apply (wpx_copy_assign _ _ w); [rewrite Hm; decs; done| |].
      + intros s'' Hs' Hm'. split; [by eapply same_trans|]. intros q. rewrite Hm', Hm. decs; done.
      + intros Hc s'' Hs' Hm'. apply HE; [by intros ?; apply Hc, Hs|eauto using same_trans| |].
        * intros q Hq. rewrite Hm', Hm. decs; try by eexists. apply Hobj; lia.
        * intros q Hq. rewrite Hm', Hm. decs; done.
    - intros s' (Hs & Hm). apply HQ; [done|]. intros q. rewrite Hm. decs; done.
  Qed.
End logic.
