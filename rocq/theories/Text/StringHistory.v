(** basic_string: any sequence of calls on one string. *)
From stdpp Require Import base list numbers gmap.
From Coq Require Import Lia.
From Verif Require Import Text.StringModel Text.StringSpec Text.StringProofs Text.StringProofs2 Text.StringProofs3 Text.StringProofs4 Text.StringProofs5.
Local Open Scope nat_scope.

(** the characters given to a call: [k] characters of the string itself from position [o] on, or characters elsewhere *)
Inductive chars (E : Type) := Own (o k : nat) | Ext (p : ptr) (m : list E).
Arguments Own {E}. Arguments Ext {E}.
Inductive call (E : Type) :=
  | Append (x : chars E) | Append_ch (n : nat) (c : E) | Assign (x : chars E) | Assign_ch (n : nat) (c : E)
  | Insert (off : nat) (x : chars E) | Insert_ch (off n : nat) (c : E) | Replace (off n : nat) (x : chars E) | Replace_ch (off n k : nat) (c : E)
  | Erase (off n : nat) | Erase_from (off : nat) | Push_back (c : E) | Pop_back | Resize (n : nat) (c : E) | Clear
  | Reserve (n : nat) | Reserve0 | Shrink_to_fit.
Arguments Append {E}. Arguments Append_ch {E}. Arguments Assign {E}. Arguments Assign_ch {E}. Arguments Insert {E}. Arguments Insert_ch {E}. Arguments Replace {E}. Arguments Replace_ch {E}.
Arguments Erase {E}. Arguments Erase_from {E}. Arguments Push_back {E}. Arguments Pop_back {E}. Arguments Resize {E}. Arguments Clear {E}. Arguments Reserve {E}. Arguments Reserve0 {E}. Arguments Shrink_to_fit {E}.

Section history.
  Context {E : Type} (nul : E) (SSO msk mx smax : nat).
  Notation ST := (@ST E). Notation M := (@M E). Notation region := (@region E).
  Context (orc : gmap nat region -> nat -> option (nat * Z * nat)).
  Implicit Types s : ST.
  Implicit Types l m : list E.
  Notation rep := (rep nul SSO mx).
  (** what the call is given: a pointer and a count *)
  Definition at_ptr s (this : nat) (x : chars E) : ptr := match x with Own o _ => padd (data s this) o | Ext p _ => p end.
  Definition count (x : chars E) : nat := match x with Own _ k => k | Ext _ m => length m end.
  Definition text l (x : chars E) : list E := match x with Own o k => sub l o k | Ext _ m => m end.
  Definition exec (this : nat) (c : call E) : M unit := fun s =>
    match c with
    | Append x => append nul SSO msk mx smax orc this (at_ptr s this x) (count x) s
    | Append_ch n c => append_ch nul SSO msk mx smax orc this n c s
    | Assign x => assign nul SSO msk mx smax orc this (at_ptr s this x) (count x) s
    | Assign_ch n c => assign_ch nul SSO msk mx smax orc this n c s
    | Insert off x => insert SSO msk mx smax orc this off (at_ptr s this x) (count x) s
    | Insert_ch off n c => insert_ch SSO msk mx smax orc this off n c s
    | Replace off n x => replace SSO msk mx smax orc this off n (at_ptr s this x) (count x) s
    | Replace_ch off n k c => replace_ch SSO msk mx smax orc this off n k c s
    | Erase off n => erase SSO smax this off n s
    | Erase_from off => erase_from nul SSO this off s
    | Push_back c => push_back nul SSO msk mx smax orc this c s
    | Pop_back => pop_back nul SSO this s
    | Resize n c => resize nul SSO msk mx smax orc this n c s
    | Clear => clear nul SSO this s
    | Reserve n => reserve SSO msk mx smax orc this n s
    | Reserve0 => reserve0 SSO smax this s
    | Shrink_to_fit => shrink_to_fit SSO msk mx smax orc this s
    end.
  (** the characters after a call that does not throw *)
  Definition after l (c : call E) : list E :=
    match c with
    | Append x => l ++ text l x
    | Append_ch n c => l ++ replicate n c
    | Assign x => text l x
    | Assign_ch n c => replicate n c
    | Insert off x => inserted l off (text l x)
    | Insert_ch off n c => inserted l off (replicate n c)
    | Replace off n x => replaced l off n (text l x)
    | Replace_ch off n k c => replaced l off n (replicate k c)
    | Erase off n => erased l off n
    | Erase_from off => take off l
    | Push_back c => l ++ [c]
    | Pop_back => removelast l
    | Resize n c => resized l n c
    | Clear => []
    | Reserve _ | Reserve0 | Shrink_to_fit => l
    end.
  (** the preconditions of a call *)
  Definition given s (this : nat) l (x : chars E) : Prop :=
    match x with Own o k => o + k <= length l | Ext p m => reads s p m /\ fst p <> fst (data s this) end.
  Definition legal s (this : nat) l (c : call E) : Prop :=
    match c with
    | Append x | Assign x | Insert _ x => given s this l x
    | Replace off n x => given s this l x /\
      match x with Own o k => let n := n `min` (length l - off) in k <= n \/ o + k <= off \/ off + n <= o + k | Ext _ _ => True end
    | Replace_ch _ _ k _ => k <= smax
    | Pop_back => l <> []
    | _ => True
    end.
  (** a sequence of calls; after an exception the program goes on with the string as it is *)
  Fixpoint run (this : nat) (cs : list (call E)) s l : option (ST * list E) :=
    match cs with
    | [] => Some (s, l)
    | c :: cs => match exec this c s with Ok _ s' => run this cs s' (after l c) | Throw _ s' => run this cs s' l | UB => None end
    end.
  Fixpoint legal_run (this : nat) (cs : list (call E)) s l : Prop :=
    match cs with
    | [] => True
    | c :: cs => legal s this l c /\ match exec this c s with Ok _ s' => legal_run this cs s' (after l c) | Throw _ s' => legal_run this cs s' l | UB => True end
    end.

  Context (HA : allocator_ok mx orc) (Hsm : 2 * mx + 2 <= smax) (HSSO : SSO <= mx).
  Lemma given_source s this l x : rep s this l -> given s this l x -> source s this (at_ptr s this x) (text l x) /\ length (text l x) = count x /\
    (fst (at_ptr s this x) = fst (data s this) -> match x with Own o k => at_ptr s this x = padd (data s this) o | Ext _ _ => False end).
  Proof.
    intros Hrep Hg. destruct x as [o k|p m]; cbn in *.
    - assert (Hl : length (sub l o k) = k) by (unfold sub; rewrite take_length, drop_length; lia). split; [|done]. destruct Hrep as (d & (_ & _ & _ & (g & Hgg & Hd & _) & _) & Hlen & Hh & _). split.
      + right. exists g. cbn. split; [done|]. rewrite Hd. intros i. rewrite Hl. intros Hi. unfold sub. rewrite lookup_take, lookup_drop by lia. apply Hh. lia.
      + cbn. intros _. lia.
    - destruct Hg as [Hr Hne]. split_and!; [split; [done|intros Hx; by destruct Hne]|done|done].
  Qed.
  Definition fine s (this : nat) l l' (r : outcome (E := E) unit) : Prop :=
    match r with Ok _ s' => rep s' this l' /\ frame [this] s s' /\ wfm s' | Throw _ s' => s' = s | UB => False end.
  Lemma effect_fine s this l l' V r : effect nul SSO mx orc this s V l' r -> fine s this l l' r.
  Proof. destruct r as [[] s'|e s'|]; [intros (_ & H1 & H2 & H3 & _); done|intros (-> & _); done|done]. Qed.
  Lemma leaves_fine s this l l' P R r : leaves nul SSO mx this s l' P R r -> fine s this l l' r.
  Proof. destruct r as [[] s'|e s'|]; [intros (H1 & H2 & H3 & _); done|intros (-> & _); done|done]. Qed.
  Lemma exec_ok s this l c : wfm s -> rep s this l -> legal s this l c -> fine s this l (after l c) (exec this c s).
  Proof.
    intros Hw Hrep Hl. destruct c as [x|n c|x|n c|off x|off n c|off n x|off n k c|off n|off|c| |n c| |n| |]; cbn [exec after legal] in *.
    - destruct (given_source s this l x Hrep Hl) as (Hs & <- & _). eapply effect_fine, append_ok; done.
    - eapply effect_fine, append_ch_ok; done.
    - destruct (given_source s this l x Hrep Hl) as (Hs & <- & _). eapply effect_fine, assign_ok; done.
    - eapply effect_fine, assign_ch_ok; done.
    - destruct (given_source s this l x Hrep Hl) as (Hs & <- & _). eapply effect_fine, insert_ok; done.
    - eapply effect_fine, insert_ch_ok; done.
    - destruct Hl as [Hl Hsafe]. destruct (given_source s this l x Hrep Hl) as (Hs & Hc & Hp). rewrite <-Hc. eapply effect_fine, replace_ok; try done.
      cbv zeta. intros Hf _. specialize (Hp Hf). destruct x as [o k|]; [|done]. cbn in Hsafe, Hc |- *. rewrite Hc. done.
    - eapply effect_fine, replace_ch_ok; done.
    - eapply effect_fine, erase_ok; done.
    - eapply effect_fine, erase_from_ok; done.
    - eapply effect_fine, push_back_ok; done.
    - destruct (exists_last Hl) as (l0 & y & ->). rewrite removelast_last. eapply effect_fine, pop_back_ok; done.
    - eapply effect_fine, resize_ok; done.
    - eapply effect_fine, clear_ok; done.
    - eapply leaves_fine, reserve_ok; done.
    - eapply leaves_fine, reserve0_ok; done.
    - eapply leaves_fine, shrink_to_fit_ok; done.
  Qed.
  Theorem run_ok this cs s l : wfm s -> rep s this l -> legal_run this cs s l ->
    exists s' l', run this cs s l = Some (s', l') /\ rep s' this l' /\ frame [this] s s' /\ wfm s'.
  Proof.
    revert s l. induction cs as [|c cs IH]; intros s l Hw Hrep Hl; cbn [run legal_run] in *.
    - exists s, l. split_and!; done.
    - destruct Hl as [Hl Hrest]. pose proof (exec_ok s this l c Hw Hrep Hl) as Hx. destruct (exec this c s) as [u s'|e s'|]; cbn in Hx; [|subst s'|done].
      + destruct Hx as (H1 & H2 & H3). destruct (IH s' _ H3 H1 Hrest) as (s2 & l2 & R1 & R2 & R3 & R4). exists s2, l2. split_and!; try done.
        apply (frame_trans _ s s'); [|done|done]. destruct H1 as (d & Hsh & _). by eapply sso_live.
      + by apply IH.
  Qed.
End history.
