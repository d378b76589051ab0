(** Outcome monad used by every model.
    [UB] stands for any action the C++ standard or the library's contract leaves undefined
    (out-of-range access, read of a moved-from object, signed overflow, violated precondition ...).
    [Fuel] stands for exhaustion of an explicit loop bound; theorems always exclude it. *)
From Coq Require Import Arith Lia.

Inductive res (A : Type) : Type :=
| Ok (a : A)
| UB
| Fuel.
Arguments Ok {A} a.
Arguments UB {A}.
Arguments Fuel {A}.

Definition rbind {A B} (m : res A) (f : A -> res B) : res B :=
  match m with Ok a => f a | UB => UB | Fuel => Fuel end.

Notation "x <~ m ;; k" := (rbind m (fun x => k))
  (at level 100, m at next level, right associativity).
Notation "' p <~ m ;; k" := (rbind m (fun q => match q with p => k end))
  (at level 100, p pattern, m at next level, right associativity).

Lemma rbind_ok {A B} (x : A) (f : A -> res B) : rbind (Ok x) f = f x.
Proof. reflexivity. Qed.

(** Guard: a contract the code relies on. *)
Definition rassert (b : bool) : res unit := if b then Ok tt else UB.

(** A C++ loop: [body] returns [inl s'] to go round again and [inr r] to leave the loop with [r]. *)
Fixpoint loop {S R : Type} (fuel : nat) (body : S -> res (S + R)) (s : S) : res R :=
  match fuel with
  | 0 => Fuel
  | S f => r <~ body s ;;
           match r with
           | inl s' => loop f body s'
           | inr r => Ok r
           end
  end.

(** Total-correctness weakest precondition: no UB, terminates, and the result satisfies [Q]. *)
Definition wp {A} (m : res A) (Q : A -> Prop) : Prop :=
  match m with Ok a => Q a | UB => False | Fuel => False end.

Lemma wp_ok {A} (a : A) (Q : A -> Prop) : Q a -> wp (Ok a) Q.
Proof. exact (fun H => H). Qed.

Lemma wp_bind {A B} (m : res A) (f : A -> res B) (Q : B -> Prop) :
  wp m (fun a => wp (f a) Q) -> wp (rbind m f) Q.
Proof. destruct m; exact (fun H => H). Qed.

Lemma wp_mono {A} (m : res A) (Q Q' : A -> Prop) :
  wp m Q -> (forall a, Q a -> Q' a) -> wp m Q'.
Proof. destruct m; simpl; auto. Qed.

Lemma wp_exists {A} (m : res A) (Q : A -> Prop) :
  wp m Q -> exists a, m = Ok a /\ Q a.
Proof. destruct m; simpl; intros H; [eauto | destruct H | destruct H]. Qed.

Lemma wp_intro {A} (m : res A) (Q : A -> Prop) :
  (exists a, m = Ok a /\ Q a) -> wp m Q.
Proof. intros (a & -> & H); exact H. Qed.

Lemma wp_and {A} (m : res A) (Q1 Q2 : A -> Prop) :
  wp m Q1 -> wp m Q2 -> wp m (fun a => Q1 a /\ Q2 a).
Proof. destruct m; simpl; auto. Qed.

Lemma wp_assert b (Q : unit -> Prop) : b = true -> Q tt -> wp (rassert b) Q.
Proof. intros ->. exact (fun H => H). Qed.

(** Loop rule: invariant [I], variant [m]. *)
Lemma wp_loop {S R} (I : S -> Prop) (m : S -> nat) (body : S -> res (S + R)) (Q : R -> Prop) :
  (forall s, I s ->
     wp (body s) (fun r => match r with inl s' => I s' /\ m s' < m s | inr r => Q r end)) ->
  forall fuel s, I s -> m s < fuel -> wp (loop fuel body s) Q.
Proof.
  intros Hb fuel. induction fuel as [|fuel IH]; intros s HI Hm; [lia|].
  simpl. apply wp_bind. eapply wp_mono; [apply Hb; exact HI|].
  intros [s'|r] H; simpl in *.
  - destruct H as [HI' Hlt]. apply IH; [exact HI'|lia].
  - exact H.
Qed.

(** More fuel never changes a successful outcome. *)
Lemma loop_fuel_mono {S R} (body : S -> res (S + R)) fuel fuel' s r :
  loop fuel body s = Ok r -> fuel <= fuel' -> loop fuel' body s = Ok r.
Proof.
  revert fuel' s. induction fuel as [|fuel IH]; intros fuel' s H Hle; [discriminate|].
  destruct fuel' as [|fuel']; [lia|]. simpl in *.
  destruct (body s) as [[s'|r']| |]; simpl in *; try discriminate.
  - apply IH; [exact H|lia].
  - exact H.
Qed.

Lemma loop_S {S R} (body : S -> res (S + R)) fuel s :
  loop (Datatypes.S fuel) body s = (r <~ body s ;; match r with inl s' => loop fuel body s' | inr r => Ok r end).
Proof. reflexivity. Qed.
