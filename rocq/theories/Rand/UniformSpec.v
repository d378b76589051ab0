(** Uniformity, without probabilities: count the sequences of generator results. *)
From stdpp Require Import base list numbers list_numbers.
From Coq Require Import ZArith.
From Verif Require Import Base.Res.
Local Open Scope Z_scope.

(** the values mn, mn + 1, ..., mx *)
Definition values (mn mx : Z) : list Z := seqZ mn (mx - mn + 1).
(** all sequences of [n] values *)
Fixpoint tapes (V : list Z) (n : nat) : list (list Z) :=
  match n with O => [[]] | S n => v ← V; (v ::.) <$> tapes V n end.
(** [F] returns [a] after consuming precisely the sequence [t] *)
Definition exact {A : Type} `{EqDecision A} (F : list Z -> res (A * list Z)) (a : A) (t : list Z) : bool :=
  match F t with Ok (x, []) => bool_decide (x = a) | _ => false end.
(** how many of the sequences of [n] values make [F] return [a], having consumed precisely them *)
Definition hits {A : Type} `{EqDecision A} (V : list Z) (F : list Z -> res (A * list Z)) (n : nat) (a : A) : nat :=
  length (List.filter (exact F a) (tapes V n)).
(** If the generator's results are independent and uniform on [V], the probability that [F] returns [a] is the sum over n of
    hits V F n a / |V|^n. [uniform V F good]: every a in [good] has the same chance -- for each number n of values consumed separately --,
    it is not zero, nothing else is returned, and no sequence of values of the generator leads to undefined behaviour. *)
Record uniform {A : Type} `{EqDecision A} (V : list Z) (F : list Z -> res (A * list Z)) (good : A -> Prop) : Prop := {
  un_fair : forall a b n, good a -> good b -> hits V F n a = hits V F n b;
  un_pos : forall a, good a -> exists n, (0 < hits V F n a)%nat;
  un_range : forall t a r, Forall (fun v => v ∈ V) t -> F t = Ok (a, r) -> good a;
  un_defined : forall t, Forall (fun v => v ∈ V) t -> F t <> UB
}.
