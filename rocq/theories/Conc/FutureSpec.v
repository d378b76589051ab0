(** What users of promises and futures rely on, event by event of a history. *)
From stdpp Require Import base list numbers option decidable.
From Verif Require Import Conc.FutureModel.

Section spec.
Context {V : Type}.
(** [r] is the result stored in history [tr] *)
Definition result (tr : list (fev V)) (r : outc V) : Prop := ESet r ∈ tr.
Definition no_result (tr : list (fev V)) : Prop := forall r, ESet r ∉ tr.
(** what must hold when event [e] happens after history [pre] *)
Definition fevok (deferred : bool) (pre : list (fev V)) (e : fev V) : Prop :=
  match e with
  | ESet r => no_result pre
  | ESetThrow => exists r, result pre r
  | EGet v => result pre (Val v)
  | EGetExc e => result pre (Exc e)
  | EWaited => exists r, result pre r
  | EStatus StReady => exists r, result pre r
  | EStatus StTimeout => no_result pre
  | EStatus StDeferred => deferred = true /\ no_result pre /\ ERun ∉ pre
  | ERun => deferred = true /\ ERun ∉ pre
  | EFuture => EFuture ∉ pre
  | EFutureThrow => EFuture ∈ pre
  | EDestroy => EDestroy ∉ pre
  | EGarbage | EGetAgain | ENoState | ETerminate => False
  end.
End spec.
