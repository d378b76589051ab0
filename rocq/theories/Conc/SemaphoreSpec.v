(** What traces of a semaphore mean. *)
From stdpp Require Import base list numbers option decidable.
From Coq Require Import ZArith Lia.
From Verif Require Import Conc.Sched Conc.SemaphoreModel.
Local Open Scope Z_scope.

(** permits released by calls made so far / acquisitions completed successfully so far *)
Definition released (tr : list sev) : Z := sumz (fun e => match e with ECallRelease _ u => u | _ => 0 end) tr.
Definition acquired (tr : list sev) : Z := sumz (fun e => match e with ERetAcquire _ true => 1 | _ => 0 end) tr.
(** a thread that is outside the semaphore, or asleep in the kernel *)
Definition asleep (s : sst) (i : nat) (l : sloc) : Prop := (exists t, l = WBlocked t) /\ i ∈ q s.
Definition quiescent (s : sst) (ts : list sloc) : Prop := forall i l, ts !! i = Some l -> l = Idle \/ asleep s i l.
Definition basleep (s : bst) (i : nat) (l : bloc) : Prop := (exists t, l = BBlocked t) /\ i ∈ bq s.
Definition bquiescent (s : bst) (ts : list bloc) : Prop := forall i l, ts !! i = Some l -> l = BIdle \/ basleep s i l.
