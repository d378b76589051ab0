(** Model of std::timed_mutex and std::recursive_timed_mutex (stl/inc/mutex:628-785) and of condition_variable's waits
    (mutex:512-610) as interleaved atomic steps. [rec] selects the class. The internal std::mutex is the boolean [held]
    (its own exclusion is proved in MutexModel.v). Each access to _My_locked / _My_owner is a separate step, except that
    adjacent assignments to both are one step.
    condition_variable contract (SleepConditionVariableSRW, WakeConditionVariable): a waiter releases the mutex and joins the
    queue atomically; notify_one removes some waiter if there is one; a waiter leaves the queue by being notified,
    spuriously, or (timed) by timing out; it then has to reacquire the mutex. A timed-out wait whose deadline has not been
    reached (durations are clamped to 24 hours, thread:187-198, mutex:573-587) waits again without testing the predicate.
    Time is not modelled: a timed wait may time out at any moment, early or not.
    For timed_mutex [owner] is a ghost. Each program point carries [d], the number of locks the caller holds.
    Client preconditions as guards: unlock by an owner; timed_mutex is not locked by its owner. *)
From stdpp Require Import base list numbers option decidable.
From Coq Require Import ZArith Lia.
Local Open Scope Z_scope.

Inductive mev := ELock (i : nat) | EFail (i : nat) | EThrow (i : nat) | EUnlock (i : nat).
Inductive mode := MLock | MTry | MTimed.                       (* lock, try_lock, try_lock_for/until *)
Inductive res := ROk | RFail | RThrow.
Record mst := Mst { held : bool; locked : Z; owner : option nat; mq : list nat }.
Definition UMAX : Z := 4294967295.
Inductive mloc :=
  | Idle (d : Z)
  | LAcq (d : Z) (m : mode)                  (* before locking the internal mutex *)
  | LOwn (d : Z) (m : mode)                  (* recursive: before the test of _My_owner *)
  | LInc (d : Z) (m : mode)                  (* before if (_My_locked < UINT_MAX) ++_My_locked *)
  | LChk (d : Z) (m : mode)                  (* before the test of _My_locked *)
  | LWait (d : Z) (m : mode) (ew : bool)     (* waiting; ew: entered after an early timeout, without testing *)
  | LReacq (d : Z) (m : mode)                (* woken, before reacquiring the mutex *)
  | LReacqTo (d : Z) | LTo (d : Z)           (* timed out, before reacquiring; before looking at the clock *)
  | LChkTo (d : Z)                           (* deadline passed: return _Pred() *)
  | LSet (d : Z)                             (* before taking the mutex *)
  | LRel (d : Z) (r : res)                   (* before releasing the internal mutex and returning *)
  | UAcq (d : Z) | UDec (d : Z) | URel (d : Z) (n : bool) | UNotify (d : Z).   (* unlock; d: locks held after it *)

Section model.
  Context (rec : bool).
  Inductive tm_step (i : nat) : mst -> mloc -> option mev -> mst -> mloc -> Prop :=
    (* mutex:635, 644, 663-670; 695, 719, 755-762 calls *)
    | m_call s d m : (rec = false -> d = 0) -> tm_step i s (Idle d) None s (LAcq d m)
    (* lock the internal mutex: mutex:636, 645, 673; 698, 722, 765 *)
    | m_acq l o q d m : tm_step i (Mst false l o q) (LAcq d m) None (Mst true l o q) (if rec then LOwn d m else LChk d m)
    (* mutex:700, 724, 767 if (_Tid == _My_owner) *)
    | m_own_yes s d m : owner s = Some i -> tm_step i s (LOwn d m) None s (LInc d m)
    | m_own_no s d m : owner s <> Some i -> tm_step i s (LOwn d m) None s (LChk d m)
    (* mutex:701-707, 725-729, 768-772 *)
    | m_inc h l o q d m : l < UMAX -> tm_step i (Mst h l o q) (LInc d m) None (Mst h (l + 1) o q) (LRel d ROk)
    | m_inc_full s d m : UMAX <= locked s -> tm_step i s (LInc d m) None s (LRel d (match m with MLock => RThrow | _ => RFail end))
    (* mutex:637, 646; 709, 731: test; try_lock does not wait *)
    | m_chk_free s d m : locked s = 0 -> tm_step i s (LChk d m) None s (LSet d)
    | m_chk_try s d : locked s <> 0 -> tm_step i s (LChk d MTry) None s (LRel d RFail)
    (* mutex:638, 710; 538, 582: join the queue and release the mutex *)
    | m_chk_wait h l o q d m : l <> 0 -> m <> MTry -> tm_step i (Mst h l o q) (LChk d m) None (Mst false l o (i :: q)) (LWait d m false)
    (* mutex:575-578 deadline already passed *)
    | m_chk_timeout s d : locked s <> 0 -> tm_step i s (LChk d MTimed) None s (LChkTo d)
    (* woken by notify; spuriously; by timeout *)
    | m_woken s d m ew : i ∉ mq s -> tm_step i s (LWait d m ew) None s (LReacq d m)
    | m_spurious h l o q q' d m ew : q ≡ₚ i :: q' -> tm_step i (Mst h l o q) (LWait d m ew) None (Mst h l o q') (LReacq d m)
    | m_timeout h l o q q' d ew : q ≡ₚ i :: q' -> tm_step i (Mst h l o q) (LWait d MTimed ew) None (Mst h l o q') (LReacqTo d)
    | m_reacq l o q d m : tm_step i (Mst false l o q) (LReacq d m) None (Mst true l o q) (LChk d m)
    | m_reacq_to l o q d : tm_step i (Mst false l o q) (LReacqTo d) None (Mst true l o q) (LTo d)
    (* mutex:573-587: deadline not reached: wait again; reached: return timeout *)
    | m_early h l o q d : tm_step i (Mst h l o q) (LTo d) None (Mst false l o (i :: q)) (LWait d MTimed true)
    | m_late s d : tm_step i s (LTo d) None s (LChkTo d)
    (* mutex:594-596 return _Pred() *)
    | m_chkto_free s d : locked s = 0 -> tm_step i s (LChkTo d) None s (LSet d)
    | m_chkto_fail s d : locked s <> 0 -> tm_step i s (LChkTo d) None s (LRel d RFail)
    (* mutex:641, 649, 678; 713-714, 734-735, 778-779 *)
    | m_set h l o q d : tm_step i (Mst h l o q) (LSet d) None (Mst h (if rec then 1 else UMAX) (Some i) q) (LRel d ROk)
    (* the unique_lock / lock_guard releases the internal mutex *)
    | m_rel_ok h l o q d : tm_step i (Mst h l o q) (LRel d ROk) (Some (ELock i)) (Mst false l o q) (Idle (d + 1))
    | m_rel_fail h l o q d : tm_step i (Mst h l o q) (LRel d RFail) (Some (EFail i)) (Mst false l o q) (Idle d)
    | m_rel_throw h l o q d : tm_step i (Mst h l o q) (LRel d RThrow) (Some (EThrow i)) (Mst false l o q) (Idle d)
    (* mutex:654-661, 740-753 unlock *)
    | m_unlock s d : 0 < d -> tm_step i s (Idle d) (Some (EUnlock i)) s (UAcq (d - 1))
    | m_uacq l o q d : tm_step i (Mst false l o q) (UAcq d) None (Mst true l o q) (UDec d)
    | m_udec h l o q d : tm_step i (Mst h l o q) (UDec d) None
        (if rec then Mst h (l - 1) (if decide (l - 1 = 0) then None else o) q else Mst h 0 None q)
        (URel d (if rec then bool_decide (l - 1 = 0) else true))
    | m_urel h l o q d n : tm_step i (Mst h l o q) (URel d n) None (Mst false l o q) (if n then UNotify d else Idle d)
    | m_unotify_some h l o q j q' d : q ≡ₚ j :: q' -> tm_step i (Mst h l o q) (UNotify d) None (Mst h l o q') (Idle d)
    | m_unotify_none h l o d : tm_step i (Mst h l o []) (UNotify d) None (Mst h l o []) (Idle d).
End model.
Definition tm_init (n : nat) : mst * list mloc := (Mst false 0 None [], replicate n (Idle 0)).

(** what a user sees: how many locks thread i holds: successful lock operations minus unlock calls *)
Definition depth_of (i : nat) (tr : list mev) : Z :=
  foldr (fun e acc => match e with ELock j => if decide (j = i) then 1 else 0 | EUnlock j => if decide (j = i) then -1 else 0 | _ => 0 end + acc) 0 tr.
Definition masleep (s : mst) (i : nat) (l : mloc) : Prop := (exists d m ew, l = LWait d m ew) /\ i ∈ mq s.
(** no thread is inside an operation, except asleep in it *)
Definition mquiescent (s : mst) (ts : list mloc) : Prop := forall i l, ts !! i = Some l -> (exists d, l = Idle d) \/ masleep s i l.
