(** Model of std::counting_semaphore and std::binary_semaphore (stl/inc/semaphore) as interleaved atomic steps.
    [q] is the kernel's wait queue on the address of _Counter: __std_atomic_wait_direct compares and enqueues atomically
    (WaitOnAddress), notify_one dequeues an arbitrary waiter, notify_all all of them, and a waiter may also leave
    spuriously or by time-out. Clients respect the standard's precondition of release (update <= max() - counter),
    which the code checks with _STL_VERIFY and terminates otherwise. *)
From stdpp Require Import base list numbers option decidable.
From Coq Require Import ZArith Lia.
Local Open Scope Z_scope.

(** observable events: calls and returns (thread id) *)
Inductive sev :=
  | ECallRelease (i : nat) (u : Z) | ERetRelease (i : nat)
  | ECallAcquire (i : nat) | ERetAcquire (i : nat) (b : bool). (* b = false: try_acquire / timed acquire gave up *)

Record sst := Sst { counter : Z; waiting : Z; q : list nat }.

(** program points; [timed] distinguishes try_acquire_for/until from acquire *)
Inductive sloc :=
  | Idle
  | RAdd (u : Z) | RLoad (u : Z) | ROne (u : Z) | RAll (u : Z)
  | ALoad (timed : bool) | ATest (timed : bool) (cur : Z) | ACas (timed : bool) (cur : Z)
  | WInc (timed : bool) | WLoad (timed : bool) | WCmp (timed : bool) (cur : Z) | WBlocked (timed : bool) | WDec (timed : bool)
  | TLoad | TCas (cur : Z)
  | Failed. (* an _STL_VERIFY failed *)

Inductive sem_step (M : Z) (i : nat) : sst -> sloc -> option sev -> sst -> sloc -> Prop :=
  (* semaphore:70-73 release: nothing to do for an update of zero *)
  | s_call_release0 s : sem_step M i s Idle (Some (ECallRelease i 0)) s Idle
  | s_call_release s u : 0 < u -> sem_step M i s Idle (Some (ECallRelease i u)) s (RAdd u)
  (* semaphore:89-91 fetch_add; the guard is the client's obligation, the check is the code's *)
  | s_radd c w qq u : u <= M - c ->
      sem_step M i (Sst c w qq) (RAdd u) None (Sst (c + u) w qq)
        (if decide (0 <= c /\ u <= M - c) then RLoad u else Failed)
  (* semaphore:93-107 _Waiting.load() and the three cases *)
  | s_rload_none s u : waiting s = 0 -> sem_step M i s (RLoad u) (Some (ERetRelease i)) s Idle
  | s_rload_all s u : waiting s <> 0 -> waiting s <= u -> sem_step M i s (RLoad u) None s (RAll u)
  | s_rload_one s u : waiting s <> 0 -> ~ waiting s <= u -> sem_step M i s (RLoad u) None s (ROne u)
  (* semaphore:99 notify_all *)
  | s_rall c w qq u : sem_step M i (Sst c w qq) (RAll u) (Some (ERetRelease i)) (Sst c w []) Idle
  (* semaphore:104-106 loop of notify_one *)
  | s_rone_done s : sem_step M i s (ROne 0) (Some (ERetRelease i)) s Idle
  | s_rone_empty c w u : u <> 0 -> sem_step M i (Sst c w []) (ROne u) None (Sst c w []) (ROne (u - 1))
  | s_rone_wake c w qq j qq' u : u <> 0 -> qq ≡ₚ j :: qq' ->
      sem_step M i (Sst c w qq) (ROne u) None (Sst c w qq') (ROne (u - 1))
  (* semaphore:110-111, 141-143, 165-167 acquire, try_acquire_for, try_acquire_until *)
  | s_call_acquire s timed : sem_step M i s Idle (Some (ECallAcquire i)) s (ALoad timed)
  | s_aload s timed : sem_step M i s (ALoad timed) None s (ATest timed (counter s))
  (* semaphore:113-119, 145-156 test _Current == 0; timed waits may find their deadline passed *)
  | s_atest_timeout s : sem_step M i s (ATest true 0) (Some (ERetAcquire i false)) s Idle
  | s_atest_wait s timed : sem_step M i s (ATest timed 0) None s (WInc timed)
  | s_atest_try s timed cur : cur <> 0 ->
      sem_step M i s (ATest timed cur) None s (if decide (0 < cur <= M) then ACas timed cur else Failed)
  (* semaphore:122-124, 159-161 compare_exchange_weak (may fail spuriously) *)
  | s_acas_ok c w qq timed : sem_step M i (Sst c w qq) (ACas timed c) (Some (ERetAcquire i true)) (Sst (c - 1) w qq) Idle
  | s_acas_fail s timed cur : sem_step M i s (ACas timed cur) None s (ATest timed (counter s))
  (* semaphore:189-197 _Wait *)
  | s_winc c w qq timed : sem_step M i (Sst c w qq) (WInc timed) None (Sst c (w + 1) qq) (WLoad timed)
  | s_wload s timed : sem_step M i s (WLoad timed) None s (if decide (counter s = 0) then WCmp timed (counter s) else WDec timed)
  | s_wcmp_block c w qq timed : sem_step M i (Sst c w qq) (WCmp timed c) None (Sst c w (i :: qq)) (WBlocked timed)
  | s_wcmp_pass s timed cur : counter s <> cur -> sem_step M i s (WCmp timed cur) None s (WDec timed)
  | s_wwoken s timed : i ∉ q s -> sem_step M i s (WBlocked timed) None s (WDec timed)
  | s_wspurious c w qq qq' timed : qq ≡ₚ i :: qq' -> sem_step M i (Sst c w qq) (WBlocked timed) None (Sst c w qq') (WDec timed)
  | s_wdec c w qq timed : sem_step M i (Sst c w qq) (WDec timed) None (Sst c (w - 1) qq) (ALoad timed)
  (* semaphore:128-138 try_acquire *)
  | s_call_try s : sem_step M i s Idle (Some (ECallAcquire i)) s TLoad
  | s_tload_zero s : counter s = 0 -> sem_step M i s TLoad (Some (ERetAcquire i false)) s Idle
  | s_tload s : counter s <> 0 -> sem_step M i s TLoad None s (if decide (0 < counter s <= M) then TCas (counter s) else Failed)
  | s_tcas_ok c w qq : sem_step M i (Sst c w qq) (TCas c) (Some (ERetAcquire i true)) (Sst (c - 1) w qq) Idle
  | s_tcas_fail s cur : sem_step M i s (TCas cur) (Some (ERetAcquire i false)) s Idle.

(** semaphore:60-64 constructor; n threads, all outside the semaphore *)
Definition sem_init (desired : Z) (n : nat) : sst * list sloc := (Sst desired 0 [], replicate n Idle).

(** ** counting_semaphore<1> (semaphore:202-296) *)
Inductive bloc :=
  | BIdle | BStore | BNotify
  | BXchg (timed : bool) | BTest (timed : bool) (prev : Z) | BLoad (timed : bool) | BCmp (timed : bool) | BBlocked (timed : bool)
  | BTry
  | BFailed.
Record bst := Bst { bcounter : Z; bq : list nat }.

Inductive bin_step (i : nat) : bst -> bloc -> option sev -> bst -> bloc -> Prop :=
  (* semaphore:217-222 release *)
  | b_call_release0 s : bin_step i s BIdle (Some (ECallRelease i 0)) s BIdle
  | b_call_release s : bin_step i s BIdle (Some (ECallRelease i 1)) s BStore
  (* semaphore:225-227 store(1), guard: update <= max() - counter; notify_one *)
  | b_store c qq : 1 <= 1 - c -> bin_step i (Bst c qq) BStore None (Bst 1 qq) BNotify
  | b_notify_empty c : bin_step i (Bst c []) BNotify (Some (ERetRelease i)) (Bst c []) BIdle
  | b_notify c qq j qq' : qq ≡ₚ j :: qq' -> bin_step i (Bst c qq) BNotify (Some (ERetRelease i)) (Bst c qq') BIdle
  (* semaphore:230-242, 253-270, 273-291 acquire, try_acquire_for, try_acquire_until: exchange(0) *)
  | b_call_acquire s timed : bin_step i s BIdle (Some (ECallAcquire i)) s (BXchg timed)
  | b_xchg c qq timed : bin_step i (Bst c qq) (BXchg timed) None (Bst 0 qq) (BTest timed c)
  | b_test_got s timed : bin_step i s (BTest timed 1) (Some (ERetAcquire i true)) s BIdle
  | b_test_fail s timed prev : prev <> 1 ->
      bin_step i s (BTest timed prev) None s (if decide (prev = 0) then BLoad timed else BFailed)
  | b_timeout s : bin_step i s (BLoad true) (Some (ERetAcquire i false)) s BIdle
  (* acquire: _Counter.wait(0) loads first (atomic:415-417) and waits again when woken with the value still 0;
     timed: __std_atomic_wait_direct *)
  | b_load s timed : bin_step i s (BLoad timed) None s (if decide (bcounter s = 0 \/ timed = true) then BCmp timed else BXchg timed)
  | b_cmp_block c qq timed : c = 0 -> bin_step i (Bst c qq) (BCmp timed) None (Bst c (i :: qq)) (BBlocked timed)
  | b_cmp_pass s timed : bcounter s <> 0 -> bin_step i s (BCmp timed) None s (if timed then BXchg timed else BLoad timed)
  | b_woken s timed : i ∉ bq s -> bin_step i s (BBlocked timed) None s (if timed then BXchg timed else BLoad timed)
  | b_spurious c qq qq' timed : qq ≡ₚ i :: qq' ->
      bin_step i (Bst c qq) (BBlocked timed) None (Bst c qq') (if timed then BXchg timed else BLoad timed)
  (* semaphore:244-250 try_acquire *)
  | b_call_try s : bin_step i s BIdle (Some (ECallAcquire i)) s BTry
  | b_try c qq : bin_step i (Bst c qq) BTry (Some (ERetAcquire i (bool_decide (c = 1)))) (Bst 0 qq)
                   (if decide (c = 0 \/ c = 1) then BIdle else BFailed).
Definition bin_init (desired : Z) (n : nat) : bst * list bloc := (Bst desired [], replicate n BIdle).
