(** Model of std::mutex and std::recursive_mutex: stl/inc/mutex:33-118 over stl/src/mutex.cpp:76-180 (mtx_do_lock,
    _Mtx_unlock), as interleaved atomic steps. [rec] selects the class. The SRW lock of the operating system is the primitive:
    [srw] says whether it is held; AcquireSRWLockExclusive waits until it is free. _Thread_id is read without the lock held,
    as in the code; such a read is one atomic step. [hold] is a ghost: the thread that acquired the SRW lock.
    Not modelled: _Mtx_plain and timed variants kept for ABI compatibility only. Client precondition as a guard: unlock is
    called by an owner. Each program point carries [d], the number of locks the caller holds. *)
From stdpp Require Import base list numbers option decidable.
From Coq Require Import ZArith Lia.
Local Open Scope Z_scope.

Inductive kev := ELock (i : nat) | EFail (i : nat) | EUnlock (i : nat).    (* EFail: try_lock false, or lock throws *)
Record kst := Kst { srw : bool; tid : option nat; cnt : Z; hold : option nat }.
Definition IMAX : Z := 2147483647.
Inductive kloc :=
  | Idle (d : Z)
  | KTest (d : Z) (t : bool)              (* before if (mtx->_Thread_id != current_thread_id); t: try_lock *)
  | KAcq (d : Z) (t : bool)               (* before acquiring the SRW lock *)
  | KInc (d : Z) (t : bool)               (* before 1 < ++mtx->_Count *)
  | KFix (d : Z)                          (* before --mtx->_Count of a non-recursive mutex *)
  | KTid (d : Z) (t : bool)               (* before mtx->_Thread_id = current_thread_id *)
  | KVer (d : Z)                          (* before _Verify_ownership_levels *)
  | UDec (d : Z) | UTid (d : Z) | URel (d : Z).   (* unlock; d: locks held after it *)

Section model.
  Context (rec : bool).
  (** after a successful _Mtx_lock / _Mtx_trylock: lock() and recursive_mutex::try_lock() check the level (mutex:57-73, 111-113) *)
  Definition verify (t : bool) : bool := negb t || rec.
  Inductive mx_step (i : nat) : kst -> kloc -> option kev -> kst -> kloc -> Prop :=
    | k_call s d t : mx_step i s (Idle d) None s (KTest d t)
    (* mutex.cpp:93-95, 101-102 *)
    | k_test_own s d t : tid s = Some i -> mx_step i s (KTest d t) None s (KInc d t)
    | k_test_other s d t : tid s <> Some i -> mx_step i s (KTest d t) None s (KAcq d t)
    (* mutex.cpp:94, 102 *)
    | k_acq d t ti c h : mx_step i (Kst false ti c h) (KAcq d t) None (Kst true ti c (Some i)) (KInc d t)
    | k_tryfail s d : srw s = true -> mx_step i s (KAcq d true) (Some (EFail i)) s (Idle d)
    (* mutex.cpp:123-131 *)
    | k_inc w ti c h d t : mx_step i (Kst w ti c h) (KInc d t) None (Kst w ti (c + 1) h)
        (if decide (1 < c + 1) then (if rec then KVer d else KFix d) else KTid d t)
    | k_fix w ti c h d : mx_step i (Kst w ti c h) (KFix d) (Some (EFail i)) (Kst w ti (c - 1) h) (Idle d)
    | k_tid w ti c h d t : verify t = true -> mx_step i (Kst w ti c h) (KTid d t) None (Kst w (Some i) c h) (KVer d)
    | k_tid_ret w ti c h d t : verify t = false -> mx_step i (Kst w ti c h) (KTid d t) (Some (ELock i)) (Kst w (Some i) c h) (Idle (d + 1))
    (* mutex:84-92 *)
    | k_ver_full w ti c h d : c = IMAX -> mx_step i (Kst w ti c h) (KVer d) (Some (EFail i)) (Kst w ti (c - 1) h) (Idle d)
    | k_ver s d : cnt s <> IMAX -> mx_step i s (KVer d) (Some (ELock i)) s (Idle (d + 1))
    (* mutex.cpp:146-158 *)
    | k_unlock s d : 0 < d -> mx_step i s (Idle d) (Some (EUnlock i)) s (UDec (d - 1))
    | k_udec w ti c h d : mx_step i (Kst w ti c h) (UDec d) None (Kst w ti (c - 1) h) (if decide (c - 1 = 0) then UTid d else Idle d)
    | k_utid w ti c h d : mx_step i (Kst w ti c h) (UTid d) None (Kst w None c h) (URel d)
    | k_urel w ti c h d : mx_step i (Kst w ti c h) (URel d) None (Kst false ti c None) (Idle d).
End model.
(** mutex:42-47 *)
Definition mx_init (n : nat) : kst * list kloc := (Kst false None 0 None, replicate n (Idle 0)).
Definition depth_of (i : nat) (tr : list kev) : Z :=
  foldr (fun e acc => match e with ELock j => if decide (j = i) then 1 else 0 | EUnlock j => if decide (j = i) then -1 else 0 | _ => 0 end + acc) 0 tr.
