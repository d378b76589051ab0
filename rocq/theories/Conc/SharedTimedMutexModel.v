(** Model of std::shared_timed_mutex (stl/inc/shared_mutex:66-200) as interleaved atomic steps, over condition_variable
    (mutex:512-610), with the same contracts and simplifications as TimedMutexModel.v: the internal std::mutex is the boolean
    [held]; waits join the queue and release the mutex atomically, may wake spuriously, and timed ones may time out at any
    moment, early or not; an early timeout waits again without testing the predicate (mutex:573-587).
    [rq] / [wq] are the waiters of _Read_queue / _Write_queue. Local copies in unlock_shared are resolved when they are read.
    Client preconditions as guards: unlock by the exclusive owner, unlock_shared by a shared owner, lock operations by a
    thread that does not own the mutex. std::shared_mutex itself is a bare SRWLOCK (shared_mutex:27-64) and is not modelled. *)
From stdpp Require Import base list numbers option decidable.
From Coq Require Import ZArith Lia.
Local Open Scope Z_scope.

Inductive own := No | Ex | Sh.                                  (* what the calling thread owns *)
Inductive sev := ELock (i : nat) | ELockS (i : nat) | EFail (i : nat) | EUnlock (i : nat) | EUnlockS (i : nat).
Inductive mode := MLock | MTry | MTimed.
Inductive kind := KX | KR | KS.    (* the three waits: no writer; no readers, as the pending writer; shared *)
Record sst := Sst { held : bool; readers : Z; writing : bool; rq : list nat; wq : list nat }.
Definition RMAX : Z := 4294967295.
Inductive ntf := NNone | NRead | NWrite.
Inductive sloc :=
  | Idle (h : own)
  | Acq (k : kind) (m : mode)                (* before locking the internal mutex *)
  | Chk (k : kind) (m : mode)                (* before testing the condition of k *)
  | Wait (k : kind) (m : mode) (ew : bool)   (* ew: entered after an early timeout, without testing *)
  | Reacq (k : kind) (m : mode)
  | ReacqTo (k : kind) | To (k : kind) | ChkTo (k : kind)
  | SetW (m : mode)                          (* before _Writing = true *)
  | Inc                                      (* before ++_Readers *)
  | Undo                                     (* before _Writing = false after a timeout *)
  | Rel (h : own)                            (* before releasing the internal mutex and returning *)
  | UAcq | USet | URel (fail : bool) | UNot (fail : bool)    (* unlock, and the tail of a timed-out try_lock_until *)
  | VAcq | VDec | VRel (n : ntf) | VNot (n : ntf).           (* unlock_shared *)
Definition qof (k : kind) (s : sst) : list nat := match k with KR => rq s | _ => wq s end.
Definition setq (k : kind) (q : list nat) (s : sst) : sst :=
  match k with KR => Sst (held s) (readers s) (writing s) q (wq s) | _ => Sst (held s) (readers s) (writing s) (rq s) q end.
Definition seth (b : bool) (s : sst) : sst := Sst b (readers s) (writing s) (rq s) (wq s).
(** shared_mutex:79, 84, 89-91; 110-111, 148, 155, 173 *)
Definition ready (k : kind) (m : mode) (s : sst) : Prop :=
  match k with
  | KX => writing s = false /\ (m = MTry -> readers s <= 0)
  | KR => readers s = 0
  | KS => writing s = false /\ readers s <> RMAX
  end.
Definition next (k : kind) (m : mode) : sloc := match k with KX => SetW m | KR => Rel Ex | KS => Inc end.
Inductive st_step (i : nat) : sst -> sloc -> option sev -> sst -> sloc -> Prop :=
  (* shared_mutex:77, 88, 107; 146, 153, 172: calls *)
  | s_call s k m : k <> KR -> st_step i s (Idle No) None s (Acq k m)
  | s_acq s k m : held s = false -> st_step i s (Acq k m) None (seth true s) (Chk k m)
  | s_chk_ok s k m : ready k m s -> st_step i s (Chk k m) None s (next k m)
  | s_chk_try s k : ~ ready k MTry s -> st_step i s (Chk k MTry) None s (Rel No)
  | s_chk_wait s k m : ~ ready k m s -> m <> MTry -> st_step i s (Chk k m) None (seth false (setq k (i :: qof k s) s)) (Wait k m false)
  | s_chk_timeout s k : ~ ready k MTimed s -> st_step i s (Chk k MTimed) None s (ChkTo k)
  | s_woken s k m ew : i ∉ qof k s -> st_step i s (Wait k m ew) None s (Reacq k m)
  | s_spurious s k m ew q' : qof k s ≡ₚ i :: q' -> st_step i s (Wait k m ew) None (setq k q' s) (Reacq k m)
  | s_timeout s k ew q' : qof k s ≡ₚ i :: q' -> st_step i s (Wait k MTimed ew) None (setq k q' s) (ReacqTo k)
  | s_reacq s k m : held s = false -> st_step i s (Reacq k m) None (seth true s) (Chk k m)
  | s_reacq_to s k : held s = false -> st_step i s (ReacqTo k) None (seth true s) (To k)
  | s_early s k : st_step i s (To k) None (seth false (setq k (i :: qof k s) s)) (Wait k MTimed true)
  | s_late s k : st_step i s (To k) None s (ChkTo k)
  | s_chkto_ok s k : ready k MTimed s -> st_step i s (ChkTo k) None s (next k MTimed)
  (* shared_mutex:113-115, 119-121; 176-178 *)
  | s_chkto_fail s k : ~ ready k MTimed s -> st_step i s (ChkTo k) None s (match k with KR => Undo | _ => Rel No end)
  (* shared_mutex:83, 93, 117 *)
  | s_setw h r w q q' m : st_step i (Sst h r w q q') (SetW m) None (Sst h r true q q') (match m with MTry => Rel Ex | _ => Chk KR m end)
  (* shared_mutex:151, 158, 180: ++ on unsigned int *)
  | s_inc h r w q q' : st_step i (Sst h r w q q') Inc None (Sst h ((r + 1) mod 2 ^ 32) w q q') (Rel Sh)
  | s_rel s h : st_step i s (Rel h) (Some (match h with No => EFail i | Ex => ELock i | Sh => ELockS i end)) (seth false s) (Idle h)
  (* shared_mutex:120-123; the failure is reported here, where it is decided *)
  | s_undo h r w q q' : st_step i (Sst h r w q q') Undo (Some (EFail i)) (Sst h r false q q') (URel true)
  (* shared_mutex:129-137 *)
  | s_unlock s : st_step i s (Idle Ex) (Some (EUnlock i)) s UAcq
  | s_uacq s : held s = false -> st_step i s UAcq None (seth true s) USet
  | s_uset h r w q q' : st_step i (Sst h r w q q') USet None (Sst h r false q q') (URel false)
  | s_urel s f : st_step i s (URel f) None (seth false s) (UNot f)
  | s_unot h r w q q' f : st_step i (Sst h r w q q') (UNot f) None (Sst h r w q []) (Idle No)
  (* shared_mutex:184-200 *)
  | s_unlock_s s : st_step i s (Idle Sh) (Some (EUnlockS i)) s VAcq
  | s_vacq s : held s = false -> st_step i s VAcq None (seth true s) VDec
  | s_vdec h r w q q' : st_step i (Sst h r w q q') VDec None (Sst h ((r - 1) mod 2 ^ 32) w q q')
      (VRel (if decide (w = true /\ (r - 1) mod 2 ^ 32 = 0) then NRead
             else if decide (w = false /\ (r - 1) mod 2 ^ 32 = RMAX - 1) then NWrite else NNone))
  | s_vrel s n : st_step i s (VRel n) None (seth false s) (VNot n)
  | s_vnot_none s : st_step i s (VNot NNone) None s (Idle No)
  | s_vnot_read h r w q q' j q1 : q ≡ₚ j :: q1 -> st_step i (Sst h r w q q') (VNot NRead) None (Sst h r w q1 q') (Idle No)
  | s_vnot_read0 h r w q' : st_step i (Sst h r w [] q') (VNot NRead) None (Sst h r w [] q') (Idle No)
  | s_vnot_write h r w q q' : st_step i (Sst h r w q q') (VNot NWrite) None (Sst h r w q []) (Idle No).
Definition st_init (n : nat) : sst * list sloc := (Sst false 0 false [] [], replicate n (Idle No)).

(** what a user sees: exclusive / shared locks of thread i: successful lock operations minus unlock calls *)
Definition excl_of (i : nat) (tr : list sev) : Z :=
  foldr (fun e acc => match e with ELock j => if decide (j = i) then 1 else 0 | EUnlock j => if decide (j = i) then -1 else 0 | _ => 0 end + acc) 0 tr.
Definition shared_of (i : nat) (tr : list sev) : Z :=
  foldr (fun e acc => match e with ELockS j => if decide (j = i) then 1 else 0 | EUnlockS j => if decide (j = i) then -1 else 0 | _ => 0 end + acc) 0 tr.
Definition sasleep (s : sst) (i : nat) (l : sloc) : Prop := exists k m ew, l = Wait k m ew /\ i ∈ qof k s.
Definition squiescent (s : sst) (ts : list sloc) : Prop := forall i l, ts !! i = Some l -> (exists h, l = Idle h) \/ sasleep s i l.
