(** Model of std::latch (stl/inc/latch) as interleaved atomic steps. Kernel wait queue as in SemaphoreModel. Clients respect
    the preconditions 0 <= update <= counter of count_down and arrive_and_wait. *)
From stdpp Require Import base list numbers option decidable.
From Coq Require Import ZArith Lia.
Local Open Scope Z_scope.

Inductive lev :=
  | ECallDown (i : nat) (u : Z) | ERetDown (i : nat)   (* count_down, or the arrival of arrive_and_wait *)
  | ECallWait (i : nat) | ERetWait (i : nat)           (* wait, or the waiting part of arrive_and_wait *)
  | ETryWait (i : nat) (b : bool).
Record lst := Lst { lcounter : Z; lq : list nat }.
Inductive lloc :=
  | LIdle | LSub (aw : bool) (u : Z) | LNotify (aw : bool)
  | LLoad | LAtom (cur : Z) | LCmp (cur : Z) | LBlocked (cur : Z)
  | LTry | LFailed.

Inductive latch_step (i : nat) : lst -> lloc -> option lev -> lst -> lloc -> Prop :=
  (* latch:44-46, 74-75 *)
  | l_call_down s u : 0 <= u -> latch_step i s LIdle (Some (ECallDown i u)) s (LSub false u)
  | l_call_arrive s u : 0 <= u -> latch_step i s LIdle (Some (ECallDown i u)) s (LSub true u)
  (* latch:47-53, 77-84: fetch_sub; guard: update <= counter *)
  | l_sub c qq u : u <= c -> latch_step i (Lst c qq) (LSub false u) None (Lst (c - u) qq)
                     (if decide (c - u = 0) then LNotify false else if decide (0 <= c - u) then LIdle else LFailed)
  | l_sub_wait c qq u : u <= c -> latch_step i (Lst c qq) (LSub true u) None (Lst (c - u) qq)
                     (if decide (c - u = 0) then LNotify true else if decide (0 < c - u) then LAtom (c - u) else LFailed)
  (* latch:49, 79 notify_all *)
  | l_notify c qq : latch_step i (Lst c qq) (LNotify false) (Some (ERetDown i)) (Lst c []) LIdle
  | l_notify_wait c qq : latch_step i (Lst c qq) (LNotify true) (Some (ERetWait i)) (Lst c []) LIdle
  (* latch:60-72 wait *)
  | l_call_wait s : latch_step i s LIdle (Some (ECallWait i)) s LLoad
  | l_load_done s : lcounter s = 0 -> latch_step i s LLoad (Some (ERetWait i)) s LIdle
  | l_load s : lcounter s <> 0 -> latch_step i s LLoad None s (if decide (0 < lcounter s) then LAtom (lcounter s) else LFailed)
  (* atomic:411-436 _Atomic_wait_direct, called by latch:70, 82 *)
  | l_atom s cur : latch_step i s (LAtom cur) None s (if decide (lcounter s = cur) then LCmp cur else LLoad)
  | l_cmp_block c qq : latch_step i (Lst c qq) (LCmp c) None (Lst c (i :: qq)) (LBlocked c)
  | l_cmp_pass s cur : lcounter s <> cur -> latch_step i s (LCmp cur) None s (LAtom cur)
  | l_woken s cur : i ∉ lq s -> latch_step i s (LBlocked cur) None s (LAtom cur)
  | l_spurious c qq qq' cur : qq ≡ₚ i :: qq' -> latch_step i (Lst c qq) (LBlocked cur) None (Lst c qq') (LAtom cur)
  (* latch:55-58 try_wait *)
  | l_try s : latch_step i s LIdle None s LTry
  | l_try_load s : latch_step i s LTry (Some (ETryWait i (bool_decide (lcounter s = 0)))) s LIdle.
Definition latch_init (expected : Z) (n : nat) : lst * list lloc := (Lst expected [], replicate n LIdle).

(** permits counted down by calls made so far *)
Definition downs (tr : list lev) : Z := foldr (fun e acc => match e with ECallDown _ u => u | _ => 0 end + acc) 0 tr.
Definition lasleep (s : lst) (i : nat) (l : lloc) : Prop := (exists c, l = LBlocked c) /\ i ∈ lq s.
Definition lquiescent (s : lst) (ts : list lloc) : Prop := forall i l, ts !! i = Some l -> l = LIdle \/ lasleep s i l.
