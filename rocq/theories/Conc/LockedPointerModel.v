(** Model of _Locked_pointer (stl/inc/atomic:2938-3001), the lock used by stop_token and atomic<shared_ptr>: a pointer whose two
    low-order bits are 0 = not locked, 1 = locked, 2 = locked and notify needed. Pointers are numbers. Steps are single accesses
    of the atomic _Storage; compare_exchange_weak may fail spuriously; wait re-checks the value in the kernel before sleeping
    and after every wake-up, wake-ups may be spurious. *)
From stdpp Require Import base list numbers option decidable.
From Coq Require Import ZArith Lia.
Local Open Scope nat_scope.
Record lpst := Lp { lval : Z; lbits : nat; lq : list nat }.
Inductive lploc := LIdle | LLoad | LTry (v : Z) (b : nat) | LWait (v : Z) | LBlk (v : Z) | LCs (v : Z) | LNotify.
Inductive lpev := ELock (i : nat) (v : Z) | EUnlock (i : nat) (w : Z).     (* _Lock_and_load returns v; _Store_and_unlock(w) called *)
Inductive lp_step (i : nat) : lpst -> lploc -> option lpev -> lpst -> lploc -> Prop :=
  (* atomic:2954-2986 _Lock_and_load *)
  | lp_call s : lp_step i s LIdle None s LLoad
  | lp_load v b q : lp_step i (Lp v b q) LLoad None (Lp v b q) (LTry v b)
  | lp_cas0 v q : lp_step i (Lp v 0 q) (LTry v 0) (Some (ELock i v)) (Lp v 1 q) (LCs v)
  | lp_cas0_fail v b q v' : lp_step i (Lp v b q) (LTry v' 0) None (Lp v b q) (LTry v b)
  | lp_cas1 v q : lp_step i (Lp v 1 q) (LTry v 1) None (Lp v 2 q) (LWait v)
  | lp_cas1_fail v b q v' : lp_step i (Lp v b q) (LTry v' 1) None (Lp v b q) (LTry v b)
  | lp_try2 s v' : lp_step i s (LTry v' 2) None s (LWait v')
  | lp_wait_pass v b q v' : (v, b) <> (v', 2) -> lp_step i (Lp v b q) (LWait v') None (Lp v b q) LLoad
  | lp_wait_block v q : lp_step i (Lp v 2 q) (LWait v) None (Lp v 2 (i :: q)) (LBlk v)
  | lp_woken s v' : i ∉ lq s -> lp_step i s (LBlk v') None s (LWait v')
  | lp_spurious v b q q' v' : q ≡ₚ i :: q' -> lp_step i (Lp v b q) (LBlk v') None (Lp v b q') (LWait v')
  (* atomic:2988-2994 _Store_and_unlock *)
  | lp_unlock v b q v' w : lp_step i (Lp v b q) (LCs v') (Some (EUnlock i w)) (Lp w 0 q) (if decide (b = 2) then LNotify else LIdle)
  | lp_notify v b q : lp_step i (Lp v b q) LNotify None (Lp v b []) LIdle.
(** atomic:2948-2949 *)
Definition lp_init (v0 : Z) (k : nat) : lpst * list lploc := (Lp v0 0 [], replicate k LIdle).
(** how often thread i has locked and not yet unlocked *)
Definition held (i : nat) (tr : list lpev) : Z :=
  foldr (fun e acc => (match e with ELock j _ => if decide (j = i) then 1 else 0 | EUnlock j _ => if decide (j = i) then -1 else 0 end + acc)%Z) 0%Z tr.
(** the value stored last *)
Definition last_val (v0 : Z) (tr : list lpev) : Z := foldl (fun v e => match e with EUnlock _ w => w | _ => v end) v0 tr.
