(** What a client and the upstream resource may rely on, event by event of a history. *)
From stdpp Require Import base list numbers option decidable.
From Coq Require Import ZArith Lia.
From Verif Require Import Mem.MonoModel Mem.PoolModel.
Local Open Scope Z_scope.

Section spec.
Context (A : Z).
(** [p, p+n) lies in a block obtained from upstream and not given back *)
Definition in_block (tr : list pev) (p n : Z) : Prop := exists q m a, (q, m, a) ∈ outst tr /\ q <= p /\ p + n <= q + m.
(** what must hold when event [e] happens after history [pre] *)
Definition evok (pre : list pev) (e : pev) : Prop :=
  match e with
  | EAlloc p n a => p mod a = 0 /\ 0 < p /\ p + n <= W A /\ (forall q m b, (q, m, b) ∈ live pre -> disj p n q m) /\ in_block pre p n
  | EUpFree p n a => (p, n, a) ∈ outst pre /\ (forall q m b, (q, m, b) ∈ live pre -> disj p n q m)
  | ERelEnd => outst pre = []
  | EUp p n a => 0 < n < W A /\ n mod A = 0 /\ pow2 A a /\ A <= a
  | _ => True
  end.
End spec.
