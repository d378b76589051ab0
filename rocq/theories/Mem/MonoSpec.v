(** What a client and the upstream resource may rely on, event by event of a history. *)
From stdpp Require Import base list numbers option decidable.
From Coq Require Import ZArith Lia.
From Verif Require Import Mem.MonoModel.
Local Open Scope Z_scope.

Section spec.
Context (A b0 n0 : Z).
(** [p, p+n) lies in the initial buffer *)
Definition in_initial (p n : Z) : Prop := b0 <= p /\ p + n <= b0 + n0.
(** [p, p+n) lies in a block obtained from upstream and not given back *)
Definition in_block (tr : list mbev) (p n : Z) : Prop := exists q m a, (q, m, a) ∈ outst tr /\ q <= p /\ p + n <= q + m.
(** what must hold when event [e] happens after history [pre] *)
Definition evok (pre : list mbev) (e : mbev) : Prop :=
  match e with
  | EAlloc p n a => p mod a = 0 /\ 0 < p /\ p + n <= W A /\ (forall q m, (q, m) ∈ live pre -> disj p n q m) /\ (in_initial p n \/ in_block pre p n)
  | EUpFree p n a => (p, n, a) ∈ outst pre
  | ERelease => outst pre = []
  | EUp p n a => n mod A = 0 /\ A <= a /\ (forall p1 n1 a1 l, outst pre = (p1, n1, a1) :: l -> n1 + (n1 + 1) / 2 <= n \/ n = W A - A)
  | EThrow _ _ => True
  | EWrite _ _ => True
  end.
End spec.
