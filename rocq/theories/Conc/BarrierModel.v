(** Model of std::barrier (stl/inc/barrier) as interleaved atomic steps. _Current and _Total hold twice the count; the low
    bit of _Current is the parity of the phase. Kernel wait queue as in SemaphoreModel. Arrival tokens may be passed between
    threads: the issued, unused ones are kept in [toks]. [phase] and the phase numbers carried by tokens, program points
    and events are ghosts: no step depends on them. The address part of the token is not modelled.
    Clients respect the preconditions: 0 < update <= expected count of the current phase (as the code's _STL_VERIFY checks),
    and arrive_and_drop is called with a positive initial expected count. *)
From stdpp Require Import base list numbers option decidable.
From Coq Require Import ZArith Lia.
Local Open Scope Z_scope.

Inductive bev :=
  | EArr (i : nat) (ph : nat) (u : Z)       (* u arrivals counted in phase ph *)
  | EDrop (i : nat)                         (* expected count of later phases decremented *)
  | EFn (ph : nat) (next : Z)               (* completion function of phase ph runs; next phase expects [next] *)
  | ERetWait (i : nat) (ph : nat).          (* a thread waiting for the end of phase ph returns *)
Record brst := Brst { cur : Z; total : Z; brq : list nat; toks : list (nat * Z); phase : nat }.
Inductive kind := KArrive | KWait | KDrop.
Inductive brloc :=
  | Idle
  | DropTotal                                              (* arrive_and_drop, before _Total.fetch_sub *)
  | Arr (k : kind) (u : Z)                                 (* before _Current.fetch_sub *)
  | CTotal (k : kind) (ph : nat) (c : Z)                   (* _Completion: before _Total.load *)
  | CFn (k : kind) (ph : nat) (c rem : Z)                  (* before the completion function *)
  | CStore (k : kind) (ph : nat) (c rem : Z)               (* before _Current.store *)
  | CNotify (k : kind) (ph : nat) (c : Z)                  (* before notify_all *)
  | WLoad (ph : nat) (b : Z)                               (* wait loop: before _Current.load, waiting for a phase with parity <> b *)
  | WAtom (ph : nat) (b c : Z) | WCmp (ph : nat) (b c : Z) | WBlocked (ph : nat) (b c : Z)  (* inside _Current.wait(c) *)
  | Failed.

(** the low bit and the rest of the counter word: _Barrier_arrival_token_mask, _Barrier_value_mask (barrier:39-40) *)
Definition parity (c : Z) : Z := Z.land c 1.
Definition value (c : Z) : Z := Z.land c (-2).
(** barrier:100-110, 136-139 after the completion or arrival: return a token, return from arrive_and_wait, or drop the token *)
Definition after (k : kind) (i ph : nat) (c : Z) (s : brst) : option bev * brst :=
  match k with
  | KArrive => (None, Brst (cur s) (total s) (brq s) ((ph, parity c) :: toks s) (phase s))
  | KWait => (Some (ERetWait i ph), s)
  | KDrop => (None, s)
  end.

Inductive barrier_step (i : nat) : brst -> brloc -> option bev -> brst -> brloc -> Prop :=
  (* barrier:94-97, 130, 153 calls *)
  | r_call_arrive s u : 0 < u -> barrier_step i s Idle None s (Arr KArrive u)
  | r_call_wait s : barrier_step i s Idle None s (Arr KWait 1)
  | r_call_drop s : barrier_step i s Idle None s DropTotal
  (* barrier:154-159 _Total.fetch_sub, then arrive(1) *)
  | r_drop c t qq tk ph : 2 <= t ->
      barrier_step i (Brst c t qq tk ph) DropTotal (Some (EDrop i)) (Brst c (t - 2) qq tk ph)
        (if decide (0 <= t - 2) then Arr KDrop 1 else Failed)
  (* barrier:96-105, 132-139 fetch_sub; guard: update <= expected count of the current phase *)
  | r_arr_last c t qq tk ph k u : 2 * u <= c -> value (c - 2 * u) = 0 ->
      barrier_step i (Brst c t qq tk ph) (Arr k u) (Some (EArr i ph u)) (Brst (c - 2 * u) t qq tk ph)
        (if decide (0 <= c - 2 * u) then CTotal k ph (c - 2 * u) else Failed)
  | r_arr_token c t qq tk ph u : 2 * u <= c -> value (c - 2 * u) <> 0 ->
      barrier_step i (Brst c t qq tk ph) (Arr KArrive u) (Some (EArr i ph u))
        (Brst (c - 2 * u) t qq ((ph, parity (c - 2 * u)) :: tk) ph) (if decide (0 <= c - 2 * u) then Idle else Failed)
  | r_arr_drop c t qq tk ph u : 2 * u <= c -> value (c - 2 * u) <> 0 ->
      barrier_step i (Brst c t qq tk ph) (Arr KDrop u) (Some (EArr i ph u))
        (Brst (c - 2 * u) t qq tk ph) (if decide (0 <= c - 2 * u) then Idle else Failed)
  | r_arr_wait c t qq tk ph u : 2 * u <= c -> value (c - 2 * u) <> 0 ->
      barrier_step i (Brst c t qq tk ph) (Arr KWait u) (Some (EArr i ph u))
        (Brst (c - 2 * u) t qq tk ph)
        (if decide (0 <= c - 2 * u) then WAtom ph (parity (c - 2 * u)) (c - 2 * u) else Failed)
  (* barrier:163-173 _Completion *)
  | r_ctotal s k ph c : barrier_step i s (CTotal k ph c) None s (if decide (0 <= total s) then CFn k ph c (total s) else Failed)
  | r_cfn s k ph c rem : barrier_step i s (CFn k ph c rem) (Some (EFn ph (rem / 2))) s (CStore k ph c rem)
  | r_cstore c t qq tk p k ph c' rem :
      barrier_step i (Brst c t qq tk p) (CStore k ph c' rem) None
        (Brst (Z.lor rem (Z.land (c' + 1) 1)) t qq tk (S p)) (CNotify k ph c')
  | r_cnotify c t qq tk p k ph c' :
      barrier_step i (Brst c t qq tk p) (CNotify k ph c') (after k i ph c' (Brst c t [] tk p)).1 (after k i ph c' (Brst c t [] tk p)).2 Idle
  (* barrier:112-127 wait, with any issued token *)
  | r_call_wait_token c t qq tk tk' p ph b : tk ≡ₚ (ph, b) :: tk' ->
      barrier_step i (Brst c t qq tk p) Idle None (Brst c t qq tk' p) (WLoad ph b)
  (* barrier:120-126, 142-149 load, test the parity, wait on the value *)
  | r_wload_done s ph b : parity (cur s) <> b -> barrier_step i s (WLoad ph b) (Some (ERetWait i ph)) s (if decide (0 <= cur s) then Idle else Failed)
  | r_wload s ph b : parity (cur s) = b -> barrier_step i s (WLoad ph b) None s (if decide (0 <= cur s) then WAtom ph b (cur s) else Failed)
  (* atomic:411-436 *)
  | r_watom s ph b c : barrier_step i s (WAtom ph b c) None s (if decide (cur s = c) then WCmp ph b c else WLoad ph b)
  | r_wcmp_block c t qq tk p ph b : barrier_step i (Brst c t qq tk p) (WCmp ph b c) None (Brst c t (i :: qq) tk p) (WBlocked ph b c)
  | r_wcmp_pass s ph b c : cur s <> c -> barrier_step i s (WCmp ph b c) None s (WAtom ph b c)
  | r_woken s ph b c : i ∉ brq s -> barrier_step i s (WBlocked ph b c) None s (WAtom ph b c)
  | r_spurious c t qq qq' tk p ph b c' : qq ≡ₚ i :: qq' ->
      barrier_step i (Brst c t qq tk p) (WBlocked ph b c') None (Brst c t qq' tk p) (WAtom ph b c').

(** barrier:78-84 constructor: expected << 1 *)
Definition barrier_init (expected : Z) (n : nat) : brst * list brloc :=
  (Brst (2 * expected) (2 * expected) [] [] 0, replicate n Idle).

(** what a trace means *)
Definition arrivals (p : nat) (tr : list bev) : Z :=
  foldr (fun e acc => match e with EArr _ ph u => if decide (ph = p) then u else 0 | _ => 0 end + acc) 0 tr.
Definition drops (tr : list bev) : Z := foldr (fun e acc => match e with EDrop _ => 1 | _ => 0 end + acc) 0 tr.
(** the phases whose completion function has run, in order; the expected count of a phase *)
Definition completed (tr : list bev) : list nat := omap (fun e => match e with EFn ph _ => Some ph | _ => None end) tr.
Definition nexts (tr : list bev) : list Z := omap (fun e => match e with EFn _ n => Some n | _ => None end) tr.
Definition expected_of (expected : Z) (tr : list bev) (p : nat) : option Z := (expected :: nexts tr) !! p.
Definition rasleep (s : brst) (i : nat) (l : brloc) : Prop := (exists ph b c, l = WBlocked ph b c) /\ i ∈ brq s.
Definition rquiescent (s : brst) (ts : list brloc) : Prop := forall i l, ts !! i = Some l -> l = Idle \/ rasleep s i l.
