(** Model of the shared state of std::promise, std::future, std::shared_future and of async(launch::deferred):
    stl/inc/future:183-470 (_Associated_state), 505-575 and 646-664 (_Packaged_state::_Call_immediate, _Deferred_async_state),
    683-818 (_State_manager), 825-854 and 960-990 (future, shared_future), 994-1105 (_Promise, promise).
    One shared state and every object that refers to it. Any number of threads run operations, each a small program whose steps interleave
    freely; a step is a critical section under _Mtx, an unlocked access, or a blocking wait. A critical section that tests and then waits
    is cut in two steps ([AWait0], [ALoop]), which only adds interleavings. notify_all moves every blocked waiter to [ALoop]; spurious
    wake-ups are allowed. Which thread runs an operation does not matter and is not recorded. Not modelled: the at_thread_exit functions
    (the mutex then stays locked until the thread ends), packaged_task, launch::async (a PPL task), overflow of the reference count. *)
From stdpp Require Import base list numbers option decidable.
From Coq Require Import ZArith Lia.

(** an exception a provider stores; [EBroken] is future_error(broken_promise) *)
Inductive exc := EUser (n : nat) | EBroken.
Inductive outc (V : Type) := Val (v : V) | Exc (e : exc).
Arguments Val {V}. Arguments Exc {V}.
Inductive status := StReady | StTimeout | StDeferred.
Inductive fev (V : Type) :=
  | ESet (r : outc V)        (* the result has been stored *)
  | ESetThrow                (* a provider got promise_already_satisfied *)
  | EGet (v : V)             (* get() returned *)
  | EGarbage                 (* get() returned a value nobody stored *)
  | EGetExc (e : exc)        (* get() threw the stored exception *)
  | EGetAgain                (* get() threw future_already_retrieved *)
  | ENoState                 (* an operation on a future that refers to this state threw no_state *)
  | EWaited                  (* wait() returned *)
  | EStatus (x : status)     (* wait_for() or wait_until() returned *)
  | ERun                     (* the deferred function was called *)
  | EFuture | EFutureThrow   (* get_future() returned, threw future_already_retrieved *)
  | ETerminate               (* an exception left ~promise *)
  | EDestroy.                (* the shared state was destroyed *)
Arguments ESet {V}. Arguments ESetThrow {V}. Arguments EGet {V}. Arguments EGarbage {V}. Arguments EGetExc {V}. Arguments EGetAgain {V}.
Arguments ENoState {V}. Arguments EWaited {V}. Arguments EStatus {V}. Arguments ERun {V}. Arguments EFuture {V}. Arguments EFutureThrow {V}.
Arguments ETerminate {V}. Arguments EDestroy {V}.

(** wait; get of a shared_future; get of a future (which it has been moved out of: it owns the reference) *)
Inductive kind := KW | KG | KU.
(** where an operation is *)
Inductive pc (V : Type) :=
  | ASet (r : outc V)                 (* set_value or set_exception: before the critical section *)
  | ADtor1 | ADtor2                   (* ~promise: before _Is_ready, before _Set_exception *)
  | ARel                              (* before _Release *)
  | AWait0 (k : kind)                 (* wait or get: before the critical section *)
  | ARun (k : kind)                   (* about to call the deferred function, unlocked *)
  | AStore (r : outc V) (k : kind)    (* about to store its result *)
  | ALoop (k : kind)                  (* before the test of the loop [while (!_Ready)] *)
  | ABlk (k : kind)                   (* blocked in _Cond.wait *)
  | ARead (k : kind)                  (* _Get_value has returned a reference to the result *)
  | AWf.                              (* wait_for or wait_until *)
Arguments ASet {V}. Arguments ADtor1 {V}. Arguments ADtor2 {V}. Arguments ARel {V}. Arguments AWait0 {V}. Arguments ARun {V}. Arguments AStore {V}.
Arguments ALoop {V}. Arguments ABlk {V}. Arguments ARead {V}. Arguments AWf {V}.

(** _Associated_state: future:189-192, 420-429; [gone]: destroyed *)
Record sh (V : Type) := Sh { refs : Z; stored : option V; exn : option exc; retrieved : bool; ready : bool; hasres : bool; running : bool; gone : bool }.
Arguments Sh {V}. Arguments refs {V}. Arguments stored {V}. Arguments exn {V}. Arguments retrieved {V}. Arguments ready {V}. Arguments hasres {V}.
Arguments running {V}. Arguments gone {V}.
(** [prom]: a promise refers to the state; [pret]: its _Future_retrieved; [nf] futures refer to it, shared_futures if [shrd] *)
Record fst_ (V : Type) := FS { shs : sh V; prom : bool; pret : bool; nf : nat; shrd : bool; acts : list (pc V) }.
Arguments FS {V}. Arguments shs {V}. Arguments prom {V}. Arguments pret {V}. Arguments nf {V}. Arguments shrd {V}. Arguments acts {V}.

Section fut.
(** the type of the result, is it default constructible, is the state a _Deferred_async_state *)
Context {V : Type} (dc deferred : bool).
Notation pc := (pc V). Notation sh := (sh V). Notation fev := (fev V).

(** future:378-384 *)
Definition already (s : sh) : bool := if dc then hasres s else hasres s || bool_decide (is_Some (exn s)).
(** _Emplace_result / _Exception = _Exc, then _Do_notify: future:320-330, 369, 437-449 *)
Definition store (s : sh) (r : outc V) : sh :=
  match r with
  | Val v => Sh (refs s) (Some v) (exn s) (retrieved s) true true (running s) (gone s)
  | Exc e => Sh (refs s) (stored s) (Some e) (retrieved s) true (if dc then true else hasres s) (running s) (gone s)
  end.
(** _Set_value_raw, _Set_exception_raw: future:337-345, 352-360, 367-378; None: throws promise_already_satisfied *)
Definition set_raw (s : sh) (r : outc V) : option sh := if already s then None else Some (store s r).
(** _Maybe_run_deferred_function: future:415-420, 646-664 *)
Definition maybe_run (s : sh) (k : kind) : sh * list pc :=
  (Sh (refs s) (stored s) (exn s) (retrieved s) (ready s) (hasres s) true (gone s), [if negb (running s) && deferred then ARun k else ALoop k]).
(** what follows when an operation ends: future::get destroys its local future: future:842-846 *)
Definition finish (k : kind) : list pc := match k with KU => [ARel] | _ => [] end.
Definition set_retrieved (s : sh) : sh := Sh (refs s) (stored s) (exn s) true (ready s) (hasres s) (running s) (gone s).

(** one step of one operation: event, new shared state, what is left of the operation, has notify_all been called *)
Inductive astep (s : sh) : pc -> option fev -> sh -> list pc -> bool -> Prop :=
  | as_set r s' : set_raw s r = Some s' -> astep s (ASet r) (Some (ESet r)) s' [] true                              (* 332-371 *)
  | as_set_throw r : set_raw s r = None -> astep s (ASet r) (Some ESetThrow) s [] false
  | as_dtor_ready : ready s = true -> astep s ADtor1 None s [ARel] false                                            (* 1069-1075 *)
  | as_dtor : ready s = false -> astep s ADtor1 None s [ADtor2] false
  | as_dtor_set s' : set_raw s (Exc EBroken) = Some s' -> astep s ADtor2 (Some (ESet (Exc EBroken))) s' [ARel] true
  | as_dtor_throw : set_raw s (Exc EBroken) = None -> astep s ADtor2 (Some ETerminate) s [ARel] false
  | as_rel : refs s <> 1%Z -> astep s ARel None (Sh (refs s - 1) (stored s) (exn s) (retrieved s) (ready s) (hasres s) (running s) (gone s)) [] false  (* 213-217 *)
  | as_rel_last : refs s = 1%Z -> astep s ARel (Some EDestroy) (Sh 0 (stored s) (exn s) (retrieved s) (ready s) (hasres s) (running s) true) [] false
  | as_wait : astep s (AWait0 KW) None (maybe_run s KW).1 (maybe_run s KW).2 false                                  (* 223-226 *)
  | as_get_again : retrieved s = true -> astep s (AWait0 KU) (Some EGetAgain) s [ARel] false                        (* 274-276 *)
  | as_get_exc k e : k <> KW -> (k = KU -> retrieved s = false) -> exn s = Some e -> astep s (AWait0 k) (Some (EGetExc e)) s (finish k) false  (* 278-280 *)
  | as_get k : k <> KW -> (k = KU -> retrieved s = false) -> exn s = None ->
      astep s (AWait0 k) None (maybe_run (set_retrieved s) k).1 (maybe_run (set_retrieved s) k).2 false             (* 284-285 *)
  | as_run r k : astep s (ARun k) (Some ERun) s [AStore r k] false                                                  (* 549-565: any result or exception *)
  | as_store r k s' : set_raw s r = Some s' -> astep s (AStore r k) (Some (ESet r)) s' [ALoop k] true
  | as_store_throw r k : set_raw s r = None -> astep s (AStore r k) (Some ESetThrow) s (finish k) false
  | as_loop_wait : ready s = true -> astep s (ALoop KW) (Some EWaited) s [] false                                   (* 227-229 *)
  | as_loop_exc k e : k <> KW -> ready s = true -> exn s = Some e -> astep s (ALoop k) (Some (EGetExc e)) s (finish k) false  (* 290-292 *)
  | as_loop_val k : k <> KW -> ready s = true -> exn s = None -> astep s (ALoop k) None s [ARead k] false           (* 294-298 *)
  | as_loop_block k : ready s = false -> astep s (ALoop k) None s [ABlk k] false                                    (* 286-288 *)
  | as_spurious k : astep s (ABlk k) None s [ALoop k] false
  | as_read k v : stored s = Some v -> astep s (ARead k) (Some (EGet v)) s (finish k) false                         (* 845 *)
  | as_read_none k : stored s = None -> astep s (ARead k) (Some EGarbage) s (finish k) false
  | as_wf_deferred : negb (running s) && deferred = true -> astep s AWf (Some (EStatus StDeferred)) s [] false      (* 244-269 *)
  | as_wf_ready : negb (running s) && deferred = false -> ready s = true -> astep s AWf (Some (EStatus StReady)) s [] false
  | as_wf_timeout : negb (running s) && deferred = false -> ready s = false -> astep s AWf (Some (EStatus StTimeout)) s [] false.

Definition wake (n : bool) (a : pc) : pc := if n then match a with ABlk k => ALoop k | _ => a end else a.
(** does the operation use a future object that the caller must keep alive; does it use the promise *)
Definition borrows (a : pc) : bool :=
  match a with AWait0 k | ARun k | AStore _ k | ALoop k | ABlk k | ARead k => match k with KU => false | _ => true end | AWf => true | _ => false end.
Definition sets (a : pc) : bool := match a with ASet _ => true | _ => false end.
Definition none_of (f : pc -> bool) (l : list pc) : Prop := forall a, a ∈ l -> f a = false.
(** _State_manager::valid: future:735-737 *)
Definition valid (s : sh) (shared : bool) : bool := negb (negb shared && retrieved s).
Definition addref (s : sh) : sh := Sh (refs s + 1) (stored s) (exn s) (retrieved s) (ready s) (hasres s) (running s) (gone s).

(** a step of the system: an operation goes on, or one begins. The caller must not destroy or move from an object while an operation
    on it is under way; concurrent set and const operations on one object are allowed *)
Inductive fstep (x : fst_ V) : option fev -> fst_ V -> Prop :=
  | fs_act l1 a l2 e s' r n : acts x = l1 ++ a :: l2 -> astep (shs x) a e s' r n ->
      fstep x e (FS s' (prom x) (pret x) (nf x) (shrd x) (map (wake n) (l1 ++ r ++ l2)))
  | fs_set r : prom x = true -> fstep x None (FS (shs x) true (pret x) (nf x) (shrd x) (acts x ++ [ASet r]))                   (* 1085-1103 *)
  | fs_future : prom x = true -> pret x = false -> fstep x (Some EFuture) (FS (addref (shs x)) true true (S (nf x)) (shrd x) (acts x))  (* 1022-1033 *)
  | fs_future_throw : prom x = true -> pret x = true -> fstep x (Some EFutureThrow) x
  | fs_pdtor : prom x = true -> none_of sets (acts x) -> fstep x None (FS (shs x) false (pret x) (nf x) (shrd x) (acts x ++ [ADtor1]))
  | fs_wait : 1 <= nf x -> valid (shs x) (shrd x) = true -> fstep x None (FS (shs x) (prom x) (pret x) (nf x) (shrd x) (acts x ++ [AWait0 KW]))   (* 739-745 *)
  | fs_wait_for : 1 <= nf x -> valid (shs x) (shrd x) = true -> fstep x None (FS (shs x) (prom x) (pret x) (nf x) (shrd x) (acts x ++ [AWf]))     (* 747-764 *)
  | fs_no_state : 1 <= nf x -> valid (shs x) (shrd x) = false -> fstep x (Some ENoState) x
  | fs_get_shared : 1 <= nf x -> shrd x = true -> fstep x None (FS (shs x) (prom x) (pret x) (nf x) true (acts x ++ [AWait0 KG]))                 (* 982-985 *)
  | fs_get : nf x = 1 -> shrd x = false -> valid (shs x) false = true -> none_of borrows (acts x) ->
      fstep x None (FS (shs x) (prom x) (pret x) 0 false (acts x ++ [AWait0 KU]))                                                                 (* 842-846 *)
  | fs_share : nf x = 1 -> shrd x = false -> none_of borrows (acts x) -> fstep x None (FS (shs x) (prom x) (pret x) 1 true (acts x))              (* 848-850 *)
  | fs_copy : 1 <= nf x -> shrd x = true -> fstep x None (FS (addref (shs x)) (prom x) (pret x) (S (nf x)) true (acts x))                         (* 691-696 *)
  | fs_fdtor : 1 <= nf x -> (nf x = 1 -> none_of borrows (acts x)) -> fstep x None (FS (shs x) (prom x) (pret x) (nf x - 1) (shrd x) (acts x ++ [ARel])).  (* 701-705 *)

(** promise(): future:1057; async(launch::deferred, f): the state belongs to the future it returns: future:1425-1475 *)
Definition finit : fst_ V :=
  if deferred then FS (Sh 1 None None false false false false false) false true 1 false []
  else FS (Sh 1 None None false false false false false) true false 0 false [].
Definition evl (e : option fev) : list fev := match e with Some x => [x] | None => [] end.
Inductive freach : list fev -> fst_ V -> Prop :=
  | freach_init : freach [] finit
  | freach_step tr x e y : freach tr x -> fstep x e y -> freach (tr ++ evl e) y.
End fut.
