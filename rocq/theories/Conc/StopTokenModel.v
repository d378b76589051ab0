(** Model of one _Stop_state shared by stop_source, stop_token and stop_callback objects (stl/inc/stop_token), as interleaved
    atomic steps. Callback objects are numbered; [nxt]/[prv]/[par] are their _Next, _Prev and _Parent (par: _Parent is set).
    A thread is a stack [ctx] of callbacks it is running (true: called by request_stop, false: called by the constructor)
    and the operation [op] in progress; [op = None] means user code, which may call any operation, so callbacks may register,
    deregister (themselves included) and request_stop.
    The _Locked_pointer (atomic:2938-3001) is the flag [locked] with the head [hd] (LockedPointerModel.v models and verifies it). Accesses to
    the callback list happen under the lock and are merged with the unlock into one step. Reads of _Stop_sources,
    _Current_callback and the notifications are separate steps. atomic wait: the kernel compares and enqueues atomically;
    waiters may wake spuriously; notify_all empties the queue.
    [life] is a ghost: the client's view of each callback object, used for client preconditions (constructed once, destroyed
    once after construction; the source of a request_stop call is alive). Reference counts (_Stop_tokens) and deletion of the
    state are not modelled, nor is address reuse by callback objects. *)
From stdpp Require Import base list numbers option decidable.
From Coq Require Import ZArith Lia.
Local Open Scope nat_scope.

Inductive life := Unborn | Ctor | Alive | Dtor | Dead.
Inductive pev :=
  | EReq (i : nat) (b : bool)                 (* request_stop returns b *)
  | ECtor (n : nat) | ECtorEnd (n : nat)      (* stop_callback n: constructor called, returned *)
  | ERun (i n : nat) | EDone (i n : nat)      (* callback n invoked by thread i, returned *)
  | EDtor (n : nat) | EDtorEnd (i n : nat).   (* destructor called, returned (in thread i) *)
Record pst := Pst {
  srcs : nat; requested : bool;               (* _Stop_sources: count and low-order bit *)
  locked : bool; hd : option nat; nxt : nat -> option nat; prv : nat -> option nat; par : nat -> bool;
  cur : option nat; stopper : option nat; wq : list nat; lives : nat -> life }.
Inductive pop :=
  | RFetch | RTid | RLock | RCur | RNot | RHead | RCall (n : nat)
  | AFast (n : nat) | ALock (n : nat) | AChk (n : nat) | AIns (n : nat) | ACall (n : nat) | ARet (n : nat)
  | DPar (n : nat) | DLock (n : nat) | DChk (n : nat) | DWait (n : nat) | DBlk (n : nat) | DRet (n : nat)
  | RFail | DFail (n : nat).                   (* an _STL_INTERNAL_CHECK failed *)
Definition ploc : Type := list (nat * bool) * option pop.
Definition upd {B} (f : nat -> B) (k : nat) (v : B) : nat -> B := fun x => if decide (x = k) then v else f x.
Definition updo {B} (f : nat -> B) (k : option nat) (v : B) : nat -> B := match k with Some k => upd f k v | None => f end.
Definition set_life (s : pst) n v := Pst (srcs s) (requested s) (locked s) (hd s) (nxt s) (prv s) (par s) (cur s) (stopper s) (wq s) (upd (lives s) n v).
Definition set_lock (s : pst) b := Pst (srcs s) (requested s) b (hd s) (nxt s) (prv s) (par s) (cur s) (stopper s) (wq s) (lives s).
Definition set_srcs (s : pst) k := Pst k (requested s) (locked s) (hd s) (nxt s) (prv s) (par s) (cur s) (stopper s) (wq s) (lives s).
Definition set_wq (s : pst) q := Pst (srcs s) (requested s) (locked s) (hd s) (nxt s) (prv s) (par s) (cur s) (stopper s) q (lives s).
(** write list pointers and unlock *)
Definition set_list (s : pst) h nx pv := Pst (srcs s) (requested s) false h nx pv (par s) (cur s) (stopper s) (wq s) (lives s).

Inductive sp_step (i : nat) : pst -> ploc -> option pev -> pst -> ploc -> Prop :=
  (* user code: the thread's own, or the body of the callback on top of ctx *)
  | p_src_copy s c : 0 < srcs s -> sp_step i s (c, None) None (set_srcs s (S (srcs s))) (c, None)          (* stop_token:177-182 *)
  | p_src_drop s c : 0 < srcs s -> sp_step i s (c, None) None (set_srcs s (srcs s - 1)) (c, None)          (* stop_token:195-204 *)
  | p_request s c : 0 < srcs s -> sp_step i s (c, None) None s (c, Some RFetch)
  | p_ctor s c n : lives s n = Unborn -> sp_step i s (c, None) (Some (ECtor n)) (set_life s n Ctor) (c, Some (AFast n))
  | p_dtor s c n : lives s n = Alive -> sp_step i s (c, None) (Some (EDtor n)) (set_life s n Dtor) (c, Some (DPar n))
  (* the callback returns: stop_token:114 back to the loop; stop_token:262, 277 return *)
  | p_done s c n rs : sp_step i s ((n, rs) :: c, None) (Some (EDone i n)) s (c, Some (if rs then RLock else ARet n))
  (* stop_token:84-118 _Request_stop *)
  | p_fetch_again s c : 0 < srcs s -> requested s = true -> sp_step i s (c, Some RFetch) (Some (EReq i false)) s (c, None)
  | p_fetch k l h nx pv pa cu st q li c : 0 < k ->
      sp_step i (Pst k false l h nx pv pa cu st q li) (c, Some RFetch) None (Pst k true l h nx pv pa cu st q li) (c, Some RTid)
  | p_tid k r l h nx pv pa cu st q li c :
      sp_step i (Pst k r l h nx pv pa cu st q li) (c, Some RTid) None (Pst k r l h nx pv pa cu (Some i) q li) (c, Some RLock)
  | p_rlock s c : locked s = false -> sp_step i s (c, Some RLock) None (set_lock s true) (c, Some RCur)
  | p_rcur k r l h nx pv pa cu st q li c :
      sp_step i (Pst k r l h nx pv pa cu st q li) (c, Some RCur) None (Pst k r l h nx pv pa h st q li) (c, Some RNot)
  | p_rnot s c : sp_step i s (c, Some RNot) None (set_wq s []) (c, Some RHead)
  | p_rhead_end s c : hd s = None -> sp_step i s (c, Some RHead) (Some (EReq i true)) (set_lock s false) (c, None)
  (* stop_token:103-112: exchange(_Head->_Next, nullptr); _Next->_Prev = nullptr; store _Next and unlock *)
  | p_rhead s c n : hd s = Some n -> prv s n = None ->
      sp_step i s (c, Some RHead) None (set_list s (nxt s n) (upd (nxt s) n None) (updo (prv s) (nxt s n) None)) (c, Some (RCall n))
  | p_rhead_bad s c n : hd s = Some n -> prv s n <> None -> sp_step i s (c, Some RHead) None s (c, Some RFail)
  | p_rcall s c n : sp_step i s (c, Some (RCall n)) (Some (ERun i n)) s ((n, true) :: c, None)
  (* stop_token:257-303 _Do_attach *)
  | p_afast_req s c n : requested s = true -> sp_step i s (c, Some (AFast n)) None s (c, Some (ACall n))
  | p_afast_none s c n : requested s = false -> srcs s = 0 -> sp_step i s (c, Some (AFast n)) None s (c, Some (ARet n))
  | p_afast s c n : requested s = false -> srcs s <> 0 -> sp_step i s (c, Some (AFast n)) None s (c, Some (ALock n))
  | p_alock s c n : locked s = false -> sp_step i s (c, Some (ALock n)) None (set_lock s true) (c, Some (AChk n))
  | p_achk_req s c n : requested s = true -> sp_step i s (c, Some (AChk n)) None (set_lock s false) (c, Some (ACall n))
  | p_achk_none s c n : requested s = false -> srcs s = 0 -> sp_step i s (c, Some (AChk n)) None (set_lock s false) (c, Some (ARet n))
  | p_achk s c n : requested s = false -> srcs s <> 0 -> sp_step i s (c, Some (AChk n)) None s (c, Some (AIns n))
  | p_ains k r l h nx pv pa cu st q li c n :
      sp_step i (Pst k r l h nx pv pa cu st q li) (c, Some (AIns n)) None
        (Pst k r false (Some n) (upd nx n h) (updo pv h (Some n)) (upd pa n true) cu st q li) (c, Some (ARet n))
  | p_acall s c n : sp_step i s (c, Some (ACall n)) (Some (ERun i n)) s ((n, false) :: c, None)
  | p_aret s c n : sp_step i s (c, Some (ARet n)) (Some (ECtorEnd n)) (set_life s n Alive) (c, None)
  (* stop_token:313-360 _Detach *)
  | p_dpar_no s c n : par s n = false -> sp_step i s (c, Some (DPar n)) None s (c, Some (DRet n))
  | p_dpar s c n : par s n = true -> sp_step i s (c, Some (DPar n)) None s (c, Some (DLock n))
  | p_dlock s c n : locked s = false -> sp_step i s (c, Some (DLock n)) None (set_lock s true) (c, Some (DChk n))
  | p_dchk_head s c n : hd s = Some n -> prv s n = None ->
      sp_step i s (c, Some (DChk n)) None (set_list s (nxt s n) (nxt s) (updo (prv s) (nxt s n) None)) (c, Some (DRet n))
  | p_dchk_head_bad s c n : hd s = Some n -> prv s n <> None -> sp_step i s (c, Some (DChk n)) None s (c, Some (DFail n))
  | p_dchk_mid s c n p : hd s <> Some n -> prv s n = Some p ->
      sp_step i s (c, Some (DChk n)) None (set_list s (hd s) (upd (nxt s) p (nxt s n)) (updo (prv s) (nxt s n) (Some p))) (c, Some (DRet n))
  | p_dchk_bad s c n : hd s <> Some n -> prv s n = None -> requested s = false -> sp_step i s (c, Some (DChk n)) None s (c, Some (DFail n))
  | p_dchk_done s c n : hd s <> Some n -> prv s n = None -> requested s = true -> (cur s <> Some n \/ stopper s = Some i) ->
      sp_step i s (c, Some (DChk n)) None (set_lock s false) (c, Some (DRet n))
  | p_dchk_wait s c n : hd s <> Some n -> prv s n = None -> requested s = true -> cur s = Some n -> stopper s <> Some i ->
      sp_step i s (c, Some (DChk n)) None (set_lock s false) (c, Some (DWait n))
  | p_dwait_pass s c n : cur s <> Some n -> sp_step i s (c, Some (DWait n)) None s (c, Some (DRet n))
  | p_dwait_block s c n : cur s = Some n -> sp_step i s (c, Some (DWait n)) None (set_wq s (i :: wq s)) (c, Some (DBlk n))
  | p_dblk_woken s c n : i ∉ wq s -> sp_step i s (c, Some (DBlk n)) None s (c, Some (DWait n))
  | p_dblk_spurious s c n q' : wq s ≡ₚ i :: q' -> sp_step i s (c, Some (DBlk n)) None (set_wq s q') (c, Some (DWait n))
  | p_dret s c n : sp_step i s (c, Some (DRet n)) (Some (EDtorEnd i n)) (set_life s n Dead) (c, None).
(** stop_token:66-73: one stop_source *)
Definition sp_init (k : nat) : pst * list ploc :=
  (Pst 1 false false None (fun _ => None) (fun _ => None) (fun _ => false) None None [] (fun _ => Unborn), replicate k ([], None)).

(** the user's view: how often callback n was invoked (by thread i), how often such an invocation returned, how often
    request_stop answered true *)
Definition ecount (f : pev -> Z) (tr : list pev) : Z := foldr (fun e acc => (f e + acc)%Z) 0%Z tr.
Definition runs (n : nat) : list pev -> Z := ecount (fun e => match e with ERun _ m => if decide (m = n) then 1%Z else 0%Z | _ => 0%Z end).
Definition runs_by (i n : nat) : list pev -> Z := ecount (fun e => match e with ERun j m => if decide (j = i /\ m = n) then 1%Z else 0%Z | _ => 0%Z end).
Definition dones_by (i n : nat) : list pev -> Z := ecount (fun e => match e with EDone j m => if decide (j = i /\ m = n) then 1%Z else 0%Z | _ => 0%Z end).
Definition wins : list pev -> Z := ecount (fun e => match e with EReq _ true => 1%Z | _ => 0%Z end).
