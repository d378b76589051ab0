(** Model of shared_ptr / weak_ptr reference counting (stl/inc/memory:1126-1478, 1588-1900, 3165-3276) as interleaved
    atomic steps of any number of threads over any number of pointer objects and control blocks.
    - [vars] is the pool of shared_ptr and weak_ptr objects that exist (temporaries inside the modelled functions are kept
      in the thread's continuation); each holds the pair _Ptr, _Rep. Any thread may use any object.
    - A thread is a stack of pending micro-steps; each touches a control block's counter at most once (the Interlocked
      intrinsics). When its stack is empty, or while it runs the destructor of a managed resource (InDtor on top), the
      thread is in user code and may call any operation, so destructors may themselves create, copy and destroy pointers.
    - Data-race freedom is the client's obligation: an object may be read by several threads at a time, but be modified
      or destroyed only when nobody is reading it; [vrd] counts the operations reading it. Steps that violate it are not
      enabled; the operations take exclusive access only at the moment they modify the object, so more executions are
      covered than race-free clients have.
    Simplifications: counts are unbounded integers (no overflow of long); allocation of a control block does not fail;
    a resource is identified with the first control block that owns it (making two owners from one raw pointer is the
    client's error); sequentially consistent memory (the increments are relaxed and the decrements are not, which matters
    for visibility of the resource's contents only). shared_ptr::reset(p...) and operator=(unique_ptr&&) are the
    composition of construction, swap and destruction, all modelled; make_shared differs in storage layout only.
    enable_shared_from_this is user code in this model: its weak_ptr is an object of the pool that is assigned after
    construction (memory:1886-1894) and destroyed inside the destructor of the resource. *)
From stdpp Require Import base list numbers option decidable.
From Coq Require Import ZArith Lia.
Local Open Scope Z_scope.

Inductive kind := Strong | Weak.                              (* shared_ptr, weak_ptr *)
#[global] Instance kind_dec : EqDecision kind. Proof. solve_decision. Defined.
Record var := Var { vk : kind; vp : Z; vr : option nat; vrd : Z }.    (* _Ptr (0 = nullptr), _Rep, ghost reader count *)
(** memory:1126-1148 _Ref_count_base: _Uses and _Weaks start at 1; [live]: resource not destroyed; [freed]: block gone *)
Record blk := Blk { uses : Z; weaks : Z; live : bool; freed : bool }.
Record st := St { vars : list (option var); blocks : list blk }.
Inductive ev :=
  | EDestroy (b : nat)                 (* the deleter of block b's resource is invoked *)
  | EFree (b : nat)                    (* block b is deleted *)
  | ELock (v b : nat) (ok : bool)      (* lock() on weak_ptr object v owning b: took ownership or found it expired *)
  | EUse (v : nat) (n : Z).            (* use_count() returned n *)
Inductive ins :=
  | CopyInc (kd : kind) (src : nat) (asg : bool) (dst : nat) (p : Z) (b : nat)    (* before _Incref / _Incwref of a copy *)
  | LockLoad (src dst : nat) (p : Z) (b : nat) | LockCas (src dst : nat) (p : Z) (b : nat) (c : Z)    (* _Incref_nz in lock *)
  | ConvInc (src dst : nat) (p : Z) (b : nat)                                     (* converting weak copy, before _Incwref *)
  | ConvLoad (src : option nat) (dst : nat) (p : Z) (b : nat) | ConvCas (src : option nat) (dst : nat) (p : Z) (b : nat) (c : Z)
  | Put (dst : nat) (kd : kind) (p : Z) (r : option nat)                          (* dst becomes the new object *)
  | Assign (dst : nat) (kd : kind) (p : Z) (r : option nat)                       (* swap with dst, then destroy the old value *)
  | EndRead (v : nat)
  | Decref (b : nat) | Destroy (b : nat) | InDtor (b : nat) | Decwref (b : nat) | Delete (b : nat)
  | Fault.                                                                        (* touched a deleted block, destroyed or deleted twice *)

Definition block (s : st) (b : nat) : option blk :=
  match blocks s !! b with Some x => if freed x then None else Some x | None => None end.
Definition setb (s : st) (b : nat) (x : blk) : st := St (vars s) (<[b := x]> (blocks s)).
Definition setv (s : st) (v : nat) (x : option var) : st := St (<[v := x]> (vars s)) (blocks s).
(** the block an instruction is about to touch *)
Definition touches (c : ins) : option nat :=
  match c with
  | CopyInc _ _ _ _ _ b | LockLoad _ _ _ b | LockCas _ _ _ b _ | ConvInc _ _ _ b | ConvLoad _ _ _ b | ConvCas _ _ _ b _
  | Decref b | Destroy b | InDtor b | Decwref b | Delete b => Some b
  | Put _ _ _ _ | Assign _ _ _ _ | EndRead _ | Fault => None
  end.
(** user code may run: outside every operation, or inside the destructor of a resource *)
Definition user (k : list ins) : Prop := k = [] \/ exists b k', k = InDtor b :: k'.
(** memory:1406-1410, 1470-1474, 1712-1714, 3227-3229 destructors: release the reference if there is one *)
Definition release (kd : kind) (r : option nat) : list ins :=
  match r with None => [] | Some b => [match kd with Strong => Decref b | Weak => Decwref b end] end.
(** memory:1357-1373, 1417-1426, 1716-1725, 3231-3240: finishing a copy: construct dst, or (copy assignment)
    swap the temporary into dst and destroy the old value *)
Definition finish (asg : bool) (src dst : nat) (kd : kind) (p : Z) (r : option nat) : list ins :=
  if asg then [EndRead src; Assign dst kd p r] else [Put dst kd p r; EndRead src].
Definition end_read (src : option nat) : list ins := match src with Some v => [EndRead v] | None => [] end.

Inductive sp_step (i : nat) : st -> list ins -> option ev -> st -> list ins -> Prop :=
  (* memory:1607-1646 shared_ptr(p), shared_ptr(p, deleter[, alloc]), make_shared: new block with _Uses = _Weaks = 1 *)
  | p_new s k v p : user k -> vars s !! v = Some None ->
      sp_step i s k None (St (<[v := Some (Var Strong p (Some (length (blocks s))) 0)]> (vars s)) (blocks s ++ [Blk 1 1 true false])) k
  (* memory:1599-1601, 3182 default construction *)
  | p_null s k v kd : user k -> vars s !! v = Some None -> sp_step i s k None (setv s v (Some (Var kd 0 None 0))) k
  (* memory:1347-1355, 1375-1383 move construction, with or without a different _Ptr; exclusive access to both *)
  | p_move s k v w kd p r p' : user k -> vars s !! v = Some (Some (Var kd p r 0)) -> vars s !! w = Some None ->
      sp_step i s k None (setv (setv s v (Some (Var kd 0 None 0))) w (Some (Var kd p' r 0))) k
  (* memory:1412-1415 swap *)
  | p_swap s k v w kd p r p' r' : user k -> v <> w -> vars s !! v = Some (Some (Var kd p r 0)) -> vars s !! w = Some (Some (Var kd p' r' 0)) ->
      sp_step i s k None (setv (setv s v (Some (Var kd p' r' 0))) w (Some (Var kd p r 0))) k
  (* memory:1712-1714, 3227-3229 destruction *)
  | p_destroy s k v kd p r : user k -> vars s !! v = Some (Some (Var kd p r 0)) ->
      sp_step i s k None (setv s v None) (release kd r ++ k)
  (* memory:1727-1753, 3242-3252 move assignment: construct a temporary from v, swap it into w, destroy the old value *)
  | p_move_assign s k v w kd p r : user k -> vars s !! v = Some (Some (Var kd p r 0)) ->
      sp_step i s k None (setv s v (Some (Var kd 0 None 0))) (Assign w kd p r :: k)
  (* memory:1759-1761, 3259-3261 reset *)
  | p_reset s k w kd : user k -> sp_step i s k None s (Assign w kd 0 None :: k)
  (* memory:1357-1373, 1417-1426, 1716-1725, 3184-3191, 3231-3257 copy construction (also aliasing: p' is the new _Ptr)
     and copy assignment; a weak_ptr may be made from a shared_ptr; the copied object is read until EndRead *)
  | p_copy s k v w kd kd' p r rd p' asg : user k -> vars s !! v = Some (Some (Var kd' p r rd)) -> (kd = Weak \/ kd' = Strong) ->
      (kd = Weak -> p' = p) ->
      sp_step i s k None (setv s v (Some (Var kd' p r (rd + 1))))
        (match r with
         | Some b => CopyInc kd v asg w p' b :: k
         | None => finish asg v w kd (if decide (kd = Weak) then 0 else p') None ++ k
         end)
  (* memory:1174-1180 _Incref, _Incwref *)
  | p_incref s k v asg w p b x : block s b = Some x ->
      sp_step i s (CopyInc Strong v asg w p b :: k) None (setb s b (Blk (uses x + 1) (weaks x) (live x) (freed x)))
        (finish asg v w Strong p (Some b) ++ k)
  | p_incwref s k v asg w p b x : block s b = Some x ->
      sp_step i s (CopyInc Weak v asg w p b :: k) None (setb s b (Blk (uses x) (weaks x + 1) (live x) (freed x)))
        (finish asg v w Weak p (Some b) ++ k)
  (* memory:3271-3275, 1388-1398 lock *)
  | p_lock s k v w p r rd : user k -> vars s !! v = Some (Some (Var Weak p r rd)) ->
      sp_step i s k None (setv s v (Some (Var Weak p r (rd + 1))))
        (match r with Some b => LockLoad v w p b :: k | None => Put w Strong 0 None :: EndRead v :: k end)
  (* memory:1154-1171 _Incref_nz: load, then compare-exchange while the count is not zero *)
  | p_lockload s k v w p b x : block s b = Some x -> uses x <> 0 ->
      sp_step i s (LockLoad v w p b :: k) None s (LockCas v w p b (uses x) :: k)
  | p_lockload0 s k v w p b x : block s b = Some x -> uses x = 0 ->
      sp_step i s (LockLoad v w p b :: k) (Some (ELock v b false)) s (Put w Strong 0 None :: EndRead v :: k)
  | p_lockcas_ok s k v w p b x : block s b = Some x ->
      sp_step i s (LockCas v w p b (uses x) :: k) (Some (ELock v b true)) (setb s b (Blk (uses x + 1) (weaks x) (live x) (freed x)))
        (Put w Strong p (Some b) :: EndRead v :: k)
  | p_lockcas_retry s k v w p b x c : block s b = Some x -> uses x <> c -> uses x <> 0 ->
      sp_step i s (LockCas v w p b c :: k) None s (LockCas v w p b (uses x) :: k)
  | p_lockcas_fail s k v w p b x c : block s b = Some x -> uses x <> c -> uses x = 0 ->
      sp_step i s (LockCas v w p b c :: k) (Some (ELock v b false)) s (Put w Strong 0 None :: EndRead v :: k)
  (* memory:1428-1444 weak_ptr<T>(const weak_ptr<U>&) avoiding conversions of expired pointers *)
  | p_conv s k v w p r rd : user k -> vars s !! v = Some (Some (Var Weak p r rd)) ->
      sp_step i s k None (setv s v (Some (Var Weak p r (rd + 1))))
        (match r with Some b => ConvInc v w p b :: k | None => Put w Weak 0 None :: EndRead v :: k end)
  | p_convinc s k v w p b x : block s b = Some x ->
      sp_step i s (ConvInc v w p b :: k) None (setb s b (Blk (uses x) (weaks x + 1) (live x) (freed x)))
        (ConvLoad (Some v) w p b :: k)
  (* memory:1446-1461 weak_ptr<T>(weak_ptr<U>&&): takes over the reference; v is left empty *)
  | p_convmove s k v w p r : user k -> vars s !! v = Some (Some (Var Weak p r 0)) ->
      sp_step i s k None (setv s v (Some (Var Weak 0 None 0)))
        (match r with Some b => ConvLoad None w p b :: k | None => Put w Weak 0 None :: k end)
  | p_convload s k v w p b x : block s b = Some x -> uses x <> 0 ->
      sp_step i s (ConvLoad v w p b :: k) None s (ConvCas v w p b (uses x) :: k)
  | p_convload0 s k v w p b x : block s b = Some x -> uses x = 0 ->
      sp_step i s (ConvLoad v w p b :: k) None s (Put w Weak 0 (Some b) :: end_read v ++ k)
  | p_convcas_ok s k v w p b x : block s b = Some x ->
      sp_step i s (ConvCas v w p b (uses x) :: k) None (setb s b (Blk (uses x + 1) (weaks x) (live x) (freed x)))
        (Decref b :: Put w Weak p (Some b) :: end_read v ++ k)
  | p_convcas_retry s k v w p b x c : block s b = Some x -> uses x <> c -> uses x <> 0 ->
      sp_step i s (ConvCas v w p b c :: k) None s (ConvCas v w p b (uses x) :: k)
  | p_convcas_fail s k v w p b x c : block s b = Some x -> uses x <> c -> uses x = 0 ->
      sp_step i s (ConvCas v w p b c :: k) None s (Put w Weak 0 (Some b) :: end_read v ++ k)
  (* the new object appears; w must be raw storage *)
  | p_put s k w kd p r : vars s !! w = Some None -> sp_step i s (Put w kd p r :: k) None (setv s w (Some (Var kd p r 0))) k
  (* swap into w (exclusive access), destroy the old value *)
  | p_assign s k w kd p r p' r' : vars s !! w = Some (Some (Var kd p' r' 0)) ->
      sp_step i s (Assign w kd p r :: k) None (setv s w (Some (Var kd p r 0))) (release kd r' ++ k)
  | p_endread s k v kd p r rd : vars s !! v = Some (Some (Var kd p r rd)) ->
      sp_step i s (EndRead v :: k) None (setv s v (Some (Var kd p r (rd - 1)))) k
  (* memory:1182-1193 _Decref, _Decwref *)
  | p_decref s k b x : block s b = Some x ->
      sp_step i s (Decref b :: k) None (setb s b (Blk (uses x - 1) (weaks x) (live x) (freed x)))
        (if decide (uses x - 1 = 0) then Destroy b :: k else k)
  | p_decwref s k b x : block s b = Some x ->
      sp_step i s (Decwref b :: k) None (setb s b (Blk (uses x) (weaks x - 1) (live x) (freed x)))
        (if decide (weaks x - 1 = 0) then Delete b :: k else k)
  (* memory:1184-1186, 1211-1213, 1236-1238 _Destroy, then _Decwref *)
  | p_dtor s k b x : block s b = Some x ->
      sp_step i s (Destroy b :: k) (Some (EDestroy b)) (setb s b (Blk (uses x) (weaks x) false (freed x)))
        (if live x then InDtor b :: k else Fault :: k)
  | p_dtor_end s k b : sp_step i s (InDtor b :: k) None s (Decwref b :: k)
  (* memory:1215-1217 _Delete_this *)
  | p_delete s k b x : block s b = Some x ->
      sp_step i s (Delete b :: k) (Some (EFree b)) (setb s b (Blk (uses x) (weaks x) (live x) true)) k
  (* memory:1195-1197, 1317-1319 use_count (expired() is use_count() == 0) *)
  | p_use s k v kd p r rd : user k -> vars s !! v = Some (Some (Var kd p r rd)) ->
      sp_step i s k (Some (EUse v (match r with Some b => match block s b with Some x => uses x | None => -1 end | None => 0 end))) s k
  (* touching a block that has been deleted *)
  | p_fault s k c b : touches c = Some b -> block s b = None -> sp_step i s (c :: k) None s (Fault :: k).

(** [m] pieces of raw storage for pointer objects, no control block, [n] threads *)
Definition sp_init (m n : nat) : st * list (list ins) := (St (replicate m None) [], replicate n []).

(** what a user sees: how many shared_ptr (weak_ptr) objects own block b *)
Definition owns (kd : kind) (b : nat) (o : option var) : Z :=
  match o with Some x => if decide (vk x = kd /\ vr x = Some b) then 1 else 0 | None => 0 end.
Definition owners (kd : kind) (s : st) (b : nat) : Z := foldr (fun o acc => owns kd b o + acc) 0 (vars s).
Definition count (e : ev -> bool) (tr : list ev) : nat := length (List.filter e tr).
Definition is_destroy (b : nat) (e : ev) : bool := match e with EDestroy b' => bool_decide (b' = b) | _ => false end.
Definition is_free (b : nat) (e : ev) : bool := match e with EFree b' => bool_decide (b' = b) | _ => false end.
