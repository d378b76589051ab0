(** Model of std::pmr::monotonic_buffer_resource (stl/inc/memory_resource:592-742) and std::align (stl/inc/xmemory:2732-2747).
    Addresses and sizes are w-bit unsigned numbers (w = 8*A, A = sizeof(void* ) = alignof(_Header), sizeof(_Header) = 3*A: the
    two instances of interest are A = 8 and A = 4); every arithmetic result that C++ reduces modulo 2^w is written [wrap].
    Memory contents are modelled only where the resource keeps its own data: [hdr x] is the _Header object at address x, if its
    bytes are intact. Clients may write to the bytes they were given ([clobber]); the upstream resource may scribble over a
    block as soon as it is deallocated. The upstream resource is any function of the history that respects its contract. *)
From stdpp Require Import base list numbers option decidable.
From Coq Require Import ZArith Lia.
Local Open Scope Z_scope.

Section mono.
Context (A : Z).                                                   (* 4 or 8 *)
Definition W : Z := 2 ^ (8 * A).
Definition wrap (x : Z) : Z := x mod W.
Definition H : Z := 3 * A.                                         (* sizeof(_Header): memory_resource:670-674 *)
Definition Min_allocation : Z := 2 * H.                            (* memory_resource:681 *)
Definition Max_allocation : Z := wrap (0 - A).                     (* memory_resource:682 *)

(** xmemory:2732-2747; None: nullptr returned because there is no room; otherwise the new _Ptr (which is returned) and _Space *)
Definition align (bound size ptr space : Z) : option (Z * Z) :=
  let off := Z.land ptr (wrap (bound - 1)) in
  let off := if decide (off <> 0) then wrap (bound - off) else off in
  if decide (space < off \/ wrap (space - off) < size) then None
  else Some (wrap (ptr + off), wrap (space - off)).

(** memory_resource:684-698 *)
Definition Round (size : Z) : Z :=
  if decide (size < Min_allocation) then Min_allocation
  else if decide (Max_allocation <= size) then Max_allocation
  else Z.land (wrap (wrap (size + A) - 1)) Max_allocation.
(** memory_resource:700-712 *)
Definition Scale (size : Z) : Z :=
  let max_size := wrap (wrap (wrap (Max_allocation - A) + 1) / 3 * 2) in
  if decide (max_size <= size) then Max_allocation
  else Z.land (wrap (wrap (wrap (size + wrap (size + 1) / 2) + A) - 1)) Max_allocation.

Record header := Hdr { h_next : Z; h_size : Z; h_align : Z }.
Record mbst := Mb { cur : Z; space : Z; nextsz : Z; chunks : Z; hdr : Z -> option header }.
(** what happens between the resource, its client and the upstream resource *)
Inductive mbev :=
  | EUp (p n a : Z)          (* upstream->allocate(n, a) returned p *)
  | EUpFree (p n a : Z)      (* upstream->deallocate(p, n, a) called *)
  | EAlloc (p n a : Z)       (* allocate(n, a) returned p *)
  | EThrow (n a : Z)         (* allocate(n, a) threw *)
  | ERelease                 (* release() returned *)
  | EWrite (q m : Z).        (* the client wrote to m bytes at q *)
(** allocations since the last release (newest first); upstream blocks not yet given back (newest first) *)
Definition live1 (l : list (Z * Z)) (e : mbev) : list (Z * Z) := match e with EAlloc p n _ => (p, n) :: l | ERelease => [] | _ => l end.
Definition live (tr : list mbev) : list (Z * Z) := foldl live1 [] tr.
Definition outst1 (l : list (Z * Z * Z)) (e : mbev) : list (Z * Z * Z) :=
  match e with EUp p n a => (p, n, a) :: l | EUpFree p n a => filter (fun b => b <> (p, n, a)) l | _ => l end.
Definition outst (tr : list mbev) : list (Z * Z * Z) := foldl outst1 [] tr.

(** memory_resource:714-735; [up]: what upstream->allocate answers when asked (None: it throws); None: threw *)
Definition Increase_size (s : mbst) (bytes : Z) : Z :=
  if decide (nextsz s < wrap (bytes + H)) then Z.land (wrap (wrap (wrap (bytes + H) + A) - 1)) Max_allocation else nextsz s.
Definition Increase_capacity (s : mbst) (bytes al : Z) (up : option Z) : option (mbst * list mbev) :=
  if decide (wrap (Max_allocation - H) < bytes) then None
  else
    let new_size := Increase_size s bytes in
    let new_align := Z.max A al in
    match up with
    | None => None
    | Some p =>
        let sp := wrap (new_size - H) in
        let h := wrap (p + sp) in
        Some (Mb p sp (Scale new_size) h (fun x => if decide (x = h) then Some (Hdr (chunks s) new_size new_align) else hdr s x), [EUp p new_size new_align])
    end.
(** memory_resource:655-665; result None: an exception *)
Definition do_allocate (s : mbst) (bytes al : Z) (up : option Z) : mbst * list mbev * option Z :=
  let (s1, ok) := match align al bytes (cur s) (space s) with
    | Some (p, sp) => (Mb p sp (nextsz s) (chunks s) (hdr s), bool_decide (p <> 0))
    | None => (s, false)
    end in
  match (if ok : bool then Some (s1, []) else Increase_capacity s1 bytes al up) with
  | None => (s1, [], None)
  | Some (s2, ev) => (Mb (wrap (cur s2 + bytes)) (wrap (space s2 - bytes)) (nextsz s2) (chunks s2) (hdr s2), ev, Some (cur s2))
  end.
(** does do_allocate ask upstream, and for what *)
Definition asks (s : mbst) (bytes al : Z) : option (Z * Z) :=
  match align al bytes (cur s) (space s) with
  | Some (p, _) => if decide (p <> 0) then None else if decide (wrap (Max_allocation - H) < bytes) then None else Some (Increase_size s bytes, Z.max A al)
  | None => if decide (wrap (Max_allocation - H) < bytes) then None else Some (Increase_size s bytes, Z.max A al)
  end.

(** bytes [q, q+m) are overwritten: every header overlapping them is lost *)
Definition clobber (q m : Z) (hd : Z -> option header) : Z -> option header := fun x => if decide (0 < m /\ x < q + m /\ q < x + H) then None else hd x.
(** memory_resource:643-646: pop every chunk, deallocating it; [pops head hd frees hd']. _Base_address: memory_resource:676-678 *)
Inductive pops : Z -> (Z -> option header) -> list mbev -> (Z -> option header) -> Prop :=
  | pops_end hd : pops 0 hd [] hd
  | pops_next h hd nx n a fr hd' : h <> 0 -> hd h = Some (Hdr nx n a) ->
      pops nx (clobber (wrap (wrap (h + H) - n)) n hd) fr hd' -> pops h hd (EUpFree (wrap (wrap (h + H) - n)) n a :: fr) hd'.
(** a header read during release is not intact *)
Inductive pfault : Z -> (Z -> option header) -> Prop :=
  | pfault_here h hd : h <> 0 -> hd h = None -> pfault h hd
  | pfault_next h hd nx n a : h <> 0 -> hd h = Some (Hdr nx n a) -> pfault nx (clobber (wrap (wrap (h + H) - n)) n hd) -> pfault h hd.
(** memory_resource:627-647 *)
Definition unscaled (nx : Z) : Z := Z.max (Z.land (wrap (wrap (nx / 3 * 2 + A) - 1)) Max_allocation) Min_allocation.

Definition disj (p n q m : Z) : Prop := p + n <= q \/ q + m <= p \/ n = 0 \/ m = 0.
(** the initial buffer [b0, b0+n0), n0 = 0 if there is none *)
Context (b0 n0 : Z).
(** what the upstream resource guarantees for a block it returns: memory_resource contract *)
Definition up_ok (tr : list mbev) (p n a : Z) : Prop :=
  0 < p /\ p + n <= W /\ p mod a = 0 /\ disj p n b0 n0 /\ forall q m b, (q, m, b) ∈ outst tr -> disj p n q m.
Definition pow2 (a : Z) : Prop := exists k, 0 <= k < 8 * A /\ a = 2 ^ k.
Inductive mb_step (tr : list mbev) (s : mbst) : list mbev -> mbst -> Prop :=
  | mb_alloc n a up s' ev p : 0 <= n < W -> pow2 a -> (forall k b q, asks s n a = Some (k, b) -> up = Some q -> up_ok tr q k b) ->
      do_allocate s n a up = (s', ev, Some p) -> mb_step tr s (ev ++ [EAlloc p n a]) s'
  | mb_throw n a up s' ev : 0 <= n < W -> pow2 a ->
      do_allocate s n a up = (s', ev, None) -> mb_step tr s (ev ++ [EThrow n a]) s'
  | mb_release_empty : chunks s = 0 -> mb_step tr s [ERelease] s
  | mb_release fr hd' : chunks s <> 0 -> pops (chunks s) (hdr s) fr hd' ->
      mb_step tr s (fr ++ [ERelease]) (Mb 0 0 (unscaled (nextsz s)) 0 hd')
  | mb_write p n q m : (p, n) ∈ live tr -> p <= q -> 0 <= m -> q + m <= p + n -> mb_step tr s [EWrite q m] (Mb (cur s) (space s) (nextsz s) (chunks s) (clobber q m (hdr s))).
(** the constructors: memory_resource:594-618. With a buffer: b0 <> nullptr lies inside the address space *)
Inductive mb_init : mbst -> Prop :=
  | mb_init_default : n0 = 0 -> mb_init (Mb 0 0 Min_allocation 0 (fun _ => None))
  | mb_init_size k : n0 = 0 -> 0 <= k < W -> mb_init (Mb 0 0 (Round k) 0 (fun _ => None))
  | mb_init_buffer : 0 < b0 -> 0 <= n0 -> b0 + n0 < W -> mb_init (Mb b0 n0 (if decide (n0 = 0) then Min_allocation else Scale n0) 0 (fun _ => None)).
Inductive mb_reach : list mbev -> mbst -> Prop :=
  | mb_reach_init s : mb_init s -> mb_reach [] s
  | mb_reach_step tr s ev s' : mb_reach tr s -> mb_step tr s ev s' -> mb_reach (tr ++ ev) s'.
End mono.
