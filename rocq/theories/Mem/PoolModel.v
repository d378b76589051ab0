(** Model of std::pmr::unsynchronized_pool_resource (stl/inc/memory_resource:228-566); synchronized_pool_resource
    (memory_resource:568-590) is the same under a mutex. Addresses and sizes are w-bit unsigned numbers, w = 8*A, A = sizeof(void* ).
    Simplifications: the contents of a _Chunk or _Oversized_header are kept in a record carrying its address ([c_hdr], [o_hdr]) rather
    than in memory bytes, and a free list is kept as the list of its blocks' addresses (the theorems state separately that no live
    allocation overlaps any of those bytes); the word at the end of each block that points back to its chunk is in memory
    ([own]) and is lost when anything else is written over it. A null pointer is None. The vector of _Pools is a list; the memory of
    that vector is not modelled, but emplace may throw. The upstream resource is any function of the history that respects its contract. *)
From stdpp Require Import base list numbers option decidable.
From Coq Require Import ZArith Lia.
From Verif Require Import Mem.MonoModel.
Local Open Scope Z_scope.

Section pool.
Context (A : Z).                                                   (* 4 or 8 *)
Notation W := (W A). Notation wrap := (wrap A).
Definition PTRDIFF_MAX : Z := W / 2 - 1.
Definition CH : Z := 7 * A.                                        (* sizeof(_Chunk): memory_resource:379-388 *)
Definition OH : Z := 4 * A.                                        (* sizeof(_Oversized_header): memory_resource:312-323 *)

(** memory_resource:379-388; _Free_blocks is [c_free] *)
Record chunk := Chunk { c_hdr : Z; c_free : list Z; c_fcnt : Z; c_cap : Z; c_base : Z; c_next : Z; c_id : Z }.
(** memory_resource:400-406; _Unfull_chunk and _Empty_chunk are addresses of chunks; _Block_size = 2^_Log_of_size: 411-412 *)
Record pool := Pool { p_log : Z; p_unfull : option Z; p_chunks : list chunk; p_ncap : Z; p_empty : option Z }.
(** memory_resource:312-323 *)
Record ohdr := Ohdr { o_hdr : Z; o_size : Z; o_align : Z }.
(** memory_resource:563-565 *)
Record pst := Pst { maxb : Z; largest : Z; pools : list pool; over : list ohdr; own : Z -> option Z }.

Global Instance ohdr_eq_dec : EqDecision ohdr.
Proof. solve_decision. Defined.

Inductive pev :=
  | EUp (p n a : Z)          (* upstream->allocate(n, a) returned p *)
  | EUpFree (p n a : Z)      (* upstream->deallocate(p, n, a) called *)
  | EAlloc (p n a : Z)       (* allocate(n, a) returned p *)
  | EThrow (n a : Z)         (* allocate(n, a) threw *)
  | EDealloc (p n a : Z)     (* deallocate(p, n, a) called *)
  | ERelBegin | ERelEnd      (* release() called, returned *)
  | EWrite (q m : Z).        (* the client wrote to m bytes at q *)
(** allocations neither deallocated nor released (newest first); upstream blocks not yet given back *)
Definition live1 (l : list (Z * Z * Z)) (e : pev) : list (Z * Z * Z) :=
  match e with EAlloc p n a => (p, n, a) :: l | EDealloc p n a => filter (fun b => b <> (p, n, a)) l | ERelBegin => [] | _ => l end.
Definition live (tr : list pev) : list (Z * Z * Z) := foldl live1 [] tr.
Definition outst1 (l : list (Z * Z * Z)) (e : pev) : list (Z * Z * Z) :=
  match e with EUp p n a => (p, n, a) :: l | EUpFree p n a => filter (fun b => b <> (p, n, a)) l | _ => l end.
Definition outst (tr : list pev) : list (Z * Z * Z) := foldl outst1 [] tr.
(** number of blocks ever obtained from upstream *)
Definition nups (tr : list pev) : Z := foldl (fun k e => match e with EUp _ _ _ => k + 1 | _ => k end) 0 tr.

(** bytes [q, q+m) are overwritten: every word overlapping them is lost; and the word v is written at x *)
Definition clob (q m : Z) (o : Z -> option Z) : Z -> option Z := fun x => if decide (x < q + m /\ q < x + A) then None else o x.
Definition setw (x v : Z) (o : Z -> option Z) : Z -> option Z := fun y => if decide (y = x) then Some v else clob x A o y.

(** _Ceiling_of_log_2: xbit_ops.h:51-54 *)
Definition clog2 (v : Z) : Z := 1 + Z.log2 (wrap (v - 1)).
(** memory_resource:531-549; the user's values are [m] and [l] *)
Definition Setup_max (m : Z) : Z := if decide (PTRDIFF_MAX <= wrap (m - 1)) then PTRDIFF_MAX else m.
Definition Setup_largest (l : Z) : Z :=
  let lim := Z.shiftr PTRDIFF_MAX 4 + 1 in
  if decide (wrap (l - 1) < A) then A else if decide (lim <= wrap (l - 1)) then lim else Z.shiftl 1 (clog2 l).
(** memory_resource:503-506 *)
Definition Size_for_capacity (L cap : Z) : Z := wrap (wrap (Z.shiftl cap L) + CH).
(** memory_resource:551-561: log2 of the block size *)
Definition flog (n a : Z) : Z := clog2 (Z.max (wrap (n + A)) a).
(** lower_bound in memory_resource:556-557: the pools before the position, and those from it on *)
Fixpoint find_pool (L : Z) (l : list pool) : list pool * list pool :=
  match l with
  | [] => ([], [])
  | P :: r => if decide (p_log P < L) then let x := find_pool L r in (P :: fst x, snd x) else ([], l)
  end.

Definition bsz (L : Z) : Z := Z.shiftl 1 L.
(** has the chunk a block to give: the two tests at memory_resource:448 and 456 *)
Definition avail (c : chunk) : bool := bool_decide (c_free c <> []) || bool_decide (c_next c < c_cap c).
(** memory_resource:448-464: pop a free block, or cut a new one and write the owner pointer at its end *)
Definition take_block (L : Z) (c : chunk) (o : Z -> option Z) : Z * chunk * (Z -> option Z) :=
  match c_free c with
  | b :: fs => (b, Chunk (c_hdr c) fs (wrap (c_fcnt c - 1)) (c_cap c) (c_base c) (c_next c) (c_id c), o)
  | [] => let b := wrap (c_base c + wrap (c_next c * bsz L)) in
          (b, Chunk (c_hdr c) [] (wrap (c_fcnt c - 1)) (c_cap c) (c_base c) (wrap (c_next c + 1)) (c_id c), setw (wrap (wrap (b + bsz L) - A)) (c_hdr c) o)
  end.
Definition upd (h : Z) (c' : chunk) (l : list chunk) : list chunk := map (fun c => if decide (c_hdr c = h) then c' else c) l.
Fixpoint findc (h : Z) (l : list chunk) : option chunk := match l with [] => None | c :: r => if decide (c_hdr c = h) then Some c else findc h r end.
(** the chunks from the one at address h on, in the order of the links *)
Fixpoint fromc (h : Z) (l : list chunk) : list chunk := match l with [] => [] | c :: r => if decide (c_hdr c = h) then l else fromc h r end.
Fixpoint scan (l : list chunk) : option chunk := match l with [] => None | c :: r => if avail c then Some c else scan r end.
(** memory_resource:448-464 with _Unfull_chunk = c *)
Definition P_take (P : pool) (c : chunk) (o : Z -> option Z) : pool * (Z -> option Z) * Z :=
  let '(b, c', o') := take_block (p_log P) c o in
  (Pool (p_log P) (Some (c_hdr c)) (upd (c_hdr c) c' (p_chunks P)) (p_ncap P) (if decide (p_empty P = Some (c_hdr c)) then None else p_empty P), o', b).
(** memory_resource:508-528; inl: upstream threw *)
Definition Increase_capacity (mb : Z) (P : pool) (o : Z -> option Z) (up : Z -> Z -> option Z) : pool + pool * (Z -> option Z) * list pev :=
  let L := p_log P in
  let nc := if decide (mb < p_ncap P) then mb else p_ncap P in
  let size := Size_for_capacity L nc in
  match up size (bsz L) with
  | None => inl (Pool L None (p_chunks P) nc (p_empty P))
  | Some p =>
      let h := wrap (wrap (p + size) - CH) in
      let c := Chunk h [] nc nc p 0 (match p_chunks P with [] => 0 | t :: _ => wrap (c_id t + 1) end) in
      inr (Pool L (Some h) (c :: p_chunks P) (Z.min (wrap (nc * 2)) (Z.min (Z.shiftr (wrap (PTRDIFF_MAX - CH)) L) mb)) (Some h), clob p size o, [EUp p size (bsz L)])
  end.
(** how a call ends; RStuck: it dereferences a bad pointer or loops for ever *)
Inductive res := ROk (p : Z) | RThrow | RStuck.
(** memory_resource:444-467: look for a chunk with a block from _Unfull_chunk on, else get a new one *)
Definition P_allocate (mb : Z) (P : pool) (o : Z -> option Z) (up : Z -> Z -> option Z) : pool * (Z -> option Z) * list pev * res :=
  let grow := match Increase_capacity mb P o up with
              | inl P' => (P', o, [], RThrow)
              | inr (P', o', ev) => match p_chunks P' with
                                    | c :: _ => if avail c then let '(P'', o'', b) := P_take P' c o' in (P'', o'', ev, ROk b) else (P', o', ev, RStuck)
                                    | [] => (P', o', ev, RStuck)
                                    end
              end in
  match p_unfull P with
  | None => grow
  | Some h => match fromc h (p_chunks P) with
              | [] => (P, o, [], RStuck)
              | l => match scan l with
                     | Some c => let '(P', o', b) := P_take P c o in (P', o', [], ROk b)
                     | None => grow
                     end
              end
  end.
(** memory_resource:469-501; None: it dereferences a bad pointer *)
Definition P_deallocate (P : pool) (o : Z -> option Z) (p : Z) : option (pool * (Z -> option Z) * list pev) :=
  let L := p_log P in
  match o (wrap (wrap (p + bsz L) - A)) with
  | None => None
  | Some h =>
      match findc h (p_chunks P) with
      | None => None
      | Some c =>
          let o1 := clob p A o in
          let c' := Chunk (c_hdr c) (p :: c_free c) (wrap (c_fcnt c + 1)) (c_cap c) (c_base c) (c_next c) (c_id c) in
          let cs := upd h c' (p_chunks P) in
          if decide (c_fcnt c = 0) then
            match p_unfull P with
            | None => Some (Pool L (Some h) cs (p_ncap P) (p_empty P), o1, [])
            | Some u => match findc u cs with
                        | None => None
                        | Some cu => Some (Pool L (if decide (c_id cu < c_id c) then Some h else Some u) cs (p_ncap P) (p_empty P), o1, [])
                        end
            end
          else if decide (c_fcnt c' < c_cap c) then Some (Pool L (p_unfull P) cs (p_ncap P) (p_empty P), o1, [])
          else match p_empty P with
               | None => Some (Pool L (p_unfull P) cs (p_ncap P) (Some h), o1, [])
               | Some e => match findc e cs with
                           | None => None
                           | Some ce =>
                               let r := if decide (c_id ce < c_id c) then ce else c' in
                               let keep := if decide (c_id ce < c_id c) then h else e in
                               let size := Size_for_capacity L (c_cap r) in
                               Some (Pool L (p_unfull P) (filter (fun x => c_hdr x <> c_hdr r) cs) (p_ncap P) (Some keep),
                                     clob (c_base r) size o1, [EUpFree (c_base r) size (bsz L)])
                           end
               end
      end
  end.

(** memory_resource:325-341; None: returns false *)
Definition Prepare_oversized (n a : Z) : option (Z * Z) :=
  if decide (wrap (wrap (W - 1 - OH - A) + 1) < n) then None
  else Some (Z.land (wrap (wrap (wrap (n + OH) + A) - 1)) (wrap (0 - A)), Z.max a A).
(** memory_resource:343-360 *)
Definition Allocate_oversized (s : pst) (n a : Z) (up : Z -> Z -> option Z) : pst * list pev * res :=
  match Prepare_oversized n a with
  | None => (s, [], RThrow)
  | Some (k, b) =>
      match up k b with
      | None => (s, [], RThrow)
      | Some p => (Pst (maxb s) (largest s) (pools s) (Ohdr (wrap (wrap (p + k) - OH)) k b :: over s) (clob p k (own s)), [EUp p k b], ROk p)
      end
  end.
(** memory_resource:362-376; None: the assertion fails or the header is not in the list *)
Definition Deallocate_oversized (s : pst) (p n a : Z) : option (pst * list pev) :=
  match Prepare_oversized n a with
  | None => None
  | Some (k, b) =>
      let h := wrap (wrap (p + k) - OH) in
      if decide (Ohdr h k b ∈ over s) then Some (Pst (maxb s) (largest s) (pools s) (filter (fun o => o_hdr o <> h) (over s)) (clob p k (own s)), [EUpFree p k b])
      else None
  end.
(** memory_resource:285-297; [emp]: does _Pools.emplace succeed if called *)
Definition do_allocate (s : pst) (n a : Z) (up : Z -> Z -> option Z) (emp : bool) : pst * list pev * res :=
  if decide (n <= largest s) then
    let L := flog n a in
    let '(pre, rest) := find_pool L (pools s) in
    let run P post := let '(P', o', ev, r) := P_allocate (maxb s) P (own s) up in
      (Pst (maxb s) (largest s) (pre ++ P' :: post) (over s) o', ev, r) in
    let fresh := if emp then run (Pool L None [] 4 None) rest else (s, [], RThrow) in
    match rest with
    | P :: post => if decide (p_log P = L) then run P post else fresh
    | [] => fresh
    end
  else Allocate_oversized s n a up.
(** memory_resource:299-309 *)
Definition do_deallocate (s : pst) (p n a : Z) : option (pst * list pev) :=
  if decide (n <= largest s) then
    let L := flog n a in
    let '(pre, rest) := find_pool L (pools s) in
    match rest with
    | P :: post =>
        if decide (p_log P = L) then
          match P_deallocate P (own s) p with
          | None => None
          | Some (P', o', ev) => Some (Pst (maxb s) (largest s) (pre ++ P' :: post) (over s) o', ev)
          end
        else Some (s, [])
    | [] => Some (s, [])
    end
  else Deallocate_oversized s p n a.
(** memory_resource:266-282 and 429-442: every chunk of every pool, then every oversized block *)
Definition release_frees (s : pst) : list pev :=
  concat (map (fun P => map (fun c => EUpFree (c_base c) (Size_for_capacity (p_log P) (c_cap c)) (bsz (p_log P))) (p_chunks P)) (pools s))
  ++ map (fun o => EUpFree (wrap (wrap (o_hdr o + OH) - o_size o)) (o_size o) (o_align o)) (over s).
Definition released (s : pst) : pst := Pst (maxb s) (largest s) [] [] (fun _ => None).

(** what the upstream resource guarantees for a block it returns *)
Definition up_ok (tr : list pev) (p n a : Z) : Prop :=
  0 < p /\ p + n <= W /\ p mod a = 0 /\ forall q m b, (q, m, b) ∈ outst tr -> disj p n q m.
(** requests covered: see DESIGN.md for the excluded ones (n = 0, and pooled requests aligned above 2^(w-3)) *)
Definition req_ok (s : pst) (n a : Z) : Prop := 0 < n < W /\ pow2 A a /\ (n <= largest s -> a <= W / 8).
Inductive ps_step (tr : list pev) (s : pst) : list pev -> pst -> Prop :=
  | ps_alloc n a up emp s' ev p : req_ok s n a -> nups tr < W -> (forall q k b, EUp q k b ∈ ev -> up_ok tr q k b) ->
      do_allocate s n a up emp = (s', ev, ROk p) -> ps_step tr s (ev ++ [EAlloc p n a]) s'
  | ps_throw n a up emp s' ev : req_ok s n a -> nups tr < W -> (forall q k b, EUp q k b ∈ ev -> up_ok tr q k b) ->
      do_allocate s n a up emp = (s', ev, RThrow) -> ps_step tr s (ev ++ [EThrow n a]) s'
  | ps_dealloc p n a s' ev : (p, n, a) ∈ live tr -> do_deallocate s p n a = Some (s', ev) -> ps_step tr s (EDealloc p n a :: ev) s'
  | ps_release : ps_step tr s (ERelBegin :: release_frees s ++ [ERelEnd]) (released s)
  | ps_write p n a q m : (p, n, a) ∈ live tr -> p <= q -> 0 < m -> q + m <= p + n ->
      ps_step tr s [EWrite q m] (Pst (maxb s) (largest s) (pools s) (over s) (clob q m (own s))).
(** the constructors, for any options: memory_resource:229-246 *)
Inductive ps_init : pst -> Prop :=
  | ps_init_options m l o : 0 <= m < W -> 0 <= l < W -> ps_init (Pst (Setup_max m) (Setup_largest l) [] [] o).
Inductive ps_reach : list pev -> pst -> Prop :=
  | ps_reach_init s : ps_init s -> ps_reach [] s
  | ps_reach_step tr s ev s' : ps_reach tr s -> ps_step tr s ev s' -> ps_reach (tr ++ ev) s'.

(** the bytes in which the resource keeps its own data: chunk and oversized headers, links of free blocks, owner pointers *)
Definition own_data (s : pst) (q m : Z) : Prop :=
  (exists P c, P ∈ pools s /\ c ∈ p_chunks P /\
     ((q = c_hdr c /\ m = CH) \/ (q ∈ c_free c /\ m = A) \/ (exists i, 0 <= i < c_next c /\ q = c_base c + i * bsz (p_log P) + bsz (p_log P) - A /\ m = A)))
  \/ (exists o, o ∈ over s /\ q = o_hdr o /\ m = OH).
End pool.
