(** Model of the unordered containers: stl/inc/xhash _Hash, on top of the list model (ListModel.v).
    A value [v] has key [kfn v]; [hash] is the hasher and [keq] the key predicate, so _Traitsobj(k) is [hash k] and
    _Traitsobj(k1, k2) is [negb (keq k1 k2)] (xhash:66-129 _Uhash_compare).
    The floating-point load-factor policy (xhash:1569-1573 _Check_rehash_required_1 and 1599-1602 _Min_load_factor_buckets)
    is a parameter of each call, so the theorems hold whatever the policy answers.
    Not modelled: max_size/length_error, throwing hashers and predicates (_Clear_guard), iterator debugging, copy and move. *)
From stdpp Require Import base list numbers option decidable.
From Coq Require Import Lia.
From Verif Require Import Base.Res Cont.ListModel.
Local Open Scope nat_scope.

Section hash.
Context {K V : Type} (kfn : V -> K) (hash : K -> nat) (keq : K -> K -> bool).
Notation heap := (heap V).

(** xhash:1874-1880 _List, _Vec, _Mask, _Maxidx *)
Record tbl := Tbl { tl : lst; tv : list nat; tmask : nat; tmax : nat }.
(** _Check_rehash_required_1 as a function of _Newsize and bucket_count(); _Min_load_factor_buckets *)
Record policy := Policy { over : nat -> nat -> bool; mlfb : nat -> nat }.
Definition vrd (v : list nat) (i : nat) : res nat := match v !! i with Some x => Ok x | None => UB end.
Definition vwr (v : list nat) (i x : nat) : res (list nat) := if decide (i < length v) then Ok (<[i := x]> v) else UB.
Definition set_l (t : tbl) (s : lst) : tbl := Tbl s (tv t) (tmask t) (tmax t).
Definition set_v (t : tbl) (v : list nat) : tbl := Tbl (tl t) v (tmask t) (tmax t).
Notation hd t := (lhead (tl t)).

(** xhash:300-315 constructor; the head node at address [p] was allocated by the list *)
Definition min_buckets : nat := 8.
Definition empty_tbl (p : nat) : tbl := Tbl (Lst p 0) (replicate (2 * min_buckets) p) (min_buckets - 1) min_buckets.

(** xhash:780-783 bucket *)
Definition bucket (t : tbl) (k : K) : nat := Nat.land (hash k) (tmask t).
(** xhash:785-792 bucket_size *)
Definition bucket_size (h : heap) (t : tbl) (b : nat) : res nat :=
  lo <~ vrd (tv t) (2 * b) ;;
  if decide (lo = hd t) then Ok 0
  else
    hi <~ vrd (tv t) (2 * b + 1) ;;
    n <~ loop (S (lsize (tl t))) (fun '(p, n) => if decide (p = hi) then Ok (inr n) else q <~ N h p ;; Ok (inl (q, S n))) (lo, 0) ;;
    Ok (n + 1).
(** xhash:794-809 begin(bucket), end(bucket) *)
Definition bucket_begin (t : tbl) (b : nat) : res nat := vrd (tv t) (2 * b).
Definition bucket_end (h : heap) (t : tbl) (b : nat) : res nat :=
  hi <~ vrd (tv t) (2 * b + 1) ;; if decide (hi <> hd t) then N h hi else Ok hi.

(** xhash:1494-1516 _Find_last: (_Insert_before, _Duplicate) *)
Definition Find_last (h : heap) (t : tbl) (k : K) (hv : nat) : res (nat * nat) :=
  let b := Nat.land hv (tmask t) in
  where_ <~ vrd (tv t) (2 * b + 1) ;;
  if decide (where_ = hd t) then Ok (hd t, null)
  else
    lo <~ vrd (tv t) (2 * b) ;;
    loop (S (lsize (tl t))) (fun w =>
      v <~ Val h w ;;
      if keq k (kfn v) then n <~ N h w ;; Ok (inr (n, w))
      else if decide (w = lo) then Ok (inr (w, null))
      else p <~ P h w ;; Ok (inl p)) where_.
(** xhash:1519-1528 _Find_hint *)
Definition Find_hint (h : heap) (t : tbl) (hint : nat) (k : K) (hv : nat) : res (nat * nat) :=
  if decide (hint = hd t) then Find_last h t k hv
  else v <~ Val h hint ;; if keq (kfn v) k then n <~ N h hint ;; Ok (n, hint) else Find_last h t k hv.
(** xhash:1108-1129 _Find_first *)
Definition Find_first (h : heap) (t : tbl) (k : K) (hv : nat) : res nat :=
  let b := Nat.land hv (tmask t) in
  where_ <~ vrd (tv t) (2 * b) ;;
  if decide (where_ = hd t) then Ok (hd t)
  else
    hi <~ vrd (tv t) (2 * b + 1) ;;
    loop (S (lsize (tl t))) (fun w =>
      v <~ Val h w ;;
      if keq (kfn v) k then Ok (inr w)
      else if decide (w = hi) then Ok (inr (hd t))
      else q <~ N h w ;; Ok (inl q)) where_.
(** xhash:1132-1151 _Find, find *)
Definition find (multi : bool) (h : heap) (t : tbl) (k : K) : res nat :=
  if multi then Find_first h t k (hash k)
  else '(_, d) <~ Find_last h t k (hash k) ;; if decide (d <> null) then Ok d else Ok (hd t).
(** xhash:1170-1172 contains *)
Definition contains (h : heap) (t : tbl) (k : K) : res bool :=
  '(_, d) <~ Find_last h t k (hash k) ;; Ok (bool_decide (d <> null)).
(** xhash:1211-1249 _Equal_range: (_First, _Last, _Distance) *)
Definition Equal_range (multi : bool) (h : heap) (t : tbl) (k : K) (hv : nat) : res (nat * nat * nat) :=
  let b := Nat.land hv (tmask t) in
  where_ <~ vrd (tv t) (2 * b) ;;
  if decide (where_ = hd t) then Ok (hd t, hd t, 0)
  else
    hi <~ vrd (tv t) (2 * b + 1) ;;
    o <~ loop (S (lsize (tl t))) (fun w =>
      v <~ Val h w ;;
      if negb (keq (kfn v) k) then (if decide (w = hi) then Ok (inr None) else q <~ N h w ;; Ok (inl q)) else Ok (inr (Some w))) where_ ;;
    match o with
    | None => Ok (hd t, hd t, 0)
    | Some first =>
        if multi then
          '(w, n) <~ loop (S (lsize (tl t))) (fun '(w, n) =>
            let at_end := bool_decide (w = hi) in
            w' <~ N h w ;;
            if at_end then Ok (inr (w', S n))
            else v <~ Val h w' ;; if negb (keq k (kfn v)) then Ok (inr (w', S n)) else Ok (inl (w', S n))) (first, 0) ;;
          Ok (first, w, n)
        else w <~ N h first ;; Ok (first, w, 1)
    end.
(** xhash:1181-1188 count; 1252-1255 equal_range *)
Definition count (multi : bool) (h : heap) (t : tbl) (k : K) : res nat :=
  if multi then '(_, _, n) <~ Equal_range true h t k (hash k) ;; Ok n
  else '(_, d) <~ Find_last h t k (hash k) ;; Ok (if decide (d <> null) then 1 else 0).
Definition equal_range (multi : bool) (h : heap) (t : tbl) (k : K) : res (nat * nat) :=
  '(f, l, _) <~ Equal_range multi h t k (hash k) ;; Ok (f, l).

(** xhash:1530-1560 _Insert_new_node_before *)
Definition Insert_new_node_before (h : heap) (t : tbl) (hv before new : nat) : res (heap * tbl * nat) :=
  after <~ P h before ;;
  let s := Lst (hd t) (S (lsize (tl t))) in
  h <~ setN h new before ;; h <~ setP h new after ;;
  h <~ setN h after new ;; h <~ setP h before new ;;
  let b := Nat.land hv (tmask t) in
  lo <~ vrd (tv t) (2 * b) ;;
  hi <~ vrd (tv t) (2 * b + 1) ;;
  v <~ (if decide (lo = hd t) then v <~ vwr (tv t) (2 * b) new ;; vwr v (2 * b + 1) new
        else if decide (lo = before) then vwr (tv t) (2 * b) new
        else if decide (hi = after) then vwr (tv t) (2 * b + 1) new
        else Ok (tv t)) ;;
  Ok (h, Tbl s v (tmask t) (tmax t), new).

(** xhash:221-243 _Assign_grow *)
Definition Assign_grow (v : list nat) (cells x : nat) : list nat := replicate (if decide (length v < cells) then cells else length v) x.
(** xbit_ops.h:24-54 _Floor_of_log_2 (highest set bit of _Value | 1), _Ceiling_of_log_2 *)
Definition Floor_of_log_2 (x : nat) : nat := Nat.log2 (Nat.lor x 1).
Definition Ceiling_of_log_2 (x : nat) : nat := 1 + Floor_of_log_2 (x - 1).
(** xhash:1604-1619 _Desired_grow_bucket_count *)
Definition Desired_grow (pol : policy) (t : tbl) (size : nat) : nat :=
  let old := tmax t in
  let req := Nat.max min_buckets (mlfb pol size) in
  if decide (req <= old) then old
  else if decide (old < 512 /\ req <= old * 8) then old * 8
  else req.
(** xhash:1645-1706 the loop of _Forced_rehash, one element: (heap, vector) *)
Definition rehash_one (h : heap) (t : tbl) (inserted next : nat) : res (heap * list nat) :=
  v <~ Val h inserted ;;
  let b := bucket t (kfn v) in
  lo <~ vrd (tv t) (2 * b) ;;
  if decide (lo = hd t) then vec <~ vwr (tv t) (2 * b) inserted ;; vec <~ vwr vec (2 * b + 1) inserted ;; Ok (h, vec)
  else
    hi <~ vrd (tv t) (2 * b + 1) ;;
    w <~ Val h hi ;;
    if keq (kfn v) (kfn w) then
      ib <~ N h hi ;;
      h <~ (if decide (ib <> inserted) then Splice3 h ib inserted next else Ok h) ;;
      vec <~ vwr (tv t) (2 * b + 1) inserted ;; Ok (h, vec)
    else
      loop (S (lsize (tl t))) (fun ib =>
        if decide (lo = ib) then h <~ Splice3 h ib inserted next ;; vec <~ vwr (tv t) (2 * b) inserted ;; Ok (inr (h, vec))
        else
          ib <~ P h ib ;; w <~ Val h ib ;;
          if keq (kfn v) (kfn w) then ib <~ N h ib ;; h <~ Splice3 h ib inserted next ;; Ok (inr (h, tv t))
          else Ok (inl ib)) hi.
(** xhash:1625-1713 _Forced_rehash *)
Definition Forced_rehash (h : heap) (t : tbl) (buckets : nat) : res (heap * tbl) :=
  let buckets := 2 ^ Ceiling_of_log_2 buckets in
  let t := Tbl (tl t) (Assign_grow (tv t) (2 * buckets) (hd t)) (buckets - 1) buckets in
  inserted <~ N h (hd t) ;;
  loop (S (lsize (tl t))) (fun '(h, t, inserted) =>
    if decide (inserted = hd t) then Ok (inr (h, t))
    else next <~ N h inserted ;; '(h, vec) <~ rehash_one h t inserted next ;; Ok (inl (h, set_v t vec, next))) (h, t, inserted).
(** xhash:1575-1579 _Rehash_for_1, guarded by _Check_rehash_required_1 as every caller does *)
Definition maybe_rehash (pol : policy) (h : heap) (t : tbl) : res (heap * tbl * bool) :=
  let newsize := S (lsize (tl t)) in
  if over pol newsize (tmax t) then '(h, t) <~ Forced_rehash h t (Desired_grow pol t newsize) ;; Ok (h, t, true)
  else Ok (h, t, false).
(** xhash:846-858 rehash, reserve *)
Definition rehash (pol : policy) (h : heap) (t : tbl) (buckets : nat) : res (heap * tbl) :=
  let buckets := Nat.max (mlfb pol (lsize (tl t))) buckets in
  if decide (buckets <= tmax t) then Ok (h, t) else Forced_rehash h t buckets.
Definition reserve (pol : policy) (h : heap) (t : tbl) (n : nat) : res (heap * tbl) := rehash pol h t (mlfb pol n).

(** xhash:516-526 emplace, multi; [hint] = None for emplace and Some p for emplace_hint (569-582) *)
Definition find_target (h : heap) (t : tbl) (hint : option nat) (k : K) (hv : nat) : res (nat * nat) :=
  match hint with None => Find_last h t k hv | Some p => Find_hint h t p k hv end.
Definition emplace_multi (pol : policy) (h : heap) (t : tbl) (hint : option nat) (new : nat) (v : V) : res (heap * tbl * nat) :=
  h <~ New h new v ;;
  let k := kfn v in let hv := hash k in
  '(h, t, _) <~ maybe_rehash pol h t ;;
  '(before, _) <~ find_target h t hint k hv ;;
  Insert_new_node_before h t hv before new.
(** xhash:527-545 emplace, unique, key extractable; also 620-638 _Try_emplace, 583-600 with a hint and 641-660 *)
Definition emplace_key (pol : policy) (h : heap) (t : tbl) (hint : option nat) (new : nat) (v : V) : res (heap * tbl * nat * bool) :=
  let k := kfn v in let hv := hash k in
  '(before, dup) <~ find_target h t hint k hv ;;
  if decide (dup <> null) then Ok (h, t, dup, false)
  else
    h <~ New h new v ;;
    '(h, t, re) <~ maybe_rehash pol h t ;;
    '(before, _) <~ (if re : bool then find_target h t hint k hv else Ok (before, dup)) ;;
    '(h, t, p) <~ Insert_new_node_before h t hv before new ;; Ok (h, t, p, true).
(** xhash:546-565 (601-615 with a hint) emplace, unique, key not extractable: the node is built first and freed on a duplicate *)
Definition emplace_val (pol : policy) (h : heap) (t : tbl) (hint : option nat) (new : nat) (v : V) : res (heap * tbl * nat * bool) :=
  h <~ New h new v ;;
  let k := kfn v in let hv := hash k in
  '(before, dup) <~ find_target h t hint k hv ;;
  if decide (dup <> null) then h <~ Free h new ;; Ok (h, t, dup, false)
  else
    '(h, t, re) <~ maybe_rehash pol h t ;;
    '(before, _) <~ (if re : bool then find_target h t hint k hv else Ok (before, dup)) ;;
    '(h, t, p) <~ Insert_new_node_before h t hv before new ;; Ok (h, t, p, true).

(** xhash:1581-1597 _Erase_bucket *)
Definition Erase_bucket (h : heap) (t : tbl) (p b : nat) : res tbl :=
  lo <~ vrd (tv t) (2 * b) ;; hi <~ vrd (tv t) (2 * b + 1) ;;
  if decide (hi = p) then
    if decide (lo = p) then v <~ vwr (tv t) (2 * b) (hd t) ;; v <~ vwr v (2 * b + 1) (hd t) ;; Ok (set_v t v)
    else q <~ P h p ;; v <~ vwr (tv t) (2 * b + 1) q ;; Ok (set_v t v)
  else if decide (lo = p) then q <~ N h p ;; v <~ vwr (tv t) (2 * b) q ;; Ok (set_v t v)
  else Ok t.
(** xhash:903-907 _Unchecked_erase(node), erase(iterator) *)
Definition erase1 (h : heap) (t : tbl) (p : nat) : res (heap * tbl * nat) :=
  v <~ Val h p ;;
  t <~ Erase_bucket h t p (bucket t (kfn v)) ;;
  '(h, s, r) <~ Erase1 h (tl t) p ;; Ok (h, set_l t s, r).
(** xhash:934-945 _Range_eraser::_Bump_erased in the inner for loop (974-990, 1006-1016): erase up to _Old_hi (true) or up to _Last (false).
    State: heap, size, _Next *)
Definition drain (fuel : nat) (h : heap) (sz next old_hi last : nat) : res (heap * nat * nat * bool) :=
  loop fuel (fun '(h, sz, next) =>
    let at_back := bool_decide (next = old_hi) in
    q <~ N h next ;; h <~ Free h next ;;
    let sz := sz - 1 in
    if at_back then Ok (inr (h, sz, q, true))
    else if decide (q = last) then Ok (inr (h, sz, q, false))
    else Ok (inl (h, sz, q))) (h, sz, next).
(** xhash:947-950 ~_Range_eraser *)
Definition erase_fin (h : heap) (t : tbl) (vec : list nat) (sz pred next last : nat) : res (heap * tbl * nat) :=
  h <~ setN h pred next ;; h <~ setP h next pred ;;
  Ok (h, Tbl (Lst (hd t) sz) vec (tmask t) (tmax t), last).
(** xhash:953-1023 _Unchecked_erase(first, last) *)
Definition erase_range (h : heap) (t : tbl) (first last : nat) : res (heap * tbl * nat) :=
  if decide (first = last) then Ok (h, t, last)
  else
    let F := S (lsize (tl t)) in
    pred <~ P h first ;;
    v <~ Val h first ;;
    let b := bucket t (kfn v) in
    lo <~ vrd (tv t) (2 * b) ;; hi <~ vrd (tv t) (2 * b + 1) ;;
    let update_lo := bool_decide (lo = first) in
    '(h, sz, next, full) <~ drain F h (lsize (tl t)) first hi last ;;
    if negb full then
      vec <~ (if update_lo then vwr (tv t) (2 * b) next else Ok (tv t)) ;;
      erase_fin h t vec sz pred next last
    else
      vec <~ (if update_lo then vec <~ vwr (tv t) (2 * b) (hd t) ;; vwr vec (2 * b + 1) (hd t) else vwr (tv t) (2 * b + 1) pred) ;;
      '(h, vec, sz, next) <~ loop F (fun '(h, vec, sz, next) =>
        if decide (next = last) then Ok (inr (h, vec, sz, next))
        else
          v <~ Val h next ;;
          let b := bucket t (kfn v) in
          hi <~ vrd vec (2 * b + 1) ;;
          '(h, sz, next, full) <~ drain F h sz next hi last ;;
          if negb full then vec <~ vwr vec (2 * b) next ;; Ok (inr (h, vec, sz, next))
          else vec <~ vwr vec (2 * b) (hd t) ;; vec <~ vwr vec (2 * b + 1) (hd t) ;; Ok (inl (h, vec, sz, next))) (h, vec, sz, next) ;;
      erase_fin h t vec sz pred next last.
(** xhash:1032-1048 _Erase(key), erase(key) *)
Definition erase_key (multi : bool) (h : heap) (t : tbl) (k : K) : res (heap * tbl * nat) :=
  if multi then '(f, l, n) <~ Equal_range true h t k (hash k) ;; '(h, t, _) <~ erase_range h t f l ;; Ok (h, t, n)
  else
    '(_, d) <~ Find_last h t k (hash k) ;;
    if decide (d <> null) then
      t <~ Erase_bucket h t d (Nat.land (hash k) (tmask t)) ;; '(h, s, _) <~ Erase1 h (tl t) d ;; Ok (h, set_l t s, 1)
    else Ok (h, t, 0).
(** xhash:1077-1104 clear; [nothrow] = _Nothrow_hash *)
Definition clear_tbl (nothrow : bool) (h : heap) (t : tbl) : res (heap * tbl) :=
  if decide (lsize (tl t) = 0) then Ok (h, t)
  else if nothrow && bool_decide (lsize (tl t) < tmax t / 8) then
    f <~ N h (hd t) ;; '(h, t, _) <~ erase_range h t f (hd t) ;; Ok (h, t)
  else '(h, s) <~ clear h (tl t) ;; Ok (h, Tbl s (replicate (length (tv t)) (hd t)) (tmask t) (tmax t)).

(** xhash:1424-1428 _Extract(iterator) and 1431-1448 _Extract(key): the node leaves the list but stays allocated; null if there is none *)
Definition extract_at (h : heap) (t : tbl) (p : nat) : res (heap * tbl * nat) :=
  v <~ Val h p ;;
  t <~ Erase_bucket h t p (bucket t (kfn v)) ;;
  '(h, s) <~ Unlinknode h (tl t) p ;; Ok (h, set_l t s, p).
Definition extract_key (multi : bool) (h : heap) (t : tbl) (k : K) : res (heap * tbl * nat) :=
  d <~ (if multi then d <~ Find_first h t k (hash k) ;; if decide (d = hd t) then Ok null else Ok d
        else '(_, d) <~ Find_last h t k (hash k) ;; Ok d) ;;
  if decide (d = null) then Ok (h, t, null)
  else
    t <~ Erase_bucket h t d (Nat.land (hash k) (tmask t)) ;;
    '(h, s) <~ Unlinknode h (tl t) d ;; Ok (h, set_l t s, d).
(** xhash:1451-1487 insert(node_type): (heap, table, position, inserted) *)
Definition insert_node (multi : bool) (pol : policy) (h : heap) (t : tbl) (node : nat) : res (heap * tbl * nat * bool) :=
  v <~ Val h node ;;
  let k := kfn v in let hv := hash k in
  '(before, dup) <~ Find_last h t k hv ;;
  if negb multi && bool_decide (dup <> null) then Ok (h, t, dup, false)
  else
    '(h, t, re) <~ maybe_rehash pol h t ;;
    '(before, _) <~ (if re : bool then Find_last h t k hv else Ok (before, dup)) ;;
    '(h, t, p) <~ Insert_new_node_before h t hv before node ;; Ok (h, t, p, true).
(** xhash:1358-1410 merge: [t] receives, [r] gives *)
Definition merge_tbl (multi : bool) (pol : policy) (h : heap) (t r : tbl) : res (heap * tbl * tbl) :=
  first <~ N h (hd r) ;;
  loop (S (lsize (tl r))) (fun '(h, t, r, first) =>
    if decide (first = hd r) then Ok (inr (h, t, r))
    else
      let cand := first in
      first <~ N h first ;;
      v <~ Val h cand ;;
      let k := kfn v in let hv := hash k in
      '(before, dup) <~ Find_last h t k hv ;;
      if negb multi && bool_decide (dup <> null) then Ok (inl (h, t, r, first))
      else
        '(h, t, re) <~ maybe_rehash pol h t ;;
        '(before, _) <~ (if re : bool then Find_last h t k hv else Ok (before, dup)) ;;
        r <~ Erase_bucket h r cand (Nat.land hv (tmask r)) ;;
        '(h, s) <~ Unlinknode h (tl r) cand ;;
        let r := set_l r s in
        '(h, t, _) <~ Insert_new_node_before h t hv before cand ;;
        Ok (inl (h, t, r, first))) (h, t, r, first).
End hash.
