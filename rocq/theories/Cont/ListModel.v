(** Model of std::list: stl/inc/list (also the list under the unordered containers).
    The heap is a partial function from node addresses to nodes; several lists may live in one heap. Address 0 is nullptr.
    Reading or writing a node that is not there is [UB]. Iterator debugging, max_size/length_error and throwing element
    operations are not modelled. [null] stands for any link that the code has not constructed yet. *)
From stdpp Require Import base list numbers option decidable.
From Coq Require Import Lia.
From Verif Require Import Base.Res.

Section list.
Context {V : Type}.
(** list:286-332 _List_node; the head node holds no value *)
Record node := Node { nnext : nat; nprev : nat; nval : option V }.
Definition heap : Type := nat -> option node.
Definition null : nat := 0.
Definition upd (h : heap) (p : nat) (n : option node) : heap := fun x => if decide (x = p) then n else h x.
Definition ld (h : heap) (p : nat) : res node := match h p with Some n => Ok n | None => UB end.
Definition N (h : heap) (p : nat) : res nat := n <~ ld h p ;; Ok (nnext n).
Definition P (h : heap) (p : nat) : res nat := n <~ ld h p ;; Ok (nprev n).
Definition Val (h : heap) (p : nat) : res V := n <~ ld h p ;; match nval n with Some v => Ok v | None => UB end.
Definition setN (h : heap) (p q : nat) : res heap := n <~ ld h p ;; Ok (upd h p (Some (Node q (nprev n) (nval n)))).
Definition setP (h : heap) (p q : nat) : res heap := n <~ ld h p ;; Ok (upd h p (Some (Node (nnext n) q (nval n)))).
(** allocation at an address the allocator chooses, and construction of the value: list:593-596 *)
Definition New (h : heap) (new : nat) (v : V) : res heap :=
  match h new with None => Ok (upd h new (Some (Node null null (Some v)))) | Some _ => UB end.
(** list:316-319 _Freenode *)
Definition Free (h : heap) (p : nat) : res heap := _ <~ Val h p ;; Ok (upd h p None).

(** list:_List_val: _Myhead, _Mysize *)
Record lst := Lst { lhead : nat; lsize : nat }.

(** for (it = begin(); it != end(); ++it) with *it, and the same backwards with --it from end(): list:41-71 operator*, ++, -- *)
Definition forward (h : heap) (s : lst) : res (list V) :=
  f <~ N h (lhead s) ;;
  loop (S (lsize s)) (fun '(p, acc) => if decide (p = lhead s) then Ok (inr acc) else v <~ Val h p ;; q <~ N h p ;; Ok (inl (q, acc ++ [v]))) (f, []).
Definition backward (h : heap) (s : lst) : res (list V) :=
  loop (S (lsize s)) (fun '(p, acc) => f <~ N h (lhead s) ;; if decide (p = f) then Ok (inr acc) else q <~ P h p ;; v <~ Val h q ;; Ok (inl (q, acc ++ [v]))) (lhead s, []).

(** list:607-616 _Transfer_before *)
Definition Transfer_before (h : heap) (new before : nat) : res heap :=
  after <~ P h before ;;
  h <~ setN h new before ;; h <~ setP h new after ;;
  h <~ setP h before new ;; setN h after new.
(** list:1028-1037 _Emplace *)
Definition Emplace (h : heap) (s : lst) (where_ new : nat) (v : V) : res (heap * lst * nat) :=
  h <~ New h new v ;;
  h <~ Transfer_before h new where_ ;;
  Ok (h, Lst (lhead s) (S (lsize s)), new).
(** list:984-990, 1252-1254, 1273-1275 push_front, push_back *)
Definition push_front (h : heap) (s : lst) (new : nat) (v : V) : res (heap * lst * nat) := f <~ N h (lhead s) ;; Emplace h s f new v.
Definition push_back (h : heap) (s : lst) (new : nat) (v : V) : res (heap * lst * nat) := Emplace h s (lhead s) new v.

(** list:1437-1445 _Unchecked_erase(_Pnode) *)
Definition Erase1 (h : heap) (s : lst) (p : nat) : res (heap * lst * nat) :=
  r <~ N h p ;;
  pp <~ P h p ;; h <~ setN h pp r ;;
  pp <~ P h p ;; h <~ setP h r pp ;;
  h <~ Free h p ;;
  Ok (h, Lst (lhead s) (lsize s - 1), r).
(** list:403-409 _Unlinknode and 1427-1434 erase(const_iterator) *)
Definition Unlinknode (h : heap) (s : lst) (p : nat) : res (heap * lst) :=
  pp <~ P h p ;; pn <~ N h p ;; h <~ setN h pp pn ;;
  pn <~ N h p ;; pp <~ P h p ;; h <~ setP h pn pp ;;
  Ok (h, Lst (lhead s) (lsize s - 1)).
Definition erase (h : heap) (s : lst) (p : nat) : res (heap * lst * nat) :=
  r <~ N h p ;; '(h, s) <~ Unlinknode h s p ;; h <~ Free h p ;; Ok (h, s, r).
(** list:1265-1271, 1286-1292 pop_front, pop_back *)
Definition pop_front (h : heap) (s : lst) : res (heap * lst) := f <~ N h (lhead s) ;; '(h, s, _) <~ Erase1 h s f ;; Ok (h, s).
Definition pop_back (h : heap) (s : lst) : res (heap * lst) := f <~ P h (lhead s) ;; '(h, s, _) <~ Erase1 h s f ;; Ok (h, s).
(** list:1454-1501 _Unchecked_erase(_First, _Last); the count is subtracted from the size at the end *)
Definition Erase (h : heap) (s : lst) (first last : nat) : res (heap * lst * nat) :=
  if decide (first = last) then Ok (h, s, last)
  else
    pred <~ P h first ;;
    h <~ setN h pred last ;; h <~ setP h last pred ;;
    '(h, n) <~ loop (S (lsize s))
      (fun '(h, first, n) => next <~ N h first ;; h <~ Free h first ;;
         if decide (next = last) then Ok (inr (h, S n)) else Ok (inl (h, next, S n))) (h, first, 0) ;;
    Ok (h, Lst (lhead s) (lsize s - n), last).
(** list:322-331 _Free_non_head, 1504-1511 clear *)
Definition clear (h : heap) (s : lst) : res (heap * lst) :=
  b <~ P h (lhead s) ;; h <~ setN h b null ;;
  f <~ N h (lhead s) ;;
  h <~ loop (S (lsize s)) (fun '(h, p) => if decide (p = null) then Ok (inr h) else next <~ N h p ;; h <~ Free h p ;; Ok (inl (h, next))) (h, f) ;;
  h <~ setN h (lhead s) (lhead s) ;; h <~ setP h (lhead s) (lhead s) ;;
  Ok (h, Lst (lhead s) 0).

(** list:478-497 _Unchecked_splice(_Before, _First, _Last) *)
Definition Splice3 (h : heap) (before first last : nat) : res heap :=
  _ <~ rassert (bool_decide (before <> first /\ before <> last /\ first <> last)) ;;
  fp <~ P h first ;; h <~ setN h fp last ;;
  lp <~ P h last ;; h <~ setN h lp before ;;
  bp <~ P h before ;; h <~ setN h bp first ;;
  h <~ setP h before lp ;; h <~ setP h last fp ;; setP h first bp.
(** list:1813-1845 _Splice between different lists ([same] = false) or within one list *)
Definition Splice (h : heap) (s : lst) (r : lst) (same : bool) (where_ first last count : nat) : res (heap * lst * lst) :=
  h <~ Splice3 h where_ first last ;;
  if same then Ok (h, s, r) else Ok (h, Lst (lhead s) (lsize s + count), Lst (lhead r) (lsize r - count)).
(** list:1530-1539 splice all of r *)
Definition splice_all (h : heap) (s r : lst) (where_ : nat) : res (heap * lst * lst) :=
  if decide (lhead s <> lhead r /\ lsize r <> 0) then f <~ N h (lhead r) ;; Splice h s r false where_ f (lhead r) (lsize r)
  else Ok (h, s, r).
(** list:1545-1563 splice one element; the lists are the same object exactly when they have the same head *)
Definition splice_one (h : heap) (s r : lst) (where_ first : nat) : res (heap * lst * lst) :=
  last <~ N h first ;;
  if decide (lhead s <> lhead r \/ (where_ <> first /\ where_ <> last)) then Splice h s r (bool_decide (lhead s = lhead r)) where_ first last 1
  else Ok (h, s, r).
(** list:1570-1601 splice a range *)
Definition splice_range (h : heap) (s r : lst) (where_ first last : nat) : res (heap * lst * lst) :=
  if decide (first <> last /\ (lhead s <> lhead r \/ where_ <> last)) then
    count <~ (if decide (lhead s <> lhead r) then
                f <~ N h (lhead r) ;;
                if decide (first = f /\ last = lhead r) then Ok (lsize r)
                else loop (S (lsize r)) (fun '(p, n) => if decide (p = last) then Ok (inr n) else q <~ N h p ;; Ok (inl (q, S n))) (first, 0)
              else Ok 0) ;;
    Splice h s r (bool_decide (lhead s = lhead r)) where_ first last count
  else Ok (h, s, r).

(** list:1617-1671 _List_node_remove_op: pending nodes, [tail] = None for &_Head, Some p for &p->_Next *)
Definition Transfer_back (h : heap) (n : nat) (op : nat * option nat) (p : nat) : res (heap * nat * (nat * option nat) * nat) :=
  next <~ N h p ;; h <~ setN h p null ;;
  prev <~ P h p ;; h <~ setN h prev next ;; h <~ setP h next prev ;;
  '(h, hd) <~ match snd op with None => Ok (h, p) | Some q => h <~ setN h q p ;; Ok (h, fst op) end ;;
  Ok (h, n - 1, (hd, Some p), next).
Definition Remove_dtor (fuel : nat) (h : heap) (op : nat * option nat) : res heap :=
  loop fuel (fun '(h, t) => if decide (t = null) then Ok (inr h) else next <~ N h t ;; h <~ Free h t ;; Ok (inl (h, next))) (h, fst op).
(** list:1683-1702 remove_if *)
Definition remove_if (pred : V -> bool) (h : heap) (s : lst) : res (heap * lst * nat) :=
  f <~ N h (lhead s) ;;
  '(h, n, op) <~ loop (S (lsize s))
    (fun '(h, n, op, first) =>
       if decide (first = lhead s) then Ok (inr (h, n, op))
       else next <~ N h first ;; v <~ Val h first ;;
            '(h, n, op) <~ (if pred v then '(h, n, op, _) <~ Transfer_back h n op first ;; Ok (h, n, op) else Ok (h, n, op)) ;;
            Ok (inl (h, n, op, next))) (h, lsize s, (null, None), f) ;;
  h <~ Remove_dtor (S (lsize s)) h op ;;
  Ok (h, Lst (lhead s) n, lsize s - n).
(** list:1709-1729 unique *)
Definition unique (pred : V -> V -> bool) (h : heap) (s : lst) : res (heap * lst * nat) :=
  prev <~ N h (lhead s) ;; nd <~ N h prev ;;
  '(h, n, op) <~ loop (S (lsize s))
    (fun '(h, n, op, prev, nd) =>
       if decide (nd = lhead s) then Ok (inr (h, n, op))
       else u <~ Val h prev ;; v <~ Val h nd ;;
            if pred u v then '(h, n, op, next) <~ Transfer_back h n op nd ;; Ok (inl (h, n, op, prev, next))
            else next <~ N h nd ;; Ok (inl (h, n, op, nd, next))) (h, lsize s, (null, None), prev, nd) ;;
  h <~ Remove_dtor (S (lsize s)) h op ;;
  Ok (h, Lst (lhead s) n, lsize s - n).

(** list:522-563 _Merge_same. [Skip]: the do-while that moves _First forward while it is in position; None = return _Newfirst *)
Definition Skip (lt : V -> V -> bool) (fuel : nat) (h : heap) (first mid : nat) : res (option nat) :=
  loop fuel (fun first => first <~ N h first ;;
    if decide (first = mid) then Ok (inr None)
    else u <~ Val h mid ;; v <~ Val h first ;; if negb (lt u v) then Ok (inl first) else Ok (inr (Some first))) first.
(** the do-while that finds the end of a run *)
Definition Run (lt : V -> V -> bool) (fuel : nat) (h : heap) (first mid last : nat) : res nat :=
  loop fuel (fun mid => mid <~ N h mid ;;
    if decide (mid = last) then Ok (inr mid)
    else u <~ Val h mid ;; v <~ Val h first ;; if lt u v then Ok (inl mid) else Ok (inr mid)) mid.
Definition Merge_same (lt : V -> V -> bool) (fuel : nat) (h : heap) (first mid last : nat) : res (heap * nat) :=
  _ <~ rassert (bool_decide (first <> mid /\ mid <> last)) ;;
  u <~ Val h mid ;; v <~ Val h first ;;
  '(newfirst, o) <~ (if lt u v then Ok (mid, Some first) else o <~ Skip lt fuel h first mid ;; Ok (first, o)) ;;
  match o with
  | None => Ok (h, newfirst)
  | Some first =>
      h <~ loop fuel (fun '(h, first, mid) =>
        mid' <~ Run lt fuel h first mid last ;;
        h <~ Splice3 h first mid mid' ;;
        if decide (mid' = last) then Ok (inr h)
        else o <~ Skip lt fuel h first mid' ;;
             match o with None => Ok (inr h) | Some first => Ok (inl (h, first, mid')) end) (h, first, mid) ;;
      Ok (h, newfirst)
  end.
(** list:566-581 _Sort. _First is a reference: [ref] = Some p for p->_Next, None for a local variable whose value is [var].
    The recursion depth is bounded by the size. Result (heap, new value of the variable, _First + _Size). *)
Definition getref (h : heap) (ref : option nat) (var : nat) : res nat := match ref with Some p => N h p | None => Ok var end.
Fixpoint Sort (lt : V -> V -> bool) (fuel : nat) (h : heap) (ref : option nat) (var : nat) (size : nat) : res (heap * nat * nat) :=
  match fuel with
  | 0 => Fuel
  | S f =>
      if decide (size = 0) then r <~ getref h ref var ;; Ok (h, var, r)
      else if decide (size = 1) then r <~ getref h ref var ;; r <~ N h r ;; Ok (h, var, r)
      else
        '(h, var, mid) <~ Sort lt f h ref var (size / 2) ;;
        '(h, mid, last) <~ Sort lt f h None mid (size - size / 2) ;;
        first <~ getref h ref var ;;
        '(h, nf) <~ Merge_same lt (S size) h first mid last ;;
        h <~ match ref with Some p => setN h p nf | None => Ok h end ;;
        Ok (h, nf, last)
  end.
(** list:1790-1793 sort *)
Definition sort (lt : V -> V -> bool) (h : heap) (s : lst) : res heap :=
  '(h, _, _) <~ Sort lt (S (lsize s)) h (Some (lhead s)) null (lsize s) ;; Ok h.
(** list:1751-1782 _Merge1 *)
Definition merge (lt : V -> V -> bool) (h : heap) (s r : lst) : res (heap * lst * lst) :=
  if decide (lhead s = lhead r) then Ok (h, s, r)
  else if decide (lsize r = 0) then Ok (h, s, r)
  else
    mid <~ N h (lhead r) ;;
    '(h, s, r') <~ Splice h s r false (lhead s) mid (lhead r) (lsize r) ;;
    f <~ N h (lhead s) ;;
    if decide (f <> mid) then f <~ N h (lhead s) ;; '(h, _) <~ Merge_same lt (S (lsize s)) h f mid (lhead s) ;; Ok (h, s, r')
    else Ok (h, s, r').
(** list:1795-1810 reverse *)
Definition reverse (h : heap) (s : lst) : res heap :=
  loop (S (lsize s)) (fun '(h, p) =>
    next <~ N h p ;; prev <~ P h p ;; h <~ setN h p prev ;; h <~ setP h p next ;;
    if decide (next = lhead s) then Ok (inr h) else Ok (inl (h, next))) (h, lhead s).

(** list:662-688 _Append_range_unchecked: (heap, _Added, _Head, _Tail); [news] are the addresses the allocator chooses *)
Fixpoint Append_range (h : heap) (op : nat * nat * nat) (news : list nat) (vs : list V) : res (heap * (nat * nat * nat)) :=
  match vs, news with
  | [], _ => Ok (h, op)
  | v :: vs, new :: news =>
      let '(added, hd, tl) := op in
      h <~ New h new v ;;
      if decide (added = 0) then Append_range h (1, new, new) news vs
      else h <~ setN h tl new ;; h <~ setP h new tl ;; Append_range h (S added, hd, new) news vs
  | _ :: _, [] => UB
  end.
(** list:691-713 _Attach_before *)
Definition Attach_before (h : heap) (s : lst) (op : nat * nat * nat) (before : nat) : res (heap * lst * nat) :=
  let '(added, hd, tl) := op in
  if decide (added = 0) then Ok (h, s, before)
  else
    after <~ P h before ;;
    h <~ setP h hd after ;; h <~ setN h after hd ;; h <~ setN h tl before ;; h <~ setP h before tl ;;
    Ok (h, Lst (lhead s) (lsize s + added), hd).
(** list:1405-1413 insert(where, first, last) *)
Definition insert_range (h : heap) (s : lst) (where_ : nat) (news : list nat) (vs : list V) : res (heap * lst * nat) :=
  '(h, op) <~ Append_range h (0, null, null) news vs ;; Attach_before h s op where_.
End list.
Arguments node V : clear implicits.
Arguments heap V : clear implicits.
