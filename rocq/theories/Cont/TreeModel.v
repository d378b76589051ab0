(** Model of the red-black tree behind std::map/set/multimap/multiset: stl/inc/xtree.
    The heap is a partial function from node addresses to nodes; 0 is the head node (_Myhead), which is also the nil node.
    Reading or writing an address that holds no node is [UB]. Node values never change. Iterator debugging (_Orphan_ptr,
    _ITERATOR_DEBUG_LEVEL) is not modelled; comparisons do not throw here. Loop bounds (fuel) derive from the stored size. *)
From stdpp Require Import base list numbers option decidable.
From Coq Require Import Lia.
From Verif Require Import Base.Res.

Inductive color := Red | Black.                                            (* xtree:344-347 *)
Global Instance color_eq_dec : EqDecision color.
Proof. solve_decision. Defined.
Inductive child := CRight | CLeft | CUnused.                               (* xtree:403-407 *)
Global Instance child_eq_dec : EqDecision child.
Proof. solve_decision. Defined.

Section tree.
Context {V K : Type} (kf : V -> K) (lt : K -> K -> bool).                  (* _Traits::_Kfn, _Getcomp() *)
(** xtree:332-344; [nval] of the head node is unused (None) *)
Record node := Node { nleft : nat; nparent : nat; nright : nat; ncolor : color; nisnil : bool; nval : option V }.
Definition heap : Type := nat -> option node.
Definition upd (h : heap) (p : nat) (n : option node) : heap := fun x => if decide (x = p) then n else h x.
Definition ld (h : heap) (p : nat) : res node := match h p with Some n => Ok n | None => UB end.
Definition setL (h : heap) (p q : nat) : res heap := n <~ ld h p ;; Ok (upd h p (Some (Node q (nparent n) (nright n) (ncolor n) (nisnil n) (nval n)))).
Definition setP (h : heap) (p q : nat) : res heap := n <~ ld h p ;; Ok (upd h p (Some (Node (nleft n) q (nright n) (ncolor n) (nisnil n) (nval n)))).
Definition setR (h : heap) (p q : nat) : res heap := n <~ ld h p ;; Ok (upd h p (Some (Node (nleft n) (nparent n) q (ncolor n) (nisnil n) (nval n)))).
Definition setC (h : heap) (p : nat) (c : color) : res heap := n <~ ld h p ;; Ok (upd h p (Some (Node (nleft n) (nparent n) (nright n) c (nisnil n) (nval n)))).
Definition L (h : heap) (p : nat) : res nat := n <~ ld h p ;; Ok (nleft n).
Definition P (h : heap) (p : nat) : res nat := n <~ ld h p ;; Ok (nparent n).
Definition R (h : heap) (p : nat) : res nat := n <~ ld h p ;; Ok (nright n).
Definition C (h : heap) (p : nat) : res color := n <~ ld h p ;; Ok (ncolor n).
Definition Isnil (h : heap) (p : nat) : res bool := n <~ ld h p ;; Ok (nisnil n).
(** _Traits::_Kfn(p->_Myval); the value of the head node does not exist *)
Definition Key (h : heap) (p : nat) : res K := n <~ ld h p ;; match nval n with Some v => Ok (kf v) | None => UB end.
Definition head : nat := 0.

(** _Tree_val: _Myhead and the nodes, _Mysize *)
Record tst := Ts { mem : heap; msize : nat }.

(** xtree:478-492 *)
Definition Max (fuel : nat) (h : heap) (p : nat) : res nat :=
  loop fuel (fun p => r <~ R h p ;; b <~ Isnil h r ;; if b : bool then Ok (inr p) else Ok (inl r)) p.
Definition Min (fuel : nat) (h : heap) (p : nat) : res nat :=
  loop fuel (fun p => r <~ L h p ;; b <~ Isnil h r ;; if b : bool then Ok (inr p) else Ok (inl r)) p.

(** xtree:494-514 *)
Definition Lrotate (h : heap) (w : nat) : res heap :=
  p <~ R h w ;; pl <~ L h p ;;
  h <~ setR h w pl ;;
  b <~ Isnil h pl ;;
  h <~ (if b : bool then Ok h else setP h pl w) ;;
  wp <~ P h w ;;
  h <~ setP h p wp ;;
  root <~ P h head ;;
  h <~ (if decide (w = root) then setP h head p
        else wpl <~ L h wp ;; if decide (w = wpl) then setL h wp p else setR h wp p) ;;
  h <~ setL h p w ;;
  setP h w p.
(** xtree:516-536 *)
Definition Rrotate (h : heap) (w : nat) : res heap :=
  p <~ L h w ;; pr <~ R h p ;;
  h <~ setL h w pr ;;
  b <~ Isnil h pr ;;
  h <~ (if b : bool then Ok h else setP h pr w) ;;
  wp <~ P h w ;;
  h <~ setP h p wp ;;
  root <~ P h head ;;
  h <~ (if decide (w = root) then setP h head p
        else wpr <~ R h wp ;; if decide (w = wpr) then setR h wp p else setL h wp p) ;;
  h <~ setR h p w ;;
  setP h w p.

(** iterator operator++: xtree:60-72 *)
Definition incr (fuel : nat) (h : heap) (p : nat) : res nat :=
  r <~ R h p ;; b <~ Isnil h r ;;
  if b : bool then
    loop fuel (fun p => q <~ P h p ;; b <~ Isnil h q ;; qr <~ (if b : bool then Ok 0 else R h q) ;;
                        if negb b && bool_decide (p = qr) then Ok (inl q) else Ok (inr q)) p
  else Min fuel h r.
(** iterator operator--: xtree:81-98 *)
Definition decr (fuel : nat) (h : heap) (p : nat) : res nat :=
  b <~ Isnil h p ;;
  if b : bool then R h p
  else
    l <~ L h p ;; b <~ Isnil h l ;;
    if b : bool then
      loop fuel (fun p => q <~ P h p ;; b <~ Isnil h q ;; ql <~ (if b : bool then Ok 0 else L h q) ;;
                          if negb b && bool_decide (p = ql) then Ok (inl q)
                          else b' <~ Isnil h p ;; Ok (inr (if b' : bool then p else q))) p
    else Max fuel h l.

(** xtree:680-752: the loop that repairs a red-red edge at p *)
Definition Insert_fix (h : heap) (p : nat) : res ((heap * nat) + heap) :=
  pp <~ P h p ;; pc <~ C h pp ;;
  if decide (pc = Red) then
    pp <~ P h p ;; g <~ P h pp ;; gl <~ L h g ;;
    if decide (pp = gl) then
      sib <~ R h g ;; sc <~ C h sib ;;
      if decide (sc = Red) then
        h <~ setC h pp Black ;; h <~ setC h sib Black ;; h <~ setC h g Red ;; Ok (inl (h, g))
      else
        ppr <~ R h pp ;;
        '(h, p) <~ (if decide (p = ppr) then h <~ Lrotate h pp ;; Ok (h, pp) else Ok (h, p)) ;;
        pp <~ P h p ;; h <~ setC h pp Black ;; pp <~ P h p ;; g <~ P h pp ;; h <~ setC h g Red ;; h <~ Rrotate h g ;; Ok (inl (h, p))
    else
      sib <~ L h g ;; sc <~ C h sib ;;
      if decide (sc = Red) then
        h <~ setC h pp Black ;; h <~ setC h sib Black ;; h <~ setC h g Red ;; Ok (inl (h, g))
      else
        ppl <~ L h pp ;;
        '(h, p) <~ (if decide (p = ppl) then h <~ Rrotate h pp ;; Ok (h, pp) else Ok (h, p)) ;;
        pp <~ P h p ;; h <~ setC h pp Black ;; pp <~ P h p ;; g <~ P h pp ;; h <~ setC h g Red ;; h <~ Lrotate h g ;; Ok (inl (h, p))
  else Ok (inr h).
(** xtree:680-752; the _STL_INTERNAL_CHECKs are assertions here *)
Definition Insert_node (s : tst) (loc : nat * child) (new : nat) : res tst :=
  let sz := S (msize s) in
  h <~ setP (mem s) new (fst loc) ;;
  if decide (fst loc = head) then
    h <~ setL h head new ;; h <~ setP h head new ;; h <~ setR h head new ;; h <~ setC h new Black ;; Ok (Ts h sz)
  else
    _ <~ rassert (bool_decide (snd loc <> CUnused)) ;;
    h <~ (if decide (snd loc = CRight) then
            r <~ R h (fst loc) ;; b <~ Isnil h r ;; _ <~ rassert b ;;
            h <~ setR h (fst loc) new ;; m <~ R h head ;;
            if decide (fst loc = m) then setR h head new else Ok h
          else
            l <~ L h (fst loc) ;; b <~ Isnil h l ;; _ <~ rassert b ;;
            h <~ setL h (fst loc) new ;; m <~ L h head ;;
            if decide (fst loc = m) then setL h head new else Ok h) ;;
    h <~ loop (S sz) (fun '(h, p) => Insert_fix h p) (h, new) ;;
    root <~ P h head ;; h <~ setC h root Black ;; Ok (Ts h sz).

(** xtree:611-671: one round of the loop that repairs a missing black; (heap, _Fixnode, _Fixnodeparent) *)
Definition Extract_fix (h : heap) (fix_ par : nat) : res ((heap * nat * nat) + (heap * nat)) :=
  root <~ P h head ;; fc <~ C h fix_ ;;
  if decide (fix_ <> root /\ fc = Black) then
    pl <~ L h par ;;
    if decide (fix_ = pl) then
      p <~ R h par ;; pc <~ C h p ;;
      '(h, p) <~ (if decide (pc = Red) then
                    h <~ setC h p Black ;; h <~ setC h par Red ;; h <~ Lrotate h par ;; p <~ R h par ;; Ok (h, p)
                  else Ok (h, p)) ;;
      b <~ Isnil h p ;;
      if b : bool then np <~ P h par ;; Ok (inl (h, par, np))
      else
        l <~ L h p ;; lc <~ C h l ;; r <~ R h p ;; rc <~ C h r ;;
        if decide (lc = Black /\ rc = Black) then h <~ setC h p Red ;; np <~ P h par ;; Ok (inl (h, par, np))
        else
          '(h, p) <~ (if decide (rc = Black) then
                        h <~ setC h l Black ;; h <~ setC h p Red ;; h <~ Rrotate h p ;; p <~ R h par ;; Ok (h, p)
                      else Ok (h, p)) ;;
          c <~ C h par ;; h <~ setC h p c ;; h <~ setC h par Black ;; r <~ R h p ;; h <~ setC h r Black ;;
          h <~ Lrotate h par ;; Ok (inr (h, fix_))
    else
      p <~ L h par ;; pc <~ C h p ;;
      '(h, p) <~ (if decide (pc = Red) then
                    h <~ setC h p Black ;; h <~ setC h par Red ;; h <~ Rrotate h par ;; p <~ L h par ;; Ok (h, p)
                  else Ok (h, p)) ;;
      b <~ Isnil h p ;;
      if b : bool then np <~ P h par ;; Ok (inl (h, par, np))
      else
        r <~ R h p ;; rc <~ C h r ;; l <~ L h p ;; lc <~ C h l ;;
        if decide (rc = Black /\ lc = Black) then h <~ setC h p Red ;; np <~ P h par ;; Ok (inl (h, par, np))
        else
          '(h, p) <~ (if decide (lc = Black) then
                        h <~ setC h r Black ;; h <~ setC h p Red ;; h <~ Lrotate h p ;; p <~ L h par ;; Ok (h, p)
                      else Ok (h, p)) ;;
          c <~ C h par ;; h <~ setC h p c ;; h <~ setC h par Black ;; l <~ L h p ;; h <~ setC h l Black ;;
          h <~ Rrotate h par ;; Ok (inr (h, fix_))
  else Ok (inr (h, fix_)).
(** the statement "parent (or head) of old now points down to new": xtree:561-567 and 598-604 *)
Definition relink (h : heap) (old par new : nat) : res heap :=
  root <~ P h head ;;
  if decide (root = old) then setP h head new
  else l <~ L h par ;; if decide (l = old) then setL h par new else setR h par new.
(** xtree:538-609: unlink the erased node e; result (heap, _Fixnode, _Fixnodeparent) *)
Definition Unlink (fuel : nat) (h : heap) (e : nat) : res (heap * nat * nat) :=
  where_ <~ incr fuel h e ;;
  el <~ L h e ;; bl <~ Isnil h el ;; er <~ R h e ;; br <~ Isnil h er ;;
  if (bl || br : bool) then
    let fx := if bl : bool then er else el in
    par <~ P h e ;; bf <~ Isnil h fx ;;
    h <~ (if bf : bool then Ok h else setP h fx par) ;;
    h <~ relink h e par fx ;;
    hl <~ L h head ;;
    h <~ (if decide (hl = e) then m <~ (if bf : bool then Ok par else Min fuel h fx) ;; setL h head m else Ok h) ;;
    hr <~ R h head ;;
    h <~ (if decide (hr = e) then m <~ (if bf : bool then Ok par else Max fuel h fx) ;; setR h head m else Ok h) ;;
    Ok (h, fx, par)
  else
    let p := where_ in
    fx <~ R h p ;;
    h <~ setP h el p ;; h <~ setL h p el ;;
    '(h, par) <~ (if decide (p = er) then Ok (h, p)
                  else
                    par <~ P h p ;; bf <~ Isnil h fx ;;
                    h <~ (if bf : bool then Ok h else setP h fx par) ;;
                    h <~ setL h par fx ;; h <~ setR h p er ;; h <~ setP h er p ;; Ok (h, par)) ;;
    ep <~ P h e ;;
    h <~ relink h e ep p ;;
    h <~ setP h p ep ;;
    pc <~ C h p ;; ec <~ C h e ;; h <~ setC h p ec ;; h <~ setC h e pc ;;
    Ok (h, fx, par).
(** xtree:538-678 *)
Definition Extract (s : tst) (e : nat) : res tst :=
  '(h, fx, par) <~ Unlink (S (msize s)) (mem s) e ;;
  c <~ C h e ;;
  h <~ (if decide (c = Black) then
          '(h, fx) <~ loop (S (msize s)) (fun '(h, fx, par) => Extract_fix h fx par) (h, fx, par) ;; setC h fx Black
        else Ok h) ;;
  Ok (Ts h (msize s - 1)).

(** xtree:1614-1632; result (_Location, _Bound) *)
Definition Find_upper_bound (s : tst) (k : K) : res (nat * child * nat) :=
  root <~ P (mem s) head ;;
  loop (S (msize s))
    (fun '(par, ch, bound, try) =>
       b <~ Isnil (mem s) try ;;
       if b : bool then Ok (inr (par, ch, bound))
       else
         y <~ Key (mem s) try ;;
         if lt k y then l <~ L (mem s) try ;; Ok (inl (try, CLeft, try, l))
         else r <~ R (mem s) try ;; Ok (inl (try, CRight, bound, r)))
    (root, CRight, head, root).
(** xtree:1639-1658 *)
Definition Find_lower_bound (s : tst) (k : K) : res (nat * child * nat) :=
  root <~ P (mem s) head ;;
  loop (S (msize s))
    (fun '(par, ch, bound, try) =>
       b <~ Isnil (mem s) try ;;
       if b : bool then Ok (inr (par, ch, bound))
       else
         y <~ Key (mem s) try ;;
         if lt y k then r <~ R (mem s) try ;; Ok (inl (try, CRight, bound, r))
         else l <~ L (mem s) try ;; Ok (inl (try, CLeft, try, l)))
    (root, CRight, head, root).
(** xtree:1634-1637 *)
Definition Lower_bound_duplicate (s : tst) (bound : nat) (k : K) : res bool :=
  b <~ Isnil (mem s) bound ;; if b : bool then Ok false else y <~ Key (mem s) bound ;; Ok (negb (lt k y)).
(** xtree:1394-1402 _Find; 1423-1431 contains; 1451-1485 lower_bound, upper_bound *)
Definition find (s : tst) (k : K) : res nat :=
  '(_, _, b) <~ Find_lower_bound s k ;; d <~ Lower_bound_duplicate s b k ;; Ok (if d : bool then b else head).
Definition contains (s : tst) (k : K) : res bool :=
  '(_, _, b) <~ Find_lower_bound s k ;; Lower_bound_duplicate s b k.
Definition lower_bound (s : tst) (k : K) : res nat := '(_, _, b) <~ Find_lower_bound s k ;; Ok b.
Definition upper_bound (s : tst) (k : K) : res nat := '(_, _, b) <~ Find_upper_bound s k ;; Ok b.
(** xtree:1715-1750 *)
Definition Eqrange (s : tst) (k : K) : res (nat * nat) :=
  root <~ P (mem s) head ;;
  '(lo, hi) <~ loop (S (msize s))
    (fun '(p, lo, hi) =>
       b <~ Isnil (mem s) p ;;
       if b : bool then Ok (inr (lo, hi))
       else
         y <~ Key (mem s) p ;;
         if lt y k then r <~ R (mem s) p ;; Ok (inl (r, lo, hi))
         else
           bh <~ Isnil (mem s) hi ;;
           l <~ L (mem s) p ;;
           Ok (inl (l, p, if (bh : bool) && lt k y then p else hi)))
    (root, head, head) ;;
  bh <~ Isnil (mem s) hi ;;
  p <~ (if bh : bool then P (mem s) head else L (mem s) hi) ;;
  hi <~ loop (S (msize s))
    (fun '(p, hi) =>
       b <~ Isnil (mem s) p ;;
       if b : bool then Ok (inr hi)
       else
         y <~ Key (mem s) p ;;
         if lt k y then l <~ L (mem s) p ;; Ok (inl (l, p)) else r <~ R (mem s) p ;; Ok (inl (r, hi)))
    (p, hi) ;;
  Ok (lo, hi).

(** xtree:1524-1611 *)
Definition Find_hint_multi (s : tst) (hint : nat) (k : K) : res (nat * child) :=
  let fu := '(par, ch, _) <~ Find_upper_bound s k ;; Ok (par, ch) in
  let fl := '(par, ch, _) <~ Find_lower_bound s k ;; Ok (par, ch) in
  bh <~ Isnil (mem s) hint ;;
  if bh : bool then
    root <~ P (mem s) head ;; br <~ Isnil (mem s) root ;;
    hr <~ R (mem s) head ;;
    ok <~ (if br : bool then Ok true else y <~ Key (mem s) hr ;; Ok (negb (lt k y))) ;;
    if ok : bool then Ok (hr, CRight) else fu
  else
    hl <~ L (mem s) head ;; y <~ Key (mem s) hint ;;
    if decide (hint = hl) then
      if negb (lt y k) then Ok (hint, CLeft) else fl
    else if negb (lt y k) then
      prev <~ decr (S (msize s)) (mem s) hint ;; z <~ Key (mem s) prev ;;
      if negb (lt k z) then
        pr <~ R (mem s) prev ;; b <~ Isnil (mem s) pr ;; Ok (if b : bool then (prev, CRight) else (hint, CLeft))
      else fu
    else fl.
(** result (_Location, _Duplicate) *)
Definition Find_hint_unique (s : tst) (hint : nat) (k : K) : res (nat * child * bool) :=
  let fall := '(par, ch, bound) <~ Find_lower_bound s k ;; d <~ Lower_bound_duplicate s bound k ;;
              Ok (if d : bool then (bound, CUnused, true) else (par, ch, false)) in
  bh <~ Isnil (mem s) hint ;;
  if bh : bool then
    root <~ P (mem s) head ;; br <~ Isnil (mem s) root ;;
    hr <~ R (mem s) head ;;
    ok <~ (if br : bool then Ok true else y <~ Key (mem s) hr ;; Ok (lt y k)) ;;
    if ok : bool then Ok (hr, CRight, false) else fall
  else
    hl <~ L (mem s) head ;; y <~ Key (mem s) hint ;;
    if decide (hint = hl) then
      if lt k y then Ok (hint, CLeft, false) else fall
    else if lt k y then
      prev <~ decr (S (msize s)) (mem s) hint ;; z <~ Key (mem s) prev ;;
      if lt z k then
        pr <~ R (mem s) prev ;; b <~ Isnil (mem s) pr ;; Ok (if b : bool then (prev, CRight, false) else (hint, CLeft, false))
      else fall
    else if lt y k then
      next <~ incr (S (msize s)) (mem s) hint ;; bn <~ Isnil (mem s) next ;;
      ok <~ (if bn : bool then Ok true else z <~ Key (mem s) next ;; Ok (lt k z)) ;;
      if ok : bool then
        hr <~ R (mem s) hint ;; b <~ Isnil (mem s) hr ;; Ok (if b : bool then (hint, CRight, false) else (next, CLeft, false))
      else fall
    else Ok (hint, CRight, true).

(** xtree:366-379 _Buynode: [new] is any address the allocator returns for a new node *)
Definition Buynode (s : tst) (new : nat) (v : V) : res tst :=
  if decide (mem s new = None) then Ok (Ts (upd (mem s) new (Some (Node head head head Red false (Some v)))) (msize s)) else UB.
(** xtree:390-395 _Freenode *)
Definition Freenode (s : tst) (p : nat) : res tst := _ <~ ld (mem s) p ;; Ok (Ts (upd (mem s) p None) (msize s)).
(** xtree:1021-1054 _Emplace, first variant (!_Multi, key can be extracted before the node is made). Result (iterator, inserted).
    _Check_grow_by_1 (length_error at max_size) is not modelled: sizes are unbounded. *)
Definition emplace_unique (s : tst) (new : nat) (v : V) : res (tst * nat * bool) :=
  '(par, ch, bound) <~ Find_lower_bound s (kf v) ;;
  d <~ Lower_bound_duplicate s bound (kf v) ;;
  if d : bool then Ok (s, bound, false)
  else s <~ Buynode s new v ;; s <~ Insert_node s (par, ch) new ;; Ok (s, new, true).
(** second variant, !_Multi: the node is made first, and freed again by ~_Tree_temp_node if the key is present *)
Definition emplace_unique_node (s : tst) (new : nat) (v : V) : res (tst * nat * bool) :=
  s <~ Buynode s new v ;;
  k <~ Key (mem s) new ;;
  '(par, ch, bound) <~ Find_lower_bound s k ;;
  d <~ Lower_bound_duplicate s bound k ;;
  if d : bool then s <~ Freenode s new ;; Ok (s, bound, false)
  else s <~ Insert_node s (par, ch) new ;; Ok (s, new, true).
(** second variant, _Multi *)
Definition emplace_multi (s : tst) (new : nat) (v : V) : res (tst * nat) :=
  s <~ Buynode s new v ;;
  k <~ Key (mem s) new ;;
  '(par, ch, _) <~ Find_upper_bound s k ;;
  s <~ Insert_node s (par, ch) new ;; Ok (s, new).
(** xtree:1065-1094 _Emplace_hint *)
Definition emplace_hint_unique (s : tst) (hint new : nat) (v : V) : res (tst * nat) :=
  '(par, ch, d) <~ Find_hint_unique s hint (kf v) ;;
  if d : bool then Ok (s, par)
  else s <~ Buynode s new v ;; s <~ Insert_node s (par, ch) new ;; Ok (s, new).
Definition emplace_hint_multi (s : tst) (hint new : nat) (v : V) : res (tst * nat) :=
  s <~ Buynode s new v ;;
  k <~ Key (mem s) new ;;
  loc <~ Find_hint_multi s hint k ;;
  s <~ Insert_node s loc new ;; Ok (s, new).
(** xtree:1310-1318 _Erase_unchecked(_Where) *)
Definition erase1 (s : tst) (p : nat) : res (tst * nat) :=
  succ <~ incr (S (msize s)) (mem s) p ;;
  s <~ Extract s p ;; s <~ Freenode s p ;; Ok (s, succ).
(** xtree:778-783 _Erase_tree: the recursion visits at most [fuel] levels (loop and recursion share the bound) *)
Fixpoint Erase_tree (fuel : nat) (s : tst) (p : nat) : res tst :=
  match fuel with
  | 0 => Fuel
  | S f =>
      b <~ Isnil (mem s) p ;;
      if b : bool then Ok s
      else r <~ R (mem s) p ;; s <~ Erase_tree f s r ;; l <~ L (mem s) p ;; s <~ Freenode s p ;; Erase_tree f s l
  end.
(** xtree:1381-1390 *)
Definition clear (s : tst) : res tst :=
  root <~ P (mem s) head ;;
  s <~ Erase_tree (S (msize s)) s root ;;
  h <~ setP (mem s) head head ;; h <~ setL h head head ;; h <~ setR h head head ;; Ok (Ts h 0).
(** xtree:1320-1334 _Erase_unchecked(_First, _Last) *)
Definition erase_range (s : tst) (first last : nat) : res (tst * nat) :=
  bg <~ L (mem s) head ;; bn <~ Isnil (mem s) last ;;
  if decide (first = bg /\ bn = true) then s <~ clear s ;; Ok (s, last)
  else
    s <~ loop (S (msize s))
      (fun '(s, first) => if decide (first = last) then Ok (inr s)
                          else next <~ incr (S (msize s)) (mem s) first ;; '(s, _) <~ erase1 s first ;; Ok (inl (s, next)))
      (s, first) ;;
    Ok (s, last).
(** std::distance over tree iterators *)
Definition distance (s : tst) (first last : nat) : res nat :=
  loop (S (msize s))
    (fun '(p, n) => if decide (p = last) then Ok (inr n) else q <~ incr (S (msize s)) (mem s) p ;; Ok (inl (q, S n))) (first, 0).
(** xtree:1336-1342, 1368-1370 erase(key); 1434-1442 count for multi containers *)
Definition erase_key (s : tst) (k : K) : res (tst * nat) :=
  '(lo, hi) <~ Eqrange s k ;; n <~ distance s lo hi ;; '(s, _) <~ erase_range s lo hi ;; Ok (s, n).
Definition count (s : tst) (k : K) : res nat := '(lo, hi) <~ Eqrange s k ;; distance s lo hi.
(** xtree:354-364 _Buyheadnode: an empty container *)
Definition empty : tst := Ts (upd (fun _ => None) head (Some (Node head head head Black true None))) 0.
(** begin(), end(): xtree:_Myhead->_Left, _Myhead *)
Definition begin_ (s : tst) : res nat := L (mem s) head.
End tree.
Arguments node V : clear implicits.
Arguments heap V : clear implicits.
Arguments tst V : clear implicits.
