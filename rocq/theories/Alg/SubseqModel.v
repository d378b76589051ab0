(** search, find_end, search_n (stl/inc/algorithm) and the Boyer-Moore searchers (stl/inc/functional).
    Ranges are whole lists, so any read outside a range is UB. Vectorised paths are not modelled. *)
From stdpp Require Import base list numbers.
From Verif Require Import Base.Res Base.Arr.

(** [it[i]] on a read-only range *)
Definition at_ {B} (l : list B) (i : nat) : res B := match l !! i with Some x => Ok x | None => UB end.
(** [p[i] = v] *)
Definition set_ {B} (l : list B) (i : nat) (x : B) : res (list B) := if decide (i < length l)%nat then Ok (<[i := x]> l) else UB.

Section subseq.
  Context {A : Type} (pred : A -> A -> bool).

  (** algorithm:2460-2470 _Equal_rev_pred_unchecked: compare [h+first1, ...) to the whole of [p] *)
  Definition equal_rev_pred (h : list A) (first1 : nat) (p : list A) : res bool :=
    loop (S (length p))
      (fun '(first1, first2) =>
         if decide (first2 <> length p) then
           x <~ at_ h first1 ;; y <~ at_ p first2 ;;
           if negb (pred x y) then Ok (inr false) else Ok (inl (S first1, S first2))
         else Ok (inr true))
      (first1, 0%nat).

  (** algorithm:2472-2535 search: random-access branch *)
  Definition search_ra (h p : list A) : res nat :=
    let last1 := length h in
    let count2 := length p in
    if decide (count2 <= last1)%nat then
      let last_possible := (last1 - count2)%nat in
      loop (S last1)
        (fun first1 =>
           b <~ equal_rev_pred h first1 p ;;
           if (b : bool) then Ok (inr first1)
           else if decide (first1 = last_possible) then Ok (inr last1)
           else Ok (inl (S first1)))
        0%nat
    else Ok last1.
  (** algorithm:2517-2531 search: forward branch *)
  Definition search_fwd (h p : list A) : res nat :=
    loop (S (length h))
      (fun first1 =>
         r <~ loop (S (length p))
           (fun '(mid1, mid2) =>
              if decide (mid2 = length p) then Ok (inr (Some first1))
              else if decide (mid1 = length h) then Ok (inr (Some (length h)))
              else
                x <~ at_ h mid1 ;; y <~ at_ p mid2 ;;
                if negb (pred x y) then Ok (inr None) else Ok (inl (S mid1, S mid2)))
           (first1, 0%nat) ;;
         match r with Some res => Ok (inr res) | None => Ok (inl (S first1)) end)
      0%nat.

  (** algorithm:3611-3655 find_end: random-access branch *)
  Definition find_end_ra (h p : list A) : res nat :=
    let count2 := length p in
    if decide (0 < count2 /\ count2 <= length h)%nat then
      loop (S (length h))
        (fun candidate =>
           b <~ equal_rev_pred h candidate p ;;
           if (b : bool) then Ok (inr candidate)
           else if decide (candidate = 0%nat) then Ok (inr (length h))
           else candidate <~ decr candidate ;; Ok (inl candidate))
        (length h - count2)%nat
    else Ok (length h).
  (** algorithm:3656-3680 find_end: bidirectional branch *)
  Definition find_end_bidi (h p : list A) : res nat :=
    loop (S (length h))
      (fun candidate =>
         r <~ loop (S (length p))
           (fun '(next1, next2) =>
              if decide (0%nat = next2) then Ok (inr (Some next1))
              else if decide (0%nat = next1) then Ok (inr (Some (length h)))
              else
                next1 <~ decr next1 ;; next2 <~ decr next2 ;;
                x <~ at_ h next1 ;; y <~ at_ p next2 ;;
                if negb (pred x y) then Ok (inr None) else Ok (inl (next1, next2)))
           (candidate, length p) ;;
         match r with Some res => Ok (inr res) | None => candidate <~ decr candidate ;; Ok (inl candidate) end)
      (length h).
  (** algorithm:3681-3709 find_end: forward branch *)
  Definition find_end_fwd (h p : list A) : res nat :=
    loop (S (length h))
      (fun '(first1, result) =>
         r <~ loop (S (length p))
           (fun '(next1, next2, result) =>
              let end_of_needle := bool_decide (next2 = length p) in
              let result := if end_of_needle then first1 else result in
              if decide (next1 = length h) then Ok (inr (result, true))
              else if end_of_needle then Ok (inr (result, false))
              else
                x <~ at_ h next1 ;; y <~ at_ p next2 ;;
                if negb (pred x y) then Ok (inr (result, false)) else Ok (inl (S next1, S next2, result)))
           (first1, 0%nat, result) ;;
         let '(result, finished) := r in
         if (finished : bool) then Ok (inr result) else Ok (inl (S first1, result)))
      (0%nat, length h).

  (** algorithm:2566-2672 search_n: random-access branch. [val_pred x] is [_Pred(x, _Val)]; [eqto]: the predicate is
      equal_to<> so a count of 1 is delegated to find (xutility find: first match). The check of _Count against the
      largest difference value is subsumed by unbounded lengths. *)
  Context (val_pred : A -> bool).
  Definition find_val (h : list A) : res nat :=
    loop (S (length h))
      (fun first =>
         if decide (first <> length h) then
           x <~ at_ h first ;; if val_pred x then Ok (inr first) else Ok (inl (S first))
         else Ok (inr first))
      0%nat.
  Definition search_n_ra (eqto : bool) (h : list A) (count : nat) : res nat :=
    if decide (count = 0)%nat then Ok 0%nat
    else if eqto && bool_decide (count = 1%nat) then find_val h
    else
      let last := length h in
      loop (S (S last))
        (fun '(old_first, inc) =>
           if decide (old_first + count <= last)%nat then
             let first := (old_first + inc)%nat in
             x <~ at_ h first ;;
             if val_pred x then
               let mid := first in
               '(first, count1) <~
                 loop (S count)
                   (fun '(first, count1) =>
                      if decide (old_first <> first) then
                        pf <~ decr first ;;
                        y <~ at_ h pf ;;
                        if val_pred y then Ok (inl (pf, (count1 - 1)%nat)) else Ok (inr (first, count1))
                      else Ok (inr (first, count1)))
                   (first, count) ;;
               '(mid, found) <~
                 (if decide (mid + count1 <= last)%nat then
                    loop (S count)
                      (fun '(mid, count1) =>
                         count1 <~ decr count1 ;;
                         if decide (count1 = 0%nat) then Ok (inr (mid, true))
                         else
                           let mid := S mid in
                           y <~ at_ h mid ;;
                           if negb (val_pred y) then Ok (inr (mid, false)) else Ok (inl (mid, count1)))
                      (mid, count1)
                  else Ok (mid, false)) ;;
               if (found : bool) then Ok (inr first) else Ok (inl (S mid, 0%nat))
             else Ok (inl (S first, (count - 1)%nat))
           else Ok (inr last))
        (0%nat, 0%nat).
  (** algorithm:2648-2668 search_n: forward branch *)
  Definition search_n_fwd (eqto : bool) (h : list A) (count : nat) : res nat :=
    if decide (count = 0)%nat then Ok 0%nat
    else if eqto && bool_decide (count = 1%nat) then find_val h
    else
      let last := length h in
      loop (S last)
        (fun first =>
           if decide (first <> last) then
             x <~ at_ h first ;;
             if val_pred x then
               r <~ loop (S count)
                 (fun '(mid, count1) =>
                    count1 <~ decr count1 ;;
                    if decide (count1 = 0%nat) then Ok (inr (inl first))
                    else
                      let mid := S mid in
                      if decide (mid = last) then Ok (inr (inl last))
                      else
                        y <~ at_ h mid ;;
                        if negb (val_pred y) then Ok (inr (inr mid)) else Ok (inl (mid, count1)))
                 (first, count) ;;
               match r with
               | inl res => Ok (inr res)
               | inr mid => Ok (inl (S mid))
               end
             else Ok (inl (S first))
           else Ok (inr last))
        0%nat.
End subseq.

Section boyer_moore.
  Context {A : Type} (eq : A -> A -> bool).

  (** functional:2882-2913 _Boyer_moore_hash_delta_1_table: an unordered_map filled by insert_or_assign, as an
      association list; a missing key yields the pattern size *)
  Fixpoint insert_or_assign (m : list (A * nat)) (k : A) (v : nat) : list (A * nat) :=
    match m with
    | [] => [(k, v)]
    | (k', v') :: m => if eq k' k then (k', v) :: m else (k', v') :: insert_or_assign m k v
    end.
  Fixpoint map_find (m : list (A * nat)) (k : A) : option nat :=
    match m with [] => None | (k', v') :: m => if eq k' k then Some v' else map_find m k end.
  (** functional:2886-2894: for idx = 1..size: map[pat[idx-1]] = size - idx *)
  Fixpoint delta1_fill (m : list (A * nat)) (size idx : nat) (p : list A) : list (A * nat) :=
    match p with
    | [] => m
    | x :: p => delta1_fill (insert_or_assign m x (size - idx)) size (S idx) p
    end.
  Definition delta1_table (p : list A) : list (A * nat) := delta1_fill [] (length p) 1 p.
  (** functional:2896-2904 _Lookup *)
  Definition delta1_lookup (p : list A) (t : list (A * nat)) (v : A) : nat :=
    match map_find t v with None => length p | Some d => d end.

  (** functional:2987-3044 _Build_boyer_moore_delta_2_table *)
  (* functional:3007-3009: shifts[k-1] = 2m - k *)
  Definition delta2_init (m : nat) : list nat := (fun i => 2 * m - S i)%nat <$> seq 0 m.
  (* functional:3011-3018 *)
  Definition delta2_loop1 (p : list A) (shifts fx : list nat) : res (list nat * list nat * nat) :=
    let m := length p in
    loop (S m)
      (fun '(shifts, fx, jx, tx) =>
         if decide (0 < jx)%nat then
           fx <~ set_ fx (jx - 1) tx ;;
           '(shifts, tx) <~
             loop (S (S m))
               (fun '(shifts, tx) =>
                  if decide (tx <= m)%nat then
                    pj <~ at_ p (jx - 1) ;;
                    tx1 <~ decr tx ;;
                    pt <~ at_ p tx1 ;;
                    if negb (eq pj pt) then
                      s <~ at_ shifts tx1 ;;
                      shifts <~ set_ shifts tx1 (s `min` (m - jx))%nat ;;
                      tx <~ at_ fx tx1 ;;
                      Ok (inl (shifts, tx))
                    else Ok (inr (shifts, tx))
                  else Ok (inr (shifts, tx)))
               (shifts, tx) ;;
           tx <~ decr tx ;;
           Ok (inl (shifts, fx, (jx - 1)%nat, tx))
         else Ok (inr (shifts, fx, tx)))
      (shifts, fx, m, S m).
  (* functional:3023-3030 *)
  Definition delta2_loop2 (p : list A) (fx : list nat) (tx : nat) : res (list nat) :=
    loop (S tx)
      (fun '(fx, jx, tx1) =>
         if decide (jx <= tx)%nat then
           fx <~ set_ fx (jx - 1) tx1 ;;
           tx1 <~
             loop (S tx)
               (fun tx1 =>
                  if decide (1 <= tx1)%nat then
                    pj <~ at_ p (jx - 1) ;;
                    pt <~ at_ p (tx1 - 1) ;;
                    if negb (eq pj pt) then
                      tx1 <~ at_ fx (tx1 - 1) ;;
                      Ok (inl tx1)
                    else Ok (inr tx1)
                  else Ok (inr tx1))
               tx1 ;;
           Ok (inl (fx, S jx, S tx1))
         else Ok (inr fx))
      (fx, 1%nat, 0%nat).
  (* functional:3032-3043 *)
  Definition delta2_loop3 (m : nat) (shifts fx : list nat) (qx tx : nat) : res (list nat) :=
    loop (S m)
      (fun '(shifts, qx1, qx, tx) =>
         if decide (qx < m)%nat then
           shifts <~
             loop (S m)
               (fun '(shifts, kx) =>
                  if decide (kx <= qx)%nat then
                    s <~ at_ shifts (kx - 1) ;;
                    shifts <~ set_ shifts (kx - 1) (s `min` (m + qx - kx))%nat ;;
                    Ok (inl (shifts, S kx))
                  else Ok (inr shifts))
               (shifts, qx1) ;;
           tx1 <~ decr tx ;;
           temp <~ at_ fx tx1 ;;
           Ok (inl (shifts, S qx, (qx + tx - temp)%nat, temp))
         else Ok (inr shifts))
      (shifts, 1%nat, qx, tx).
  Definition delta2_table (p : list A) : res (list nat) :=
    let m := length p in
    if decide (m = 0)%nat then Ok []
    else
      '(shifts, fx, tx) <~ delta2_loop1 p (delta2_init m) (replicate m 0%nat) ;;
      let qx := tx in
      let tx := (m + 1 - qx)%nat in
      fx <~ delta2_loop2 p fx tx ;;
      delta2_loop3 m shifts fx qx tx.

  (** functional:3046-3085 _Boyer_moore_search: start of the match, or the end of the haystack *)
  Definition boyer_moore_search (h p : list A) (delta1 : list (A * nat)) (delta2 : list nat) : res nat :=
    let pat_size := length p in
    if decide (pat_size = 0)%nat then Ok 0%nat
    else
      loop (S (length h))
        (fun '(first, shift) =>
           if decide (first + shift < length h)%nat then
             let first := (first + shift)%nat in
             x <~ at_ h first ;;
             let shift := delta1_lookup p delta1 x in
             if decide (shift = 0)%nat then
               r <~ loop (S pat_size)
                 (fun '(first, idx) =>
                    if decide (idx = 0)%nat then Ok (inr (inl first))
                    else
                      idx <~ decr idx ;;
                      first <~ decr first ;;
                      x <~ at_ h first ;; y <~ at_ p idx ;;
                      if eq x y then Ok (inl (first, idx)) else Ok (inr (inr (first, idx))))
                 (first, (pat_size - 1)%nat) ;;
               match r with
               | inl first => Ok (inr first)
               | inr (first, idx) =>
                   x <~ at_ h first ;;
                   d2 <~ at_ delta2 idx ;;
                   Ok (inl (first, (delta1_lookup p delta1 x) `max` d2)%nat)
               end
             else Ok (inl (first, shift))
           else Ok (inr (length h)))
        (0%nat, (pat_size - 1)%nat).
  (** functional:3126-3175: build the tables, then search *)
  Definition boyer_moore_searcher (h p : list A) : res nat :=
    d2 <~ delta2_table p ;;
    boyer_moore_search h p (delta1_table p) d2.

  (** functional:3087-3122 _Boyer_moore_horspool_search *)
  Definition boyer_moore_horspool_searcher (h p : list A) : res nat :=
    let pat_size := length p in
    let delta1 := delta1_table p in
    if decide (pat_size = 0)%nat then Ok 0%nat
    else
      loop (S (length h))
        (fun '(first, shift) =>
           if decide (first + shift < length h)%nat then
             let first := (first + shift)%nat in
             x <~ at_ h first ;;
             let shift := delta1_lookup p delta1 x in
             if decide (shift = 0)%nat then
               let candidate := (first - (pat_size - 1))%nat in
               (* equal(pat, pat + (size-1), candidate, eq): the pattern is the first range *)
               b <~ loop (S pat_size)
                 (fun '(i, j) =>
                    if decide (i <> (pat_size - 1)%nat) then
                      x <~ at_ p i ;; y <~ at_ h j ;;
                      if negb (eq x y) then Ok (inr false) else Ok (inl (S i, S j))
                    else Ok (inr true))
                 (0%nat, candidate) ;;
               if (b : bool) then Ok (inr candidate) else Ok (inl (first, 1%nat))
             else Ok (inl (first, shift))
           else Ok (inr (length h)))
        (0%nat, (pat_size - 1)%nat).
End boyer_moore.

