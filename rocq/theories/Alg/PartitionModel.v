(** partition, stable_partition, remove_if, remove, unique: stl/inc/algorithm, stl/inc/xmemory.
    Vectorised paths of remove and unique are not modelled. *)
From stdpp Require Import base list numbers.
From Verif Require Import Base.Res Base.Arr Alg.SortModel Alg.SearchModel Alg.RotateModel Alg.MergeModel.

Section partition.
  Context {A : Type} (pred : A -> bool).

  (** algorithm:6954-6965, 6982-6992 and 7188-7198: "skip in-place elements at beginning". The flag tells that the end was hit. *)
  Definition skip_front (a : arr A) (first last : nat) : res (nat * bool) :=
    loop (S (last - first))
      (fun first =>
         if decide (first = last) then Ok (inr (first, true))
         else
           x <~ rd a first ;;
           if negb (pred x) then Ok (inr (first, false)) else Ok (inl (S first)))
      first.
  (** algorithm:6967-6973 and 7200-7209: "skip in-place elements at end"; [None]: first was reached *)
  Definition skip_back (a : arr A) (first last : nat) : res (option nat) :=
    loop (S (last - first))
      (fun last =>
         last <~ decr last ;;
         if decide (first = last) then Ok (inr None)
         else
           x <~ rd a last ;;
           if negb (pred x) then Ok (inl last) else Ok (inr (Some last)))
      last.

  (** algorithm:6948-7003 partition, bidirectional branch *)
  Definition partition_bidi (a : arr A) (first last : nat) : res (arr A * nat) :=
    loop (S (last - first))
      (fun '(a, first, last) =>
         '(first, at_end) <~ skip_front a first last ;;
         if (at_end : bool) then Ok (inr (a, first))
         else
           r <~ skip_back a first last ;;
           match r with
           | None => Ok (inr (a, first))
           | Some last =>
               a <~ swp a first last ;;
               Ok (inl (a, S first, last))
           end)
      (a, first, last).

  (** algorithm:6948-7003 partition, forward branch *)
  Definition partition_fwd (a : arr A) (first last : nat) : res (arr A * nat) :=
    '(first, at_end) <~ skip_front a first last ;;
    if (at_end : bool) then Ok (a, first)
    else
      loop (S (last - first))
        (fun '(a, first, next) =>
           let next := S next in
           if decide (next <> last) then
             x <~ rd a next ;;
             if pred x then
               a <~ swp a first next ;;
               Ok (inl (a, S first, next))
             else Ok (inl (a, first, next))
           else Ok (inr (a, first)))
        (a, first, first).

  (** algorithm:7135-7154: the branch of _Stable_partition_unchecked1 that fits in the buffer *)
  Definition sp_buffered (a buf : arr A) (first last count : nat) : res (arr A * arr A * nat * nat) :=
    let next := first in
    '(v, a) <~ mv a first ;;
    buf <~ wr buf 0 v ;;
    '(a, buf, next, backout_last) <~
      loop (S (last - first))
        (fun '(a, buf, first, next, backout_last) =>
           let first := S first in
           if decide (first <> last) then
             x <~ rd a first ;;
             if pred x then
               a <~ mvto a first next ;;
               Ok (inl (a, buf, first, S next, backout_last))
             else
               '(v, a) <~ mv a first ;;
               buf <~ wr buf backout_last v ;;
               Ok (inl (a, buf, first, next, S backout_last))
           else Ok (inr (a, buf, next, backout_last)))
        (a, buf, first, next, 1%nat) ;;
    a <~ mvto a last next ;;
    let next := S next in
    '(buf, a, _) <~ xmove buf 0 backout_last a next ;;
    Ok (a, buf, next, (count - backout_last)%nat).

  (** algorithm:7126-7201 _Stable_partition_unchecked1 on the closed range [first,last]; returns array, buffer,
      partition point, number of true elements *)
  Fixpoint sp1 (fuel cap : nat) (a buf : arr A) (first last count : nat) : res (arr A * arr A * nat * nat) :=
    match fuel with
    | 0%nat => Fuel
    | S fuel =>
        if decide (count - 1 <= cap)%nat then sp_buffered a buf first last count
        else
          let mid_offset := (count / 2)%nat in
          let mid := (first + mid_offset)%nat in
          (* skip over the trailing false range before mid, then recurse on what is left of the left half *)
          '(a, buf, lft, left_true_count) <~
            ('(lft, left_true_count, recurse) <~
               loop (S mid_offset)
                 (fun '(lft, ltc) =>
                    lft <~ decr lft ;;
                    if decide (first = lft) then Ok (inr (lft, (ltc - 1)%nat, false))
                    else
                      x <~ rd a lft ;;
                      if pred x then Ok (inr (lft, ltc, true)) else Ok (inl (lft, (ltc - 1)%nat)))
                 (mid, mid_offset) ;;
             if (recurse : bool) then sp1 fuel cap a buf first lft left_true_count
             else Ok (a, buf, lft, left_true_count)) ;;
          (* skip over the leading true range after and including mid, then recurse *)
          '(a, buf, rgt, right_true_count) <~
            ('(rgt, right_true_count, recurse) <~
               loop (S (last - mid))
                 (fun '(rgt, rtc) =>
                    if decide (rgt = last) then Ok (inr (S rgt, S rtc, false))
                    else
                      x <~ rd a rgt ;;
                      if negb (pred x) then Ok (inr (rgt, rtc, true)) else Ok (inl (S rgt, S rtc)))
                 (mid, 0%nat) ;;
             if (recurse : bool) then
               let right_count := (count - mid_offset)%nat in
               let remaining := (right_count - right_true_count)%nat in
               '(a, buf, r, c) <~ sp1 fuel cap a buf rgt last remaining ;;
               Ok (a, buf, r, (right_true_count + c)%nat)
             else Ok (a, buf, rgt, right_true_count)) ;;
          '(a, buf, pp) <~ buffered_rotate a buf cap lft mid rgt (mid_offset - left_true_count) right_true_count ;;
          Ok (a, buf, pp, (left_true_count + right_true_count)%nat)
    end.

  (** algorithm:7204-7243 _Stable_partition_unchecked and stable_partition; [cap]: capacity the temporary buffer gets *)
  Definition stable_partition (cap : nat) (a : arr A) (first last : nat) : res (arr A * nat) :=
    '(first, at_end) <~ skip_front a first last ;;
    if (at_end : bool) then Ok (a, first)
    else
      r <~ skip_back a first last ;;
      match r with
      | None => Ok (a, first)
      | Some last =>
          let temp_count := (last - first)%nat in
          let total_count := (temp_count + 1)%nat in
          '(a, _, pp, _) <~ sp1 (S total_count) cap a (replicate cap None) first last total_count ;;
          Ok (a, pp)
      end.

  (** xutility:6974-6985 find_if *)
  Definition find_if (a : arr A) (first last : nat) : res nat :=
    loop (S (last - first))
      (fun first =>
         if decide (first <> last) then
           x <~ rd a first ;;
           if pred x then Ok (inr first) else Ok (inl (S first))
         else Ok (inr first))
      first.

  (** xmemory:2382-2401 remove_if; remove (xmemory:2340-2379) is the same with [pred x := x == val] *)
  Definition remove_if (a : arr A) (first last : nat) : res (arr A * nat) :=
    first <~ find_if a first last ;;
    let next := first in
    if decide (first <> last) then
      loop (S (last - first))
        (fun '(a, first, next) =>
           let first := S first in
           if decide (first <> last) then
             x <~ rd a first ;;
             if negb (pred x) then
               a <~ mvto a first next ;;
               Ok (inl (a, first, S next))
             else Ok (inl (a, first, next))
           else Ok (inr (a, next)))
        (a, first, next)
    else Ok (a, next).
End partition.

Section unique.
  Context {A : Type} (pred : A -> A -> bool).
  (** algorithm:5383-5424 unique. The outer loop finds the first duplicate, the inner one compacts. *)
  Definition unique_compact (a : arr A) (firstb first last : nat) : res (arr A * nat) :=
    loop (S (last - first))
      (fun '(a, firstb, first) =>
         let first := S first in
         if decide (first <> last) then
           k <~ rd a firstb ;;
           x <~ rd a first ;;
           if negb (pred k x) then
             let firstb := S firstb in
             a <~ mvto a first firstb ;;
             Ok (inl (a, firstb, first))
           else Ok (inl (a, firstb, first))
         else Ok (inr (a, S firstb)))
      (a, firstb, first).
  Definition unique (a : arr A) (first last : nat) : res (arr A * nat) :=
    if decide (first <> last) then
      loop (S (last - first))
        (fun firstb =>
           let first := S firstb in
           if decide (first <> last) then
             k <~ rd a firstb ;;
             x <~ rd a first ;;
             if pred k x then
               r <~ unique_compact a firstb first last ;;
               Ok (inr r)
             else Ok (inl first)
           else Ok (inr (a, last)))
        first
    else Ok (a, last).
End unique.
