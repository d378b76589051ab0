(** merge, inplace_merge, stable_sort: stl/inc/algorithm.
    [a] is the user's array, [buf] the temporary buffer (cells [None] while raw or moved-from) whose capacity [cap]
    is whatever _Optimistic_temporary_buffer2 obtained (algorithm:580-630), 0 included.
    Simplifications: construction into raw buffer storage and assignment are both [wr]; the destructor of
    _Uninitialized_backout (which destroys the buffered, already moved-from objects) is a no-op on the cells that
    nobody reads afterwards; exceptions are not modelled; the iterators are random access. *)
From stdpp Require Import base list numbers.
From Verif Require Import Base.Res Base.Arr Alg.SortModel Alg.SearchModel Alg.RotateModel.

Section merge.
  Context {A : Type} (lt : A -> A -> bool).

  (** algorithm:8150-8188 merge. The inputs are arrays [a1], [a2] (not modified), the destination iterator is the
      list of elements written so far. *)
  Definition copy_out (a : arr A) : nat -> nat -> list A -> res (list A) :=
    fix go n i out := match n with
      | 0%nat => Ok out
      | S n => x <~ rd a i ;; go n (S i) (out ++ [x])
      end.
  Definition merge (a1 : arr A) (first1 last1 : nat) (a2 : arr A) (first2 last2 : nat) : res (list A) :=
    '(first1, first2, out) <~
      (if decide (first1 <> last1 /\ first2 <> last2) then
         loop (S (last1 - first1 + (last2 - first2)))
           (fun '(first1, first2, out) =>
              y <~ rd a2 first2 ;;
              x <~ rd a1 first1 ;;
              if lt y x then
                let out := out ++ [y] in
                let first2 := S first2 in
                if decide (first2 = last2) then Ok (inr (first1, first2, out)) else Ok (inl (first1, first2, out))
              else
                let out := out ++ [x] in
                let first1 := S first1 in
                if decide (first1 = last1) then Ok (inr (first1, first2, out)) else Ok (inl (first1, first2, out)))
           (first1, first2, [])
       else Ok (first1, first2, [])) ;;
    out <~ copy_out a1 (last1 - first1) first1 out ;;
    copy_out a2 (last2 - first2) first2 out.

  (** algorithm:8320-8326 _Rotate_one_right *)
  Definition rotate_one_right (a : arr A) (first mid last : nat) : res (arr A) :=
    '(tmp, a) <~ mv a mid ;;
    '(a, _) <~ move_backward a first mid last ;;
    wr a first tmp.

  (** algorithm:8329-8334 _Rotate_one_left *)
  Definition rotate_one_left (a : arr A) (first mid last : nat) : res (arr A) :=
    '(tmp, a) <~ mv a first ;;
    '(a, d) <~ move_unchecked a mid last first ;;
    wr a d tmp.

  (** xutility:5479-5496 _Move_backward_unchecked from one array into another *)
  Fixpoint xmove_backward_n (n : nat) (src dst : arr A) (s_end d_end : nat) : res (arr A * arr A) :=
    match n with
    | 0%nat => Ok (src, dst)
    | S n =>
        d <~ decr d_end ;;
        s <~ decr s_end ;;
        '(x, src) <~ mv src s ;;
        dst <~ wr dst d x ;;
        xmove_backward_n n src dst s d
    end.

  (** algorithm:8337-8368 _Inplace_merge_buffer_left *)
  Definition inplace_merge_buffer_left (a buf : arr A) (first mid last : nat) : res (arr A * arr A) :=
    '(a, buf, backout_last) <~ xmove a first mid buf 0 ;;
    left_last <~ decr backout_last ;;
    a <~ mvto a mid first ;;
    loop (S (last - first))
      (fun '(a, buf, first, mid, left_first) =>
         x <~ rd a mid ;;
         y <~ rd buf left_first ;;
         if lt x y then
           a <~ mvto a mid first ;;
           let first := S first in
           let mid := S mid in
           if decide (mid = last) then
             '(buf, a, _) <~ xmove buf left_first backout_last a first ;;
             Ok (inr (a, buf))
           else Ok (inl (a, buf, first, mid, left_first))
         else
           '(v, buf) <~ mv buf left_first ;;
           a <~ wr a first v ;;
           let first := S first in
           let left_first := S left_first in
           if decide (left_first = left_last) then
             '(a, d) <~ move_unchecked a mid last first ;;
             '(v, buf) <~ mv buf left_last ;;
             a <~ wr a d v ;;
             Ok (inr (a, buf))
           else Ok (inl (a, buf, first, mid, left_first)))
      (a, buf, S first, S mid, 0%nat).

  (** algorithm:8371-8402 _Inplace_merge_buffer_right *)
  Definition inplace_merge_buffer_right (a buf : arr A) (first mid last : nat) : res (arr A * arr A) :=
    '(a, buf, backout_last) <~ xmove a mid last buf 0 ;;
    last <~ decr last ;;
    mid <~ decr mid ;;
    a <~ mvto a mid last ;;
    right_last <~ decr backout_last ;;
    mid <~ decr mid ;;
    loop (S (last - first))
      (fun '(a, buf, mid, last, right_last) =>
         x <~ rd buf right_last ;;
         y <~ rd a mid ;;
         if lt x y then
           last <~ decr last ;;
           a <~ mvto a mid last ;;
           if decide (first = mid) then
             last <~ decr last ;;
             '(v, buf) <~ mv buf right_last ;;
             a <~ wr a last v ;;
             '(buf, a) <~ xmove_backward_n (right_last - 0) buf a right_last last ;;
             Ok (inr (a, buf))
           else
             mid <~ decr mid ;;
             Ok (inl (a, buf, mid, last, right_last))
         else
           last <~ decr last ;;
           '(v, buf) <~ mv buf right_last ;;
           a <~ wr a last v ;;
           right_last <~ decr right_last ;;
           if decide (0 = right_last)%nat then
             last <~ decr last ;;
             a <~ mvto a mid last ;;
             '(a, _) <~ move_backward a first mid last ;;
             '(v, buf) <~ mv buf 0 ;;
             a <~ wr a first v ;;
             Ok (inr (a, buf))
           else Ok (inl (a, buf, mid, last, right_last)))
      (a, buf, mid, last, right_last).

  (** algorithm:7093-7123 _Buffered_rotate_unchecked *)
  Definition buffered_rotate (a buf : arr A) (cap first mid last count1 count2 : nat) : res (arr A * arr A * nat) :=
    if decide (count1 = 0)%nat then Ok (a, buf, last)
    else if decide (count2 = 0)%nat then Ok (a, buf, first)
    else if decide (count1 <= count2 /\ count1 <= cap)%nat then
      '(a, buf, blast) <~ xmove a first mid buf 0 ;;
      '(a, new_mid) <~ move_unchecked a mid last first ;;
      '(buf, a, _) <~ xmove buf 0 blast a new_mid ;;
      Ok (a, buf, new_mid)
    else if decide (count2 <= cap)%nat then
      '(a, buf, blast) <~ xmove a mid last buf 0 ;;
      '(a, _) <~ move_backward a first mid last ;;
      '(buf, a, r) <~ xmove buf 0 blast a first ;;
      Ok (a, buf, r)
    else
      '(a, r) <~ rotate a first mid last ;;
      Ok (a, buf, r).

  (** algorithm:8409-8420 _Buffered_inplace_merge_divide_and_conquer2; [rec] is
      _Buffered_inplace_merge_unchecked: array, buffer, first, mid, last, count1, count2 *)
  Definition bim_dc2 (rec : arr A -> arr A -> nat -> nat -> nat -> nat -> nat -> res (arr A * arr A))
      (a buf : arr A) (cap first mid last count1 count2 firstn lastn count1n count2n : nat) : res (arr A * arr A) :=
    '(a, buf, midn) <~ buffered_rotate a buf cap firstn mid lastn (count1 - count1n) count2n ;;
    '(a, buf) <~ rec a buf first firstn midn count1n count2n ;;
    rec a buf midn lastn last (count1 - count1n)%nat (count2 - count2n)%nat.

  (** algorithm:8423-8441 _Buffered_inplace_merge_divide_and_conquer *)
  Definition bim_dc rec (a buf : arr A) (cap first mid last count1 count2 : nat) : res (arr A * arr A) :=
    if decide (count1 <= count2)%nat then
      let count1n := (count1 / 2)%nat in
      let firstn := (first + count1n)%nat in
      v <~ rd a firstn ;;
      lastn <~ lower_bound lt a mid last v ;;
      bim_dc2 rec a buf cap first mid last count1 count2 firstn lastn count1n (lastn - mid)
    else
      let count2n := (count2 / 2)%nat in
      let lastn := (mid + count2n)%nat in
      v <~ rd a lastn ;;
      firstn <~ upper_bound lt a first mid v ;;
      bim_dc2 rec a buf cap first mid last count1 count2 firstn lastn (firstn - first) count2n.

  (** algorithm:8444-8456 _Buffered_inplace_merge_unchecked_impl *)
  Definition bim_impl rec (a buf : arr A) (cap first mid last count1 count2 : nat) : res (arr A * arr A) :=
    if decide (count1 <= count2 /\ count1 <= cap)%nat then inplace_merge_buffer_left a buf first mid last
    else if decide (count2 <= cap)%nat then inplace_merge_buffer_right a buf first mid last
    else bim_dc rec a buf cap first mid last count1 count2.

  (** the two trimming loops of algorithm:8459-8500 and 8503-8550. [None]: nothing left to do. *)
  Definition trim_left (a : arr A) (first mid : nat) : res (option nat) :=
    loop (S (mid - first))
      (fun first =>
         if decide (first = mid) then Ok (inr None)
         else
           x <~ rd a mid ;;
           y <~ rd a first ;;
           if lt x y then Ok (inr (Some first)) else Ok (inl (S first)))
      first.
  (* [inl last]: only the element at [mid] remains in the right part, [last = mid + 1]; [inr last]: trimmed end *)
  Definition trim_right (a : arr A) (mid last : nat) : res (nat + nat) :=
    highest <~ decr mid ;;
    loop (S (last - mid))
      (fun last =>
         last <~ decr last ;;
         if decide (mid = last) then Ok (inr (inl (S last)))
         else
           x <~ rd a last ;;
           y <~ rd a highest ;;
           if lt x y then Ok (inr (inr (S last))) else Ok (inl last))
      last.

  (** algorithm:8459-8500 _Buffered_inplace_merge_unchecked. The C++ keeps _Count1/_Count2 in step with the
      trimmed ends; here they are recomputed by the same subtraction. *)
  Fixpoint bim (fuel : nat) (cap : nat) (a buf : arr A) (first mid last count1 count2 : nat) : res (arr A * arr A) :=
    match fuel with
    | 0%nat => Fuel
    | S fuel =>
        if decide (mid = last) then Ok (a, buf)
        else
          tl <~ trim_left a first mid ;;
          match tl with
          | None => Ok (a, buf)
          | Some first' =>
              let count1 := (count1 - (first' - first))%nat in
              let first := first' in
              tr <~ trim_right a mid last ;;
              match tr with
              | inl last => a <~ rotate_one_right a first mid last ;; Ok (a, buf)
              | inr last' =>
                  let count2 := (count2 - (last - last'))%nat in
                  let last := last' in
                  if decide (count1 = 1)%nat then a <~ rotate_one_left a first mid last ;; Ok (a, buf)
                  else bim_impl (bim fuel cap) a buf cap first mid last count1 count2
              end
          end
    end.

  (** algorithm:8503-8550 inplace_merge *)
  Definition inplace_merge (cap : nat) (a : arr A) (first mid last : nat) : res (arr A) :=
    if decide (mid = last) then Ok a
    else
      tl <~ trim_left a first mid ;;
      match tl with
      | None => Ok a
      | Some first =>
          tr <~ trim_right a mid last ;;
          match tr with
          | inl last => rotate_one_right a first mid last
          | inr last =>
              let count1 := (mid - first)%nat in
              if decide (count1 = 1)%nat then rotate_one_left a first mid last
              else
                let count2 := (last - mid)%nat in
                '(a, _) <~ bim_impl (bim (last - first) cap) a (replicate cap None) cap first mid last count1 count2 ;;
                Ok a
          end
      end.

  (** algorithm:9324-9348 _Uninitialized_merge_move and algorithm:9351-9374 _Merge_move_unchecked: the same loop,
      constructing in raw storage or assigning *)
  Definition merge_move (src : arr A) (first mid last : nat) (dst : arr A) (dest : nat) : res (arr A * arr A * nat) :=
    loop (S (last - first))
      (fun '(src, dst, first, next, dest) =>
         y <~ rd src next ;;
         x <~ rd src first ;;
         if lt y x then
           '(v, src) <~ mv src next ;;
           dst <~ wr dst dest v ;;
           let dest := S dest in
           let next := S next in
           if decide (next = last) then
             '(src, dst, dest) <~ xmove src first mid dst dest ;;
             Ok (inr (src, dst, dest))
           else Ok (inl (src, dst, first, next, dest))
         else
           '(v, src) <~ mv src first ;;
           dst <~ wr dst dest v ;;
           let dest := S dest in
           let first := S first in
           if decide (first = mid) then
             '(src, dst, dest) <~ xmove src next last dst dest ;;
             Ok (inr (src, dst, dest))
           else Ok (inl (src, dst, first, next, dest)))
      (src, dst, first, mid, dest).

  (** algorithm:9377-9395 _Uninitialized_chunked_merge_unchecked2 (with chunk = _Isort_max) and
      algorithm:9398-9414 _Chunked_merge_unchecked *)
  Definition chunked_merge (src : arr A) (first last : nat) (dst : arr A) (dest chunk count : nat) : res (arr A * arr A) :=
    '(src, dst, first, dest) <~
      loop (S count)
        (fun '(src, dst, first, dest, count) =>
           if decide (chunk < count)%nat then
             let count := (count - chunk)%nat in
             let mid1 := (first + chunk)%nat in
             let chunk2 := (min chunk count)%nat in
             let count := (count - chunk2)%nat in
             let mid2 := (mid1 + chunk2)%nat in
             '(src, dst, dest) <~ merge_move src first mid1 mid2 dst dest ;;
             Ok (inl (src, dst, mid2, dest, count))
           else Ok (inr (src, dst, first, dest)))
        (src, dst, first, dest, count) ;;
    '(src, dst, _) <~ xmove src first last dst dest ;;
    Ok (src, dst).

  (** algorithm:9417-9425 _Insertion_sort_isort_max_chunks *)
  Definition isort_chunks (a : arr A) (first last count : nat) : res (arr A) :=
    '(a, first) <~
      loop (S count)
        (fun '(a, first, count) =>
           if decide (ISORT_MAX < count)%nat then
             a <~ insertion_sort lt a first (first + ISORT_MAX) ;;
             Ok (inl (a, (first + ISORT_MAX)%nat, (count - ISORT_MAX)%nat))
           else Ok (inr (a, first)))
        (a, first, count) ;;
    insertion_sort lt a first last.

  (** algorithm:9428-9467 _Buffered_merge_sort_unchecked *)
  Definition buffered_merge_sort (a buf : arr A) (first last count : nat) : res (arr A * arr A) :=
    a <~ isort_chunks a first last count ;;
    if decide (count <= ISORT_MAX)%nat then Ok (a, buf)
    else
      '(a, buf) <~ chunked_merge a first last buf 0 ISORT_MAX count ;;
      loop (S count)
        (fun '(a, buf, chunk) =>
           let chunk := (chunk * 2)%nat in
           '(buf, a) <~ chunked_merge buf 0 count a first chunk count ;;
           if decide ((count - 1) / 2 < chunk)%nat then Ok (inr (a, buf))
           else
             let chunk := (chunk * 2)%nat in
             '(a, buf) <~ chunked_merge a first last buf 0 chunk count ;;
             Ok (inl (a, buf, chunk)))
        (a, buf, ISORT_MAX).

  (** algorithm:9470-9491 _Stable_sort_unchecked *)
  Fixpoint stable_sort_unchecked (fuel cap : nat) (a buf : arr A) (first last count : nat) : res (arr A * arr A) :=
    match fuel with
    | 0%nat => Fuel
    | S fuel =>
        if decide (count <= ISORT_MAX)%nat then a <~ insertion_sort lt a first last ;; Ok (a, buf)
        else
          let half := (count / 2)%nat in
          let half_ceil := (count - half)%nat in
          let mid := (first + half_ceil)%nat in
          '(a, buf) <~
            (if decide (half_ceil <= cap)%nat then
               '(a, buf) <~ buffered_merge_sort a buf first mid half_ceil ;;
               buffered_merge_sort a buf mid last half
             else
               '(a, buf) <~ stable_sort_unchecked fuel cap a buf first mid half_ceil ;;
               stable_sort_unchecked fuel cap a buf mid last half) ;;
          bim (S (last - first)) cap a buf first mid last half_ceil half
    end.

  (** algorithm:9494-9507 stable_sort; [cap] is the capacity the temporary buffer happens to get *)
  Definition stable_sort (cap : nat) (a : arr A) (first last : nat) : res (arr A) :=
    let count := (last - first)%nat in
    if decide (count <= ISORT_MAX)%nat then insertion_sort lt a first last
    else
      '(a, _) <~ stable_sort_unchecked (S count) cap a (replicate cap None) first last count ;;
      Ok a.
End merge.
