(** Model of std::sort, std::partial_sort and std::nth_element: stl/inc/algorithm and the helpers in stl/inc/xutility.
    Iterators are indices into one array of cells. Simplifications as in HeapModel.v; memmove fast paths for
    trivially copyable types are modelled by the element-wise loop they replace. *)
From stdpp Require Import base list numbers.
From Verif Require Import Base.Res Base.Arr Alg.HeapModel.

Section sort.
  Context {A : Type} (lt : A -> A -> bool).

  (** xutility:5479-5496 _Move_backward_unchecked (source and destination in the same array) *)
  Definition move_backward (a : arr A) (first last dest : nat) : res (arr A * nat) :=
    loop (S (last - first))
      (fun '(a, last, dest) =>
         if decide (first <> last) then
           dest <~ decr dest ;;
           last <~ decr last ;;
           a <~ mvto a last dest ;;
           Ok (inl (a, last, dest))
         else Ok (inr (a, dest)))
      (a, last, dest).

  (** algorithm:8916-8937 _Insertion_sort_unchecked *)
  Definition insertion_sort_inner (a : arr A) (mid : nat) (val : A) : res (arr A * nat) :=
    loop (S mid)
      (fun '(a, hole, prev) =>
         prev <~ decr prev ;;
         x <~ rd a prev ;;
         if lt val x then
           a <~ mvto a prev hole ;;
           Ok (inl (a, prev, prev))
         else Ok (inr (a, hole)))
      (a, mid, mid).

  Definition insertion_sort (a : arr A) (first last : nat) : res (arr A) :=
    if decide (first <> last) then
      loop (S (last - first))
        (fun '(a, mid) =>
           let mid := S mid in
           if decide (mid <> last) then
             '(val, a) <~ mv a mid ;;
             x <~ rd a first ;;
             if lt val x then
               '(a, _) <~ move_backward a first mid (S mid) ;;
               a <~ wr a first val ;;
               Ok (inl (a, mid))
             else
               '(a, hole) <~ insertion_sort_inner a mid val ;;
               a <~ wr a hole val ;;
               Ok (inl (a, mid))
           else Ok (inr a))
        (a, first)
    else Ok a.

  (** algorithm:8940-8953 _Med3_unchecked *)
  Definition med3 (a : arr A) (first mid last : nat) : res (arr A) :=
    m <~ rd a mid ;;
    f <~ rd a first ;;
    a <~ (if lt m f then swp a mid first else Ok a) ;;
    la <~ rd a last ;;
    m <~ rd a mid ;;
    if lt la m then
      a <~ swp a last mid ;;
      m <~ rd a mid ;;
      f <~ rd a first ;;
      if lt m f then swp a mid first else Ok a
    else Ok a.

  (** algorithm:8956-8970 _Guess_median_unchecked ([last] inclusive) *)
  Definition guess_median (a : arr A) (first mid last : nat) : res (arr A) :=
    let count := (last - first)%nat in
    if decide (40 < count)%nat then
      let step := ((count + 1) / 8)%nat in
      let two_step := (step * 2)%nat in
      a <~ med3 a first (first + step) (first + two_step) ;;
      a <~ med3 a (mid - step) mid (mid + step) ;;
      a <~ med3 a (last - two_step) (last - step) last ;;
      med3 a (first + step) mid (last - step)
    else med3 a first mid last.

  (** algorithm:8973-9039 _Partition_by_pivot_unchecked. The four loops, one definition each. *)
  Definition equiv_at (a : arr A) (i j : nat) : res bool :=
    x <~ rd a i ;; y <~ rd a j ;;
    Ok (negb (lt x y) && negb (lt y x)).

  Definition pbp_widen_left (a : arr A) (first pfirst : nat) : res nat :=
    loop (S pfirst)
      (fun pfirst =>
         if decide (first < pfirst)%nat then
           e <~ equiv_at a (pfirst - 1) pfirst ;;
           if e : bool then Ok (inl (pfirst - 1)%nat) else Ok (inr pfirst)
         else Ok (inr pfirst))
      pfirst.

  Definition pbp_widen_right (a : arr A) (pfirst plast last : nat) : res nat :=
    loop (S (last - plast))
      (fun plast =>
         if decide (plast < last)%nat then
           e <~ equiv_at a plast pfirst ;;
           if e : bool then Ok (inl (S plast)) else Ok (inr plast)
         else Ok (inr plast))
      plast.

  (* for (; _Gfirst < _Last; ++_Gfirst) ... *)
  Definition pbp_scan_up (a : arr A) (pfirst plast gfirst last : nat) : res (arr A * nat * nat) :=
    loop (S (last - gfirst))
      (fun '(a, plast, gfirst) =>
         if decide (gfirst < last)%nat then
           p <~ rd a pfirst ;;
           g <~ rd a gfirst ;;
           if lt p g then Ok (inl (a, plast, S gfirst))                 (* continue *)
           else if lt g p then Ok (inr (a, plast, gfirst))              (* break *)
           else if decide (plast <> gfirst) then
             a <~ swp a plast gfirst ;; Ok (inl (a, S plast, S gfirst))
           else Ok (inl (a, S plast, S gfirst))
         else Ok (inr (a, plast, gfirst)))
      (a, plast, gfirst).

  (* for (; _First < _Glast; --_Glast) ... *)
  Definition pbp_scan_down (a : arr A) (first pfirst glast : nat) : res (arr A * nat * nat) :=
    loop (S (glast - first))
      (fun '(a, pfirst, glast) =>
         if decide (first < glast)%nat then
           let glast_prev := (glast - 1)%nat in
           g <~ rd a glast_prev ;;
           p <~ rd a pfirst ;;
           if lt g p then Ok (inl (a, pfirst, (glast - 1)%nat))         (* continue *)
           else if lt p g then Ok (inr (a, pfirst, glast))              (* break *)
           else
             pfirst <~ decr pfirst ;;
             if decide (pfirst <> glast_prev) then
               a <~ swp a pfirst glast_prev ;; Ok (inl (a, pfirst, (glast - 1)%nat))
             else Ok (inl (a, pfirst, (glast - 1)%nat))
         else Ok (inr (a, pfirst, glast)))
      (a, pfirst, glast).

  Definition partition_by_pivot (a : arr A) (first pfirst last : nat) : res (arr A * nat * nat) :=
    let plast := S pfirst in
    pfirst <~ pbp_widen_left a first pfirst ;;
    plast <~ pbp_widen_right a pfirst plast last ;;
    loop (S (last - first))
      (fun '(a, pfirst, plast, gfirst, glast) =>
         '(a, plast, gfirst) <~ pbp_scan_up a pfirst plast gfirst last ;;
         '(a, pfirst, glast) <~ pbp_scan_down a first pfirst glast ;;
         if decide (glast = first /\ gfirst = last) then Ok (inr (a, pfirst, plast))
         else if decide (glast = first) then          (* no room at bottom, rotate pivot upward *)
           a <~ (if decide (plast <> gfirst) then swp a pfirst plast else Ok a) ;;
           a <~ swp a pfirst gfirst ;;
           Ok (inl (a, S pfirst, S plast, S gfirst, glast))
         else if decide (gfirst = last) then          (* no room at top, rotate pivot downward *)
           glast <~ decr glast ;;
           pfirst <~ decr pfirst ;;
           a <~ (if decide (glast <> pfirst) then swp a glast pfirst else Ok a) ;;
           plast <~ decr plast ;;
           a <~ swp a pfirst plast ;;
           Ok (inl (a, pfirst, plast, gfirst, glast))
         else
           glast <~ decr glast ;;
           a <~ swp a gfirst glast ;;
           Ok (inl (a, pfirst, plast, S gfirst, glast)))
      (a, pfirst, plast, plast, pfirst).

  (** algorithm:9042-9048 _Partition_by_median_guess_unchecked *)
  Definition partition_by_median_guess (a : arr A) (first last : nat) : res (arr A * nat * nat) :=
    let mid := (first + (last - first) / 2)%nat in
    l1 <~ decr last ;;
    a <~ guess_median a first mid l1 ;;
    partition_by_pivot a first mid last.

  (** algorithm:566 _ISORT_MAX *)
  Definition ISORT_MAX : nat := 32.

  (** algorithm:9051-9078 _Sort_unchecked. The C++ loop on the larger part is the second recursive call here. *)
  Fixpoint sort_unchecked (fuel : nat) (a : arr A) (first last ideal : nat) : res (arr A) :=
    match fuel with
    | 0%nat => Fuel
    | S fuel =>
        if decide (last - first <= ISORT_MAX)%nat then insertion_sort a first last
        else if decide (ideal <= 0)%nat then
          a <~ make_heap lt a first last ;;
          sort_heap lt a first last
        else
          '(a, m1, m2) <~ partition_by_median_guess a first last ;;
          let ideal := (ideal / 2 + ideal / 4)%nat in
          if decide (m1 - first < last - m2)%nat then
            a <~ sort_unchecked fuel a first m1 ideal ;;
            sort_unchecked fuel a m2 last ideal
          else
            a <~ sort_unchecked fuel a m2 last ideal ;;
            sort_unchecked fuel a first m1 ideal
    end.

  (** algorithm:9081-9086 sort *)
  Definition sort (a : arr A) (first last : nat) : res (arr A) :=
    sort_unchecked (S (last - first)) a first last (last - first).

  (** algorithm:9792-9813 partial_sort *)
  Definition partial_sort (a : arr A) (first mid last : nat) : res (arr A) :=
    if decide (first = mid) then Ok a
    else
      a <~ make_heap lt a first mid ;;
      a <~ loop (S (last - mid))
             (fun '(a, next) =>
                if decide (next < last)%nat then
                  x <~ rd a next ;;
                  y <~ rd a first ;;
                  if lt x y then
                    '(val, a) <~ mv a next ;;
                    a <~ pop_heap_hole_unchecked lt a first mid next val ;;
                    Ok (inl (a, S next))
                  else Ok (inl (a, S next))
                else Ok (inr a))
             (a, mid) ;;
      sort_heap lt a first mid.

  (** algorithm:10061-10092 _Swap_med5_unchecked *)
  Definition swap_med5 (a : arr A) (first dest : nat) : res (arr A) :=
    let guess := S first in
    let third := S guess in
    a <~ med3 a first guess third ;;
    let fourth := S third in
    let fifth := S fourth in
    v5 <~ rd a fifth ;;
    v4 <~ rd a fourth ;;
    a <~ (if lt v5 v4 then swp a fourth fifth else Ok a) ;;
    v1 <~ rd a first ;; v2 <~ rd a guess ;; v3 <~ rd a third ;; v4 <~ rd a fourth ;; v5 <~ rd a fifth ;;
    let guess :=
      if lt v5 v2 then (if lt v1 v5 then fifth else first)
      else if lt v2 v4 then (if lt v3 v4 then third else fourth)
      else guess in
    swp a dest guess.

  (** xutility:7871-7897 _Swap_ranges_unchecked (both ranges in the same array) *)
  Definition swap_ranges (a : arr A) (first1 last1 first2 : nat) : res (arr A) :=
    loop (S (last1 - first1))
      (fun '(a, i, j) =>
         if decide (i <> last1) then a <~ swp a i j ;; Ok (inl (a, S i, S j)) else Ok (inr a))
      (a, first1, first2).

  (** algorithm:10095-10141 _Nth_element_median_of_medians *)
  Fixpoint nth_element_mom (fuel : nat) (a : arr A) (first nth last : nat) : res (arr A) :=
    match fuel with
    | 0%nat => Fuel
    | S fuel =>
        let length := (last - first)%nat in
        if decide (length <= ISORT_MAX)%nat then insertion_sort a first last
        else
          let median_count := (length / 5)%nat in
          let median_last := (first + median_count)%nat in
          a <~ loop (S median_count)
                 (fun '(a, median_dest, current) =>
                    if decide (median_dest <> median_last) then
                      a <~ swap_med5 a current median_dest ;;
                      Ok (inl (a, S median_dest, (current + 5)%nat))
                    else Ok (inr a))
                 (a, first, first) ;;
          let median_mid := (first + median_count / 2)%nat in
          a <~ nth_element_mom fuel a first median_mid median_last ;;
          let median_greater_count := (median_last - median_mid - 1)%nat in
          let median_greater_first := (last - median_greater_count)%nat in
          a <~ swap_ranges a (S median_mid) median_last median_greater_first ;;
          let middle := (first + length / 2)%nat in
          a <~ swp a median_mid middle ;;
          '(a, m1, m2) <~ partition_by_pivot a median_mid middle median_greater_first ;;
          if decide (m2 <= nth)%nat then nth_element_mom fuel a m2 nth last
          else if decide (m1 <= nth)%nat then Ok a
          else nth_element_mom fuel a first nth m1
    end.

  (** algorithm:10144-10173 _Nth_element_unchecked *)
  Definition nth_element_unchecked (a : arr A) (first nth last : nat) : res (arr A) :=
    loop (S (last - first))
      (fun '(a, first, last, ideal) =>
         let length := (last - first)%nat in
         if decide (length <= ISORT_MAX)%nat then
           a <~ insertion_sort a first last ;; Ok (inr a)
         else if decide (ideal < length / 2)%nat then
           a <~ nth_element_mom (S (last - first)) a first nth last ;; Ok (inr a)
         else
           '(a, m1, m2) <~ partition_by_median_guess a first last ;;
           let ideal := (ideal / 2 + ideal / 4)%nat in
           if decide (m2 <= nth)%nat then Ok (inl (a, m2, last, ideal))
           else if decide (m1 <= nth)%nat then Ok (inr a)
           else Ok (inl (a, first, m1, ideal)))
      (a, first, last, (last - first)%nat).

  (** algorithm:10176-10188 nth_element *)
  Definition nth_element (a : arr A) (first nth last : nat) : res (arr A) :=
    if decide (nth = last) then Ok a else nth_element_unchecked a first nth last.
End sort.
