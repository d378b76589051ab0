(** includes, set_union, set_intersection, set_difference, set_symmetric_difference: stl/inc/algorithm:10389-10976.
    The two inputs are ranges of two arrays; the output iterator is an unbounded output sequence (list, appended to).
    The _VECTORIZED_INCLUDES path and debug-order checks are not modelled. *)
From stdpp Require Import base list numbers.
From Verif Require Import Base.Res Base.Arr.

Section setops.
  Context {A : Type} (pred : A -> A -> bool).

  (** xutility:4840- _Copy_unchecked into the output sequence: *dest = *first, element by element *)
  Fixpoint copy_n (n : nat) (a : arr A) (first : nat) (out : list A) : res (list A) :=
    match n with
    | 0%nat => Ok out
    | S n => x <~ rd a first ;; copy_n n a (S first) (out ++ [x])
    end.
  Definition copy_out (a : arr A) (first last : nat) (out : list A) : res (list A) := copy_n (last - first) a first out.

  (** algorithm:10390-10434 includes *)
  Definition includes (a1 : arr A) (first1 last1 : nat) (a2 : arr A) (first2 last2 : nat) : res bool :=
    if decide (first2 = last2) then Ok true
    else if decide (first1 = last1) then Ok false
    else
      loop (S ((last1 - first1) + (last2 - first2)))
        (fun '(first1, first2) =>
           x <~ rd a1 first1 ;; y <~ rd a2 first2 ;;
           if pred x y then
             let first1 := S first1 in
             if decide (first1 = last1) then Ok (inr false) else Ok (inl (first1, first2))
           else if pred y x then Ok (inr false)
           else
             let first1 := S first1 in
             let first2 := S first2 in
             if decide (first2 = last2) then Ok (inr true)
             else if decide (first1 = last1) then Ok (inr false)
             else Ok (inl (first1, first2)))
        (first1, first2).

  (** algorithm:10546-10574 set_union *)
  Definition set_union (a1 : arr A) (first1 last1 : nat) (a2 : arr A) (first2 last2 : nat) : res (list A) :=
    '(first1, first2, out) <~
      loop (S ((last1 - first1) + (last2 - first2)))
        (fun '(first1, first2, out) =>
           if decide (first1 <> last1 /\ first2 <> last2) then
             x <~ rd a1 first1 ;; y <~ rd a2 first2 ;;
             if pred x y then Ok (inl (S first1, first2, out ++ [x]))
             else if pred y x then Ok (inl (first1, S first2, out ++ [y]))
             else Ok (inl (S first1, S first2, out ++ [x]))
           else Ok (inr (first1, first2, out)))
        (first1, first2, []) ;;
    out <~ copy_out a1 first1 last1 out ;;
    copy_out a2 first2 last2 out.

  (** algorithm:10684-10711 set_intersection *)
  Definition set_intersection (a1 : arr A) (first1 last1 : nat) (a2 : arr A) (first2 last2 : nat) : res (list A) :=
    loop (S ((last1 - first1) + (last2 - first2)))
      (fun '(first1, first2, out) =>
         if decide (first1 <> last1 /\ first2 <> last2) then
           x <~ rd a1 first1 ;; y <~ rd a2 first2 ;;
           if pred x y then Ok (inl (S first1, first2, out))
           else if pred y x then Ok (inl (first1, S first2, out))
           else Ok (inl (S first1, S first2, out ++ [x]))
         else Ok (inr out))
      (first1, first2, []).

  (** algorithm:10817-10845 set_difference *)
  Definition set_difference (a1 : arr A) (first1 last1 : nat) (a2 : arr A) (first2 last2 : nat) : res (list A) :=
    '(first1, out) <~
      loop (S ((last1 - first1) + (last2 - first2)))
        (fun '(first1, first2, out) =>
           if decide (first1 <> last1 /\ first2 <> last2) then
             x <~ rd a1 first1 ;; y <~ rd a2 first2 ;;
             if pred x y then Ok (inl (S first1, first2, out ++ [x]))
             else if negb (pred y x) then Ok (inl (S first1, S first2, out))
             else Ok (inl (first1, S first2, out))
           else Ok (inr (first1, out)))
        (first1, first2, []) ;;
    copy_out a1 first1 last1 out.

  (** algorithm:10945-10975 set_symmetric_difference *)
  Definition set_symmetric_difference (a1 : arr A) (first1 last1 : nat) (a2 : arr A) (first2 last2 : nat) : res (list A) :=
    '(first1, first2, out) <~
      loop (S ((last1 - first1) + (last2 - first2)))
        (fun '(first1, first2, out) =>
           if decide (first1 <> last1 /\ first2 <> last2) then
             x <~ rd a1 first1 ;; y <~ rd a2 first2 ;;
             if pred x y then Ok (inl (S first1, first2, out ++ [x]))
             else if pred y x then Ok (inl (first1, S first2, out ++ [y]))
             else Ok (inl (S first1, S first2, out))
           else Ok (inr (first1, first2, out)))
        (first1, first2, []) ;;
    out <~ copy_out a1 first1 last1 out ;;
    copy_out a2 first2 last2 out.
End setops.
