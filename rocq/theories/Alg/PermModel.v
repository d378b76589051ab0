(** next_permutation, prev_permutation: stl/inc/algorithm:11540-11673 *)
From stdpp Require Import base list numbers.
From Verif Require Import Base.Res Base.Arr Alg.RotateModel.

Section perm.
  Context {A : Type} (pred : A -> A -> bool).

  (** algorithm:11552-11556: do --_UMid while (!pred( *_UNext, *_UMid )) *)
  Definition find_mid_next (a : arr A) (next last : nat) : res nat :=
    loop (S last)
      (fun mid =>
         mid <~ decr mid ;;
         x <~ rd a next ;; y <~ rd a mid ;;
         if negb (pred x y) then Ok (inl mid) else Ok (inr mid))
      last.
  (** algorithm:11541-11568 *)
  Definition next_permutation (a : arr A) (first last : nat) : res (arr A * bool) :=
    if decide (first = last) then Ok (a, false)
    else
      next <~ decr last ;;
      if decide (first = next) then Ok (a, false)
      else
        loop (S (last - first))
          (fun next =>
             let next1 := next in
             next <~ decr next ;;
             x <~ rd a next ;; y <~ rd a next1 ;;
             if pred x y then
               mid <~ find_mid_next a next last ;;
               a <~ swp a next mid ;;
               a <~ reverse a next1 last ;;
               Ok (inr (a, true))
             else if decide (next = first) then
               a <~ reverse a first last ;;
               Ok (inr (a, false))
             else Ok (inl next))
          next.

  (** algorithm:11656-11660 *)
  Definition find_mid_prev (a : arr A) (next last : nat) : res nat :=
    loop (S last)
      (fun mid =>
         mid <~ decr mid ;;
         x <~ rd a next ;; y <~ rd a mid ;;
         if negb (pred y x) then Ok (inl mid) else Ok (inr mid))
      last.
  (** algorithm:11645-11672 *)
  Definition prev_permutation (a : arr A) (first last : nat) : res (arr A * bool) :=
    if decide (first = last) then Ok (a, false)
    else
      next <~ decr last ;;
      if decide (first = next) then Ok (a, false)
      else
        loop (S (last - first))
          (fun next =>
             let next1 := next in
             next <~ decr next ;;
             x <~ rd a next ;; y <~ rd a next1 ;;
             if pred y x then
               mid <~ find_mid_prev a next last ;;
               a <~ swp a next mid ;;
               a <~ reverse a next1 last ;;
               Ok (inr (a, true))
             else if decide (next = first) then
               a <~ reverse a first last ;;
               Ok (inr (a, false))
             else Ok (inl next))
          next.
End perm.
