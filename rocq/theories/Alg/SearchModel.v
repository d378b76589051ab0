(** Binary searches: stl/inc/xutility and stl/inc/algorithm.
    Iterators are indices; [distance]/[next] on forward iterators are subtraction/addition of indices;
    debug-mode order checks and iterator unwrapping are omitted. *)
From stdpp Require Import base list numbers.
From Verif Require Import Base.Res Base.Arr.

Section search.
  Context {A V : Type}.

  (** xutility:7815-7834 lower_bound; [lt_av x v] is [_Pred( *_UMid, _Val)] *)
  Definition lower_bound (lt_av : A -> V -> bool) (a : arr A) (first last : nat) (v : V) : res nat :=
    loop (S (last - first))
      (fun '(first, count) =>
         if decide (0 < count)%nat then
           let count2 := (count / 2)%nat in
           let mid := (first + count2)%nat in
           x <~ rd a mid ;;
           if lt_av x v then Ok (inl (S mid, (count - (count2 + 1))%nat))
           else Ok (inl (first, count2))
         else Ok (inr first))
      (first, (last - first)%nat).

  (** xutility:7843-7862 upper_bound *)
  Definition upper_bound (lt_va : V -> A -> bool) (a : arr A) (first last : nat) (v : V) : res nat :=
    loop (S (last - first))
      (fun '(first, count) =>
         if decide (0 < count)%nat then
           let count2 := (count / 2)%nat in
           let mid := (first + count2)%nat in
           x <~ rd a mid ;;
           if lt_va v x then Ok (inl (first, count2))
           else Ok (inl (S mid, (count - (count2 + 1))%nat))
         else Ok (inr first))
      (first, (last - first)%nat).

  (** algorithm:2339-2360 partition_point *)
  Definition partition_point (pred : A -> bool) (a : arr A) (first last : nat) : res nat :=
    loop (S (last - first))
      (fun '(first, count) =>
         if decide (0 < count)%nat then
           let count2 := (count / 2)%nat in
           let mid := (first + count2)%nat in
           x <~ rd a mid ;;
           if pred x then Ok (inl (S mid, (count - count2 - 1)%nat))
           else Ok (inl (first, count2))
         else Ok (inr first))
      (first, (last - first)%nat).

  (** algorithm:7980-8014 equal_range *)
  Definition equal_range (lt_av : A -> V -> bool) (lt_va : V -> A -> bool)
      (a : arr A) (first last : nat) (v : V) : res (nat * nat) :=
    loop (S (last - first))
      (fun '(first, count) =>
         if decide (count <= 0)%nat then Ok (inr (first, first))
         else
           let count2 := (count / 2)%nat in
           let mid := (first + count2)%nat in
           x <~ rd a mid ;;
           if lt_av x v then Ok (inl (S mid, (count - (count2 + 1))%nat))
           else if lt_va v x then Ok (inl (first, count2))
           else
             first2 <~ lower_bound lt_av a first mid v ;;
             let first := (first + count)%nat in
             last2 <~ upper_bound lt_va a (S mid) first v ;;
             Ok (inr (first2, last2)))
      (first, (last - first)%nat).

  (** algorithm:8086-8093 binary_search *)
  Definition binary_search (lt_av : A -> V -> bool) (lt_va : V -> A -> bool)
      (a : arr A) (first last : nat) (v : V) : res bool :=
    r <~ lower_bound lt_av a first last v ;;
    if decide (r <> last) then x <~ rd a r ;; Ok (negb (lt_va v x)) else Ok false.
End search.
