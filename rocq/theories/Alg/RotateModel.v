(** reverse, rotate, shift_left, shift_right and the move loops: stl/inc/xutility, stl/inc/algorithm.
    The memmove/vectorised fast paths (trivially copyable elements only) are not modelled. *)
From stdpp Require Import base list numbers.
From Verif Require Import Base.Res Base.Arr Alg.SortModel.

Section rotate.
  Context {A : Type}.

  (** xutility:5433-5454 _Move_unchecked, source and destination in the same array; [n] is [_Last - _First] *)
  Fixpoint move_n (n : nat) (a : arr A) (s d : nat) : res (arr A * nat) :=
    match n with
    | 0%nat => Ok (a, d)
    | S n => a <~ mvto a s d ;; move_n n a (S s) (S d)
    end.
  Definition move_unchecked (a : arr A) (first last dest : nat) : res (arr A * nat) :=
    move_n (last - first) a first dest.

  (** xutility:5433-5454 _Move_unchecked and xmemory _Uninitialized_move_unchecked between two different arrays *)
  Fixpoint xmove_n (n : nat) (src dst : arr A) (s d : nat) : res (arr A * arr A * nat) :=
    match n with
    | 0%nat => Ok (src, dst, d)
    | S n =>
        '(x, src) <~ mv src s ;;
        dst <~ wr dst d x ;;
        xmove_n n src dst (S s) (S d)
    end.
  Definition xmove (src : arr A) (first last : nat) (dst : arr A) (dest : nat) : res (arr A * arr A * nat) :=
    xmove_n (last - first) src dst first dest.

  (** xutility:6849-6873 reverse (element-wise path) *)
  Definition reverse (a : arr A) (first last : nat) : res (arr A) :=
    loop (S (last - first))
      (fun '(a, first, last) =>
         if decide (first <> last) then
           last <~ decr last ;;
           if decide (first <> last) then
             a <~ swp a first last ;; Ok (inl (a, S first, last))
           else Ok (inr a)
         else Ok (inr a))
      (a, first, last).

  (** xutility:6886-6894 _Reverse_until_sentinel_unchecked *)
  Definition reverse_until_sentinel (a : arr A) (first sentinel last : nat) : res (arr A * nat * nat) :=
    loop (S (last - first))
      (fun '(a, first, last) =>
         if decide (first <> sentinel /\ last <> sentinel) then
           last <~ decr last ;;
           a <~ swp a first last ;;
           Ok (inl (a, S first, last))
         else Ok (inr (a, first, last)))
      (a, first, last).

  (** xutility:6897-6961 rotate: the random-access branch *)
  Definition rotate (a : arr A) (first mid last : nat) : res (arr A * nat) :=
    if decide (first = mid) then Ok (a, last)
    else if decide (mid = last) then Ok (a, first)
    else
      a <~ reverse a first mid ;;
      a <~ reverse a mid last ;;
      a <~ reverse a first last ;;
      Ok (a, (first + (last - mid))%nat).

  (** xutility:6897-6961 rotate: the bidirectional branch *)
  Definition rotate_bidi (a : arr A) (first mid last : nat) : res (arr A * nat) :=
    if decide (first = mid) then Ok (a, last)
    else if decide (mid = last) then Ok (a, first)
    else
      a <~ reverse a first mid ;;
      a <~ reverse a mid last ;;
      '(a, tf, ts) <~ reverse_until_sentinel a first mid last ;;
      a <~ reverse a tf ts ;;
      Ok (a, if decide (mid <> tf) then tf else ts).

  (** xutility:6897-6961 rotate: the forward branch; [rotate_cycle] is the do-while loop *)
  Definition rotate_cycle (a : arr A) (first mid last : nat) : res (arr A * nat * nat) :=
    loop (S (last - first))
      (fun '(a, first, mid, next) =>
         a <~ swp a first next ;;
         let first := S first in
         let next := S next in
         let mid := if decide (first = mid) then next else mid in
         if decide (next <> last) then Ok (inl (a, first, mid, next))
         else Ok (inr (a, first, mid)))
      (a, first, mid, mid).
  Definition rotate_fwd (a : arr A) (first mid last : nat) : res (arr A * nat) :=
    if decide (first = mid) then Ok (a, last)
    else if decide (mid = last) then Ok (a, first)
    else
      '(a, first, mid) <~ rotate_cycle a first mid last ;;
      let ret := first in
      a <~ loop (S (last - first))
             (fun '(a, first, mid) =>
                if decide (mid <> last) then
                  '(a, first, mid) <~ rotate_cycle a first mid last ;; Ok (inl (a, first, mid))
                else Ok (inr a))
             (a, first, mid) ;;
      Ok (a, ret).

  (** algorithm:6592-6624 shift_left (random-access branch) *)
  Definition shift_left (a : arr A) (first last pos : nat) : res (arr A * nat) :=
    if decide (pos = 0)%nat then Ok (a, last)
    else if decide (last - first <= pos)%nat then Ok (a, first)
    else move_unchecked a (first + pos) last first.

  (** algorithm:6637-6709 shift_right (random-access branch; the forward-iterator branch is not modelled) *)
  Definition shift_right (a : arr A) (first last pos : nat) : res (arr A * nat) :=
    if decide (pos = 0)%nat then Ok (a, first)
    else if decide (last - first <= pos)%nat then Ok (a, last)
    else move_backward a first (last - pos) last.
End rotate.
