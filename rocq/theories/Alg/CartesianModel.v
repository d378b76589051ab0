(** Model of the iterators of views::cartesian_product: stl/inc/ranges:8800-9215.
    A base iterator is its position in its range. [n0] is the size of the first range and a list [zs] holds the sizes of the others,
    THE LAST RANGE FIRST (the templates recurse from the last index to 0); the positions [ds] of an iterator likewise, [i0] for the first range.
    [None] is undefined behaviour: a position leaves its range, or a result does not fit difference_type, whose maximum is [M]. *)
From stdpp Require Import base list numbers option.
From Coq Require Import ZArith Lia.
Local Open Scope Z_scope.

Section model.
Context (M n0 : Z).
Definition cck (z : Z) : option Z := if decide (- M - 1 <= z <= M) then Some z else None.
Definition cpos (sz w : Z) : option Z := if decide (0 <= w <= sz) then Some w else None.
Notation citer := (list Z * Z)%type.

(** _Next: ranges:8840-8851 *)
Fixpoint next (zs ds : list Z) (i0 : Z) : option citer :=
  match zs, ds with
  | z :: zs, d :: ds => d ← cpos z (d + 1); if decide (d = z) then '(ds, i0) ← next zs ds i0; Some (0 :: ds, i0) else Some (d :: ds, i0)
  | _, _ => i0 ← cpos n0 (i0 + 1); Some ([], i0)
  end.
(** _Prev: ranges:8853-8864 *)
Fixpoint prev (zs ds : list Z) (i0 : Z) : option citer :=
  match zs, ds with
  | z :: zs, d :: ds =>
      '(d, (ds, i0)) ← (if decide (d = 0) then p ← prev zs ds i0; Some (z, p) else Some (d, (ds, i0)));
      d ← cpos z (d - 1); Some (d :: ds, i0)
  | _, _ => i0 ← cpos n0 (i0 - 1); Some ([], i0)
  end.
(** _Advance: ranges:8872-8911 *)
Fixpoint advance (zs ds : list Z) (i0 off : Z) : option citer :=
  if decide (off = 0) then Some (ds, i0) else
  match zs, ds with
  | z :: zs, d :: ds =>
      if decide (z = 0) then None else
      s ← cck (d + off);
      let new := Z.rem s z in let nxt := Z.quot s z in
      if decide (new < 0) then d ← cpos z (new + z); '(ds, i0) ← advance zs ds i0 (nxt - 1); Some (d :: ds, i0)
      else d ← cpos z new; '(ds, i0) ← advance zs ds i0 nxt; Some (d :: ds, i0)
  | _, _ => i0 ← cpos n0 (i0 + off); Some ([], i0)
  end.
(** _Distance_from: ranges:8925-8944 *)
Fixpoint distance (zs ds : list Z) (i0 : Z) (es : list Z) (j0 : Z) : option Z :=
  match zs, ds, es with
  | z :: zs, d :: ds, e :: es => df ← cck (d - e); r ← distance zs ds i0 es j0; r ← cck (z * r); cck (r + df)
  | _, _, _ => cck (i0 - j0)
  end.
(** _Is_end, operator==(it, default_sentinel): ranges:8913-8916, 9036-9038 *)
Fixpoint is_end (zs ds : list Z) (i0 : Z) : bool :=
  match zs, ds with z :: zs, d :: ds => bool_decide (d = z) || is_end zs ds i0 | _, _ => bool_decide (i0 = n0) end.
(** begin, end, size: ranges:9097-9205 *)
Definition begin (zs : list Z) : citer := (map (fun _ => 0) zs, 0).
Definition end_ (zs : list Z) : citer := (map (fun _ => 0) zs, if bool_decide (0 ∈ zs) then 0 else n0).
Fixpoint size (zs : list Z) : Z := match zs with [] => n0 | z :: zs => z * size zs end.
(** it - default_sentinel, with _End_tuple: ranges:8918-8923, 9069-9079 *)
Definition minus_sentinel (zs : list Z) (it : citer) : option Z := distance zs it.1 it.2 (map (fun _ => 0) zs) n0.
(** operator<=> of the tuples of positions: ranges:9040-9044 *)
Fixpoint compare (ds : list Z) (i0 : Z) (es : list Z) (j0 : Z) : comparison :=
  match ds, es with d :: ds, e :: es => match compare ds i0 es j0 with Eq => d ?= e | c => c end | _, _ => i0 ?= j0 end.
(** operator*: the tuple of the elements, in the order of the ranges: ranges:8972-8974. [l0]: elements of the first range *)
Fixpoint deref {A} (l0 : list A) (ls : list (list A)) (ds : list Z) (i0 : Z) : option (list A) :=
  match ls, ds with
  | l :: ls, d :: ds => t ← deref l0 ls ds i0; if decide (0 <= d) then x ← l !! Z.to_nat d; Some (t ++ [x]) else None
  | _, _ => if decide (0 <= i0) then x ← l0 !! Z.to_nat i0; Some [x] else None
  end.

(** what a client does: ranges:8976-9021 *)
Inductive cop := CInc | CDec | CAdd (k : Z) | CSub (k : Z).
Definition cstep (zs : list Z) (it : citer) (o : cop) : option citer :=
  match o with
  | CInc => next zs it.1 it.2
  | CDec => prev zs it.1 it.2
  | CAdd k => advance zs it.1 it.2 k
  | CSub k => k ← cck (- k); advance zs it.1 it.2 k
  end.
Fixpoint crun (zs : list Z) (it : citer) (os : list cop) : option citer :=
  match os with [] => Some it | o :: os => it ← cstep zs it o; crun zs it os end.
End model.
