(** The cartesian product of a list of ranges, and how a client may move an iterator over it. *)
From stdpp Require Import base list numbers option.
From Coq Require Import ZArith.
From Verif Require Import Alg.CartesianModel.

(** all tuples, the last range varying fastest *)
Fixpoint cart {A} (ls : list (list A)) : list (list A) :=
  match ls with [] => [[]] | l :: ls => l ≫= (fun x => (fun t => x :: t) <$> cart ls) end.

Inductive cmove (m i : Z) : cop -> Z -> Prop :=
  | cm_inc : (i < m)%Z -> cmove m i CInc (i + 1)
  | cm_dec : (0 < i)%Z -> cmove m i CDec (i - 1)
  | cm_add k : (0 <= i + k <= m)%Z -> cmove m i (CAdd k) (i + k)
  | cm_sub k : (0 <= i - k <= m)%Z -> cmove m i (CSub k) (i - k).
Inductive cmoves (m : Z) : Z -> list cop -> Z -> Prop :=
  | cms_nil i : cmoves m i [] i
  | cms_cons i o j os k : cmove m i o j -> cmoves m j os k -> cmoves m i (o :: os) k.
Definition len {A} (l : list A) : Z := Z.of_nat (length l).
(** the number of tuples of the first ranges, of the first two, ... of all of them, is a value of difference_type. ([ls]: last range first) *)
Fixpoint fits {A} (M : Z) (l0 : list A) (ls : list (list A)) : Prop :=
  (len (cart (l0 :: rev ls)) <= M)%Z /\ match ls with [] => True | _ :: ls => fits M l0 ls end.
(** the iterator [it] has been moved from begin() or from end() to tuple [i] *)
Definition cis_at {A} (M : Z) (l0 : list A) (ls : list (list A)) (i : Z) (it : list Z * Z) : Prop :=
  let m := len (cart (l0 :: rev ls)) in let zs := map len ls in
  exists os, (cmoves m 0 os i /\ crun M (len l0) zs (begin zs) os = Some it) \/ (cmoves m m os i /\ crun M (len l0) zs (end_ (len l0) zs) os = Some it).
