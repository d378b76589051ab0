(** Specification of mdspan layouts (N4950 [mdspan.layout]), independent of the model. *)
From stdpp Require Import base list numbers.
From Coq Require Import ZArith Lia.
From Verif Require Import Base.Res Base.Int Cont.MdspanModel.
Local Open Scope Z_scope.

(** product of extents, and the inner product of an index with the strides *)
Definition prod (l : list Z) : Z := foldr Z.mul 1 l.
Fixpoint dot (idx strides : list Z) : Z :=
  match idx, strides with i :: idx', s :: strides' => i * s + dot idx' strides' | _, _ => 0 end.
(** a multidimensional index of an index space: one component per extent, each in range *)
Definition valid_index (exts idx : list Z) : Prop := Forall2 (fun e i => 0 <= i < e) exts idx.
(** the extents object [E] has extents [exts], values of the index type *)
Definition has_extents (t : ity) (E : exts_obj) (exts : list Z) : Prop :=
  length (st E) = length exts /\ length (dyn E) = rank_dynamic (st E) /\
  (forall i e, exts !! i = Some e -> 0 <= e <= tmax t /\
     match st E !! i with Some (Some s) => s = e | Some None => dyn E !! rank_dynamic (take i (st E)) = Some e | None => False end).
(** the standard's strides of the row/column-major layouts *)
Definition left_strides (exts : list Z) : list Z := (fun k => prod (take k exts)) <$> seq 0 (length exts).
Definition right_strides (exts : list Z) : list Z := (fun k => prod (drop (S k) exts)) <$> seq 0 (length exts).
(** size of the codomain a strided layout needs *)
Definition span_size (exts strides : list Z) : Z :=
  if decide (0 ∈ exts) then 0 else 1 + dot ((fun e => e - 1) <$> exts) strides.
(** consecutive (stride, extent) pairs: each stride at least / exactly the previous stride times the previous extent *)
Fixpoint chain (R : Z -> Z -> Prop) (l : list (Z * Z)) : Prop :=
  match l with
  | [] => True
  | p :: l' => match l' with [] => True | q :: _ => R q.1 (p.1 * p.2) end /\ chain R l'
  end.
(** preconditions of layout_stride's constructor: [mdspan.layout.stride.cons]/4 *)
Definition valid_strides (t : ity) (exts strides : list Z) : Prop :=
  length strides = length exts /\ Forall (fun s => 0 < s <= tmax t) strides /\ span_size exts strides <= tmax t /\
  (0 ∉ exts -> exists P, P ≡ₚ zip strides exts /\ chain Z.ge P).
(** [mdspan.layout.stride.obs]/5: the dimensions can be ordered so that strides start at 1 and multiply up *)
Definition packed (exts strides : list Z) : Prop :=
  exists P, P ≡ₚ zip strides exts /\ chain eq P /\ (forall p, head P = Some p -> p.1 = 1).
(** the properties of a layout mapping: in bounds, unique, (and) exhaustive *)
Definition in_bounds (index : list Z -> res Z) (exts : list Z) (n : Z) : Prop :=
  forall idx, valid_index exts idx -> exists o, index idx = Ok o /\ 0 <= o < n.
Definition unique (index : list Z -> res Z) (exts : list Z) : Prop :=
  forall i j o, valid_index exts i -> valid_index exts j -> index i = Ok o -> index j = Ok o -> i = j.
Definition exhaustive (index : list Z -> res Z) (exts : list Z) (n : Z) : Prop :=
  forall o, 0 <= o < n -> exists idx, valid_index exts idx /\ index idx = Ok o.
