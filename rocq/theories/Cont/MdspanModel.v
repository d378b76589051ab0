(** Model of std::extents, layout_left / layout_right / layout_stride mappings and element access of std::mdspan
    (stl/inc/mdspan). [t] is index_type. Arithmetic is performed as C++ does, in the promoted type, signed overflow
    being [UB]; stores convert back to [t]. Debug-only _STL_VERIFY checks (_ITERATOR_DEBUG_LEVEL != 0) are not modelled:
    their conditions are the preconditions of the theorems. *)
From stdpp Require Import base list numbers decidable list_numbers.
From Coq Require Import ZArith Lia.
From Verif Require Import Base.Res Base.Int Base.Arr Alg.HeapModel Alg.SortModel.
Local Open Scope Z_scope.

(** an extents object: its static extents (None = dynamic_extent) and the stored dynamic ones (_Array) *)
Record exts_obj := Exts { st : list (option Z); dyn : list Z }.

Section mdspan.
  Context (t : ity).
  Notation P := (promote t).
  Definition rank (E : exts_obj) : nat := length (st E).
  Definition is_dyn (o : option Z) : bool := match o with None => true | Some _ => false end.
  (** mdspan:62 _Rank_dynamic *)
  Definition rank_dynamic (l : list (option Z)) : nat := length (filter (fun o => is_dyn o = true) l).
  (** mdspan:67-79 _Make_dynamic_indices: number of dynamic extents before position i *)
  Definition dynamic_index (l : list (option Z)) (i : nat) : nat := rank_dynamic (take i l).
  (** mdspan:83-94 _Make_dynamic_indices_inv: positions of the dynamic extents *)
  Fixpoint dynamic_indices_inv (k : nat) (l : list (option Z)) : list nat :=
    match l with
    | [] => []
    | o :: l' => if is_dyn o then k :: dynamic_indices_inv (S k) l' else dynamic_indices_inv (S k) l'
    end.
  Definition at_z (l : list Z) (i : nat) : res Z := match l !! i with Some v => Ok v | None => UB end.
  (** mdspan:194-209 extent *)
  Definition extent (E : exts_obj) (i : nat) : res Z :=
    let static_i := match st E !! i with Some (Some e) => Ok (cast t e) | _ => UB end in
    if decide (rank_dynamic (st E) = 0%nat) then static_i
    else if decide (rank_dynamic (st E) = rank E) then at_z (dyn E) i
    else match st E !! i with
         | Some None => at_z (dyn E) (dynamic_index (st E) i)
         | _ => static_i
         end.
  (** mdspan:120-124, 140-143, 222-228, 244-249 construction from rank_dynamic() values *)
  Definition ctor_dynamic (l : list (option Z)) (vals : list Z) : exts_obj := Exts l (cast t <$> vals).
  (** mdspan:126-138, 155-158, 222-249 construction from rank() values; 98-103 conversion from another extents *)
  Definition ctor_all (l : list (option Z)) (vals : list Z) : res exts_obj :=
    if decide (rank_dynamic l = length l) then Ok (ctor_dynamic l vals)
    else d <~ foldr (fun i acc => v <~ at_z vals i ;; acc <~ acc ;; Ok (cast t v :: acc)) (Ok []) (dynamic_indices_inv 0 l) ;;
         Ok (Exts l d).
  (** mdspan:259-272 operator== *)
  Fixpoint exts_eq_loop (E F : exts_obj) (n k : nat) : res bool :=
    match n with
    | 0%nat => Ok true
    | S n' => a <~ extent E k ;; b <~ extent F k ;; if decide (a <> b) then Ok false else exts_eq_loop E F n' (S k)
    end.
  Definition exts_eq (E F : exts_obj) : res bool :=
    if decide (rank E <> rank F) then Ok false else exts_eq_loop E F (rank E) 0.

  (** [a op b] evaluated in the promoted type *)
  Definition mulp (a b : Z) : res Z := arith P (a * b).
  Definition addp (a b : Z) : res Z := arith P (a + b).
  Definition subp (a b : Z) : res Z := arith P (a - b).

  (** mdspan:346-363 _Fwd_prod_of_extents (size_type is make_unsigned_t<index_type>); loop body at 357-359 *)
  Definition usz : ity := make_unsigned t.
  Fixpoint fwd_dyn (E : exts_obj) (n k : nat) (r : Z) : res Z :=
    match n with
    | 0%nat => Ok r
    | S n' => e <~ extent E k ;; r <~ arith (promote usz) (r * cast usz e) ;; fwd_dyn E n' (S k) (cast usz r)
    end.
  (** mdspan:372-379 _Make_prods: index_type * size_t is computed in size_t *)
  Fixpoint fwd_static (l : list (option Z)) (n k : nat) (r : Z) : res Z :=
    match n with
    | 0%nat => Ok r
    | S n' => match l !! k with
              | Some (Some e) => r <~ arith u64 (cast u64 r * e) ;; fwd_static l n' (S k) (cast t r)
              | _ => UB
              end
    end.
  Definition fwd_prod (E : exts_obj) (idx : nat) : res Z :=
    if decide (rank E = 0%nat) then Ok 1
    else if decide (rank_dynamic (st E) = 0%nat) then fwd_static (st E) idx 0 1
    else r <~ fwd_dyn E idx 0 1 ;; Ok (cast t r).
  (** mdspan:391-405 _Rev_prod_of_extents, loop 400-402 *)
  Fixpoint rev_dyn (E : exts_obj) (n k : nat) (r : Z) : res Z :=
    match n with
    | 0%nat => Ok r
    | S n' => e <~ extent E k ;; r <~ mulp r e ;; rev_dyn E n' (S k) (cast t r)
    end.
  (** mdspan:414-422 _Make_prods, filled from the back: the entry for position [k - n] after [n] steps *)
  Fixpoint rev_static (l : list (option Z)) (n k : nat) (r : Z) : res Z :=
    match n with
    | 0%nat => Ok r
    | S n' => match l !! (k - 1)%nat with
              | Some (Some e) => r <~ arith u64 (cast u64 r * e) ;; rev_static l n' (k - 1) (cast t r)
              | _ => UB
              end
    end.
  Definition rev_prod (E : exts_obj) (idx : nat) : res Z :=
    if decide (rank_dynamic (st E) = 0%nat) then rev_static (st E) (rank E - 1 - idx) (rank E) 1
    else rev_dyn E (rank E - 1 - idx) (S idx) 1.

  (** mdspan:566-568, 603-612 layout_left: required_span_size, stride *)
  Definition left_required_span_size (E : exts_obj) : res Z := fwd_prod E (rank E).
  Definition left_stride (E : exts_obj) (i : nat) : res Z := fwd_prod E i.
  (** mdspan:621-637 layout_left::mapping::_Index_impl *)
  Fixpoint left_index_loop (E : exts_obj) (k : nat) (idx : list Z) (stride result : Z) : res Z :=
    match idx with
    | [] => Ok result
    | i :: idx' =>
        m <~ mulp i stride ;; r <~ addp result m ;;
        e <~ extent E k ;; s <~ mulp stride e ;;
        left_index_loop E (S k) idx' (cast t s) (cast t r)
    end.
  Definition left_index (E : exts_obj) (idx : list Z) : res Z := left_index_loop E 0 idx 1 0.

  (** mdspan:722-724, 759-768 layout_right: required_span_size, stride *)
  Definition right_required_span_size (E : exts_obj) : res Z := fwd_prod E (rank E).
  Definition right_stride (E : exts_obj) (i : nat) : res Z := rev_prod E i.
  (** mdspan:777-792 layout_right::mapping::_Index_impl *)
  Fixpoint right_index_loop (E : exts_obj) (k : nat) (idx : list Z) (result : Z) : res Z :=
    match idx with
    | [] => Ok result
    | i :: idx' => e <~ extent E k ;; m <~ mulp e result ;; r <~ addp i m ;; right_index_loop E (S k) idx' (cast t r)
    end.
  Definition right_index (E : exts_obj) (idx : list Z) : res Z := right_index_loop E 0 idx 0.

  (** mdspan:957-973 layout_stride::mapping::required_span_size *)
  Fixpoint stride_rss_loop (E : exts_obj) (strides : list Z) (n k : nat) (r : Z) : res Z :=
    match n with
    | 0%nat => Ok r
    | S n' => e <~ extent E k ;;
              if decide (e = 0) then Ok 0
              else s <~ at_z strides k ;; d <~ subp e 1 ;; m <~ mulp d s ;; r <~ addp r m ;;
                   stride_rss_loop E strides n' (S k) (cast t r)
    end.
  Definition stride_required_span_size (E : exts_obj) (strides : list Z) : res Z :=
    if decide (rank E = 0%nat) then Ok 1 else stride_rss_loop E strides (rank E) 0 1.
  (** mdspan:1074-1085 layout_stride::mapping::_Index_impl: (i0 * s0) + ((i1 * s1) + (... + 0)) *)
  Fixpoint stride_fold (strides : list Z) (k : nat) (idx : list Z) : res Z :=
    match idx with
    | [] => Ok 0
    | i :: idx' => s <~ at_z strides k ;; m <~ mulp i s ;; r <~ stride_fold strides (S k) idx' ;; addp m r
    end.
  Definition stride_index (strides : list Z) (idx : list Z) : res Z := r <~ stride_fold strides 0 idx ;; Ok (cast t r).
  (** mdspan:915-942 converting constructor: the strides of another mapping *)
  Fixpoint stride_convert (other_stride : nat -> res Z) (n k : nat) : res (list Z) :=
    match n with
    | 0%nat => Ok []
    | S n' => s <~ other_stride k ;; r <~ stride_convert other_stride n' (S k) ;; Ok (cast t s :: r)
    end.

  (** mdspan:1087-1090 _Is_exhaustive_common_case *)
  Definition is_exhaustive_common (E : exts_obj) (strides : list Z) : res bool :=
    p <~ fwd_prod E (rank E) ;; r <~ stride_required_span_size E strides ;;
    Ok (bool_decide (p = r) || bool_decide (p = 0)).
  (** pair<index_type, index_type> operator< *)
  Definition pair_lt (a b : Z * Z) : bool :=
    (a.1 <? b.1) || ((a.1 =? b.1) && (a.2 <? b.2)).
  Fixpoint get_cells {A} (l : list (option A)) : res (list A) :=
    match l with
    | [] => Ok []
    | Some x :: l' => r <~ get_cells l' ;; Ok (x :: r)
    | None :: _ => UB
    end.
  (** mdspan:1114-1118: each stride equals the previous stride times the previous extent *)
  Fixpoint chain_check (prev : Z * Z) (l : list (Z * Z)) : res bool :=
    match l with
    | [] => Ok true
    | p :: l' => m <~ mulp prev.1 prev.2 ;; if decide (p.1 <> m) then Ok false else chain_check p l'
    end.
  (** mdspan:1094-1107 the pairs, or None when some extent is zero *)
  Fixpoint pairs_loop (E : exts_obj) (strides : list Z) (n k : nat) : res (option (list (Z * Z))) :=
    match n with
    | 0%nat => Ok (Some [])
    | S n' => e <~ extent E k ;;
              if decide (e = 0) then Ok None
              else s <~ at_z strides k ;; r <~ pairs_loop E strides n' (S k) ;;
                   Ok (match r with Some l => Some ((s, e) :: l) | None => None end)
    end.
  (** mdspan:1092-1121 _Is_exhaustive_special_case *)
  Definition is_exhaustive_special (E : exts_obj) (strides : list Z) : res bool :=
    pairs <~ pairs_loop E strides (rank E) 0 ;;
    match pairs with
    | None => Ok true
    | Some l =>
        a <~ sort pair_lt (full l) 0 (length l) ;;
        l <~ get_cells a ;;
        match l with
        | [] => UB
        | p :: l' => if decide (p.1 <> 1) then Ok false else chain_check p l'
        end
    end.
  (** mdspan:1000-1024 is_exhaustive *)
  Definition stride_is_exhaustive (E : exts_obj) (strides : list Z) : res bool :=
    if decide (rank E = 0%nat \/ Some 0 ∈ st E) then Ok true
    else if decide (rank E = 1%nat) then
      s0 <~ at_z strides 0 ;; e0 <~ extent E 0 ;; Ok (bool_decide (s0 = 1 \/ e0 = 0))
    else if decide (rank E = 2%nat) then
      s0 <~ at_z strides 0 ;; s1 <~ at_z strides 1 ;; e0 <~ extent E 0 ;; e1 <~ extent E 1 ;;
      Ok (bool_decide ((s0 = 1 /\ s1 = e0) \/ (s1 = 1 /\ s0 = e1) \/ e0 = 0 \/ e1 = 0))
    else if decide (Some 1 ∈ st E) then is_exhaustive_special E strides
    else if decide (rank_dynamic (st E) = 0%nat) then is_exhaustive_common E strides
    else if decide (1 ∈ dyn E) then is_exhaustive_special E strides
    else is_exhaustive_common E strides.

  (** mdspan:1512-1528 _Access_impl / default_accessor::access: element [mapping(idx)] of the underlying buffer *)
  Definition md_read {A} (index : list Z -> res Z) (buf : list A) (idx : list Z) : res A :=
    o <~ index idx ;; if decide (0 <= o) then match buf !! Z.to_nat o with Some v => Ok v | None => UB end else UB.
  Definition md_write {A} (index : list Z -> res Z) (buf : list A) (idx : list Z) (v : A) : res (list A) :=
    o <~ index idx ;;
    if decide (0 <= o < Z.of_nat (length buf)) then Ok (<[Z.to_nat o := v]> buf) else UB.
End mdspan.
