(** Model of _Rng_from_urng_v2 (algorithm), uniform_int_distribution (random), shuffle and sample (algorithm).
    The generator is a tape: the list of the values its next calls return. A program consumes a prefix of the tape and leaves the rest;
    [Fuel] means that it asks for more values than the tape has. *)
From stdpp Require Import base list numbers.
From Coq Require Import ZArith.
From Verif Require Import Base.Res Base.Int.
Local Open Scope Z_scope.

Definition rnd (A : Type) : Type := list Z -> res (A * list Z).
Definition rret {A : Type} (a : A) : rnd A := fun t => Ok (a, t).
Definition rbnd {A B : Type} (F : rnd A) (G : A -> rnd B) : rnd B := fun t => '(a, t) <~ F t ;; G a t.
Definition rlift {A : Type} (m : res A) : rnd A := fun t => a <~ m ;; Ok (a, t).

(** set bits of a value of an unsigned type (_Popcount) *)
Definition popcount (t : ity) (x : Z) : Z := Z.of_nat (length (List.filter (Z.testbit x) (Z.of_nat <$> seq 0 (Z.to_nat (wd t))))).

Section rng.
  (** [d] is _Diff, [u] is _Ty1, [mn] and [mx] are the generator's min() and max() *)
  Context (d u : ity) (mn mx : Z).
  (** _Udiff (algorithm:6162): the generator's type unless make_unsigned_t<_Diff> is wider *)
  Definition Udiff : ity := if wd u <? wd d then make_unsigned d else u.
  Notation ud := Udiff.
  Definition Udiff_bits : Z := wd ud.
  (** _Calc_bits (algorithm:6246-6254) *)
  Fixpoint calc_bits (fuel : nat) (bits bmask : Z) : res Z :=
    match fuel with
    | O => Fuel
    | S fuel => if cast ud (mx - mn) <? bmask then calc_bits fuel (bits - 1) (bmask / 2) else Ok bits
    end.
  Definition Bits : Z := match calc_bits 65 Udiff_bits (cast ud (-1)) with Ok b => b | _ => 0 end.
  (** _Bmask (algorithm:6275) *)
  Definition Bmask : Z := cast ud (-1) / 2 ^ (Udiff_bits - Bits).
  (** _Get_bits (algorithm:6235-6244) *)
  Fixpoint Get_bits (t : list Z) : res (Z * list Z) :=
    match t with
    | [] => Fuel
    | v :: t => let val := cast ud (v - mn) in if val <=? Bmask then Ok (val, t) else Get_bits t
    end.
  (** _Ret <<= _Bits; _Ret |= _Get_bits() *)
  Definition more_bits (r : Z) : rnd Z :=
    rbnd (rlift (shl ud r Bits)) (fun r => rbnd Get_bits (fun v => rret (Z.lor (cast ud r) v))).
  (** while (--_Niter > 0) ... *)
  Fixpoint niter_loop (n : nat) (r : Z) : rnd Z :=
    match n with O => rret r | S n => rbnd (more_bits r) (niter_loop n) end.
  (** _Get_random_product (algorithm:6256-6272): the product of two values of _Udiff is exact in _Uprod, which has twice as many bits
      (for 64 bits: the pair returned by _UMul128) *)
  Definition Get_random_product (index : Z) (niter : nat) : rnd Z :=
    rbnd Get_bits (fun r =>
    rbnd (if Bits <? Udiff_bits then niter_loop (niter - 1) r else rret r) (fun r =>
    rret (r * cast ud index))).
  (** while (_Mask < static_cast<_Udiff>(_Index - 1)) ... (algorithm:6186-6190) *)
  Fixpoint mask_loop (fuel : nat) (index mask : Z) (niter : nat) : res (Z * nat) :=
    match fuel with
    | O => Fuel
    | S fuel =>
      i1 <~ arith (promote d) (index - 1) ;;
      if mask <? cast ud i1 then
        m <~ shl ud mask Bits ;;
        mask_loop fuel index (Z.lor (cast ud m) Bmask) (S niter)
      else Ok (mask, niter)
    end.
  (** while (_Rem < _Threshold) ... (algorithm:6202-6205); every round consumes at least one value *)
  Fixpoint reject_loop (fuel : nat) (index mask threshold : Z) (niter : nat) (product rem : Z) : rnd Z :=
    fun t =>
    match fuel with
    | O => Fuel
    | S fuel =>
      if rem <? threshold then
        '(product, t) <~ Get_random_product index niter t ;;
        reject_loop fuel index mask threshold niter product (Z.land (cast ud product) mask) t
      else Ok (product, t)
    end.
  (** operator() (algorithm:6168-6218) *)
  Definition Rng (index : Z) : rnd Z := fun t =>
    '(mask, niter) <~ (if Bits <? Udiff_bits then mask_loop 65 index Bmask 1 else Ok (Bmask, 1%nat)) ;;
    '(product, t) <~ Get_random_product index niter t ;;
    let rem := Z.land (cast ud product) mask in
    '(product, t) <~ (if rem <? cast ud index then
                        let ct := usual_arith ud d in
                        m1 <~ arith ct (cast ct mask - cast ct index) ;;
                        m2 <~ arith ct (m1 + 1) ;;
                        let threshold := m2 mod cast ct index in
                        reject_loop (S (length t)) index mask threshold niter product rem t
                      else Ok (product, t)) ;;
    let gen_bits := if Bits <? Udiff_bits then popcount ud mask else Udiff_bits in
    Ok (cast d (product / 2 ^ gen_bits), t).
  (** _Get_all_bits (algorithm:6220-6231) *)
  Fixpoint all_bits_loop (fuel : nat) (num : Z) (r : Z) : rnd Z :=
    match fuel with
    | O => fun _ => Fuel
    | S fuel => if num <? Udiff_bits then rbnd (more_bits r) (all_bits_loop fuel (num + Bits)) else rret r
    end.
  Definition Get_all_bits : rnd Z :=
    rbnd Get_bits (fun r => if Bits <? Udiff_bits then all_bits_loop 65 Bits r else rret r).
End rng.

(** uniform_int_distribution<ty>::_Adjust (random:1547-1554) *)
Definition Adjust (ty : ity) (v : Z) : Z :=
  let uty := make_unsigned ty in
  if sg ty then cast uty (Z.lxor v (cast uty (-1) / 2 + 1)) else v.
(** uniform_int_distribution<ty>::_Eval (random:1528-1545) *)
Definition Eval (ty u : ity) (mn mx : Z) (lo hi : Z) : rnd Z := fun t =>
  let uty := make_unsigned ty in
  let umin := Adjust ty (cast uty lo) in
  let umax := Adjust ty (cast uty hi) in
  df <~ arith (promote uty) (umax - umin) ;;
  '(uret, t) <~ (if df =? cast uty (-1)
                 then '(r, t) <~ Get_all_bits uty u mn mx t ;; Ok (cast uty r, t)
                 else i <~ arith (promote uty) (df + 1) ;;
                      '(r, t) <~ Rng uty u mn mx (cast uty i) t ;; Ok (cast uty r, t)) ;;
  s <~ arith (promote uty) (uret + umin) ;;
  Ok (cast ty (Adjust ty (cast uty s)), t).

(** swap( *_UTarget, *(_UFirst + _Off)) *)
Definition swap_at {A : Type} (l : list A) (i j : nat) : res (list A) :=
  match l !! i, l !! j with Some x, Some y => Ok (<[j := x]> (<[i := y]> l)) | _, _ => UB end.
(** _Random_shuffle1 (algorithm:6459-6484), and ranges::_Shuffle_fn::_Shuffle_unchecked (6528-6552): the loop from _Target_index = i on,
    [cnt] elements to go. The difference type is ptrdiff_t. *)
Fixpoint shuffle_loop {A : Type} (u : ity) (mn mx : Z) (cnt : nat) (i : nat) (l : list A) : rnd (list A) :=
  match cnt with
  | O => rret l
  | S cnt =>
    rbnd (Rng s64 u mn mx (Z.of_nat i + 1)) (fun off =>
    if (0 <=? off) && (off <=? Z.of_nat i) then
      rbnd (rlift (if off =? Z.of_nat i then Ok l else swap_at l i (Z.to_nat off))) (shuffle_loop u mn mx cnt (S i))
    else fun _ => UB)
  end.
Definition shuffle {A : Type} (u : ity) (mn mx : Z) (l : list A) : rnd (list A) :=
  match l with [] => rret [] | _ => shuffle_loop u mn mx (length l - 1) 1 l end.

(** _Sample_selection_unchecked (algorithm:6307-6321): the elements copied to the output, in order *)
Fixpoint selection {A : Type} (u : ity) (mn mx : Z) (l : list A) (count : Z) : rnd (list A) :=
  match l with
  | [] => rret []
  | x :: l' =>
    rbnd (Rng s64 u mn mx (Z.of_nat (length l))) (fun r =>
    if r <? count then rbnd (selection u mn mx l' (count - 1)) (fun out => rret (x :: out)) else selection u mn mx l' count)
  end.
(** sample on forward iterators (algorithm:6323-6355), _Diff = ptrdiff_t *)
Definition sample {A : Type} (u : ity) (mn mx : Z) (l : list A) (count : Z) : rnd (list A) :=
  if 0 <? count then selection u mn mx l (if Z.of_nat (length l) <? count then Z.of_nat (length l) else count) else rret [].
(** ranges::_Sample_fn::_Selection_sample (algorithm:6397-6423): stops as soon as the sample is complete *)
Fixpoint rselection {A : Type} (u : ity) (mn mx : Z) (l : list A) (count : Z) : rnd (list A) :=
  match l with
  | [] => rret []
  | x :: l' =>
    rbnd (Rng s64 u mn mx (Z.of_nat (length l))) (fun r =>
    if r <? count then
      if count - 1 =? 0 then rret [x] else rbnd (rselection u mn mx l' (count - 1)) (fun out => rret (x :: out))
    else rselection u mn mx l' count)
  end.
Definition rsample {A : Type} (u : ity) (mn mx : Z) (l : list A) (count : Z) : rnd (list A) :=
  if count <=? 0 then rret [] else rselection u mn mx l (if Z.of_nat (length l) <? count then Z.of_nat (length l) else count).
