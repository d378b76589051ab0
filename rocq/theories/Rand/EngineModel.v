(** Model of _Circ_buf, subtract_with_carry_engine, mersenne_twister_engine and discard_block_engine (stl/inc/random).
    A history array is a list of 2n cells, [None] = never initialised; reading such a cell, or one outside the array, is [UB]. *)
From stdpp Require Import base list numbers.
From Coq Require Import ZArith.
From Verif Require Import Base.Res Base.Int Rand.LcgModel.
Local Open Scope Z_scope.

(** _Circ_buf::_Idx, _Ax (random:610-611) *)
Record cbuf := CBuf { idx : nat; ax : list (option Z) }.
Definition rdc (a : list (option Z)) (i : nat) : res Z := match a !! i with Some (Some v) => Ok v | _ => UB end.
Definition wrc (a : list (option Z)) (i : nat) (v : Z) : res (list (option Z)) :=
  if (i <? length a)%nat then Ok (<[i := Some v]> a) else UB.
(** for (i = from; i < from + cnt; ++i) a = body(a, i) *)
Fixpoint fori {S : Type} (cnt : nat) (i : nat) (body : S -> nat -> res S) (a : S) : res S :=
  match cnt with O => Ok a | Datatypes.S cnt => a <~ body a i ;; fori cnt (Datatypes.S i) body a end.

(** _Circ_buf::_Base (random:600-608) *)
Definition Base (n : nat) (b : cbuf) (ix : nat) : nat :=
  let ix := (ix + idx b)%nat in if (ix <? n)%nat then (ix + n)%nat else (ix - n)%nat.
(** _Circ_buf::_At (random:554-556) *)
Definition At (n : nat) (b : cbuf) (ix : nat) : res Z := rdc (ax b) (Base n b ix).

(** _Circ_buf::_Equals (random:558-598). A pointer is a flag saying which array it points into (true = _Right) and an offset.
    The inner loop compares [k] cells. *)
Fixpoint eq_run (k : nat) (a : list (option Z)) (i : nat) (b : list (option Z)) (j : nat) : res bool :=
  match k with
  | O => Ok true
  | S k => x <~ rdc a i ;; y <~ rdc b j ;; if x =? y then eq_run k a (S i) b (S j) else Ok false
  end.
Fixpoint Equals_loop (fuel : nat) (n : nat) (l r : cbuf) (nx0 : Z) (use2 : bool) (first last other : nat) : res bool :=
  if 0 <? nx0 then
    match fuel with
    | O => Fuel
    | S fuel =>
      let A := if use2 then r else l in            (* the array _First, _Last and _Limit point into *)
      let B := if use2 then l else r in            (* the array _Other points into *)
      let limit := if (first <? last)%nat then last else (2 * n)%nat in
      same <~ eq_run (limit - first) (ax A) first (ax B) other ;;
      if same : bool then
        Equals_loop fuel n l r (nx0 - Z.of_nat (limit - first)) (negb use2)
          (other + (limit - first)) (idx B) 0
      else Ok false
    end
  else Ok true.
Definition Equals (n : nat) (l r : cbuf) : res bool :=
  let use2 := (Base n l 0 <? Base n r 0)%nat in
  if use2 then Equals_loop 4 n l r (Z.of_nat n) true (Base n r 0) (idx r) (Base n l 0)
  else Equals_loop 4 n l r (Z.of_nat n) false (Base n l 0) (idx l) (Base n r 0).

Fixpoint mapr {X Y : Type} (f : X -> res Y) (l : list X) : res (list Y) :=
  match l with [] => Ok [] | x :: l => y <~ f x ;; ys <~ mapr f l ;; Ok (y :: ys) end.
(** what operator<< prints: _At(0) .. _At(n - 1) (random:729-744, 945-955); operator>> stores such values in the lower half
    and sets _Idx = n (746-772, 930-943). Formatting and parsing of the numbers is not modelled. *)
Definition save (n : nat) (b : cbuf) : res (list Z) := mapr (At n b) (seq 0 n).
Definition restore (n : nat) (vs : list Z) (b : cbuf) : cbuf := CBuf n ((Some <$> vs) ++ drop n (ax b)).

(** a freshly constructed engine: no cell of the array is initialised *)
Definition fresh (n : nat) : cbuf := CBuf 0 (replicate (2 * n) None).

(** subtract_with_carry_engine<t, w, s, r> *)
Section swc.
  Context (t : ity) (w : Z) (s r : nat).
  (** _Mx (random:617) *)
  Definition swc_Mx : Z := cast t (cast t (2 ^ (w - 1)) * 2).
  Record swc := Swc { sbuf : cbuf; carry : Z }.
  (** _Setx (random:775-796): the new value and carry *)
  Definition Setx (xis xir c : Z) : Z * Z :=
    let underflowed := xis <? xir in
    let newx := cast t (xis - xir) in
    let underflowed := if newx <? cast u32 c then true else underflowed in
    let newx := cast t (newx - c) in
    if underflowed then (cast t (newx + swc_Mx), 1) else (newx, 0).
  (** operator() (random:703-715) *)
  Definition swc_next (e : swc) : res (swc * Z) :=
    let a := ax (sbuf e) in
    let ix := if (2 * r <=? idx (sbuf e))%nat then 0%nat else idx (sbuf e) in
    '(xis, xir) <~ (if (ix <? s)%nat then x <~ rdc a (ix + 2 * r - s) ;; y <~ rdc a (ix + r) ;; Ok (x, y)
                    else if (ix <? r)%nat then x <~ rdc a (ix - s) ;; y <~ rdc a (ix + r) ;; Ok (x, y)
                    else x <~ rdc a (ix - s) ;; y <~ rdc a (ix - r) ;; Ok (x, y)) ;;
    let '(newx, c) := Setx xis xir (carry e) in
    a <~ wrc a ix newx ;;
    Ok (Swc (CBuf (ix + 1) a) c, newx).
  (** _Get_wc (random:798-806) *)
  Definition Get_wc : nat :=
    if swc_Mx =? 0 then Z.to_nat ((8 * (wd t / 8) + 31) / 32) else if 2 ^ 32 <? swc_Mx then 2%nat else 1%nat.
  (** _Reduce (random:810-819) *)
  Definition Reduce (a : list (option Z)) : res (list (option Z) * Z) :=
    a <~ (if swc_Mx =? 0 then Ok a
          else fori r 0 (fun a i => v <~ rdc a i ;; wrc a i (v mod swc_Mx)) a) ;;
    v <~ rdc a (r - 1) ;; Ok (a, if v =? 0 then 1 else 0).
  (** the loops "for (_Jx = 1; _Jx < _Kx; ++_Jx) _Ax[_Ix] |= word << (32 * _Jx)"; [word j] supplies the j-th word *)
  Definition pack (kx : nat) (word : nat -> Z) : res Z :=
    fori (kx - 1) 1 (fun v j => h <~ shl t (cast t (word j)) (32 * Z.of_nat j) ;; Ok (cast t (Z.lor v h))) (cast t (word 0%nat)).
  (** seed(_Value) (random:650-666). [_Lc()] is the linear congruential engine <u32, 40014, 0, 2147483563>. *)
  Definition lc_next : Z -> res Z := next u32 40014 0 2147483563.
  Fixpoint lc_words (k : nat) (x : Z) : res (list Z * Z) :=
    match k with O => Ok ([], x) | S k => x <~ lc_next x ;; '(l, x') <~ lc_words k x ;; Ok (x :: l, x') end.
  Definition swc_seed (value : Z) (e : swc) : res swc :=
    let lc := get_seed 0 2147483563 (if value =? 0 then 19780503 else cast u32 (value mod 2147483563)) in
    '(a, _) <~ fori r 0 (fun '(a, lc) i =>
                 '(ws, lc) <~ lc_words Get_wc lc ;;
                 v <~ pack Get_wc (fun j => default 0 (ws !! j)) ;;
                 a <~ wrc a i v ;; Ok (a, lc)) (ax (sbuf e), lc) ;;
    '(a, c) <~ Reduce a ;;
    Ok (Swc (CBuf r a) c).
  (** seed(_Seq) (random:668-689); [gen n] is what _Seq.generate writes to an array of n words *)
  Definition swc_seed_seq (gen : nat -> list Z) (e : swc) : res swc :=
    let kx := Z.to_nat ((8 * (wd t / 8) + 31) / 32) in
    let arr := gen (kx * r)%nat in
    a <~ fori r 0 (fun a i =>
           v <~ pack kx (fun j => default 0 (arr !! (i * kx + j)%nat)) ;;
           wrc a i (if swc_Mx =? 0 then v else v mod swc_Mx)) (ax (sbuf e)) ;;
    '(a, c) <~ Reduce a ;;
    Ok (Swc (CBuf r a) c).
  (** operator== (random:700-703) *)
  Definition swc_eq (x y : swc) : res bool :=
    q <~ Equals r (sbuf x) (sbuf y) ;; Ok (q && (carry x =? carry y)).
  (** operator<< / operator>> *)
  Definition swc_save (e : swc) : res (list Z * Z) := l <~ save r (sbuf e) ;; Ok (l, carry e).
  Definition swc_restore (st : list Z * Z) (e : swc) : swc := Swc (restore r st.1 (sbuf e)) st.2.
End swc.

(** mersenne_twister_engine<t, w, n, m, r, px, u, d, s, b, tt, c, l, f> *)
Record mt_params := MT { mt_t : ity; mt_w : Z; mt_n : nat; mt_m : nat; mt_r : Z; mt_a : Z; mt_u : Z; mt_d : Z;
  mt_s : Z; mt_b : Z; mt_tt : Z; mt_c : Z; mt_l : Z; mt_f : Z }.
Section mt.
  Context (P : mt_params).
  Notation t := (mt_t P). Notation n := (mt_n P).
  (** _WMSK, _HMSK, _LMSK (random:1041-1043): the shifts of ~_Ty{0} and their complements, as values of _Ty *)
  Definition WMSK : Z := cast t (Z.lnot (cast t (cast t (cast t (Z.lnot 0) * 2 ^ (mt_w P - 1)) * 2))).
  Definition HMSK : Z := Z.land (cast t (WMSK * 2 ^ mt_r P)) WMSK.
  Definition LMSK : Z := Z.land (cast t (Z.lnot HMSK)) WMSK.
  Definition One_mod_n : nat := Nat.modulo 1 n.
  Definition M_mod_n : nat := Nat.modulo (mt_m P) n.
  (** the body shared by all refill loops: _Tmp from the cells at [i] and [i1], combined with the cell at [im], into [o] *)
  Definition refill1 (a : list (option Z)) (o i i1 im : nat) : res (list (option Z)) :=
    x <~ rdc a i ;; y <~ rdc a i1 ;; z <~ rdc a im ;;
    let tmp := Z.lor (Z.land x HMSK) (Z.land y LMSK) in
    wrc a o (Z.lxor (Z.lxor (tmp / 2) (if Z.odd tmp then mt_a P else 0)) z).
  (** _Refill_lower (random:988-1029) *)
  Definition Refill_lower (b : cbuf) : res cbuf :=
    let wrap_one := (n - One_mod_n)%nat in
    let wrap_m := (n - M_mod_n)%nat in
    let last im a := if (One_mod_n =? 1)%nat
                     then refill1 a wrap_one (wrap_one + n) (wrap_one + One_mod_n - n) (im wrap_one) else Ok a in
    a <~ (if (M_mod_n =? 0)%nat then
            a <~ fori wrap_one 0 (fun a i => refill1 a i (i + n) (i + n + One_mod_n) (i + n + M_mod_n)) (ax b) ;;
            last (fun i => i + n + M_mod_n)%nat a
          else
            a <~ fori wrap_m 0 (fun a i => refill1 a i (i + n) (i + n + One_mod_n) (i + n + M_mod_n)) (ax b) ;;
            a <~ fori (wrap_one - wrap_m) wrap_m (fun a i => refill1 a i (i + n) (i + n + One_mod_n) (i + M_mod_n - n)) a ;;
            last (fun i => i + M_mod_n - n)%nat a) ;;
    Ok (CBuf 0 a).
  (** _Refill_upper (random:1031-1036) *)
  Definition Refill_upper (b : cbuf) : res cbuf :=
    a <~ fori n n (fun a i => refill1 a i (i - n) (i - n + One_mod_n) (i - n + M_mod_n)) (ax b) ;;
    Ok (CBuf (idx b) a).
  (** operator() (random:957-971) *)
  Definition mt_next (b : cbuf) : res (cbuf * Z) :=
    b <~ (if (idx b =? n)%nat then Refill_upper b else if (2 * n <=? idx b)%nat then Refill_lower b else Ok b) ;;
    x <~ rdc (ax b) (idx b) ;;
    let res := Z.land x WMSK in
    h <~ shr t res (mt_u P) ;; let res := cast t (Z.lxor res (Z.land h (mt_d P))) in
    h <~ shl t res (mt_s P) ;; let res := cast t (Z.lxor res (Z.land h (mt_b P))) in
    h <~ shl t res (mt_tt P) ;; let res := cast t (Z.lxor res (Z.land h (mt_c P))) in
    h <~ shr t (Z.land res WMSK) (mt_l P) ;; let res := cast t (Z.lxor res h) in
    Ok (CBuf (S (idx b)) (ax b), res).
  (** seed(_Xx0) (random:873-882): the product is computed in the promoted type, the sum in size_t *)
  Definition mt_seed (x0 : Z) (b : cbuf) : res cbuf :=
    let prev := Z.land x0 WMSK in
    a <~ wrc (ax b) 0 prev ;;
    '(a, _) <~ fori (n - 1) 1 (fun '(a, prev) i =>
                 h <~ shr t prev (mt_w P - 2) ;;
                 p <~ arith (promote t) (mt_f P * Z.lxor prev h) ;;
                 let prev := cast t (Z.land (cast u64 (Z.of_nat i + cast u64 p)) WMSK) in
                 a <~ wrc a i prev ;; Ok (a, prev)) (a, prev) ;;
    Ok (CBuf n a).
  (** seed(_Seq) (random:884-914) *)
  Definition mt_seed_seq (gen : nat -> list Z) (b : cbuf) : res cbuf :=
    let kx := Z.to_nat ((mt_w P + 31) / 32) in
    let arr := gen (kx * n)%nat in
    '(a, sum) <~ fori n 0 (fun '(a, sum) i =>
                   v <~ pack t kx (fun j => default 0 (arr !! (i * kx + j)%nat)) ;;
                   let v := Z.land v WMSK in
                   a <~ wrc a i v ;;
                   sum <~ (if (i =? 0)%nat then shr t v (mt_r P) else Ok (Z.lor sum v)) ;;
                   Ok (a, sum)) (ax b, 0) ;;
    a <~ (if sum =? 0 then wrc a 0 (cast t (2 ^ (mt_w P - 1))) else Ok a) ;;
    Ok (CBuf n a).
  (** operator== (random:920-923) *)
  Definition mt_eq (x y : cbuf) : res bool := Equals n x y.
  (** operator<< / operator>>: the values read are masked with _WMSK *)
  Definition mt_restore (vs : list Z) (b : cbuf) : cbuf := restore n ((fun v => Z.land v WMSK) <$> vs) b.
End mt.

(** discard_block_engine<_Engine, p, r> over any engine with state [E] and operator() [gen] *)
Section discard_block.
  Context {E R : Type} (gen : E -> E * R) (p r : Z).
  (** _Block_type (random:1052) *)
  Definition Block_type : ity := if p <=? 2 ^ 31 - 1 then s32 else u64.
  Record dblk := DBlk { deng : E; dn : Z }.
  (** while (_Nx++ < _Px) (void) _Eng(); *)
  Fixpoint skip_loop (fuel : nat) (e : E) (nx : Z) : res E :=
    match fuel with
    | O => Fuel
    | S fuel =>
      nx' <~ arith Block_type (nx + 1) ;;
      if nx <? cast Block_type p then skip_loop fuel (gen e).1 nx' else Ok e
    end.
  (** operator() (random:1096-1106) *)
  Definition db_next (d : dblk) : res (dblk * R) :=
    '(e, nx) <~ (if cast Block_type r <=? dn d
                 then e <~ skip_loop (S (Z.to_nat (p - dn d))) (deng d) (dn d) ;; Ok (e, 0)
                 else Ok (deng d, dn d)) ;;
    nx <~ arith Block_type (nx + 1) ;;
    let '(e, v) := gen e in
    Ok (DBlk e nx, v).
  (** constructors and seed leave _Nx = 0 (random:1064-1090) *)
  Definition db_init (e : E) : dblk := DBlk e 0.
End discard_block.

(** [k] calls of operator(), and discard(k) (random:717-721, 973-977, 1108-1112): the results and the state after them *)
Fixpoint calls {S R : Type} (next : S -> res (S * R)) (k : nat) (s : S) : res (list R * S) :=
  match k with O => Ok ([], s) | Datatypes.S k => '(s, v) <~ next s ;; '(l, s) <~ calls next k s ;; Ok (v :: l, s) end.
Fixpoint discard_calls {S R : Type} (next : S -> res (S * R)) (k : nat) (s : S) : res S :=
  match k with O => Ok s | Datatypes.S k => '(s, _) <~ next s ;; discard_calls next k s end.
