(** What [rand.eng.sub], [rand.eng.mers] and [rand.adapt.disc] promise. *)
From stdpp Require Import base list numbers.
From Coq Require Import ZArith.
From Verif Require Import Base.Res Base.Int Rand.LcgSpec.
Local Open Scope Z_scope.

(** the results of [k] consecutive generator calls, and the state after them, for a transition [step] *)
Fixpoint outputs {S R : Type} (step : S -> S * R) (k : nat) (s : S) : list R * S :=
  match k with O => ([], s) | Datatypes.S k => let '(s, v) := step s in let '(l, s) := outputs step k s in (v :: l, s) end.
Definition el (h : list Z) (i : nat) : Z := default 0 (h !! i).

(** subtract_with_carry_engine<_, w, s, r>: the state is X_{i-r}, ..., X_{i-1} and the carry. A call lets
    Y = X_{i-s} - X_{i-r} - c, sets X_i = Y mod 2^w and c = (Y < 0), and returns X_i. *)
Definition swc_step (w : Z) (s r : nat) (st : list Z * Z) : (list Z * Z) * Z :=
  let '(h, c) := st in
  let y := el h (r - s) - el h 0 - c in
  ((tail h ++ [y mod 2 ^ w], if y <? 0 then 1 else 0), y mod 2 ^ w).
(** ceil(w / 32) *)
Definition words_of (w : Z) : nat := Z.to_nat ((w + 31) / 32).
(** the number z_0 + z_1 2^32 + ... *)
Fixpoint big (ws : list Z) : Z := match ws with [] => 0 | z :: ws => z + 2 ^ 32 * big ws end.
(** X_{-r}, ..., X_{-1}: consecutive groups of k words, each reduced modulo 2^w *)
Fixpoint groups (w : Z) (k cnt : nat) (ws : list Z) : list Z :=
  match cnt with O => [] | S cnt => big (take k ws) mod 2 ^ w :: groups w k cnt (drop k ws) end.
Definition swc_init (w : Z) (r : nat) (ws : list Z) : list Z * Z :=
  let h := groups w (words_of w) r ws in (h, if el h (r - 1) =? 0 then 1 else 0).
(** the words: the outputs of linear_congruential_engine<uint_least32_t, 40014, 0, 2147483563> e(value == 0 ? 19780503 : value) *)
Definition lc_step (x : Z) : Z * Z := let x := (40014 * x) mod 2147483563 in (x, x).
Definition lc_seeded (value : Z) : Z :=
  let s := (if value =? 0 then 19780503 else value) mod 2147483563 in if s =? 0 then 1 else s.
Definition swc_seeded (w : Z) (r : nat) (value : Z) : list Z * Z :=
  swc_init w r (outputs lc_step (words_of w * r) (lc_seeded value)).1.
Definition swc_seeded_seq (w : Z) (r : nat) (gen : nat -> list Z) : list Z * Z := swc_init w r (gen (words_of w * r)%nat).

(** template arguments subtract_with_carry_engine accepts *)
Record swc_params (t : ity) (w : Z) (s r : nat) : Prop := {
  sp_type : t = u16 \/ t = u32 \/ t = u64;
  sp_w : 0 < w <= wd t;
  sp_lags : (0 < s < r)%nat
}.

(** mersenne_twister_engine: the state is X_{i-n}, ..., X_{i-1}, subscripts taken modulo n. A call concatenates the upper w - r
    bits of X_{i-n} with the lower r bits of X_{i+1-n} to get Y, and sets X_i = X_{i+m-n} xor (Y >> 1) xor (a if Y is odd). *)
Section mt.
  Context (w : Z) (n m : nat) (r a u d s b tt c l f : Z).
  Definition mt_twist (h : list Z) : Z :=
    let x := el h 0 in
    let x1 := el h (Nat.modulo 1 n) in
    let y := x / 2 ^ r * 2 ^ r + x1 mod 2 ^ r in
    Z.lxor (Z.lxor (el h (Nat.modulo m n)) (y / 2)) (if Z.odd y then a else 0).
  Definition lshift_w (z k : Z) : Z := (z * 2 ^ k) mod 2 ^ w.
  Definition mt_temper (x : Z) : Z :=
    let z1 := Z.lxor x (Z.land (x / 2 ^ u) d) in
    let z2 := Z.lxor z1 (Z.land (lshift_w z1 s) b) in
    let z3 := Z.lxor z2 (Z.land (lshift_w z2 tt) c) in
    Z.lxor z3 (z3 / 2 ^ l).
  Definition mt_step (h : list Z) : list Z * Z := let x := mt_twist h in (tail h ++ [x], mt_temper x).
  (** X_{-n} = value mod 2^w, X_{i-n} = (f (X_{i-1-n} xor (X_{i-1-n} >> (w - 2))) + i mod n) mod 2^w *)
  Fixpoint mt_fill (cnt : nat) (i prev : Z) : list Z :=
    match cnt with
    | O => []
    | S cnt => let x := (f * Z.lxor prev (prev / 2 ^ (w - 2)) + i) mod 2 ^ w in x :: mt_fill cnt (i + 1) x
    end.
  Definition mt_seeded (value : Z) : list Z := value mod 2 ^ w :: mt_fill (n - 1) 1 (value mod 2 ^ w).
  (** from a sequence: as above, then 2^(w-1) replaces X_{-n} if its upper w - r bits and all the others are 0 *)
  Definition mt_seeded_seq (gen : nat -> list Z) : list Z :=
    let h := groups w (words_of w) n (gen (words_of w * n)%nat) in
    if bool_decide (el h 0 / 2 ^ r = 0 /\ Forall (fun x => x = 0) (tail h)) then 2 ^ (w - 1) :: tail h else h.
End mt.

(** discard_block_engine<e, p, r>: of every p results of e, the first r *)
Definition block_index (p r i : nat) : nat := (i / r * p + i mod r)%nat.
