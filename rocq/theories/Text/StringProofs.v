(** Symbolic execution of the string operations. *)
From stdpp Require Import base list numbers gmap.
From Coq Require Import Lia.
From Verif Require Import Text.StringModel Text.StringSpec.
Local Open Scope nat_scope.

(** *** cells *)
Section cells.
  Context {E : Type}.
  Implicit Types d l : list (option E).
  Lemma lookup_cells d o n i : cells d o n !! i = if decide (i < n) then d !! (o + i) else None.
  Proof. unfold cells. destruct (decide (i < n)); [rewrite lookup_take, lookup_drop by done; done|]. apply lookup_ge_None. rewrite take_length. lia. Qed.
  Lemma cells_length d o n : o + n <= length d -> length (cells d o n) = n.
  Proof. intros H. unfold cells. rewrite take_length, drop_length. lia. Qed.
  Lemma splice_length d o l : o + length l <= length d -> length (splice d o l) = length d.
  Proof. intros H. unfold splice. rewrite !app_length, take_length, drop_length. lia. Qed.
  Lemma lookup_splice d o l i : o + length l <= length d -> splice d o l !! i = if decide (o <= i < o + length l) then l !! (i - o) else d !! i.
  Proof.
    intros H. unfold splice. destruct (decide (i < o)).
    - rewrite lookup_app_l by (rewrite take_length; lia). rewrite lookup_take by lia. rewrite decide_False by lia. done.
    - rewrite lookup_app_r by (rewrite take_length; lia). rewrite take_length. replace (o `min` length d) with o by lia. destruct (decide (i < o + length l)).
      + rewrite lookup_app_l by lia. rewrite decide_True by lia. done.
      + rewrite lookup_app_r by lia. rewrite decide_False by lia. rewrite lookup_drop. f_equal. lia.
  Qed.
  Lemma splice_nil d o : splice d o [] = d.
  Proof. unfold splice. cbn. rewrite Nat.add_0_r. apply take_drop. Qed.
  Lemma lookup_app' {X} (a b : list X) i : (a ++ b) !! i = if decide (i < length a) then a !! i else b !! (i - length a).
  Proof. destruct (decide (i < length a)); [by apply lookup_app_l|apply lookup_app_r; lia]. Qed.
  Lemma lookup_take' {X} (a : list X) n i : take n a !! i = if decide (i < n) then a !! i else None.
  Proof. destruct (decide (i < n)); [by apply lookup_take|apply lookup_take_ge; lia]. Qed.
  Lemma lookup_replicate' {X} (x : X) n i : replicate n x !! i = if decide (i < n) then Some x else None.
  Proof. destruct (decide (i < n)); [by apply lookup_replicate_2|apply lookup_ge_None; rewrite replicate_length; lia]. Qed.
  Lemma lookup_singleton {X} (x : X) i : [x] !! i = if decide (i < 1) then Some x else None.
  Proof. by destruct i. Qed.
  Lemma replace_lookup {X} (d : list X) i j v : i = j -> d !! j = v -> d !! i = v.
  Proof. by intros ->. Qed.
End cells.

Lemma le_lor a b : a <= Nat.lor a b.
Proof.
  assert (H : Nat.lor a b = a + Nat.ldiff b a).
  { rewrite Nat.add_nocarry_lxor.
    - apply Nat.bits_inj. intros i. rewrite Nat.lor_spec, Nat.lxor_spec, Nat.ldiff_spec. by destruct (Nat.testbit a i), (Nat.testbit b i).
    - apply Nat.bits_inj. intros i. rewrite Nat.land_spec, Nat.ldiff_spec, Nat.bits_0. by destruct (Nat.testbit a i), (Nat.testbit b i). }
  lia.
Qed.
Lemma div2_le n : Nat.div2 n <= n. Proof. pose proof (Nat.div2_div n). rewrite H. pose proof (Nat.div_mod n 2). lia. Qed.

(** *** weakest preconditions *)
Section wp.
  Context {E : Type}.
  Notation ST := (@ST E). Notation M := (@M E).
  Definition wp {A} (c : M A) (Q : A -> ST -> Prop) (X : err -> ST -> Prop) (s : ST) : Prop :=
    match c s with Ok a s' => Q a s' | Throw e s' => X e s' | UB => False end.
  Lemma wp_ret {A} (a : A) (Q : A -> ST -> Prop) X s : Q a s -> wp (ret a) Q X s.
  Proof. done. Qed.
  Lemma wp_throw {A} e (Q : A -> ST -> Prop) (X : err -> ST -> Prop) s : X e s -> wp (throw e) Q X s.
  Proof. done. Qed.
  Lemma wp_bind {A B} (m : M A) (f : A -> M B) Q X s : wp m (fun a s' => wp (f a) Q X s') X s -> wp (bind m f) Q X s.
  Proof. unfold wp, bind. by destruct (m s). Qed.
  Lemma wp_mono {A} (c : M A) (Q Q' : A -> ST -> Prop) (X X' : err -> ST -> Prop) s :
    wp c Q X s -> (forall a s', Q a s' -> Q' a s') -> (forall e s', X e s' -> X' e s') -> wp c Q' X' s.
  Proof. unfold wp. destruct (c s); auto. Qed.
  Lemma wp_uadd smax a b (Q : nat -> ST -> Prop) X s : a + b <= smax -> Q (a + b) s -> wp (uadd smax a b) Q X s.
  Proof. intros H HQ. unfold wp, uadd. by rewrite decide_True. Qed.
  Lemma wp_usub a b (Q : nat -> ST -> Prop) X s : b <= a -> Q (a - b) s -> wp (usub a b) Q X s.
  Proof. intros H HQ. unfold wp, usub. by rewrite decide_True. Qed.
  Lemma wp_if {A} (P : Prop) `{Decision P} (a b : M A) Q X s : (P -> wp a Q X s) -> (~ P -> wp b Q X s) -> wp (if decide P then a else b) Q X s.
  Proof. destruct (decide P); auto. Qed.
  Lemma wp_get this (Q : strval -> ST -> Prop) X s : Q (sstr s this) s -> wp (get this) Q X s.
  Proof. done. Qed.
  Lemma upd_eq {T} (f : nat -> T) i x : upd f i x i = x.
  Proof. unfold upd. by rewrite decide_True. Qed.
  Lemma smem_ins m (f : nat -> strval) i (x : @region E) : smem (St (<[i := x]> m) f) i = Some x.
  Proof. unfold smem. cbn. apply lookup_insert. Qed.
  Lemma smem_ins_ne m (f : nat -> strval) i j (x : @region E) : j <> i -> smem (St (<[i := x]> m) f) j = smem (St m f) j.
  Proof. intros H. unfold smem. cbn. by apply lookup_insert_ne. Qed.
  Lemma smem_del (m : gmap nat (@region E)) (f : nat -> strval) i : smem (St (delete i m) f) i = None.
  Proof. unfold smem. cbn. apply lookup_delete. Qed.
  Lemma smem_del_ne (m : gmap nat (@region E)) (f : nat -> strval) i j : j <> i -> smem (St (delete i m) f) j = smem (St m f) j.
  Proof. intros H. unfold smem. cbn. by apply lookup_delete_ne. Qed.
  Lemma smem_St (s : ST) (f : nat -> strval) r : smem (St (sheap s) f) r = smem s r.
  Proof. done. Qed.
  Lemma upd_ne {T} (f : nat -> T) i j x : j <> i -> upd f i x j = f j.
  Proof. unfold upd. intros H. by rewrite decide_False. Qed.
End wp.

(** *** one region and one string change *)
Section own.
  Context {E : Type}.
  Notation ST := (@ST E). Notation M := (@M E). Notation region := (@region E).
  (** like [s0], but the string [this] is [v] and the region [D] holds [d] *)
  Definition owning (s0 : ST) (this D : nat) (bs : Z) (hp : bool) (s : ST) (v : strval) (d : list (option E)) : Prop :=
    smem s D = Some (Region bs hp d) /\ (forall r, r <> D -> smem s r = smem s0 r) /\
    sstr s this = v /\ (forall t, t <> this -> sstr s t = sstr s0 t).
  Context (s0 : ST) (this D : nat) (bs : Z) (hp : bool).
  Notation own := (owning s0 this D bs hp).
  Implicit Types d c : list (option E).
  Lemma own_get s v d (Q : strval -> ST -> Prop) X : own s v d -> Q v s -> wp (get this) Q X s.
  Proof. intros (_ & _ & H & _) HQ. unfold wp, get. by rewrite H. Qed.
  Lemma own_set_size s v d n (Q : unit -> ST -> Prop) X : own s v d ->
    (forall s', own s' (StrVal n (sres v) (sblk v)) d -> Q tt s') -> wp (set_size this n) Q X s.
  Proof.
    intros (H1 & H2 & H3 & H4) HQ. unfold wp, set_size, bind, get, set. rewrite H3. apply HQ. split_and!; cbn; [done|done| |].
    - by rewrite upd_eq.
    - intros t Ht. rewrite upd_ne by done. auto.
  Qed.
  Lemma own_set_res s v d n (Q : unit -> ST -> Prop) X : own s v d ->
    (forall s', own s' (StrVal (ssz v) n (sblk v)) d -> Q tt s') -> wp (set_res this n) Q X s.
  Proof.
    intros (H1 & H2 & H3 & H4) HQ. unfold wp, set_res, bind, get, set. rewrite H3. apply HQ. split_and!; cbn; [done|done| |].
    - by rewrite upd_eq.
    - intros t Ht. rewrite upd_ne by done. auto.
  Qed.
  Lemma own_store s v d o c (Q : unit -> ST -> Prop) X : own s v d -> o + length c <= length d ->
    (forall s', own s' v (splice d o c) -> Q tt s') -> wp (store (D, o) c) Q X s.
  Proof.
    intros (H1 & H2 & H3 & H4) Ho HQ. unfold wp, store, bind, get_data, set_data. cbn [fst snd]. rewrite H1. cbn. rewrite decide_True by done. rewrite H1. apply HQ.
    split_and!; cbn; [by rewrite smem_ins| |done|done]. intros r Hr. rewrite smem_ins_ne, smem_St by done. auto.
  Qed.
  (** the cells read: from the region itself, or from another one *)
  Definition srcc (d : list (option E)) (p : ptr) (n : nat) (c : list (option E)) : Prop :=
    length c = n /\ (n = 0 \/
      (fst p = D /\ snd p + n <= length d /\ c = cells d (snd p) n) \/
      (fst p <> D /\ exists g, smem s0 (fst p) = Some g /\ snd p + n <= length (rdata g) /\ c = cells (rdata g) (snd p) n)).
  Lemma own_load s v d p n c (Q : list (option E) -> ST -> Prop) X : own s v d -> 0 < n -> srcc d p n c -> Q c s -> wp (load p n) Q X s.
  Proof.
    intros (H1 & H2 & H3 & H4) Hn (_ & [H|[(Hp & Hb & ->)|(Hp & g & Hg & Hb & ->)]]) HQ; [lia| |]; unfold wp, load, bind, get_data.
    - rewrite Hp, H1. cbn. rewrite decide_True by done. done.
    - rewrite (H2 _ Hp), Hg. rewrite decide_True by done. done.
  Qed.
  Lemma own_move s v d o p n c (Q : unit -> ST -> Prop) X : own s v d -> srcc d p n c -> o + n <= length d ->
    (forall s', own s' v (splice d o c) -> Q tt s') -> wp (move (D, o) p n) Q X s.
  Proof.
    intros Hown Hs Ho HQ. unfold move. pose proof (proj1 Hs) as Hc. destruct (decide (n = 0)) as [->|].
    - apply wp_ret. destruct c; [|done]. rewrite splice_nil in HQ. by apply HQ.
    - apply wp_bind. eapply own_load; [done|lia|done|]. eapply own_store; [done|lia|done].
  Qed.
  Lemma own_copy s v d o p n c (Q : unit -> ST -> Prop) X : own s v d -> srcc d p n c -> o + n <= length d ->
    (fst p = D -> n = 0 \/ snd p + n <= o \/ o + n <= snd p) ->
    (forall s', own s' v (splice d o c) -> Q tt s') -> wp (copy (D, o) p n) Q X s.
  Proof.
    intros Hown Hs Ho Hov HQ. unfold copy. destruct (decide (n = 0)) as [E0|].
    - apply wp_ret. pose proof (proj1 Hs) as Hc. destruct c; [|cbn in Hc; lia]. rewrite splice_nil in HQ. by apply HQ.
    - rewrite decide_False; [by eapply own_move|]. cbn. intros (H1 & H2 & H3). destruct (Hov (eq_sym H1)) as [?|[?|?]]; lia.
  Qed.
  Lemma own_fill s v d o n x (Q : unit -> ST -> Prop) X : own s v d -> o + n <= length d ->
    (forall s', own s' v (splice d o (replicate n (Some x))) -> Q tt s') -> wp (fill (D, o) n x) Q X s.
  Proof.
    intros Hown Ho HQ. unfold fill. destruct (decide (n = 0)) as [->|].
    - apply wp_ret. cbn in HQ. rewrite splice_nil in HQ. by apply HQ.
    - eapply own_store; [done| |done]. rewrite replicate_length. lia.
  Qed.
  Lemma own_put s v d o x (Q : unit -> ST -> Prop) X : own s v d -> o + 1 <= length d ->
    (forall s', own s' v (splice d o [Some x]) -> Q tt s') -> wp (put (D, o) x) Q X s.
  Proof. intros. unfold put. by eapply own_store. Qed.
  Lemma own_bx_ptr s v d b (Q : nat -> ST -> Prop) X : own s v d -> sblk v = Some b -> Q b s -> wp (bx_ptr this) Q X s.
  Proof. intros H Hb HQ. unfold bx_ptr. apply wp_bind. eapply own_get; [done|]. by rewrite Hb. Qed.
  Lemma own_bx_buf s v d (Q : ptr -> ST -> Prop) X : own s v d -> sblk v = None -> Q (this, 0) s -> wp (bx_buf this) Q X s.
  Proof. intros H Hb HQ. unfold bx_buf. apply wp_bind. eapply own_get; [done|]. by rewrite Hb. Qed.
  Lemma own_Myptr SSO s v d (Q : ptr -> ST -> Prop) X : own s v d -> match sblk v with None => sres v = SSO | Some b => SSO < sres v end ->
    cur this v = D -> Q (D, 0) s -> wp (Myptr SSO this) Q X s.
  Proof.
    intros H Hv HD HQ. unfold Myptr. apply wp_bind. eapply own_get; [done|]. unfold large, cur in *. destruct (sblk v) as [b|] eqn:Hb.
    - rewrite bool_decide_true by done. apply wp_bind. eapply own_bx_ptr; [done|done|]. apply wp_ret. cbn in HD. by subst.
    - rewrite bool_decide_false by lia. eapply own_bx_buf; [done|done|]. cbn in HD. by subst.
  Qed.
  Lemma own_addr s v d p (Q : Z -> ST -> Prop) X : own s v d ->
    (forall a, (fst p = D -> a = (bs + Z.of_nat (snd p))%Z) -> (forall g, fst p <> D -> smem s0 (fst p) = Some g -> a = (rbase g + Z.of_nat (snd p))%Z) -> Q a s) ->
    wp (addr p) Q X s.
  Proof.
    intros (H1 & H2 & H3 & H4) HQ. unfold wp, addr. apply HQ.
    - intros ->. by rewrite H1.
    - intros g Hp Hg. by rewrite (H2 _ Hp), Hg.
  Qed.
  (** reads of another region, after the writes *)
End own.
