(** C32: std::basic_string is a null-terminated sequence of characters: contents, aliasing, capacity, exceptions, no leak, no UB. *)
From stdpp Require Import base list numbers gmap.
From Coq Require Import ZArith Lia.
From Verif Require Import Text.StringModel Text.StringSpec Text.StringProofs Text.StringProofs2 Text.StringProofs3 Text.StringProofs4 Text.StringProofs5
  Text.StringProofs6 Text.StringProofs7 Text.StringHistory.
Local Open Scope nat_scope.

Section string.
  (** any character type and null character; any small capacity, allocation mask and maximal size that leaves room for a doubling; both ways to
      move a string; any allocator that returns fresh memory or fails *)
  Context {E : Type} (nul : E) (SSO msk mx smax : nat) (canmemcpy : bool).
  Notation ST := (@ST E). Notation region := (@region E).
  Context (orc : gmap nat region -> nat -> option (nat * Z * nat)).
  Context (HA : allocator_ok mx orc) (Hsm : 2 * mx + 2 <= smax) (HSSO : SSO <= mx).
  Implicit Types s : ST.
  Implicit Types l m : list E.
  Notation rep := (rep nul SSO mx).
  Notation effect := (effect nul SSO mx orc).
  Notation leaves := (leaves nul SSO mx).
  Notation constructs := (constructs nul SSO mx orc).

  (** *** modifications: [effect this s valid l' r] says that the call either makes [l'] the characters of the string (null-terminated, nothing
      else changed, no reallocation if they fit, geometric growth otherwise) or throws and leaves everything as it was: out_of_range exactly if
      not [valid], length_error only if [l'] is too long, bad_alloc only if the allocator refused. The characters [m] to be added may be part of
      the string itself. *)
  Theorem C32_append s this l p m : wfm s -> rep s this l -> source s this p m ->
    effect this s True (l ++ m) (append nul SSO msk mx smax orc this p (length m) s).
  Proof. intros. eapply append_ok; eassumption. Qed.

  Theorem C32_append_n s this l n x : wfm s -> rep s this l ->
    effect this s True (l ++ replicate n x) (append_ch nul SSO msk mx smax orc this n x s).
  Proof. intros. eapply append_ch_ok; eassumption. Qed.

  Theorem C32_assign s this l p m : wfm s -> rep s this l -> source s this p m ->
    effect this s True m (assign nul SSO msk mx smax orc this p (length m) s).
  Proof. intros. eapply assign_ok; eassumption. Qed.

  Theorem C32_assign_n s this l n x : wfm s -> rep s this l ->
    effect this s True (replicate n x) (assign_ch nul SSO msk mx smax orc this n x s).
  Proof. intros. eapply assign_ch_ok; eassumption. Qed.

  (** operator=: [r] is a string that shares no storage with [this] *)
  Theorem C32_copy_assign s this r l m : wfm s -> rep s this m -> rep s r l -> apart s this r ->
    effect this s True l (copy_assign nul SSO msk mx smax orc this r s).
  Proof. intros. eapply copy_assign_ok; eassumption. Qed.

  Theorem C32_push_back s this l x : wfm s -> rep s this l ->
    effect this s True (l ++ [x]) (push_back nul SSO msk mx smax orc this x s).
  Proof. intros. eapply push_back_ok; eassumption. Qed.

  Theorem C32_pop_back s this l x : wfm s -> rep s this (l ++ [x]) ->
    effect this s True l (pop_back nul SSO this s).
  Proof. intros. eapply pop_back_ok; eassumption. Qed.

  Theorem C32_erase s this l off n : wfm s -> rep s this l ->
    effect this s (off <= length l) (erased l off n) (erase SSO smax this off n s).
  Proof. intros. eapply erase_ok; eassumption. Qed.

  Theorem C32_erase_from s this l off : wfm s -> rep s this l ->
    effect this s (off <= length l) (take off l) (erase_from nul SSO this off s).
  Proof. intros. eapply erase_from_ok; eassumption. Qed.

  Theorem C32_clear s this l : wfm s -> rep s this l ->
    effect this s True [] (clear nul SSO this s).
  Proof. intros. eapply clear_ok; eassumption. Qed.

  Theorem C32_resize s this l n x : wfm s -> rep s this l ->
    effect this s True (resized l n x) (resize nul SSO msk mx smax orc this n x s).
  Proof. intros. eapply resize_ok; eassumption. Qed.

  Theorem C32_insert s this l off p m : wfm s -> rep s this l -> source s this p m ->
    effect this s (off <= length l) (inserted l off m) (insert SSO msk mx smax orc this off p (length m) s).
  Proof. intros. eapply insert_ok; eassumption. Qed.

  Theorem C32_insert_n s this l off n x : wfm s -> rep s this l ->
    effect this s (off <= length l) (inserted l off (replicate n x)) (insert_ch SSO msk mx smax orc this off n x s).
  Proof. intros. eapply insert_ch_ok; eassumption. Qed.

  (** replace: the additional condition excludes characters of the string itself that begin before the replaced range, end in it and are
      longer than it, when there is no reallocation: see C32_finding_replace_self *)
  Theorem C32_replace s this l off nx p m : wfm s -> rep s this l -> source s this p m ->
    (let n := nx `min` (length l - off) in fst p = fst (data s this) -> length (replaced l off nx m) <= capacity s this ->
      length m <= n \/ snd p + length m <= off \/ off + n <= snd p + length m) ->
    effect this s (off <= length l) (replaced l off nx m) (replace SSO msk mx smax orc this off nx p (length m) s).
  Proof. intros. eapply replace_ok; eassumption. Qed.

  Theorem C32_replace_n s this l off nx k x : wfm s -> rep s this l -> k <= smax ->
    effect this s (off <= length l) (replaced l off nx (replicate k x)) (replace_ch SSO msk mx smax orc this off nx k x s).
  Proof. intros. eapply replace_ch_ok; eassumption. Qed.

  (** *** capacity *)
  Theorem C32_reserve s this l newcap : wfm s -> rep s this l ->
    leaves this s l (fun s' => newcap <= capacity s' this /\ (newcap <= capacity s this -> s' = s))
      (fun e => capacity s this < newcap /\ no_room mx orc s newcap e) (reserve SSO msk mx smax orc this newcap s).
  Proof. intros. by apply reserve_ok. Qed.
  Theorem C32_reserve0 s this l : wfm s -> rep s this l ->
    leaves this s l (fun s' => (l = [] -> capacity s' this = SSO) /\ (l <> [] -> s' = s)) (fun _ => False) (reserve0 SSO smax this s).
  Proof. intros. by apply reserve0_ok. Qed.
  Theorem C32_shrink_to_fit s this l : wfm s -> rep s this l ->
    leaves this s l (fun s' => capacity s' this <= capacity s this /\ (length l <= SSO -> capacity s' this = SSO) /\
        (SSO < length l -> capacity s' this <= Nat.lor (length l) msk))
      (fun e => e = BadAlloc /\ SSO < length l /\ exists k, length l < k <= mx + 1 /\ orc (sheap s) k = None) (shrink_to_fit SSO msk mx smax orc this s).
  Proof. intros. by apply shrink_to_fit_ok. Qed.
  (** resize_and_overwrite: the operation is called on [n] characters, the first of which are those of the string; it returns [out] *)
  Theorem C32_resize_and_overwrite s this l n (op : list (option E) -> list (option E) * nat) out : wfm s -> rep s this l ->
    (forall c, length c = n -> (forall i, i < length l -> i < n -> c !! i = Some (l !! i)) ->
      exists rest, op c = ((Some <$> out) ++ rest, length out) /\ length out + length rest = n) ->
    leaves this s out (fun s' => n <= capacity s' this /\ (n <= capacity s this -> capacity s' this = capacity s this /\ data s' this = data s this))
      (fun e => capacity s this < n /\ no_room mx orc s n e) (resize_and_overwrite nul SSO msk mx smax orc this n op s).
  Proof. intros. eapply resize_and_overwrite_ok; eassumption. Qed.

  (** *** access *)
  Theorem C32_at s this l off : rep s this l ->
    match at_ SSO this off s with
    | Ok x s' => s' = s /\ off < length l /\ x = l !! off
    | Throw e s' => s' = s /\ e = OutOfRange /\ length l <= off
    | UB => False
    end.
  Proof. intros. eapply at_ok; eassumption. Qed.
  Theorem C32_index s this l off : rep s this l -> off <= length l ->
    match index SSO this off s with Ok x s' => s' = s /\ x = (l ++ [nul]) !! off | _ => False end.
  Proof. intros. eapply index_ok; eassumption. Qed.

  (** *** construction and destruction *)
  Theorem C32_construct_n s this n x : wfm s -> raw SSO s this -> constructs this s True (replicate n x) (Construct nul SSO msk mx smax orc this (From_char x) n s).
  Proof.
    intros Hw Hr. assert (H := Construct_ok nul SSO msk mx smax orc HA Hsm HSSO s this (From_char x) (replicate n x) Hw Hr).
    rewrite replicate_length in H. apply H. cbn. by rewrite replicate_length.
  Qed.
  Theorem C32_construct s this p l : wfm s -> raw SSO s this -> reads s p l -> l = [] \/ fst p <> this ->
    constructs this s True l (Construct nul SSO msk mx smax orc this (From_ptr p) (length l) s).
  Proof. intros. by apply Construct_ok. Qed.
  Theorem C32_copy_construct s this r l : this <> r -> wfm s -> raw SSO s this -> rep s r l ->
    constructs this s True l (copy_construct nul SSO msk mx smax orc this r s).
  Proof. intros. by apply copy_construct_ok. Qed.
  (** basic_string(s, off, n), substr *)
  Theorem C32_substr s this r l off n : this <> r -> wfm s -> raw SSO s this -> rep s r l ->
    constructs this s (off <= length l) (sub l off n) (substr_construct nul SSO msk mx smax orc this r off n s).
  Proof. intros. by apply substr_construct_ok. Qed.
  (** operator+; its length check precedes the construction *)
  Theorem C32_concat s this p l q m : wfm s -> raw SSO s this -> length l <= mx ->
    reads s p l -> l = [] \/ fst p <> this -> reads s q m -> m = [] \/ fst q <> this ->
    match concat nul SSO msk mx smax orc this p (length l) q (length m) s with
    | Throw LengthError s' => s' = s /\ mx < length l + length m
    | r => constructs this s True (l ++ m) r
    end.
  Proof. intros. by apply concat_ok. Qed.
  (** the destructor: the string owns nothing afterwards, its block has been deallocated and nothing else *)
  Theorem C32_destroy s this l : wfm s -> rep s this l ->
    leaves this s [] (fun s' => sblk (sstr s' this) = None) (fun _ => False) (Tidy_deallocate nul SSO smax this s).
  Proof.
    intros Hw Hr. assert (H := Tidy_ok nul SSO mx smax Hsm HSSO s this l Hw Hr).
    destruct (Tidy_deallocate _ _ _ _ _) as [[] s'|e s'|]; cbn in *; [|done|done]. destruct H as (H1 & H2 & H3 & H4). split_and!; try done. by rewrite H4.
  Qed.

  (** *** moves and swap: the heap block changes hands, so pointers into it stay valid, and the source is empty *)
  Theorem C32_move_construct s this r l : this <> r -> wfm s -> raw SSO s this -> rep s r l ->
    match move_construct nul SSO smax canmemcpy this r s with
    | Ok _ s' => rep s' this l /\ rep s' r [] /\ frame [this; r] s s' /\ wfm s' /\ capacity s' this = capacity s r /\ sblk (sstr s' this) = sblk (sstr s r)
    | _ => False
    end.
  Proof.
    intros H1 H2 H3 H4. assert (H := move_construct_ok nul SSO mx smax canmemcpy Hsm HSSO s this r l H1 H2 H3 H4).
    destruct (move_construct _ _ _ _ _ _ _) as [[] s'|e s'|]; try done. destruct H as (? & ? & ? & ? & ? & ? & ?). done.
  Qed.
  Theorem C32_move_assign s this r l m : wfm s -> rep s this m -> rep s r l -> apart s this r ->
    match move_assign nul SSO smax canmemcpy this r s with
    | Ok _ s' => rep s' this l /\ rep s' r [] /\ frame [this; r] s s' /\ wfm s' /\ capacity s' this = capacity s r /\ sblk (sstr s' this) = sblk (sstr s r)
    | _ => False
    end.
  Proof. intros. eapply move_assign_ok; eassumption. Qed.
  Theorem C32_swap s a b l m : wfm s -> rep s a l -> rep s b m -> a <> b ->
    match swap SSO smax canmemcpy a b s with
    | Ok _ s' => rep s' a m /\ rep s' b l /\ frame [a; b] s s' /\ wfm s' /\ capacity s' a = capacity s b /\ capacity s' b = capacity s a /\
      sblk (sstr s' a) = sblk (sstr s b) /\ sblk (sstr s' b) = sblk (sstr s a)
    | _ => False
    end.
  Proof.
    intros H1 H2 H3 H4. assert (H := swap_ok nul SSO mx smax canmemcpy Hsm HSSO s a b l m H1 H2 H3 H4).
    destruct (swap _ _ _ _ _ _) as [[] s'|e s'|]; try done.
  Qed.
  (** assignment of a string to itself, swap with itself: nothing happens *)
  Theorem C32_self s this : copy_assign nul SSO msk mx smax orc this this s = Ok tt s /\ move_assign nul SSO smax canmemcpy this this s = Ok tt s /\
    swap SSO smax canmemcpy this this s = Ok tt s.
  Proof. unfold copy_assign, move_assign, swap. by rewrite !decide_True. Qed.
  (** *** an operation on some strings leaves the characters of all others alone *)
  Theorem C32_other_strings T s s' u l : frame T s s' -> rep s u l -> u ∉ T ->
    (forall t, t ∈ T -> apart s t u /\ sblk (sstr s t) <> Some u /\ sblk (sstr s u) <> Some t) -> rep s' u l.
  Proof. intros. by eapply frame_other. Qed.
  (** *** any sequence of calls, exceptions included: never undefined behaviour, always a null-terminated string with the right characters;
      the precondition [legal_run] is about the pointers given to the calls only *)
  Theorem C32_history this cs s l : wfm s -> rep s this l -> legal_run nul SSO msk mx smax orc this cs s l ->
    exists s' l', run nul SSO msk mx smax orc this cs s l = Some (s', l') /\ rep s' this l' /\ frame [this] s s' /\ wfm s'.
  Proof. intros. by apply run_ok. Qed.
End string.

Print Assumptions C32_append.
Print Assumptions C32_append_n.
Print Assumptions C32_assign.
Print Assumptions C32_assign_n.
Print Assumptions C32_copy_assign.
Print Assumptions C32_push_back.
Print Assumptions C32_pop_back.
Print Assumptions C32_erase.
Print Assumptions C32_erase_from.
Print Assumptions C32_clear.
Print Assumptions C32_resize.
Print Assumptions C32_insert.
Print Assumptions C32_insert_n.
Print Assumptions C32_replace.
Print Assumptions C32_replace_n.
Print Assumptions C32_reserve.
Print Assumptions C32_reserve0.
Print Assumptions C32_shrink_to_fit.
Print Assumptions C32_resize_and_overwrite.
Print Assumptions C32_at.
Print Assumptions C32_index.
Print Assumptions C32_construct_n.
Print Assumptions C32_construct.
Print Assumptions C32_copy_construct.
Print Assumptions C32_substr.
Print Assumptions C32_concat.
Print Assumptions C32_destroy.
Print Assumptions C32_move_construct.
Print Assumptions C32_move_assign.
Print Assumptions C32_swap.
Print Assumptions C32_self.
Print Assumptions C32_other_strings.
Print Assumptions C32_history.

(** *** satisfiability: char32_t strings (a small capacity of 3, allocations rounded to 4), max_size() 20, an allocator that returns the requested
    count above all live memory or fails above 21 *)
Definition top_block {E} (mem : gmap nat (@region E)) : nat := map_fold (fun k _ a => S k `max` a) 0 mem.
Definition top_addr {E} (mem : gmap nat (@region E)) : Z := map_fold (fun _ g a => (rbase g + Z.of_nat (length (rdata g))) `max` a)%Z 0%Z mem.
Definition bump {E} (mem : gmap nat (@region E)) (n : nat) : option (nat * Z * nat) :=
  if decide (n <= 21) then Some (top_block mem, top_addr mem, n) else None.
Lemma top_block_ok {E} (mem : gmap nat (@region E)) : forall r g, mem !! r = Some g -> r < top_block mem.
Proof.
  unfold top_block. apply (map_fold_ind (fun a (m : gmap nat (@region E)) => forall r g, m !! r = Some g -> r < a)).
  - intros r g. by rewrite lookup_empty.
  - intros i x m a Hi IH r g. destruct (decide (i = r)) as [->|Hne]; [lia|]. rewrite lookup_insert_ne by done. intros H%IH. lia.
Qed.
Lemma top_addr_ok {E} (mem : gmap nat (@region E)) : forall r g, mem !! r = Some g -> (rbase g + Z.of_nat (length (rdata g)) <= top_addr mem)%Z.
Proof.
  unfold top_addr. apply (map_fold_ind (fun a (m : gmap nat (@region E)) => forall r g, m !! r = Some g -> (rbase g + Z.of_nat (length (rdata g)) <= a)%Z)).
  - intros r g. by rewrite lookup_empty.
  - intros i x m a Hi IH r g. destruct (decide (i = r)) as [->|Hne]; [rewrite lookup_insert; intros [= ->]; lia|]. rewrite lookup_insert_ne by done. intros H%IH. lia.
Qed.
Lemma bump_ok {E} : allocator_ok (E := E) 20 bump.
Proof.
  intros mem n b base k. unfold bump. case_decide as Hn; [|done]. intros [= <- <- <-]. split_and!.
  - destruct (mem !! top_block mem) as [g|] eqn:Hg; [|done]. pose proof (top_block_ok mem _ _ Hg). lia.
  - lia.
  - intros r g Hg. right. by eapply top_addr_ok.
Qed.

(** strings 0 = "123456" (a heap block of 8 cells, number 3) and 1 = "78" (in the object), a foreign array 2 = {40..44}, unused storage 4 *)
Definition ex : @ST nat := St (list_to_map [(0, Region 0 false (replicate 4 None)); (1, Region 10 false [Some 7; Some 8; Some 0; None]);
    (2, Region 20 false (Some <$> [40; 41; 42; 43; 44])); (3, Region 30 true [Some 1; Some 2; Some 3; Some 4; Some 5; Some 6; Some 0; None]);
    (4, Region 40 false (replicate 4 None))])
  (fun t => match t with 0 => StrVal 6 7 (Some 3) | 1 => StrVal 2 3 None | _ => StrVal 0 0 None end).
Lemma holds_all {E} (d : list (option E)) o (l : list E) : take (length l) (drop o d) = (Some <$> l) -> holds d o l.
Proof.
  intros H i Hi. rewrite <-lookup_drop, <-(lookup_take (drop o d) (length l) i) by done. rewrite H, list_lookup_fmap.
  destruct (lookup_lt_is_Some_2 l i Hi) as [x ->]. done.
Qed.
Example C32_sat_states : wfm ex /\ rep 0 3 20 ex 0 [1; 2; 3; 4; 5; 6] /\ rep 0 3 20 ex 1 [7; 8] /\ raw 3 ex 4 /\ apart ex 0 1 /\
  source ex 0 (3, 2) [3; 4; 5] /\ source ex 1 (2, 1) [41; 42] /\ capacity ex 0 = 7.
Proof.
  split_and!.
  - intros r1 r2 g1 g2 Hne H1 H2. assert (Hin : forall r g, smem ex r = Some g -> (r, g) ∈ map_to_list (sheap ex)) by (intros r g H; by apply elem_of_map_to_list).
    apply Hin in H1, H2. vm_compute in H1, H2.
    apply elem_of_cons in H1, H2. rewrite ?elem_of_cons, ?elem_of_nil in H1. rewrite ?elem_of_cons, ?elem_of_nil in H2.
    destruct_or!; try done; injection H1 as -> ->; injection H2 as -> ->; try done; unfold disjoint_ranges; cbn [rbase rdata length]; lia.
  - exists [Some 1; Some 2; Some 3; Some 4; Some 5; Some 6; Some 0; None]. unfold shape. cbv zeta. split_and!; try done; try (cbn; lia).
    + eexists. split_and!; [by vm_compute|done|done].
    + eexists. split_and!; [by vm_compute|done|done].
    + by apply holds_all.
  - exists [Some 7; Some 8; Some 0; None]. unfold shape. cbv zeta. split_and!; try done; try (cbn; lia).
    + eexists. split_and!; [by vm_compute|done|done].
    + eexists. split_and!; [by vm_compute|done|done].
    + by apply holds_all.
  - split; [|done]. eexists. split_and!; [by vm_compute|done|done].
  - split; [done|]. intros x [= <-]. done.
  - split; [|cbn; lia]. right. eexists. split; [by vm_compute|]. by apply holds_all.
  - split; [|done]. right. eexists. split; [by vm_compute|]. by apply holds_all.
  - done.
Qed.

(** append(data() + 1, 4) reallocates, insert(2, foreign, 2) works in place, reserve(40) throws, ... *)
Definition ex_given (s : @ST nat) (this : nat) (l : list nat) (x : chars nat) : bool :=
  match x with
  | Own o k => bool_decide (o + k <= length l)
  | Ext p m => bool_decide (fst p <> fst (data s this)) &&
    match smem s (fst p) with Some g => bool_decide (take (length m) (drop (snd p) (rdata g)) = (Some <$> m)) | None => false end
  end.
Definition ex_legal (s : @ST nat) (this : nat) (l : list nat) (c : call nat) : bool :=
  match c with
  | Append x | Assign x | Insert _ x => ex_given s this l x
  | Replace off n x => ex_given s this l x &&
    match x with Own o k => let n := n `min` (length l - off) in bool_decide (k <= n \/ o + k <= off \/ off + n <= o + k) | Ext _ _ => true end
  | Replace_ch _ _ k _ => bool_decide (k <= 100)
  | Pop_back => bool_decide (l <> [])
  | _ => true
  end.
Fixpoint ex_legal_run (this : nat) (cs : list (call nat)) (s : @ST nat) (l : list nat) : bool :=
  match cs with
  | [] => true
  | c :: cs => ex_legal s this l c &&
    match exec 0 3 3 20 100 bump this c s with Ok _ s' => ex_legal_run this cs s' (after l c) | Throw _ s' => ex_legal_run this cs s' l | UB => true end
  end.
Lemma ex_given_ok s this l x : ex_given s this l x = true -> given s this l x.
Proof.
  destruct x as [o k|p m]; cbn.
  - intros H%bool_decide_eq_true. done.
  - intros [H1 H2]%andb_true_iff. apply bool_decide_eq_true in H1. split; [|done]. destruct (smem s (fst p)) as [g|] eqn:Hg; [|done]. apply bool_decide_eq_true in H2.
    right. exists g. split; [done|]. by apply holds_all.
Qed.
Lemma ex_legal_ok s this l c : ex_legal s this l c = true -> legal 100 s this l c.
Proof.
  destruct c; cbn; try done; try (by apply ex_given_ok); try (by intros H%bool_decide_eq_true).
  intros [H1%ex_given_ok H2]%andb_true_iff. split; [done|]. destruct x; [|done]. by apply bool_decide_eq_true in H2.
Qed.
Lemma ex_legal_run_ok this cs s l : ex_legal_run this cs s l = true -> legal_run 0 3 3 20 100 bump this cs s l.
Proof.
  revert s l. induction cs as [|c cs IH]; intros s l; cbn [ex_legal_run legal_run]; [done|]. intros [H1%ex_legal_ok H2]%andb_true_iff. split; [done|].
  destruct (exec _ _ _ _ _ _ _ _ _); [by apply IH|by apply IH|done].
Qed.
Definition ex_calls : list (call nat) := [Append (Own 1 4); Insert 2 (Ext (2, 1) [41; 42]); Reserve 40; Erase 1 6; Replace 1 2 (Own 2 3); Pop_back; Shrink_to_fit].
Example C32_sat_history : legal_run 0 3 3 20 100 bump 0 ex_calls ex [1; 2; 3; 4; 5; 6] /\
  (fun r => snd r) <$> (run 0 3 3 20 100 bump 0 ex_calls ex [1; 2; 3; 4; 5; 6]) = Some [1; 2; 3; 4; 3; 4].
Proof. split; [apply ex_legal_run_ok|]; vm_compute; reflexivity. Qed.
(** ... and the allocator's failure and a length error are reachable *)
Example C32_sat_throw : (exists s', append_ch 0 3 3 20 100 bump 0 15 9 ex = Throw LengthError s') /\
  (exists s', append_ch 0 3 3 20 100 (fun _ _ => None) 0 2 9 ex = Throw BadAlloc s') /\ (exists s', erase 3 100 0 7 1 ex = Throw OutOfRange s').
Proof. split_and!; eexists; vm_compute; reflexivity. Qed.

(** *** finding: s.replace(2, 2, s.data(), 3) for s = "123456" with room for one more character: the source begins before the replaced range, ends
    in it and is longer than it; `_Count - _Ptr_shifted_after` wraps and the copy gets a huge length (xstring:3200-3219) *)
Example C32_finding_replace_self : replace 3 3 20 100 bump 0 2 2 (3, 0) 3 ex = UB /\
  source ex 0 (3, 0) [1; 2; 3] /\ replaced [1; 2; 3; 4; 5; 6] 2 2 [1; 2; 3] = [1; 2; 1; 2; 3; 5; 6].
Proof.
  split_and!; [vm_compute; reflexivity| |reflexivity].
  split; [|cbn; lia]. right. eexists. split; [by vm_compute|]. by apply holds_all.
Qed.
