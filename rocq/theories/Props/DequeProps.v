(** C24: std::deque is a double-ended sequence: contents, stability of references, exception guarantees, no leaks, no UB. *)
From stdpp Require Import base list list_numbers numbers decidable.
From Coq Require Import ZArith Lia.
From Verif Require Import Base.Res Base.Int Cont.ObjMem Cont.ObjMemProofs Cont.VectorSpec Cont.DequeModel Cont.DequeSpec
  Cont.DequeOps Cont.DequeProofs Cont.DequeProofs2 Cont.DequeProofs3 Cont.DequeProofs4 Cont.DequeProofs5 Cont.DequeProofs6
  Cont.DequeProofs7 Cont.DequeProofs8.
Local Open Scope nat_scope.

Section deque.
  (** any element type and any block size the header can pick (deque:549-553) *)
  Context {A : Type} (T : traits) (Bytes : nat) (maxb : Z).
  Notation B := (Block_size Bytes).
  Context (Hmax : (8 <= maxb < 2 ^ 63)%Z).
  Notation state := (st A deq).
  Implicit Types (s : state) (l : list (option A)).

  Lemma HB : exists k, B = 2 ^ k.
  Proof.
    unfold Block_size. destruct (Bytes <=? 1); [by exists 4|]. destruct (Bytes <=? 2); [by exists 3|].
    destruct (Bytes <=? 4); [by exists 2|]. destruct (Bytes <=? 8); [by exists 1|by exists 0].
  Qed.
  Lemma duarg_ok s l a : dholds B maxb s l -> uarg_ok (length l) a -> darg B s l (duarg B s a) (uarg_val l a).
  Proof.
    intros [_ Ho] Ha. destruct a as [x|x|k]; try done. simpl in Ha. simpl.
    destruct (ow_in _ _ _ _ _ _ Ho k Ha) as (b & r & _ & _ & Hf). exists k. rewrite Hf. done.
  Qed.

  Definition ok_post s l (op : dop A) (s' : state) : Prop := dholds B maxb s' (dop_sem op l) /\ dop_refs B (length l) op s s'.
  Definition exn_post s l (op : dop A) s' : Prop :=
    why_throw B maxb s (dop_need (length l) op) /\ ~ dop_nothrow T (length l) op /\ (exists l', dholds B maxb s' l') /\
    (dop_strong T (length l) op -> dholds B maxb s' l).

  Lemma wpx_op (f m : M A deq unit) s (Q : unit -> state -> Prop) (E : state -> Prop) : f s = m s -> wpx m s Q E -> wpx f s Q E.
  Proof. intros Hf. unfold wpx. by rewrite Hf. Qed.

  Lemma dexec_ok s l op : dholds B maxb s l -> dop_pre (length l) op ->
    wpx (dexec T B maxb op) s (fun _ => ok_post s l op) (exn_post s l op).
  Proof.
    intros H Hp. pose proof HB as HB. unfold ok_post, exn_post.
    assert (Hlen : forall xs : list A, length (Some <$> xs) = length xs) by (intros; apply fmap_length).
    assert (Hnm : nothrow_moves T -> nothrow_swap T) by done.
    destruct op as [a|a| | |k a|k c a|bidi k xs|xs|bidi xs|i j|c a| |c x|xs|]; simpl in Hp;
      cbn [dop_refs dop_need dop_nothrow dop_strong dop_sem].
    - apply (wpx_op _ (push_back T B maxb (duarg B s a))); [reflexivity|]. eapply wpx_mono; [apply (push_back_ok T B maxb HB Hmax s l _ (uarg_val l a)); [done|by apply duarg_ok]| |].
      + intros [] s' (H' & _ & Hso). done.
      + intros s' (Hw & Hd & _). split; [eapply why_mono; [..|exact Hw]; [done|lia]|]. split; [tauto|]. split; [by exists l|done].
    - apply (wpx_op _ (push_front T B maxb (duarg B s a))); [reflexivity|]. eapply wpx_mono; [apply (push_front_ok T B maxb HB Hmax s l _ (uarg_val l a)); [done|by apply duarg_ok]| |].
      + intros [] s' (H' & _ & Hso). done.
      + intros s' (Hw & Hd & _). split; [eapply why_mono; [..|exact Hw]; [done|lia]|]. split; [tauto|]. split; [by exists l|done].
    - apply (wpx_op _ (pop_back B)); [reflexivity|]. destruct l as [|x l' _] using rev_ind; [simpl in Hp; lia|].
      apply (pop_back_ok B maxb HB s l' x); [done|]. intros s' Hso Hd _ _. rewrite app_length, Nat.add_sub, take_app. done.
    - apply (wpx_op _ (pop_front B)); [reflexivity|]. destruct l as [|x l']; [simpl in Hp; lia|]. apply (pop_front_ok B maxb HB s l' x); [done|]. intros s' Hso Hd _ _.
      simpl length. rewrite Nat.sub_succ, Nat.sub_0_r. done.
    - apply (wpx_op _ (emplace T B maxb k (duarg B s a))); [reflexivity|]. destruct Hp as [Hk Ha]. eapply wpx_mono; [apply (emplace_ok T B maxb HB Hmax s l k _ (uarg_val l a)); [done|done|by apply duarg_ok]| |].
      + intros [] s' (H' & _ & Hf & Hb). done.
      + intros s' (Hw & Hd & He & Hs). split; [eapply why_mono; [..|exact Hw]; [done|lia]|]. split; [tauto|]. split; [done|].
        intros [?|[?|[? ?]]]; [apply He; auto|apply He; auto|auto].
    - apply (wpx_op _ (Insert_n T B maxb k c (duarg B s a))); [reflexivity|]. destruct Hp as (Hk & Ha & Hc). eapply wpx_mono; [apply (Insert_n_ok T B maxb HB Hmax s l k c _ (uarg_val l a)); [done|done|by apply duarg_ok|done]| |].
      + intros [] s' (H' & _). done.
      + intros s' (Hw & l' & Hd & _ & Hs). split; [done|]. split; [tauto|]. split; [by exists l'|]. intros Hk'. by rewrite <-(Hs Hk').
    - apply (wpx_op _ (Insert_range T B maxb bidi k (Some <$> xs))); [reflexivity|]. eapply wpx_mono; [by apply (Insert_range_ok T B maxb HB Hmax bidi s l k (Some <$> xs))| |].
      + intros [] s' (H' & _). done.
      + intros s' (Hw & Hd & Hs). rewrite Hlen in Hw. split; [done|]. split; [tauto|]. split; [done|].
        intros Hst. apply Hs. unfold ins_strong. tauto.
    - apply (wpx_op _ (append_range T B maxb (Some <$> xs))); [reflexivity|]. eapply wpx_mono; [by apply (append_range_ok T B maxb HB Hmax s l (Some <$> xs))| |].
      + intros [] s' (H' & _ & Hso). done.
      + intros s' (Hw & Hd & _). rewrite Hlen in Hw. split; [done|]. split; [tauto|]. split; [by exists l|done].
    - apply (wpx_op _ (prepend_range T B maxb bidi (Some <$> xs))); [reflexivity|]. eapply wpx_mono; [by apply (prepend_range_ok T B maxb HB Hmax bidi s l (Some <$> xs))| |].
      + intros [] s' (H' & _ & Hso). rewrite Hlen in Hso. done.
      + intros s' (Hw & (l' & _ & Hd) & Hs). rewrite Hlen in Hw. split; [done|]. split; [tauto|]. split; [by exists l'|].
        intros Hst. apply Hs. tauto.
    - apply (wpx_op _ (erase T B i j)); [reflexivity|]. eapply wpx_mono; [by apply (erase_ok T B maxb HB s l i j)| |].
      + intros [] s' (H' & _ & Hso). done.
      + intros s' ((Hma & Hi & Hj) & Hc & Hd). split; [by left|]. split; [|done]. intros [?|[?|?]]; [congruence|lia|lia].
    - apply (wpx_op _ (resize T B maxb c (duarg B s a))); [reflexivity|]. eapply wpx_mono; [apply (resize_ok T B maxb HB Hmax s l c _ (uarg_val l a)); [done|by apply duarg_ok]| |].
      + intros [] s' (H' & _ & Hso). done.
      + intros s' (Hw & k & Hk & Hd & _). split; [done|]. split; [lia|]. split; [by eexists|tauto].
    - apply (wpx_op _ (shrink_to_fit B)); [reflexivity|]. eapply wpx_mono; [by apply (shrink_to_fit_ok B maxb HB Hmax s l)| |].
      + intros [] s' (H' & _ & Hso & _). done.
      + intros s' (Hc & Hd & _). split; [by left|]. split; [tauto|]. split; [by exists l|done].
    - apply (wpx_op _ (assign_n T B maxb c (Some x))); [reflexivity|]. eapply wpx_mono; [by apply (assign_n_ok T B maxb HB Hmax s l c (Some x))| |].
      + intros [] s' (H' & _). done.
      + intros s' (Hw & Hd). split; [done|]. tauto.
    - apply (wpx_op _ (Assign_range T B maxb (Some <$> xs))); [reflexivity|]. eapply wpx_mono; [by apply (Assign_range_ok T B maxb HB Hmax s l (Some <$> xs))| |].
      + intros [] s' (H' & _). done.
      + intros s' (Hw & Hd). rewrite Hlen in Hw. split; [done|]. tauto.
    - apply (wpx_op _ (Tidy B)); [reflexivity|]. eapply (Tidy_ok B maxb HB Hmax s l); [done|]. intros s' H' _ _ _. done.
  Qed.

  Lemma dholds_with s l o : dholds B maxb s l -> dholds B maxb (dwith s o) l.
  Proof. intros H. eapply dholds_same; [exact H|done|simpl; lia|done]. Qed.
  Lemma dholds_empty o : dholds B maxb (empty_deq (A := A) o) [].
  Proof.
    split.
    - split; simpl; try done; try (by left); unfold Mapsize; simpl; try lia. destruct HB as [k ->].
      rewrite Nat.mod_0_l; [lia|]. apply Nat.pow_nonzero. lia.
    - split; simpl; try (intros; lia); try done; try (intros * Hb; by apply elem_of_nil in Hb). apply NoDup_nil_2.
  Qed.
  Lemma quiet_in o s : ~ calm (dwith s o) -> true ∈ o.
  Proof.
    intros Hc. destruct (decide (true ∈ o)) as [|Ho]; [done|]. exfalso. apply Hc. unfold calm. simpl. apply list.Forall_forall.
    intros [] Hin; done.
  Qed.

  (** One call, from any state that represents a sequence, with any schedule of exceptions. *)
  Theorem C24_step s l op o : dholds B maxb s l -> dop_pre (length l) op ->
    exists s' r, dexec T B maxb op (dwith s o) = Ok (s', r) /\
      match r with
      | Some _ => (* returned: the new contents; surviving references *)
          dholds B maxb s' (dop_sem op l) /\ dop_refs B (length l) op s s'
      | None =>   (* threw: only because something was scheduled to throw or max_size() was approached *)
          (true ∈ o \/ (Z.of_nat B * maxb < 2 * (Z.of_nat (dop_need (length l) op) + Z.of_nat B))%Z) /\
          ~ dop_nothrow T (length l) op /\ (exists l', dholds B maxb s' l') /\      (* basic guarantee, no leak *)
          (dop_strong T (length l) op -> dholds B maxb s' l)                         (* strong guarantee *)
      end.
  Proof.
    intros H Hp. pose proof (dexec_ok _ l op (dholds_with s l o H) Hp) as Hw. apply wp_exists in Hw as ([s' r] & He & HQ).
    exists s', r. split; [done|]. destruct r as [i|]; simpl in HQ.
    - destruct HQ as [Hh Hr]. split; [done|]. destruct op; exact Hr.
    - destruct HQ as ([Hc|Hc] & Hn & He' & Hs); split; try (split; [done|]; split; done); [left; by eapply quiet_in|by right].
  Qed.

  (** Element access: [at] throws exactly when the position is out of range; otherwise [at] and [operator[]] denote the
      object that holds the element, and distinct positions are distinct objects. *)
  Theorem C24_access s l i : dholds B maxb s l ->
    (length l <= i -> at_ B i s = Ok (s, None)) /\
    (i < length l -> exists p, at_ B i s = Ok (s, Some p) /\ Subscript B i s = Ok (s, Some p) /\
       mem s p = Obj (default None (l !! i)) /\
       forall j q, j < length l -> Subscript B j s = Ok (s, Some q) -> q = p -> j = i).
  Proof.
    intros H. pose proof (dholds_len _ _ _ _ H) as Hn. pose proof HB as HB.
    assert (Hat : at_ B i s = if length l <=? i then Ok (s, None) else Subscript B i s).
    { unfold at_, msize, mbind, mloc, mget, mret. rewrite !rbind_ok. rewrite Hn. by destruct (length l <=? i). }
    assert (Hsub : forall j, j < length l -> exists p, Subscript B j s = Ok (s, Some p) /\ eaddr B (loc s) j = Some p /\ mem s p = Obj (default None (l !! j))).
    { intros j Hj. unfold Subscript. assert (Hw : wpx (o <<- moff ;; Address_subscript B (o + j)) s (fun p s' => s' = s /\ eaddr B (loc s) j = Some p /\ mem s p = Obj (default None (l !! j))) (fun _ => False)).
      { apply wpx_bind, wpx_off. apply (wpx_elem B maxb s l j); [done|done|]. done. }
      apply wp_exists in Hw as ([s' [p|]] & He & HQ); simpl in HQ; [|done]. destruct HQ as (-> & Hp & Hm). by exists p. }
    split.
    - intros Hi. rewrite Hat. by rewrite (proj2 (Nat.leb_le _ _)).
    - intros Hi. destruct (Hsub i Hi) as (p & Hp & Hep & Hm). exists p. split; [rewrite Hat, (proj2 (Nat.leb_gt _ _)) by lia; done|].
      split; [done|]. split; [done|]. intros j q Hj Hq ->. destruct (Hsub j Hj) as (q & Hq' & Heq & _).
      rewrite Hq in Hq'. injection Hq' as <-. destruct H as [_ Ho]. apply (ow_inj _ _ _ _ _ _ Ho); [done|done|congruence].
  Qed.

  (** Whatever the history of calls and exceptions: the deque represents some sequence; no call within its preconditions
      is undefined; destruction then frees everything. *)
  Theorem C24_history s : dreachable T B maxb s ->
    (exists l, dholds B maxb s l /\ length l = dsize (loc s)) /\
    (forall op o, dop_pre (dsize (loc s)) op -> exists s' r, dexec T B maxb op (dwith s o) = Ok (s', r)) /\
    (exists s', Tidy B (dwith s []) = Ok (s', Some tt) /\ forall q, mem s' q = Unalloc).
  Proof.
    intros Hr. assert (Hh : exists l, dholds B maxb s l).
    { induction Hr as [o|s op o s' r Hr [l IH] Hp He].
      - exists []. by apply dholds_empty.
      - rewrite (dholds_len _ _ _ _ IH) in Hp.
        destruct (C24_step s l op o IH Hp) as (s1 & r1 & He1 & HQ). rewrite He in He1. injection He1 as <- <-.
        destruct r as [i|]; [eexists; apply HQ|]. apply HQ. }
    destruct Hh as [l Hh]. pose proof (dholds_len _ _ _ _ Hh) as Hn. split; [|split].
    - exists l. done.
    - intros op o Hp. rewrite Hn in Hp. destruct (C24_step s l op o Hh Hp) as (s1 & r1 & He1 & HQ). eauto.
    - assert (Hw : wpx (Tidy B) (dwith s []) (fun _ s' => forall q, mem s' q = Unalloc) (fun _ => False)).
      { eapply (Tidy_ok B maxb HB Hmax); [by apply dholds_with|]. intros s' _ _ _ Hu. exact Hu. }
      apply wp_exists in Hw as ([s' r] & He & HQ). exists s'. destruct r as [[]|]; simpl in HQ; [|done]. done.
  Qed.

  (** A whole program without exceptions is a fold over lists. *)
  Fixpoint drun (ops : list (dop A)) s : res state :=
    match ops with
    | [] => Ok s
    | op :: ops => rbind (dexec T B maxb op (dwith s [])) (fun '(s', r) => match r with Some _ => drun ops s' | None => UB end)
    end.
  Fixpoint dhist_ok (ops : list (dop A)) l : Prop :=
    match ops with
    | [] => True
    | op :: ops => dop_pre (length l) op /\ (2 * (Z.of_nat (dop_need (length l) op) + Z.of_nat B) <= Z.of_nat B * maxb)%Z /\
                   dhist_ok ops (dop_sem op l)
    end.
  Theorem C24_program ops : dhist_ok ops [] ->
    exists s, drun ops (empty_deq []) = Ok s /\ dholds B maxb s (fold_left (fun l op => dop_sem op l) ops []).
  Proof.
    assert (Hg : forall ops s l, dholds B maxb s l -> dhist_ok ops l ->
      exists s', drun ops s = Ok s' /\ dholds B maxb s' (fold_left (fun l op => dop_sem op l) ops l)).
    { clear ops. induction ops as [|op ops IH]; intros s l H Hok; [by exists s|]. destruct Hok as (Hp & Hn & Hok).
      destruct (C24_step s l op [] H Hp) as (s' & r & He & HQ).
      simpl. rewrite He, rbind_ok. destruct r as [i|].
      2:{ exfalso. destruct HQ as ([Hin|Hin] & _); [by apply elem_of_nil in Hin|lia]. }
      destruct HQ as (Hh & _). by apply IH. }
    intros Hok. apply Hg; try done. by apply dholds_empty.
  Qed.

  (** Construction from a range: either the whole range, or nothing is left allocated. *)
  Theorem C24_construct (xs : list A) o :
    exists s' r, Construct T B maxb (Some <$> xs) (empty_deq o) = Ok (s', r) /\
      match r with
      | Some _ => dholds B maxb s' (Some <$> xs)
      | None => (true ∈ o \/ (Z.of_nat B * maxb < 2 * (Z.of_nat (length xs) + Z.of_nat B))%Z) /\ forall q, mem s' q = Unalloc
      end.
  Proof.
    pose proof (Construct_ok T B maxb HB Hmax (empty_deq o) (Some <$> xs) (dholds_empty o)) as Hw.
    apply wp_exists in Hw as ([s' r] & He & HQ). exists s', r. split; [done|]. destruct r as [[]|]; simpl in HQ.
    - apply HQ.
    - destruct HQ as ([Hc|Hc] & Hu); split; try done.
      + left. by apply (quiet_in o (empty_deq o)).
      + right. by rewrite fmap_length in Hc.
  Qed.

  (** After shrink_to_fit every allocated block holds at least one element. *)
  Theorem C24_shrink s l o s' : dholds B maxb s l -> shrink_to_fit B (dwith s o) = Ok (s', Some tt) ->
    dholds B maxb s' l /\ same_objects B s s' 0 0 (length l) /\
    forall q, mem s' q <> Unalloc -> exists b i p, b <= q < b + B /\ i < length l /\ eaddr B (loc s') i = Some p /\ b <= p < b + B.
  Proof.
    intros H He. pose proof (shrink_to_fit_ok B maxb HB Hmax (dwith s o) l (dholds_with s l o H)) as Hw.
    unfold wpx in Hw. rewrite He in Hw. destruct Hw as (Hd & _ & Hso & Hb). split; [done|]. split; [exact Hso|].
    intros q Hq. destruct Hd as [_ Ho].
    destruct (decide (Exists (fun b => b <= q < b + B) (blocks (loc s')))) as [Hex|Hno].
    - apply list.Exists_exists in Hex as (b & Hin & Hbq). destruct (Hb b Hin) as (i & p & Hi & Hp & Hbp). exists b, i, p. done.
    - exfalso. apply Hq. apply (ow_out _ _ _ _ _ _ Ho). intros b Hin Hbq. apply Hno, list.Exists_exists. by exists b.
  Qed.
End deque.

(** A non-trivial program: both ends, wrap-around, growth, insertions on both sides, shrinking. Elements of 4 bytes: 4 per block. *)
Definition ex_traits : traits := Traits true true true.
Definition ex_prog : list (dop nat) :=
  [DPushBack (UCopy 1); DPushFront (UMove 2); DPushFront (UElem 1); DPrepend false [7; 8; 9]; DInsertN 2 3 (UElem 5);
   DErase 1 3; DInsertR true 6 [4; 5]; DEmplace 3 (UElem 0); DPopFront; DPopBack; DResize 12 (UElem 2); DShrink; DInsertN 8 2 (UCopy 6);
   DAppend [3; 3; 3]; DErase 5 9].
Example C24_sat_program : dhist_ok (A := nat) 4 1000 ex_prog [].
Proof. vm_compute. repeat split; try (intro; discriminate); repeat constructor. Qed.
Example C24_sat_run :
  fold_left (fun l op => dop_sem op l) ex_prog [] = Some <$> [1; 1; 7; 9; 1; 6; 7; 7; 7; 7; 3; 3; 3].
Proof. vm_compute. reflexivity. Qed.
(** a push_front that throws while allocating a block: nothing changes *)
Definition ex_s1 : st nat deq := match drun ex_traits 4 1000 [DAppend [1; 2]] (empty_deq []) with Ok s => s | _ => empty_deq [] end.
Example C24_sat_throw : dsize (loc ex_s1) = 2 /\ doff (loc ex_s1) = 0 /\ dop_pre 2 (DPushFront (UElem (A := nat) 0)) /\
  match dexec ex_traits 4 1000 (DPushFront (UElem 0)) (dwith ex_s1 [true]) with
  | Ok (s', None) => dsize (loc s') = 2 /\ dmap (loc s') = dmap (loc ex_s1) | _ => False end.
Proof. vm_compute. repeat split; repeat constructor. Qed.
Example C24_sat_reachable : dreachable ex_traits (Block_size 4) 1000 ex_s1.
Proof.
  destruct (dexec ex_traits (Block_size 4) 1000 (DAppend [1; 2]) (dwith (empty_deq []) [])) as [[s' r]| |] eqn:E.
  - assert (Hs : ex_s1 = s').
    { unfold ex_s1, drun. rewrite E. rewrite rbind_ok. destruct r; [done|]. exfalso. vm_compute in E. discriminate. }
    rewrite Hs. eapply (dr_step _ _ _ _ (DAppend [1; 2]) []); [apply (dr_empty _ _ _ [])|exact I|exact E].
  - exfalso. vm_compute in E. discriminate.
  - exfalso. vm_compute in E. discriminate.
Qed.
(** insert(where, 0, val) (deque:1423-1485) move-assigns every element of the shorter side to itself (std::move with
    equal source and destination): the element is left in its moved-from state. *)
Example C24_insert_zero :
  match dexec ex_traits 4 1000 (DInsertN 1 0 (UCopy 9)) (dwith ex_s1 []) with
  | Ok (s', Some _) =>
      match Subscript 4 1 s', Subscript 4 1 ex_s1 with
      | Ok (_, Some p), Ok (_, Some q) => p = q /\ mem s' p = Obj None /\ mem ex_s1 q = Obj (Some 2) | _, _ => False end
  | _ => False
  end.
Proof. vm_compute. repeat split. Qed.

Print Assumptions C24_step.
Print Assumptions C24_access.
Print Assumptions C24_history.
Print Assumptions C24_program.
Print Assumptions C24_construct.
Print Assumptions C24_shrink.
