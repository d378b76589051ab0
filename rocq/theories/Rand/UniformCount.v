(** Counting the tapes on which a program returns a given value. *)
From stdpp Require Import base list numbers list_numbers.
From Coq Require Import ZArith Lia.
From Verif Require Import Base.Res Rand.UniformModel Rand.UniformSpec.
Local Open Scope nat_scope.

Notation sm := sum_list_with.
Section sums.
  Context {A B : Type}.
  Lemma sm_ext (f g : A -> nat) l : (forall a, a ∈ l -> f a = g a) -> sm f l = sm g l.
  Proof. intros H. induction l as [|a l IH]; [done|]. cbn. rewrite H, IH; [done| |left]. intros b Hb. apply H. by right. Qed.
  Lemma sm_0 (l : list A) : sm (fun _ => 0) l = 0.
  Proof. induction l; [done|]. done. Qed.
  Lemma sm_zero (f : A -> nat) l : (forall a, a ∈ l -> f a = 0) -> sm f l = 0.
  Proof. intros H. rewrite (sm_ext f (fun _ => 0)); [apply sm_0|done]. Qed.
  Lemma sm_add (f g : A -> nat) l : sm (fun a => f a + g a) l = sm f l + sm g l.
  Proof. induction l as [|a l IH]; [done|]. cbn. rewrite IH. lia. Qed.
  Lemma sm_mul_l k (f : A -> nat) l : sm (fun a => k * f a) l = k * sm f l.
  Proof. induction l as [|a l IH]; cbn; [lia|]. rewrite IH. lia. Qed.
  Lemma sm_mul_r k (f : A -> nat) l : sm (fun a => f a * k) l = sm f l * k.
  Proof. induction l as [|a l IH]; cbn; [lia|]. rewrite IH. lia. Qed.
  Lemma sm_fmap (g : B -> A) (f : A -> nat) l : sm f (g <$> l) = sm (fun b => f (g b)) l.
  Proof. induction l as [|b l IH]; [done|]. rewrite fmap_cons. cbn. by rewrite IH. Qed.
  Lemma sm_const k (l : list A) : sm (fun _ => k) l = length l * k.
  Proof. induction l as [|a l IH]; cbn; [done|]. rewrite IH. lia. Qed.
End sums.
Section sums2.
  Context {A B : Type}.
  Lemma sm_swap (f : A -> B -> nat) l m : sm (fun a => sm (f a) m) l = sm (fun b => sm (fun a => f a b) l) m.
  Proof.
    induction l as [|a l IH]; cbn; [by rewrite sm_0|]. rewrite IH. rewrite <-sm_add. done.
  Qed.
  Lemma sm_bind (g : B -> list A) (f : A -> nat) l : sm f (b ← l; g b) = sm (fun b => sm f (g b)) l.
  Proof. induction l as [|b l IH]; [done|]. transitivity (sm f (g b ++ (l ≫= (fun b => g b)))); [done|]. rewrite sum_list_with_app, IH. done. Qed.
  Lemma sm_one `{EqDecision A} (a : A) (f : A -> nat) l : NoDup l -> a ∈ l -> sm (fun x => if bool_decide (x = a) then f x else 0) l = f a.
  Proof.
    induction 1 as [|b l Hb Hl IH]; intros Ha; [by apply elem_of_nil in Ha|]. cbn. apply elem_of_cons in Ha as [->|Ha].
    - rewrite bool_decide_true by done. rewrite sm_zero; [lia|]. intros x Hx. rewrite bool_decide_false; [done|]. by intros ->.
    - rewrite bool_decide_false by (intros ->; done). rewrite IH by done. done.
  Qed.
End sums2.
Definition b2n (b : bool) : nat := if b then 1 else 0.
Lemma filter_sm {A} (p : A -> bool) l : length (List.filter p l) = sm (fun a => b2n (p a)) l.
Proof. induction l as [|a l IH]; [done|]. cbn. destruct (p a); cbn; by rewrite IH. Qed.
Lemma sm_split {A} (p : A -> bool) (f : A -> nat) l : sm f l = sm (fun a => if p a then f a else 0) l + sm (fun a => if p a then 0 else f a) l.
Proof. rewrite <-sm_add. apply sm_ext. intros a _. destruct (p a); lia. Qed.
Lemma sm_pos_ex {A} (f : A -> nat) l : 0 < sm f l -> exists a, a ∈ l /\ 0 < f a.
Proof.
  induction l as [|v l IH]; cbn; intros H; [lia|]. destruct (decide (0 < f v)) as [Hf|Hf]; [exists v; split; [left|done]|].
  destruct IH as (w & Hw & Hp); [lia|]. exists w. split; [by right|done].
Qed.
Lemma sm_seq_S f n : sm f (seq 0 (S n)) = f 0 + sm (fun i => f (S i)) (seq 0 n).
Proof. cbn. rewrite <-(fmap_S_seq 0 n). by rewrite sm_fmap. Qed.
(** sums over ranges of Z *)
Lemma seqZ_app' m a b : (0 <= a)%Z -> (0 <= b)%Z -> seqZ m (a + b) = seqZ m a ++ seqZ (m + a) b.
Proof. intros. by rewrite seqZ_app. Qed.
Lemma sm_seqZ_shift f m n k : sm f (seqZ (m + k) n) = sm (fun z => f (z + k)%Z) (seqZ m n).
Proof.
  rewrite <-(sm_fmap (fun z => (z + k)%Z) f). f_equal. unfold seqZ. rewrite <-list_fmap_compose. apply list_fmap_ext. intros i x Hx. cbn. lia.
Qed.

Section cnt.
  Context (V : list Z).
  Notation onV t := (Forall (fun v => v ∈ V) t).
  Definition D {A : Type} (v : Z) (F : rnd A) : rnd A := fun t => F (v :: t).
  Section one.
    Context {A : Type} `{EqDecision A}.
    Implicit Type F : rnd A.
    Lemma hits_0 F a : hits V F 0 a = b2n (exact F a []).
    Proof. unfold hits. cbn [tapes]. rewrite filter_sm. cbn. lia. Qed.
    Lemma hits_S F n a : hits V F (S n) a = sm (fun v => hits V (D v F) n a) V.
    Proof. unfold hits. cbn [tapes]. rewrite filter_sm, sm_bind. apply sm_ext. intros v _. by rewrite sm_fmap, filter_sm. Qed.
    Lemma hits_ext F F' n a : (forall t, onV t -> F t = F' t) -> hits V F n a = hits V F' n a.
    Proof.
      revert F F'. induction n as [|n IH]; intros F F' H; [rewrite !hits_0; unfold exact; by rewrite H by constructor|].
      rewrite !hits_S. apply sm_ext. intros v Hv. apply IH. intros t Ht. apply H. by constructor.
    Qed.
    Lemma hits_none F n a : (forall t, onV t -> length t = n -> exact F a t = false) -> hits V F n a = 0.
    Proof.
      revert F. induction n as [|n IH]; intros F H; [rewrite hits_0, H by (constructor || done); done|].
      rewrite hits_S. apply sm_zero. intros v Hv. apply IH. intros t Ht Hl. apply (H (v :: t)); [by constructor|cbn; lia].
    Qed.
    Lemma hits_pos F t a : onV t -> F t = Ok (a, []) -> 0 < hits V F (length t) a.
    Proof.
      revert F. induction t as [|v t IH]; intros F Ht HF.
      - rewrite hits_0. unfold exact. rewrite HF. rewrite bool_decide_true by done. cbn. lia.
      - cbn [length]. rewrite hits_S. apply list.Forall_cons in Ht as [Hv Ht]. specialize (IH (D v F) Ht HF).
        apply elem_of_list_split in Hv as (l1 & l2 & ->). rewrite sum_list_with_app. cbn. revert IH. generalize (hits (l1 ++ v :: l2) (D v F) (length t) a). lia.
    Qed.
    Lemma hits_ex F n a : 0 < hits V F n a -> exists t, onV t /\ length t = n /\ F t = Ok (a, []).
    Proof.
      revert F. induction n as [|n IH]; intros F H.
      - rewrite hits_0 in H. exists []. split; [constructor|]. split; [done|]. unfold exact in H. destruct (F []) as [[x [|]]| |]; try (cbn in H; lia).
        case_bool_decide; [by subst|cbn in H; lia].
      - rewrite hits_S in H. assert (exists v, v ∈ V /\ 0 < hits V (D v F) n a) as (v & Hv & Hp).
        { by apply sm_pos_ex in H. }
        destruct (IH _ Hp) as (t & Ht & Hl & HF). exists (v :: t). split; [by constructor|]. split; [cbn; lia|]. exact HF.
    Qed.
    (** a program reads a prefix of its tape and is determined by it *)
    Record causal F : Prop := {
      ca_ext : forall p a, F p = Ok (a, []) -> forall t, F (p ++ t) = Ok (a, t);
      ca_shr : forall t a r, F t = Ok (a, r) -> exists p, t = p ++ r /\ F p = Ok (a, [])
    }.
    Lemma causal_nil F a r : causal F -> F [] = Ok (a, r) -> r = [].
    Proof. intros C E. destruct (ca_shr F C _ _ _ E) as (p & Hp & _). by destruct p, r. Qed.
    Lemma causal_D F v : causal F -> (forall a, F [] <> Ok (a, [])) -> causal (D v F).
    Proof.
      intros C Hn. split.
      - intros p a Hp t. unfold D in *. by apply (ca_ext F C (v :: p)).
      - intros t a r E. unfold D in *. destruct (ca_shr F C _ _ _ E) as (p & Hp & Ep). destruct p as [|w p]; [by apply Hn in Ep|]. injection Hp as -> ->. eauto.
    Qed.
    Lemma causal_ret (a : A) : causal (rret a).
    Proof. split; [intros p x [= <- ->] t; done|]. intros t x r [= <- <-]. by exists []. Qed.
    Lemma causal_ext F F' : (forall t, F t = F' t) -> causal F -> causal F'.
    Proof.
      intros E [H1 H2]. split.
      - intros p a Hp t. rewrite <-E in *. by apply H1.
      - intros t a r Ht. rewrite <-E in Ht. destruct (H2 _ _ _ Ht) as (p & ? & ?). exists p. by rewrite <-E.
    Qed.
    Lemma hits_ret (a b : A) n : hits V (rret a) n b = if bool_decide (n = 0 /\ a = b) then 1 else 0.
    Proof.
      destruct n as [|n].
      - rewrite hits_0. unfold exact, rret. cbn. destruct (decide (a = b)) as [->|]; [by rewrite !bool_decide_true by done|]. rewrite !bool_decide_false; [done|naive_solver|done].
      - rewrite bool_decide_false by (intros [? _]; lia). apply hits_none. intros t Ht Hl. unfold exact, rret. by destruct t.
    Qed.
  End one.

  Section bind.
    Context {A B : Type} `{EqDecision A} `{EqDecision B}.
    Lemma causal_bind (F : rnd A) (G : A -> rnd B) : causal F -> (forall t a r, F t = Ok (a, r) -> causal (G a)) -> causal (rbnd F G).
    Proof.
      intros C CG. split.
      - intros p b Hp t. unfold rbnd in *. destruct (F p) as [[a r]| |] eqn:E; [|done|done]. rewrite rbind_ok in Hp. destruct (ca_shr F C _ _ _ E) as (q & -> & Eq).
        rewrite <-app_assoc. rewrite (ca_ext F C _ _ Eq). rewrite rbind_ok. apply (ca_ext _ (CG _ _ _ E)). done.
      - intros t b r Ht. unfold rbnd in *. destruct (F t) as [[a r1]| |] eqn:E; [|done|done]. rewrite rbind_ok in Ht. destruct (ca_shr F C _ _ _ E) as (q & -> & Eq).
        destruct (ca_shr _ (CG _ _ _ E) _ _ _ Ht) as (p & -> & Ep). exists (q ++ p). split; [by rewrite app_assoc|]. rewrite (ca_ext F C _ _ Eq). by rewrite rbind_ok.
    Qed.
    Lemma hits_conv n : forall (F : rnd A) (G : A -> rnd B) As b, causal F -> NoDup As -> (forall t a r, onV t -> F t = Ok (a, r) -> a ∈ As) ->
      hits V (rbnd F G) n b = sm (fun i => sm (fun a => hits V F i a * hits V (G a) (n - i) b) As) (seq 0 (S n)).
    Proof.
      induction n as [|n IH]; intros F G As b C Hnd Has.
      - cbn [seq sum_list_with]. rewrite Nat.add_0_r, hits_0. unfold exact, rbnd. destruct (F []) as [[a r]| |] eqn:E.
        + pose proof (causal_nil F a r C E) as ->. rewrite rbind_ok. rewrite (sm_ext _ (fun x => if bool_decide (x = a) then hits V (G x) 0 b else 0)).
          * rewrite sm_one; [by rewrite hits_0|done|]. by apply (Has [] a []).
          * intros x _. rewrite hits_0. unfold exact. rewrite E. destruct (decide (x = a)) as [->|Hx]; [rewrite !bool_decide_true by done; cbn; lia|]. by rewrite !bool_decide_false by congruence.
        + rewrite sm_zero; [done|]. intros x _. rewrite hits_0. unfold exact. by rewrite E.
        + rewrite sm_zero; [done|]. intros x _. rewrite hits_0. unfold exact. by rewrite E.
      - destruct (F []) as [[a r]| |] eqn:E.
        + pose proof (causal_nil F a r C E) as ->. assert (HF : forall t, F t = Ok (a, t)) by (intros t; apply (ca_ext F C [] a E)).
          rewrite (hits_ext _ (G a)) by (intros t _; unfold rbnd; by rewrite HF, rbind_ok).
          rewrite sm_seq_S. rewrite (sm_zero _ (seq 0 (S n))).
          * rewrite Nat.sub_0_r, Nat.add_0_r. rewrite (sm_ext _ (fun x => if bool_decide (x = a) then hits V (G x) (S n) b else 0)).
            -- rewrite sm_one; [done|done|]. by apply (Has [] a []).
            -- intros x _. rewrite (hits_0 F). unfold exact. rewrite E. destruct (decide (x = a)) as [->|Hx]; [rewrite !bool_decide_true by done; cbn; lia|]. by rewrite !bool_decide_false by congruence.
          * intros i _. apply sm_zero. intros x _. rewrite hits_none; [done|]. intros t Ht Hl. unfold exact. rewrite HF. by destruct t.
        + rewrite hits_S, sm_seq_S. rewrite (sm_zero _ As) by (intros x _; rewrite hits_0; unfold exact; by rewrite E). rewrite Nat.add_0_l.
          rewrite (sm_ext _ (fun v => sm (fun i => sm (fun a => hits V (D v F) i a * hits V (G a) (n - i) b) As) (seq 0 (S n)))).
          * rewrite sm_swap. apply sm_ext. intros i _. rewrite sm_swap. apply sm_ext. intros a _. rewrite sm_mul_r. by rewrite (hits_S F).
          * intros v Hv. change (D v (rbnd F G)) with (rbnd (D v F) G). apply IH; [|done|]. { apply causal_D; [done|]. intros x. rewrite E. done. }
            intros t a r Ht. apply (Has (v :: t)). by constructor.
        + rewrite hits_S, sm_seq_S. rewrite (sm_zero _ As) by (intros x _; rewrite hits_0; unfold exact; by rewrite E). rewrite Nat.add_0_l.
          rewrite (sm_ext _ (fun v => sm (fun i => sm (fun a => hits V (D v F) i a * hits V (G a) (n - i) b) As) (seq 0 (S n)))).
          * rewrite sm_swap. apply sm_ext. intros i _. rewrite sm_swap. apply sm_ext. intros a _. rewrite sm_mul_r. by rewrite (hits_S F).
          * intros v Hv. change (D v (rbnd F G)) with (rbnd (D v F) G). apply IH; [|done|]. { apply causal_D; [done|]. intros x. rewrite E. done. }
            intros t a r Ht. apply (Has (v :: t)). by constructor.
    Qed.
  End bind.

  (** [u n] tapes of length n for each of the (distinct) values in [As] *)
  Record unif {A : Type} `{EqDecision A} (F : rnd A) (As : list A) (u : nat -> nat) : Prop := {
    uf_causal : causal F;
    uf_nodup : NoDup As;
    uf_in : forall t a r, onV t -> F t = Ok (a, r) -> a ∈ As;
    uf_ub : forall t, onV t -> F t <> UB;
    uf_hits : forall n a, a ∈ As -> hits V F n a = u n;
    uf_pos : exists n, 0 < u n
  }.
  Definition conv (u w : nat -> nat) (n : nat) : nat := sm (fun i => u i * w (n - i)) (seq 0 (S n)).
  Lemma conv_pos u w i j : 0 < u i -> 0 < w j -> 0 < conv u w (i + j).
  Proof.
    intros Hu Hw. unfold conv. assert (E : seq 0 (S (i + j)) = seq 0 i ++ i :: seq (S i) j) by (replace (S (i + j)) with (i + S j) by lia; rewrite seq_app; done).
    rewrite E, sum_list_with_app. cbn. replace (i + j - i) with j by lia. nia.
  Qed.
  Definition delta0 (n : nat) : nat := if bool_decide (n = 0) then 1 else 0.
  Lemma conv_delta0 u n : conv u delta0 n = u n.
  Proof.
    unfold conv. rewrite (sm_ext _ (fun i => if bool_decide (i = n) then u i else 0)).
    - apply sm_one; [apply NoDup_seq|]. apply elem_of_seq. lia.
    - intros i Hi%elem_of_seq. unfold delta0. destruct (decide (i = n)) as [->|]; [rewrite !bool_decide_true by lia; lia|]. rewrite !bool_decide_false by lia. lia.
  Qed.
  Lemma onV_rest {A : Type} (F : rnd A) t a r : causal F -> onV t -> F t = Ok (a, r) -> onV r.
  Proof. intros C Ht E. destruct (ca_shr F C _ _ _ E) as (p & -> & _). by apply list.Forall_app in Ht as [_ ?]. Qed.

  (** the general composition: each value b is reached with weight [c a b] from a, and the weights add up to the same total *)
  Lemma unif_bind {A B : Type} `{EqDecision A} `{EqDecision B} (F : rnd A) As u (G : A -> rnd B) Bs (c : A -> B -> nat) w m :
    unif F As u -> NoDup Bs -> (forall t a r, F t = Ok (a, r) -> causal (G a)) ->
    (forall a, a ∈ As -> forall t b r, onV t -> G a t = Ok (b, r) -> b ∈ Bs) ->
    (forall a, a ∈ As -> forall t, onV t -> G a t <> UB) ->
    (forall a b n, a ∈ As -> b ∈ Bs -> hits V (G a) n b = c a b * w n) ->
    (forall b, b ∈ Bs -> sm (fun a => c a b) As = m) -> 0 < m -> (exists n, 0 < w n) ->
    unif (rbnd F G) Bs (fun n => m * conv u w n).
  Proof.
    intros U HB HC HG1 HG2 HG3 Hm Hm0 [j Hj]. pose proof U as [C Hnd Hin Hub Hh [i Hi]]. split; [by apply causal_bind|done| | | |].
    - intros t b r Ht E. unfold rbnd in E. destruct (F t) as [[a r1]| |] eqn:Et; [|done|done]. rewrite rbind_ok in E. apply (HG1 a) with (2 := onV_rest F t a r1 C Ht Et) (3 := E). by apply (Hin t a r1).
    - intros t Ht. unfold rbnd. destruct (F t) as [[a r1]| |] eqn:Et; [|by apply Hub in Et|done]. rewrite rbind_ok. apply HG2; [by apply (Hin t a r1)|by apply (onV_rest F t a r1)].
    - intros n b Hb. rewrite (hits_conv n F G As b C Hnd Hin). unfold conv. rewrite <-sm_mul_l. apply sm_ext. intros k _.
      rewrite (sm_ext _ (fun a => u k * w (n - k) * c a b)). { rewrite sm_mul_l. rewrite Hm by done. lia. }
      intros a Ha. rewrite Hh, HG3 by done. lia.
    - exists (i + j). pose proof (conv_pos u w i j Hi Hj). nia.
  Qed.
  Lemma unif_map {A B : Type} `{EqDecision A} `{EqDecision B} (F : rnd A) As u (f : A -> B) Bs m :
    unif F As u -> NoDup Bs -> (forall a, a ∈ As -> f a ∈ Bs) ->
    (forall b, b ∈ Bs -> sm (fun a => b2n (bool_decide (f a = b))) As = m) -> 0 < m ->
    unif (rbnd F (fun a => rret (f a))) Bs (fun n => m * u n).
  Proof.
    intros U HB Hf Hm Hm0.
    assert (U' : unif (rbnd F (fun a => rret (f a))) Bs (fun n => m * conv u delta0 n)).
    { apply (unif_bind F As u _ Bs (fun a b => b2n (bool_decide (f a = b))) delta0 m); [done|done| | | | |done|done|].
      - intros t a r _. apply causal_ret.
      - intros a Ha t b r _ [= <- _]. by apply Hf.
      - intros a Ha t _. done.
      - intros a b n _ _. rewrite hits_ret. unfold delta0. destruct (decide (n = 0)), (decide (f a = b)); repeat first [rewrite bool_decide_true by done | rewrite bool_decide_false by naive_solver]; done.
      - exists 0. unfold delta0; rewrite bool_decide_true by done; lia. }
    destruct U' as [H1 H2 H3 H4 H5 [n Hn]]. split; try done.
    - intros k b Hb. rewrite H5 by done. by rewrite conv_delta0.
    - exists n. by rewrite conv_delta0 in Hn.
  Qed.
  Lemma unif_ext {A : Type} `{EqDecision A} (F F' : rnd A) As u : (forall t, F t = F' t) -> unif F As u -> unif F' As u.
  Proof.
    intros E [H1 H2 H3 H4 H5 H6]. split; [by apply (causal_ext F)|done| | | |done].
    - intros t a r Ht. rewrite <-E. by apply H3.
    - intros t Ht. rewrite <-E. by apply H4.
    - intros n a Ha. rewrite <-(H5 n a Ha). apply hits_ext. intros t _. by rewrite E.
  Qed.
  Lemma unif_u {A : Type} `{EqDecision A} (F : rnd A) As u w : (forall n, u n = w n) -> unif F As u -> unif F As w.
  Proof. intros E [H1 H2 H3 H4 H5 [n H6]]. split; try done. - intros. rewrite <-E. by apply H5. - exists n. by rewrite <-E. Qed.
  Lemma unif_uniform {A : Type} `{EqDecision A} (F : rnd A) As u (good : A -> Prop) : unif F As u -> (forall a, a ∈ As <-> good a) -> uniform V F good.
  Proof.
    intros [H1 H2 H3 H4 H5 [n H6]] Hg. split.
    - intros a b k Ha%Hg Hb%Hg. by rewrite !H5.
    - intros a Ha%Hg. exists n. by rewrite H5.
    - intros t a r Ht E. apply Hg. by apply (H3 t a r).
    - done.
  Qed.
End cnt.

(** loops that draw until the value is acceptable *)
Section reject.
  Context (V : list Z) {X A : Type} `{EqDecision X} `{EqDecision A} (R : rnd X) (acc : X -> bool) (f : X -> A).
  Notation onV t := (Forall (fun v => v ∈ V) t).
  Fixpoint Wf (fuel : nat) : rnd A := fun t =>
    match fuel with O => Fuel | S fuel => '(x, t) <~ R t ;; if acc x then Ok (f x, t) else Wf fuel t end.
  Definition W : rnd A := fun t => Wf (S (length t)) t.
  Hypothesis C : causal R.
  Hypothesis Hcons : forall x, R [] <> Ok (x, []).
  Lemma R_shorter t x r : R t = Ok (x, r) -> length r < length t.
  Proof.
    intros E. destruct (ca_shr R C _ _ _ E) as (p & -> & Ep). destruct p as [|v p]; [by apply Hcons in Ep|]. rewrite app_length. cbn. lia.
  Qed.
  Lemma Wf_fuel n m t : length t < n -> length t < m -> Wf n t = Wf m t.
  Proof.
    revert m t. induction n as [|n IH]; intros m t Hn Hm; [lia|]. destruct m as [|m]; [lia|]. cbn [Wf]. destruct (R t) as [[x r]| |] eqn:E; [|done|done]. rewrite !rbind_ok.
    destruct (acc x); [done|]. apply R_shorter in E. apply IH; lia.
  Qed.
  Lemma W_eq t : W t = rbnd R (fun x => if acc x then rret (f x) else W) t.
  Proof.
    unfold W at 1. cbn [Wf]. unfold rbnd. destruct (R t) as [[x r]| |] eqn:E; [|done|done]. rewrite !rbind_ok. destruct (acc x); [done|]. apply R_shorter in E. apply Wf_fuel; lia.
  Qed.
  Lemma W_causal : causal W.
  Proof.
    split.
    - assert (H : forall n p, length p < n -> forall a, W p = Ok (a, []) -> forall t, W (p ++ t) = Ok (a, t)); [|intros p; apply (H (S (length p)) p); lia].
      induction n as [|n IH]; intros p Hp a Ha t; [lia|]. rewrite W_eq in Ha |- *. unfold rbnd in *. destruct (R p) as [[x r]| |] eqn:E; [|done|done]. rewrite rbind_ok in Ha.
      pose proof (R_shorter _ _ _ E). destruct (ca_shr R C _ _ _ E) as (q & -> & Eq). rewrite <-app_assoc, (ca_ext R C _ _ Eq), rbind_ok. destruct (acc x); [unfold rret in *; injection Ha as <- ->; done|].
      apply IH; [lia|done].
    - assert (H : forall n t, length t < n -> forall a r, W t = Ok (a, r) -> exists p, t = p ++ r /\ W p = Ok (a, [])); [|intros t; apply (H (S (length t)) t); lia].
      induction n as [|n IH]; intros t Ht a r Ha; [lia|]. rewrite W_eq in Ha. unfold rbnd in *. destruct (R t) as [[x r1]| |] eqn:E; [|done|done]. rewrite rbind_ok in Ha.
      pose proof (R_shorter _ _ _ E). destruct (ca_shr R C _ _ _ E) as (q & -> & Eq). destruct (acc x) eqn:Ex.
      + injection Ha as <- <-. exists q. split; [done|]. rewrite W_eq. unfold rbnd. rewrite Eq, rbind_ok, Ex. done.
      + destruct (IH r1 ltac:(lia) a r Ha) as (p & -> & Ep). exists (q ++ p). split; [by rewrite app_assoc|]. rewrite W_eq. unfold rbnd. rewrite (ca_ext R C _ _ Eq), rbind_ok, Ex. done.
  Qed.
  Lemma W_unif Xs u Ks m k0 : unif V R Xs u -> NoDup Ks -> k0 ∈ Ks ->
    (forall x, x ∈ Xs -> acc x = true -> f x ∈ Ks) ->
    (forall k, k ∈ Ks -> sm (fun x => b2n (acc x && bool_decide (f x = k))) Xs = m) -> 0 < m ->
    unif V W Ks (fun n => hits V W n k0).
  Proof.
    intros U HK Hk0 Hf Hm Hm0. pose proof U as [_ Hnd Hin Hub Hh [i Hi]].
    assert (u0 : u 0 = 0).
    { destruct (decide (u 0 = 0)) as [|Hu]; [done|]. assert (exists x, x ∈ Xs) as (x & Hx).
      { specialize (Hm k0 Hk0). destruct Xs as [|x ?]; [cbn in Hm; lia|]. exists x. left. }
      rewrite <-(Hh 0 x Hx) in Hu. rewrite hits_0 in Hu. unfold exact in Hu. specialize (Hcons) as Hc. destruct (R []) as [[y [|]]| |]; try done. by destruct (Hc y). }
    set (nrej := sm (fun x => b2n (negb (acc x))) Xs).
    assert (Hrec : forall n k, k ∈ Ks -> hits V W n k = m * u n + nrej * sm (fun i => u (S i) * hits V W (n - S i) k) (seq 0 n)).
    { intros n k Hk. rewrite (hits_ext V W (rbnd R (fun x => if acc x then rret (f x) else W))) by (intros t _; apply W_eq).
      rewrite (hits_conv V n R _ Xs k C Hnd Hin).
      rewrite (sm_ext _ (fun i => m * (if bool_decide (i = n) then u i else 0) + nrej * (u i * hits V W (n - i) k))).
      - rewrite sm_add, !sm_mul_l. rewrite sm_one; [|apply NoDup_seq|apply elem_of_seq; lia]. f_equal. f_equal. rewrite sm_seq_S, u0. done.
      - intros j Hj%elem_of_seq. rewrite <-(Hm k Hk). unfold nrej. rewrite <-!sm_mul_r, <-sm_add. apply sm_ext. intros x Hx. rewrite Hh by done. destruct (acc x); cbn [negb b2n andb].
        + rewrite hits_ret. destruct (decide (f x = k)), (decide (j = n)); repeat first [rewrite bool_decide_true by (done || (split; [lia|done])) | rewrite bool_decide_false by (done || lia || (intros [? ?]; (done || lia)))]; cbn [b2n]; lia.
        + lia. }
    assert (Hfair : forall n k, k ∈ Ks -> hits V W n k = hits V W n k0).
    { induction n as [n IH] using lt_wf_ind. intros k Hk. rewrite !Hrec by done. f_equal. f_equal. apply sm_ext. intros j Hj%elem_of_seq. f_equal. apply IH; [lia|done]. }
    assert (HWin : forall n t, length t < n -> onV t -> W t <> UB /\ forall a r, W t = Ok (a, r) -> a ∈ Ks).
    { induction n as [|n IH]; intros t Hl Ht; [lia|]. rewrite W_eq. unfold rbnd. destruct (R t) as [[x r]| |] eqn:E; [|by apply Hub in E|done]. rewrite rbind_ok.
      pose proof (Hin t x r Ht E) as Hx. pose proof (R_shorter _ _ _ E). destruct (acc x) eqn:Ex; [split; [done|]; intros a r' [= <- _]; by apply Hf|]. apply IH; [lia|]. by apply (onV_rest V R t x r). }
    split; [apply W_causal|done| | |done|].
    - intros t a r Ht. apply (HWin (S (length t)) t); [lia|done].
    - intros t Ht. apply (HWin (S (length t)) t); [lia|done].
    - exists i. rewrite Hrec by done. nia.
  Qed.
End reject.
