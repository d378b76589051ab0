(** Histories of operations on one engine object: what the program does, and what the standard says it does. *)
From stdpp Require Import base list numbers.
From Coq Require Import ZArith Lia.
From Verif Require Import Base.Res Base.Int Rand.LcgModel Rand.LcgSpec Rand.LcgProofs Rand.EngineModel Rand.EngineSpec Rand.EngineProofs Rand.EngineProofs2
  Rand.EngineProofs3 Rand.EngineProofs4.
Local Open Scope Z_scope.

(** seed(v) or construction from v; seed(seq) or construction from a seed sequence; k calls of operator(); discard(k);
    operator>> reading a printed state *)
Inductive eop (St : Type) := OSeed (v : Z) | OSeq (gen : nat -> list Z) | OGen (k : nat) | ODiscard (k : nat) | OLoad (st : St).
Arguments OSeed {St} v. Arguments OSeq {St} gen. Arguments OGen {St} k. Arguments ODiscard {St} k. Arguments OLoad {St} st.
Definition initialises {St : Type} (o : eop St) : Prop := match o with OSeed _ | OSeq _ | OLoad _ => True | _ => False end.

(** the program; the list collects the values returned by operator() *)
Section run.
  Context {E St : Type} (next : E -> res (E * Z)) (seed : Z -> E -> res E) (seq : (nat -> list Z) -> E -> res E) (load : St -> E -> E).
  Fixpoint erun (ops : list (eop St)) (e : E) : res (list Z * E) :=
    match ops with
    | [] => Ok ([], e)
    | OSeed v :: ops => e <~ seed v e ;; erun ops e
    | OSeq g :: ops => e <~ seq g e ;; erun ops e
    | OGen k :: ops => '(l, e) <~ calls next k e ;; '(l', e) <~ erun ops e ;; Ok (l ++ l', e)
    | ODiscard k :: ops => e <~ discard_calls next k e ;; erun ops e
    | OLoad st :: ops => erun ops (load st e)
    end.
  (** the standard: states [St], transition [step], initial states [seeded], [seeded_seq] *)
  Context (step : St -> St * Z) (seeded : Z -> St) (seeded_seq : (nat -> list Z) -> St).
  Fixpoint espec (ops : list (eop St)) (st : St) : list Z * St :=
    match ops with
    | [] => ([], st)
    | OSeed v :: ops => espec ops (seeded v)
    | OSeq g :: ops => espec ops (seeded_seq g)
    | OGen k :: ops => let '(l, st) := outputs step k st in let '(l', st) := espec ops st in (l ++ l', st)
    | ODiscard k :: ops => espec ops (outputs step k st).2
    | OLoad st :: ops => espec ops st
    end.
  Context (raw : E -> Prop) (Inv : E -> St -> Prop) (okop : eop St -> Prop).
  Hypothesis Hraw : forall e st, Inv e st -> raw e.
  Hypothesis Hnext : forall e st, Inv e st -> exists e', next e = Ok (e', (step st).2) /\ Inv e' (step st).1.
  Hypothesis Hseed : forall e v, raw e -> okop (OSeed v) -> wp (seed v e) (fun e' => Inv e' (seeded v)).
  Hypothesis Hseq : forall e g, raw e -> okop (OSeq g) -> wp (seq g e) (fun e' => Inv e' (seeded_seq g)).
  Hypothesis Hload : forall e st, raw e -> okop (OLoad st) -> Inv (load st e) st.
  Lemma calls_gen k : forall e st, Inv e st -> exists e', calls next k e = Ok ((outputs step k st).1, e') /\ Inv e' (outputs step k st).2.
  Proof.
    induction k as [|k IH]; intros e st H; cbn [calls outputs]; [eauto|]. destruct (Hnext e st H) as (e1 & -> & H1). rewrite rbind_ok.
    destruct (step st) as [st1 v]. destruct (IH e1 st1 H1) as (e2 & E2 & H2). cbn [fst snd] in *. rewrite E2, rbind_ok. destruct (outputs step k st1) as [l st2]. eauto.
  Qed.
  Lemma discard_gen k : forall e st, Inv e st -> exists e', discard_calls next k e = Ok e' /\ Inv e' (outputs step k st).2.
  Proof.
    induction k as [|k IH]; intros e st H; cbn [discard_calls outputs]; [eauto|]. destruct (Hnext e st H) as (e1 & -> & H1). rewrite rbind_ok.
    destruct (step st) as [st1 v]. destruct (IH e1 st1 H1) as (e2 & E2 & H2). exists e2. split; [done|]. by destruct (outputs step k st1).
  Qed.
  Lemma erun_gen ops : forall e st, Forall okop ops -> Inv e st -> exists e', erun ops e = Ok ((espec ops st).1, e') /\ Inv e' (espec ops st).2.
  Proof.
    induction ops as [|o ops IH]; intros e st Hf H; cbn [erun espec]; [eauto|]. apply list.Forall_cons in Hf as [Ho Hf]. destruct o as [v|g|k|k|st'].
    - apply Hraw in H. destruct (wp_exists _ _ (Hseed e v H Ho)) as (e1 & -> & H1). rewrite rbind_ok. by apply IH.
    - apply Hraw in H. destruct (wp_exists _ _ (Hseq e g H Ho)) as (e1 & -> & H1). rewrite rbind_ok. by apply IH.
    - destruct (calls_gen k e st H) as (e1 & -> & H1). rewrite rbind_ok. destruct (outputs step k st) as [l st1]. destruct (IH e1 st1 Hf H1) as (e2 & -> & H2). rewrite rbind_ok.
      destruct (espec ops st1) as [l' st2]. eauto.
    - destruct (discard_gen k e st H) as (e1 & -> & H1). rewrite rbind_ok. by apply IH.
    - apply Hraw in H. apply IH; [done|]. by apply Hload.
  Qed.
  Lemma erun_init o ops e st0 : raw e -> initialises o -> Forall okop (o :: ops) ->
    exists e', erun (o :: ops) e = Ok ((espec (o :: ops) st0).1, e') /\ Inv e' (espec (o :: ops) st0).2.
  Proof.
    intros H Hi [Ho Hf]%list.Forall_cons. destruct o as [v|g|k|k|st']; [| |done|done|]; cbn [erun espec].
    - destruct (wp_exists _ _ (Hseed e v H Ho)) as (e1 & -> & H1). rewrite rbind_ok. by apply erun_gen.
    - destruct (wp_exists _ _ (Hseq e g H Ho)) as (e1 & -> & H1). rewrite rbind_ok. by apply erun_gen.
    - apply erun_gen; [done|]. by apply Hload.
  Qed.
End run.

(** *** subtract_with_carry_engine *)
Section swc.
  Context (t : ity) (w : Z) (s r : nat).
  Definition swc_run : list (eop (list Z * Z)) -> swc -> res (list Z * swc) :=
    erun (swc_next t w s r) (swc_seed t w r) (swc_seed_seq t w r) (swc_restore r).
  Definition swc_history : list (eop (list Z * Z)) -> list Z * Z -> list Z * (list Z * Z) :=
    espec (swc_step w s r) (swc_seeded w r) (swc_seeded_seq w r).
  (** seeds are unsigned numbers; a seed sequence delivers words of 32 bits; a state read back is r numbers of w bits and a carry *)
  Definition swc_okop (o : eop (list Z * Z)) : Prop :=
    match o with
    | OSeed v => 0 <= v
    | OSeq g => gen_ok g /\ (t = u64 -> 32 < w)
    | OLoad st => length st.1 = r /\ Forall (fun x => 0 <= x < 2 ^ w) st.1 /\ (st.2 = 0 \/ st.2 = 1)
    | _ => True
    end.
  Lemma swc_run_inv o ops : swc_params t w s r -> initialises o -> Forall swc_okop (o :: ops) ->
    exists e', swc_run (o :: ops) (Swc (fresh r) 0) = Ok ((swc_history (o :: ops) ([], 0)).1, e') /\ swc_inv w r e' (swc_history (o :: ops) ([], 0)).2.
  Proof.
    intros SP Hi Hf. eapply (erun_init _ _ _ _ _ _ _ (fun e => length (ax (sbuf e)) = (2 * r)%nat) (swc_inv w r) swc_okop); [..|done|done].
    - intros e st [H _ _ _]. apply (h_ax _ _ _ H).
    - intros e st H. by apply swc_next_ok.
    - intros e v H Hv. by apply (swc_seed_ok t w s).
    - intros e g H [Hg Hw]. by apply (swc_seed_seq_ok t w s).
    - intros e st H (H1 & H2 & H3). split; [|done|done|done]. cbn [swc_restore sbuf]. unfold restore. pose proof SP as [_ _ ?]. apply hist_lower; [lia| |done|].
      + rewrite app_length, fmap_length, drop_length, H. lia.
      + intros q v Hq. cbn [Nat.add]. rewrite lookup_app_l by (rewrite fmap_length; by apply lookup_lt_Some in Hq). by rewrite list_lookup_fmap, Hq.
    - cbn [sbuf fresh ax]. by rewrite replicate_length.
  Qed.
End swc.

(** *** mersenne_twister_engine *)
Section mt.
  Context (P : mt_params).
  Definition mt_run : list (eop (list Z)) -> cbuf -> res (list Z * cbuf) :=
    erun (mt_next P) (mt_seed P) (mt_seed_seq P) (mt_restore P).
  Definition mt_history : list (eop (list Z)) -> list Z -> list Z * list Z :=
    espec (mt_step (mt_w P) (mt_n P) (mt_m P) (mt_r P) (mt_a P) (mt_u P) (mt_d P) (mt_s P) (mt_b P) (mt_tt P) (mt_c P) (mt_l P))
          (mt_seeded (mt_w P) (mt_n P) (mt_f P)) (mt_seeded_seq (mt_w P) (mt_n P) (mt_r P)).
  Definition mt_okop (o : eop (list Z)) : Prop :=
    match o with
    | OSeed v => mt_t P = u16 -> mt_f P * (2 ^ mt_w P - 1) <= 2147483647
    | OSeq g => gen_ok g
    | OLoad h => length h = mt_n P /\ Forall (fun x => 0 <= x < 2 ^ mt_w P) h
    | _ => True
    end.
  Lemma mt_run_inv o ops : mt_ok P -> initialises o -> Forall mt_okop (o :: ops) ->
    exists b', mt_run (o :: ops) (fresh (mt_n P)) = Ok ((mt_history (o :: ops) []).1, b') /\ mt_inv P b' (mt_history (o :: ops) []).2.
  Proof.
    intros OK Hi Hf. eapply (erun_init _ _ _ _ _ _ _ (fun b => length (ax b) = (2 * mt_n P)%nat) (mt_inv P) mt_okop); [..|done|done].
    - intros b h H. apply (h_ax _ _ _ (mt_hist P OK _ _ H)).
    - intros b h H. apply (mt_next_ok P OK b h H).
    - intros b v H Hv. by apply mt_seed_ok.
    - intros b g H Hg. by apply mt_seed_seq_ok.
    - intros b h H (H1 & H2).
      assert (E : (fun v => Z.land v (WMSK P)) <$> h = h).
      { clear -H2 OK. induction H2 as [|v l Hv Hf IH]; [done|]. rewrite fmap_cons, IH. rewrite (land_WMSK P OK). rewrite Z.mod_small by exact Hv. done. }
      unfold mt_restore. rewrite E. unfold restore. apply mt_lower; [done| |].
      + rewrite app_length, fmap_length, drop_length, H. lia.
      + intros q v Hq. cbn [Nat.add]. rewrite lookup_app_l by (rewrite fmap_length; by apply lookup_lt_Some in Hq). by rewrite list_lookup_fmap, Hq.
    - cbn [fresh ax]. by rewrite replicate_length.
  Qed.
End mt.
