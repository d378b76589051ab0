(** The invariant of the shared state and what every event guarantees. *)
From stdpp Require Import base list numbers option decidable.
From Coq Require Import ZArith Lia.
From Verif Require Import Conc.FutureModel Conc.FutureSpec.

Section proofs.
Context {V : Type} (dc deferred : bool).
Notation pc := (pc V). Notation fev := (fev V).
Implicit Types (l : list pc) (a : pc).

Definition csum (f : pc -> nat) (l : list pc) : nat := foldr (fun a n => f a + n) 0 l.
Lemma csum_app f l1 l2 : csum f (l1 ++ l2) = csum f l1 + csum f l2.
Proof. induction l1 as [|a l1 IH]; cbn; [done|]. fold (csum f (l1 ++ l2)) (csum f l1). lia. Qed.
Lemma csum_cons f a l : csum f (a :: l) = f a + csum f l.
Proof. done. Qed.
Lemma csum_map f n l : (forall k, f (ABlk k) = f (ALoop k)) -> csum f (map (wake n) l) = csum f l.
Proof. intros H. induction l as [|a l IH]; [done|]. rewrite map_cons, !csum_cons, IH. destruct n; [|done]. destruct a; cbn; rewrite ?H; done. Qed.
Lemma csum_le f g l : (forall a, f a <= g a) -> csum f l <= csum g l.
Proof. intros H. induction l as [|a l IH]; [done|]. rewrite !csum_cons. specialize (H a). lia. Qed.
Lemma csum_none (g : pc -> bool) l : none_of g l -> csum (fun a => Nat.b2n (g a)) l = 0.
Proof. induction l as [|a l IH]; [done|]. intros H. rewrite csum_cons, (H a) by left. rewrite IH; [done|]. intros b Hb. apply H. by right. Qed.
Lemma csum_elem (f : pc -> nat) a l : a ∈ l -> f a <= csum f l.
Proof. induction 1 as [a l|a b l ? IH]; rewrite csum_cons; lia. Qed.
Lemma csum_pos (f : pc -> nat) l : 1 <= csum f l -> exists a, a ∈ l /\ 1 <= f a.
Proof.
  induction l as [|b l IH]; [cbn; lia|]. rewrite csum_cons. intros H. destruct (f b) eqn:E.
  - destruct IH as (a & Ha & Hf); [lia|]. exists a. split; [by right|done].
  - exists b. split; [left|lia].
Qed.

Definition isU (k : kind) : nat := match k with KU => 1 | _ => 0 end.
Definition ug (a : pc) : nat := match a with AWait0 k | ARun k | AStore _ k | ALoop k | ABlk k | ARead k => isU k | _ => 0 end.
Definition isG (k : kind) : nat := match k with KG => 1 | _ => 0 end.
Definition kg (a : pc) : nat := match a with AWait0 k | ARun k | AStore _ k | ALoop k | ABlk k | ARead k => isG k | _ => 0 end.
Definition own (a : pc) : nat := match a with ADtor1 | ADtor2 | ARel => 1 | _ => ug a end.
Definition bor (a : pc) : nat := Nat.b2n (borrows a).
Definition stn (a : pc) : nat := Nat.b2n (sets a).
Definition dt1 (a : pc) : nat := match a with ADtor1 => 1 | _ => 0 end.
Definition dt2 (a : pc) : nat := match a with ADtor2 => 1 | _ => 0 end.
Definition blk (a : pc) : nat := match a with ABlk _ => 1 | _ => 0 end.
Definition rdn (a : pc) : nat := match a with ARead _ => 1 | _ => 0 end.
Definition run (a : pc) : nat := match a with ARun _ => 1 | _ => 0 end.
Definition sto (a : pc) : nat := match a with AStore _ _ => 1 | _ => 0 end.
Definition w0u (a : pc) : nat := match a with AWait0 KU => 1 | _ => 0 end.

Lemma w0u_ug l : csum w0u l <= csum ug l.
Proof. apply csum_le. intros []; cbn; try lia; destruct k; cbn; lia. Qed.

Definition setsof (tr : list fev) : list (outc V) := omap (fun e => match e with ESet r => Some r | _ => None end) tr.
Definition cev (p : fev -> bool) (tr : list fev) : nat := length (List.filter p tr).
Definition isRun (e : fev) : bool := match e with ERun => true | _ => false end.
Definition isFut (e : fev) : bool := match e with EFuture => true | _ => false end.
Definition isDes (e : fev) : bool := match e with EDestroy => true | _ => false end.
Lemma cev_snoc p tr e : cev p (tr ++ [e]) = cev p tr + Nat.b2n (p e).
Proof. unfold cev. rewrite List.filter_app, app_length. cbn. destruct (p e); done. Qed.
Lemma setsof_snoc tr e : setsof (tr ++ [e]) = setsof tr ++ match e with ESet r => [r] | _ => [] end.
Proof. unfold setsof. rewrite omap_app. cbn. by destruct e. Qed.
Lemma setsof_elem tr r : r ∈ setsof tr <-> ESet r ∈ tr.
Proof.
  unfold setsof. rewrite elem_of_list_omap. split.
  - intros (e & He & E). destruct e; try done. by injection E as ->.
  - intros H. by exists (ESet r).
Qed.
Lemma cev_pos p tr e : e ∈ tr -> p e = true -> 1 <= cev p tr.
Proof.
  intros H Hp. unfold cev. assert (Hin : In e (List.filter p tr)) by (apply List.filter_In; split; [by apply elem_of_list_In|done]).
  destruct (List.filter p tr); [done|cbn; lia].
Qed.
Lemma cev_ex p tr : 1 <= cev p tr -> exists e, e ∈ tr /\ p e = true.
Proof.
  unfold cev. destruct (List.filter p tr) as [|e l] eqn:E; [cbn; lia|]. intros _. exists e. rewrite elem_of_list_In, <- List.filter_In, E. by left.
Qed.

Definition resok (ss : list (outc V)) (s : sh V) : Prop :=
  match ss with
  | [] => stored s = None /\ exn s = None /\ ready s = false /\ hasres s = false
  | [Val v] => stored s = Some v /\ exn s = None /\ ready s = true /\ hasres s = true
  | [Exc e] => stored s = None /\ exn s = Some e /\ ready s = true /\ hasres s = dc
  | _ => False
  end.
Notation A f x := (csum f (acts x)).
Record inv (tr : list fev) (x : fst_ V) : Prop := {
  v_res : resok (setsof tr) (shs x);
  v_refs : refs (shs x) = Z.of_nat (Nat.b2n (prom x) + nf x + A own x);
  v_gone : gone (shs x) = true <-> refs (shs x) = 0%Z;
  v_des : cev isDes tr = Nat.b2n (gone (shs x));
  v_blk : ready (shs x) = true -> A blk x = 0;
  v_rd : 1 <= A rdn x -> exists v, setsof tr = [Val v];
  v_bor : 1 <= A bor x -> 1 <= nf x;
  v_set : prom x = false -> A stn x = 0;
  v_dt : A dt1 x + A dt2 x + Nat.b2n (prom x) <= 1;
  v_dt2 : 1 <= A dt2 x -> setsof tr = [];
  v_brk : deferred = false -> A dt1 x + A dt2 x + Nat.b2n (prom x) = 0 -> setsof tr <> [];
  v_def : deferred = true -> prom x = false /\ A dt1 x + A dt2 x = 0 /\ A run x + A sto x + length (setsof tr) = Nat.b2n (running (shs x)) /\
          cev isRun tr = A sto x + length (setsof tr);
  v_ndef : deferred = false -> A run x + A sto x = 0 /\ cev isRun tr = 0;
  v_fut : deferred = false -> cev isFut tr = Nat.b2n (pret x);
  v_pret : pret x = false -> nf x = 0 /\ A ug x = 0 /\ shrd x = false /\ retrieved (shs x) = false /\ A bor x = 0;
  v_uq : shrd x = false -> nf x + A ug x <= 1 /\ (1 <= nf x + A w0u x -> retrieved (shs x) = false);
  v_sh : shrd x = true -> A ug x = 0;
  v_kg : 1 <= A kg x -> shrd x = true }.

Lemma already_no s : resok [] s -> already dc s = false.
Proof. intros (H1 & H2 & H3 & H4). unfold already. rewrite H4, H2. by destruct dc. Qed.
Lemma already_yes ss s : ss <> [] -> resok ss s -> already dc s = true.
Proof.
  intros Hn. destruct ss as [|[v|e] [|? ?]]; [done| |done| |done]; cbn; intros (H1 & H2 & H3 & H4); unfold already; rewrite H4, ?H2; destruct dc; done.
Qed.
Lemma store_res s r : resok [] s -> resok [r] (store dc s r).
Proof. intros (H1 & H2 & H3 & H4). destruct r; cbn; rewrite ?H1, ?H2, ?H4; destruct dc; done. Qed.
Lemma set_raw_ok ss s r s' : resok ss s -> set_raw dc s r = Some s' -> ss = [] /\ resok [r] s' /\ refs s' = refs s /\ gone s' = gone s /\ retrieved s' = retrieved s /\ running s' = running s /\ ready s' = true.
Proof.
  intros Hr H. unfold set_raw in H. destruct (decide (ss = [])) as [-> | Hn].
  - rewrite (already_no s Hr) in H. injection H as <-. split; [done|]. split; [by apply store_res|]. by destruct r.
  - by rewrite (already_yes _ s Hn Hr) in H.
Qed.
Lemma set_raw_none ss s r : resok ss s -> set_raw dc s r = None -> ss <> [].
Proof. intros Hr H ->. unfold set_raw in H. by rewrite (already_no s Hr) in H. Qed.
Lemma resok_one ss s : resok ss s -> ss = [] \/ exists r, ss = [r].
Proof. destruct ss as [|[v|e] [|? ?]]; eauto; done. Qed.

Lemma inv_init : inv [] (finit deferred).
Proof. unfold finit. destruct deferred eqn:Ed; constructor; cbn; intros; split_and?; intros; try congruence; try lia; try done. Qed.
Lemma csum_nil f : csum f [] = 0.
Proof. done. Qed.
Hint Rewrite csum_app csum_cons csum_nil cev_snoc setsof_snoc app_nil_r : cs.
Lemma csum_blk l : csum blk (map (wake true) l) = 0.
Proof. induction l as [|a l IH]; [done|]. rewrite map_cons, csum_cons, IH. by destruct a. Qed.
Lemma map_wake_false l : map (wake false) l = l.
Proof. induction l as [|a l IH]; [done|]. rewrite map_cons, IH. done. Qed.
Lemma evs_none tr r : resok (setsof tr) r -> setsof tr = [] -> no_result tr.
Proof. intros _ E q Hq. apply setsof_elem in Hq. rewrite E in Hq. by apply elem_of_nil in Hq. Qed.
Lemma evs_some tr r : setsof tr = [r] -> result tr r.
Proof. intros E. apply setsof_elem. rewrite E. by left. Qed.
Lemma evs_ex tr s : resok (setsof tr) s -> setsof tr <> [] -> exists r, result tr r.
Proof. intros H Hn. destruct (resok_one _ _ H) as [E|(r & E)]; [done|]. exists r. by apply evs_some. Qed.
Lemma ev_notin (p : fev -> bool) tr e : cev p tr = 0 -> p e = true -> e ∉ tr.
Proof. intros H Hp Hi. pose proof (cev_pos p tr e Hi Hp). lia. Qed.


Ltac norm := repeat match goal with
  | H : ?x = ?x -> _ |- _ => specialize (H eq_refl)
  | H : ?P -> _, H' : ?P |- _ => match type of P with Prop => specialize (H H') end
  | H : true = false -> _ |- _ => clear H
  | H : 1 <= _ -> _ |- _ => specialize (H ltac:(lia))
  | H : false = true -> _ |- _ => clear H
  | H : _ /\ _ |- _ => destruct H
  end.
Ltac sums := rewrite ?setsof_snoc, ?cev_snoc, ?csum_blk, ?csum_map, ?map_wake_false, ?csum_app, ?csum_cons, ?csum_nil, ?app_nil_r, ?app_nil_l by done.
Ltac wts := cbn [own kg isG ug isU bor stn dt1 dt2 blk rdn run sto w0u borrows sets Nat.b2n isRun isFut isDes app length negb andb] in *.
Ltac fld := cbn [shs prom pret nf shrd acts evl refs stored exn retrieved ready hasres running gone fst snd finish] in *; sums; wts.

Lemma rd_zero tr n : (1 <= n -> exists v, setsof tr = [Val v]) -> setsof tr = [] -> n = 0.
Proof. intros H E. destruct n; [done|]. destruct H as [v Hv]; [lia|]. by rewrite E in Hv. Qed.
Lemma ready_no ss s : resok ss s -> ready s = false -> ss = [].
Proof. destruct ss as [|[v|e] [|? ?]]; [done| |done| |done]; cbn; intros (_ & _ & H & _) H'; congruence. Qed.
Lemma ready_yes ss s : resok ss s -> ready s = true -> ss <> [].
Proof. intros H H' ->. destruct H as (_ & _ & H & _). congruence. Qed.
Lemma exn_yes ss s e : resok ss s -> exn s = Some e -> ss = [Exc e].
Proof. destruct ss as [|[v|x] [|? ?]]; [| |done| |done]; cbn; intros (_ & H & _ & _) H'; congruence. Qed.
Lemma val_yes ss s : resok ss s -> ready s = true -> exn s = None -> exists v, ss = [Val v].
Proof. destruct ss as [|[v|x] [|? ?]]; [| |done| |done]; cbn; intros (_ & H & Hr & _) H' H''; try congruence. by exists v. Qed.
Lemma stored_yes ss s v : resok ss s -> stored s = Some v -> ss = [Val v].
Proof. destruct ss as [|[w|x] [|? ?]]; [| |done| |done]; cbn; intros (H & _) H'; congruence. Qed.
Lemma one_len tr s : resok (setsof tr) s -> setsof tr <> [] -> length (setsof tr) = 1.
Proof. intros H Hn. destruct (resok_one _ _ H) as [E|(r & ->)]; done. Qed.
Ltac fin0 := intros; norm; try done; try lia; split_and?; intros; norm; try done; try lia; try congruence.
Ltac fin := fin0; repeat match goal with pm : bool |- context [Nat.b2n ?pm] => destruct pm; norm; wts; fin0 end.
Lemma inv_act tr x l1 a l2 e s' r n : inv tr x -> acts x = l1 ++ a :: l2 -> astep dc deferred (shs x) a e s' r n ->
  inv (tr ++ evl e) (FS s' (prom x) (pret x) (nf x) (shrd x) (map (wake n) (l1 ++ r ++ l2))) /\ match e with Some e => fevok deferred tr e | None => True end.
Proof.
  intros HI Ea Hs. destruct HI as [R RF GN DS BL RD BO SE DT D2 BK DF ND FU PR UQ SH KGs]. destruct x as [s pm pr nfx sd ac]. cbn [shs prom pret nf shrd acts] in *. subst ac.
  pose proof (w0u_ug l1) as Hw1. pose proof (w0u_ug l2) as Hw2. rewrite !csum_app, !csum_cons in *.
  destruct Hs as [r s' E|r E|E|E|s' E|E|E|E| |E|k e Hk Hu E|k Hk Hu E|r k|r k s' E|r k E|E|k e Hk E E2|k Hk E E2|k E|k|k v E|k E|E|E E2|E E2].
  - destruct (set_raw_ok _ _ _ _ R E) as (E1 & R' & F1 & F2 & F3 & F4 & F5). split; [|cbn; by eapply evs_none].
    assert (Hrd0 := rd_zero _ _ RD E1). assert (pm = true) as -> by (destruct pm; [done|]; norm; wts; lia). assert (Ed : deferred = false) by (destruct deferred eqn:Ed; norm; done).
    rewrite E1 in *. constructor; fld; rewrite ?E1, ?F1, ?F2, ?F3, ?F4; wts. all: fin.
  - assert (HX : setsof tr <> []) by (by eapply set_raw_none). split; [|cbn; by eapply evs_ex].
    constructor; fld. all: fin.
  - split; [|done]. pose proof (ready_yes _ _ R E). constructor; fld. all: fin.
  - split; [|done]. pose proof (ready_no _ _ R E). constructor; fld. all: fin.
  - destruct (set_raw_ok _ _ _ _ R E) as (E1 & R' & F1 & F2 & F3 & F4 & F5). split; [|cbn; by eapply evs_none].
    assert (Hrd0 := rd_zero _ _ RD E1). assert (pm = false) as -> by (destruct pm; [|done]; norm; wts; lia). assert (Ed : deferred = false) by (destruct deferred eqn:Ed; norm; wts; [lia|done]).
    rewrite E1 in *. constructor; fld; rewrite ?E1, ?F1, ?F2, ?F3, ?F4; wts. all: fin.
  - exfalso. apply (set_raw_none _ _ _ R E), D2. wts. lia.
  - assert (Hg : gone s = false) by (destruct (gone s); [|done]; destruct GN as [GN _]; specialize (GN eq_refl); wts; lia). rewrite Hg in *. split; [|done].
    constructor; fld; rewrite ?Hg; wts. all: try (split; intros; [done|lia]). all: fin.
  - assert (Hg : gone s = false) by (destruct (gone s); [|done]; destruct GN as [GN _]; rewrite GN in E by done; lia). rewrite Hg in *. split; [|cbn; by eapply (ev_notin isDes)].
    constructor; fld; rewrite ?E; wts. all: fin.
  - split; [|done]. unfold maybe_run. destruct (running s) eqn:Er, deferred eqn:Ed; constructor; fld; rewrite ?Er. all: fin.
  - exfalso. destruct sd; norm; wts; [lia|]. rewrite H0 in E; [done|lia].
  - pose proof (exn_yes _ _ _ R E) as Hx. split; [|cbn; by apply evs_some]. destruct k; [done|..]; constructor; fld. all: fin.
  - split; [|done]. unfold maybe_run, set_retrieved. destruct k; [done|..]; destruct (running s) eqn:Er, deferred eqn:Ed; constructor; fld; rewrite ?Er. all: fin.
  - split; [|cbn]. { destruct k; constructor; fld. all: fin. } destruct deferred eqn:Ed; norm; wts; [|lia]. split; [done|]. apply (ev_notin isRun); [|done]. destruct (running s); wts; lia.
  - assert (Ed : deferred = true) by (destruct deferred eqn:Ed; norm; wts; [done|lia]). destruct (set_raw_ok _ _ _ _ R E) as (E1 & R' & F1 & F2 & F3 & F4 & F5). split; [|cbn; by eapply evs_none].
    assert (Hrd0 := rd_zero _ _ RD E1). norm. subst pm. rewrite E1 in *. destruct k; constructor; fld; rewrite ?E1, ?F1, ?F2, ?F3, ?F4; wts. all: fin.
  - exfalso. pose proof (set_raw_none _ _ _ R E) as Hn. pose proof (one_len _ _ R Hn). destruct deferred eqn:Ed; norm; wts; [destruct (running s); wts; lia|lia].
  - pose proof (ready_yes _ _ R E) as Hn. split; [|cbn; by eapply evs_ex]. constructor; fld. all: fin.
  - pose proof (exn_yes _ _ _ R E2) as Hx. split; [|cbn; by apply evs_some]. destruct k; [done|..]; constructor; fld. all: fin.
  - pose proof (val_yes _ _ R E E2) as Hx. split; [|done]. destruct k; [done|..]; constructor; fld. all: fin.
  - split; [|done]. destruct k; constructor; fld. all: fin.
  - split; [|done]. destruct k; constructor; fld. all: fin.
  - pose proof (stored_yes _ _ _ R E) as Hx. split; [|cbn; by apply evs_some]. destruct k; constructor; fld. all: fin.
  - exfalso. destruct RD as [v Hv]; [wts; lia|]. rewrite Hv in R. destruct R as [R _]. congruence.
  - apply andb_true_iff in E as [Er Ed]. apply negb_true_iff in Er. norm. split.
    + constructor; fld. all: fin.
    + cbn. rewrite Er in *. wts. split; [done|]. split; [|apply (ev_notin isRun); [lia|done]]. eapply evs_none; [exact R|]. destruct (setsof tr); [done|cbn in *; lia].
  - pose proof (ready_yes _ _ R E2) as Hn. split; [|cbn; by eapply evs_ex]. constructor; fld. all: fin.
  - pose proof (ready_no _ _ R E2) as Hn. split; [|cbn; by eapply evs_none]. constructor; fld. all: fin.
Qed.
End proofs.
