(** Beginning an operation; reachable states; progress of waiting operations. *)
From stdpp Require Import base list numbers option decidable.
From Coq Require Import ZArith Lia.
From Verif Require Import Conc.FutureModel Conc.FutureSpec Conc.FutureProofs.

Section proofs.
Context {V : Type} (dc deferred : bool).
Notation pc := (pc V). Notation fev := (fev V). Notation inv := (inv dc deferred).

Ltac norm := repeat match goal with
  | H : ?x = ?x -> _ |- _ => specialize (H eq_refl)
  | H : ?P -> _, H' : ?P |- _ => match type of P with Prop => specialize (H H') end
  | H : true = false -> _ |- _ => clear H
  | H : 1 <= _ -> _ |- _ => specialize (H ltac:(lia))
  | H : false = true -> _ |- _ => clear H
  | H : _ /\ _ |- _ => destruct H
  end.
Ltac wts := cbn [own kg isG ug isU bor stn dt1 dt2 blk rdn run sto w0u borrows sets Nat.b2n isRun isFut isDes app length negb andb] in *.
Ltac fld := cbn [shs prom pret nf shrd acts evl addref refs stored exn retrieved ready hasres running gone fst snd finish] in *;
  rewrite ?setsof_snoc, ?cev_snoc, ?csum_app, ?csum_cons, ?csum_nil, ?app_nil_r by done; wts.
Ltac fin0 := intros; norm; try done; try lia; split_and?; intros; norm; try done; try lia; try congruence; try (match goal with H : _ = _ -> ?G |- ?G => apply H; lia end).
Ltac fin := fin0; repeat match goal with pm : bool |- context [Nat.b2n ?pm] => destruct pm; norm; wts; fin0 end.

Lemma inv_step (tr : list fev) (x : fst_ V) (e : option fev) (y : fst_ V) : inv tr x -> fstep dc deferred x e y -> inv (tr ++ evl e) y /\ match e with Some e => fevok deferred tr e | None => True end.
Proof.
  intros HI Hs. destruct Hs as [l1 a l2 e s' r n Ea Ha|r Hp|Hp Hf|Hp Hf|Hp Hn|Hn Hv|Hn Hv|Hn Hv|Hn Hv|Hn Hd Hv Hb|Hn Hd Hb|Hn Hd|Hn Hb].
  { by eapply inv_act. }
  all: destruct HI as [R RF GN DS BL RD BO SE DT D2 BK DF ND FU PR UQ SH KGs]; destruct x as [s pm pr nfx sd ac]; cbn [shs prom pret nf shrd acts] in *; try subst pm.
  all: assert (Hlive : 1 <= nfx -> gone s = false) by (intros; destruct (gone s); [|done]; destruct GN as [GN _]; specialize (GN eq_refl); lia).
  - split; [|done]. constructor; fld. all: fin.
  - subst pr. assert (Hg : gone s = false) by (destruct (gone s); [|done]; destruct GN as [GN _]; specialize (GN eq_refl); wts; lia).
    assert (Ed : deferred = false) by (destruct deferred eqn:Ed; norm; done). split; [|cbn; apply (ev_notin isFut); [|done]; norm; wts; lia].
    rewrite Hg in *. constructor; fld; rewrite ?Hg. all: try (split; intros; [done|lia]). all: fin.
  - subst pr. assert (Ed : deferred = false) by (destruct deferred eqn:Ed; norm; done). split; [constructor; fld; fin|]. cbn. norm. wts.
    destruct (cev_ex isFut tr) as (e & He & Hx); [lia|]. by destruct e.
  - pose proof (csum_none _ _ Hn) as Hz. change (csum stn ac = 0) in Hz. assert (Ed : deferred = false) by (destruct deferred eqn:Ed; norm; done). split; [|done]. constructor; fld. all: fin.
  - split; [|done]. constructor; fld. all: fin. all: destruct pr; norm; try done; try lia.
  - split; [|done]. constructor; fld. all: fin. all: destruct pr; norm; try done; try lia.
  - exfalso. unfold valid in Hv. destruct sd; [done|]. norm. rewrite H0 in Hv by lia. done.
  - subst sd. split; [|done]. constructor; fld. all: fin. all: destruct pr; norm; try done; try lia.
  - subst sd nfx. pose proof (csum_none _ _ Hb) as Hz. change (csum bor ac = 0) in Hz. split; [|done]. constructor; fld. all: fin. all: destruct pr; norm; try done; try lia.
  - subst sd nfx. split; [|done]. constructor; fld. all: fin. all: destruct pr; norm; try done; try lia.
  - subst sd. assert (Hg := Hlive Hn). split; [|done]. rewrite Hg in *. constructor; fld; rewrite ?Hg. all: try (split; intros; [done|lia]). all: fin. all: destruct pr; norm; try done; try lia.
  - split; [|done]. assert (Hz : nfx = 1 -> csum bor ac = 0) by (intros ->; by apply (csum_none _ _ (Hb eq_refl))).
    constructor; fld. all: fin. all: destruct pr; norm; try done; try lia. all: destruct sd; norm; try done; try lia.
Qed.
End proofs.
