(** Proofs about UTF-16, UTF-32 and the code point iterator. *)
From Coq Require Import Lia ZArith.
From stdpp Require Import base list numbers.
From Verif.Unicode Require Import UtfModel UtfSpec UtfProofs.
Local Open Scope Z_scope.

Definition replacement (_ : Z) : Z := 0xFFFD.

Lemma utf8_step l : units8 l -> l <> [] ->
  step_spec encode8 replacement l (d_val (decode_utf8 l)) (d_units (decode_utf8 l)) (d_usv (decode_utf8 l)).
Proof.
  intros Hu Hl. destruct (decode_utf8 l) as [v n b] eqn:E. cbn [d_val d_units d_usv]. destruct b; cbn [step_spec].
  - by apply utf8_sound.
  - destruct (utf8_invalid l v n) as (-> & Hn & Hp & Hm); [exact Hu|done|done|]. split_and!; [ | |lia|lia|done|done].
    + destruct l as [|u l]; [done|]. by exists u.
    + intros c Hs [k Hk]. rewrite Hk in E. rewrite utf8_valid in E by done. done.
Qed.

(** ** UTF-16 *)
Lemma enc16_low c : c <= 0xFFFF -> encode16 c = [c].
Proof. intros H. unfold encode16. by destruct (Z.leb_spec c 0xFFFF); [|lia]. Qed.
Lemma enc16_high c : 0xFFFF < c -> encode16 c = [0xD800 + (c - 0x10000) / 1024; 0xDC00 + (c - 0x10000) mod 1024].
Proof. intros H. unfold encode16. by destruct (Z.leb_spec c 0xFFFF); [lia|]. Qed.

Lemma utf16_valid c rest : scalar c ->
  decode_utf16 (encode16 c ++ rest) = DRes c (length (encode16 c)) true.
Proof.
  unfold scalar. intros Hs. destruct (decide (c <= 0xFFFF)).
  - rewrite enc16_low by done. cbn [app decode_utf16 length].
    destruct (c <? 0xD800) eqn:E1; zb; [done|].
    destruct (c <=? 0xDBFF) eqn:E2; zb; [lia|]. destruct (c <=? 0xDFFF) eqn:E3; zb; [lia|done].
  - rewrite enc16_high by lia. cbn [app decode_utf16 length].
    assert (H1 : 0 <= (c - 0x10000) / 1024 <= 1023) by (Z.to_euclidean_division_equations; lia).
    assert (H2 : 0 <= (c - 0x10000) mod 1024 <= 1023) by (Z.to_euclidean_division_equations; lia).
    assert (H3 : c - 0x10000 = (c - 0x10000) / 1024 * 1024 + (c - 0x10000) mod 1024)
      by (Z.to_euclidean_division_equations; lia).
    set (hi := (c - 0x10000) / 1024) in *. set (lo := (c - 0x10000) mod 1024) in *.
    destruct (0xD800 + hi <? 0xD800) eqn:E1; zb; [lia|].
    destruct (0xD800 + hi <=? 0xDBFF) eqn:E2; zb; [|lia].
    destruct ((0xDC00 + lo <? 0xDC00) || (0xDC00 + lo >? 0xDFFF)) eqn:E3; zb; [destruct E3; zb; lia|].
    f_equal. rewrite Z.shiftl_mul_pow2 by lia. change (2 ^ 10) with 1024. lia.
Qed.

Lemma utf16_step l : units16 l -> l <> [] ->
  step_spec encode16 replacement l (d_val (decode_utf16 l)) (d_units (decode_utf16 l)) (d_usv (decode_utf16 l)).
Proof.
  intros Hu Hl. destruct (decode_utf16 l) as [v n b] eqn:E. cbn [d_val d_units d_usv].
  assert (Hbad : b = false -> forall c, scalar c -> ~ encode16 c `prefix_of` l).
  { intros -> c Hs [k Hk]. rewrite Hk in E. rewrite utf16_valid in E by done. done. }
  destruct l as [|u r]; [done|]. apply Forall_cons_1 in Hu as [Hu0 Hur]. cbn [decode_utf16] in E.
  assert (Hone : forall (Hn : n = 1%nat) (Hv : v = 0xFFFD) (Hb : b = false)
            (Hm : match r with [] => True | u1 :: _ => ~ starts_some encode16 [u; u1] end),
            step_spec encode16 replacement (u :: r) v n b).
  { intros -> -> -> Hm. cbn [step_spec]. split_and!; [by exists u|by apply Hbad|cbn [length]; lia|cbn [length]; lia|by left|].
    intros m Hmm (c & Hs & Hp). destruct r as [|u1 r]; [cbn [length] in Hmm; lia|]. apply Hm.
    exists c. split; [done|]. transitivity (take m (u :: u1 :: r)); [|done].
    destruct m as [|[|m]]; [lia|lia|]. cbn [take]. repeat apply prefix_cons. apply prefix_nil. }
  assert (Hpair : forall u1, ~ (0xD800 <= u <= 0xDBFF /\ 0xDC00 <= u1 <= 0xDFFF) -> ~ starts_some encode16 [u; u1]).
  { intros u1 Hn (c & Hs & Hp). unfold scalar in Hs. destruct (decide (c <= 0xFFFF)).
    - rewrite enc16_low in Hp by done. apply prefix_length in Hp. cbn [length] in Hp. lia.
    - rewrite enc16_high in Hp by lia. apply prefix_cons_inv' in Hp as [-> Hp].
      apply prefix_cons_inv' in Hp as [-> _]. apply Hn. Z.to_euclidean_division_equations; lia. }
  destruct (u <? 0xD800) eqn:E1; zb.
  { injection E as <- <- <-. cbn [step_spec]. rewrite enc16_low by lia.
    split_and!; [unfold scalar; lia| |done]. by exists r. }
  destruct (u <=? 0xDBFF) eqn:E2; zb.
  { destruct r as [|u1 r].
    - injection E as <- <- <-. by apply Hone.
    - destruct ((u1 <? 0xDC00) || (u1 >? 0xDFFF)) eqn:E3.
      + injection E as <- <- <-. apply Hone; [done..|]. apply Hpair. zb. destruct E3; zb; lia.
      + zb. injection E as <- <- <-. cbn [step_spec]. rewrite Z.shiftl_mul_pow2 by lia. change (2 ^ 10) with 1024.
        rewrite enc16_high by lia. split_and!; [unfold scalar; lia| |done]. exists r. cbn [app].
        f_equal; [|f_equal]; Z.to_euclidean_division_equations; lia. }
  destruct (u <=? 0xDFFF) eqn:E3; zb.
  { injection E as <- <- <-. apply Hone; [done..|]. destruct r as [|u1 r]; [done|]. apply Hpair. lia. }
  injection E as <- <- <-. cbn [step_spec]. rewrite enc16_low by lia.
  split_and!; [unfold scalar; lia| |done]. by exists r.
Qed.

(** ** UTF-32 *)
Lemma utf32_valid c rest : scalar c -> decode_utf32 (encode32 c ++ rest) = DRes c (length (encode32 c)) true.
Proof.
  unfold scalar. intros Hs. cbn [encode32 app decode_utf32 length]. f_equal.
  destruct (c <? 0xD800) eqn:E1; zb; [done|]. destruct (c >? 0xDFFF) eqn:E2; zb; [|lia].
  destruct (c <=? 0x10FFFF) eqn:E3; zb; [done|lia].
Qed.
Lemma utf32_step l : units32 l -> l <> [] ->
  step_spec encode32 (fun u => u) l (d_val (decode_utf32 l)) (d_units (decode_utf32 l)) (d_usv (decode_utf32 l)).
Proof.
  intros Hu Hl. destruct (decode_utf32 l) as [v n b] eqn:E. cbn [d_val d_units d_usv].
  assert (Hbad : b = false -> forall c, scalar c -> ~ encode32 c `prefix_of` l).
  { intros -> c Hs [k Hk]. rewrite Hk in E. rewrite utf32_valid in E by done. done. }
  destruct l as [|u r]; [done|]. apply Forall_cons_1 in Hu as [Hu0 _]. cbn [decode_utf32] in E.
  injection E as <- <- E3. destruct b; cbn [step_spec].
  - split_and!; [|by exists r|done]. unfold scalar. zb. destruct E3 as [E3 | E3]; zb; lia.
  - split_and!; [by exists u|by apply Hbad|cbn [length]; lia|cbn [length]; lia|by left|].
    intros m Hm (c & Hs & Hp). apply prefix_length in Hp. rewrite take_length in Hp.
    unfold encode32 in Hp. cbn [length] in Hp, Hm. lia.
Qed.

(** ** The iterator *)
Lemma step_units encode bad l v n usv : (forall c, scalar c -> encode c <> []) ->
  step_spec encode bad l v n usv -> (1 <= n <= length l)%nat.
Proof.
  intros Hne H. destruct usv; cbn [step_spec] in H.
  - destruct H as (Hs & Hp & ->). pose proof (prefix_length _ _ Hp). pose proof (Hne v Hs).
    destruct (encode v); [done|]. cbn [length] in *. lia.
  - by destruct H as (_ & _ & Hn & _).
Qed.

Section iter.
Context (decode : list Z -> dres) (encode : Z -> list Z) (bad : Z -> Z) (ok : Z -> Prop).
Context (Hstep : forall l, Forall ok l -> l <> [] ->
  step_spec encode bad l (d_val (decode l)) (d_units (decode l)) (d_usv (decode l))).
Context (Hne : forall c, scalar c -> encode c <> []).

Lemma decoded_exists n l : (length l <= n)%nat -> Forall ok l -> exists ds, decoded encode bad l ds.
Proof.
  revert l. induction n as [|n IH]; intros l Hn Hok.
  { destruct l; [|cbn [length] in Hn; lia]. eexists. constructor. }
  destruct (decide (l = [])) as [-> | Hl]; [eexists; constructor|].
  pose proof (Hstep l Hok Hl) as Hs. pose proof (step_units _ _ _ _ _ _ Hne Hs) as Hu.
  destruct (IH (drop (d_units (decode l)) l)) as [ds Hds].
  - rewrite drop_length. lia.
  - by apply Forall_drop.
  - eexists. by eapply decoded_cons.
Qed.

Lemma step_det l v n u v' n' u' : step_spec encode bad l v n u -> step_spec encode bad l v' n' u' ->
  (forall c c', scalar c -> scalar c' -> encode c `prefix_of` l -> encode c' `prefix_of` l -> c = c') ->
  v = v' /\ n = n'.
Proof.
  intros H1 H2 Hpre. destruct u, u'; cbn [step_spec] in *.
  - destruct H1 as (Hs1 & Hp1 & ->), H2 as (Hs2 & Hp2 & ->). assert (v = v') as -> by eauto. done.
  - destruct H1 as (Hs1 & Hp1 & _), H2 as (_ & H2 & _). exfalso. by eapply H2.
  - destruct H2 as (Hs1 & Hp1 & _), H1 as (_ & H2 & _). exfalso. by eapply H2.
  - destruct H1 as ((w & Hw & ->) & _ & Hn & Hp & Hm), H2 as ((w' & Hw' & ->) & _ & Hn' & Hp' & Hm').
    split; [congruence|]. destruct (decide (n < n')%nat).
    + exfalso. destruct Hp' as [-> | Hp']; [lia|]. eapply (Hm n'); [lia|done].
    + destruct (decide (n' < n)%nat); [|lia].
      exfalso. destruct Hp as [-> | Hp]; [lia|]. eapply (Hm' n); [lia|done].
Qed.

Lemma decoded_concat l ds : decoded encode bad l ds -> concat (map fst ds) = l.
Proof.
  induction 1 as [|l v n usv ds Hs _ IH]; [done|]. cbn [map fst concat]. rewrite IH. apply take_drop.
Qed.

(** The chunks the decoder itself produces. *)
Lemma decoded_by_decoder n l : (length l <= n)%nat -> Forall ok l ->
  exists ds, decoded encode bad l ds /\ (length ds <= n)%nat /\
    forall fuel, (length ds <= fuel)%nat -> cp_walk decode fuel (cp_begin decode l) = Some (stops ds).
Proof.
  revert l. induction n as [|n IH]; intros l Hn Hok.
  { destruct l; [|cbn [length] in Hn; lia]. exists []. split_and!; [constructor|cbn [length]; lia|].
    intros fuel _. by destruct fuel. }
  destruct (decide (l = [])) as [-> | Hl].
  { exists []. split_and!; [constructor|cbn [length]; lia|]. intros fuel _. by destruct fuel. }
  pose proof (Hstep l Hok Hl) as Hs. pose proof (step_units _ _ _ _ _ _ Hne Hs) as Hu.
  destruct (IH (drop (d_units (decode l)) l)) as (ds & Hds & Hlen & Hw).
  - rewrite drop_length. lia.
  - by apply Forall_drop.
  - exists ((take (d_units (decode l)) l, d_val (decode l)) :: ds). split_and!.
    + by eapply decoded_cons.
    + cbn [length]. lia.
    + intros fuel Hf. cbn [length] in Hf. destruct fuel as [|fuel]; [lia|].
      destruct l as [|x l]; [done|]. cbn [cp_begin cp_walk cp_at_end cp_first].
      assert (Hinc : cp_inc decode (CpIt (x :: l) (drop (d_units (decode (x :: l))) (x :: l)) (d_val (decode (x :: l))))
                = cp_begin decode (drop (d_units (decode (x :: l))) (x :: l)) \/
                (drop (d_units (decode (x :: l))) (x :: l)) = []).
      { unfold cp_inc, cp_begin. cbn [cp_next]. destruct (drop _ _); [by right|by left]. }
      assert (Hcat : concat (map fst ((take (d_units (decode (x :: l))) (x :: l), d_val (decode (x :: l))) :: ds)) = x :: l).
      { cbn [map fst concat]. rewrite (decoded_concat _ _ Hds). apply take_drop. }
      cbn [stops cp_val]. rewrite Hcat. destruct Hinc as [Hinc | Hnil].
      * rewrite Hinc. rewrite Hw by lia. done.
      * rewrite Hnil in Hds |- *. inversion Hds; subst.
        -- unfold cp_inc. cbn [cp_next]. destruct fuel; done.
        -- pose proof (step_units _ _ _ _ _ _ Hne H). cbn [length] in H1. lia.
Qed.

Lemma decoded_encodings cs :
  (forall c rest, scalar c -> decode (encode c ++ rest) = DRes c (length (encode c)) true) ->
  Forall scalar cs -> decoded encode bad (concat (map encode cs)) (map (fun c => (encode c, c)) cs).
Proof.
  intros _ Hcs. induction Hcs as [|c cs Hc _ IH]; [constructor|]. cbn [map concat].
  replace (encode c) with (take (length (encode c)) (encode c ++ concat (map encode cs))) at 2
    by apply take_app. 
  eapply decoded_cons with (usv := true).
  - cbn [step_spec]. split_and!; [done| |done]. by eexists.
  - rewrite drop_app. done.
Qed.

Lemma decoded_det l ds ds' :
  (forall c rest, scalar c -> decode (encode c ++ rest) = DRes c (length (encode c)) true) ->
  decoded encode bad l ds -> decoded encode bad l ds' -> ds = ds'.
Proof.
  intros Hv H. revert ds'. induction H as [|l v n u ds Hs _ IH]; intros ds' H'.
  - inversion H'; subst; [done|]. pose proof (step_units _ _ _ _ _ _ Hne H). cbn [length] in H1. lia.
  - inversion H' as [|l' v' n' u' ds2 Hs' Hd']; subst.
    + pose proof (step_units _ _ _ _ _ _ Hne Hs). cbn [length] in H. lia.
    + destruct (step_det l v n u v' n' u') as [-> ->]; [done|done| |f_equal; by apply IH].
      intros c c' Hc Hc' [k Hk] [k' Hk']. pose proof (Hv c k Hc) as E. pose proof (Hv c' k' Hc') as E'.
      rewrite <- Hk in E. rewrite <- Hk' in E'. congruence.
Qed.
End iter.
