(** Scans, views and the root name: the index loops of the model compute the declarative decomposition. *)
From stdpp Require Import base list numbers.
From Coq Require Import ZArith Lia.
From Verif Require Import Base.Res Path.PathModel Path.PathSpec.
Local Open Scope nat_scope.

(** longest prefix satisfying [p], and what follows *)
Fixpoint pre (p : Z -> bool) (l : text) : text := match l with [] => [] | c :: l => if p c then c :: pre p l else [] end.
Fixpoint post (p : Z -> bool) (l : text) : text := match l with [] => [] | c :: r => if p c then post p r else l end.
Definition stops (p : Z -> bool) (l : text) : Prop := match l with [] => True | c :: _ => p c = false end.

Lemma pre_post p l : pre p l ++ post p l = l.
Proof. induction l as [|c l IH]; simpl; [done|]. destruct (p c); simpl; [by rewrite IH|done]. Qed.
Lemma pre_all p l : Forall (fun c => p c = true) (pre p l).
Proof. induction l as [|c l IH]; simpl; [done|]. destruct (p c) eqn:E; [by constructor|done]. Qed.
Lemma post_stops p l : stops p (post p l).
Proof. induction l as [|c l IH]; simpl; [done|]. destruct (p c) eqn:E; [done|]. simpl. done. Qed.
Lemma pre_app p a b : Forall (fun c => p c = true) a -> stops p b -> pre p (a ++ b) = a.
Proof.
  induction a as [|c a IH]; simpl; intros Ha Hb.
  - destruct b as [|c b]; simpl in *; [done|]. by rewrite Hb.
  - apply list.Forall_cons in Ha as [-> Ha]. by rewrite IH.
Qed.
Lemma post_app p a b : Forall (fun c => p c = true) a -> stops p b -> post p (a ++ b) = b.
Proof.
  induction a as [|c a IH]; simpl; intros Ha Hb.
  - destruct b as [|c b]; simpl in *; [done|]. by rewrite Hb.
  - apply list.Forall_cons in Ha as [-> Ha]. by rewrite IH.
Qed.

Lemma rd_app t a c r : t = a ++ c :: r -> rd t (length a) = Ok c.
Proof. intros ->. unfold rd. by rewrite list_lookup_middle. Qed.
Lemma scan_ok hit t a l : t = a ++ l -> scan (length l) hit t (length a) = Ok (length a + length (pre (fun c => negb (hit c)) l)).
Proof.
  revert a. induction l as [|c l IH]; intros a ->; simpl; [by rewrite Nat.add_0_r|].
  rewrite (rd_app _ a c l) by done. rewrite rbind_ok. destruct (hit c) eqn:E; simpl; [by rewrite Nat.add_0_r|].
  replace (S (length a)) with (length (a ++ [c])) by (rewrite app_length; simpl; lia). rewrite IH by (by rewrite <-app_assoc).
  rewrite app_length. simpl. f_equal. lia.
Qed.
Lemma find_if_pre hit t a l : t = a ++ l -> find_if hit t (length a) = Ok (length a + length (pre (fun c => negb (hit c)) l)).
Proof.
  intros ->. unfold find_if. rewrite (proj2 (Nat.ltb_ge _ _)) by (rewrite app_length; lia).
  replace (length (a ++ l) - length a) with (length l) by (rewrite app_length; lia). by apply scan_ok.
Qed.
Lemma find_if_ok hit t a m r : t = a ++ m ++ r -> Forall (fun c => hit c = false) m -> (match r with [] => True | c :: _ => hit c = true end) ->
  find_if hit t (length a) = Ok (length a + length m).
Proof.
  intros -> Hm Hr. rewrite (find_if_pre hit _ a (m ++ r)) by done. rewrite pre_app; [done| |].
  - eapply list.Forall_impl; [exact Hm|]. intros c ->. done.
  - destruct r; simpl in *; [done|]. by rewrite Hr.
Qed.
Lemma find_if_not_ok hit t a m r : t = a ++ m ++ r -> Forall (fun c => hit c = true) m -> stops hit r ->
  find_if_not hit t (length a) = Ok (length a + length m).
Proof.
  intros Ht Hm Hr. unfold find_if_not. apply (find_if_ok _ t a m r); [done| |].
  - eapply list.Forall_impl; [exact Hm|]. intros c ->. done.
  - destruct r; simpl in *; [done|]. by rewrite Hr.
Qed.
Lemma view_ok t a m r i j : t = a ++ m ++ r -> i = length a -> j = length a + length m -> view t i j = Ok m.
Proof.
  intros -> -> ->. unfold view. rewrite (proj2 (Nat.leb_le _ _)) by lia.
  rewrite (proj2 (Nat.leb_le _ _)) by (rewrite !app_length; lia). simpl. rewrite drop_app.
  replace (length a + length m - length a) with (length m) by lia. by rewrite take_app.
Qed.
(** [m1] is kept, [m2] stripped *)
Lemma back_ok pred t a m1 m2 r : t = a ++ m1 ++ m2 ++ r -> Forall (fun c => pred c = true) m2 ->
  (m1 = [] \/ exists m0 c, m1 = m0 ++ [c] /\ pred c = false) ->
  while_back pred t (length a) (length a + length m1 + length m2) = Ok (length a + length m1).
Proof.
  intros Ht Hm2 Hm1. unfold while_back. rewrite (proj2 (Nat.ltb_ge _ _)) by lia.
  replace (length a + length m1 + length m2 - length a) with (length m2 + length m1) by lia.
  revert r Ht. induction m2 as [|c m2 IH] using rev_ind; intros r Ht; simpl.
  - rewrite Nat.add_0_r. destruct Hm1 as [->|(m0 & c & -> & Hc)]; simpl; [done|].
    rewrite app_length. simpl. rewrite Nat.add_1_r. simpl. rewrite Nat.add_succ_r. simpl. rewrite Nat.sub_0_r.
    replace (length a + length m0) with (length (a ++ m0)) by (rewrite app_length; lia).
    rewrite (rd_app _ _ c r); [rewrite rbind_ok; by rewrite Hc|]. rewrite Ht. simpl. by rewrite <-!app_assoc.
  - apply Forall_app in Hm2 as [Hm2 Hc]. apply list.Forall_cons in Hc as [Hc _]. rewrite !app_length. simpl.
    rewrite Nat.add_1_r. simpl. rewrite Nat.add_succ_r. simpl. rewrite Nat.sub_0_r.
    replace (length a + length m1 + length m2) with (length (a ++ m1 ++ m2)) by (rewrite !app_length; lia).
    rewrite (rd_app _ _ c r) by (rewrite Ht; by rewrite <-!app_assoc). rewrite rbind_ok, Hc.
    rewrite !app_length, Nat.add_assoc. apply (IH Hm2 (c :: r)). rewrite Ht. by rewrite <-!app_assoc.
Qed.

Lemma slash_sep c : Is_slash c = true <-> sep c.
Proof. unfold Is_slash, sep. rewrite orb_true_iff, !Z.eqb_eq. tauto. Qed.
Lemma slash_nosep c : Is_slash c = false <-> ~ sep c.
Proof. rewrite <-slash_sep. by destruct (Is_slash c). Qed.
Lemma slash_all l : Forall (fun c => Is_slash c = true) l <-> Forall sep l.
Proof. split; intros H; (eapply list.Forall_impl; [exact H|]); intros c Hc; by apply slash_sep. Qed.
Lemma slash_none l : Forall (fun c => Is_slash c = false) l <-> Forall (fun c => ~ sep c) l.
Proof. split; intros H; (eapply list.Forall_impl; [exact H|]); intros c Hc; by apply slash_nosep. Qed.
Lemma stops_sep l : stops Is_slash l <-> ~ starts_with_sep l.
Proof.
  destruct l as [|c l]; simpl.
  - split; [|done]. intros _ (c & r & [=] & _).
  - rewrite slash_nosep. split.
    + intros Hc (c' & r & [= <- <-] & Hs). done.
    + intros Hs Hc. apply Hs. by exists c, l.
Qed.

(** the 32-bit trick of _Is_drive_prefix *)
Lemma land_case (c0 c1 : Z) : (0 <= c0 < 65536)%Z -> (0 <= c1 < 65536)%Z ->
  Z.land (c0 + Z.shiftl c1 16) 0xFFFFFFDF = (c0 - 32 * (c0 / 32 mod 2) + 65536 * c1)%Z.
Proof.
  intros H0 H1. rewrite Z.shiftl_mul_pow2 by lia. change (2 ^ 16)%Z with 65536%Z.
  set (v := (c0 + c1 * 65536)%Z).
  assert (Hv : (0 <= v < 2 ^ 32)%Z) by (unfold v; change (2 ^ 32)%Z with 4294967296%Z; lia).
  assert (Hl : Z.land v 0xFFFFFFDF = (v - Z.land v 32)%Z).
  { assert (Hd : Z.land v 0xFFFFFFDF = Z.ldiff v 32).
    { apply Z.bits_inj'. intros n Hn. rewrite Z.land_spec, Z.ldiff_spec.
      destruct (Z_lt_ge_dec n 32) as [Hlt|Hge].
      - f_equal. assert (Hc : (n = 0 \/ n = 1 \/ n = 2 \/ n = 3 \/ n = 4 \/ n = 5 \/ n = 6 \/ n = 7 \/ n = 8 \/ n = 9 \/ n = 10 \/ n = 11
          \/ n = 12 \/ n = 13 \/ n = 14 \/ n = 15 \/ n = 16 \/ n = 17 \/ n = 18 \/ n = 19 \/ n = 20 \/ n = 21 \/ n = 22 \/ n = 23
          \/ n = 24 \/ n = 25 \/ n = 26 \/ n = 27 \/ n = 28 \/ n = 29 \/ n = 30 \/ n = 31)%Z) by lia.
        repeat (destruct Hc as [->|Hc]; [reflexivity|]). rewrite Hc. reflexivity.
      - assert (Hb : Z.testbit v n = false).
        { destruct (decide (v = 0%Z)) as [->|Hz]; [apply Z.bits_0|]. apply Z.bits_above_log2; [lia|]. apply Z.log2_lt_pow2; [lia|].
          apply Z.lt_le_trans with (2 ^ 32)%Z; [lia|]. apply Z.pow_le_mono_r; lia. }
        by rewrite Hb. }
    rewrite Hd. assert (Hs : v = (Z.ldiff v 32 + Z.land v 32)%Z).
    { rewrite Z.add_nocarry_lxor.
      - apply Z.bits_inj'. intros n Hn. rewrite Z.lxor_spec, Z.ldiff_spec, Z.land_spec.
        destruct (Z.testbit v n), (Z.testbit 32 n); done.
      - apply Z.bits_inj'. intros n Hn. rewrite Z.land_spec, Z.ldiff_spec, Z.land_spec, Z.bits_0.
        destruct (Z.testbit v n), (Z.testbit 32 n); done. }
    lia. }
  rewrite Hl.
  assert (Hb : Z.land v 32 = (32 * (v / 32 mod 2))%Z).
  { replace (32 * (v / 32 mod 2))%Z with ((v / 2 ^ 5 mod 2 ^ 1) * 2 ^ 5)%Z by (change (2 ^ 5)%Z with 32%Z; change (2 ^ 1)%Z with 2%Z; lia).
    replace (Z.land v 32) with (Z.land v (2 ^ 5)) by done.
    apply Z.bits_inj'. intros n Hn. rewrite Z.land_spec, Z.mul_pow2_bits, Z.pow2_bits_eqb by lia.
    destruct (decide (n = 5%Z)) as [->|Hne].
    - rewrite Z.eqb_refl, andb_true_r. rewrite Z.mod_pow2_bits_low by lia. rewrite Z.div_pow2_bits by lia. done.
    - rewrite (proj2 (Z.eqb_neq 5 n)) by lia. rewrite andb_false_r. symmetry.
      destruct (Z_lt_ge_dec n 5); [apply Z.testbit_neg_r; lia|]. apply Z.mod_pow2_bits_high. lia. }
  rewrite Hb.
  assert (Hm : (v / 32 mod 2 = c0 / 32 mod 2)%Z).
  { unfold v. replace (c0 + c1 * 65536)%Z with (c0 + (c1 * 1024 * 2) * 32)%Z by lia. rewrite Z.div_add by lia.
    apply Z.mod_add. lia. }
  rewrite Hm. unfold v. lia.
Qed.
Definition drive (c0 c1 : Z) : bool := ((c1 =? 58) && (((65 <=? c0) && (c0 <=? 90)) || ((97 <=? c0) && (c0 <=? 122))))%Z.
Lemma drive_spec c0 c1 : drive c0 c1 = true <-> (letter c0 /\ c1 = 58%Z).
Proof. unfold drive, letter. rewrite andb_true_iff, orb_true_iff, !andb_true_iff, Z.eqb_eq, !Z.leb_le. tauto. Qed.
Lemma Is_drive_prefix_ok t a c0 c1 r : t = a ++ c0 :: c1 :: r -> (0 <= c0 < 65536)%Z -> (0 <= c1 < 65536)%Z ->
  Is_drive_prefix t (length a) = Ok (drive c0 c1).
Proof.
  intros Ht H0 H1. unfold Is_drive_prefix. rewrite (rd_app _ a c0 (c1 :: r)) by done. rewrite rbind_ok.
  replace (S (length a)) with (length (a ++ [c0])) by (rewrite app_length; simpl; lia).
  rewrite (rd_app _ (a ++ [c0]) c1 r) by (rewrite Ht; by rewrite <-app_assoc). rewrite rbind_ok. f_equal.
  rewrite land_case by done. change (Z.lor (Z.shiftl 58 16) 65) with 3801153%Z. change (2 ^ 32)%Z with 4294967296%Z.
  apply eq_true_iff_eq. rewrite drive_spec, Z.ltb_lt. unfold letter.
  assert (Hb : (0 <= c0 / 32 mod 2 < 2)%Z) by (apply Z.mod_pos_bound; lia).
  assert (Hd : (c0 = 64 * (c0 / 32 / 2) + 32 * (c0 / 32 mod 2) + c0 mod 32)%Z).
  { pose proof (Z.div_mod c0 32 ltac:(lia)). pose proof (Z.div_mod (c0 / 32) 2 ltac:(lia)). lia. }
  assert (Hr : (0 <= c0 mod 32 < 32)%Z) by (apply Z.mod_pos_bound; lia).
  remember (c0 / 32 mod 2)%Z as b. remember (c0 / 32 / 2)%Z as q. remember (c0 mod 32)%Z as e.
  assert (Hq : (0 <= q < 1024)%Z) by (split; [subst q; apply Z.div_pos; [apply Z.div_pos|]; lia|lia]).
  clear Heqb Heqq Heqe.
  assert (Hx : (c0 - 32 * b + 65536 * c1 - 3801153 = 64 * q + e + 65536 * c1 - 3801153)%Z) by lia. rewrite Hx.
  split.
  - intros Hlt. destruct (Z_lt_ge_dec (64 * q + e + 65536 * c1) 3801153) as [Hs|Hg].
    + exfalso. rewrite <-(Z.mod_add _ 1) in Hlt by lia. rewrite Z.mod_small in Hlt by lia. lia.
    + rewrite Z.mod_small in Hlt by lia. lia.
  - intros [Hl ->]. rewrite Z.mod_small by lia. lia.
Qed.

(** length of the root name, by pattern matching *)
Definition rnl (t : text) : nat :=
  match t with
  | c0 :: c1 :: r =>
    if drive c0 c1 then 2 else
    if negb (Is_slash c0) then 0 else
    match r with
    | [] => 0
    | c2 :: w =>
      if Is_slash c1 then if Is_slash c2 then 0 else 3 + length (pre (fun c => negb (Is_slash c)) w)
      else match w with
           | c3 :: w => if ((c1 =? 63) && (c2 =? 63))%Z && Is_slash c3 && match w with [] => true | c4 :: _ => negb (Is_slash c4) end then 3 else 0
           | [] => 0
           end
    end
  | _ => 0
  end.
Lemma Find_root_name_end_ok t : wide t -> Find_root_name_end t = Ok (rnl t).
Proof.
  intros Hw. unfold Find_root_name_end, Has_drive_letter_prefix.
  destruct t as [|c0 [|c1 r]]; [reflexivity|reflexivity|].
  unfold wide in Hw. rewrite !list.Forall_cons in Hw. destruct Hw as (H0 & H1 & Hr).
  change (length (c0 :: c1 :: r) <? 2) with false. change (2 <=? length (c0 :: c1 :: r)) with true. cbv iota.
  pose proof (Is_drive_prefix_ok (c0 :: c1 :: r) [] c0 c1 r eq_refl H0 H1) as E. cbn [length] in E. rewrite E, rbind_ok.
  cbn [rnl]. destruct (drive c0 c1); [done|]. change (rd (c0 :: c1 :: r) 0) with (Ok c0). rewrite rbind_ok.
  destruct (Is_slash c0) eqn:S0; [|done]. cbn [negb].
  destruct r as [|c2 w]; [reflexivity|].
  change (rd (c0 :: c1 :: c2 :: w) 1) with (Ok c1). change (rd (c0 :: c1 :: c2 :: w) 2) with (Ok c2).
  change (3 <=? length (c0 :: c1 :: c2 :: w)) with true. cbv iota. rewrite !rbind_ok.
  assert (Hserver : (server <~ (if Is_slash c1 then Ok (negb (Is_slash c2)) else Ok false) ;;
     (if server : bool then find_if Is_slash (c0 :: c1 :: c2 :: w) 3 else Ok 0)) =
     Ok (if Is_slash c1 then if Is_slash c2 then 0 else 3 + length (pre (fun c => negb (Is_slash c)) w) else 0)).
  { destruct (Is_slash c1); [|done]. rewrite rbind_ok. destruct (Is_slash c2); [done|]. cbn [negb].
    apply (find_if_pre Is_slash _ [c0; c1; c2] w). done. }
  assert (Hq : Is_slash c1 && ((c2 =? 63)%Z || (c2 =? 46)%Z) = true -> Is_slash c1 = true /\ Is_slash c2 = false).
  { intros [? Hc]%andb_true_iff. split; [done|]. apply orb_true_iff in Hc as [->%Z.eqb_eq| ->%Z.eqb_eq]; done. }
  destruct w as [|c3 w].
  - change (4 <=? length [c0; c1; c2]) with false. cbv iota. rewrite rbind_ok. cbv iota. rewrite Hserver. f_equal.
  - change (4 <=? length (c0 :: c1 :: c2 :: c3 :: w)) with true. cbv iota.
    change (rd (c0 :: c1 :: c2 :: c3 :: w) 3) with (Ok c3). rewrite rbind_ok.
    set (srv := (server <~ _ ;; _)) in *.
    set (E4 := match w with [] => true | c4 :: _ => negb (Is_slash c4) end) in *.
    assert (H4 : (if length (c0 :: c1 :: c2 :: c3 :: w) =? 4 then Ok true else c4 <~ rd (c0 :: c1 :: c2 :: c3 :: w) 4 ;; Ok (negb (Is_slash c4))) = Ok E4).
    { destruct w as [|c4 w]; [done|]. reflexivity. }
    rewrite H4. destruct (Is_slash c3) eqn:S3; [rewrite rbind_ok|].
    + destruct E4; [|rewrite rbind_ok; cbv iota; rewrite Hserver; rewrite !andb_false_r; done].
      rewrite rbind_ok. rewrite !andb_true_r.
      destruct (Is_slash c1 && ((c2 =? 63)%Z || (c2 =? 46)%Z)) eqn:Ed; simpl orb.
      * destruct (Hq eq_refl) as [-> ->]. cbn [pre]. rewrite S3. reflexivity.
      * destruct ((c1 =? 63)%Z && (c2 =? 63)%Z) eqn:Ee.
        -- apply andb_true_iff in Ee as [->%Z.eqb_eq _]. reflexivity.
        -- rewrite Hserver. destruct (Is_slash c1); done.
    + rewrite rbind_ok. cbv iota. rewrite Hserver. rewrite andb_false_r. simpl andb. done.
Qed.
Lemma rnl_le t : rnl t <= length t.
Proof.
  destruct t as [|c0 [|c1 r]]; simpl; try lia. destruct (drive c0 c1); [lia|]. destruct (Is_slash c0); simpl; [|lia].
  destruct r as [|c2 w]; simpl; [lia|]. destruct (Is_slash c1).
  - destruct (Is_slash c2); [lia|]. pose proof (pre_post (fun c => negb (Is_slash c)) w) as E. apply (f_equal length) in E. rewrite app_length in E. lia.
  - destruct w as [|c3 w]; [lia|]. case_match; simpl; lia.
Qed.

(** declarative <-> computed root name *)
Lemma nonempty_root_rnl rn r : nonempty_root rn r -> rnl (rn ++ r) = length rn.
Proof.
  intros [c r' Hl|a b c s r' Ha Hbc Hs Hr|a b c w r' Ha Hb Hc Hw Hr]; simpl.
  - rewrite (proj2 (drive_spec c 58)); done.
  - assert (Hd : drive a b = false).
    { apply not_true_is_false. intros [Hl _]%drive_spec. unfold letter, sep in *. lia. }
    rewrite Hd, (proj2 (slash_sep a) Ha). simpl. apply stops_sep in Hr.
    destruct Hbc as [[Hb Hc]|[-> ->]].
    + rewrite (proj2 (slash_sep b) Hb). assert (Hsc : Is_slash c = false) by (by destruct Hc as [->| ->]). rewrite Hsc.
      cbn [pre]. rewrite (proj2 (slash_sep s) Hs). done.
    + simpl. rewrite (proj2 (slash_sep s) Hs). simpl. destruct r' as [|c4 r']; [done|]. simpl in Hr. by rewrite Hr.
  - assert (Hd : drive a b = false).
    { apply not_true_is_false. intros [Hl _]%drive_spec. unfold letter, sep in *. lia. }
    rewrite Hd, (proj2 (slash_sep a) Ha), (proj2 (slash_sep b) Hb), (proj2 (slash_nosep c) Hc). simpl.
    rewrite pre_app; [done| |].
    + eapply list.Forall_impl; [exact Hw|]. intros x Hx. by rewrite (proj2 (slash_nosep x) Hx).
    + destruct Hr as [->|(x & r0 & -> & Hx)]; simpl; [done|]. by rewrite (proj2 (slash_sep x) Hx).
Qed.
Lemma rnl_nonempty t : rnl t <> 0 -> nonempty_root (take (rnl t) t) (drop (rnl t) t).
Proof.
  destruct t as [|c0 [|c1 r]]; simpl; try done. destruct (drive c0 c1) eqn:Ed.
  { intros _. apply drive_spec in Ed as [Hl ->]. simpl. rewrite take_0. by constructor. }
  destruct (Is_slash c0) eqn:S0; simpl; [|done]. apply slash_sep in S0.
  destruct r as [|c2 w]; [done|]. destruct (Is_slash c1) eqn:S1; [apply slash_sep in S1|].
  - destruct (Is_slash c2) eqn:S2; [done|]. apply slash_nosep in S2. intros _. simpl.
    set (p := fun c => negb (Is_slash c)). pose proof (pre_post p w) as E.
    assert (Ht : take (length (pre p w)) w = pre p w) by (rewrite <-E at 2; by rewrite take_app).
    assert (Hd : drop (length (pre p w)) w = post p w) by (rewrite <-E at 2; by rewrite drop_app).
    rewrite Ht, Hd. constructor; try done.
    + eapply list.Forall_impl; [apply pre_all|]. intros c Hc. apply slash_nosep. unfold p in Hc. by destruct (Is_slash c).
    + pose proof (post_stops p w) as Hs. destruct (post p w) as [|c l]; [by left|]. right. exists c, l. split; [done|].
      apply slash_sep. simpl in Hs. unfold p in Hs. by destruct (Is_slash c).
  - destruct w as [|c3 w]; [done|].
    destruct (((c1 =? 63)%Z && (c2 =? 63)%Z) && Is_slash c3 && match w with [] => true | c4 :: _ => negb (Is_slash c4) end) eqn:E; [|done].
    intros _. apply andb_true_iff in E as [E E4]. apply andb_true_iff in E as [E E3]. apply andb_true_iff in E as [->%Z.eqb_eq ->%Z.eqb_eq].
    simpl. apply slash_sep in E3. constructor; try done; [by right|]. apply stops_sep. destruct w as [|c4 w]; [done|]. simpl. by destruct (Is_slash c4).
Qed.
Lemma RootName_iff rn r : RootName rn r <-> rnl (rn ++ r) = length rn.
Proof.
  split.
  - intros [H|[-> H]]; [by apply nonempty_root_rnl|]. simpl. destruct (decide (rnl r = 0)) as [|Hn]; [done|].
    exfalso. apply (H (take (rnl r) r) (drop (rnl r) r)); [by rewrite take_drop|]. by apply rnl_nonempty.
  - intros H. destruct (decide (rn = [])) as [->|Hne].
    + right. split; [done|]. simpl in H. intros rn' r' -> Hr. pose proof (nonempty_root_rnl _ _ Hr) as E. rewrite H in E.
      destruct Hr; simpl in E; lia.
    + left. assert (Hn : rnl (rn ++ r) <> 0) by (rewrite H; destruct rn; simpl; [done|lia]).
      apply rnl_nonempty in Hn. by rewrite H, take_app, drop_app in Hn.
Qed.
