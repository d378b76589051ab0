(** basic_string: assign, append, insert, erase, replace and the other modifiers. *)
From stdpp Require Import base list numbers gmap.
From Coq Require Import Lia.
From Verif Require Import Text.StringModel Text.StringSpec Text.StringProofs Text.StringProofs2.
Local Open Scope nat_scope.

Ltac len := cbn [length]; repeat (first [rewrite app_length | rewrite take_length | rewrite drop_length | rewrite replicate_length | rewrite cells_length by len | rewrite splice_length by len]); cbn [length]; lia.
Ltac lens := cbn [length]; repeat (first [rewrite app_length | rewrite take_length | rewrite drop_length | rewrite replicate_length | rewrite cells_length by len | rewrite splice_length by len]); cbn [length].
Ltac lk := repeat (first [rewrite lookup_splice by len | rewrite lookup_cells | rewrite lookup_app' | rewrite lookup_take' | rewrite lookup_drop | rewrite lookup_replicate' | rewrite lookup_singleton]); lens;
  repeat match goal with |- context [decide ?P] => destruct (decide P); try (exfalso; lia) end.
Ltac fin := first [done
  | match goal with H : holds ?d ?o ?l |- ?d !! ?j = Some (?l !! ?k) => replace j with (o + k) by lia; apply H; lia end
  | match goal with H : holds ?d ?o ?l |- ?d !! ?j = Some (?l !! ?k) => transitivity (d !! (o + k)); [f_equal; lia|apply H; lia] end
  | match goal with H : ?d !! ?j = Some (Some ?n) |- ?d !! ?k = Some (Some ?n) => replace k with j by lia; exact H end].

Ltac start Hrep := destruct Hrep as (d & Hsh & Hlen & Hhold & Hnul);
  destruct (shape_start _ _ _ _ _ Hsh) as (bs & hp & O0 & HD & Hhp);
  pose proof Hsh as (_ & Hsz & Hd & _ & Hblk).
Ltac simp := unfold padd; cbn [fst snd ssz sres sblk].
Ltac step := first [apply wp_bind | apply wp_ret]; simp.


Section reads.
  Context {E : Type}.
  Notation ST := (@ST E).
  Implicit Types s : ST.
  Implicit Types d c : list (option E).
  Implicit Types l m : list E.
  (** reading the source *)
  Lemma holds_bound d o m : m <> [] -> holds d o m -> o + length m <= length d.
  Proof.
    intros Hm H. destruct m as [|x m]; [done|]. specialize (H (length m) ltac:(cbn; lia)). 
    destruct (decide (o + length m < length d)); [cbn; lia|]. rewrite lookup_ge_None_2 in H by lia. done.
  Qed.
  Lemma holds_cells d o m : o + length m <= length d -> holds d o m -> holds (cells d o (length m)) 0 m.
  Proof. intros Hb H i Hi. rewrite lookup_cells. rewrite decide_True by lia. by apply H. Qed.
  Lemma src_any s D d p m : (forall g, smem s D = Some g -> rdata g = d) -> (smem s D = None -> fst p <> D \/ m = []) -> reads s p m ->
    exists c, srcc s D d p (length m) c /\ holds c 0 m.
  Proof.
    intros HD HN [->|(g & Hg & Hh)].
    - exists []. split; [split; [done|by left]|]. intros i Hi. cbn in Hi. lia.
    - destruct (decide (m = [])) as [->|Hm]; [exists []; split; [split; [done|by left]|intros i Hi; cbn in Hi; lia]|].
      pose proof (holds_bound _ _ _ Hm Hh) as Hb. exists (cells (rdata g) (snd p) (length m)). split; [|by apply holds_cells].
      split; [by apply cells_length|]. right. destruct (decide (fst p = D)) as [Ep|Ep]; [left|right].
      + rewrite Ep in Hg. rewrite <-(HD _ Hg). done.
      + split; [done|]. exists g. done.
  Qed.
  Lemma src_new s b dn p m : smem s b = None -> reads s p m -> exists c, srcc s b dn p (length m) c /\ holds c 0 m.
  Proof.
    intros Hb Hr. apply src_any; [intros g Hg; congruence| |done]. intros _. destruct Hr as [->|(g & Hg & _)]; [by right|left]. intros E0. congruence.
  Qed.
  Lemma src_old s b dn D bs hp d o n : smem s b = None -> smem s D = Some (Region bs hp d) -> o + n <= length d -> srcc s b dn (D, o) n (cells d o n).
  Proof.
    intros Hb HD Ho. split; [by apply cells_length|]. right. right. cbn. split; [congruence|]. exists (Region bs hp d). done.
  Qed.
  Lemma src_self s D d o n : o + n <= length d -> srcc s D d (D, o) n (cells d o n).
  Proof. intros Ho. split; [by apply cells_length|]. right. left. done. Qed.
  Lemma src_nil s D d p : srcc s D d p 0 [].
  Proof. split; [done|by left]. Qed.
  Lemma new_no_overlap s b p m n o : smem s b = None -> reads s p m -> n = length m -> fst p = b -> n = 0 \/ snd p + n <= o \/ o + n <= snd p.
  Proof. intros Hb [->|(g & Hg & _)] -> Ep; [by left|]. congruence. Qed.

End reads.

Section ops.
  Context {E : Type} (nul : E) (SSO msk mx smax : nat).
  Notation ST := (@ST E). Notation M := (@M E). Notation region := (@region E).
  Context (orc : gmap nat region -> nat -> option (nat * Z * nat)).
  Context (HA : allocator_ok mx orc) (Hsm : 2 * mx + 2 <= smax) (HSSO : SSO <= mx).
  Implicit Types s : ST.
  Implicit Types d c : list (option E).
  Implicit Types l m : list E.
  Notation shape := (shape SSO mx). Notation rep := (rep nul SSO mx). Notation effect := (effect nul SSO mx orc).
  Notation reallocated := (reallocated SSO mx). Notation not_reallocated := (not_reallocated mx orc).

  Lemma eff_wp this s V l' (cm : M unit) : wp cm (fun _ s' => effect this s V l' (Ok tt s')) (fun e s' => effect this s V l' (Throw e s')) s -> effect this s V l' (cm s).
  Proof. unfold wp. destruct (cm s) as [[] s'|e s'|]; done. Qed.
  Definition result d' l' : Prop := holds d' 0 l' /\ d' !! length l' = Some (Some nul).
  Lemma eff_ok_inplace s s' this d bs hp (V : Prop) l' d' : wfm s -> shape s this d -> V ->
    smem s (cur this (sstr s this)) = Some (Region bs hp d) ->
    owning s this (cur this (sstr s this)) bs hp s' (StrVal (length l') (sres (sstr s this)) (sblk (sstr s this))) d' ->
    length l' <= sres (sstr s this) -> length d' = length d -> result d' l' -> effect this s V l' (Ok tt s').
  Proof.
    intros Hw Hsh HV Hg O Hn Hl [Hh Hnul]. destruct (inplace_done SSO mx smax Hsm HSSO s s' this d bs hp (length l') d') as (H1 & H2 & H3); [done..|].
    pose proof O as (_ & _ & Hv & _). split_and!; [done| |done|done|].
    - exists d'. split_and!; [done|by rewrite Hv|done|done].
    - unfold capacity. rewrite decide_True by done. rewrite Hv. split; [done|]. unfold data. rewrite Hv. unfold cur. done.
  Qed.
  Lemma eff_ok_realloc s s' this (V : Prop) n l' : V -> n = length l' -> sres (sstr s this) < n -> reallocated s this n (fun d' => result d' l') s' -> effect this s V l' (Ok tt s').
  Proof.
    intros HV -> Hn (d' & cap & b & Hsh & [Hh Hnul] & Hv & Hf & Hw & Hg & Hc). split_and!; [done| |done|done|].
    - exists d'. split_and!; [done|by rewrite Hv|done|done].
    - unfold capacity. rewrite decide_False by lia. rewrite Hv. done.
  Qed.
  Lemma eff_throw s s' this (V : Prop) n l' e : V -> n = length l' -> sres (sstr s this) < n -> not_reallocated s n e s' -> effect this s V l' (Throw e s').
  Proof. intros HV -> Hn (-> & He). split; [done|]. destruct e; [done|done|]. destruct He as (He & Hk). unfold capacity. split_and!; [done|lia|lia|done]. Qed.

  Lemma source_cells s this d p m : shape s this d -> source s this p m -> exists c, srcc s (cur this (sstr s this)) d p (length m) c /\ holds c 0 m.
  Proof.
    intros (_ & _ & _ & (g & Hg & Hd & _) & _) (Hr & _). apply src_any; [|congruence|done]. intros g' Hg'. congruence.
  Qed.

  (** the last step of every operation that may reallocate *)
  Lemma eff_grow_by s this d inc fn (V : Prop) l' : wfm s -> shape s this d -> V -> sres (sstr s this) < length l' -> length l' = ssz (sstr s this) + inc ->
    prepares mx s this (length l') (fun d' => result d' l') (fun new => fn new (cur this (sstr s this), 0) (ssz (sstr s this))) ->
    wp (Reallocate_grow_by SSO msk mx smax orc this inc fn) (fun _ s' => effect this s V l' (Ok tt s')) (fun e s' => effect this s V l' (Throw e s')) s.
  Proof.
    intros Hw Hsh HV Hs Hl Hp. rewrite Hl in Hp. eapply wp_mono; [eapply (wp_grow_by SSO msk mx smax orc HA Hsm HSSO s this d inc fn); [done|done|lia|exact Hp]| |]; cbn beta.
    - intros [] s' Hr. eapply eff_ok_realloc; [done| | |exact Hr]; lia.
    - intros e s' Hr. eapply eff_throw; [done| | |exact Hr]; lia.
  Qed.

  Theorem append_ok s this l p m : wfm s -> rep s this l -> source s this p m -> effect this s True (l ++ m) (append nul SSO msk mx smax orc this p (length m) s).
  Proof.
    intros Hw Hrep Hsrc. start Hrep. apply eff_wp. unfold append. step. eapply own_get; [exact O0|]. step. apply wp_usub; [lia|]. apply wp_if; intros Hc.
    - step. apply wp_uadd; [lia|]. step. eapply own_set_size; [exact O0|]. intros s1 O1. step. eapply own_Myptr; [exact O1|done|done|]. cbn [ssz sres sblk] in *.
      destruct (source_cells s this d p m Hsh Hsrc) as (c & Hc1 & Hc2). pose proof (proj1 Hc1) as Hc3.
      step. eapply own_move; [exact O1|exact Hc1|lia|]. intros s2 O2. simp. eapply own_put; [exact O2|len|]. intros s3 O3.
      rewrite <-Hlen, <-app_length in O3. eapply (eff_ok_inplace _ _ this d); try done; [len|len|]. split; [intros i; lens; intros Hi|lens]; lk; fin.
    - eapply eff_grow_by; [done|exact Hsh|done|len|len|]. intros b bs' cap s1 Hb Hcap O1. rewrite app_length in *.
      step. eapply own_copy; [exact O1|eapply src_old; [done|exact HD|]| | |]; [lia|len|cbn; congruence|]. intros s2 O2.
      destruct (src_new s b (splice (replicate (cap + 1) None) 0 (cells d 0 (ssz (sstr s this)))) p m Hb (proj1 Hsrc)) as (c & Hc1 & Hc2). pose proof (proj1 Hc1) as Hc3.
      step. eapply own_copy; [exact O2|exact Hc1|len| |]. 
      { intros Ep. destruct (proj1 Hsrc) as [->|(g & Hg & _)]; [by left|]. congruence. }
      intros s3 O3. simp. eapply own_put; [exact O3|len|]. intros s4 O4. eexists. split; [exact O4|]. split; [len|]. split; [intros i; lens; intros Hi|lens]; lk; fin.
  Qed.

  Theorem append_ch_ok s this l n x : wfm s -> rep s this l -> effect this s True (l ++ replicate n x) (append_ch nul SSO msk mx smax orc this n x s).
  Proof.
    intros Hw Hrep. start Hrep. apply eff_wp. unfold append_ch. step. eapply own_get; [exact O0|]. step. apply wp_usub; [lia|]. apply wp_if; intros Hc.
    - step. apply wp_uadd; [lia|]. step. eapply own_set_size; [exact O0|]. intros s1 O1. step. eapply own_Myptr; [exact O1|done|done|]. cbn [ssz sres sblk] in *.
      step. eapply own_fill; [exact O1|lia|]. intros s2 O2. simp. eapply own_put; [exact O2|len|]. intros s3 O3.
      eapply (eff_ok_inplace _ _ this d); [done|done|done|exact HD| |len| |].
      { lens. rewrite Hlen. exact O3. } { len. }
      split; [intros i; lens; intros Hi|lens]; lk; fin.
    - eapply eff_grow_by; [done|exact Hsh|done|len|len|]. intros b bs' cap s1 Hb Hcap O1. revert Hcap O1. lens. intros Hcap O1.
      step. eapply own_copy; [exact O1|eapply src_old; [done|exact HD|]| | |]; [lia|len|cbn; congruence|]. intros s2 O2.
      step. eapply own_fill; [exact O2|len|]. intros s3 O3. simp. eapply own_put; [exact O3|len|]. intros s4 O4. eexists. split; [exact O4|]. split; [len|].
      split; [intros i; lens; intros Hi|lens]; lk; fin.
  Qed.
  Theorem assign_ok s this l p m : wfm s -> rep s this l -> source s this p m -> effect this s True m (assign nul SSO msk mx smax orc this p (length m) s).
  Proof.
    intros Hw Hrep Hsrc. start Hrep. apply eff_wp. unfold assign. step. eapply own_get; [exact O0|]. apply wp_if; intros Hc.
    - step. eapply own_Myptr; [exact O0|done|done|]. step. eapply own_set_size; [exact O0|]. intros s1 O1.
      destruct (source_cells s this d p m Hsh Hsrc) as (c & Hc1 & Hc2). pose proof (proj1 Hc1) as Hc3.
      step. eapply own_move; [exact O1|exact Hc1|lia|]. intros s2 O2. simp. eapply own_put; [exact O2|len|]. intros s3 O3.
      eapply (eff_ok_inplace _ _ this d); [done|done|done|exact HD|exact O3|lia|len|]. split; [intros i; lens; intros Hi|lens]; lk; fin.
    - eapply wp_mono; [eapply (wp_realloc_for SSO msk mx smax orc HA Hsm HSSO s this d _ _ (fun d' => result d' m)); [done|done|lia|]| |]; cbn beta.
      + intros b bs' cap s1 Hb Hcap O1. destruct (src_new s b (replicate (cap + 1) None) p m Hb (proj1 Hsrc)) as (c & Hc1 & Hc2). pose proof (proj1 Hc1) as Hc3.
        step. eapply own_copy; [exact O1|exact Hc1|len|intros; eapply new_no_overlap; [exact Hb|exact (proj1 Hsrc)|done|done]|]. intros s2 O2. simp. eapply own_put; [exact O2|len|]. intros s3 O3.
        eexists. split; [exact O3|]. split; [len|]. split; [intros i; lens; intros Hi|lens]; lk; fin.
      + intros [] s' Hr. eapply eff_ok_realloc; [done|done| |exact Hr]; lia.
      + intros e s' Hr. eapply eff_throw; [done|done| |exact Hr]; lia.
  Qed.
  Theorem assign_ch_ok s this l n x : wfm s -> rep s this l -> effect this s True (replicate n x) (assign_ch nul SSO msk mx smax orc this n x s).
  Proof.
    intros Hw Hrep. start Hrep. apply eff_wp. unfold assign_ch. step. eapply own_get; [exact O0|]. apply wp_if; intros Hc.
    - step. eapply own_Myptr; [exact O0|done|done|]. step. eapply own_set_size; [exact O0|]. intros s1 O1.
      step. eapply own_fill; [exact O1|lia|]. intros s2 O2. simp. eapply own_put; [exact O2|len|]. intros s3 O3.
      eapply (eff_ok_inplace _ _ this d); [done|done|done|exact HD|rewrite replicate_length; exact O3|len|len|]. split; [intros i; lens; intros Hi|lens]; lk; fin.
    - eapply wp_mono; [eapply (wp_realloc_for SSO msk mx smax orc HA Hsm HSSO s this d _ _ (fun d' => result d' (replicate n x))); [done|done|lia|]| |]; cbn beta.
      + intros b bs' cap s1 Hb Hcap O1.
        step. eapply own_fill; [exact O1|len|]. intros s2 O2. simp. eapply own_put; [exact O2|len|]. intros s3 O3.
        eexists. split; [exact O3|]. split; [len|]. split; [intros i; lens; intros Hi|lens]; lk; fin.
      + intros [] s' Hr. eapply eff_ok_realloc; [done| | |exact Hr]; [len|lia].
      + intros e s' Hr. eapply eff_throw; [done| | |exact Hr]; [len|lia].
  Qed.
  Theorem push_back_ok s this l x : wfm s -> rep s this l -> effect this s True (l ++ [x]) (push_back nul SSO msk mx smax orc this x s).
  Proof.
    intros Hw Hrep. start Hrep. apply eff_wp. unfold push_back. step. eapply own_get; [exact O0|]. apply wp_if; intros Hc.
    - step. apply wp_uadd; [lia|]. step. eapply own_set_size; [exact O0|]. intros s1 O1. step. eapply own_Myptr; [exact O1|done|done|]. cbn [ssz sres sblk] in *.
      step. eapply own_put; [exact O1|lia|]. intros s2 O2. simp. eapply own_put; [exact O2|len|]. intros s3 O3.
      eapply (eff_ok_inplace _ _ this d); [done|done|done|exact HD|rewrite app_length, Hlen; exact O3|len|len|]. split; [intros i; lens; intros Hi|lens]; lk; fin.
    - eapply eff_grow_by; [done|exact Hsh|done|len|len|]. intros b bs' cap s1 Hb Hcap O1. revert Hcap O1. lens. intros Hcap O1.
      step. eapply own_copy; [exact O1|eapply src_old; [done|exact HD|]| | |]; [lia|len|cbn; congruence|]. intros s2 O2.
      step. eapply own_put; [exact O2|len|]. intros s3 O3. simp. eapply own_put; [exact O3|len|]. intros s4 O4. eexists. split; [exact O4|]. split; [len|].
      split; [intros i; lens; intros Hi|lens]; lk; fin.
  Qed.
  Lemma Eos_wp s this l n s1 d bs hp (V : Prop) : wfm s -> shape s this d -> smem s (cur this (sstr s this)) = Some (Region bs hp d) -> holds d 0 l -> length l <= sres (sstr s this) -> V ->
    (exists k, owning s this (cur this (sstr s this)) bs hp s1 (StrVal k (sres (sstr s this)) (sblk (sstr s this))) d) -> n <= length l ->
    wp (Eos nul SSO this n) (fun _ s' => effect this s V (take n l) (Ok tt s')) (fun e s' => effect this s V (take n l) (Throw e s')) s1.
  Proof.
    intros Hw Hsh HD Hhold Hl HV (k & O0) Hn. pose proof Hsh as (_ & Hsz & Hd & _ & Hblk). unfold Eos. step. eapply own_set_size; [exact O0|]. intros s2 O2. step.
    eapply own_Myptr; [exact O2|done|done|]. simp. eapply own_put; [exact O2|lia|]. intros s3 O3. cbn [sres sblk] in O3.
    eapply (eff_ok_inplace _ _ this d); [done|done|done|exact HD|rewrite take_length, Nat.min_l by done; exact O3|len|len|].
    split; [intros i; lens; intros Hi|lens]; lk; fin.
  Qed.
  Lemma sstr_eta (v : strval) : v = StrVal (ssz v) (sres v) (sblk v).
  Proof. by destruct v. Qed.
  Theorem erase_from_ok s this l off : wfm s -> rep s this l -> effect this s (off <= length l) (take off l) (erase_from nul SSO this off s).
  Proof.
    intros Hw Hrep. start Hrep. apply eff_wp. unfold erase_from, Check_offset. step. apply wp_bind. eapply own_get; [exact O0|]. apply wp_if; intros Hc.
    - apply wp_throw. split; [done|]. lia.
    - apply wp_ret. eapply Eos_wp; try done; [lia|lia|exists (ssz (sstr s this)); by rewrite <-sstr_eta|lia].
  Qed.
  Theorem clear_ok s this l : wfm s -> rep s this l -> effect this s True [] (clear nul SSO this s).
  Proof.
    intros Hw Hrep. start Hrep. apply eff_wp. unfold clear. change (@nil E) with (take 0 l).
    eapply Eos_wp; try done; [lia|exists (ssz (sstr s this)); by rewrite <-sstr_eta|lia].
  Qed.
  Theorem pop_back_ok s this l x : wfm s -> rep s this (l ++ [x]) -> effect this s True l (pop_back nul SSO this s).
  Proof.
    intros Hw Hrep. start Hrep. apply eff_wp. unfold pop_back. step. eapply own_get; [exact O0|]. rewrite app_length in Hlen. cbn in Hlen. step. apply wp_usub; [lia|].
    replace l with (take (ssz (sstr s this) - 1) (l ++ [x])) by (replace (ssz (sstr s this) - 1) with (length l) by lia; by rewrite take_app).
    eapply Eos_wp; try done; [len|exists (ssz (sstr s this)); by rewrite <-sstr_eta|len].
  Qed.
  Theorem resize_ok s this l n x : wfm s -> rep s this l -> effect this s True (resized l n x) (resize nul SSO msk mx smax orc this n x s).
  Proof.
    intros Hw Hrep. pose proof Hrep as Hrep0. start Hrep. apply eff_wp. unfold resize. step. eapply own_get; [exact O0|]. apply wp_if; intros Hc.
    - replace (resized l n x) with (take n l) by (unfold resized; replace (n - length l) with 0 by lia; cbn; by rewrite app_nil_r).
      eapply Eos_wp; try done; [lia|exists (ssz (sstr s this)); by rewrite <-sstr_eta|lia].
    - step. apply wp_usub; [lia|]. replace (resized l n x) with (l ++ replicate (n - ssz (sstr s this)) x) by (unfold resized; rewrite take_ge by lia; by rewrite Hlen).
      pose proof (append_ch_ok s this l (n - ssz (sstr s this)) x Hw Hrep0) as HH. unfold wp. destruct (append_ch _ _ _ _ _ _ _ _ _ _) as [[]| |]; done.
  Qed.
  Theorem insert_ch_ok s this l off n x : wfm s -> rep s this l -> effect this s (off <= length l) (inserted l off (replicate n x)) (insert_ch SSO msk mx smax orc this off n x s).
  Proof.
    intros Hw Hrep. start Hrep. apply eff_wp. unfold insert_ch, Check_offset. step. apply wp_bind. eapply own_get; [exact O0|]. apply wp_if; intros Hoff.
    { apply wp_throw. split; [done|]. lia. }
    apply wp_ret. assert (HL : length (inserted l off (replicate n x)) = length l + n) by (unfold inserted; len).
    step. eapply own_get; [exact O0|]. step. apply wp_usub; [lia|]. apply wp_if; intros Hc.
    - step. apply wp_uadd; [lia|]. step. eapply own_set_size; [exact O0|]. intros s1 O1. step. eapply own_Myptr; [exact O1|done|done|]. cbn [ssz sres sblk] in *.
      step. apply wp_usub; [lia|]. step. apply wp_uadd; [lia|]. step. eapply own_move; [exact O1|apply src_self|lia|]; [lia|]. intros s2 O2. simp.
      eapply own_fill; [exact O2|len|]. intros s3 O3.
      eapply (eff_ok_inplace _ _ this d); [done|done|lia|exact HD|rewrite HL, Hlen; exact O3|lia|len|]. unfold result. rewrite HL.
      split; [intros i; rewrite HL; intros Hi|]; unfold inserted; lk; fin.
    - eapply eff_grow_by; [done|exact Hsh|lia|lia|lia|]. rewrite HL. intros b bs' cap s1 Hb Hcap O1.
      step. eapply own_copy; [exact O1|eapply src_old; [done|exact HD|]| | |]; [lia|len|cbn; congruence|]. intros s2 O2.
      step. eapply own_fill; [exact O2|len|]. intros s3 O3. step. apply wp_usub; [lia|]. step. apply wp_uadd; [lia|]. simp.
      eapply own_copy; [exact O3|eapply src_old; [done|exact HD|]| | |]; [lia|len|cbn; congruence|]. intros s4 O4.
      eexists. split; [exact O4|]. split; [len|]. unfold result. rewrite HL. split; [intros i; rewrite HL; intros Hi|]; unfold inserted; lk; fin.
  Qed.
  Lemma wp_erase s this l off n (V : Prop) : wfm s -> rep s this l -> V -> off <= length l ->
    wp (Erase_noexcept SSO smax this off n) (fun _ s' => effect this s V (erased l off n) (Ok tt s')) (fun e s' => effect this s V (erased l off n) (Throw e s')) s.
  Proof.
    intros Hw Hrep HV Hoff. start Hrep. unfold Erase_noexcept, Clamp_suffix_size. step. apply wp_bind. eapply own_get; [exact O0|]. step. apply wp_usub; [lia|]. apply wp_ret.
    set (k := n `min` (ssz (sstr s this) - off)). assert (HL : length (erased l off n) = length l - k) by (unfold erased, k; len).
    step. eapply own_get; [exact O0|]. step. eapply own_Myptr; [exact O0|done|done|]. step. apply wp_usub; [lia|]. step. apply wp_usub; [lia|]. step. apply wp_uadd; [lia|].
    step. eapply own_move; [exact O0|apply src_self; lia|lia|]. intros s1 O1. eapply own_set_size; [exact O1|]. intros s2 O2.
    eapply (eff_ok_inplace _ _ this d); [done|done|done|exact HD|rewrite HL, Hlen; exact O2|lia|len|]. unfold result. rewrite HL.
    split; [intros i; rewrite HL; intros Hi|]; unfold erased; lk; fin.
  Qed.
  Theorem erase_ok s this l off n : wfm s -> rep s this l -> effect this s (off <= length l) (erased l off n) (erase SSO smax this off n s).
  Proof.
    intros Hw Hrep. pose proof Hrep as (d & Hsh & Hlen & _). apply eff_wp. unfold erase, Check_offset. step. apply wp_bind, wp_get. apply wp_if; intros Hoff.
    { apply wp_throw. split; [done|]. lia. }
    apply wp_ret. apply wp_erase; [done|done|lia|lia].
  Qed.
End ops.
