(** C27, load factor: with the float arithmetic of xhash, no insertion leaves load_factor() above max_load_factor(), and
    after reserve(n) no insertion up to size n rehashes. (These two rest on the real numbers of the standard library.) *)
From Coq Require Import Reals ZArith Lia Lra.
From Flocq Require Import Core.
From Verif Require Import Base.Res Cont.ListModel Cont.ListSpec Cont.HashModel Cont.HashSpec Cont.HashLoad Props.HashProps.
Local Open Scope nat_scope.

Section props.
Context {K V : Type} (kfn : V -> K) (hash : K -> nat) (keq : K -> K -> bool) (HO : hash_ok hash keq).
Theorem C27_load_factor_float mlf (h : heap V) t l hint new v :
  wf kfn hash keq h t l -> hint_ok hint t l -> h new = None -> new <> 0 -> is_f32 mlf -> (0 < mlf)%R ->
  (exists h' t', emplace_multi kfn hash keq (float_policy mlf) h t hint new v = Ok (h', t', new) /\ (load_factor (lsize (tl t')) (tmax t') <= mlf)%R) /\
  (group kfn keq (kfn v) l = nil -> forall nodefirst, exists h' t',
     insert_unique kfn hash keq nodefirst (float_policy mlf) h t hint new v = Ok (h', t', new, true) /\ (load_factor (lsize (tl t')) (tmax t') <= mlf)%R).
Proof.
  intros W HH Hn Hz Fm Hm. destruct (C27_load_factor kfn hash keq HO (float_policy mlf) h t l hint new v W HH Hn Hz (float_policy_ok mlf Fm Hm)) as [(h' & t' & E & O) H2].
  assert (LE : forall x, Rlt_bool mlf x = false -> (x <= mlf)%R). { intros x. case Rlt_bool_spec; [discriminate|trivial]. }
  split.
  - exists h', t'. split; [exact E|]. apply LE. exact O.
  - intros HG nf. destruct (H2 HG nf) as (h2 & t2 & E2 & O2). exists h2, t2. split; [exact E2|]. apply LE. exact O2.
Qed.
Theorem C27_reserve_float mlf (h : heap V) t l n s : wf kfn hash keq h t l -> is_f32 mlf -> (0 < mlf)%R -> s <= n ->
  exists h' t', reserve kfn hash keq (float_policy mlf) h t n = Ok (h', t') /\ over (float_policy mlf) s (tmax t') = false.
Proof.
  intros W Fm Hm Hs. apply (C27_reserve_no_rehash kfn hash keq HO (float_policy mlf) h t l n s W); [apply float_policy_ok; assumption| |exact Hs].
  intros i j Hij. cbn [float_policy mlfb]. apply Z2Nat.inj_le; [| |].
  1,2: assert (G : forall z : R, (0 <= z)%R -> (0 <= Zceil z)%Z) by (intros z Hz0; rewrite <- (Zceil_IZR 0); apply Zceil_le; exact Hz0); apply G;
    rewrite <- (f32_id 0%R) by apply generic_format_0; apply f32_le; apply Rmult_le_pos; [rewrite <- (f32_id 0%R) by apply generic_format_0; apply f32_le, pos_INR|left; apply Rinv_0_lt_compat; exact Hm].
  apply Zceil_le, f32_le. apply Rmult_le_compat_r; [left; apply Rinv_0_lt_compat; exact Hm|]. apply f32_le, le_INR, Hij.
Qed.
End props.
(** satisfiability: the default maximal load factor is a float *)
Example C27_sat_float : is_f32 1 /\ (0 < 1)%R.
Proof. split; [|lra]. apply (pow_fmt 0). lia. Qed.
Print Assumptions C27_load_factor_float.
Print Assumptions C27_reserve_float.
