(** C12: subsequence searches. [h] is the whole haystack [first, last), results are indices and [length h] stands for [last].
    [occurs], [run_at], [first_such], [last_such] are in Alg/SubseqSpec.v. *)
From stdpp Require Import base list numbers.
From Coq Require Import Lia.
From Verif Require Import Base.Res Base.Arr Alg.SubseqModel Alg.SubseqSpec Alg.SubseqProofs Alg.BoyerMooreProofs.

(** for any predicate, even one that is not an equivalence *)
Theorem C12_search : forall {A} (eq : A -> A -> bool) (h p : list A),
  (exists r, search_ra eq h p = Ok r /\ first_such h (occurs eq h p) r) /\
  (exists r, search_fwd eq h p = Ok r /\ first_such h (occurs eq h p) r).
Proof. intros. split; apply wp_exists; [apply search_ra_ok|apply search_fwd_ok]. Qed.

(** an empty needle is found at [last] *)
Theorem C12_find_end : forall {A} (eq : A -> A -> bool) (h p : list A),
  (exists r, find_end_ra eq h p = Ok r /\ last_such h (occurs eq h p) r) /\
  (exists r, find_end_bidi eq h p = Ok r /\ last_such h (occurs eq h p) r) /\
  (exists r, find_end_fwd eq h p = Ok r /\ last_such h (occurs eq h p) r).
Proof. intros. split; [|split]; apply wp_exists; [apply find_end_ra_ok|apply find_end_bidi_ok|apply find_end_fwd_ok]. Qed.

(** [q x] is pred(x, value); [eqto] says whether the predicate is std::equal_to (the count = 1 shortcut) *)
Theorem C12_search_n : forall {A} (q : A -> bool) (eqto : bool) (h : list A) (n : nat),
  (exists r, search_n_ra q eqto h n = Ok r /\ first_such h (run_at q h n) r) /\
  (exists r, search_n_fwd q eqto h n = Ok r /\ first_such h (run_at q h n) r).
Proof. intros. split; apply wp_exists; [apply search_n_ra_ok|apply search_n_fwd_ok]. Qed.

(** the searchers require an equivalence consistent with the hash *)
Theorem C12_boyer_moore : forall {A} (eq : A -> A -> bool), Equivalence_b eq -> forall (h p : list A),
  exists r, boyer_moore_searcher eq h p = Ok r /\ first_such h (occurs eq h p) r.
Proof. intros A eq EQ h p. apply wp_exists. by apply boyer_moore_searcher_ok. Qed.
Theorem C12_boyer_moore_horspool : forall {A} (eq : A -> A -> bool), Equivalence_b eq -> forall (h p : list A),
  exists r, boyer_moore_horspool_searcher eq h p = Ok r /\ first_such h (occurs eq h p) r.
Proof. intros A eq EQ h p. apply wp_exists. by apply boyer_moore_horspool_ok. Qed.

(** the answer is unique, so all these functions agree *)
Theorem C12_first_unique : forall {A} (h : list A) (P : nat -> Prop) r r', (forall i, P i -> (i <= length h)%nat) ->
  first_such h P r -> first_such h P r' -> r = r'.
Proof.
  intros A h P r r' HP [[H1 H2]|[-> H2]] [[H3 H4]|[-> H4]]; [| by apply H4 in H1|by apply H2 in H3|done].
  destruct (lt_eq_lt_dec r r') as [[H|H]|H]; [by apply H4 in H|done|by apply H2 in H].
Qed.
Theorem C12_searchers_agree : forall {A} (eq : A -> A -> bool), Equivalence_b eq -> forall (h p : list A),
  boyer_moore_searcher eq h p = search_ra eq h p /\ boyer_moore_horspool_searcher eq h p = search_ra eq h p.
Proof.
  intros A eq EQ h p. destruct (C12_search eq h p) as [(r & -> & Hr) _].
  destruct (C12_boyer_moore eq EQ h p) as (r1 & -> & Hr1). destruct (C12_boyer_moore_horspool eq EQ h p) as (r2 & -> & Hr2).
  assert (H : forall i, occurs eq h p i -> (i <= length h)%nat) by (intros i [Hi _]; lia).
  by rewrite (C12_first_unique _ _ _ _ H Hr1 Hr), (C12_first_unique _ _ _ _ H Hr2 Hr).
Qed.

Example C12_sat : Equivalence_b Nat.eqb /\
  occurs Nat.eqb [0;1;0;1;1;0;1;1;0]%nat [1;0;1;1;0]%nat 1 /\
  boyer_moore_searcher Nat.eqb [0;1;0;1;1;0;1;1;0]%nat [1;0;1;1;0]%nat = Ok 1%nat /\
  delta2_table Nat.eqb [1;0;1;1;0]%nat = Ok [7;6;5;6;1]%nat /\
  find_end_fwd Nat.eqb [0;1;0;1;1;0;1;1;0]%nat [1;1;0]%nat = Ok 6%nat /\
  search_n_ra (Nat.eqb 1) true [0;1;0;1;1;0;1;1;1]%nat 3 = Ok 6%nat /\
  boyer_moore_horspool_searcher Nat.eqb [0;1;0;1;1;0;1;1;0]%nat [2]%nat = Ok 9%nat.
Proof.
  split.
  - split; intros; rewrite ?Nat.eqb_eq in *; congruence.
  - split; [|vm_compute; done]. split; [simpl; lia|]. intros k x y Hx Hy.
    do 6 (destruct k as [|k]; [simpl in *; try congruence; injection Hx as <-; injection Hy as <-; done|]). done.
Qed.

Print Assumptions C12_search.
Print Assumptions C12_find_end.
Print Assumptions C12_search_n.
Print Assumptions C12_boyer_moore.
Print Assumptions C12_boyer_moore_horspool.
Print Assumptions C12_first_unique.
Print Assumptions C12_searchers_agree.
