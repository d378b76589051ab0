(** What std::filesystem::path promises about the text of a path: grammar of root names, decomposition into elements,
    ordering, and normalisation. Independent of the model. Code units: '.' 46, '/' 47, ':' 58, '?' 63, '\' 92. *)
From stdpp Require Import base list numbers relations.
From Coq Require Import ZArith.
Local Open Scope Z_scope.

(** wchar_t code units *)
Definition wide (t : list Z) : Prop := Forall (fun c => 0 <= c < 65536) t.
Definition sep (c : Z) : Prop := c = 47 \/ c = 92.
Definition letter (c : Z) : Prop := 65 <= c <= 90 \/ 97 <= c <= 122.
Definition starts_with_sep (t : list Z) : Prop := exists c r, t = c :: r /\ sep c.
(** a nonempty run of separators; a filename *)
Definition seps (t : list Z) : Prop := t <> [] /\ Forall sep t.
Definition name (t : list Z) : Prop := t <> [] /\ Forall (fun c => ~ sep c) t.

(** "X:", "\\?" "\\." "\??" followed by exactly one separator, or "\\server". [r] is what follows. *)
Inductive nonempty_root : list Z -> list Z -> Prop :=
| NR_drive c r : letter c -> nonempty_root [c; 58] r
| NR_device a b c s r : sep a -> (sep b /\ (c = 63 \/ c = 46)) \/ (b = 63 /\ c = 63) -> sep s -> ~ starts_with_sep r ->
    nonempty_root [a; b; c] (s :: r)
| NR_server a b c w r : sep a -> sep b -> ~ sep c -> Forall (fun c => ~ sep c) w -> r = [] \/ starts_with_sep r ->
    nonempty_root (a :: b :: c :: w) r.
(** [rn] is the root-name of [rn ++ r] *)
Definition RootName (rn r : list Z) : Prop :=
  nonempty_root rn r \/ (rn = [] /\ forall rn' r', r = rn' ++ r' -> ~ nonempty_root rn' r').

(** The filenames of a relative path (it does not begin with a separator); [tr]: does it end in a separator? *)
Inductive Filenames : list Z -> list (list Z) -> bool -> Prop :=
| F_nil : Filenames [] [] false
| F_last n : name n -> Filenames n [n] false
| F_dir n s : name n -> seps s -> Filenames (n ++ s) [n] true
| F_cons n s r m ns tr : name n -> seps s -> Filenames r (m :: ns) tr -> Filenames (n ++ s ++ r) (n :: m :: ns) tr.

(** Decomposition of a path: root-name, root-directory, relative path with its filenames. *)
Record Parsed (t rn rd rel : list Z) (ns : list (list Z)) (tr : bool) : Prop := {
  pa_text : t = rn ++ rd ++ rel;
  pa_root : RootName rn (rd ++ rel);
  pa_dir : Forall sep rd;
  pa_rel : ~ starts_with_sep rel;
  pa_names : Filenames rel ns tr
}.

(** [fs.path.itr]: the elements a path is iterated as *)
Definition opt (l : list Z) : list (list Z) := match l with [] => [] | _ => [l] end.
Definition elements (rn rd : list Z) (ns : list (list Z)) (tr : bool) : list (list Z) :=
  opt rn ++ opt rd ++ ns ++ (if tr then [[]] else []).

(** [fs.path.compare]: -1, 0, 1 *)
Fixpoint lex {A} (cmp : A -> A -> Z) (a b : list A) : Z :=
  match a, b with
  | [], [] => 0
  | [], _ => -1
  | _, [] => 1
  | x :: a, y :: b => if cmp x y =? 0 then lex cmp a b else cmp x y
  end.
Definition cmpZ (x y : Z) : Z := Z.sgn (x - y).
Definition cmp_text : list Z -> list Z -> Z := lex cmpZ.
Definition cmp_bool (a b : bool) : Z := cmpZ (if a then 1 else 0) (if b then 1 else 0).
Definition then_ (a b : Z) : Z := if a =? 0 then b else a.
Definition nonempty (l : list Z) : bool := match l with [] => false | _ => true end.
(** root names as text, then "has a root directory", then the elements of the relative path one by one *)
Definition cmp_path (rn1 rd1 : list Z) (ns1 : list (list Z)) (tr1 : bool) (rn2 rd2 : list Z) (ns2 : list (list Z)) (tr2 : bool) : Z :=
  then_ (cmp_text rn1 rn2) (then_ (cmp_bool (nonempty rd1) (nonempty rd2))
    (lex cmp_text (ns1 ++ if tr1 then [[]] else []) (ns2 ++ if tr2 then [[]] else []))).

(** extension: from the last dot, unless that dot is the first character or the name is ".." *)
Definition Extension (f st ex : list Z) : Prop :=
  f = st ++ ex /\
  ((ex = [] /\ (f = [46; 46] \/ forall c r, f = c :: r -> ~ 46 ∈ r)) \/
   (f <> [46; 46] /\ st <> [] /\ exists r, ex = 46 :: r /\ ~ 46 ∈ r)).

(** Resolution of filenames against a directory, in a file system without symbolic links: "." stays, ".." goes up (the
    root is its own parent), any other name goes down. *)
Definition go (d : list (list Z)) (n : list Z) : list (list Z) :=
  if bool_decide (n = [46]) then d else if bool_decide (n = [46; 46]) then removelast d else d ++ [n].
Definition resolve (d : list (list Z)) (ns : list (list Z)) : list (list Z) := fold_left go ns d.

(** [fs.path.generic]/6: normalisation, on the sequence of filenames and directory-separators after the root (a separator
    is the empty list). *)
Definition maybe_sep (s : list (list Z)) : Prop := s = [[]] \/ s = [].
(** "any immediately following directory-separator": if there is one it goes too *)
Definition all_seps (s b : list (list Z)) : Prop := s = [[]] \/ (s = [] /\ head b <> Some []).
Inductive rm_dot : relation (list (list Z)) :=
| RM_dot a s b : all_seps s b -> rm_dot (a ++ [46] :: s ++ b) (a ++ b).
Inductive rm_dotdot : relation (list (list Z)) :=
| RM_dotdot a n s b : n <> [] -> n <> [46; 46] -> all_seps s b -> rm_dotdot (a ++ n :: [] :: [46; 46] :: s ++ b) (a ++ b).
Inductive rm_root_dotdot : relation (list (list Z)) :=
| RM_root_dotdot a s b : all_seps s b -> rm_root_dotdot (a ++ [46; 46] :: s ++ b) (a ++ b).
Definition exhausted (R : relation (list (list Z))) (v w : list (list Z)) : Prop := rtc R v w /\ forall u, ~ R w u.
(** steps 4 to 7 *)
Definition Normal (has_root_dir : bool) (v w : list (list Z)) : Prop :=
  exists v4 v5 v6, exhausted rm_dot v v4 /\ exhausted rm_dotdot v4 v5 /\
    (if has_root_dir then exhausted rm_root_dotdot v5 v6 else v6 = v5) /\
    ((exists a, v6 = a ++ [[46; 46]; []] /\ w = a ++ [[46; 46]]) \/ ((forall a, v6 <> a ++ [[46; 46]; []]) /\ w = v6)).
(** filenames and separators of a relative path *)
Fixpoint tokens (ns : list (list Z)) (tr : bool) : list (list Z) :=
  match ns with
  | [] => []
  | [n] => n :: if tr then [[]] else []
  | n :: ns => n :: [] :: tokens ns tr
  end.
(** every directory-separator becomes one preferred separator *)
Definition spell (v : list (list Z)) : list Z := mjoin ((fun n => match n with [] => [92] | _ => n end) <$> v).
Definition preferred (t : list Z) : list Z := (fun c => if c =? 47 then 92 else c) <$> t.
(** a filename that would read as (the beginning of) a root-name if it came first in a path with root-directory [rd] and no
    root-name: "X:..." in "X:...", "??" in "\??\..." *)
Definition looks_like_root (rd n : list Z) : Prop :=
  match rd with [] => exists c r, n = c :: 58 :: r /\ letter c | _ => n = [63; 63] end.

(** [fs.path.query]: is_absolute for Windows ("X:" needs a root-directory; "\\server" and device names are absolute on their own) *)
Definition absolute (rn rd : list Z) : bool := if (length rn =? 2)%nat then nonempty rd else nonempty rn.
(** [fs.path.append]: what [t /= o] leaves in [t], by the paragraphs of the standard *)
Definition append_spec (t rn rd : list Z) (ns : list (list Z)) (tr : bool) (o rn' rd' rel' : list Z) : list Z :=
  if absolute rn' rd' || (nonempty rn' && bool_decide (rn' <> rn)) then o                   (* replaces *)
  else if nonempty rd' then rn ++ rd' ++ rel'                                              (* keeps only the root-name *)
  else if (negb (nonempty rd) && absolute rn rd) || (negb tr && match ns with [] => false | _ => true end)
       then t ++ [92] ++ rel'                                                              (* separator, then the rest *)
  else t ++ rel'.
