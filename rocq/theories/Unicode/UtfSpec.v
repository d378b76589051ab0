(** The encoding forms of Unicode, independent of the decoders (Unicode 15, section 3.9, D76, D90-D92). *)
From stdpp Require Import base list numbers.
Local Open Scope Z_scope.

(** Unicode scalar values (D76). *)
Definition scalar (c : Z) : Prop := 0 <= c <= 0xD7FF \/ 0xE000 <= c <= 0x10FFFF.

(** UTF-8 (D92, table 3-6). *)
Definition encode8 (c : Z) : list Z :=
  if c <=? 0x7F then [c]
  else if c <=? 0x7FF then [0xC0 + c / 64; 0x80 + c mod 64]
  else if c <=? 0xFFFF then [0xE0 + c / 4096; 0x80 + (c / 64) mod 64; 0x80 + c mod 64]
  else [0xF0 + c / 262144; 0x80 + (c / 4096) mod 64; 0x80 + (c / 64) mod 64; 0x80 + c mod 64].

(** UTF-16 (D91, table 3-5). *)
Definition encode16 (c : Z) : list Z :=
  if c <=? 0xFFFF then [c] else [0xD800 + (c - 0x10000) / 1024; 0xDC00 + (c - 0x10000) mod 1024].

(** UTF-32 (D90). *)
Definition encode32 (c : Z) : list Z := [c].

(** The units [p] begin some well-formed code unit sequence. *)
Definition starts_some (encode : Z -> list Z) (p : list Z) : Prop :=
  exists c, scalar c /\ p `prefix_of` encode c.

(** What one decoding step must say about the units [l] from the current position on: the value, the number of
    units consumed and whether they are a scalar value.  [bad] is the value reported for ill-formed input
    (U+FFFD for UTF-8 and UTF-16), given the first unit. *)
Definition step_spec (encode : Z -> list Z) (bad : Z -> Z) (l : list Z) (v : Z) (n : nat) (usv : bool) : Prop :=
  if usv then scalar v /\ encode v `prefix_of` l /\ n = length (encode v)
  else (exists u, head l = Some u /\ v = bad u) /\
       (** no encoding of a scalar value starts here ... *)
       (forall c, scalar c -> ~ encode c `prefix_of` l) /\
       (** ... and what is skipped is the maximal subpart: the longest prefix that begins an encoding, or one
           unit if there is none *)
       (1 <= n <= length l)%nat /\
       (n = 1%nat \/ starts_some encode (take n l)) /\
       (forall m, (n < m <= length l)%nat -> ~ starts_some encode (take m l)).

(** The units [l] as a sequence of chunks, each with the code point it stands for: chunk by chunk an encoding
    of a scalar value, or a maximal subpart of an ill-formed subsequence. *)
Inductive decoded (encode : Z -> list Z) (bad : Z -> Z) : list Z -> list (list Z * Z) -> Prop :=
  | decoded_nil : decoded encode bad [] []
  | decoded_cons l v n usv ds :
      step_spec encode bad l v n usv ->
      decoded encode bad (drop n l) ds -> decoded encode bad l ((take n l, v) :: ds).

(** The places a walk over the chunks stops at: the units still ahead, and the code point there. *)
Fixpoint stops (ds : list (list Z * Z)) : list (list Z * Z) :=
  match ds with
  | [] => []
  | (p, v) :: ds' => (concat (map fst ds), v) :: stops ds'
  end.

Definition units8 (l : list Z) : Prop := Forall (fun u => 0 <= u <= 0xFF) l.
Definition units16 (l : list Z) : Prop := Forall (fun u => 0 <= u <= 0xFFFF) l.
Definition units32 (l : list Z) : Prop := Forall (fun u => 0 <= u <= 0xFFFFFFFF) l.

(** The three encoding forms. *)
Inductive form := UTF8 | UTF16 | UTF32.
Definition encode_of (f : form) : Z -> list Z :=
  match f with UTF8 => encode8 | UTF16 => encode16 | UTF32 => encode32 end.
Definition units_ok (f : form) : list Z -> Prop :=
  match f with UTF8 => units8 | UTF16 => units16 | UTF32 => units32 end.
(** What stands for ill-formed input: U+FFFD, except that a unit of UTF-32 is passed on. *)
Definition bad_of (f : form) (u : Z) : Z := match f with UTF32 => u | _ => 0xFFFD end.
