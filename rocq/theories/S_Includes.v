(** Specification of include directives. *)
From Verif Require Import Base.

(** White space: blank, tab, newline, form feed, carriage return. *)
Definition white (c : ascii) : Prop := In c [" "%char; "009"%char; "010"%char; "012"%char; "013"%char].
Definition letter (c : ascii) : Prop := (97 <= code c <= 122)%N \/ (65 <= code c <= 90)%N.
Definition digit (c : ascii) : Prop := (48 <= code c <= 57)%N.
(** What paths are made of, before the extensions. *)
Definition name_char (c : ascii) : Prop :=
  letter c \/ digit c \/ In c ["_"%char; "/"%char; "+"%char; "-"%char].
(** A path: some "../", a name, extensions of letters such as ".pb.h". *)
Definition header_path (p : str) : Prop :=
  exists n name exts,
    p = concat (repeat ($"../") n) ++ name ++ concat (map (cons "."%char) exts) /\
    name <> [] /\ Forall name_char name /\
    (forall e, In e exts -> e <> [] /\ Forall letter e).

Definition quotes (s : str) : nat := count_occ ascii_dec s DQ.
(** Where a line begins; what follows a quote counts too. *)
Definition at_line_start (before : str) : Prop :=
  before = [] \/ exists b, before = b ++ [NL] \/ before = b ++ [DQ].
(** [content] has an include of [path], which is at offset [off], with an even number of
    quotes in front of it. *)
Definition included (content : str) (off : nat) (p : str) : Prop :=
  exists before w1 w2 w3 after,
    content = before ++ w1 ++ $"#" ++ w2 ++ $"include" ++ w3 ++ [DQ] ++ p ++ [DQ] ++ after /\
    at_line_start before /\ Nat.Even (quotes before) /\
    Forall white w1 /\ Forall white w2 /\ Forall white w3 /\ w3 <> [] /\
    header_path p /\
    off = length (before ++ w1 ++ $"#" ++ w2 ++ $"include" ++ w3 ++ [DQ]).
