(** Specification vocabulary for labels and patterns, independent of the parser. *)
From Verif Require Import Base M_Types.

(** A package path: components without ':' separated by single slashes. *)
Definition wf_path (p : str) : Prop :=
  ~ In ":"%char p /\ (forall r, p <> "/"%char :: r) /\ (forall r, p <> r ++ ["/"%char]) /\
  (forall a b, p <> a ++ ["/"%char; "/"%char] ++ b).

(** A project: empty for the main project, or '@' and a name. *)
Definition wf_project (p : str) : Prop :=
  p = [] \/
  exists r, p = "@"%char :: r /\ r <> [] /\
            ~ In "/"%char r /\ ~ In ":"%char r /\ ~ In "~"%char r.

Definition wf_package (p : package) : Prop := wf_project (project p) /\ wf_path (path p).
Definition wf_name (n : str) : Prop := n <> [] /\ ~ In ":"%char n.
Definition wf_target (t : target) : Prop := wf_package (tpackage t) /\ wf_name (tname t).

(** Path components: the empty path has none. *)
Definition components (p : str) : list str :=
  match p with [] => [] | _ => split "/" p end.

(** [inside a b]: path [b] is [a] or below it. *)
Definition inside (a b : str) : Prop := exists rest, components b = components a ++ rest.

(** Shell-like globs: '*' stands for any text. *)
Inductive glob_matches : str -> str -> Prop :=
| G_nil : glob_matches [] []
| G_char c g s : c <> "*"%char -> glob_matches g s -> glob_matches (c :: g) (c :: s)
| G_star g u s : glob_matches g s -> glob_matches ("*"%char :: g) (u ++ s).

(** What the text after the last '*' of a glob may contain for the pattern to be
    read literally: no RE2 operator. *)
Definition re_operators : str := $"\.[*+?()|^${".
Definition plain_tail (g : str) : Prop :=
  forall a b, g = a ++ "*"%char :: b -> ~ In "*"%char b ->
  forall c, In c b -> ~ In c re_operators.

(** A character of the text after the last '*' and the one it stands for, if '.' is
    the only operator there. *)
Definition fits (c x : ascii) : Prop := x = c \/ (c = "."%char /\ x <> NL).
