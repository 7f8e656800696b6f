(** Specification of glob patterns. *)
From Verif Require Import Base.

Local Notation star := "*"%char.
Local Notation slash := "/"%char.

(** What a pattern matches: "**/" stands for any text, possibly empty (but for newlines), other
    '*' for any text without '/'. *)
Inductive glob_match : str -> str -> Prop :=
| GM_end : glob_match [] []
| GM_dirs p u s : ~ In NL u -> glob_match p s -> glob_match (star :: star :: slash :: p) (u ++ s)
| GM_star p u s : ~ In slash u -> (forall q, p <> star :: slash :: q) -> glob_match p s -> glob_match (star :: p) (u ++ s)
| GM_char c p s : c <> star -> glob_match p s -> glob_match (c :: p) (c :: s).

(** Which directories are entered for a pattern whose last '/' is after [p]. *)
Inductive dir_match : str -> str -> Prop :=
| DM_end : dir_match [] []
| DM_dirs p u s : ~ In NL u -> dir_match p s -> dir_match (star :: star :: p) (u ++ s)
| DM_star p u s : ~ In slash u -> (forall q, p <> star :: q) -> dir_match p s -> dir_match (star :: p) (u ++ s)
| DM_stop p : dir_match (slash :: p) []
| DM_char c p s : c <> star -> dir_match p s -> dir_match (c :: p) (c :: s).

(** The meaning of patterns in Bazel, segment by segment: "**" stands for any number of
    them. *)
Inductive segment_match : str -> str -> Prop :=
| SM_end : segment_match [] []
| SM_star p u s : segment_match p s -> segment_match (star :: p) (u ++ s)
| SM_char c p s : c <> star -> segment_match p s -> segment_match (c :: p) (c :: s).
Inductive path_match : list str -> list str -> Prop :=
| PM_end : path_match [] []
| PM_none ps ss : path_match ps ss -> path_match ([star; star] :: ps) ss
| PM_more ps s ss : path_match ([star; star] :: ps) ss -> path_match ([star; star] :: ps) (s :: ss)
| PM_one p ps s ss : p <> [star; star] -> segment_match p s -> path_match ps ss -> path_match (p :: ps) (s :: ss).
Definition bazel_match (pattern path : str) : Prop := path_match (split slash pattern) (split slash path).
