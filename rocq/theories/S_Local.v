(** Specification for C92: which package a BUILD file is for. *)
From Verif Require Import Base M_Types M_Workspace M_Project S_Reads.

(** The directory of the file is the path of the package, but for dots and slashes before it. *)
Definition for_package (file : str) (p : package) : Prop := project p = [] /\ (forall c r, path p = c :: r -> c <> "."%char /\ c <> "/"%char) /\
  exists before name, file = before ++ path p ++ "/"%char :: name /\ (forall c, In c before -> c = "."%char \/ c = "/"%char) /\ ~ In "/"%char name.
(** Files are as they were, but for [b]: which may also be there only before, or only now. *)
Definition differs_at (b : str) (content content' : str -> option str) : Prop := forall f, f <> b -> content' f = content f.
(** The same except in the middle. *)
Definition differ_between {A} (middle : A -> Prop) (l l' : list A) : Prop := exists a m m' c, l = a ++ m ++ c /\ l' = a ++ m' ++ c /\
  Forall middle m /\ Forall middle m' /\ forall x, In x a \/ In x c -> ~ middle x.
