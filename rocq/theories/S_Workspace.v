(** Specification of where packages live, of external projects and of aliases. *)
From Verif Require Import Base OMap M_Types S_Labels M_Scanner M_Ast M_Parser M_Query M_Workspace M_Project M_DepGraph.

(** A project's name without the '@'. *)
Definition bare (name : str) : str :=
  match name with
  | c :: r => if ceqb c "@" then r else name
  | [] => []
  end.
(** Versions are compared as texts. *)
Definition not_later (a b : str) : Prop := a = b \/ klt a b.
(** The entry for a project: its smallest version. *)
Definition first_version (w : workspace) (name : str) (vp : vproject) (d : str) : Prop :=
  In (vp, d) w /\ fst vp = name /\
  forall v d', In ((name, v), d') w -> not_later (snd vp) v.

(** The directory of a package: below that of its project.  The top of the main project
    has none here, it is the current directory. *)
Inductive dir_of (w : workspace) (p : package) : str -> Prop :=
| dir_main : project p = [] -> path p <> [] -> dir_of w p (path p)
| dir_project root : project p <> [] -> find_path_by_project w (project p) = Some root ->
    root <> [] -> (forall r, root <> r ++ ["/"%char]) -> path p = [] -> dir_of w p root
| dir_external root : project p <> [] -> find_path_by_project w (project p) = Some root ->
    root <> [] -> path p <> [] -> dir_of w p (root ++ $"/" ++ path p).

(** The aliases of [t] a rule of package [p] declares. *)
Definition declared_alias (t : target) (p : package) (r : result) : list target :=
  match qualified_target p (v_text (q_name r)), parse_target (v_text (q_actual r)) p with
  | Some a, Some t' => if target_eqb t' t then [a] else []
  | _, _ => []
  end.
