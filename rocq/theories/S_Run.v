(** Specification of what the commands work on: the external projects, the BUILD files of a
    pattern; and of the tables they print. *)
From Verif Require Import Base OMap M_Types M_Scanner M_Ast M_Parser M_Query M_Elab M_Workspace M_Project M_DepGraph.

(** * External projects *)
Section External.
Variable is_directory : str -> bool.
Variable can_read : str -> bool.
Variable glob : str -> list str.
Variable read_file : str -> option str.

(** Where the project is: in the first of some directories that is there, or else in one with
    another version. *)
Definition usable (d : str) : Prop := is_directory d = true /\ can_read d = true.
Definition external (name : str) : str := $"bazel-out/../../../external/" ++ name.
Definition places (name version : str) : list str :=
  match version with [] => [] | _ => [external (name ++ $"~" ++ version)] end ++ [external name; external (name ++ $"~override")].
Definition extracted_in (name version d : str) : Prop :=
  usable d /\
  ((exists a b, places name version = a ++ d :: b /\ forall x, In x a -> ~ usable x) \/
   ((forall x, In x (places name version) -> ~ usable x) /\ exists more, glob (external name ++ $"~*") = d :: more)).
(** A rule declares a project: under the name to be used in labels, with a version. *)
Definition declares (r : result) (name version d : str) : Prop :=
  extracted_in (v_text (q_name r)) (v_text (q_version r)) d /\ version = v_text (q_version r) /\
  name = match v_text (q_repo_name r) with [] => v_text (q_name r) | n => n end.
(** The declarations in the workspace files, in order. *)
Inductive declarations : list str -> list result -> Prop :=
| no_declarations : declarations [] []
| missing_file f fs rs : read_file f = None -> declarations fs rs -> declarations (f :: fs) rs
| file_declares f fs content stmts errs rs rs' : read_file f = Some content -> parse content = Ret (stmts, errs) ->
    find_targets [$"http_archive"; $"bazel_dep"] stmts = Ret rs -> declarations fs rs' -> declarations (f :: fs) (rs ++ rs').
(** The projects declared: if more than once with the same version, the last one is it. *)
Definition external_projects (decls : list result) (w : workspace) : Prop :=
  msorted w /\
  forall n v d, In ((n, v), d) w <->
    exists a r b, decls = a ++ r :: b /\ declares r n v d /\ forall r' d', In r' b -> ~ declares r' n v d'.
(** With those that are only found in the directory of external projects (C48). *)
Definition the_workspace (w : workspace) : Prop := exists decls w0, declarations workspace_files decls /\
  external_projects decls w0 /\ w = augment_from_external_dir is_directory glob w0.
End External.

(** * The BUILD files of a pattern *)
Section Files.
Variable w : workspace.
Variable read_file : str -> option str.
Variable glob_in : package -> list str -> list str -> list str.
(** The first file in a list that is for the package. *)
Definition file_for (names : list str) (proj : str) (p : package) (name content : str) : Prop :=
  exists a b, names = a ++ name :: b /\ package_of_build_file w name proj = Ret (Some p) /\ read_file name = Some content /\
    forall x, In x a -> package_of_build_file w x proj = Ret (Some p) -> read_file x = None.
(** The project has a file for every package, with its syntax tree, evaluated if [eval]. *)
Definition holds_files (names : list str) (proj : str) (eval : bool) (pr : parsed_project) : Prop :=
  msorted (pr_files pr) /\
  forall p f, In (p, f) (pr_files pr) <->
    exists name content stmts errs ast, file_for names proj p name content /\ parse content = Ret (stmts, errs) /\
      (if eval then elaborate (glob_in p) stmts = Ret ast else ast = stmts) /\ f = mkFile p name content ast errs.
End Files.

(** * Tables *)
Definition pair_rows (m : list (target * list target)) : list (list str) :=
  flat_map (fun e => map (fun x => [target_to_string (fst e); target_to_string x]) (snd e)) m.
