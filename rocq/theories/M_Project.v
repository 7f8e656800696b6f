(** The set of parsed BUILD files (/repo/bant/frontend/parsed-project.h, .cc). *)
From Verif Require Import Base OMap M_Types M_Scanner M_Ast M_Parser M_Query M_Elab M_Workspace.

(** parsed-project.h:40-67, class ParsedBuildFile; [errors] is what the parser
    reported; the text is [file_messages] in M_ParseErrors. *)
Record parsed_file := mkFile {
  pf_package : package;
  pf_name : str;
  pf_content : str;
  pf_ast : list node;
  pf_errors : list complaint }.

(** parsed-project.h:70-143, class ParsedProject: package_to_parsed_ and error_count_.
    The location map is modelled in M_Arena. *)
Record parsed_project := mkProject {
  pr_files : list (package * parsed_file);
  pr_error_count : nat }.
Definition empty_project : parsed_project := mkProject [] 0.

(** parsed-project.cc:231-236, FindParsedOrNull. *)
Definition find_parsed (pr : parsed_project) (p : package) : option parsed_file :=
  map_find p (pr_files pr).

(** parsed-project.cc:179-210, AddBuildFileContent. *)
Definition add_build_file_content (pr : parsed_project) (p : package) (filename content : str)
  : outcome (parsed_project * parsed_file) :=
  match find_parsed pr p with
  | Some existing => Ret (pr, existing)
  | None =>
      do (ast, errs) <- parse content;
      let f := mkFile p filename content ast errs in
      Ret (mkProject (map_insert p f (pr_files pr))
             (if is_nil errs then pr_error_count pr else S (pr_error_count pr)), f)
  end.

(** parsed-project.cc:50-56, TargetPathFromBuildFile.  [substr(0, npos)] is the whole
    string. *)
Fixpoint strip_dots_slashes (s : str) : str :=
  match s with
  | c :: r => if ceqb c "." || ceqb c "/" then strip_dots_slashes r else s
  | [] => []
  end.
Definition target_path_from_build_file (file : str) : str :=
  strip_dots_slashes (prefix_upto file (find_last "/" file)).

Section FileSystem.
Variable w : workspace.
Variable read_file : str -> option str.
Variable can_read : str -> bool.
(** What glob() gives in a package: elaboration.cc:193-198. *)
Variable glob_in : package -> list str -> list str -> list str.
(** The BUILD files CollectBuildFiles() finds for a pattern, in the order of the
    walk (M_Walk). *)
Variable collect_build_files : pattern -> list str.

(** parsed-project.cc:148-177, AddBuildFile(build_file, package); None for nullptr. *)
Definition add_build_file (pr : parsed_project) (build_file : str) (p : package)
  : outcome (parsed_project * option parsed_file) :=
  match read_file build_file with
  | None => Ret (mkProject (pr_files pr) (S (pr_error_count pr)), None)
  | Some content =>
      do (pr, f) <- add_build_file_content pr p build_file content;
      Ret (pr, Some f)
  end.

(** parsed-project.cc:127-146, AddBuildFile(build_file, project).  [substr] throws if
    the file's path is shorter than the project's. *)
Definition package_of_build_file (build_file proj : str) : outcome (option package) :=
  if is_nil proj then Ret (Some (mkPackage proj (target_path_from_build_file build_file)))
  else
    match find_path_by_project w proj with
    | None => Ret None
    | Some prefix =>
        if length build_file <? length prefix then UB
        else Ret (Some (mkPackage proj (target_path_from_build_file (skipn (length prefix) build_file))))
    end.
Definition add_build_file_in (pr : parsed_project) (build_file proj : str) : outcome parsed_project :=
  do p <- package_of_build_file build_file proj;
  match p with
  | None => Ret pr
  | Some p => do (pr, _) <- add_build_file pr build_file p; Ret pr
  end.

(** parsed-project.cc:118-125, FillFromPattern. *)
Fixpoint add_build_files (pr : parsed_project) (files : list str) (proj : str) : outcome parsed_project :=
  match files with
  | [] => Ret pr
  | f :: files => do pr <- add_build_file_in pr f proj; add_build_files pr files proj
  end.
Definition fill_from_pattern (pr : parsed_project) (pt : pattern) : outcome parsed_project :=
  add_build_files pr (collect_build_files pt) (pat_project pt).

(** elaboration.cc:296-305, Elaborate(session, project, build_file). *)
Definition elaborate_file (f : parsed_file) : outcome parsed_file :=
  do ast <- elaborate (glob_in (pf_package f)) (pf_ast f);
  Ret (mkFile (pf_package f) (pf_name f) (pf_content f) ast (pf_errors f)).
(** elaboration.cc:307-311, Elaborate(session, project). *)
Fixpoint elaborate_files (l : list (package * parsed_file)) : outcome (list (package * parsed_file)) :=
  match l with
  | [] => Ret []
  | (p, f) :: l =>
      do f <- elaborate_file f;
      do l <- elaborate_files l;
      Ret ((p, f) :: l)
  end.
Definition elaborate_project (pr : parsed_project) : outcome parsed_project :=
  do l <- elaborate_files (pr_files pr); Ret (mkProject l (pr_error_count pr)).
End FileSystem.
