(** External projects of a workspace (/repo/bant/workspace.h, workspace.cc). *)
From Verif Require Import Base OMap M_Types M_Scanner M_Ast M_Parser M_Query.

(** workspace.h:30-37, struct VersionedProject, (project, version); the defaulted
    operator<=> compares the members in order. *)
Definition vproject := (str * str)%type.

(** workspace.cc:44-58, VersionedProject::ParseFromDir. *)
Definition vproject_from_dir (dir : str) : option vproject :=
  if is_nil dir then None
  else
    match find_first "~" dir with
    | Some 0 => None
    | Some pos => Some (firstn pos dir, skipn (pos + 1) dir)
    | None => Some (dir, [])
    end.

(** workspace.h:39-53, struct BazelWorkspace: project_location, to the path() of the
    FilesystemPath. *)
Definition workspace := list (vproject * str).

(** workspace.cc:60-69, FindEntryByProject; None is end(). *)
Definition find_entry_by_project (w : workspace) (name : str) : option (vproject * str) :=
  match name with
  | [] => None
  | c :: r =>
      let name := if ceqb c "@" then r else name in
      match snd (lower_bound (name, []) w) with
      | [] => None
      | (vp, p) :: _ => if negb (str_eqb (fst vp) name) then None else Some (vp, p)
      end
  end.
(** workspace.cc:71-76, FindPathByProject. *)
Definition find_path_by_project (w : workspace) (name : str) : option str :=
  option_map snd (find_entry_by_project w name).

(** workspace.cc:41-42 *)
Definition external_base_dir : str := $"bazel-out/../../../external".

(** file-utils.cc:41-47, FilesystemPath(path_up_to, filename): its path(). *)
Definition fs_path (path_up_to filename : str) : str :=
  strip_back "/" path_up_to ++ $"/" ++ filename.
(** file-utils.cc:66-74, filename(). *)
Definition fs_filename (p : str) : str :=
  match find_last "/" p with
  | Some i => skipn (i + 1) p
  | None => p
  end.

Section Load.
(** The file system: stat() says it is a directory, access(R_OK), glob(3), and
    ReadFileToString(). *)
Variable is_directory : str -> bool.
Variable can_read : str -> bool.
Variable glob : str -> list str.
Variable read_file : str -> option str.

(** workspace.cc:78-93, BestEffortAugmentFromExternalDir: the workspace it leaves. *)
Definition augment_step (w : workspace) (project_dir : str) : workspace :=
  if negb (is_directory project_dir) then w
  else
    match vproject_from_dir (fs_filename project_dir) with
    | None => w
    | Some vp =>
        match find_path_by_project w (fst vp) with
        | Some _ => w
        | None => map_set vp project_dir w
        end
    end.
Definition augment_from_external_dir (w : workspace) : workspace :=
  fold_left augment_step (glob (external_base_dir ++ $"/*")) w.

(** workspace.cc:126-153: the directory of an external project. *)
Definition search_dirs (name version : str) : list str :=
  (if is_nil version then [] else [name ++ $"~" ++ version]) ++ [name; name ++ $"~override"].
Definition project_dir (name version : str) : option str :=
  let usable p := is_directory p && can_read p in
  match find usable (map (fs_path external_base_dir) (search_dirs name version)) with
  | Some p => Some p
  | None =>
      match glob (external_base_dir ++ $"/" ++ name ++ $"~*") with
      | [] => None
      | p :: _ => if usable p then Some p else None
      end
  end.
(** workspace.cc:122-166: what one http_archive() or bazel_dep() contributes. *)
Definition load_rule (w : workspace) (r : result) : workspace :=
  match project_dir (v_text (q_name r)) (v_text (q_version r)) with
  | None => w
  | Some p =>
      let name := if is_nil (v_text (q_repo_name r)) then v_text (q_name r) else v_text (q_repo_name r) in
      map_set (name, v_text (q_version r)) p w
  end.
(** workspace.cc:107-167: one workspace file; messages are left out. *)
Definition load_file (acc : outcome (bool * workspace)) (ws : str) : outcome (bool * workspace) :=
  do (found, w) <- acc;
  match read_file ws with
  | None => Ret (found, w)
  | Some content =>
      do (ast, _) <- parse content;
      do rs <- find_targets [$"http_archive"; $"bazel_dep"] ast;
      Ret (true, fold_left load_rule rs w)
  end.
(** workspace.cc:95-180, LoadWorkspace.  The parser always returns a list
    ([if (ast)] always holds). *)
Definition workspace_files : list str :=
  [$"WORKSPACE"; $"WORKSPACE.bazel"; $"WORKSPACE.bzlmod"; $"MODULE.bazel"].
Definition load_workspace : outcome (option workspace) :=
  do (found, w) <- fold_left load_file workspace_files (Ret (false, []));
  Ret (if found then Some w else None).
End Load.

(** types-bazel.cc:56-67, BazelPackage::FullyQualifiedFile. *)
Definition fully_qualified_file (w : workspace) (p : package) (relative_file : str) : str :=
  let root_dir :=
    if is_nil (project p) then []
    else match find_path_by_project w (project p) with Some d => d | None => [] end in
  (if is_nil root_dir then [] else root_dir ++ $"/") ++ qualified_file p relative_file.
