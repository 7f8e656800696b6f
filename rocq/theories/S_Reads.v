(** Specification for C91: which files the program reads. *)
From Coq Require Import NArith.
From Verif Require Import Base M_Types M_Workspace M_Project M_Walk M_Includes M_Commands M_System.

(** The files that say what a workspace contains. *)
Definition about_workspace (f : str) : Prop := f = $"WORKSPACE" \/ f = $"WORKSPACE.bazel" \/ f = $"WORKSPACE.bzlmod" \/ f = $"MODULE.bazel".
(** The BUILD files. *)
Definition build_named (f : str) : Prop := exists d, f = d ++ $"/BUILD" \/ f = d ++ $"/BUILD.bazel".
(** Two versions of what files contain that are the same in these. *)
Definition same_rules (content content' : str -> option str) : Prop := forall f, about_workspace f \/ build_named f -> content' f = content f.
(** The files that are there are the same, and include the same. *)
Definition same_includes (content content' : str -> option str) : Prop := forall f,
  option_map (fun c => map snd (extract_cc_includes c)) (content' f) = option_map (fun c => map snd (extract_cc_includes c)) (content f).
(** The commands that look at what is in .bazelrc. *)
Definition shows_flags (cmd : command) : bool := match cmd with CCompilationDb | CCompileFlags => true | _ => false end.
(** A file system that differs in other files: they may be added, changed or taken away; a directory stays a directory with the same
    entries otherwise, BUILD files and the files of the workspace stay as they are. *)
Definition directory_at (fs : file_system) (p : str) : option N := match fs_stat fs p with Some (inode, true) => Some inode | _ => None end.
Definition other_file (fs : file_system) (d : str) (e : dirent) : bool :=
  negb (str_eqb (d_name e) ($"BUILD")) && negb (str_eqb (d_name e) ($"BUILD.bazel")) &&
  match d_type e with
  | DtDir => false
  | DtOther => true
  | DtLnk | DtUnknown => match directory_at fs (fp_path (path_at d e)) with None => true | Some _ => false end
  end.
Definition other_entries (fs : file_system) (d : str) : option (list dirent) := option_map (filter (fun e => negb (other_file fs d e))) (fs_list fs d).
Record differs_in_others (fs fs' : file_system) : Prop := {
  same_entries : forall d, other_entries fs' d = other_entries fs d;
  same_dirs : forall p, directory_at fs' p = directory_at fs p;
  same_links : forall p, directory_at fs p <> None -> fs_link fs' p = fs_link fs p;
  same_access : forall p, directory_at fs p <> None \/ build_named p -> fs_can_read fs' p = fs_can_read fs p;
  same_matches : forall p, fs_glob fs' p = fs_glob fs p;
  same_content : same_rules (fs_content fs) (fs_content fs');
  same_place : fs_cwd fs' = fs_cwd fs }.
(** No BUILD file has the word. *)
Definition no_glob (fs : file_system) : Prop := forall f content, build_named f -> fs_content fs f = Some content -> ~ exists a b, content = a ++ $"glob" ++ b.
