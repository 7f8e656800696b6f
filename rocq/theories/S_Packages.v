(** Specification for C88: the packages that are below a directory. *)
From Coq Require Import NArith.
From Verif Require Import Base M_Types M_Walk S_Walk M_System.

(** The path of something below [root], by the names on the way to it. *)
Definition at_path (root : str) (names : list str) : str := fold_left (fun d n => d ++ "/"%char :: n) names root.

Section Fs.
Variable fs : file_system.
(** The directories looked at: [root] and, if [recursive], those below it, except links and some names. *)
Inductive package_dir (recursive : bool) (root : str) : list str -> Prop :=
| PD_root : package_dir recursive root []
| PD_below names e i : recursive = true -> package_dir recursive root names ->
    dir_entry (fs_list fs) (fs_stat fs) (at_path root names) e i -> ~ link_entry (fs_link fs) (at_path root names) e ->
    ~ In (d_name e) [$"_tmp"; $".cache"; $".git"] -> package_dir recursive root (names ++ [d_name e]).
(** A file there that makes it a package: it is named so, it is no directory, and it can be read. *)
Definition build_file (dir file : str) : Prop :=
  exists e content, file_entry (fs_list fs) (fs_stat fs) dir e /\ (d_name e = $"BUILD" \/ d_name e = $"BUILD.bazel") /\
    file = dir ++ "/"%char :: d_name e /\ fs_content fs file = Some content.
(** No directory is reached in two ways. *)
Definition one_way (root : str) : Prop :=
  forall names names' e e' i, package_dir true root names -> package_dir true root names' ->
    dir_entry (fs_list fs) (fs_stat fs) (at_path root names) e i -> dir_entry (fs_list fs) (fs_stat fs) (at_path root names') e' i ->
    names = names' /\ e = e'.
(** It is the same to begin a path with ./ or not. *)
Definition here_is_here : Prop := forall p, p <> [] ->
  fs_list fs ($"./" ++ p) = fs_list fs p /\ fs_stat fs ($"./" ++ p) = fs_stat fs p /\ fs_link fs ($"./" ++ p) = fs_link fs p /\
  fs_content fs ($"./" ++ p) = fs_content fs p.
End Fs.
(** Where a pattern of the main project starts. *)
Definition start_of (path : str) : str := match path with [] => $"." | _ => path end.
(** The label of a package. *)
Definition label_at (path : str) (names : list str) : str :=
  $"//" ++ match path, names with [], n :: names => at_path n names | _, _ => at_path path names end.
(** The path of a pattern is written without dots and slashes around it. *)
Definition plain_start (path : str) : Prop :=
  (forall r, path <> r ++ $"/") /\ (forall r, path <> "."%char :: r) /\ (forall r, path <> "/"%char :: r).
(** No directory in the one the program runs in has a name that begins with a dot (if it matters). *)
Definition not_hidden (path : str) (names : list str) : Prop := path = [] -> match names with ("."%char :: _) :: _ => False | _ => True end.
