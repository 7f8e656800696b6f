(** Specification for C72: file systems that differ only in the order in which the entries of directories are
    listed. *)
From Coq Require Import NArith Permutation.
From Verif Require Import Base M_Types M_Ast M_Workspace M_Project M_Walk S_Walk M_Commands M_System.

Definition same_listing (list1 list2 : str -> option (list dirent)) : Prop :=
  forall d, match list1 d, list2 d with
            | Some l1, Some l2 => Permutation l1 l2
            | None, None => True
            | _, _ => False
            end.
Definition listed_as (fs : file_system) (l : str -> option (list dirent)) : file_system :=
  mkFs l (fs_stat fs) (fs_link fs) (fs_can_read fs) (fs_glob fs) (fs_content fs) (fs_cwd fs).

Section Fs.
Variable fs : file_system.
Notation dir_entry := (dir_entry (fs_list fs) (fs_stat fs)).
Notation file_entry := (file_entry (fs_list fs) (fs_stat fs)).
Notation build_dir := (build_dir (fs_list fs) (fs_stat fs) (fs_link fs)).
(** There are no more directories than inodes in the list. *)
Definition inodes_are (inodes : list N) : Prop := forall d e i, dir_entry d e i -> real_inode i /\ In i inodes.
(** The BUILD files of a pattern, with their paths. *)
Definition has_build_file (w : workspace) (pt : pattern) (f : str) : Prop :=
  exists root d e, search_dir w pt = Some root /\ build_dir (is_recursive pt) root d /\ file_entry d e /\
    (d_name e = $"BUILD" \/ d_name e = $"BUILD.bazel") /\ f = fp_path (path_at d e).
(** Below the directory of the pattern no directory is reached in two ways, links included. *)
Definition no_second_way (w : workspace) (pt : pattern) : Prop :=
  forall root d e d' e' i, search_dir w pt = Some root -> build_dir true root d -> build_dir true root d' ->
    dir_entry d e i -> dir_entry d' e' i -> path_at d e = path_at d' e'.
(** No two of them are for the same package. *)
Definition one_file_each (w : workspace) (pt : pattern) : Prop :=
  forall f f' p, has_build_file w pt f -> has_build_file w pt f' ->
    package_of_build_file w f (pat_project pt) = Ret (Some p) -> package_of_build_file w f' (pat_project pt) = Ret (Some p) -> f = f'.
(** The function glob() is not used. *)
Definition without_glob : Prop := forall f content, fs_content fs f = Some content -> ~ exists a b, content = a ++ $"glob" ++ b.
End Fs.
(** The pattern whose BUILD files a command reads. *)
Definition read_for (cmd : command) (pt : pattern) : pattern := match cmd with CHasDependents => pattern_always | _ => pt end.
