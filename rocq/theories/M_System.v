(** The whole program in a file system: the parameters of M_Commands and M_Main are given by the walks
    of M_Walk, the evaluation of glob() and the compilation flags of M_CompDb. *)
From Coq Require Import NArith.
From Verif Require Import Base OMap M_Types M_Ast M_Workspace M_Project M_Walk M_Dwyu M_Table M_CompDb M_Highlight M_Commands M_Main.

(** What the operating system tells about the files, as seen from the current directory: opendir() and
    readdir(), stat(), lstat(), access(), glob(3), open() and read() (as a whole, see C47), getcwd().
    Simplification: it does not change while the program runs. *)
Record file_system := mkFs {
  fs_list : str -> option (list dirent);
  fs_stat : str -> option (N * bool);
  fs_link : str -> bool;
  fs_can_read : str -> bool;
  fs_glob : str -> list str;
  fs_content : str -> option str;
  fs_cwd : str }.

Section System.
(** Bounds the number of directories looked at in a walk. *)
Variable fuel : nat.
Variable fs : file_system.
(** parsed-project.cc:80-125: the paths CollectBuildFiles() gives to FillFromPattern().  A walk that
    does not end within the bound gives none here (see C45 for a bound that is enough). *)
Definition found_build_files (w : workspace) (pt : pattern) : list str :=
  match M_Walk.collect_build_files (fs_list fs) (fs_stat fs) (fs_link fs) fuel w pt with
  | Ret l => map fp_path l
  | _ => []
  end.
(** elaboration.cc:193-222: the names that replace a call of glob(). *)
Definition globbed_files (w : workspace) (p : package) (incl excl : list str) : list str :=
  match glob_files (fs_list fs) (fs_stat fs) fuel w p incl excl with
  | Ret l => l
  | _ => []
  end.
(** file-utils.cc:83-90, for a path without memoized values. *)
Definition is_dir (p : str) : bool := M_Walk.is_directory (fs_stat fs) (path_of p).
(** compilation-db.cc:75,99: the file .bazelrc. *)
Definition flags_output (w : workspace) (pr : parsed_project) (pt : pattern) (as_db : bool) : outcome str :=
  write_flags (fs_cwd fs) (fs_content fs ($".bazelrc")) w pr pt as_db.
(** cli-commands.cc:287-366 in this file system. *)
Definition run_in (fl : flags) (args : list str) : option (outcome (str * cli_status)) :=
  run_cli is_dir (fs_can_read fs) (fs_glob fs) (fs_content fs) globbed_files found_build_files flags_output fl args.
(** What M_Main needs. *)
Definition surroundings_of : surroundings :=
  mkSurroundings is_dir (fs_can_read fs) (fs_glob fs) (fs_content fs) globbed_files found_build_files flags_output.
End System.
(** bant.cc:116-249, main(), with the file system as it is seen after changing to directories. *)
Definition program (fuel : nat) (change_dir open_output : list str -> str -> bool) (seen : list str -> file_system) (is_terminal : bool)
  (compile : str -> option finder_fn) (args : list str) : option (outcome (option str * str * nat)) :=
  main change_dir open_output (fun dirs => surroundings_of fuel (seen dirs)) is_terminal compile args.
