(** Walking directories and reading files (/repo/bant/util/file-utils.cc), and what is
    found that way: the files of glob() (/repo/bant/frontend/elaboration.cc) and BUILD
    files (/repo/bant/frontend/parsed-project.cc).

    Simplifications: the file system does not change during a walk; statistics and the
    prewarm cache (which have no effect on results) are left out. *)
From Coq Require Import NArith.
From Verif Require Import Base OMap M_Types M_Ast M_Workspace M_Glob.

(** dirent::d_type, as far as it is looked at; and struct dirent. *)
Inductive dtype := DtDir | DtLnk | DtUnknown | DtOther.
Record dirent := mkEntry { d_name : str; d_type : dtype; d_ino : N }.

(** file-utils.h:35-70, class FilesystemPath; memoized values, None for kUnknown and
    npos.  can_read() is left to an oracle where it is used. *)
Record fpath := mkPath { fp_path : str; fp_name_at : option nat; fp_dir : option bool; fp_link : option bool }.
(** file-utils.h:38 *)
Definition path_of (s : str) : fpath := mkPath s None None None.
(** file-utils.cc:41-63, FilesystemPath(path_up_to, dirent). *)
Definition path_at (dir : str) (e : dirent) : fpath :=
  let p := fs_path dir (d_name e) in
  let at_ := Some (length (strip_back "/" dir) + 1) in
  match d_type e with
  | DtLnk => mkPath p at_ None (Some true)
  | DtDir => mkPath p at_ (Some true) (Some false)
  | _ => mkPath p at_ None None
  end.
(** file-utils.cc:65-73, filename(). *)
Definition filename (p : fpath) : str :=
  match fp_name_at p with
  | Some n => skipn n (fp_path p)
  | None => match find_last "/" (fp_path p) with Some i => skipn (i + 1) (fp_path p) | None => fp_path p end
  end.

(** file-utils.cc:159-162 *)
Definition looks_like_valid_inode (i : N) : bool :=
  negb (i =? 0)%N && negb (N.land i 4294967295 =? 4294967295)%N.

Section FileSystem.
(** The file system: what opendir() and readdir() give, "." and ".." included; stat():
    inode and whether it is a directory; whether lstat() says it is a link. *)
Variable readdir : str -> option (list dirent).
Variable stat : str -> option (N * bool).
Variable lstat_link : str -> bool.

(** file-utils.cc:83-100 *)
Definition is_directory (p : fpath) : bool :=
  match fp_dir p with
  | Some b => b
  | None => match stat (fp_path p) with Some (_, b) => b | None => false end
  end.
Definition is_symlink (p : fpath) : bool :=
  match fp_link p with Some b => b | None => lstat_link (fp_path p) end.

(** file-utils.cc:193-200, with FollowLinkTestIsDir :104-109: whether the entry is a
    directory, and its inode. *)
Definition entry_dir (current_dir : str) (e : dirent) : bool * N :=
  match d_type e with
  | DtDir => (true, d_ino e)
  | DtUnknown | DtLnk =>
      match stat (fp_path (path_at current_dir e)) with
      | None => (false, d_ino e)
      | Some (inode, is_dir) => (is_dir, inode)
      end
  | DtOther => (false, d_ino e)
  end.

Section Collect.
Variable want_dir want_file : fpath -> bool.
(** file-utils.cc:187-212: the entries of a directory.  The state are the inodes seen,
    the directories still to be looked at and the result. *)
Record wstate := mkWalk { ws_seen : list N; ws_work : list str; ws_out : list fpath }.
Definition is_dot (e : dirent) : bool := str_eqb (d_name e) ($".") || str_eqb (d_name e) ($"..").
Definition scan_entry (current_dir : str) (w : wstate) (e : dirent) : wstate :=
  if is_dot e then w
  else
    let file_or_dir := path_at current_dir e in
    let (is_dir, inode) := entry_dir current_dir e in
    if is_dir then
      let valid := looks_like_valid_inode inode in
      if valid && existsb (N.eqb inode) (ws_seen w) then w
      else
        let seen := if valid then inode :: ws_seen w else ws_seen w in
        mkWalk seen (if want_dir file_or_dir then ws_work w ++ [fp_path file_or_dir] else ws_work w) (ws_out w)
    else if want_file file_or_dir then mkWalk (ws_seen w) (ws_work w) (ws_out w ++ [file_or_dir])
    else w.
(** file-utils.cc:178-213: the loop; [fuel] bounds the number of rounds. *)
Fixpoint walk_loop (fuel : nat) (w : wstate) : outcome (list fpath) :=
  match ws_work w with
  | [] => Ret (ws_out w)
  | current_dir :: work =>
      match fuel with
      | 0 => OutOfFuel
      | S fuel =>
          let w := mkWalk (ws_seen w) work (ws_out w) in
          match readdir current_dir with
          | None => walk_loop fuel w
          | Some entries => walk_loop fuel (fold_left (scan_entry current_dir) entries w)
          end
      end
  end.
(** file-utils.cc:169-177, CollectFilesRecursive. *)
Definition collect_files_recursive (fuel : nat) (dir : str) : outcome (list fpath) :=
  walk_loop fuel (mkWalk [] [dir] []).
End Collect.

(** elaboration.cc:236-270, MultiGlob.  [substr] throws if the path is shorter than the
    prefix: the predicates then do not return.  *)
Definition after_prefix (start_dir : str) (p : fpath) : option str :=
  if length (fp_path p) <? length start_dir + 1 then None else Some (skipn (length start_dir + 1) (fp_path p)).
Definition glob_builder_of (incl excl : list str) : glob_builder :=
  fold_left (fun g p => add_exclude p g) excl (fold_left (fun g p => add_include p g) incl new_glob).
Definition multi_glob (fuel : nat) (start_dir : str) (incl excl : list str) : outcome (list fpath) :=
  let g := glob_builder_of incl excl in
  collect_files_recursive
    (fun d => match after_prefix start_dir d with Some s => directory_predicate g s | None => false end)
    (fun f => match after_prefix start_dir f with Some s => file_predicate g s | None => false end)
    fuel start_dir.
(** elaboration.cc:193-222, the part of HandleGlob that fetches the names; the CHECK
    fails for a path that is not longer than its prefix. *)
Fixpoint glob_names (skip_offset : nat) (l : list fpath) : outcome (list str) :=
  match l with
  | [] => Ret []
  | f :: l =>
      if skip_offset <? length (fp_path f) then do r <- glob_names skip_offset l; Ret (skipn skip_offset (fp_path f) :: r)
      else UB
  end.
Definition glob_files (fuel : nat) (w : workspace) (p : package) (incl excl : list str) : outcome (list str) :=
  let root_dir := fully_qualified_file w p ($".") in
  do l <- multi_glob fuel root_dir incl excl;
  glob_names (length root_dir + 1) l.

(** parsed-project.cc:60-75, DetermineSearchDirFromPattern; None is nullopt. *)
Definition search_dir (w : workspace) (pt : pattern) : option str :=
  let finish s := Some (if is_nil s then $"." else s) in
  if is_nil (pat_project pt) then finish (pat_path pt)
  else match find_path_by_project w (pat_project pt) with
       | None => None
       | Some d => finish (d ++ $"/" ++ pat_path pt)
       end.
(** parsed-project.cc:88-105, the predicates. *)
Definition is_build_file (f : fpath) : bool := str_eqb (filename f) ($"BUILD") || str_eqb (filename f) ($"BUILD.bazel").
Definition build_dir_predicate (recursive : bool) (d : fpath) : bool :=
  if negb recursive then false
  else if is_symlink d then false
  else if str_eqb (filename d) ($"_tmp") then false
  else if str_eqb (filename d) ($".cache") then false
  else if str_eqb (filename d) ($".git") then false
  else true.
(** parsed-project.cc:80-110, CollectBuildFiles. *)
Definition collect_build_files (fuel : nat) (w : workspace) (pt : pattern) : outcome (list fpath) :=
  match search_dir w pt with
  | None => Ret []
  | Some d => collect_files_recursive (build_dir_predicate (is_recursive pt)) is_build_file fuel d
  end.
End FileSystem.

(** What read() gives: an error, or bytes; no bytes at the end of the file. *)
Inductive read_result := ReadError | ReadData (b : str).
(** file-utils.cc:137-149.  [read k n] is the [k]-th call, for at most [n] bytes; a call
    that gives more would overflow the buffer, which the kernel does not do.  The result
    is the content of the buffer and bytes_left; what was not read is not initialised, so
    the content is only meaningful with bytes_left = 0.  Each round reads at least a byte, so
    there are no more than [bytes_left] (the first argument). *)
Section Read.
Variable read : nat -> nat -> read_result.
Fixpoint read_loop (rounds : nat) (k : nat) (buf : str) (bytes_left : nat) : outcome (str * nat) :=
  if bytes_left =? 0 then Ret (buf, 0)
  else
    match rounds with
    | 0 => OutOfFuel
    | S rounds =>
        match read k bytes_left with
        | ReadError => Ret (buf, bytes_left)
        | ReadData [] => Ret (buf, bytes_left)
        | ReadData b => if bytes_left <? length b then UB else read_loop rounds (S k) (buf ++ b) (bytes_left - length b)
        end
    end.
(** file-utils.cc:126-152, ReadFileToString; [size] is st_size if open() and fstat()
    succeed. *)
Definition read_file_to_string (size : option nat) : outcome (option str) :=
  match size with
  | None => Ret None
  | Some filesize =>
      do (content, bytes_left) <- read_loop filesize 0 [] filesize;
      Ret (if bytes_left =? 0 then Some content else None)
  end.
End Read.
