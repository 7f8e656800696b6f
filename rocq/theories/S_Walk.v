(** Specification of walks through a file system. *)
From Coq Require Import NArith.
From Verif Require Import Base M_Walk.

Section Tree.
Variable readdir : str -> option (list dirent).
Variable stat : str -> option (N * bool).

(** [e] is an entry of the directory [d] ... *)
Definition entry (d : str) (e : dirent) : Prop :=
  (exists l, readdir d = Some l /\ In e l) /\ d_name e <> $"." /\ d_name e <> $"..".
(** ... that is a directory with the given inode, ... *)
Definition dir_entry (d : str) (e : dirent) (inode : N) : Prop :=
  entry d e /\
  ((d_type e = DtDir /\ inode = d_ino e) \/
   ((d_type e = DtLnk \/ d_type e = DtUnknown) /\ stat (fp_path (path_at d e)) = Some (inode, true))).
(** ... or is none. *)
Definition file_entry (d : str) (e : dirent) : Prop := entry d e /\ forall inode, ~ dir_entry d e inode.

(** The directories looked at, from [root] on. *)
Inductive visited (want_dir : fpath -> bool) (root : str) : str -> Prop :=
| V_root : visited want_dir root root
| V_sub d e i : visited want_dir root d -> dir_entry d e i -> want_dir (path_at d e) = true -> visited want_dir root (fp_path (path_at d e)).

(** Inodes that can be told apart from the placeholders of file systems without
    inodes. *)
Definition real_inode (i : N) : Prop := i <> 0%N /\ (i mod 2 ^ 32)%N <> (2 ^ 32 - 1)%N.

(** No directory that is to be looked at is found under another path, too. *)
Definition one_path_each (want_dir : fpath -> bool) (root : str) : Prop :=
  forall d e d' e' i, visited want_dir root d -> visited want_dir root d' -> dir_entry d e i -> dir_entry d' e' i -> real_inode i ->
    want_dir (path_at d e) = true -> path_at d e = path_at d' e'.
(** [d] and [d'] are paths of the same directory. *)
Definition same_dir (want_dir : fpath -> bool) (root : str) (d d' : str) : Prop :=
  d = d' \/
  exists c e c' e' i, visited want_dir root c /\ visited want_dir root c' /\ dir_entry c e i /\ dir_entry c' e' i /\
    d = fp_path (path_at c e) /\ d' = fp_path (path_at c' e').

(** The same directory has the same content under all its paths. *)
Definition same_content : Prop :=
  forall c e c' e' i, dir_entry c e i -> dir_entry c' e' i ->
    forall x, (forall j, dir_entry (fp_path (path_at c e)) x j <-> dir_entry (fp_path (path_at c' e')) x j) /\
              (file_entry (fp_path (path_at c e)) x <-> file_entry (fp_path (path_at c' e')) x).

(** File names as they are in a directory. *)
Definition proper_names : Prop :=
  forall d l, readdir d = Some l -> NoDup (map d_name l) /\ forall e, In e l -> d_name e <> [] /\ ~ In "/"%char (d_name e).

(** A file below [root], with its path relative to it. *)
Inductive below (root : str) : str -> Prop :=
| B_top e : file_entry root e -> below root (d_name e)
| B_sub d e i f : dir_entry root e i -> d = fp_path (path_at root e) -> below d f -> below root (d_name e ++ "/"%char :: f).

(** The directories in which BUILD files are looked for. *)
Variable is_link : str -> bool.
Definition link_entry (d : str) (e : dirent) : Prop :=
  d_type e = DtLnk \/ (d_type e = DtUnknown /\ is_link (fp_path (path_at d e)) = true).
Inductive build_dir (recursive : bool) (root : str) : str -> Prop :=
| BD_start : build_dir recursive root root
| BD_sub d e i : recursive = true -> build_dir recursive root d -> dir_entry d e i -> ~ link_entry d e ->
    ~ In (d_name e) [$"_tmp"; $".cache"; $".git"] -> build_dir recursive root (fp_path (path_at d e)).
End Tree.

(** The bytes that successive calls of read() give, [k] being the number of the first and
    [n] what is still missing. *)
Inductive read_trace (read : nat -> nat -> read_result) : nat -> nat -> str -> Prop :=
| RT_done k : read_trace read k 0 []
| RT_more k n b s : b <> [] -> length b <= n -> read k n = ReadData b -> read_trace read (S k) (n - length b) s -> read_trace read k n (b ++ s).
(** A file delivered in pieces: asked for the last [n] bytes, a call gives some of the
    first of them. *)
Definition delivers (content : str) (read : nat -> nat -> read_result) : Prop :=
  forall k n, 0 < n <= length content ->
    exists m, 0 < m <= n /\ read k n = ReadData (firstn m (skipn (length content - n) content)).
(** No call gives more than it was asked for. *)
Definition within_bounds (read : nat -> nat -> read_result) : Prop :=
  forall k n b, read k n = ReadData b -> length b <= n.
