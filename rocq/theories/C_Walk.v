(** Properties C45 to C47, C61 and C62: walking and reading the file system. *)
From Coq Require Import NArith.
From Verif Require Import Base OMap M_Types M_Scanner M_Ast M_Workspace M_Glob S_Glob P_Glob M_Query M_Parser M_Elab S_Elab P_Elab M_Walk S_Walk P_Walk P_WalkPaths P_GlobFiles T_Walk.
Local Open Scope string_scope.
Local Open Scope list_scope.

(** * C45: walks end *)
(** If there is a limit on the length of paths, every walk ends, links and loops
    notwithstanding ... *)
Theorem C45_ends : forall readdir stat want_dir want_file root limit,
  proper_names readdir -> (forall p, limit < length p -> readdir p = None) ->
  exists fuel files, collect_files_recursive readdir stat want_dir want_file fuel root = Ret files.
Proof. intros readdir stat wd wf root K P H. exact (collect_ends readdir stat P wd wf K root H). Qed.
Print Assumptions C45_ends.
(** ... and with inodes after no more directories than there are of them, and one. *)
Theorem C45_inodes : forall readdir stat want_dir want_file root (inodes : list N),
  (forall d e i, visited readdir stat want_dir root d -> dir_entry readdir stat d e i -> real_inode i /\ In i inodes) ->
  exists files, collect_files_recursive readdir stat want_dir want_file (S (length inodes)) root = Ret files.
Proof. exact collect_ends_inodes. Qed.
Print Assumptions C45_inodes.
(** How many steps are allowed makes no difference to the result. *)
Theorem C45_deterministic : forall readdir stat want_dir want_file root fuel fuel' files files',
  collect_files_recursive readdir stat want_dir want_file fuel root = Ret files ->
  collect_files_recursive readdir stat want_dir want_file fuel' root = Ret files' -> files = files'.
Proof. exact collect_fuel. Qed.
Print Assumptions C45_deterministic.
Example C45_case : proper_names (lookup fs2) /\ (forall p, 100 < length p -> lookup fs2 p = None) /\
  (forall d e i, dir_entry (lookup fs2) (lookup stat2) d e i -> real_inode i /\ In i [5%N]) /\
  option_map (map fp_path) (match collect_files_recursive (lookup fs2) (lookup stat2) (fun _ => true) (fun _ => true) 2 ($"r") with Ret l => Some l | _ => None end) = Some [$"r/f"; $"r/loop/f"].
Proof.
  split; [apply proper_table_ok; reflexivity|]. split; [|split].
  - intros p L. destruct (lookup fs2 p) as [l|] eqn:E; auto. apply lookup_in in E. destruct E as [E|[E|[]]]; injection E as <- _; cbn in L; lia.
  - intros d e i (((l & L & I) & _) & D). apply lookup_in in L. assert (X : i = 5%N).
    { destruct L as [L|[L|[]]]; injection L as <- <-; destruct I as [<-|[<-|[]]]; destruct D as [(T & _)|([T|T] & X)]; try discriminate T; vm_compute in X; try discriminate X; injection X as <-; reflexivity. }
    subst i. split; [|now left]. split; discriminate.
  - vm_compute. reflexivity.
Qed.
(** Without inodes and without a limit a walk need not end. *)
Theorem C45_unlimited_refuted : exists readdir stat want_dir want_file root, proper_names readdir /\
  forall fuel, collect_files_recursive readdir stat want_dir want_file fuel root = OutOfFuel.
Proof.
  exists (fun _ => Some [mkEntry ($"x") DtDir 0]), (fun _ => None), (fun _ => true), (fun _ => true), ($"."). split.
  - intros d l [= <-]. split; [repeat constructor; intros []|]. intros e [<-|[]]. split; [discriminate|]. cbn. intuition discriminate.
  - intros fuel. unfold collect_files_recursive. generalize ($".") (@nil fpath). induction fuel as [|fuel IH]; intros s o; [reflexivity|]. exact (IH _ o).
Qed.
Print Assumptions C45_unlimited_refuted.

(** * C46: the files found *)
(** Only wanted files, in directories reached through wanted ones, and no path twice; ... *)
Theorem C46_sound : forall readdir stat want_dir want_file root fuel files,
  collect_files_recursive readdir stat want_dir want_file fuel root = Ret files ->
  (forall f, In f files -> exists d e, visited readdir stat want_dir root d /\ file_entry readdir stat d e /\ want_file f = true /\ f = path_at d e) /\
  (proper_names readdir -> NoDup (map fp_path files)).
Proof.
  intros readdir stat wd wf root fuel files H. split; [now apply collect_sound with fuel|]. intros P. exact (collect_once readdir stat P wd wf root fuel files H).
Qed.
Print Assumptions C46_sound.
(** ... all of them if no directory to be looked at is reached by another path as well; ... *)
Theorem C46_complete : forall readdir stat want_dir want_file root fuel files,
  one_path_each readdir stat want_dir root -> collect_files_recursive readdir stat want_dir want_file fuel root = Ret files ->
  forall d e, visited readdir stat want_dir root d -> file_entry readdir stat d e -> want_file (path_at d e) = true -> In (path_at d e) files.
Proof. exact collect_complete. Qed.
Print Assumptions C46_complete.
(** ... with all directories wanted, those of every directory under some path of it. *)
Theorem C46_links : forall readdir stat want_dir want_file root fuel files,
  (forall f, want_dir f = true) -> (forall c e i, dir_entry readdir stat c e i -> real_inode i) -> same_content readdir stat ->
  collect_files_recursive readdir stat want_dir want_file fuel root = Ret files ->
  forall d e, visited readdir stat want_dir root d -> file_entry readdir stat d e ->
  exists d', same_dir readdir stat want_dir root d d' /\ file_entry readdir stat d' e /\ (want_file (path_at d' e) = true -> In (path_at d' e) files).
Proof. exact collect_links. Qed.
Print Assumptions C46_links.
(** The path of a file is that of its directory and its name. *)
Theorem C46_paths : forall d e, filename (path_at d e) = d_name e /\
  exists d' n, d = d' ++ repeat "/"%char n /\ (forall r, d' <> r ++ [ "/"%char ]) /\ fp_path (path_at d e) = d' ++ "/"%char :: d_name e.
Proof.
  intros d e. split; [apply path_at_filename|]. destruct (strip_back_repeat "/" d) as (n & E). exists (strip_back "/" d), n. split; auto. split; [apply strip_back_notail|apply path_at_path].
Qed.
Print Assumptions C46_paths.
(** A path knows whether it is a directory, as the walk does. *)
Theorem C46_is_directory : forall readdir stat d e, entry readdir d e -> d_type e <> DtOther ->
  (is_directory stat (path_at d e) = true <-> exists i, dir_entry readdir stat d e i).
Proof.
  intros readdir stat d e E N. unfold is_directory, dir_entry. assert (X : fp_dir (path_at d e) = match d_type e with DtDir => Some true | _ => None end) by (unfold path_at; destruct (d_type e); reflexivity).
  rewrite X. destruct (d_type e) eqn:T; [split; [intros _; exists (d_ino e); split; [exact E|now left]|reflexivity]| | |now elim N];
    (destruct (stat (fp_path (path_at d e))) as [[i [|]]|] eqn:St; split; try discriminate;
     [intros _; exists i; split; [exact E|right; auto]|reflexivity| |]; intros (j & _ & [(A & _)|(_ & A)]); discriminate A).
Qed.
Print Assumptions C46_is_directory.
Example C46_case : one_path_each (lookup fs1) (lookup stat1) (fun _ => true) ($".") /\ proper_names (lookup fs1) /\
  option_map (map fp_path) (match collect_files_recursive (lookup fs1) (lookup stat1) (fun _ => true) (fun f => starts_with ($"y") (filename f)) 9 ($".") with Ret l => Some l | _ => None end) =
    Some [$"./a/b/y.cc"; $"./a/b/y_test.cc"] /\
  visited (lookup fs1) (lookup stat1) (fun _ => true) ($".") ($"./a/b").
Proof.
  split; [apply unique_dirs_ok; vm_compute; reflexivity|]. split; [apply proper_table_ok; vm_compute; reflexivity|]. split; [vm_compute; reflexivity|].
  change ($"./a/b") with (fp_path (path_at ($"./a") (mkEntry ($"b") DtUnknown 12))). apply V_sub with 12%N; [|split; [split; [eexists; split; [reflexivity|cbn; auto]|split; discriminate]|right; split; [auto|reflexivity]]|reflexivity].
  change ($"./a") with (fp_path (path_at ($".") (mkEntry ($"a") DtDir 10))). apply V_sub with 10%N; [constructor|split; [split; [eexists; split; [reflexivity|cbn; auto]|split; discriminate]|left; auto]|reflexivity].
Qed.
(** Every directory has a file and a link to itself. *)
Definition fs4 (_ : str) : option (list dirent) := Some [mkEntry ($"f") DtOther 20; mkEntry ($"loop") DtLnk 30].
Definition stat4 (_ : str) : option (N * bool) := Some (5%N, true).
Example C46_links_case : (forall c e i, dir_entry fs4 stat4 c e i -> real_inode i) /\ same_content fs4 stat4 /\
  option_map (map fp_path) (match collect_files_recursive fs4 stat4 (fun _ => true) (fun _ => true) 2 ($"r") with Ret l => Some l | _ => None end) = Some [$"r/f"; $"r/loop/f"] /\
  visited fs4 stat4 (fun _ => true) ($"r") ($"r/loop/loop").
Proof.
  split; [|split; [|split]].
  - intros c e i (((l & L & I) & _) & D). injection L as <-. destruct D as [(T & _)|(_ & [= <-])]; [destruct I as [<-|[<-|[]]]; discriminate|]. split; discriminate.
  - intros c e c' e' i D D' x. split; [intros j|]; reflexivity.
  - vm_compute. reflexivity.
  - assert (L : forall d, dir_entry fs4 stat4 d (mkEntry ($"loop") DtLnk 30) 5) by (intros d; split; [split; [eexists; split; [reflexivity|cbn; auto]|split; discriminate]|right; auto]).
    change ($"r/loop/loop") with (fp_path (path_at ($"r/loop") (mkEntry ($"loop") DtLnk 30))). apply V_sub with 5%N; auto.
    change ($"r/loop") with (fp_path (path_at ($"r") (mkEntry ($"loop") DtLnk 30))). apply V_sub with 5%N; auto. constructor.
Qed.
(** A directory that is not wanted counts as seen: under another path, where it is
    wanted, its files are not found. *)
Theorem C46_unwanted_refuted : exists readdir stat want_dir root files d e,
  (forall c e i, dir_entry readdir stat c e i -> real_inode i) /\
  collect_files_recursive readdir stat want_dir (fun _ => true) 9 root = Ret files /\
  visited readdir stat want_dir root d /\ file_entry readdir stat d e /\
  forall d', same_dir readdir stat want_dir root d d' -> ~ In (path_at d' e) files.
Proof.
  exists (lookup fs3), (lookup stat3), (fun f => negb (str_eqb (filename f) ($"alias"))), ($"."), [], ($"./lib"), (mkEntry ($"BUILD") DtOther 20).
  split; [|split; [vm_compute; reflexivity|split; [|split; [|auto]]]].
  - intros c e i (((l & L & I) & _) & D). apply lookup_in in L. assert (i = 10%N) as ->; [|split; discriminate].
    destruct L as [L|[L|[L|[]]]]; injection L as <- <-; cbn [In] in I; repeat (destruct I as [<-|I]; [destruct D as [(T & X)|([T|T] & X)]; try discriminate T; vm_compute in X; try discriminate X; auto; now injection X as <-|]); destruct I.
  - change ($"./lib") with (fp_path (path_at ($".") (mkEntry ($"lib") DtDir 10))). apply V_sub with 10%N; [constructor| |reflexivity]. split; [split; [eexists; split; [reflexivity|cbn; auto]|split; discriminate]|left; auto].
  - split; [split; [eexists; split; [reflexivity|cbn; auto]|split; discriminate]|]. intros i (_ & [(T & _)|([T|T] & _)]); discriminate T.
Qed.
Print Assumptions C46_unwanted_refuted.

(** * C47: reading a file *)
(** All that the calls of read() give if that is as much as the file should have, and
    nothing otherwise. *)
Theorem C47_all_or_nothing : forall read size, within_bounds read ->
  (forall s, read_file_to_string read (Some size) = Ret (Some s) <-> read_trace read 0 size s) /\
  (read_file_to_string read (Some size) = Ret None <-> forall s, ~ read_trace read 0 size s).
Proof. intros read size B. exact (read_file_spec read B size). Qed.
Print Assumptions C47_all_or_nothing.
(** However the file is delivered in pieces, it is read completely. *)
Theorem C47_content : forall content read, within_bounds read -> delivers content read ->
  read_file_to_string read (Some (length content)) = Ret (Some content).
Proof. exact delivers_read. Qed.
Print Assumptions C47_content.
Theorem C47_length : forall read size s, within_bounds read ->
  read_file_to_string read (Some size) = Ret (Some s) -> length s = size.
Proof. intros read size s B H. apply (read_file_spec read B) in H. now apply trace_length in H. Qed.
Print Assumptions C47_length.
(** A file that cannot be opened, or a call that fails, gives nothing. *)
Theorem C47_failure : forall read, read_file_to_string read None = Ret None /\
  forall size, within_bounds read -> 0 < size -> read 0 size = ReadError -> read_file_to_string read (Some size) = Ret None.
Proof.
  intros read. split; [reflexivity|]. intros size B L E. apply (read_file_spec read B). intros s T. inversion T; subst; [lia|congruence].
Qed.
Print Assumptions C47_failure.
(** "hello" two bytes at a time. *)
Definition two_bytes (k n : nat) : read_result := ReadData (firstn (Nat.min 2 n) (skipn (5 - n) ($"hello"))).
Example C47_case : within_bounds two_bytes /\ delivers ($"hello") two_bytes /\ read_file_to_string two_bytes (Some 5) = Ret (Some ($"hello")) /\
  read_file_to_string (fun k n => match k with 0 => two_bytes k n | _ => ReadError end) (Some 5) = Ret None.
Proof.
  split; [|split; [|vm_compute; auto]].
  - intros k n b H. unfold two_bytes in H. set (m := Nat.min 2 n) in H. assert (L : m <= n) by (subst m; lia). clearbody m. injection H as <-. rewrite firstn_length. lia.
  - intros k n L. exists (Nat.min 2 n). split; [cbn in L; lia|reflexivity].
Qed.
(** What a file has beyond the size reported is not read, as that of files in /proc that
    report none. *)
Theorem C47_size_refuted : exists read, within_bounds read /\ read 0 1 <> ReadData [] /\ read_file_to_string read (Some 0) = Ret (Some []).
Proof.
  exists two_bytes. split; [apply C47_case|]. split; [discriminate|reflexivity].
Qed.
Print Assumptions C47_size_refuted.

(** * C61: the files of glob() *)
(** Files below the directory of the package, by their path relative to it, each once,
    that match an included pattern and no excluded one; and all of these.  It never fails
    a check. *)
Theorem C61_glob : forall readdir stat fuel w p incl excl names, proper_names readdir ->
  let dir := fully_qualified_file w p ($".") in
  glob_files readdir stat fuel w p incl excl = Ret names ->
  (forall n, In n names -> below readdir stat dir n /\ selected incl excl n) /\ NoDup names /\
  (one_path_each readdir stat all_dirs dir -> forall n, below readdir stat dir n -> ~ In NL (dir ++ "/"%char :: n) -> selected incl excl n -> In n names).
Proof.
  intros readdir stat fuel w p incl excl names P dir H. exact (multi_glob_spec readdir stat P dir (proj1 (package_dir w p)) incl excl fuel names H).
Qed.
Print Assumptions C61_glob.
Theorem C61_defined : forall readdir stat fuel w p incl excl, proper_names readdir -> glob_files readdir stat fuel w p incl excl <> UB.
Proof. intros readdir stat fuel w p incl excl P. exact (multi_glob_defined readdir stat P _ (proj1 (package_dir w p)) incl excl fuel). Qed.
Print Assumptions C61_defined.
(** The call of glob() becomes the list of these files, with the patterns of the last list
    given for include, by keyword or without, and of the last given for exclude; they are
    located at the word glob. *)
Theorem C61_call : forall multi_glob level f args g n g', v_text f = $"glob" -> glookup ($"glob") g = None ->
  elab multi_glob level (NCall (NId f) args) g = Ret (n, g') ->
  exists ty args', elab multi_glob (S level) args g = Ret (NList ty args', g) /\ g' = g /\
    n = NList LList (map (fun s => NStr (mkView s (match v_org f with InFile off => Synth off 4 | o => o end)) false false)
          (multi_glob (texts (last_given ($"include") args')) (texts (last_given ($"exclude") args')))).
Proof. exact glob_spec. Qed.
Print Assumptions C61_call.
Example C61_call_case :
  match parse ($"x = glob(exclude = [""b""], include = [""*.c""] + [""*.h""])") with
  | Ret ([NAssign _ (NCall (NId f) (NList ty args)) _], []) =>
      v_text f = $"glob" /\
      match elab (fun incl excl => incl ++ [$"-"] ++ excl) 0 (NCall (NId f) (NList ty args)) [] with
      | Ret (NList LList l, []) => texts (Some l) = [$"*.c"; $"*.h"; $"-"; $"b"]
      | _ => False
      end
  | _ => False
  end.
Proof. vm_compute. auto. Qed.
(** Package //a, seen from the directory above. *)
Definition ws0 : workspace := [].
Example C61_case : proper_names (lookup fs5) /\ one_path_each (lookup fs5) (lookup stat1) all_dirs (fully_qualified_file ws0 (mkPackage [] ($"a")) ($".")) /\
  glob_files (lookup fs5) (lookup stat1) 9 ws0 (mkPackage [] ($"a")) [$"**/*.cc"; $"*.h"] [$"**/*_test.cc"] = Ret [$"x.h"; $"b/y.cc"].
Proof.
  split; [apply proper_table_ok; vm_compute; reflexivity|]. split; [apply unique_dirs_ok; vm_compute; reflexivity|]. vm_compute. reflexivity.
Qed.
(** Unlike in Bazel, files of packages below are not left out. *)
Theorem C61_subpackages_refuted : exists readdir stat names, proper_names readdir /\
  glob_files readdir stat 9 ws0 (mkPackage [] ($"a")) [$"**/*"] [] = Ret names /\ In ($"b/BUILD.bazel") names /\ In ($"b/y.cc") names.
Proof.
  exists (lookup fs5), (lookup stat1). eexists. split; [apply proper_table_ok; vm_compute; reflexivity|]. split; [vm_compute; reflexivity|]. cbn; auto 10.
Qed.
Print Assumptions C61_subpackages_refuted.

(** * C62: BUILD files of a pattern *)
(** Where they are looked for: ... *)
Theorem C62_where : forall w pt, search_dir w pt =
  match project (tpackage (pat_target pt)) with
  | [] => Some (match path (tpackage (pat_target pt)) with [] => $"." | p => p end)
  | pr => match find_path_by_project w pr with None => None | Some d => Some (d ++ $"/" ++ path (tpackage (pat_target pt))) end
  end.
Proof. exact search_dir_spec. Qed.
Print Assumptions C62_where.
(** ... files named BUILD or BUILD.bazel there, with ... also in the directories below,
    links and some names excepted.  These are all, if none of the directories is reached
    by a link or a second path. *)
Theorem C62_found : forall readdir stat is_link fuel w pt files, collect_build_files readdir stat is_link fuel w pt = Ret files ->
  (search_dir w pt = None /\ files = []) \/
  exists root, search_dir w pt = Some root /\
    (forall f, In f files -> build_file_of readdir stat is_link (is_recursive pt) root f) /\
    ((is_recursive pt = false \/
      forall d e d' e' i, build_dir readdir stat is_link true root d -> build_dir readdir stat is_link true root d' ->
        dir_entry readdir stat d e i -> dir_entry readdir stat d' e' i -> real_inode i -> ~ link_entry is_link d e -> path_at d e = path_at d' e') ->
     forall f, build_file_of readdir stat is_link (is_recursive pt) root f -> In f files).
Proof. exact collect_build_spec. Qed.
Print Assumptions C62_found.
Definition all_below : pattern := mkPattern (mkTarget (mkPackage [] []) []) KRecursive.
Example C62_case : (forall d e d' e' i, dir_entry (lookup fs1) (lookup stat1) d e i -> dir_entry (lookup fs1) (lookup stat1) d' e' i -> real_inode i -> path_at d e = path_at d' e') /\
  option_map (map fp_path) (match collect_build_files (lookup fs1) (lookup stat1) (fun _ => false) 9 ws0 all_below with Ret l => Some l | _ => None end) = Some [$"./BUILD"; $"./a/b/BUILD.bazel"] /\
  option_map (map fp_path) (match collect_build_files (lookup fs1) (lookup stat1) (fun _ => false) 9 ws0 (mkPattern (mkTarget (mkPackage [] []) ($"x")) KExact) with Ret l => Some l | _ => None end) = Some [$"./BUILD"].
Proof.
  split; [|vm_compute; auto]. intros d e d' e' i D D' R.
  apply (unique_dirs_paths fs1 stat1 d e d' e' i); auto; vm_compute; reflexivity.
Qed.
(** A link counts as the directory it leads to: listed before it, it hides its BUILD
    files. *)
Theorem C62_link_refuted : exists readdir stat is_link files d e,
  collect_build_files readdir stat is_link 9 ws0 all_below = Ret files /\
  build_dir readdir stat is_link true ($".") d /\ file_entry readdir stat d e /\ d_name e = $"BUILD" /\ files = [].
Proof.
  exists (lookup fs3), (lookup stat3), (fun p => str_eqb p ($"./alias")), [], ($"./lib"), (mkEntry ($"BUILD") DtOther 20). split; [vm_compute; reflexivity|]. split; [|split; [|auto]].
  - change ($"./lib") with (fp_path (path_at ($".") (mkEntry ($"lib") DtDir 10))). apply BD_sub with 10%N; [auto|constructor| | |].
    + split; [split; [eexists; split; [reflexivity|cbn; auto]|split; discriminate]|left; auto].
    + intros [T|(T & _)]; discriminate T.
    + cbn. intuition discriminate.
  - split; [split; [eexists; split; [reflexivity|cbn; auto]|split; discriminate]|]. intros i (_ & [(T & _)|([T|T] & _)]); discriminate T.
Qed.
Print Assumptions C62_link_refuted.
