(** The script that runs clang-tidy on the sources of the project and keeps the results
    (/repo/scripts/run-clang-tidy-cached.cc, with its kConfig :112-117).

    Paths are strings; [fs::path::filename()] and [extension()] are transcribed from the
    standard.  [std::hash<std::string>] is a section variable.  Timestamps are numbers.
    The expressions of [std::regex] are written out by hand: in none of them two adjacent
    parts can match the same character, so they are matched without going back.
    Simplifications: progress output is left out; the project's directories contain no
    entries that appear or vanish during a run, and clang-tidy does not change sources
    (with --fix it does); the cache directory can be written. *)
From Coq Require Import NArith.
From Verif Require Import Base OMap M_Printer M_Workspace M_CompDb.

(** :122-127, IsIncludeExtension; :130-135, ConsiderExtension. *)
Definition is_include_extension (e : str) : bool := existsb (str_eqb e) [$".h"; $".hpp"; $".hxx"; $".inl"].
Definition consider_extension (e : str) : bool := existsb (str_eqb e) [$".cc"; $".cpp"; $".cxx"] || is_include_extension e.
(** std::filesystem::path::extension(): from the last dot of the filename on; none for a
    leading dot and for the name [..]. *)
Definition extension (path : str) : str :=
  let name := fs_filename path in
  if str_eqb name ($"..") then []
  else match find_last "." name with
       | None | Some 0 => []
       | Some i => skipn i name
       end.

(** :177-181, ToHex. *)
Definition hex_char (v : N) : ascii := if (v <? 10)%N then ascii_of_N (48 + v) else ascii_of_N (87 + v).
Fixpoint hex_digits (n : nat) (v : N) : str :=
  match n with
  | 0 => []
  | S n => hex_digits n (v / 16) ++ [hex_char (v mod 16)]
  end.
Definition to_hex (v : N) (show_lower_nibbles : nat) : str := skipn (16 - show_lower_nibbles) (hex_digits 16 v).

(** std::sregex_iterator: the matches of an expression, from left to right, that do not
    overlap.  [m s] is the match at the beginning of [s]: the group and the length (not 0); [skip] is
    how much of the last match there is still to go over. *)
Section Matches.
Variable m : str -> option (str * nat).
Fixpoint all_matches (skip : nat) (s : str) : list str :=
  match s with
  | [] => []
  | _ :: r =>
      match skip with
      | S skip => all_matches skip r
      | 0 => match m s with
             | Some (group, len) => group :: all_matches (len - 1) r
             | None => all_matches 0 r
             end
      end
  end.
End Matches.

(** :407-408, inc_re, [#\s*include\s+QUOTE([0-9a-zA-Z_/-]+\.[a-zA-Z]+)QUOTE]. *)
Definition header_char (c : ascii) : bool := is_alnum c || ceqb c "_" || ceqb c "/" || ceqb c "-".
Definition include_at (s : str) : option (str * nat) :=
  match s with
  | c :: s1 =>
      if negb (ceqb c "#") then None
      else
        match without ($"include") (skip_while is_space s1) with
        | None => None
        | Some s2 =>
            if is_nil (take_while is_space s2) then None
            else
              match skip_while is_space s2 with
              | q :: s3 =>
                  if negb (ceqb q DQ) then None
                  else
                    let stem := take_while header_char s3 in
                    match is_nil stem, skip_while header_char s3 with
                    | false, dot :: s4 =>
                        if negb (ceqb dot ".") then None
                        else
                          let ext := take_while is_alpha s4 in
                          match is_nil ext, skip_while is_alpha s4 with
                          | false, q2 :: rest =>
                              if negb (ceqb q2 DQ) then None
                              else Some (stem ++ $"." ++ ext, length s - length rest)
                          | _, _ => None
                          end
                    | _, _ => None
                    end
              | [] => None
              end
        end
  | [] => None
  end.
Definition included (content : str) : list str := all_matches include_at 0 content.

(** :445, check_re, [(\[[a-zA-Z.-]+\])\n]. *)
Definition check_char (c : ascii) : bool := is_alpha c || ceqb c "." || ceqb c "-".
Definition check_at (s : str) : option (str * nat) :=
  match s with
  | c :: s1 =>
      if negb (ceqb c "[") then None
      else
        let name := take_while check_char s1 in
        match is_nil name, skip_while check_char s1 with
        | false, b :: n :: _ =>
            if ceqb b "]" && ceqb n NL then Some ($"[" ++ name ++ $"]", length name + 3) else None
        | _, _ => None
        end
  | [] => None
  end.
Definition checks_in (tidy : str) : list str := all_matches check_at 0 tidy.

(** What fs::recursive_directory_iterator finds, :373: the path (lexically normal as the
    script starts at a plain name), whether it is a regular file, and the content;
    None if it can not be opened. *)
Record found := mkFound { f_path : str; f_regular : bool; f_content : option str }.
Definition tree := list found.
(** :149-170, GetContent. *)
Definition content_of (f : found) : str := match f_content f with Some s => s | None => [] end.
(** :375-387: file_include_re matches everything, file_exclude_re is
    [^(\.git|\.github|build)/]. *)
Definition eligible (f : found) : bool :=
  f_regular f && negb (existsb (fun d => starts_with d (f_path f)) [$".git/"; $".github/"; $"build/"]).

Section Hash.
(** hashContent, :176. *)
Variable hash : str -> N.

(** filepath_contenthash_t, :147 *)
Definition item := (str * N)%type.

(** :393-401, header_hashes. *)
Definition add_header (m : list (str * N)) (f : found) : list (str * N) :=
  if eligible f && is_include_extension (extension (f_path f))
  then map_update (fs_filename (f_path f)) 0%N (fun h => N.lxor h (hash (content_of f))) m
  else m.
Definition header_hashes (t : tree) : list (str * N) := fold_left add_header t [].
(** :388-390, files_of_interest_ before there are hashes. *)
Definition of_interest (t : tree) : tree := filter (fun f => eligible f && consider_extension (extension (f_path f))) t.
(** :410-424: the hash of a file. *)
Definition add_include_hash (headers : list (str * N)) (h : N) (header_path : str) : N :=
  match map_find (fs_filename header_path) headers with
  | Some x => N.lxor h x
  | None => h
  end.
Definition file_hash (headers : list (str * N)) (content : str) : N :=
  fold_left (add_include_hash headers) (included content) (hash content).
Definition item_of (t : tree) (f : found) : item := (f_path f, file_hash (header_hashes t) (content_of f)).
Definition items (t : tree) : list item := map (item_of t) (of_interest t).

(** :192-197, PathFor: the name in the directory "contents". *)
Definition result_name (w : item) : str := fs_filename (fst w) ++ $"-" ++ to_hex (snd w) 16.
(** What there is in the directory: content and last_write_time(). *)
Definition store := str -> option (str * N).
(** :199-201, GetContentFor; without the message if it can not be opened. *)
Definition get_content_for (s : store) (w : item) : str := match s (result_name w) with Some (c, _) => c | None => [] end.
(** :205-218, NeedsRefresh. *)
Definition needs_refresh (s : store) (min_freshness : N) (w : item) : bool :=
  match s (result_name w) with
  | None => true
  | Some (content, time) => negb (is_nil content) && (time <? min_freshness)%N
  end.
(** :368-431, BuildWorkList. *)
Definition work_list (t : tree) (s : store) (min_freshness : N) : list item := filter (needs_refresh s min_freshness) (items t).
End Hash.

(** :332-354, RepairFilenameOccurences: [(^|\n)(ROOT/|PWD/)?(\./)?] is replaced by its first
    group.  That is at the beginning of each line: the expression also matches there if there is
    nothing to be removed, and nowhere else.  Characters of the two directories that mean
    something in an expression are taken literally. *)
Definition drop_prefix (p s : str) : str := if starts_with p s then skipn (length p) s else s.
Definition repair_line (prefixes : list str) (line : str) : str :=
  drop_prefix ($"./") (match find (fun p => starts_with p line) prefixes with Some p => skipn (length p) line | None => line end).
(** [bzroot]: what "bazel info execution_root" printed. *)
Definition repair_prefixes (bzroot pwd : str) : list str :=
  (if is_nil bzroot then [] else [removelast bzroot ++ $"/"]) ++ [pwd ++ $"/"].
Definition repair (bzroot pwd : str) (content : str) : str :=
  join NL (map (repair_line (repair_prefixes bzroot pwd)) (split NL content)).

(** Files of the directory "contents": names, and what is in the files behind them. *)
Record fsys := mkFs { fs_dir : str -> option nat; fs_data : nat -> str * N; fs_next : nat }.
Definition set_name (d : str -> option nat) (name : str) (v : option nat) : str -> option nat :=
  fun n => if str_eqb n name then v else d n.
Definition set_data (d : nat -> str * N) (i : nat) (v : str * N) : nat -> str * N := fun j => if Nat.eqb j i then v else d j.
(** Opening for writing: the file is emptied, or created.  The file. *)
Definition open_for_writing (name : str) (now : N) (f : fsys) : nat * fsys :=
  match fs_dir f name with
  | Some i => (i, mkFs (fs_dir f) (set_data (fs_data f) i ([], now)) (fs_next f))
  | None => (fs_next f, mkFs (set_name (fs_dir f) name (Some (fs_next f))) (set_data (fs_data f) (fs_next f) ([], now)) (S (fs_next f)))
  end.
(** Writing at the end of an open file (in case two processes have it open, the real one writes
    where it is itself). *)
Definition write_to (i : nat) (s : str) (now : N) (f : fsys) : fsys :=
  mkFs (fs_dir f) (set_data (fs_data f) i (fst (fs_data f i) ++ s, now)) (fs_next f).
(** fs::rename; it throws if there is no such file. *)
Definition rename_file (from to : str) (f : fsys) : option fsys :=
  match fs_dir f from with
  | None => None
  | Some i => Some (mkFs (set_name (set_name (fs_dir f) from None) to (Some i)) (fs_data f) (fs_next f))
  end.
Definition file_at (f : fsys) : store := fun name => option_map (fs_data f) (fs_dir f name).

(** :235-286, RunClangTidyOn: threads that take items from a queue.  Where a thread is; every
    constructor is a point at which another thread can go on, or everything can stop. *)
Inductive worker :=
| WIdle                                            (* :246, about to lock the queue *)
| WTaken (w : item)                                (* :259, before the shell has opened the file *)
| WPrinting (w : item) (file : nat) (printed : str) (* :265, clang-tidy runs *)
| WEnded (w : item)                                (* :273, before reading *)
| WHolding (w : item) (text : str)                 (* :352, before opening the file for writing *)
| WStoring (w : item) (file : nat) (rest : str)    (* :353, [rest] is not yet written *)
| WStored (w : item)                               (* :274, before rename() *)
| WGone.                                           (* returned *)
Record machine := mkMachine { m_queue : list item; m_workers : list worker; m_files : fsys; m_aborted : bool }.
Inductive action :=
| ATake | ALeave | AOpen (now : N) | APrint (s : str) (now : N) | AEnd | AInterrupt
| ARead | ACreate (now : N) | AStore (s : str) (now : N) | AClose | ARename.

Definition tmp_name (w : item) : str := result_name w ++ $".tmp".
Fixpoint set_nth {A} (n : nat) (x : A) (l : list A) : list A :=
  match n, l with
  | 0, _ :: l => x :: l
  | S n, y :: l => y :: set_nth n x l
  | _, [] => []
  end.
Section Run.
(** What clang-tidy prints on standard output for a path until it ends in another way than by
    SIGINT or SIGQUIT; whether it succeeds is not looked at.  What the lines are rid of. *)
Variable prints : str -> str.
Variable bzroot pwd : str.

(** One step of a thread; None if it is not at a point to do that. *)
Definition worker_step (a : action) (me : worker) (queue : list item) (f : fsys) : option (worker * list item * fsys * bool) :=
  match a, me with
  | ATake, WIdle => match queue with w :: queue => Some (WTaken w, queue, f, false) | [] => None end
  | ALeave, WIdle => match queue with [] => Some (WGone, [], f, false) | _ => None end
  | AOpen now, WTaken w => let (i, f) := open_for_writing (tmp_name w) now f in Some (WPrinting w i [], queue, f, false)
  | APrint s now, WPrinting w i printed =>
      if starts_with (printed ++ s) (prints (fst w)) then Some (WPrinting w i (printed ++ s), queue, write_to i s now f, false) else None
  | AEnd, WPrinting w i printed => if str_eqb printed (prints (fst w)) then Some (WEnded w, queue, f, false) else None
  | AInterrupt, WPrinting w i printed => Some (WGone, queue, f, false)
  | ARead, WEnded w => Some (WHolding w (match file_at f (tmp_name w) with Some (c, _) => c | None => [] end), queue, f, false)
  | ACreate now, WHolding w text =>
      let (i, f) := open_for_writing (tmp_name w) now f in Some (WStoring w i (repair bzroot pwd text), queue, f, false)
  | AStore s now, WStoring w i rest =>
      if starts_with s rest then Some (WStoring w i (skipn (length s) rest), queue, write_to i s now f, false) else None
  | AClose, WStoring w i rest => if is_nil rest then Some (WStored w, queue, f, false) else None
  | ARename, WStored w =>
      match rename_file (tmp_name w) (result_name w) f with
      | Some f => Some (WIdle, queue, f, false)
      | None => Some (WGone, queue, f, true) (* an exception leaves the thread: std::terminate() *)
      end
  | _, _ => None
  end.
Definition step (m : machine) (who : nat) (a : action) : option machine :=
  if m_aborted m then None
  else
    match nth_error (m_workers m) who with
    | None => None
    | Some me =>
        match worker_step a me (m_queue m) (m_files m) with
        | None => None
        | Some (me, queue, f, aborted) => Some (mkMachine queue (set_nth who me (m_workers m)) f aborted)
        end
    end.
(** What a schedule leads to: which thread does what, one after the other. *)
Definition schedule := list (nat * action).
Fixpoint run (m : machine) (l : schedule) : option machine :=
  match l with
  | [] => Some m
  | (who, a) :: l => match step m who a with Some m => run m l | None => None end
  end.
(** :238, hardware_concurrency() threads; :279-281.  With nothing to do (:237) there are no threads, that is
    here threads that leave at once. *)
Definition start (jobs : nat) (queue : list item) (f : fsys) : machine := mkMachine queue (repeat WIdle jobs) f false.
End Run.

(** :436-494, CreateReport. *)
(** std::map<std::string, int>, incremented. *)
Definition tally (m : list (str * nat)) (check : str) : list (str * nat) := map_update check 0 S m.
Definition checks_seen (s : store) (files : list item) : list (str * nat) :=
  fold_left tally (flat_map (fun w => checks_in (get_content_for s w)) files) [].
(** :447-455: the file with the details. *)
Definition details (s : store) (files : list item) : str :=
  flat_map (fun w => let tidy := get_content_for s w in if is_nil tidy then [] else fst w ++ $":" ++ [NL] ++ tidy) files.
(** :470-475, std::stable_sort by decreasing count. *)
Fixpoint insert_by_count (e : str * nat) (l : list (str * nat)) : list (str * nat) :=
  match l with
  | [] => [e]
  | x :: r => if snd e <? snd x then x :: insert_by_count e r else e :: l
  end.
Definition by_count (l : list (str * nat)) : list (str * nat) := fold_right insert_by_count [] l.
(** :479-480, the format [%5d %s\n]. *)
Definition summary_line (e : str * nat) : str :=
  let n := print_int (Z.of_nat (snd e)) in repeat " "%char (5 - length n) ++ n ++ $" " ++ fst e ++ [NL].
Record report := mkReport { r_details : str; r_summary : str; r_success : bool }.
Definition create_report (s : store) (files : list item) : report :=
  let seen := checks_seen s files in
  mkReport (details s files) (flat_map summary_line (by_count seen)) (is_nil seen).

(** operator/ of std::filesystem::path, for a name that does not start with a slash. *)
Definition path_div (d name : str) : str := if is_nil d || ends_with ($"/") d then d ++ name else d ++ $"/" ++ name.
(** :289-295, GetCacheBaseDir. *)
Definition cache_base_dir (env : str -> option str) (exists_ : str -> bool) : str :=
  match env ($"CACHE_DIR") with
  | Some d => d
  | None =>
      let tmp := match env ($"TMPDIR") with Some d => d | None => $"/tmp" end in
      match env ($"HOME") with
      | Some home => let cdir := path_div home ($".cache/") in if exists_ cdir then cdir else tmp
      | None => tmp
      end
  end.
(** :297-307, AssembleArgs. *)
Definition quoted (s : str) : str := $"'" ++ s ++ $"'".
Definition assemble_args (argv : list str) : str :=
  $" --quiet '--config-file=.clang-tidy'" ++ $" --extra-arg='-Wno-unknown-pragmas' --extra-arg='-Wno-unknown-warning-option'"
  ++ flat_map (fun a => $" " ++ quoted a) argv.
(** :260-264, the command; [contents] is the directory of the results. *)
Definition command (clang_tidy args contents : str) (w : item) : str :=
  clang_tidy ++ $" " ++ quoted (fst w) ++ args ++ $"> " ++ quoted (contents ++ $"/" ++ tmp_name w) ++ $" 2>/dev/null".
(** :320-323, the first match of [version ([0-9]+)]. *)
Fixpoint major_version (version : str) : str :=
  match version with
  | [] => $"UNKNOWN"
  | _ :: r =>
      match without ($"version ") version with
      | Some v => if is_nil (take_while is_digit v) then major_version r else take_while is_digit v
      | None => major_version r
      end
  end.
(** :309-329, the name of the directory of this configuration, in the cache directory. *)
Definition config_dir (hash : str -> N) (version args config : str) : str :=
  $"bant_" ++ $"v" ++ major_version version ++ $"_" ++ to_hex (N.lxor (hash (version ++ args)) (hash config)) 8.
(** :309-329, AssembleProjectCacheDir. *)
Definition project_cache_dir (env : str -> option str) (exists_ : str -> bool) (hash : str -> N) (version args config : str) : str :=
  path_div (path_div (cache_base_dir env exists_) ($"clang-tidy")) (config_dir hash version args config).

(** :497-524, main: what is looked at before anything is done; last_write_time() of files. *)
Inductive refusal := NoConfig | NotToplevel | NoCompilationDb.
Definition build_env_latest_change (exists_ : str -> bool) (time : str -> option N) : refusal + N :=
  if negb (exists_ ($".clang-tidy")) then inl NoConfig
  else
    match time ($"MODULE.bazel") with
    | None => inl NotToplevel
    | Some toplevel =>
        match (match time ($"compile_commands.json") with Some t => Some t | None => time ($"compile_flags.txt") end) with
        | None => inl NoCompilationDb
        | Some compdb => inr (N.max toplevel compdb)
        end
    end.
(** :535-545, main: the run, [sched] being what the threads do (and how many there are), and the report; None
    if it is not a schedule with which all threads return, or if the program aborts. *)
Definition all_gone (m : machine) : bool := forallb (fun w => match w with WGone => true | _ => false end) (m_workers m).
Definition invocation (hash : str -> N) (prints : str -> str) (bzroot pwd : str) (t : tree) (min_freshness : N)
    (jobs : nat) (sched : schedule) (f : fsys) : option (fsys * report) :=
  match run prints bzroot pwd (start jobs (work_list hash t (file_at f) min_freshness) f) sched with
  | None => None
  | Some m =>
      if m_aborted m || negb (all_gone m) then None
      else Some (m_files m, create_report (file_at (m_files m)) (items hash t))
  end.
