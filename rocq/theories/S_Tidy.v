(** Specification of the script that runs clang-tidy and keeps its results: independent of how
    it is computed. *)
From Coq Require Import NArith Permutation Sorted.
From Verif Require Import Base OMap S_Commands S_Shell M_Tidy.

(** * Text *)
(** The last element of a path, and what is after the last dot of it. *)
Definition base_of (path name : str) : Prop := ~ In "/"%char name /\ (path = name \/ exists dir, path = dir ++ "/"%char :: name).
Definition extension_of (path ext : str) : Prop :=
  exists name stem, base_of path name /\ name <> $".." /\ name = stem ++ ext /\ stem <> [] /\ exists r, ext = "."%char :: r /\ ~ In "."%char r.
(** The texts after which a header is included: a path of letters, digits and [_/-], a dot, and
    letters. *)
Definition header_text (s : str) : Prop :=
  exists stem ext, s = stem ++ $"." ++ ext /\ stem <> [] /\ ext <> [] /\
    Forall (fun c => is_alnum c = true \/ In c ($"_/-")) stem /\ Forall (fun c => is_alpha c = true) ext.
Definition include_text (s header : str) : Prop :=
  exists blank1 blank2, s = $"#" ++ blank1 ++ $"include" ++ blank2 ++ [DQ] ++ header ++ [DQ] /\
    Forall (fun c => is_space c = true) blank1 /\ Forall (fun c => is_space c = true) blank2 /\ blank2 <> [] /\ header_text header.
(** [pieces P s l]: the text [s] has, in this order and besides each other, parts that [P] relates
    to the elements of [l], and no other parts. *)
Inductive pieces {A} (P : str -> A -> Prop) : str -> list A -> Prop :=
| pieces_none s : (forall a b c x, s = a ++ b ++ c -> ~ P b x) -> pieces P s []
| pieces_one a b x s l : P b x -> (forall a' b' c' y, a ++ b ++ s = a' ++ b' ++ c' -> P b' y -> length a <= length a') ->
    pieces P s l -> pieces P (a ++ b ++ s) (x :: l).
(** The check a line of clang-tidy's ends with. *)
Definition check_text (s check : str) : Prop :=
  s = check ++ [NL] /\ exists name, check = $"[" ++ name ++ $"]" /\ name <> [] /\ Forall (fun c => is_alpha c = true \/ In c ($".-")) name.
(** How often [x] is in [s]. *)
Fixpoint occurrences (x s : str) : nat :=
  (if starts_with x s then 1 else 0) + match s with [] => 0 | _ :: s => occurrences x s end.

(** [b] is [a], each line without the name of one of the directories in front of it, nor a "./" after that. *)
Definition shorter_line (dirs : list str) (a b : str) : Prop :=
  exists d dot, a = d ++ dot ++ b /\
    ((exists before after, dirs = before ++ d :: after /\ (forall e r, In e before -> a <> e ++ r))
     \/ d = [] /\ (forall e r, In e dirs -> a <> e ++ r)) /\
    (dot = $"./" \/ dot = [] /\ (forall r, b <> $"./" ++ r)).
Definition shorter (dirs : list str) (a b : str) : Prop :=
  exists la lb, a = join NL la /\ b = join NL lb /\ Forall (fun l => ~ In NL l) la /\ Forall (fun l => ~ In NL l) lb /\
    la <> [] /\ Forall2 (shorter_line dirs) la lb.

(** * Files *)
(** No two names for the same file. *)
Definition sound_fs (f : fsys) : Prop :=
  (forall a b i, fs_dir f a = Some i -> fs_dir f b = Some i -> a = b) /\ (forall a i, fs_dir f a = Some i -> i < fs_next f).
(** The files are not of the script's making if they end with .tmp. *)
Definition temporary (name : str) : Prop := exists s, name = s ++ $".tmp".
(** The name of the result for a file: of its last path element and sixteen digits. *)
Definition named_result (w : item) (name : str) : Prop :=
  exists base digits, base_of (fst w) base /\ name = base ++ "-"%char :: digits /\ length digits = 16 /\
    Forall (fun c => is_digit c = true \/ In c ($"abcdef")) digits /\
    fold_left (fun a c => (16 * a + (if is_digit c then code c - 48 else code c - 87))%N) digits 0%N = snd w.

(** * Runs *)
Definition takes (s : nat * action) : bool := match snd s with ATake => true | _ => false end.
Definition interrupts (s : nat * action) : bool := match snd s with AInterrupt => true | _ => false end.
(** What a thread is busy with. *)
Definition busy_with (k : worker) : list item :=
  match k with
  | WTaken w | WPrinting w _ _ | WEnded w | WHolding w _ | WStoring w _ _ | WStored w => [w]
  | WIdle | WGone => []
  end.
(** The directories names of which are left out. *)
Definition left_out (bzroot pwd : str) : list str :=
  (match bzroot with [] => [] | _ => [removelast bzroot ++ $"/"] end) ++ [pwd ++ $"/"].
(** The result for an item is there: of all that clang-tidy prints. *)
Definition has_result (prints : str -> str) (bzroot pwd : str) (f : fsys) (w : item) (t : N) : Prop :=
  exists text, file_at f (result_name w) = Some (text, t) /\ shorter (left_out bzroot pwd) (prints (fst w)) text.
(** When something is written, that is not before [t]. *)
Definition not_before (t : N) (s : nat * action) : Prop :=
  match snd s with AOpen now | APrint _ now | ACreate now | AStore _ now => (t <= now)%N | _ => True end.

(** One time the script was started: the sources, clang-tidy, when the build was changed last, the directories
    and the number of threads and what they did until the end, or until all of it was stopped. *)
Record session := mkSession {
  se_tree : tree; se_prints : str -> str; se_bzroot : str; se_pwd : str; se_min : N; se_jobs : nat; se_sched : schedule }.
Definition dirs_of (s : session) : list str := left_out (se_bzroot s) (se_pwd s).
(** What is in the directory at first, and after any such sessions one after the other. *)
Definition nothing_there : fsys := mkFs (fun _ => None) (fun _ => ([], 0%N)) 0.
Section Histories.
Variable hash : str -> N.
Inductive history : fsys -> list session -> fsys -> Prop :=
| history_none f : history f [] f
| history_more f s m l f' :
    NoDup (map result_name (items hash (se_tree s))) ->
    run (se_prints s) (se_bzroot s) (se_pwd s) (start (se_jobs s) (work_list hash (se_tree s) (file_at f) (se_min s)) f) (se_sched s) = Some m ->
    history (m_files m) l f' -> history f (s :: l) f'.
(** The result for a file of the session. *)
Definition concerns (s : session) (x : found) (name : str) : Prop :=
  In x (of_interest (se_tree s)) /\ result_name (item_of hash (se_tree s) x) = name.
(** The text is the result of clang-tidy, in one of the sessions, for a file with that name of a result. *)
Definition comes_from (l : list session) (name text : str) : Prop :=
  exists s x, In s l /\ concerns s x name /\ shorter (dirs_of s) (se_prints s (f_path x)) text.
(** All threads came to their end, none of them by Ctrl-C; there were some. *)
Definition complete (s : session) (f : fsys) (f' : fsys) (r : report) : Prop :=
  invocation hash (se_prints s) (se_bzroot s) (se_pwd s) (se_tree s) (se_min s) (se_jobs s) (se_sched s) f = Some (f', r) /\
  0 < se_jobs s /\ existsb interrupts (se_sched s) = false /\ NoDup (map result_name (items hash (se_tree s))).
End Histories.

(** * Headers *)
(** How many of the headers have that name, whatever the directory. *)
Definition mentions (base : str) (headers : list str) : nat :=
  length (filter (fun h => str_eqb (last (split "/" h) []) base) headers).

(** * The report *)
(** The texts for the files, and what is said of them. *)
Definition told_details (l : list (str * str)) : str :=
  flat_map (fun pt => match snd pt with [] => [] | _ => fst pt ++ $":" ++ [NL] ++ snd pt end) l.
(** A line of the summary. *)
Definition told_line (check : str) (n : nat) (line : str) : Prop :=
  exists blank d, line = blank ++ d ++ $" " ++ check ++ [NL] /\ decimal n d /\ Forall (eq " "%char) blank /\
    length blank = 5 - length d.
(** More often first, and in the order of the alphabet what is as often. *)
Definition in_order (a b : str * nat) : Prop := snd b < snd a \/ snd a = snd b /\ klt (fst a) (fst b).

(** * Places *)
(** The major version clang-tidy tells: the digits after the first "version " that has some. *)
Definition tells_version (text v : str) : Prop :=
  exists a r, text = a ++ $"version " ++ v ++ r /\ v <> [] /\ Forall (fun c => is_digit c = true) v /\
    (forall c r', r = c :: r' -> is_digit c = false) /\
    forall a' c r', text = a' ++ $"version " ++ c :: r' -> is_digit c = true -> length a <= length a'.
(** A line of clang-tidy's: about a place in the project, below the directory [pwd], or something else. *)
Definition line_in (pwd : str) (l : bool * str) : str := if fst l then pwd ++ $"/" ++ snd l else snd l.
(** A shell runs one command with these words, its output going to the file [out] and its errors nowhere. *)
Definition runs_into (text : str) (words : list str) (out : str) : Prop :=
  exists a b, text = a ++ $">" ++ b ++ $" 2>/dev/null" /\ shell_commands a = Some [words] /\ shell_commands b = Some [[out]].

(** The path of a name in a directory. *)
Definition beneath (d name x : str) : Prop :=
  (d = [] \/ exists r, d = r ++ $"/") /\ x = d ++ name \/ d <> [] /\ (forall r, d <> r ++ $"/") /\ x = d ++ $"/" ++ name.
(** Where results are kept: the directory that was asked for; else the one for such things in the home directory, if it is there; else one for
    temporary files. *)
Definition cache_base (env : str -> option str) (exists_ : str -> bool) (d : str) : Prop :=
  env ($"CACHE_DIR") = Some d \/
  env ($"CACHE_DIR") = None /\
  ((exists home, env ($"HOME") = Some home /\ beneath home ($".cache/") d /\ exists_ d = true) \/
   (forall home c, env ($"HOME") = Some home -> beneath home ($".cache/") c -> exists_ c = false) /\
   (env ($"TMPDIR") = Some d \/ env ($"TMPDIR") = None /\ d = $"/tmp")).
