(** Specification of the statistics (C81). *)
From Verif Require Import Base OMap M_Types M_Scanner M_Ast M_Parser M_Query M_Workspace M_Project M_DepGraph M_Commands S_Commands M_Main M_Dwyu S_Dwyu M_Told S_Told M_Stats.

(** What the table of a run has for a name. *)
Definition shows (works : list work) (name subject : str) (n : nat) (bytes : option nat) : Prop :=
  In (name, mkStat subject n bytes) (stats_of works).
Definition unmentioned (works : list work) (name : str) : Prop := ~ In name (map fst (stats_of works)).

(** Each name where it is first. *)
Fixpoint first_of (l : list str) : list str :=
  match l with
  | [] => []
  | x :: l => x :: filter (fun y => negb (str_eqb x y)) (first_of l)
  end.
Definition uses (works : list work) : list str := flat_map (fun x => match x with WUse name _ => [name] | _ => [] end) works.

(** Messages of M_Told. *)
Definition about_seen (n : note) : bool := match n with NSeen _ _ => true | _ => false end.
Definition about_unreadable (n : note) : bool := match n with NUnreadable _ _ => true | _ => false end.
Definition project_size (pr : parsed_project) : nat := list_sum (map (fun e => length (pf_content (snd e))) (pr_files pr)).

(** The rules of some kinds whose targets match, with the file they are in, in order. *)
Inductive matching (kinds : list str) (pt : pattern) : list (package * parsed_file) -> list (parsed_file * result) -> Prop :=
| mt_none : matching kinds pt [] []
| mt_skip p f files l : match_package pt (pf_package f) = false -> matching kinds pt files l -> matching kinds pt ((p, f) :: files) l
| mt_file p f files rs l : match_package pt (pf_package f) = true -> find_targets kinds (pf_ast f) = Ret rs -> matching kinds pt files l ->
    matching kinds pt ((p, f) :: files)
      (map (fun r => (f, r)) (filter (fun r => match qualified_target (pf_package f) (v_text (q_name r)) with Some t => match_target pt t | None => false end) rs) ++ l).
(** Those of its sources that can be opened. *)
Inductive opened_sources (w : workspace) (read_file : str -> option str) (p : package) : list str -> list str -> Prop :=
| os_none : opened_sources w read_file p [] []
| os_open src srcs content l : opened read_file (fully_qualified_file w p src) content -> opened_sources w read_file p srcs l ->
    opened_sources w read_file p (src :: srcs) (content :: l)
| os_skip src srcs l : (forall content, ~ opened read_file (fully_qualified_file w p src) content) -> opened_sources w read_file p srcs l ->
    opened_sources w read_file p (src :: srcs) l.
Definition checked_sources (w : workspace) (read_file : str -> option str) (rules : list (parsed_file * result)) (contents : list str) : Prop :=
  exists ls, Forall2 (fun e l => opened_sources w read_file (pf_package (fst e)) (sources (snd e)) l) rules ls /\ contents = concat ls.

(** The rounds that are needed for a graph: one more than the least depth at which nothing is left to follow, but not more than allowed. *)
Definition rounds_needed (w : workspace) (read_file : str -> option str) (can_read : str -> bool) (glob_in : package -> list str -> list str -> list str)
  (pt : pattern) (depth : Z) (pr : parsed_project) (g : graph) (pr' : parsed_project) (n : nat) : Prop :=
  exists k left, n = S k /\ k <= Z.to_nat depth /\ build_graph w read_file can_read glob_in pt (Z.of_nat k) pr = Ret (g, pr', left) /\ (k = Z.to_nat depth \/ left = []) /\
    forall m, m < k -> exists g1 pr1 left1, build_graph w read_file can_read glob_in pt (Z.of_nat m) pr = Ret (g1, pr1, left1) /\ left1 <> [].
(** The number of labels of the libraries, aliases and tests of a project. *)
Definition indexed (pr : parsed_project) (n : nat) : Prop :=
  exists l labels, described (pr_files pr) l /\ NoDup labels /\ (forall t, In t labels <-> In t (map fst l)) /\ n = length labels.
(** The project as it is before dependencies are followed: the files of the pattern, and these elaborated. *)
Definition read_first (read_file : str -> option str) (glob_in : workspace -> package -> list str -> list str -> list str) (collect : workspace -> pattern -> list str)
  (fl : flags) (cmd : command) (pt : pattern) (w : workspace) (pr0 pr1 : parsed_project) : Prop :=
  (if needs_project cmd pt then fill_from_pattern w read_file (collect w) empty_project (read_pattern cmd pt) = Ret pr0 else pr0 = empty_project) /\
  (if elaborate_for cmd (fl_elaborate fl) then elaborate_project (glob_in w) pr0 = Ret pr1 else pr1 = pr0).
(** A run of a command that gets as far as looking at a project. *)
Section Ran.
Variable is_directory : str -> bool.
Variable can_read : str -> bool.
Variable glob : str -> list str.
Variable read_file : str -> option str.
Variable glob_in : workspace -> package -> list str -> list str -> list str.
Variable collect : workspace -> pattern -> list str.
Variable compilation_flags : workspace -> parsed_project -> pattern -> bool -> outcome str.
Variable looked_at : workspace -> package -> list str -> list str -> nat.
Variable walked : workspace -> pattern -> nat.
Definition ran (fl : flags) (args : list str) (cmd : command) (pt : pattern) (w : workspace) (pr : parsed_project) (g : graph) (works : list work) : Prop :=
  asked args cmd pt /\ prepare is_directory can_read glob read_file glob_in collect fl cmd pt = Ret (Some (w, pr, g)) /\
  exists out st, run_cli_counted is_directory can_read glob read_file glob_in collect compilation_flags looked_at walked fl args = Some (Ret (out, st, works)).
End Ran.

(** * Lines *)
(** A number of microseconds, in milliseconds. *)
Definition in_msec (usec : nat) (s : str) : Prop :=
  exists whole frac, s = whole ++ $"." ++ frac /\ counted (usec / 1000) whole /\ length frac = 3 /\ Forall (fun c => is_digit c = true) frac /\
    fold_left (fun a c => 10 * a + digit c) frac 0 = usec mod 1000.
(** A line of the table.  What is said of the size is rounded down to KiB. *)
Inductive stat_said (speed : nat -> nat -> str) (spent : str -> nat) : str * stat -> str -> Prop :=
| ss_plain name subject n b d ms : b = None \/ spent name = 0 -> counted n d -> in_msec (spent name) ms ->
    stat_said speed spent (name, mkStat subject n b) (name ++ $" " ++ d ++ $" " ++ subject ++ $" in " ++ ms ++ $"ms" ++ [NL])
| ss_sized name subject n b d k ms : 0 < spent name -> counted n d -> counted (b / 1024) k -> in_msec (spent name) ms ->
    stat_said speed spent (name, mkStat subject n (Some b))
      (name ++ $" " ++ d ++ $" " ++ subject ++ $" with " ++ k ++ $".00 KiB in " ++ ms ++ $"ms (" ++ speed b (spent name) ++ $" MB/sec)" ++ [NL]).
