(** The commands (/repo/bant/cli-commands.cc) and what they print: /repo/bant/tool/workspace.cc,
    PrintProject() of /repo/bant/frontend/parsed-project.cc, PrintProvidedSources() of
    /repo/bant/explore/header-providers.cc and locations, /repo/bant/frontend/source-locator.cc.

    Only the primary output (session.out()) and the exit status are modelled, not the messages
    on the info stream and not the statistics. *)
From Verif Require Import Base OMap M_Types M_Scanner M_Ast M_Parser M_Query M_Elab M_Workspace M_Project
  M_DepGraph M_Headers M_Dwyu M_Edits M_Table M_Printer M_Highlight.

(** * Locations *)
(** source-locator.cc:26-29; one-based. *)
Definition print_position (line col : Z) : str := print_int (line + 1) ++ $":" ++ print_int (col + 1).
(** source-locator.cc:31-45; the column before the end can be -1. *)
Definition print_lc_range (r : line_column * line_column) : str :=
  let '(mkLC l1 c1, mkLC l2 c2) := r in
  let l1 := Z.of_nat l1 in let c1 := Z.of_nat c1 in
  let l2 := Z.of_nat l2 in let c2 := (Z.of_nat c2 - 1)%Z in
  print_position l1 c1
  ++ (if (l1 =? l2)%Z then if (c1 <? c2)%Z then $"-" ++ print_int (c2 + 1) else []
      else $":" ++ print_position l2 c2)
  ++ $":".
(** scanner.cc:254-312: the line index of a file (named-content.h:42-45) once the scanner has seen all
    of it.  Simplification: after a syntax error the scanner stops before the end; for texts of the
    tree this makes no difference, the missing lines are after them. *)
Definition scanned_lines (content : str) : line_map :=
  sc_lines (Nat.iter (S (length content)) (fun sc => snd (next sc)) (scanner_init content)).
(** source-locator.cc:47-63 Loc(), parsed-project.cc:217-222 and named-content.cc:28-32
    GetLocation(); for text assembled by the elaborator, FixedSourceLocator, source-locator.h:79-96.
    The map from text to files is M_Arena's range map (C42). *)
Definition loc (f : parsed_file) (v : view) : outcome str :=
  let '(off, len) := match v_org v with InFile off => (off, length (v_text v)) | Synth off len => (off, len) end in
  if length (pf_content f) <? off + len then UB
  else
    match get_range (scanned_lines (pf_content f)) off len with
    | Some r => Ret (pf_name f ++ $":" ++ print_lc_range r)
    | None => UB
    end.

(** * tool/workspace.cc *)
(** workspace.cc:61-79: the strings that may name something in another project. *)
Definition external_refs (pt : pattern) (p : package) (r : result) : outcome (list str) :=
  if str_eqb (v_text (q_rule r)) ($"load") then
    match q_node r with
    | NCall _ (NList _ args) => do refs <- extract_string_list (Some args); Ret (map v_text refs)
    | _ => UB
    end
  else
    match qualified_target p (v_text (q_name r)) with
    | Some t =>
        if match_target pt t then
          do deps <- extract_string_list (q_deps r);
          Ret (map v_text deps ++ (if is_nil (v_text (q_actual r)) then [] else [v_text (q_actual r)]))
        else Ret []
    | None => Ret []
    end.
(** workspace.cc:81-97: one of them. *)
Definition transfer_ref (w : workspace) (p : package) (sub : workspace) (ref : str) : workspace :=
  match parse_target ref p with
  | None => sub
  | Some t =>
      let proj := project (tpackage t) in
      if is_nil proj || str_eqb proj (project p) then sub
      else match find_entry_by_project w proj with
           | None => sub
           | Some (vp, dir) => map_insert vp dir sub
           end
  end.
Fixpoint transfer_rules (w : workspace) (pt : pattern) (p : package) (rs : list result) (sub : workspace) : outcome workspace :=
  match rs with
  | [] => Ret sub
  | r :: rs =>
      do refs <- external_refs pt p r;
      transfer_rules w pt p rs (fold_left (transfer_ref w p) refs sub)
  end.
(** workspace.cc:49-101, CreateFilteredWorkspace. *)
Fixpoint filter_files (w : workspace) (pt : pattern) (files : list (package * parsed_file)) (sub : workspace) : outcome workspace :=
  match files with
  | [] => Ret sub
  | (_, f) :: files =>
      if match_package pt (pf_package f) then
        do rs <- find_targets_allow_empty [] (pf_ast f);
        do sub <- transfer_rules w pt (pf_package f) rs sub;
        filter_files w pt files sub
      else filter_files w pt files sub
  end.
Definition filtered_workspace (w : workspace) (pr : parsed_project) (pt : pattern) : outcome workspace :=
  filter_files w pt (pr_files pr) [].
(** workspace.cc:35-47, PrintExternalRepos: the rows of the table. *)
Definition repo_row (e : vproject * str) : table_op :=
  AddRow [fst (fst e); if is_nil (snd (fst e)) then $"-" else snd (fst e); snd e].
(** workspace.cc:103-111, PrintMatchingWorkspaceExternalRepos. *)
Definition print_workspace (fmt : output_format) (w : workspace) (pr : parsed_project) (pt : pattern) : outcome str :=
  do sub <- (if is_matchall pt then Ret w else filtered_workspace w pr pt);
  table_print fmt [$"project"; $"version"; $"directory"] (map repo_row sub).

(** * PrintProject *)
(** The result of compiling -g: not given, not a regular expression, or what it finds. *)
Inductive grep_flag := NoGrep | BadGrep | Grep (find : finder_fn).
(** parsed-project.cc:240-249, MaybePrintVisibility. *)
Fixpoint visibility_words (l : list node) : outcome str :=
  match l with
  | [] => Ret []
  | n :: l =>
      do s <- cast_scalar n;
      do r <- visibility_words l;
      match s with
      | Some (_, v) => Ret ($" " ++ v_text v ++ r)
      | None => Ret r
      end
  end.
Definition print_visibility (vis : option (list node)) : outcome str :=
  match vis with
  | None => Ret []
  | Some l => do s <- visibility_words l; Ret ($" (visibility:" ++ s ++ $")")
  end.
(** parsed-project.cc:289-299: a rule with the line about it, and whether something matched. *)
Definition print_rule (find : option finder_fn) (color : bool) (f : parsed_file) (t : option target) (r : result)
  : outcome (str * bool) :=
  match q_node r with
  | NCall (NId id) _ =>
      do l <- loc f id;
      do vis <- print_visibility (q_visibility r);
      do (text, any) <- hprint find color 0 (q_node r);
      Ret ((if color then ESC :: $"[2;37m" else []) ++ $"# " ++ l
           ++ (match t with Some t => $" " ++ target_to_string t | None => [] end)
           ++ vis ++ (if color then color_reset else []) ++ [NL] ++ text ++ [NL], any)
  | _ => UB
  end.
(** parsed-project.cc:276-303: the rules of a file. *)
Fixpoint print_rules (find : option finder_fn) (color : bool) (pt : pattern) (p : package) (f : parsed_file) (rs : list result) : outcome str :=
  match rs with
  | [] => Ret []
  | r :: rs =>
      let t := if is_nil (v_text (q_name r)) then None else qualified_target p (v_text (q_name r)) in
      if negb (is_recursive pt) && match t with Some t => negb (match_target pt t) | None => true end
      then print_rules find color pt p f rs
      else
        do (text, any) <- print_rule find color f t r;
        do rest <- print_rules find color pt p f rs;
        Ret ((match find with Some _ => if any then text else [] | None => text end) ++ rest)
  end.
Fixpoint print_files (find : option finder_fn) (color only_errors : bool) (pt : pattern) (files : list (package * parsed_file)) : outcome str :=
  match files with
  | [] => Ret []
  | (p, f) :: files =>
      if (only_errors && is_nil (pf_errors f)) || negb (match_package pt p) then print_files find color only_errors pt files
      else
        do rs <- find_targets_allow_empty [] (pf_ast f);
        do a <- print_rules find color pt p f rs;
        do b <- print_files find color only_errors pt files;
        Ret (a ++ b)
  end.
(** parsed-project.cc:251-306, PrintProject. *)
Definition print_project (grep : grep_flag) (color only_errors : bool) (pt : pattern) (pr : parsed_project) : outcome str :=
  match grep with
  | BadGrep => Ret []
  | NoGrep => print_files None color only_errors pt (pr_files pr)
  | Grep find => print_files (Some find) color only_errors pt (pr_files pr)
  end.

(** * Tables *)
(** header-providers.cc:414-425, PrintProvidedSources of a one-to-one map. *)
Definition print_provided (fmt : output_format) (header : str) (pt : pattern) (m : provided) : outcome str :=
  table_print fmt [header; $"providing-rule"]
    (map (fun e => AddRow [fst e; target_to_string (snd e)]) (filter (fun e => match_target pt (snd e)) m)).
(** header-providers.cc:427-441, PrintProvidedSources of a set. *)
Definition print_provided_set (fmt : output_format) (header : str) (pt : pattern) (m : provided_set) : outcome str :=
  table_print fmt [header; $"providing-rule"]
    (map (fun e => AddRowWithRepeatedLastColumn [fst e] (map target_to_string (filter (match_target pt) (snd e)))) m).
(** cli-commands.cc:78-94, PrintOneToN. *)
Definition print_one_to_n (fmt : output_format) (pt : pattern) (m : list (target * list target)) (header1 header2 : str) : outcome str :=
  table_print fmt [header1; header2]
    (map (fun e => AddRowWithRepeatedLastColumn [target_to_string (fst e)] (map target_to_string (snd e)))
       (filter (fun e => match_target pt (fst e)) m)).
(** cli-commands.cc:224-231, list-packages. *)
Definition print_packages (fmt : output_format) (pr : parsed_project) : outcome str :=
  table_print fmt [$"bazel-file"; $"package"]
    (map (fun e => AddRow [pf_name (snd e); package_to_string (fst e)]) (pr_files pr)).
(** cli-commands.cc:233-252, list-targets: the rows of a package. *)
Fixpoint target_rows (pt : pattern) (p : package) (f : parsed_file) (rs : list result) : outcome (list table_op) :=
  match rs with
  | [] => Ret []
  | r :: rs =>
      match parse_target ($":" ++ v_text (q_name r)) p with
      | Some t =>
          if match_target pt t then
            do l <- loc f (q_name r);
            do rows <- target_rows pt p f rs;
            Ret (AddRow [l; v_text (q_rule r); target_to_string t] :: rows)
          else target_rows pt p f rs
      | None => target_rows pt p f rs
      end
  end.
Fixpoint target_rows_of (pt : pattern) (files : list (package * parsed_file)) : outcome (list table_op) :=
  match files with
  | [] => Ret []
  | (p, f) :: files =>
      do rs <- find_targets [] (pf_ast f);
      do a <- target_rows pt p f rs;
      do b <- target_rows_of pt files;
      Ret (a ++ b)
  end.
Definition print_targets (fmt : output_format) (pt : pattern) (pr : parsed_project) : outcome str :=
  do rows <- target_rows_of pt (pr_files pr);
  table_print fmt [$"file-location"; $"rule"; $"target"] rows.

(** * Commands *)
(** cli-commands.cc:60-76. *)
Inductive command :=
| CParse | CPrint | CListPackages | CListTargets | CWorkspace | CLibHeaders | CAliasedBy
| CGenruleOutputs | CDwyu | CCompilationDb | CCompileFlags | CCanonicalize | CHasDependents | CDependsOn.
(** cli-commands.h:27-32. *)
Inductive cli_status := ExitSuccess | ExitFailure | ExitClarification | ExitFindings.
Definition exit_code (s : cli_status) : nat :=
  match s with ExitSuccess => 0 | ExitFailure => 1 | ExitClarification => 2 | ExitFindings => 3 end.

(** session.h:48-58, CommandlineFlags; grep_regex compiled. *)
Record flags := mkFlags {
  fl_print_ast : bool;
  fl_print_only_errors : bool;
  fl_elaborate : bool;
  fl_ignore_keep : bool;
  fl_depth : Z;
  fl_format : output_format;
  fl_grep : grep_flag;
  fl_color : bool }.

(** cli-commands.cc:294-309, kCommandNames, in the order of the std::map. *)
Definition command_names : list (str * command) :=
  [($"aliased-by", CAliasedBy); ($"canonicalize", CCanonicalize); ($"compilation-db", CCompilationDb);
   ($"compile-flags", CCompileFlags); ($"depends-on", CDependsOn); ($"dwyu", CDwyu);
   ($"genrule-outputs", CGenruleOutputs); ($"has-dependents", CHasDependents); ($"lib-headers", CLibHeaders);
   ($"list-packages", CListPackages); ($"list-targets", CListTargets); ($"parse", CParse);
   ($"print", CPrint); ($"workspace", CWorkspace)].
(** cli-commands.cc:311-329: the command a word stands for. *)
Inductive lookup (A : Type) := Found (a : A) | Ambiguous | Unknown.
Arguments Found {A} a.
Arguments Ambiguous {A}.
Arguments Unknown {A}.
Definition find_command {A} (names : list (str * A)) (word : str) : lookup A :=
  match snd (lower_bound word names) with
  | (name, c) :: next =>
      if starts_with word name then
        match next with
        | (name', _) :: _ => if starts_with word name' then Ambiguous else Found c
        | [] => Found c
        end
      else Unknown
  | [] => Unknown
  end.

Section Run.
(** The file system: as for M_Workspace's LoadWorkspace and M_DepGraph. *)
Variable is_directory : str -> bool.
Variable can_read : str -> bool.
Variable glob : str -> list str.
Variable read_file : str -> option str.
(** What glob() and the search for BUILD files give in a workspace; M_Walk and C61, C62. *)
Variable glob_in : workspace -> package -> list str -> list str -> list str.
Variable collect_build_files : workspace -> pattern -> list str.
(** tool/compilation-db.cc, M_CompDb: the output of compilation-db (true) and
    compile-flags (false). *)
Variable compilation_flags : workspace -> parsed_project -> pattern -> bool -> outcome str.

(** cli-commands.cc:96-102, NeedsProjectPopulated. *)
Definition needs_project (cmd : command) (pt : pattern) : bool :=
  match cmd with CWorkspace => negb (is_matchall pt) | _ => true end.
(** cli-commands.cc:137-141: std::numeric_limits<int>::max(). *)
Definition INT_MAX : Z := 2147483647.
Definition depth_for (cmd : command) (depth : Z) : Z :=
  match cmd with
  | CDwyu | CHasDependents | CCompilationDb | CCompileFlags => if (depth <=? 0)%Z then INT_MAX else depth
  | _ => depth
  end.
(** cli-commands.cc:143-147. *)
Definition elaborate_for (cmd : command) (elaborate : bool) : bool :=
  match cmd with CDwyu | CCompilationDb | CCompileFlags => true | _ => elaborate end.
(** cli-commands.cc:152-163. *)
Definition wants_graph (cmd : command) : bool :=
  match cmd with
  | CDwyu | CParse | CLibHeaders | CGenruleOutputs | CListTargets | CListPackages | CDependsOn
  | CHasDependents | CCompilationDb | CCompileFlags => true
  | _ => false
  end.

(** cli-commands.cc:104-180: the workspace, the project and the graph a command works with; None
    without a workspace file. *)
Definition prepare (fl : flags) (cmd : command) (pt : pattern) : outcome (option (workspace * parsed_project * graph)) :=
  do w <- load_workspace is_directory can_read glob read_file;
  match w with
  | None => Ret None
  | Some w =>
      let w := augment_from_external_dir is_directory glob w in
      let dep_pattern := match cmd with CHasDependents => pattern_always | _ => pt end in
      do pr <- (if needs_project cmd pt
                then fill_from_pattern w read_file (collect_build_files w) empty_project dep_pattern
                else Ret empty_project);
      let depth := depth_for cmd (fl_depth fl) in
      do pr <- (if elaborate_for cmd (fl_elaborate fl) then elaborate_project (glob_in w) pr else Ret pr);
      do (g, pr) <- (if wants_graph cmd && (0 <=? depth)%Z
                     then do (g, pr, _) <- build_graph w read_file can_read (glob_in w) dep_pattern depth pr; Ret (g, pr)
                     else Ret (mkGraph [] [], pr));
      Ret (Some (w, pr, g))
  end.

(** cli-commands.cc:182-283: what a command does with it: its output and the exit status. *)
Definition perform (fl : flags) (cmd : command) (pt : pattern) (w : workspace) (pr : parsed_project) (g : graph)
  : outcome (str * cli_status) :=
  let print_pattern := if (0 <? depth_for cmd (fl_depth fl))%Z then pattern_always else pt in
  let ok (x : outcome str) := do out <- x; Ret (out, ExitSuccess) in
  let fmt := fl_format fl in
  let script (edits : list edit) :=
    (buildozer_script edits, if 0 <? length edits then ExitFindings else ExitSuccess) in
  match cmd with
  | CPrint => ok (print_project (fl_grep fl) (fl_color fl) (fl_print_only_errors fl) pt pr)
  | CParse =>
      if fl_print_ast fl || fl_print_only_errors fl
      then ok (print_project (fl_grep fl) (fl_color fl) (fl_print_only_errors fl) pt pr) else Ret ([], ExitSuccess)
  | CLibHeaders => ok (do m <- header_to_lib pr false; print_provided_set fmt ($"header") print_pattern m)
  | CGenruleOutputs => ok (do m <- generated_from_genrule pr false; print_provided fmt ($"generated-file") print_pattern m)
  | CDwyu =>
      do (evs, _) <- dependency_edits w read_file (fl_ignore_keep fl) pr pt;
      Ret (script (edits_of_events evs))
  | CCanonicalize =>
      do evs <- canonicalize_edits pr pt;
      Ret (script (edits_of_canon evs))
  | CListPackages => ok (print_packages fmt pr)
  | CListTargets => ok (print_targets fmt print_pattern pr)
  | CWorkspace => ok (print_workspace fmt w pr pt)
  | CAliasedBy => ok (do m <- extract_aliased_by pr; print_one_to_n fmt print_pattern m ($"actual") ($"aliased-by"))
  | CDependsOn => ok (print_one_to_n fmt print_pattern (depends_on g) ($"library") ($"depends-on"))
  | CHasDependents => ok (print_one_to_n fmt pt (has_dependents g) ($"library") ($"has-dependent"))
  | CCompilationDb => ok (compilation_flags w pr pt true)
  | CCompileFlags => ok (compilation_flags w pr pt false)
  end.
(** cli-commands.cc:104-284, RunCommand. *)
Definition run_command (fl : flags) (cmd : command) (pt : pattern) : outcome (str * cli_status) :=
  do st <- prepare fl cmd pt;
  match st with
  | None => Ret ([], ExitFailure)
  | Some (w, pr, g) => perform fl cmd pt w pr g
  end.

(** cli-commands.cc:287-366, RunCliCommand.  None if the pattern is outside the modelled
    regular expressions (M_Regex). *)
Definition needs_pattern (cmd : command) : bool :=
  match cmd with CCanonicalize | CDwyu | CPrint => true | _ => false end.
Definition run_cli (fl : flags) (args : list str) : option (outcome (str * cli_status)) :=
  match args with
  | [] => Some (Ret ([], ExitClarification))
  | word :: args =>
      match find_command command_names word with
      | Ambiguous | Unknown => Some (Ret ([], ExitClarification))
      | Found cmd =>
          let run pt := if needs_pattern cmd && is_matchall pt then Ret ([], ExitFailure) else run_command fl cmd pt in
          match args with
          | [] => Some (run pattern_always)
          | arg :: more =>
              match parse_pattern arg with
              | PatNone => Some (Ret ([], ExitFailure))
              | PatUnmodelled => None
              | PatOk pt => if is_nil more then Some (run pt) else Some (Ret ([], ExitFailure))
              end
          end
      end
  end.
End Run.
