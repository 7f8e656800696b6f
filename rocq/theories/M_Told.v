(** A run with the messages on the standard error: M_Workspace, M_Project, M_DepGraph and M_Commands again, with what
    is said on the way.  Statistics (bant.cc:239-245) are in M_Stats.  Not modelled: the line about an arena (arena.h:55), the text of the usage page, what
    getopt() writes, and "Pattern issue" for a visibility (types-bazel.cc:254). *)
From Verif Require Import Base OMap M_Types M_Scanner M_Ast M_Parser M_Query M_Elab M_Workspace M_Project M_DepGraph M_Printer M_Table M_Headers
  M_Dwyu M_Edits M_Highlight M_Commands M_Main M_Messages M_ParseErrors.

(** A message, by the statement that writes it. *)
Inductive note :=
| NWorkspaceSyntax (ws text : str)       (* workspace.cc:119 *)
| NProjects (text : str)                 (* workspace.cc:173-176 *)
| NNoWorkspace (text : str)              (* cli-commands.cc:109 *)
| NUnknownProject (text : str)           (* parsed-project.cc:66 *)
| NNoPackage (file text : str)           (* parsed-project.cc:137 *)
| NUnreadable (file text : str)          (* parsed-project.cc:160 *)
| NSeen (file text : str)                (* parsed-project.cc:190 *)
| NSyntax (file text : str)              (* parsed-project.cc:203 *)
| NNoBuildFiles (text : str)             (* cli-commands.cc:128 *)
| NMissingPackages (text : str)          (* dependency-graph.cc:202 *)
| NMissingTargets (text : str)           (* dependency-graph.cc:206 *)
| NExpanded (text : str)                 (* cli-commands.cc:165 *)
| NGrep (text : str)                     (* parsed-project.cc:263 *)
| NTool (text : str)                     (* tool/dwyu.cc, header-providers.cc:342, canon-targets.cc:60 *)
| NUsage (text : str)                    (* cli-commands.cc:318-359 *)
| NPattern (text : str)                  (* types-bazel.cc:254 *)
| NOption (text : str)                   (* bant.cc:158, 177, 199 *)
| NPage (text : str).                    (* bant.cc:51-58, 60-128 *)
Definition note_text (n : note) : str :=
  match n with
  | NWorkspaceSyntax _ s | NProjects s | NNoWorkspace s | NUnknownProject s | NNoPackage _ s | NUnreadable _ s | NSeen _ s | NSyntax _ s
  | NNoBuildFiles s | NMissingPackages s | NMissingTargets s | NExpanded s | NGrep s | NTool s | NUsage s | NPattern s | NOption s | NPage s => s
  end.
(** Those written to std::cerr; the others go to session.info() or session.error(), which are the same
    (session.h:40-41). *)
Definition to_cerr (n : note) : bool :=
  match n with NUnknownProject _ | NNoPackage _ _ | NUnreadable _ _ | NGrep _ | NPattern _ | NOption _ | NPage _ => true | _ => false end.
(** bant.cc:164-167: what -q leaves. *)
Definition heard (quiet : bool) (l : list note) : list note := if quiet then filter to_cerr l else l.

(** Something computed, and what was said. *)
Definition told (A : Type) : Type := outcome (A * list note).
Definition say {A} (l : list note) (a : A) : told A := Ret (a, l).
Definition silent {A} (x : outcome A) : told A := do a <- x; Ret (a, []).
Definition tbind {A B} (x : told A) (f : A -> told B) : told B :=
  do (a, l) <- x; do (b, l') <- f a; Ret (b, l ++ l').
Notation "'hear' p <- x ; y" := (tbind x (fun p => y)) (at level 200, p pattern, x at level 100, y at level 200, right associativity).

(** What libraries say: the text of RE2 for the pattern of the command line, if it is wrong, and for that of -g. *)
Record library_texts := mkTexts { lib_pattern : str -> list str; lib_grep : str }.

Section Loading.
Variable w : workspace.
Variable read_file : str -> option str.
Variable can_read : str -> bool.
Variable glob_in : package -> list str -> list str -> list str.
Variable collect_build_files : pattern -> list str.

(** parsed-project.cc:179-210, AddBuildFileContent. *)
Definition add_content_told (pr : parsed_project) (p : package) (filename content : str) : told (parsed_project * parsed_file) :=
  match find_parsed pr p with
  | Some existing =>
      say [NSeen filename (filename ++ $": Package " ++ package_to_string p ++ $" already seen before in " ++ pf_name existing ++ [NL])] (pr, existing)
  | None =>
      do (ast, errs) <- parse content;
      let f := mkFile p filename content ast errs in
      do text <- file_messages f;
      say (if is_nil errs then [] else [NSyntax filename text])
        (mkProject (map_insert p f (pr_files pr)) (if is_nil errs then pr_error_count pr else S (pr_error_count pr)), f)
  end.
(** parsed-project.cc:148-177, AddBuildFile(build_file, package). *)
Definition add_file_told (pr : parsed_project) (build_file : str) (p : package) : told (parsed_project * option parsed_file) :=
  match read_file build_file with
  | None =>
      say [NUnreadable build_file ($"Could not read " ++ build_file ++ [NL])] (mkProject (pr_files pr) (S (pr_error_count pr)), None)
  | Some content =>
      hear (pr, f) <- add_content_told pr p build_file content;
      say [] (pr, Some f)
  end.
(** parsed-project.cc:127-146, AddBuildFile(build_file, project). *)
Definition add_file_in_told (pr : parsed_project) (build_file proj : str) : told parsed_project :=
  hear p <- silent (package_of_build_file w build_file proj);
  match p with
  | None => say [NNoPackage build_file (build_file ++ $": Can't determine package." ++ [NL])] pr
  | Some p => hear (pr, _) <- add_file_told pr build_file p; say [] pr
  end.
Fixpoint add_files_told (pr : parsed_project) (files : list str) (proj : str) : told parsed_project :=
  match files with
  | [] => say [] pr
  | f :: files => hear pr <- add_file_in_told pr f proj; add_files_told pr files proj
  end.
(** parsed-project.cc:118-125, FillFromPattern, with the message of DetermineSearchDirFromPattern (60-69) and the one
    for the case that there is no file (cli-commands.cc:127-129). *)
Definition fill_told (pr : parsed_project) (pt : pattern) : told parsed_project :=
  let files := collect_build_files pt in
  let proj := pat_project pt in
  hear _ <- say (if negb (is_nil proj) && match find_path_by_project w proj with None => true | Some _ => false end
                 then [NUnknownProject ($"Unknown project " ++ proj ++ $"." ++ [NL])] else []) tt;
  hear pr <- add_files_told pr files proj;
  say (if is_nil files then [NNoBuildFiles ($"Pattern did not match any dir with BUILD file." ++ [NL])] else []) pr.

(** dependency-graph.cc:70-90, FindAndParseMissingPackages, with *error_packages. *)
Definition parse_missing_told (st : parsed_project * list package) (p : package) : told (parsed_project * list package) :=
  let '(pr, errs) := st in
  match find_parsed pr p with
  | Some _ => say [] st
  | None =>
      match path_for_package w can_read p with
      | None => say [] (pr, set_insert p errs)
      | Some build_file =>
          hear (pr, f) <- add_file_told pr build_file p;
          match f with
          | None => UB
          | Some f =>
              hear f <- silent (elaborate_file glob_in f);
              say [] (mkProject (map_set p f (pr_files pr)) (pr_error_count pr), errs)
          end
      end
  end.
Fixpoint find_missing_told (want : list package) (st : parsed_project * list package) : told (parsed_project * list package) :=
  match want with
  | [] => say [] st
  | p :: want => hear st <- parse_missing_told st p; find_missing_told want st
  end.
(** dependency-graph.cc:136-195: one round, with error_packages and error_targets. *)
Record missing := mkMissing { mi_packages : list package; mi_targets : list target }.
Definition round_told (g : graph) (pr : parsed_project) (mi : missing) (todo : list target)
  : told (graph * parsed_project * missing * list target) :=
  let scan := set_of_list (map tpackage todo) in
  hear (pr, errs) <- find_missing_told scan (pr, mi_packages mi);
  hear st <- silent (scan_packages pr scan (mkRound g todo []));
  say [] (rd_graph st, pr, mkMissing errs (insert_all (rd_todo st) (mi_targets mi)), rd_next st).
Fixpoint rounds_told (depth : nat) (g : graph) (pr : parsed_project) (mi : missing) (todo : list target)
  : told (graph * parsed_project * missing * list target) :=
  hear (g, pr, mi, todo) <- round_told g pr mi todo;
  match depth with
  | 0 => say [] (g, pr, mi, todo)
  | S depth => if is_nil todo then say [] (g, pr, mi, todo) else rounds_told depth g pr mi todo
  end.
(** dependency-graph.cc:92-99, PrintList. *)
Definition print_list (msg : str) (l : list str) : str := msg ++ flat_map (fun e => ch 9 :: e ++ [NL]) l ++ [NL].
(** dependency-graph.cc:103-213, BuildDependencyGraph. *)
Definition graph_told (verbose : nat) (pt : pattern) (nesting_depth : Z) (pr : parsed_project) : told (graph * parsed_project) :=
  hear todo <- silent (initial_todo pt (pr_files pr) []);
  hear (g, pr, mi, _) <- rounds_told (Z.to_nat nesting_depth) (mkGraph [] []) pr (mkMissing [] []) todo;
  say (if 0 <? verbose then
         (if is_nil (mi_packages mi) then []
          else [NMissingPackages (print_list ($"Dependcy graph: Did not find these packages" ++ [NL]) (map package_to_string (mi_packages mi)))]) ++
         (if is_nil (mi_targets mi) then []
          else [NMissingTargets (print_list ($"Dependency graph: Did not find these targets" ++ [NL]) (map target_to_string (mi_targets mi)))])
       else []) (g, pr).
End Loading.

Section Workspace.
Variable is_directory : str -> bool.
Variable can_read : str -> bool.
Variable glob : str -> list str.
Variable read_file : str -> option str.

(** workspace.cc:155-159: the messages for the rules of one workspace file [f]. *)
Fixpoint rules_unfound (f : parsed_file) (rs : list result) : outcome str :=
  match rs with
  | [] => Ret []
  | r :: rs =>
      do m <- (match project_dir is_directory can_read glob (v_text (q_name r)) (v_text (q_version r)) with
               | None => do l <- loc f (q_name r); Ret (l ++ $" Can't find extracted project '" ++ v_text (q_name r) ++ $"'" ++ [NL])
               | Some _ => Ret []
               end);
      do ms <- rules_unfound f rs;
      Ret (m ++ ms)
  end.
(** workspace.cc:107-167: one workspace file; the text for msg_stream is returned. *)
Definition load_file_told (st : bool * workspace) (ws : str) : told (bool * workspace * str) :=
  let '(found, w) := st in
  match read_file ws with
  | None => say [] (found, w, [])
  | Some content =>
      do (ast, errs) <- parse content;
      let f := mkFile (mkPackage [] []) ws content ast errs in
      do text <- file_messages f;
      do rs <- find_targets [$"http_archive"; $"bazel_dep"] ast;
      do unfound <- rules_unfound f rs;
      say (if is_nil errs then [] else [NWorkspaceSyntax ws text]) (true, fold_left (load_rule is_directory can_read glob) rs w, unfound)
  end.
Fixpoint load_files_told (files : list str) (st : bool * workspace) : told (bool * workspace * str) :=
  match files with
  | [] => say [] (st, [])
  | ws :: files =>
      hear (found, w, m) <- load_file_told st ws;
      hear (st, ms) <- load_files_told files (found, w);
      say [] (st, m ++ ms)
  end.
(** workspace.cc:95-180, LoadWorkspace. *)
Definition load_workspace_told : told (option workspace) :=
  hear (st, old_messages) <- load_files_told (firstn 2 workspace_files) (false, []);
  hear (found, w, new_messages) <- load_files_told (skipn 2 workspace_files) st;
  say (if negb (is_nil old_messages) && negb (is_nil new_messages)
       then [NProjects (old_messages ++ new_messages
                        ++ $"Note: need to run a bazel build at least once " ++ $"to extract external projects" ++ [NL])]
       else []) (if found then Some w else None).
End Workspace.

(** canon-targets.cc:53-68: one dependency of [self]; the messages. *)
Fixpoint canon_deps_told (f : parsed_file) (deps : list view) : outcome (list str) :=
  match deps with
  | [] => Ret []
  | dep :: deps =>
      do m <- (match parse_target (v_text dep) (pf_package f) with
               | None => do l <- loc f dep; Ret [l ++ $" Invalid target name '" ++ v_text dep ++ $"'" ++ [NL]]
               | Some _ => Ret []
               end);
      do ms <- canon_deps_told f deps;
      Ret (m ++ ms)
  end.
Fixpoint canon_rules_told (pt : pattern) (f : parsed_file) (rs : list result) : outcome (list str) :=
  match rs with
  | [] => Ret []
  | r :: rs =>
      match qualified_target (pf_package f) (v_text (q_name r)) with
      | Some self =>
          if match_target pt self then
            do deps <- extract_string_list (q_deps r);
            do m <- canon_deps_told f deps;
            do ms <- canon_rules_told pt f rs;
            Ret (m ++ ms)
          else canon_rules_told pt f rs
      | None => canon_rules_told pt f rs
      end
  end.
Fixpoint canon_files_told (pt : pattern) (files : list (package * parsed_file)) : outcome (list str) :=
  match files with
  | [] => Ret []
  | (_, f) :: files =>
      if match_package pt (pf_package f) then
        do rs <- find_targets [] (pf_ast f);
        do m <- canon_rules_told pt f rs;
        do ms <- canon_files_told pt files;
        Ret (m ++ ms)
      else canon_files_told pt files
  end.

Section Run.
Variable is_directory : str -> bool.
Variable can_read : str -> bool.
Variable glob : str -> list str.
Variable read_file : str -> option str.
Variable glob_in : workspace -> package -> list str -> list str -> list str.
Variable collect_build_files : workspace -> pattern -> list str.
Variable compilation_flags : workspace -> parsed_project -> pattern -> bool -> outcome str.
(** flags().verbose *)
Variable verbose : nat.
Variable texts : library_texts.

(** cli-commands.cc:104-180. *)
Definition prepare_told (fl : flags) (cmd : command) (pt : pattern) : told (option (workspace * parsed_project * graph)) :=
  hear w <- load_workspace_told is_directory can_read glob read_file;
  match w with
  | None => say [NNoWorkspace ($"Didn't find any workspace file. Is this a bazel project root ?" ++ [NL])] None
  | Some w =>
      let w := augment_from_external_dir is_directory glob w in
      let dep_pattern := match cmd with CHasDependents => pattern_always | _ => pt end in
      hear pr <- (if needs_project cmd pt then fill_told w read_file (collect_build_files w) empty_project dep_pattern
                  else say [] empty_project);
      let depth := depth_for cmd (fl_depth fl) in
      hear pr <- silent (if elaborate_for cmd (fl_elaborate fl) then elaborate_project (glob_in w) pr else Ret pr);
      hear (g, pr) <- (if wants_graph cmd && (0 <=? depth)%Z then
                         hear (g, pr') <- graph_told w read_file can_read (glob_in w) verbose dep_pattern depth pr;
                         say (if 0 <? verbose then
                                [NExpanded ($"Dependency graph expanded build file# from initial " ++ print_int (Z.of_nat (length (pr_files pr)))
                                            ++ $" to " ++ print_int (Z.of_nat (length (pr_files pr'))) ++ $"; "
                                            ++ print_int (Z.of_nat (length (depends_on g))) ++ $" targets and "
                                            ++ print_int (Z.of_nat (length (has_dependents g))) ++ $" that depend on these." ++ [NL])]
                              else []) (g, pr')
                       else say [] (mkGraph [] [], pr));
      say [] (Some (w, pr, g))
  end.
(** cli-commands.cc:182-283. *)
Definition perform_told (fl : flags) (cmd : command) (pt : pattern) (w : workspace) (pr : parsed_project) (g : graph)
  : told (str * cli_status) :=
  let print_pattern := if (0 <? depth_for cmd (fl_depth fl))%Z then pattern_always else pt in
  let printed :=
    do out <- print_project (fl_grep fl) (fl_color fl) (fl_print_only_errors fl) pt pr;
    say (match fl_grep fl with BadGrep => [NGrep ($"Grep pattern: " ++ lib_grep texts ++ [NL])] | _ => [] end) (out, ExitSuccess) in
  match cmd with
  | CPrint => printed
  | CParse => if fl_print_ast fl || fl_print_only_errors fl then printed else say [] ([], ExitSuccess)
  | CGenruleOutputs =>
      do (m, l) <- generated_from_genrule_told pr false;
      do out <- print_provided (fl_format fl) ($"generated-file") print_pattern m;
      say (map NTool l) (out, ExitSuccess)
  | CDwyu =>
      do (evs, _, l) <- dependency_edits_told w read_file (fl_ignore_keep fl) verbose (fl_color fl) pr pt;
      let edits := edits_of_events evs in
      say (map NTool l) (buildozer_script edits, if 0 <? length edits then ExitFindings else ExitSuccess)
  | CCanonicalize =>
      do evs <- canonicalize_edits pr pt;
      do l <- canon_files_told pt (pr_files pr);
      let edits := edits_of_canon evs in
      say (map NTool l) (buildozer_script edits, if 0 <? length edits then ExitFindings else ExitSuccess)
  | _ => silent (perform read_file compilation_flags fl cmd pt w pr g)
  end.
(** cli-commands.cc:104-284, RunCommand. *)
Definition run_command_told (fl : flags) (cmd : command) (pt : pattern) : told (str * cli_status) :=
  hear st <- prepare_told fl cmd pt;
  match st with
  | None => say [] ([], ExitFailure)
  | Some (w, pr, g) => perform_told fl cmd pt w pr g
  end.
(** cli-commands.cc:287-366, RunCliCommand. *)
Definition run_cli_told (fl : flags) (args : list str) : option (told (str * cli_status)) :=
  let clarify text := Some (say [NUsage (text ++ [NL])] ([], ExitClarification)) in
  match args with
  | [] => clarify ($"Command expected")
  | word :: args =>
      match find_command command_names word with
      | Ambiguous =>
          clarify ($"Command '" ++ word ++ $"' too short and ambiguous: ["
                   ++ match snd (lower_bound word command_names) with
                      | (a, _) :: (b, _) :: _ => a ++ $", " ++ b
                      | _ => []
                      end ++ $", ...")
      | Unknown => clarify ($"Unknown command prefix '" ++ word ++ $"'")
      | Found cmd =>
          let run pt :=
            if needs_pattern cmd && is_matchall pt
            then say [NUsage ($"Please provide a bazel pattern for this command." ++ [NL] ++ $"Examples: //... or //foo/bar:baz" ++ [NL])] ([], ExitFailure)
            else run_command_told fl cmd pt in
          match args with
          | [] => Some (run pattern_always)
          | arg :: more =>
              match parse_pattern arg with
              | PatNone =>
                  Some (say (map NPattern (lib_pattern texts arg) ++ [NUsage ($"Invalid bazel pattern " ++ arg ++ [NL])]) ([], ExitFailure))
              | PatUnmodelled => None
              | PatOk pt =>
                  match more with
                  | [] => Some (run pt)
                  | x :: _ => Some (say [NUsage (x ++ $" Sorry, can only deal with at most " ++ $"one pattern right now" ++ [NL])] ([], ExitFailure))
                  end
              end
          end
      end
  end.
End Run.

Section Main.
Variable change_dir : list str -> str -> bool.
Variable open_output : list str -> str -> bool.
(** bant.cc:51-58 and 61-122: what they write, with the name and the version of the program. *)
Variable version_page usage_page : str.
(** bant.cc:60-128, usage(). *)
Definition usage_told (message : str) : list note :=
  [NPage (version_page ++ usage_page ++ (if is_nil message then [] else [NL] ++ [ch 27] ++ $"[1;31m" ++ message ++ [ch 27] ++ $"[0m" ++ [NL]))].
(** bant.cc:151-213, the switch: the messages. *)
Definition option_told (st : settings) (ev : opt_event) : list note :=
  match ev with
  | OptBad => usage_told []
  | Opt c optarg =>
      let arg := match optarg with Some a => a | None => [] end in
      if ceqb c "C" then
        if change_dir (s_dirs st) arg then [] else [NOption ($"Can't change into directory " ++ arg ++ [NL])]
      else if ceqb c "o" then
        if str_eqb arg ($"-") || open_output (s_dirs st) arg then [] else [NOption ($"Could not open '" ++ arg ++ $"'" ++ [NL])]
      else if ceqb c "b" then [NOption ($"Note, the name of -b option changed to -e" ++ [NL])]
      else if ceqb c "f" then match find_format arg with Some _ => [] | None => usage_told ($"invalid -f format") end
      else if ceqb c "V" then [NPage version_page]
      else if existsb (ceqb c) ($"qrkgipEev") then []
      else usage_told []
  end.
(** bant.cc:150-214, the loop. *)
Fixpoint options_told (st : settings) (evs : list opt_event) : told next_step :=
  match evs with
  | [] => say [] (Continue st)
  | ev :: evs =>
      do n <- handle_option change_dir open_output st ev;
      hear n <- say (option_told st ev) n;
      match n with
      | Continue st => options_told st evs
      | Return code => say [] (Return code)
      end
  end.
Variable seen_from : list str -> surroundings.
Variable is_terminal : bool.
Variable compile : str -> option finder_fn.
Variable texts : library_texts.
(** bant.cc:130-249, main(). *)
Definition main_told (args : list str) : option (told (option str * str * nat)) :=
  let '(evs, pos) := getopt args in
  match options_told default_settings evs with
  | Ret (Return code, l) => Some (Ret (None, [], code, l))
  | Ret (Continue st, l) =>
      let s := seen_from (s_dirs st) in
      match run_cli_told (sur_is_directory s) (sur_can_read s) (sur_glob s) (sur_read_file s) (sur_glob_in s)
                    (sur_collect s) (sur_flags s) (s_verbose st) texts (flags_of is_terminal compile st) pos with
      | Some r =>
          Some (do (out, status, l') <- r;
                let more := match status with ExitClarification => [NUsage [NL; NL]] | _ => [] end in
                let page := match status with ExitClarification => usage_told [] | _ => [] end in
                Ret (s_output st, out, exit_code status, l ++ heard (s_quiet st) (l' ++ more) ++ page))
      | None => None
      end
  | UB => Some UB
  | OutOfFuel => Some OutOfFuel
  end.
End Main.
