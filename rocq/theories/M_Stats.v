(** The statistics that -v prints after a run: Session::GetStatsFor() (/repo/bant/session.h:80-103), Stat
    (/repo/bant/util/stat.h, stat.cc), the last lines of main() (bant.cc:239-245) and the places that count.

    M_Project, M_Elab, M_DepGraph and M_Commands again, with the operations on Stat objects on the way.  Times and
    speeds are not computed, they are parameters of what is printed.  Simplification: counts are natural numbers,
    not int. *)
From Verif Require Import Base OMap M_Types M_Scanner M_Ast M_Parser M_Query M_Elab M_Workspace M_Project M_DepGraph M_Printer M_Table M_Headers
  M_Dwyu M_Edits M_Highlight M_Commands M_Main.

(** ** Stat and Session *)
(** An operation on the statistics: GetStatsFor(name, subject) (session.h:85-93), count += n, count = n, and
    AddBytesProcessed(n). *)
Inductive work :=
| WUse (name subject : str)
| WCount (name : str) (n : nat)
| WSet (name : str) (n : nat)
| WBytes (name : str) (n : nat).
(** stat.h:42-61, struct Stat, without the duration. *)
Record stat := mkStat { st_subject : str; st_count : nat; st_bytes : option nat }.
(** session.h:107-108: stats_, in the order of stat_init_key_order_. *)
Definition stats := list (str * stat).
Fixpoint change_stat (name : str) (f : stat -> stat) (l : stats) : stats :=
  match l with
  | [] => []
  | (k, s) :: l => if str_eqb name k then (k, f s) :: l else (k, s) :: change_stat name f l
  end.
(** session.h:85-93, stat.h:52-59. *)
Definition do_work (l : stats) (x : work) : stats :=
  match x with
  | WUse name subject => if existsb (fun e => str_eqb name (fst e)) l then l else l ++ [(name, mkStat subject 0 None)]
  | WCount name n => change_stat name (fun s => mkStat (st_subject s) (st_count s + n) (st_bytes s)) l
  | WSet name n => change_stat name (fun s => mkStat (st_subject s) n (st_bytes s)) l
  | WBytes name n =>
      change_stat name (fun s => mkStat (st_subject s) (st_count s)
        (Some (match st_bytes s with Some b => b + n | None => n end))) l
  end.
Definition stats_of (works : list work) : stats := fold_left do_work works [].
(** The conversion %.3f of a number of microseconds divided by 1000.0. *)
Definition print_msec (usec : nat) : str :=
  let r := usec mod 1000 in
  print_int (Z.of_nat (usec / 1000)) ++ $"." ++ (if r <? 100 then $"0" else []) ++ (if r <? 10 then $"0" else []) ++ print_int (Z.of_nat r).
(** stat.cc:27-37, Stat::ToString(); [speed] is the text of a number of bytes divided by a number of microseconds.
    The number of bytes is divided as an integer. *)
Definition print_stat (speed : nat -> nat -> str) (s : stat) (usec : nat) : str :=
  print_int (Z.of_nat (st_count s)) ++ $" " ++ st_subject s ++
  match st_bytes s with
  | Some b =>
      if 0 <? usec then
        $" with " ++ print_int (Z.of_nat (b / 1024)) ++ $".00 KiB in " ++ print_msec usec ++ $"ms (" ++ speed b usec ++ $" MB/sec)"
      else $" in " ++ print_msec usec ++ $"ms"
  | None => $" in " ++ print_msec usec ++ $"ms"
  end.
(** bant.cc:242-244: the line for one of the keys; [spent] is the time measured for it. *)
Definition stat_line (speed : nat -> nat -> str) (spent : str -> nat) (e : str * stat) : str :=
  fst e ++ $" " ++ print_stat speed (snd e) (spent (fst e)) ++ [NL].

(** ** Names *)
Definition k_walk := $"BUILD file glob walk".           (* parsed-project.cc:84 *)
Definition k_read := $"read(BUILD)      ".              (* parsed-project.cc:151 *)
Definition k_parse := $"Parse & build AST".             (* parsed-project.cc:152 *)
Definition k_glob := $"  - of which glob() walking".    (* elaboration.cc:243 *)
Definition k_elab := $"Elaborated".                     (* elaboration.cc:298 *)
Definition k_exist := $"  - of which exist-check".      (* dependency-graph.cc:43 *)
Definition k_rounds := $"Dependency follow iterations". (* dependency-graph.cc:119 *)
Definition k_canon := $"Canonicalization checked".      (* canon-targets.cc:37 *)
Definition k_source := $"read(C++ source)".             (* dwyu.cc:244 *)
Definition k_grep := $"Grep'ed for #inc".               (* dwyu.cc:245 *)
Definition k_prepare := $"DWYU preparation".            (* dwyu.cc:565 *)

(** Something computed, and the work that was noted. *)
Definition measured (A : Type) : Type := outcome (A * list work).
Definition note_work {A} (l : list work) (a : A) : measured A := Ret (a, l).
Definition no_work {A} (x : outcome A) : measured A := do a <- x; Ret (a, []).
Definition cbind {A B} (x : measured A) (f : A -> measured B) : measured B :=
  do (a, l) <- x; do (b, l') <- f a; Ret (b, l ++ l').
Notation "'count' p <- x ; y" := (cbind x (fun p => y)) (at level 200, p pattern, x at level 100, y at level 200, right associativity).

(** ** Elaboration *)
Section Elab.
Variable multi_glob : list str -> list str -> list str.
(** The number of files glob() with these arguments looks at, elaboration.cc:260-270. *)
Variable looked_at : list str -> list str -> nat.
(** elaboration.cc:173-234, HandleGlob, with 242-243 and 270 of MultiGlob. *)
Definition handle_glob_counted (id : view) (args : list node) : measured node :=
  do (incl, excl) <- glob_args args None None;
  do i <- extract_string_list incl;
  do e <- extract_string_list excl;
  note_work [WUse k_glob ($"files"); WCount k_glob (looked_at (map v_text i) (map v_text e))]
    (NList LList (map (fun s => NStr (mkView s (located_at id)) false false)
       (multi_glob (map v_text i) (map v_text e)))).
Section Elements.
Variable elab : node -> genv -> measured (node * genv).
Fixpoint elab_elems_counted (l : list node) (g : genv) : measured (list node * genv) :=
  match l with
  | [] => note_work [] ([], g)
  | n :: l =>
      count (n, g) <- elab n g;
      count (l, g) <- elab_elems_counted l g;
      note_work [] (n :: l, g)
  end.
End Elements.
(** elaboration.cc:61-127 and ast.h:387-441: M_Elab's [elab] with the calls of glob(). *)
Fixpoint elab_counted (level : nat) (n : node) (g : genv) : measured (node * genv) :=
  match n with
  | NNull => note_work [] (NNull, g)
  | NStr _ _ _ | NInt _ _ => note_work [] (n, g)
  | NId v => note_work [] (match glookup (v_text v) g with Some m => m | None => n end, g)
  | NUnary op n => count (n, g) <- elab_counted level n g; note_work [] (NUnary op n, g)
  | NBin op l r range =>
      count (l, g) <- elab_counted level l g;
      count (r, g) <- elab_counted level r g;
      match op with
      | TPlus => no_work (do n <- elab_plus l r range; Ret (n, g))
      | _ => note_work [] (NBin op l r range, g)
      end
  | NList ty elems => count (elems, g) <- elab_elems_counted (elab_counted level) elems g; note_work [] (NList ty elems, g)
  | NComp ty f =>
      count (w, g) <- elab_counted level f g;
      note_work [] (NComp ty (match w with NBin _ _ _ _ | NAssign _ _ _ => w | _ => f end), g)
  | NTernary c p n =>
      count (c, g) <- elab_counted level c g;
      count (p, g) <- elab_counted level p g;
      count (n, g) <- elab_counted level n g;
      note_work [] (NTernary c p n, g)
  | NAssign l r range =>
      count (r, g) <- elab_counted level r g;
      note_work [] (NAssign l r range,
           match level, l with
           | 0, NId v => (v_text v, r) :: g
           | _, _ => g
           end)
  | NCall id args =>
      count (id, g) <- elab_counted (S level) id g;
      count (args, g) <- elab_counted (S level) args g;
      match id with
      | NId v =>
          if str_eqb (v_text v) ($"glob") then
            match args with
            | NList _ l => count n <- handle_glob_counted v l; note_work [] (n, g)
            | _ => UB
            end
          else if str_eqb (v_text v) ($"select") then
            match args with
            | NList _ l =>
                no_work (do n <- handle_select l;
                         Ret (match n with Some n => n | None => NCall id args end, g))
            | _ => UB
            end
          else note_work [] (NCall id args, g)
      | _ => UB
      end
  end.
End Elab.

(** ** Reading and following dependencies *)
Section Loading.
Variable w : workspace.
Variable read_file : str -> option str.
Variable can_read : str -> bool.
Variable glob_in : package -> list str -> list str -> list str.
Variable looked_at : package -> list str -> list str -> nat.
Variable collect_build_files : pattern -> list str.
(** The number of entries CollectBuildFiles() is asked about, parsed-project.cc:91 and 96. *)
Variable walked : pattern -> nat.

(** parsed-project.cc:148-177, AddBuildFile(build_file, package). *)
Definition add_file_counted (pr : parsed_project) (build_file : str) (p : package) : measured (parsed_project * option parsed_file) :=
  count _ <- note_work [WUse k_read ($"BUILD files"); WUse k_parse ($"BUILD files"); WCount k_read 1] tt;
  match read_file build_file with
  | None => note_work [] (mkProject (pr_files pr) (S (pr_error_count pr)), None)
  | Some content =>
      do (pr, f) <- add_build_file_content pr p build_file content;
      note_work [WCount k_parse 1; WBytes k_parse (length (pf_content f)); WBytes k_read (length (pf_content f))] (pr, Some f)
  end.
(** parsed-project.cc:127-146. *)
Definition add_file_in_counted (pr : parsed_project) (build_file proj : str) : measured parsed_project :=
  count p <- no_work (package_of_build_file w build_file proj);
  match p with
  | None => note_work [] pr
  | Some p => count (pr, _) <- add_file_counted pr build_file p; note_work [] pr
  end.
Fixpoint add_files_counted (pr : parsed_project) (files : list str) (proj : str) : measured parsed_project :=
  match files with
  | [] => note_work [] pr
  | f :: files => count pr <- add_file_in_counted pr f proj; add_files_counted pr files proj
  end.
(** parsed-project.cc:118-125, FillFromPattern, with 83-98 of CollectBuildFiles. *)
Definition fill_counted (pr : parsed_project) (pt : pattern) : measured parsed_project :=
  count _ <- note_work [WUse k_walk ($"files/directories"); WCount k_walk (walked pt)] tt;
  add_files_counted pr (collect_build_files pt) (pat_project pt).

(** elaboration.cc:296-305. *)
Definition elaborate_file_counted (f : parsed_file) : measured parsed_file :=
  count _ <- note_work [WUse k_elab ($"packages"); WCount k_elab 1] tt;
  count (ast, _) <- elab_elems_counted (elab_counted (glob_in (pf_package f)) (looked_at (pf_package f)) 0) (pf_ast f) [];
  note_work [] (mkFile (pf_package f) (pf_name f) (pf_content f) ast (pf_errors f)).
(** elaboration.cc:307-311. *)
Fixpoint elaborate_files_counted (l : list (package * parsed_file)) : measured (list (package * parsed_file)) :=
  match l with
  | [] => note_work [] []
  | (p, f) :: l =>
      count f <- elaborate_file_counted f;
      count l <- elaborate_files_counted l;
      note_work [] ((p, f) :: l)
  end.
Definition elaborate_project_counted (pr : parsed_project) : measured parsed_project :=
  count l <- elaborate_files_counted (pr_files pr); note_work [] (mkProject l (pr_error_count pr)).

(** dependency-graph.cc:40-68, PathForPackage: the files that are looked for. *)
Definition path_counted (p : package) : measured (option str) :=
  count _ <- note_work [WUse k_exist ($"BUILD files")] tt;
  match
    (if is_nil (project p) then Some []
     else find_path_by_project w (project p))
  with
  | None => note_work [] None
  | Some start =>
      let start :=
        if is_nil (path p) then start
        else (if is_nil start then start else start ++ $"/") ++ path p in
      if can_read (fs_path start ($"BUILD")) then note_work [WCount k_exist 1] (Some (fs_path start ($"BUILD")))
      else
        note_work [WCount k_exist 1; WCount k_exist 1]
          (if can_read (fs_path start ($"BUILD.bazel")) then Some (fs_path start ($"BUILD.bazel")) else None)
  end.
(** dependency-graph.cc:70-90, FindAndParseMissingPackages. *)
Definition parse_missing_counted (pr : parsed_project) (p : package) : measured parsed_project :=
  match find_parsed pr p with
  | Some _ => note_work [] pr
  | None =>
      count file <- path_counted p;
      match file with
      | None => note_work [] pr
      | Some build_file =>
          count (pr, f) <- add_file_counted pr build_file p;
          match f with
          | None => UB
          | Some f =>
              count f <- elaborate_file_counted f;
              note_work [] (mkProject (map_set p f (pr_files pr)) (pr_error_count pr))
          end
      end
  end.
Fixpoint find_missing_counted (want : list package) (pr : parsed_project) : measured parsed_project :=
  match want with
  | [] => note_work [] pr
  | p :: want => count pr <- parse_missing_counted pr p; find_missing_counted want pr
  end.
(** dependency-graph.cc:136-195: one round. *)
Definition round_counted (g : graph) (pr : parsed_project) (todo : list target) : measured (graph * parsed_project * list target) :=
  let scan := set_of_list (map tpackage todo) in
  count _ <- note_work [WCount k_rounds 1] tt;
  count pr <- find_missing_counted scan pr;
  count st <- no_work (scan_packages pr scan (mkRound g todo []));
  note_work [] (rd_graph st, pr, rd_next st).
Fixpoint rounds_counted (depth : nat) (g : graph) (pr : parsed_project) (todo : list target) : measured (graph * parsed_project * list target) :=
  count (g, pr, todo) <- round_counted g pr todo;
  match depth with
  | 0 => note_work [] (g, pr, todo)
  | S depth => if is_nil todo then note_work [] (g, pr, todo) else rounds_counted depth g pr todo
  end.
(** dependency-graph.cc:103-213, BuildDependencyGraph. *)
Definition graph_counted (pt : pattern) (nesting_depth : Z) (pr : parsed_project) : measured (graph * parsed_project) :=
  count _ <- note_work [WUse k_rounds ($"rounds")] tt;
  count todo <- no_work (initial_todo pt (pr_files pr) []);
  count (g, pr, _) <- rounds_counted (Z.to_nat nesting_depth) (mkGraph [] []) pr todo;
  note_work [] (g, pr).
End Loading.

(** ** Tools *)
(** canon-targets.cc:42-56: the dependencies that are looked at. *)
Fixpoint canon_rules_counted (pt : pattern) (p : package) (rs : list result) : outcome nat :=
  match rs with
  | [] => Ret 0
  | r :: rs =>
      match qualified_target p (v_text (q_name r)) with
      | Some self =>
          if match_target pt self then
            do deps <- extract_string_list (q_deps r);
            do n <- canon_rules_counted pt p rs;
            Ret (length deps + n)
          else canon_rules_counted pt p rs
      | None => canon_rules_counted pt p rs
      end
  end.
Fixpoint canon_files_counted (pt : pattern) (files : list (package * parsed_file)) : outcome nat :=
  match files with
  | [] => Ret 0
  | (_, f) :: files =>
      if match_package pt (pf_package f) then
        do rs <- find_targets [] (pf_ast f);
        do n <- canon_rules_counted pt (pf_package f) rs;
        do m <- canon_files_counted pt files;
        Ret (n + m)
      else canon_files_counted pt files
  end.

Section Dwyu.
Variable w : workspace.
Variable read_file : str -> option str.
(** dwyu.cc:289-317: the sources of a target that can be read. *)
Fixpoint read_sources (p : package) (todo : list str) : list str :=
  match todo with
  | [] => []
  | src :: todo =>
      match try_open read_file (fully_qualified_file w p src) with
      | None => read_sources p todo
      | Some content => content :: read_sources p todo
      end
  end.
(** dwyu.cc:239-418, DependenciesNeededBySources, for what is counted. *)
Definition sources_counted (p : package) (sources : list str) : list work :=
  let contents := read_sources p sources in
  let size := list_sum (map (@length ascii) contents) in
  [WUse k_source ($"sources"); WUse k_grep ($"sources")]
  ++ flat_map (fun _ => [WCount k_source 1; WCount k_grep 1]) contents
  ++ [WBytes k_source size; WBytes k_grep size].
(** dwyu.cc:575-594. *)
Fixpoint dwyu_rules_counted (pt : pattern) (f : parsed_file) (rs : list result) : outcome (list work) :=
  match rs with
  | [] => Ret []
  | r :: rs =>
      match qualified_target (pf_package f) (v_text (q_name r)) with
      | Some t =>
          if match_target pt t then
            do srcs <- extract_string_list (q_srcs r);
            do hdrs <- extract_string_list (q_hdrs r);
            do more <- dwyu_rules_counted pt f rs;
            Ret (sources_counted (pf_package f) (map v_text srcs ++ map v_text hdrs) ++ more)
          else dwyu_rules_counted pt f rs
      | None => dwyu_rules_counted pt f rs
      end
  end.
Fixpoint dwyu_files_counted (pt : pattern) (files : list (package * parsed_file)) : outcome (list work) :=
  match files with
  | [] => Ret []
  | (_, f) :: files =>
      if match_package pt (pf_package f) then
        do rs <- find_targets [$"cc_library"; $"cc_binary"; $"cc_test"] (pf_ast f);
        do l <- dwyu_rules_counted pt f rs;
        do l' <- dwyu_files_counted pt files;
        Ret (l ++ l')
      else dwyu_files_counted pt files
  end.
(** dwyu.cc:560-573 and 596-614. *)
Definition dwyu_counted (pr : parsed_project) (pt : pattern) : outcome (list work) :=
  do known <- known_libraries pr;
  do l <- dwyu_files_counted pt (pr_files pr);
  Ret ([WUse k_prepare ($"indexed targets"); WSet k_prepare (length known)] ++ l).
End Dwyu.

(** ** The run *)
Section Run.
Variable is_directory : str -> bool.
Variable can_read : str -> bool.
Variable glob : str -> list str.
Variable read_file : str -> option str.
Variable glob_in : workspace -> package -> list str -> list str -> list str.
Variable collect_build_files : workspace -> pattern -> list str.
Variable compilation_flags : workspace -> parsed_project -> pattern -> bool -> outcome str.
Variable looked_at : workspace -> package -> list str -> list str -> nat.
Variable walked : workspace -> pattern -> nat.

(** cli-commands.cc:104-180. *)
Definition prepare_counted (fl : flags) (cmd : command) (pt : pattern) : measured (option (workspace * parsed_project * graph)) :=
  count w <- no_work (load_workspace is_directory can_read glob read_file);
  match w with
  | None => note_work [] None
  | Some w =>
      let w := augment_from_external_dir is_directory glob w in
      let dep_pattern := match cmd with CHasDependents => pattern_always | _ => pt end in
      count pr <- (if needs_project cmd pt then fill_counted w read_file (collect_build_files w) (walked w) empty_project dep_pattern
                   else note_work [] empty_project);
      let depth := depth_for cmd (fl_depth fl) in
      count pr <- (if elaborate_for cmd (fl_elaborate fl) then elaborate_project_counted (glob_in w) (looked_at w) pr else note_work [] pr);
      count (g, pr) <- (if wants_graph cmd && (0 <=? depth)%Z
                        then graph_counted w read_file can_read (glob_in w) (looked_at w) dep_pattern depth pr
                        else note_work [] (mkGraph [] [], pr));
      note_work [] (Some (w, pr, g))
  end.
(** cli-commands.cc:182-283. *)
Definition perform_counted (fl : flags) (cmd : command) (pt : pattern) (w : workspace) (pr : parsed_project) (g : graph)
  : measured (str * cli_status) :=
  do r <- perform read_file compilation_flags fl cmd pt w pr g;
  match cmd with
  | CDwyu => do l <- dwyu_counted w read_file pr pt; note_work l r
  | CCanonicalize =>
      do n <- canon_files_counted pt (pr_files pr);
      note_work [WUse k_canon ($"dependencies"); WCount k_canon n] r
  | _ => note_work [] r
  end.
(** cli-commands.cc:104-284, RunCommand. *)
Definition run_command_counted (fl : flags) (cmd : command) (pt : pattern) : measured (str * cli_status) :=
  count st <- prepare_counted fl cmd pt;
  match st with
  | None => note_work [] ([], ExitFailure)
  | Some (w, pr, g) => perform_counted fl cmd pt w pr g
  end.
(** cli-commands.cc:287-366, RunCliCommand. *)
Definition run_cli_counted (fl : flags) (args : list str) : option (measured (str * cli_status)) :=
  match args with
  | [] => Some (note_work [] ([], ExitClarification))
  | word :: args =>
      match find_command command_names word with
      | Ambiguous | Unknown => Some (note_work [] ([], ExitClarification))
      | Found cmd =>
          let run pt := if needs_pattern cmd && is_matchall pt then note_work [] ([], ExitFailure) else run_command_counted fl cmd pt in
          match args with
          | [] => Some (run pattern_always)
          | arg :: more =>
              match parse_pattern arg with
              | PatNone => Some (note_work [] ([], ExitFailure))
              | PatUnmodelled => None
              | PatOk pt => if is_nil more then Some (run pt) else Some (note_work [] ([], ExitFailure))
              end
          end
      end
  end.
(** bant.cc:232-246: what is printed of it. *)
Variable speed : nat -> nat -> str.
Variable spent : str -> nat.
Definition statistics (verbose : nat) (status : cli_status) (works : list work) : list str :=
  match status with
  | ExitClarification => []
  | _ => if 0 <? verbose then map (stat_line speed spent) (stats_of works) else []
  end.
End Run.

Section Main.
Variable change_dir : list str -> str -> bool.
Variable open_output : list str -> str -> bool.
Variable seen_from : list str -> surroundings.
(** As above, seen from a directory. *)
Variable looked_at : list str -> workspace -> package -> list str -> list str -> nat.
Variable walked : list str -> workspace -> pattern -> nat.
Variable is_terminal : bool.
Variable compile : str -> option finder_fn.
Variable speed : nat -> nat -> str.
Variable spent : str -> nat.
(** bant.cc:116-249, main(): the lines written at the end. *)
Definition main_statistics (args : list str) : option (outcome (list str)) :=
  match read_command_line change_dir open_output args with
  | Ret (Return _, _) => Some (Ret [])
  | Ret (Continue st, pos) =>
      let s := seen_from (s_dirs st) in
      match run_cli_counted (sur_is_directory s) (sur_can_read s) (sur_glob s) (sur_read_file s) (sur_glob_in s)
                    (sur_collect s) (sur_flags s) (looked_at (s_dirs st)) (walked (s_dirs st)) (flags_of is_terminal compile st) pos with
      | Some r => Some (do (_, status, works) <- r; Ret (statistics speed spent (s_verbose st) status works))
      | None => None
      end
  | UB => Some UB
  | OutOfFuel => Some OutOfFuel
  end.
End Main.
