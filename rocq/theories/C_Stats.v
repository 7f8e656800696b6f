(** Property C81: the statistics that -v prints after a run. *)
From Verif Require Import Base OMap M_Types M_Scanner M_Ast M_Parser M_Query M_Elab M_Workspace M_Project M_DepGraph M_Headers M_Table M_Highlight S_Query S_Headers
  M_Dwyu S_Dwyu M_Commands S_Commands M_Main S_Main P_Main M_Told S_Told P_Told T_Walk C_Told M_Stats S_Stats P_Stats P_Stats3 P_Stats5.
Local Open Scope string_scope.
Local Open Scope list_scope.

(** A line for each name that is used, where it is used first. *)
Theorem C81_order : forall works, map fst (stats_of works) = first_of (uses works) /\ NoDup (map fst (stats_of works)).
Proof. intros works. rewrite table_keys. exact (conj eq_refl (first_nodup _)). Qed.
Print Assumptions C81_order.
Section Run.
Variable is_directory : str -> bool.
Variable can_read : str -> bool.
Variable glob : str -> list str.
Variable read_file : str -> option str.
Variable glob_in : workspace -> package -> list str -> list str -> list str.
Variable collect : workspace -> pattern -> list str.
Variable compilation_flags : workspace -> parsed_project -> pattern -> bool -> outcome str.
Variable looked_at : workspace -> package -> list str -> list str -> nat.
Variable walked : workspace -> pattern -> nat.
Notation counted_run := (run_cli_counted is_directory can_read glob read_file glob_in collect compilation_flags looked_at walked).
Notation plain_run := (run_cli is_directory can_read glob read_file glob_in collect compilation_flags).
Notation told_run := (run_cli_told is_directory can_read glob read_file glob_in collect compilation_flags).
Notation ran := (ran is_directory can_read glob read_file glob_in collect compilation_flags looked_at walked).
(** Counting changes nothing: a run is counted exactly if it ends, with the same output and status. *)
Theorem C81_same : forall fl args r, plain_run fl args = Some (Ret r) <-> exists works, counted_run fl args = Some (Ret (r, works)).
Proof.
  intros fl args r. split.
  - apply run_cli_possible.
  - intros [works E]. eapply run_cli_same. exact E.
Qed.
(** Nothing is counted if no project is looked at. *)
Theorem C81_nothing : forall fl args out st works, counted_run fl args = Some (Ret (out, st, works)) ->
  (forall cmd pt w pr g, ~ ran fl args cmd pt w pr g works) -> stats_of works = [].
Proof. intros fl args out st works E N. rewrite (not_ran _ _ _ _ _ _ _ _ _ _ _ _ _ _ E N). reflexivity. Qed.
(** BUILD files: what is read is what is in the project, the files left out because their package is known, and those that
    can not be read; parsed are all but the last. *)
Theorem C81_read : forall fl args cmd pt w pr g works, ran fl args cmd pt w pr g works ->
  forall verbose texts out st notes, told_run verbose texts fl args = Some (Ret (out, st, notes)) ->
  let parsed := length (pr_files pr) + length (filter about_seen notes) in
  let tried := parsed + length (filter about_unreadable notes) in
  if (tried =? 0)%nat then unmentioned works ($"read(BUILD)      ") /\ unmentioned works ($"Parse & build AST")
  else exists bytes, shows works ($"read(BUILD)      ") ($"BUILD files") tried bytes /\ shows works ($"Parse & build AST") ($"BUILD files") parsed bytes /\
    (bytes = None <-> parsed = 0) /\ (filter about_seen notes = [] -> 0 < parsed -> bytes = Some (project_size pr)).
Proof. exact (run_read is_directory can_read glob read_file glob_in collect compilation_flags looked_at walked). Qed.
(** The walk for the pattern. *)
Theorem C81_walk : forall fl args cmd pt w pr g works, ran fl args cmd pt w pr g works ->
  if needs_project cmd pt then shows works ($"BUILD file glob walk") ($"files/directories") (walked w (read_pattern cmd pt)) None else unmentioned works ($"BUILD file glob walk").
Proof. exact (run_walk is_directory can_read glob read_file glob_in collect compilation_flags looked_at walked). Qed.
(** Packages: all, or those found by following dependencies. *)
Theorem C81_elaborated : forall fl args cmd pt w pr g works, ran fl args cmd pt w pr g works ->
  exists pr0 pr1, read_first read_file glob_in collect fl cmd pt w pr0 pr1 /\ length (pr_files pr0) <= length (pr_files pr) /\
  let n := if elaborate_for cmd (fl_elaborate fl) then length (pr_files pr) else length (pr_files pr) - length (pr_files pr0) in
  if (n =? 0)%nat then unmentioned works ($"Elaborated") else shows works ($"Elaborated") ($"packages") n None.
Proof. exact (run_elaborated is_directory can_read glob read_file glob_in collect compilation_flags looked_at walked). Qed.
(** Rounds: as many as are needed until nothing is left to follow, or as allowed. *)
Theorem C81_rounds : forall fl args cmd pt w pr g works, ran fl args cmd pt w pr g works ->
  exists pr0 pr1, read_first read_file glob_in collect fl cmd pt w pr0 pr1 /\
  if wants_graph cmd && (0 <=? depth_for cmd (fl_depth fl))%Z then
    (exists n, shows works ($"Dependency follow iterations") ($"rounds") n None /\
      rounds_needed w read_file can_read (glob_in w) (read_pattern cmd pt) (depth_for cmd (fl_depth fl)) pr1 g pr n) /\
    (length (pr_files pr) = length (pr_files pr0) /\ unmentioned works ($"  - of which exist-check") \/
     exists n, shows works ($"  - of which exist-check") ($"BUILD files") n None /\ length (pr_files pr) - length (pr_files pr0) <= n)
  else pr = pr1 /\ unmentioned works ($"Dependency follow iterations") /\ unmentioned works ($"  - of which exist-check").
Proof. exact (run_rounds is_directory can_read glob read_file glob_in collect compilation_flags looked_at walked). Qed.
(** dwyu: the labels that are known, and the sources that could be opened, with their size. *)
Theorem C81_dwyu : forall fl args cmd pt w pr g works, ran fl args cmd pt w pr g works ->
  match cmd with
  | CDwyu => (exists n, indexed pr n /\ shows works ($"DWYU preparation") ($"indexed targets") n None) /\
      exists rules contents, matching [$"cc_library"; $"cc_binary"; $"cc_test"] pt (pr_files pr) rules /\ checked_sources w read_file rules contents /\
        forall k, In k [$"read(C++ source)"; $"Grep'ed for #inc"] ->
          if is_nil rules then unmentioned works k else shows works k ($"sources") (length contents) (Some (list_sum (map (@length ascii) contents)))
  | _ => forall k, In k [$"DWYU preparation"; $"read(C++ source)"; $"Grep'ed for #inc"] -> unmentioned works k
  end.
Proof. exact (run_dwyu is_directory can_read glob read_file glob_in collect compilation_flags looked_at walked). Qed.
(** canonicalize: the dependencies of all targets that match. *)
Theorem C81_canon : forall fl args cmd pt w pr g works, ran fl args cmd pt w pr g works ->
  match cmd with
  | CCanonicalize => exists rules, matching [] pt (pr_files pr) rules /\
      shows works ($"Canonicalization checked") ($"dependencies") (list_sum (map (fun e => length (entries (list_of (q_deps (snd e))))) rules)) None
  | _ => unmentioned works ($"Canonicalization checked")
  end.
Proof. exact (run_canon is_directory can_read glob read_file glob_in collect compilation_flags looked_at walked). Qed.
End Run.
Print Assumptions C81_same.
Print Assumptions C81_nothing.
Print Assumptions C81_read.
Print Assumptions C81_walk.
Print Assumptions C81_elaborated.
Print Assumptions C81_rounds.
Print Assumptions C81_dwyu.
Print Assumptions C81_canon.
(** What is written: the table, with -v, even with -q, unless the command was not understood. *)
Theorem C81_lines : forall change_dir open_output seen_from looked_at walked is_terminal compile speed spent args lines,
  main_statistics change_dir open_output seen_from looked_at walked is_terminal compile speed spent args = Some (Ret lines) ->
  (exists code words, read_command_line change_dir open_output args = Ret (Return code, words)) /\ lines = [] \/
  exists evs words st out status works, command_line args evs words /\ all_acceptable change_dir open_output evs /\ meaning evs st /\
    (let s := seen_from (s_dirs st) in
     run_cli_counted (sur_is_directory s) (sur_can_read s) (sur_glob s) (sur_read_file s) (sur_glob_in s) (sur_collect s) (sur_flags s)
       (looked_at (s_dirs st)) (walked (s_dirs st)) (flags_of is_terminal compile st) words = Some (Ret (out, status, works))) /\
    if given "v" evs && negb (match status with ExitClarification => true | _ => false end) then Forall2 (stat_said speed spent) (stats_of works) lines else lines = [].
Proof. exact main_lines. Qed.
Print Assumptions C81_lines.

(** * Cases *)
Definition stats_files : list (str * str) := said_files ++ [($"a/x.cc", $"#include ""a/x.h""" ++ [NL]); ($"f/BUILD", $"cc_library(name = ""f"", srcs = [""x.cc"", ""none.cc""], hdrs = glob([""*.h""]))");
  ($"f/x.cc", $"#include ""a/x.h""" ++ [NL]); ($"f/x.h", $"")].
Definition stats_run (fl : flags) (args : list str) : option (measured (str * cli_status)) :=
  run_cli_counted (fun _ => false) (fun f => match T_Walk.lookup stats_files f with Some _ => true | None => false end) (fun _ => []) (T_Walk.lookup stats_files) (fun _ _ _ _ => [$"x.h"])
    (fun w pt => if match_package pt (mkPackage [] ($"d")) then [$"a/BUILD"; $"d/BUILD"; $"d/BUILD.bazel"; $"gone/BUILD"]
                 else if match_package pt (mkPackage [] ($"a")) then [$"a/BUILD"] else if match_package pt (mkPackage [] ($"f")) then [$"f/BUILD"] else [])
    (fun _ _ _ _ => Ret []) (fun _ _ _ _ => 4) (fun _ _ => 17) fl args.
Definition csv_flags : flags := mkFlags false false true false 1 FmtCsv NoGrep false.
Definition lines_of (r : option (measured (str * cli_status))) : list str :=
  match r with Some (Ret (_, st, works)) => statistics (fun _ _ => $"0.50") (fun k => if str_eqb k ($"Elaborated") then 0 else 2045)%nat 1 st works | _ => [] end.
(** //d has two BUILD files, of which the second is counted as parsed; gone/BUILD is counted as read. *)
Example C81_case :
  lines_of (stats_run csv_flags [$"depends-on"; $"//..."]) =
    [$"BUILD file glob walk 17 files/directories in 2.045ms" ++ [NL]; $"read(BUILD)       5 BUILD files with 0.00 KiB in 2.045ms (0.50 MB/sec)" ++ [NL];
     $"Parse & build AST 4 BUILD files with 0.00 KiB in 2.045ms (0.50 MB/sec)" ++ [NL]; $"Elaborated 3 packages in 0.000ms" ++ [NL];
     $"Dependency follow iterations 2 rounds in 2.045ms" ++ [NL]; $"  - of which exist-check 3 BUILD files in 2.045ms" ++ [NL]] /\
  lines_of (stats_run csv_flags [$"dwyu"; $"//f:f"]) =
    [$"BUILD file glob walk 17 files/directories in 2.045ms" ++ [NL]; $"read(BUILD)       1 BUILD files with 0.00 KiB in 2.045ms (0.50 MB/sec)" ++ [NL];
     $"Parse & build AST 1 BUILD files with 0.00 KiB in 2.045ms (0.50 MB/sec)" ++ [NL]; $"Elaborated 1 packages in 0.000ms" ++ [NL];
     $"  - of which glob() walking 4 files in 2.045ms" ++ [NL]; $"Dependency follow iterations 1 rounds in 2.045ms" ++ [NL];
     $"DWYU preparation 1 indexed targets in 2.045ms" ++ [NL]; $"read(C++ source) 2 sources with 0.00 KiB in 2.045ms (0.50 MB/sec)" ++ [NL];
     $"Grep'ed for #inc 2 sources with 0.00 KiB in 2.045ms (0.50 MB/sec)" ++ [NL]] /\
  lines_of (stats_run csv_flags [$"canon"; $"//a:x"]) =
    [$"BUILD file glob walk 17 files/directories in 2.045ms" ++ [NL]; $"read(BUILD)       1 BUILD files with 0.00 KiB in 2.045ms (0.50 MB/sec)" ++ [NL];
     $"Parse & build AST 1 BUILD files with 0.00 KiB in 2.045ms (0.50 MB/sec)" ++ [NL]; $"Elaborated 1 packages in 0.000ms" ++ [NL];
     $"Canonicalization checked 5 dependencies in 2.045ms" ++ [NL]] /\
  lines_of (stats_run csv_flags [$"print"; $"b:y:z"]) = [] /\
  stat_line (fun _ _ => $"0.50") (fun _ => 7)%nat ($"x", mkStat ($"y") 3 (Some 2047)) = $"x 3 y with 1.00 KiB in 0.007ms (0.50 MB/sec)" ++ [NL].
Proof. repeat (apply conj; [vm_compute; reflexivity|]). vm_compute. reflexivity. Qed.
Notation stats_ran := (ran (fun _ => false) (fun f => match T_Walk.lookup stats_files f with Some _ => true | None => false end) (fun _ => []) (T_Walk.lookup stats_files) (fun _ _ _ _ => [$"x.h"])
    (fun w pt => if match_package pt (mkPackage [] ($"d")) then [$"a/BUILD"; $"d/BUILD"; $"d/BUILD.bazel"; $"gone/BUILD"]
                 else if match_package pt (mkPackage [] ($"a")) then [$"a/BUILD"] else if match_package pt (mkPackage [] ($"f")) then [$"f/BUILD"] else [])
    (fun _ _ _ _ => Ret []) (fun _ _ _ _ => 4)%nat (fun _ _ => 17)%nat).
(** Runs as the theorems ask for. *)
Example C81_ran : (exists pt w pr g works, stats_ran csv_flags [$"dwyu"; $"//f:f"] CDwyu pt w pr g works) /\
  (exists pt w pr g works, stats_ran csv_flags [$"canon"; $"//a:x"] CCanonicalize pt w pr g works) /\
  exists w pr g works, stats_ran csv_flags [$"depends-on"] CDependsOn pattern_always w pr g works.
Proof.
  split; [|split].
  - do 5 eexists. split; [apply as_pattern; vm_compute; reflexivity|]. split; [vm_compute; reflexivity|]. do 2 eexists. vm_compute. reflexivity.
  - do 5 eexists. split; [apply as_pattern; vm_compute; reflexivity|]. split; [vm_compute; reflexivity|]. do 2 eexists. vm_compute. reflexivity.
  - do 4 eexists. split; [apply as_all; [vm_compute; reflexivity|cbn; intuition discriminate]|]. split; [vm_compute; reflexivity|]. do 2 eexists. vm_compute. reflexivity.
Qed.
Definition main_table (args : list str) : option (outcome (list str)) :=
  main_statistics (fun _ d => str_eqb d ($"sub")) (fun _ _ => false)
    (fun _ => mkSurroundings (fun _ => false) (fun _ => false) (fun _ => []) (T_Walk.lookup said_files) (fun _ _ _ _ => []) (fun _ _ => [$"gone/BUILD"; $"d/BUILD"]) (fun _ _ _ _ => Ret []))
    (fun _ _ _ _ _ => 4)%nat (fun _ _ _ => 17)%nat false (fun _ => None) (fun _ _ => $"0.50") (fun _ => 0)%nat args.
Example C81_lines_case :
  main_table [$"-qv"; $"list-p"; $"//..."] = Some (Ret [$"BUILD file glob walk 17 files/directories in 0.000ms" ++ [NL]; $"read(BUILD)       2 BUILD files in 0.000ms" ++ [NL]; $"Parse & build AST 1 BUILD files in 0.000ms" ++ [NL];
    $"Dependency follow iterations 1 rounds in 0.000ms" ++ [NL]]) /\
  main_table [$"list-p"; $"//..."] = Some (Ret []) /\ main_table [$"-v"; $"list-"] = Some (Ret []) /\ main_table [$"-v"; $"-C"; $"nowhere"; $"print"] = Some (Ret []).
Proof. repeat (apply conj; [vm_compute; reflexivity|]). vm_compute. reflexivity. Qed.
