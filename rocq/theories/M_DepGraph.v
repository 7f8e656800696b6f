(** The dependency graph (/repo/bant/explore/dependency-graph.cc) and the index of
    aliases (/repo/bant/explore/aliased-by.cc). *)
From Verif Require Import Base OMap M_Types M_Scanner M_Ast M_Parser M_Query M_Elab M_Workspace M_Project.

(** dependency-graph.h:30-33 *)
Record graph := mkGraph {
  depends_on : list (target * list target);
  has_dependents : list (target * list target) }.

Section Graph.
Variable w : workspace.
Variable read_file : str -> option str.
Variable can_read : str -> bool.
Variable glob_in : package -> list str -> list str -> list str.

(** dependency-graph.cc:40-68, PathForPackage. *)
Definition path_for_package (p : package) : option str :=
  match
    (if is_nil (project p) then Some []
     else find_path_by_project w (project p))
  with
  | None => None
  | Some start =>
      let start :=
        if is_nil (path p) then start
        else (if is_nil start then start else start ++ $"/") ++ path p in
      find can_read [fs_path start ($"BUILD"); fs_path start ($"BUILD.bazel")]
  end.

(** dependency-graph.cc:70-90, FindAndParseMissingPackages.  Elaborate() is given the
    pointer AddBuildFile() returns, [UB] if it is null; the elaborated tree replaces
    the file's.  error_packages is only printed, and left out. *)
Definition parse_missing (pr : parsed_project) (p : package) : outcome parsed_project :=
  match find_parsed pr p with
  | Some _ => Ret pr
  | None =>
      match path_for_package p with
      | None => Ret pr
      | Some build_file =>
          do (pr, f) <- add_build_file read_file pr build_file p;
          match f with
          | None => UB
          | Some f =>
              do f <- elaborate_file glob_in f;
              Ret (mkProject (map_set p f (pr_files pr)) (pr_error_count pr))
          end
      end
  end.
Fixpoint find_and_parse_missing (want : list package) (pr : parsed_project) : outcome parsed_project :=
  match want with
  | [] => Ret pr
  | p :: want => do pr <- parse_missing pr p; find_and_parse_missing want pr
  end.

(** dependency-graph.cc:122-133: the targets to start from. *)
Definition initial_in_file (pt : pattern) (f : parsed_file) (todo : list target) : outcome (list target) :=
  if negb (match_package pt (pf_package f)) then Ret todo
  else
    do rs <- find_targets [] (pf_ast f);
    Ret (fold_left (fun todo r =>
           match qualified_target (pf_package f) (v_text (q_name r)) with
           | Some t => if match_target pt t then set_insert t todo else todo
           | None => todo
           end) rs todo).
Fixpoint initial_todo (pt : pattern) (files : list (package * parsed_file)) (todo : list target)
  : outcome (list target) :=
  match files with
  | [] => Ret todo
  | (_, f) :: files => do todo <- initial_in_file pt f todo; initial_todo pt files todo
  end.

(** The state inside one round: the graph, deps_to_resolve_todo and
    next_round_deps_to_resolve_todo. *)
Record round := mkRound { rd_graph : graph; rd_todo : list target; rd_next : list target }.

(** dependency-graph.cc:174-189: one dependency of target [t]. *)
Definition add_dependency (p : package) (t : target) (st : round) (dep : str) : round :=
  match parse_target dep p with
  | None => st
  | Some d =>
      let g := rd_graph st in
      let next :=
        match map_find d (depends_on g) with
        | None => if negb (set_mem d (rd_todo st)) then set_insert d (rd_next st) else rd_next st
        | Some _ => rd_next st
        end in
      mkRound
        (mkGraph (map_update t [] (fun l => l ++ [d]) (depends_on g))
                 (map_update d [] (fun l => l ++ [t]) (has_dependents g)))
        (rd_todo st) next
  end.
(** dependency-graph.cc:167-172 *)
Definition to_follow (r : result) : outcome (list str) :=
  do deps <- extract_string_list (q_deps r);
  Ret (map v_text deps ++ (if is_nil (v_text (q_actual r)) then [] else [v_text (q_actual r)])).
(** dependency-graph.cc:156-190: one rule found in package [p]. *)
Definition visit_rule (p : package) (st : round) (r : result) : outcome round :=
  match qualified_target p (v_text (q_name r)) with
  | None => Ret st
  | Some t =>
      if negb (set_mem t (rd_todo st)) then Ret st
      else
        let g := rd_graph st in
        let st := mkRound (mkGraph (map_insert t [] (depends_on g)) (has_dependents g))
                    (set_erase t (rd_todo st)) (rd_next st) in
        do deps <- to_follow r;
        Ret (fold_left (add_dependency p t) deps st)
  end.
Fixpoint visit_rules (p : package) (rs : list result) (st : round) : outcome round :=
  match rs with
  | [] => Ret st
  | r :: rs => do st <- visit_rule p st r; visit_rules p rs st
  end.
(** dependency-graph.cc:152-191: all packages to look at.  The callback runs inside
    the walk of FindTargets; as it does not touch the tree, it is the same to
    collect the results first, except that undefined behaviour of the walk, if
    any, would come after the callbacks. *)
Fixpoint scan_packages (pr : parsed_project) (ps : list package) (st : round) : outcome round :=
  match ps with
  | [] => Ret st
  | p :: ps =>
      match find_parsed pr p with
      | None => scan_packages pr ps st
      | Some f =>
          do rs <- find_targets [] (pf_ast f);
          do st <- visit_rules p rs st;
          scan_packages pr ps st
      end
  end.
(** dependency-graph.cc:136-198: one round; the graph, the project, and the targets
    of the next round.  error_targets is only printed, and left out. *)
Definition run_round (g : graph) (pr : parsed_project) (todo : list target)
  : outcome (graph * parsed_project * list target) :=
  let scan := set_of_list (map tpackage todo) in
  do pr <- find_and_parse_missing scan pr;
  do st <- scan_packages pr scan (mkRound g todo []);
  Ret (rd_graph st, pr, rd_next st).
(** dependency-graph.cc:136,195: do ... while (!todo.empty() && (nesting_depth-- > 0)):
    one round, and up to [depth] more. *)
Fixpoint rounds (depth : nat) (g : graph) (pr : parsed_project) (todo : list target)
  : outcome (graph * parsed_project * list target) :=
  do (g, pr, todo) <- run_round g pr todo;
  match depth with
  | 0 => Ret (g, pr, todo)
  | S depth => if is_nil todo then Ret (g, pr, todo) else rounds depth g pr todo
  end.
(** dependency-graph.cc:103-213, BuildDependencyGraph: the graph and the project it
    leaves; the targets not followed any more are returned for the proofs. *)
Definition build_graph (pt : pattern) (nesting_depth : Z) (pr : parsed_project)
  : outcome (graph * parsed_project * list target) :=
  do todo <- initial_todo pt (pr_files pr) [];
  rounds (Z.to_nat nesting_depth) (mkGraph [] []) pr todo.
End Graph.

(** aliased-by.cc:24-38, ExtractAliasedBy. *)
Definition alias_rule (p : package) (m : list (target * list target)) (r : result) : list (target * list target) :=
  match qualified_target p (v_text (q_name r)), parse_target (v_text (q_actual r)) p with
  | Some alias, Some actual => map_update actual [] (fun l => l ++ [alias]) m
  | _, _ => m
  end.
Fixpoint aliases_in (files : list (package * parsed_file)) (m : list (target * list target))
  : outcome (list (target * list target)) :=
  match files with
  | [] => Ret m
  | (_, f) :: files =>
      do rs <- find_targets [$"alias"] (pf_ast f);
      aliases_in files (fold_left (alias_rule (pf_package f)) rs m)
  end.
Definition extract_aliased_by (pr : parsed_project) : outcome (list (target * list target)) :=
  aliases_in (pr_files pr) [].
