(** Specification of the dependency graph, independent of how it is computed: which
    targets there are, what they depend on, and what is reachable. *)
From Verif Require Import Base OMap M_Types M_Scanner M_Ast M_Parser M_Query S_Query M_Elab M_Workspace M_Project M_DepGraph.

(** The texts in a list of nodes that are not empty. *)
Definition texts (l : list node) : list str :=
  flat_map (fun n => match as_text n with Some v => if is_nil (v_text v) then [] else [v_text v] | None => [] end) l.
(** The labels a rule mentions: its deps, and what it is an alias for. *)
Definition mentioned (r : result) : list str :=
  texts (match q_deps r with Some l => l | None => [] end)
  ++ (match v_text (q_actual r) with [] => [] | l => [l] end).
(** The targets these labels stand for in a package; invalid ones are left out. *)
Definition resolved (p : package) (labels : list str) : list target :=
  flat_map (fun l => match parse_target l p with Some t => [t] | None => [] end) labels.

(** A project holds files under the packages they belong to. *)
Definition project_ok (pr : parsed_project) : Prop :=
  msorted (pr_files pr) /\ forall p f, In (p, f) (pr_files pr) -> pf_package f = p.

Section World.
Variable w : workspace.
Variable read_file : str -> option str.
Variable can_read : str -> bool.
Variable glob_in : package -> list str -> list str -> list str.
Variable pr : parsed_project.

(** The BUILD file of a package: the one in the project, or else the one on disk,
    parsed and elaborated. *)
Definition file_of (p : package) (f : parsed_file) : Prop :=
  match find_parsed pr p with
  | Some f0 => f = f0
  | None => exists name content stmts errs ast,
      path_for_package w can_read p = Some name /\ read_file name = Some content /\
      parse content = Ret (stmts, errs) /\ elaborate (glob_in p) stmts = Ret ast /\
      f = mkFile p name content ast errs
  end.

(** [r] is the rule called [t]: the first one of that name in the file. *)
Definition names (t : target) (r : result) : Prop :=
  qualified_target (tpackage t) (v_text (q_name r)) = Some t.
Definition rule_of (t : target) (r : result) : Prop :=
  exists f a b, file_of (tpackage t) f /\ find_targets [] (pf_ast f) = Ret (a ++ r :: b) /\
    names t r /\ (forall r', In r' a -> ~ names t r').
Definition exists_target (t : target) : Prop := exists r, rule_of t r.
Definition dependencies (t : target) (ds : list target) : Prop :=
  exists r, rule_of t r /\ ds = resolved (tpackage t) (mentioned r).
Definition depends (t d : target) : Prop := exists ds, dependencies t ds /\ In d ds.

(** The targets of the project that match a pattern. *)
Definition matches_pattern (pt : pattern) (t : target) : Prop :=
  match_target pt t = true /\
  exists f rs r, find_parsed pr (tpackage t) = Some f /\ find_targets [] (pf_ast f) = Ret rs /\
    In r rs /\ names t r.

(** Reachable from there by a number of steps. *)
Inductive reach (pt : pattern) : nat -> target -> Prop :=
| reach_start t : matches_pattern pt t -> reach pt 0 t
| reach_step n s t : reach pt n s -> depends s t -> reach pt (S n) t.
End World.

(** How often an element occurs. *)
Definition occurrences (t : target) (l : list target) : nat := length (filter (target_eqb t) l).
Definition entry (m : list (target * list target)) (t : target) : list target :=
  match map_find t m with Some l => l | None => [] end.

(** A tree in which rules can be looked for. *)
Definition readable_tree (ast : list node) : Prop :=
  exists rs, find_targets [] ast = Ret rs /\
    forall r l, In r rs -> q_deps r = Some l -> exists strs, string_list l = Ret strs.
(** A BUILD file without syntax errors and without functions called by the name of a
    variable. *)
Definition good_content (called assigned : node -> list str) (content : str) : Prop :=
  exists stmts, parse content = Ret (stmts, []) /\
    forall x, In x (flat_map called stmts) -> ~ In x (flat_map assigned stmts).

(** Histories of a project: BUILD files are added, or looked up if missing. *)
Inductive project_op :=
| AddFile (name : str) (p : package)
| AddFileIn (name : str) (proj : str)
| AddMissing (p : package).
Definition run_op w read_file can_read glob_in (op : project_op) (pr : parsed_project) : outcome parsed_project :=
  match op with
  | AddFile name p => do (pr, _) <- add_build_file read_file pr name p; Ret pr
  | AddFileIn name proj => add_build_file_in w read_file pr name proj
  | AddMissing p => parse_missing w read_file can_read glob_in pr p
  end.
Fixpoint run_ops w read_file can_read glob_in (ops : list project_op) (pr : parsed_project) : outcome parsed_project :=
  match ops with
  | [] => Ret pr
  | op :: ops => do pr <- run_op w read_file can_read glob_in op pr; run_ops w read_file can_read glob_in ops pr
  end.
