(** Specification of "depend on what you use", independent of how edits are computed. *)
From Verif Require Import Base OMap M_Types M_Scanner M_Ast M_Parser M_Query S_Query M_Workspace M_Project M_DepGraph S_DepGraph
  M_Headers S_Headers S_Includes M_Dwyu.

(** The entries of a list that are not empty, with their place; see [texts]. *)
Definition entries (l : list node) : list view :=
  flat_map (fun n => match as_text n with Some v => if is_nil (v_text v) then [] else [v] | None => [] end) l.

(** The rules that describe libraries and tests, in the order of the project. *)
Definition library_kinds : list str := [$"cc_library"; $"alias"; $"cc_proto_library"; $"grpc_cc_library"; $"cc_test"].
Inductive described : list (package * parsed_file) -> list (target * result) -> Prop :=
| described_none : described [] []
| described_file p f files rs l : find_targets library_kinds (pf_ast f) = Ret rs -> described files l ->
    described ((p, f) :: files)
      (flat_map (fun r => match qualified_target (pf_package f) (v_text (q_name r)) with Some t => [(t, r)] | None => [] end) rs ++ l).
(** The rule for a target: the first one of that name. *)
Definition rule_for (pr : parsed_project) (t : target) (r : result) : Prop :=
  exists before after, described (pr_files pr) (before ++ (t, r) :: after) /\ ~ In t (map fst before).

(** Which of the visibility labels of a target in package [p] let [t] use it; if none of
    them can be understood, any target may. *)
Definition grants (p : package) (t : target) (label : str) : Prop :=
  exists pt, parse_visibility label p = PatOk pt /\ match_target pt t = true.
Definition understood (p : package) (label : str) : Prop := exists pt, parse_visibility label p = PatOk pt.
Definition label_texts (l : list node) : list str :=
  flat_map (fun n => match as_text n with Some v => [v_text v] | None => [] end) l.
(** [t] may depend on [d]: nothing is known about [d], or it is not deprecated and is in the
    same package or visible. *)
Definition may_use (pr : parsed_project) (t d : target) : Prop :=
  forall r, rule_for pr d r ->
    v_text (q_deprecation r) = [] /\
    (tpackage t = tpackage d \/
     tname d <> $"protobuf_headers" /\
     match q_visibility r with
     | None => True
     | Some l => (exists s, In s (label_texts l) /\ grants (tpackage d) t s) \/
                 (forall s, In s (label_texts l) -> ~ understood (tpackage d) s)
     end).
(** A target not for tests does not depend on one that is. *)
Definition test_compatible (pr : parsed_project) (t d : target) : Prop :=
  forall r r', rule_for pr d r -> rule_for pr t r' -> q_testonly r = true ->
    q_testonly r' = true \/ v_text (q_rule r') = $"cc_test".
(** Known, and not needed unless for its headers. *)
Definition plain_library (pr : parsed_project) (d : target) : Prop :=
  exists r, rule_for pr d r /\ q_alwayslink r = false.

(** The content of a file: from the source tree, or else one of the places for
    generated files. *)
Definition opened (read_file : str -> option str) (file content : str) : Prop :=
  exists before l after,
    [[]; $"bazel-out/host/bin/"; $"bazel-bin/"; $"bazel-genfiles/"] = before ++ l :: after /\
    read_file (l ++ file) = Some content /\ forall b, In b before -> read_file (b ++ file) = None.

Section Target.
Variable pr : parsed_project.
Variable w : workspace.
Variable read_file : str -> option str.
(** The headers of the project (see C29, C30). *)
Variable headers : provided_set.
(** A target, its rule, and the package it is in. *)
Variable t : target.
Variable details : result.
Variable p : package.

Definition sources : list str := texts (list_of (q_srcs details)) ++ texts (list_of (q_hdrs details)).
(** An include of one of the target's own files. *)
Definition own (inc : str) : Prop :=
  exists s, In s sources /\ (inc = s \/ inc = path (tpackage t) ++ $"/" ++ s \/ inc = $"/" ++ s).
(** The libraries that provide an include, by its name or relative to the package. *)
Definition provided_by (inc : str) (ts : list target) : Prop :=
  (exists r, find_by_suffix headers inc 2 = Some r /\ ts = fr_targets r) \/
  (find_by_suffix headers inc 2 = None /\
   exists r, find_by_suffix headers (qualified_file p inc) 2 = Some r /\ ts = fr_targets r).
(** One of the sources has that include. *)
Definition uses (inc : str) : Prop :=
  exists src content off, In src sources /\ opened read_file (fully_qualified_file w p src) content /\ included content off inc.
(** One of the targets in [v] is needed: those that provide an include and may be used. *)
Definition needs (v : list target) : Prop :=
  v <> [] /\ exists inc ts, uses inc /\ ~ own inc /\ provided_by inc ts /\
    forall x, In x v <-> In x ts /\ may_use pr t x.
(** All sources could be read, and it is clear where all includes come from. *)
Definition all_accounted : Prop :=
  (forall src, In src sources -> exists content, opened read_file (fully_qualified_file w p src) content) /\
  (forall inc, uses inc -> own inc \/ exists ts, provided_by inc ts).

(** What the target declares to depend on. *)
Definition declares (label : str) (d : target) : Prop :=
  In label (texts (list_of (q_deps details))) /\ parse_target label (tpackage t) = Some d.
End Target.

(** The line a text is on (if it has newlines, the lines); assembled texts are on their own. *)
Definition on_line (content : str) (v : view) (line : str) : Prop :=
  match v_org v with
  | Synth _ _ => line = v_text v
  | InFile off =>
      exists before a b after, content = before ++ line ++ after /\ length before + length a = off /\
        length a + length (v_text v) + length b = length line /\
        firstn (length a) line = a /\ skipn (length line - length b) line = b /\ ~ In NL (a ++ b) /\
        (before = [] \/ exists x, before = x ++ [NL]) /\ (after = [] \/ exists x, after = NL :: x)
  end.
(** Has a comment with "keep". *)
Definition keeps (line : str) : Prop :=
  exists a b c, line = a ++ $"#" ++ b ++ $"keep" ++ c /\ ~ In NL b.

(** Which rules are looked at. *)
Definition edited_kinds : list str := [$"cc_library"; $"cc_binary"; $"cc_test"].
Definition edited (pr : parsed_project) (pt : pattern) (t : target) (details : result) (f : parsed_file) : Prop :=
  exists p rs, In (p, f) (pr_files pr) /\ match_package pt (pf_package f) = true /\
    find_targets edited_kinds (pf_ast f) = Ret rs /\ In details rs /\
    qualified_target (pf_package f) (v_text (q_name details)) = Some t /\ match_target pt t = true.
