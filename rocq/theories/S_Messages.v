(** Specification of what dwyu tells (on the info stream) about the targets it looks at. *)
From Coq Require Import Sorted.
From Verif Require Import Base OMap M_Types M_Scanner S_Scanner M_Ast M_Parser M_Query S_Query M_Workspace M_Project M_DepGraph S_DepGraph
  M_Headers S_Headers S_Includes M_Dwyu S_Dwyu S_Commands.

(** [l] is [l'] with some entries left out. *)
Inductive part_of {A} : list A -> list A -> Prop :=
| part_nothing : part_of [] []
| part_keeps x l l' : part_of l l' -> part_of (x :: l) (x :: l')
| part_skips x l l' : part_of l l' -> part_of l (x :: l').

(** A file with content, and whether it is from one of the places for generated files. *)
Definition opened_at (read_file : str -> option str) (file name content : str) (generated : bool) : Prop :=
  exists before l after,
    [[]; $"bazel-out/host/bin/"; $"bazel-bin/"; $"bazel-genfiles/"] = before ++ l :: after /\
    name = l ++ file /\ read_file name = Some content /\ (forall b, In b before -> read_file (b ++ file) = None) /\
    (generated = false <-> before = []).
(** Where an include of a source is said to be. *)
Definition seen_at (name content : str) (off : nat) (inc l : str) : Prop :=
  exists p, l = name ++ $":" ++ p /\ place content off (length inc) p.

Section Target.
Variable pr : parsed_project.
Variable w : workspace.
Variable read_file : str -> option str.
(** How many -v, and whether the output is a terminal. *)
Variable verbose : nat.
Variable color : bool.
(** The headers of the project (C29, C30), and the files made by its genrules (C59). *)
Variable headers : provided_set.
Variable generated : provided.
(** A target, its rule, and the file it is in. *)
Variable t : target.
Variable details : result.
Variable f : parsed_file.
Local Notation p := (pf_package f).
Local Notation T := target_to_string.

Definition source_entries : list view := entries (list_of (q_srcs details)) ++ entries (list_of (q_hdrs details)).

(** ** Includes *)
(** One of the own files, named as in the rule or from the root of the project; or with just a '/'. *)
Definition own_named (inc : str) : Prop :=
  exists s, In s (sources details) /\ (inc = s \/ inc = path (tpackage t) ++ $"/" ++ s).
(** Which libraries provide an include, with -vvv. *)
Definition provider_line (l : str) (d : target) (m : str) : Prop :=
  (may_use pr t d /\ m = l ++ $"    | " ++ T d ++ [NL]) \/
  (~ may_use pr t d /\ color = false /\ m = l ++ $"    | " ++ T d ++ $" (not visible)" ++ [NL]) \/
  (~ may_use pr t d /\ color = true /\
   m = l ++ $"    | " ++ T d ++ ch 27 :: $"[31m (not visible)" ++ ch 27 :: $"[0m" ++ [NL]).
Definition providers_said (l inc : str) (ts : list target) (ms : list str) : Prop :=
  (verbose < 3 /\ ms = []) \/
  (3 <= verbose /\ exists lines, ms = (l ++ $" #include """ ++ inc ++ $"""" ++ [NL]) :: lines /\ Forall2 (provider_line l) ts lines).
(** Only if it is a source that can be changed. *)
Definition relative_said (from_tree : bool) (l inc : str) (ms : list str) (refer : bool) : Prop :=
  (from_tree = false /\ ms = [] /\ refer = false) \/
  (from_tree = true /\ refer = true /\
   ms = [l ++ $" " ++ inc ++ $" header relative to this file. Consider FQN relative to project root." ++ [NL]]).
Definition other_name_said (l inc name : str) (ms : list str) : Prop :=
  let said how := [l ++ $" FYI: instead of '" ++ inc ++ $"' found library that provides " ++ how
                     ++ $" same-suffix path '" ++ name ++ $"'" ++ [NL]] in
  (verbose < 2 /\ ms = []) \/ (length name = length inc /\ ms = []) \/
  (2 <= verbose /\ length name < length inc /\ ms = said ($"shorter")) \/
  (2 <= verbose /\ length inc < length name /\ ms = said ($"longer")).
(** What is told about an include at [l] in a source that is from the source tree or not, and whether
    it has to be told which target that is about. *)
Inductive include_said (from_tree : bool) (l inc : str) : list str -> bool -> Prop :=
| said_own : own_named inc -> include_said from_tree l inc [] false
| said_own_relative ms refer : ~ own_named inc -> own t details inc -> relative_said from_tree l inc ms refer ->
    include_said from_tree l inc ms refer
| said_provided r ms ms' : ~ own t details inc -> find_by_suffix headers inc 2 = Some r ->
    other_name_said l inc (fr_match r) ms -> providers_said l inc (fr_targets r) ms' ->
    include_said from_tree l inc (ms ++ ms') false
| said_provided_relative r ms ms' refer : ~ own t details inc -> find_by_suffix headers inc 2 = None ->
    find_by_suffix headers (qualified_file p inc) 2 = Some r ->
    relative_said from_tree l inc ms refer -> providers_said l inc (fr_targets r) ms' ->
    include_said from_tree l inc (ms ++ ms') refer
| said_generated g : ~ own t details inc -> (forall ts, ~ provided_by headers p inc ts) -> map_find inc generated = Some g ->
    include_said from_tree l inc
      [l ++ $" " ++ inc ++ $" not accounted for; generated by genrule " ++ T g
         ++ $", but not in hdrs=[...] of any cc_library() we depend on." ++ [NL]] true
| said_unknown : 0 < verbose -> ~ own t details inc -> (forall ts, ~ provided_by headers p inc ts) -> map_find inc generated = None ->
    include_said from_tree l inc
      [l ++ $" unknown provider for " ++ inc ++ $" -- Missing or from non-standard bazel-rule ?" ++ [NL]] true
| said_nothing : verbose = 0 -> ~ own t details inc -> (forall ts, ~ provided_by headers p inc ts) -> map_find inc generated = None ->
    include_said from_tree l inc [] false.

(** ** Sources *)
(** What is told about the includes of a source, in order. *)
Inductive includes_said (from_tree : bool) (name content : str) : list (nat * str) -> list str -> bool -> Prop :=
| includes_none : includes_said from_tree name content [] [] false
| includes_more off inc incs l ms refer ms' refer' : seen_at name content off inc l -> include_said from_tree l inc ms refer ->
    includes_said from_tree name content incs ms' refer' ->
    includes_said from_tree name content ((off, inc) :: incs) (ms ++ ms') (refer || refer').
(** All includes of a source, in order. *)
Definition all_includes (content : str) (incs : list (nat * str)) : Prop :=
  (forall off inc, In (off, inc) incs <-> included content off inc) /\ StronglySorted lt (map fst incs).
Inductive source_said (src : view) : list str -> Prop :=
| source_unreadable l hint : let file := fully_qualified_file w p (v_text src) in
    (forall content, ~ opened read_file file content) -> shown_at f src l ->
    (map_find file generated = None /\ hint = $" -- Missing ?" \/
     exists g, map_find file generated = Some g /\ hint = $"; Run genrule `bazel build " ++ T g ++ $"` first.") ->
    source_said src [l ++ $" Can not read source '" ++ file ++ $"' for target " ++ T t ++ hint ++ [NL]]
| source_read name content from_tree incs ms refer l :
    opened_at read_file (fully_qualified_file w p (v_text src)) name content (negb from_tree) ->
    all_includes content incs -> includes_said from_tree name content incs ms refer -> (refer = true -> shown_at f src l) ->
    source_said src
      (ms ++ if refer then [l ++ $" ^... in source '" ++ v_text src ++ $"' referenced by " ++ T t ++ [NL]] else []).

(** ** Dependencies *)
(** What is told about the event [e] for the dependency [dep]. *)
Inductive dep_said (dep : view) : event -> list str -> Prop :=
| dep_removed : dep_said dep (EvRemove t (v_text dep)) []
| dep_invalid l : shown_at f dep l -> parse_target (v_text dep) (tpackage t) = None ->
    dep_said dep (EvInvalid t (v_text dep)) [l ++ $" Invalid target name '" ++ v_text dep ++ $"'" ++ [NL]]
| dep_twice l d : shown_at f dep l -> parse_target (v_text dep) (tpackage t) = Some d ->
    dep_said dep (EvAgain t (v_text dep) d)
      [l ++ $" in target " ++ T t ++ $": dependency " ++ v_text dep ++ $" same dependency mentioned multiple times. Run buildifier" ++ [NL]]
| dep_also l d other : shown_at f dep l -> parse_target (v_text dep) (tpackage t) = Some d -> other <> d ->
    dep_said dep (EvAgain t (v_text dep) other)
      [l ++ $" in target " ++ T t ++ $": dependency " ++ v_text dep ++ $" provides headers already provided by " ++ T other
         ++ $" before. Multiple libraries providing the same headers ?" ++ [NL]]
| dep_unsure l d : 2 <= verbose -> shown_at f dep l -> parse_target (v_text dep) (tpackage t) = Some d ->
    dep_said dep (EvUnsure t (v_text dep))
      [l ++ $": Unsure what " ++ T d ++ $" provides, but there are also unaccounted headers. Won't remove." ++ [NL]]
| dep_unsure_not d : verbose < 2 -> parse_target (v_text dep) (tpackage t) = Some d -> dep_said dep (EvUnsure t (v_text dep)) [].

(** ** Needs *)
Definition would_add (d : target) (ms : list str) : Prop :=
  (verbose < 2 /\ ms = []) \/
  (2 <= verbose /\ exists l, shown_at f (q_name details) l /\ ms = [l ++ $": Would add " ++ T d ++ $", but not visible" ++ [NL]]).
Inductive need_said : event -> list str -> Prop :=
| need_added label : need_said (EvAdd t label) []
| need_choice l ts : shown_at f (q_name details) l ->
    need_said (EvAmbiguous t ts)
      [l ++ $" Can't auto-fix: Referenced headers in " ++ T t ++ $" need exactly one of multiple choices" ++ [NL]
         ++ $"Alternatives are:" ++ [NL] ++ concat (map (fun d => [ch 9] ++ T d ++ [NL]) ts)]
| need_testonly l r d ms : rule_for pr t r -> shown_at f (q_name r) l -> would_add d ms ->
    need_said (EvTestonly t d)
      ((l ++ $" '" ++ T t ++ $"' is using headers that would be provided by '" ++ T d
          ++ $"', but the latter is marked testonly, the former not. Not adding dependency." ++ [NL]) :: ms)
| need_invisible d ms : would_add d ms -> need_said (EvInvisible t d) ms.

(** ** All that is told about a target with events [ev] *)
Definition target_said (ev : list event) (ms : list str) : Prop :=
  exists source_ms deps dep_evs dep_ms need_evs need_ms,
    Forall2 source_said source_entries source_ms /\
    part_of deps (entries (list_of (q_deps details))) /\ length dep_evs = length deps /\
    Forall2 (fun x m => dep_said (fst x) (snd x) m) (combine deps dep_evs) dep_ms /\
    Forall2 need_said need_evs need_ms /\
    ev = dep_evs ++ need_evs /\ ms = concat source_ms ++ concat dep_ms ++ concat need_ms.
End Target.

(** A file [out] of the genrule [t] that an earlier genrule [other] already makes; said only for the main project. *)
Definition made_again (pr : parsed_project) (generated : provided) (f : parsed_file) (t : target) (out : view) (other : target) : Prop :=
  project (pf_package f) = [] /\
  (exists q rs r, In (q, f) (pr_files pr) /\ find_targets [$"genrule"] (pf_ast f) = Ret rs /\ In r rs /\
     qualified_target (pf_package f) (v_text (q_name r)) = Some t /\ In out (entries (list_of (q_outs r)))) /\
  map_find (qualified_file (pf_package f) (v_text out)) generated = Some other /\ other <> t.
Definition again_said (f : parsed_file) (t : target) (out : view) (other : target) (m : str) : Prop :=
  exists l, shown_at f out l /\
    m = l ++ $" '" ++ qualified_file (pf_package f) (v_text out) ++ $"' in " ++ target_to_string t ++ $" also created by "
          ++ target_to_string other ++ [NL].

(** The last line: how many targets were looked at, and how many edits there are, if any. *)
Definition asks_edit (e : event) : bool := match e with EvRemove _ _ | EvAdd _ _ => true | _ => false end.
Definition summary_said (targets edits : nat) (m : str) : Prop :=
  exists n, decimal targets n /\
    ((edits = 0 /\ m = $"Checked DWYU on " ++ n ++ $" targets." ++ [NL]) \/
     (0 < edits /\ exists k, decimal edits k /\ m = $"Checked DWYU on " ++ n ++ $" targets. Emitted " ++ k ++ $" edits." ++ [NL])).

(** A reason to not know all that a target needs: a source that can not be read, or an include that
    nobody provides. *)
Definition source_missing (w : workspace) (f : parsed_file) (t : target) (src : view) (m : str) : Prop :=
  exists l hint, shown_at f src l /\
    m = l ++ $" Can not read source '" ++ fully_qualified_file w (pf_package f) (v_text src) ++ $"' for target " ++ target_to_string t ++ hint ++ [NL].
Definition include_missing (name content : str) (off : nat) (inc m : str) : Prop :=
  exists l, seen_at name content off inc l /\
    (m = l ++ $" unknown provider for " ++ inc ++ $" -- Missing or from non-standard bazel-rule ?" ++ [NL] \/
     exists g, m = l ++ $" " ++ inc ++ $" not accounted for; generated by genrule " ++ target_to_string g
                     ++ $", but not in hdrs=[...] of any cc_library() we depend on." ++ [NL]).
Definition source_named (f : parsed_file) (t : target) (src : view) (m : str) : Prop :=
  exists l, shown_at f src l /\ m = l ++ $" ^... in source '" ++ v_text src ++ $"' referenced by " ++ target_to_string t ++ [NL].
