(** Specification of the compilation database. *)
From Verif Require Import Base OMap M_Types M_Scanner M_Ast M_Query S_Query M_Workspace M_Project S_DepGraph S_Headers S_Table.

(** Of things with the same key, the first counts. *)
Inductive collected : list (str * list str) -> list str -> Prop :=
| collected_nil : collected [] []
| collected_again l r k ds : In k (map fst l) -> collected l r -> collected (l ++ [(k, ds)]) r
| collected_new l r k ds : ~ In k (map fst l) -> collected l r -> collected (l ++ [(k, ds)]) (r ++ ds).
Definition itself (s : str) : str * list str := (s, [s]).

(** * Options in the .bazelrc *)
Definition blank (c : ascii) : Prop := In c [" "; "009"; "010"; "012"; "013"]%char.
Definition a_quote (c : ascii) : Prop := c = SQ \/ c = DQ.
(** A text that gives an option to the compiler: --cxxopt=-O3, --host_cxxopt -O3, ... *)
Definition gives_option (text o : str) : Prop :=
  exists host b1 eq b2 quote value, text = $"--" ++ host ++ $"cxxopt" ++ b1 ++ eq ++ b2 ++ quote ++ o /\
    In host [[]; $"host_"] /\ Forall blank b1 /\ In eq [[]; $"="] /\ Forall blank b2 /\ In quote [[]; [SQ]; [DQ]] /\
    o = "-"%char :: value /\ value <> [] /\ Forall (fun c => ~ blank c /\ ~ a_quote c) value.
(** ... with all of the option. *)
Definition option_before (text o rest : str) : Prop :=
  gives_option text o /\ (forall c r, rest = c :: r -> blank c \/ a_quote c).
(** The options in a text, from left to right. *)
Inductive options : str -> list str -> Prop :=
| no_option s : (forall a t b o, s = a ++ t ++ b -> ~ option_before t o b) -> options s []
| next_option a t b o l : option_before t o b ->
    (forall a' t' b' o', a ++ t ++ b = a' ++ t' ++ b' -> option_before t' o' b' -> length a <= length a') ->
    options b l -> options (a ++ t ++ b) (o :: l).
(** What the options of the user come to. *)
Definition user_options (text : str) (opts : list str) : Prop := exists l, options text l /\ collected (map itself l) opts.
(** Some line has "define" and then "absl=1". *)
Definition uses_absl (s : str) : Prop := exists a b c, s = a ++ $"define" ++ b ++ $"absl=1" ++ c /\ ~ In NL b.

Definition bazelrc_says (rc : option str) (opts : list str) : Prop :=
  match rc with
  | None => opts = []
  | Some text => exists user, user_options text user /\ (uses_absl text /\ opts = user ++ [$"-DGTEST_HAS_ABSL=1"] \/ ~ uses_absl text /\ opts = user)
  end.

(** * Directories *)
Definition include_kinds : list str := [$"cc_library"; $"cc_binary"; $"cc_test"; $"proto_library"].
Definition virtual_dir (proj rest : str) : str := $"bazel-bin/external/" ++ tl proj ++ $"/" ++ rest.
Definition is_protobuf (p : package) : Prop := exists a b, project p = a ++ $"protobuf" ++ b.
Section Dirs.
Variable w : workspace.
(** The directories a rule itself is responsible for. *)
Inductive own_dir (p : package) (r : result) : str -> Prop :=
| included i : In i (texts (list_of (q_includes r))) -> own_dir p r (fully_qualified_file w p i)
| prefixed t : named p r t -> v_text (q_include_prefix r) <> [] ->
    own_dir p r (virtual_dir (project p) (path p ++ $"/_virtual_includes/" ++ tname t))
| proto t : named p r t -> v_text (q_rule r) = $"proto_library" -> is_protobuf p ->
    own_dir p r (virtual_dir (project p) ($"src/google/protobuf/_virtual_includes/" ++ tname t)).
(** Those of the protobuf project. *)
Definition protobuf_dir (p : package) (d : str) : Prop :=
  exists rest, In rest [$"_virtual_includes/protobuf_headers"; $"stubs/_virtual_includes/lite"; $"io/_virtual_includes/io"] /\
    d = virtual_dir (project p) ($"src/google/protobuf/" ++ rest).
(** External projects a rule depends on, and their directories. *)
Definition needs_project (p : package) (r : result) (proj : str) : Prop :=
  exists label t, In label (texts (list_of (q_deps r))) /\ parse_target label p = Some t /\ proj = project (tpackage t) /\ proj <> [].
Definition project_dir (proj d : str) : Prop :=
  exists dir, find_path_by_project w proj = Some dir /\ (d = dir \/ d = $"bazel-bin/external/" ++ tl proj).
Definition rule_in (pr : parsed_project) (p : package) (r : result) : Prop :=
  exists key f rs, In (key, f) (pr_files pr) /\ find_targets include_kinds (pf_ast f) = Ret rs /\ In r rs /\ p = pf_package f.
(** No directory is called like a project, and neither like the mark for protobuf. *)
Definition mark : str := $"protobuf-extra-include-hack".
Definition no_clash (pr : parsed_project) : Prop :=
  (forall p r d, rule_in pr p r -> own_dir p r d \/ is_protobuf p /\ protobuf_dir p d ->
     d <> mark /\ forall p' r', rule_in pr p' r' -> ~ needs_project p' r' d) /\
  (forall p r, rule_in pr p r -> ~ needs_project p r mark).
(** Exactly what is asked for, in order. *)
Definition virtual_asks (p : package) (r : result) (t : target) : list (str * list str) :=
  match v_text (q_include_prefix r) with [] => [] | _ => [itself (virtual_dir (project p) (path p ++ $"/_virtual_includes/" ++ tname t))] end.
Definition protobuf_asks (marked : bool) (p : package) (r : result) (t : target) : list (str * list str) :=
  if contains ($"protobuf") (project p) then
    (if marked then []
     else (mark, []) :: map (fun rest => itself (virtual_dir (project p) ($"src/google/protobuf/" ++ rest)))
            [$"_virtual_includes/protobuf_headers"; $"stubs/_virtual_includes/lite"; $"io/_virtual_includes/io"])
    ++ (if str_eqb (v_text (q_rule r)) ($"proto_library")
        then [itself (virtual_dir (project p) ($"src/google/protobuf/_virtual_includes/" ++ tname t))] else [])
  else [].
Definition project_asks (p : package) (label : str) : list (str * list str) :=
  match parse_target label p with
  | None => []
  | Some t =>
      match project (tpackage t) with
      | [] => []
      | c :: name => [(c :: name, match find_path_by_project w (c :: name) with None => [] | Some dir => [dir; $"bazel-bin/external/" ++ name] end)]
      end
  end.
Definition rule_asks (earlier : list (str * list str)) (p : package) (r : result) (t : target) : list (str * list str) :=
  let own := map (fun i => itself (fully_qualified_file w p i)) (texts (list_of (q_includes r))) ++ virtual_asks p r t in
  own ++ protobuf_asks (existsb (str_eqb mark) (map fst (earlier ++ own))) p r t
      ++ flat_map (project_asks p) (texts (list_of (q_deps r))).
Inductive rules_ask (p : package) : list result -> list (str * list str) -> list (str * list str) -> Prop :=
| ask_end l : rules_ask p [] l l
| ask_rule r rs t l l' : named p r t -> rules_ask p rs (l ++ rule_asks l p r t) l' -> rules_ask p (r :: rs) l l'.
Inductive files_ask : list (package * parsed_file) -> list (str * list str) -> list (str * list str) -> Prop :=
| no_files l : files_ask [] l l
| ask_file key f files rs l l' l'' : find_targets include_kinds (pf_ast f) = Ret rs -> rules_ask (pf_package f) rs l l' ->
    files_ask files l' l'' -> files_ask ((key, f) :: files) l l''.
(** The directories to look in. *)
Definition include_dirs (pr : parsed_project) (dirs : list str) : Prop :=
  exists asks more, files_ask (pr_files pr) [] asks /\ collected asks more /\ dirs = $"." :: $"bazel-bin" :: more.
(** What makes it crash: a rule whose name is of no use, or a prefix in a project without a name. *)
Definition crashing (p : package) (r : result) : Prop :=
  v_text (q_name r) = [] \/ v_text (q_name r) = $":" \/ v_text (q_include_prefix r) <> [] /\ project p = [].
End Dirs.

(** * The files *)
Definition source_kinds : list str := [$"cc_library"; $"cc_binary"; $"cc_test"].
Definition rule_files (w : workspace) (pt : pattern) (p : package) (r : result) : list str :=
  match qualified_target p (v_text (q_name r)) with
  | Some t => if match_target pt t then map (fully_qualified_file w p) (texts (list_of (q_srcs r)) ++ texts (list_of (q_hdrs r))) else []
  | None => []
  end.
Inductive sources (w : workspace) (pt : pattern) : list (package * parsed_file) -> list str -> Prop :=
| no_sources : sources w pt [] []
| other_package key f files l : match_package pt (pf_package f) = false -> sources w pt files l -> sources w pt ((key, f) :: files) l
| this_package key f files rs l : match_package pt (pf_package f) = true -> find_targets source_kinds (pf_ast f) = Ret rs ->
    sources w pt files l -> sources w pt ((key, f) :: files) (flat_map (rule_files w pt (pf_package f)) rs ++ l).

(** * Reading JSON (without numbers and constants) *)
Inductive json := JText (s : str) | JArray (l : list json) | JObject (l : list (str * json)).
Inductive frame := InArray (l : list json) | InObject (l : list (str * json)) (key : str).
Inductive place := AtValue | AtFirst | AtMore | AtColon | AtNext | AtEnd (v : json).
Definition give (v : json) (stack : list frame) : list frame * place :=
  match stack with
  | [] => ([], AtEnd v)
  | InArray l :: stack => (InArray (l ++ [v]) :: stack, AtNext)
  | InObject l k :: stack => (InObject (l ++ [(k, v)]) [] :: stack, AtNext)
  end.
Definition close (c : ascii) (stack : list frame) : option (list frame * place) :=
  match stack with
  | InArray l :: stack => if ceqb c "]" then Some (give (JArray l) stack) else None
  | InObject l _ :: stack => if ceqb c "}" then Some (give (JObject l) stack) else None
  | [] => None
  end.
Definition value_step (stack : list frame) (t : tok) : option (list frame * place) :=
  match t with
  | TStr s => Some (give (JText s) stack)
  | TSym c => if ceqb c "[" then Some (InArray [] :: stack, AtFirst) else if ceqb c "{" then Some (InObject [] [] :: stack, AtFirst) else None
  | TWord _ => None
  end.
Definition is_closing (t : tok) : option ascii := match t with TSym c => if ceqb c "]" || ceqb c "}" then Some c else None | _ => None end.
Definition item_step (may_close : bool) (stack : list frame) (t : tok) : option (list frame * place) :=
  match is_closing t with
  | Some c => if may_close then close c stack else None
  | None =>
      match stack with
      | InObject l _ :: stack => match t with TStr k => Some (InObject l k :: stack, AtColon) | _ => None end
      | _ => value_step stack t
      end
  end.
(** Many readers allow a comma after the last item: [trailing]. *)
Definition reader_step (trailing : bool) (st : list frame * place) (t : tok) : option (list frame * place) :=
  let (stack, m) := st in
  match m with
  | AtValue => value_step stack t
  | AtFirst => item_step true stack t
  | AtMore => item_step trailing stack t
  | AtColon => match t with TSym c => if ceqb c ":" then Some (stack, AtValue) else None | _ => None end
  | AtNext => match t with TSym c => if ceqb c "," then Some (stack, AtMore) else close c stack | _ => None end
  | AtEnd _ => None
  end.
Definition json_punct (c : ascii) : bool := contains_char c ($"{}[]:,").
Definition json_blank (c : ascii) : bool := ceqb c " " || ceqb c NL || ceqb c "013" || ceqb c "009".
Definition read_value (trailing : bool) (s : str) : option json :=
  match lex json_escapes json_punct json_blank s with
  | None => None
  | Some toks => match feed (reader_step trailing) toks ([], AtValue) with Some ([], AtEnd v) => Some v | _ => None end
  end.
(** A text that can be put in quotes as it is. *)
Definition quotable (s : str) : Prop := forall c, In c s -> c <> DQ /\ c <> BSL /\ (32 <= code c)%N.
(** What an entry says. *)
Definition command_for (opts dirs : list str) (file : str) : list str :=
  [$"gcc"; $"-xc++"; $"-U_FORTIFY_SOURCE"; $"-O2"; $"-DNDEBUG"] ++ opts ++ flat_map (fun d => [$"-iquote"; d]) dirs ++ [$"-c"; file].
Definition entry_for (cwd : str) (opts dirs : list str) (file : str) : json :=
  JObject [($"file", JText file); ($"arguments", JArray (map JText (command_for opts dirs file))); ($"directory", JText cwd)].
