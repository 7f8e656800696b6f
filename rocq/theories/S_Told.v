(** Specification of the messages of a run (C79), and of what a dependency graph misses (C80). *)
From Coq Require Import Permutation.
From Verif Require Import Base OMap M_Types M_Scanner M_Ast M_Parser M_Query M_Elab M_Workspace M_Project M_DepGraph S_DepGraph S_Run M_Commands S_Commands M_Main S_Main
  M_Headers S_Headers S_Dwyu M_Messages S_Messages M_ParseErrors S_ParseErrors M_Told.

(** What is said of a file that does not parse: the messages of C78. *)
Definition complaints_text (name content : str) (errs : list complaint) (text : str) : Prop :=
  exists ms, Forall2 (message name content) (rev errs) ms /\ text = concat ms.

(** * The workspace *)
Section Workspace.
Variable is_directory : str -> bool.
Variable can_read : str -> bool.
Variable glob : str -> list str.
Variable read_file : str -> option str.
(** The workspace files that do not parse. *)
Inductive workspace_complaints : list str -> list note -> Prop :=
| wc_end : workspace_complaints [] []
| wc_missing f fs l : read_file f = None -> workspace_complaints fs l -> workspace_complaints (f :: fs) l
| wc_good f fs content stmts l : read_file f = Some content -> parse content = Ret (stmts, []) -> workspace_complaints fs l ->
    workspace_complaints (f :: fs) l
| wc_bad f fs content stmts errs text l : read_file f = Some content -> parse content = Ret (stmts, errs) -> errs <> [] ->
    complaints_text f content errs text -> workspace_complaints fs l -> workspace_complaints (f :: fs) (NWorkspaceSyntax f text :: l).
(** A line for each declared project that is in none of the directories it could be in. *)
Inductive unextracted_in (f : parsed_file) : list result -> list str -> Prop :=
| ue_end : unextracted_in f [] []
| ue_there r rs d ms : extracted_in is_directory can_read glob (v_text (q_name r)) (v_text (q_version r)) d -> unextracted_in f rs ms ->
    unextracted_in f (r :: rs) ms
| ue_not_there r rs l ms : (forall d, ~ extracted_in is_directory can_read glob (v_text (q_name r)) (v_text (q_version r)) d) ->
    shown_at f (q_name r) l -> unextracted_in f rs ms ->
    unextracted_in f (r :: rs) ((l ++ $" Can't find extracted project '" ++ v_text (q_name r) ++ $"'" ++ [NL]) :: ms).
Inductive unextracted : list str -> list str -> Prop :=
| un_end : unextracted [] []
| un_missing f fs ms : read_file f = None -> unextracted fs ms -> unextracted (f :: fs) ms
| un_file f fs content stmts errs rs ms ms' : read_file f = Some content -> parse content = Ret (stmts, errs) ->
    find_targets [$"http_archive"; $"bazel_dep"] stmts = Ret rs -> unextracted_in (mkFile (mkPackage [] []) f content stmts errs) rs ms ->
    unextracted fs ms' -> unextracted (f :: fs) (ms ++ ms').
(** They are only shown if there are such lines for the old and for the new kind of workspace. *)
Inductive projects_said : list note -> Prop :=
| ps_nothing old new : unextracted [$"WORKSPACE"; $"WORKSPACE.bazel"] old -> unextracted [$"WORKSPACE.bzlmod"; $"MODULE.bazel"] new ->
    old = [] \/ new = [] -> projects_said []
| ps_both old new : unextracted [$"WORKSPACE"; $"WORKSPACE.bazel"] old -> unextracted [$"WORKSPACE.bzlmod"; $"MODULE.bazel"] new ->
    old <> [] -> new <> [] ->
    projects_said [NProjects (concat old ++ concat new ++ $"Note: need to run a bazel build at least once to extract external projects" ++ [NL])].
End Workspace.

(** * BUILD files *)
Section Files.
Variable w : workspace.
Variable read_file : str -> option str.
(** What is said while the files of a pattern are read, one after the other; the first list has those already read. *)
Inductive files_said (proj : str) : list str -> list str -> list note -> Prop :=
| fs_end before : files_said proj before [] []
| fs_no_package before x l notes : package_of_build_file w x proj = Ret None -> files_said proj (before ++ [x]) l notes ->
    files_said proj before (x :: l) (NNoPackage x (x ++ $": Can't determine package." ++ [NL]) :: notes)
| fs_unreadable before x p l notes : package_of_build_file w x proj = Ret (Some p) -> read_file x = None -> files_said proj (before ++ [x]) l notes ->
    files_said proj before (x :: l) (NUnreadable x ($"Could not read " ++ x ++ [NL]) :: notes)
| fs_again before x p content y other l notes : package_of_build_file w x proj = Ret (Some p) -> read_file x = Some content ->
    file_for w read_file before proj p y other -> files_said proj (before ++ [x]) l notes ->
    files_said proj before (x :: l) (NSeen x (x ++ $": Package " ++ package_to_string p ++ $" already seen before in " ++ y ++ [NL]) :: notes)
| fs_good before x p content stmts l notes : package_of_build_file w x proj = Ret (Some p) -> read_file x = Some content ->
    (forall y other, ~ file_for w read_file before proj p y other) -> parse content = Ret (stmts, []) -> files_said proj (before ++ [x]) l notes ->
    files_said proj before (x :: l) notes
| fs_bad before x p content stmts errs text l notes : package_of_build_file w x proj = Ret (Some p) -> read_file x = Some content ->
    (forall y other, ~ file_for w read_file before proj p y other) -> parse content = Ret (stmts, errs) -> errs <> [] ->
    complaints_text x content errs text -> files_said proj (before ++ [x]) l notes ->
    files_said proj before (x :: l) (NSyntax x text :: notes).
(** ... with what is said of the pattern: a project that is not known, or no file at all. *)
Definition pattern_said (files : list str) (pt : pattern) (notes : list note) : Prop :=
  exists l, files_said (pat_project pt) [] files l /\
    notes = (match pat_project pt with
             | [] => []
             | proj => match find_path_by_project w proj with
                       | None => [NUnknownProject ($"Unknown project " ++ proj ++ $"." ++ [NL])]
                       | Some _ => []
                       end
             end) ++ l ++
            (match files with [] => [NNoBuildFiles ($"Pattern did not match any dir with BUILD file." ++ [NL])] | _ => [] end).
End Files.

Definition about_syntax (n : note) : bool := match n with NSyntax _ _ => true | _ => false end.
(** One note for each file of the project that has syntax errors. *)
Definition syntax_notes (pr : parsed_project) (notes : list note) : Prop :=
  Forall2 (fun f n => exists text, complaints_text (pf_name f) (pf_content f) (pf_errors f) text /\ n = NSyntax (pf_name f) text)
    (filter (fun f => match pf_errors f with [] => false | _ => true end) (map snd (pr_files pr))) notes.

(** * What the graph misses *)
(** One line for each, after a tabulator. *)
Definition listing (title : str) (l : list str) : str := title ++ [NL] ++ concat (map (fun e => ch 9 :: e ++ [NL]) l) ++ [NL].

Definition titled (kind : str -> note) (title : str) (l : list str) : list note := match l with [] => [] | _ => [kind (listing title l)] end.
Section Missing.
Variable w : workspace.
Variable read_file : str -> option str.
Variable can_read : str -> bool.
Variable glob_in : package -> list str -> list str -> list str.
Variable pr0 : parsed_project.
Variable pt : pattern.
Variable depth : Z.
(** What was asked for, or is a dependency of that within the depth, and is not there; in order. *)
Definition missing_targets (targets : list target) : Prop :=
  ssorted targets /\
  forall t, In t targets <-> ~ exists_target w read_file can_read glob_in pr0 t /\
    exists j, j <= Z.to_nat depth /\ reach w read_file can_read glob_in pr0 pt j t.
(** The packages of these that have no BUILD file. *)
Definition without_file (p : package) : Prop := find_parsed pr0 p = None /\ path_for_package w can_read p = None.
Definition missing_packages (targets : list target) (packages : list package) : Prop :=
  ssorted packages /\ forall p, In p packages <-> without_file p /\ exists t, In t targets /\ tpackage t = p.
(** Both are only shown with -v. *)
Definition missing_said (verbose : nat) (notes : list note) : Prop :=
  exists targets packages, missing_targets targets /\ missing_packages targets packages /\
    notes = match verbose with
            | 0 => []
            | _ => titled NMissingPackages ($"Dependcy graph: Did not find these packages") (map package_to_string packages) ++
                   titled NMissingTargets ($"Dependency graph: Did not find these targets") (map target_to_string targets)
            end.
End Missing.

(** * canonicalize *)
Section Canonicalize.
Variable pt : pattern.
(** The dependencies of the rule, if it is one that is asked for. *)
Definition asked_deps (f : parsed_file) (r : result) : list view :=
  match qualified_target (pf_package f) (v_text (q_name r)) with
  | Some self => if match_target pt self then entries (list_of (q_deps r)) else []
  | None => []
  end.
(** A message for each that is not a label. *)
Definition no_label (f : parsed_file) (dep : view) : bool := match parse_target (v_text dep) (pf_package f) with None => true | Some _ => false end.
Definition no_label_said (f : parsed_file) (dep : view) (m : str) : Prop :=
  exists l, shown_at f dep l /\ m = l ++ $" Invalid target name '" ++ v_text dep ++ $"'" ++ [NL].
Inductive canon_said : list (package * parsed_file) -> list str -> Prop :=
| cs_end : canon_said [] []
| cs_other p f files ms : match_package pt (pf_package f) = false -> canon_said files ms -> canon_said ((p, f) :: files) ms
| cs_file p f files rs ms ms' : match_package pt (pf_package f) = true -> find_targets [] (pf_ast f) = Ret rs ->
    Forall2 (no_label_said f) (filter (no_label f) (flat_map (asked_deps f) rs)) ms -> canon_said files ms' ->
    canon_said ((p, f) :: files) (ms ++ ms').
End Canonicalize.

(** * A run *)
(** A number that is not too big, as it is written. *)
Definition counted (n : nat) (s : str) : Prop := (Z.of_nat n <= 2147483647)%Z -> decimal n s.
Section Reading.
Variable is_directory : str -> bool.
Variable can_read : str -> bool.
Variable glob : str -> list str.
Variable read_file : str -> option str.
Variable glob_in : workspace -> package -> list str -> list str -> list str.
Variable collect : workspace -> pattern -> list str.
Variable verbose : nat.
Variable fl : flags.
Variable cmd : command.
Variable pt : pattern.
(** has-dependent looks at all of the project. *)
Definition read_pattern : pattern := match cmd with CHasDependents => pattern_always | _ => pt end.
(** What is said before the command does its work: of the workspace, of the BUILD files of the pattern, and
    of the dependencies that are followed from there. *)
Inductive graph_notes (w : workspace) (pr0 pr : parsed_project) (g : graph) : list note -> Prop :=
| gn_none : wants_graph cmd && (0 <=? depth_for cmd (fl_depth fl))%Z = false -> pr = pr0 -> graph_notes w pr0 pr g []
| gn_some syntax missing a b c d : wants_graph cmd && (0 <=? depth_for cmd (fl_depth fl))%Z = true ->
    Forall (fun n => about_syntax n = true) syntax ->
    missing_said w read_file can_read (glob_in w) pr0 read_pattern (depth_for cmd (fl_depth fl)) verbose missing ->
    counted (length (pr_files pr0)) a -> counted (length (pr_files pr)) b -> counted (length (depends_on g)) c -> counted (length (has_dependents g)) d ->
    graph_notes w pr0 pr g (syntax ++ missing ++
      match verbose with
      | 0 => []
      | _ => [NExpanded ($"Dependency graph expanded build file# from initial " ++ a ++ $" to " ++ b ++ $"; " ++ c ++ $" targets and " ++ d
                         ++ $" that depend on these." ++ [NL])]
      end).
Inductive reading_said : option (workspace * parsed_project * graph) -> list note -> Prop :=
| rd_nothing : (forall f, In f workspace_files -> read_file f = None) ->
    reading_said None [NNoWorkspace ($"Didn't find any workspace file. Is this a bazel project root ?" ++ [NL])]
| rd_project w pr0 pr g l1 l2 l3 l4 :
    the_workspace is_directory can_read glob read_file w ->
    workspace_complaints read_file workspace_files l1 -> projects_said is_directory can_read glob read_file l2 ->
    (if needs_project cmd pt then pattern_said w read_file (collect w read_pattern) read_pattern l3 else l3 = []) ->
    holds_files w read_file (glob_in w) (if needs_project cmd pt then collect w read_pattern else []) (pat_project read_pattern)
      (elaborate_for cmd (fl_elaborate fl)) pr0 ->
    graph_notes w pr0 pr g l4 ->
    reading_said (Some (w, pr, g)) (l1 ++ l2 ++ l3 ++ l4).
End Reading.
(** Why nothing was done. *)
Definition about_refusal (n : note) : bool := match n with NUsage _ | NNoWorkspace _ => true | _ => false end.

(** What the command says: dwyu as in C77, genrule-outputs of files made twice, canonicalize, and for -g. *)
Section Work.
Variable read_file : str -> option str.
Variable verbose : nat.
Variable texts : library_texts.
Variable fl : flags.
Variable pt : pattern.
Variable w : workspace.
Variable pr : parsed_project.
Definition prints (cmd : command) : Prop := cmd = CPrint \/ cmd = CParse /\ (fl_print_ast fl = true \/ fl_print_only_errors fl = true).
Inductive work_said : command -> list note -> Prop :=
| ws_dwyu evs n log : dependency_edits_told w read_file (fl_ignore_keep fl) verbose (fl_color fl) pr pt = Ret (evs, n, log) -> work_said CDwyu (map NTool log)
| ws_genrule generated log : generated_from_genrule pr false = Ret generated ->
    (forall s, In s log -> exists f t out other, made_again pr generated f t out other /\ again_said f t out other s) ->
    (forall f t out other, made_again pr generated f t out other -> exists s, In s log /\ again_said f t out other s) ->
    work_said CGenruleOutputs (map NTool log)
| ws_canonicalize log : canon_said pt (pr_files pr) log -> work_said CCanonicalize (map NTool log)
| ws_grep cmd : prints cmd -> fl_grep fl = BadGrep -> work_said cmd [NGrep ($"Grep pattern: " ++ lib_grep texts ++ [NL])]
| ws_nothing cmd : ~ In cmd [CDwyu; CGenruleOutputs; CCanonicalize] -> ~ (prints cmd /\ fl_grep fl = BadGrep) -> work_said cmd [].
End Work.

(** What is asked for. *)
Inductive asked : list str -> command -> pattern -> Prop :=
| as_all word cmd : abbreviated command_names word = [cmd] -> ~ In cmd [CCanonicalize; CDwyu; CPrint] -> asked [word] cmd pattern_always
| as_pattern word arg cmd pt : abbreviated command_names word = [cmd] -> parse_pattern arg = PatOk pt -> asked [word; arg] cmd pt.
(** ... or not understood. *)
Inductive refused (texts : library_texts) : list str -> list note -> cli_status -> Prop :=
| rf_nothing : refused texts [] [NUsage ($"Command expected" ++ [NL])] ExitClarification
| rf_unknown word more : abbreviated command_names word = [] ->
    refused texts (word :: more) [NUsage ($"Unknown command prefix '" ++ word ++ $"'" ++ [NL])] ExitClarification
| rf_ambiguous word more a b rest : filter (starts_with word) (map fst command_names) = a :: b :: rest ->
    refused texts (word :: more) [NUsage ($"Command '" ++ word ++ $"' too short and ambiguous: [" ++ a ++ $", " ++ b ++ $", ..." ++ [NL])] ExitClarification
| rf_all word cmd : abbreviated command_names word = [cmd] -> In cmd [CCanonicalize; CDwyu; CPrint] ->
    refused texts [word] [NUsage ($"Please provide a bazel pattern for this command." ++ [NL] ++ $"Examples: //... or //foo/bar:baz" ++ [NL])] ExitFailure
| rf_pattern word arg more cmd : abbreviated command_names word = [cmd] -> parse_pattern arg = PatNone ->
    refused texts (word :: arg :: more) (map NPattern (lib_pattern texts arg) ++ [NUsage ($"Invalid bazel pattern " ++ arg ++ [NL])]) ExitFailure
| rf_more word arg pt x more cmd : abbreviated command_names word = [cmd] -> parse_pattern arg = PatOk pt ->
    refused texts (word :: arg :: x :: more) [NUsage (x ++ $" Sorry, can only deal with at most one pattern right now" ++ [NL])] ExitFailure.

(** A note about the file, and a file that there is nothing to say about. *)
Definition about_file (x : str) (n : note) : Prop :=
  match n with NNoPackage y _ | NUnreadable y _ | NSeen y _ | NSyntax y _ => x = y | _ => False end.
Definition fine_file (w : workspace) (read_file : str -> option str) (proj x : str) : Prop :=
  exists p content stmts, package_of_build_file w x proj = Ret (Some p) /\ read_file x = Some content /\ parse content = Ret (stmts, []).

(** * The program *)
Section Program.
Variable change_dir : list str -> str -> bool.
Variable open_output : list str -> str -> bool.
Variable version_page usage_page : str.
(** A line for each -b. *)
Definition renamed_notes (evs : list opt_event) : list note :=
  map (fun _ => NOption ($"Note, the name of -b option changed to -e" ++ [NL])) (arguments "b" evs).
Definition argument_of (a : option str) : str := match a with Some d => d | None => [] end.
(** An option that ends the program, the exit code, and what is said then. *)
Inductive stops (dirs : list str) : opt_event -> nat -> note -> Prop :=
| st_directory a : change_dir dirs (argument_of a) = false ->
    stops dirs (Opt "C" a) 1 (NOption ($"Can't change into directory " ++ argument_of a ++ [NL]))
| st_output a : argument_of a <> $"-" -> open_output dirs (argument_of a) = false ->
    stops dirs (Opt "o" a) 1 (NOption ($"Could not open '" ++ argument_of a ++ $"'" ++ [NL]))
| st_format a : (forall f, ~ format_of (argument_of a) f) ->
    stops dirs (Opt "f" a) 1 (NPage (version_page ++ usage_page ++ [NL] ++ [ch 27] ++ $"[1;31minvalid -f format" ++ [ch 27] ++ $"[0m" ++ [NL]))
| st_version a : stops dirs (Opt "V" a) 0 (NPage version_page)
| st_help c a : ~ In c ($"CqorkgipEbefvV") -> stops dirs (Opt c a) 0 (NPage (version_page ++ usage_page))
| st_bad : stops dirs OptBad 0 (NPage (version_page ++ usage_page)).
(** What is said even with -q. *)
Definition said_anyway (n : note) : bool :=
  match n with NUnknownProject _ | NNoPackage _ _ | NUnreadable _ _ | NGrep _ | NPattern _ | NOption _ | NPage _ => true | _ => false end.
Definition quieted (evs : list opt_event) (l : list note) : list note := if given "q" evs then filter said_anyway l else l.
End Program.
