(** Specification for C76: projects in which dependencies are spelled in another way, and
    what it means to follow the renames canonicalize asks for. *)
From Verif Require Import Base OMap M_Types M_Scanner M_Ast M_Parser M_Query S_Query M_Elab M_Workspace M_Project M_DepGraph S_DepGraph
  M_Headers S_Headers M_Dwyu S_Dwyu S_Converge M_Edits M_Commands M_System S_Relaid.

(** What is loaded by load(). *)
Definition load_texts (r : result) : list str :=
  match q_node r with NCall _ (NList _ args) => texts args | _ => [] end.
(** The rules are the same but for the dependencies, which are related one by one; comments
    that keep them have stayed. *)
Definition rule_with (D : str -> str -> Prop) (f f' : parsed_file) (r r' : result) : Prop :=
  v_text (q_rule r) = v_text (q_rule r') /\ v_text (q_name r) = v_text (q_name r') /\
  v_text (q_actual r) = v_text (q_actual r') /\ v_text (q_include_prefix r) = v_text (q_include_prefix r') /\
  v_text (q_strip_include_prefix r) = v_text (q_strip_include_prefix r') /\ v_text (q_deprecation r) = v_text (q_deprecation r') /\
  q_alwayslink r = q_alwayslink r' /\ q_testonly r = q_testonly r' /\
  same_list (q_srcs r) (q_srcs r') /\ same_list (q_hdrs r) (q_hdrs r') /\ same_list (q_textual_hdrs r) (q_textual_hdrs r') /\
  same_list (q_public_hdrs r) (q_public_hdrs r') /\ same_list (q_includes r) (q_includes r') /\ same_list (q_outs r) (q_outs r') /\
  same_labels (q_visibility r) (q_visibility r') /\ load_texts r = load_texts r' /\
  Forall2 (fun d d' => D (v_text d) (v_text d') /\ (marked (pf_content f) d <-> marked (pf_content f') d'))
    (entries (list_of (q_deps r))) (entries (list_of (q_deps r'))).
(** Files with the same rules but for the dependencies. *)
Definition file_with (D : package -> result -> str -> str -> Prop) (f f' : parsed_file) : Prop :=
  pf_package f = pf_package f' /\ pf_name f = pf_name f' /\
  Forall proper_call (flat_map rule_calls (pf_ast f)) /\ Forall proper_call (flat_map rule_calls (pf_ast f')) /\
  exists rs rs', find_targets_allow_empty [] (pf_ast f) = Ret rs /\ find_targets_allow_empty [] (pf_ast f') = Ret rs' /\
    Forall2 (fun r r' => rule_with (D (pf_package f) r) f f' r r') rs rs'.
Definition project_with (F : parsed_file -> parsed_file -> Prop) (pr pr' : parsed_project) : Prop :=
  Forall2 (fun x x' => fst x = fst x' /\ F (snd x) (snd x')) (pr_files pr) (pr_files pr').

(** Each dependency names the same target as before, or none as before. *)
Definition means_same (p : package) (_ : result) (l l' : str) : Prop := parse_target l p = parse_target l' p.
Definition file_respelled (f f' : parsed_file) : Prop := f = f' \/ file_with means_same f f'.
Definition project_respelled : parsed_project -> parsed_project -> Prop := project_with file_respelled.

(** The renames for rule [r] are done; all else is left alone. *)
Definition renamed_in (edits : list edit) (t : target) (l l' : str) : Prop :=
  In (mkEdit KRename t l l') edits \/ ((forall after, ~ In (mkEdit KRename t l after) edits) /\ l' = l).
Definition renamed_dep (edits : list edit) (p : package) (r : result) (l l' : str) : Prop :=
  match qualified_target p (v_text (q_name r)) with Some t => renamed_in edits t l l' | None => l' = l end.
Definition project_renamed (edits : list edit) : parsed_project -> parsed_project -> Prop := project_with (file_with (renamed_dep edits)).

(** The dependencies that name something degenerate: a target without package and name, or
    one in a project with an empty name (C02). *)
Definition plain_labels (pr : parsed_project) : Prop :=
  forall key f rs r l t, In (key, f) (pr_files pr) -> find_targets_allow_empty [] (pf_ast f) = Ret rs -> In r rs ->
    In l (texts (list_of (q_deps r))) -> parse_target l (pf_package f) = Some t ->
    project (tpackage t) <> $"@" /\ target_to_string_rel t (pf_package f) <> [].
(** The file of a package as it comes from the disk. *)
Definition on_disk (w : workspace) (read_file : str -> option str) (can_read : str -> bool)
  (glob_in : package -> list str -> list str -> list str) (p : package) (f : parsed_file) : Prop :=
  exists name content stmts errs ast,
    path_for_package w can_read p = Some name /\ read_file name = Some content /\
    parse content = Ret (stmts, errs) /\ elaborate (glob_in p) stmts = Ret ast /\
    f = mkFile p name content ast errs.
(** What dwyu says, but for the spelling of dependencies. *)
Definition same_event (e e' : event) : Prop :=
  match e, e' with
  | EvRemove t l, EvRemove t' l' | EvInvalid t l, EvInvalid t' l' | EvUnsure t l, EvUnsure t' l' =>
      t = t' /\ parse_target l (tpackage t) = parse_target l' (tpackage t)
  | EvAgain t l x, EvAgain t' l' x' => t = t' /\ parse_target l (tpackage t) = parse_target l' (tpackage t) /\ x = x'
  | EvAdd t l, EvAdd t' l' => t = t' /\ l = l'
  | EvAmbiguous t x, EvAmbiguous t' x' => t = t' /\ x = x'
  | EvTestonly t x, EvTestonly t' x' | EvInvisible t x, EvInvisible t' x' => t = t' /\ x = x'
  | _, _ => False
  end.

(** * On disk *)
(** What is parsed, and what it becomes by elaboration, has the same rules with the dependencies spelled in another way. *)
Definition respelled_in (p : package) (name c c' : str) : Prop := forall stmts errs stmts' errs',
  parse c = Ret (stmts, errs) -> parse c' = Ret (stmts', errs') ->
  file_respelled (mkFile p name c stmts errs) (mkFile p name c' stmts' errs') /\
  forall files ast ast', elaborate files stmts = Ret ast -> elaborate files stmts' = Ret ast' ->
    file_respelled (mkFile p name c ast errs) (mkFile p name c' ast' errs').
(** Files may be respelled; [asked]: the packages they are read for. *)
Definition disk_respelled (asked : package -> str -> Prop) (content content' : str -> option str) : Prop := forall name,
  match content name, content' name with
  | Some c, Some c' => c = c' \/ forall p, asked p name -> respelled_in p name c c'
  | None, None => True
  | _, _ => False
  end.
(** The files a command reads and the packages it takes them for. *)
Definition reads_for (fuel : nat) (fs : file_system) (fl : flags) (args : list str) (p : package) (name : str) : Prop :=
  exists cmd pt w pr g f, commanded args cmd /\ (length args = 1 /\ pt = pattern_always \/ exists word arg, args = [word; arg] /\ parse_pattern arg = PatOk pt) /\
    prepare (is_dir fs) (fs_can_read fs) (fs_glob fs) (fs_content fs) (globbed_files fuel fs) (found_build_files fuel fs) fl cmd pt = Ret (Some (w, pr, g)) /\
    In (p, f) (pr_files pr) /\ pf_name f = name.
(** The commands that print dependencies as they are spelled, or places in the file. *)
Definition shows_spelling (fl : flags) (cmd : command) : bool :=
  match cmd with CDwyu | CCanonicalize => true | _ => shows_places fl cmd end.
