(** What dwyu tells on the info stream (session.info(), /repo/bant/tool/dwyu.cc): M_Dwyu with the
    messages, each of them as the text that is written, and -v, which decides about some of them.
    With -q the stream goes nowhere (bant.cc:164-167). *)
From Verif Require Import Base OMap M_Types M_Scanner M_Ast M_Parser M_Query M_Workspace M_Project M_Headers M_Includes M_Dwyu M_Edits
  M_Printer M_Highlight M_Commands.

(** header-providers.cc:330-346: the files one genrule makes; a message if another one made
    them before.  Only for the main project. *)
Fixpoint genfiles_told (f : parsed_file) (suffix_index : bool) (t : target) (genfiles : list view) (m : provided)
  : outcome (provided * list str) :=
  match genfiles with
  | [] => Ret (m, [])
  | g :: genfiles =>
      let gen_fqn := qualified_file (pf_package f) (v_text g) in
      let key := key_transform gen_fqn suffix_index in
      do told <- (match map_find key m with
                  | Some other =>
                      if negb (target_eqb t other) && is_nil (project (pf_package f)) then
                        do l <- loc f g;
                        Ret [l ++ $" '" ++ gen_fqn ++ $"' in " ++ target_to_string t ++ $" also created by "
                             ++ target_to_string other ++ [NL]]
                      else Ret []
                  | None => Ret []
                  end);
      do (m, told') <- genfiles_told f suffix_index t genfiles (map_insert key t m);
      Ret (m, told ++ told')
  end.
Fixpoint genrules_told (f : parsed_file) (suffix_index : bool) (rs : list result) (m : provided) : outcome (provided * list str) :=
  match rs with
  | [] => Ret (m, [])
  | r :: rs =>
      do genfiles <- extract_string_list (q_outs r);
      do (m, told) <- (match qualified_target (pf_package f) (v_text (q_name r)) with
                       | None => Ret (m, [])
                       | Some t => genfiles_told f suffix_index t genfiles m
                       end);
      do (m, told') <- genrules_told f suffix_index rs m;
      Ret (m, told ++ told')
  end.
Fixpoint genrules_of_files_told (suffix_index : bool) (files : list (package * parsed_file)) (m : provided) : outcome (provided * list str) :=
  match files with
  | [] => Ret (m, [])
  | (_, f) :: files =>
      do rs <- find_targets [$"genrule"] (pf_ast f);
      do (m, told) <- genrules_told f suffix_index rs m;
      do (m, told') <- genrules_of_files_told suffix_index files m;
      Ret (m, told ++ told')
  end.
(** header-providers.cc:317-352, ExtractGeneratedFromGenrule. *)
Definition generated_from_genrule_told (pr : parsed_project) (suffix_index : bool) : outcome (provided * list str) :=
  genrules_of_files_told suffix_index (pr_files pr) [].

(** dwyu.cc:550-556: the line index of a source, up to the end of the last include. *)
Definition include_lines (content : str) (incs : list (nat * str)) : line_map :=
  match incs with
  | [] => []
  | _ => let '(off, p) := last incs (0, []) in line_map_of (firstn (off + length p) content)
  end.
(** named-content.cc:28-32 and source-locator.cc:47-57, Loc() of an include in a source. *)
Definition source_loc (name content : str) (incs : list (nat * str)) (off len : nat) : outcome str :=
  if length content <? off + len then UB
  else
    match get_range (include_lines content incs) off len with
    | Some r => Ret (name ++ $":" ++ print_lc_range r)
    | None => UB
    end.

Section Dwyu.
Variable w : workspace.
Variable read_file : str -> option str.
(** flags().ignore_keep_comment, flags().verbose and flags().do_color. *)
Variable ignore_keep : bool.
Variable verbose : nat.
Variable color : bool.
(** The members headers_from_libs_, files_from_genrules_ and known_libs_. *)
Variable headers : provided_set.
Variable generated : provided.
Variable known : list (target * result).

(** dwyu.cc:123-139, TryOpenFile: path, content and is_generated. *)
Fixpoint try_locations_at (locations : list str) (file : str) (is_generated : bool) : option (str * str * bool) :=
  match locations with
  | [] => None
  | l :: locations =>
      match read_file (l ++ file) with
      | Some c => Some (l ++ file, c, is_generated)
      | None => try_locations_at locations file true
      end
  end.
Definition try_open_at (file : str) : option (str * str * bool) := try_locations_at source_locations file false.

(** dwyu.cc:255-271, maybe_log; [l] is the location of the include. *)
Fixpoint provider_lines (t : target) (l : str) (alternatives : list target) : outcome (list str) :=
  match alternatives with
  | [] => Ret []
  | a :: alternatives =>
      do v <- can_see known t a;
      do rest <- provider_lines t l alternatives;
      Ret ((l ++ $"    | " ++ target_to_string a
            ++ (if v then []
                else (if color then ESC :: $"[31m" else []) ++ $" (not visible)" ++ (if color then ESC :: $"[0m" else []))
            ++ [NL]) :: rest)
  end.
Definition maybe_log (t : target) (l inc : str) (alternatives : list target) : outcome (list str) :=
  if verbose <? 3 then Ret []
  else
    do r <- provider_lines t l alternatives;
    Ret ((l ++ $" #include """ ++ inc ++ $"""" ++ [NL]) :: r).
(** dwyu.cc:334-336, 365-367. *)
Definition relative_message (l inc : str) : str :=
  l ++ $" " ++ inc ++ $" header relative to this file. " ++ $"Consider FQN relative to project root." ++ [NL].
(** dwyu.cc:347-354. *)
Definition fuzzy_message (l inc : str) (found : find_result) : list str :=
  if negb (length (fr_match found) =? length inc) && (1 <? verbose)
  then [l ++ $" FYI: instead of '" ++ inc ++ $"' found library that " ++ $"provides "
        ++ (if length (fr_match found) <? length inc then $"shorter" else $"longer")
        ++ $" same-suffix path '" ++ fr_match found ++ $"'" ++ [NL]]
  else [].
(** dwyu.cc:327-406: one include, found at [l] in a source that is generated or not.  The messages,
    and need_in_source_referenced_message. *)
Definition include_told (t : target) (p : package) (sources : list str) (is_generated : bool) (l inc : str)
  : outcome (list str * bool) :=
  let complain := if is_generated then ([], false) else ([relative_message l inc], true) in
  if is_header_in_list inc sources (path (tpackage t)) then Ret ([], false)
  else if is_header_in_list inc sources [] then Ret complain
  else
    match find_by_suffix headers inc 2 with
    | Some found =>
        do r <- maybe_log t l inc (fr_targets found);
        Ret (fuzzy_message l inc found ++ r, false)
    | None =>
        match find_by_suffix headers (qualified_file p inc) 2 with
        | Some found =>
            do r <- maybe_log t l inc (fr_targets found);
            Ret (fst complain ++ r, snd complain)
        | None =>
            match map_find inc generated with
            | Some g =>
                Ret ([l ++ $" " ++ inc ++ $" not accounted for; generated by genrule " ++ target_to_string g
                      ++ $", but not " ++ $"in hdrs=[...] of any cc_library() we depend on." ++ [NL]], true)
            | None =>
                if 0 <? verbose
                then Ret ([l ++ $" unknown provider for " ++ inc
                           ++ $" -- Missing or from non-standard bazel-rule ?" ++ [NL]], true)
                else Ret ([], false)
            end
        end
    end.
(** dwyu.cc:326-406: the includes of one source, [name] with [content].  In the code the alternatives
    of M_Dwyu's [needed_by_includes] are collected by the same loop; [Loc] is only called if there is
    something to say, and never fails (C77). *)
Fixpoint includes_told (t : target) (p : package) (sources : list str) (is_generated : bool) (name content : str)
  (all incs : list (nat * str)) : outcome (list str * bool) :=
  match incs with
  | [] => Ret ([], false)
  | (off, inc) :: incs =>
      do l <- source_loc name content all off (length inc);
      do (told, refer) <- include_told t p sources is_generated l inc;
      do (told', refer') <- includes_told t p sources is_generated name content all incs;
      Ret (told ++ told', refer || refer')
  end.
(** dwyu.cc:289-413: one source of a target in [f]. *)
Definition source_told (t : target) (f : parsed_file) (sources : list str) (src : view) : outcome (list str) :=
  let source_file := fully_qualified_file w (pf_package f) (v_text src) in
  match try_open_at source_file with
  | None =>
      do l <- loc f src;
      Ret [l ++ $" Can not read source '" ++ source_file ++ $"' for target " ++ target_to_string t
           ++ match map_find source_file generated with
              | Some g => $"; Run genrule `bazel build " ++ target_to_string g ++ $"` first." ++ [NL]
              | None => $" -- Missing ?" ++ [NL]
              end]
  | Some (name, content, is_generated) =>
      let incs := extract_cc_includes content in
      do (told, refer) <- includes_told t (pf_package f) sources is_generated name content incs incs;
      if refer then
        do l <- loc f src;
        Ret (told ++ [l ++ $" ^... in source '" ++ v_text src ++ $"' referenced by " ++ target_to_string t ++ [NL]])
      else Ret told
  end.
(** dwyu.cc:239-418, DependenciesNeededBySources. *)
Fixpoint sources_told (t : target) (f : parsed_file) (sources : list str) (todo : list view) : outcome (list str) :=
  match todo with
  | [] => Ret []
  | src :: todo =>
      do told <- source_told t f sources src;
      do told' <- sources_told t f sources todo;
      Ret (told ++ told')
  end.

(** dwyu.cc:458-462, 471-484 and 498-502: the message about a dependency. *)
Definition dep_told (t : target) (f : parsed_file) (dep : view) (e : event) : outcome (list str) :=
  match e with
  | EvInvalid _ _ =>
      do l <- loc f dep;
      Ret [l ++ $" Invalid target name '" ++ v_text dep ++ $"'" ++ [NL]]
  | EvAgain _ _ previously =>
      do l <- loc f dep;
      let same := match parse_target (v_text dep) (tpackage t) with Some d => target_eqb previously d | None => false end in
      Ret [l ++ $" in target " ++ target_to_string t ++ $": dependency " ++ v_text dep
           ++ (if same then $" same dependency mentioned multiple times. Run buildifier"
               else $" provides headers already provided by " ++ target_to_string previously
                    ++ $" before. Multiple libraries providing the same headers ?") ++ [NL]]
  | EvUnsure _ _ =>
      if 1 <? verbose then
        match parse_target (v_text dep) (tpackage t) with
        | Some d =>
            do l <- loc f dep;
            Ret [l ++ $": Unsure what " ++ target_to_string d
                 ++ $" provides, but there are also unaccounted headers. Won't remove." ++ [NL]]
        | None => UB
        end
      else Ret []
  | _ => Ret []
  end.
(** dwyu.cc:455-503: the dependencies, with M_Dwyu's [check_dep]. *)
Fixpoint flat_told {A} (g : A -> outcome (list str)) (l : list A) : outcome (list str) :=
  match l with
  | [] => Ret []
  | x :: l => do a <- g x; do b <- flat_told g l; Ret (a ++ b)
  end.
Fixpoint check_deps_told (t : target) (f : parsed_file) (all_known : bool) (deps : list view)
  (needed : list (list target)) (checked : list (target * target)) : outcome (list (list target) * list event * list str) :=
  match deps with
  | [] => Ret (needed, [], [])
  | dep :: deps =>
      do (needed, checked, ev) <- check_dep ignore_keep known t f all_known dep needed checked;
      do told <- flat_told (dep_told t f dep) ev;
      do (needed, ev', told') <- check_deps_told t f all_known deps needed checked;
      Ret (needed, ev ++ ev', told ++ told')
  end.
(** dwyu.cc:521-525. *)
Definition invisible_told (f : parsed_file) (details : result) (dep : target) : outcome (list str) :=
  if 1 <? verbose then
    do l <- loc f (q_name details);
    Ret [l ++ $": Would add " ++ target_to_string dep ++ $", but not visible" ++ [NL]]
  else Ret [].
(** dwyu.cc:187-190 and 508-525: the message about what is needed.  The rule that is known for the
    target comes from the same package, hence the same file. *)
Definition need_told (t : target) (f : parsed_file) (details : result) (e : event) : outcome (list str) :=
  match e with
  | EvAmbiguous _ alternatives =>
      do l <- loc f (q_name details);
      Ret [l ++ $" Can't auto-fix: Referenced headers in " ++ target_to_string t
           ++ $" need exactly one of multiple choices" ++ [NL] ++ $"Alternatives are:" ++ [NL]
           ++ flat_map (fun a => ch 9 :: target_to_string a ++ [NL]) alternatives]
  | EvTestonly _ dep =>
      match map_find t known with
      | Some target_detail =>
          do l <- loc f (q_name target_detail);
          do more <- invisible_told f details dep;
          Ret ((l ++ $" '" ++ target_to_string t ++ $"' is using headers that would be provided by '" ++ target_to_string dep
                ++ $"', but the latter is marked testonly, the former not. " ++ $"Not adding dependency." ++ [NL]) :: more)
      | None => UB
      end
  | EvInvisible _ dep => invisible_told f details dep
  | _ => Ret []
  end.
(** dwyu.cc:420-527, CreateEditsForTarget. *)
Definition create_edits_told (t : target) (details : result) (f : parsed_file) : outcome (list event * list str) :=
  do srcs <- extract_string_list (q_srcs details);
  do hdrs <- extract_string_list (q_hdrs details);
  let files := srcs ++ hdrs in
  let sources := map v_text files in
  do (needed, all_known) <- needed_by_sources w read_file headers known t (pf_package f) sources sources;
  do told <- sources_told t f sources files;
  do needed <- minimize needed;
  do deps <- extract_string_list (q_deps details);
  do (needed, ev, told') <- check_deps_told t f all_known deps needed [];
  do ev' <- add_all_needed known t needed;
  do told'' <- flat_told (need_told t f details) ev';
  Ret (ev ++ ev', told ++ told' ++ told'').
(** dwyu.cc:575-594, CreateEditsForPattern. *)
Fixpoint rules_told (pt : pattern) (f : parsed_file) (rs : list result) : outcome (list event * nat * list str) :=
  match rs with
  | [] => Ret ([], 0, [])
  | r :: rs =>
      match qualified_target (pf_package f) (v_text (q_name r)) with
      | Some t =>
          if match_target pt t then
            do (ev, told) <- create_edits_told t r f;
            do (ev', n, told') <- rules_told pt f rs;
            Ret (ev ++ ev', S n, told ++ told')
          else rules_told pt f rs
      | None => rules_told pt f rs
      end
  end.
Fixpoint files_told (pt : pattern) (files : list (package * parsed_file)) : outcome (list event * nat * list str) :=
  match files with
  | [] => Ret ([], 0, [])
  | (_, f) :: files =>
      if match_package pt (pf_package f) then
        do rs <- find_targets [$"cc_library"; $"cc_binary"; $"cc_test"] (pf_ast f);
        do (ev, n, told) <- rules_told pt f rs;
        do (ev', n', told') <- files_told pt files;
        Ret (ev ++ ev', n + n', told ++ told')
      else files_told pt files
  end.
End Dwyu.

(** dwyu.cc:608-612. *)
Definition summary (targets edits : nat) : str :=
  $"Checked DWYU on " ++ print_int (Z.of_nat targets) ++ $" targets."
  ++ (if 0 <? edits then $" Emitted " ++ print_int (Z.of_nat edits) ++ $" edits." else []) ++ [NL].
(** dwyu.cc:560-573 and 596-614, the constructor and CreateDependencyEdits: the events, the number of
    targets, and what is written to session.info(), in pieces. *)
Definition dependency_edits_told (w : workspace) (read_file : str -> option str) (ignore_keep : bool) (verbose : nat) (color : bool)
  (pr : parsed_project) (pt : pattern) : outcome (list event * nat * list str) :=
  do headers <- header_to_lib pr true;
  do (generated, told) <- generated_from_genrule_told pr false;
  do known <- known_libraries pr;
  do (ev, n, told') <- files_told w read_file ignore_keep verbose color headers generated known pt (pr_files pr);
  Ret (ev, n, told ++ told' ++ [summary n (length (edits_of_events ev))]).
