(** The compilation database (/repo/bant/tool/compilation-db.cc). *)
From Verif Require Import Base OMap M_Types M_Scanner M_Ast M_Query M_Workspace M_Project.

(** \s of RE2. *)
Definition re_blank (c : ascii) : bool := ceqb c " " || ceqb c "009" || ceqb c "010" || ceqb c "012" || ceqb c "013".
Definition re_quote (c : ascii) : bool := ceqb c SQ || ceqb c DQ.
Fixpoint skip_while (f : ascii -> bool) (s : str) : str :=
  match s with c :: r => if f c then skip_while f r else s | [] => [] end.
Fixpoint take_while (f : ascii -> bool) (s : str) : str :=
  match s with c :: r => if f c then c :: take_while f r else [] | [] => [] end.
Definition without (prefix s : str) : option str := if starts_with prefix s then Some (skipn (length prefix) s) else None.
Definition skip_one (f : ascii -> bool) (s : str) : str := match s with c :: r => if f c then r else s | [] => [] end.
(** compilation-db.cc:72-73, the expression --(?:host_)?cxxopt\s*=?\s*['"]?(-[^\s"']+) at the beginning of [s]:
    what the group matches and the text after it.  No two adjacent parts of it can
    match the same character, so it is matched without going back.  (Bytes that are not UTF-8 do
    not match [^...] in RE2; here they do.) *)
Definition cxxopt_at (s : str) : option (str * str) :=
  match without ($"--") s with
  | None => None
  | Some s =>
      match without ($"cxxopt") (match without ($"host_") s with Some r => r | None => s end) with
      | None => None
      | Some s =>
          match skip_one re_quote (skip_while re_blank (skip_one (fun c => ceqb c "=") (skip_while re_blank s))) with
          | c :: s =>
              let value c := negb (re_blank c || re_quote c) in
              if ceqb c "-" && negb (is_nil (take_while value s)) then Some (c :: take_while value s, skip_while value s) else None
          | [] => None
          end
      end
  end.
(** compilation-db.cc:82-86: FindAndConsume() in a loop; [skip] is how much of the last match there is
    still to go over. *)
Fixpoint cxx_options (skip : nat) (s : str) : list str :=
  match s with
  | [] => []
  | _ :: r =>
      match skip with
      | S skip => cxx_options skip r
      | 0 =>
          match cxxopt_at s with
          | Some (o, rest) => o :: cxx_options (length r - length rest) r
          | None => cxx_options 0 r
          end
      end
  end.
(** The set of those already seen. *)
Fixpoint unseen (seen l : list str) : list str :=
  match l with
  | [] => []
  | x :: l => if existsb (str_eqb x) seen then unseen seen l else x :: unseen (x :: seen) l
  end.
(** compilation-db.cc:89-90: the expression define.*absl=1; the dot is not a newline. *)
Fixpoint absl_on_line (s : str) : bool :=
  starts_with ($"absl=1") s || match s with c :: r => negb (ceqb c NL) && absl_on_line r | [] => false end.
Fixpoint defines_absl (s : str) : bool :=
  (starts_with ($"define") s && absl_on_line (skipn 6 s)) || match s with _ :: r => defines_absl r | [] => false end.
(** compilation-db.cc:66-95, ExtractOptionsFromBazelrc(content): [rc] is what the file .bazelrc contains; [content] is not used. *)
Definition extract_options_from_bazelrc (rc : option str) (content : str) : list str :=
  match rc with
  | None => []
  | Some text => unseen [] (cxx_options 0 text) ++ (if defines_absl text then [$"-DGTEST_HAS_ABSL=1"] else [])
  end.
(** compilation-db.cc:97-102, ExtractOptionsFromBazelrcFile. *)
Definition bazelrc_options (rc : option str) : list str :=
  match rc with None => [] | Some content => extract_options_from_bazelrc rc content end.

(** compilation-db.cc:152-231: what is already_seen, and the directories of the result. *)
Record incdirs := mkDirs { id_seen : list str; id_dirs : list str }.
(** The directories are added if the key is new. *)
Definition want (key : str) (dirs : list str) (st : incdirs) : incdirs :=
  if existsb (str_eqb key) (id_seen st) then st else mkDirs (key :: id_seen st) (id_dirs st ++ dirs).
Definition want_dir (dir : str) : incdirs -> incdirs := want dir [dir].
(** compilation-db.cc:112-150, ProtobufHack. *)
Definition protobuf_dirs (proj : str) : list str :=
  map (fun pt => $"bazel-bin/external/" ++ skipn 1 proj ++ $"/src/google/protobuf/" ++ fst pt ++ $"_virtual_includes/" ++ snd pt)
    [([], $"protobuf_headers"); ($"stubs/", $"lite"); ($"io/", $"io")].
Definition protobuf_hack (t : target) (is_proto_library : bool) (st : incdirs) : incdirs :=
  let proj := project (tpackage t) in
  if negb (contains ($"protobuf") proj) then st
  else
    let key := $"protobuf-extra-include-hack" in
    let st := if existsb (str_eqb key) (id_seen st) then st
              else fold_left (fun st d => want_dir d st) (protobuf_dirs proj) (mkDirs (key :: id_seen st) (id_dirs st)) in
    if is_proto_library
    then want_dir ($"bazel-bin/external/" ++ skipn 1 proj ++ $"/src/google/protobuf/_virtual_includes/" ++ tname t) st
    else st.
(** compilation-db.cc:202-226: a dependency.  [substr(1)] does not throw since the name is not empty. *)
Definition want_project (w : workspace) (p : package) (label : str) (st : incdirs) : incdirs :=
  match parse_target label p with
  | None => st
  | Some t =>
      let proj := project (tpackage t) in
      if is_nil proj then st
      else want proj (match find_path_by_project w proj with
                      | None => []
                      | Some dir => [dir; $"bazel-bin/external/" ++ skipn 1 proj]
                      end) st
  end.
(** compilation-db.cc:166-227: one rule.  [target] is dereferenced without a test; substr(1) of the
    empty name of the main project throws std::out_of_range, which nobody catches: UB as well. *)
Definition rule_dirs (w : workspace) (p : package) (r : result) (st : incdirs) : outcome incdirs :=
  do incs <- extract_string_list (q_includes r);
  let st := fold_left (fun st i => want_dir (fully_qualified_file w p (v_text i)) st) incs st in
  match qualified_target p (v_text (q_name r)) with
  | None => UB
  | Some t =>
      do st <- (if is_nil (v_text (q_include_prefix r)) then Ret st
                else match project (tpackage t) with
                     | [] => UB
                     | _ :: name =>
                         Ret (want_dir ($"bazel-bin/external/" ++ name ++ $"/" ++ path (tpackage t) ++ $"/_virtual_includes/" ++ tname t) st)
                     end);
      let st := protobuf_hack t (str_eqb (v_text (q_rule r)) ($"proto_library")) st in
      do deps <- extract_string_list (q_deps r);
      Ret (fold_left (fun st d => want_project w p (v_text d) st) deps st)
  end.
Fixpoint rules_dirs (w : workspace) (p : package) (rs : list result) (st : incdirs) : outcome incdirs :=
  match rs with
  | [] => Ret st
  | r :: rs => do st <- rule_dirs w p r st; rules_dirs w p rs st
  end.
Definition compiled_kinds : list str := [$"cc_library"; $"cc_binary"; $"cc_test"].
Fixpoint files_dirs (w : workspace) (files : list (package * parsed_file)) (st : incdirs) : outcome incdirs :=
  match files with
  | [] => Ret st
  | (_, f) :: files =>
      do rs <- find_targets [$"cc_library"; $"cc_binary"; $"cc_test"; $"proto_library"] (pf_ast f);
      do st <- rules_dirs w (pf_package f) rs st;
      files_dirs w files st
  end.
(** compilation-db.cc:152-231, CollectIncDirs. *)
Definition collect_inc_dirs (w : workspace) (pr : parsed_project) : outcome (list str) :=
  do st <- files_dirs w (pr_files pr) (mkDirs [] [$"."; $"bazel-bin"]);
  Ret (id_dirs st).

(** compilation-db.cc:43-50: in quotes. *)
Definition q (s : str) : str := [DQ] ++ s ++ [DQ].
(** compilation-db.cc:233-248, EncodeFlagsIncludeAsJson. *)
Definition flags_json (options dirs : list str) : str :=
  flat_map (fun o => $"      " ++ q o ++ $"," ++ [NL]) options
  ++ flat_map (fun d => $"      " ++ q ($"-iquote") ++ $", " ++ q d ++ $"," ++ [NL]) dirs.
(** compilation-db.cc:53-58, kCommonDefaultOptions. *)
Definition default_options : list str := [$"-xc++"; $"-U_FORTIFY_SOURCE"; $"-O2"; $"-DNDEBUG"].
(** compilation-db.cc:265-276: one entry. *)
Definition db_entry (cwd external_inc_json abs_src : str) : str :=
  $"  {" ++ [NL]
  ++ $"    " ++ q ($"file") ++ $": " ++ q abs_src ++ $"," ++ [NL]
  ++ $"    " ++ q ($"arguments") ++ $": [" ++ [NL]
  ++ $"      " ++ q ($"gcc") ++ $"," ++ [NL]
  ++ flat_map (fun o => $"      " ++ q o ++ $"," ++ [NL]) default_options
  ++ external_inc_json
  ++ $"      " ++ q ($"-c") ++ $", " ++ q abs_src ++ $"," ++ [NL]
  ++ $"     ]," ++ [NL]
  ++ $"     " ++ q ($"directory") ++ $": " ++ q cwd ++ [NL]
  ++ $"  }," ++ [NL].
(** compilation-db.cc:250-278, WriteCompilationDBEntry: what is written, and the files for which there is an
    entry. *)
Fixpoint write_entries (cwd json : str) (files : list str) (written : list str) : str * list str :=
  match files with
  | [] => ([], written)
  | f :: files =>
      if existsb (str_eqb f) written then write_entries cwd json files written
      else let (out, written) := write_entries cwd json files (f :: written) in (db_entry cwd json f ++ out, written)
  end.
Definition rule_sources (r : result) : outcome (list view) :=
  do srcs <- extract_string_list (q_srcs r);
  do hdrs <- extract_string_list (q_hdrs r);
  Ret (srcs ++ hdrs).
(** compilation-db.cc:303-310: the rules of a file. *)
Fixpoint write_rules (w : workspace) (pt : pattern) (cwd json : str) (p : package) (rs : list result) (written : list str)
  : outcome (str * list str) :=
  match rs with
  | [] => Ret ([], written)
  | r :: rs =>
      match qualified_target p (v_text (q_name r)) with
      | Some t =>
          if match_target pt t then
            do sources <- rule_sources r;
            let (out, written) := write_entries cwd json (map (fun v => fully_qualified_file w p (v_text v)) sources) written in
            do (more, written) <- write_rules w pt cwd json p rs written;
            Ret (out ++ more, written)
          else write_rules w pt cwd json p rs written
      | None => write_rules w pt cwd json p rs written
      end
  end.
Fixpoint write_files (w : workspace) (pt : pattern) (cwd json : str) (files : list (package * parsed_file)) (written : list str)
  : outcome (str * list str) :=
  match files with
  | [] => Ret ([], written)
  | (_, f) :: files =>
      if match_package pt (pf_package f) then
        do rs <- find_targets compiled_kinds (pf_ast f);
        do (out, written) <- write_rules w pt cwd json (pf_package f) rs written;
        do (more, written) <- write_files w pt cwd json files written;
        Ret (out ++ more, written)
      else write_files w pt cwd json files written
  end.
(** compilation-db.cc:280-313, WriteCompilationDB; [cwd] is the current directory. *)
Definition write_compilation_db (cwd : str) (rc : option str) (w : workspace) (pr : parsed_project) (pt : pattern) : outcome str :=
  do dirs <- collect_inc_dirs w pr;
  do (out, _) <- write_files w pt cwd (flags_json (bazelrc_options rc) dirs) (pr_files pr) [];
  Ret ($"[" ++ [NL] ++ out ++ $"]" ++ [NL]).
(** compilation-db.cc:315-326, the static WriteCompilationFlags. *)
Definition write_compile_flags (rc : option str) (w : workspace) (pr : parsed_project) : outcome str :=
  do dirs <- collect_inc_dirs w pr;
  Ret (flat_map (fun o => o ++ [NL]) (bazelrc_options rc) ++ flat_map (fun d => $"-I" ++ d ++ [NL]) dirs).
(** compilation-db.cc:329-337, WriteCompilationFlags: the parameter [compilation_flags] of M_Commands. *)
Definition write_flags (cwd : str) (rc : option str) (w : workspace) (pr : parsed_project) (pt : pattern) (as_db : bool) : outcome str :=
  if as_db then write_compilation_db cwd rc w pr pt else write_compile_flags rc w pr.
