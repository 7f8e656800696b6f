(** "Depend on what you use" (/repo/bant/tool/dwyu.cc). *)
From Verif Require Import Base OMap M_Types M_Scanner M_Ast M_Parser M_Query M_Workspace M_Project M_Headers M_Includes.

(** dwyu.cc:66-79, IsHeaderInList. *)
Definition is_header_in_list (header : str) (l : list str) (prefix_path : str) : bool :=
  existsb (fun item => ends_with item header
             && (str_eqb header item || str_eqb (prefix_path ++ $"/" ++ item) header)) l.

(** dwyu.cc:94-119, MinimizeDependencySet: the inner loop (107-112) from position [j] on
    and the outer loop from [i] on; the sets of covered positions as sorted lists.  [UB]
    if the CHECK of line 113 fails. *)
Fixpoint absorb (current : list target) (j : nat) (l : list (list target)) (covered : list nat)
  : list target * list nat :=
  match l with
  | [] => (current, covered)
  | s :: l =>
      let both := set_inter current s in
      if is_nil both then absorb current (S j) l covered
      else absorb both (S j) l (set_insert j covered)
  end.
Fixpoint minimize_from (i : nat) (l : list (list target)) (covered : list nat) : outcome (list (list target) * list nat) :=
  match l with
  | [] => Ret ([], covered)
  | s :: l =>
      if set_mem i covered then minimize_from (S i) l covered
      else
        let '(current, covered) := absorb s (S i) l (set_insert i covered) in
        if is_nil current then UB
        else do (r, covered) <- minimize_from (S i) l covered; Ret (current :: r, covered)
  end.
(** With the CHECK of line 117. *)
Definition minimize (to_reduce : list (list target)) : outcome (list (list target)) :=
  do (r, covered) <- minimize_from 0 to_reduce [];
  if length covered =? length to_reduce then Ret r else UB.

(** dwyu.cc:53-58, kSourceLocations. *)
Definition source_locations : list str :=
  [[]; $"bazel-out/host/bin/"; $"bazel-bin/"; $"bazel-genfiles/"].

(** What is reported: the edits emitted (496, 519) and the messages of lines 187-190,
    459, 471-482, 498-502, 509-514 and 521-524 (some are only printed when verbose;
    messages about sources and includes are left out). *)
Inductive event :=
| EvRemove (t : target) (label : str)          (* emit_deps_edit_(kRemove, ...) *)
| EvAdd (t : target) (label : str)             (* emit_deps_edit_(kAdd, ...) *)
| EvInvalid (t : target) (label : str)
| EvAgain (t : target) (label : str) (previously : target)
| EvUnsure (t : target) (label : str)
| EvAmbiguous (t : target) (alternatives : list target)
| EvTestonly (t dep : target)
| EvInvisible (t dep : target).

(** dwyu.cc:144-160, InitKnownLibraries. *)
Definition known_rules : list str := [$"cc_library"; $"alias"; $"cc_proto_library"; $"grpc_cc_library"; $"cc_test"].
Definition add_known (p : package) (m : list (target * result)) (r : result) : list (target * result) :=
  match qualified_target p (v_text (q_name r)) with Some t => map_insert t r m | None => m end.
Fixpoint known_in (files : list (package * parsed_file)) (m : list (target * result)) : outcome (list (target * result)) :=
  match files with
  | [] => Ret m
  | (_, f) :: files =>
      do rs <- find_targets known_rules (pf_ast f);
      known_in files (fold_left (add_known (pf_package f)) rs m)
  end.
Definition known_libraries (pr : parsed_project) : outcome (list (target * result)) := known_in (pr_files pr) [].

Section Dwyu.
(** BazelWorkspace of the project, and the file system. *)
Variable w : workspace.
Variable read_file : str -> option str.
(** flags().ignore_keep_comment *)
Variable ignore_keep : bool.
(** The members headers_from_libs_ and known_libs_. *)
Variable headers : provided_set.
Variable known : list (target * result).

(** dwyu.cc:123-139, TryOpenFile; where it was found only matters for messages. *)
Fixpoint try_locations (locations : list str) (file : str) : option str :=
  match locations with
  | [] => None
  | l :: locations => match read_file (l ++ file) with Some c => Some c | None => try_locations locations file end
  end.
Definition try_open (file : str) : option str := try_locations source_locations file.

(** dwyu.cc:163-168, IsAlwayslink. *)
Definition is_alwayslink (t : target) : bool :=
  match map_find t known with Some r => q_alwayslink r | None => true end.
(** dwyu.cc:170-194, IsTestonlyCompatible; not compatible means it is reported. *)
Definition is_testonly_compatible (t dep : target) : bool :=
  match map_find dep known with
  | None => true
  | Some d =>
      if negb (q_testonly d) then true
      else
        match map_find t known with
        | None => true
        | Some r => q_testonly r || str_eqb (v_text (q_rule r)) ($"cc_test")
        end
  end.
(** dwyu.cc:221-235: the loop over visibility patterns.  An expression outside of the
    model of RE2 counts as not valid. *)
Fixpoint visible_by (entries : list node) (t dep : target) (any_valid : bool) : outcome bool :=
  match entries with
  | [] => Ret (negb any_valid)
  | e :: entries =>
      do s <- cast_scalar e;
      match s with
      | None => visible_by entries t dep any_valid
      | Some (_, v) =>
          match parse_visibility (v_text v) (tpackage dep) with
          | PatOk pt => if match_target pt t then Ret true else visible_by entries t dep true
          | _ => visible_by entries t dep any_valid
          end
      end
  end.
(** dwyu.cc:197-236, CanSee. *)
Definition can_see (t dep : target) : outcome bool :=
  match map_find dep known with
  | None => Ret true
  | Some r =>
      if negb (is_nil (v_text (q_deprecation r))) then Ret false
      else if package_eqb (tpackage t) (tpackage dep) then Ret true
      else if str_eqb (tname dep) ($"protobuf_headers") then Ret false
      else
        match q_visibility r with
        | None => Ret true
        | Some l => visible_by l t dep false
        end
  end.
Fixpoint visible_only (t : target) (alternatives : list target) : outcome (list target) :=
  match alternatives with
  | [] => Ret []
  | a :: alternatives =>
      do v <- can_see t a;
      do rest <- visible_only t alternatives;
      Ret (if v then a :: rest else rest)
  end.

(** dwyu.cc:327-376: what is done with one include. *)
Inductive attribution :=
| OwnHeader
| Provided (alternatives : list target)
| Unaccounted.
Definition attribute (t : target) (p : package) (sources : list str) (inc : str) : attribution :=
  if is_header_in_list inc sources (path (tpackage t)) then OwnHeader
  else if is_header_in_list inc sources [] then OwnHeader
  else
    match find_by_suffix headers inc 2 with
    | Some found => Provided (fr_targets found)
    | None =>
        match find_by_suffix headers (qualified_file p inc) 2 with
        | Some found => Provided (fr_targets found)
        | None => Unaccounted
        end
    end.
(** dwyu.cc:273-287, 326-406: the includes of one source.  The result: the alternatives to add,
    and if all headers are accounted for. *)
Fixpoint needed_by_includes (t : target) (p : package) (sources : list str) (incs : list str)
  : outcome (list (list target) * bool) :=
  match incs with
  | [] => Ret ([], true)
  | inc :: incs =>
      match attribute t p sources inc with
      | OwnHeader => needed_by_includes t p sources incs
      | Unaccounted =>
          do (r, _) <- needed_by_includes t p sources incs; Ret (r, false)
      | Provided alternatives =>
          do visible <- visible_only t alternatives;
          do (r, ok) <- needed_by_includes t p sources incs;
          Ret (if is_nil visible then (r, ok) else (visible :: r, ok))
      end
  end.
(** dwyu.cc:239-418, DependenciesNeededBySources. *)
Fixpoint needed_by_sources (t : target) (p : package) (sources : list str) (todo : list str)
  : outcome (list (list target) * bool) :=
  match todo with
  | [] => Ret ([], true)
  | src :: todo =>
      match try_open (fully_qualified_file w p src) with
      | None => do (r, _) <- needed_by_sources t p sources todo; Ret (r, false)
      | Some content =>
          do (r, ok) <- needed_by_includes t p sources (map snd (extract_cc_includes content));
          do (r', ok') <- needed_by_sources t p sources todo;
          Ret (r ++ r', ok && ok')
      end
  end.

(** dwyu.cc:437-448, IsNeededInSourcesAndCheckOff. *)
Fixpoint check_off (t : target) (needed : list (list target)) : option (list target * list (list target)) :=
  match needed with
  | [] => None
  | s :: needed =>
      if set_mem t s then Some (s, needed)
      else match check_off t needed with Some (c, r) => Some (c, s :: r) | None => None end
  end.
(** dwyu.cc:492, the expression #.*keep; byte-wise. *)
Fixpoint keep_comment (line : str) : bool :=
  match line with
  | [] => false
  | c :: r => (ceqb c "#" && contains ($"keep") (firstn (take_until_nl r) r)) || keep_comment r
  end.
(** parsed-project.cc:224-230, GetSurroundingLine of a text in file [f]; for assembled
    texts source-locator.h:90-92.  A failing CHECK is [UB]. *)
Definition surrounding_line (f : parsed_file) (v : view) : outcome str :=
  match v_org v with
  | Synth _ _ => Ret (v_text v)
  | InFile off =>
      match get_surrounding_line (pf_content f) off (length (v_text v)) with
      | Some (start, len) => Ret (firstn len (skipn start (pf_content f)))
      | None => UB
      end
  end.
(** dwyu.cc:455-503: one of the dependencies.  State: what is still needed, and what
    checked off what. *)
Definition check_dep (t : target) (f : parsed_file) (all_known : bool) (dep : view)
  (needed : list (list target)) (checked : list (target * target))
  : outcome (list (list target) * list (target * target) * list event) :=
  match parse_target (v_text dep) (tpackage t) with
  | None => Ret (needed, checked, [EvInvalid t (v_text dep)])
  | Some d =>
      match check_off d needed with
      | Some (s, needed) => Ret (needed, fold_left (fun m c => map_insert c d m) s checked, [])
      | None =>
          match map_find d checked with
          | Some previously => Ret (needed, checked, [EvAgain t (v_text dep) previously])
          | None =>
              if all_known && negb (is_alwayslink d) then
                do line <- surrounding_line f dep;
                Ret (needed, checked, if ignore_keep || negb (keep_comment line) then [EvRemove t (v_text dep)] else [])
              else Ret (needed, checked, if negb all_known then [EvUnsure t (v_text dep)] else [])
          end
      end
  end.
Fixpoint check_deps (t : target) (f : parsed_file) (all_known : bool) (deps : list view)
  (needed : list (list target)) (checked : list (target * target)) : outcome (list (list target) * list event) :=
  match deps with
  | [] => Ret (needed, [])
  | dep :: deps =>
      do (needed, checked, ev) <- check_dep t f all_known dep needed checked;
      do (needed, ev') <- check_deps t f all_known deps needed checked;
      Ret (needed, ev ++ ev')
  end.
(** dwyu.cc:506-526: one of the sets of alternatives left over; none is empty. *)
Definition add_needed (t : target) (alternatives : list target) : outcome event :=
  match alternatives with
  | [] => UB
  | [a] =>
      do v <- can_see t a;
      Ret (if v then
             if is_testonly_compatible t a then EvAdd t (target_to_string_rel a (tpackage t)) else EvTestonly t a
           else EvInvisible t a)
  | _ => Ret (EvAmbiguous t alternatives)
  end.
Fixpoint add_all_needed (t : target) (needed : list (list target)) : outcome (list event) :=
  match needed with
  | [] => Ret []
  | s :: needed => do e <- add_needed t s; do r <- add_all_needed t needed; Ret (e :: r)
  end.
(** dwyu.cc:420-527, CreateEditsForTarget. *)
Definition create_edits_for_target (t : target) (details : result) (f : parsed_file) : outcome (list event) :=
  do srcs <- extract_string_list (q_srcs details);
  do hdrs <- extract_string_list (q_hdrs details);
  let sources := map v_text srcs ++ map v_text hdrs in
  do (needed, all_known) <- needed_by_sources t (pf_package f) sources sources;
  do needed <- minimize needed;
  do deps <- extract_string_list (q_deps details);
  do (needed, ev) <- check_deps t f all_known deps needed [];
  do ev' <- add_all_needed t needed;
  Ret (ev ++ ev').
(** dwyu.cc:575-594, CreateEditsForPattern: the events and the number of targets. *)
Fixpoint edits_for_rules (pt : pattern) (f : parsed_file) (rs : list result) : outcome (list event * nat) :=
  match rs with
  | [] => Ret ([], 0)
  | r :: rs =>
      match qualified_target (pf_package f) (v_text (q_name r)) with
      | Some t =>
          if match_target pt t then
            do ev <- create_edits_for_target t r f;
            do (ev', n) <- edits_for_rules pt f rs;
            Ret (ev ++ ev', S n)
          else edits_for_rules pt f rs
      | None => edits_for_rules pt f rs
      end
  end.
Fixpoint edits_for_files (pt : pattern) (files : list (package * parsed_file)) : outcome (list event * nat) :=
  match files with
  | [] => Ret ([], 0)
  | (_, f) :: files =>
      if match_package pt (pf_package f) then
        do rs <- find_targets [$"cc_library"; $"cc_binary"; $"cc_test"] (pf_ast f);
        do (ev, n) <- edits_for_rules pt f rs;
        do (ev', n') <- edits_for_files pt files;
        Ret (ev ++ ev', n + n')
      else edits_for_files pt files
  end.
End Dwyu.

(** dwyu.cc:560-573 and 596-614, the constructor and CreateDependencyEdits, with the
    number of targets in place of the number of edits. *)
Definition dependency_edits (w : workspace) (read_file : str -> option str) (ignore_keep : bool)
  (pr : parsed_project) (pt : pattern) : outcome (list event * nat) :=
  do headers <- header_to_lib pr true;
  do known <- known_libraries pr;
  edits_for_files w read_file ignore_keep headers known pt (pr_files pr).
