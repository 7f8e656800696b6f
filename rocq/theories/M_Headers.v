(** Which libraries provide which headers (/repo/bant/explore/header-providers.cc). *)
From Verif Require Import Base OMap M_Types M_Scanner M_Ast M_Parser M_Query M_Project M_DepGraph.

(** header-providers.h:41-42, ProvidedFromTarget and ProvidedFromTargetSet. *)
Definition provided := list (str * target).
Definition provided_set := list (str * list target).

(** header-providers.cc:73-81, LightCanonicalizePath. *)
Fixpoint strip_dot_slash (fuel : nat) (s : str) : str :=
  match fuel with
  | 0 => s
  | S fuel => if starts_with ($"./") s then strip_dot_slash fuel (skipn 2 s) else s
  end.
(** The loop takes two characters each time: its length is enough fuel. *)
Definition light_canonicalize (s : str) : str :=
  strip_front "/" (strip_dot_slash (length s) s).
(** header-providers.cc:84-87, KeyTransform. *)
Definition key_transform (s : str) (suffix_index : bool) : str :=
  if suffix_index then rev s ++ $"/" else s.

(** header-providers.cc:144-157: removing strip_include_prefix. *)
Definition stripped (strip_prefix header_fqn : str) : str :=
  let strip_prefix := strip_back "/" (strip_front "/" strip_prefix) in
  let strip_len := length strip_prefix in
  if (0 <? strip_len) && (strip_len <? length header_fqn) && starts_with strip_prefix header_fqn
     && match nth_error header_fqn strip_len with Some c => ceqb c "/" | None => false end
  then skipn (strip_len + 1) header_fqn
  else header_fqn.
(** header-providers.cc:166-174: the names for one of [includes]. *)
Definition below_dir (header_fqn dir : str) : list str :=
  let prefix := if ends_with ($"/") dir then dir else dir ++ $"/" in
  if starts_with prefix header_fqn then [skipn (length prefix) header_fqn] else [].
(** header-providers.cc:132-175: the names one header of a library is given to the
    callback with, in order. *)
Definition header_names (p : package) (r : result) (header : str) : outcome (list str) :=
  if negb (is_nil (v_text (q_include_prefix r))) then
    Ret [v_text (q_include_prefix r) ++ $"/" ++ header]
  else
    let header_fqn := qualified_file p header in
    do incdirs <- extract_string_list (q_includes r);
    Ret (stripped (v_text (q_strip_include_prefix r)) header_fqn
         :: flat_map (below_dir header_fqn) (map v_text incdirs)).
Fixpoint headers_names (p : package) (r : result) (skip : bool) (headers : list str) : outcome (list str) :=
  match headers with
  | [] => Ret []
  | h :: headers =>
      if skip && str_eqb h ($"string_view.h") then headers_names p r skip headers
      else
        do a <- header_names p r h;
        do b <- headers_names p r skip headers;
        Ret (a ++ b)
  end.
(** header-providers.cc:93-177, IterateCCLibraryHeaders: what one library gives to the
    callback: the library and the names of its headers. *)
Definition library_headers (p : package) (r : result) : outcome (list (target * str)) :=
  match qualified_target p (v_text (q_name r)) with
  | None => Ret []
  | Some lib =>
      do hdrs <- extract_string_list (q_hdrs r);
      do textual_hdrs <- extract_string_list (q_textual_hdrs r);
      let hdrs := map v_text hdrs in
      let textual_hdrs := map v_text textual_hdrs in
      let skip := ends_with ($"absl/strings") (path p)
                  && existsb (str_eqb ($"string_view.h")) hdrs
                  && existsb (str_eqb ($"string_view.h")) textual_hdrs in
      do public_hdrs <- extract_string_list (q_public_hdrs r);
      do l <- headers_names p r skip (hdrs ++ textual_hdrs ++ map v_text public_hdrs);
      Ret (map (fun h => (lib, h)) l)
  end.

(** header-providers.cc:179-197, AppendCCLibraryHeaders: one call of the callback. *)
Definition insert_all (ts : list target) (s : list target) : list target :=
  fold_left (fun s t => set_insert t s) ts s.
Definition add_header (alias_index : list (target * list target)) (suffix_index : bool)
  (m : provided_set) (x : target * str) : provided_set :=
  let '(lib, header_fqn) := x in
  let key := key_transform (light_canonicalize header_fqn) suffix_index in
  let m := map_update key [] (set_insert lib) m in
  match map_find lib alias_index with
  | Some aliases => map_update key [] (insert_all aliases) m
  | None => m
  end.
Fixpoint add_libraries alias_index suffix_index (p : package) (rs : list result) (m : provided_set) : outcome provided_set :=
  match rs with
  | [] => Ret m
  | r :: rs =>
      do l <- library_headers p r;
      add_libraries alias_index suffix_index p rs (fold_left (add_header alias_index suffix_index) l m)
  end.
Definition append_cc_library_headers alias_index suffix_index (f : parsed_file) (m : provided_set) : outcome provided_set :=
  do rs <- find_targets [$"cc_library"; $"grpc_cc_library"] (pf_ast f);
  add_libraries alias_index suffix_index (pf_package f) rs m.

(** header-providers.cc:222-245: the two maps from proto_library to cc_proto_library
    and cc_grpc_library. *)
Definition is_grpc (r : result) : bool := str_eqb (v_text (q_rule r)) ($"cc_grpc_library").
Definition add_proto_deps (p : package) (t : target) (deps : list str) (m : list (target * target)) : list (target * target) :=
  fold_left (fun m dep => match parse_target dep p with Some d => map_insert d t m | None => m end) deps m.
Fixpoint proto_libs (p : package) (rs : list result) (m : list (target * target) * list (target * target))
  : outcome (list (target * target) * list (target * target)) :=
  match rs with
  | [] => Ret m
  | r :: rs =>
      match qualified_target p (v_text (q_name r)) with
      | None => proto_libs p rs m
      | Some t =>
          do deps <- extract_string_list (if is_grpc r then q_srcs r else q_deps r);
          let deps := map v_text deps in
          proto_libs p rs
            (if is_grpc r then (fst m, add_proto_deps p t deps (snd m))
             else (add_proto_deps p t deps (fst m), snd m))
      end
  end.
(** header-providers.cc:273-291: the headers made from one .proto file. *)
Definition proto_headers (p : package) (middle_name proto : str) : list str :=
  if negb (ends_with ($".proto") proto) then []
  else
    let proto := match proto with c :: r => if ceqb c ":" then r else proto | [] => proto end in
    let stem := prefix_upto proto (find_last "." proto) in
    map (fun suffix => qualified_file p (stem ++ middle_name ++ suffix)) [$".pb.h"; $".proto.h"].
(** header-providers.cc:252-293: one proto_library, for one of the two maps. *)
Definition add_proto_library (p : package) (reverse : bool) (t : target) (r : result)
  (lookup : list (target * target)) (middle_name : str) (m : provided_set) : outcome provided_set :=
  match map_find t lookup with
  | None => Ret m
  | Some lib =>
      do srcs <- extract_string_list (q_srcs r);
      Ret (fold_left (fun m h => map_update (key_transform h reverse) [] (set_insert lib) m)
             (flat_map (proto_headers p middle_name) (map v_text srcs)) m)
  end.
Fixpoint add_proto_libraries (p : package) (reverse : bool) (libs : list (target * target) * list (target * target))
  (rs : list result) (m : provided_set) : outcome provided_set :=
  match rs with
  | [] => Ret m
  | r :: rs =>
      match qualified_target p (v_text (q_name r)) with
      | None => add_proto_libraries p reverse libs rs m
      | Some t =>
          do m <- add_proto_library p reverse t r (fst libs) [] m;
          do m <- add_proto_library p reverse t r (snd libs) ($".grpc") m;
          add_proto_libraries p reverse libs rs m
      end
  end.
(** header-providers.cc:211-294, AppendProtoLibraryHeaders. *)
Definition append_proto_library_headers (reverse : bool) (f : parsed_file) (m : provided_set) : outcome provided_set :=
  do rs <- find_targets [$"cc_proto_library"; $"cc_grpc_library"] (pf_ast f);
  do libs <- proto_libs (pf_package f) rs ([], []);
  do rs <- find_targets [$"proto_library"] (pf_ast f);
  add_proto_libraries (pf_package f) reverse libs rs m.

(** header-providers.cc:297-315, ExtractHeaderToLibMapping.  A parsed file always has a
    list as tree. *)
Fixpoint headers_of_files alias_index suffix_index (files : list (package * parsed_file)) (m : provided_set) : outcome provided_set :=
  match files with
  | [] => Ret m
  | (_, f) :: files =>
      do m <- append_cc_library_headers alias_index suffix_index f m;
      do m <- append_proto_library_headers suffix_index f m;
      headers_of_files alias_index suffix_index files m
  end.
Definition header_to_lib (pr : parsed_project) (suffix_index : bool) : outcome provided_set :=
  do alias_index <- extract_aliased_by pr;
  headers_of_files alias_index suffix_index (pr_files pr) [].

(** header-providers.cc:317-352, ExtractGeneratedFromGenrule; the messages about files
    generated twice are left out. *)
Fixpoint genrules (p : package) (suffix_index : bool) (rs : list result) (m : provided) : outcome provided :=
  match rs with
  | [] => Ret m
  | r :: rs =>
      do genfiles <- extract_string_list (q_outs r);
      genrules p suffix_index rs
        (match qualified_target p (v_text (q_name r)) with
         | None => m
         | Some t => fold_left (fun m f => map_insert (key_transform (qualified_file p f) suffix_index) t m)
                       (map v_text genfiles) m
         end)
  end.
Fixpoint genrules_of_files (suffix_index : bool) (files : list (package * parsed_file)) (m : provided) : outcome provided :=
  match files with
  | [] => Ret m
  | (_, f) :: files =>
      do rs <- find_targets [$"genrule"] (pf_ast f);
      do m <- genrules (pf_package f) suffix_index rs m;
      genrules_of_files suffix_index files m
  end.
Definition generated_from_genrule (pr : parsed_project) (suffix_index : bool) : outcome provided :=
  genrules_of_files suffix_index (pr_files pr) [].

(** header-providers.cc:354-362, CommonPrefix: swapping the arguments does not change
    the text. *)
Fixpoint common_prefix (a b : str) : str :=
  match a, b with
  | x :: a, y :: b => if ceqb x y then x :: common_prefix a b else []
  | _, _ => []
  end.
(** header-providers.cc:364-368, CommonSlashes. *)
Definition common_slashes (a b : str) : nat := count_char "/" (common_prefix a b).
(** header-providers.h:57-61, FindResult: match, target_set and fuzzy_score (an int,
    here unbounded). *)
Record find_result := mkFound { fr_match : str; fr_targets : list target; fr_score : nat }.
(** header-providers.cc:370-412, FindBySuffix. *)
Definition found_entry (x : str * list target) (score : nat) : find_result :=
  mkFound (rev (removelast (fst x))) (snd x) score.
Definition find_by_suffix (index : provided_set) (key : str) (min_fuzzy_paths : nat) : option find_result :=
  if is_nil index then None
  else
    let search_key := key_transform key true in
    let check best n := if n <? min_fuzzy_paths then None else Some (found_entry best n) in
    let '(before, from) := lower_bound search_key index in
    match from with
    | found :: _ =>
        if str_eqb (fst found) search_key then Some (mkFound key (snd found) 0)
        else
          let n := common_slashes search_key (fst found) in
          match rev before with
          | [] => check found n
          | b :: _ =>
              let n' := common_slashes search_key (fst b) in
              if n <? n' then check b n' else check found n
          end
    | [] =>
        match rev before with
        | [] => None
        | b :: _ => check b (common_slashes search_key (fst b))
        end
    end.
