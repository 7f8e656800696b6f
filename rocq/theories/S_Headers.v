(** Specification of header providers, independent of how the index is built. *)
From Verif Require Import Base OMap M_Types S_Labels M_Scanner M_Ast M_Parser M_Query M_Project M_DepGraph S_DepGraph.

Definition list_of (o : option (list node)) : list node := match o with Some l => l | None => [] end.
Definition slash : ascii := "/"%char.

(** A path without the leading ./ and / it can do without. *)
Definition plain_path (s t : str) : Prop :=
  exists n m, s = concat (repeat ($"./") n) ++ repeat slash m ++ t /\
    (forall r, t <> slash :: r) /\ (forall r, repeat slash m ++ t <> $"./" ++ r).
(** A directory without slashes around it. *)
Definition trimmed (d e : str) : Prop :=
  exists n m, d = repeat slash n ++ e ++ repeat slash m /\
    (forall r, e <> slash :: r) /\ (forall r, e <> r ++ [slash]).
(** A directory with the slash at the end. *)
Definition with_slash (d e : str) : Prop :=
  ((exists r, d = r ++ [slash]) /\ e = d) \/ ((forall r, d <> r ++ [slash]) /\ e = d ++ [slash]).

(** The names by which a header listed by a library can be included. *)
Inductive header_name (p : package) (r : result) (h : str) : str -> Prop :=
| name_prefix : v_text (q_include_prefix r) <> [] ->
    header_name p r h (v_text (q_include_prefix r) ++ $"/" ++ h)
| name_stripped d name : v_text (q_include_prefix r) = [] ->
    trimmed (v_text (q_strip_include_prefix r)) d -> d <> [] ->
    qualified_file p h = d ++ $"/" ++ name -> header_name p r h name
| name_full : v_text (q_include_prefix r) = [] ->
    (forall d name, trimmed (v_text (q_strip_include_prefix r)) d -> d <> [] ->
       qualified_file p h <> d ++ $"/" ++ name) ->
    header_name p r h (qualified_file p h)
| name_include dir e name : v_text (q_include_prefix r) = [] ->
    In dir (texts (list_of (q_includes r))) -> with_slash dir e ->
    qualified_file p h = e ++ name -> header_name p r h name.

(** The headers a library lists; string_view.h of absl/strings does not count if
    listed twice. *)
Definition lists_header (p : package) (r : result) (h : str) : Prop :=
  let hdrs := texts (list_of (q_hdrs r)) in
  let textual := texts (list_of (q_textual_hdrs r)) in
  In h (hdrs ++ textual ++ texts (list_of (q_public_hdrs r))) /\
  ~ (h = $"string_view.h" /\ In h hdrs /\ In h textual /\ exists a, path p = a ++ $"absl/strings").

(** The header for a .proto file. *)
Definition proto_header (p : package) (grpc : bool) (src h : str) : Prop :=
  exists stem suffix, (src = stem ++ $".proto" /\ (forall r, src <> ":"%char :: r) \/ src = $":" ++ stem ++ $".proto") /\
    In suffix [$".pb.h"; $".proto.h"] /\
    h = qualified_file p (stem ++ (if grpc then $".grpc" else []) ++ suffix).
(** A cc_proto_library or cc_grpc_library names the proto_library in deps and srcs,
    respectively. *)
Definition kind_of (r : result) : bool := str_eqb (v_text (q_rule r)) ($"cc_grpc_library").
Definition made_from (p : package) (r : result) : list target :=
  resolved p (texts (list_of (if kind_of r then q_srcs r else q_deps r))).
Definition named (p : package) (r : result) (t : target) : Prop := qualified_target p (v_text (q_name r)) = Some t.

(** An alias rule of the project makes [t] an alias of [lib]. *)
Definition alias_of (pr : parsed_project) (lib t : target) : Prop :=
  exists p f rs r, In (p, f) (pr_files pr) /\ find_targets [$"alias"] (pf_ast f) = Ret rs /\ In r rs /\
    named (pf_package f) r t /\ parse_target (v_text (q_actual r)) (pf_package f) = Some lib.

(** Because of the rules in file [f], target [t] provides header [h]. *)
Inductive provides (pr : parsed_project) (f : parsed_file) : target -> str -> Prop :=
| provides_library rs r lib t x name h :
    find_targets [$"cc_library"; $"grpc_cc_library"] (pf_ast f) = Ret rs -> In r rs ->
    named (pf_package f) r lib -> t = lib \/ alias_of pr lib t ->
    lists_header (pf_package f) r x -> header_name (pf_package f) r x name -> plain_path name h ->
    provides pr f t h
| provides_proto rs1 rs2 r1 r2 a b lib plib src h :
    find_targets [$"cc_proto_library"; $"cc_grpc_library"] (pf_ast f) = Ret rs1 ->
    rs1 = a ++ r1 :: b -> named (pf_package f) r1 lib -> In plib (made_from (pf_package f) r1) ->
    (forall r, In r a -> kind_of r = kind_of r1 -> (exists t, named (pf_package f) r t) -> ~ In plib (made_from (pf_package f) r)) ->
    find_targets [$"proto_library"] (pf_ast f) = Ret rs2 -> In r2 rs2 -> named (pf_package f) r2 plib ->
    In src (texts (list_of (q_srcs r2))) -> proto_header (pf_package f) (kind_of r1) src h ->
    provides pr f lib h.

(** What the index is searched by: the name itself, or its reverse. *)
Definition index_key (suffix_index : bool) (h : str) : str := if suffix_index then rev h ++ [slash] else h.
Definition providers (m : list (str * list target)) (k : str) : list target :=
  match map_find k m with Some l => l | None => [] end.

(** How many path elements two paths share at the end. *)
Fixpoint common_front (a b : list str) : nat :=
  match a, b with
  | x :: a, y :: b => if str_eqb x y then S (common_front a b) else 0
  | _, _ => 0
  end.
Definition shared_elements (a b : str) : nat := common_front (rev (split slash a)) (rev (split slash b)).
Definition suffix_indexed (m : list (str * list target)) : Prop :=
  msorted m /\ forall k ts, In (k, ts) m -> exists h, k = index_key true h.

(** The files a genrule generates. *)
Definition outputs (suffix_index : bool) (f : parsed_file) (r : result) : list (str * target) :=
  match qualified_target (pf_package f) (v_text (q_name r)) with
  | Some t => map (fun x => (index_key suffix_index (qualified_file (pf_package f) x), t)) (texts (list_of (q_outs r)))
  | None => []
  end.
(** The first pair with that key. *)
Definition first_with {A} (l : list (str * A)) (k : str) (x : A) : Prop :=
  exists a b, l = a ++ (k, x) :: b /\ forall y, ~ In (k, y) a.
