(** Properties C29, C30 and C59: which targets provide a header or a generated file. *)
From Verif Require Import Base OMap M_Types S_Labels M_Scanner M_Ast M_Parser S_Parser P_Parser M_Query M_Elab S_Elab P_Elab M_Project M_DepGraph S_DepGraph
  M_Headers S_Headers P_Headers T_Parser T_Headers.
Local Open Scope string_scope.
Local Open Scope list_scope.

(** C29. A file that is in the index is found as it is ... *)
Theorem C29_exact : forall idx key min ts, suffix_indexed idx ->
  map_find (index_key true key) idx = Some ts -> find_by_suffix idx key min = Some (mkFound key ts 0).
Proof. intros idx key min ts Ok. apply (find_by_suffix_spec idx Ok key min). Qed.
Print Assumptions C29_exact.
(** ... any other file is found as the one with the most path elements in common at the
    end, if it has enough of them. *)
Theorem C29_best : forall idx key min, suffix_indexed idx -> map_find (index_key true key) idx = None ->
  match find_by_suffix idx key min with
  | Some r => map_find (index_key true (fr_match r)) idx = Some (fr_targets r) /\
      fr_score r = shared_elements key (fr_match r) /\ min <= fr_score r /\
      forall h, In (index_key true h) (keys idx) -> shared_elements key h <= fr_score r
  | None => forall h, In (index_key true h) (keys idx) -> shared_elements key h < min
  end.
Proof. intros idx key min Ok. apply (find_by_suffix_spec idx Ok key min). Qed.
Print Assumptions C29_best.
(** The index of a project is of that form. *)
Theorem C29_index : forall pr idx, header_to_lib pr true = Ret idx -> suffix_indexed idx.
Proof. intros pr idx E. apply (header_to_lib_spec _ _ _ E). reflexivity. Qed.
Print Assumptions C29_index.
Example C29_case : suffix_indexed test_index /\
  map_find (index_key true ($"hello/foo/bar/baz/qux.h")) test_index = None /\
  find_by_suffix test_index ($"hello/foo/bar/baz/qux.h") 2 = Some (mkFound ($"foo/bar/baz/qux.h") [T "//foo"] 4) /\
  find_by_suffix test_index ($"hello/qux.h") 2 = None.
Proof.
  split; [|vm_compute; repeat split; reflexivity]. split.
  - split; [constructor; [reflexivity|constructor]|]. split; [constructor|exact I].
  - intros k ts [E|[E|[]]]; inversion E; subst; [exists ($"baz/qux.h")|exists ($"foo/bar/baz/qux.h")]; reflexivity.
Qed.

(** C30. The targets under a name are exactly those that provide that header. *)
Theorem C30_providers : forall pr suffix_index m, header_to_lib pr suffix_index = Ret m ->
  forall k t, In t (providers m k) <->
    exists p f h, In (p, f) (pr_files pr) /\ provides pr f t h /\ k = index_key suffix_index h.
Proof. intros pr sfx m E. apply (header_to_lib_spec _ _ _ E). Qed.
Print Assumptions C30_providers.
(** There is an index for every project of trees in order. *)
Theorem C30_defined : forall pr suffix_index, (forall p f, In (p, f) (pr_files pr) -> Forall sound (pf_ast f)) ->
  exists m, header_to_lib pr suffix_index = Ret m.
Proof. exact headers_defined. Qed.
Print Assumptions C30_defined.
Definition header_example : parsed_project :=
  match test_project
    [("//lib", ["cc_library("; "  name = ""a"","; "  hdrs = [""sub/a.h"", ""string_view.h""],"; "  textual_hdrs = [""string_view.h""],";
                "  strip_include_prefix = ""/lib/"","; "  includes = [""lib/sub""],"; ")";
                "alias(name = ""also_a"", actual = "":a"")"]);
     ("//p", ["proto_library(name = ""x_proto"", srcs = ["":x.proto"", ""y.txt""])";
              "cc_proto_library(name = ""x"", deps = ["":x_proto""])"; "cc_proto_library(name = ""late"", deps = ["":x_proto""])"])]
    empty_project with Ret pr => pr | _ => empty_project end.
Example C30_case : exists m, header_to_lib header_example false = Ret m /\
  providers m ($"sub/a.h") = [T "//lib:a"; T "//lib:also_a"] /\ providers m ($"a.h") = [T "//lib:a"; T "//lib:also_a"] /\
  providers m ($"lib/sub/a.h") = [] /\ providers m ($"string_view.h") = [T "//lib:a"; T "//lib:also_a"] /\
  providers m ($"p/x.pb.h") = [T "//p:x"] /\ providers m ($"p/y.pb.h") = [].
Proof. eexists. split; [vm_compute; reflexivity|]. vm_compute. repeat split; reflexivity. Qed.

(** C59. A generated file comes from the first genrule that has it as output, in the
    order of packages and of the file. *)
Theorem C59_first : forall pr suffix_index m, generated_from_genrule pr suffix_index = Ret m ->
  exists rss, Forall2 (fun pf rs => find_targets [$"genrule"] (pf_ast (snd pf)) = Ret rs) (pr_files pr) rss /\
    forall k t, map_find k m = Some t <->
      first_with (flat_map (fun x => flat_map (outputs suffix_index (snd (fst x))) (snd x)) (combine (pr_files pr) rss)) k t.
Proof. exact generated_spec. Qed.
Print Assumptions C59_first.
Theorem C59_defined : forall pr suffix_index, (forall p f, In (p, f) (pr_files pr) -> Forall sound (pf_ast f)) ->
  exists m, generated_from_genrule pr suffix_index = Ret m.
Proof. exact generated_defined. Qed.
Print Assumptions C59_defined.
Example C59_case :
  (do pr <- test_project [("//b", ["genrule(name = ""one"", outs = ["":x.h"", ""y.h""])"; "genrule(name = ""two"", outs = [""x.h"", ""z.h""])";
                                   "genrule(name = """", outs = [""w.h""])"; "other(name = ""no"", outs = [""v.h""])"])] empty_project;
   generated_from_genrule pr false) =
  Ret [($"b/x.h", T "//b:one"); ($"b/y.h", T "//b:one"); ($"b/z.h", T "//b:two")].
Proof. vm_compute. reflexivity. Qed.
