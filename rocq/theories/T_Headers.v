(** The repository's tests of header providers
    (/repo/bant/explore/header-providers_test.cc), replayed on the model. *)
From Verif Require Import Base OMap M_Types M_Scanner M_Ast M_Parser M_Query M_Project M_DepGraph M_Headers T_Parser.
Local Open Scope string_scope.
Local Open Scope list_scope.

(** parsed-project_testutil.h: ParsedProjectTestUtil::Add *)
Fixpoint test_project (files : list (string * list string)) (pr : parsed_project) : outcome parsed_project :=
  match files with
  | [] => Ret pr
  | (label, lines) :: files =>
      match parse_package ($label) with
      | Some p => do (pr, _) <- add_build_file_content pr p ($label) (nl lines); test_project files pr
      | None => UB
      end
  end.
Definition T (s : string) : target :=
  match parse_target ($s) (mkPackage [] []) with Some t => t | None => mkTarget (mkPackage [] []) [] end.
Definition header_map (files : list (string * list string)) : provided_set :=
  match (do pr <- test_project files empty_project; header_to_lib pr false) with Ret m => m | _ => [] end.
Definition has (m : provided_set) (h : string) (ts : list string) : Prop := map_find ($h) m = Some (set_of_list (map T ts)).
Ltac run := vm_compute; repeat split; reflexivity.

Example cc_rule_extraction :
  let m := header_map
    [("//some/path", [""; "cc_library("; "  name = ""foo"","; "  srcs = [""foo.cc""],"; "  hdrs = [""foo.h""]"; ")"]);
     ("//other/path", [""; "cc_library("; "  name = ""bar"","; "  hdrs = [""bar.h""]"; ")"; """"]);
     ("//prefix/dir", [""; "cc_library("; "  name = ""foo"","; "  hdrs = [""foo.h""],";
       "  include_prefix = ""yolo""            # Lib says where header actually is"; ")";
       "cc_library("; "  name = ""bar"","; "  hdrs = [""bar.h""],";
       "  strip_include_prefix = ""prefix"",   # Remove prefix from current package"; ")";
       "cc_library("; "  name = ""baz"","; "  hdrs = [""subdir/baz.h""],";
       "  includes =[                        # allow to -I without that subdir";
       "     ""prefix/dir/subdir"","; "     ""prefix/dir/"",                  # trailing slash should not trip";
       "  ]"; "],"; ")"])] in
  has m "some/path/foo.h" ["//some/path:foo"] /\ has m "other/path/bar.h" ["//other/path:bar"] /\
  has m "yolo/foo.h" ["//prefix/dir:foo"] /\ has m "dir/bar.h" ["//prefix/dir:bar"] /\
  has m "baz.h" ["//prefix/dir:baz"] /\ has m "subdir/baz.h" ["//prefix/dir:baz"] /\
  has m "prefix/dir/subdir/baz.h" ["//prefix/dir:baz"].
Proof. run. Qed.
Example include_paths_are_canonicalized :
  let m := header_map [("//", [""; "cc_library("; "  name = ""foo"","; "  srcs = [""foo.cc""],"; "  include_prefix = ""."","; "  hdrs = [""foo.h""]"; ")";
       "cc_library("; "  name = ""bar"","; "  srcs = [""bar.cc""],"; "  include_prefix = ""./"","; "  hdrs = [""bar.h""]"; ")"])] in
  has m "foo.h" ["//:foo"] /\ has m "bar.h" ["//:bar"].
Proof. run. Qed.
Example multiple_libs_provide_same_header :
  has (header_map [("//some/path", ["cc_library("; "  name = ""foo"","; "  srcs = [""foo.cc""],"; "  hdrs = [""foo.h""]"; ")";
       "cc_library("; "  name = ""bar"","; "  srcs = [""bar.cc""],"; "  hdrs = [""foo.h""]"; ")"])])
    "some/path/foo.h" ["//some/path:foo"; "//some/path:bar"].
Proof. run. Qed.
Example proto_library_extraction :
  let m := header_map [("//ptest", [""; "proto_library("; "   name = ""all_protos"","; "   srcs = ["; "      ""data.proto"",";
      "      "":general.proto"",       # also prefix ':' should work."; "   ]"; ")"; "cc_proto_library("; "  name = ""foo"",";
      "  deps = ["":all_protos""],"; ")"; "cc_grpc_library("; "  name = ""grpc_foo"","; "  srcs = ["":all_protos""],"; ")"])] in
  has m "ptest/data.pb.h" ["//ptest:foo"] /\ has m "ptest/general.pb.h" ["//ptest:foo"] /\
  has m "ptest/general.proto.h" ["//ptest:foo"] /\ has m "ptest/data.grpc.pb.h" ["//ptest:grpc_foo"] /\
  has m "ptest/general.grpc.pb.h" ["//ptest:grpc_foo"].
Proof. run. Qed.
Example genrule_extraction :
  match (do pr <- test_project [("//gen/ai", [""; "genrule("; "  name = ""llm"","; "  outs = ["; "    ""useful.txt"","; "    ""hallucination.txt"",";
     "    ""lucy-🌈-💎.txt"","; "  ],"; ")"])] empty_project; generated_from_genrule pr false) with
  | Ret m => map_find ($"gen/ai/useful.txt") m = Some (T "//gen/ai:llm") /\
             map_find ($"gen/ai/hallucination.txt") m = Some (T "//gen/ai:llm") /\
             map_find ($"gen/ai/lucy-🌈-💎.txt") m = Some (T "//gen/ai:llm")
  | _ => False
  end.
Proof. run. Qed.

Definition add_entry (h t : string) (m : provided_set) : provided_set :=
  map_update (key_transform ($h) true) [] (set_insert (T t)) m.
Definition test_index : provided_set := add_entry "baz/qux.h" "//bar" (add_entry "foo/bar/baz/qux.h" "//foo" []).
Definition found (m : provided_set) (key : string) (n : nat) : option (nat * list target) :=
  option_map (fun r => (fr_score r, fr_targets r)) (find_by_suffix m ($key) n).
Example find_by_suffix_test :
  found test_index "foo/bar/baz/qux.h" 2 = Some (0, [T "//foo"]) /\
  found test_index "baz/qux.h" 2 = Some (0, [T "//bar"]) /\
  found test_index "qux.h" 2 = None /\ found test_index "qux.h" 1 <> None /\
  found test_index "ux.h" 1 = None /\ found test_index "bar/xqux.h" 1 = None /\
  found test_index "az/qux.h" 1 = Some (1, [T "//bar"]) /\
  found test_index "r/baz/qux.h" 2 = Some (2, [T "//foo"]) /\
  found test_index "bar/baz/qux.h" 2 = Some (3, [T "//foo"]) /\
  found test_index "hello/foo/bar/baz/qux.h" 2 = Some (4, [T "//foo"]) /\
  found (add_entry "foo/bar/baz/rux.h" "//rux" test_index) "hello/foo/bar/baz/qux.h" 2 = Some (4, [T "//foo"]).
Proof. vm_compute. repeat split; try reflexivity. discriminate. Qed.
