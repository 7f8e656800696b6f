(** The repository's elaboration and query tests (/repo/bant/frontend/elaboration_test.cc,
    /repo/bant/explore/query-utils_test.cc), replayed on the model. *)
From Verif Require Import Base M_Scanner M_Ast M_Parser M_Printer M_Query M_Elab T_Parser.

Local Open Scope string_scope.
Local Open Scope list_scope.

Definition no_glob (i e : list str) : list str := [].
Definition elab_and_print (s : list string) : outcome str :=
  do (l, errs) <- parse (nl s);
  do l <- elaborate no_glob l;
  print_node (Lst l).
Definition parse_and_print (s : list string) : outcome str :=
  do (l, errs) <- parse (nl s); print_node (Lst l).
Definition same (a b : list string) : Prop :=
  elab_and_print a = parse_and_print b /\ elab_and_print a <> UB.
Ltac same := split; [vm_compute; reflexivity|vm_compute; discriminate].

Example expand_variables : same
  [""; "BAR = ""bar.cc"""; "BAR_REF = BAR        # let's create a couple of indirections";
   "SOURCES = [""foo.cc"", BAR_REF]"; ""; "cc_library("; "  name = ""foo"",";
   "  srcs = SOURCES,    # global variable SOURCES should be expanded";
   "  baz = name,        # nested symbol 'name' should not be expanded"; ")"]
  [""; "BAR = ""bar.cc"""; "BAR_REF = ""bar.cc""   # ... indirections resolved";
   "SOURCES = [""foo.cc"", ""bar.cc""]"; ""; "cc_library("; "  name = ""foo"",";
   "  srcs = [""foo.cc"", ""bar.cc""],  # <- expanded";
   "  baz = name,                   # <- not expanded"; ")"].
Proof. same. Qed.

Example concat_lists : same
  [""; "FOO = [""baz.cc"", ""qux.cc""]"; "cc_library("; "  name = ""foo"",";
   "  srcs = [ ""foo.cc"" ] + [ ""bar.cc"" ] + FOO"; ")"]
  [""; "FOO = [""baz.cc"", ""qux.cc""]"; "cc_library("; "  name = ""foo"",";
   "  srcs = [ ""foo.cc"", ""bar.cc"", ""baz.cc"", ""qux.cc"" ],"; ")"].
Proof. same. Qed.

Example concat_list_with_undefined_value : same
  [""; "# UNDEFINED_VALUE"; "cc_library("; "  name = ""foo"",";
   "  srcs = [ ""foo.cc"" ] + UNDEFINED + [ ""bar.cc"" ],"; ")"]
  [""; "cc_library("; "  name = ""foo"","; "  srcs = [ ""foo.cc"", ""bar.cc"" ]    # best effort result"; ")"].
Proof. same. Qed.

Example select_chooses_condition_default : same
  [""; "cc_library("; "  name = ""foo"","; "  srcs = select({";
   "     "":foo""                 : [""abc.cc""],";
   "     [ ""not-a-string""]      : [""baz.cc""],";
   "     ""//conditions:default"" : [""def.cc""],"; "   })"; ")"]
  [""; "cc_library("; "  name = ""foo"",";
   "  srcs = [""def.cc""]   # We don't have conditions yet, choosing default"; ")"].
Proof. same. Qed.

Definition concat_strings_source :=
  [""; "BAZ = ""baz"""; "cc_library("; "  name = ""foo"" + ""bar"" + BAZ,";
   "  include_prefix = (""foo"" + ""bar"") + ""qux"","; ")"].
Example concat_strings : same concat_strings_source
  [""; "BAZ = ""baz"""; "cc_library("; "  name = ""foobarbaz"","; "  include_prefix = ""foobarqux"","; ")"].
Proof. same. Qed.
(** The assembled strings are located at the operators: 4:16 and 5:36 *)
Definition loc_of (s : str) (v : view) : option (nat * nat) :=
  match v_org v with
  | InFile o | Synth o _ =>
      option_map (fun lc => (lc_line lc + 1, lc_col lc + 1)) (get_pos (line_map_of s) o)
  end.
Definition query (names : list string) (s : list string) : outcome (list result) :=
  do (l, _) <- parse (nl s);
  do l <- elaborate no_glob l;
  find_targets (map (fun s => $s) names) l.
Definition ask {A} (f : result -> A) (x : outcome (list result)) : outcome (list A) :=
  do l <- x; Ret (map f l).
Example concat_strings_locations :
  ask (fun r => (v_text (q_name r), loc_of (nl concat_strings_source) (q_name r),
                 v_text (q_include_prefix r), loc_of (nl concat_strings_source) (q_include_prefix r)))
      (query [] concat_strings_source)
  = Ret [($"foobarbaz", Some (4, 16), $"foobarqux", Some (5, 36))].
Proof. vm_compute. reflexivity. Qed.

Definition strings (l : option (list node)) : outcome (list str) :=
  do l <- extract_string_list l; Ret (map v_text l).
Example basic_query :
  ask (fun r => (v_text (q_name r), strings (q_srcs r), strings (q_hdrs r))) (query ["cc_library"]
    [""; "cc_library("; "  name = ""foo_lib"","; "  srcs = [""foo.cc"", ""bar.cc""],"; "  hdrs = [""foo.h""]"; ")"])
  = Ret [($"foo_lib", Ret [$"foo.cc"; $"bar.cc"], Ret [$"foo.h"])].
Proof. vm_compute. reflexivity. Qed.
Example visibility_on_rule :
  ask (fun r => (v_text (q_name r), option_map (fun l => strings (Some l)) (q_visibility r))) (query ["cc_library"]
    [""; "cc_library("; "  name = ""foo_lib"","; "  visibility = [""//foo:__pkg__""],"; ")";
     "cc_library("; "  name = ""bar_lib"","; ")"])
  = Ret [($"foo_lib", Some (Ret [$"//foo:__pkg__"])); ($"bar_lib", None)].
Proof. vm_compute. reflexivity. Qed.
Example visibility_fallback :
  ask (fun r => (v_text (q_name r), option_map (fun l => strings (Some l)) (q_visibility r))) (query ["cc_library"]
    [""; "package("; "  default_visibility = [""//visibility:private""],"; ")"; "";
     "cc_library("; "  name = ""foo_lib"","; "  visibility = [""//foo:__pkg__""],"; ")";
     "cc_library("; "  name = ""bar_lib"","; ")"])
  = Ret [($"foo_lib", Some (Ret [$"//foo:__pkg__"])); ($"bar_lib", Some (Ret [$"//visibility:private"]))].
Proof. vm_compute. reflexivity. Qed.
