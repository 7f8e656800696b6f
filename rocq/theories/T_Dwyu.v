(** The repository's tests of "depend on what you use" (/repo/bant/tool/dwyu_test.cc),
    replayed on the model. *)
From Verif Require Import Base OMap M_Types M_Scanner M_Ast M_Parser M_Query M_Elab M_Workspace M_Project M_DepGraph M_Headers M_Includes M_Dwyu T_Parser T_Elab T_Headers.
Local Open Scope string_scope.
Local Open Scope list_scope.

(** The fixture: a project, sources by name, the target to run for. *)
Definition source (files : list (string * list string)) (name : str) : option str :=
  match find (fun f => str_eqb ($(fst f)) name) files with Some f => Some (nl (snd f)) | None => None end.
Definition fixture (elaborated : bool) (project : list (string * list string)) (sources : list (string * list string))
  (run : string) : outcome (list event) :=
  do pr <- test_project project empty_project;
  do pr <- (if elaborated then elaborate_project (fun _ => no_glob) pr else Ret pr);
  match parse_pattern ($run) with
  | PatOk pt => do (ev, _) <- dependency_edits [] (source sources) false pr pt; Ret ev
  | _ => UB
  end.
Definition edits (o : outcome (list event)) : option (list (bool * str)) :=
  match o with
  | Ret ev => Some (flat_map (fun e => match e with EvAdd _ l => [(true, l)] | EvRemove _ l => [(false, l)] | _ => [] end) ev)
  | _ => None
  end.
Definition add (s : string) := (true, $s).
Definition remove (s : string) := (false, $s).
(** The other events. *)
Definition messages (o : outcome (list event)) : list event :=
  match o with
  | Ret ev => filter (fun e => match e with EvAdd _ _ | EvRemove _ _ => false | _ => true end) ev
  | _ => []
  end.

Definition includes_text : list string :=
  ["  // line 0"; "/* some ignored text in line 1 */"; "#include ""CaSe-dash_underscore.h"""; "#include <should_not_be_extracted>"; "// #include ""also-not-extracted.h"""; "   #include ""but-this.h"""; "#include ""with/suffix.hh""      // other .."; "#include ""with/suffix.pb.h"""; "#include ""with/suffix.inc""     // .. common suffices"; "R""("; "#include ""bant/tool/dwyu.h""   // include embedded in string ignored."; """)"; "#  include    ""w/space.h""        // even strange spacing should work"; "#include /* foo */ ""this-is-silly.h""  // Some things are too far :)"; "#include ""../dotdot.h""         // mmh, who is doing this ?"; "#include ""more-special-c++.h""  // other characters used."; ""].
Definition position (content : str) (off : nat) : nat * nat :=
  let before := firstn off content in
  let back := take_until_nl (rev before) in
  (length (filter (fun c => ceqb c NL) before), back).
Example header_files_are_extracted :
  let incs := extract_cc_includes (nl includes_text) in
  map snd incs = map (fun s => $s) ["CaSe-dash_underscore.h"; "but-this.h"; "with/suffix.hh"; "with/suffix.pb.h"; "with/suffix.inc"; "w/space.h"; "../dotdot.h"; "more-special-c++.h"] /\
  map (fun i => position (nl includes_text) (fst i)) (firstn 6 incs) = [(2, 10); (5, 13); (6, 10); (7, 10); (8, 10); (12, 15)].
Proof. vm_compute. split; reflexivity. Qed.

Example add_missingdependency_1 :
  edits (fixture false
  [("//some/path", [""; "cc_library("; "  name = ""foo"","; "  srcs = [""foo.cc""],"; "  hdrs = [""foo.h""]"; ")"; ""; "cc_library("; "  name = ""bar"","; "  hdrs = [""bar.h""],   # make sure to not self-add :bar"; "  srcs = [""bar.cc""],"; "  # needed :foo dependency not given"; ")"; ""])]
  [("some/path/bar.h", [""]); ("some/path/bar.cc", [""; "#include ""some/path/foo.h"""; "#include ""some/path/bar.h"""; ""])] "//some/path:bar") = Some [add ":foo"].
Proof. vm_compute. reflexivity. Qed.
Example add_missingdependency_2 :
  edits (fixture false
  [("//some/path", [""; "cc_library("; "  name = ""foo"","; "  srcs = [""foo.cc""],"; "  hdrs = [""foo.h""]"; ")"; ""; "cc_library("; "  name = ""bar"","; "  hdrs = [""bar.h""],   # make sure to not self-add :bar"; "  srcs = [""bar.cc""],"; "  # needed :foo dependency not given"; ")"; ""])]
  [("some/path/bar.h", [""]); ("some/path/bar.cc", [""; "#include ""foo.h"""; ""])] "//some/path:bar") = Some [add ":foo"].
Proof. vm_compute. reflexivity. Qed.
Example add_missingdependency_3 :
  edits (fixture false
  [("//some/path", [""; "cc_library("; "  name = ""foo"","; "  srcs = [""foo.cc""],"; "  hdrs = [""foo.h""]"; ")"; ""; "cc_library("; "  name = ""bar"","; "  hdrs = [""bar.h""],   # make sure to not self-add :bar"; "  srcs = [""bar.cc""],"; "  # needed :foo dependency not given"; ")"; ""])]
  [("some/path/bar.h", [""]); ("some/path/bar.cc", [""; "#include ""external/project/some/path/foo.h"""; ""])] "//some/path:bar") = Some [add ":foo"].
Proof. vm_compute. reflexivity. Qed.
Example add_missingdependency_4 :
  edits (fixture false
  [("//some/path", [""; "cc_library("; "  name = ""foo"","; "  srcs = [""foo.cc""],"; "  hdrs = [""foo.h""]"; ")"; ""; "cc_library("; "  name = ""bar"","; "  hdrs = [""bar.h""],   # make sure to not self-add :bar"; "  srcs = [""bar.cc""],"; "  # needed :foo dependency not given"; ")"; ""])]
  [("some/path/bar.h", [""]); ("some/path/bar.cc", [""; "#include ""path/foo.h"""; ""])] "//some/path:bar") = Some [add ":foo"].
Proof. vm_compute. reflexivity. Qed.
Example add_missingdependency_5 :
  edits (fixture false
  [("//some/path", [""; "cc_library("; "  name = ""foo"","; "  srcs = [""foo.cc""],"; "  hdrs = [""foo.h""]"; ")"; ""; "cc_library("; "  name = ""bar"","; "  hdrs = [""bar.h""],   # make sure to not self-add :bar"; "  srcs = [""bar.cc""],"; "  # needed :foo dependency not given"; ")"; ""])]
  [("some/path/bar.h", [""]); ("some/path/bar.cc", [""; "#include ""wrongpath/foo.h"""; ""])] "//some/path:bar") = Some [].
Proof. vm_compute. reflexivity. Qed.
Example toplevelincludeswithoutprefixslashwork :
  edits (fixture false
  [("//", [""; "cc_library("; "  name = ""foo"","; "  srcs = [""foo.cc""],"; "  hdrs = [""foo.h""]"; ")"; ""])]
  [("foo.h", [""]); ("foo.cc", [""; "#include ""foo.h"""; ""])] "//:foo") = Some [].
Proof. vm_compute. reflexivity. Qed.
Example chooseminimaldependencysetifmultiplelibrariesprovideheader :
  edits (fixture false
  [("//path", [""; "cc_library("; "  name = ""allthethings"","; "  hdrs = [""foo.h"", ""bar.h""]"; ")"; ""; "cc_library("; "  name = ""onlyfoo"","; "  hdrs = [""foo.h""]"; ")"; ""; "cc_binary("; "  name = ""baz"","; "  srcs = [""baz.cc""],"; "  deps = ["":allthethings""],  # should be sufficient"; ""])]
  [("path/baz.cc", [""; "#include ""path/bar.h""   // order dependent currently."; "#include ""path/foo.h"""; ""])] "//path:baz") = Some [].
Proof. vm_compute. reflexivity. Qed.
Example requestuserguidanceiftherearemultiplealternatives_1 :
  edits (fixture false
  [("//path", [""; "cc_library("; "  name = ""foo-1"","; "  hdrs = [""foo.h""]"; ")"; ""; "cc_library("; "  name = ""foo-2"","; "  hdrs = [""foo.h""]   # provides the _same_ header as foo-1"; ")"; ""; "cc_library("; "  name = ""usefoo-1"","; "  srcs = [""usefoo-1.cc""],"; "  deps = ["":foo-1""],    # choice of one of the alternatives"; ")"; ""; "cc_library("; "  name = ""usefoo-2"","; "  srcs = [""usefoo-2.cc""],"; "  deps = ["":foo-2""],    # choice of one of the alternatives"; ")"; ""; "cc_library("; "  name = ""usefoo-all"","; "  srcs = [""usefoo-all.cc""],"; "  deps = ["; "     "":foo-1"","; "     "":foo-2"",     # overconstrained, but will not be able to do anything about"; "  ],"; ")"; ""; "cc_library("; "  name = ""usefoo-duplicate"","; "  srcs = [""usefoo-duplicate.cc""],"; "  deps = ["; "     "":foo-1"","; "     "":foo-1"",    # duplicate"; "  ],"; ")"; ""; "cc_library("; "  name = ""usefoo-undecided"","; "  srcs = [""usefoo-undecided.cc""],"; "  # No deps added. Bant will also not be able to help."; ")"; ""])]
  [("path/usefoo-1.cc", ["#include ""path/foo.h"""])] "//path:usefoo-1") = Some [].
Proof. vm_compute. reflexivity. Qed.
Example requestuserguidanceiftherearemultiplealternatives_2 :
  edits (fixture false
  [("//path", [""; "cc_library("; "  name = ""foo-1"","; "  hdrs = [""foo.h""]"; ")"; ""; "cc_library("; "  name = ""foo-2"","; "  hdrs = [""foo.h""]   # provides the _same_ header as foo-1"; ")"; ""; "cc_library("; "  name = ""usefoo-1"","; "  srcs = [""usefoo-1.cc""],"; "  deps = ["":foo-1""],    # choice of one of the alternatives"; ")"; ""; "cc_library("; "  name = ""usefoo-2"","; "  srcs = [""usefoo-2.cc""],"; "  deps = ["":foo-2""],    # choice of one of the alternatives"; ")"; ""; "cc_library("; "  name = ""usefoo-all"","; "  srcs = [""usefoo-all.cc""],"; "  deps = ["; "     "":foo-1"","; "     "":foo-2"",     # overconstrained, but will not be able to do anything about"; "  ],"; ")"; ""; "cc_library("; "  name = ""usefoo-duplicate"","; "  srcs = [""usefoo-duplicate.cc""],"; "  deps = ["; "     "":foo-1"","; "     "":foo-1"",    # duplicate"; "  ],"; ")"; ""; "cc_library("; "  name = ""usefoo-undecided"","; "  srcs = [""usefoo-undecided.cc""],"; "  # No deps added. Bant will also not be able to help."; ")"; ""])]
  [("path/usefoo-2.cc", ["#include ""path/foo.h"""])] "//path:usefoo-2") = Some [].
Proof. vm_compute. reflexivity. Qed.
Example requestuserguidanceiftherearemultiplealternatives_3 :
  edits (fixture false
  [("//path", [""; "cc_library("; "  name = ""foo-1"","; "  hdrs = [""foo.h""]"; ")"; ""; "cc_library("; "  name = ""foo-2"","; "  hdrs = [""foo.h""]   # provides the _same_ header as foo-1"; ")"; ""; "cc_library("; "  name = ""usefoo-1"","; "  srcs = [""usefoo-1.cc""],"; "  deps = ["":foo-1""],    # choice of one of the alternatives"; ")"; ""; "cc_library("; "  name = ""usefoo-2"","; "  srcs = [""usefoo-2.cc""],"; "  deps = ["":foo-2""],    # choice of one of the alternatives"; ")"; ""; "cc_library("; "  name = ""usefoo-all"","; "  srcs = [""usefoo-all.cc""],"; "  deps = ["; "     "":foo-1"","; "     "":foo-2"",     # overconstrained, but will not be able to do anything about"; "  ],"; ")"; ""; "cc_library("; "  name = ""usefoo-duplicate"","; "  srcs = [""usefoo-duplicate.cc""],"; "  deps = ["; "     "":foo-1"","; "     "":foo-1"",    # duplicate"; "  ],"; ")"; ""; "cc_library("; "  name = ""usefoo-undecided"","; "  srcs = [""usefoo-undecided.cc""],"; "  # No deps added. Bant will also not be able to help."; ")"; ""])]
  [("path/usefoo-duplicate.cc", ["#include ""path/foo.h"""])] "//path:usefoo-duplicate") = Some [].
Proof. vm_compute. reflexivity. Qed.
Example requestuserguidanceiftherearemultiplealternatives_4 :
  edits (fixture false
  [("//path", [""; "cc_library("; "  name = ""foo-1"","; "  hdrs = [""foo.h""]"; ")"; ""; "cc_library("; "  name = ""foo-2"","; "  hdrs = [""foo.h""]   # provides the _same_ header as foo-1"; ")"; ""; "cc_library("; "  name = ""usefoo-1"","; "  srcs = [""usefoo-1.cc""],"; "  deps = ["":foo-1""],    # choice of one of the alternatives"; ")"; ""; "cc_library("; "  name = ""usefoo-2"","; "  srcs = [""usefoo-2.cc""],"; "  deps = ["":foo-2""],    # choice of one of the alternatives"; ")"; ""; "cc_library("; "  name = ""usefoo-all"","; "  srcs = [""usefoo-all.cc""],"; "  deps = ["; "     "":foo-1"","; "     "":foo-2"",     # overconstrained, but will not be able to do anything about"; "  ],"; ")"; ""; "cc_library("; "  name = ""usefoo-duplicate"","; "  srcs = [""usefoo-duplicate.cc""],"; "  deps = ["; "     "":foo-1"","; "     "":foo-1"",    # duplicate"; "  ],"; ")"; ""; "cc_library("; "  name = ""usefoo-undecided"","; "  srcs = [""usefoo-undecided.cc""],"; "  # No deps added. Bant will also not be able to help."; ")"; ""])]
  [("path/usefoo-all.cc", ["#include ""path/foo.h"""])] "//path:usefoo-all") = Some [].
Proof. vm_compute. reflexivity. Qed.
Example requestuserguidanceiftherearemultiplealternatives_5 :
  edits (fixture false
  [("//path", [""; "cc_library("; "  name = ""foo-1"","; "  hdrs = [""foo.h""]"; ")"; ""; "cc_library("; "  name = ""foo-2"","; "  hdrs = [""foo.h""]   # provides the _same_ header as foo-1"; ")"; ""; "cc_library("; "  name = ""usefoo-1"","; "  srcs = [""usefoo-1.cc""],"; "  deps = ["":foo-1""],    # choice of one of the alternatives"; ")"; ""; "cc_library("; "  name = ""usefoo-2"","; "  srcs = [""usefoo-2.cc""],"; "  deps = ["":foo-2""],    # choice of one of the alternatives"; ")"; ""; "cc_library("; "  name = ""usefoo-all"","; "  srcs = [""usefoo-all.cc""],"; "  deps = ["; "     "":foo-1"","; "     "":foo-2"",     # overconstrained, but will not be able to do anything about"; "  ],"; ")"; ""; "cc_library("; "  name = ""usefoo-duplicate"","; "  srcs = [""usefoo-duplicate.cc""],"; "  deps = ["; "     "":foo-1"","; "     "":foo-1"",    # duplicate"; "  ],"; ")"; ""; "cc_library("; "  name = ""usefoo-undecided"","; "  srcs = [""usefoo-undecided.cc""],"; "  # No deps added. Bant will also not be able to help."; ")"; ""])]
  [("path/usefoo-undecided.cc", ["#include ""path/foo.h"""])] "//path:usefoo-undecided") = Some [].
Proof. vm_compute. reflexivity. Qed.
Example choosenondeprecatedalternative :
  edits (fixture false
  [("//some/lib", [""; "alias("; "  name = ""deprecated_foo"","; "  actual = "":new_foo"","; "  deprecation = ""This note makes sure it is not considered an alternative"","; ")"; ""; "cc_library("; "  name = ""new_foo"","; "  srcs = [""foo.cc""],"; "  hdrs = [""foo.h""],"; ")"; ""]);
   ("//user", [""; "cc_binary("; "   name = ""hello"","; "   srcs = [""hello.cc""],"; "   deps = [""//some/lib:deprecated_foo""],"; ")"; ""])]
  [("user/hello.cc", ["#include ""some/lib/foo.h"""])] "//user:hello") = Some [remove "//some/lib:deprecated_foo"; add "//some/lib:new_foo"].
Proof. vm_compute. reflexivity. Qed.
Example add_missingdependencyindifferentpackage :
  edits (fixture false
  [("//lib/path", [""; "cc_library("; "  name = ""foo"","; "  srcs = [""foo.cc""],"; "  hdrs = [""foo.h""],"; ")"; ""]);
   ("//some/path", [""; "cc_library("; "  name = ""bar"","; "  srcs = [""bar.cc""],"; "  # needed //lib/path:foo dependency not given"; ")"; ""])]
  [("some/path/bar.cc", [""; "#include ""lib/path/foo.h"""; ""])] "//some/path:bar") = Some [add "//lib/path:foo"].
Proof. vm_compute. reflexivity. Qed.
Example donotadd_ifnotvisible :
  edits (fixture false
  [("//lib/path", [""; "cc_library("; "  name = ""foo"","; "  srcs = [""foo.cc""],"; "  hdrs = [""foo.h""],"; "  visibility = [""//visibility:private""],  # Should not link outside"; ")"; ""]);
   ("//some/path", [""; "cc_library("; "  name = ""bar"","; "  srcs = [""bar.cc""],"; "  # needed //lib/path:foo dependency not given, but it is private"; ")"; ""])]
  [("some/path/bar.cc", [""; "#include ""lib/path/foo.h"""; ""])] "//some/path:bar") = Some [].
Proof. vm_compute. reflexivity. Qed.
Example add_ifvisibilityispackagegroup :
  edits (fixture false
  [("//lib/path", [""; "cc_library("; "  name = ""foo"","; "  srcs = [""foo.cc""],"; "  hdrs = [""foo.h""],"; "  visibility = [""//some/package:group""],  # Should be considered public for now"; ")"; ""]);
   ("//some/path", [""; "cc_library("; "  name = ""bar"","; "  srcs = [""bar.cc""],"; ")"; ""])]
  [("some/path/bar.cc", [""; "#include ""lib/path/foo.h"""; ""])] "//some/path:bar") = Some [add "//lib/path:foo"].
Proof. vm_compute. reflexivity. Qed.
Example allowvisibilityfromvariable_public :
  edits (fixture true
  [("//lib/path", [""; "VISIBILITY_VARIABLE = ""//visibility:public"""; "cc_library("; "  name = ""foo"","; "  srcs = [""foo.cc""],"; "  hdrs = [""foo.h""],"; "  visibility = [ VISIBILITY_VARIABLE ],"; ")"; ""]);
   ("//some/path", [""; "cc_library("; "  name = ""bar"","; "  srcs = [""bar.cc""],"; ")"; ""])]
  [("some/path/bar.cc", [""; "#include ""lib/path/foo.h"""; ""])] "//some/path:bar") = Some [add "//lib/path:foo"].
Proof. vm_compute. reflexivity. Qed.
Example allowvisibilityfromvariable_private :
  edits (fixture true
  [("//lib/path", [""; "VISIBILITY_VARIABLE = ""//visibility:private"""; "cc_library("; "  name = ""foo"","; "  srcs = [""foo.cc""],"; "  hdrs = [""foo.h""],"; "  visibility = [ VISIBILITY_VARIABLE ],"; ")"; ""]);
   ("//some/path", [""; "cc_library("; "  name = ""bar"","; "  srcs = [""bar.cc""],"; ")"; ""])]
  [("some/path/bar.cc", [""; "#include ""lib/path/foo.h"""; ""])] "//some/path:bar") = Some [].
Proof. vm_compute. reflexivity. Qed.
Example visibilityofaliasallowstobelinkedeveniftargetisnotvisible :
  edits (fixture false
  [("//some/lib", [""; "alias("; "  name = ""visible_foo_alias"","; "  actual = "":private_foo"","; "  visibility = [""//visibility:public""],   # points to lib with correct header"; ")"; ""; "cc_library("; "  name = ""private_foo"","; "  srcs = [""foo.cc""],"; "  hdrs = [""foo.h""],"; "  visibility = [""//visibility:private""],   # can't use this directly"; ")"; ""]);
   ("//user", [""; "cc_binary("; "   name = ""hello"","; "   srcs = [""hello.cc""],"; ")"; ""])]
  [("user/hello.cc", ["#include ""some/lib/foo.h"""])] "//user:hello") = Some [add "//some/lib:visible_foo_alias"].
Proof. vm_compute. reflexivity. Qed.
Example considerunknownvisibilityvariabletoallowpublic :
  edits (fixture true
  [("//lib/path", [""; "cc_library("; "  name = ""foo"","; "  srcs = [""foo.cc""],"; "  hdrs = [""foo.h""],"; "  visibility = [ UNKNOWN_VARIABLE ],"; ")"; ""]);
   ("//some/path", [""; "cc_library("; "  name = ""bar"","; "  srcs = [""bar.cc""],"; ")"; ""])]
  [("some/path/bar.cc", [""; "#include ""lib/path/foo.h"""; ""])] "//some/path:bar") = Some [add "//lib/path:foo"].
Proof. vm_compute. reflexivity. Qed.
Example add_alwaysconsiderlocalpackagesvisible :
  edits (fixture false
  [("//lib/path", [""; "cc_library("; "  name = ""foo"","; "  srcs = [""foo.cc""],"; "  hdrs = [""foo.h""],"; "  visibility = [""//some/package:__pkg__""],   # but we should still see locally"; ")"; ""; "cc_library("; "  name = ""bar"","; "  srcs = [""bar.cc""],"; ")"; ""])]
  [("lib/path/bar.cc", [""; "#include ""lib/path/foo.h"""; ""])] "//lib/path:bar") = Some [add ":foo"].
Proof. vm_compute. reflexivity. Qed.
Example donotadd_ifnotvisibleduetodefaultvisibility :
  edits (fixture false
  [("//lib/path", [""; "package("; "  default_visibility = [""//visibility:private""],  # :foo will inherit that"; ")"; ""; "cc_library("; "  name = ""foo"","; "  srcs = [""foo.cc""],"; "  hdrs = [""foo.h""],"; ")"; ""]);
   ("//some/path", [""; "cc_library("; "  name = ""bar"","; "  srcs = [""bar.cc""],"; "  # needed //lib/path:foo dependency not given, but it is private"; ")"; ""])]
  [("some/path/bar.cc", [""; "#include ""lib/path/foo.h"""; ""])] "//some/path:bar") = Some [].
Proof. vm_compute. reflexivity. Qed.
Example donotadd_iftestonlymismatch :
  edits (fixture false
  [("//lib/path", [""; "cc_library("; "  name = ""foo"","; "  srcs = [""foo.cc""],"; "  hdrs = [""foo.h""],"; "  testonly = True,"; ")"; ""]);
   ("//some/path", [""; "cc_library("; "  name = ""bar"","; "  srcs = [""bar.cc""],"; "  # needed //lib/path:foo dependency not given, but it is testonly."; ")"; ""])]
  [("some/path/bar.cc", [""; "#include ""lib/path/foo.h"""; ""])] "//some/path:bar") = Some [].
Proof. vm_compute. reflexivity. Qed.
Example remove_superfluousdependency :
  edits (fixture false
  [("//some/path", [""; "cc_library("; "  name = ""foo"","; "  srcs = [""foo.cc""],"; "  hdrs = [""foo.h""],"; ")"; ""; "cc_library("; "  name = ""bar"","; "  srcs = [""bar.cc""],"; "  hdrs = [""bar.h""],"; ")"; ""; "cc_library("; "  name = ""baz"","; "  srcs = [""baz.cc""],"; "  deps = ["; "    "":foo"""; "    "":bar""  # random text dwyu that needs to contain: keep"; "  ],"; ")"; ""])]
  [("some/path/baz.cc", ["/* no include */"])] "//some/path:baz") = Some [remove ":foo"].
Proof. vm_compute. reflexivity. Qed.
Example donotremove_ifthereisaheaderthatisunaccounted :
  edits (fixture false
  [("//some/path", [""; "cc_library("; "  name = ""foo"","; "  srcs = [""foo.cc""],"; "  hdrs = [""foo.h""],"; ")"; ""; "cc_library("; "  name = ""bar"","; "  srcs = [""bar.cc""],"; "  deps = ["":foo""],   # Not nominally needed, but we can't be sure to remove."; ")"; ""])]
  [("some/path/bar.cc", [""; "#include ""some/path/unaccounted-header.h"""; ""])] "//some/path:bar") = Some [].
Proof. vm_compute. reflexivity. Qed.
Example donotremove_alwayslinkdependency :
  edits (fixture false
  [("//some/path", [""; "cc_library("; "  name = ""foo"","; "  srcs = [""foo.cc""],"; "  hdrs = [""foo.h""],"; "  alwayslink = True"; ")"; ""; "cc_library("; "  name = ""bar"","; "  srcs = [""bar.cc""],"; "  deps = ["":foo""],"; ")"; ""])]
  [("some/path/bar.cc", ["/* no include */"])] "//some/path:bar") = Some [].
Proof. vm_compute. reflexivity. Qed.
Example donotremove_librarywithoutheaderconsideredalwayslinkdependency :
  edits (fixture false
  [("//some/path", [""; "cc_library("; "  name = ""foo"","; "  srcs = [""foo.cc""],"; "  # no headers exported. So if referenced, we consider it alwayslink"; ")"; ""; "cc_library("; "  name = ""bar"","; "  srcs = [""bar.cc""],"; "  hdrs = [],   # list there, but empty."; ")"; ""; "cc_library("; "  name = ""baz"","; "  srcs = [""baz.cc""],"; "  deps = ["; "    "":foo"","; "    "":bar"","; "  ]"; ")"; ""])]
  [("some/path/baz.cc", ["/* no include */"])] "//some/path:baz") = Some [].
Proof. vm_compute. reflexivity. Qed.
Example add_protolibraryforprotoinclude :
  edits (fixture false
  [("//some/path", [""; "proto_library("; "  name = ""foo_proto"","; "  srcs = [""foo.proto"", ""baz.proto""],"; ")"; ""; "cc_proto_library("; "  name = ""foo_proto_lib"","; "  deps = ["":foo_proto""],"; ")"; ""; "cc_library("; "  name = ""bar"","; "  srcs = [""bar.cc""],"; ")"; ""])]
  [("some/path/bar.cc", [""; "#include ""some/path/baz.pb.h"""; ""])] "//some/path:bar") = Some [add ":foo_proto_lib"].
Proof. vm_compute. reflexivity. Qed.
Example add_protogrpclibraryforprotoinclude :
  edits (fixture false
  [("//some/path", [""; "proto_library("; "  name = ""foo_proto"","; "  srcs = [""foo.proto"", ""baz.proto""],"; ")"; ""; "cc_grpc_library(              # GRPC form of a proto library."; "  name = ""grpc_foo"","; "  srcs = ["":foo_proto""],"; ")"; ""; "cc_library("; "  name = ""bar"","; "  srcs = [""bar.cc""],"; ")"; ""])]
  [("some/path/bar.cc", [""; "#include ""some/path/baz.grpc.pb.h"""; ""])] "//some/path:bar") = Some [add ":grpc_foo"].
Proof. vm_compute. reflexivity. Qed.
Example remove_unncessaryprotolibrary :
  edits (fixture false
  [("//some/path", [""; "proto_library("; "  name = ""foo_proto"","; "  srcs = [""foo.proto"", ""baz.proto""],"; ")"; ""; "cc_proto_library("; "  name = ""foo_proto_lib"","; "  deps = ["":foo_proto""],"; ")"; ""; "cc_library("; "  name = ""bar"","; "  srcs = [""bar.cc""],"; "  deps = ["":foo_proto_lib""],"; ")"; ""])]
  [("some/path/bar.cc", ["/* no include */"])] "//some/path:bar") = Some [remove ":foo_proto_lib"].
Proof. vm_compute. reflexivity. Qed.
Example add_abslstringviewworkaround :
  edits (fixture false
  [("//foo/absl/strings", ["   # iff packages suffix is absl/strings"; "cc_library("; "  name = ""string_view"","; "  hdrs = [""string_view.h""]  # The actual place definining header"; ")"; ""; "cc_library("; "  name = ""strings"","; "  hdrs = ["; "    ""str_cat.h"","; "    ""string_view.h""         # But also defined here"; "  ],"; "  textual_hdrs = ["; "    ""string_view.h""         # ... also here. This is how we detect."; "  ],"; ")"; ""; "cc_binary("; "  name = ""string-user"","; "  srcs = [""string-user.cc""],"; "  # expecting deps added"; ")"; ""])]
  [("foo/absl/strings/string-user.cc", [""; "#include ""foo/absl/strings/str_cat.h"""; "#include ""foo/absl/strings/string_view.h"""; ""])] "//foo/absl/strings:string-user") = Some [add ":strings"; add ":string_view"].
Proof. vm_compute. reflexivity. Qed.
