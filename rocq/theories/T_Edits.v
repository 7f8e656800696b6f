(** /repo/bant/tool/canon-targets_test.cc. *)
From Verif Require Import Base OMap M_Types M_Scanner M_Ast M_Query M_Project M_Edits.
Local Open Scope string_scope. Local Open Scope list_scope.

Definition test_build : str := $"
cc_library(
  name = ""foo"",
  srcs = [""foo.cc""],
  deps = [
    ""//some/path:bar"",        # local package, so keep local :bar
    ""baz"",                    # add colon prefix
    ""//flubber:flubber"",      # can be shortened to //flubber
    ""//other/package:waldo"",  # should not change
    ""@//other/package:qux"",   # This has a superfluous '@' in front.
    ""@foobar//:foobar"",       # can be shortended to @foobar
  ]
)
".
(** CanonicalizeDependencies. *)
Example canonicalize_dependencies :
  (do (pr, _) <- add_build_file_content empty_project (mkPackage [] ($"some/path")) ($"BUILD") test_build;
   do evs <- canonicalize_edits pr (mkPattern (mkTarget (mkPackage [] []) []) KAlwaysMatch);
   Ret (map (fun e => (e_before e, e_after e)) (edits_of_canon evs)))
  = Ret [($"//some/path:bar", $":bar"); ($"baz", $":baz"); ($"//flubber:flubber", $"//flubber");
         ($"@//other/package:qux", $"//other/package:qux"); ($"@foobar//:foobar", $"@foobar")].
Proof. vm_compute. reflexivity. Qed.
