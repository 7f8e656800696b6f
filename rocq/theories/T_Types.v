(** The repository's own unit tests, /repo/bant/types-bazel_test.cc, replayed on
    the model (a fidelity check of the model, not part of any claim). *)
From Verif Require Import Base OMap M_Regex M_Types.

Definition root := mkPackage [] [].
Definition P (s : string) := parse_package ($s).
Definition pk a b := mkPackage ($a) ($b).
Definition T c (s : string) := parse_target ($s) c.
Definition tg a b n := mkTarget (pk a b) ($n).
Definition PM (p s : string) : option bool :=
  match parse_pattern ($p), parse_package ($s) with
  | PatOk pt, Some q => Some (match_package pt q) | _, _ => None end.
Definition TM (p s : string) : option bool :=
  match parse_pattern ($p), parse_target ($s) root with
  | PatOk pt, Some q => Some (match_target pt q) | _, _ => None end.
Definition RT (s : string) : option str := option_map target_to_string (T (pk "" "foo") s).

Example parse_package_tests :
  [P "nodelimiter"; P "@foo"; P "//foo/bar"; P "//foo/bar/"; P "//foo/bar:targetignored";
   P "@foo//bar/baz"; P "@foo/bar/baz"; P "@foo/bar//baz"; P "@foo/bar/baz//abc";
   P "@//bar/baz"]
  = [Some (pk "" "nodelimiter"); Some (pk "@foo" ""); Some (pk "" "foo/bar");
     Some (pk "" "foo/bar"); Some (pk "" "foo/bar"); Some (pk "@foo" "bar/baz");
     Some (pk "@foo" "bar/baz"); None; None; Some (pk "" "bar/baz")].
Proof. vm_compute. reflexivity. Qed.

Example parse_target_tests :
  let c := pk "" "foo/bar" in
  [T c ":target"; T c "target"; T c "//baz"; T c "//baz/"; T c "@foo"; T c "//other/path:target";
   T c "//some/path/toplevel"; T c "@absl//absl/strings:strings"; T c "@absl//absl/strings";
   T (pk "@absl" "foo/bar") "//absl/strings:strings"; T (pk "@absl" "foo/bar") "//absl/strings";
   T root "//..."; T root "//foo:bar"]
  = [Some (tg "" "foo/bar" "target"); Some (tg "" "foo/bar" "target"); Some (tg "" "baz" "baz");
     Some (tg "" "baz" ""); Some (tg "@foo" "" "foo"); Some (tg "" "other/path" "target");
     Some (tg "" "some/path/toplevel" "toplevel"); Some (tg "@absl" "absl/strings" "strings");
     Some (tg "@absl" "absl/strings" "strings"); Some (tg "@absl" "absl/strings" "strings");
     Some (tg "@absl" "absl/strings" "strings"); Some (tg "" "..." "...");
     Some (tg "" "foo" "bar")].
Proof. vm_compute. reflexivity. Qed.

Example qualified_file_tests :
  (qualified_file (pk "" "bar/baz") ($"quux.cc"), qualified_file (pk "" "bar/baz") ($":quux.cc"))
  = ($"bar/baz/quux.cc", $"bar/baz/quux.cc").
Proof. vm_compute. reflexivity. Qed.

Example print_package_tests :
  map package_to_string [pk "" "foo/bar/baz"; pk "@absl" "foo/bar/baz"; pk "@foo" ""]
  = [$"//foo/bar/baz"; $"@absl//foo/bar/baz"; $"@foo//"].
Proof. vm_compute. reflexivity. Qed.

Example print_target_tests :
  let p1 := pk "" "foo/bar/baz" in let p2 := pk "" "other/path" in
  let pj := pk "@project" "" in
  (map (fun '(s, c, o) => match T c s with
                          | Some t => match o with
                                      | None => target_to_string t
                                      | Some q => target_to_string_rel t q end
                          | None => [] end)
    [("some-lib", p1, None); ("some-lib", p1, Some p1); ("some-lib", p1, Some p2);
     ("baz", p1, None); ("baz", p1, Some p1); ("baz", p1, Some p2);
     ("foo", pj, None); ("foo", pj, Some pj); ("project", pj, None);
     ("project", pj, Some pj)]%string)
  = [$"//foo/bar/baz:some-lib"; $":some-lib"; $"//foo/bar/baz:some-lib";
     $"//foo/bar/baz"; $":baz"; $"//foo/bar/baz"; $"@project//:foo"; $":foo";
     $"@project"; $":project"].
Proof. vm_compute. reflexivity. Qed.

Example parse_reprint_tests :
  map RT ["//foo/bar:baz"; "//foo"; "//foo:foo"; "@foo//:baz"; "@foo//foo"; "@foo//:foo";
          "//bar"; "//bar:bar"; "@foo//bar"; "@foo//bar:bar"]%string
  = map (fun s => Some ($s))
        ["//foo/bar:baz"; "//foo"; "//foo"; "@foo//:baz"; "@foo//foo"; "@foo"; "//bar"; "//bar";
         "@foo//bar"; "@foo//bar"]%string.
Proof. vm_compute. reflexivity. Qed.

Example recursive_pattern_tests :
  map (fun s => match parse_pattern ($s) with PatOk p => Some (is_recursive p, pat_path p) | _ => None end)
    ["//..."; "..."; "foo/bar/..."; "//foo/bar/..."; "foo/bar:all"; "foo/bar:__pkg__";
     "foo/bar:__subpackages__"]%string
  = map (fun '(b, s) => Some (b, $s))
      [(true, ""); (true, ""); (true, "foo/bar"); (true, "foo/bar"); (false, "foo/bar");
       (false, "foo/bar"); (true, "foo/bar")]%string
  /\ match parse_pattern ($"foo/bar/..") with PatOk p => is_recursive p | _ => true end = false.
Proof. vm_compute. auto. Qed.

Example package_match_tests :
  [PM "..." "//foo"; PM "..." "//foo:bar"; PM "..." "//foo/bar:baz"; PM "//..." "//foo:bar";
   PM "//foo/..." "//foo"; PM "//foo/..." "//foo/bar"; PM "//foo:__subpackages__" "//foo/bar";
   PM "//foo:all" "//foo"] = repeat (Some true) 8 /\
  [PM "..." "@quux//foo/bar:baz"; PM "//foo/..." "//foobar"; PM "//foo:__subpackages__" "//baz";
   PM "@x//foo/..." "//foo"; PM "//foo/..." "@x//foo"; PM "//foo:all" "//foo/bar"]
  = repeat (Some false) 6.
Proof. vm_compute. auto. Qed.

Example target_match_tests :
  [TM "//foo/..." "//foo:bar"; TM "//foo/..." "//foo/bar:baz"; TM "//foo/..." "//foo";
   TM "//foo" "//foo"; TM "//foo/..." "//foo/"; TM "//foo:all" "//foo:bar"; TM "//foo:all" "//foo:baz";
   TM "//foo:*" "//foo:baz"; TM "//foo:__pkg__" "//foo:baz"; TM "//foo:bar" "//foo:bar";
   TM "//foo:*bar" "//foo:bar"; TM "//foo:*bar" "//foo:foobar"; TM "//foo:*bar" "//foo:whiskybar";
   TM "//foo:ba*" "//foo:bar"; TM "//foo:ba*" "//foo:baz"; TM "//foo:b*r" "//foo:bar";
   TM "//foo:b*r" "//foo:bazaar"; TM "//foo:b*r*k" "//foo:break"; TM "//foo:b*r*k" "//foo:be_right_back"]
  = repeat (Some true) 19 /\
  [TM "//foo/..." "@foo//foo:bar"; TM "//foo/..." "//fo"; TM "//foo:bar" "//foo:baz";
   TM "//foo:*bar" "//foo:baz"; TM "//foo:*bar" "//foo:barquux"; TM "//foo:ba*" "//foo:quux";
   TM "//foo:b*r" "//foo:baz"; TM "//foo:b*r*k" "//foo:ill_be_back"] = repeat (Some false) 8.
Proof. vm_compute. auto. Qed.

Definition VM (v t : string) : option (bool * bool * bool) :=
  match parse_visibility ($v) (pk "" "foo/bar"), parse_target ($t) root with
  | PatOk pt, Some q => Some (is_matchall pt, is_recursive pt, match_target pt q) | _, _ => None end.
Example visibility_tests :
  [VM "//visibility:public" "//x"; VM "//visibility:private" "//foo/bar:baz";
   VM "//visibility:private" "//foo/bar/baz:quux"; VM "__subpackages__" "//foo/bar:hello";
   VM "__subpackages__" "//foo/bar/baz/and/deep/belo:hello"]
  = [Some (true, true, true); Some (false, false, true); Some (false, false, false);
     Some (false, true, true); Some (false, true, true)].
Proof. vm_compute. reflexivity. Qed.
