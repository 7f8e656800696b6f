(** glob-match-builder_test.cc on the model. *)
From Verif Require Import Base OMap M_Types M_Regex M_Glob.
Local Open Scope string_scope.
Local Open Scope list_scope.
Definition glob_of (inc exc : list string) : glob_builder :=
  fold_left (fun g p => add_exclude ($p) g) exc (fold_left (fun g p => add_include ($p) g) inc new_glob).
Definition files (g : glob_builder) (l : list string) : list bool := map (fun s => file_predicate g ($s)) l.
Definition dirs (g : glob_builder) (l : list string) : list bool := map (fun s => directory_predicate g ($s)) l.

Example simple_file : let g := glob_of ["foo.txt"; "b*r.txt"] [] in
  files g ["foo.txt"; "fooXtxt"; "br.txt"; "bar.txt"; "baaaaar.txt"; "car.txt"] = [true; false; true; true; true; false] /\
  dirs g [""; "anythingelse"] = [true; false].
Proof. vm_compute. auto. Qed.
Example exactly_one_dir : let g := glob_of ["*/foo.txt"; "*/b*r.txt"] [] in
  files g ["foo.txt"; "baaaaar.txt"; "a/foo.txt"; "a/bar.txt"] = [false; false; true; true] /\
  dirs g [""; "foo"; "foo/bar"] = [true; true; false].
Proof. vm_compute. auto. Qed.
Example multi_dir : let g := glob_of ["**/foo.txt"; "**/b*r.txt"] [] in
  files g ["foo.txt"; "baz.txt"; "baaaaar.txt"; "a/foo.txt"; "a/bar.txt"; "a/b/foo.txt"; "a/b/c/foo.txt"] =
    [true; false; true; true; true; true; true] /\
  dirs g [""; "foo"; "foo/bar"; "foo/bar/baz"] = [true; true; true; true].
Proof. vm_compute. auto. Qed.
Example multi_dir_with_prefix : let g := glob_of ["a/**/foo.txt"; "b/**/b*r.txt"; "e/**/d/ddd.txt"; "e/*/g/ggg.txt"; "f/g/h/b*r.txt"] [] in
  files g ["foo.txt"; "baaaaar.txt"; "a/x/foo.txt"; "a/x/bar.txt"; "b/x/bar.txt"; "b/x/baaar.txt"; "a/b/c/d/foo.txt"; "a/b/c/d/bar.txt";
           "b/c/d/bar.txt"; "e/x/y/z/ddd.txt"; "e/x/y/z/d/ddd.txt"; "e/x/g/ggg.txt"; "e/x/y/g/ggg.txt"; "e/g/ggg.txt"; "f/g/h/bar.txt"; "f/g/j/bar.txt"] =
    [false; false; true; false; true; true; true; false; true; false; true; true; false; false; true; false] /\
  dirs g [""; "a"; "a/b"; "a/b/c"; "b"; "b/c"; "b/c/d"; "f"; "f/g"; "f/g/h"; "f/g/h/i"; "e"; "e/x"; "e/x/y"; "e/x/y/z"; "e/x/y/z/d"; "c"] =
    [false; true; true; true; true; true; true; true; true; true; false; true; true; true; true; true; false].
Proof. vm_compute. auto. Qed.
Example multi_dir_zero_or_more_segments : let g := glob_of ["**/foo.txt"; "a/**/bar.txt"] [] in
  files g ["foo.txt"; "x/foo.txt"; "x/y/foo.txt"; "a/bar.txt"; "a/x/bar.txt"; "a/x/baz.txt"] = [true; true; true; true; true; false].
Proof. vm_compute. auto. Qed.
Example exclude_files : let g := glob_of ["*.txt"] ["*_internal*.txt"; "explicit-exclude.txt"] in
  files g ["foo.txt"; "bar.txt"; "foo_test.txt"; "explicit-exclude.txt"; "foo_intern.txt"; "foo_internal.txt"; "foo_internals.txt"] =
    [true; true; true; false; true; false; false].
Proof. vm_compute. auto. Qed.
