(** Properties C37 to C39: glob patterns. *)
From Verif Require Import Base OMap M_Types M_Regex P_Regex M_Glob S_Glob P_Glob.
Local Open Scope string_scope.
Local Open Scope list_scope.

(** * C37: included and not excluded *)
Theorem C37_selected : forall calls s, s <> [] ->
  (file_predicate (built calls) s = true <->
   (exists p, In (true, p) calls /\ glob_match p s) /\ ~ exists p, In (false, p) calls /\ glob_match p s).
Proof. exact file_predicate_spec. Qed.
Print Assumptions C37_selected.
(** Patterns without '*' select just the file of that name. *)
Theorem C37_plain : forall p s, ~ In "*"%char p -> (glob_match p s <-> s = p).
Proof. intros p s N. apply glob_match_plain. now apply contains_char_false. Qed.
Print Assumptions C37_plain.
(** Neither order nor repetition of the calls matters. *)
Theorem C37_order : forall calls calls', (forall c, In c calls <-> In c calls') ->
  forall s, file_predicate (built calls) s = file_predicate (built calls') s /\ directory_predicate (built calls) s = directory_predicate (built calls') s.
Proof. intros calls calls' H s. now rewrite (built_ext calls calls' H). Qed.
Print Assumptions C37_order.
Example C37_case : let calls := [(true, $"**/*.cc"); (false, $"**/*_test.cc"); (true, $"a.h"); (true, $"a.h")] in
  map (file_predicate (built calls)) [$"a.h"; $"x/b.cc"; $"x/b_test.cc"; $"b.h"] = [true; true; false; false] /\
  glob_match ($"**/*.cc") ($"x/b.cc").
Proof.
  split; [vm_compute; reflexivity|]. assert (H : file_predicate (built [(true, $"**/*.cc")]) ($"x/b.cc") = true) by (vm_compute; reflexivity).
  apply C37_selected in H as ((p & [E|[]] & G) & _); [|discriminate]. injection E as <-. exact G.
Qed.
(** The empty path: the expression made of no patterns at all matches it. *)
Theorem C37_empty_refuted : exists calls, file_predicate (built calls) [] = true /\ ~ exists p, In (true, p) calls /\ glob_match p [].
Proof.
  exists [(true, $"a.h"); (false, $"*b")]. split; [vm_compute; reflexivity|]. intros (p & [E|[E|[]]] & G); [|discriminate].
  injection E as <-. inversion G.
Qed.
Print Assumptions C37_empty_refuted.

(** * C38: one pattern *)
(** Every path the pattern matches in the sense of Bazel is selected, but for patterns
    ending in "**". *)
Theorem C38_complete : forall p s, s <> [] -> ~ In NL s -> last (split "/" p) [] <> $"**" -> bazel_match p s -> file_predicate (built [(true, p)]) s = true.
Proof.
  intros p s N1 N2 L B. apply file_predicate_spec; auto. split.
  - exists p. split; [now left|]. now apply bazel_complete.
  - intros (q & [E|[]] & _). discriminate.
Qed.
Print Assumptions C38_complete.
(** Without "**" just those. *)
Theorem C38_exact : forall p s, s <> [] -> ~ In NL s -> contains ($"**/") p = false -> last (split "/" p) [] <> $"**" ->
  (file_predicate (built [(true, p)]) s = true <-> bazel_match p s).
Proof.
  intros p s N1 N2 C L. split; [|now apply C38_complete]. intros H. apply file_predicate_spec in H as ((q & [E|[]] & G) & _); auto.
  injection E as <-. now apply bazel_sound.
Qed.
Print Assumptions C38_exact.
Example C38_case : bazel_match ($"src/*/t_*.cc") ($"src/x/t_a.cc") /\ ~ bazel_match ($"src/*/t_*.cc") ($"src/x/y/t_a.cc") /\ bazel_match ($"a/**/b/*.h") ($"a/x/y/b/c.h").
Proof.
  split; [|split].
  - apply C38_exact; [discriminate|vm_compute; intuition discriminate|reflexivity|discriminate|vm_compute; reflexivity].
  - rewrite <- C38_exact; [vm_compute; discriminate|discriminate|vm_compute; intuition discriminate|reflexivity|discriminate].
  - unfold bazel_match. change (split "/" ($"a/**/b/*.h")) with [$"a"; $"**"; $"b"; $"*.h"]. change (split "/" ($"a/x/y/b/c.h")) with [$"a"; $"x"; $"y"; $"b"; $"c.h"].
    assert (Ok : forall c, c <> "*"%char -> segment_match [c] [c]) by (intros c N; constructor; [exact N|constructor]).
    apply PM_one; [discriminate|apply Ok; discriminate|]. do 2 apply PM_more. apply PM_none. apply PM_one; [discriminate|apply Ok; discriminate|].
    apply PM_one; [discriminate| |constructor]. change ($"c.h") with ($"c" ++ $".h"). change ($"*.h") with ("*"%char :: $".h"). apply SM_star. apply SM_char; [discriminate|]. apply Ok. discriminate.
Qed.
(** "**/" is any text, not whole directories ... *)
Theorem C38_directories_refuted : exists p s, file_predicate (built [(true, p)]) s = true /\ ~ bazel_match p s /\ last (split "/" p) [] <> $"**".
Proof.
  exists ($"**/foo.h"), ($"barfoo.h"). split; [vm_compute; reflexivity|]. split; [|discriminate].
  assert (N : ~ path_match [$"foo.h"] []) by (intros H; inversion H).
  intros B. unfold bazel_match in B. change (split "/" ($"**/foo.h")) with [$"**"; $"foo.h"] in B. change (split "/" ($"barfoo.h")) with [$"barfoo.h"] in B.
  inversion B as [|ps ss H E1 E2|ps s ss H E1 E2|p ps s ss Hn M H E1 E2]; subst.
  - inversion H as [| | |p ps s ss Hn M H' E1 E2]; subst. inversion M as [| |c q s Nc M' E1 E2].
  - inversion H as [|ps ss H' E1 E2| |]; subst. now apply N.
  - congruence.
Qed.
Print Assumptions C38_directories_refuted.
(** ... and at the end of a pattern "**" does not descend. *)
Theorem C38_trailing_refuted : exists p s, bazel_match p s /\ s <> [] /\ ~ In NL s /\ file_predicate (built [(true, p)]) s = false.
Proof.
  exists ($"foo/**"), ($"foo/a/b"). split; [|split; [discriminate|split; [vm_compute; intuition discriminate|vm_compute; reflexivity]]].
  unfold bazel_match. change (split "/" ($"foo/**")) with [$"foo"; $"**"]. change (split "/" ($"foo/a/b")) with [$"foo"; $"a"; $"b"].
  apply PM_one; [discriminate| |].
  - do 3 (apply SM_char; [discriminate|]). constructor.
  - apply PM_more. apply PM_more. apply PM_none. constructor.
Qed.
Print Assumptions C38_trailing_refuted.

(** * C39: the directories entered *)
Theorem C39_no_match_pruned : forall calls d f, ~ In NL d -> file_predicate (built calls) (d ++ "/"%char :: f) = true -> directory_predicate (built calls) d = true.
Proof. exact directory_complete. Qed.
Print Assumptions C39_no_match_pruned.
(** Exactly these directories are entered. *)
Theorem C39_entered : forall calls s,
  directory_predicate (built calls) s = true <->
  (exists p, In (true, p) calls /\ ((~ In "/"%char p /\ s = []) \/ exists d f, p = d ++ "/"%char :: f /\ ~ In "/"%char f /\ dir_match d s)) \/
  (s = [] /\ forall d f, In (true, d ++ "/"%char :: f) calls -> ~ In "/"%char f -> ~ In "*"%char d).
Proof. exact directory_predicate_spec. Qed.
Print Assumptions C39_entered.
Example C39_case : let calls := [(true, $"a/**/b/*.h"); (true, $"x/*.cc")] in
  file_predicate (built calls) ($"a/c/d/b" ++ "/"%char :: $"e.h") = true /\
  map (directory_predicate (built calls)) [$"a"; $"a/c"; $"a/c/d"; $"a/c/d/b"; $"x"; $"x/y"; $"b"] = [true; true; true; true; true; false; false].
Proof. vm_compute. auto. Qed.
(** With a newline in the name of a directory files can be missed. *)
Theorem C39_newline_refuted : exists calls d f, file_predicate (built calls) (d ++ "/"%char :: f) = true /\ directory_predicate (built calls) d = false.
Proof. exists [(true, "*"%char :: $"**/b")], (NL :: $"x/c"), ($"b"). vm_compute. auto. Qed.
Print Assumptions C39_newline_refuted.
