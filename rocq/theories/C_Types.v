(** Properties C01-C06: labels, patterns and visibility. *)
From Verif Require Import Base OMap M_Regex P_Regex M_Types S_Labels P_Types.

(** C01. Parsing a printed label gives the same target back. *)
Theorem C01_label_roundtrip : forall t ctx,
  wf_target t -> (project ctx = [] \/ project (tpackage t) <> []) ->
  parse_target (target_to_string t) ctx = Some t.
Proof. exact label_roundtrip. Qed.
Print Assumptions C01_label_roundtrip.

(** Printing is injective on well-formed targets. *)
Theorem C01_distinct_targets_print_differently : forall t u,
  wf_target t -> wf_target u -> target_to_string t = target_to_string u -> t = u.
Proof.
  intros t u Wt Wu E.
  assert (A := label_roundtrip t (mkPackage [] []) Wt (or_introl eq_refl)).
  assert (B := label_roundtrip u (mkPackage [] []) Wu (or_introl eq_refl)).
  congruence.
Qed.
Print Assumptions C01_distinct_targets_print_differently.

Example C01_case :
  wf_target (mkTarget (mkPackage ($"@absl") ($"absl/strings")) ($"str_format")) /\
  target_to_string (mkTarget (mkPackage ($"@absl") ($"absl/strings")) ($"str_format"))
  = $"@absl//absl/strings:str_format".
Proof.
  split; [|reflexivity]. repeat split; simpl; try discriminate; try (intuition discriminate).
  - right. exists ($"absl"). simpl. intuition discriminate.
  - intros r E. change ["a"; "b"; "s"; "l"; "/"; "s"; "t"; "r"; "i"; "n"; "g"; "s"]%char
      with ($"absl/string" ++ ["s"%char]) in E. apply app_inj_tail in E as [_ E]. discriminate.
  - intros a b E. do 13 (destruct a as [|? a]; [discriminate|]; simpl in E; inversion E; subst; clear E; rename H1 into E).
Qed.

(** C02. The canonical spelling of a label that is relative to a package names the
    same target; canonicalizing twice changes nothing. *)
Theorem C02_canonicalize_same_target : forall s ctx t,
  wf_project (project ctx) ->
  parse_target s ctx = Some t ->
  project (tpackage t) <> $"@" ->
  target_to_string_rel t ctx <> [] ->
  parse_target (target_to_string_rel t ctx) ctx = Some t.
Proof. exact canonical_same_target. Qed.
Print Assumptions C02_canonicalize_same_target.

(** Both side conditions are needed: the label "//" in package //foo prints as
    the empty string, which names another target. *)
Theorem C02_empty_spelling_refuted : exists s ctx t,
  wf_project (project ctx) /\ parse_target s ctx = Some t /\
  parse_target (target_to_string_rel t ctx) ctx <> Some t.
Proof.
  exists ($"//"), (mkPackage [] ($"foo")), (mkTarget (mkPackage [] []) []).
  split; [left; reflexivity|]. split; [reflexivity|]. vm_compute. discriminate.
Qed.
Print Assumptions C02_empty_spelling_refuted.

Theorem C02_tilde_project_refuted : exists s ctx t,
  wf_project (project ctx) /\ parse_target s ctx = Some t /\
  target_to_string_rel t ctx <> [] /\
  parse_target (target_to_string_rel t ctx) ctx <> Some t.
Proof.
  exists ($"@~x//foo:bar"), (mkPackage ($"@p") ($"foo")), (mkTarget (mkPackage ($"@") ($"foo")) ($"bar")).
  split; [right; exists ($"p"); simpl; intuition discriminate|].
  split; [reflexivity|]. split; vm_compute; discriminate.
Qed.
Print Assumptions C02_tilde_project_refuted.

Example C02_case :
  parse_target ($"//foo/bar:bar") (mkPackage [] ($"baz"))
  = Some (mkTarget (mkPackage [] ($"foo/bar")) ($"bar")) /\
  target_to_string_rel (mkTarget (mkPackage [] ($"foo/bar")) ($"bar")) (mkPackage [] ($"baz"))
  = $"//foo/bar" /\ wf_project (project (mkPackage [] ($"baz"))).
Proof. split; [reflexivity|]. split; [reflexivity|left; reflexivity]. Qed.

(** C03. A recursive pattern matches exactly the packages at or below its
    directory, component-wise. *)
Theorem C03_recursive_pattern : forall pr pt ctx,
  wf_project pr -> wf_path pt -> pt <> [] ->
  exists pat,
    parse_pattern_in (pr ++ $"//" ++ pt ++ $"/...") ctx = PatOk pat /\
    forall q, match_package pat q = true <->
              project q = (if is_nil pr then project ctx else pr) /\ inside pt (path q).
Proof.
  intros pr pt ctx H1 H2 H3. eexists. split; [apply parse_recursive; auto|].
  intros q. apply match_recursive.
Qed.
Print Assumptions C03_recursive_pattern.

Theorem C03_toplevel_pattern : forall pr ctx,
  wf_project pr ->
  exists pat,
    parse_pattern_in (pr ++ $"//...") ctx = PatOk pat /\
    forall q, match_package pat q = true <-> project q = (if is_nil pr then project ctx else pr).
Proof.
  intros pr ctx H1. eexists. split; [apply parse_recursive_top; auto|].
  intros q. rewrite match_recursive. split; [tauto|]. intros H. split; auto. apply inside_nil.
Qed.
Print Assumptions C03_toplevel_pattern.

(** A pattern on the command line that is only a name is about the top package: one target of it, ... *)
Theorem C03_here : forall name, wf_name name -> ~ In "/"%char name -> ~ In "@"%char name -> ~ In "*"%char name ->
  ~ In name [$"all"; $"__pkg__"; $"__subpackages__"; $"..."] ->
  exists pat, parse_pattern name = PatOk pat /\ parse_pattern ($":" ++ name) = PatOk pat /\
    forall t, match_target pat t = true <-> t = mkTarget (mkPackage [] []) name.
Proof.
  intros name [N C] S A G Sp. exists (mkPattern (mkTarget (mkPackage [] []) name) KExact).
  assert (P : parse_target name (mkPackage [] []) = Some (mkTarget (mkPackage [] []) name)).
  { unfold parse_target. rewrite (split_notin _ _ C). rewrite (proj2 (find_last_none _ _) S).
    destruct (starts_with ($"@") name) eqn:X; [|reflexivity]. apply starts_with_iff in X as (r & ->). exfalso. apply A. left. reflexivity. }
  assert (Q : parse_target ($":" ++ name) (mkPackage [] []) = Some (mkTarget (mkPackage [] []) name)) by (apply parse_local_label; auto).
  assert (Ne : forall x, In x [$"all"; $"__pkg__"; $"__subpackages__"; $"..."] -> str_eqb name x = false).
  { intros x I. apply not_true_iff_false. intros E. apply str_eqb_eq in E. subst. contradiction. }
  assert (St : str_eqb name ($"*") = false). { apply not_true_iff_false. intros E. apply str_eqb_eq in E. subst. apply G. left. reflexivity. }
  assert (R : forall s, parse_target s (mkPackage [] []) = Some (mkTarget (mkPackage [] []) name) -> parse_pattern s = PatOk (mkPattern (mkTarget (mkPackage [] []) name) KExact)).
  { intros s E. unfold parse_pattern, parse_pattern_in. rewrite E. cbn [tname tpackage path]. rewrite St, (Ne ($"all")), (Ne ($"__pkg__")), (Ne ($"__subpackages__")), (Ne ($"...")) by (cbn; auto 6). cbn [orb].
    change (str_eqb [] ($"...") || ends_with ($"/...") []) with false. cbv iota. rewrite (proj2 (contains_char_false _ _) G). reflexivity. }
  split; [auto|]. split; [auto|]. intros t. unfold match_target. cbn [pat_kind pat_target]. apply target_eqb_eq.
Qed.
Print Assumptions C03_here.
(** ... all of it, or the whole project. *)
Theorem C03_all_here : (exists pat, parse_pattern ($":all") = PatOk pat /\ forall t, match_target pat t = true <-> tpackage t = mkPackage [] []) /\
  (exists pat, parse_pattern ($"...") = PatOk pat /\ forall t, match_target pat t = true <-> project (tpackage t) = []).
Proof.
  split; eexists; (split; [reflexivity|]); intros [p n]; unfold match_target; cbn [pat_kind pat_target tpackage].
  - apply package_eqb_eq.
  - rewrite match_recursive. split; [tauto|]. intros H. split; auto. apply inside_nil.
Qed.
Print Assumptions C03_all_here.
Example C03_here_case : wf_name ($"foo") /\ parse_pattern ($"foo") = PatOk (mkPattern (mkTarget (mkPackage [] []) ($"foo")) KExact).
Proof. split; [split; [discriminate|]|reflexivity]. cbn. intuition discriminate. Qed.
(** "//foo/...:all", which Bazel reads as "//foo/...", does not match //foo. *)
Theorem C03_dots_all_refuted : exists pat,
  parse_pattern ($"//foo/...:all") = PatOk pat /\
  match_package pat (mkPackage [] ($"foo")) = false /\
  match_package pat (mkPackage [] ($"foo/bar")) = false.
Proof. eexists. split; [reflexivity|]. split; reflexivity. Qed.
Print Assumptions C03_dots_all_refuted.

Example C03_case : wf_path ($"foo") /\ inside ($"foo") ($"foo/bar") /\ ~ inside ($"foo") ($"foobar").
Proof.
  split; [|split].
  - repeat split; simpl; try (intuition discriminate).
    + intros r E. change ["f"; "o"; "o"]%char with ($"fo" ++ ["o"%char]) in E.
      apply app_inj_tail in E as [_ E]. discriminate.
    + intros a b E. destruct a as [|? [|? [|? [|? a]]]]; inversion E.
  - exists [$"bar"]. reflexivity.
  - intros [r H]. vm_compute in H. discriminate.
Qed.

(** C04. The package pre-filter never drops a package with a matching target. *)
Theorem C04_package_filter_is_safe : forall pat t,
  match_target pat t = true -> match_package pat (tpackage t) = true.
Proof. exact match_package_filter. Qed.
Print Assumptions C04_package_filter_is_safe.

Example C04_case : exists pat,
  parse_pattern ($"//foo/...") = PatOk pat /\
  match_target pat (mkTarget (mkPackage [] ($"foo/bar")) ($"baz")) = true /\
  match_package pat (mkPackage [] ($"baz")) = false.
Proof. eexists. split; [reflexivity|]. split; reflexivity. Qed.

(** C05. Target-name globs: '*' stands for any text and nothing else is special.
    For globs whose text after the last '*' contains no RE2 operator. *)
Theorem C05_name_glob : forall p g ctx,
  wf_package p -> ~ In ":"%char g -> In "*"%char g -> plain_tail g ->
  path p <> $"..." -> (forall a, path p <> a ++ $"/...") ->
  exists pat,
    parse_pattern_in (package_to_string p ++ $":" ++ g) ctx = PatOk pat /\
    forall t, ~ In NL (tname t) ->
      (match_target pat t = true <->
       tpackage t = (if is_nil (project p) then mkPackage (project ctx) (path p) else p) /\
       glob_matches g (tname t)).
Proof. exact glob_pattern. Qed.
Print Assumptions C05_name_glob.
(** If '.' is the only operator there, it stands for any one character. *)
Theorem C05_dots : forall p a b ctx,
  wf_package p -> ~ In ":"%char (a ++ b) -> (forall c, In c b -> c = "."%char \/ ~ In c re_operators) ->
  path p <> $"..." -> (forall x, path p <> x ++ $"/...") ->
  exists pat,
    parse_pattern_in (package_to_string p ++ $":" ++ a ++ $"*" ++ b) ctx = PatOk pat /\
    forall t, ~ In NL (tname t) ->
      (match_target pat t = true <->
       tpackage t = (if is_nil (project p) then mkPackage (project ctx) (path p) else p) /\
       exists u v, tname t = u ++ v /\ glob_matches (a ++ $"*") u /\ Forall2 fits b v).
Proof. exact glob_pattern_dots. Qed.
Print Assumptions C05_dots.
(** In general the text after the last '*' is a regular expression for the rest of
    the name, if it is one by itself and has no '|'. *)
Theorem C05_regex_tail : forall p a b r ctx,
  wf_package p -> ~ In ":"%char (a ++ b) -> ~ In "*"%char b -> ~ In "|"%char b -> re2_compile b = ReOk r ->
  path p <> $"..." -> (forall x, path p <> x ++ $"/...") ->
  exists pat,
    parse_pattern_in (package_to_string p ++ $":" ++ a ++ $"*" ++ b) ctx = PatOk pat /\
    forall t, ~ In NL (tname t) ->
      (match_target pat t = true <->
       tpackage t = (if is_nil (project p) then mkPackage (project ctx) (path p) else p) /\
       exists u v, tname t = u ++ v /\ glob_matches (a ++ $"*") u /\ lang r v).
Proof. exact glob_pattern_tail. Qed.
Print Assumptions C05_regex_tail.
Example C05_tail_case : exists r, re2_compile ($"_te?st.(cc)+") = ReOk r /\ lang r ($"_tst1cccc") /\ ~ lang r ($"_test") /\
  (forall c, In c ($"_x.cc") -> c = "."%char \/ ~ In c re_operators) /\ Forall2 fits ($"_x.cc") ($"_x_cc").
Proof.
  eexists. split; [reflexivity|]. split; [apply full_match_lang; reflexivity|].
  split; [rewrite <- full_match_lang; discriminate|]. split.
  - intros c I. cbn in I. repeat (destruct I as [<-|I]; [solve [auto|right; cbn; intuition discriminate]|]). destruct I.
  - cbn. repeat (apply Forall2_cons; [first [left; reflexivity|right; split; [reflexivity|discriminate]]|]). apply Forall2_nil.
Qed.

(** So it is not what the user wrote: "//foo:*.h" matches the target "bar_h". *)
Theorem C05_name_glob_refuted : exists pat,
  parse_pattern ($"//foo:*.h") = PatOk pat /\
  match_target pat (mkTarget (mkPackage [] ($"foo")) ($"bar_h")) = true /\
  ~ glob_matches ($"*.h") ($"bar_h").
Proof.
  eexists. split; [reflexivity|]. split; [reflexivity|].
  intros H. change ($"*.h") with ("*"%char :: $".h") in H.
  apply glob_star in H as [u [v [E H]]].
  change ($".h") with ($".h" ++ []) in H. apply glob_lits in H; [|simpl; intuition discriminate].
  destruct H as [w [-> H]]. apply glob_nil in H. subst w.
  change ($"bar_h") with ($"bar" ++ $"_h") in E. rewrite app_nil_r in E.
  assert (L : length ($"bar") = length u).
  { apply (f_equal (@length _)) in E. rewrite !app_length in E. simpl in *. lia. }
  apply app_eq_app in E as [l [[E1 E2]|[E1 E2]]];
    rewrite E1 in L; rewrite app_length in L; assert (l = []) by (destruct l; simpl in L; auto; lia);
    subst l; discriminate.
Qed.
Print Assumptions C05_name_glob_refuted.
(** A '|' there makes the rest an alternative to the whole pattern, and one with a closing parenthesis there is rejected. *)
Theorem C05_operators_refuted :
  (exists pat, parse_pattern ($"//foo:a*b|c") = PatOk pat /\
    match_target pat (mkTarget (mkPackage [] ($"foo")) ($"c")) = true /\
    match_target pat (mkTarget (mkPackage [] ($"foo")) ($"ab|c")) = false) /\
  parse_pattern ($"//foo:*)") = PatNone.
Proof. split; [eexists; split; [reflexivity|split; reflexivity]|reflexivity]. Qed.
Print Assumptions C05_operators_refuted.

Example C05_case : plain_tail ($"foo.bar*_test") /\ glob_matches ($"foo.bar*_test") ($"foo.bar_x_test").
Proof.
  split.
  - intros a b E N c I.
    assert (Hb : b = $"_test").
    { change ($"foo.bar*_test") with ($"foo.bar" ++ "*"%char :: $"_test") in E.
      assert (U := find_last_app "*" ($"foo.bar") ($"_test")).
      assert (V := find_last_app "*" a b N). rewrite <- E in V.
      rewrite U in V by (simpl; intuition discriminate). injection V as V.
      apply (f_equal (skipn (S (length a)))) in E. rewrite skipn_S_app in E.
      rewrite <- E, <- V. reflexivity. }
    subst b. simpl in I. unfold re_operators. simpl. intuition (subst; discriminate).
  - change ($"foo.bar*_test") with ($"foo.bar" ++ "*"%char :: $"_test").
    apply glob_lits; [simpl; intuition discriminate|]. exists ($"_x_test"). split; auto.
    change ($"_x_test") with ($"_x" ++ $"_test"). apply glob_star. exists ($"_x"), ($"_test").
    split; auto. rewrite <- (app_nil_r ($"_test")) at 1.
    apply glob_lits; [simpl; intuition discriminate|]. exists []. split; auto. constructor.
Qed.

(** C06. Visibility declarations. *)
Theorem C06_visibility : forall ctx p q,
  wf_package p ->
  (exists v, parse_visibility ($"//visibility:public") ctx = PatOk v /\ match_package v q = true) /\
  (exists v, parse_visibility ($"//visibility:private") ctx = PatOk v /\
             (match_package v q = true <-> q = ctx)) /\
  (exists v, parse_visibility (package_to_string p ++ $":__pkg__") ctx = PatOk v /\
             (match_package v q = true <->
              q = (if is_nil (project p) then mkPackage (project ctx) (path p) else p))) /\
  (exists v, parse_visibility (package_to_string p ++ $":__subpackages__") ctx = PatOk v /\
             (match_package v q = true <->
              project q = (if is_nil (project p) then project ctx else project p) /\
              inside (path p) (path q))).
Proof.
  intros ctx p q W. split; [apply visibility_public|]. split; [apply visibility_private|].
  split; [apply visibility_pkg; auto|].
  destruct (visibility_subpackages p ctx W q) as [v [H1 H2]]. exists v. split; auto.
  rewrite H2. unfold with_project. destruct (is_nil (project p)); reflexivity.
Qed.
Print Assumptions C06_visibility.

(** Anything else that does not end in "..." or "__" (package groups) is treated
    as public, so a permitted use is never reported as invisible. *)
Theorem C06_package_groups_are_permissive : forall s ctx q,
  s <> $"//visibility:private" -> (forall a, s <> a ++ $"...") -> (forall a, s <> a ++ $"__") ->
  exists v, parse_visibility s ctx = PatOk v /\ match_package v q = true.
Proof. exact visibility_group. Qed.
Print Assumptions C06_package_groups_are_permissive.

Example C06_case : exists v,
  parse_visibility ($"//foo:__subpackages__") (mkPackage [] ($"x")) = PatOk v /\
  match_package v (mkPackage [] ($"foo/bar")) = true /\
  match_package v (mkPackage [] ($"foobar")) = false.
Proof. eexists. split; [reflexivity|]. split; reflexivity. Qed.

(** C58. A rule called [name] in package [p] is the target that the label ":name"
    denotes inside the package and the label "//p:name" denotes anywhere; a leading
    ':' in the name makes no difference. *)
Theorem C58_rule_label : forall p name ctx,
  wf_package p -> wf_name name ->
  exists t, qualified_target p name = Some t /\ qualified_target p ($":" ++ name) = Some t /\
    parse_target ($":" ++ name) p = Some t /\
    (project ctx = [] \/ project p <> [] ->
     parse_target (package_to_string p ++ $":" ++ name) ctx = Some t) /\
    tpackage t = p /\ tname t = name.
Proof. exact rule_label. Qed.
Print Assumptions C58_rule_label.
(** C58. Only an empty name gives no target. *)
Theorem C58_no_name : forall p name,
  qualified_target p name = None <-> name = [] \/ name = $":".
Proof. exact no_rule_label. Qed.
Print Assumptions C58_no_name.
(** C58. A file of a package is below the directory of the package. *)
Theorem C58_file_path : forall p f,
  f <> [] -> (forall r, f <> ":"%char :: r) ->
  components (qualified_file p f) = components (path p) ++ components f /\
  qualified_file p ($":" ++ f) = qualified_file p f.
Proof. exact file_path. Qed.
Print Assumptions C58_file_path.
Example C58_case :
  qualified_target (mkPackage ($"@x") ($"a/b")) ($"foo") =
    Some (mkTarget (mkPackage ($"@x") ($"a/b")) ($"foo")) /\
  qualified_file (mkPackage ($"@x") ($"a/b")) ($":c/d.h") = $"a/b/c/d.h".
Proof. split; reflexivity. Qed.
