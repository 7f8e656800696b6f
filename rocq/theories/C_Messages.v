(** Property C77: what dwyu tells the user. *)
From Verif Require Import Base OMap M_Types M_Scanner S_Scanner M_Ast M_Parser M_Query M_Elab M_Workspace M_Project M_DepGraph S_DepGraph
  M_Headers S_Headers M_Includes S_Includes M_Dwyu S_Dwyu M_Edits M_Messages S_Commands S_Messages P_Messages P_Messages2 P_Messages3 P_Messages4 P_Messages5
  C_Locations T_Parser T_Headers T_Dwyu C_Dwyu.
Local Open Scope string_scope.
Local Open Scope list_scope.

(** The messages do not change what is found (C31 to C35, C60). *)
Theorem C77_edits : forall w read_file ignore_keep verbose color pr pt ev n log,
  dependency_edits_told w read_file ignore_keep verbose color pr pt = Ret (ev, n, log) -> dependency_edits w read_file ignore_keep pr pt = Ret (ev, n).
Proof. exact told_same. Qed.
Print Assumptions C77_edits.
(** Whatever -v is, there is always a place to print. *)
Theorem C77_possible : forall w read_file ignore_keep verbose color pr pt,
  (forall name content, read_file name = Some content -> (Z.of_nat (length content) < 2147483647)%Z) ->
  project_ok pr -> (forall p f, In (p, f) (pr_files pr) -> clean_file f) ->
  exists x, dependency_edits_told w read_file ignore_keep verbose color pr pt = Ret x.
Proof. exact told_defined. Qed.
Print Assumptions C77_possible.
(** More -v only adds messages. *)
Theorem C77_verbosity : forall w read_file ignore_keep v v' color pr pt ev n log ev' n' log', v <= v' ->
  dependency_edits_told w read_file ignore_keep v color pr pt = Ret (ev, n, log) ->
  dependency_edits_told w read_file ignore_keep v' color pr pt = Ret (ev', n', log') -> ev' = ev /\ n' = n /\ part_of log log'.
Proof. exact told_more. Qed.
Print Assumptions C77_verbosity.
(** Below -vvv it does not matter if the output is a terminal. *)
Theorem C77_color : forall w read_file ignore_keep v c c' pr pt, v < 3 ->
  dependency_edits_told w read_file ignore_keep v c pr pt = dependency_edits_told w read_file ignore_keep v c' pr pt.
Proof. exact told_color. Qed.
Print Assumptions C77_color.

Section Run.
Variable w : workspace.
Variable read_file : str -> option str.
Hypothesis Sizes : forall name content, read_file name = Some content -> (Z.of_nat (length content) < 2147483647)%Z.
Variable ignore_keep : bool.
Variable verbose : nat.
Variable color : bool.
Variable pr : parsed_project.
Hypothesis Plain : forall q f, In (q, f) (pr_files pr) -> plain_lines (pf_content f).
Variable pt : pattern.
Variable ev : list event.
Variable n : nat.
Variable log : list str.
Hypothesis E : dependency_edits_told w read_file ignore_keep verbose color pr pt = Ret (ev, n, log).

(** All that is told: the files made by two genrules, then for each target what [target_said]
    describes, then the summary. *)
Theorem C77_messages : exists headers generated again rules evs mss last,
  header_to_lib pr true = Ret headers /\ generated_from_genrule pr false = Ret generated /\
  (forall s, In s again -> exists f t out other, made_again pr generated f t out other /\ again_said f t out other s) /\
  (forall f t out other, made_again pr generated f t out other -> exists s, In s again /\ again_said f t out other s) /\
  (forall t details f, In (t, details, f) rules <-> edited pr pt t details f) /\
  length evs = length rules /\ length mss = length rules /\
  Forall2 (fun x y => target_edits w read_file ignore_keep pr headers (fst (fst x)) (snd (fst x)) (snd x) (fst y) /\
                      target_said pr w read_file verbose color headers generated (fst (fst x)) (snd (fst x)) (snd x) (fst y) (snd y))
    rules (combine evs mss) /\
  ev = concat evs /\ n = length rules /\ log = again ++ concat mss ++ [last] /\
  ((Z.of_nat n <= 2147483647)%Z -> (Z.of_nat (length ev) <= 2147483647)%Z -> summary_said n (length (filter asks_edit ev)) last).
Proof. exact (run_said w read_file Sizes ignore_keep verbose color pr Plain pt ev n log E). Qed.
(** A source that can not be read is named, ... *)
Theorem C77_unreadable : forall t details f src, edited pr pt t details f -> In src (source_entries details) ->
  (forall content, ~ opened read_file (fully_qualified_file w (pf_package f) (v_text src)) content) ->
  exists m, In m log /\ source_missing w f t src m.
Proof. exact (unreadable_told w read_file Sizes ignore_keep verbose color pr Plain pt ev n log E). Qed.
(** ... with -v also an include that nobody provides, and without it if a genrule makes that file. *)
Theorem C77_unprovided : forall headers generated t details f src name content g off inc,
  header_to_lib pr true = Ret headers -> generated_from_genrule pr false = Ret generated ->
  edited pr pt t details f -> In src (source_entries details) ->
  opened_at read_file (fully_qualified_file w (pf_package f) (v_text src)) name content g -> included content off inc ->
  ~ own t details inc -> (forall ts, ~ provided_by headers (pf_package f) inc ts) -> 0 < verbose \/ map_find inc generated <> None ->
  exists m m', In m log /\ In m' log /\ include_missing name content off inc m /\ source_named f t src m'.
Proof. exact (unprovided_told w read_file Sizes ignore_keep verbose color pr Plain pt ev n log E). Qed.
(** With -v, a dependency that is not removed because something is unknown comes with what that is. *)
Theorem C77_unsure : forall t details f label, edited pr pt t details f -> 0 < verbose ->
  (exists headers e, target_edits w read_file ignore_keep pr headers t details f e /\ In (EvUnsure t label) e) ->
  exists src, In src (source_entries details) /\
    ((exists m, In m log /\ source_missing w f t src m) \/
     exists name content off inc m m', In m log /\ In m' log /\ include_missing name content off inc m /\ source_named f t src m').
Proof. exact (unsure_told w read_file Sizes ignore_keep verbose color pr Plain pt ev n log E). Qed.
End Run.
Print Assumptions C77_messages.
Print Assumptions C77_unreadable.
Print Assumptions C77_unprovided.
Print Assumptions C77_unsure.

(** * Examples *)
Definition told_in (lines : list string) : parsed_file :=
  match parse (nl lines) with
  | Ret (stmts, errs) => mkFile (mkPackage [] ($"p")) ($"p/BUILD") (nl lines) stmts errs
  | _ => mkFile (mkPackage [] []) [] [] [] []
  end.
Definition told_file : parsed_file := told_in
  ["genrule(name = ""g"", outs = [""gen.h"", ""gen.cc""])"; "genrule(name = ""g2"", outs = [""gen.h""])";
   "cc_library(name = ""a"", hdrs = [""h0.h""])"; "cc_library(name = ""b"", hdrs = [""h0.h""])";
   "cc_library(name = ""z"", hdrs = [""h4.h""], testonly = 1)";
   "cc_library(name = ""t"", srcs = [""t.cc"", ""gen.cc"", ""gone.cc""], deps = ["; "  "":e"","; "  ""a:b:c"","; "])"].
Definition told_project : parsed_project := mkProject [(mkPackage [] ($"p"), told_file)] 0.
Definition told_source : str -> option str :=
  source [("p/t.cc", ["#include ""p/h0.h"""; "#include ""x/p/h0.h"""; "#include ""h4.h"""; "#include ""p/gen.h"""; "#include ""nobody.h"""])].
Definition told_log (v : nat) (color : bool) (pr : parsed_project) (rf : str -> option str) : list str :=
  match dependency_edits_told [] rf false v color pr (got_pattern "//p:t") with Ret (_, _, log) => log | _ => [] end.
Lemma told_plain : plain_lines (pf_content told_file).
Proof.
  split; [vm_compute; reflexivity|]. intros i H.
  destruct (Compare_dec.le_lt_dec (length (pf_content told_file)) i) as [L|L].
  { rewrite (P_Scanner.eof_reached _ _ L) in H. discriminate. }
  assert (X : forallb (fun i => negb (match tok_type (token_at (pf_content told_file) i) with TNotIn => true | _ => false end)) (seq 0 (length (pf_content told_file))) = true)
    by (vm_compute; reflexivity).
  rewrite forallb_forall in X. assert (Is : In i (seq 0 (length (pf_content told_file)))).
  { revert L. generalize (length (pf_content told_file)). intros k L. apply in_seq. lia. }
  specialize (X i Is). cbv beta in X. rewrite H in X. discriminate X.
Qed.
Lemma told_clean : clean_file told_file.
Proof.
  exists (pf_ast told_file). split; [vm_compute; reflexivity|]. split; [|left; reflexivity]. intros x _ I. vm_compute in I. exact I.
Qed.
Lemma told_one (P : package -> parsed_file -> Prop) p f : P p f -> forall q g, In (q, g) (pr_files (mkProject [(p, f)] 0)) -> P q g.
Proof. intros H q g [X|[]]. injection X as <- <-. exact H. Qed.
Lemma told_sizes : forall name content, told_source name = Some content -> (Z.of_nat (length content) < 2147483647)%Z.
Proof. intros name content. unfold told_source, source. cbn [find fst snd]. destruct (str_eqb _ _); intros H; [|discriminate H]. injection H as <-. vm_compute. reflexivity. Qed.
Example C77_possible_case : (forall name content, told_source name = Some content -> (Z.of_nat (length content) < 2147483647)%Z) /\ project_ok told_project /\
  (forall p f, In (p, f) (pr_files told_project) -> clean_file f) /\ (forall p f, In (p, f) (pr_files told_project) -> plain_lines (pf_content f)).
Proof.
  apply conj; [exact told_sizes|]. apply conj; [|apply conj; [exact (told_one (fun _ f => clean_file f) _ _ told_clean)|exact (told_one (fun _ f => plain_lines (pf_content f)) _ _ told_plain)]].
  apply conj; [vm_compute; auto|]. apply (told_one (fun p f => pf_package f = p)). vm_compute. reflexivity.
Qed.
Definition lines (l : list string) : list str := map (fun s => $s ++ [NL]) l.
Example C77_case : told_log 1 false told_project told_source = lines
  ["p/BUILD:2:31-35: 'p/gen.h' in //p:g2 also created by //p:g";
   "p/t.cc:3:11-14: h4.h header relative to this file. Consider FQN relative to project root.";
   "p/t.cc:4:11-17: p/gen.h not accounted for; generated by genrule //p:g, but not in hdrs=[...] of any cc_library() we depend on.";
   "p/t.cc:5:11-18: unknown provider for nobody.h -- Missing or from non-standard bazel-rule ?";
   "p/BUILD:6:33-36: ^... in source 't.cc' referenced by //p:t";
   "p/BUILD:6:41-46: Can not read source 'p/gen.cc' for target //p:t; Run genrule `bazel build //p:g` first.";
   "p/BUILD:6:51-57: Can not read source 'p/gone.cc' for target //p:t -- Missing ?";
   "p/BUILD:8:4-8: Invalid target name 'a:b:c'"]
  ++ [$"p/BUILD:6:20: Can't auto-fix: Referenced headers in //p:t need exactly one of multiple choices" ++ [NL]
      ++ $"Alternatives are:" ++ [NL] ++ [ch 9] ++ $"//p:a" ++ [NL] ++ [ch 9] ++ $"//p:b" ++ [NL]]
  ++ lines
  ["p/BUILD:6:20: '//p:t' is using headers that would be provided by '//p:z', but the latter is marked testonly, the former not. Not adding dependency.";
   "Checked DWYU on 1 targets."].
Proof. vm_compute. reflexivity. Qed.
Example C77_verbosity_case : map (fun v => length (told_log v false told_project told_source)) [0; 1; 2; 3; 4]%nat = [10; 11; 14; 22; 22]%nat /\
  nth 6 (told_log 3 true told_project told_source) [] = $"p/t.cc:2:11-18:    | //p:a" ++ [NL].
Proof. vm_compute. auto. Qed.
Example C77_unsure_case : exists headers e f details, edited told_project (got_pattern "//p:t") (T "//p:t") details f /\
  target_edits [] told_source false told_project headers (T "//p:t") details f e /\ In (EvUnsure (T "//p:t") ($":e")) e.
Proof.
  exists (got [] (header_to_lib told_project true)), (match dependency_edits [] told_source false told_project (got_pattern "//p:t") with Ret (ev, _) => ev | _ => [] end).
  exists told_file, (example_rule told_project). apply conj; [|apply conj].
  - exists (mkPackage [] ($"p")), (got [] (find_targets edited_kinds (pf_ast told_file))). apply conj; [left; reflexivity|]. apply conj; [vm_compute; reflexivity|].
    apply conj; [vm_compute; reflexivity|]. apply conj; [vm_compute; auto|]. apply conj; vm_compute; reflexivity.
  - apply conj; [vm_compute; reflexivity|]. exists (got [] (known_libraries told_project)). apply conj; vm_compute; reflexivity.
  - vm_compute. auto.
Qed.

(** Without -v, a dependency may be kept for a reason that is not told. *)
Definition silent_project : parsed_project := mkProject [(mkPackage [] ($"p"), told_in ["cc_library(name = ""a"")"; "cc_library(name = ""t"", srcs = [""t.cc""], deps = ["":a""])"])] 0.
Theorem C77_silent_refuted : exists read_file pr pt t label, dependency_edits_told [] read_file false 0 false pr pt = Ret ([EvUnsure t label], 1, [$"Checked DWYU on 1 targets." ++ [NL]]).
Proof.
  exists (source [("p/t.cc", ["#include ""nobody.h"""])]), silent_project, (got_pattern "//p:t"), (T "//p:t"), ($":a"). vm_compute. reflexivity.
Qed.
Print Assumptions C77_silent_refuted.
(** That a dependency is not visible may also be said of one that is, but is only for tests. *)
Theorem C77_invisible_refuted : exists read_file pr pt t d l ev n log, dependency_edits_told [] read_file false 2 false pr pt = Ret (ev, n, log) /\
  In (l ++ $": Would add " ++ target_to_string d ++ $", but not visible" ++ [NL]) log /\ may_use pr t d.
Proof.
  exists told_source, told_project, (got_pattern "//p:t"), (T "//p:t"), (T "//p:z"), ($"p/BUILD:6:20:").
  exists (match dependency_edits [] told_source false told_project (got_pattern "//p:t") with Ret (ev, _) => ev | _ => [] end), 1, (told_log 2 false told_project told_source).
  apply conj; [vm_compute; reflexivity|]. apply conj.
  - assert (H : nth 12 (told_log 2 false told_project told_source) [] = $"p/BUILD:6:20:" ++ $": Would add " ++ target_to_string (T "//p:z") ++ $", but not visible" ++ [NL]) by (vm_compute; reflexivity).
    rewrite <- H. apply nth_In. vm_compute. lia.
  - apply (P_Dwyu.can_see_spec told_project (got [] (known_libraries told_project)) ltac:(vm_compute; reflexivity) (T "//p:t") (T "//p:z") true); vm_compute; reflexivity.
Qed.
Print Assumptions C77_invisible_refuted.
