(** Properties C79: what is said in a run, and C80: what a dependency graph misses. *)
From Coq Require Import Permutation.
From Verif Require Import Base OMap M_Types M_Scanner S_Scanner M_Ast M_Parser M_Query M_Elab M_Workspace M_Project M_DepGraph S_DepGraph P_DepGraph M_Headers M_Table M_Highlight
  S_Run M_Commands S_Commands P_Commands M_Main S_Main P_Main M_Walk S_Walk M_System S_Total M_Messages S_Messages M_ParseErrors S_ParseErrors
  M_Told S_Told P_Told P_Told4 P_Told5 P_Told6 P_Told7 P_Told8 C_Commands C_Main T_Walk C_Total.
Local Open Scope string_scope.
Local Open Scope list_scope.

Section Run.
Variable is_directory : str -> bool.
Variable can_read : str -> bool.
Variable glob : str -> list str.
Variable read_file : str -> option str.
Variable glob_in : workspace -> package -> list str -> list str -> list str.
Variable collect : workspace -> pattern -> list str.
Variable compilation_flags : workspace -> parsed_project -> pattern -> bool -> outcome str.
Variable texts : library_texts.
Notation told_run := (run_cli_told is_directory can_read glob read_file glob_in collect compilation_flags).
(** Speaking does not change what is done: the output and the status are those of C67 and C68. *)
Theorem C79_same : forall verbose fl args out st notes, told_run verbose texts fl args = Some (Ret (out, st, notes)) ->
  run_cli is_directory can_read glob read_file glob_in collect compilation_flags fl args = Some (Ret (out, st)).
Proof. intros verbose fl args out st notes. exact (run_same is_directory can_read glob read_file glob_in collect compilation_flags verbose texts fl args out st notes). Qed.
(** More -v only adds messages. *)
Theorem C79_verbosity : forall v v' fl args r r' l l', v <= v' -> told_run v texts fl args = Some (Ret (r, l)) -> told_run v' texts fl args = Some (Ret (r', l')) ->
  r' = r /\ part_of l l'.
Proof. exact (run_more is_directory can_read glob read_file glob_in collect compilation_flags texts). Qed.
Hypothesis Plain : forall name content, read_file name = Some content -> plain_lines content.
(** All that is said, in order. *)
Theorem C79_run : forall verbose fl args out st notes, told_run verbose texts fl args = Some (Ret (out, st, notes)) ->
  refused texts args notes st /\ out = [] \/
  exists cmd pt r l1 l2, asked args cmd pt /\ notes = l1 ++ l2 /\ reading_said is_directory can_read glob read_file glob_in collect verbose fl cmd pt r l1 /\
    match r with
    | None => l2 = [] /\ out = [] /\ st = ExitFailure
    | Some (w, pr, g) => work_said read_file verbose texts fl pt w pr cmd l2 /\ perform read_file compilation_flags fl cmd pt w pr g = Ret (out, st) /\
        exists syntax, syntax_notes pr syntax /\ Permutation (filter about_syntax notes) syntax
    end.
Proof. intros verbose. exact (run_said is_directory can_read glob read_file glob_in collect compilation_flags verbose texts Plain). Qed.
(** The run fails exactly if the reason is said. *)
Theorem C79_failure : forall verbose fl args out st notes, told_run verbose texts fl args = Some (Ret (out, st, notes)) ->
  (st = ExitFailure \/ st = ExitClarification <-> exists n, In n notes /\ about_refusal n = true).
Proof. exact (failure_said is_directory can_read glob read_file glob_in collect compilation_flags texts Plain). Qed.
(** No file of the pattern is passed over in silence, and neither is a pattern without files. *)
Theorem C79_files : forall verbose fl args out st notes, told_run verbose texts fl args = Some (Ret (out, st, notes)) ->
  refused texts args notes st \/
  exists cmd pt, asked args cmd pt /\
    ((forall f, In f workspace_files -> read_file f = None) \/
     exists w, the_workspace is_directory can_read glob read_file w /\
      (needs_project cmd pt = true ->
       (forall x, In x (collect w (read_pattern cmd pt)) -> fine_file w read_file (pat_project (read_pattern cmd pt)) x \/ exists n, In n notes /\ about_file x n) /\
       (collect w (read_pattern cmd pt) = [] -> exists s, In (NNoBuildFiles s) notes))).
Proof. exact (files_said_of is_directory can_read glob read_file glob_in collect compilation_flags texts Plain). Qed.
End Run.
Print Assumptions C79_same.
Print Assumptions C79_verbosity.
Print Assumptions C79_run.
Print Assumptions C79_failure.
Print Assumptions C79_files.
(** Where a run ends (C73), all that has to be said can be said. *)
Theorem C79_possible : forall fuel fs, proper_names (fs_list fs) -> proper_files fs -> proper_workspace fs ->
  (forall name content, fs_content fs name = Some content -> (Z.of_nat (length content) < 2147483647)%Z) ->
  forall verbose texts fl args out st, run_in fuel fs fl args = Some (Ret (out, st)) ->
  exists notes, run_cli_told (is_dir fs) (fs_can_read fs) (fs_glob fs) (fs_content fs) (globbed_files fuel fs) (found_build_files fuel fs) (flags_output fs) verbose texts fl args
    = Some (Ret (out, st, notes)).
Proof. exact run_possible. Qed.
Print Assumptions C79_possible.
(** The whole program: an option that ends it, with the reason; or the run, of which -q leaves only some. *)
Theorem C79_program : forall change_dir open_output version_page usage_page seen_from is_terminal compile texts args dest out code notes,
  main_told change_dir open_output version_page usage_page seen_from is_terminal compile texts args = Some (Ret (dest, out, code, notes)) ->
  main change_dir open_output seen_from is_terminal compile args = Some (Ret (dest, out, code)) /\
  ((dest = None /\ out = [] /\ exists before ev after words m, getopt args = (before ++ ev :: after, words) /\
     stops change_dir open_output version_page usage_page (map argument_of (arguments "C" before)) ev code m /\ notes = renamed_notes before ++ [m]) \/
   exists evs words st status l, command_line args evs words /\ all_acceptable change_dir open_output evs /\ meaning evs st /\ dest = s_output st /\ code = exit_code status /\
    (let s := seen_from (s_dirs st) in
     run_cli_told (sur_is_directory s) (sur_can_read s) (sur_glob s) (sur_read_file s) (sur_glob_in s) (sur_collect s) (sur_flags s) (s_verbose st) texts (flags_of is_terminal compile st) words
      = Some (Ret (out, status, l))) /\
    notes = renamed_notes evs ++ match status with ExitClarification => quieted evs (l ++ [NUsage [NL; NL]]) ++ [NPage (version_page ++ usage_page)] | _ => quieted evs l end).
Proof. exact main_said. Qed.
Print Assumptions C79_program.

(** * C80 *)
(** What is missing is what is within reach and is not there. *)
Theorem C80_missing : forall w read_file can_read glob_in pr0, project_ok pr0 -> forall verbose pt depth g pr l,
  graph_told w read_file can_read glob_in verbose pt depth pr0 = Ret (g, pr, l) ->
  exists todo syntax missing, build_graph w read_file can_read glob_in pt depth pr0 = Ret (g, pr, todo) /\
    l = syntax ++ missing /\ Forall (fun n => about_syntax n = true) syntax /\ missing_said w read_file can_read glob_in pr0 pt depth verbose missing.
Proof.
  intros w read_file can_read glob_in pr0 Ok verbose pt depth g pr l E.
  assert (P := graph_plain w read_file can_read glob_in verbose pt depth pr0). rewrite E in P. cbn [bind plain] in P.
  destruct (build_graph w read_file can_read glob_in pt depth pr0) as [[[g' pr'] todo]| |]; cbn in P; [|discriminate..]. injection P as <- <-.
  destruct (graph_misses w read_file can_read glob_in pr0 Ok _ _ _ _ _ _ E) as (sy & ts & ps & S1 & S2 & T & P & Sy & _ & ->).
  exists todo, sy. eexists. apply conj; [reflexivity|]. apply conj; [reflexivity|]. apply conj; [exact Sy|]. exists ts, ps. split; [split; [exact S1|exact T]|]. split; [split; [exact S2|exact P]|].
  destruct verbose; [reflexivity|]. cbn [Nat.ltb Nat.leb]. now rewrite !titled_same.
Qed.
Print Assumptions C80_missing.
(** Each is mentioned by a target that is there. *)
Theorem C80_mentioned : forall w read_file can_read glob_in pr0 pt depth targets, missing_targets w read_file can_read glob_in pr0 pt depth targets ->
  forall t, In t targets -> exists s, exists_target w read_file can_read glob_in pr0 s /\ depends w read_file can_read glob_in pr0 s t.
Proof.
  intros w read_file can_read glob_in pr0 pt depth targets [_ M] t I. apply M in I as (N & j & _ & R). destruct R as [t (_ & f & rs & r & F & Q & Ir & Nm)|j s t _ D].
  - exfalso. apply N.
    assert (H : exists a r b, rs = a ++ r :: b /\ names t r /\ forall r', In r' a -> ~ names t r').
    { clear N Q M. revert r Ir Nm. induction rs as [|x rs IH]; intros r Ir Nm; [destruct Ir|].
      assert (Dx : names t x \/ ~ names t x).
      { unfold names. destruct (qualified_target (tpackage t) (v_text (q_name x))) as [y|]; [|right; discriminate]. destruct (target_eqb y t) eqn:X; [apply target_eqb_eq in X as ->; now left|right]. intros Y. injection Y as ->. assert (Z := proj2 (target_eqb_eq t t) eq_refl). congruence. }
      destruct Dx as [Dx|Dx]; [exists [], x, rs; repeat split; auto|]. destruct Ir as [->|Ir]; [contradiction|]. destruct (IH r Ir Nm) as (a & r' & b & -> & Nr & A).
      exists (x :: a), r', b. repeat split; auto. intros q [<-|Iq]; auto. }
    destruct H as (a & r' & b & -> & Nr & A). exists r'. exists f, a, b. split; [unfold file_of; rewrite F; reflexivity|]. auto.
  - exists s. split; [|exact D]. destruct D as (ds & (r & D & _) & _). exists r. exact D.
Qed.
Print Assumptions C80_mentioned.

(** * Cases *)
Definition said_files : list (str * str) :=
  [($"WORKSPACE", $"http_archive(name = ""bar"")"); ($"MODULE.bazel", $"bazel_dep(name = ""foo"", version = ""1"")");
   ($"a/BUILD", $"cc_library(name = ""x"", deps = [""//b:y"", ""//c:z"", "":no"", ""//b:y2"", ""b:y:z""])");
   ($"b/BUILD", $"cc_library(name = ""y"", deps = [""//e:f""])"); ($"d/BUILD", $"f(3"); ($"d/BUILD.bazel", $"")].
Definition said_run (verbose : nat) (args : list str) : option (outcome (str * cli_status * list note)) :=
  run_cli_told (fun _ => false) (fun f => match lookup said_files f with Some _ => true | None => false end) (fun _ => []) (lookup said_files) (fun _ _ _ _ => [])
    (fun w pt => if match_package pt (mkPackage [] ($"d")) then [$"a/BUILD"; $"d/BUILD"; $"d/BUILD.bazel"; $"gone/BUILD"]
                 else if match_package pt (mkPackage [] ($"a")) then [$"a/BUILD"] else [])
    (fun _ _ _ _ => Ret []) verbose (mkTexts (fun a => [a ++ $"?" ++ [NL]]) ($"no")) (mkFlags false false true false 1 FmtCsv NoGrep false) args.
Definition said_text (verbose : nat) (args : list str) : option (cli_status * str) :=
  match said_run verbose args with Some (Ret (_, st, notes)) => Some (st, concat (map note_text notes)) | _ => None end.
Definition projects_lines : str := $"WORKSPACE:1:22-24: Can't find extracted project 'bar'" ++ [NL] ++ $"MODULE.bazel:1:19-21: Can't find extracted project 'foo'" ++ [NL]
  ++ $"Note: need to run a bazel build at least once to extract external projects" ++ [NL].
Lemma plain_computed content : forallb (fun i => negb (match tok_type (token_at content i) with TNotIn => true | _ => false end)) (seq 0 (length content)) = true ->
  (Z.of_nat (length content) < 2147483647)%Z -> plain_lines content.
Proof.
  intros X S. split; [exact S|]. intros i H. destruct (Compare_dec.le_lt_dec (length content) i) as [L|L]; [rewrite (P_Scanner.eof_reached _ _ L) in H; discriminate|].
  rewrite forallb_forall in X. assert (Is : In i (seq 0 (length content))) by (apply in_seq; apply (conj (Nat.le_0_l i)), L).
  specialize (X i Is). cbv beta in X. rewrite H in X. discriminate X.
Qed.
Lemma table_plain l : forallb (fun e : str * str => forallb (fun i => negb (match tok_type (token_at (snd e) i) with TNotIn => true | _ => false end)) (seq 0 (length (snd e)))
    && (Z.of_nat (length (snd e)) <? 2147483647)%Z) l = true -> forall name content, lookup l name = Some content -> plain_lines content.
Proof. intros H name content L. apply lookup_in in L. rewrite forallb_forall in H. apply H, andb_prop in L as [A B]. apply plain_computed; [exact A|]. now apply Z.ltb_lt. Qed.
Example C79_case : (forall name content, lookup said_files name = Some content -> plain_lines content) /\
  said_text 0 [$"depends-on"; $"//..."] = Some (ExitSuccess, projects_lines ++ $"d/BUILD:1:4: got ''; expected `,` or closing `)`" ++ [NL]
    ++ $"d/BUILD.bazel: Package //d already seen before in d/BUILD" ++ [NL] ++ $"Could not read gone/BUILD" ++ [NL]) /\
  said_text 1 [$"depends-on"; $"//a:x"] = Some (ExitSuccess, projects_lines ++ $"Dependcy graph: Did not find these packages" ++ [NL] ++ [ch 9] ++ $"//c" ++ [NL; NL]
    ++ $"Dependency graph: Did not find these targets" ++ [NL] ++ [ch 9] ++ $"//a:no" ++ [NL] ++ [ch 9] ++ $"//b:y2" ++ [NL] ++ [ch 9] ++ $"//c:z" ++ [NL; NL]
    ++ $"Dependency graph expanded build file# from initial 1 to 2; 2 targets and 5 that depend on these." ++ [NL]) /\
  said_text 1 [$"canon"; $"//a:x"] = Some (ExitSuccess, projects_lines ++ $"a/BUILD:1:68-72: Invalid target name 'b:y:z'" ++ [NL]) /\
  said_text 0 [$"print"; $"//z:x"] = Some (ExitSuccess, projects_lines ++ $"Pattern did not match any dir with BUILD file." ++ [NL]) /\
  said_text 0 [$"print"] = Some (ExitFailure, $"Please provide a bazel pattern for this command." ++ [NL] ++ $"Examples: //... or //foo/bar:baz" ++ [NL]) /\
  said_text 0 [$"list-"] = Some (ExitClarification, $"Command 'list-' too short and ambiguous: [list-packages, list-targets, ..." ++ [NL]) /\
  said_text 0 [$"parse"; $"b:y:z"] = Some (ExitFailure, $"b:y:z?" ++ [NL] ++ $"Invalid bazel pattern b:y:z" ++ [NL]).
Proof.
  apply conj; [apply table_plain; vm_compute; reflexivity|]. repeat (apply conj; [vm_compute; reflexivity|]). vm_compute. reflexivity.
Qed.
(** All that C79_possible asks for. *)
Example C79_possible_case : proper_names (fs_list foo_fs) /\ proper_files foo_fs /\ proper_workspace foo_fs /\
  (forall name content, fs_content foo_fs name = Some content -> (Z.of_nat (length content) < 2147483647)%Z) /\
  exists out, run_in 9 foo_fs deep [$"depends-on"; $"//..."] = Some (Ret (out, ExitSuccess)).
Proof.
  split; [apply proper_table_ok; vm_compute; reflexivity|]. split; [exact foo_proper_files|]. split; [exact foo_proper_workspace|]. split.
  - intros name content L. assert (P : plain_lines content) by (revert L; apply table_plain; vm_compute; reflexivity). apply P.
  - eexists. vm_compute. reflexivity.
Qed.
(** The projects of only one kind of workspace are not mentioned. *)
Theorem C79_projects_refuted : exists is_directory can_read glob read_file f content stmts rs r,
  (forall name content, read_file name = Some content -> plain_lines content) /\
  In f workspace_files /\ read_file f = Some content /\ parse content = Ret (stmts, []) /\ find_targets [$"http_archive"; $"bazel_dep"] stmts = Ret rs /\ In r rs /\
  (forall d, ~ extracted_in is_directory can_read glob (v_text (q_name r)) (v_text (q_version r)) d) /\
  projects_said is_directory can_read glob read_file [].
Proof.
  exists (fun _ => false), (fun _ => false), (fun _ => []), (lookup [($"MODULE.bazel", $"bazel_dep(name = ""foo"", version = ""1"")")]), ($"MODULE.bazel"), ($"bazel_dep(name = ""foo"", version = ""1"")").
  eexists _, _, _. apply conj; [apply table_plain; vm_compute; reflexivity|]. apply conj; [now right; right; right; left|]. apply conj; [reflexivity|]. apply conj; [vm_compute; reflexivity|].
  apply conj; [vm_compute; reflexivity|]. apply conj; [left; reflexivity|].
  apply conj; [intros d ((K & _) & _); discriminate K|]. eapply ps_nothing; [| |left; reflexivity].
  - apply un_missing; [reflexivity|]. apply un_missing; [reflexivity|]. apply un_end.
  - apply un_missing; [reflexivity|]. eapply (un_file _ _ _ _ ($"MODULE.bazel") []); [reflexivity|vm_compute; reflexivity|vm_compute; reflexivity| |apply un_end].
    eapply ue_not_there; [intros d ((K & _) & _); discriminate K| |apply ue_end]. apply loc_spec; [apply plain_computed; vm_compute; reflexivity|vm_compute; reflexivity].
Qed.
Print Assumptions C79_projects_refuted.
Definition main_run (args : list str) : option (outcome (option str * str * nat * list note)) :=
  main_told (fun _ d => str_eqb d ($"sub")) (fun _ _ => false) ($"bant v1" ++ [NL]) ($"usage" ++ [NL])
    (fun _ => mkSurroundings (fun _ => false) (fun _ => false) (fun _ => []) (lookup said_files) (fun _ _ _ _ => []) (fun _ _ => [$"gone/BUILD"; $"d/BUILD"]) (fun _ _ _ _ => Ret []))
    false (fun _ => None) (mkTexts (fun a => [a ++ $"?" ++ [NL]]) ($"no")) args.
Definition main_text (args : list str) : option (nat * str) :=
  match main_run args with Some (Ret (_, _, code, notes)) => Some (code, concat (map note_text notes)) | _ => None end.
Example C79_program_case :
  main_text [$"-C"; $"sub"; $"-C"; $"nowhere"; $"list"] = Some (1, $"Can't change into directory nowhere" ++ [NL])%nat /\
  main_text [$"list"; $"-x"] = Some (0, $"bant v1" ++ [NL] ++ $"usage" ++ [NL])%nat /\
  main_text [$"-b"; $"list"] = Some (2, $"Note, the name of -b option changed to -e" ++ [NL] ++ $"Command 'list' too short and ambiguous: [list-packages, list-targets, ..." ++ [NL; NL; NL]
    ++ $"bant v1" ++ [NL] ++ $"usage" ++ [NL])%nat /\
  main_text [$"-q"; $"list-p"; $"//..."] = Some (0, $"Could not read gone/BUILD" ++ [NL])%nat /\
  main_text [$"-q"; $"print"; $"//d/..."; $"-g"; $"x"] = Some (0, $"Could not read gone/BUILD" ++ [NL] ++ $"Grep pattern: no" ++ [NL])%nat.
Proof. repeat (apply conj; [vm_compute; reflexivity|]). vm_compute. reflexivity. Qed.
Definition missing_file : parsed_file :=
  match lookup said_files ($"a/BUILD") with
  | Some content => match parse content with Ret (l, e) => mkFile (mkPackage [] ($"a")) ($"a/BUILD") content l e | _ => mkFile (mkPackage [] []) [] [] [] [] end
  | None => mkFile (mkPackage [] []) [] [] [] []
  end.
Example C80_case : let pr0 := mkProject [(mkPackage [] ($"a"), missing_file)] 0 in project_ok pr0 /\
  exists g pr l, graph_told [] (lookup said_files) (fun f => match lookup said_files f with Some _ => true | None => false end) (fun _ _ _ => []) 1 pattern_always 2 pr0 = Ret (g, pr, l) /\
    map note_text l = [$"Dependcy graph: Did not find these packages" ++ [NL] ++ [ch 9] ++ $"//c" ++ [NL] ++ [ch 9] ++ $"//e" ++ [NL; NL];
      $"Dependency graph: Did not find these targets" ++ [NL] ++ [ch 9] ++ $"//a:no" ++ [NL] ++ [ch 9] ++ $"//b:y2" ++ [NL] ++ [ch 9] ++ $"//c:z" ++ [NL] ++ [ch 9] ++ $"//e:f" ++ [NL; NL]].
Proof.
  cbv zeta. apply conj; [apply conj; [vm_compute; auto|intros p f [E|[]]; apply pair_equal_spec in E as [<- <-]; vm_compute; reflexivity]|].
  match goal with |- exists g pr l, ?e = _ /\ _ => assert (H : match e with Ret (g, pr, l) => map note_text l = [$"Dependcy graph: Did not find these packages" ++ [NL] ++ [ch 9] ++ $"//c" ++ [NL] ++ [ch 9] ++ $"//e" ++ [NL; NL];
      $"Dependency graph: Did not find these targets" ++ [NL] ++ [ch 9] ++ $"//a:no" ++ [NL] ++ [ch 9] ++ $"//b:y2" ++ [NL] ++ [ch 9] ++ $"//c:z" ++ [NL] ++ [ch 9] ++ $"//e:f" ++ [NL; NL]] | _ => False end) by (vm_compute; reflexivity);
    destruct e as [[[g pr] l]| |]; [exists g, pr, l; apply conj; [reflexivity|exact H]|destruct H..] end.
Qed.
