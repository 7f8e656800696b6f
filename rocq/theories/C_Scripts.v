(** Properties C49, C67 and C68, continued: names of commands, numbers of the exit status,
    and the commands that print edits. *)
From Verif Require Import Base OMap M_Types M_Scanner M_Ast M_Query M_Workspace S_Workspace M_Project M_DepGraph S_DepGraph
  M_Headers S_Headers M_Dwyu S_Dwyu C_Dwyu M_Edits C_Edits M_Highlight M_Table P_Print M_Commands S_Commands P_Commands S_Run P_Run T_Parser C_Commands.
Local Open Scope string_scope.
Local Open Scope list_scope.

(** * C49: the names of the commands *)
Definition command_word (c : command) : str :=
  match c with
  | CPrint => $"print" | CParse => $"parse" | CListPackages => $"list-packages" | CListTargets => $"list-targets" | CWorkspace => $"workspace"
  | CAliasedBy => $"aliased-by" | CLibHeaders => $"lib-headers" | CGenruleOutputs => $"genrule-outputs" | CDwyu => $"dwyu"
  | CCompilationDb => $"compilation-db" | CCompileFlags => $"compile-flags" | CCanonicalize => $"canonicalize"
  | CHasDependents => $"has-dependents" | CDependsOn => $"depends-on"
  end.
Lemma command_known cmd : In (command_word cmd, cmd) command_names.
Proof. destruct cmd; vm_compute; tauto. Qed.
Lemma command_only name cmd : In (name, cmd) command_names -> name = command_word cmd.
Proof. intros H. repeat (destruct H as [H|H]; [injection H as <- <-; reflexivity|]). destruct H. Qed.
(** A word stands for a command iff it is the beginning of the name of this one only. *)
Theorem C49_words : forall word cmd, find_command command_names word = Found cmd <->
  (exists r, command_word cmd = word ++ r) /\ forall c r, command_word c = word ++ r -> c = cmd.
Proof.
  intros word cmd. rewrite C49_lookup.
  assert (A : forall c, In c (abbreviated command_names word) <-> exists r, command_word c = word ++ r).
  { intros c. unfold abbreviated. rewrite in_map_iff. split.
    - intros ((name & c') & <- & I). apply filter_In in I as [I St]. cbn [fst snd] in *. apply starts_with_iff in St. rewrite <- (command_only _ _ I). exact St.
    - intros [r E]. exists (command_word c, c). split; [reflexivity|]. apply filter_In. split; [apply command_known|]. cbn [fst]. rewrite E. apply starts_with_app. }
  destruct (abbreviated command_names word) as [|c [|c' l]] eqn:L.
  - split; [discriminate|]. intros (R & _). apply A in R. destruct R.
  - split.
    + intros E. injection E as ->. split; [apply A; left; auto|]. intros c r E. assert (I : In c [cmd]) by (apply A; eauto). destruct I as [->|[]]. reflexivity.
    + intros (R & _). apply A in R. destruct R as [->|[]]. reflexivity.
  - split; [discriminate|]. intros (_ & U). exfalso.
    assert (c = cmd). { destruct (proj1 (A c)) as [r E]; [left; auto|]. eauto. }
    assert (c' = cmd). { destruct (proj1 (A c')) as [r E]; [right; left; auto|]. eauto. }
    subst c c'. assert (N : NoDup (map snd command_names)) by (cbn; repeat constructor; cbn; intuition discriminate).
    unfold abbreviated in L. assert (N' : NoDup (map snd (filter (fun e : str * command => starts_with word (fst e)) command_names))).
    { revert N. generalize command_names. clear. induction l as [|[n c] l IH]; cbn; intros N; [constructor|]. inversion_clear N. destruct (starts_with word n); [|auto].
      cbn. constructor; [|auto]. intros I. apply H. apply in_map_iff in I as (e & E & I). apply filter_In in I as [I _]. apply in_map_iff. eauto. }
    rewrite L in N'. inversion_clear N'. apply H. left. reflexivity.
Qed.
Print Assumptions C49_words.

Section Run.
Variable is_directory : str -> bool.
Variable can_read : str -> bool.
Variable glob : str -> list str.
Variable read_file : str -> option str.
Variable glob_in : workspace -> package -> list str -> list str -> list str.
Variable collect_build_files : workspace -> pattern -> list str.
Variable compilation_flags : workspace -> parsed_project -> pattern -> bool -> outcome str.
Notation run_command := (run_command is_directory can_read glob read_file glob_in collect_build_files compilation_flags).
Notation run_cli := (run_cli is_directory can_read glob read_file glob_in collect_build_files compilation_flags).
Notation the_workspace := (the_workspace is_directory can_read glob read_file).
Notation loaded := (loaded read_file glob_in collect_build_files).
Notation has_workspace := (has_workspace read_file).

(** * C68: the numbers *)
Definition is_command (word : str) (cmd : command) : Prop :=
  (exists r, command_word cmd = word ++ r) /\ forall c r, command_word c = word ++ r -> c = cmd.
Theorem C68_numbers : forall fl args out st, run_cli fl args = Some (Ret (out, st)) ->
  match args with
  | [] => exit_code st = 2 /\ out = []
  | word :: rest =>
      (exit_code st = 2 /\ out = [] /\ forall cmd, ~ is_command word cmd) \/
      exists cmd, is_command word cmd /\
       ((exit_code st = 1 /\ out = [] /\ (unusable cmd rest \/ ~ has_workspace)) \/
        (~ unusable cmd rest /\ has_workspace /\
         (exit_code st = 3 /\ (cmd = CDwyu \/ cmd = CCanonicalize) /\ out <> [] \/
          exit_code st = 0 /\ (cmd = CDwyu \/ cmd = CCanonicalize -> out = []))))
  end.
Proof.
  intros fl [|word rest] out st E; apply C68_status in E as H.
  - destruct H as [-> ->]. auto.
  - assert (K := C49_words word). destruct (abbreviated command_names word) as [|cmd [|c l]] eqn:A.
    + left. destruct H as [-> ->]. split; [reflexivity|]. split; [reflexivity|]. intros cmd I. apply K in I. rewrite C49_lookup, A in I. discriminate.
    + right. exists cmd. split; [apply K; rewrite C49_lookup, A; reflexivity|]. destruct st; cbn [status_of] in H.
      * right. destruct H as (W & U & C). split; [exact U|]. split; [exact W|]. right. split; [reflexivity|exact C].
      * left. destruct H as (-> & H). auto.
      * destruct H.
      * right. destruct H as (W & U & C & N). split; [exact U|]. split; [exact W|]. left. auto.
    + left. destruct H as [-> ->]. split; [reflexivity|]. split; [reflexivity|]. intros cmd' I. apply K in I. rewrite C49_lookup, A in I. discriminate.
Qed.

(** * C67: dwyu and canonicalize *)
(** dwyu: in the files of the pattern and all they depend on, evaluated, the edits for the cc rules that
    match; C31-C36 say what these are.  With -k, comments are ignored. *)
(** The line of the script for a finding. *)
Definition dwyu_line (e : event) : str :=
  match e with
  | EvRemove t label => $"buildozer 'remove deps " ++ label ++ $"' " ++ target_to_string t ++ [NL]
  | EvAdd t label => $"buildozer 'add deps " ++ label ++ $"' " ++ target_to_string t ++ [NL]
  | _ => []
  end.
Lemma dwyu_lines evs : buildozer_script (edits_of_events evs) = concat (map dwyu_line evs).
Proof.
  unfold edits_of_events, buildozer_script. induction evs as [|e evs IH]; [reflexivity|]. cbn [flat_map map concat]. rewrite flat_map_app, IH. f_equal.
  destruct e; try reflexivity; apply app_nil_r.
Qed.
Definition depth_or_all (fl : flags) : Z := if (fl_depth fl <=? 0)%Z then INT_MAX else fl_depth fl.
Theorem C67_dwyu : forall fl pt out st, run_command fl CDwyu pt = Ret (out, st) -> has_workspace ->
  exists w pr pr' headers rules evs, the_workspace w /\ loaded w pt true pr /\
    (exists g todo, build_graph w read_file can_read (glob_in w) pt (depth_or_all fl) pr = Ret (g, pr', todo)) /\
    Forall2 (fun x e => target_edits w read_file (fl_ignore_keep fl) pr' headers (fst (fst x)) (snd (fst x)) (snd x) e) rules evs /\
    (forall t details f, In (t, details, f) rules <-> edited pr' pt t details f) /\
    out = concat (map dwyu_line (concat evs)).
Proof.
  intros fl pt out st E W. apply run_spec in E as [(P & _ & C)|(w & pr & g & P & E)].
  { exfalso. unfold prepare in P. destruct (load_workspace is_directory can_read glob read_file) as [[w0|]| |] eqn:L; try discriminate; cbn [bind] in P.
    - repeat match type of P with
      | bind ?x _ = _ => destruct x as [?| |]; try discriminate; cbn [bind] in P
      | (let '(_, _) := ?x in _) = _ => destruct x
      end; discriminate P.
    - apply load_workspace_spec in L as (decls & _ & F & _). unfold C_Commands.has_workspace in W. apply F in W. congruence. }
  apply prepare_spec in P. cbn [needs_project elaborate_for wants_graph depth_for andb] in P. destruct P as (W' & pr0 & H & G).
  unfold perform in E. destruct (dependency_edits _ _ _ _ _) as [[evs n]| |] eqn:D; try discriminate. cbn [bind] in E.
  apply ret_pair in E as [<- _].
  destruct (C60_matching _ _ _ _ _ _ _ D) as (headers & rules & evs' & F & -> & _ & R).
  rewrite dwyu_lines. exists w, pr0, pr, headers, rules, evs'. split; [exact W'|]. split; [exact H|]. split; [|auto].
  assert (X : (0 <=? depth_or_all fl)%Z = true) by (unfold depth_or_all; destruct (Z.leb_spec (fl_depth fl) 0); [reflexivity|apply Z.leb_le; lia]).
  change (if (fl_depth fl <=? 0)%Z then INT_MAX else fl_depth fl) with (depth_or_all fl) in G. rewrite X in G. destruct G as (todo & B). eauto.
Qed.
(** canonicalize: only the files of the pattern; C63 says what the edits are. *)
Theorem C67_canonicalize : forall fl pt out st, run_command fl CCanonicalize pt = Ret (out, st) -> has_workspace ->
  exists w pr edits, the_workspace w /\ loaded w pt (fl_elaborate fl) pr /\ out = buildozer_script edits /\
    forall e, In e edits <->
      exists key f rs r self deps d t, In (key, f) (pr_files pr) /\ find_targets [] (pf_ast f) = Ret rs /\ In r rs /\
        qualified_target (pf_package f) (v_text (q_name r)) = Some self /\ match_target pt self = true /\
        extract_string_list (q_deps r) = Ret deps /\ In d deps /\
        parse_target (v_text d) (pf_package f) = Some t /\ v_text d <> target_to_string_rel t (pf_package f) /\
        e = mkEdit KRename self (v_text d) (target_to_string_rel t (pf_package f)).
Proof.
  intros fl pt out st E W. apply run_spec in E as [(P & _ & C)|(w & pr & g & P & E)].
  { exfalso. unfold prepare in P. destruct (load_workspace is_directory can_read glob read_file) as [[w0|]| |] eqn:L; try discriminate; cbn [bind] in P.
    - repeat match type of P with
      | bind ?x _ = _ => destruct x as [?| |]; try discriminate; cbn [bind] in P
      | (let '(_, _) := ?x in _) = _ => destruct x
      end; discriminate P.
    - apply load_workspace_spec in L as (decls & _ & F & _). unfold C_Commands.has_workspace in W. apply F in W. congruence. }
  apply prepare_spec in P. cbn [needs_project elaborate_for wants_graph depth_for andb] in P. destruct P as (W' & pr0 & H & -> & ->).
  unfold perform in E. destruct (canonicalize_edits _ _) as [evs| |] eqn:D; try discriminate. cbn [bind] in E. apply ret_pair in E as [<- _].
  exists w, pr0, (edits_of_canon evs). split; [exact W'|]. split; [exact H|]. split; [reflexivity|]. exact (C63_edits _ _ _ D).
Qed.
(** parse: says nothing, unless -p is given; then it is like print, after following dependencies. *)
Theorem C67_parse : forall fl pt out, run_command fl CParse pt = Ret (out, ExitSuccess) ->
  exists w pr pr', the_workspace w /\ loaded w pt (fl_elaborate fl) pr /\ followed can_read read_file glob_in w fl pt pr pr' /\
    if fl_print_ast fl || fl_print_only_errors fl then print_project (fl_grep fl) (fl_color fl) (fl_print_only_errors fl) pt pr' = Ret out else out = [].
Proof.
  intros fl pt out E. apply run_spec in E as [(_ & _ & C)|(w & pr & g & P & E)]; [discriminate C|]. apply prepare_spec in P.
  cbn [needs_project elaborate_for wants_graph depth_for andb] in P. destruct P as (W & pr0 & H & G). exists w, pr0, pr.
  split; [exact W|]. split; [exact H|]. split. { unfold followed. destruct (0 <=? fl_depth fl)%Z; [destruct G as (todo & B); eauto|apply G]. }
  unfold perform in E. destruct (_ || _).
  - destruct (print_project _ _ _ _ _) as [o| |]; try discriminate. cbn [bind] in E. apply ret_pair in E as [<- _]. reflexivity.
  - apply ret_pair in E as [<- _]. reflexivity.
Qed.
End Run.
Print Assumptions C68_numbers.
Print Assumptions C67_dwyu.
Print Assumptions C67_canonicalize.
Print Assumptions C67_parse.
