(** Proofs for C91: what is read. *)
From Coq Require Import NArith.
From Verif Require Import Base OMap M_Types M_Scanner M_Ast M_Parser M_Query M_Workspace M_Project M_DepGraph M_Headers M_Includes M_Dwyu M_Edits M_Table M_CompDb M_Walk S_Walk P_Walk P_GlobFiles M_Commands M_Main M_System
  S_Relaid S_Reads.

Lemma named_build d : build_named (fs_path d ($"BUILD")).
Proof. exists (strip_back "/" d). left. reflexivity. Qed.
Lemma named_bazel d : build_named (fs_path d ($"BUILD.bazel")).
Proof. exists (strip_back "/" d). right. reflexivity. Qed.
Lemma found_named fuel fs w pt f : In f (found_build_files fuel fs w pt) -> build_named f.
Proof.
  unfold found_build_files. destruct (M_Walk.collect_build_files (fs_list fs) (fs_stat fs) (fs_link fs) fuel w pt) as [l| |] eqn:E; [|intros []..].
  intros I. apply in_map_iff in I as (x & <- & I). destruct (collect_build_spec _ _ _ _ _ _ _ E) as [(_ & ->)|(root & _ & A & _)]; [destruct I|].
  apply A in I. destruct I as (d & e & _ & _ & N & X).
  assert (P : fp_path (path_at d e) = fs_path d (d_name e)) by (unfold path_at; destruct (d_type e); reflexivity).
  rewrite X, P. destruct N as [-> | ->]; [apply named_build|apply named_bazel].
Qed.
Lemma path_named w can_read p f : path_for_package w can_read p = Some f -> build_named f.
Proof.
  unfold path_for_package. destruct (if is_nil (project p) then _ else _) as [start|]; [|discriminate]. intros F. apply find_some in F as [I _].
  destruct I as [<-|[<-|[]]]; [apply named_build|apply named_bazel].
Qed.

Section Reads.
Variable content content' : str -> option str.
Hypothesis same : same_rules content content'.
Variable is_directory can_read : str -> bool.
Variable glob : str -> list str.

Lemma workspace_reads : load_workspace is_directory can_read glob content' = load_workspace is_directory can_read glob content.
Proof.
  unfold load_workspace, workspace_files. cbn [fold_left]. unfold load_file at 1 2 3 4.
  rewrite (same ($"WORKSPACE")), (same ($"WORKSPACE.bazel")), (same ($"WORKSPACE.bzlmod")), (same ($"MODULE.bazel")); [reflexivity|unfold about_workspace; auto..].
Qed.
Section In.
Variable w : workspace.
Lemma add_reads proj files : (forall f, In f files -> build_named f) -> forall pr, add_build_files w content' pr files proj = add_build_files w content pr files proj.
Proof.
  induction files as [|f files IH]; intros N pr; [reflexivity|]. cbn [add_build_files]. unfold add_build_file_in, add_build_file. rewrite (same f) by (right; apply N; now left).
  destruct (package_of_build_file w f proj) as [[p|]| |]; cbn [bind]; auto using in_cons.
  - destruct (content f) as [c|]; cbn [bind]; [|apply IH; auto using in_cons]. destruct (add_build_file_content pr p f c) as [[pr1 x]| |]; cbn [bind]; auto using in_cons.
Qed.
Variable glob_in : package -> list str -> list str -> list str.
Lemma missing_reads want : forall pr, find_and_parse_missing w content' can_read glob_in want pr = find_and_parse_missing w content can_read glob_in want pr.
Proof.
  induction want as [|p want IH]; intros pr; [reflexivity|]. cbn [find_and_parse_missing].
  assert (E : parse_missing w content' can_read glob_in pr p = parse_missing w content can_read glob_in pr p).
  { unfold parse_missing. destruct (find_parsed pr p); [reflexivity|]. destruct (path_for_package w can_read p) as [b|] eqn:P; [|reflexivity].
    unfold add_build_file. rewrite (same b) by (right; eapply path_named; eauto). reflexivity. }
  rewrite E. destruct (parse_missing w content can_read glob_in pr p); cbn [bind]; auto.
Qed.
Lemma rounds_reads d : forall g pr todo, rounds w content' can_read glob_in d g pr todo = rounds w content can_read glob_in d g pr todo.
Proof.
  induction d as [|d IH]; intros g pr todo; cbn [rounds]; unfold run_round; rewrite missing_reads; [reflexivity|].
  destruct (find_and_parse_missing w content can_read glob_in _ pr) as [pr1| |]; cbn [bind]; auto.
  destruct (scan_packages pr1 _ _) as [st| |]; cbn [bind]; auto. destruct (is_nil (rd_next st)); auto.
Qed.
(** dwyu *)
Lemma open_reads : same_includes content content' -> forall locations f, option_map (fun c => map snd (extract_cc_includes c)) (try_locations content' locations f) =
  option_map (fun c => map snd (extract_cc_includes c)) (try_locations content locations f).
Proof.
  intros INC locations f. induction locations as [|l locations IH]; [reflexivity|]. cbn [try_locations]. pose proof (INC (l ++ f)) as E.
  destruct (content (l ++ f)), (content' (l ++ f)); try discriminate E; auto.
Qed.
Variable ignore_keep : bool.
Variable headers : provided_set.
Variable known : list (target * result).
Lemma sources_reads : same_includes content content' -> forall t p sources todo,
  needed_by_sources w content' headers known t p sources todo = needed_by_sources w content headers known t p sources todo.
Proof.
  intros INC t p sources todo. induction todo as [|src todo IH]; [reflexivity|]. cbn [needed_by_sources]. rewrite IH.
  pose proof (open_reads INC source_locations (fully_qualified_file w p src)) as E. unfold try_open.
  destruct (try_locations content source_locations _) as [c|], (try_locations content' source_locations _) as [c'|]; try discriminate E; [|reflexivity]. cbn [option_map] in E. injection E as E. rewrite E. reflexivity.
Qed.
Lemma rules_reads : same_includes content content' -> forall pt f rs,
  edits_for_rules w content' ignore_keep headers known pt f rs = edits_for_rules w content ignore_keep headers known pt f rs.
Proof.
  intros INC pt f rs. induction rs as [|r rs IH]; [reflexivity|]. cbn [edits_for_rules]. rewrite IH. destruct (qualified_target (pf_package f) (v_text (q_name r))) as [t|]; [|reflexivity].
  destruct (match_target pt t); [|reflexivity]. unfold create_edits_for_target.
  destruct (extract_string_list (q_srcs r)) as [srcs| |]; cbn [bind]; [|reflexivity..]. destruct (extract_string_list (q_hdrs r)) as [hdrs| |]; cbn [bind]; [|reflexivity..].
  rewrite (sources_reads INC). reflexivity.
Qed.
Lemma files_reads : same_includes content content' -> forall pt files,
  edits_for_files w content' ignore_keep headers known pt files = edits_for_files w content ignore_keep headers known pt files.
Proof.
  intros INC pt files. induction files as [|[p f] files IH]; [reflexivity|]. cbn [edits_for_files]. rewrite IH. destruct (match_package pt (pf_package f)); [|reflexivity].
  destruct (find_targets _ (pf_ast f)) as [rs| |]; cbn [bind]; [|reflexivity..]. rewrite (rules_reads INC). reflexivity.
Qed.
End In.
End Reads.

Section InFs.
Variable fuel : nat.
Variable fs : file_system.
Variable content' : str -> option str.
Let fs' := with_content fs content'.
Hypothesis same : same_rules (fs_content fs) content'.
Notation run f := (run_command (is_dir f) (fs_can_read f) (fs_glob f) (fs_content f) (globbed_files fuel f) (found_build_files fuel f) (flags_output f)).
Notation prep f := (prepare (is_dir f) (fs_can_read f) (fs_glob f) (fs_content f) (globbed_files fuel f) (found_build_files fuel f)).
Lemma prepare_reads fl cmd pt : prep fs' fl cmd pt = prep fs fl cmd pt.
Proof.
  unfold prepare. change (is_dir fs') with (is_dir fs). change (fs_can_read fs') with (fs_can_read fs). change (fs_glob fs') with (fs_glob fs). change (fs_content fs') with content'.
  change (globbed_files fuel fs') with (globbed_files fuel fs). change (found_build_files fuel fs') with (found_build_files fuel fs).
  rewrite (workspace_reads _ _ same). destruct (load_workspace (is_dir fs) (fs_can_read fs) (fs_glob fs) (fs_content fs)) as [[w|]| |]; cbn [bind]; [|reflexivity..].
  set (w' := augment_from_external_dir _ _ w). unfold fill_from_pattern. rewrite (add_reads _ _ same) by (intros f; apply found_named).
  destruct (if needs_project cmd pt then _ else _) as [pr| |]; cbn [bind]; [|reflexivity..].
  destruct (if elaborate_for cmd (fl_elaborate fl) then _ else _) as [pr1| |]; cbn [bind]; [|reflexivity..].
  destruct (wants_graph cmd && _); [|reflexivity]. unfold build_graph. destruct (initial_todo _ (pr_files pr1) []) as [todo| |]; cbn [bind]; [|reflexivity..].
  rewrite (rounds_reads _ _ same). reflexivity.
Qed.
Lemma command_reads fl cmd pt : (shows_flags cmd = true -> content' ($".bazelrc") = fs_content fs ($".bazelrc")) ->
  (cmd = CDwyu -> same_includes (fs_content fs) content') -> run fs' fl cmd pt = run fs fl cmd pt.
Proof.
  intros RC INC. unfold run_command. rewrite prepare_reads. destruct (prep fs fl cmd pt) as [[[[w pr] g]|]| |]; cbn [bind]; [|reflexivity..].
  destruct cmd; cbn [perform]; try reflexivity.
  - unfold dependency_edits. destruct (header_to_lib pr true) as [headers| |]; cbn [bind]; [|reflexivity..]. destruct (known_libraries pr) as [known| |]; cbn [bind]; [|reflexivity..].
    rewrite (files_reads _ _ w (fl_ignore_keep fl) headers known (INC eq_refl)). reflexivity.
  - unfold flags_output. change (fs_content fs') with content'. rewrite (RC eq_refl). reflexivity.
  - unfold flags_output. change (fs_content fs') with content'. rewrite (RC eq_refl). reflexivity.
Qed.
Theorem run_reads fl args : (forall cmd, commanded args cmd -> (shows_flags cmd = true -> content' ($".bazelrc") = fs_content fs ($".bazelrc")) /\
    (cmd = CDwyu -> same_includes (fs_content fs) content')) -> run_in fuel fs' fl args = run_in fuel fs fl args.
Proof.
  intros C. unfold run_in, run_cli. destruct args as [|word args]; [reflexivity|]. destruct (find_command command_names word) as [cmd| |] eqn:F; try reflexivity.
  assert (D := C cmd (ex_intro _ word (ex_intro _ args (conj eq_refl F)))). destruct D as [RC INC].
  destruct args as [|arg more]; [destruct (needs_pattern cmd && _); [reflexivity|]; f_equal; now apply command_reads|].
  destruct (parse_pattern arg) as [pt| |]; try reflexivity. destruct (is_nil more); [|reflexivity]. destruct (needs_pattern cmd && _); [reflexivity|]. f_equal. now apply command_reads.
Qed.
End InFs.
Theorem program_reads fuel change_dir open_output seen content' is_terminal compile args :
  (forall dirs, same_rules (fs_content (seen dirs)) (content' dirs)) ->
  (forall st pos cmd, read_command_line change_dir open_output args = Ret (Continue st, pos) -> commanded pos cmd ->
     (shows_flags cmd = true -> content' (s_dirs st) ($".bazelrc") = fs_content (seen (s_dirs st)) ($".bazelrc")) /\
     (cmd = CDwyu -> same_includes (fs_content (seen (s_dirs st))) (content' (s_dirs st)))) ->
  program fuel change_dir open_output (fun dirs => with_content (seen dirs) (content' dirs)) is_terminal compile args =
  program fuel change_dir open_output seen is_terminal compile args.
Proof.
  intros R C. unfold program, main. destruct (read_command_line change_dir open_output args) as [[[st|code] pos]| |] eqn:E; try reflexivity.
  pose proof (run_reads fuel (seen (s_dirs st)) (content' (s_dirs st)) (R _) (flags_of is_terminal compile st) pos (fun cmd => C st pos cmd eq_refl)) as H.
  unfold run_in in H. cbn [surroundings_of sur_is_directory sur_can_read sur_glob sur_read_file sur_glob_in sur_collect sur_flags]. cbn zeta. rewrite H. reflexivity.
Qed.
