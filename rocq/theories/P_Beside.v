(** Proofs for C91: other files in the directories. *)
From Coq Require Import NArith.
From Verif Require Import Base OMap M_Types M_Scanner M_Ast M_Parser M_Query M_Workspace M_Project M_DepGraph M_Headers M_Includes M_Dwyu M_Edits M_Table M_CompDb M_Walk S_Walk P_Walk P_GlobFiles M_Commands M_Main M_System
  S_Relaid S_Order P_Order S_Reads P_Reads.

Definition is_build_name (f : str) : bool := ends_with ($"/BUILD") f || ends_with ($"/BUILD.bazel") f.
Lemma is_build_iff f : is_build_name f = true <-> build_named f.
Proof.
  unfold is_build_name, build_named. rewrite orb_true_iff, !ends_with_iff. split.
  - intros [(d & E)|(d & E)]; exists d; auto.
  - intros (d & [E|E]); [left|right]; exists d; auto.
Qed.
Definition only_build (content : str -> option str) (f : str) : option str := if is_build_name f then content f else None.

Section Walks.
Variable fs fs' : file_system.
Hypothesis B : differs_in_others fs fs'.
Notation entry_dir' := (entry_dir (fs_stat fs')).
Notation entry_dir := (entry_dir (fs_stat fs)).
Lemma dirs_same p : match fs_stat fs' p with Some (_, b) => b | None => false end = match fs_stat fs p with Some (_, b) => b | None => false end.
Proof.
  pose proof (same_dirs _ _ B p) as E. unfold directory_at in E. destruct (fs_stat fs' p) as [[i [|]]|], (fs_stat fs p) as [[j [|]]|]; congruence.
Qed.
Lemma is_dir_same p : is_dir fs' p = is_dir fs p.
Proof. unfold is_dir, M_Walk.is_directory, path_of. cbn [fp_dir fp_path]. apply dirs_same. Qed.
Lemma is_dir_at p : is_dir fs p = true -> directory_at fs p <> None.
Proof. unfold is_dir, M_Walk.is_directory, path_of, directory_at. cbn [fp_dir fp_path]. destruct (fs_stat fs p) as [[i [|]]|]; discriminate. Qed.
Lemma entry_same d e : fst (entry_dir' d e) = fst (entry_dir d e) /\ (fst (entry_dir d e) = true -> entry_dir' d e = entry_dir d e).
Proof.
  unfold M_Walk.entry_dir. destruct (d_type e); cbn [fst]; auto; pose proof (same_dirs _ _ B (fp_path (path_at d e))) as E; unfold directory_at in E;
    destruct (fs_stat fs' (fp_path (path_at d e))) as [[i [|]]|], (fs_stat fs (fp_path (path_at d e))) as [[j [|]]|]; cbn [fst]; split; congruence.
Qed.
Lemma predicate_same recursive d e : fst (entry_dir d e) = true ->
  build_dir_predicate (fs_link fs') recursive (path_at d e) = build_dir_predicate (fs_link fs) recursive (path_at d e).
Proof.
  intros D. unfold build_dir_predicate. replace (is_symlink (fs_link fs') (path_at d e)) with (is_symlink (fs_link fs) (path_at d e)); [reflexivity|].
  unfold is_symlink. destruct (d_type e) eqn:T; unfold path_at; rewrite T; cbn [fp_link fp_path]; auto.
  - symmetry. apply (same_links _ _ B). unfold M_Walk.entry_dir in D. rewrite T in D. unfold path_at in D. rewrite T in D. cbn [fp_path] in D. unfold directory_at.
    destruct (fs_stat fs _) as [[i [|]]|]; discriminate.
  - unfold M_Walk.entry_dir in D. rewrite T in D. discriminate D.
Qed.
Lemma is_build_name_entry d e : is_build_file (path_at d e) = str_eqb (d_name e) ($"BUILD") || str_eqb (d_name e) ($"BUILD.bazel").
Proof.
  assert (N : filename (path_at d e) = d_name e).
  { assert (X : filename (path_at d e) = skipn (length (strip_back "/" d) + 1) (fs_path d (d_name e))) by (unfold path_at, filename; destruct (d_type e); reflexivity).
    rewrite X. unfold fs_path. rewrite app_assoc. replace (length (strip_back "/" d) + 1) with (length (strip_back "/" d ++ $"/")) by (rewrite app_length; reflexivity).
    now rewrite skipn_app, skipn_all, Nat.sub_diag. }
  unfold is_build_file. now rewrite N.
Qed.
Section Scan.
Variable recursive : bool.
Notation scan' := (scan_entry (fs_stat fs') (build_dir_predicate (fs_link fs') recursive) is_build_file).
Notation scan := (scan_entry (fs_stat fs) (build_dir_predicate (fs_link fs) recursive) is_build_file).
Lemma scan_same d s e : scan' d s e = scan d s e.
Proof.
  unfold scan_entry. destruct (is_dot e); [reflexivity|]. destruct (entry_same d e) as [E1 E2].
  destruct (entry_dir d e) as [[|] i] eqn:X; cbn [fst] in *.
  - rewrite (E2 eq_refl). rewrite predicate_same by (rewrite X; reflexivity). reflexivity.
  - destruct (entry_dir' d e) as [b i']. cbn [fst] in E1. subst b. reflexivity.
Qed.
Lemma scan_other d s e : other_file fs d e = true -> scan d s e = s.
Proof.
  unfold other_file, scan_entry. intros H. destruct (is_dot e); [reflexivity|]. apply andb_true_iff in H as [H T]. rewrite is_build_name_entry.
  assert (N : str_eqb (d_name e) ($"BUILD") || str_eqb (d_name e) ($"BUILD.bazel") = false).
  { apply andb_true_iff in H as [A C]. apply negb_true_iff in A, C. now rewrite A, C. }
  rewrite N. unfold M_Walk.entry_dir, directory_at in *. destruct (d_type e); try discriminate T; try reflexivity; destruct (fs_stat fs (fp_path (path_at d e))) as [[i [|]]|]; try discriminate T; reflexivity.
Qed.
Lemma scan_filter d l : forall s, fold_left (scan d) l s = fold_left (scan d) (filter (fun e => negb (other_file fs d e)) l) s.
Proof.
  induction l as [|e l IH]; intros s; [reflexivity|]. cbn [fold_left filter]. destruct (other_file fs d e) eqn:O; cbn [negb fold_left]; [|apply IH].
  rewrite scan_other by exact O. apply IH.
Qed.
Lemma other_same d e : other_file fs' d e = other_file fs d e.
Proof. unfold other_file. now rewrite (same_dirs _ _ B). Qed.
Lemma walk_same fuel : forall s, walk_loop (fs_list fs') (fs_stat fs') (build_dir_predicate (fs_link fs') recursive) is_build_file fuel s =
  walk_loop (fs_list fs) (fs_stat fs) (build_dir_predicate (fs_link fs) recursive) is_build_file fuel s.
Proof.
  induction fuel as [|fuel IH]; intros s; cbn [walk_loop]; destruct (ws_work s) as [|d work]; try reflexivity.
  pose proof (same_entries _ _ B d) as E. unfold other_entries in E. destruct (fs_list fs' d) as [l'|], (fs_list fs d) as [l|]; cbn [option_map] in E; try discriminate E; [|apply IH].
  injection E as E. rewrite IH. f_equal. rewrite (scan_filter d l), <- E.
  erewrite (filter_ext (fun e => negb (other_file fs' d e)) (fun e => negb (other_file fs d e))) by (intros e; now rewrite other_same).
  rewrite <- scan_filter. generalize (mkWalk (ws_seen s) work (ws_out s)). clear - B. induction l' as [|e l' IH]; intros s; [reflexivity|]. cbn [fold_left]. rewrite scan_same. apply IH.
Qed.
End Scan.
Lemma found_same fuel w pt : found_build_files fuel fs' w pt = found_build_files fuel fs w pt.
Proof.
  unfold found_build_files, M_Walk.collect_build_files. destruct (search_dir w pt) as [root|]; [|reflexivity]. unfold collect_files_recursive. now rewrite walk_same.
Qed.
Lemma find_ext {A} (f g : A -> bool) l : (forall x, In x l -> f x = g x) -> find f l = find g l.
Proof. induction l as [|x l IH]; intros H; [reflexivity|]. cbn [find]. rewrite (H x) by now left. destruct (g x); [reflexivity|]. apply IH. intros y I. apply H. now right. Qed.
Lemma usable_same p : is_dir fs' p && fs_can_read fs' p = is_dir fs p && fs_can_read fs p.
Proof.
  rewrite is_dir_same. destruct (is_dir fs p) eqn:D; [|reflexivity]. cbn [andb]. apply (same_access _ _ B). left. now apply is_dir_at.
Qed.
Lemma project_dir_same name version : project_dir (is_dir fs') (fs_can_read fs') (fs_glob fs') name version = project_dir (is_dir fs) (fs_can_read fs) (fs_glob fs) name version.
Proof.
  unfold project_dir. rewrite (find_ext _ (fun p => is_dir fs p && fs_can_read fs p)) by (intros p _; apply usable_same).
  rewrite (same_matches _ _ B). destruct (find _ _); [reflexivity|]. destruct (fs_glob fs _) as [|p l]; [reflexivity|]. now rewrite usable_same.
Qed.
Lemma load_same : load_workspace (is_dir fs') (fs_can_read fs') (fs_glob fs') (fs_content fs') = load_workspace (is_dir fs) (fs_can_read fs) (fs_glob fs) (fs_content fs).
Proof.
  rewrite (workspace_reads (fs_content fs) (fs_content fs') (same_content _ _ B)). unfold load_workspace.
  assert (L : forall files acc, fold_left (load_file (is_dir fs') (fs_can_read fs') (fs_glob fs') (fs_content fs)) files acc = fold_left (load_file (is_dir fs) (fs_can_read fs) (fs_glob fs) (fs_content fs)) files acc).
  { induction files as [|f files IH]; intros acc; [reflexivity|]. cbn [fold_left]. rewrite IH. f_equal. unfold load_file. destruct acc as [[found w]| |]; cbn [bind]; [|reflexivity..].
    destruct (fs_content fs f) as [c|]; [|reflexivity]. destruct (parse c) as [[ast errs]| |]; cbn [bind]; [|reflexivity..]. destruct (find_targets _ ast) as [rs| |]; cbn [bind]; [|reflexivity..].
    do 2 f_equal. clear - B. revert w. induction rs as [|r rs IH]; intros w; [reflexivity|]. cbn [fold_left]. rewrite IH. f_equal. unfold load_rule. now rewrite project_dir_same. }
  now rewrite L.
Qed.
Lemma augment_same w : augment_from_external_dir (is_dir fs') (fs_glob fs') w = augment_from_external_dir (is_dir fs) (fs_glob fs) w.
Proof.
  unfold augment_from_external_dir. rewrite (same_matches _ _ B). generalize (fs_glob fs (external_base_dir ++ $"/*")). intros l. revert w. induction l as [|p l IH]; intros w; [reflexivity|].
  cbn [fold_left]. rewrite IH. f_equal. unfold augment_step. now rewrite is_dir_same.
Qed.
Lemma path_same w p : path_for_package w (fs_can_read fs') p = path_for_package w (fs_can_read fs) p.
Proof.
  unfold path_for_package. destruct (if is_nil (project p) then _ else _) as [start|]; [|reflexivity]. apply find_ext. intros x I. apply (same_access _ _ B). right.
  destruct I as [<-|[<-|[]]]; [apply named_build|apply named_bazel].
Qed.
Lemma rounds_access w glob_in content d : forall g pr todo, rounds w content (fs_can_read fs') glob_in d g pr todo = rounds w content (fs_can_read fs) glob_in d g pr todo.
Proof.
  assert (M : forall want pr, find_and_parse_missing w content (fs_can_read fs') glob_in want pr = find_and_parse_missing w content (fs_can_read fs) glob_in want pr).
  { induction want as [|p want IH]; intros pr; [reflexivity|]. cbn [find_and_parse_missing]. unfold parse_missing. rewrite path_same. destruct (match find_parsed pr p with Some _ => _ | None => _ end); cbn [bind]; auto. }
  induction d as [|d IH]; intros g pr todo; cbn [rounds]; unfold run_round; rewrite M; [reflexivity|].
  destruct (find_and_parse_missing w content (fs_can_read fs) glob_in _ pr) as [pr1| |]; cbn [bind]; auto.
  destruct (scan_packages pr1 _ _) as [st| |]; cbn [bind]; auto. destruct (is_nil (rd_next st)); auto.
Qed.
Hypothesis N : no_glob fs.
Variable fuel : nat.
Lemma only_same content content' f : same_rules content content' -> build_named f -> only_build content f = content' f.
Proof. intros S H. unfold only_build. rewrite (proj2 (is_build_iff f) H). symmetry. apply S. auto. Qed.
Lemma build_no_glob f c : only_build (fs_content fs) f = Some c -> ~ exists a b, c = a ++ $"glob" ++ b.
Proof. unfold only_build. destruct (is_build_name f) eqn:E; [|discriminate]. apply N. now apply is_build_iff. Qed.
Lemma add_only content content' w proj files : same_rules content content' -> (forall f, In f files -> build_named f) -> forall pr,
  add_build_files w content' pr files proj = add_build_files w (only_build content) pr files proj.
Proof.
  intros S. induction files as [|f files IH]; intros F pr; [reflexivity|]. cbn [add_build_files]. unfold add_build_file_in, add_build_file.
  rewrite (only_same content content' f S) by (apply F; now left).
  destruct (package_of_build_file w f proj) as [[p|]| |]; cbn [bind]; auto using in_cons.
  destruct (content' f) as [c|]; cbn [bind]; [|apply IH; auto using in_cons]. destruct (add_build_file_content pr p f c) as [[pr1 x]| |]; cbn [bind]; auto using in_cons.
Qed.
Lemma rounds_only content content' w can_read glob_in d : same_rules content content' ->
  forall g pr todo, rounds w content' can_read glob_in d g pr todo = rounds w (only_build content) can_read glob_in d g pr todo.
Proof.
  intros S. assert (M : forall want pr, find_and_parse_missing w content' can_read glob_in want pr = find_and_parse_missing w (only_build content) can_read glob_in want pr).
  { induction want as [|p want IH]; intros pr; [reflexivity|]. cbn [find_and_parse_missing].
    assert (E : parse_missing w content' can_read glob_in pr p = parse_missing w (only_build content) can_read glob_in pr p).
    { unfold parse_missing. destruct (find_parsed pr p); [reflexivity|]. destruct (path_for_package w can_read p) as [b|] eqn:P; [|reflexivity].
      unfold add_build_file. rewrite (only_same content content' b S) by (eapply path_named; eauto). reflexivity. }
    rewrite E. destruct (parse_missing w (only_build content) can_read glob_in pr p); cbn [bind]; auto. }
  induction d as [|d IH]; intros g pr todo; cbn [rounds]; unfold run_round; rewrite M; [reflexivity|].
  destruct (find_and_parse_missing w (only_build content) can_read glob_in _ pr) as [pr1| |]; cbn [bind]; auto.
  destruct (scan_packages pr1 _ _) as [st| |]; cbn [bind]; auto. destruct (is_nil (rd_next st)); auto.
Qed.
Notation run f := (run_command (is_dir f) (fs_can_read f) (fs_glob f) (fs_content f) (globbed_files fuel f) (found_build_files fuel f) (flags_output f)).
Notation prep f := (prepare (is_dir f) (fs_can_read f) (fs_glob f) (fs_content f) (globbed_files fuel f) (found_build_files fuel f)).
Lemma same_itself (content : str -> option str) : same_rules content content.
Proof. intros f _. reflexivity. Qed.
Lemma prepare_beside fl cmd pt : prep fs' fl cmd pt = prep fs fl cmd pt.
Proof.
  unfold prepare. rewrite load_same. destruct (load_workspace (is_dir fs) (fs_can_read fs) (fs_glob fs) (fs_content fs)) as [[w|]| |]; cbn [bind]; [|reflexivity..].
  rewrite augment_same. set (w' := augment_from_external_dir _ _ w). unfold fill_from_pattern. rewrite found_same. fold (read_for cmd pt). set (dp := read_for cmd pt).
  rewrite (add_only _ _ w' (pat_project dp) _ (same_content _ _ B)), (add_only _ _ w' (pat_project dp) _ (same_itself (fs_content fs))) by (intros f; apply found_named).
  destruct (if needs_project cmd pt then add_build_files w' (only_build (fs_content fs)) empty_project (found_build_files fuel fs w' dp) (pat_project dp) else Ret empty_project) as [pr| |] eqn:Ep; cbn [bind]; [|reflexivity..].
  assert (Fr : forall p f, In (p, f) (pr_files pr) -> fresh (only_build (fs_content fs)) f).
  { destruct (needs_project cmd pt); [|injection Ep as <-; intros p f []]. eapply add_files_fresh; [|exact Ep]. intros p f []. }
  unfold elaborate_project. rewrite (elaborate_files_fresh (only_build (fs_content fs)) (globbed_files fuel fs' w') (globbed_files fuel fs w') build_no_glob _ Fr).
  destruct (if elaborate_for cmd (fl_elaborate fl) then _ else _) as [pr1| |]; cbn [bind]; [|reflexivity..].
  unfold build_graph. destruct (wants_graph cmd && _); [|reflexivity]. destruct (initial_todo dp (pr_files pr1) []) as [todo| |]; cbn [bind]; [|reflexivity..].
  rewrite rounds_access, (rounds_only _ _ w' (fs_can_read fs) (globbed_files fuel fs' w') _ (same_content _ _ B)), (rounds_only _ _ w' (fs_can_read fs) (globbed_files fuel fs w') _ (same_itself (fs_content fs))).
  rewrite (rounds_same w' (only_build (fs_content fs)) (fs_can_read fs) (globbed_files fuel fs' w') (globbed_files fuel fs w') build_no_glob). reflexivity.
Qed.
Lemma command_beside fl cmd pt : (shows_flags cmd = true -> fs_content fs' ($".bazelrc") = fs_content fs ($".bazelrc")) ->
  (cmd = CDwyu -> same_includes (fs_content fs) (fs_content fs')) -> run fs' fl cmd pt = run fs fl cmd pt.
Proof.
  intros RC INC. unfold run_command. rewrite prepare_beside. destruct (prep fs fl cmd pt) as [[[[w pr] g]|]| |]; cbn [bind]; [|reflexivity..].
  destruct cmd; cbn [perform]; try reflexivity.
  - unfold dependency_edits. destruct (header_to_lib pr true) as [headers| |]; cbn [bind]; [|reflexivity..]. destruct (known_libraries pr) as [known| |]; cbn [bind]; [|reflexivity..].
    rewrite (files_reads (fs_content fs) (fs_content fs') w (fl_ignore_keep fl) headers known (INC eq_refl)). reflexivity.
  - unfold flags_output. rewrite (RC eq_refl), (same_place _ _ B). reflexivity.
  - unfold flags_output. rewrite (RC eq_refl), (same_place _ _ B). reflexivity.
Qed.
Theorem run_beside fl args : (forall cmd, commanded args cmd -> (shows_flags cmd = true -> fs_content fs' ($".bazelrc") = fs_content fs ($".bazelrc")) /\
    (cmd = CDwyu -> same_includes (fs_content fs) (fs_content fs'))) -> run_in fuel fs' fl args = run_in fuel fs fl args.
Proof.
  intros C. unfold run_in, run_cli. destruct args as [|word args]; [reflexivity|]. destruct (find_command command_names word) as [cmd| |] eqn:F; try reflexivity.
  assert (D := C cmd (ex_intro _ word (ex_intro _ args (conj eq_refl F)))). destruct D as [RC INC].
  destruct args as [|arg more]; [destruct (needs_pattern cmd && _); [reflexivity|]; f_equal; now apply command_beside|].
  destruct (parse_pattern arg) as [pt| |]; try reflexivity. destruct (is_nil more); [|reflexivity]. destruct (needs_pattern cmd && _); [reflexivity|]. f_equal. now apply command_beside.
Qed.
End Walks.
