(** Projects read from files that differ in layout only, and what the commands do with them. *)
From Coq Require Import Lia.
From Verif Require Import Base OMap M_Types M_Scanner M_Ast M_Parser M_Query M_Elab M_Workspace M_Project M_DepGraph M_Headers M_Includes M_Dwyu M_Edits M_Table M_CompDb M_Commands
  M_System S_Layout S_Relaid S_Attributes P_LayoutParse P_LayoutMean P_Attributes P_LayoutRules.

Section Alike.
(** What is asked of files that are changed. *)
Variable ok : str -> Prop.
Definition alike (f f' : parsed_file) : Prop := f = f' \/ (pf_package f = pf_package f' /\ pf_name f = pf_name f' /\ statements_alike (pf_ast f) (pf_ast f') /\
  map bare_complaint (pf_errors f) = map bare_complaint (pf_errors f') /\ ok (pf_content f) /\ ok (pf_content f')).
Definition entries_alike (l l' : list (package * parsed_file)) : Prop := Forall2 (fun e e' => fst e = fst e' /\ alike (snd e) (snd e')) l l'.
Definition projects_alike (pr pr' : parsed_project) : Prop := entries_alike (pr_files pr) (pr_files pr') /\ pr_error_count pr = pr_error_count pr'.

Lemma alike_package f f' : alike f f' -> pf_package f = pf_package f'.
Proof. intros [->|(E & _)]; [reflexivity|exact E]. Qed.
Lemma alike_name f f' : alike f f' -> pf_name f = pf_name f'.
Proof. intros [->|(_ & E & _)]; [reflexivity|exact E]. Qed.
Lemma alike_ast f f' : alike f f' -> statements_alike (pf_ast f) (pf_ast f').
Proof. intros [->|(_ & _ & E & _)]; [apply statements_self|exact E]. Qed.

Lemma entries_find p l l' : entries_alike l l' -> match map_find p l, map_find p l' with Some f, Some f' => alike f f' | None, None => True | _, _ => False end.
Proof. induction 1 as [|[q f] [q' f'] l l' [E A] _ IH]; cbn [map_find]; [exact I|]. cbn [fst snd] in *. subst q'. destruct (keqb p q); [exact A|exact IH]. Qed.
Lemma entries_insert p f f' l l' : alike f f' -> entries_alike l l' -> entries_alike (map_insert p f l) (map_insert p f' l').
Proof.
  intros A. induction 1 as [|[q g] [q' g'] l l' [E B] F IH]; cbn [map_insert]; [constructor; [split; [reflexivity|exact A]|constructor]|]. cbn [fst snd] in *. subst q'.
  destruct (kcmp p q); [constructor; auto|constructor; [auto|constructor; auto]|constructor; [auto|exact IH]].
Qed.
Lemma entries_set p f f' l l' : alike f f' -> entries_alike l l' -> entries_alike (map_set p f l) (map_set p f' l').
Proof.
  intros A. unfold map_set. induction 1 as [|[q g] [q' g'] l l' [E B] F IH]; cbn [map_update]; [constructor; [split; [reflexivity|exact A]|constructor]|]. cbn [fst snd] in *. subst q'.
  destruct (kcmp p q); [constructor; auto|constructor; [auto|constructor; auto]|constructor; [auto|exact IH]].
Qed.

(** * Commands that only look at rules *)
Lemma aliases_alike l l' : entries_alike l l' -> forall m, aliases_in l m = aliases_in l' m.
Proof.
  induction 1 as [|[q f] [q' f'] l l' [_ A] _ IH]; intros m; cbn [aliases_in]; [reflexivity|]. cbn [snd] in A. apply found_alike; [apply alike_ast, A|]. intros rs rs' R.
  rewrite (alike_package _ _ A), (alias_rules_alike _ _ _ R). apply IH.
Qed.
Lemma headers_alike ai si l l' : entries_alike l l' -> forall m, headers_of_files ai si l m = headers_of_files ai si l' m.
Proof.
  induction 1 as [|[q f] [q' f'] l l' [_ A] _ IH]; intros m; cbn [headers_of_files]; [reflexivity|]. cbn [snd] in A.
  assert (append_cc_library_headers ai si f m = append_cc_library_headers ai si f' m) as ->.
  { unfold append_cc_library_headers. rewrite (alike_package _ _ A). apply found_alike; [apply alike_ast, A|]. intros rs rs' R. apply add_libraries_alike, R. }
  apply bind_same. intros m1. assert (append_proto_library_headers si f m1 = append_proto_library_headers si f' m1) as ->; [|apply bind_same; exact IH].
  unfold append_proto_library_headers. rewrite (alike_package _ _ A). apply found_alike; [apply alike_ast, A|]. intros rs rs' R. rewrite (proto_libs_alike _ _ _ R).
  apply bind_same. intros libs. apply found_alike; [apply alike_ast, A|]. intros rs2 rs2' R2. apply add_proto_libraries_alike, R2.
Qed.
Lemma header_to_lib_alike pr pr' si : projects_alike pr pr' -> header_to_lib pr si = header_to_lib pr' si.
Proof. intros [F _]. unfold header_to_lib, extract_aliased_by. rewrite (aliases_alike _ _ F). apply bind_same. intros m. apply headers_alike, F. Qed.
Lemma genrules_files_alike si l l' : entries_alike l l' -> forall m, genrules_of_files si l m = genrules_of_files si l' m.
Proof.
  induction 1 as [|[q f] [q' f'] l l' [_ A] _ IH]; intros m; cbn [genrules_of_files]; [reflexivity|]. cbn [snd] in A. apply found_alike; [apply alike_ast, A|]. intros rs rs' R.
  rewrite (alike_package _ _ A), (genrules_alike _ _ _ _ R). apply bind_same. exact IH.
Qed.
Lemma canon_files_alike pt l l' : entries_alike l l' -> canon_files pt l = canon_files pt l'.
Proof.
  induction 1 as [|[q f] [q' f'] l l' [_ A] _ IH]; cbn [canon_files]; [reflexivity|]. cbn [snd] in A. rewrite (alike_package _ _ A), IH. destruct (match_package _ _); [|reflexivity].
  apply found_alike; [apply alike_ast, A|]. intros rs rs' R. now rewrite (canon_rules_alike _ _ _ _ R).
Qed.
Lemma filter_files_alike w pt l l' : entries_alike l l' -> forall sub, filter_files w pt l sub = filter_files w pt l' sub.
Proof.
  induction 1 as [|[q f] [q' f'] l l' [_ A] _ IH]; intros sub; cbn [filter_files]; [reflexivity|]. cbn [snd] in A. rewrite (alike_package _ _ A). destruct (match_package _ _); [|apply IH].
  apply found_empty_alike; [apply alike_ast, A|]. intros rs rs' R. rewrite (transfer_rules_alike _ _ _ _ _ R). apply bind_same. exact IH.
Qed.
Lemma packages_alike l l' : entries_alike l l' -> map (fun e => AddRow [pf_name (snd e); package_to_string (fst e)]) l = map (fun e => AddRow [pf_name (snd e); package_to_string (fst e)]) l'.
Proof. induction 1 as [|[q f] [q' f'] l l' [E A] _ IH]; cbn [map fst snd] in *; [reflexivity|]. rewrite E, (alike_name _ _ A), IH. reflexivity. Qed.
Lemma files_dirs_alike w l l' : entries_alike l l' -> forall st, files_dirs w l st = files_dirs w l' st.
Proof.
  induction 1 as [|[q f] [q' f'] l l' [_ A] _ IH]; intros st; cbn [files_dirs]; [reflexivity|]. cbn [snd] in A. apply found_alike; [apply alike_ast, A|]. intros rs rs' R.
  rewrite (alike_package _ _ A), (rules_dirs_alike _ _ _ _ R). apply bind_same. exact IH.
Qed.
Lemma write_files_alike w pt cwd json l l' : entries_alike l l' -> forall wr, write_files w pt cwd json l wr = write_files w pt cwd json l' wr.
Proof.
  induction 1 as [|[q f] [q' f'] l l' [_ A] _ IH]; intros wr; cbn [write_files]; [reflexivity|]. cbn [snd] in A. rewrite (alike_package _ _ A). destruct (match_package _ _); [|apply IH].
  apply found_alike; [apply alike_ast, A|]. intros rs rs' R. rewrite (write_rules_alike _ _ _ _ _ _ _ R). apply bind_same. intros [out wr1]. now rewrite IH.
Qed.
Lemma write_flags_alike cwd rc w pr pr' pt b : projects_alike pr pr' -> write_flags cwd rc w pr pt b = write_flags cwd rc w pr' pt b.
Proof.
  intros [F _]. unfold write_flags, write_compilation_db, write_compile_flags, collect_inc_dirs. rewrite (files_dirs_alike w _ _ F). destruct b; [|reflexivity].
  apply bind_same. intros dirs. now rewrite (write_files_alike _ _ _ _ _ _ F).
Qed.

(** * Reading *)
Variables read read' : str -> option str.
(** How changed files are related. *)
Variable same : str -> str -> Prop.
Definition parsed_alike (x x' : list node * list complaint) : Prop := statements_alike (fst x) (fst x') /\ map bare_complaint (snd x) = map bare_complaint (snd x').
Hypothesis SAME : forall c c', same c c' -> orel parsed_alike (parse c) (parse c').
Hypothesis RA : forall f, match read f, read' f with Some c, Some c' => c = c' \/ (same c c' /\ ok c /\ ok c') | None, None => True | _, _ => False end.
Lemma parse_alike c c' : c = c' \/ same c c' -> orel parsed_alike (parse c) (parse c').
Proof.
  intros [->|R]; [|apply SAME, R]. destruct (parse c') as [x| |]; cbn [orel]; auto. split; [apply statements_self|reflexivity].
Qed.
Lemma add_content_alike pr pr' p name c c' : projects_alike pr pr' -> c = c' \/ (same c c' /\ ok c /\ ok c') ->
  orel (fun x x' => projects_alike (fst x) (fst x') /\ alike (snd x) (snd x')) (add_build_file_content pr p name c) (add_build_file_content pr' p name c').
Proof.
  intros [F N] K. unfold add_build_file_content, find_parsed. pose proof (entries_find p _ _ F) as E. destruct (map_find p (pr_files pr)) as [f|], (map_find p (pr_files pr')) as [f'|]; try contradiction E.
  { cbn [orel]. split; [split; assumption|exact E]. }
  clear E. destruct K as [->|(R & O & O')].
  - destruct (parse c') as [[ast errs]| |]; cbn [bind orel fst snd]; auto. rewrite N. split; [split; [apply entries_insert; [left; reflexivity|exact F]|reflexivity]|left; reflexivity].
  - eapply orel_bind; [apply parse_alike; right; exact R|]. intros [ast errs] [ast' errs'] [A B]. cbn [fst snd] in A, B. cbn [orel fst snd].
    assert (Z : is_nil errs = is_nil errs') by (destruct errs, errs'; try discriminate B; reflexivity). rewrite Z, N.
    assert (AL : alike (mkFile p name c ast errs) (mkFile p name c' ast' errs')) by (right; cbn; auto 8).
    split; [split; [apply entries_insert; assumption|reflexivity]|exact AL].
Qed.
Definition maybe_alike (o o' : option parsed_file) : Prop := match o, o' with Some f, Some f' => alike f f' | None, None => True | _, _ => False end.
Lemma add_file_alike pr pr' file p : projects_alike pr pr' ->
  orel (fun x x' => projects_alike (fst x) (fst x') /\ maybe_alike (snd x) (snd x')) (add_build_file read pr file p) (add_build_file read' pr' file p).
Proof.
  intros P. unfold add_build_file. pose proof (RA file) as R. destruct (read file) as [c|], (read' file) as [c'|]; try contradiction R.
  - eapply orel_bind; [apply add_content_alike; eassumption|]. intros [a f] [a' f'] [A B]. cbn [orel fst snd] in *. split; assumption.
  - cbn [orel fst snd]. split; [|exact I]. destruct P as [F N]. split; [exact F|cbn; congruence].
Qed.
Lemma fill_alike w collect pr pr' pt : projects_alike pr pr' -> orel projects_alike (fill_from_pattern w read collect pr pt) (fill_from_pattern w read' collect pr' pt).
Proof.
  unfold fill_from_pattern. generalize (collect pt). intros files. revert pr pr'. induction files as [|f files IH]; intros pr pr' P; cbn [add_build_files]; [exact P|].
  eapply orel_bind; [|intros a a' A; apply IH, A]. unfold add_build_file_in. destruct (package_of_build_file w f (pat_project pt)) as [[p|]| |]; cbn [bind orel]; auto.
  eapply orel_bind; [apply add_file_alike, P|]. intros [a o] [a' o'] [A _]. exact A.
Qed.
Lemma elaborate_file_alike glob_in f f' : alike f f' -> orel alike (elaborate_file glob_in f) (elaborate_file glob_in f').
Proof.
  intros A. destruct A as [->|(P & N & S & E & O & O')]; [destruct (elaborate_file glob_in f'); cbn; auto; left; reflexivity|].
  unfold elaborate_file. rewrite P, N. eapply orel_bind; [apply elaborate_statements_alike, S|]. intros a a' H. cbn [orel]. right. cbn. auto 8.
Qed.
Lemma elaborate_project_alike glob_in pr pr' : projects_alike pr pr' -> orel projects_alike (elaborate_project glob_in pr) (elaborate_project glob_in pr').
Proof.
  intros [F N]. unfold elaborate_project. eapply (orel_bind entries_alike); [|intros l l' L; split; assumption].
  induction F as [|[q f] [q' f'] l l' [E A] _ IH]; cbn [elaborate_files]; [constructor|]. cbn [fst snd] in *. subst q'.
  eapply orel_bind; [apply elaborate_file_alike, A|]. intros g g' G. eapply orel_bind; [exact IH|]. intros m m' M. cbn [orel]. constructor; auto.
Qed.
(** * The graph *)
Lemma parse_missing_alike w can_read glob_in pr pr' p : projects_alike pr pr' ->
  orel projects_alike (parse_missing w read can_read glob_in pr p) (parse_missing w read' can_read glob_in pr' p).
Proof.
  intros P. unfold parse_missing, find_parsed. pose proof (entries_find p _ _ (proj1 P)) as E. destruct (map_find p (pr_files pr)), (map_find p (pr_files pr')); try contradiction E; [exact P|].
  destruct (path_for_package w can_read p) as [file|]; [|exact P]. eapply orel_bind; [apply add_file_alike, P|]. intros [a o] [a' o'] [A O]. cbn [fst snd] in *.
  destruct o as [f|], o' as [f'|]; try contradiction O; [|exact I]. eapply orel_bind; [apply elaborate_file_alike, O|]. intros g g' G. cbn [orel].
  destruct A as [F N]. split; [apply entries_set; assumption|exact N].
Qed.
Lemma find_missing_alike w can_read glob_in want : forall pr pr', projects_alike pr pr' ->
  orel projects_alike (find_and_parse_missing w read can_read glob_in want pr) (find_and_parse_missing w read' can_read glob_in want pr').
Proof.
  induction want as [|p want IH]; intros pr pr' P; cbn [find_and_parse_missing]; [exact P|]. eapply orel_bind; [apply parse_missing_alike, P|]. exact IH.
Qed.
Lemma scan_alike ps : forall pr pr' st, projects_alike pr pr' -> scan_packages pr ps st = scan_packages pr' ps st.
Proof.
  induction ps as [|p ps IH]; intros pr pr' st P; cbn [scan_packages]; [reflexivity|]. unfold find_parsed. pose proof (entries_find p _ _ (proj1 P)) as E.
  destruct (map_find p (pr_files pr)) as [f|], (map_find p (pr_files pr')) as [f'|]; try contradiction E; [|apply IH, P].
  apply found_alike; [apply alike_ast, E|]. intros rs rs' R. rewrite (visit_rules_alike p _ _ R). apply bind_same. intros st'. apply IH, P.
Qed.
Definition graphs_alike (x x' : graph * parsed_project * list target) : Prop :=
  fst (fst x) = fst (fst x') /\ projects_alike (snd (fst x)) (snd (fst x')) /\ snd x = snd x'.
Lemma round_alike w can_read glob_in g pr pr' todo : projects_alike pr pr' ->
  orel graphs_alike (run_round w read can_read glob_in g pr todo) (run_round w read' can_read glob_in g pr' todo).
Proof.
  intros P. unfold run_round. eapply orel_bind; [apply find_missing_alike, P|]. intros a a' A. rewrite (scan_alike _ _ _ _ A).
  destruct (scan_packages a' _ _); cbn [bind orel]; auto. repeat split; auto; apply A.
Qed.
Lemma rounds_alike w can_read glob_in depth : forall g pr pr' todo, projects_alike pr pr' ->
  orel graphs_alike (rounds w read can_read glob_in depth g pr todo) (rounds w read' can_read glob_in depth g pr' todo).
Proof.
  induction depth as [|depth IH]; intros g pr pr' todo P; cbn [rounds]; (eapply orel_bind; [apply round_alike, P|]); intros [[h a] t] [[h' a'] t'] (G & A & T); cbn [fst snd] in *; subst h' t'.
  - repeat split; auto; apply A.
  - destruct (is_nil t); [repeat split; auto; apply A|apply IH, A].
Qed.
Lemma initial_todo_alike pt l l' : entries_alike l l' -> forall todo, initial_todo pt l todo = initial_todo pt l' todo.
Proof.
  induction 1 as [|[q f] [q' f'] l l' [_ A] _ IH]; intros todo; cbn [initial_todo]; [reflexivity|]. cbn [snd] in A.
  assert (initial_in_file pt f todo = initial_in_file pt f' todo) as ->; [|apply bind_same; exact IH].
  unfold initial_in_file. rewrite (alike_package _ _ A). destruct (negb _); [reflexivity|]. apply found_alike; [apply alike_ast, A|]. intros rs rs' R. now rewrite (initial_alike _ _ _ _ R).
Qed.
Lemma graph_alike w can_read glob_in pt depth pr pr' : projects_alike pr pr' ->
  orel graphs_alike (build_graph w read can_read glob_in pt depth pr) (build_graph w read' can_read glob_in pt depth pr').
Proof.
  intros P. unfold build_graph. rewrite (initial_todo_alike pt _ _ (proj1 P)). destruct (initial_todo pt (pr_files pr') []) as [todo| |]; cbn [bind]; try exact I. apply rounds_alike, P.
Qed.
(** * The workspace *)
Lemma load_rules_alike is_dir can_read glob rs rs' : rules_alike rs rs' -> forall w, fold_left (load_rule is_dir can_read glob) rs w = fold_left (load_rule is_dir can_read glob) rs' w.
Proof.
  induction 1 as [|r r' rs rs' A _ IH]; intros w; cbn [fold_left]; [reflexivity|]. unfold load_rule at 2 4. rewrite (al_name _ _ A), (al_version _ _ A), (al_repo _ _ A). apply IH.
Qed.
Lemma workspace_alike is_dir can_read glob : load_workspace is_dir can_read glob read = load_workspace is_dir can_read glob read'.
Proof.
  unfold load_workspace. f_equal. generalize (Ret (false, []) : outcome (bool * workspace)). generalize workspace_files. intros files. induction files as [|f files IH]; intros acc; cbn [fold_left]; [reflexivity|].
  rewrite IH. f_equal. unfold load_file. destruct acc as [[found w]| |]; cbn [bind]; try reflexivity. pose proof (RA f) as R. destruct (read f) as [c|], (read' f) as [c'|]; try contradiction R; [|reflexivity].
  apply (bind_rel parsed_alike); [apply parse_alike; destruct R as [R|[R _]]; auto|]. intros [ast errs] [ast' errs'] [A _]. cbn [fst] in A. apply found_alike; [exact A|]. intros rs rs' X. now rewrite (load_rules_alike _ _ _ _ _ X).
Qed.
(** * The commands *)
Definition states_alike (x x' : option (workspace * parsed_project * graph)) : Prop :=
  match x, x' with
  | Some (w, pr, g), Some (w', pr', g') => w = w' /\ projects_alike pr pr' /\ g = g'
  | None, None => True
  | _, _ => False
  end.
Lemma empty_alike : projects_alike empty_project empty_project.
Proof. split; [constructor|reflexivity]. Qed.
Lemma prepare_alike is_dir can_read glob glob_in collect fl cmd pt :
  orel states_alike (prepare is_dir can_read glob read glob_in collect fl cmd pt) (prepare is_dir can_read glob read' glob_in collect fl cmd pt).
Proof.
  unfold prepare. rewrite workspace_alike. destruct (load_workspace is_dir can_read glob read') as [[w|]| |]; cbn [bind]; try exact I.
  set (w1 := augment_from_external_dir is_dir glob w). set (dp := match cmd with CHasDependents => pattern_always | _ => pt end).
  eapply (orel_bind projects_alike); [destruct (needs_project cmd pt); [apply fill_alike, empty_alike|exact empty_alike]|]. intros a a' A.
  eapply (orel_bind projects_alike); [destruct (elaborate_for cmd (fl_elaborate fl)); [apply elaborate_project_alike, A|exact A]|]. intros b b' B.
  eapply (orel_bind (fun x x' => fst x = fst x' /\ projects_alike (snd x) (snd x'))).
  - destruct (_ && _); [|split; [reflexivity|exact B]]. eapply orel_bind; [apply graph_alike, B|]. intros [[h c] t] [[h' c'] t'] (G & C & _). split; assumption.
  - intros [h c] [h' c'] [G C]. cbn [fst snd] in *. cbn [orel states_alike]. auto.
Qed.
End Alike.

Lemma perform_alike ok read read' flags_out flags_out' fl cmd pt w pr pr' g :
  (forall w pr pr' pt b, projects_alike ok pr pr' -> flags_out w pr pt b = flags_out' w pr' pt b) ->
  shows_places fl cmd = false -> cmd <> CDwyu -> projects_alike ok pr pr' ->
  perform read flags_out fl cmd pt w pr g = perform read' flags_out' fl cmd pt w pr' g.
Proof.
  intros FO SP ND P. pose proof (proj1 P) as F. unfold perform. destruct cmd; try discriminate SP; try (elim ND; reflexivity); try reflexivity.
  - cbn [shows_places] in SP. rewrite SP. reflexivity.
  - unfold print_packages. now rewrite (packages_alike ok _ _ F).
  - unfold print_workspace, filtered_workspace. now rewrite (filter_files_alike ok w pt _ _ F).
  - now rewrite (header_to_lib_alike ok _ _ false P).
  - unfold extract_aliased_by. now rewrite (aliases_alike ok _ _ F).
  - unfold generated_from_genrule. now rewrite (genrules_files_alike ok false _ _ F).
  - now rewrite (FO w pr pr' pt true P).
  - now rewrite (FO w pr pr' pt false P).
  - unfold canonicalize_edits. now rewrite (canon_files_alike ok pt _ _ F).
Qed.
