(** Proofs for C76: the commands. *)
From Coq Require Import Lia NArith.
From Verif Require Import Base OMap M_Types M_Scanner M_Ast M_Parser M_Query S_Query M_Elab M_Workspace M_Project M_DepGraph S_DepGraph
  M_Headers M_Includes M_Dwyu M_Edits M_Table M_CompDb M_Highlight M_Walk M_Commands M_Main M_System S_Relaid P_Converge S_Respell P_Respell P_Respell2.

Lemma perform_both read read' flags_out flags_out' fl cmd pt w pr pr' g :
  (forall w pr pr' pt b, projects_similar pr pr' -> both eq (flags_out w pr pt b) (flags_out' w pr' pt b)) ->
  shows_spelling fl cmd = false -> projects_similar pr pr' ->
  both eq (perform read flags_out fl cmd pt w pr g) (perform read' flags_out' fl cmd pt w pr' g).
Proof.
  intros FO SP P. unfold perform. destruct cmd; try discriminate SP; try apply both_same.
  - cbn [shows_spelling shows_places] in SP. rewrite SP. apply both_same.
  - assert (print_packages (fl_format fl) pr = print_packages (fl_format fl) pr') as ->; [|apply both_same].
    unfold print_packages. f_equal. induction P as [|[k f] [k' f'] l l' [E A] _ IH]; cbn [map fst snd] in *; [reflexivity|]. subst k'. rewrite (si_name _ _ A). now f_equal.
  - eapply (both_bind eq); [|intros a a' <-; apply both_same]. unfold print_workspace, filtered_workspace. eapply (both_bind eq); [|intros a a' <-; apply both_same].
    destruct (is_matchall pt); [apply both_same|]. apply filter_files_both, P.
  - eapply (both_bind eq); [|intros a a' <-; apply both_same]. eapply (both_bind eq); [|intros a a' <-; apply both_same]. apply header_to_lib_both, P.
  - eapply (both_bind eq); [|intros a a' <-; apply both_same]. eapply (both_bind eq); [|intros a a' <-; apply both_same]. apply aliases_both, P.
  - eapply (both_bind eq); [|intros a a' <-; apply both_same]. eapply (both_bind eq); [|intros a a' <-; apply both_same]. apply genrules_files_both, P.
  - eapply (both_bind eq); [|intros a a' <-; apply both_same]. apply FO, P.
  - eapply (both_bind eq); [|intros a a' <-; apply both_same]. apply FO, P.
Qed.

Section Disk.
Variable w : workspace.
Variables read read' : str -> option str.
Variable can_read : str -> bool.
Variable glob_in : package -> list str -> list str -> list str.
Variable asked : package -> str -> Prop.
Hypothesis RS : disk_respelled asked read read'.

(** Files as they are read. *)
Definition fresh (e e' : package * parsed_file) : Prop :=
  fst e = fst e' /\ pf_package (snd e) = fst e /\
  (snd e = snd e' \/ exists p name c c' stmts errs stmts' errs', (asked p name -> respelled_in p name c c') /\ parse c = Ret (stmts, errs) /\ parse c' = Ret (stmts', errs') /\
     snd e = mkFile p name c stmts errs /\ snd e' = mkFile p name c' stmts' errs').
Definition all_fresh (pr pr' : parsed_project) : Prop := Forall2 fresh (pr_files pr) (pr_files pr').
Lemma fresh_insert p f f' l l' : fresh (p, f) (p, f') -> Forall2 fresh l l' -> Forall2 fresh (map_insert p f l) (map_insert p f' l').
Proof.
  intros A. induction 1 as [|[k g] [k' g'] l l' B F IH]; cbn [map_insert]; [constructor; [exact A|constructor]|]. pose proof B as [E _]. cbn [fst] in E. subst k'.
  destruct (kcmp p k); [constructor; auto|constructor; [auto|constructor; auto]|constructor; [auto|exact IH]].
Qed.
Lemma fresh_find p l l' : Forall2 fresh l l' -> map_find p l = None <-> map_find p l' = None.
Proof. induction 1 as [|[k g] [k' g'] l l' [E _] F IH]; cbn [map_find]; [tauto|]. cbn [fst] in E. subst k'. destruct (keqb p k); [split; discriminate|exact IH]. Qed.
Lemma add_file_both pr pr' name p : all_fresh pr pr' ->
  both (fun x x' => all_fresh (fst x) (fst x')) (add_build_file read pr name p) (add_build_file read' pr' name p).
Proof.
  intros P. unfold add_build_file. pose proof (RS name) as R. destruct (read name) as [c|], (read' name) as [c'|]; try contradiction R; [|apply both_ret, P].
  eapply (both_bind (fun x x' => all_fresh (fst x) (fst x'))); [|intros [a f] [a' f'] A; apply both_ret, A].
  unfold add_build_file_content, find_parsed. pose proof (fresh_find p _ _ P) as E. destruct (map_find p (pr_files pr)) as [f|], (map_find p (pr_files pr')) as [f'|].
  - apply both_ret, P.
  - discriminate (proj2 E eq_refl).
  - discriminate (proj1 E eq_refl).
  - destruct (parse c) as [[stmts errs]| |] eqn:PC; [|intros a a' X; discriminate X..]. destruct (parse c') as [[stmts' errs']| |] eqn:PC'; [|intros a a' _ X; discriminate X..].
    cbn [bind]. apply both_ret. cbn [fst]. unfold all_fresh. cbn [pr_files]. apply fresh_insert; [|exact P]. split; [reflexivity|]. split; [reflexivity|]. cbn [snd].
    destruct R as [<-|R]; [left; congruence|]. right. exists p, name, c, c', stmts, errs, stmts', errs'. repeat (split; [auto|]). reflexivity.
Qed.
Lemma add_in_both pr pr' name proj : all_fresh pr pr' -> both all_fresh (add_build_file_in w read pr name proj) (add_build_file_in w read' pr' name proj).
Proof.
  intros P. unfold add_build_file_in. destruct (package_of_build_file w name proj) as [[p|]| |] eqn:E; cbn [bind]; [|apply both_ret, P|apply both_ub_l|intros a a' X; discriminate X].
  eapply both_bind; [apply add_file_both, P|]. intros [a f] [a' f'] A. apply both_ret, A.
Qed.
Lemma fill_both collect pt pr pr' : all_fresh pr pr' -> both all_fresh (fill_from_pattern w read collect pr pt) (fill_from_pattern w read' collect pr' pt).
Proof.
  unfold fill_from_pattern. generalize (collect pt). intros names. revert pr pr'. induction names as [|n names IH]; intros pr pr' P; cbn [add_build_files]; [apply both_ret, P|].
  eapply both_bind; [apply add_in_both, P|]. exact IH.
Qed.
(** The same of what is found on the way. *)
Definition settled (pr pr' : parsed_project) : Prop := projects_similar pr pr' /\ at_home pr.
Lemma home_of pr : Forall (fun e => pf_package (snd e) = fst e) (pr_files pr) -> at_home pr.
Proof.
  intros H p f. revert H. generalize (pr_files pr). induction l as [|[k g] l IH]; cbn [map_find]; intros H; [discriminate|]. inversion H as [|x y H1 H2]; subst. destruct (keqb p k) eqn:K; [|apply IH, H2].
  apply keqb_eq in K. subst k. intros E. injection E as <-. exact H1.
Qed.
Lemma fresh_settled pr pr' : all_fresh pr pr' -> within asked pr -> settled pr pr'.
Proof.
  intros F W. split.
  - unfold projects_similar, files_similar, within, all_fresh in *. induction F as [|[p f] [p' f'] l l' (E & H & S) _ IH]; constructor.
    + split; [exact E|]. cbn [fst snd] in *. apply respelled_similar.
      destruct S as [->|(q & name & c & c' & stmts & errs & stmts' & errs' & R & PC & PC' & -> & ->)]; [now left|]. cbn [pf_package] in H. subst q. apply (R (W p _ (or_introl eq_refl)) _ _ _ _ PC PC').
    + apply IH. intros q g I. apply (W q g). now right.
  - apply home_of. unfold all_fresh in F. induction F as [|e e' l l' (_ & H & _) _ IH]; constructor; auto.
Qed.
Lemma elaborated_both pr pr' pr1 pr1' : all_fresh pr pr' -> elaborate_project glob_in pr = Ret pr1 -> elaborate_project glob_in pr' = Ret pr1' -> within asked pr1 -> settled pr1 pr1'.
Proof.
  intros F. unfold elaborate_project. destruct (elaborate_files glob_in (pr_files pr)) as [m| |] eqn:E; try discriminate. destruct (elaborate_files glob_in (pr_files pr')) as [m'| |] eqn:E'; try discriminate.
  cbn [bind]. intros X X' W. injection X as <-. injection X' as <-. unfold within in W. cbn [pr_files] in W. unfold all_fresh in F.
  assert (R : files_similar m m' /\ Forall (fun e => pf_package (snd e) = fst e) m); [|split; [apply R|apply home_of, R]].
  revert m m' E E' W. induction F as [|[p f] [p' f'] l l' (K & H & S) _ IH]; intros m m' E E' W; cbn [elaborate_files] in *; [injection E as <-; injection E' as <-; split; constructor|]. cbn [fst snd] in *. subst p'.
  destruct (elaborate_file glob_in f) as [g| |] eqn:G; try discriminate E. destruct (elaborate_file glob_in f') as [g'| |] eqn:G'; try discriminate E'. cbn [bind] in E, E'.
  destruct (elaborate_files glob_in l) as [n| |] eqn:N; try discriminate E. destruct (elaborate_files glob_in l') as [n'| |] eqn:N'; try discriminate E'. cbn [bind] in E, E'. injection E as <-. injection E' as <-.
  destruct (IH n n' eq_refl eq_refl) as [IH1 IH2]; [intros q x I; apply (W q x); now right|]. specialize (W p g (or_introl eq_refl)).
  assert (Y : similar g g' /\ pf_package g = p); [|destruct Y; split; constructor; auto]. clear - S H G G' W.
  unfold elaborate_file in *. destruct S as [->|(q & name & c & c' & stmts & errs & stmts' & errs' & R & PC & PC' & -> & ->)].
  - rewrite G' in G. injection G as <-. split; [apply respelled_similar; now left|]. destruct (elaborate _ _) in G'; try discriminate G'. cbn [bind] in G'. injection G' as <-. exact H.
  - cbn [pf_package pf_name pf_content pf_ast pf_errors] in *. subst q. destruct (elaborate (glob_in p) stmts) as [ast| |] eqn:A; try discriminate G. destruct (elaborate (glob_in p) stmts') as [ast'| |] eqn:A'; try discriminate G'.
    cbn [bind] in G, G'. injection G as <-. injection G' as <-. split; [|reflexivity]. apply respelled_similar. apply (proj2 (R W _ _ _ _ PC PC') _ _ _ A A').
Qed.
Lemma disk p f f' : asked p (pf_name f) -> on_disk w read can_read glob_in p f -> on_disk w read' can_read glob_in p f' -> file_respelled f f'.
Proof.
  intros Q (name & c & stmts & errs & ast & N & R & P & E & ->) (name' & c' & stmts' & errs' & ast' & N' & R' & P' & E' & ->). assert (name' = name) as -> by congruence. clear N'. cbn [pf_name] in Q.
  pose proof (RS name) as X. rewrite R, R' in X. destruct X as [<-|X].
  - left. rewrite P in P'. injection P' as <- <-. rewrite E in E'. now injection E' as <-.
  - apply (proj2 (X p Q _ _ _ _ P P') _ _ _ E E').
Qed.
Lemma graph_settled pt depth pr pr' x x' : settled pr pr' -> build_graph w read can_read glob_in pt depth pr = Ret x -> build_graph w read' can_read glob_in pt depth pr' = Ret x' ->
  within asked (snd (fst x)) -> graphs_similar x x'.
Proof. intros [S H]. apply graph_both; [exact disk|exact H|exact S]. Qed.
End Disk.

Section Run.
Variable fuel : nat.
Variable fs : file_system.
Variable content' : str -> option str.
Let fs' := with_content fs content'.
Hypothesis WS : forall name, In name (($".bazelrc") :: workspace_files) -> content' name = fs_content fs name.
Lemma workspace_same is_dir can_read glob : load_workspace is_dir can_read glob content' = load_workspace is_dir can_read glob (fs_content fs).
Proof.
  unfold load_workspace. f_equal. cbn [workspace_files fold_left]. unfold load_file. now rewrite !WS by (cbn; tauto).
Qed.

Variable asked : package -> str -> Prop.
Hypothesis RS : disk_respelled asked (fs_content fs) content'.
Definition states_similar (x x' : option (workspace * parsed_project * graph)) : Prop :=
  match x, x' with
  | Some (w, pr, g), Some (w', pr', g') => w = w' /\ projects_similar pr pr' /\ g = g'
  | None, None => True
  | _, _ => False
  end.
Lemma prepare_both glob_in collect fl cmd pt x x' :
  prepare (is_dir fs) (fs_can_read fs) (fs_glob fs) (fs_content fs) glob_in collect fl cmd pt = Ret x ->
  prepare (is_dir fs) (fs_can_read fs) (fs_glob fs) content' glob_in collect fl cmd pt = Ret x' ->
  (forall w pr g, x = Some (w, pr, g) -> within asked pr) -> states_similar x x'.
Proof.
  unfold prepare. rewrite workspace_same. destruct (load_workspace (is_dir fs) (fs_can_read fs) (fs_glob fs) (fs_content fs)) as [[w|]| |] eqn:L; cbn [bind]; try discriminate; [|intros E E' _; injection E as <-; injection E' as <-; exact I].
  set (w1 := augment_from_external_dir (is_dir fs) (fs_glob fs) w) in *. set (dp := match cmd with CHasDependents => pattern_always | _ => pt end).
  intros E E' W. 
  match type of E with bind ?u _ = _ => destruct u as [a| |] eqn:A; try discriminate E; cbn [bind] in E end.
  match type of E' with bind ?u _ = _ => destruct u as [a'| |] eqn:A'; try discriminate E'; cbn [bind] in E' end.
  assert (FA : all_fresh asked a a').
  { destruct (needs_project cmd pt); [|injection A as <-; injection A' as <-; constructor]. revert A A'. eapply fill_both; [exact (glob_in w1)|exact RS|constructor]. }
  match type of E with bind ?u _ = _ => destruct u as [b| |] eqn:B; try discriminate E; cbn [bind] in E end.
  match type of E' with bind ?u _ = _ => destruct u as [b'| |] eqn:B'; try discriminate E'; cbn [bind] in E' end.
  assert (SB : within asked b -> settled b b').
  { intros WB. destruct (elaborate_for cmd (fl_elaborate fl)).
    - eapply elaborated_both; eauto.
    - injection B as <-. injection B' as <-. eapply fresh_settled; eauto. }
  destruct (_ && _).
  - destruct (build_graph w1 (fs_content fs) _ _ dp _ b) as [[[h c] t]| |] eqn:G; try discriminate E. destruct (build_graph w1 content' _ _ dp _ b') as [[[h' c'] t']| |] eqn:G'; try discriminate E'.
    cbn [bind] in E, E'. injection E as <-. injection E' as <-. specialize (W _ _ _ eq_refl). 
    assert (WB : within asked b) by (eapply within_before; [eapply graph_grows, G|exact W]).
    pose proof (graph_settled w1 _ _ _ _ asked RS _ _ _ _ _ _ (SB WB) G G' W) as (GG & C & _). cbn [fst snd] in *. cbn [states_similar]. auto.
  - cbn [bind] in E, E'. injection E as <-. injection E' as <-. specialize (W _ _ _ eq_refl). cbn [states_similar]. split; [reflexivity|]. split; [apply (SB W)|reflexivity].
Qed.
Lemma command_respelled fl cmd pt : shows_spelling fl cmd = false ->
  (forall w pr g, prepare (is_dir fs) (fs_can_read fs) (fs_glob fs) (fs_content fs) (globbed_files fuel fs) (found_build_files fuel fs) fl cmd pt = Ret (Some (w, pr, g)) -> within asked pr) ->
  both eq (run_command (is_dir fs) (fs_can_read fs) (fs_glob fs) (fs_content fs) (globbed_files fuel fs) (found_build_files fuel fs) (flags_output fs) fl cmd pt)
    (run_command (is_dir fs') (fs_can_read fs') (fs_glob fs') (fs_content fs') (globbed_files fuel fs') (found_build_files fuel fs') (flags_output fs') fl cmd pt).
Proof.
  intros SP W. unfold run_command. eapply (both_bind states_similar).
  - intros x x' E E'. eapply prepare_both; [exact E|exact E'|]. intros w pr g ->. eapply W, E.
  - intros [[[w pr] g]|] [[[w' pr'] g']|] A; try contradiction A; [|apply both_same]. destruct A as (<- & P & <-). apply perform_both; auto.
    intros w0 p0 p0' pt0 b A. unfold flags_output. cbn [fs_content fs_cwd with_content fs']. rewrite (WS ($".bazelrc")) by (left; reflexivity). apply write_flags_both, A.
Qed.
End Run.
Theorem run_respelled fuel fs content' fl args out out' :
  (forall name, In name (($".bazelrc") :: workspace_files) -> content' name = fs_content fs name) ->
  disk_respelled (reads_for fuel fs fl args) (fs_content fs) content' ->
  (forall cmd, commanded args cmd -> shows_spelling fl cmd = false) ->
  run_in fuel fs fl args = Some (Ret out) -> run_in fuel (with_content fs content') fl args = Some (Ret out') -> out = out'.
Proof.
  intros WS RS C. unfold run_in, run_cli. destruct args as [|word args]; [congruence|]. destruct (find_command command_names word) as [cmd| |] eqn:F; try congruence.
  assert (CM : commanded (word :: args) cmd) by (exists word, args; auto). pose proof (C _ CM) as D. set (fs' := with_content fs content').
  assert (R : forall pt, length (word :: args) = 1 /\ pt = pattern_always \/ (exists w arg, word :: args = [w; arg] /\ parse_pattern arg = PatOk pt) -> both eq (if needs_pattern cmd && is_matchall pt then Ret ([], ExitFailure) else
      run_command (is_dir fs) (fs_can_read fs) (fs_glob fs) (fs_content fs) (globbed_files fuel fs) (found_build_files fuel fs) (flags_output fs) fl cmd pt)
    (if needs_pattern cmd && is_matchall pt then Ret ([], ExitFailure) else
      run_command (is_dir fs') (fs_can_read fs') (fs_glob fs') (fs_content fs') (globbed_files fuel fs') (found_build_files fuel fs') (flags_output fs') fl cmd pt)).
  { intros pt Hp. destruct (needs_pattern cmd && is_matchall pt); [apply both_same|]. eapply command_respelled; [exact WS|exact RS|exact D|]. intros w pr g E p f I. exists cmd, pt, w, pr, g, f. auto. }
  assert (some_inv : forall A (x y : A), Some x = Some y -> x = y) by congruence.
  destruct args as [|arg more].
  - intros E E'. exact (R pattern_always (or_introl (conj eq_refl eq_refl)) out out' (some_inv _ _ _ E) (some_inv _ _ _ E')).
  - destruct (parse_pattern arg) as [pt| |] eqn:PP; [|intros E E'; congruence|discriminate]. destruct more as [|m more]; cbn [is_nil]; [|intros E E'; congruence].
    intros E E'. refine (R pt (or_intror _) out out' (some_inv _ _ _ E) (some_inv _ _ _ E')). exists word, arg. auto.
Qed.
