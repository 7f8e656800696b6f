(** The statistics of a run. *)
From Coq Require Import Lia Permutation.
From Verif Require Import Base OMap M_Types M_Scanner M_Ast M_Parser M_Query M_Elab M_Workspace M_Project P_Project M_DepGraph S_DepGraph P_DepGraph M_Printer M_Table M_Headers
  S_Query S_Headers M_Dwyu S_Dwyu P_Dwyu M_Edits M_Highlight M_Commands S_Commands P_Commands M_Main M_ParseErrors M_Told S_Told P_Told P_Told2 P_Told3 P_Told6 M_Stats S_Stats P_Stats P_Stats2 P_Stats3.

Definition loading : list str := [k_walk; k_rounds; k_exist; k_read; k_parse; k_elab; k_glob].
Lemma tools_apart read_file compilation_flags fl cmd pt w pr g r l : perform_counted read_file compilation_flags fl cmd pt w pr g = Ret (r, l) -> forall k, In k loading -> about k l = [].
Proof.
  unfold perform_counted. destruct (perform _ _ fl cmd pt w pr g) as [r0| |]; try discriminate. cbn [bind]. intros E k K.
  destruct cmd; try (part E; subst; reflexivity).
  - destruct (dwyu_counted w read_file pr pt) as [d| |] eqn:D; try discriminate. cbn [bind] in E. part E. subst. apply dwyu_counts in D as (n & ws & rules & contents & -> & _ & _ & (_ & _ & _ & O)).
    rewrite about_app. unfold loading in K. cbn [In] in K. repeat (destruct K as [<-|K]; [rewrite (only_none _ _ _ O) by other; reflexivity|]). destruct K.
  - destruct (canon_files_counted pt (pr_files pr)); try discriminate. cbn [bind] in E. part E. subst. unfold loading in K. cbn [In] in K. repeat (destruct K as [<-|K]; [reflexivity|]). destruct K.
Qed.
(** Messages about other things. *)
Definition beside (n : note) : Prop := about_seen n = false /\ about_unreadable n = false.
Lemma beside_none ns : Forall beside ns -> nseen ns = 0 /\ nunread ns = 0.
Proof. unfold nseen, nunread. induction 1 as [|n ns [A B] _ [IH1 IH2]]; [split; reflexivity|]. cbn [filter]. rewrite A, B. auto. Qed.
Lemma syntax_beside ns : Forall (fun n => about_syntax n = true) ns -> Forall beside ns.
Proof. apply Forall_impl. intros n H. destruct n; try discriminate H; split; reflexivity. Qed.
Lemma load_file_beside d c g r st ws x ns : load_file_told d c g r st ws = Ret (x, ns) -> Forall beside ns.
Proof.
  unfold load_file_told. destruct st as [found w]. destruct (r ws) as [content|]; intros E; [|chunk E; subst; constructor].
  destruct (parse content) as [[ast errs]| |]; try discriminate. cbn [bind] in E. cbv zeta in E. destruct (file_messages _) in E; try discriminate. cbn [bind] in E. destruct (find_targets _ ast); try discriminate. cbn [bind] in E.
  destruct (rules_unfound _ _ _ _ _) in E; try discriminate. cbn [bind] in E. chunk E. subst. destruct (is_nil errs); repeat constructor.
Qed.
Lemma load_files_beside d c g r files : forall st x ns, load_files_told d c g r files st = Ret (x, ns) -> Forall beside ns.
Proof.
  induction files as [|ws files IH]; intros st x ns E; cbn [load_files_told] in E; [chunk E; subst; constructor|]. chunk E. destruct a as [[found w] m]. chunk E. destruct a as [st' ms]. chunk E. subst. rewrite app_nil_r.
  apply Forall_app. split; [eapply load_file_beside; eassumption|eapply IH; eassumption].
Qed.
Lemma load_beside d c g r x ns : load_workspace_told d c g r = Ret (x, ns) -> Forall beside ns.
Proof.
  unfold load_workspace_told. intros E. chunk E. destruct a as [st m]. chunk E. destruct a as [[found w] m']. chunk E. subst. apply Forall_app. split; [eapply load_files_beside; eassumption|]. apply Forall_app.
  split; [eapply load_files_beside; eassumption|]. destruct (_ && _); repeat constructor.
Qed.
Lemma graph_beside w r c gi v pt depth pr x ns : graph_told w r c gi v pt depth pr = Ret (x, ns) -> Forall beside ns.
Proof.
  unfold graph_told. intros E. chunk E. chunk E0. chunk E. destruct a0 as [[[g1 pr1] mi1] todo1]. chunk E. subst. cbn [app]. apply Forall_app.
  split; [apply syntax_beside; match goal with H : rounds_told _ _ _ _ _ _ _ _ _ = _ |- _ => apply rounds_adds in H as [_ H]; exact H end|].
  destruct (0 <? v); [|constructor]. apply Forall_app. split; [destruct (is_nil (mi_packages mi1))|destruct (is_nil (mi_targets mi1))]; repeat constructor.
Qed.
Section Run.
Variable is_directory : str -> bool.
Variable can_read : str -> bool.
Variable glob : str -> list str.
Variable read_file : str -> option str.
Variable glob_in : workspace -> package -> list str -> list str -> list str.
Variable collect : workspace -> pattern -> list str.
Variable compilation_flags : workspace -> parsed_project -> pattern -> bool -> outcome str.
Variable looked_at : workspace -> package -> list str -> list str -> nat.
Variable walked : workspace -> pattern -> nat.
Notation prepare_counted := (prepare_counted is_directory can_read glob read_file glob_in collect looked_at walked).
Notation prepare := (prepare is_directory can_read glob read_file glob_in collect).
Notation perform_counted := (perform_counted read_file compilation_flags).
Notation run_command_counted := (run_command_counted is_directory can_read glob read_file glob_in collect compilation_flags looked_at walked).
Notation run_cli_counted := (run_cli_counted is_directory can_read glob read_file glob_in collect compilation_flags looked_at walked).
Notation run_command_told := (run_command_told is_directory can_read glob read_file glob_in collect compilation_flags).
Notation run_cli_told := (run_cli_told is_directory can_read glob read_file glob_in collect compilation_flags).
Notation prepare_told := (prepare_told is_directory can_read glob read_file glob_in collect).
Notation read_first := (read_first read_file glob_in collect).
Record prepared (fl : flags) (cmd : command) (pt : pattern) (w : workspace) (pr : parsed_project) (g : graph) (ws : list work) (pr0 pr1 : parsed_project) : Prop := mkPrepared {
  pp_first : read_first fl cmd pt w pr0 pr1;
  pp_only : only loading ws;
  pp_walk : about k_walk ws = if needs_project cmd pt then [WUse k_walk ($"files/directories"); WCount k_walk (walked w (read_pattern cmd pt))] else [];
  pp_elab : elaborated (if elaborate_for cmd (fl_elaborate fl) then length (pr_files pr) else length (pr_files pr) - length (pr_files pr0)) ws;
  pp_more : length (pr_files pr0) <= length (pr_files pr);
  pp_head : headed k_exist ($"BUILD files") ws;
  pp_bytes : amounts k_exist ws = [];
  pp_exist : length (pr_files pr) - length (pr_files pr0) <= total k_exist ws;
  pp_rounds : if wants_graph cmd && (0 <=? depth_for cmd (fl_depth fl))%Z
              then exists n, fold_left entry_step (about k_rounds ws) None = Some (mkStat ($"rounds") n None) /\
                     rounds_needed w read_file can_read (glob_in w) (read_pattern cmd pt) (depth_for cmd (fl_depth fl)) pr1 g pr n
              else about k_rounds ws = [] /\ about k_exist ws = [] /\ pr = pr1 }.
Lemma prepare_counts fl cmd pt w pr g ws : prepare_counted fl cmd pt = Ret (Some (w, pr, g), ws) ->
  exists pr0 pr1, prepared fl cmd pt w pr g ws pr0 pr1 /\
  forall verbose r ns, prepare_told verbose fl cmd pt = Ret (r, ns) -> loaded empty_project pr ws (nunread ns) (nseen ns).
Proof.
  unfold M_Stats.prepare_counted, M_Told.prepare_told. intros E. part E. part E0. subst. rename E0 into Lw. destruct a as [w0|]; [|part E; discriminate].
  set (w1 := augment_from_external_dir is_directory glob w0) in *. cbv zeta in E. fold (read_pattern cmd pt) in E. part E. rename a into pr0, E0 into F, l into wf. part E. rename a into pr1, E0 into El, l into we.
  part E. destruct a as [g1 pr2]. rename E0 into G, l into wg. part E. apply (f_equal (fun o => match o with Some x => x | None => (w, pr, g) end)) in E0. cbn beta iota in E0.
  apply pair_equal_spec in E0 as [E0 ->]. apply pair_equal_spec in E0 as [-> ->]. subst. cbn [app]. rewrite app_nil_r.
  assert (Ff : (if needs_project cmd pt then fill_from_pattern w1 read_file (collect w1) empty_project (read_pattern cmd pt) = Ret pr0 else pr0 = empty_project) /\
    only [k_walk; k_read; k_parse] wf /\ about k_walk wf = (if needs_project cmd pt then [WUse k_walk ($"files/directories"); WCount k_walk (walked w1 (read_pattern cmd pt))] else [])).
  { destruct (needs_project cmd pt).
    - assert (X := F). apply bare_ret in X. rewrite fill_bare in X. split; [exact X|]. rewrite <- fill_plain in X. apply plain_back in X as (ns & X). destruct (fill_loaded _ _ _ _ _ _ _ _ _ _ F X) as (_ & O & Wk). auto.
    - part F. subst. split; [reflexivity|]. split; [constructor|reflexivity]. }
  destruct Ff as (F1 & F2 & F3).
  assert (Ee : (if elaborate_for cmd (fl_elaborate fl) then elaborate_project (glob_in w1) pr0 = Ret pr1 else pr1 = pr0) /\ same_project pr0 pr1 /\ only [k_elab; k_glob] we /\
    elaborated (if elaborate_for cmd (fl_elaborate fl) then length (pr_files pr0) else 0) we).
  { destruct (elaborate_for cmd (fl_elaborate fl)).
    - destruct (elab_project_counts read_file can_read _ _ _ _ _ El) as (A & O & S). apply bare_ret in El. rewrite elab_project_bare in El. auto.
    - part El. subst. split; [reflexivity|]. split; [split; reflexivity|]. split; [constructor|now apply elaborated_none]. }
  destruct Ee as (E1 & E2 & E3 & E4).
  assert (Gg : followed pr1 pr2 wg /\ only (k_rounds :: following) wg /\ if wants_graph cmd && (0 <=? depth_for cmd (fl_depth fl))%Z
              then exists n, fold_left entry_step (about k_rounds wg) None = Some (mkStat ($"rounds") n None) /\
                     rounds_needed w1 read_file can_read (glob_in w1) (read_pattern cmd pt) (depth_for cmd (fl_depth fl)) pr1 g1 pr2 n
              else about k_rounds wg = [] /\ about k_exist wg = [] /\ pr2 = pr1).
  { destruct (wants_graph cmd && _).
    - apply graph_counts in G. exact G.
    - part G. match goal with H : (_, _) = (_, _) |- _ => apply pair_equal_spec in H as [-> ->] end. subst. split; [now apply followed_none|]. split; [constructor|]. repeat split. }
  destruct Gg as (G1 & G2 & G3). destruct G1 as [H1 H2 H3 H4 H5 H6]. destruct E2 as [S1 S2].
  exists pr0, pr1. split.
  - constructor.
    + split; assumption.
    + apply only_app; [eapply only_more; [exact F2|intros y I; cbn [In] in I; unfold loading; cbn [In]; tauto]|]. apply only_app; [eapply only_more; [exact E3|intros y I; cbn [In] in I; unfold loading; cbn [In]; tauto]|].
      eapply only_more; [exact G2|intros y I; unfold following in I; cbn [In] in I; unfold loading; cbn [In]; tauto].
    + rewrite !about_app, F3, (only_none _ _ _ E3) by other. rewrite (only_none _ _ _ G2) by other. rewrite app_nil_r. reflexivity.
    + match goal with |- elaborated ?n _ => replace n with (0 + ((if elaborate_for cmd (fl_elaborate fl) then length (pr_files pr0) else 0) + (length (pr_files pr2) - length (pr_files pr1)))) end.
      * apply elaborated_app; [apply elaborated_none, (only_none _ _ _ F2); other|]. now apply elaborated_app.
      * destruct (elaborate_for cmd (fl_elaborate fl)); lia.
    + lia.
    + apply headed_app; [apply headed_none, (only_none _ _ _ F2); other|]. apply headed_app; [apply headed_none, (only_none _ _ _ E3); other|exact H4].
    + rewrite !amounts_app, H5. unfold amounts. rewrite (only_none _ _ _ F2) by other. rewrite (only_none _ _ _ E3) by other. reflexivity.
    + rewrite !total_app. lia.
    + assert (Rd : about k_rounds (wf ++ we ++ wg) = about k_rounds wg) by (rewrite !about_app, (only_none _ _ _ F2) by other; rewrite (only_none _ _ _ E3) by other; reflexivity).
      assert (Ex : about k_exist (wf ++ we ++ wg) = about k_exist wg) by (rewrite !about_app, (only_none _ _ _ F2) by other; rewrite (only_none _ _ _ E3) by other; reflexivity).
      rewrite Rd, Ex. exact G3.
  - intros verbose r ns T. chunk T. rename E into Tw. assert (X := Tw). apply plain_ret in X. rewrite load_workspace_plain in X. rewrite Lw in X. injection X as <-. fold w1 in T. cbv zeta in T. fold (read_pattern cmd pt) in T.
    apply load_beside, beside_none in Tw as [Tw1 Tw2]. chunk T. rename E into Tf. chunk T. chunk E. rename E into Te. chunk T. destruct a1 as [g3 pr3]. rename E into Tg. chunk T. subst. cbn [app]. rewrite app_nil_r.
    rewrite !nunread_app, !nseen_app, Tw1, Tw2. cbn [Nat.add].
    assert (Bf : a = pr0).
    { destruct (needs_project cmd pt); [apply plain_ret in Tf; rewrite fill_plain in Tf; congruence|chunk Tf; congruence]. }
    subst a. assert (Be : a0 = pr1) by (destruct (elaborate_for cmd (fl_elaborate fl)); congruence). subst a0.
    assert (Bg : nseen l5 = 0 /\ nunread l5 = 0).
    { apply beside_none. destruct (wants_graph cmd && _); [|chunk Tg; subst; constructor]. chunk Tg. destruct a as [g4 pr4]. chunk Tg. subst. apply Forall_app. split; [eapply graph_beside; eassumption|]. destruct (0 <? verbose); repeat constructor. }
    destruct Bg as [-> ->]. eapply loaded_trans.
    + destruct (needs_project cmd pt); [exact (proj1 (fill_loaded _ _ _ _ _ _ _ _ _ _ F Tf))|]. part F. chunk Tf. subst. apply loaded_refl.
    + apply (loaded_trans _ pr1 _ _ _ 0 0 0 0); [|exact H1]. apply loaded_other; [split; assumption| |]; apply (only_none _ _ _ E3); other.
Qed.
End Run.
