(** Properties C25, C26, C27 and C54: the dependency graph and the project. *)
From Verif Require Import Base OMap M_Types S_Labels M_Scanner M_Ast M_Parser M_Query M_Elab S_Elab M_Workspace M_Project M_DepGraph
  S_DepGraph P_DepGraph P_Project T_Parser.
Local Open Scope string_scope.
Local Open Scope list_scope.

(** C25. Building the graph always comes to an end: ... *)
Theorem C25_always_ends : forall w read_file can_read glob_in pt depth pr,
  build_graph w read_file can_read glob_in pt depth pr <> OutOfFuel.
Proof. exact build_graph_fuel. Qed.
Print Assumptions C25_always_ends.
(** ... if the BUILD files mention finitely many labels, there is a number of rounds
    after which nothing is left to do, whatever the depth ... *)
Theorem C25_finitely_many_rounds : forall w read_file can_read glob_in pr labels pt,
  project_ok pr ->
  (forall p f rs r, file_of w read_file can_read glob_in pr p f ->
     find_targets [] (pf_ast f) = Ret rs -> In r rs -> incl (mentioned r) labels) ->
  exists n, forall depth, (Z.of_nat n <= depth)%Z ->
    build_graph w read_file can_read glob_in pt depth pr =
    build_graph w read_file can_read glob_in pt (Z.of_nat n) pr /\
    forall g pr' todo, build_graph w read_file can_read glob_in pt depth pr = Ret (g, pr', todo) -> todo = [].
Proof. intros w rf cr gi pr labels pt OK L. exact (graph_ends w rf cr gi pr labels OK pt L). Qed.
Print Assumptions C25_finitely_many_rounds.
(** ... and with BUILD files in order it does not crash on the way. *)
Theorem C25_defined : forall w read_file can_read glob_in pr pt depth,
  project_ok pr ->
  (forall p f, find_parsed pr p = Some f -> readable_tree (pf_ast f)) ->
  (forall p name, path_for_package w can_read p = Some name ->
     exists content, read_file name = Some content /\ good_content called assigned content) ->
  exists g pr' todo, build_graph w read_file can_read glob_in pt depth pr = Ret (g, pr', todo).
Proof. intros w rf cr gi pr pt d OK F D. exact (graph_defined w rf cr gi pr OK F D pt d). Qed.
Print Assumptions C25_defined.

(** C26. has_dependents is the converse of depends_on, with multiplicity. *)
Theorem C26_converse : forall w read_file can_read glob_in pt depth pr g pr' todo,
  project_ok pr -> build_graph w read_file can_read glob_in pt depth pr = Ret (g, pr', todo) ->
  forall a b, occurrences b (entry (depends_on g) a) = occurrences a (entry (has_dependents g) b).
Proof. intros w rf cr gi pt d pr g pr' todo OK E. apply (graph_spec w rf cr gi pr OK pt d g pr' todo E). Qed.
Print Assumptions C26_converse.

(** C27. The targets in the graph are those reachable in at most [depth] steps that
    exist ... *)
Theorem C27_limited : forall w read_file can_read glob_in pt depth pr g pr' todo,
  project_ok pr -> build_graph w read_file can_read glob_in pt depth pr = Ret (g, pr', todo) ->
  forall t, In t (keys (depends_on g)) <->
    exists_target w read_file can_read glob_in pr t /\
    exists j, j <= Z.to_nat depth /\ reach w read_file can_read glob_in pr pt j t.
Proof. intros w rf cr gi pt d pr g pr' todo OK E. apply (graph_spec w rf cr gi pr OK pt d g pr' todo E). Qed.
Print Assumptions C27_limited.
(** ... all of them if nothing was left to do ... *)
Theorem C27_unlimited : forall w read_file can_read glob_in pt depth pr g pr',
  project_ok pr -> build_graph w read_file can_read glob_in pt depth pr = Ret (g, pr', []) ->
  forall t, In t (keys (depends_on g)) <->
    exists_target w read_file can_read glob_in pr t /\
    exists j, reach w read_file can_read glob_in pr pt j t.
Proof. intros w rf cr gi pt d pr g pr' OK E. apply (graph_spec w rf cr gi pr OK pt d g pr' [] E). reflexivity. Qed.
Print Assumptions C27_unlimited.
(** ... and each with the dependencies its rule mentions, in that order. *)
Theorem C27_dependencies : forall w read_file can_read glob_in pt depth pr g pr' todo,
  project_ok pr -> build_graph w read_file can_read glob_in pt depth pr = Ret (g, pr', todo) ->
  forall t ds, map_find t (depends_on g) = Some ds -> dependencies w read_file can_read glob_in pr t ds.
Proof. intros w rf cr gi pt d pr g pr' todo OK E. apply (graph_spec w rf cr gi pr OK pt d g pr' todo E). Qed.
Print Assumptions C27_dependencies.

(** C54. Whatever is added to a project: one file per package, the first one stays,
    and new ones are what the files on disk say. *)
Theorem C54_history : forall w read_file can_read glob_in ops pr pr', project_ok pr ->
  run_ops w read_file can_read glob_in ops pr = Ret pr' ->
  NoDup (map fst (pr_files pr')) /\ project_ok pr' /\
  (forall q f, find_parsed pr q = Some f -> find_parsed pr' q = Some f) /\
  (forall q f, find_parsed pr q = None -> find_parsed pr' q = Some f ->
     pf_package f = q /\ read_file (pf_name f) = Some (pf_content f) /\
     exists stmts, parse (pf_content f) = Ret (stmts, pf_errors f) /\
       (pf_ast f = stmts \/ elaborate (glob_in q) stmts = Ret (pf_ast f))).
Proof.
  intros w rf cr gi ops pr pr' OK E. destruct (history_spec w rf cr gi ops pr pr' OK E) as (OK' & K & N).
  split; [apply ssorted_nodup; apply OK'|]. split; [exact OK'|]. split; [exact K|exact N].
Qed.
Print Assumptions C54_history.
(** Building the graph does not touch the files already there either. *)
Theorem C54_graph : forall w read_file can_read glob_in pt depth pr g pr' todo, project_ok pr ->
  build_graph w read_file can_read glob_in pt depth pr = Ret (g, pr', todo) ->
  project_ok pr' /\ (forall q f, find_parsed pr q = Some f -> find_parsed pr' q = Some f).
Proof.
  intros w rf cr gi pt d pr g pr' todo OK E.
  destruct (graph_spec w rf cr gi pr OK pt d g pr' todo E) as ((OK' & _ & K) & _). split; assumption.
Qed.
Print Assumptions C54_graph.

(** A project with a cycle over two files, one of them on disk, and labels that
    do not exist. *)
Definition disk (name : str) : option str :=
  if str_eqb name ($"b/BUILD") then
    Some (nl ["cc_library(name = ""y"", deps = [""//a:x"", ""//c:no"", "":z"", ""::""])";
              "alias(name = ""z"", actual = "":y"")"; "cc_library(name = ""y"", deps = ["":other""])"])
  else if str_eqb name ($"a/BUILD") then
    Some (nl ["cc_library(name = ""x"", deps = [""//b:y"", ""//b:y""])"; "cc_library(name = ""unused"")"])
  else None.
Definition on_disk (name : str) : bool := match disk name with Some _ => true | None => false end.
Definition pkg_a := mkPackage [] ($"a").
Definition pkg_b := mkPackage [] ($"b").
Definition tg (p : package) (n : string) := mkTarget p ($ n).
Definition no_files (p : package) (include exclude : list str) : list str := [].
Definition start_ops : list project_op :=
  [AddFileIn ($"a/BUILD") []; AddFile ($"b/BUILD") pkg_a; AddFile ($"gone/BUILD") pkg_b].
Definition start : parsed_project :=
  match run_ops [] disk on_disk no_files start_ops empty_project with
  | Ret pr => pr | _ => empty_project end.
Lemma start_run : run_ops [] disk on_disk no_files start_ops empty_project = Ret start.
Proof. vm_compute. reflexivity. Qed.
Lemma empty_ok : project_ok empty_project. Proof. split; [exact I|intros ? ? []]. Qed.
Example C54_case : map (fun x => (fst x, pf_name (snd x))) (pr_files start) = [(pkg_a, $"a/BUILD")] /\ pr_error_count start = 1.
Proof. vm_compute. auto. Qed.
Lemma start_ok : project_ok start.
Proof. exact (proj1 (proj2 (C54_history _ _ _ _ _ _ _ empty_ok start_run))). Qed.
Definition x_pattern : pattern :=
  match parse_pattern ($"//a:x") with PatOk pt => pt | _ => pattern_always end.
Definition graph_at (depth : Z) : option (list (target * list target) * list (target * list target) * list target) :=
  match build_graph [] disk on_disk no_files x_pattern depth start with
  | Ret (g, _, todo) => Some (depends_on g, has_dependents g, todo)
  | _ => None end.
Example C25_C26_C27_case :
  graph_at 0 = Some ([(tg pkg_a "x", [tg pkg_b "y"; tg pkg_b "y"])], [(tg pkg_b "y", [tg pkg_a "x"; tg pkg_a "x"])], [tg pkg_b "y"]) /\
  graph_at 10 = Some (
    [(tg pkg_a "x", [tg pkg_b "y"; tg pkg_b "y"]);
     (tg pkg_b "y", [tg pkg_a "x"; tg (mkPackage [] ($"c")) "no"; tg pkg_b "z"]);
     (tg pkg_b "z", [tg pkg_b "y"])],
    [(tg pkg_a "x", [tg pkg_b "y"]); (tg pkg_b "y", [tg pkg_a "x"; tg pkg_a "x"; tg pkg_b "z"]);
     (tg pkg_b "z", [tg pkg_b "y"]); (tg (mkPackage [] ($"c")) "no", [tg pkg_b "y"])], []).
Proof. vm_compute. auto. Qed.

Definition disk_texts : list str :=
  flat_map (fun n => match disk ($ n) with Some c => [c] | None => [] end) ["a/BUILD"; "b/BUILD"].
Lemma disk_in name content : disk name = Some content -> In content disk_texts.
Proof.
  unfold disk. destruct (str_eqb name _); [intros E; inversion E; right; left; reflexivity|].
  destruct (str_eqb name _); [intros E; inversion E; left; reflexivity|discriminate].
Qed.
(** The hypotheses of the theorems hold there. *)
Definition the_labels : list str := [$"//a:x"; $"//c:no"; $":z"; $"::"; $":y"; $":other"; $"//b:y"].
Definition only_these (ast : list node) : bool :=
  match find_targets [] ast with
  | Ret rs => forallb (fun r => forallb (fun l => existsb (str_eqb l) the_labels) (mentioned r)) rs
  | _ => true
  end.
Definition file_only_these (c : str) : bool :=
  match parse c with
  | Ret (stmts, _) => only_these stmts && match elaborate (no_files pkg_a) stmts with Ret ast => only_these ast | _ => true end
  | _ => true
  end.
Lemma files_only_these : forallb file_only_these disk_texts = true.
Proof. vm_compute. reflexivity. Qed.
Lemma labels_checked content stmts errs ast p : In content disk_texts -> parse content = Ret (stmts, errs) ->
    ast = stmts \/ elaborate (no_files p) stmts = Ret ast -> only_these ast = true.
Proof.
  intros I P A. pose proof files_only_these as H0. rewrite forallb_forall in H0.
  specialize (H0 content I). unfold file_only_these in H0. rewrite P in H0.
  apply andb_true_iff in H0 as [H1 H2]. destruct A as [->|A]; [exact H1|].
  change (no_files pkg_a) with (no_files p) in H2. rewrite A in H2. exact H2.
Qed.
Lemma file_of_cases w rf cr gi pr p f : file_of w rf cr gi pr p f ->
  find_parsed pr p = Some f \/
  exists name stmts, rf name = Some (pf_content f) /\ parse (pf_content f) = Ret (stmts, pf_errors f) /\
    elaborate (gi p) stmts = Ret (pf_ast f).
Proof.
  unfold file_of. destruct (find_parsed pr p); [intros ->; auto|].
  intros (name & content & stmts & errs & ast & _ & Rd & Ps & El & ->). right. cbn. eauto.
Qed.
Example C25_labels_case : forall p f rs r, file_of [] disk on_disk no_files start p f ->
  find_targets [] (pf_ast f) = Ret rs -> In r rs -> incl (mentioned r) the_labels.
Proof.
  intros p f rs r Ff Fr Ir.
  assert (G : only_these (pf_ast f) = true).
  { apply file_of_cases in Ff as [Fp|(name & stmts & Rd & Ps & El)].
    - destruct (C54_history _ _ _ _ _ _ _ empty_ok start_run) as (_ & _ & _ & N).
      destruct (N p f eq_refl Fp) as (_ & Rd & stmts & Ps & A).
      eapply labels_checked; [exact (disk_in _ _ Rd)|exact Ps|exact A].
    - eapply labels_checked; [exact (disk_in _ _ Rd)|exact Ps|right; exact El]. }
  unfold only_these in G. rewrite Fr in G. rewrite forallb_forall in G. specialize (G r Ir). rewrite forallb_forall in G.
  intros l Il. specialize (G l Il). apply existsb_exists in G as (y & Iy & E).
  apply str_eqb_eq in E. subst. exact Iy.
Qed.
Example C25_defined_case : forall p name, path_for_package [] on_disk p = Some name ->
  exists content, disk name = Some content /\ good_content called assigned content.
Proof.
  assert (H0 : forallb (fun c => match parse c with
      | Ret (stmts, []) => forallb (fun x => negb (existsb (str_eqb x) (flat_map assigned stmts))) (flat_map called stmts)
      | _ => false end) disk_texts = true) by (vm_compute; reflexivity).
  rewrite forallb_forall in H0. intros p name E.
  assert (R : on_disk name = true).
  { unfold path_for_package in E. destruct (if is_nil (project p) then _ else _); [|discriminate].
    apply find_some in E. apply E. }
  unfold on_disk in R. destruct (disk name) as [content|] eqn:D; [|discriminate]. exists content. split; [reflexivity|].
  specialize (H0 content (disk_in _ _ D)). unfold good_content.
  destruct (parse content) as [[stmts [|]]| |]; try discriminate. exists stmts. split; [reflexivity|].
  rewrite forallb_forall in H0. intros x Ix Ia. specialize (H0 x Ix). apply negb_true_iff in H0.
  assert (X : existsb (str_eqb x) (flat_map assigned stmts) = true).
  { apply existsb_exists. exists x. split; [exact Ia|apply str_eqb_refl]. }
  rewrite X in H0. discriminate.
Qed.
Definition tree_readable (ast : list node) : bool :=
  match find_targets [] ast with
  | Ret rs => forallb (fun r => match q_deps r with
                                | Some l => match string_list l with Ret _ => true | _ => false end
                                | None => true end) rs
  | _ => false
  end.
Lemma tree_readable_ok ast : tree_readable ast = true -> readable_tree ast.
Proof.
  unfold tree_readable, readable_tree. destruct (find_targets [] ast) as [rs| |]; try discriminate.
  intros H. exists rs. split; [reflexivity|]. rewrite forallb_forall in H. intros r l I Q. specialize (H r I).
  rewrite Q in H. destruct (string_list l); try discriminate. eauto.
Qed.
Lemma all_readable pr : forallb (fun x => tree_readable (pf_ast (snd x))) (pr_files pr) = true ->
  forall p f, find_parsed pr p = Some f -> readable_tree (pf_ast f).
Proof.
  intros H p f F. apply map_find_in in F. rewrite forallb_forall in H. apply tree_readable_ok. exact (H (p, f) F).
Qed.
Example C25_start_case : forall p f, find_parsed start p = Some f -> readable_tree (pf_ast f).
Proof. apply all_readable. vm_compute. reflexivity. Qed.
