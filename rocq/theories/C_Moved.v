(** Property C94: the order of the rules in BUILD files does not matter to what depends on what. *)
From Coq Require Import NArith ZArith Lia Permutation.
From Verif Require Import Base OMap M_Types M_Scanner M_Ast M_Parser M_Query M_Elab S_Elab M_Workspace M_Project P_Project M_Walk S_Walk M_Table S_Table P_Table M_DepGraph S_DepGraph P_DepGraph
  M_Highlight M_Edits M_Commands M_System P_Commands S_Run P_Run S_Order P_Order C_Walk C_Order C_Commands S_Packages P_Packages C_Packages P_Deeper S_Layout S_Attributes P_Attributes S_Relaid S_Reads P_Reads T_Walk C_Relaid S_Moved P_Moved P_MovedRun P_Total.
Local Open Scope string_scope. Local Open Scope list_scope.

Section Moved.
Variable fuel : nat.
Variable fs : file_system.
Variable content' : str -> option str.
(** Each file is as it was, or its rules are in another order. *)
Hypothesis moves : changed moved (fun _ => True) (fs_content fs) content'.
(** The files that say what the workspace is are as they were. *)
Hypothesis same_workspace : forall f, about_workspace f -> content' f = fs_content fs f.
Notation run content := (run_here fuel (with_content fs content)).
Notation prep content := (prepare (is_dir fs) (fs_can_read fs) (fs_glob fs) content (globbed_files fuel fs) (found_build_files fuel fs)).
Notation before := (fs_content fs).

Lemma contents : contents_equal before content'.
Proof.
  intros f. specialize (moves f). destruct (before f) as [c|], (content' f) as [c'|]; auto. destruct moves as [->|(M & _)]; [apply texts_refl|apply moved_texts, M].
Qed.
Lemma workspaces : load_workspace (is_dir fs) (fs_can_read fs) (fs_glob fs) content' = load_workspace (is_dir fs) (fs_can_read fs) (fs_glob fs) before.
Proof.
  unfold load_workspace, workspace_files. cbn [fold_left]. unfold load_file at 1 2 3 4.
  rewrite (same_workspace ($"WORKSPACE")), (same_workspace ($"WORKSPACE.bazel")), (same_workspace ($"WORKSPACE.bzlmod")), (same_workspace ($"MODULE.bazel")); [reflexivity|unfold about_workspace; auto..].
Qed.
Lemma graphs fl cmd pt w pr g w' pr' g' : In cmd [CDependsOn; CHasDependents] -> prep before fl cmd pt = Ret (Some (w, pr, g)) -> prep content' fl cmd pt = Ret (Some (w', pr', g')) ->
  depends_on g = depends_on g' /\ msorted (has_dependents g) /\ msorted (has_dependents g') /\
  forall d t, occurrences t (S_DepGraph.entry (has_dependents g) d) = occurrences t (S_DepGraph.entry (has_dependents g') d).
Proof.
  intros CM P P'.
  assert (W : w' = w).
  { unfold prepare in P, P'. rewrite workspaces in P'. destruct (load_workspace _ _ _ _) as [[w0|]| |]; try discriminate P. cbn [bind] in P, P'.
    repeat match type of P with bind ?x _ = _ => destruct x as [[? ?]| |] || destruct x as [?| |]; try discriminate P; cbn [bind] in P end. injection P as <- _ _.
    repeat match type of P' with bind ?x _ = _ => destruct x as [[? ?]| |] || destruct x as [?| |]; try discriminate P'; cbn [bind] in P' end. now injection P' as <- _ _. }
  subst w'. apply prepare_spec in P as (_ & pr0 & H & G). apply prepare_spec in P' as (_ & pr0' & H' & G').
  pose proof (holds_equal _ _ _ _ _ _ _ _ _ contents H H') as Q. pose proof (holds_ok _ _ _ _ _ _ _ H) as OK. pose proof (holds_ok _ _ _ _ _ _ _ H') as OK'.
  destruct (wants_graph cmd && _).
  2:{ destruct G as [-> _], G' as [-> _]. cbn. repeat split; constructor. }
  destruct G as (todo & G), G' as (todo' & G'). destruct (graph_entries _ _ _ _ _ _ _ _ _ _ OK G) as (S1 & S2 & K & O). destruct (graph_entries _ _ _ _ _ _ _ _ _ _ OK' G') as (S1' & S2' & K' & O').
  assert (E : depends_on g = depends_on g').
  { apply omap_ext; auto. assert (X : forall t ds, In (t, ds) (depends_on g) <-> In (t, ds) (depends_on g')).
    { intros t ds. rewrite K, K'. split; intros (D & j & J & R); (split; [|exists j; split; [exact J|]]); first [eapply dependencies_move|eapply reach_move];
        first [exact contents|exact (contents_sym _ _ contents)|exact Q|exact (files_sym _ _ Q)|eassumption]. }
    intros k. destruct (map_find k (depends_on g)) as [ds|] eqn:F, (map_find k (depends_on g')) as [ds'|] eqn:F'; auto.
    - apply map_find_in in F. apply X in F. apply msorted_find in F; auto. congruence.
    - apply map_find_in in F. apply X in F. apply msorted_find in F; auto. congruence.
    - apply map_find_in in F'. apply X in F'. apply msorted_find in F'; auto. congruence. }
  split; [exact E|]. split; [exact S2|]. split; [exact S2'|]. intros d t. rewrite <- O, <- O', E. reflexivity.
Qed.
Lemma ran content fl cmd pt x : prep content fl cmd pt = Ret x ->
  run content fl cmd pt = match x with None => Ret ([], ExitFailure) | Some (w, pr, g) => perform content (flags_output (with_content fs content)) fl cmd pt w pr g end.
Proof.
  intros E. transitivity (bind (prep content fl cmd pt) (fun x => match x with None => Ret ([], ExitFailure) | Some (w, pr, g) => perform content (flags_output (with_content fs content)) fl cmd pt w pr g end)); [reflexivity|].
  rewrite E. reflexivity.
Qed.
Lemma runs content fl cmd pt r : run content fl cmd pt = Ret r -> exists x, prep content fl cmd pt = Ret x.
Proof.
  destruct r as [out st]. intros E. apply run_spec in E as [(P & _)|(w & pr & g & P & _)]; eexists; exact P.
Qed.
(** depends-on does the same, in every format and to every depth. *)
Theorem C94_depends_on : forall fl pt r, run before fl CDependsOn pt = Ret r <-> run content' fl CDependsOn pt = Ret r.
Proof.
  intros fl pt r.
  assert (X : forall x x', prep before fl CDependsOn pt = Ret x -> prep content' fl CDependsOn pt = Ret x' -> match x, x' with Some (w, _, _), Some (w', _, _) => w = w' | None, None => True | _, _ => False end ->
    run before fl CDependsOn pt = run content' fl CDependsOn pt).
  { intros x x' P P' M. rewrite (ran _ _ _ _ _ P), (ran _ _ _ _ _ P'). destruct x as [[[w pr] g]|], x' as [[[w' pr'] g']|]; try contradiction M; [|reflexivity].
    destruct (graphs fl CDependsOn pt w pr g w' pr' g') as (D & _); auto; [cbn [In]; auto|]. unfold perform. rewrite D. reflexivity. }
  split; intros E; destruct (runs _ _ _ _ _ E) as (x & P).
  - destruct (prepare_success _ _ _ _ _ _ _ _ _ _ _ contents workspaces P) as (x' & P' & M). rewrite <- (X _ _ P P' M). exact E.
  - destruct (prepare_success _ _ _ _ _ _ _ _ _ _ _ (contents_sym _ _ contents) (eq_sym workspaces) P) as (x' & P' & M). rewrite (X _ _ P' P); [exact E|].
    destruct x as [[[w pr] g]|], x' as [[[w' pr'] g']|]; try contradiction M; auto.
Qed.
(** has-dependents ends alike, *)
Theorem C94_has_dependents_ends : forall fl pt status, (exists out, run before fl CHasDependents pt = Ret (out, status)) <-> (exists out, run content' fl CHasDependents pt = Ret (out, status)).
Proof.
  intros fl pt status.
  assert (X : forall a b x x', prep a fl CHasDependents pt = Ret x -> prep b fl CHasDependents pt = Ret x' -> match x, x' with Some (w, _, _), Some (w', _, _) => w = w' | None, None => True | _, _ => False end ->
    (exists out, run a fl CHasDependents pt = Ret (out, status)) -> exists out, run b fl CHasDependents pt = Ret (out, status)).
  { intros a b x x' P P' M (out & E). rewrite (ran _ _ _ _ _ P) in E. rewrite (ran _ _ _ _ _ P'). destruct x as [[[w pr] g]|], x' as [[[w' pr'] g']|]; try contradiction M; [|eauto].
    unfold perform in *. assert (status = ExitSuccess) as -> by (destruct (print_one_to_n _ _ (has_dependents g) _ _); try discriminate E; cbn [bind] in E; congruence).
    unfold print_one_to_n. edestruct two_columns as (o & ->); [header|header|rows|]. cbn [bind]. eauto. }
  split; intros (out & E); destruct (runs _ _ _ _ _ E) as (x & P).
  - destruct (prepare_success _ _ _ _ _ _ _ _ _ _ _ contents workspaces P) as (x' & P' & M). exact (X _ _ _ _ P P' M (ex_intro _ out E)).
  - destruct (prepare_success _ _ _ _ _ _ _ _ _ _ _ (contents_sym _ _ contents) (eq_sym workspaces) P) as (x' & P' & M). exact (X _ _ _ _ P P' M (ex_intro _ out E)).
Qed.
(** and says the same of each target, though perhaps in another order. *)
Theorem C94_has_dependents : forall fl pt out out', fl_format fl = FmtCsv -> run before fl CHasDependents pt = Ret (out, ExitSuccess) -> run content' fl CHasDependents pt = Ret (out', ExitSuccess) ->
  exists rows rows', read_csv out = Some ([$"library"; $"has-dependent"] :: rows) /\ read_csv out' = Some ([$"library"; $"has-dependent"] :: rows') /\ forall row, In row rows <-> In row rows'.
Proof.
  intros fl pt out out' Fm E E'. apply run_spec in E as [(_ & _ & X)|(w & pr & g & P & E)]; [discriminate X|]. apply run_spec in E' as [(_ & _ & X)|(w' & pr' & g' & P' & E')]; [discriminate X|].
  destruct (graphs fl CHasDependents pt w pr g w' pr' g') as (_ & S & S' & O); auto; [cbn [In]; auto|]. unfold perform in E, E'. rewrite Fm in E, E'.
  destruct (print_one_to_n _ pt (has_dependents g) _ _) as [o| |] eqn:T; try discriminate E. destruct (print_one_to_n _ pt (has_dependents g') _ _) as [o'| |] eqn:T'; try discriminate E'.
  injection E as <-. injection E' as <-. apply one_to_n_rows in T. apply one_to_n_rows in T'. eexists _, _. split; [exact T|]. split; [exact T'|].
  assert (R : forall m row, msorted m -> In row (pair_rows (filter (fun e => match_target pt (fst e)) m)) <-> exists d t, match_target pt d = true /\ In t (S_DepGraph.entry m d) /\ row = [target_to_string d; target_to_string t]).
  { intros m row Sm. unfold pair_rows. rewrite in_flat_map. split.
    - intros ([d l] & I & R). apply filter_In in I as [I M]. apply in_map_iff in R as (t & <- & J). exists d, t. cbn [fst snd] in *. split; [exact M|]. split; [|reflexivity].
      unfold S_DepGraph.entry. apply msorted_find in I; auto. rewrite I. exact J.
    - intros (d & t & M & J & ->). unfold S_DepGraph.entry in J. destruct (map_find d m) as [l|] eqn:F; [|destruct J]. exists (d, l). split; [apply filter_In; split; [apply map_find_in, F|exact M]|]. cbn [fst snd].
      apply in_map_iff. eauto. }
  intros row. rewrite !R by assumption. split; intros (d & t & M & J & ->); exists d, t; (split; [exact M|]); (split; [|reflexivity]); apply occurs_in; apply occurs_in in J; [rewrite <- O|rewrite O]; exact J.
Qed.
End Moved.
Print Assumptions C94_depends_on.
Print Assumptions C94_has_dependents_ends.
Print Assumptions C94_has_dependents.

(** * Cases *)
Definition NLS : str := [NL].
Definition head_text : str := $"load('@rules_cc//cc:defs.bzl', 'cc_library')" ++ NLS ++ $"package(default_visibility = ['//visibility:public'])" ++ NLS ++ $"COMMON = [':z']" ++ NLS.
Definition rule_x : str := $"cc_library(name = 'x', deps = [':y'] + COMMON)" ++ NLS.
Definition rule_y : str := $"cc_library(name = 'y', deps = COMMON)" ++ NLS.
Definition rule_z : str := $"cc_library(name = 'z', hdrs = ['z.h'])" ++ NLS.
Ltac a_rule := do 8 eexists; (split; [reflexivity|]); (split; [eexists [_; _]; split; [reflexivity|repeat constructor; cbn; intuition discriminate]|]); (split; [left; reflexivity|]); repeat split; cbn; intuition discriminate.
Example C94_texts : moved (head_text ++ rule_x ++ rule_y ++ rule_z) (head_text ++ rule_z ++ rule_x ++ rule_y).
Proof.
  do 2 (eexists (_ :: _ :: _ :: []), (_ :: _ :: _ :: [])). exists [$"x"; $"y"; $"z"]. split; [vm_compute; reflexivity|]. split; [vm_compute; reflexivity|]. split; [vm_compute; reflexivity|].
  split; [cbn [map bare]; eapply perm_trans; [apply perm_skip, perm_swap|apply perm_swap]|]. split; [|split].
  - repeat constructor; a_rule.
  - repeat constructor; cbn; intuition discriminate.
  - repeat constructor; cbn; discriminate.
Qed.
Definition the_rows : str := $"""library"",""depends-on""" ++ NLS ++ $"""//a:x"",""//a:y""" ++ NLS ++ $"""//a:x"",""//a:z""" ++ NLS ++ $"""//a:y"",""//a:z""" ++ NLS.
Example C94_case : changed moved (fun _ => True) (fs_content (a_only (head_text ++ rule_x ++ rule_y ++ rule_z))) (T_Walk.lookup (in_a (head_text ++ rule_z ++ rule_x ++ rule_y))) /\
  (forall f, about_workspace f -> T_Walk.lookup (in_a (head_text ++ rule_z ++ rule_x ++ rule_y)) f = fs_content (a_only (head_text ++ rule_x ++ rule_y ++ rule_z)) f) /\
  run_here 9 (a_only (head_text ++ rule_x ++ rule_y ++ rule_z)) elaborated CDependsOn pattern_always = Ret (the_rows, ExitSuccess) /\
  run_here 9 (with_content (a_only (head_text ++ rule_x ++ rule_y ++ rule_z)) (T_Walk.lookup (in_a (head_text ++ rule_z ++ rule_x ++ rule_y)))) elaborated CDependsOn pattern_always = Ret (the_rows, ExitSuccess).
Proof.
  split; [|split; [|split; vm_compute; reflexivity]].
  - intros f. pose proof C94_texts as M. revert M. generalize (head_text ++ rule_x ++ rule_y ++ rule_z) (head_text ++ rule_z ++ rule_x ++ rule_y). intros c c' M. cbn [fs_content a_only C_Order.some_fs]. unfold in_a, T_Walk.lookup. cbn [find fst snd option_map].
    match goal with |- context [str_eqb ?x ?y] => destruct (str_eqb x y) end; cbn [option_map snd]; [left; reflexivity|]. match goal with |- context [str_eqb ?x ?y] => destruct (str_eqb x y) end; cbn [option_map snd]; [right; auto|exact I].
  - intros f [->|[->|[->| ->]]]; vm_compute; reflexivity.
Qed.
(** Of two rules with the same name the first counts, so their order does matter. *)
Definition same_name (a b : str) : str := $"cc_library(name = 'x', deps = [':" ++ a ++ $"'])" ++ NLS ++ $"cc_library(name = 'x', deps = [':" ++ b ++ $"'])" ++ NLS.
Example C94_same_name_refuted : run_here 9 (a_only (same_name ($"y") ($"z"))) elaborated CDependsOn pattern_always <> run_here 9 (a_only (same_name ($"z") ($"y"))) elaborated CDependsOn pattern_always.
Proof. vm_compute. discriminate. Qed.
(** And a variable must be there before it is used. *)
Example C94_variable_refuted : run_here 9 (a_only ($"D = [':y']" ++ NLS ++ $"cc_library(name = 'x', deps = D)")) elaborated CDependsOn pattern_always <>
  run_here 9 (a_only ($"cc_library(name = 'x', deps = D)" ++ NLS ++ $"D = [':y']")) elaborated CDependsOn pattern_always.
Proof. vm_compute. discriminate. Qed.
