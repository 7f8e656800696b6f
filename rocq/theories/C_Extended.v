(** Property C95: what is added to the end of BUILD files takes nothing away. *)
From Coq Require Import NArith ZArith Lia.
From Verif Require Import Base OMap M_Types M_Scanner M_Ast M_Parser M_Query M_Elab S_Elab M_Workspace M_Project P_Project M_Walk S_Walk M_Table S_Table P_Table M_DepGraph S_DepGraph P_DepGraph
  M_Highlight M_Edits M_Commands M_System P_Commands S_Run P_Run S_Order P_Order C_Walk C_Order C_Commands S_Packages P_Packages C_Packages P_Deeper S_Layout S_Attributes P_Attributes S_Relaid S_Reads P_Reads T_Walk C_Relaid P_Moved P_MovedRun C_Moved
  P_Local S_Extended P_Extended.
Local Open Scope string_scope. Local Open Scope list_scope.

Section Extended.
Variable fuel : nat.
Variable fs : file_system.
Variable content' : str -> option str.
(** Each file is as it was, or has more statements at its end. *)
Hypothesis extends : changed extended (fun _ => True) (fs_content fs) content'.
(** The files that say what the workspace is are as they were. *)
Hypothesis same_workspace : forall f, about_workspace f -> content' f = fs_content fs f.
Notation run content := (run_here fuel (with_content fs content)).
Notation prep content := (prepare (is_dir fs) (fs_can_read fs) (fs_glob fs) content (globbed_files fuel fs) (found_build_files fuel fs)).
Notation before := (fs_content fs).

Lemma more_contents : contents_grow before content'.
Proof.
  intros f. specialize (extends f). destruct (before f) as [c|], (content' f) as [c'|]; auto. destruct extends as [->|(M & _)]; [apply text_grows_refl|apply extended_grows, M].
Qed.
Lemma more_graphs fl cmd pt w pr g w' pr' g' : In cmd [CDependsOn; CHasDependents] -> prep before fl cmd pt = Ret (Some (w, pr, g)) -> prep content' fl cmd pt = Ret (Some (w', pr', g')) ->
  msorted (depends_on g) /\ msorted (depends_on g') /\ msorted (has_dependents g) /\ msorted (has_dependents g') /\
  (forall t ds, In (t, ds) (depends_on g) -> In (t, ds) (depends_on g')) /\
  forall d t, occurrences t (S_DepGraph.entry (has_dependents g) d) <= occurrences t (S_DepGraph.entry (has_dependents g') d).
Proof.
  intros CM P P'.
  assert (W : w' = w).
  { unfold prepare in P, P'. rewrite (workspaces fs content' same_workspace) in P'. destruct (load_workspace _ _ _ _) as [[w0|]| |]; try discriminate P. cbn [bind] in P, P'.
    repeat match type of P with bind ?x _ = _ => destruct x as [[? ?]| |] || destruct x as [?| |]; try discriminate P; cbn [bind] in P end. injection P as <- _ _.
    repeat match type of P' with bind ?x _ = _ => destruct x as [[? ?]| |] || destruct x as [?| |]; try discriminate P'; cbn [bind] in P' end. now injection P' as <- _ _. }
  subst w'. apply prepare_spec in P as (_ & pr0 & H & G). apply prepare_spec in P' as (_ & pr0' & H' & G').
  pose proof (holds_grow _ _ _ _ _ _ _ _ _ more_contents H H') as Q. pose proof (holds_ok _ _ _ _ _ _ _ H) as OK. pose proof (holds_ok _ _ _ _ _ _ _ H') as OK'.
  destruct (wants_graph cmd && _).
  2:{ destruct G as [-> _], G' as [-> _]. cbn. repeat split; auto; constructor. }
  destruct G as (todo & G), G' as (todo' & G'). destruct (graph_entries _ _ _ _ _ _ _ _ _ _ OK G) as (S1 & S2 & K & O). destruct (graph_entries _ _ _ _ _ _ _ _ _ _ OK' G') as (S1' & S2' & K' & O').
  repeat (split; [assumption|]).
  assert (X : forall t ds, In (t, ds) (depends_on g) -> In (t, ds) (depends_on g')).
  { intros t ds I. apply K in I as (D & j & J & R). apply K'. split; [exact (dependencies_grow _ _ _ _ _ _ _ more_contents Q _ _ D)|]. exists j. split; [exact J|]. exact (reach_grow _ _ _ _ _ _ _ more_contents Q _ _ _ R). }
  split; [exact X|]. intros d t. rewrite <- O, <- O'. unfold S_DepGraph.entry at 1. destruct (map_find t (depends_on g)) as [ds|] eqn:F; [|cbn; lia].
  apply map_find_in in F. apply X in F. apply msorted_find in F; [|exact S1']. unfold S_DepGraph.entry. rewrite F. apply le_n.
Qed.
(** depends-on: every target listed is still listed, and depends on the same. *)
Theorem C95_depends_on : forall fl pt out out', fl_format fl = FmtCsv -> run before fl CDependsOn pt = Ret (out, ExitSuccess) -> run content' fl CDependsOn pt = Ret (out', ExitSuccess) ->
  exists m m' : list (target * list target),
    read_csv out = Some ([$"library"; $"depends-on"] :: pair_rows m) /\ read_csv out' = Some ([$"library"; $"depends-on"] :: pair_rows m') /\
    msorted m /\ msorted m' /\ forall t ds, In (t, ds) m -> In (t, ds) m'.
Proof.
  intros fl pt out out' Fm E E'. apply run_spec in E as [(_ & _ & X)|(w & pr & g & P & E)]; [discriminate X|]. apply run_spec in E' as [(_ & _ & X)|(w' & pr' & g' & P' & E')]; [discriminate X|].
  destruct (more_graphs fl CDependsOn pt w pr g w' pr' g') as (S & S' & _ & _ & M & _); auto; [cbn [In]; auto|]. unfold perform in E, E'. rewrite Fm in E, E'. set (pp := if (0 <? _)%Z then _ else _) in *.
  destruct (print_one_to_n _ pp (depends_on g) _ _) as [o| |] eqn:T; try discriminate E. destruct (print_one_to_n _ pp (depends_on g') _ _) as [o'| |] eqn:T'; try discriminate E'.
  injection E as <-. injection E' as <-. apply one_to_n_rows in T. apply one_to_n_rows in T'.
  exists (filter (fun e => match_target pp (fst e)) (depends_on g)), (filter (fun e => match_target pp (fst e)) (depends_on g')). split; [exact T|]. split; [exact T'|].
  split; [apply (filter_msorted' (match_target pp)); exact S|]. split; [apply (filter_msorted' (match_target pp)); exact S'|]. intros t ds I. apply filter_In in I as [I J]. apply filter_In. split; [apply M, I|exact J].
Qed.
(** has-dependents: every row is still there. *)
Theorem C95_has_dependents : forall fl pt out out', fl_format fl = FmtCsv -> run before fl CHasDependents pt = Ret (out, ExitSuccess) -> run content' fl CHasDependents pt = Ret (out', ExitSuccess) ->
  exists rows rows', read_csv out = Some ([$"library"; $"has-dependent"] :: rows) /\ read_csv out' = Some ([$"library"; $"has-dependent"] :: rows') /\ forall row, In row rows -> In row rows'.
Proof.
  intros fl pt out out' Fm E E'. apply run_spec in E as [(_ & _ & X)|(w & pr & g & P & E)]; [discriminate X|]. apply run_spec in E' as [(_ & _ & X)|(w' & pr' & g' & P' & E')]; [discriminate X|].
  destruct (more_graphs fl CHasDependents pt w pr g w' pr' g') as (_ & _ & S & S' & _ & O); auto; [cbn [In]; auto|]. unfold perform in E, E'. rewrite Fm in E, E'.
  destruct (print_one_to_n _ pt (has_dependents g) _ _) as [o| |] eqn:T; try discriminate E. destruct (print_one_to_n _ pt (has_dependents g') _ _) as [o'| |] eqn:T'; try discriminate E'.
  injection E as <-. injection E' as <-. apply one_to_n_rows in T. apply one_to_n_rows in T'. eexists _, _. split; [exact T|]. split; [exact T'|].
  intros row I. unfold pair_rows in *. rewrite in_flat_map in *. destruct I as ([d l] & I & R). apply filter_In in I as [I M]. apply in_map_iff in R as (t & <- & J). cbn [fst snd] in *.
  apply msorted_find in I; [|exact S]. specialize (O d t). unfold S_DepGraph.entry at 1 in O. rewrite I in O. apply occurs_in in J.
  destruct (map_find d (has_dependents g')) as [l'|] eqn:F; unfold S_DepGraph.entry in O; rewrite F in O; [|cbn in O; lia].
  exists (d, l'). split; [apply filter_In; split; [apply map_find_in, F|exact M]|]. cbn [fst snd]. apply in_map_iff. exists t. split; [reflexivity|]. apply occurs_in. lia.
Qed.
End Extended.
Print Assumptions C95_depends_on.
Print Assumptions C95_has_dependents.

(** * Cases *)
Definition some_text : str := head_text ++ rule_x ++ rule_y.
(** A rule that was missing, and another one of a name that is there already. *)
Definition more_text : str := $"cc_library(name = 'z', deps = [':w'])" ++ NLS ++ $"cc_library(name = 'x', deps = [':other'])" ++ NLS.
Example C95_texts : extended some_text (some_text ++ more_text).
Proof.
  eexists (_ :: _ :: _ :: _ :: _ :: []), [], (_ :: _ :: _ :: _ :: _ :: []), (_ :: _ :: []). split; [vm_compute; reflexivity|]. split; [vm_compute; reflexivity|]. split; [vm_compute; reflexivity|].
  intros x I J. vm_compute in I, J. destruct J as [<-|[]]. repeat (destruct I as [I|I]; [discriminate I|]). destruct I.
Qed.
Definition rows_before : str := $"""library"",""depends-on""" ++ NLS ++ $"""//a:x"",""//a:y""" ++ NLS ++ $"""//a:x"",""//a:z""" ++ NLS ++ $"""//a:y"",""//a:z""" ++ NLS.
Definition rows_after : str := rows_before ++ $"""//a:z"",""//a:w""" ++ NLS.
Example C95_case : changed extended (fun _ => True) (fs_content (a_only some_text)) (T_Walk.lookup (in_a (some_text ++ more_text))) /\
  (forall f, about_workspace f -> T_Walk.lookup (in_a (some_text ++ more_text)) f = fs_content (a_only some_text) f) /\
  run_here 9 (a_only some_text) elaborated CDependsOn pattern_always = Ret (rows_before, ExitSuccess) /\
  run_here 9 (with_content (a_only some_text) (T_Walk.lookup (in_a (some_text ++ more_text)))) elaborated CDependsOn pattern_always = Ret (rows_after, ExitSuccess).
Proof.
  split; [|split; [|split; vm_compute; reflexivity]].
  - intros f. pose proof C95_texts as M. revert M. generalize some_text (some_text ++ more_text). intros c c' M. cbn [fs_content a_only C_Order.some_fs]. unfold in_a, T_Walk.lookup. cbn [find fst snd option_map].
    match goal with |- context [str_eqb ?x ?y] => destruct (str_eqb x y) end; cbn [option_map snd]; [left; reflexivity|]. match goal with |- context [str_eqb ?x ?y] => destruct (str_eqb x y) end; cbn [option_map snd]; [right; auto|exact I].
  - intros f [->|[->|[->| ->]]]; vm_compute; reflexivity.
Qed.
(** In front of the others it is not so: the rule of a name that comes first counts. *)
Example C95_front_refuted : run_here 9 (a_only (more_text ++ some_text)) elaborated CDependsOn pattern_always =
  Ret ($"""library"",""depends-on""" ++ NLS ++ $"""//a:x"",""//a:other""" ++ NLS ++ $"""//a:y"",""//a:z""" ++ NLS ++ $"""//a:z"",""//a:w""" ++ NLS, ExitSuccess).
Proof. vm_compute. reflexivity. Qed.
