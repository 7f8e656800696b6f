(** Property C95, continued: the tables about what is in the files. *)
From Coq Require Import NArith ZArith Lia.
From Verif Require Import Base OMap M_Types M_Scanner M_Ast M_Parser M_Query M_Elab S_Elab M_Workspace S_Workspace P_Workspace M_Project P_Project M_Walk S_Walk M_Table S_Table P_Table M_DepGraph S_DepGraph P_DepGraph M_Headers S_Headers P_Headers
  M_Highlight M_Edits M_Commands M_System P_Commands S_Run P_Run S_Order P_Order C_Walk C_Order C_Commands S_Packages P_Packages C_Packages P_Deeper S_Layout S_Attributes P_Attributes S_Relaid S_Reads P_Reads T_Walk C_Relaid P_Moved P_MovedRun C_Moved
  P_Local P_Loaded C_Followed S_Extended P_Extended P_ExtendedFiles C_Extended.
Local Open Scope string_scope. Local Open Scope list_scope.

Section Extended.
Variable fuel : nat.
Variable fs : file_system.
Variable content' : str -> option str.
(** Each file is as it was, or has more statements at its end. *)
Hypothesis extends : changed extended (fun _ => True) (fs_content fs) content'.
(** The files that say what the workspace is are as they were. *)
Hypothesis same_workspace : forall f, about_workspace f -> content' f = fs_content fs f.
Notation run content := (run_here fuel (with_content fs content)).
Notation prep content := (prepare (is_dir fs) (fs_can_read fs) (fs_glob fs) content (globbed_files fuel fs) (found_build_files fuel fs)).
Notation before := (fs_content fs).

Lemma more_files fl cmd pt w pr g w' pr' g' : prep before fl cmd pt = Ret (Some (w, pr, g)) -> prep content' fl cmd pt = Ret (Some (w', pr', g')) -> all_grow pr pr'.
Proof.
  intros P P'.
  assert (W : w' = w).
  { unfold prepare in P, P'. rewrite (workspaces fs content' same_workspace) in P'. destruct (load_workspace _ _ _ _) as [[w0|]| |]; try discriminate P. cbn [bind] in P, P'.
    repeat match type of P with bind ?x _ = _ => destruct x as [[? ?]| |] || destruct x as [?| |]; try discriminate P; cbn [bind] in P end. injection P as <- _ _.
    repeat match type of P' with bind ?x _ = _ => destruct x as [[? ?]| |] || destruct x as [?| |]; try discriminate P'; cbn [bind] in P' end. now injection P' as <- _ _. }
  subst w'. pose proof (more_contents fs content' extends) as C. apply prepare_spec in P as (_ & pr0 & H & G). apply prepare_spec in P' as (_ & pr0' & H' & G').
  pose proof (holds_grow _ _ _ _ _ _ _ _ _ C H H') as Q. pose proof (holds_ok _ _ _ _ _ _ _ H) as OK. pose proof (holds_ok _ _ _ _ _ _ _ H') as OK'.
  destruct (wants_graph cmd && _).
  - destruct G as (todo & G), G' as (todo' & G'). exact (graphs_all_grow _ _ _ _ _ _ _ _ _ _ _ _ _ _ _ C Q OK OK' G G').
  - destruct G as [_ ->], G' as [_ ->]. exact (files_all_grow _ _ OK Q).
Qed.
Ltac start E E' A := apply run_spec in E as [(_ & _ & X)|(w & pr & g & P & E)]; [discriminate X|]; apply run_spec in E' as [(_ & _ & X)|(w' & pr' & g' & P' & E')]; [discriminate X|];
  pose proof (more_files _ _ _ _ _ _ _ _ _ P P') as A.

(** list-packages: every row is still there. *)
Theorem C95_list_packages : forall fl pt out out', fl_format fl = FmtCsv -> run before fl CListPackages pt = Ret (out, ExitSuccess) -> run content' fl CListPackages pt = Ret (out', ExitSuccess) ->
  exists rows rows', read_csv out = Some ([$"bazel-file"; $"package"] :: rows) /\ read_csv out' = Some ([$"bazel-file"; $"package"] :: rows') /\ incl rows rows'.
Proof.
  intros fl pt out out' Fm E E'. start E E' A. unfold perform in E, E'. rewrite Fm in E, E'. destruct (print_packages _ pr) as [o| |] eqn:T; try discriminate E. destruct (print_packages _ pr') as [o'| |] eqn:T'; try discriminate E'.
  injection E as <-. injection E' as <-. apply package_rows in T. apply package_rows in T'. eexists _, _. split; [exact T|]. split; [exact T'|].
  intros row I. apply in_map_iff in I as ([p f] & <- & I). destruct (A _ _ I) as (f' & I' & [N _ _]). apply in_map_iff. exists (p, f'). split; [|exact I']. cbn [fst snd]. rewrite N. reflexivity.
Qed.
(** list-targets: every target is still listed, with its rule; where it is can differ, as the statements before may be laid out anew. *)
Theorem C95_list_targets : forall fl pt out out', fl_format fl = FmtCsv -> run before fl CListTargets pt = Ret (out, ExitSuccess) -> run content' fl CListTargets pt = Ret (out', ExitSuccess) ->
  exists rows rows', read_csv out = Some ([$"file-location"; $"rule"; $"target"] :: rows) /\ read_csv out' = Some ([$"file-location"; $"rule"; $"target"] :: rows') /\
    forall row, In row rows -> exists l l' rule label, row = [l; rule; label] /\ In [l'; rule; label] rows'.
Proof.
  intros fl pt out out' Fm E E'. start E E' A. unfold perform in E, E'. rewrite Fm in E, E'. set (pp := if (0 <? _)%Z then _ else _) in *.
  destruct (print_targets _ pp pr) as [o| |] eqn:T; try discriminate E. destruct (print_targets _ pp pr') as [o'| |] eqn:T'; try discriminate E'.
  injection E as <-. injection E' as <-. apply target_csv in T as (ops & B & T). apply target_csv in T' as (ops' & B' & T'). eexists _, _. split; [exact T|]. split; [exact T'|].
  intros row I. apply in_flat_map in I as (op & I & J). pose proof I as K. apply (target_rows_of_in _ _ _ B) in K as (p & f & rs & a & _ & _ & R & K). destruct (target_rows_plain _ _ _ _ _ R _ K) as (x & y & z & ->).
  cbn in J. destruct J as [<-|[]]. destruct (target_rows_grow _ _ _ _ _ y z A B B') as (l' & I'); [eauto|]. exists x, l', y, z. split; [reflexivity|]. apply in_flat_map. eexists. split; [exact I'|]. left. reflexivity.
Qed.
(** lib-headers: every row is still there. *)
Theorem C95_lib_headers : forall fl pt out out', fl_format fl = FmtCsv -> run before fl CLibHeaders pt = Ret (out, ExitSuccess) -> run content' fl CLibHeaders pt = Ret (out', ExitSuccess) ->
  exists rows rows', read_csv out = Some ([$"header"; $"providing-rule"] :: rows) /\ read_csv out' = Some ([$"header"; $"providing-rule"] :: rows') /\ incl rows rows'.
Proof.
  intros fl pt out out' Fm E E'. start E E' A. unfold perform in E, E'. rewrite Fm in E, E'. set (pp := if (0 <? _)%Z then _ else _) in *.
  destruct (header_to_lib pr false) as [m| |] eqn:H; try discriminate E. destruct (header_to_lib pr' false) as [m'| |] eqn:H'; try discriminate E'. cbn [bind] in E, E'.
  destruct (print_provided_set _ _ pp m) as [o| |] eqn:T; try discriminate E. destruct (print_provided_set _ _ pp m') as [o'| |] eqn:T'; try discriminate E'.
  injection E as <-. injection E' as <-. apply provided_set_rows in T. apply provided_set_rows in T'. eexists _, _. split; [exact T|]. split; [exact T'|]. exact (header_rows_grow _ _ _ _ _ A H H').
Qed.
(** aliased-by: every row is still there. *)
Theorem C95_aliased_by : forall fl pt out out', fl_format fl = FmtCsv -> run before fl CAliasedBy pt = Ret (out, ExitSuccess) -> run content' fl CAliasedBy pt = Ret (out', ExitSuccess) ->
  exists rows rows', read_csv out = Some ([$"actual"; $"aliased-by"] :: rows) /\ read_csv out' = Some ([$"actual"; $"aliased-by"] :: rows') /\ incl rows rows'.
Proof.
  intros fl pt out out' Fm E E'. start E E' A. unfold perform in E, E'. rewrite Fm in E, E'. set (pp := if (0 <? _)%Z then _ else _) in *.
  destruct (extract_aliased_by pr) as [m| |] eqn:H; try discriminate E. destruct (extract_aliased_by pr') as [m'| |] eqn:H'; try discriminate E'. cbn [bind] in E, E'.
  destruct (print_one_to_n _ pp m _ _) as [o| |] eqn:T; try discriminate E. destruct (print_one_to_n _ pp m' _ _) as [o'| |] eqn:T'; try discriminate E'.
  injection E as <-. injection E' as <-. apply one_to_n_rows in T. apply one_to_n_rows in T'. eexists _, _. split; [exact T|]. split; [exact T'|]. apply pair_rows_more; [auto|].
  intros t ds a I J. exact (aliased_grow _ _ _ _ _ _ A H H' (ex_intro _ ds (conj I J))).
Qed.
(** genrule-outputs: every generated file is still listed if all rules are shown, perhaps as made by another rule. *)
Theorem C95_genrule_outputs : forall fl pt out out', fl_format fl = FmtCsv -> ((0 < fl_depth fl)%Z \/ forall t, match_target pt t = true) ->
  run before fl CGenruleOutputs pt = Ret (out, ExitSuccess) -> run content' fl CGenruleOutputs pt = Ret (out', ExitSuccess) ->
  exists rows rows', read_csv out = Some ([$"generated-file"; $"providing-rule"] :: rows) /\ read_csv out' = Some ([$"generated-file"; $"providing-rule"] :: rows') /\
    forall row, In row rows -> exists file rule rule', row = [file; rule] /\ In [file; rule'] rows'.
Proof.
  intros fl pt out out' Fm All E E'. start E E' A. unfold perform in E, E'. rewrite Fm in E, E'. cbn [depth_for] in E, E'. set (pp := if (0 <? _)%Z then _ else _) in *.
  destruct (generated_from_genrule pr false) as [m| |] eqn:H; try discriminate E. destruct (generated_from_genrule pr' false) as [m'| |] eqn:H'; try discriminate E'. cbn [bind] in E, E'.
  destruct (print_provided _ _ pp m) as [o| |] eqn:T; try discriminate E. destruct (print_provided _ _ pp m') as [o'| |] eqn:T'; try discriminate E'.
  injection E as <-. injection E' as <-. apply provided_rows in T. apply provided_rows in T'. eexists _, _. split; [exact T|]. split; [exact T'|].
  intros row I. apply in_map_iff in I as ([k t] & <- & I). apply filter_In in I as [I _]. cbn [fst snd].
  assert (K : In k (keys m)) by (apply in_map_iff; exists (k, t); auto). apply (generated_grow _ _ _ _ _ A H H') in K. apply in_map_iff in K as ([k' t'] & Ek & K). cbn [fst] in Ek. subst k'.
  exists k, (target_to_string t), (target_to_string t'). split; [reflexivity|]. apply in_map_iff. exists (k, t'). split; [reflexivity|]. apply filter_In. split; [exact K|]. cbn [snd]. unfold pp.
  destruct (Z.ltb_spec 0 (fl_depth fl)); [reflexivity|]. destruct All as [L|L]; [lia|apply L].
Qed.
End Extended.
Print Assumptions C95_list_packages.
Print Assumptions C95_list_targets.
Print Assumptions C95_lib_headers.
Print Assumptions C95_aliased_by.
Print Assumptions C95_genrule_outputs.

(** Over the files of C95: the hypotheses are those of [C95_case]. *)
Definition ran_in (text : str) (cmd : command) : option (list (list str)) :=
  match run_here 9 (with_content (a_only some_text) (T_Walk.lookup (in_a text))) elaborated cmd pattern_always with Ret (out, ExitSuccess) => option_map (@tl _) (read_csv out) | _ => None end.
Example C95_files_case :
  ran_in some_text CListPackages = Some [[$"./a/BUILD"; $"//a"]] /\ ran_in (some_text ++ more_text) CListPackages = Some [[$"./a/BUILD"; $"//a"]] /\
  option_map (map (skipn 1)) (ran_in some_text CListTargets) = Some [[$"cc_library"; $"//a:x"]; [$"cc_library"; $"//a:y"]] /\
  option_map (map (skipn 1)) (ran_in (some_text ++ more_text) CListTargets) = Some [[$"cc_library"; $"//a:x"]; [$"cc_library"; $"//a:y"]; [$"cc_library"; $"//a:z"]; [$"cc_library"; $"//a:x"]].
Proof. vm_compute. auto. Qed.
(** A header and an alias, then another library with the same header and another alias. *)
Definition some_headers : str := $"cc_library(name = 'x', hdrs = ['x.h'])" ++ NLS ++ $"alias(name = 'p', actual = ':x')" ++ NLS.
Definition more_headers : str := $"cc_library(name = 'w', hdrs = ['x.h'])" ++ NLS ++ $"alias(name = 'o', actual = ':x')" ++ NLS.
Example C95_headers_texts : extended some_headers (some_headers ++ more_headers).
Proof.
  eexists (_ :: _ :: []), [], (_ :: _ :: []), (_ :: _ :: []). split; [vm_compute; reflexivity|]. split; [vm_compute; reflexivity|]. split; [vm_compute; reflexivity|].
  intros x I J. vm_compute in I, J. tauto.
Qed.
Example C95_headers_case :
  ran_in some_headers CLibHeaders = Some [[$"a/x.h"; $"//a:p"]; [$"a/x.h"; $"//a:x"]] /\
  ran_in (some_headers ++ more_headers) CLibHeaders = Some [[$"a/x.h"; $"//a:o"]; [$"a/x.h"; $"//a:p"]; [$"a/x.h"; $"//a:w"]; [$"a/x.h"; $"//a:x"]] /\
  ran_in some_headers CAliasedBy = Some [[$"//a:x"; $"//a:p"]] /\ ran_in (some_headers ++ more_headers) CAliasedBy = Some [[$"//a:x"; $"//a:p"]; [$"//a:x"; $"//a:o"]].
Proof. vm_compute. auto. Qed.
(** Of two rules that make a file, the one added is shown only where the package comes before; here it does not. *)
Definition some_outputs : str := $"genrule(name = 'g', outs = ['x.c'])" ++ NLS.
Definition more_outputs : str := $"genrule(name = 'f', outs = ['x.c', 'y.c'])" ++ NLS.
Example C95_outputs_texts : extended some_outputs (some_outputs ++ more_outputs).
Proof.
  eexists (_ :: []), [], (_ :: []), (_ :: []). split; [vm_compute; reflexivity|]. split; [vm_compute; reflexivity|]. split; [vm_compute; reflexivity|].
  intros x I J. vm_compute in I, J. tauto.
Qed.
Example C95_outputs_case : ran_in some_outputs CGenruleOutputs = Some [[$"a/x.c"; $"//a:g"]] /\
  ran_in (some_outputs ++ more_outputs) CGenruleOutputs = Some [[$"a/x.c"; $"//a:g"]; [$"a/y.c"; $"//a:f"]].
Proof. vm_compute. auto. Qed.
