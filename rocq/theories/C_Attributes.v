(** Property C93: the order of attributes does not matter. *)
From Coq Require Import NArith Permutation.
From Verif Require Import Base OMap M_Types M_Scanner S_Scanner M_Ast M_Parser M_Query M_Elab M_Workspace M_Project M_Walk M_Includes M_Table M_Highlight M_Commands M_Main M_System
  S_Layout S_Relaid S_Attributes P_Attributes P_LayoutRun P_Relaid T_Walk C_Order C_Layout C_Relaid.
Local Open Scope string_scope.
Local Open Scope list_scope.

(** If in any number of files rules are written with their attributes in another order (and these files have no errors), commands
    that do not show places print the same, with the same exit status. *)
Theorem C93_commands : forall fuel fs content' fl args, changed rearranged (fun _ => True) (fs_content fs) content' ->
  content' ($".bazelrc") = fs_content fs ($".bazelrc") -> (forall cmd, commanded args cmd -> shows_places fl cmd = false /\ cmd <> CDwyu) ->
  run_in fuel (with_content fs content') fl args = run_in fuel fs fl args.
Proof. intros fuel fs content' fl args R RC C. exact (run_changed rearranged rearranged_alike fuel fs content' RC (fun _ => True) fl args R C). Qed.
Print Assumptions C93_commands.
(** So does dwyu, if there are no comments that say "keep", or they are to be ignored. *)
Theorem C93_dwyu : forall fuel fs content' fl args out out',
  changed rearranged (fun c => fl_ignore_keep fl = true \/ contains ($"keep") c = false) (fs_content fs) content' ->
  (forall f, option_map (fun c => map snd (extract_cc_includes c)) (fs_content fs f) = option_map (fun c => map snd (extract_cc_includes c)) (content' f)) ->
  commanded args CDwyu -> run_in fuel fs fl args = Some (Ret out) -> run_in fuel (with_content fs content') fl args = Some (Ret out') -> out = out'.
Proof.
  intros fuel fs content' fl args out out' R INC C. apply (run_dwyu_changed rearranged rearranged_alike fuel fs content' _ fl args out out' R INC); [|exact C].
  destruct (fl_ignore_keep fl); [auto|]. right. intros c [H|H]; [discriminate|exact H].
Qed.
Print Assumptions C93_dwyu.
Theorem C93_program : forall fuel change_dir open_output seen content' is_terminal compile args,
  (forall dirs, changed rearranged (fun _ => True) (fs_content (seen dirs)) (content' dirs)) -> (forall dirs, content' dirs ($".bazelrc") = fs_content (seen dirs) ($".bazelrc")) ->
  (forall st pos cmd, read_command_line change_dir open_output args = Ret (Continue st, pos) -> commanded pos cmd ->
     shows_places (flags_of is_terminal compile st) cmd = false /\ cmd <> CDwyu) ->
  program fuel change_dir open_output (fun dirs => with_content (seen dirs) (content' dirs)) is_terminal compile args =
  program fuel change_dir open_output seen is_terminal compile args.
Proof. intros. eapply (program_changed rearranged rearranged_alike); eauto. Qed.
Print Assumptions C93_program.

(** * Cases *)
Definition NLS : str := [NL].
Definition name_first : str := $"cc_library(name = 'x', visibility = ['//visibility:public'], deps = [':y'])" ++ NLS ++ $"cc_library(name = 'y', hdrs = ['y.h'])" ++ NLS.
Definition name_last : str := $"cc_library(" ++ NLS ++ $" deps = [':y'], visibility = ['//visibility:public'], name = 'x')" ++ NLS ++ $"cc_library(hdrs = ['y.h'], name = 'y')" ++ NLS.
Example C93_texts : rearranged name_first name_last.
Proof.
  do 2 eexists. split; [vm_compute; reflexivity|]. split; [vm_compute; reflexivity|].
  constructor; [|constructor; [|constructor]]; right; do 4 eexists; (split; [cbn; reflexivity|]); (split; [cbn; reflexivity|]); split.
  - exists [$"name"; $"visibility"; $"deps"]. split; [reflexivity|]. repeat constructor; cbn; intuition discriminate.
  - eapply perm_trans; [apply perm_swap|]. eapply perm_trans; [apply perm_skip, perm_swap|]. apply perm_swap.
  - exists [$"name"; $"hdrs"]. split; [reflexivity|]. repeat constructor; cbn; intuition discriminate.
  - apply perm_swap.
Qed.
Definition the_rows : str := $"""library"",""depends-on""" ++ NLS ++ $"""//a:x"",""//a:y""" ++ NLS.
Lemma in_a_changed (may : str -> Prop) c c' : rearranged c c' -> may c -> may c' -> changed rearranged may (lookup (in_a c)) (lookup (in_a c')).
Proof.
  intros R M M' f. unfold in_a, lookup. cbn [find fst snd option_map]. match goal with |- context [str_eqb ?x ?y] => destruct (str_eqb x y) end; cbn [option_map snd]; [left; reflexivity|]. match goal with |- context [str_eqb ?x ?y] => destruct (str_eqb x y) end; cbn [option_map snd]; [right; auto|exact I].
Qed.
Example C93_case : changed rearranged (fun _ => True) (fs_content (a_only name_first)) (lookup (in_a name_last)) /\
  (forall cmd, commanded [$"depends-on"; $"//..."] cmd -> shows_places elaborated cmd = false /\ cmd <> CDwyu) /\
  run_in 9 (with_content (a_only name_first) (lookup (in_a name_last))) elaborated [$"depends-on"; $"//..."] = Some (Ret (the_rows, ExitSuccess)).
Proof.
  split; [apply in_a_changed; [exact C93_texts|exact I|exact I]|]. split.
  - intros cmd (word & rest & E & F). injection E as <- <-. vm_compute in F. injection F as <-. split; [reflexivity|discriminate].
  - vm_compute. reflexivity.
Qed.
Definition y_removed : str * cli_status := ($"buildozer 'remove deps :y' //a:x" ++ NLS, ExitFindings).
Example C93_dwyu_case : changed rearranged (fun c => false = true \/ contains ($"keep") c = false) (fs_content (a_only name_first)) (lookup (in_a name_last)) /\
  with_edits (a_only name_first) false = Some y_removed /\ with_edits (with_content (a_only name_first) (lookup (in_a name_last))) false = Some y_removed.
Proof. split; [apply in_a_changed; [exact C93_texts|right; reflexivity|right; reflexivity]|]. vm_compute. split; reflexivity. Qed.
(** If an attribute is given twice, the order does matter: the last one counts. *)
Definition twice (a b : str) : str := $"cc_library(name = 'x', deps = [':" ++ a ++ $"'], deps = [':" ++ b ++ $"'])" ++ NLS ++ $"cc_library(name = 'y')" ++ NLS ++ $"cc_library(name = 'z')".
Example C93_twice_refuted : run_in 9 (a_only (twice ($"y") ($"z"))) elaborated [$"depends-on"; $"//..."] <> run_in 9 (a_only (twice ($"z") ($"y"))) elaborated [$"depends-on"; $"//..."].
Proof. vm_compute. discriminate. Qed.
