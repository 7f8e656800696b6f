(** Proofs for C75: runs in file systems that differ in layout. *)
From Coq Require Import Lia NArith.
From Verif Require Import Base OMap M_Types M_Scanner M_Ast M_Parser M_Query M_Workspace M_Project M_DepGraph M_Headers M_Includes M_Dwyu M_Edits M_Table M_CompDb M_Highlight M_Walk M_Commands M_Main M_System
  S_Layout S_Relaid S_Attributes P_LayoutParse P_Attributes P_LayoutRules P_LayoutRun P_LayoutDwyu.

Lemma some_inv {A} (x y : A) : Some x = Some y -> x = y.
Proof. congruence. Qed.
Section Same.
Variable same : str -> str -> Prop.
Hypothesis SAME : forall c c', same c c' -> orel parsed_alike (parse c) (parse c').
Section Run.
Variable fuel : nat.
Variable fs : file_system.
Variable content' : str -> option str.
Let fs' := with_content fs content'.
Hypothesis RC : content' ($".bazelrc") = fs_content fs ($".bazelrc").

Lemma command_changed may fl cmd pt : changed same may (fs_content fs) content' -> shows_places fl cmd = false -> cmd <> CDwyu ->
  run_command (is_dir fs') (fs_can_read fs') (fs_glob fs') (fs_content fs') (globbed_files fuel fs') (found_build_files fuel fs') (flags_output fs') fl cmd pt =
  run_command (is_dir fs) (fs_can_read fs) (fs_glob fs) (fs_content fs) (globbed_files fuel fs) (found_build_files fuel fs) (flags_output fs) fl cmd pt.
Proof.
  intros R SP ND. symmetry. unfold run_command. apply (bind_rel (states_alike may)); [apply (prepare_alike may _ _ same SAME); exact R|].
  intros [[[w pr] g]|] [[[w' pr'] g']|] A; try contradiction A; [|reflexivity]. destruct A as (<- & P & <-). apply (perform_alike may); auto.
  intros w0 p0 p0' pt0 b A. unfold flags_output. cbn [fs_content fs_cwd with_content fs']. rewrite RC. apply (write_flags_alike may), A.
Qed.
Theorem run_changed may fl args : changed same may (fs_content fs) content' -> (forall cmd, commanded args cmd -> shows_places fl cmd = false /\ cmd <> CDwyu) ->
  run_in fuel fs' fl args = run_in fuel fs fl args.
Proof.
  intros R C. unfold run_in, run_cli. destruct args as [|word args]; [reflexivity|]. destruct (find_command command_names word) as [cmd| |] eqn:F; try reflexivity.
  assert (D : shows_places fl cmd = false /\ cmd <> CDwyu) by (apply C; exists word, args; auto). destruct D as [SP ND].
  destruct args as [|arg more]; [destruct (needs_pattern cmd && _); [reflexivity|]; f_equal; eapply command_changed; eauto|].
  destruct (parse_pattern arg) as [pt| |]; try reflexivity. destruct (is_nil more); [|reflexivity]. destruct (needs_pattern cmd && _); [reflexivity|]. f_equal. eapply command_changed; eauto.
Qed.
Definition includes_of (c : str) : list str := map snd (extract_cc_includes c).
Lemma dwyu_changed may fl pt : changed same may (fs_content fs) content' -> (forall f, option_map includes_of (fs_content fs f) = option_map includes_of (content' f)) ->
  (fl_ignore_keep fl = true \/ forall c, may c -> contains ($"keep") c = false) ->
  agree (run_command (is_dir fs) (fs_can_read fs) (fs_glob fs) (fs_content fs) (globbed_files fuel fs) (found_build_files fuel fs) (flags_output fs) fl CDwyu pt)
    (run_command (is_dir fs') (fs_can_read fs') (fs_glob fs') (fs_content fs') (globbed_files fuel fs') (found_build_files fuel fs') (flags_output fs') fl CDwyu pt).
Proof.
  intros R INC K. unfold run_command. apply (agree_orel (states_alike may)); [apply (prepare_alike may _ _ same SAME); exact R|].
  intros [[[w pr] g]|] [[[w' pr'] g']|] A; try contradiction A; [|apply agree_same]. destruct A as (<- & P & <-). cbn [perform].
  apply agree_bind; [|intros [evs n]; apply agree_same]. apply (dwyu_alike may); auto.
Qed.
Theorem run_dwyu_changed may fl args out out' : changed same may (fs_content fs) content' -> (forall f, option_map includes_of (fs_content fs f) = option_map includes_of (content' f)) ->
  (fl_ignore_keep fl = true \/ forall c, may c -> contains ($"keep") c = false) -> commanded args CDwyu ->
  run_in fuel fs fl args = Some (Ret out) -> run_in fuel fs' fl args = Some (Ret out') -> out = out'.
Proof.
  intros R INC K (word & rest & -> & F). unfold run_in, run_cli. rewrite F.
  assert (D : forall pt, agree (if needs_pattern CDwyu && is_matchall pt then Ret ([], ExitFailure) else
      run_command (is_dir fs) (fs_can_read fs) (fs_glob fs) (fs_content fs) (globbed_files fuel fs) (found_build_files fuel fs) (flags_output fs) fl CDwyu pt)
    (if needs_pattern CDwyu && is_matchall pt then Ret ([], ExitFailure) else
      run_command (is_dir fs') (fs_can_read fs') (fs_glob fs') (fs_content fs') (globbed_files fuel fs') (found_build_files fuel fs') (flags_output fs') fl CDwyu pt)).
  { intros pt. destruct (needs_pattern CDwyu && is_matchall pt); [apply agree_same|apply (dwyu_changed may); assumption]. }
  destruct rest as [|arg more].
  - intros E E'. exact (D pattern_always out out' (some_inv _ _ E) (some_inv _ _ E')).
  - destruct (parse_pattern arg) as [pt| |]; [|intros E E'; congruence|discriminate]. destruct (is_nil more); [|intros E E'; congruence].
    intros E E'. exact (D pt out out' (some_inv _ _ E) (some_inv _ _ E')).
Qed.
End Run.
(** The same for the whole program. *)
Theorem program_changed fuel change_dir open_output seen content' is_terminal compile args may :
  (forall dirs, changed same may (fs_content (seen dirs)) (content' dirs)) -> (forall dirs, content' dirs ($".bazelrc") = fs_content (seen dirs) ($".bazelrc")) ->
  (forall st pos cmd, read_command_line change_dir open_output args = Ret (Continue st, pos) -> commanded pos cmd ->
     shows_places (flags_of is_terminal compile st) cmd = false /\ cmd <> CDwyu) ->
  program fuel change_dir open_output (fun dirs => with_content (seen dirs) (content' dirs)) is_terminal compile args =
  program fuel change_dir open_output seen is_terminal compile args.
Proof.
  intros R RC C. unfold program, main. destruct (read_command_line change_dir open_output args) as [[[st|code] pos]| |] eqn:E; try reflexivity.
  pose proof (run_changed fuel (seen (s_dirs st)) (content' (s_dirs st)) (RC _) may (flags_of is_terminal compile st) pos (R _) (fun cmd => C st pos cmd eq_refl)) as H.
  unfold run_in in H. cbn [surroundings_of sur_is_directory sur_can_read sur_glob sur_read_file sur_glob_in sur_collect sur_flags]. cbn zeta. rewrite H. reflexivity.
Qed.
End Same.
Lemma reformatted_alike c c' : reformatted c c' -> orel parsed_alike (parse c) (parse c').
Proof. intros R. destruct (parse_again c c' R) as (l & e & l' & e' & -> & -> & A & B). split; [apply bare_statements, A|exact B]. Qed.
Lemma rearranged_alike c c' : rearranged c c' -> orel parsed_alike (parse c) (parse c').
Proof. intros (l & l' & -> & -> & S). split; [exact S|reflexivity]. Qed.
