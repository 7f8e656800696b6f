(** Property C75, continued: what the program prints does not depend on the layout of the files. *)
From Coq Require Import NArith.
From Verif Require Import Base OMap M_Types M_Scanner S_Scanner M_Ast M_Parser M_Query M_Workspace M_Project M_Walk M_Includes M_Table M_Highlight M_Commands M_Main M_System
  S_Layout S_Relaid P_Relaid T_Walk C_Order C_Layout.
Local Open Scope string_scope.
Local Open Scope list_scope.

(** Commands that do not show places print the same, with the same exit status, if layouts are changed in any number of files.  (The
    file .bazelrc is not a BUILD file.) *)
Theorem C75_commands : forall fuel fs content' fl args, relaid (fun _ => True) (fs_content fs) content' ->
  content' ($".bazelrc") = fs_content fs ($".bazelrc") -> (forall cmd, commanded args cmd -> shows_places fl cmd = false /\ cmd <> CDwyu) ->
  run_in fuel (with_content fs content') fl args = run_in fuel fs fl args.
Proof. intros fuel fs content' fl args R RC C. exact (run_changed reformatted reformatted_alike fuel fs content' RC (fun _ => True) fl args R C). Qed.
Print Assumptions C75_commands.
(** dwyu reads comments that say "keep", unless told not to; and the C++ sources have to include the same. *)
Theorem C75_dwyu : forall fuel fs content' fl args out out',
  relaid (fun c => fl_ignore_keep fl = true \/ contains ($"keep") c = false) (fs_content fs) content' ->
  (forall f, option_map (fun c => map snd (extract_cc_includes c)) (fs_content fs f) = option_map (fun c => map snd (extract_cc_includes c)) (content' f)) ->
  commanded args CDwyu -> run_in fuel fs fl args = Some (Ret out) -> run_in fuel (with_content fs content') fl args = Some (Ret out') -> out = out'.
Proof.
  intros fuel fs content' fl args out out' R INC C. apply (run_dwyu_changed reformatted reformatted_alike fuel fs content' _ fl args out out' R INC); [|exact C].
  destruct (fl_ignore_keep fl); [auto|]. right. intros c [H|H]; [discriminate|exact H].
Qed.
Print Assumptions C75_dwyu.
Theorem C75_program : forall fuel change_dir open_output seen content' is_terminal compile args,
  (forall dirs, relaid (fun _ => True) (fs_content (seen dirs)) (content' dirs)) -> (forall dirs, content' dirs ($".bazelrc") = fs_content (seen dirs) ($".bazelrc")) ->
  (forall st pos cmd, read_command_line change_dir open_output args = Ret (Continue st, pos) -> commanded pos cmd ->
     shows_places (flags_of is_terminal compile st) cmd = false /\ cmd <> CDwyu) ->
  program fuel change_dir open_output (fun dirs => with_content (seen dirs) (content' dirs)) is_terminal compile args =
  program fuel change_dir open_output seen is_terminal compile args.
Proof. intros. eapply (program_changed reformatted reformatted_alike); eauto. Qed.
Print Assumptions C75_program.

(** * Cases *)
Definition in_a (c : str) : list (str * str) := [($"MODULE.bazel", []); ($"./a/BUILD", c)].
Definition a_only (c : str) : file_system :=
  some_fs [($".", [mkEntry ($"a") DtDir 11; file ($"MODULE.bazel")]); ($"./a", [file ($"BUILD")])] [] [] (in_a c).
Lemma in_a_relaid (may : str -> Prop) c c' : reformatted c c' -> may c -> may c' -> relaid may (lookup (in_a c)) (lookup (in_a c')).
Proof.
  intros R M M' f. unfold in_a, lookup. cbn [find fst snd option_map]. match goal with |- context [str_eqb ?x ?y] => destruct (str_eqb x y) end; cbn [option_map snd]; [left; reflexivity|]. match goal with |- context [str_eqb ?x ?y] => destruct (str_eqb x y) end; cbn [option_map snd]; [right; auto|exact I].
Qed.
Definition elaborated : flags := mkFlags false false true false 0 FmtCsv NoGrep false.
Example C75_run_case : relaid (fun _ => True) (fs_content (a_only one_line)) (lookup (in_a several_lines)) /\
  (forall cmd, commanded [$"depends-on"; $"//..."] cmd -> shows_places elaborated cmd = false /\ cmd <> CDwyu) /\
  run_in 9 (with_content (a_only one_line) (lookup (in_a several_lines))) elaborated [$"depends-on"; $"//..."] = Some (Ret ($"""library"",""depends-on""" ++ [NL] ++ $"""//a"",""//a:b""" ++ [NL], ExitSuccess)).
Proof.
  split; [apply in_a_relaid; [exact C75_case|exact I|exact I]|]. split.
  - intros cmd (word & rest & E & F). injection E as <- <-. vm_compute in F. injection F as <-. split; [reflexivity|discriminate].
  - vm_compute. reflexivity.
Qed.
(** The comment in [several_lines] is about another rule; one at the dependency counts. *)
Definition unused : list word :=
  [mkWord [] [] ($"cc_library"); mkWord [] [] ($"("); mkWord [] [] ($"name"); mkWord [] [] ($"="); mkWord [] [] ($"""a"""); mkWord [] [] ($","); mkWord [] [NL] ($"deps");
   mkWord [] [] ($"="); mkWord [] [] ($"["); mkWord [] [] ($""":b"""); mkWord [] ($" # " ++ $"keep" ++ [NL]) ($"]"); mkWord [] [] ($")");
   mkWord [] [NL] ($"cc_library"); mkWord [] [] ($"("); mkWord [] [] ($"name"); mkWord [] [] ($"="); mkWord [] [] ($"""b""");
   mkWord [] [] ($","); mkWord [] [] ($"hdrs"); mkWord [] [] ($"="); mkWord [] [] ($"["); mkWord [] [] ($"""b.h"""); mkWord [] [] ($"]"); mkWord [] [] ($")")].
Definition with_edits (fs : file_system) (keep : bool) : option (str * cli_status) :=
  match run_in 9 fs (mkFlags false false false keep 2 FmtCsv NoGrep false) [$"dwyu"; $"//..."] with Some (Ret out) => Some out | _ => None end.
Definition removed : str * cli_status := ($"buildozer 'remove deps :b' //a" ++ [NL], ExitFindings).
Example C75_dwyu_case : reformatted (as_before unused []) (as_after unused []) /\ commanded [$"dwyu"; $"//..."] CDwyu /\
  with_edits (a_only (as_before unused [])) true = Some removed /\ with_edits (a_only (as_after unused [])) true = Some removed /\
  with_edits (a_only (as_before unused [])) false = Some removed /\ with_edits (a_only (as_after unused [])) false = Some ([], ExitSuccess).
Proof.
  split; [|split; [exists ($"dwyu"), [$"//..."]; split; [reflexivity|vm_compute; reflexivity]|vm_compute; repeat split; reflexivity]].
  exists unused, [], []. split; [reflexivity|]. split; [reflexivity|]. split; [vm_compute; reflexivity|]. split.
  - assert (H : forallb (fun t => negb (toktype_beq (tok_type t) TError)) (all_tokens (as_before unused [])) = true) by (vm_compute; reflexivity).
    intros t I E. rewrite forallb_forall in H. specialize (H t I). rewrite E in H. discriminate H.
  - split; [|split; apply gap_nil]. split.
    + unfold unused. repeat apply Forall_cons; try apply Forall_nil; split; cbv; a_gap.
    + cbn [unused kept_apart]. repeat split; try (cbn; tauto); try discriminate; cbn; intuition discriminate.
Qed.
