(** Property C91: which files the program reads. *)
From Coq Require Import NArith.
From Verif Require Import Base OMap M_Types M_Ast M_Workspace M_Project M_Walk M_Includes M_Table M_Highlight M_Commands M_Main M_System
  S_Relaid S_Reads P_Reads P_Beside T_Walk C_Order C_Layout C_Relaid.
Local Open Scope string_scope.
Local Open Scope list_scope.

(** Other files than those of the workspace and the BUILD files can be changed, added or taken away: what is printed and the exit status
    are the same. *)
Theorem C91_commands : forall fuel fs content' fl args, same_rules (fs_content fs) content' ->
  (forall cmd, commanded args cmd -> cmd <> CDwyu /\ shows_flags cmd = false) ->
  run_in fuel (with_content fs content') fl args = run_in fuel fs fl args.
Proof.
  intros fuel fs content' fl args S C. apply run_reads; [exact S|]. intros cmd H. destruct (C cmd H) as [D F]. rewrite F. split; [discriminate|contradiction].
Qed.
Print Assumptions C91_commands.
(** compilation-db and compile-flags also read .bazelrc. *)
Theorem C91_flags : forall fuel fs content' fl args, same_rules (fs_content fs) content' -> content' ($".bazelrc") = fs_content fs ($".bazelrc") ->
  (forall cmd, commanded args cmd -> cmd <> CDwyu) -> run_in fuel (with_content fs content') fl args = run_in fuel fs fl args.
Proof. intros fuel fs content' fl args S RC C. apply run_reads; [exact S|]. intros cmd H. split; [auto|]. intros E. destruct (C cmd H E). Qed.
Print Assumptions C91_flags.
(** dwyu also reads other files, but of them only what they include. *)
Theorem C91_dwyu : forall fuel fs content' fl args, same_rules (fs_content fs) content' -> same_includes (fs_content fs) content' ->
  commanded args CDwyu -> run_in fuel (with_content fs content') fl args = run_in fuel fs fl args.
Proof.
  intros fuel fs content' fl args S INC C. apply run_reads; [exact S|]. intros cmd (word & rest & E & F). destruct C as (word' & rest' & E' & F').
  rewrite E in E'. injection E' as <- <-. rewrite F in F'. injection F' as ->. split; [discriminate|auto].
Qed.
Print Assumptions C91_dwyu.
Theorem C91_program : forall fuel change_dir open_output seen content' is_terminal compile args,
  (forall dirs, same_rules (fs_content (seen dirs)) (content' dirs)) ->
  (forall st pos cmd, read_command_line change_dir open_output args = Ret (Continue st, pos) -> commanded pos cmd ->
     (shows_flags cmd = true -> content' (s_dirs st) ($".bazelrc") = fs_content (seen (s_dirs st)) ($".bazelrc")) /\
     (cmd = CDwyu -> same_includes (fs_content (seen (s_dirs st))) (content' (s_dirs st)))) ->
  program fuel change_dir open_output (fun dirs => with_content (seen dirs) (content' dirs)) is_terminal compile args =
  program fuel change_dir open_output seen is_terminal compile args.
Proof. exact program_reads. Qed.
Print Assumptions C91_program.

(** Nor do other entries of directories matter, if no BUILD file uses glob(). *)
Theorem C91_new_files : forall fuel fs fs' fl args, differs_in_others fs fs' -> no_glob fs ->
  (forall cmd, commanded args cmd -> cmd <> CDwyu /\ (shows_flags cmd = true -> fs_content fs' ($".bazelrc") = fs_content fs ($".bazelrc"))) ->
  run_in fuel fs' fl args = run_in fuel fs fl args.
Proof.
  intros fuel fs fs' fl args D N C. apply run_beside; auto. intros cmd H. destruct (C cmd H) as [X Y]. split; [exact Y|]. intros E. contradiction.
Qed.
Print Assumptions C91_new_files.

(** * Cases *)
Definition lib_files (cc rc : str) : list (str * str) :=
  [($"MODULE.bazel", []); ($"./a/BUILD", $"cc_library(name=""a"", srcs=[""a.cc""], deps=["":b""])" ++ [NL] ++ $"cc_library(name=""b"", hdrs=[""b.h""])");
   ($"a/a.cc", cc); ($"a/b.h", []); ($".bazelrc", rc)].
Definition lib_fs (cc rc : str) : file_system :=
  some_fs [($".", [mkEntry ($"a") DtDir 11; file ($"MODULE.bazel")]); ($"./a", [file ($"BUILD"); file ($"a.cc"); file ($"b.h")])] [] [] (lib_files cc rc).
Definition uses_b : str := $"#include ""a/b.h""" ++ [NL].
Definition uses_b_too : str := $"// see b" ++ [NL] ++ $"#include ""a/b.h""" ++ [NL] ++ $"int x;".
Definition edits (fs : file_system) : option (outcome (str * cli_status)) := run_in 9 fs (mkFlags false false false false 2 FmtCsv NoGrep false) [$"dwyu"; $"//..."].
Definition deps_of (fs : file_system) : option (outcome (str * cli_status)) := run_in 9 fs (mkFlags false false true false 0 FmtCsv NoGrep false) [$"depends-on"; $"//..."].
Lemma lib_rules cc rc cc' rc' : same_rules (fs_content (lib_fs cc rc)) (lookup (lib_files cc' rc')).
Proof.
  intros f H. cbn [fs_content lib_fs some_fs]. unfold lookup, lib_files. cbn [find fst snd].
  destruct (str_eqb ($"MODULE.bazel") f); [reflexivity|]. destruct (str_eqb ($"./a/BUILD") f); [reflexivity|].
  assert (N : f <> $"a/a.cc" /\ f <> $".bazelrc").
  { destruct H as [[->|[->|[->| ->]]]|(d & [->| ->])]; (split; [|]); try (vm_compute; discriminate); intros E;
      apply (f_equal (@rev ascii)) in E; rewrite rev_app_distr in E; vm_compute in E; discriminate E. }
  destruct N as [N1 N2]. destruct (str_eqb_spec ($"a/a.cc") f) as [E|_]; [congruence|]. destruct (str_eqb ($"a/b.h") f); [reflexivity|].
  destruct (str_eqb_spec ($".bazelrc") f) as [E|_]; [congruence|]. reflexivity.
Qed.
(** With other sources and flags, depends-on prints the same; dwyu does as long as the sources include the same, and not otherwise. *)
Example C91_case :
  same_rules (fs_content (lib_fs uses_b [])) (lookup (lib_files ($"int y;") ($"build --cxxopt=-O2"))) /\
  deps_of (lib_fs uses_b []) = Some (Ret ($"""library"",""depends-on""" ++ [NL] ++ $"""//a"",""//a:b""" ++ [NL], ExitSuccess)) /\
  same_includes (fs_content (lib_fs uses_b [])) (lookup (lib_files uses_b_too [])) /\ uses_b <> uses_b_too /\
  edits (lib_fs uses_b []) = Some (Ret ([], ExitSuccess)) /\
  edits (lib_fs ($"int y;") []) = Some (Ret ($"buildozer 'remove deps :b' //a" ++ [NL], ExitFindings)).
Proof.
  split; [apply lib_rules|]. split; [vm_compute; reflexivity|]. split; [|split; [vm_compute; discriminate|split; vm_compute; reflexivity]].
  intros f. cbn [fs_content lib_fs some_fs]. unfold lookup, lib_files. cbn [find fst snd].
  destruct (str_eqb ($"MODULE.bazel") f); [reflexivity|]. destruct (str_eqb ($"./a/BUILD") f); [reflexivity|].
  destruct (str_eqb ($"a/a.cc") f); [vm_compute; reflexivity|]. destruct (str_eqb ($"a/b.h") f); [reflexivity|]. destruct (str_eqb ($".bazelrc") f); reflexivity.
Qed.
(** A file more. *)
Definition more_fs (build : str) : file_system :=
  some_fs [($".", [mkEntry ($"a") DtDir 11; file ($"MODULE.bazel")]); ($"./a", [file ($"c.h"); file ($"BUILD")]); ($"a/.", [file ($"c.h"); file ($"BUILD")])] [] [] [($"MODULE.bazel", []); ($"./a/BUILD", build); ($"a/c.h", $"glob")].
Definition less_fs (build : str) : file_system :=
  some_fs [($".", [mkEntry ($"a") DtDir 11; file ($"MODULE.bazel")]); ($"./a", [file ($"BUILD")]); ($"a/.", [file ($"BUILD")])] [] [] [($"MODULE.bazel", []); ($"./a/BUILD", build)].
Definition headers_of (fs : file_system) : option (outcome (str * cli_status)) := run_in 9 fs (mkFlags false false true false 0 FmtCsv NoGrep false) [$"lib-headers"; $"//..."].
Definition listed_b : str := $"cc_library(name=""b"", hdrs=[""b.h""])".
Definition globbed_b : str := $"cc_library(name=""b"", hdrs=glob([""*.h""]))".
Lemma not_slash f (c : Prop) : build_named f -> f <> $"MODULE.bazel" /\ (f = $"a/c.h" -> c).
Proof.
  intros (d & [->| ->]); split; intros E; exfalso; apply (f_equal (@rev ascii)) in E; rewrite rev_app_distr in E; vm_compute in E; discriminate E.
Qed.
Lemma one_more build : differs_in_others (less_fs build) (more_fs build).
Proof.
  constructor.
  - intros d. unfold other_entries. cbn [fs_list less_fs more_fs some_fs]. unfold lookup. cbn [find fst snd]. destruct (str_eqb ($".") d); [vm_compute; reflexivity|].
    destruct (str_eqb ($"./a") d); [vm_compute; reflexivity|]. destruct (str_eqb ($"a/.") d); [vm_compute; reflexivity|reflexivity].
  - reflexivity.
  - reflexivity.
  - intros p [H|H]; [destruct H; reflexivity|]. cbn [fs_can_read less_fs more_fs some_fs]. unfold lookup. cbn [find fst snd].
    destruct (str_eqb ($"MODULE.bazel") p); [reflexivity|]. destruct (str_eqb ($"./a/BUILD") p); [reflexivity|].
    destruct (str_eqb_spec ($"a/c.h") p) as [E|_]; [|reflexivity]. exact (proj2 (not_slash p _ H) (eq_sym E)).
  - reflexivity.
  - intros f H. cbn [fs_content less_fs more_fs some_fs]. unfold lookup. cbn [find fst snd].
    destruct (str_eqb ($"MODULE.bazel") f); [reflexivity|]. destruct (str_eqb ($"./a/BUILD") f); [reflexivity|].
    destruct (str_eqb_spec ($"a/c.h") f) as [E|_]; [|reflexivity]. destruct H as [H|H]; [|exact (proj2 (not_slash f _ H) (eq_sym E))].
    subst f. destruct H as [H|[H|[H|H]]]; vm_compute in H; discriminate H.
  - reflexivity.
Qed.
(** A file more that no BUILD file names: nothing changes, unless glob() is used. *)
Example C91_new_files_case : differs_in_others (less_fs listed_b) (more_fs listed_b) /\ no_glob (less_fs listed_b) /\
  (forall cmd, commanded [$"lib-headers"; $"//..."] cmd -> cmd <> CDwyu /\ (shows_flags cmd = true -> fs_content (more_fs listed_b) ($".bazelrc") = fs_content (less_fs listed_b) ($".bazelrc"))) /\
  headers_of (more_fs listed_b) = Some (Ret ($"""header"",""providing-rule""" ++ [NL] ++ $"""a/b.h"",""//a:b""" ++ [NL], ExitSuccess)).
Proof.
  split; [apply one_more|]. split; [|split].
  - intros f c _ R X. apply contains_iff in X. apply lookup_in in R. destruct R as [R|[R|[]]]; injection R as <- <-; vm_compute in X; discriminate X.
  - intros cmd (word & rest & E & F). injection E as <- <-. vm_compute in F. injection F as <-. split; discriminate.
  - vm_compute. reflexivity.
Qed.
Theorem C91_glob_refuted : exists fs fs', differs_in_others fs fs' /\ headers_of fs <> headers_of fs'.
Proof. exists (less_fs globbed_b), (more_fs globbed_b). split; [apply one_more|]. vm_compute. discriminate. Qed.
Print Assumptions C91_glob_refuted.
